(** Every memory of a type has a view, and only one. *)
From Coq Require Import Permutation Sorted.
From Verif Require Import Bytes Utf8Model ParseModel StringModel IntModel TokenModel EncModel DecModel SpecJson SpecString SpecTokens
  SpecRender SpecColor SpecEnc SpecNum SpecDec SpecTrip SpecRaw ParseFacts Utf8Facts StringFacts IntFacts TokenFacts EncFacts RawFacts EncMain TextFacts ColorFacts DocFacts
  RawText Unambig NumFacts DecLoops DecFacts PropsString TripFacts PropsDec
  TypeModel SpecType SpecFit SpecField NodeFacts TypeLoops TypeFacts TypeMain TypeSound TypeSafe ViewModel SpecSame ViewFacts TripClean TripType.

Section Total.
Context (V : tenv) (W : menv) (ET : env_typed V) (NM : env_names V).
Notation view := (view V W).
Notation fits := (fits V).

Fixpoint msize (m : mem) : nat :=
  match m with
  | MList l => S (fold_right (fun x n => msize x + n) 0 l)
  | MSlice (Some (_, l)) => S (fold_right (fun x n => msize x + n) 0 l)
  | MMap (Some l) => S (fold_right (fun kv n => msize (snd kv) + n) 0 l)
  | MPtr (Some x) => S (msize x)
  | _ => 1
  end%nat.
Lemma fold_ge {A} (f : A -> nat) l x : In x l -> (f x <= fold_right (fun x n => f x + n) 0 l)%nat.
Proof. induction l as [|y l IH]; intros []; cbn [fold_right]; [subst; lia|specialize (IH H); lia]. Qed.
Lemma get_size p : forall m x, get p m = Some x -> (msize x <= msize m)%nat /\ (p <> [] -> (msize x < msize m)%nat).
Proof.
  induction p as [|a p IH]; intros m x G.
  - destruct m; cbn [get] in G; injection G as <-; split; try lia; congruence.
  - destruct a, m; cbn [get] in G; try discriminate; destruct (nth_error l i) as [y|] eqn:N; try discriminate; apply nth_error_In in N; apply (fold_ge msize) in N; cbn [msize].
    + destruct (IH _ _ G). split; [|intros _]; lia.
    + destruct y; try discriminate. destruct p0 as [y|]; [|discriminate]. destruct (IH _ _ G). cbn [msize] in N. split; [|intros _]; lia.
Qed.
Lemma opt_list_all {A B} (f : A -> option B) l : (forall a, In a l -> exists b, f a = Some b) -> exists xs, opt_list (map f l) = Some xs.
Proof.
  induction l as [|a l IH]; intros H; cbn [map opt_list]; [eauto|]. destruct (H a (or_introl eq_refl)) as (b & ->).
  destruct IH as (xs & ->); [intros x X; apply H; right; exact X|eauto].
Qed.
Lemma view_path_total p t u gf m : leads V t p u -> fits t m -> (forall x, get p m = Some x -> fits u x -> exists g, gf x = Some g) -> exists v, view_path p gf m = Some v.
Proof.
  intros L. revert m. induction L as [t|i k u p t N L IH|i k j un p t N L IH]; intros m FM H; cbn [view_path].
  - apply (H m); [destruct m; reflexivity|exact FM].
  - inversion FM as [| | | | | | | | | | | | | | | | | | | |? l FL| | |]; subst. destruct (nth_fit V _ _ _ _ FL N) as (x & NX & FX). rewrite NX. apply IH; [exact FX|]. intros y G. apply H. cbn [get]. rewrite NX. exact G.
  - inversion FM as [| | | | | | | | | | | | | | | | | | | |? l FL| | |]; subst. destruct (nth_fit V _ _ _ _ FL N) as (x & NX & FX). rewrite NX.
    inversion FX; subst; [eexists; reflexivity|]. destruct (IH x0) as (v & ->); [assumption| |eexists; reflexivity]. intros y G. apply H. cbn [get]. rewrite NX. exact G.
Qed.
Lemma in_firstn {A} n (l : list A) x : In x (firstn n l) -> In x l.
Proof. intros H. rewrite <- (firstn_skipn n l). apply in_or_app. left. exact H. Qed.
Theorem view_total n : forall t m, fits t m -> (msize m <= n)%nat -> exists g, view n t m = Some g.
Proof.
  induction n as [n IHn] using lt_wf_ind. induction t; intros m0 FM L; rewrite view_eq; inversion FM; subst; eauto.
  - edestruct (opt_list_all (view n t) l) as (xs & ->); [|cbn; eauto]. intros a A. apply IHt.
    + match goal with H : Forall _ l |- _ => rewrite Forall_forall in H; apply H, A end.
    + apply (fold_ge msize) in A. cbn [msize] in L. lia.
  - edestruct (opt_list_all (view n t) (firstn len d)) as (xs & ->); [|cbn; eauto]. intros a A. apply in_firstn in A. apply IHt.
    + match goal with H : Forall _ d |- _ => rewrite Forall_forall in H; apply H, A end.
    + apply (fold_ge msize) in A. cbn [msize] in L. lia.
  - match goal with |- context [opt_list (map ?f _)] => edestruct (opt_list_all f m) as (xs & ->) end; [|cbn; eauto]. intros [a x] A. cbn [fst snd].
    match goal with H : Forall _ m |- _ => rewrite Forall_forall in H; destruct (H _ A) as [KF FX] end. cbn [fst snd] in *.
    destruct (IHt x FX) as (g & ->). { apply (fold_ge (fun kv => msize (snd kv))) in A. cbn [msize snd] in *. lia. }
    destruct k, a; cbn [key_fits] in KF; try contradiction; cbn [view_key]; eauto.
  - destruct m as [l|]; [|eauto]. match goal with |- context [opt_list (map ?f _)] => edestruct (opt_list_all f l) as (xs & ->) end; [|cbn; eauto]. intros [a x] A.
    match goal with H : fits (YMap _ _) _ |- _ => inversion H; subst end. match goal with H : Forall _ l |- _ => rewrite Forall_forall in H; destruct (H _ A) as [KF FX] end. cbn [fst snd] in *.
    destruct a; cbn [key_fits] in KF; try contradiction. inversion FX; subst. eauto.
  - destruct m as [l|]; [|eauto]. match goal with |- context [opt_list (map ?f _)] => edestruct (opt_list_all f l) as (xs & ->) end; [|cbn; eauto]. intros [a x] A.
    match goal with H : fits (YMap _ _) _ |- _ => inversion H; subst end. match goal with H : Forall _ l |- _ => rewrite Forall_forall in H; destruct (H _ A) as [KF FX] end. cbn [fst snd] in *.
    destruct a; cbn [key_fits] in KF; try contradiction. inversion FX; subst. eauto.
  - cbn [msize] in L. destruct (IHt x) as (g & ->); [assumption|lia|cbn; eauto].
  - destruct n as [|n']; [cbn [msize] in L; lia|].
    match goal with |- context [opt_list (map ?f _)] => edestruct (opt_list_all f (v_flds V i)) as (xs & ->) end; [|cbn; eauto]. intros f IN.
    edestruct (view_path_total (jf_path f) (YStruct i) (jf_ty f)) as (v & ->); [apply (et_path V ET i f IN)|exact FM| |cbn; eauto].
    intros x G FX. cbv beta. destruct (IHn n' ltac:(lia) (jf_ty f) x FX) as (g & ->); [|cbn; eauto].
    destruct (get_size _ _ _ G) as [_ SZ]. specialize (SZ (en_inside V NM i f IN)). cbn [msize] in *. lia.
Qed.

(** More fuel does not change the view. *)
Lemma opt_list_mono {A B} (f f' : A -> option B) l xs : (forall a b, f a = Some b -> f' a = Some b) -> opt_list (map f l) = Some xs -> opt_list (map f' l) = Some xs.
Proof. intros H E. apply opt_list_some in E. apply opt_list_some. eapply Forall2_imp; [|exact E]. auto. Qed.
Lemma view_path_mono p gf gf' : (forall x g, gf x = Some g -> gf' x = Some g) -> forall m v, view_path p gf m = Some v -> view_path p gf' m = Some v.
Proof.
  intros H. induction p as [|a p IH]; intros m v E; cbn [view_path] in *; [auto|]. destruct a, m; try discriminate; destruct (nth_error l i) as [x|]; try discriminate; [auto|].
  destruct x; try discriminate. destruct p0 as [x|]; [|exact E]. destruct (view_path p gf x) as [w|] eqn:EW; [|discriminate]. rewrite (IH _ _ EW). exact E.
Qed.
Lemma option_map_mono {A B} (f : A -> B) (o o' : option A) b : (forall a, o = Some a -> o' = Some a) -> option_map f o = Some b -> option_map f o' = Some b.
Proof. intros H. destruct o as [a|]; [rewrite (H a eq_refl); auto|discriminate]. Qed.
Lemma view_mono n : forall t m g, view n t m = Some g -> view (S n) t m = Some g.
Proof.
  induction n as [n IHn] using lt_wf_ind. induction t; intros m g E; rewrite view_eq in E |- *; destruct m; try discriminate; try exact E.
  - revert E. apply option_map_mono. intros a. apply opt_list_mono. exact IHt.
  - destruct s as [[len d]|]; [|exact E]. revert E. apply option_map_mono. intros a. apply opt_list_mono. exact IHt.
  - destruct m as [l|]; [|exact E]. revert E. apply option_map_mono. intros a. apply opt_list_mono. intros kv b. destruct (view_key W k (fst kv)); [|discriminate].
    destruct (view n t (snd kv)) as [x|] eqn:EX; [|discriminate]. rewrite (IHt _ _ EX). auto.
  - destruct p as [x|]; [|exact E]. revert E. apply option_map_mono. intros a. apply IHt.
  - destruct n as [|n']; [discriminate|]. revert E. apply option_map_mono. intros a. apply opt_list_mono. intros f b. apply option_map_mono. intros v. apply view_path_mono.
    intros x y. apply option_map_mono. intros z. apply IHn. lia.
Qed.
Theorem view_unique t m n n' g g' : view n t m = Some g -> view n' t m = Some g' -> g = g'.
Proof.
  assert (G : forall k n g, view n t m = Some g -> view (k + n) t m = Some g) by (induction k as [|k IH]; intros; [assumption|apply view_mono, IH; assumption]).
  intros E E'. apply (G n') in E. apply (G n) in E'. rewrite Nat.add_comm in E'. congruence.
Qed.
End Total.

Section Doc.
Context (V : tenv) (W : menv) (F : dflags) (NM : env_names V).
Notation view := (view V W).
Notation trip := (trip V W F).

Lemma float_doc html sorted trust f : finite f -> exists x, vdoc html sorted trust (GFloat f) x.
Proof. intros H. apply (tree_has_doc html sorted trust false (GFloat f) (JVFloat f)). constructor. exact H. Qed.
Lemma raw_doc html sorted trust r : trip YRaw (MRaw r) -> exists x, vdoc html sorted trust (GRaw r) x.
Proof.
  inversion 1; subst; [eexists; constructor|]. eexists. eapply vd_raw. destruct trust; cbn [raw_text]; [apply jvalue_jtext; eassumption|eassumption].
Qed.
Lemma list_doc {A} (R : A -> gval -> Prop) P html sorted trust l gs : Forall2 R l gs -> Forall P l -> (forall a g, R a g -> P a -> exists x, vdoc html sorted trust g x) ->
  exists xs, Forall2 (vdoc html sorted trust) gs xs.
Proof.
  intros H FP HP. apply Forall2_ex. induction H; inversion FP; subst; constructor; eauto.
Qed.
Lemma entries_doc {A G} (R : A -> G -> Prop) P (Q : G -> tkind * bytes * doc -> Prop) l gs gs' : Forall2 R l gs -> Permutation gs gs' -> Forall P l ->
  (forall a g, R a g -> P a -> exists x, Q g x) -> exists xs, Forall2 Q gs' xs.
Proof.
  intros H PM FP HP. apply Forall2_ex. apply (Permutation_Forall PM). clear PM. induction H; inversion FP; subst; constructor; eauto.
Qed.
Lemma Forall2_in_r {A B} (R : A -> B -> Prop) l l' b : Forall2 R l l' -> In b l' -> exists a, In a l /\ R a b.
Proof.
  induction 1 as [|x y l l' H1 H IH]; intros []; [subst; exists x; split; [left; reflexivity|exact H1]|]. destruct (IH H0) as (a & P1 & P2). exists a. split; [right; exact P1|exact P2].
Qed.
Theorem view_doc html sorted trust n : forall t m g, view n t m = Some g -> trip t m -> exists x, vdoc html sorted trust g x.
Proof.
  induction n as [n IHn] using lt_wf_ind. induction t; intros m0 g0 E T; pose proof E as EE; rewrite view_eq in E; inversion T; subst; try discriminate.
  - injection E as <-. destruct x; eexists; constructor.
  - injection E as <-. eexists; constructor.
  - injection E as <-. apply float_doc. assumption.
  - injection E as <-. eexists. apply vd_number. assumption.
  - injection E as <-. eexists; constructor.
  - injection E as <-. eexists; constructor.
  - injection E as <-. eexists; constructor.
  - injection E as <-. eexists; constructor.
  - injection E as <-. eexists; constructor.
  - injection E as <-. match goal with H : tree_ok _ _ _ |- _ => destruct H as (GT & _) end. destruct (tree_has_doc html sorted trust _ _ _ GT) as (x & X). destruct v; cbn [view_iface]; eexists; constructor; exact X.
  - injection E as <-. eexists; constructor.
  - injection E as <-. match goal with H : tree_ok _ _ _ |- _ => destruct H as (GT & _) end. destruct (tree_has_doc html sorted trust _ _ _ GT) as (x & X). destruct v; cbn [view_iface]; eexists; constructor; exact X.
  - injection E as <-. apply raw_doc. assumption.
  - injection E as <-. apply raw_doc. assumption.
  - destruct (opt_list _) as [gs|] eqn:EL; [|discriminate]. injection E as <-. apply opt_list_some in EL.
    edestruct (list_doc _ (trip t) html sorted trust _ _ EL) as (xs & X); [eassumption|intros a g A B; eapply IHt; eassumption|]. eexists. constructor. exact X.
  - injection E as <-. eexists; constructor.
  - destruct (opt_list _) as [gs|] eqn:EL; [|discriminate]. injection E as <-. apply opt_list_some in EL.
    edestruct (list_doc _ (trip t) html sorted trust _ _ EL) as (xs & X); [eassumption|intros a g A B; eapply IHt; eassumption|]. eexists. constructor. exact X.
  - injection E as <-. eexists; constructor.
  - destruct (opt_list _) as [gs|] eqn:EL; [|discriminate]. injection E as <-. apply opt_list_some in EL.
    edestruct (entries_doc _ (fun kv => key_ok V W k (fst kv) /\ trip t (snd kv)) (fun e x => kdoc html (fst e) (fst (fst x)) (snd (fst x)) /\ vdoc html sorted trust (snd e) (snd x)) _ _ (order sorted (fun e => key_text (fst e)) gs) EL) as (xs & X);
      [apply order_perm|eassumption| |eexists; eapply vd_map; [apply order_in_order|exact X]].
    intros [a y] [ka g] RV [KO TY]. cbn [fst snd] in *. destruct (view_key W k a) as [ka'|] eqn:EK; [|discriminate]. destruct (view n t y) as [g'|] eqn:EY; [|discriminate]. injection RV as -> ->.
    destruct (IHt _ _ EY TY) as (x & VX). destruct k, a; cbn [view_key key_ok] in *; try discriminate.
    + injection EK as <-. eexists (TKey, _, x). split; [constructor|exact VX].
    + injection EK as <-. eexists (TPlain, _, x). split; [constructor|exact VX].
    + destruct KO as (tx & OT & _). rewrite OT in EK. injection EK as <-. eexists (TText, _, x). split; [constructor|exact VX].
  - match goal with H : trip (YMap _ _) _ |- _ => inversion H; subst end; [injection E as <-; eexists; constructor|].
    destruct (opt_list _) as [gs|] eqn:EL; [|discriminate]. injection E as <-. apply opt_list_some in EL.
    edestruct (entries_doc _ (fun kv => key_ok V W KYString (fst kv) /\ trip YIface (snd kv)) (fun e x => fst x = (TKey, json_string html (fst e)) /\ vdoc html sorted trust (snd e) (snd x)) _ _ (order sorted fst gs) EL) as (xs & X);
      [apply order_perm|eassumption| |eexists; eapply vd_mapsi; [apply order_in_order|exact X]].
    intros [a y] [ka g] RV [KO TY]. cbn [fst snd] in *. destruct a; try discriminate. destruct y; try discriminate. injection RV as -> <-. inversion TY; subst.
    match goal with H : tree_ok _ _ _ |- _ => destruct H as (GT & _) end. destruct (tree_has_doc html sorted trust _ _ _ GT) as (x & X). exists (TKey, json_string html ka, x). split; [reflexivity|exact X].
  - match goal with H : trip (YMap _ _) _ |- _ => inversion H; subst end; [injection E as <-; eexists; constructor|].
    destruct (opt_list _) as [gs|] eqn:EL; [|discriminate]. injection E as <-. apply opt_list_some in EL.
    edestruct (entries_doc _ (fun kv => key_ok V W KYString (fst kv) /\ trip YRaw (snd kv)) (fun e x => fst x = (TKey, json_string html (fst e)) /\ vdoc html sorted trust (GRaw (snd e)) (snd x)) _ _ (order sorted fst gs) EL) as (xs & X);
      [apply order_perm|eassumption| |eexists; eapply vd_mapsr; [apply order_in_order|exact X]].
    intros [a y] [ka g] RV [KO TY]. cbn [fst snd] in *. destruct a; try discriminate. destruct y; try discriminate. injection RV as -> ->.
    destruct (raw_doc html sorted trust _ TY) as (x & X). exists (TKey, json_string html ka, x). split; [reflexivity|exact X].
  - injection E as <-. eexists; constructor.
  - destruct (view n t x) as [g|] eqn:EX; [|discriminate]. injection E as <-. edestruct (IHt x) as (y & Y); [eassumption..|]. eexists. constructor. exact Y.
  - clear E. apply view_struct in EE as (n' & fs & -> & -> & FV). destruct fs as [|f0 fs]; [eexists; constructor|]. set (fl := f0 :: fs) in *.
    assert (X : exists xs, Forall2 (fun e x => fst x = (TKey, json_string html (f_name (fst e))) /\ vdoc html sorted trust (snd e) (snd x)) (filter emitted fl) xs).
    { clearbody fl. apply Forall2_ex. apply Forall_forall. intros hv HV. apply filter_In in HV as [HV EM].
      assert (Y : exists f, In f (v_flds V i) /\ field_view V W n' i (MList l) f hv) by (eapply Forall2_in_r; eassumption).
      destruct Y as (f & IN & FVf). destruct (field_cases V W n' i (MList l) f hv FVf) as [EC FC]. pose proof (proj2 (proj1 EC EM)) as GN. destruct (get (jf_path f) (MList l)) as [x|] eqn:G; [|congruence].
      destruct FC as (_ & g & EG & WR). match goal with H : forall f x, In f _ -> _ -> trip _ _ /\ _ |- _ => destruct (H f x IN G) as [TX _] end.
      destruct (IHn n' ltac:(lia) _ _ _ EG TX) as (y & Y).
      assert (Z : exists z, vdoc html sorted trust (view_quot (jf_quot f) g) z) by (destruct (jf_quot f); cbn [view_quot]; eexists; [exact Y|constructor; exact Y|constructor; exact Y]).
      destruct Z as (z & Z). exists (TKey, json_string html (f_name (fst hv)), z). split; [reflexivity|]. apply (wraps_doc html sorted trust _ _ z WR). exact Z. }
    destruct X as (xs & X). eexists. apply vd_struct; [discriminate|exact X].
  - injection E as <-. match goal with H : o_json _ _ _ = _ |- _ => rewrite H end. destruct (raw_doc html sorted trust (Some t)) as (x & X); [econstructor; eassumption|]. eexists. constructor. exact X.
  - injection E as <-. match goal with H : o_text _ _ _ = _ |- _ => rewrite H end. eexists. constructor.
Qed.
End Doc.
