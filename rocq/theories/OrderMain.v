(** Decoding objects in another order: the induction for C64. *)
From Coq Require Import Permutation.
From Verif Require Import Bytes ParseModel IntModel StringModel EncModel DecModel SpecJson SpecString SpecDec DecLoops IntFacts DecFacts
  TypeModel TypeFacts SpecType SpecField SpecSame SpecSpell SpellFacts SpecOrder TypeMain OrderFacts.

Lemma zero_same V t : same_mem (zero V t) (zero V t).
Proof.
  unfold zero. generalize (v_depth V) as n. intros n. revert t. induction n as [|n IHn]; intros t; induction t as [| | | | | | | | | | |k e IHe|e IHe|k e IHe| | |e IHe|i| | |]; cbn [zero_f].
  all: try solve [apply om_leaf; exact I | apply om_iface, ov_leaf; exact I | apply om_slice0 | apply om_map0 | apply om_ptr0].
  all: apply om_list; try constructor.
  - induction k; cbn [repeat]; constructor; assumption.
  - induction k; cbn [repeat]; constructor; assumption.
  - induction (v_decl V i); cbn [map]; constructor; auto.
Qed.
Lemma f2_firstn {A B} (R : A -> B -> Prop) n l l' : Forall2 R l l' -> Forall2 R (firstn n l) (firstn n l').
Proof. intros H. revert n. induction H; intros [|n]; cbn [firstn]; constructor; auto. Qed.
Lemma f2_skipn {A B} (R : A -> B -> Prop) n l l' : Forall2 R l l' -> Forall2 R (skipn n l) (skipn n l').
Proof. intros H. revert n. induction H; intros [|n]; cbn [skipn]; auto; constructor; auto. Qed.
Lemma f2_nth {A B} (R : A -> B -> Prop) l l' : Forall2 R l l' -> forall i x, nth_error l i = Some x -> exists x', nth_error l' i = Some x' /\ R x x'.
Proof. induction 1; intros [|i] z E; cbn in *; try discriminate; [injection E as <-; eauto|eauto]. Qed.
Lemma f2_repeat {A B} (R : A -> B -> Prop) a b n : R a b -> Forall2 R (repeat a n) (repeat b n).
Proof. intros H. induction n; cbn; constructor; auto. Qed.

Section Main.
Context (V : tenv) (F : dflags) (K : kty -> Prop) (KS : K KYString).
Notation shuf := (shuf V F K).

Section Lists.
Context {A : Type} (R : node -> A -> A -> Prop) (S : A -> A -> Prop) (z : A) (n : nat).
Hypothesis SZ0 : S z z.
Hypothesis RA : forall v v' x x' y, (nsize v < n)%nat -> shuf v v' -> S x x' -> R v x y -> exists y', R v' x' y' /\ S y y'.
Definition same_sl (x x' : sl A) : Prop :=
  match x, x' with
  | None, None => True
  | Some (n, l), Some (n', l') => n = n' /\ Forall2 S l l'
  | _, _ => False
  end.
Lemma onto_shuf l l' : Forall2 shuf l l' -> (forall nd, In nd l -> (nsize nd < n)%nat) ->
  forall d d' ys, Forall2 S d d' -> onto R z l d ys -> exists ys', onto R z l' d' ys' /\ Forall2 S ys ys'.
Proof.
  induction 1 as [|v v' l l' E1 E IH]; intros SZ d d' ys SD H; inversion H; subst; [exists []; split; constructor|].
  assert (HD : S (hd z d) (hd z d')) by (destruct SD; cbn; auto).
  assert (TL : Forall2 S (tl d) (tl d')) by (destruct SD; cbn; auto).
  edestruct (RA v v') as (y' & R1 & S1); [apply SZ; now left|exact E1|exact HD|eassumption|].
  edestruct IH as (ys' & R2 & S2); [intros; apply SZ; now right|exact TL|eassumption|].
  exists (y' :: ys'). split; constructor; assumption.
Qed.
Lemma along_shuf l l' : Forall2 shuf l l' -> (forall nd, In nd l -> (nsize nd < n)%nat) ->
  forall d d' ys, Forall2 S d d' -> along R l d ys -> exists ys', along R l' d' ys' /\ Forall2 S ys ys'.
Proof.
  induction 1 as [|v v' l l' E1 E IH]; intros SZ d d' ys SD H; inversion H; subst.
  - exists d'. split; [constructor|assumption].
  - inversion SD; subst. exists []. split; constructor.
  - inversion SD; subst. exists []. split; constructor.
  - inversion SD; subst. edestruct (RA v v') as (y' & R1 & S1); [apply SZ; now left|exact E1|eassumption|eassumption|].
    edestruct IH as (ys' & R2 & S2); [intros; apply SZ; now right|eassumption|eassumption|].
    exists (y' :: ys'). split; constructor; assumption.
Qed.
Lemma slice_shuf v v' x x' y : (nsize v < Datatypes.S n)%nat -> shuf v v' -> same_sl x x' -> slice_rel R z v x y ->
  exists y', slice_rel R z v' x' y' /\ same_sl y y'.
Proof.
  intros SZ E SX H. inversion H as [s0 x0|s l x0 ys c H1 H2]; subst; inversion E; subst; [exists None; split; [constructor|exact I]|].
  match goal with FF : Forall2 shuf _ _ |- _ => rename FF into FA end. clear H.
  assert (SB : Forall2 S (backing x) (backing x')) by (destruct x as [[? ?]|], x' as [[? ?]|]; cbn in *; try tauto; constructor).
  edestruct (onto_shuf _ _ FA) as (ys' & R1 & S1); [|exact SB|exact H1|].
  { intros nd I. apply (nsize_arr s) in I. lia. }
  pose proof (f2_length _ _ _ FA) as EL. pose proof (f2_length _ _ _ SB) as EB.
  exists (Some (length l', ys' ++ skipn (length l') (backing x') ++ repeat z (c - max (length l') (length (backing x'))))). split.
  - constructor; [exact R1|]. now rewrite <- EL, <- EB.
  - cbn [same_sl]. split; [exact EL|]. rewrite <- EL, <- EB. apply Forall2_app; [exact S1|]. apply Forall2_app; [now apply f2_skipn|now apply f2_repeat].
Qed.
Lemma array_shuf v v' x x' y : (nsize v < Datatypes.S n)%nat -> shuf v v' -> Forall2 S x x' -> array_rel R v x y ->
  exists y', array_rel R v' x' y' /\ Forall2 S y y'.
Proof.
  intros SZ E SX H. inversion H as [s0 x0|s l x0 ys H1 H2]; subst; inversion E; subst; [exists x'; split; [constructor|exact SX]|].
  match goal with FF : Forall2 shuf _ _ |- _ => rename FF into FA end.
  edestruct (along_shuf _ _ FA) as (ys' & R1 & S1); [|exact SX|exact H2|].
  { intros nd I. apply (nsize_arr s) in I. lia. }
  exists ys'. split; [|exact S1]. constructor; [|exact R1]. intros ->. inversion FA; subst. specialize (H1 eq_refl). subst. now inversion SX.
Qed.
Definition same_omap {B} (x x' : option (list (B * A))) : Prop :=
  match x, x' with
  | None, None => True
  | Some m, Some m' => same_map S m m'
  | _, _ => False
  end.
Lemma map_shuf k v v' x x' y : K k -> (nsize v < Datatypes.S n)%nat -> shuf v v' -> same_omap x x' ->
  map_rel R z (key_means V k) mkey_eqb v x y -> exists y', map_rel R z (key_means V k) mkey_eqb v' x' y' /\ same_omap y y'.
Proof.
  intros KK SZ E SX H. inversion H as [s0 x0|s l x0 kvs H1]; subst; inversion E; subst; [exists None; split; [constructor|exact I]|].
  match goal with FF : Forall2 _ l1 l' |- _ => rename FF into FA end.
  match goal with FF : l1 = l \/ _ |- _ => rename FF into PM end. clear H E.
  assert (KV : exists kvs1, (kvs1 = kvs \/ (Permutation kvs kvs1 /\ NoDup (map fst kvs))) /\ Forall2 (entry R z (key_means V k)) l1 kvs1).
  { destruct PM as [->|[P FO]]; [exists kvs; auto|].
    destruct (Permutation_Forall2 P H1) as (kvs1 & P1 & FV1). exists kvs1. split; [|exact FV1]. right. split; [exact P1|].
    eapply (distinct_keys V F K k (fun v y => R v z y) l _ KK); [exact H1|exact FO]. }
  destruct KV as (kvs1 & PK & FV1).
  assert (SZl : forall k nd, In (k, nd) l1 -> (nsize nd < n)%nat).
  { intros a nd I. assert (I' : In (a, nd) l) by (destruct PM as [->|[P _]]; [exact I|eapply Permutation_in; [apply Permutation_sym, P|exact I]]).
    apply (nsize_obj s) in I'. lia. }
  enough (G : exists kvs', Forall2 (entry R z (key_means V k)) l' kvs' /\ Forall2 (fun e e' => fst e = fst e' /\ S (snd e) (snd e')) kvs1 kvs').
  { destruct G as (kvs' & G1 & G2). exists (Some (add_all mkey_eqb kvs' (entries x'))). split; [now constructor|]. cbn [same_omap].
    eapply add_order; [exact mkey_eqb_eq'|exact PK|exact G2|]. destruct x, x'; cbn in *; try tauto. apply same_map_nil. }
  clear - RA SZl FA FV1 SZ0. revert kvs1 FV1. induction FA as [|[a v] [a' v'] l1 l' [E1 E2] E IHl]; intros kvs1 FV; inversion FV as [|x y lx ly [I1 I2] FV']; subst.
  - exists []. split; constructor.
  - cbn [fst snd] in *. subst a'. edestruct (RA v v' z z (snd y)) as (y' & I3 & S2); [eapply SZl; now left|exact E2|exact SZ0|exact I2|].
    destruct (IHl (fun k nd I => SZl k nd (or_intror I)) _ FV') as (kvs' & G1 & G2).
    exists ((fst y, y') :: kvs'). split; constructor; auto. split; assumption.
Qed.
End Lists.

Lemma path_shuf (R R' : node -> mem -> mem -> Prop) p v v' :
  (forall x x' y, same_mem x x' -> R v x y -> exists y', R' v' x' y' /\ same_mem y y') ->
  forall x x' y, same_mem x x' -> at_path V R p v x y -> exists y', at_path V R' p v' x' y' /\ same_mem y y'.
Proof.
  intros RR. assert (G : forall x y, at_path V R p v x y -> forall x', same_mem x x' -> exists y', at_path V R' p v' x' y' /\ same_mem y y'); [|eauto].
  intros x y H. induction H as [v x y H|l1 x l2 p v y H IH|l1 x l2 s u p v y H IH|l1 l2 s p v y H IH]; intros x' SX.
  - destruct (RR _ _ _ SX H) as (y' & A & B). exists y'. split; [now constructor|exact B].
  - inversion SX as [m LF| |l l' FE| | | | | |]; subst; [destruct LF|]. apply Forall2_app_inv_l in FE as (l1' & l2' & F1 & F2 & ->). inversion F2 as [|a b c d SA F3]; subst.
    destruct (IH RR _ SA) as (y' & A & B). exists (MList (l1' ++ y' :: d)). split; [|constructor; apply Forall2_app; [assumption|constructor; assumption]].
    rewrite (f2_length _ _ _ F1). now constructor.
  - inversion SX as [m LF| |l l' FE| | | | | |]; subst; [destruct LF|]. apply Forall2_app_inv_l in FE as (l1' & l2' & F1 & F2 & ->). inversion F2 as [|a b c d SA F3]; subst.
    inversion SA as [m LF| | | | | | | |m m' SM]; subst; [destruct LF|].
    destruct (IH RR _ SM) as (y' & A & B). exists (MList (l1' ++ MPtr (Some y') :: d)). split; [|constructor; apply Forall2_app; [assumption|constructor; [constructor|]; assumption]].
    rewrite (f2_length _ _ _ F1). now constructor.
  - inversion SX as [m LF| |l l' FE| | | | | |]; subst; [destruct LF|]. apply Forall2_app_inv_l in FE as (l1' & l2' & F1 & F2 & ->). inversion F2 as [|a b c d SA F3]; subst.
    inversion SA as [m LF| | | | | | | |]; subst; [destruct LF|].
    destruct (IH RR _ (zero_same V (YStruct s))) as (y' & A & B). exists (MList (l1' ++ MPtr (Some y') :: d)). split; [|constructor; apply Forall2_app; [assumption|constructor; [constructor|]; assumption]].
    rewrite (f2_length _ _ _ F1). now constructor.
Qed.

Lemma shape_shuf v v' : shuf v v' -> nshape v <> HNull -> nshape v' <> HNull.
Proof. intros E. inversion E; subst; cbn; congruence. Qed.
Lemma shape_same t x x' : same_mem x x' -> null_keeps t -> shape_of t x -> x' = x.
Proof. intros S N H. destruct t; cbn in N; try contradiction; destruct x; cbn in H; try contradiction; now inversion S. Qed.

(** Fields with option ",string" hold no maps. *)
Lemma quotable_same t : quotable t -> forall v x x' y, stores V F t v x y -> same_mem x x' -> exists y', stores V F t v x' y' /\ same_mem y y'.
Proof.
  induction t; cbn [quotable]; try contradiction; intros Q v x x' y H SX.
  all: try solve [inversion H; subst; inversion SX; subst; try discriminate; try contradiction; eexists; (split; [eassumption|]); now apply om_leaf].
  all: try solve [inversion H; subst; inversion SX; subst; try discriminate; try contradiction; eexists; (split; [econstructor; eassumption|]); now apply om_leaf].
  inversion H as [| | | | | | | | | | | | | | | | | | | | |e s0 x0 NP|e s0 x0 y0 H0|e v0 x0 y0 NN H0| | |]; subst; [contradiction| | |].
  - exists (MPtr None). split; [|exact om_ptr0]. inversion SX; subst; try contradiction; apply st_ptr_null; destruct t; auto.
  - cbn in Q. contradiction.
  - assert (GO : exists x1, x' = MPtr x1 /\ same_mem (match x0 with Some m => m | None => zero V t end) (match x1 with Some m => m | None => zero V t end)).
    { inversion SX; subst; try contradiction; [exists None; split; [easy|apply zero_same]|eauto]. }
    destruct GO as (x1 & -> & SM). assert (QT : quotable t) by (destruct t; cbn in *; try contradiction; exact Q). destruct (IHt QT _ _ _ _ H0 SM) as (y' & A & B).
    exists (MPtr (Some y')). split; constructor; assumption.
Qed.

Context (OK : env_ok V) (EN : env_names V).
Context (PE : forall i f, In f (v_flds V i) -> keeps_no_text (jf_ty f)) (KE : forall i f, In f (v_flds V i) -> keys_in K (jf_ty f)).
Lemma mslice_inv x x' : same_mem (MSlice x) x' -> exists x1, x' = MSlice x1 /\ same_sl same_mem x x1.
Proof. intros S. inversion S as [m LF| | | |n l l' FE| | | |]; subst; [destruct LF|exists None; split; [easy|exact I]|exists (Some (n, l')); repeat split; auto]. Qed.
Lemma mmap_inv x x' : same_mem (MMap x) x' -> exists x1, x' = MMap x1 /\ same_omap same_mem x x1.
Proof. intros S. inversion S as [m LF| | | | | |m m' FE| |]; subst; [destruct LF|exists None; split; [easy|exact I]|exists (Some m'); split; auto]. Qed.
Lemma mslice_of x x' : same_sl same_mem x x' -> same_mem (MSlice x) (MSlice x').
Proof. destruct x as [[n l]|], x' as [[n' l']|]; cbn; try contradiction; [intros [-> H]; now apply om_slice|intros _; exact om_slice0]. Qed.
Lemma mmap_of x x' : same_omap same_mem x x' -> same_mem (MMap x) (MMap x').
Proof. destruct x as [l|], x' as [l'|]; cbn; try contradiction; [intros H; now apply om_map|intros _; exact om_map0]. Qed.
Lemma mlist_inv x x' : same_mem (MList x) x' -> exists x1, x' = MList x1 /\ Forall2 same_mem x x1.
Proof. intros S. inversion S as [m LF| | | | | | | |]; subst; [destruct LF|eauto]. Qed.
Lemma miface_inv x x' : same_mem (MIface x) x' -> exists x1, x' = MIface x1 /\ same_value x x1.
Proof. intros S. inversion S as [m LF| | | | | | | |]; subst; [destruct LF|eauto]. Qed.
Lemma mptr_inv t x x' : same_mem (MPtr x) x' -> exists x1, x' = MPtr x1 /\ (x1 = None <-> x = None) /\
  same_mem (match x with Some m => m | None => zero V t end) (match x1 with Some m => m | None => zero V t end).
Proof. intros S. inversion S as [m LF| | | | | | | |]; subst; [destruct LF|exists None|eexists]; (split; [reflexivity|]); split; try easy. apply zero_same. Qed.

Lemma stores_shuf n : forall t v v' x x' y, keeps_no_text t -> keys_in K t -> (nsize v < n)%nat -> shuf v v' -> same_mem x x' -> stores V F t v x y ->
  exists y', stores V F t v' x' y' /\ same_mem y y'.
Proof.
  induction n as [|n IH]; [lia|].
  assert (MAP : forall k e v v' x x' y, keeps_no_text e -> K k -> keys_in K e -> (nsize v < S n)%nat -> shuf v v' -> same_mem x x' -> stores V F (YMap k e) v x y ->
    exists y', stores V F (YMap k e) v' x' y' /\ same_mem y y').
  { intros k e v v' x x' y NT KK NK SZ A SX H. inversion H; subst; [contradiction|]. apply mmap_inv in SX as (x1 & -> & SX).
    edestruct (map_shuf (stores V F e) same_mem (zero V e) n (zero_same V e)) as (y' & B & C); [|exact KK|exact SZ|exact A|exact SX|eassumption|].
    - intros. eapply IH; eassumption.
    - exists (MMap y'). split; [now constructor|now apply mmap_of]. }
  induction t as [|it|w| | | | | | |em| |k e IHe|e IHe|k e IHe| | |e IHe|i|u|u|]; intros v v' x x' y NT NK SZ A SX H; cbn [keeps_no_text] in NT; cbn [keys_in] in NK; try contradiction.
  1-5: solve [inversion H; subst; inversion SX; subst; try discriminate; try contradiction; inversion A; subst; eexists; (split; [econstructor; eassumption|]); now apply om_leaf].
  - inversion H; subst; try contradiction.
    + inversion A; subst. inversion SX; subst. eexists. split; [eapply st_bytes; eassumption|]. now apply om_leaf.
    + inversion SX; subst. exists (MBytes y0). split; [|now apply om_leaf].
      edestruct (slice_shuf (fun v x y => stores V F (YInt TUint8) v (MInt x) (MInt y)) eq 0 n eq_refl) as (y' & B & C); [|exact SZ|exact A| |eassumption|].
      * intros v1 v2 z1 z2 y1 S1 A1 -> KK. destruct (IH (YInt TUint8) v1 v2 (MInt z2) (MInt z2) (MInt y1) I I S1 A1 (om_leaf (MInt z2) I) KK) as (y' & B & C).
        inversion C; subst. eauto.
      * instantiate (1 := x0). destruct x0 as [[? ?]|]; cbn; auto. split; [easy|]. clear. induction l; constructor; auto.
      * replace y0 with y'; [constructor; exact B|]. destruct y0 as [[? ?]|], y' as [[? ?]|]; cbn in C; try contradiction; auto. destruct C as [-> C].
        do 2 f_equal. clear - C. induction C; congruence.
  - inversion H; subst; inversion SX; subst; try discriminate; try contradiction; inversion A; subst; eexists; (split; [econstructor; eassumption|]); now apply om_leaf.
  - inversion H; subst; inversion SX; subst; try discriminate; try contradiction; inversion A; subst; eexists; (split; [econstructor; eassumption|]); now apply om_leaf.
  - inversion H; subst; [contradiction|]. apply miface_inv in SX as (x1 & -> & SX).
    edestruct (ival_shuf V F K KS) as (y' & B & C); [exact SZ|exact A|eassumption|]. exists (MIface y'). split; constructor; assumption.
  - inversion H; subst; [contradiction| |].
    + inversion A; subst. apply miface_inv in SX as (x1 & -> & SX). eexists. split; [apply st_named_null|]. apply om_iface. now apply ov_leaf.
    + apply miface_inv in SX as (x1 & -> & SX). inversion SX; subst.
      edestruct (ival_shuf V F K KS) as (y' & B & C); [exact SZ|exact A|eassumption|]. exists (MIface y'). split; constructor; auto. eapply shape_shuf; eassumption.
  - inversion H; subst; [contradiction|]. apply mlist_inv in SX as (x1 & -> & SX).
    edestruct (array_shuf (stores V F e) same_mem n) as (y' & B & C); [|exact SZ|exact A|exact SX|eassumption|].
    + intros. eapply IH; eassumption.
    + exists (MList y'). split; constructor; auto. symmetry. eapply f2_length; eassumption.
  - inversion H; subst; [contradiction|]. apply mslice_inv in SX as (x1 & -> & SX).
    edestruct (slice_shuf (stores V F e) same_mem (zero V e) n (zero_same V e)) as (y' & B & C); [|exact SZ|exact A|exact SX|eassumption|].
    + intros. eapply IH; eassumption.
    + exists (MSlice y'). split; [now constructor|now apply mslice_of].
  - destruct NK. eapply MAP; eassumption.
  - inversion H; subst; [contradiction|]. edestruct MAP as (y' & B & C); [| | |exact SZ|exact A|exact SX|eassumption|]; [exact I|exact KS|exact I|]. exists y'. split; [now constructor|exact C].
  - inversion H as [| | | | | | | | | | | | | | | | | | | | |e0 s0 x0 NP|e0 s0 x0 y0 H0|e0 v0 x0 y0 NN H0| | |]; subst; [contradiction| | |].
    + apply (mptr_inv e) in SX as (x1 & -> & EQ & SX). inversion A; subst. exists (MPtr None). split; [|exact om_ptr0]. apply st_ptr_null.
      destruct x1; [|exact I]. destruct x0; [exact NP|]. destruct EQ as [_ EQ]. discriminate (EQ eq_refl).
    + inversion SX as [m LF| | | | | | | |m m' SM]; subst; [destruct LF|]. destruct (IHe _ _ _ _ _ NT NK SZ A SM H0) as (y' & B & C). inversion A; subst.
      exists (MPtr (Some y')). split; [now apply st_ptr_ptr|now constructor].
    + apply (mptr_inv e) in SX as (x1 & -> & EQ & SX). destruct (IHe _ _ _ _ _ NT NK SZ A SX H0) as (y' & B & C).
      exists (MPtr (Some y')). split; [|now constructor]. apply st_ptr; [eapply shape_shuf; eassumption|exact B].
  - inversion H as [| | | | | | | | | | | | | | | | | | | | | | | |i0 v0 x0 y0 H0| |]; subst; [contradiction|]. pose proof SX as SX0. apply mlist_inv in SX as (x1 & -> & _).
    inversion H0 as [s0 x2|s l x2 y1 M]; subst; inversion A as [| | | | | |s1 s2 l0 l1 l' PM FA]; subst; [exists (MList x1); split; [constructor; constructor|exact SX0]|].
    assert (M1 : members_rel (member V F i) l1 (MList x0) y).
    { destruct PM as [->|[P FO]]; [exact M|]. eapply members_perm; eassumption. }
    assert (SZl : forall k nd, In (k, nd) l1 -> (nsize nd < n)%nat).
    { intros k nd I. assert (I' : In (k, nd) l) by (destruct PM as [->|[P _]]; [exact I|eapply Permutation_in; [apply Permutation_sym, P|exact I]]).
      apply (nsize_obj s) in I'. lia. }
    enough (G : exists y', members_rel (member V F i) l' (MList x1) y' /\ same_mem y y').
    { destruct G as (y' & G1 & G2). exists y'. split; [constructor; now constructor|exact G2]. }
    clear - IH M1 SZl FA SX0 OK PE KE. revert M1 SX0. generalize (MList x0) as m, (MList x1) as m'. revert y.
    induction FA as [|[k v] [k' v'] l1 l' [E1 E2] E IHl]; intros y m m' M S; inversion M as [|lit kt v2 l2 m2 y2 z2 SM ME MR]; subst; [exists m'; split; [constructor|exact S]|].
    cbn [fst snd] in *. subst k'.
    assert (ST : exists y', member V F i kt v' m' y' /\ same_mem y2 y').
    { inversion ME as [i1 k1 v1 x2 PK DA|i1 k1 f v1 x2 y1 PK AP]; subst; [exists m'; split; [now apply me_unknown|exact S]|].
      assert (IN : In f (v_flds V i)) by (eapply picks_in; exact PK). pose proof (PE _ _ IN) as Pf. pose proof (KE _ _ IN) as Kf.
      assert (SZv : (nsize v < n)%nat) by (eapply SZl; left; reflexivity).
      edestruct (path_shuf (quoted (jf_quot f) (stores V F (jf_ty f))) (quoted (jf_quot f) (stores V F (jf_ty f))) (jf_path f) v v') as (y' & B & C);
        [|exact S|exact AP|exists y'; split; [eapply me_field; eassumption|exact C]].
      intros z z' w SZ Q. inversion Q; subst.
      - edestruct IH as (y' & B & C); [exact Pf|exact Kf|exact SZv|exact E2|exact SZ|eassumption|]. exists y'. split; [now apply qu_no|exact C].
      - edestruct IH as (y' & B & C); [exact Pf|exact Kf|exact SZv|exact E2|exact SZ|eassumption|]. inversion E2; subst. exists y'. split; [now apply qu_null|exact C].
      - inversion E2; subst. assert (QF : quotable (jf_ty f)) by (eapply (ok_quot V OK); [exact IN|congruence]).
        edestruct (quotable_same _ QF) as (y' & B & C); [eassumption|exact SZ|]. exists y'. split; [eapply qu_str; eauto|exact C].
      - inversion E2; subst. assert (QF : quotable (jf_ty f)) by (eapply (ok_quot V OK); [exact IN|congruence]).
        edestruct (quotable_same _ QF) as (y' & B & C); [eassumption|exact SZ|]. exists y'. split; [eapply qu_int; eauto|exact C]. }
    destruct ST as (y' & B & C). destruct (IHl (fun k nd I => SZl k nd (or_intror I)) _ _ _ MR C) as (z' & G1 & G2).
    exists z'. split; [eapply mem_cons; eassumption|exact G2].
  - inversion H; subst; inversion SX; subst; try discriminate; try contradiction; inversion A; subst; eexists; (split; [econstructor; eassumption|]); now apply om_leaf.
  - inversion H; subst. contradiction.
Qed.
End Main.
