(** Facts for C89: Unmarshal stores no key twice, and equal values have equal
    documents. *)
From Coq Require Import Permutation.
From Verif Require Import Bytes Utf8Model ParseModel StringModel IntModel TokenModel EncModel DecModel EncoderModel SpecJson SpecString SpecTokens
  SpecRender SpecColor SpecEnc SpecNum SpecDec SpecTrip SpecRaw PropsDec PropsJc ParseFacts Utf8Facts StringFacts IntFacts TokenFacts EncFacts EncExtra RawFacts EncMain TextFacts
  Unambig NumFacts DecLoops DecFacts TripFacts
  TypeModel SpecType SpecFit SpecField NodeFacts TypeLoops TypeFacts TypeMain TypeSound TypeSafe ViewModel SpecSame ViewFacts TripClean TripType SpecNormal OrderFacts CanonFacts.
Local Open Scope Z_scope.

Section Normal.
Context (V : tenv) (W : menv) (F : dflags).

(** * Keys are distinct *)
Lemma nil_solid : solid (MPtr None).
Proof. apply so_leaf. exact I. Qed.
Lemma zero_solid t : solid (zero V t).
Proof.
  unfold zero. generalize (v_depth V). intros n. revert t. induction n as [|n IHn]; induction t; cbn [zero_f]; try (apply so_leaf; exact I); try (apply so_iface, js_leaf; exact I).
  - apply so_list, Forall_forall. intros x X. apply repeat_spec in X. subst x. exact IHt.
  - apply so_list. constructor.
  - apply so_list, Forall_forall. intros x X. apply repeat_spec in X. subst x. exact IHt.
  - apply so_list, Forall_map, Forall_forall. intros x _. apply IHn.
Qed.
Lemma set_all {K A} (eqb : K -> K -> bool) (P : K * A -> Prop) kvs : forall m, Forall P m -> Forall P kvs -> Forall P (add_all eqb kvs m).
Proof.
  induction kvs as [|[k v] kvs IH]; intros m M H; cbn; [exact M|]. inversion H; subst. apply IH; [|assumption]. apply map_set_all; assumption.
Qed.
Fixpoint ival_solid a v (H : ival (num V F) a v) {struct H} : jv_solid v.
Proof.
  destruct H as [| | |s v N|lit t _|l vs H|l kvs H]; try (apply js_leaf; exact I).
  - apply js_leaf. unfold num in N. destruct (d_usenum F); [subst v; exact I|]. destruct N as (f & _ & ->). exact I.
  - apply js_arr. induction H as [|a v l vs Hv H IH]; constructor; [exact (ival_solid a v Hv)|exact IH].
  - apply js_map; [apply add_all_nodup; [apply beqb_eq|constructor]|]. apply set_all; [constructor|].
    induction H as [|a kv l kvs [_ Hv] H IH]; constructor; [exact (ival_solid _ _ Hv)|exact IH].
Qed.
Lemma list_at (l1 l2 : list mem) x : solid (MList (l1 ++ x :: l2)) -> solid x /\ forall y, solid y -> solid (MList (l1 ++ y :: l2)).
Proof.
  intros H. inversion H as [? L| |? FA| | |]; subst; [destruct L|]. apply Forall_app in FA as [F1 F2]. inversion F2; subst. split; [assumption|].
  intros y Y. apply so_list, Forall_app. split; [exact F1|]. constructor; assumption.
Qed.
Lemma ptr_at x : solid (MPtr (Some x)) -> solid x.
Proof. intros H. inversion H as [? L| | | | |]; subst; [destruct L|assumption]. Qed.
Fixpoint stores_solid t v x y (H : stores V F t v x y) {struct H} : solid x -> solid y
with member_solid i k v x y (H : member V F i k v x y) {struct H} : solid x -> solid y.
Proof.
  - destruct H as [t s x N SH|s x|s x|it s z x IO|w s f x E|s x|s t x SM|s t v x SM E|v x y SR|s z x IO|t z x E|t z x E|v x y IV|e s x|v y NN IV|v x|n e v x y L AR|e v x y SR|k e v x y MR|v x y ST|v x y ST|e s x NP|e s x y ST|e v x y NN ST|i v x y SR|u v x y NN E|u s t x y SM E];
      intros S; try exact S; try (apply so_leaf; exact I).
    + apply so_iface. exact (ival_solid _ _ IV).
    + apply so_iface, js_leaf. exact I.
    + apply so_iface. exact (ival_solid _ _ IV).
    + destruct AR as [s x|s l x y _ AL]; [exact S|]. apply so_list. assert (FX : Forall solid x) by (inversion S as [? Q| |? FA| | |]; subst; [destruct Q|exact FA]). clear S L.
      induction AL as [d|l|v l x d y ys Rv AL IH]; [exact FX|constructor|]. inversion FX; subst. constructor; [eapply stores_solid; eassumption|apply IH; assumption].
    + destruct SR as [s x|s l x ys c O G]; [apply so_leaf; exact I|]. apply so_slice.
      assert (FX : Forall solid (backing x)) by (inversion S as [? Q| | |len d FD| |]; subst; [destruct x as [[]|]; [destruct Q|constructor]|exact FD]). clear S G.
      apply Forall_app. split; [|apply Forall_app; split; [apply Forall_skipn, FX|apply Forall_forall; intros a A; apply repeat_spec in A; subst a; apply zero_solid]].
      revert FX. induction O as [d|v l d y ys Rv O IH]; intros FX; [constructor|]. constructor.
      * eapply stores_solid; [exact Rv|]. destruct FX; [apply zero_solid|assumption].
      * apply IH. destruct FX; [constructor|assumption].
    + destruct MR as [s x|s l x kvs FE]; [apply so_leaf; exact I|].
      assert (FX : NoDup (map fst (entries x)) /\ Forall (fun kv => solid (snd kv)) (entries x)).
      { inversion S as [? Q| | | |m N FA|]; subst; [destruct x; [destruct Q|split; constructor]|split; assumption]. }
      destruct FX as [N FX]. apply so_map; [apply add_all_nodup; [apply mkey_eqb_eq'|exact N]|]. apply set_all; [exact FX|]. clear S N FX.
      induction FE as [|a kv l kvs [_ Hv] FE IH]; constructor; [|exact IH]. eapply stores_solid; [exact Hv|apply zero_solid].
    + eapply stores_solid; eassumption.
    + eapply stores_solid; eassumption.
    + apply so_ptr. eapply stores_solid; [exact ST|apply ptr_at, S].
    + apply so_ptr. eapply stores_solid; [exact ST|]. destruct x; [apply ptr_at, S|apply zero_solid].
    + revert S. destruct SR as [s x0|s l x0 y0 MR]; [trivial|]. induction MR as [x1|lit k v1 l x1 y1 z SM M MR IH]; intros S; [exact S|]. apply IH. exact (member_solid _ _ _ _ _ M S).
  - destruct H as [i k v x PK D|i k f v x y PK AP]; [trivial|].
    clear PK. induction AP as [v0 x0 y0 R|l1 x0 l2 p v0 y0 AP IH|l1 x0 l2 s u p v0 y0 AP IH|l1 l2 s p v0 y0 AP IH]; intros S.
    + destruct R as [v1 x1 y1 Q R|s x1 y1 Q R|s v1 w x1 y1 Q SM WS J R|s t v1 x1 y1 Q SM NE UZ J R]; exact (stores_solid _ _ _ _ R S).
    + apply list_at in S as [S1 S2]. apply S2, IH, S1.
    + apply list_at in S as [S1 S2]. apply S2, so_ptr, IH, ptr_at, S1.
    + apply list_at in S as [S1 S2]. apply S2, so_ptr, IH, zero_solid.
Qed.

(** * A value equal to one that JSON can carry is one *)
Lemma tree_same un : forall v' v, go_tree_of un (tree v) v -> jv_same v v' -> jv_solid v' -> go_tree_of un (tree v') v'.
Proof.
  induction v' as [|b|f|s|s|l IH|m IH] using jv_ind'; intros v T S J; try (inversion S; subst; exact T).
  - inversion S as [? L|l0 ? SL|]; subst; [exact T|]. inversion J as [? Q|? JL|]; subst; [destruct Q|].
    assert (X : Forall (fun v => go_tree_of un (tree v) v) l0).
    { cbn [tree] in T. inversion T as [| | | | |un0 xs vs TF Eun Exs|]; subst. replace (map _ l0) with (map iface_of (map tree l0)) in Exs by (rewrite map_map; apply map_ext; intros []; reflexivity).
      clear - TF Exs. revert xs TF Exs. induction l0 as [|v l0 IH]; intros xs TF Exs; [constructor|]. inversion TF as [|g ? xs' ? Tg TF']; subst. cbn [map] in Exs. injection Exs as Eg Exs. constructor; [|eapply IH; eassumption].
      assert (NI : forall o, g <> GIface o) by (destruct Tg; discriminate). assert (NV : forall o, tree v <> GIface o) by (intros o; destruct v; discriminate).
      assert (EG : g = tree v) by (destruct g; destruct (tree v); cbn [iface_of] in Eg; try congruence; exfalso; first [eapply NI; reflexivity|eapply NV; reflexivity]). subst. exact Tg. }
    cbn [tree]. replace (map _ l) with (map iface_of (map tree l)) by (rewrite map_map; apply map_ext; intros []; reflexivity). apply gt_slice.
    clear T S J. revert l0 SL X. induction IH as [|v' l Hv IH IHl]; intros l0 SL X; [constructor|]. inversion SL as [|v ? l1 ? Sv SL']; subst. inversion X; subst. inversion JL; subst. constructor; [eapply Hv; eassumption|eapply IHl; eassumption].
  - inversion S as [? L| |m0 ? SA SB]; subst; [exact T|]. inversion J as [? Q| |? N JM]; subst; [destruct Q|].
    assert (X : Forall (fun e => valid_utf8 (fst e) /\ go_tree_of un (tree (snd e)) (snd e)) m0).
    { cbn [tree] in T. inversion T as [| | | | | |? g1 ? N1 F1]; subst. clear - F1. induction m0 as [|[k v] m0 IH]; [constructor|]. cbn [map] in F1. inversion F1 as [|? ? ? ? (_ & U & TV) F2]; subst. constructor; [split; assumption|exact (IH F2)]. }
    cbn [tree]. apply gt_map; [rewrite map_map; erewrite map_ext; [exact N|intros [k v]; reflexivity]|].
    assert (Y : Forall (fun e => valid_utf8 (fst e) /\ go_tree_of un (tree (snd e)) (snd e)) m).
    { rewrite Forall_forall in *. intros [k v'] H. destruct (SB k v' H) as (v & H' & Sv). destruct (X _ H') as [U TV]. split; [exact U|]. apply (IH (k, v') H v TV Sv). apply (JM _ H). }
    clear - Y. induction Y as [|[k v] m [U TV] Y IH]; cbn [map]; constructor; [auto|exact IH].
Qed.
Lemma float_same f : forall v' v, jv_same v v' -> float_in f v' -> float_in f v.
Proof.
  induction v' as [|b|f0|s|s|l IH|m IH] using jv_ind'; intros v S H; try (inversion S; subst; exact H).
  - inversion S as [? L|l0 ? SL|]; subst; [exact H|]. inversion H as [|? x IN FX|]; subst. destruct (f2_in_r _ _ _ _ SL IN) as (y & IY & Sy). rewrite Forall_forall in IH. eapply fi_arr; [exact IY|]. exact (IH x IN y Sy FX).
  - inversion S as [? L| |m0 ? SA SB]; subst; [exact H|]. inversion H as [| |? k x IN FX]; subst. destruct (SB _ _ IN) as (y & IY & Sy). rewrite Forall_forall in IH. eapply fi_map; [exact IY|]. exact (IH _ IN y Sy FX).
Qed.
Lemma tree_ok_same v v' : tree_ok V F v -> jv_same v v' -> jv_solid v' -> tree_ok V F v'.
Proof. intros (B & C) S J. split; [eapply tree_same; eassumption|]. intros f H. apply C. eapply float_same; eassumption. Qed.
Lemma jv_null_same v v' : jv_same v v' -> (v = JVNull <-> v' = JVNull).
Proof. intros H. inversion H; subst; [tauto|split; discriminate|split; discriminate]. Qed.

Lemma map_empty_same {A} (R : A -> A -> Prop) (m m' : list (mkey * A)) :
  (forall a x, In (a, x) m -> exists x', In (a, x') m' /\ R x x') -> (forall a x', In (a, x') m' -> exists x, In (a, x) m /\ R x x') -> (m = [] <-> m' = []).
Proof.
  intros A1 A2. split; intros ->.
  - destruct m' as [|[a x] m']; [reflexivity|]. destruct (A2 a x (or_introl eq_refl)) as (? & [] & _).
  - destruct m as [|[a x] m]; [reflexivity|]. destruct (A1 a x (or_introl eq_refl)) as (? & [] & _).
Qed.
Lemma empty_same t x x' : raw_free t -> same V t x x' -> is_empty W t x = is_empty W t x'.
Proof.
  intros R S. destruct S; try reflexivity; try contradiction.
  - cbn [is_empty]. apply jv_null_same in H. destruct v, v'; try reflexivity; first [discriminate (proj1 H eq_refl) | discriminate (proj2 H eq_refl)].
  - cbn [is_empty]. apply jv_null_same in H. destruct v, v'; try reflexivity; first [discriminate (proj1 H eq_refl) | discriminate (proj2 H eq_refl)].
  - cbn [is_empty]. pose proof (map_empty_same (same V e) m m' H H0) as [X Y]. destruct m, m'; try reflexivity; [discriminate (X eq_refl)|discriminate (Y eq_refl)].
  - cbn [is_empty]. inversion S as [? ? L| | | | | | | | | |? ? m0 m0' H H0| | | | |]; subst; [destruct L|reflexivity|].
    pose proof (map_empty_same (same V YIface) m0 m0' H H0) as [X Y]. destruct m0, m0'; try reflexivity; [discriminate (X eq_refl)|discriminate (Y eq_refl)].
Qed.

(** For types without messages, two equal values are written the same. *)
Fixpoint same_again (RE : raw_free_env V) html t m m' (H : same V t m m') {struct H} : raw_free t -> again V W html t m m'.
Proof.
  destruct H as [t m L| |len d d' L E|v v' J|e v v' J|r r' R|n e l l' FA|e|e len d d' L FA|k e|k e m m' A B|m m' H|m m' H|e|e x x' H|i l l' A B]; cbn [raw_free]; intros RF; try contradiction.
  - apply ag_leaf, L.
  - apply ag_bytes0.
  - apply ag_bytes; assumption.
  - apply ag_iface, J.
  - apply ag_named, J.
  - apply ag_array. induction FA as [|x y l l' H FA IH]; constructor; [exact (same_again RE html _ _ _ H RF)|exact IH].
  - apply ag_slice0.
  - apply ag_slice; [exact L|]. induction FA as [|x y l l' H FA IH]; constructor; [exact (same_again RE html _ _ _ H RF)|exact IH].
  - apply ag_map0.
  - apply ag_map; [intros a x IN; destruct (A a x IN) as (x' & I' & H)|intros a x IN; destruct (B a x IN) as (x' & I' & H)]; exists x'; (split; [exact I'|exact (same_again RE html _ _ _ H RF)]).
  - apply ag_map_si. exact (same_again RE html _ _ _ H I).
  - apply ag_ptr0.
  - apply ag_ptr. exact (same_again RE html _ _ _ H RF).
  - apply ag_struct; [|exact B|].
    + intros f x IN G. destruct (A f x IN G) as (x' & G' & H). exists x'. split; [exact G'|exact (same_again RE html _ _ _ H (RE i f IN))].
    + intros f IN O DI. unfold field_empty. rewrite DI, !test_get_eq by exact DI. destruct (get (jf_path f) (MList l)) as [x|] eqn:G; [|rewrite (B f IN G); reflexivity].
      destruct (A f x IN G) as (x' & -> & H). exact (empty_same _ _ _ (RE i f IN) H).
Qed.

Context (html : bool) (RE : omit_direct V W).
Notation again := (again V W html).
Lemma get_both i l l' f : again (YStruct i) (MList l) (MList l') -> In f (v_flds V i) ->
  match get (jf_path f) (MList l), get (jf_path f) (MList l') with
  | Some x, Some x' => again (jf_ty f) x x'
  | None, None => True
  | _, _ => False
  end.
Proof.
  intros S I1. inversion S as [? ? L| | | | | | | | | | | | | | |? ? ? A B C]; subst; [destruct L|]. destruct (get (jf_path f) (MList l)) as [x|] eqn:E.
  - destruct (A f x I1 E) as (x' & -> & Sx). exact Sx.
  - rewrite (B f I1 E). exact I.
Qed.
Lemma field_empty_same i l l' f : again (YStruct i) (MList l) (MList l') -> In f (v_flds V i) -> o_omit W i f = true ->
  field_empty W i f (MList l) = field_empty W i f (MList l').
Proof.
  intros S I1 O. inversion S as [? ? L| | | | | | | | | | | | | | |? ? ? A B C]; subst; [destruct L|]. apply C; [exact I1|exact O|]. exact (RE i f I1 O).
Qed.
Lemma left_out_same i l l' f : again (YStruct i) (MList l) (MList l') -> In f (v_flds V i) -> (left_out W i f (MList l) <-> left_out W i f (MList l')).
Proof. intros S I1. unfold left_out. split; intros [O E]; (split; [exact O|]); rewrite <- E; [symmetry|]; apply field_empty_same; assumption. Qed.
Lemma nth_solid l i x : solid (MList l) -> nth_error l i = Some x -> solid x.
Proof. intros S E. inversion S as [? L| |? FA| | |]; subst; [destruct L|]. rewrite Forall_forall in FA. apply FA. eapply nth_error_In, E. Qed.
Lemma get_solid p : forall m x, solid m -> get p m = Some x -> solid x.
Proof.
  induction p as [|[i|i s u] p IH]; intros m x S G; [destruct m; cbn [get] in G; injection G as <-; exact S| |].
  - destruct m; cbn [get] in G; try discriminate. destruct (nth_error l i) as [y|] eqn:E; [|discriminate]. eapply IH; [eapply nth_solid; eassumption|exact G].
  - destruct m; cbn [get] in G; try discriminate. destruct (nth_error l i) as [y|] eqn:E; [|discriminate]. destruct y; try discriminate. destruct p0; [|discriminate].
    eapply IH; [eapply ptr_at, nth_solid; eassumption|exact G].
Qed.
Lemma zero_same t x' : is_empty W t (zero V t) = true -> is_empty W t x' = true -> again t (zero V t) x' -> x' = zero V t.
Proof.
  intros E E' S. pose proof (zero_leaf V t) as Z. destruct t; try rewrite Z in *; cbn [zero_f is_empty] in *; try discriminate; try contradiction; inversion S; subst; try reflexivity; try contradiction.
  - match goal with H : jv_same _ _ |- _ => apply jv_null_same in H; rewrite (proj1 H eq_refl); reflexivity end.
  - match goal with H : jv_same _ _ |- _ => apply jv_null_same in H; rewrite (proj1 H eq_refl); reflexivity end.
  - match goal with H : raw_again _ None ?r |- _ => destruct r as [s'|]; [|reflexivity]; cbn [raw_again] in H; subst s'; discriminate end.
  - destruct n; [|discriminate]. rewrite zero_array in *. cbn [repeat] in *. match goal with H : MList _ = MList [] |- _ => injection H as -> end. match goal with H : Forall2 _ [] _ |- _ => inversion H; reflexivity end.
  - match goal with H : again (YMap _ _) _ _ |- _ => inversion H; subst; [contradiction|reflexivity] end.
  - match goal with H : again (YMap _ _) _ _ |- _ => inversion H; subst; [contradiction|reflexivity] end.
Qed.
Lemma null_same e x x' : again e x x' -> null_like e x' -> null_like e x.
Proof.
  intros S N. destruct S; try exact N; try contradiction; try exact I; cbn [null_like] in *.
  - destruct v'; try contradiction. apply jv_null_same in H. rewrite (proj2 H eq_refl). exact I.
  - destruct v'; try contradiction. apply jv_null_same in H. rewrite (proj2 H eq_refl). exact I.
  - destruct r as [s|]; [|exact I]. destruct r' as [s'|]; [|destruct H]. destruct H as (a & a' & J & J' & ST & _). rewrite (jvalue_unique _ _ _ J' N) in ST. inversion ST; subst. exact J.
  - inversion S as [? ? L| | | | | | | | | |? ? m0 m0' H H0| | | | |]; subst; [destruct L|exact I|contradiction].
  - inversion S as [? ? L| | | | | | | | | |? ? m0 m0' H H0| | | | |]; subst; [destruct L|exact I|contradiction].
Qed.
Fixpoint trip_same t m (T : trip V W F t m) {struct T} : forall m', again t m m' -> solid m' -> trip V W F t m'.
Proof.
  destruct T as [x|it z R|z R|w f FI PA|s N|s U| |len d L WF B|t TC E|v TO|e|v TO| |s a J|n e l LE TL| |e len d L TD| |k e m N TM|m TM|m TM| |e x TX NL|i l PP TF TQ TO|u s t a E J NN P|u s t E U P];
    intros m' S SO; try (inversion S; subst; try contradiction; try (constructor; assumption); eapply tr_json; eassumption).
  - inversion S as [? ? Q| |? ? d' L' E| | | | | | | | | | | | |]; subst; try contradiction. rewrite E in *. apply tr_bytes; assumption.
  - inversion S as [? ? Q| | |? v' JS| | | | | | | | | | | |]; subst; try contradiction. apply tr_iface. inversion SO; subst; [contradiction|]. eapply tree_ok_same; eassumption.
  - inversion S as [? ? Q| | | |? ? v' JS| | | | | | | | | | |]; subst; try contradiction. apply jv_null_same in JS. rewrite (proj1 JS eq_refl). apply tr_named0.
  - inversion S as [? ? Q| | | |? ? v' JS| | | | | | | | | | |]; subst; try contradiction. apply tr_named. inversion SO; subst; [contradiction|]. eapply tree_ok_same; eassumption.
  - inversion S as [? ? Q| | | | |? r' R| | | | | | | | | |]; subst; try contradiction. destruct r' as [s'|]; [|apply tr_raw0]. cbn [raw_again] in R. subst s'. eapply tr_raw. apply V_null.
  - inversion S as [? ? Q| | | | |? r' R| | | | | | | | | |]; subst; try contradiction. destruct r' as [s'|]; [|destruct R]. destruct R as (a1 & a' & _ & J' & _). eapply tr_raw, J'.
  - inversion S as [? ? Q| | | | | |? ? ? l' F2| | | | | | | | |]; subst; try contradiction. apply tr_array.
    + clear - F2. symmetry. induction F2; cbn [length]; congruence.
    + assert (FS : Forall solid l') by (inversion SO; subst; [contradiction|assumption]). clear S SO. revert l' F2 FS.
      induction TL as [|x l Tx TL IH]; intros l' F2 FS; inversion F2; subst; constructor; inversion FS; subst; [eapply trip_same; eassumption|apply IH; assumption].
  - inversion S as [? ? Q| | | | | | | |? ? ? d' L' F2| | | | | | |]; subst; try contradiction. apply tr_slice; [exact L'|].
    assert (FS : Forall solid (firstn len d')) by (apply Forall_firstn; inversion SO; subst; [contradiction|assumption]). clear S SO. revert F2 FS. generalize (firstn len d'). clear L' d'.
    induction TD as [|x l Tx TL IH]; intros l' F2 FS; inversion F2; subst; constructor; inversion FS; subst; [eapply trip_same; eassumption|apply IH; assumption].
  - inversion S as [? ? Q| | | | | | | | | |? ? ? m1 A B| | | | |]; subst; try contradiction. inversion SO as [? Q| | | |? N1 FS|]; subst; [contradiction|]. apply tr_map; [exact N1|].
    assert (X : forall kv, In kv m -> key_ok V W k (fst kv) /\ forall x', again e (snd kv) x' -> solid x' -> trip V W F e x').
    { clear - TM trip_same. induction TM as [|kv m [K Tx] TM IH]; intros kv' [].
      - subst kv'. split; [exact K|]. intros x' Sx SO. exact (trip_same _ _ Tx x' Sx SO).
      - apply IH. assumption. }
    apply Forall_forall. intros [a x'] IN. destruct (B a x' IN) as (x & IX & SX). destruct (X _ IX) as [K H]. cbn [fst snd] in *. split; [exact K|]. apply H; [exact SX|].
    rewrite Forall_forall in FS. exact (FS _ IN).
  - inversion S; subst; try contradiction. apply tr_map_si. eapply trip_same; [exact TM|assumption|exact SO].
  - inversion S; subst; try contradiction. apply tr_map_sr. eapply trip_same; [exact TM|assumption|exact SO].
  - inversion S as [? ? Q| | | | | | | | | | | | | |? ? x' SX|]; subst; try contradiction. apply tr_ptr; [eapply trip_same; [exact TX|exact SX|apply ptr_at, SO]|].
    intros NL'. apply NL. eapply null_same; eassumption.
  - assert (TF' : forall f x, In f (v_flds V i) -> get (jf_path f) (MList l) = Some x -> exported (jf_path f) /\ forall x', again (jf_ty f) x x' -> solid x' -> trip V W F (jf_ty f) x').
    { intros f x I1 G. destruct (TF f x I1 G) as [Tx EX]. split; [exact EX|]. intros x' SX SOX. exact (trip_same _ _ Tx x' SX SOX). }
    clear trip_same TF. inversion S as [? ? Q| | | | | | | | | | | | | | |? ? l' A B C]; subst; [contradiction|]. apply tr_struct.
    + destruct PP as (pre & post & E & P1 & P2). exists pre, post. split; [exact E|]. assert (INC : forall f, In f (pre ++ post) -> In f (v_flds V i)) by (rewrite E; trivial).
      rewrite !Forall_forall in *. split; intros f I1.
      * specialize (INC f (proj2 (in_app_iff _ _ _) (or_introl I1))). destruct (P1 f I1) as [LO|G]; [left; apply (left_out_same i l l' f S INC), LO|right; apply B; assumption].
      * specialize (INC f (proj2 (in_app_iff _ _ _) (or_intror I1))). destruct (P2 f I1) as [LO|G]; [left; apply (left_out_same i l l' f S INC), LO|right].
        pose proof (get_both i l l' f S INC) as GB. destruct (get (jf_path f) (MList l)); [|congruence]. destruct (get (jf_path f) (MList l')); [discriminate|contradiction].
    + intros f x' I1 G'. pose proof (get_both i l l' f S I1) as GB. rewrite G' in GB. destruct (get (jf_path f) (MList l)) as [x|] eqn:G; [|contradiction]. destruct (TF' f x I1 G) as [EX H].
      split; [|exact EX]. apply H; [exact GB|]. eapply get_solid; eassumption.
    + exact TQ.
    + intros f I1 LO2. pose proof (proj2 (left_out_same i l l' f S I1) LO2) as LO'. destruct (TO f I1 LO') as [DI G]. split; [exact DI|]. pose proof (get_both i l l' f S I1) as GB. rewrite G in GB.
      destruct (get (jf_path f) (MList l')) as [x'|] eqn:G'; [|contradiction]. f_equal.
      destruct LO' as [_ E]. destruct LO2 as [_ E']. unfold field_empty in E, E'. rewrite DI, test_get_eq, G in E by exact DI. rewrite DI, test_get_eq, G' in E' by exact DI. apply zero_same; assumption.
  - inversion S; subst; try contradiction. eapply tr_text; eassumption.
Qed.

(** * Equal values have equal documents *)
Lemma raw_det trust r x x' : vdoc html true trust (GRaw r) x -> vdoc html true trust (GRaw r) x' -> x = x'.
Proof.
  intros A B. inversion A; subst; inversion B; subst; [reflexivity|].
  f_equal. unfold raw_text in *. destruct trust; [eapply jtext_unique; eassumption|eapply jvalue_unique; eassumption].
Qed.
Lemma raw_doc trust r r' x x' : raw_again html r r' -> vdoc html true trust (GRaw r) x -> vdoc html true trust (GRaw r') x' -> x = x'.
Proof.
  intros R A B. destruct r as [s|], r' as [s'|]; cbn [raw_again] in R; try contradiction.
  - destruct R as (a & a' & J & J' & _ & E). inversion A; subst. inversion B; subst. match goal with H : raw_text _ s ?b |- _ => rewrite (raw_unique _ _ _ _ J H) end.
    match goal with H : raw_text _ s' ?b |- _ => rewrite (raw_unique _ _ _ _ J' H) end. exact E.
  - subst s'. inversion A; subst. inversion B; subst. match goal with H : raw_text _ _ ?b |- _ => rewrite (raw_unique _ _ _ _ V_null H) end. reflexivity.
  - inversion A; subst. inversion B; subst. reflexivity.
Qed.
Lemma key_inj k a a' ka ka' : key_ok V W k a -> key_ok V W k a' -> view_key W k a = Some ka -> view_key W k a' = Some ka' -> key_text ka = key_text ka' -> a = a'.
Proof.
  intros K K' E E' T. destruct k, a, a'; cbn [key_ok view_key] in *; try contradiction.
  - injection E as <-. injection E' as <-. cbn [key_text] in T. congruence.
  - injection E as <-. injection E' as <-. cbn [key_text] in T. pose proof (int_round_trip _ _ 0 K) as X. rewrite T, (int_round_trip _ _ 0 K') in X. congruence.
  - destruct K as (t & O & _ & P). destruct K' as (t' & O' & _ & P'). rewrite O in E. rewrite O' in E'. injection E as <-. injection E' as <-. cbn [key_text] in T. subst t'. congruence.
Qed.
Lemma kdoc_det k tk tx tk' tx' : kdoc html k tk tx -> kdoc html k tk' tx' -> tk = tk' /\ tx = tx'.
Proof. intros A B. destruct A; inversion B; subst; auto. Qed.
Lemma keys_sorted {A} (key : A -> bytes) (l l' : list A) : NoDup (map key l) -> NoDup (map key l') ->
  (forall k, In k (map key l) <-> In k (map key l')) -> ascending key l -> ascending key l' -> map key l = map key l'.
Proof.
  intros N N' E S S'. apply (sorted_unique (fun k : bytes => k)).
  - clear - S. induction S as [|x l S IH H]; cbn [map]; constructor; [exact IH|]. apply Forall_map. exact H.
  - clear - S'. induction S' as [|x l S IH H]; cbn [map]; constructor; [exact IH|]. apply Forall_map. exact H.
  - apply NoDup_Permutation; assumption.
  - rewrite map_id. exact N.
Qed.
Lemma list_docs (R R' : mem -> gval -> Prop) (S : mem -> mem -> Prop) D l l' gs gs' xs xs' :
  Forall2 S l l' -> Forall2 R l gs -> Forall2 R' l' gs' -> Forall2 D gs xs -> Forall2 D gs' xs' ->
  (forall m m' g g' x x', In m l -> In m' l' -> S m m' -> R m g -> R' m' g' -> D g x -> D g' x' -> x = x' :> doc) -> xs = xs'.
Proof.
  intros FS. revert gs gs' xs xs'. induction FS as [|m m' l l' SM FS IH]; intros gs gs' xs xs' F1 F2 G1 G2 H; inversion F1; subst; inversion F2; subst; inversion G1; subst; inversion G2; subst; [reflexivity|].
  f_equal; [eapply (H m m'); try eassumption; left; reflexivity|]. eapply IH; try eassumption. intros; eapply (H m0 m'0); try eassumption; right; assumption.
Qed.

Definition docs (trust : bool) (t : gty) (m m' : mem) : Prop := forall n n' g g' x x', view V W n t m = Some g -> view V W n' t m' = Some g' ->
  vdoc html true trust g x -> vdoc html true trust g' x' -> x = x'.
Lemma map_docs trust k e l l' n n' gl gl' ms ms' xs xs' :
  (forall a x, In (a, x) l -> exists x', In (a, x') l' /\ again e x x') -> (forall a x', In (a, x') l' -> exists x, In (a, x) l /\ again e x x') ->
  NoDup (map fst l) -> NoDup (map fst l') -> Forall (fun kv => key_ok V W k (fst kv)) l -> Forall (fun kv => key_ok V W k (fst kv)) l' ->
  (forall a x x', In (a, x) l -> In (a, x') l' -> again e x x' -> docs trust e x x') ->
  Forall2 (fun kv e0 => match view_key W k (fst kv), view V W n e (snd kv) with Some a, Some b => Some (a, b) | _, _ => None end = Some e0) l gl ->
  Forall2 (fun kv e0 => match view_key W k (fst kv), view V W n' e (snd kv) with Some a, Some b => Some (a, b) | _, _ => None end = Some e0) l' gl' ->
  in_order true (fun e => key_text (fst e)) gl ms -> in_order true (fun e => key_text (fst e)) gl' ms' ->
  Forall2 (fun e x => kdoc html (fst e) (fst (fst x)) (snd (fst x)) /\ vdoc html true trust (snd e) (snd x)) ms xs ->
  Forall2 (fun e x => kdoc html (fst e) (fst (fst x)) (snd (fst x)) /\ vdoc html true trust (snd e) (snd x)) ms' xs' -> xs = xs'.
Proof.
  intros SA SB N N' K K' H F1 F2 [P A] [P' A'] G G'. rewrite Forall_forall in K, K'.
  assert (V1 : forall ka g, In (ka, g) gl -> exists a x, In (a, x) l /\ view_key W k a = Some ka /\ view V W n e x = Some g).
  { intros ka g IN. destruct (f2_in_r _ _ _ _ F1 IN) as ([a x] & IX & E). cbn [fst snd] in E. destruct (view_key W k a) as [ka'|] eqn:EK; [|discriminate]. destruct (view V W n e x) as [g'|] eqn:EV; [|discriminate]. injection E as -> ->. eauto. }
  assert (V2 : forall ka g, In (ka, g) gl' -> exists a x, In (a, x) l' /\ view_key W k a = Some ka /\ view V W n' e x = Some g).
  { intros ka g IN. destruct (f2_in_r _ _ _ _ F2 IN) as ([a x] & IX & E). cbn [fst snd] in E. destruct (view_key W k a) as [ka'|] eqn:EK; [|discriminate]. destruct (view V W n' e x) as [g'|] eqn:EV; [|discriminate]. injection E as -> ->. eauto. }
  assert (NK : forall n0 l0 g0, NoDup (map fst l0) -> (forall kv, In kv l0 -> key_ok V W k (fst kv)) ->
     Forall2 (fun kv e0 => match view_key W k (fst kv), view V W n0 e (snd kv) with Some a, Some b => Some (a, b) | _, _ => None end = Some e0) l0 g0 -> NoDup (map (fun e => key_text (fst e)) g0)).
  { intros n0 l0 g0 N0 K0 F0. induction F0 as [|[a x] [ka g] l0 g0 E F0 IH]; cbn [map fst]; [constructor|]. cbn [map fst] in N0. inversion N0 as [|? ? X Y]; subst. constructor.
    - intros IN. apply in_map_iff in IN as ([ka' g'] & ET & IN). destruct (f2_in_r _ _ _ _ F0 IN) as ([a' x'] & IX & E'). cbn [fst snd] in *.
      destruct (view_key W k a) as [k1|] eqn:EK; [|discriminate]. destruct (view V W n0 e x); [|discriminate]. injection E as -> _.
      destruct (view_key W k a') as [k2|] eqn:EK'; [|discriminate]. destruct (view V W n0 e x'); [|discriminate]. injection E' as -> _.
      apply X. apply in_map_iff. exists (a', x'). split; [|exact IX]. cbn [fst]. exact (key_inj k a' a _ _ (K0 _ (or_intror IX)) (K0 _ (or_introl eq_refl)) EK' EK ET).
    - apply IH; [exact Y|]. intros kv IN. apply K0. right. exact IN. }
  pose proof (NK _ _ _ N K F1) as NG. pose proof (NK _ _ _ N' K' F2) as NG'. clear NK.
  assert (EK : map (fun e => key_text (fst e)) ms = map (fun e => key_text (fst e)) ms').
  { apply keys_sorted; try assumption.
    - eapply Permutation_NoDup; [apply Permutation_map, P|exact NG].
    - eapply Permutation_NoDup; [apply Permutation_map, P'|exact NG'].
    - intros kt. rewrite <- (Permutation_map _ P), <- (Permutation_map _ P'), !in_map_iff. split; intros ([ka g] & <- & IN); cbn [fst].
      + destruct (V1 _ _ IN) as (a & x & IX & E1 & _). destruct (SA _ _ IX) as (x' & IX' & _). destruct (f2_in_l _ _ _ _ F2 IX') as ([ka' g'] & IG & E2). cbn [fst snd] in E2. rewrite E1 in E2.
        destruct (view V W n' e x'); [|discriminate]. injection E2 as <- _. exists (ka, g'). auto.
      + destruct (V2 _ _ IN) as (a & x & IX & E1 & _). destruct (SB _ _ IX) as (x' & IX' & _). destruct (f2_in_l _ _ _ _ F1 IX') as ([ka' g'] & IG & E2). cbn [fst snd] in E2. rewrite E1 in E2.
        destruct (view V W n e x'); [|discriminate]. injection E2 as <- _. exists (ka, g'). auto. }
  assert (Q : forall k1 g1 k2 g2, In (k1, g1) ms -> In (k2, g2) ms' -> key_text k1 = key_text k2 -> k1 = k2 /\ forall x x', vdoc html true trust g1 x -> vdoc html true trust g2 x' -> x = x').
  { intros k1 g1 k2 g2 H1 H2 ET. apply (Permutation_in _ (Permutation_sym P)) in H1. apply (Permutation_in _ (Permutation_sym P')) in H2.
    destruct (V1 _ _ H1) as (a1 & x1 & I1 & E1 & W1). destruct (V2 _ _ H2) as (a2 & x2 & I2 & E2 & W2).
    pose proof (key_inj k a1 a2 _ _ (K _ I1) (K' _ I2) E1 E2 ET) as <-. rewrite E1 in E2. injection E2 as <-. split; [reflexivity|]. intros y y' Y Y'.
    destruct (SA _ _ I1) as (x2' & I2' & SX). assert (x2' = x2).
    { clear - N' I2 I2'. induction l' as [|[b z] l' IH]; [destruct I2|]. cbn [map fst] in N'. inversion N' as [|? ? X Y]; subst. destruct I2 as [E|I2], I2' as [E'|I2']; try congruence; auto.
      - injection E as -> ->. exfalso. apply X. apply in_map_iff. exists (a1, x2'). auto.
      - injection E' as -> ->. exfalso. apply X. apply in_map_iff. exists (a1, x2). auto. }
    subst x2'. exact (H a1 x1 x2 I1 I2 SX _ _ _ _ _ _ W1 W2 Y Y'). }
  clear - EK Q G G'. revert ms' xs' EK Q G'. induction G as [|[k1 g1] [[tk tx] y] ms xs [KD Vy] G IH]; intros [|[k2 g2] ms'] xs' EK Q G'; try discriminate; inversion G' as [|? [[tk2 tx2] y2] ? ys2' [KD2 Vy2] G2']; subst; cbn [map fst snd] in *; [reflexivity|].
  injection EK as ET EK. destruct (Q k1 g1 k2 g2 (or_introl eq_refl) (or_introl eq_refl) ET) as [<- QV]. destruct (kdoc_det _ _ _ _ _ KD KD2) as [<- <-]. f_equal.
  - f_equal. apply QV; assumption.
  - eapply IH; [exact EK| |exact G2']. intros k1' g1' k2' g2' H1 H2. apply Q; right; assumption.
Qed.
Lemma struct_docs trust n n' m m' i fl fs fs' xs xs' :
  Forall2 (field_view V W n i m) fl fs -> Forall2 (field_view V W n' i m') fl fs' ->
  (forall f hv hv', In f fl -> field_view V W n i m f hv -> field_view V W n' i m' f hv' ->
     emitted hv = emitted hv' /\ forall x x', vdoc html true trust (snd hv) x -> vdoc html true trust (snd hv') x' -> emitted hv = true -> x = x') ->
  Forall2 (fun e x => fst x = (TKey, json_string html (f_name (fst e))) /\ vdoc html true trust (snd e) (snd x)) (filter emitted fs) xs ->
  Forall2 (fun e x => fst x = (TKey, json_string html (f_name (fst e))) /\ vdoc html true trust (snd e) (snd x)) (filter emitted fs') xs' -> xs = xs'.
Proof.
  intros F1. revert fs' xs xs'. induction F1 as [|f hv fl fs FV F1 IH]; intros fs' xs xs' F2 H G G'; inversion F2 as [|? hv' ? fs2 FV' F2']; subst; cbn [filter] in *; [inversion G; inversion G'; reflexivity|].
  destruct (H f hv hv' (or_introl eq_refl) FV FV') as [E D]. rewrite <- E in G'. destruct (emitted hv) eqn:EM.
  - inversion G as [|? [kx y] ? xs1 [K1 Y1] G1]; subst. inversion G' as [|? [kx' y'] ? xs1' [K1' Y1'] G1']; subst. cbn [fst snd] in *. f_equal.
    + f_equal; [|apply D; auto]. rewrite K1, K1'. destruct FV as [-> _], FV' as [-> _]. reflexivity.
    + eapply IH; try eassumption. intros f1 h1 h1' I1; apply (H f1 h1 h1' (or_intror I1)).
  - eapply IH; try eassumption. intros f1 h1 h1' I1; apply (H f1 h1 h1' (or_intror I1)).
Qed.
Lemma si_tree m gs : NoDup (map fst m) -> Forall (fun kv => key_ok V W KYString (fst kv) /\ trip V W F YIface (snd kv)) m ->
  Forall2 (fun kv e => match kv with (MKStr k, MIface v) => Some (k, tree v) | _ => None end = Some e) m gs ->
  exists j, go_tree_of (d_usenum F) (GMapSI (Some gs)) (JVMap j) /\ forall k v, In (k, v) j <-> In (MKStr k, MIface v) m.
Proof.
  intros N FM F1. assert (X : exists j, Forall2 (fun e e' => fst e = fst e' /\ valid_utf8 (fst e) /\ go_tree_of (d_usenum F) (snd e) (snd e')) gs j /\ (forall k v, In (k, v) j <-> In (MKStr k, MIface v) m) /\
    (forall k, In k (map fst gs) -> In (MKStr k) (map fst m))).
  { clear N. induction F1 as [|[a x] [k g] m gs E F1 IH].
    - exists []. split; [constructor|]. split; [|intros k []]. intros k v. split; intros [].
    - inversion FM as [|? ? [K TX] FM']; subst. destruct (IH FM') as (j & F2 & IN & KS). cbn [fst snd] in *. destruct a as [k0| |]; try discriminate. destruct x; try discriminate. injection E as -> <-.
      inversion TX as [| | | | | | | | |? (GT & _)| | | | | | | | | | | | | | | |]; subst. cbn [key_ok] in K. exists ((k, v) :: j). split; [constructor; [auto|exact F2]|]. split.
      + intros k1 v1. cbn [In]. rewrite IN. split; (intros [E|H]; [left; congruence|right; exact H]).
      + cbn [map fst In]. intros k1 [<-|H]; [left; reflexivity|right; exact (KS k1 H)]. }
  destruct X as (j & F2 & IN & KS). exists j. split; [|exact IN]. apply gt_map; [|exact F2]. clear - N F1 KS. induction F1 as [|[a x] [k g] m gs E F1 IH]; cbn [map fst]; [constructor|]. cbn [map fst] in N. inversion N as [|? ? X Y]; subst.
  destruct a as [k0| |]; try discriminate. destruct x; try discriminate. injection E as -> <-. 
  assert (KS' : forall k, In k (map fst gs) -> In (MKStr k) (map fst m)).
  { clear - F1. induction F1 as [|[a x] [k g] m gs E F1 IH]; cbn [map fst In]; [trivial|]. destruct a as [k0| |]; try discriminate. destruct x; try discriminate. injection E as -> <-. intros k1 [<-|H]; [left; reflexivity|right; apply IH, H]. }
  constructor; [intros H; apply X, KS', H|apply IH; assumption].
Qed.
Definition sr_elem (e : bytes * option bytes) : EncModel.mkey * gval := (KString (fst e), GRaw (snd e)).
Lemma sr_view n m gs : Forall2 (fun kv e => match kv with (MKStr k, MRaw r) => Some (k, r) | _ => None end = Some e) m gs ->
  Forall2 (fun kv e0 => match view_key W KYString (fst kv), view V W n YRaw (snd kv) with Some a, Some b => Some (a, b) | _, _ => None end = Some e0) m (map sr_elem gs).
Proof.
  induction 1 as [|[a x] [k r] m gs E F1 IH]; cbn [map]; constructor; [|exact IH]. destruct a; try discriminate. destruct x; try discriminate. injection E as -> ->. rewrite view_eq. reflexivity.
Qed.
Lemma sr_order (gs ms : list (bytes * option bytes)) : in_order true fst gs ms -> in_order true (fun e => key_text (fst e)) (map sr_elem gs) (map sr_elem ms).
Proof.
  intros [P A]. split; [apply Permutation_map, P|]. clear P. unfold ascending. induction A as [|x l A IH H]; cbn [map]; [constructor|]. constructor; [exact IH|]. apply Forall_map. exact H.
Qed.
Lemma sr_doc trust ms xs : Forall2 (fun e x => fst x = (TKey, json_string html (fst e)) /\ vdoc html true trust (GRaw (snd e)) (snd x)) ms xs ->
  Forall2 (fun e x => kdoc html (fst e) (fst (fst x)) (snd (fst x)) /\ vdoc html true trust (snd e) (snd x)) (map sr_elem ms) xs.
Proof. induction 1 as [|e [k x] ms xs [K D] H IH]; cbn [map]; constructor; [|exact IH]. cbn [fst snd sr_elem] in *. subst k. split; [constructor|exact D]. Qed.
Lemma sr_docs trust m0 m1 gs gs' y y' : (forall a x, In (a, x) m0 -> exists x', In (a, x') m1 /\ again YRaw x x') -> (forall a x', In (a, x') m1 -> exists x, In (a, x) m0 /\ again YRaw x x') ->
  NoDup (map fst m0) -> NoDup (map fst m1) -> Forall (fun kv => key_ok V W KYString (fst kv) /\ trip V W F YRaw (snd kv)) m0 -> Forall (fun kv => key_ok V W KYString (fst kv) /\ trip V W F YRaw (snd kv)) m1 ->
  Forall2 (fun kv e => match kv with (MKStr k, MRaw r) => Some (k, r) | _ => None end = Some e) m0 gs ->
  Forall2 (fun kv e => match kv with (MKStr k, MRaw r) => Some (k, r) | _ => None end = Some e) m1 gs' ->
  vdoc html true trust (GMapSR (Some gs)) y -> vdoc html true trust (GMapSR (Some gs')) y' -> y = y'.
Proof.
  intros A B N N' FM FM' EL EL' D1 D2.
  assert (X : forall g z, vdoc html true trust (GMapSR (Some g)) z -> exists ms xs, z = DObj ONormal xs /\ in_order true fst g ms /\
    Forall2 (fun e x => fst x = (TKey, json_string html (fst e)) /\ vdoc html true trust (GRaw (snd e)) (snd x)) ms xs) by (intros g z D; inversion D; subst; eauto).
  destruct (X _ _ D1) as (ms & xs & -> & O1 & G1). destruct (X _ _ D2) as (ms' & xs' & -> & O2 & G2). f_equal.
  apply (map_docs trust KYString YRaw m0 m1 0%nat 0%nat (map sr_elem gs) (map sr_elem gs') (map sr_elem ms) (map sr_elem ms')); try assumption; try (apply sr_view; assumption); try (apply sr_order; assumption); try (apply sr_doc; assumption).
  - clear - FM. induction FM as [|? ? [? _] ? IH]; constructor; assumption.
  - clear - FM'. induction FM' as [|? ? [? _] ? IH]; constructor; assumption.
  - intros a x x' _ _ S n n' g g' z z' E1 E2 V1 V2. inversion S as [? ? Q| | | | |? r' R| | | | | | | | | |]; subst; [destruct Q|]. rewrite view_eq in E1, E2. injection E1 as <-. injection E2 as <-. eapply raw_doc; eassumption.
Qed.
Fixpoint doc_same trust t m (T : trip V W F t m) {struct T} : forall m', again t m m' -> trip V W F t m' -> docs trust t m m'.
Proof.
  destruct T as [x|it z R|z R|w f FI PA|s N|s U| |len d L WF B|t TC E|v TO|e|v TO| |s a J|n e l LE TL| |e len d L TD| |k e m N TM|m TM|m TM| |e x TX NL|i l PP TF TQ TO|u s t a E J NN P|u s t E U P];
    intros m' S T' n1 n2 g g' y y' E1 E2 D1 D2; pose proof E1 as EO1; pose proof E2 as EO2; rewrite view_eq in E1, E2.
  - inversion S; subst; try contradiction. injection E1 as <-. injection E2 as <-. inversion D1; subst; inversion D2; subst; congruence.
  - inversion S; subst; try contradiction. injection E1 as <-. injection E2 as <-. inversion D1; subst; inversion D2; subst; congruence.
  - inversion S; subst; try contradiction. injection E1 as <-. injection E2 as <-. inversion D1; subst; inversion D2; subst; congruence.
  - inversion S; subst; try contradiction. injection E1 as <-. injection E2 as <-. inversion D1; subst; inversion D2; subst; congruence.
  - inversion S; subst; try contradiction. injection E1 as <-. injection E2 as <-. assert (s <> []) by (intros ->; destruct (number_head _ N) as (c & r & NH & _); discriminate). inversion D1; subst; inversion D2; subst; congruence.
  - inversion S; subst; try contradiction. injection E1 as <-. injection E2 as <-. inversion D1; subst; inversion D2; subst; congruence.
  - inversion S; subst; try contradiction. injection E1 as <-. injection E2 as <-. inversion D1; subst; inversion D2; subst; congruence.
  - inversion S as [? ? Q| |? ? d' L' EF| | | | | | | | | | | | |]; subst; try contradiction. injection E1 as <-. injection E2 as <-. rewrite EF in D1. inversion D1; subst; inversion D2; subst; congruence.
  - inversion S; subst; try contradiction. injection E1 as <-. injection E2 as <-. inversion D1; subst; inversion D2; subst; congruence.
  - inversion S as [? ? Q| | |? v' JS| | | | | | | | | | | |]; subst; try contradiction. injection E1 as <-. injection E2 as <-.
    inversion T'; subst. destruct TO as (GT & _). match goal with H : tree_ok _ _ v' |- _ => destruct H as (GT' & _) end.
    apply (same_doc html trust _ _ _ GT _ _ _ _ GT' JS); apply iface_vdoc; rewrite <- tree_iface; assumption.
  - inversion S as [? ? Q| | | |? ? v' JS| | | | | | | | | | |]; subst; try contradiction. injection E1 as <-. injection E2 as <-. apply jv_null_same in JS. rewrite (proj1 JS eq_refl) in D2. inversion D1; subst; inversion D2; subst; congruence.
  - inversion S as [? ? Q| | | |? ? v' JS| | | | | | | | | | |]; subst; try contradiction. injection E1 as <-. injection E2 as <-.
    destruct TO as (GT & _). assert (GT' : go_tree_of (d_usenum F) (tree v') v') by (inversion T'; subst; [constructor|match goal with H : tree_ok _ _ v' |- _ => apply H end]).
    apply (same_doc html trust _ _ _ GT _ _ _ _ GT' JS); apply iface_vdoc; rewrite <- tree_iface; assumption.
  - inversion S as [? ? Q| | | | |? r' R| | | | | | | | | |]; subst; try contradiction. injection E1 as <-. injection E2 as <-. eapply raw_doc; eassumption.
  - inversion S as [? ? Q| | | | |? r' R| | | | | | | | | |]; subst; try contradiction. injection E1 as <-. injection E2 as <-. eapply raw_doc; eassumption.
  - inversion S as [? ? Q| | | | | |? ? ? l' F2| | | | | | | | |]; subst; try contradiction. destruct (opt_list _) as [gs|] eqn:EL in E1; [|discriminate]. destruct (opt_list _) as [gs'|] eqn:EL' in E2; [|discriminate].
    injection E1 as <-. injection E2 as <-. apply opt_list_some in EL, EL'. inversion D1; subst. inversion D2; subst. f_equal. inversion T' as [| | | | | | | | | | | | | |? ? ? _ TL'| | | | | | | | | | |]; subst.
    eapply (list_docs _ _ (again e)); [exact F2|exact EL|exact EL'|eassumption|eassumption|]. rewrite Forall_forall in TL'. cbn beta.
    clear - TL TL' doc_same. induction TL as [|x l Tx TL IH]; intros m m' g g' x0 x0' I1 I2 SM V1 V2 D1 D2; [destruct I1|]. destruct I1 as [<-|I1].
    + exact (doc_same trust e x Tx m' SM (TL' _ I2) _ _ _ _ _ _ V1 V2 D1 D2).
    + exact (IH m m' g g' x0 x0' I1 I2 SM V1 V2 D1 D2).
  - inversion S; subst; try contradiction. injection E1 as <-. injection E2 as <-. inversion D1; subst; inversion D2; subst; congruence.
  - inversion S as [? ? Q| | | | | | | |? ? ? d' L' F2| | | | | | |]; subst; try contradiction. destruct (opt_list _) as [gs|] eqn:EL in E1; [|discriminate]. destruct (opt_list _) as [gs'|] eqn:EL' in E2; [|discriminate].
    injection E1 as <-. injection E2 as <-. apply opt_list_some in EL, EL'. inversion D1; subst. inversion D2; subst. f_equal. inversion T' as [| | | | | | | | | | | | | | | |? ? ? _ TL'| | | | | | | | |]; subst.
    eapply (list_docs _ _ (again e)); [exact F2|exact EL|exact EL'|eassumption|eassumption|]. rewrite Forall_forall in TL'. cbn beta.
    clear - TD TL' doc_same. induction TD as [|x l Tx TL IH]; intros m m' g g' x0 x0' I1 I2 SM V1 V2 D1 D2; [destruct I1|]. destruct I1 as [<-|I1].
    + exact (doc_same trust e x Tx m' SM (TL' _ I2) _ _ _ _ _ _ V1 V2 D1 D2).
    + exact (IH m m' g g' x0 x0' I1 I2 SM V1 V2 D1 D2).
  - inversion S; subst; try contradiction. injection E1 as <-. injection E2 as <-. inversion D1; subst; inversion D2; subst; congruence.
  - inversion S as [? ? Q| | | | | | | | | |? ? ? m1 A B| | | | |]; subst; try contradiction. inversion T' as [| | | | | | | | | | | | | | | | | |? ? ? N' TM'| | | | | | |]; subst.
    destruct (opt_list _) as [gs|] eqn:EL in E1; [|discriminate]. destruct (opt_list _) as [gs'|] eqn:EL' in E2; [|discriminate].
    injection E1 as <-. injection E2 as <-. apply opt_list_some in EL, EL'. inversion D1; subst. inversion D2; subst. f_equal.
    eapply (map_docs trust k e m m1); try eassumption.
    + clear - TM. induction TM as [|? ? [? _] ? IH]; constructor; assumption.
    + clear - TM'. induction TM' as [|? ? [? _] ? IH]; constructor; assumption.
    + rewrite Forall_forall in TM'. clear - TM TM' doc_same. induction TM as [|[b z] m [_ Tx] TM IH]; intros a x x' I1 I2 SX; [destruct I1|]. destruct I1 as [E|I1]; [|exact (IH a x x' I1 I2 SX)].
      injection E as -> ->. exact (doc_same trust e x Tx x' SX (proj2 (TM' _ I2))).
  - inversion S as [? ? Q| | | | | | | | | | |? ? SM| | | |]; subst; try contradiction. inversion T' as [| | | | | | | | | | | | | | | | | | |? TM'| | | | | |]; subst. clear S T' doc_same.
    inversion SM as [? ? Q| | | | | | | | | |? ? m0 m1 A B| | | | |]; subst; try contradiction; [injection E1 as <-; injection E2 as <-; inversion D1; subst; inversion D2; subst; congruence|].
    inversion TM as [| | | | | | | | | | | | | | | | | |? ? ? N FM| | | | | | |]; subst. inversion TM' as [| | | | | | | | | | | | | | | | | |? ? ? N' FM'| | | | | | |]; subst.
    destruct (opt_list _) as [gs|] eqn:EL in E1; [|discriminate]. destruct (opt_list _) as [gs'|] eqn:EL' in E2; [|discriminate]. injection E1 as <-. injection E2 as <-. apply opt_list_some in EL, EL'.
    destruct (si_tree _ _ N FM EL) as (j & GT & IJ). destruct (si_tree _ _ N' FM' EL') as (j' & GT' & IJ').
    apply (same_doc html trust _ _ _ GT _ _ _ _ GT'); [|exact D1|exact D2]. apply same_map; intros k v IN.
    + apply IJ in IN. destruct (A _ _ IN) as (x' & IX & SX). inversion SX; subst; [contradiction|]. eexists. split; [apply IJ'; eassumption|assumption].
    + apply IJ' in IN. destruct (B _ _ IN) as (x' & IX & SX). inversion SX; subst; [contradiction|]. eexists. split; [apply IJ; eassumption|assumption].
  - inversion S as [? ? Q| | | | | | | | | | | |? ? SM| | |]; subst; try contradiction. inversion T' as [| | | | | | | | | | | | | | | | | | | |? TM'| | | | |]; subst. clear S T' doc_same.
    inversion SM as [? ? Q| | | | | | | | | |? ? m0 m1 A B| | | | |]; subst; try contradiction; [injection E1 as <-; injection E2 as <-; inversion D1; subst; inversion D2; subst; congruence|].
    inversion TM as [| | | | | | | | | | | | | | | | | |? ? ? N FM| | | | | | |]; subst. inversion TM' as [| | | | | | | | | | | | | | | | | |? ? ? N' FM'| | | | | | |]; subst.
    destruct (opt_list _) as [gs|] eqn:EL in E1; [|discriminate]. destruct (opt_list _) as [gs'|] eqn:EL' in E2; [|discriminate]. injection E1 as <-. injection E2 as <-. apply opt_list_some in EL, EL'.
    eapply sr_docs; eassumption.
  - inversion S; subst; try contradiction. injection E1 as <-. injection E2 as <-. inversion D1; subst; inversion D2; subst; congruence.
  - inversion S as [? ? Q| | | | | | | | | | | | | |? ? x' SX|]; subst; try contradiction. destruct (view V W n1 e x) as [h|] eqn:V1; [|discriminate]. destruct (view V W n2 e x') as [h'|] eqn:V2; [|discriminate].
    injection E1 as <-. injection E2 as <-. inversion T' as [| | | | | | | | | | | | | | | | | | | | | |? ? TX' _| | |]; subst. inversion D1; subst. inversion D2; subst.
    eapply (doc_same trust e x TX x' SX TX'); eassumption.
  - assert (TF' : forall f x x', In f (v_flds V i) -> get (jf_path f) (MList l) = Some x -> again (jf_ty f) x x' -> trip V W F (jf_ty f) x' -> docs trust (jf_ty f) x x').
    { intros f x x' I1 G SX TX'. destruct (TF f x I1 G) as [Tx _]. exact (doc_same trust _ _ Tx x' SX TX'). }
    clear doc_same TF. inversion S as [? ? Q| | | | | | | | | | | | | | |? ? l' A B C]; subst; [contradiction|]. clear E1 E2. rename EO1 into E1, EO2 into E2. apply view_struct in E1 as (n1' & fs & -> & -> & FV1). apply view_struct in E2 as (n2' & fs' & -> & -> & FV2).
    inversion T' as [| | | | | | | | | | | | | | | | | | | | | | |? ? _ TF2 _ _| |]; subst.
    assert (NE : fs = [] <-> fs' = []) by (clear - FV1 FV2; inversion FV1; subst; inversion FV2; subst; try congruence; split; intros; congruence).
    assert (X : forall g xs, vdoc html true trust (GStruct g) xs -> (g = [] /\ xs = DObj ONoFields []) \/ (g <> [] /\ exists ys, xs = DObj OAllOmitted ys /\ Forall2 (fun e x => fst x = (TKey, json_string html (f_name (fst e))) /\ vdoc html true trust (snd e) (snd x)) (filter emitted g) ys)).
    { intros g xs D. inversion D; subst; [left; auto|right; eauto]. }
    destruct (X _ _ D1) as [[G1 ->]|(G1 & ys & -> & H1)], (X _ _ D2) as [[G2 ->]|(G2 & ys' & -> & H2)]; try tauto. f_equal.
    eapply struct_docs; [exact FV1|exact FV2| |exact H1|exact H2]. intros f hv hv' I1 F1 F2. destruct (field_cases V W _ _ _ _ _ F1) as [EM1 C1]. destruct (field_cases V W _ _ _ _ _ F2) as [EM2 C2].
    pose proof (get_both i l l' f S I1) as GB. pose proof (left_out_same i l l' f S I1) as LO. split.
    + apply Bool.eq_true_iff_eq. rewrite EM1, EM2, LO. destruct (get (jf_path f) (MList l)), (get (jf_path f) (MList l')); try contradiction; [split; intros [? _]; (split; [assumption|discriminate])|tauto].
    + intros x x' Dx Dx' EM. destruct (get (jf_path f) (MList l)) as [z|] eqn:G; [|apply EM1 in EM as [_ []]; reflexivity]. destruct (get (jf_path f) (MList l')) as [z'|] eqn:G'; [|contradiction].
      destruct C1 as (_ & h & VH & WR). destruct C2 as (_ & h' & VH' & WR'). apply (wraps_doc _ _ _ _ _ _ WR) in Dx. apply (wraps_doc _ _ _ _ _ _ WR') in Dx'.
      pose proof (TF' f z z' I1 G GB (proj1 (TF2 f z' I1 G'))) as DD.
      destruct (jf_quot f); cbn [view_quot] in *; [eapply DD; eassumption| |]; inversion Dx; subst; inversion Dx'; subst; f_equal; eapply DD; eassumption.
  - inversion S; subst; try contradiction. injection E1 as <-. injection E2 as <-. rewrite E in *. inversion D1; subst. inversion D2; subst. eapply raw_det; eassumption.
  - inversion S; subst; try contradiction. injection E1 as <-. injection E2 as <-. rewrite E in *. inversion D1; subst; inversion D2; subst; congruence.
Qed.
End Normal.
