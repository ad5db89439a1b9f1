(** Theorems about readers of sorted and unsorted maps: C110. *)
From Coq Require Import Permutation.
From Verif Require Import Bytes ParseModel StringModel EncModel DecModel SpecJson SpecString SpecRender SpecColor SpecSum SpecReader SpecOption
  ParseFacts TokenFacts EncFacts RawFacts EncMain TextFacts DocFacts RawText Unambig PropsEnc PropsReader
  TypeModel SpecDec SpecType SpecFit SpecField SpecSpell SpecOrder SpecSorted TypeFacts TypeMain PropsType PropsErr PropsTrip PropsSpell PropsAgain SpecSame DecFacts ExactFloat TripType PropsOrder.

Section sorted.
  Variables (V : tenv) (F : dflags) (K : kty -> Prop).
  Lemma reordered_same a : reordered V F K a a.
  Proof.
    induction a as [| | |t|t|l IH|l IH] using jast_rect'; try (apply ro_leaf; exact I).
    - apply ro_arr. induction IH; constructor; auto.
    - apply (ro_obj _ _ _ l l l); [auto|]. induction IH; constructor; auto.
  Qed.
  Variables (h t : bool) (ind : option indenter).
  Notation D := (dast h ind).
  Lemma raw_alike r x1 x2 : vdoc h true t (GRaw r) x1 -> vdoc h false t (GRaw r) x2 -> x1 = x2.
  Proof.
    intros H1 H2. inversion H1; subst; inversion H2; subst; [reflexivity|]. f_equal. unfold raw_text in *. destruct t; [eapply jtext_unique|eapply jvalue_unique]; eassumption.
  Qed.
  Lemma flat_alike v : flat v -> forall x1 x2, vdoc h true t v x1 -> vdoc h false t v x2 -> x1 = x2.
  Proof.
    induction v using gval_rect'; cbn [flat]; intros FL x1 x2 H1 H2; try contradiction; inversion H1; subst; inversion H2; subst; try reflexivity; try congruence.
    - match goal with X : number_lit [] |- _ => destruct (number_head _ X) as (? & ? & Q & _); discriminate Q end.
    - match goal with X : number_lit [] |- _ => destruct (number_head _ X) as (? & ? & Q & _); discriminate Q end.
    - cbn [optP] in *. eauto.
  Qed.
  Lemma obj_reordered {A} (L1 L2 : list A) (P1 P2 : A -> tkind * bytes * doc -> Prop) xs1 xs2 q1 q2 d : Permutation L1 L2 -> Forall2 P1 L1 xs1 -> Forall2 P2 L2 xs2 ->
    (forall a e1 e2, In a L2 -> P1 a e1 -> P2 a e2 -> snd (fst e1) = snd (fst e2) /\ (keys_apart V F K (D (d + 1) (snd e1)) -> reordered V F K (D (d + 1) (snd e1)) (D (d + 1) (snd e2)))) ->
    keys_apart V F K (D d (DObj q1 xs1)) -> reordered V F K (D d (DObj q1 xs1)) (D d (DObj q2 xs2)).
  Proof.
    intros PM F1 F2 H [NC AP]. destruct (Permutation_Forall2 PM F1) as (xs & PX & FX). cbn [dast].
    set (g := fun e : tkind * bytes * doc => match e with (_, t0, y) => (t0, D (d + 1) y) end) in *.
    apply (ro_obj _ _ _ _ (map g xs)). { right. split; [now apply Permutation_map|exact NC]. }
    assert (AX : Forall (fun e => keys_apart V F K (D (d + 1) (snd e))) xs).
    { apply (Permutation_Forall PX). fold g in AP. apply all_map in AP. apply Forall_map in AP. eapply Forall_impl; [|exact AP]. intros [[k tx] y] Hy. exact Hy. }
    clear - FX F2 H AX. revert xs2 F2. induction FX as [|a e1 L es P _ IH]; intros xs2 F2; inversion F2; subst; [constructor|].
    apply Forall_cons_iff in AX. destruct AX as [A1 AX]. cbn [map]. constructor.
    - match goal with X : P2 a ?e2 |- _ => destruct (H a e1 e2 (or_introl eq_refl) P X) as [E R]; destruct e1 as [[k1 t1] y1], e2 as [[k2 t2] y2] end. cbn in *. auto.
    - apply IH; auto. intros a' e1' e2' I'. apply H. now right.
  Qed.
  Lemma arr_reordered l xs ys d : Forall (fun v => forall x1 x2 d, scalar_strings v -> vdoc h true t v x1 -> vdoc h false t v x2 -> keys_apart V F K (D d x1) -> reordered V F K (D d x1) (D d x2)) l ->
    SpecRender.all (map scalar_strings l) -> Forall2 (vdoc h true t) l xs -> Forall2 (vdoc h false t) l ys -> keys_apart V F K (D d (DArr xs)) -> reordered V F K (D d (DArr xs)) (D d (DArr ys)).
  Proof.
    intros IH SS X Y AP. cbn [dast] in *. apply ro_arr. cbn [keys_apart] in AP. apply all_map in AP. apply all_map in SS. apply Forall_map in AP.
    revert ys Y. induction X; intros ys Y; inversion Y; subst; cbn [map]; constructor; apply Forall_cons_iff in IH, SS, AP; destruct IH, SS, AP; auto.
  Qed.
  Lemma sort_docs v : forall x1 x2 d, scalar_strings v -> vdoc h true t v x1 -> vdoc h false t v x2 -> keys_apart V F K (D d x1) -> reordered V F K (D d x1) (D d x2).
  Proof.
    induction v as [ |b|z|f|s|s|s|tt|l IH| |l IH| |m IH| |m IH|m|fs IH|o IH|o IH|o IH|s|r|r|v IH| ] using gval_rect'; intros x1 x2 d SS H1 H2 AP; cbn [scalar_strings] in SS;
      try (match type of H1 with vdoc _ _ _ ?w _ => assert (FW : flat w) by exact I; rewrite (flat_alike w FW _ _ H1 H2); apply reordered_same end).
    - inversion H1; subst; inversion H2; subst; apply reordered_same.
    - inversion H1; subst; inversion H2; subst; apply reordered_same.
    - inversion H1; subst; inversion H2; subst; apply reordered_same.
    - inversion H1; subst; inversion H2; subst. eapply arr_reordered; eassumption.
    - inversion H1; subst; inversion H2; subst; apply reordered_same.
    - inversion H1; subst; inversion H2; subst. eapply arr_reordered; eassumption.
    - inversion H1; subst; inversion H2; subst; apply reordered_same.
    - apply all_map in SS. rewrite Forall_forall in SS, IH. inversion H1; subst; inversion H2; subst. unfold in_order in *; subst.
      match goal with P : Permutation ?m0 ?m' /\ _, X : Forall2 _ ?m' _, Y : Forall2 _ ?m0 _ |- _ => eapply (obj_reordered _ _ _ _ _ _ _ _ _ (Permutation_sym (proj1 P)) X Y); [|exact AP] end.
      intros [k a] e1 e2 Ia [K1 X1] [K2 X2]. cbn [fst snd] in *. split; [inversion K1; subst; inversion K2; subst; congruence|]. apply (IH _ Ia); [exact (SS _ Ia)|exact X1|exact X2].
    - inversion H1; subst; inversion H2; subst; apply reordered_same.
    - apply all_map in SS. rewrite Forall_forall in SS, IH. inversion H1; subst; inversion H2; subst. unfold in_order in *; subst.
      match goal with P : Permutation ?m0 ?m' /\ _, X : Forall2 _ ?m' _, Y : Forall2 _ ?m0 _ |- _ => eapply (obj_reordered _ _ _ _ _ _ _ _ _ (Permutation_sym (proj1 P)) X Y); [|exact AP] end.
      intros [k a] e1 e2 Ia [K1 X1] [K2 X2]. cbn [fst snd] in *. split; [now rewrite K1, K2|]. apply (IH _ Ia); [exact (SS _ Ia)|exact X1|exact X2].
    - inversion H1; subst; inversion H2; subst; [apply reordered_same|]. unfold in_order in *; subst.
      match goal with P : Permutation ?m0 ?m' /\ _, X : Forall2 _ ?m' _, Y : Forall2 _ ?m0 _ |- _ => eapply (obj_reordered _ _ _ _ _ _ _ _ _ (Permutation_sym (proj1 P)) X Y); [|exact AP] end.
      intros [k a] e1 e2 Ia [K1 X1] [K2 X2]. cbn [fst snd] in *. split; [now rewrite K1, K2|]. rewrite (raw_alike _ _ _ X1 X2). intros _. apply reordered_same.
    - apply all_map in SS. rewrite Forall_forall in SS, IH. inversion H1; subst; inversion H2; subst; try congruence; [apply reordered_same|].
      match goal with X : Forall2 _ _ ?a, Y : Forall2 _ _ ?b |- reordered _ _ _ (dast _ _ _ (DObj _ ?a)) (dast _ _ _ (DObj _ ?b)) => eapply (obj_reordered _ _ _ _ _ _ _ _ _ (Permutation_refl _) X Y); [|exact AP] end.
      intros [k a] e1 e2 Ia [K1 X1] [K2 X2]. apply filter_In in Ia. destruct Ia as [Ia _]. cbn [fst snd] in *. split; [now rewrite K1, K2|]. apply (IH _ Ia); [exact (SS _ Ia)|exact X1|exact X2].
    - inversion H1; subst; inversion H2; subst. cbn [optP] in IH. eauto.
    - inversion H1; subst; inversion H2; subst; [apply reordered_same|]. cbn [optP] in IH. eauto.
    - inversion H1; subst; inversion H2; subst; [apply reordered_same|]. cbn [optP] in IH. eauto.
    - rewrite (raw_alike _ _ _ H1 H2). apply reordered_same.
    - inversion H1; subst; inversion H2; subst; [apply reordered_same|].
      match goal with X : vdoc _ true _ _ _, Y : vdoc _ false _ _ _ |- _ => rewrite (raw_alike _ _ _ X Y) end. apply reordered_same.
    - inversion H1; subst; inversion H2; subst; apply reordered_same.
    - inversion H1; subst; inversion H2; subst. match goal with X : vdoc _ true _ v _, Y : vdoc _ false _ v _ |- _ => rewrite (flat_alike _ SS _ _ X Y) end. apply reordered_same.
    - inversion H1.
  Qed.
End sorted.

(** * C110: readers cannot tell whether maps were sorted *)
(** With SortMapKeys and without it, in whatever layouts, the texts differ in white space and in the order of members
    only. *)
Theorem C110_tree V F (K : kty -> Prop) c1 c2 v o1 o2 : sort_or_not c1 c2 -> clean true (e_trust c1) false v -> clean false (e_trust c1) false v -> scalar_strings v ->
  outcome c1 v = Some (inl o1) -> outcome c2 v = Some (inl o2) ->
  exists a1 a2, jvalue o1 a1 /\ jvalue o2 a2 /\ (keys_apart V F K a1 -> reordered V F K a1 a2).
Proof.
  intros (S1 & S2 & H1 & H3 & K1 & K2 & I1 & I2) C1 C2 SS E1 E2.
  assert (G1 : exists x, vdoc (e_html c1) true (e_trust c1) v x /\ o1 = render (e_html c1) None (e_ind c1) 0 x).
  { destruct (verdict_vok (e_html c1) true (e_trust c1) v C1 (enc_verdict (e_html c1) true (e_trust c1) v false C1)) as [(x & V0 & G)|(_ & B)]; unfold outcome in E1.
    - rewrite (G c1 (conj eq_refl (conj S1 eq_refl)) (or_introl K1) 0) in E1. injection E1 as <-. exists x. split; [exact V0|]. unfold R. now rewrite K1.
    - destruct (B c1 (conj eq_refl (conj S1 eq_refl)) (or_introl K1) 0) as (o' & d' & e & E' & _). rewrite E' in E1. discriminate. }
  assert (G2 : exists x, vdoc (e_html c1) false (e_trust c1) v x /\ o2 = render (e_html c1) None (e_ind c2) 0 x).
  { destruct (verdict_vok (e_html c1) false (e_trust c1) v C2 (enc_verdict (e_html c1) false (e_trust c1) v false C2)) as [(x & V0 & G)|(_ & B)]; unfold outcome in E2.
    - rewrite (G c2 (conj (eq_sym H1) (conj S2 (eq_sym H3))) (or_introl K2) 0) in E2. injection E2 as <-. exists x. split; [exact V0|]. unfold R. now rewrite K2, H1.
    - destruct (B c2 (conj (eq_sym H1) (conj S2 (eq_sym H3))) (or_introl K2) 0) as (o' & d' & e & E' & _). rewrite E' in E2. discriminate. }
  destruct G1 as (x1 & V1 & ->), G2 as (x2 & V2 & ->).
  exists (dast (e_html c1) (e_ind c1) 0 x1), (dast (e_html c1) (e_ind c2) 0 x2).
  split; [exact (render_jvalue _ _ I1 x1 (vdoc_ok _ _ _ _ _ _ C1 V1) 0)|]. split; [exact (render_jvalue _ _ I2 x2 (vdoc_ok _ _ _ _ _ _ C2 V2) 0)|].
  rewrite (dast_flat _ (e_ind c2) (e_ind c1) x2 (vdoc_flat _ _ _ _ _ SS V2) 0 0). now apply sort_docs with (t := e_trust c1) (v := v).
Qed.
(** So Unmarshal stores the same, up to the order of the entries of maps, if no two keys of an object are
    the same to the target. *)
Theorem C110_unmarshal V F (K : kty -> Prop) t c1 c2 v o1 o2 x x' y : env_ok V -> env_names V -> everywhere keeps_no_text V t -> K KYString -> everywhere (keys_in K) V t ->
  sort_or_not c1 c2 -> clean true (e_trust c1) false v -> clean false (e_trust c1) false v -> scalar_strings v ->
  outcome c1 v = Some (inl o1) -> outcome c2 v = Some (inl o2) -> (forall a, jtext o1 a -> keys_apart V F K a) -> same_mem x x' ->
  unmarshal V F t o1 x = (None, y) -> exists y', unmarshal V F t o2 x' = (None, y') /\ same_mem y y'.
Proof.
  intros OK EN EK KS KI S C1 C2 SS E1 E2 AP SX U. destruct (C110_tree V F K c1 c2 v o1 o2 S C1 C2 SS E1 E2) as (a1 & a2 & J1 & J2 & R).
  apply jvalue_jtext in J1, J2. exact (C64_order V F K t o1 o2 a1 a2 x x' y OK EN EK KS KI J1 J2 (R (AP _ J1)) SX U).
Qed.
(** And either text is accepted where the other is. *)
Theorem C110_accepted V F (K : kty -> Prop) t c1 c2 v o1 o2 : env_ok V -> env_names V -> everywhere keeps_no_text V t -> K KYString -> everywhere (keys_in K) V t ->
  sort_or_not c1 c2 -> clean true (e_trust c1) false v -> clean false (e_trust c1) false v -> scalar_strings v ->
  outcome c1 v = Some (inl o1) -> outcome c2 v = Some (inl o2) -> (forall a, jtext o1 a -> keys_apart V F K a) ->
  (fst (unmarshal V F t o1 (zero V t)) = None <-> fst (unmarshal V F t o2 (zero V t)) = None).
Proof.
  intros OK EN EK KS KI S C1 C2 SS E1 E2 AP. destruct (C110_tree V F K c1 c2 v o1 o2 S C1 C2 SS E1 E2) as (a1 & a2 & J1 & J2 & R).
  apply jvalue_jtext in J1, J2. exact (C64_accepted V F K t o1 o2 a1 a2 OK EN EK KS KI J1 J2 (R (AP _ J1))).
Qed.
Print Assumptions C110_tree.
Print Assumptions C110_unmarshal.
Print Assumptions C110_accepted.
(** A map with keys that differ only in case, read into a struct: the last one wins. *)
Definition so_cfg (sorted : bool) : cfg := Cfg true sorted false None None (fun _ _ _ => None).
Theorem C110_case_refuted : exists v o1 o2 y1 y2, clean true false false v /\ clean false false false v /\ scalar_strings v /\
  outcome (so_cfg true) v = Some (inl o1) /\ outcome (so_cfg false) v = Some (inl o2) /\
  unmarshal er_env ex_flags (YStruct 1) o1 (zero er_env (YStruct 1)) = (None, MList [MBool y1; MMap None]) /\
  unmarshal er_env ex_flags (YStruct 1) o2 (zero er_env (YStruct 1)) = (None, MList [MBool y2; MMap None]) /\ y1 <> y2.
Proof.
  exists (GMapSI (Some [(bs "ok", GBool true); (bs "OK", GBool false)])). eexists _, _, _, _.
  split; [cbn; repeat split; apply is_wf; reflexivity|]. split; [cbn; repeat split; apply is_wf; reflexivity|]. split; [cbn; tauto|].
  split; [vm_compute; reflexivity|]. split; [vm_compute; reflexivity|]. split; [vm_compute; reflexivity|]. split; [vm_compute; reflexivity|]. discriminate.
Qed.
Print Assumptions C110_case_refuted.

(** Non-vacuity: the texts of C64_example, written from a map. *)
Example C110_holds : let v := GMapSI (Some [(bs "ok", GBool true); (bs "a", GInt 7)]) in
  sort_or_not (so_cfg true) (so_cfg false) /\ clean true false false v /\ clean false false false v /\ scalar_strings v /\
  outcome (so_cfg true) v = Some (inl or_one) /\ outcome (so_cfg false) v = Some (inl or_two) /\ (forall a, jtext or_one a -> keys_apart er_env ex_flags (eq KYString) a).
Proof.
  cbv zeta. split; [repeat split|]. split; [cbn; repeat split; apply is_wf; reflexivity|]. split; [cbn; repeat split; apply is_wf; reflexivity|]. split; [cbn; tauto|].
  split; [vm_compute; reflexivity|]. split; [vm_compute; reflexivity|]. intros a J.
  destruct C64_example as (_ & _ & _ & _ & (a1 & a2 & J1 & _ & NE & R) & _). rewrite (jtext_unique _ _ _ J J1).
  assert (J0 : jtext or_one (JObj [(bs """a""", JNum (bs "7")); (bs """ok""", JTrue)])).
  { exists [], or_one, []. split; [reflexivity|]. split; [constructor|]. split; [|constructor].
    apply (V_obj (bs """a"":7,""ok"":true")). apply (M_cons (bs """a"":7")).
    - apply (M_intro [] (bs """a""") [] [] (bs "7") _ []); try constructor; [apply lit_a|apply num_7].
    - apply M_one, (M_intro [] (bs """ok""") [] [] (bs "true") _ []); try constructor. apply lit_b. }
  rewrite (jtext_unique _ _ _ J1 J0). cbn. split; [|tauto]. constructor; [|constructor; [constructor|constructor]]. constructor; [|constructor]. cbn [fst].
  apply C64_distinct_keys; [apply lit_a|apply lit_b| |].
  - intros k k' M M'. apply (str_means_text _ _ lit_a) in M. apply (str_means_text _ _ lit_b) in M'. subst k k'. vm_compute. split; [|right]; discriminate.
  - right. intros [|[|i]] f; cbn [v_flds er_env er_env_of er_flds In]; intros H; repeat destruct H as [<-|H]; try contradiction; vm_compute; reflexivity.
Qed.
