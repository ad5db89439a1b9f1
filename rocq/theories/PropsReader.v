(** Theorems about readers of what was written in some layout: C108. *)
From Verif Require Import Bytes ParseModel StringModel TokenModel EncModel DecModel SpecJson SpecRender SpecColor SpecRaw SpecTokens SpecSum SpecReader
  ParseFacts TokenFacts EncFacts RawFacts EncMain TextFacts DocFacts RawText Unambig PropsEnc PropsTokens PropsLayout
  TypeModel SpecType SpecSpell TypeFacts TypeMain PropsType PropsErr PropsTrip PropsSpell PropsAgain.
From Coq Require Import Permutation.

Fixpoint doc_flat (x : doc) : Prop :=
  match x with
  | DTok _ _ => True
  | DQuote (DTok _ _) => True
  | DQuote _ => False
  | DArr l => SpecRender.all (map doc_flat l)
  | DObj q l => SpecRender.all (map (fun e => match e with (_, _, y) => doc_flat y end) l)
  end.
Lemma jdoc_flat html a : doc_flat (jdoc html a).
Proof.
  induction a as [| | |t|t|l IH|l IH] using jast_rect'; cbn [jdoc doc_flat]; try exact I.
  - apply all_map. rewrite Forall_forall in *. intros x Hx. apply in_map_iff in Hx. destruct Hx as (a & <- & Ha). auto.
  - apply all_map. rewrite Forall_forall in *. intros x Hx. apply in_map_iff in Hx. destruct Hx as ([k a] & <- & Ha). apply (IH _ Ha).
Qed.
Theorem vdoc_flat html sorted trust v : forall x, scalar_strings v -> vdoc html sorted trust v x -> doc_flat x.
Proof.
  induction v as [ |b|z|f|s|s|s|t|l IH| |l IH| |m IH| |m IH|m|fs IH|o IH|o IH|o IH|s|r|r|v IH| ] using gval_rect'; intros x C V;
    cbn [scalar_strings] in C; inversion V; subst; cbn [doc_flat]; auto; try apply jdoc_flat.
  - apply all_map in C. apply all_map. eapply Forall2_all; [eassumption|]. rewrite Forall_forall in *. intros y Hy x Hx. eapply IH; eauto.
  - apply all_map in C. apply all_map. eapply Forall2_all; [eassumption|]. rewrite Forall_forall in *. intros y Hy x Hx. eapply IH; eauto.
  - apply all_map in C. apply all_map. eapply Forall2_all; [eassumption|].
    match goal with H : in_order _ _ m _ |- _ => apply in_order_perm in H; eapply Permutation_Forall; [exact H|] end.
    rewrite Forall_forall in *. intros [k y] Hy [[tk tb] x] [Hk Hx]. specialize (C _ Hy). exact (IH _ Hy x C Hx).
  - apply all_map in C. apply all_map. eapply Forall2_all; [eassumption|].
    match goal with H : in_order _ _ m _ |- _ => apply in_order_perm in H; eapply Permutation_Forall; [exact H|] end.
    rewrite Forall_forall in *. intros [k y] Hy [[tk tb] x] [Hk Hx]. specialize (C _ Hy). exact (IH _ Hy x C Hx).
  - apply all_map. eapply Forall2_all; [eassumption|].
    match goal with H : in_order _ _ _ _ |- _ => apply in_order_perm in H; eapply Permutation_Forall; [exact H|] end.
    rewrite Forall_forall. intros [k y] _ [[tk tb] x] [Hk Hx]. cbn in *. inversion Hx; subst; [exact I|apply jdoc_flat].
  - apply all_map in C. apply all_map. eapply Forall2_all; [eassumption|]. apply filter_Forall.
    rewrite Forall_forall in *. intros [h y] Hy [[tk tb] x] [Hk Hx]. specialize (C _ Hy). exact (IH _ Hy x C Hx).
  - match goal with H : vdoc _ _ _ (GRaw _) _ |- _ => inversion H; subst end; [exact I|apply jdoc_flat].
  - match goal with H : vdoc _ _ _ v _ |- _ => destruct (flat_tok _ _ _ v _ C H) as (? & ? & ->) end. exact I.
Qed.
Lemma dast_flat html ind1 ind2 x : doc_flat x -> forall d1 d2, dast html ind1 d1 x = dast html ind2 d2 x.
Proof.
  induction x as [k t|y IH|l IH|q l IH] using doc_rect'; cbn [doc_flat]; intros H d1 d2; cbn [dast].
  - reflexivity.
  - destruct y; try contradiction. reflexivity.
  - apply all_map in H. f_equal. apply map_ext_in. intros y Hy. rewrite Forall_forall in *. apply IH; auto.
  - apply all_map in H. f_equal. apply map_ext_in. intros [[k t] y] Hy. rewrite Forall_forall in *. f_equal. apply (IH _ Hy). exact (H _ Hy).
Qed.

(** * C108: readers cannot tell in which layout a value was written *)
(** Both texts are JSON with the same tree. *)
Theorem C108_tree c1 c2 v o1 : laid_alike c1 c2 -> clean (e_sort c1) (e_trust c1) false v -> scalar_strings v -> outcome c1 v = Some (inl o1) ->
  exists o2 a, outcome c2 v = Some (inl o2) /\ jvalue o1 a /\ jvalue o2 a.
Proof.
  intros (H1 & H2 & H3 & K1 & K2 & I1 & I2) CL SS E.
  destruct (verdict_vok (e_html c1) (e_sort c1) (e_trust c1) v CL (enc_verdict (e_html c1) (e_sort c1) (e_trust c1) v false CL)) as [(x & V & G)|(_ & B)].
  2:{ unfold outcome in E. destruct (B c1 (conj eq_refl (conj eq_refl eq_refl)) (or_introl K1) 0) as (o' & d' & e & E' & _). rewrite E' in E. discriminate. }
  pose proof (vdoc_ok _ _ _ _ _ _ CL V) as OK. pose proof (vdoc_flat _ _ _ _ _ SS V) as FL.
  pose proof (G c1 (conj eq_refl (conj eq_refl eq_refl)) (or_introl K1) 0) as X1. pose proof (G c2 (conj (eq_sym H1) (conj (eq_sym H2) (eq_sym H3))) (or_introl K2) 0) as X2.
  unfold outcome in *. rewrite X1 in E. injection E as <-. rewrite X2. unfold R. rewrite K1, K2, <- H1. eexists _, _. split; [reflexivity|]. split; [exact (render_jvalue _ _ I1 x OK 0)|].
  rewrite (dast_flat _ _ (e_ind c2) x FL 0 0). exact (render_jvalue _ _ I2 x OK 0).
Qed.
(** A Tokenizer sees the same tokens, with the same depths, indexes and keys. *)
Theorem C108_tokens c1 c2 v o1 o2 l1 l2 e1 e2 : laid_alike c1 c2 -> clean (e_sort c1) (e_trust c1) false v -> scalar_strings v ->
  outcome c1 v = Some (inl o1) -> outcome c2 v = Some (inl o2) -> token_run o1 l1 e1 -> token_run o2 l2 e2 -> l1 = l2 /\ e1 = None /\ e2 = None.
Proof.
  intros L CL SS E1 E2 T1 T2. destruct (C108_tree c1 c2 v o1 L CL SS E1) as (o & a & E & J1 & J2). rewrite E in E2. injection E2 as ->. apply jvalue_jtext in J1, J2.
  destruct (C103_layout _ _ _ _ _ _ _ _ J1 J2 T1 T2) as [X _]. split; [now apply X|].
  split; [exact (proj1 (text_values _ _ _ _ J1 T1))|exact (proj1 (text_values _ _ _ _ J2 T2))].
Qed.
(** Unmarshal does the same with both, whatever the type (unless it keeps the text: a
    RawMessage or a type with UnmarshalJSON) and whatever the variable holds. *)
Theorem C108_unmarshal V F t c1 c2 v o1 o2 x y : env_ok V -> everywhere keeps_no_text V t -> laid_alike c1 c2 -> clean (e_sort c1) (e_trust c1) false v -> scalar_strings v ->
  outcome c1 v = Some (inl o1) -> outcome c2 v = Some (inl o2) -> (unmarshal V F t o1 x = (None, y) <-> unmarshal V F t o2 x = (None, y)).
Proof.
  intros OK EK L CL SS E1 E2. destruct (C108_tree c1 c2 v o1 L CL SS E1) as (o & a & E & J1 & J2). rewrite E in E2. injection E2 as ->.
  apply jvalue_jtext in J1, J2. now apply (C59_white_space V F t o1 o2 a).
Qed.
Print Assumptions C108_tree.
Print Assumptions C108_tokens.
Print Assumptions C108_unmarshal.
(** The string option on a type of a scalar kind whose MarshalJSON returns an array: the
    layout gets into the string. *)
Theorem C108_quoted_refuted : exists c1 c2 v o1 o2 l1 l2, laid_alike c1 c2 /\ clean (e_sort c1) (e_trust c1) false v /\
  outcome c1 v = Some (inl o1) /\ outcome c2 v = Some (inl o2) /\ token_run o1 l1 None /\ token_run o2 l2 None /\ l1 <> l2.
Proof.
  exists (Cfg true true false None None (fun _ _ _ => None)), (Cfg true true false None (Some (Indenter false [] [32])) (fun _ _ _ => None)), (GQuoted (GMarshaler (Some (inl (Some (bs "[1]")))))).
  exists (bs """[1]"""), (bs """[\n 1\n]"""). eexists _, _. split; [repeat split; cbn; repeat constructor; auto|]. split.
  { cbn. split; [apply is_wf; reflexivity|]. left. exists (JArr [JNum (bs "1")]). cbn. apply (V_arr (bs "1")). apply (E_one [] (bs "1") _ []); [constructor|constructor|constructor].
    apply (number_intro [] (bs "1") [] []); [auto| |constructor|constructor]. apply (int_pos 49 []); [lia|constructor]. }
  split; [vm_compute; reflexivity|]. split; [vm_compute; reflexivity|]. split; [exact (collect_run 9 (bs """[1]""") eq_refl)|]. split; [exact (collect_run 9 (bs """[\n 1\n]""") eq_refl)|]. vm_compute. congruence.
Qed.
Print Assumptions C108_quoted_refuted.

(** Non-vacuity. *)
Definition rd_cfg (ind : option indenter) : cfg := Cfg true true false None ind (fun _ _ _ => None).
Definition rd_value : gval := GStruct [(FH (bs "a") false false, GSlice (Some [GInt 1; GStruct [(FH (bs "e") true true, GNil)]])); (FH (bs "b") false false, GQuoted (GBool true))].
Example C108_holds : laid_alike (rd_cfg None) (rd_cfg (Some (Indenter false [] [32; 32]))) /\ clean true false false rd_value /\ scalar_strings rd_value /\
  (exists o1 o2 l, outcome (rd_cfg None) rd_value = Some (inl o1) /\ outcome (rd_cfg (Some (Indenter false [] [32; 32]))) rd_value = Some (inl o2) /\ o1 <> o2 /\
     token_run o1 l None /\ token_run o2 l None /\ length l = 14%nat) /\
  env_ok er_env /\ everywhere keeps_no_text er_env (YStruct 0).
Proof.
  split; [repeat split; cbn; repeat constructor; auto|]. split.
  { assert (R : forall fs, Forall (fun hv : fhead * gval => f_omitempty (fst hv) && f_empty (fst hv) = true \/ absent (snd hv) = false) fs -> rollback_first fs) by (intros fs H; exists [], fs; auto).
    cbn. repeat split; try (apply is_wf; reflexivity); apply R; repeat (apply Forall_cons; [cbn; auto|]); apply Forall_nil. }
  split; [cbn; tauto|]. split.
  - eexists _, _, _. split; [vm_compute; reflexivity|]. split; [vm_compute; reflexivity|]. split; [vm_compute; congruence|].
    split; [exact (collect_run 40 (bs "{""a"":[1,{}],""b"":""true""}") eq_refl)|]. split; [match goal with |- token_run ?s _ _ => exact (collect_run 60 s eq_refl) end|reflexivity].
  - exact (conj (proj1 C59_example) (proj1 (proj2 C59_example))).
Qed.
