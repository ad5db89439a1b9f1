(** Theorems about readers of what was written with and without EscapeHTML: C109. *)
From Verif Require Import Bytes ParseModel StringModel EncModel DecModel SpecJson SpecString SpecRender SpecColor SpecRaw SpecSum SpecOut SpecReader
  ParseFacts StringFacts TokenFacts EncFacts RawFacts EncMain TextFacts DocFacts DecFacts RawText ScanModel PropsScan PropsOut PropsReader Unambig PropsDec PropsAgain
  TypeModel SpecDec SpecType SpecSpell TypeFacts TypeMain PropsType PropsErr PropsTrip PropsSpell.

Lemma chars_text s s' : string_lit s -> string_lit s' -> same_chars s s' -> same_text s s'.
Proof.
  intros L L' (b & b' & -> & -> & H). apply same_text_of; [exact L|exact L'|].
  destruct (str_text_means _ L) as (b1 & l1 & E1 & D1 & U1). injection E1 as E1. apply app_inv_tail in E1. subst b1.
  symmetry. apply eq_sym. apply str_means_text; [exact L'|]. exists b', l1. auto.
Qed.
Lemma tree_respelled a : forall a', lits_ok a -> lits_ok a' -> same_tree a a' -> respelled a a'.
Proof.
  induction a as [| | |t|t|l IH|l IH] using jast_rect'; intros a' O O' T; inversion T; subst; inversion O; subst; inversion O'; subst; constructor.
  - now apply chars_text.
  - match goal with H : Forall2 _ l ?m |- _ => rename m into m0 end. clear T O O'.
    repeat match goal with H : Forall _ _ |- _ => revert H end. match goal with H : Forall2 _ l m0 |- _ => induction H as [|x y l m X _ IHF] end; intros; [constructor|].
    repeat match goal with H : Forall _ (_ :: _) |- _ => apply Forall_cons_iff in H; destruct H end. constructor; auto.
  - match goal with H : Forall2 _ l ?m |- _ => rename m into m0 end. clear T O O'.
    repeat match goal with H : Forall _ _ |- _ => revert H end. match goal with H : Forall2 _ l m0 |- _ => induction H as [|x y l m [X1 X2] _ IHF] end; intros; [constructor|].
    repeat match goal with H : Forall _ (_ :: _) |- _ => apply Forall_cons_iff in H; destruct H end.
    repeat match goal with H : string_lit _ /\ _ |- _ => destruct H end. constructor; [split; [now apply chars_text|auto]|auto].
Qed.
Lemma respelled_flip a : forall a', respelled a a' -> respelled a' a.
Proof.
  induction a as [| | |t|t|l IH|l IH] using jast_rect'; intros a' T; inversion T; subst; constructor.
  - now apply same_sym.
  - clear T. match goal with H : Forall2 _ l _ |- _ => induction H as [|x y l m X _ IHF]; [constructor|] end. apply Forall_cons_iff in IH. destruct IH. constructor; auto.
  - clear T. match goal with H : Forall2 _ l _ |- _ => induction H as [|x y l m [X1 X2] _ IHF]; [constructor|] end. apply Forall_cons_iff in IH. destruct IH. constructor; [|auto].
    split; [now apply same_sym|auto].
Qed.
Lemma ws_mild w : ws w -> mild_text w.
Proof. induction 1 as [|c w H _ IH]; [constructor|]. constructor; [|exact IH]. lia. Qed.
Lemma ind_mild i : ind_all ws i -> ind_all mild_text i.
Proof. destruct i as [i|]; cbn; [|auto]. intros H. firstorder using ws_mild. Qed.

(** Escaping makes another text of the same meaning. *)
Lemma escape_outcome c v o : e_clrs c = None -> ind_all ws (e_ind c) -> leaves wf (raw_checked (e_trust c)) mild_text mild_text float_ok textless True v ->
  (outcome (set_html false c) v = Some (inl o) -> outcome (set_html true c) v = Some (inl (html_escape o))) /\
  (outcome (set_html true c) v = Some (inl o) -> exists o', outcome (set_html false c) v = Some (inl o') /\ o = html_escape o').
Proof.
  intros K IN L. pose proof (C81_escape_partial c v [] 0) as X. rewrite K in X. specialize (X I (ind_mild _ IN) L).
  unfold outcome. destruct (enc (set_html false c) v [] 0) as [o1 d1 e1|].
  2:{ rewrite X. split; discriminate. }
  destruct X as (out & -> & ->). cbn [app]. destruct e1 as [e|]; split; intros H; try discriminate H.
  - now injection H as ->.
  - injection H as <-. eauto.
Qed.
Lemma textless_flat v : textless v -> flat v.
Proof. induction v using gval_rect'; cbn; auto. destruct o; auto. Qed.
Lemma leaves_scalar tr v : leaves wf (raw_checked tr) mild_text mild_text float_ok textless True v -> scalar_strings v.
Proof.
  induction v as [ |b|z|f|s|s|s|t|l IH| |l IH| |m IH| |m IH|m|fs IH|o IH|o IH|o IH|s|r|r|v IH| ] using gval_rect'; cbn [leaves scalar_strings]; auto; intros H.
  - apply all_map in H. apply all_map. rewrite Forall_forall in *. auto.
  - apply all_map in H. apply all_map. rewrite Forall_forall in *. auto.
  - apply all_map in H. apply all_map. rewrite Forall_forall in *. intros [k x] Hx. apply (IH _ Hx). exact (proj2 (H _ Hx)).
  - apply all_map in H. apply all_map. rewrite Forall_forall in *. intros [k x] Hx. apply (IH _ Hx). exact (proj2 (H _ Hx)).
  - apply all_map in H. apply all_map. rewrite Forall_forall in *. intros [k x] Hx. apply (IH _ Hx). exact (proj2 (H _ Hx)).
  - destruct o; auto.
  - destruct o; auto.
  - destruct o; auto.
  - apply textless_flat, H.
Qed.
Lemma escaped_tree o a : jvalue o a -> exists a', jtext (html_escape o) a' /\ respelled a a'.
Proof.
  intros J. pose proof (jvalue_jtext _ _ J) as T. destruct (C86_html_json o a T) as (a' & T' & S). rewrite (proj1 (C86_html_escape o (proj1 jvalue_wf _ _ J))) in T'.
  exists a'. split; [exact T'|]. apply tree_respelled; [exact (jtext_lits _ _ T)|exact (jtext_lits _ _ T')|exact S].
Qed.
Lemma respelled_same a : lits_ok a -> respelled a a.
Proof.
  induction a as [| | |t|t|l IH|l IH] using jast_rect'; intros O; inversion O; subst; constructor.
  - intros u. tauto.
  - clear O. induction l; constructor; apply Forall_cons_iff in IH; destruct IH; match goal with H : Forall _ (_ :: _) |- _ => apply Forall_cons_iff in H; destruct H end; auto.
  - clear O. induction l; constructor; apply Forall_cons_iff in IH; destruct IH; match goal with H : Forall _ (_ :: _) |- _ => apply Forall_cons_iff in H; destruct H end; auto.
    split; [intros u; tauto|tauto].
Qed.

(** C109: what is written with some EscapeHTML and layout, and with others, is JSON, and the two texts differ in
    white space and in the spelling of characters of strings only. *)
Theorem C109_tree c1 c2 v o1 : told_alike c1 c2 -> clean (e_sort c1) (e_trust c1) false v ->
  leaves wf (raw_checked (e_trust c1)) mild_text mild_text float_ok textless True v -> outcome c1 v = Some (inl o1) ->
  exists o2 a1 a2, outcome c2 v = Some (inl o2) /\ jvalue o1 a1 /\ jvalue o2 a2 /\ respelled a1 a2.
Proof.
  intros (H2 & H3 & K1 & K2 & I1 & I2) CL L E. pose proof (leaves_scalar _ _ L) as SS.
  assert (LA : laid_alike c1 c1) by (repeat split; assumption).
  destruct (C108_tree c1 c1 v o1 LA CL SS E) as (o & a1 & _ & J1 & _). clear o LA.
  assert (M : exists om am, outcome (set_html (e_html c2) c1) v = Some (inl om) /\ jtext om am /\ respelled a1 am).
  { pose proof (escape_outcome c1 v) as X. destruct c1 as [h s t k i si]. cbn [e_clrs e_ind e_trust set_html e_html e_sort e_stdindent] in *.
    unfold set_html in *. cbn [e_clrs e_ind e_trust e_html e_sort e_stdindent] in *. destruct h, (e_html c2).
    - exists o1, a1. split; [exact E|]. split; [now apply jvalue_jtext|]. apply respelled_same. exact (jtext_lits _ _ (jvalue_jtext _ _ J1)).
    - destruct (proj2 (X o1 K1 I1 L) E) as (o' & E' & ->).
      destruct (C108_tree _ (Cfg false s t k i si) v o' (ltac:(repeat split; assumption) : laid_alike (Cfg false s t k i si) _) CL SS E') as (_ & a' & _ & J' & _).
      exists o', a'. split; [exact E'|]. split; [now apply jvalue_jtext|]. destruct (escaped_tree _ _ J') as (a2 & T2 & R2). rewrite (jtext_unique _ _ _ (jvalue_jtext _ _ J1) T2).
      now apply respelled_flip.
    - destruct (escaped_tree _ _ J1) as (a2 & T2 & R2). exists (html_escape o1), a2. split; [exact (proj1 (X o1 K1 I1 L) E)|]. auto.
    - exists o1, a1. split; [exact E|]. split; [now apply jvalue_jtext|]. apply respelled_same. exact (jtext_lits _ _ (jvalue_jtext _ _ J1)). }
  destruct M as (om & am & EM & TM & RM).
  destruct (C108_tree (set_html (e_html c2) c1) c2 v om (ltac:(repeat split; assumption) : laid_alike (set_html (e_html c2) c1) c2) CL SS EM) as (o2 & a2 & E2 & JM & J2).
  exists o2, a1, a2. split; [exact E2|]. split; [exact J1|]. split; [exact J2|]. now rewrite <- (jtext_unique _ _ _ TM (jvalue_jtext _ _ JM)).
Qed.
(** So Unmarshal does the same with both. *)
Theorem C109_unmarshal V F t c1 c2 v o1 o2 x y : env_ok V -> everywhere keeps_no_text V t -> everywhere reads_escapes V t -> told_alike c1 c2 ->
  clean (e_sort c1) (e_trust c1) false v -> leaves wf (raw_checked (e_trust c1)) mild_text mild_text float_ok textless True v ->
  outcome c1 v = Some (inl o1) -> outcome c2 v = Some (inl o2) -> (unmarshal V F t o1 x = (None, y) <-> unmarshal V F t o2 x = (None, y)).
Proof.
  intros OK EK ER T CL L E1 E2. destruct (C109_tree c1 c2 v o1 T CL L E1) as (o & a1 & a2 & E & J1 & J2 & R). rewrite E in E2. injection E2 as ->.
  exact (C59_spelling_partial V F t o1 o2 a1 a2 x y OK EK ER (jvalue_jtext _ _ J1) (jvalue_jtext _ _ J2) R).
Qed.
Print Assumptions C109_tree.
Print Assumptions C109_unmarshal.

(** Not so for a string under the string option: the escape stands in a JSON text that is
    itself in a string, and a target without the option sees it. *)
Theorem C109_quoted_refuted : exists c1 c2 v o1 o2 y1 y2, told_alike c1 c2 /\ clean (e_sort c1) (e_trust c1) false v /\
  outcome c1 v = Some (inl o1) /\ outcome c2 v = Some (inl o2) /\ unmarshal ex_env ex_flags YString o1 (MStr []) = (None, y1) /\
  unmarshal ex_env ex_flags YString o2 (MStr []) = (None, y2) /\ y1 <> y2.
Proof.
  exists (Cfg true true false None None (fun _ _ _ => None)), (Cfg false true false None None (fun _ _ _ => None)), (GQuoted (GString (bs "<"))).
  eexists _, _, _, _. split; [repeat split; cbn; auto|]. split; [cbn; apply is_wf; reflexivity|]. split; [vm_compute; reflexivity|]. split; [vm_compute; reflexivity|].
  split; [vm_compute; reflexivity|]. split; [vm_compute; reflexivity|]. discriminate.
Qed.
Print Assumptions C109_quoted_refuted.

(** Non-vacuity. *)
Definition td_value : gval := GStruct [(FH (bs "a<") false false, GSlice (Some [GString (bs "&x"); GInt 1])); (FH (bs "b") false false, GQuoted (GBool true))].
Example C109_holds : told_alike (rd_cfg None) (set_html false (rd_cfg (Some (Indenter false [] [32])))) /\ clean true false false td_value /\
  leaves wf (raw_checked false) mild_text mild_text float_ok textless True td_value /\
  outcome (rd_cfg None) td_value = Some (inl (bs "{""a\u003c"":[""\u0026x"",1],""b"":""true""}")) /\
  outcome (set_html false (rd_cfg (Some (Indenter false [] [32])))) td_value = Some (inl (bs "{
 ""a<"": [
  ""&x"",
  1
 ],
 ""b"": ""true""
}")).
Proof.
  split; [repeat split; cbn; repeat (apply Forall_cons; [cbn; auto|]); apply Forall_nil|]. split.
  { assert (R : forall fs, Forall (fun hv : fhead * gval => f_omitempty (fst hv) && f_empty (fst hv) = true \/ absent (snd hv) = false) fs -> rollback_first fs) by (intros fs H; exists [], fs; auto).
    cbn. repeat split; try (apply is_wf; reflexivity); apply R; repeat (apply Forall_cons; [cbn; auto|]); apply Forall_nil. }
  split; [cbn; repeat split; try (apply is_wf; reflexivity); auto|]. split; vm_compute; reflexivity.
Qed.
