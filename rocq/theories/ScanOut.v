(** What Indent and Compact write. *)
From Verif Require Import Bytes ParseModel SpecJson SpecColor SpecScan ScanModel ParseFacts ScanFacts ScanMain.
From Coq Require Import Lia.

Definition instr (s : scanner) : bool := match s_step s with SInString | SEsc | SU _ => true | _ => false end.
Definition inesc (s : scanner) : bool := match s_step s with SEsc => true | _ => false end.
Definition orempty (s : scanner) : bool := match s_step s with SBeginValueOrEmpty | SBeginStringOrEmpty => true | _ => false end.
Definition waits (s : scanner) : Prop := match s_step s with SBeginValueOrEmpty | SBeginStringOrEmpty | SBeginValue | SBeginString => True | SEndValue => s_stack s <> [] | _ => False end.

Lemma hex_not c : sc_hex c = true -> c <> 34 /\ c <> 92.
Proof. rewrite hex_iff. unfold hex_digit. lia. Qed.
Record coded (s : scanner) (c : Z) (s' : scanner) (o : scode) : Prop := Coded {
  cd_in : instr s = true -> o = OContinue /\ instr s' = (if inesc s then true else if c =? 92 then true else negb (c =? 34)) /\ inesc s' = (if inesc s then false else c =? 92);
  cd_sp : instr s = false -> sc_space c = true -> instr s' = false /\ inesc s' = false /\ (o = OSkipSpace /\ waits s' /\ orempty s' = orempty s \/ o = OEnd /\ orempty s = false /\ s_step s' = SEndTop);
  cd_no : instr s = false -> sc_space c = false -> instr s' = (c =? 34) /\ inesc s' = false /\ (c <> 123 -> c <> 91 -> orempty s' = false) /\
     ((o = OClose /\ (c = 125 \/ c = 93)) \/ (o = OBegin /\ c <> 125 /\ c <> 93) \/ (o = OContinue /\ ~ (c = 123 \/ c = 91 \/ c = 44 \/ c = 58 \/ c = 125 \/ c = 93))) }.
Ltac crack ST :=
  repeat match type of ST with
  | context [if ?b then _ else _] => destruct b eqn:?
  | context [match ?l with [] => _ | _ => _ end] => destruct l eqn:?
  | context [match ?p with PKey => _ | PVal => _ | PArr => _ end] => destruct p eqn:?
  | context [match ?k with O => _ | Datatypes.S _ => _ end] => destruct k eqn:?
  end.
Ltac norm_b :=
  repeat match goal with
  | H : (_ || _) = true |- _ => apply orb_true_iff in H
  | H : (_ || _) = false |- _ => apply orb_false_iff in H; destruct H
  | H : (_ && _) = true |- _ => apply andb_true_iff in H; destruct H
  | H : (_ && _) = false |- _ => apply andb_false_iff in H
  | H : (_ =? _) = true |- _ => apply Z.eqb_eq in H
  | H : (_ =? _) = false |- _ => apply Z.eqb_neq in H
  | H : (_ <=? _) = true |- _ => apply Z.leb_le in H
  | H : (_ <=? _) = false |- _ => apply Z.leb_gt in H
  | H : (_ <? _) = true |- _ => apply Z.ltb_lt in H
  | H : (_ <? _) = false |- _ => apply Z.ltb_ge in H
  | H : sc_space _ = true |- _ => apply space_iff in H
  | H : sc_space _ = false |- _ => apply space_no in H
  | H : sc_digit _ = true |- _ => apply digit_iff in H; unfold digit in H
  | H : sc_hex _ = true |- _ => apply hex_iff in H; unfold hex_digit in H
  | H : existsb _ _ = true |- _ => apply esc_set in H; cbn [In] in H
  end.
Ltac eqbs :=
  repeat match goal with
  | |- context [?a =? ?b] => first [replace (a =? b) with true by (symmetry; apply Z.eqb_eq; lia)|replace (a =? b) with false by (symmetry; apply Z.eqb_neq; lia)]
  end.
Lemma step_coded s c s' o : inv s -> s_err s = false -> 0 <= c < 256 -> sc_step s c = (s', o) -> s_err s' = false -> coded s c s' o.
Proof.
  intros [_ SH N EN] E Bc ST E'. specialize (SH E). specialize (N E). specialize (EN E).
  destruct s as [q st e r]. cbn [s_stack s_end s_err s_step] in *. subst r.
  unfold sc_step in ST. cbn [s_step] in ST.
  unfold sc_0, sc_exp, sc_esign, sc_begin_value, sc_begin_string in ST. unfold sc_end_value, sc_end_top, sc_push, sc_pop, sc_0, sc_exp, sc_esign, sc_to, sc_error in ST. cbn [s_stack s_end s_err s_step] in ST.
  destruct q as [| | | | | | | |k| | | | | | | | |w|]; cbn [shape] in SH.
  all: crack ST.
  all: injection ST as <- <-; try discriminate E'; subst; cbn [s_stack s_end s_err s_step] in *.
  all: constructor; unfold instr, inesc, orempty, waits; cbn [s_stack s_end s_err s_step]; intros; try discriminate; norm_b; eqbs.
  all: try solve [destruct SH; congruence].
  all: try solve [repeat split; auto; intuition (try congruence; lia)].
  all: destruct SH as [_ SH]; apply Forall_inv in SH; subst; eqbs; intuition (try congruence; lia).
Qed.

Lemma code_err s c s' : inv s -> sc_step s c = (s', OError) -> s_err s' = true.
Proof.
  intros [IE SH _ _] ST. destruct (s_err s) eqn:E.
  - unfold sc_step in ST. rewrite (IE eq_refl) in ST. injection ST as <-. exact E.
  - specialize (SH eq_refl). destruct s as [q st e r]. cbn [s_stack s_end s_err s_step] in *. subst r.
    unfold sc_step in ST. cbn [s_step] in ST.
    unfold sc_0, sc_exp, sc_esign, sc_begin_value, sc_begin_string in ST. unfold sc_end_value, sc_end_top, sc_push, sc_pop, sc_to, sc_error in ST. cbn [s_stack s_end s_err s_step] in ST.
    destruct q as [| | | | | | | |k| | | | | | | | |w|]; cbn [shape] in SH; [..|destruct SH].
    all: crack ST; try discriminate ST; injection ST as <-; reflexivity.
Qed.
Lemma wf_inv c src : wf (c :: src) -> 0 <= c < 256 /\ wf src.
Proof. intros H. split; [exact (Forall_inv H)|exact (Forall_inv_tail H)]. Qed.
(** Leaving at the first error makes no difference. *)
Lemma in_loop_eof prefix indent src : wf src -> forall s need d dst, inv s -> sc_eof (fst (in_loop prefix indent s need d src dst)) = sc_eof (sc_run s src).
Proof.
  induction src as [|c src IH]; intros W s need d dst I; [reflexivity|]. apply wf_inv in W as [Bc W]. cbn [in_loop sc_run].
  pose proof (proj1 (step_lang s c src I Bc)) as I'. destruct (sc_step s c) as [s' o] eqn:ST. cbn [fst] in I' |- *.
  destruct o; cbn [andb]; repeat match goal with |- context [if ?b then in_loop _ _ _ _ _ _ _ else _] => destruct b end; try (apply IH; assumption).
  cbn [fst]. apply code_err in ST; [|exact I]. rewrite run_err by assumption. reflexivity.
Qed.
Lemma co_loop_eof src : wf src -> forall s pend dst, inv s -> sc_eof (fst (fst (co_loop s src pend dst))) = sc_eof (sc_run s src).
Proof.
  induction src as [|c src IH]; intros W s pend dst I; [reflexivity|]. apply wf_inv in W as [Bc W]. cbn [co_loop sc_run].
  pose proof (proj1 (step_lang s c src I Bc)) as I'. destruct (sc_step s c) as [s' o] eqn:ST. cbn [fst] in I' |- *.
  destruct o; try (apply IH; assumption).
  cbn [fst]. apply code_err in ST; [|exact I]. rewrite run_err by assumption. reflexivity.
Qed.

(** Trailing white space. *)
Fixpoint trailing (s : bytes) : bytes :=
  match s with
  | [] => []
  | c :: t => if forallb sc_space s then s else trailing t
  end.
Lemma ws_spaces s : forallb sc_space s = true <-> ws s.
Proof. rewrite forallb_forall. unfold ws. rewrite Forall_forall. split; intros H c C; apply space_iff, H, C. Qed.
Lemma trailing_ws s : ws s -> trailing s = s.
Proof. intros W. apply ws_spaces in W. destruct s; [reflexivity|]. cbn [trailing]. rewrite W. reflexivity. Qed.
Lemma trailing_cons c t : ~ ws (c :: t) -> trailing (c :: t) = trailing t.
Proof. intros W. cbn [trailing]. destruct (forallb sc_space (c :: t)) eqn:F; [apply ws_spaces in F; tauto|reflexivity]. Qed.
Lemma trailing_app s c w : sc_space c = false -> ws w -> trailing (s ++ c :: w) = w.
Proof.
  intros C W. assert (N : forall s, ~ ws (s ++ c :: w)).
  { intros s0 H. apply Forall_app in H as [_ H]. apply Forall_inv in H. apply space_iff in H. congruence. }
  induction s as [|x s IH]; cbn [app].
  - rewrite trailing_cons by apply (N []). apply trailing_ws, W.
  - rewrite trailing_cons by apply (N (x :: s)). exact IH.
Qed.
Lemma hard_not_ws Q t : hard Q -> skips Q t -> ~ ws t.
Proof.
  intros H (w & r & -> & _ & q) W. apply Forall_app in W as [_ W]. destruct r as [|c r]; [exact (proj1 H q)|].
  apply (proj2 H) in q. apply Forall_inv in W. apply space_iff in W. congruence.
Qed.
Lemma waits_not_ws s t : inv s -> waits s -> Lang s t -> ~ ws t.
Proof.
  intros I WT [E Lg]. pose proof (i_shape s I E) as SH. unfold waits in WT. destruct s as [q st e r]. cbn [s_stack s_end s_err s_step] in *.
  destruct q; try contradiction; cbn [L shape] in *.
  - rewrite begins_skips in Lg. eapply hard_not_ws; [apply valued_hard|exact Lg].
  - rewrite begins_skips, <- skips_one in Lg. destruct Lg as [Lg|Lg]; (eapply hard_not_ws; [|exact Lg]); [apply valued_hard|apply one_hard; reflexivity].
  - rewrite begins_key_skips in Lg. eapply hard_not_ws; [apply keyed_hard|exact Lg].
  - rewrite begins_key_skips, <- skips_one in Lg. destruct Lg as [Lg|Lg]; (eapply hard_not_ws; [|exact Lg]); [apply keyed_hard|apply one_hard; reflexivity].
  - destruct st as [|[] st]; [congruence| | |].
    + apply after_key_iff in Lg. eapply hard_not_ws; [apply hard58|exact Lg].
    + apply after_val_iff in Lg. eapply hard_not_ws; [apply hard125|exact Lg].
    + apply after_arr_iff in Lg. eapply hard_not_ws; [apply hard93|exact Lg].
Qed.
Lemma instr_not_ws s t : instr s = true -> Lang s t -> ~ ws t.
Proof.
  intros IS [_ Lg]. assert (X : In 34 t).
  { unfold instr in IS. destruct s as [q st e r]. cbn [s_stack s_end s_err s_step] in *. destruct q; try discriminate; cbn [L] in Lg.
    - destruct Lg as (b & r' & -> & _). apply in_app_iff. right. left. reflexivity.
    - destruct Lg as (b & r' & -> & _). apply in_app_iff. right. left. reflexivity.
    - destruct Lg as (h & b & r' & -> & _). rewrite !in_app_iff. right. right. left. reflexivity. }
  intros W. unfold ws in W. rewrite Forall_forall in W. specialize (W _ X). lia.
Qed.
Lemma indent_ws p i w need d : ws w -> std_indent_from p i false false need d w = [].
Proof.
  induction 1 as [|c w C W IH]; [reflexivity|]. cbn [std_indent_from]. replace ((c =? 32) || (c =? 9) || (c =? 10) || (c =? 13)) with true; [exact IH|].
  symmetry. apply (space_iff c), C.
Qed.
(** At the end of the text everything is copied. *)
Lemma in_loop_top p i w : ws w -> forall e d dst, in_loop p i (Scanner SEndTop [] e false) false d w dst = (Scanner SEndTop [] e false, dst ++ w).
Proof.
  induction 1 as [|c w C W IH]; intros e d dst; [cbn; rewrite app_nil_r; reflexivity|]. cbn [in_loop]. unfold sc_step. cbn [s_step]. unfold sc_end_top.
  rewrite (proj2 (space_iff c) C). cbn [andb]. cbv zeta. replace (c =? 123) with false by (symmetry; apply Z.eqb_neq; lia). replace (c =? 91) with false by (symmetry; apply Z.eqb_neq; lia).
  replace (c =? 44) with false by (symmetry; apply Z.eqb_neq; lia). replace (c =? 58) with false by (symmetry; apply Z.eqb_neq; lia).
  replace (c =? 125) with false by (symmetry; apply Z.eqb_neq; lia). replace (c =? 93) with false by (symmetry; apply Z.eqb_neq; lia). cbn [orb].
  rewrite IH, <- app_assoc. reflexivity.
Qed.
Lemma in_loop_out p i src : wf src -> forall s need d dst, inv s -> Lang s src -> (need = true -> orempty s = true) ->
  snd (in_loop p i s need d src dst) = dst ++ std_indent_from p i (instr s) (inesc s) need d src ++ trailing src.
Proof.
  induction src as [|c src IH]; intros W s need d dst I Lg ND; [cbn; rewrite !app_nil_r; reflexivity|]. apply wf_inv in W as [Bc W].
  cbn [in_loop]. destruct (step_lang s c src I Bc) as [I' Lg']. pose proof (proj2 Lg' Lg) as LS. clear Lg'.
  destruct (sc_step s c) as [s' o] eqn:ST. cbn [fst] in I', LS. pose proof (proj1 LS) as E'. pose proof (proj1 Lg) as E.
  destruct (step_coded s c s' o I E Bc ST E') as [CI CS CN]. destruct (instr s) eqn:IS.
  - (* in a string *) destruct (CI eq_refl) as (-> & IS' & ES'). clear CI CS CN.
    assert (NF : need = false). { destruct need; [|reflexivity]. specialize (ND eq_refl). unfold instr in IS. unfold orempty in ND. destruct (s_step s); discriminate. }
    subst need. cbn [andb]. rewrite IH; [|exact W|exact I'|exact LS|discriminate]. rewrite IS', ES', trailing_cons by (apply (instr_not_ws s); assumption).
    cbn [std_indent_from]. rewrite <- app_assoc. f_equal. cbn [app]. f_equal. destruct (inesc s); [reflexivity|]. destruct (c =? 92); reflexivity.
  - destruct (sc_space c) eqn:S.
    + destruct (CS eq_refl eq_refl) as (IS' & ES' & H). clear CI CS CN.
      cbn [std_indent_from]. change ((c =? 32) || (c =? 9) || (c =? 10) || (c =? 13)) with (sc_space c). rewrite S.
      destruct H as [(-> & WT & OE)|(-> & OE & TP)].
      * rewrite IH; [|exact W|exact I'|exact LS|rewrite OE; exact ND]. rewrite IS', ES', trailing_cons; [|intros K; apply (waits_not_ws s' src I' WT LS); exact (Forall_inv_tail K)].
        reflexivity.
      * assert (NF : need = false) by (destruct need; [specialize (ND eq_refl); congruence|reflexivity]). subst need.
        assert (WS : ws src). { destruct LS as [_ LS]. rewrite TP in LS. exact LS. }
        assert (SE : s' = Scanner SEndTop [] (s_end s') false).
        { pose proof (i_shape s' I' E') as SH. rewrite TP in SH. cbn [shape] in SH. destruct s' as [q st e r]. cbn [s_stack s_end s_err s_step] in *. subst. reflexivity. }
        rewrite SE. cbn [andb]. cbv zeta. apply space_iff in S.
        replace (c =? 123) with false by (symmetry; apply Z.eqb_neq; lia). replace (c =? 91) with false by (symmetry; apply Z.eqb_neq; lia).
        replace (c =? 44) with false by (symmetry; apply Z.eqb_neq; lia). replace (c =? 58) with false by (symmetry; apply Z.eqb_neq; lia).
        replace (c =? 125) with false by (symmetry; apply Z.eqb_neq; lia). replace (c =? 93) with false by (symmetry; apply Z.eqb_neq; lia). cbn [orb].
        rewrite in_loop_top, indent_ws, trailing_ws by (exact WS || (constructor; assumption)). cbn [snd app]. rewrite <- app_assoc. reflexivity.
    + destruct (CN eq_refl eq_refl) as (IS' & ES' & OE & H). clear CI CS CN.
      rewrite trailing_cons by (intros K; apply Forall_inv in K; apply space_iff in K; congruence).
      cbn [std_indent_from]. change ((c =? 32) || (c =? 9) || (c =? 10) || (c =? 13)) with (sc_space c). rewrite S.
      assert (OP : forall b, b = true -> (c = 123 \/ c = 91) -> orempty s' = true).
      { intros _ _ C. unfold orempty. apply space_no in S. clear - ST C E' IS E I.
        pose proof (i_shape s I E) as SH. destruct s as [q st e r]. cbn [s_stack s_end s_err s_step] in *. subst r.
        unfold sc_step, instr in *. cbn [s_step] in *.
        unfold sc_0, sc_exp, sc_esign, sc_begin_value, sc_begin_string in ST. unfold sc_end_value, sc_end_top, sc_push, sc_pop, sc_to, sc_error in ST. cbn [s_stack s_end s_err s_step] in ST.
        destruct q as [| | | | | | | |k| | | | | | | | |w|]; cbn [shape] in SH; try discriminate IS.
        all: crack ST; injection ST as <- <-; try discriminate E'; cbn [s_step]; try reflexivity; norm_b; try lia; try (destruct SH; congruence).
        all: destruct SH as [_ SH]; apply Forall_inv in SH; lia. }
      destruct H as [(-> & C)|[(-> & C1 & C2)|(-> & C)]].
      * replace ((c =? 125) || (c =? 93)) with true by (symmetry; apply orb_true_iff; rewrite !Z.eqb_eq; tauto).
        rewrite andb_false_r. cbv zeta. cbn [negb]. rewrite andb_true_r.
        replace (c =? 123) with false by (symmetry; apply Z.eqb_neq; lia). replace (c =? 91) with false by (symmetry; apply Z.eqb_neq; lia).
        replace (c =? 44) with false by (symmetry; apply Z.eqb_neq; lia). replace (c =? 58) with false by (symmetry; apply Z.eqb_neq; lia). cbn [orb].
        replace (c =? 34) with false in IS' by (symmetry; apply Z.eqb_neq; lia).
        destruct need; (rewrite IH; [|exact W|exact I'|exact LS|discriminate]); rewrite IS', ES'; unfold nl, in_newline; do 3 (cbn [app]; rewrite <- ?app_assoc); reflexivity.
      * replace ((c =? 125) || (c =? 93)) with false by (symmetry; apply orb_false_iff; rewrite !Z.eqb_neq; tauto).
        rewrite andb_true_r. cbv zeta.
        assert (NN : need && negb need = false) by (destruct need; reflexivity). rewrite NN. clear NN.
        destruct ((c =? 123) || (c =? 91)) eqn:C3.
        { rewrite IH; [|exact W|exact I'|exact LS|]. 2: { intros _. apply orb_true_iff in C3. rewrite !Z.eqb_eq in C3. apply (OP true eq_refl C3). }
          replace (c =? 34) with false in IS' by (symmetry; apply Z.eqb_neq; apply orb_true_iff in C3; rewrite !Z.eqb_eq in C3; lia).
          rewrite IS', ES'. destruct need; unfold nl, in_newline; do 3 (cbn [app]; rewrite <- ?app_assoc); reflexivity. }
        destruct (c =? 44) eqn:C4.
        { rewrite IH; [|exact W|exact I'|exact LS|discriminate]. replace (c =? 34) with false in IS' by (symmetry; apply Z.eqb_neq; apply Z.eqb_eq in C4; lia).
          rewrite IS', ES'. destruct need; unfold nl, in_newline; do 3 (cbn [app]; rewrite <- ?app_assoc); reflexivity. }
        destruct (c =? 58) eqn:C5.
        { rewrite IH; [|exact W|exact I'|exact LS|discriminate]. replace (c =? 34) with false in IS' by (symmetry; apply Z.eqb_neq; apply Z.eqb_eq in C5; lia).
          rewrite IS', ES'. destruct need; unfold nl, in_newline; do 3 (cbn [app]; rewrite <- ?app_assoc); reflexivity. }
        rewrite IH; [|exact W|exact I'|exact LS|discriminate]. rewrite IS', ES'. destruct need; unfold nl, in_newline; do 3 (cbn [app]; rewrite <- ?app_assoc); reflexivity.
      * replace ((c =? 125) || (c =? 93)) with false by (symmetry; apply orb_false_iff; rewrite !Z.eqb_neq; tauto).
        replace ((c =? 123) || (c =? 91)) with false by (symmetry; apply orb_false_iff; rewrite !Z.eqb_neq; tauto).
        replace (c =? 44) with false by (symmetry; apply Z.eqb_neq; tauto). replace (c =? 58) with false by (symmetry; apply Z.eqb_neq; tauto).
        rewrite andb_true_r. cbv zeta.
        assert (NN : need && negb need = false) by (destruct need; reflexivity). rewrite NN. clear NN.
        rewrite IH; [|exact W|exact I'|exact LS|discriminate]. rewrite IS', ES'. destruct need; unfold nl, in_newline; do 3 (cbn [app]; rewrite <- ?app_assoc); reflexivity.
Qed.
Lemma co_loop_out src : wf src -> forall s pend dst, inv s -> Lang s src ->
  (let r := co_loop s src pend dst in snd r ++ snd (fst r)) = dst ++ pend ++ squeeze_from (instr s) (inesc s) src.
Proof.
  cbv zeta. induction src as [|c src IH]; intros W s pend dst I Lg; [cbn; rewrite !app_nil_r; reflexivity|]. apply wf_inv in W as [Bc W].
  cbn [co_loop]. destruct (step_lang s c src I Bc) as [I' Lg']. pose proof (proj2 Lg' Lg) as LS. clear Lg'.
  destruct (sc_step s c) as [s' o] eqn:ST. cbn [fst] in I', LS. pose proof (proj1 LS) as E'. pose proof (proj1 Lg) as E.
  destruct (step_coded s c s' o I E Bc ST E') as [CI CS CN]. cbn [squeeze_from]. destruct (instr s) eqn:IS.
  - destruct (CI eq_refl) as (-> & IS' & ES'). rewrite IH by assumption. rewrite IS', ES', <- app_assoc. f_equal. f_equal. cbn [app]. f_equal.
    destruct (inesc s); [reflexivity|]. destruct (c =? 92); reflexivity.
  - change ((c =? 32) || (c =? 9) || (c =? 10) || (c =? 13)) with (sc_space c). destruct (sc_space c) eqn:S.
    + destruct (CS eq_refl eq_refl) as (IS' & ES' & H). destruct H as [(-> & _)|(-> & _)]; (rewrite IH by assumption); rewrite IS', ES', <- app_assoc; reflexivity.
    + destruct (CN eq_refl eq_refl) as (IS' & ES' & OE & H). destruct H as [(-> & C)|[(-> & C1 & C2)|(-> & C)]]; (rewrite IH by assumption); rewrite IS', ES', <- app_assoc; reflexivity.
Qed.
