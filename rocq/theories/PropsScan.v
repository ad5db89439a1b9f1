(** C86: Indent, Compact and HTMLEscape. *)
From Verif Require Import Bytes ParseModel StringModel TokenModel EncModel ScanModel SpecJson SpecString SpecTokens SpecRender SpecColor SpecRaw SpecScan
  ParseFacts StringFacts TokenFacts EncExtra EncFacts EncMain RawFacts TextFacts ColorFacts DocFacts RawText Unambig ScanFacts ScanMain ScanOut PropsParse PropsTokens PropsColor PropsEnc PropsRaw IndentModel PropsIndent.
From Coq Require Import Lia.
Local Open Scope Z_scope.

(** The shortest text of a tree, and its text in the layout of Indent. *)
Notation compact_text a := (render false None None 0 (jdoc false a)).
Notation indent_text prefix indent a := (render false None (Some (Indenter false prefix indent)) 0 (jdoc false a)).

(** * Removing the whitespace of a text *)
Lemma sq_ws w u : ws w -> squeeze (w ++ u) = squeeze u.
Proof. apply squeeze_ws. Qed.
Lemma sq_c c u : In c [44; 58; 91; 93; 123; 125] -> squeeze (c :: u) = c :: squeeze u.
Proof. cbn [In]. intros H. unfold squeeze. cbn [squeeze_from]. destruct H as [<-|[<-|[<-|[<-|[<-|[<-|[]]]]]]]; reflexivity. Qed.
Definition elems_compact (l : list jast) : bytes := join [44] (map (fun a => compact_text a) l).
Definition members_compact (l : list (bytes * jast)) : bytes := join [44] (map (fun kv => fst kv ++ [58] ++ compact_text (snd kv)) l).
Lemma compact_arr l : compact_text (JArr l) = [91] ++ elems_compact l ++ [93].
Proof.
  cbn [jdoc]. rewrite render_arr. destruct l as [|a l]; [reflexivity|]. unfold elems_compact.
  change (map (jdoc false) (a :: l)) with (jdoc false a :: map (jdoc false) l) at 1. cbv iota.
  unfold elems_text. rewrite map_map. change (lbrack None) with [91]. change (rbrack None) with [93]. change (comma None) with [44]. cbn [line app]. f_equal. f_equal. apply (f_equal (join [44])). apply map_ext. intros x. apply render_no_ind.
Qed.
Lemma compact_obj l : compact_text (JObj l) = [123] ++ members_compact l ++ [125].
Proof.
  cbn [jdoc]. rewrite render_obj. destruct l as [|[k a] l]; [reflexivity|]. unfold members_compact.
  match goal with |- context [map ?f ((k, a) :: l)] => change (map f ((k, a) :: l)) with (f (k, a) :: map f l) at 1 end. cbv iota.
  unfold members_text. rewrite map_map. change (lbrace None) with [123]. change (rbrace None) with [125]. change (comma None) with [44]. cbn [line app]. f_equal. f_equal. apply (f_equal (join [44])). apply map_ext. intros [k' x]. cbn [fst snd]. change (colon None) with [58]. change (line None (0 + 1)) with (@nil Z). cbn [paint space app raw_string]. f_equal. f_equal. apply render_no_ind.
Qed.
Lemma squeeze_value :
  (forall s a, jvalue s a -> squeezes s (compact_text a)) /\
  (forall s l, jelems s l -> squeezes s (elems_compact l)) /\
  (forall s l, jmembers s l -> squeezes s (members_compact l)) /\
  (forall s kv, jmember s kv -> squeezes s (fst kv ++ [58] ++ compact_text (snd kv))).
Proof.
  apply json_mutind.
  - apply squeeze_lit. unfold lit_token. tauto.
  - apply squeeze_lit. unfold lit_token. tauto.
  - apply squeeze_lit. unfold lit_token. tauto.
  - intros s N. apply squeeze_lit. unfold lit_token. tauto.
  - intros s N. apply squeeze_lit. unfold lit_token. tauto.
  - intros w W u. cbn [app]. rewrite <- app_assoc, sq_c, sq_ws by (cbn; tauto || assumption). cbn [app]. rewrite sq_c by (cbn; tauto). reflexivity.
  - intros s l J IH u. rewrite compact_arr. cbn [app]. rewrite <- !app_assoc, sq_c, IH by (cbn; tauto). cbn [app]. rewrite sq_c by (cbn; tauto). reflexivity.
  - intros w W u. cbn [app]. rewrite <- app_assoc, sq_c, sq_ws by (cbn; tauto || assumption). cbn [app]. rewrite sq_c by (cbn; tauto). reflexivity.
  - intros s l J IH u. rewrite compact_obj. cbn [app]. rewrite <- !app_assoc, sq_c, IH by (cbn; tauto). cbn [app]. rewrite sq_c by (cbn; tauto). reflexivity.
  - intros w1 s v w2 W1 J IH W2 u. rewrite <- !app_assoc, sq_ws, IH, sq_ws by assumption. reflexivity.
  - intros w1 s v w2 t l W1 J IH W2 Jt IHt u. rewrite <- !app_assoc, sq_ws, IH, sq_ws by assumption. cbn [app]. rewrite sq_c, IHt by (cbn; tauto).
    unfold elems_compact. cbn [map]. destruct l as [|a l]; [inversion Jt|]. cbn [map join]. rewrite <- !app_assoc. reflexivity.
  - intros m kv J IH u. rewrite IH. unfold members_compact. cbn [map join]. reflexivity.
  - intros m kv t l J IH Jt IHt u. rewrite <- app_assoc, IH. cbn [app]. rewrite sq_c, IHt by (cbn; tauto).
    unfold members_compact. cbn [map]. destruct l as [|a l]; [inversion Jt|]. cbn [map join]. rewrite <- !app_assoc. reflexivity.
  - intros w1 k w2 w3 s v w4 W1 K W2 W3 J IH W4 u. cbn [fst snd]. rewrite <- !app_assoc, sq_ws, (squeeze_lit k), sq_ws by (assumption || (left; assumption)).
    cbn [app]. rewrite sq_c by (cbn; tauto). rewrite <- !app_assoc, sq_ws, IH, sq_ws by assumption. rewrite <- ?app_assoc. reflexivity.
Qed.
Lemma squeeze_text s a : jtext s a -> squeeze s = compact_text a.
Proof.
  intros (w1 & v & w2 & -> & W1 & J & W2). rewrite sq_ws by exact W1. rewrite (proj1 squeeze_value v a J).
  replace w2 with (w2 ++ []) by apply app_nil_r. rewrite sq_ws by exact W2. cbn. apply app_nil_r.
Qed.
Lemma indent_squeeze p i s : forall instr esc need d, (instr = false -> esc = false) ->
  std_indent_from p i instr esc need d (squeeze_from instr esc s) = std_indent_from p i instr esc need d s.
Proof.
  induction s as [|c s IH]; intros instr esc need d H; [reflexivity|]. cbn [squeeze_from]. destruct instr.
  - cbn [std_indent_from]. f_equal. destruct esc; [apply IH; auto|]. destruct (c =? 92); apply IH; auto; discriminate.
  - rewrite (H eq_refl) in *. destruct ((c =? 32) || (c =? 9) || (c =? 10) || (c =? 13)) eqn:W.
    + rewrite IH by auto. cbn [std_indent_from]. rewrite W. reflexivity.
    + cbn [std_indent_from]. rewrite W. cbv zeta. destruct (c =? 34) eqn:Q.
      * apply Z.eqb_eq in Q. subst c. cbn [Z.eqb orb Pos.eqb]. f_equal. f_equal. apply IH; auto.
      * repeat match goal with |- context [if ?b then _ else _] => lazymatch b with need => fail | _ => destruct b end end; repeat rewrite IH by auto; reflexivity.
Qed.
Lemma std_indent_text p i s a : jtext s a -> std_indent p i s = indent_text p i a.
Proof.
  intros J. pose proof (jtext_ok s a J) as O. rewrite <- (std_indent_render false p i (jdoc false a)); [|now apply jdoc_ok|apply jdoc_std].
  rewrite <- (squeeze_text s a J). symmetry. apply indent_squeeze. auto.
Qed.
Lemma jtext_wf s a : jtext s a -> wf s.
Proof.
  intros (w1 & v & w2 & -> & W1 & J & W2). assert (X : forall w, ws w -> wf w) by (intros w; apply Forall_impl; unfold is_byte; lia).
  apply wf_app_iff. split; [now apply X|]. apply wf_app_iff. split; [eapply (proj1 jvalue_wf), J|now apply X].
Qed.

(** * Which texts are accepted *)
(** Indent and Compact accept exactly the JSON texts with at most 10000 brackets
    open at once. *)
Theorem C86_accepts : forall prefix indent s, wf s ->
  (go_indent prefix indent s <> None <-> exists a, jtext s a /\ brackets a <= 10000) /\
  (go_compact s <> None <-> exists a, jtext s a /\ brackets a <= 10000).
Proof.
  intros p i s W. pose proof (scan_iff s W) as H. change max_nesting with 10000 in H. split; rewrite <- H.
  - unfold go_indent. pose proof (in_loop_eof p i s W sc_new false 0 [] new_inv) as E. destruct (in_loop p i sc_new false 0 s []) as [s' d]. cbn [fst] in E. rewrite E.
    destruct (sc_eof _); split; congruence.
  - unfold go_compact. pose proof (co_loop_eof s W sc_new [] [] new_inv) as E. destruct (co_loop sc_new s [] []) as [[s' d] e]. cbn [fst] in E. rewrite E.
    destruct (sc_eof _); split; congruence.
Qed.
Print Assumptions C86_accepts.

Lemma last_not_space v a : jvalue v a -> exists t c, v = t ++ [c] /\ sc_space c = false.
Proof.
  intros J. assert (X : forall t c, ~ (c = 32 \/ c = 9 \/ c = 10 \/ c = 13) -> exists t' c', t ++ [c] = t' ++ [c'] /\ sc_space c' = false).
  { intros t c H. exists t, c. split; [reflexivity|]. apply not_true_iff_false. rewrite space_iff. exact H. }
  destruct J.
  - apply (X (bs "nul") 108). lia.
  - apply (X (bs "tru") 101). lia.
  - apply (X (bs "fals") 101). lia.
  - assert (s <> []) by (intros ->; destruct (number_head [] H) as (? & ? & ? & _); discriminate).
    destruct (exists_last H0) as (t & c & ->). apply X. apply number_chars in H. apply Forall_app in H as [_ H]. apply Forall_inv in H. lia.
  - destruct H as (b & -> & _). apply (X (34 :: b) 34). lia.
  - apply (X (91 :: w) 93). lia.
  - apply (X (91 :: s) 93). lia.
  - apply (X (123 :: w) 125). lia.
  - apply (X (123 :: s) 125). lia.
Qed.

(** * What is written *)
(** Indent writes the layout of the tree, one line for every element and member,
    and keeps the whitespace after the value. *)
Theorem C86_indent : forall prefix indent w1 s w2 a, ws w1 -> jvalue s a -> ws w2 -> brackets a <= 10000 ->
  go_indent prefix indent (w1 ++ s ++ w2) = Some (indent_text prefix indent a ++ w2).
Proof.
  intros p i w1 s w2 a W1 J W2 B. assert (T : jtext (w1 ++ s ++ w2) a) by (exists w1, s, w2; auto). pose proof (jtext_wf _ _ T) as W.
  unfold go_indent. pose proof (in_loop_eof p i _ W sc_new false 0 [] new_inv) as E.
  assert (Y : sc_eof (sc_run sc_new (w1 ++ s ++ w2)) = true) by (apply scan_iff; [exact W|]; exists a; auto).
  pose proof (in_loop_out p i _ W sc_new false 0 [] new_inv (proj1 (proj2 (run_lang _ W sc_new new_inv)) Y) ltac:(discriminate)) as O.
  destruct (in_loop p i sc_new false 0 (w1 ++ s ++ w2) []) as [s' d]. cbn [fst snd] in E, O. rewrite E, Y, O. cbn [app]. f_equal. f_equal.
  - change (std_indent_from p i false false false 0 (w1 ++ s ++ w2)) with (std_indent p i (w1 ++ s ++ w2)). now apply std_indent_text.
  - destruct (last_not_space s a J) as (t & c & -> & C). rewrite <- !app_assoc, app_assoc. cbn [app]. now apply trailing_app.
Qed.
(** Compact writes the tree without any layout. *)
Theorem C86_compact : forall s a, jtext s a -> brackets a <= 10000 -> go_compact s = Some (compact_text a).
Proof.
  intros s a T B. pose proof (jtext_wf _ _ T) as W. unfold go_compact. pose proof (co_loop_eof _ W sc_new [] [] new_inv) as E.
  assert (Y : sc_eof (sc_run sc_new s) = true) by (apply scan_iff; [exact W|]; exists a; auto).
  pose proof (co_loop_out _ W sc_new [] [] new_inv (proj1 (proj2 (run_lang _ W sc_new new_inv)) Y)) as O.
  destruct (co_loop sc_new s [] []) as [[s' pend] d]. cbn [fst snd] in E, O. rewrite E, Y, O. cbn [app]. f_equal.
  change (squeeze s = compact_text a). now apply squeeze_text.
Qed.
Print Assumptions C86_indent.
Print Assumptions C86_compact.
Lemma text_value ind a : ind_all ws ind -> ast_ok a -> jvalue (render false None ind 0 (jdoc false a)) a.
Proof. intros I O. pose proof (render_jvalue false ind I (jdoc false a) (jdoc_ok _ _ O) 0) as J. rewrite dast_jdoc, esc_ast_false in J by exact O. exact J. Qed.
(** Both outputs are JSON with the very same tree: every literal is kept as it is
    spelled, every key, every duplicate and the order. *)
Theorem C86_same_tree : forall prefix indent s t, ws prefix -> ws indent -> wf s ->
  go_indent prefix indent s = Some t \/ go_compact s = Some t -> exists a, jtext s a /\ jtext t a.
Proof.
  intros p i s t P I W [E|E].
  - destruct (proj1 (proj1 (C86_accepts p i s W))) as (a & (w1 & v & w2 & -> & W1 & J & W2) & B); [congruence|].
    rewrite (C86_indent p i w1 v w2 a) in E by assumption. injection E as <-. exists a. split; [exists w1, v, w2; auto|].
    exists [], (indent_text p i a), w2. repeat split; [constructor| |exact W2]. apply text_value; [split; assumption|]. apply (jtext_ok v). now apply jvalue_jtext.
  - destruct (proj1 (proj2 (C86_accepts p i s W))) as (a & J & B); [congruence|]. rewrite (C86_compact s a) in E by assumption. injection E as <-.
    exists a. split; [exact J|]. apply jvalue_jtext, (text_value None); [exact Logic.I|]. now apply (jtext_ok s).
Qed.
Print Assumptions C86_same_tree.
Lemma squeeze_len s : forall instr esc, (length (squeeze_from instr esc s) <= length s)%nat.
Proof.
  induction s as [|c s IH]; intros instr esc; [cbn; lia|]. cbn [squeeze_from].
  destruct instr; [cbn [length]|destruct (_ || _); cbn [length]; [specialize (IH false false); lia|]].
  - destruct esc; [specialize (IH true false); lia|]. destruct (c =? 92); [specialize (IH true true)|specialize (IH (negb (c =? 34)) false)]; lia.
  - specialize (IH (c =? 34) false). lia.
Qed.
(** No text of the same tree is shorter than the output of Compact. *)
Theorem C86_shortest : forall s t s' a, jtext s a -> go_compact s = Some t -> jtext s' a -> (length t <= length s')%nat.
Proof.
  intros s t s' a J E J'. pose proof (jtext_wf _ _ J) as W.
  destruct (proj1 (proj2 (C86_accepts [] [] s W))) as (a1 & J1 & B); [congruence|]. rewrite (jtext_unique s a1 a J1 J) in *.
  rewrite (C86_compact s a J B) in E. injection E as <-. rewrite <- (squeeze_text s' a J'). apply squeeze_len.
Qed.
(** Laying out a second time replaces the first layout; removing the layout gives
    back what Compact makes of the text itself; texts of one tree are
    distinguished by neither, except for the whitespace at the end. *)
Theorem C86_again : forall prefix indent p2 i2 s t, ws prefix -> ws indent -> wf s -> go_indent prefix indent s = Some t ->
  go_compact t = go_compact s /\ go_indent p2 i2 t = go_indent p2 i2 s.
Proof.
  intros p i p2 i2 s t P I W E. destruct (proj1 (proj1 (C86_accepts p i s W))) as (a & (w1 & v & w2 & -> & W1 & J & W2) & B); [congruence|].
  rewrite (C86_indent p i w1 v w2 a) in E by assumption. injection E as <-.
  assert (JI : jvalue (indent_text p i a) a) by (apply text_value; [split; assumption|]; apply (jtext_ok v); now apply jvalue_jtext).
  split.
  - rewrite (C86_compact (w1 ++ v ++ w2) a); [|exists w1, v, w2; auto|exact B]. apply C86_compact; [|exact B]. exists [], (indent_text p i a), w2. repeat split; [constructor|exact JI|exact W2].
  - rewrite (C86_indent p2 i2 w1 v w2 a) by assumption. apply (C86_indent p2 i2 [] (indent_text p i a) w2 a); try assumption. constructor.
Qed.
Theorem C86_compact_twice : forall s t, wf s -> go_compact s = Some t -> go_compact t = Some t.
Proof.
  intros s t W E. destruct (proj1 (proj2 (C86_accepts [] [] s W))) as (a & J & B); [congruence|]. rewrite (C86_compact s a J B) in E. injection E as <-.
  apply C86_compact; [|exact B]. apply jvalue_jtext, (text_value None); [exact Logic.I|]. now apply (jtext_ok s).
Qed.
Print Assumptions C86_shortest.
Print Assumptions C86_again.
Print Assumptions C86_compact_twice.

(** * HTMLEscape *)
Lemma land_fe b : is_byte b -> (Z.land b 0xFE =? 0xA8) = (b =? 0xA8) || (b =? 0xA9).
Proof.
  intros B. assert (A : forallb (fun n => Bool.eqb (Z.land (Z.of_nat n) 0xFE =? 0xA8) ((Z.of_nat n =? 0xA8) || (Z.of_nat n =? 0xA9))) (seq 0 256) = true) by (vm_compute; reflexivity).
  rewrite forallb_forall in A. specialize (A (Z.to_nat b)). rewrite Z2Nat.id in A by (unfold is_byte in B; lia).
  apply Bool.eqb_prop, A, in_seq. unfold is_byte in B. lia.
Qed.
Lemma he_out n : forall s, (length s <= n)%nat -> wf s -> forall pend dst, he_loop 0 s pend dst = dst ++ pend ++ html_escape s.
Proof.
  induction n as [|n IH]; intros s L W pend dst; (destruct s as [|c s]; [cbn; rewrite app_nil_r; reflexivity|]); cbn [length] in L; [lia|].
  apply wf_inv in W as [Bc W]. cbn [he_loop html_escape]. unfold is_html. destruct ((c =? 60) || (c =? 62) || (c =? 38)) eqn:H.
  - rewrite IH by (lia || assumption). rewrite <- !app_assoc. reflexivity.
  - assert (Y : he_loop 0 s (pend ++ [c]) dst = dst ++ pend ++ c :: html_escape s) by (rewrite IH by (lia || assumption); rewrite <- !app_assoc; reflexivity).
    destruct s as [|a [|b s]]; [exact Y|exact Y|]. pose proof W as W0. apply wf_inv in W as [Ba W]. apply wf_inv in W as [Bb W]. rewrite (land_fe b Bb).
    destruct ((c =? 226) && (a =? 128)); cbn [andb]; [|exact Y].
    destruct (b =? 168) eqn:E8; cbn [orb]; [|destruct (b =? 169) eqn:E9; [|exact Y]].
    + apply Z.eqb_eq in E8. subst b. cbn [he_loop]. cbn [length] in L. rewrite IH by (lia || assumption). rewrite <- !app_assoc. reflexivity.
    + apply Z.eqb_eq in E9. subst b. cbn [he_loop]. cbn [length] in L. rewrite IH by (lia || assumption). rewrite <- !app_assoc. reflexivity.
Qed.
(** HTMLEscape replaces '<', '>', '&', U+2028 and U+2029 by their escapes and
    keeps every other byte; nothing of them is left, whatever the bytes were; and
    a second time it changes nothing. *)
Theorem C86_html_escape : forall s, wf s -> go_html_escape s = html_escape s /\ no_html (go_html_escape s).
Proof.
  intros s W. assert (E : go_html_escape s = html_escape s) by (unfold go_html_escape; rewrite (he_out (length s)) by auto; reflexivity).
  split; [exact E|]. rewrite E. eapply hfree_no_html, html_escape_hfree. reflexivity.
Qed.
Lemma hfree_fixed s : hfree s -> html_escape s = s.
Proof.
  induction s as [|c s IH]; [reflexivity|]. intros (H1 & H2 & H3). specialize (IH H3).
  destruct (html_escape_cases c s) as [(H & _)|[(b & s' & -> & -> & Hb & _)|(_ & _ & E)]]; [congruence| |rewrite E; congruence].
  specialize (H2 eq_refl). destruct Hb as [->| ->]; discriminate H2.
Qed.
Lemma html_wf n : forall s, (length s <= n)%nat -> wf s -> wf (html_escape s).
Proof.
  induction n as [|n IH]; intros s L W; (destruct s as [|c s]; [constructor|]); cbn [length] in L; [lia|]. apply wf_inv in W as [Bc W].
  destruct (html_escape_cases c s) as [(H & E)|[(b & s' & -> & -> & Hb & E)|(_ & _ & E)]]; rewrite E.
  - apply wf_app_iff. split; [|apply IH; [lia|exact W]]. unfold is_html in H. rewrite !orb_true_iff, !Z.eqb_eq in H.
    assert (c = 60 \/ c = 62 \/ c = 38) as [->|[->| ->]] by tauto; vm_compute; repeat constructor; discriminate.
  - cbn [length] in L. apply wf_inv in W as [_ W]. apply wf_inv in W as [_ W]. apply wf_app_iff. split; [|apply IH; [lia|exact W]].
    destruct Hb as [->| ->]; vm_compute; repeat constructor; discriminate.
  - constructor; [exact Bc|apply IH; [lia|exact W]].
Qed.
Theorem C86_html_twice : forall s, wf s -> go_html_escape (go_html_escape s) = go_html_escape s.
Proof.
  intros s W. rewrite (proj1 (C86_html_escape s W)). rewrite (proj1 (C86_html_escape (html_escape s) (html_wf (length s) s (le_n _) W))).
  apply hfree_fixed, (html_escape_hfree (length s)). lia.
Qed.
Print Assumptions C86_html_escape.
Print Assumptions C86_html_twice.
(** Text after a byte below 0x80 is escaped on its own. *)
Lemma html_split n : forall s, (length s <= n)%nat -> forall c u, c < 0x80 -> html_escape (s ++ c :: u) = html_escape (s ++ [c]) ++ html_escape u.
Proof.
  induction n as [|n IH]; intros s L c u C; (destruct s as [|x s]; [|cbn [length] in L]); [| lia | |].
  1,2: cbn [app]; change (c :: u) with ([c] ++ u); destruct (html_escape_cases c u) as [(H & E)|[(b & s' & -> & _)|(H & _ & E)]]; [|lia|];
    cbn [app]; rewrite E; cbn [html_escape]; rewrite H; rewrite ?app_nil_r; reflexivity.
  cbn [app]. destruct (html_escape_cases x (s ++ c :: u)) as [(H & E)|[(b & s' & -> & E0 & Hb & E)|(H & H2 & E)]]; rewrite E.
  - rewrite html_escape_html by exact H. rewrite IH by (lia || assumption). rewrite app_assoc. reflexivity.
  - destruct s as [|y [|z s]]; cbn [app] in E0; [injection E0 as -> _; lia|injection E0 as -> -> _; lia|]. injection E0 as -> -> <-.
    cbn [length app] in *. rewrite (html_escape_e2_ls b) by exact Hb. rewrite IH by (lia || assumption). rewrite app_assoc. reflexivity.
  - rewrite IH by (lia || assumption). cbn [app]. destruct (Z.eq_dec x 226) as [->|N].
    + rewrite html_escape_e2_other; [reflexivity|]. specialize (H2 eq_refl). destruct s as [|y [|z s]]; cbn in H2 |- *; [reflexivity|exact H2|exact H2].
    + rewrite html_escape_plain by assumption. reflexivity.
Qed.
Definition hsplit (s t : bytes) : Prop := forall u, html_escape (s ++ u) = t ++ html_escape u.
Lemma hsplit_app s t s' t' : hsplit s t -> hsplit s' t' -> hsplit (s ++ s') (t ++ t').
Proof. intros H H' u. rewrite <- !app_assoc, H, H'. reflexivity. Qed.
Lemma hsplit_plain s : Forall (fun c => is_html c = false /\ c < 0x80) s -> hsplit s s.
Proof. intros H u. induction H as [|c s [C C'] H IH]; [reflexivity|]. cbn [app]. rewrite html_escape_plain, IH by (assumption || lia). reflexivity. Qed.
Lemma hsplit_ws w : ws w -> hsplit w w.
Proof. intros W. apply hsplit_plain. eapply Forall_impl; [|exact W]. cbv beta. intros c H. rewrite is_html_false. lia. Qed.
Lemma hsplit_c c : In c [44; 58; 91; 93; 123; 125] -> hsplit [c] [c].
Proof. intros H. apply hsplit_plain. constructor; [|constructor]. rewrite is_html_false. cbn in H. lia. Qed.
Lemma hsplit_str s : string_lit s -> hsplit s (html_escape s).
Proof. intros (b & -> & _) u. change (34 :: b ++ [34]) with ((34 :: b) ++ [34]). rewrite <- app_assoc. cbn [app]. apply (html_split (length (34 :: b)) (34 :: b)); lia. Qed.
Lemma html_value :
  (forall s a, jvalue s a -> exists t, hsplit s t /\ jvalue t (esc_ast true a)) /\
  (forall s l, jelems s l -> exists t, hsplit s t /\ jelems t (map (esc_ast true) l)) /\
  (forall s l, jmembers s l -> exists t, hsplit s t /\ jmembers t (map (fun kv => (html_escape (fst kv), esc_ast true (snd kv))) l)) /\
  (forall s kv, jmember s kv -> exists t, hsplit s t /\ jmember t (html_escape (fst kv), esc_ast true (snd kv))).
Proof.
  apply json_mutind.
  - exists (bs "null"). split; [|constructor]. apply hsplit_plain. repeat constructor.
  - exists (bs "true"). split; [|constructor]. apply hsplit_plain. repeat constructor.
  - exists (bs "false"). split; [|constructor]. apply hsplit_plain. repeat constructor.
  - intros s N. exists s. split; [|constructor; exact N]. apply hsplit_plain. apply number_chars in N. eapply Forall_impl; [|exact N]. cbv beta. intros c H. rewrite is_html_false. lia.
  - intros s N. exists (html_escape s). split; [now apply hsplit_str|]. cbn [esc_ast]. constructor. apply (raw_string_lit true s N).
  - intros w W. exists (91 :: w ++ [93]). split; [|constructor; exact W]. change (91 :: w ++ [93]) with ([91] ++ w ++ [93]).
    repeat apply hsplit_app; try (apply hsplit_c; cbn; tauto). now apply hsplit_ws.
  - intros s l J (t & H & J'). exists (91 :: t ++ [93]). split; [|constructor; exact J'].
    apply (hsplit_app [91] [91]); [apply hsplit_c; cbn; tauto|]. apply hsplit_app; [exact H|apply hsplit_c; cbn; tauto].
  - intros w W. exists (123 :: w ++ [125]). split; [|constructor; exact W]. change (123 :: w ++ [125]) with ([123] ++ w ++ [125]).
    repeat apply hsplit_app; try (apply hsplit_c; cbn; tauto). now apply hsplit_ws.
  - intros s l J (t & H & J'). exists (123 :: t ++ [125]). split.
    + apply (hsplit_app [123] [123]); [apply hsplit_c; cbn; tauto|]. apply hsplit_app; [exact H|apply hsplit_c; cbn; tauto].
    + cbn [esc_ast]. constructor. erewrite map_ext; [exact J'|]. intros [k x]. reflexivity.
  - intros w1 s v w2 W1 J (t & H & J') W2. exists (w1 ++ t ++ w2). split; [|now constructor]. repeat apply hsplit_app; auto using hsplit_ws.
  - intros w1 s v w2 t l W1 J (s' & H & J') W2 Jt (t' & Ht & Jt'). exists (w1 ++ s' ++ w2 ++ 44 :: t'). split; [|now constructor].
    repeat apply hsplit_app; auto using hsplit_ws. apply (hsplit_app [44] [44]); [apply hsplit_c; cbn; tauto|exact Ht].
  - intros m kv J (t & H & J'). exists t. split; [exact H|]. cbn [map]. now constructor.
  - intros m kv t l J (s' & H & J') Jt (t' & Ht & Jt'). exists (s' ++ 44 :: t'). split; [|cbn [map]; now constructor].
    apply hsplit_app; [exact H|]. apply (hsplit_app [44] [44]); [apply hsplit_c; cbn; tauto|exact Ht].
  - intros w1 k w2 w3 s v w4 W1 K W2 W3 J (t & H & J') W4. exists (w1 ++ html_escape k ++ w2 ++ 58 :: w3 ++ t ++ w4). split.
    + repeat apply hsplit_app; auto using hsplit_ws, hsplit_str. apply (hsplit_app [58] [58]); [apply hsplit_c; cbn; tauto|]. repeat apply hsplit_app; auto using hsplit_ws.
    + cbn [fst snd]. constructor; auto. apply (raw_string_lit true k K).
Qed.
(** On JSON the result is JSON: the same tree, whose strings may be spelled
    differently but denote the same characters. *)
Theorem C86_html_json : forall s a, jtext s a -> exists a', jtext (go_html_escape s) a' /\ same_tree a a'.
Proof.
  intros s a J. rewrite (proj1 (C86_html_escape s (jtext_wf s a J))). exists (esc_ast true a). split; [|apply esc_ast_same; now apply (jtext_ok s)].
  destruct J as (w1 & v & w2 & -> & W1 & J & W2). destruct (proj1 html_value v a J) as (t & H & J').
  exists w1, t, w2. repeat split; auto. rewrite (hsplit_ws w1 W1), H. f_equal. f_equal.
  pose proof (hsplit_ws w2 W2 []) as E. rewrite !app_nil_r in E. exact E.
Qed.
Print Assumptions C86_html_json.
Example C86_case :
  go_indent [] (bs "  ") (bs " {""a"": [1, {}],""a"":""<\""A"" } " ++ [10]) = Some (bs "{" ++ [10] ++ bs "  ""a"": [" ++ [10] ++ bs "    1," ++ [10] ++ bs "    {}" ++ [10] ++ bs "  ]," ++ [10] ++
     bs "  ""a"": ""<\""A""" ++ [10] ++ bs "} " ++ [10]) /\
  go_compact (bs " {""a"": [1, {}],""a"":""< \"" "" } ") = Some (bs "{""a"":[1,{}],""a"":""< \"" ""}") /\
  go_html_escape (bs "{""a"" : ""<&""}" ++ [0xE2; 0x80; 0xA9]) = bs "{""a"" : ""\u003c\u0026""}\u2029" /\
  go_compact (bs "[01]") = None /\ go_compact (bs "[1}") = None /\ go_compact (bs "1 2") = None /\ go_compact (bs """" ++ [10] ++ bs """") = None /\
  go_compact [] = None /\ go_compact (bs "[1") = None /\ go_compact (bs "-") = None /\ go_indent [] [] (bs "{""a"" 1}") = None.
Proof. repeat split; vm_compute; reflexivity. Qed.
Example C86_json_ex : exists a, jtext (bs " {""a"": [1, {}],""a"":""< \"" "" } ") a /\ brackets a <= 10000.
Proof.
  assert (W : wf (bs " {""a"": [1, {}],""a"":""< \"" "" } ")) by (vm_compute; repeat constructor; discriminate).
  apply (C86_accepts [] [] _ W). vm_compute. discriminate.
Qed.

(** * Nesting *)
(** n + 1 brackets. *)
Fixpoint nest (n : nat) : gval := match n with O => GSlice (Some []) | Datatypes.S n => GSlice (Some [nest n]) end.
Fixpoint nest_ast (n : nat) : jast := match n with O => JArr [] | Datatypes.S n => JArr [nest_ast n] end.
Definition nest_text (n : nat) : bytes := repeat 91 (Datatypes.S n) ++ repeat 93 (Datatypes.S n).
Lemma repeat_snoc (x : Z) n : repeat x (Datatypes.S n) = repeat x n ++ [x].
Proof. induction n as [|n IH]; [reflexivity|]. cbn [repeat app] in *. rewrite <- IH. reflexivity. Qed.
Lemma nest_value n : jvalue (nest_text n) (nest_ast n) /\ brackets (nest_ast n) = Z.of_nat n + 1.
Proof.
  induction n as [|n [J B]]; [split; [apply (V_arr0 []); constructor|reflexivity]|]. split.
  - cbn [nest_ast]. replace (nest_text (Datatypes.S n)) with (91 :: ([] ++ nest_text n ++ []) ++ [93]).
    + apply V_arr. constructor; [constructor|exact J|constructor].
    + unfold nest_text. rewrite (repeat_snoc 93 (Datatypes.S n)), app_nil_r. cbn [app]. rewrite <- app_assoc. reflexivity.
  - cbn [nest_ast brackets map fold_right]. rewrite B. lia.
Qed.
(** Valid accepts every nesting; Indent and Compact do not. *)
Theorem C86_nesting_refuted : forall n prefix indent, 10000 <= Z.of_nat n ->
  Valid (nest_text n) = true /\ go_indent prefix indent (nest_text n) = None /\ go_compact (nest_text n) = None.
Proof.
  intros n p i N. destruct (nest_value n) as [J B]. pose proof (jvalue_jtext _ _ J) as T. pose proof (jtext_wf _ _ T) as W.
  split; [apply C01_valid_iff_grammar; eauto|].
  assert (X : ~ exists a, jtext (nest_text n) a /\ brackets a <= 10000) by (intros (a & T' & B'); rewrite (jtext_unique _ a _ T' T) in B'; lia).
  destruct (C86_accepts p i _ W) as [A1 A2]. split.
  - destruct (go_indent p i (nest_text n)); [exfalso; apply X, A1; discriminate|reflexivity].
  - destruct (go_compact (nest_text n)); [exfalso; apply X, A2; discriminate|reflexivity].
Qed.
Print Assumptions C86_nesting_refuted.

(** * MarshalIndent with this Indent (C54) *)
Theorem go_indents : indents go_indent /\ strict go_indent.
Proof.
  split.
  - intros p i s a J B. pose proof (C86_indent p i [] s [] a ltac:(constructor) J ltac:(constructor) B) as E. cbn [app] in E. rewrite !app_nil_r in E. rewrite E.
    f_equal. symmetry. now apply std_indent_text, jvalue_jtext.
  - intros p i s t W E. apply C01_valid_iff_grammar; [exact W|]. destruct (proj1 (proj1 (C86_accepts p i s W))) as (a & J & _); [congruence|]. eauto.
Qed.
Print Assumptions go_indents.
Lemma nest_clean n : clean true false false (nest n).
Proof. induction n as [|n IH]; [exact I|]. cbn [nest]. cbn. split; [exact IH|exact I]. Qed.
Lemma nest_vdoc n : forall x d, vdoc true true false (nest n) x -> dast true None d x = nest_ast n.
Proof.
  induction n as [|n IH]; intros x d V; cbn [nest] in V; inversion V; subst; cbn [dast nest_ast];
    match goal with F : Forall2 _ _ _ |- _ => inversion F as [|? y ? ? Vy F']; subst end; [reflexivity|].
  inversion F'; subst. cbn [map]. rewrite (IH y _ Vy). reflexivity.
Qed.
(** The limit is reached by MarshalIndent: for a value nested deeper Marshal
    succeeds, MarshalIndent returns an error, and beside it the compact text. *)
Theorem C54_deep_refuted : forall n prefix indent, 10000 <= Z.of_nat n ->
  clean true false false (nest n) /\
  exists p, marshal go_indent (nest n) = Some (p, None) /\ Valid p = true /\ marshal_indent go_indent (nest n) prefix indent = Some (p, Some ESyntax).
Proof.
  intros n prefix indent N. split; [apply nest_clean|]. unfold marshal_indent.
  destruct (C33_encode_spec_partial (marshal_cfg go_indent) (nest n) [] 0 (nest_clean n) (or_introl eq_refl)) as [(x & V & H)|(NV & _)].
  - assert (O : doc_ok x) by (eapply vdoc_ok; [apply nest_clean|exact V]).
    pose proof (render_jvalue true None I x O 0) as J. rewrite (nest_vdoc n x 0 V) in J.
    unfold marshal. rewrite H. cbn [app e_html e_clrs e_ind marshal_cfg]. set (p := render true None None 0 x) in *. clearbody p.
    exists p. split; [reflexivity|]. pose proof (jvalue_jtext _ _ J) as T. pose proof (jtext_wf _ _ T) as W. split; [apply C01_valid_iff_grammar; eauto|].
    destruct (go_indent prefix indent p) eqn:E; [|reflexivity]. exfalso.
    destruct (proj1 (proj1 (C86_accepts prefix indent p W))) as (a & T' & B'); [congruence|]. rewrite (jtext_unique _ a _ T' T), (proj2 (nest_value n)) in B'. lia.
  - exfalso. assert (X : exists x, vdoc true true false (nest n) x); [|destruct X as [x X]; exact (NV x X)].
    clear. induction n as [|n [x V]]; eexists; cbn [nest]; apply vd_slice; [constructor|]. constructor; [exact V|constructor].
Qed.
Print Assumptions C54_deep_refuted.
Example C54_deep_ex : exists n, 10000 <= Z.of_nat n.
Proof. exists (Z.to_nat 10000). rewrite Z2Nat.id; lia. Qed.
Example C54_go_case : exists o, marshal_indent go_indent demo [] [9] = Some (o, None) /\ (100 < length o)%nat.
Proof. eexists. split; [vm_compute; reflexivity|]. vm_compute. lia. Qed.

(** * Trusted messages with this Indent (C20) *)
Lemma run_error_not_json s l e a : token_run s l (Some e) -> jtext s a -> False.
Proof.
  intros (t1 & t2 & S & N & E) J. destruct (run_text s a J) as (t' & S' & N'). revert S S' N N' E. generalize (new_tokenizer s) (ktoks false 0 0 a).
  intros t0 l'. intros S. revert l'. induction S as [t|t t3 l t4 H S IH]; intros l' S' N N' E.
  - inversion S' as [|? ? ? ? H' S'']; subst; [|congruence]. rewrite N in N'. injection N' as ->. discriminate E.
  - inversion S' as [|? ? l2 ? H' S'']; subst; [congruence|]. rewrite H in H'. injection H' as <-. eapply IH; eauto.
Qed.
(** A message on which the Tokenizer reports an error is not JSON, so Indent
    rejects it, and it is written byte for byte, with any Indenter and any
    colors, unless EscapeHTML is set. *)
Theorem C20_trusted_indented_partial : forall c s l e b d, wf s -> e_trust c = true -> e_html c = false -> e_stdindent c = go_indent ->
  token_run s l (Some e) -> exists d', enc c (GRaw (Some s)) b d = ER (b ++ s) d' None.
Proof.
  intros c s l e b d W T H G R. pose proof R as (t1 & t2 & S & N & E). cbn [enc].
  destruct (raw_trusted_error c s l t1 t2 e W T S N E b d) as (d' & X). exists d'. rewrite X. f_equal.
  unfold append_raw_verbatim. rewrite H, G. destruct (match e_ind c with None => true | Some i => i_disabled i end); [reflexivity|].
  match goal with |- context [go_indent ?p ?i s] => destruct (go_indent p i s) eqn:GI; [|reflexivity]; destruct (proj1 (proj1 (C86_accepts p i s W))) as (a & J & _); [congruence|] end.
  exfalso. exact (run_error_not_json s l e a R J).
Qed.
Print Assumptions C20_trusted_indented_partial.
(** With EscapeHTML whitespace is removed first, and a malformed message can come
    out as JSON. *)
Definition trust_html (ind : option indenter) : cfg := Cfg true true true None ind go_indent.
Theorem C20_escaped_refuted : forall ind, ind = None \/ ind = Some (new_indenter [] [9]) ->
  Valid (bs "tr ue") = false /\ enc (trust_html ind) (GRaw (Some (bs "tr ue"))) [] 0 = ER (bs "true") 0 None.
Proof. intros ind [->| ->]; repeat split; vm_compute; reflexivity. Qed.
Print Assumptions C20_escaped_refuted.
Example C20_trusted_indented_ex : exists l e, token_run (bs "[1, tru]") l (Some e) /\
  enc (Cfg false true true None (Some (new_indenter [] [9])) go_indent) (GRaw (Some (bs "[1, tru]"))) [] 0 = ER (bs "[1, tru]") 1 None.
Proof.
  eexists _, _. split; [|vm_compute; reflexivity].
  eexists _, _. split; [do 3 (econstructor; [vm_compute; reflexivity|]); constructor|].
  split; [vm_compute; reflexivity|reflexivity].
Qed.
