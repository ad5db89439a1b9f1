(** C21, C22: the Tokenizer. *)
From Verif Require Import Bytes ParseModel StringModel TokenModel SpecJson SpecTokens ParseFacts TokenFacts.

(** The calls of Next on a fresh tokenizer that return true give [l], and the
    next call returns false, with the resulting Err. *)
Definition token_run (data : bytes) (l : list token) (e : option err) : Prop :=
  exists t t', steps (new_tokenizer data) l t /\ tok_next t = Some (t', false) /\ t_err t' = e.

(** C21 for texts without an empty object inside an array: exactly the tokens
    of the text, with Delim, Value, Depth, Index and IsKey, then no error. *)
Theorem C21_tokens_partial : forall data a, jtext data a -> no_empty_in_array a ->
  token_run data (toks 0 0 a) None.
Proof.
  intros data a J N. destruct (run_text data a J) as (t & S & E).
  rewrite (proj2 (ktoks_clean a) N) in S. exists t, (new_tokenizer []). auto.
Qed.
Print Assumptions C21_tokens_partial.

(** C21 for every JSON text, without IsKey. *)
Theorem C21_tokens_positions : forall data a, jtext data a ->
  exists l, token_run data l None /\
    map (fun t => (k_delim t, k_value t, k_depth t, k_index t)) l =
    map (fun t => (k_delim t, k_value t, k_depth t, k_index t)) (toks 0 0 a).
Proof.
  intros data a J. destruct (run_text data a J) as (t & S & E). exists (ktoks false 0 0 a).
  split; [exists t, (new_tokenizer []); auto|].
  pose proof (ktoks_unkey a false 0 0) as U. apply (f_equal (map (fun t => (k_delim t, k_value t, k_depth t, k_index t)))) in U.
  rewrite !map_map in U. exact U.
Qed.
Print Assumptions C21_tokens_positions.

(** A run is determined by the input, so the theorems above say what Next
    returns. *)
Theorem C21_run_unique : forall data l1 e1 l2 e2, token_run data l1 e1 -> token_run data l2 e2 -> l1 = l2 /\ e1 = e2.
Proof.
  intros data l1 e1 l2 e2 (t1 & t1' & S1 & N1 & E1) (t2 & t2' & S2 & N2 & E2).
  revert S1 S2. generalize (new_tokenizer data). intros t S1. revert l2.
  induction S1 as [t|t t1 l t' H S1 IH]; intros l2 S2.
  - destruct S2 as [t|t t1 l t' H S2]; [|congruence]. split; [reflexivity|congruence].
  - destruct S2 as [t|t t2 l2 t'' H2 S2]; [congruence|]. rewrite H in H2. injection H2 as <-.
    destruct (IH N1 _ S2) as [-> ->]. auto.
Qed.
Print Assumptions C21_run_unique.

Example C21_case :
  let data := bs " {""a"": [1, true], ""b"":{""c"":null}} " in
  let a := JObj [(bs """a""", JArr [JNum (bs "1"); JTrue]); (bs """b""", JObj [(bs """c""", JNull)])] in
  jtext data a /\ no_empty_in_array a /\
  nth 4 (toks 0 0 a) (TK 0 [] 0 0 false) = TK 0 (bs "1") 2 0 false /\
  nth 6 (toks 0 0 a) (TK 0 [] 0 0 false) = TK 0 (bs "true") 2 1 false.
Proof.
  cbn zeta. split; [|split; [cbn; intuition discriminate|split; reflexivity]].
  exists [32], (bs "{""a"": [1, true], ""b"":{""c"":null}}"), [32].
  assert (S : forall c, 97 <= c <= 99 -> string_lit [34; c; 34]).
  { intros c Hc. exists [c]. split; [reflexivity|]. apply sb_char; [lia|lia|lia|constructor]. }
  assert (W1 : ws [32]) by (constructor; [auto|constructor]).
  split; [reflexivity|]. split; [exact W1|]. split; [|exact W1].
  assert (W0 : ws []) by constructor.
  apply (V_obj (bs """a"": [1, true], ""b"":{""c"":null}")).
  apply (M_cons (bs """a"": [1, true]") _ (bs " ""b"":{""c"":null}")).
  - apply (M_intro [] (bs """a""") [] [32] (bs "[1, true]") _ []); try exact W1; try exact W0; [apply (S 97); lia|].
    apply (V_arr (bs "1, true")).
    apply (E_cons [] (bs "1") _ [] (bs " true")); try exact W0.
    + apply V_num. apply (number_intro [] (bs "1") [] []); [auto| |constructor|constructor]. apply (int_pos 49 []); [lia|constructor].
    + apply (E_one [32] (bs "true") _ []); [exact W1|constructor|exact W0].
  - apply M_one. apply (M_intro [32] (bs """b""") [] [] (bs "{""c"":null}") _ []); try exact W1; try exact W0; [apply (S 98); lia|].
    apply (V_obj (bs """c"":null")).
    apply M_one. apply (M_intro [] (bs """c""") [] [] (bs "null") _ []); try exact W0; [apply (S 99); lia|constructor].
Qed.

(** IsKey is wrong after an empty object in an array: [{},"x"] marks "x". *)
Theorem C21_iskey_refuted : exists data a l, jtext data a /\ token_run data l None /\ l <> toks 0 0 a.
Proof.
  exists (bs "[{},""x""]"), (JArr [JObj []; JStr (bs """x""")]), (ktoks false 0 0 (JArr [JObj []; JStr (bs """x""")])).
  assert (J : jtext (bs "[{},""x""]") (JArr [JObj []; JStr (bs """x""")])).
  { exists [], (bs "[{},""x""]"), []. split; [reflexivity|]. split; [constructor|]. split; [|constructor].
    apply (V_arr (bs "{},""x""")). apply (E_cons [] (bs "{}") _ [] (bs """x""")); [constructor| |constructor|].
    - apply (V_obj0 []). constructor.
    - apply (E_one [] (bs """x""") _ []); [constructor| |constructor]. apply V_str. exists (bs "x"). split; [reflexivity|].
      apply (sb_char 120); [lia|lia|lia|constructor]. }
  split; [exact J|]. split.
  - destruct (run_text _ _ J) as (t & S & E). exists t, (new_tokenizer []). auto.
  - intros H. apply (f_equal (map k_key)) in H. vm_compute in H. discriminate.
Qed.
Print Assumptions C21_iskey_refuted.

(** Every token returned, on any input, is a literal or delimiter found in the
    input after whitespace, and nothing is skipped. *)
Theorem C21_only_tokens : forall t t', wf (t_json t) -> tok_next t = Some (t', true) ->
  exists w, ws w /\ t_json t = w ++ t_value t' ++ t_json t' /\
    (t_delim t' = 0 /\ (string_lit (t_value t') \/ number_lit (t_value t') \/
       In (t_value t') [bs "null"; bs "true"; bs "false"])
     \/ In (t_delim t') [123; 125; 91; 93; 58; 44] /\ t_value t' = [t_delim t']).
Proof.
  intros t t' W H. destruct (tok_next_sound t t' W H) as (w & Hw & E & _ & _ & K). exists w.
  split; [exact Hw|]. split; [exact E|]. destruct K as [[K1 K2]|[K1 K2]].
  - left. split; [exact K1|]. unfold lit_token in K2. cbn [In].
    destruct K2 as [K2|[K2|[K2|[K2|K2]]]]; rewrite ?K2; auto 6.
  - right. split; [|exact K2]. unfold is_delim in K1. rewrite !orb_true_iff, !Z.eqb_eq in K1. cbn [In]. intuition congruence.
Qed.
Print Assumptions C21_only_tokens.

(** C22: once Err is set every call returns false and changes nothing. *)
Theorem C22_errors_sticky : forall t e, t_err t = Some e -> tok_next t = Some (t, false).
Proof. intros t e E. unfold tok_next. rewrite E. reflexivity. Qed.
Print Assumptions C22_errors_sticky.

(** C22, the part of "malformed input sets Err" that holds: whenever the rest
    of the input does not begin with a token, Next fails with Err set. *)
Theorem C22_bad_token_reported_partial : forall t w s, wf s -> t_err t = None -> t_json t = w ++ s -> ws w ->
  s <> [] -> (forall c r, s = c :: r -> ~ In c [32; 9; 10; 13]) ->
  (forall c r, s = c :: r -> ~ In c [123; 125; 91; 93; 58; 44]) ->
  (forall v r, s = v ++ r -> ~ (string_lit v \/ number_lit v \/ v = bs "null" \/ v = bs "true" \/ v = bs "false")) ->
  exists t' e, tok_next t = Some (t', false) /\ t_err t' = Some e.
Proof.
  intros t w s W E1 E2 Hw NE HS HD HL. apply (tok_next_lexical t w s); auto.
  - destruct s as [|c s]; [exact I|]. cbn. specialize (HS _ _ eq_refl). cbn [In] in HS.
    unfold is_space. rewrite !orb_false_iff, !Z.eqb_neq. intuition.
  - intros c r ->. specialize (HD _ _ eq_refl). cbn [In] in HD.
    unfold is_delim. rewrite !orb_false_iff, !Z.eqb_neq. intuition.
Qed.
Print Assumptions C22_bad_token_reported_partial.

Example C22_case : exists t', tok_next (new_tokenizer (bs " tru ")) = Some (t', false) /\ t_err t' = Some ESyntax /\
  tok_next t' = Some (t', false).
Proof. eexists. repeat split. Qed.

(** C22: Next panics exactly on a comma outside every array and object. *)
Theorem C22_panic_iff_partial : forall t, tok_next t = None <->
  t_err t = None /\ t_stack t = [] /\ exists w r, ws w /\ t_json t = w ++ 44 :: r.
Proof.
  intros t. split.
  - destruct (skip_spaces_split (t_json t)) as (w & Hw & Ej & Hn). destruct (t_err t) eqn:Ee.
    { unfold tok_next. rewrite Ee. discriminate. }
    rewrite (tok_next_eq t w _ _ _ Hw Hn Ee Ej eq_refl eq_refl).
    destruct (skip_spaces (t_json t)) as [|c s]; [discriminate|].
    destruct (scan_token (c :: s)) as [[[d v] r] e] eqn:Et.
    assert (D : d = 0 \/ d = c /\ is_delim c = true).
    { unfold scan_token in Et. unfold tok_of_pres in Et.
      repeat match type of Et with
      | (if ?x then _ else _) = _ => destruct x eqn:?
      | match ?x with _ => _ end = _ => destruct x eqn:?
      end; injection Et as <- <- <- <-; auto. }
    intros H. destruct (d =? 0) eqn:E0; [discriminate|]. zb. destruct D as [D|[-> D]]; [congruence|].
    destruct (c =? 123) eqn:?; [discriminate|]. destruct (c =? 91) eqn:?; [discriminate|].
    destruct ((c =? 125) || (c =? 93)) eqn:?; [destruct (tok_pop _ _); discriminate|].
    destruct (c =? 58) eqn:?; [discriminate|]. destruct (t_stack t) as [|[o n] st]; [|discriminate].
    split; [reflexivity|]. split; [reflexivity|]. unfold is_delim in D. rewrite !orb_true_iff, !Z.eqb_eq in D. zb.
    assert (c = 44) by lia. subst c. eauto.
  - intros (E & S & w & r & Hw & Ej). rewrite (tok_next_eq t w (44 :: r) _ _ Hw eq_refl E Ej eq_refl eq_refl).
    rewrite S. reflexivity.
Qed.
Print Assumptions C22_panic_iff_partial.

(** "Never panics" is false. *)
Theorem C22_panic_refuted : exists data, tok_next (new_tokenizer data) = None.
Proof. exists (bs ","). reflexivity. Qed.
Print Assumptions C22_panic_refuted.

(** "Malformed input sets Err and later calls fail" is false: on "]1" the first
    call returns false with a nil Err and the second returns true. *)
Theorem C22_mismatch_not_sticky_refuted : exists data t1 t2, Valid data = false /\
  tok_next (new_tokenizer data) = Some (t1, false) /\ t_err t1 = None /\ tok_next t1 = Some (t2, true).
Proof. exists (bs "]1"). eexists _, _. split; [reflexivity|]. repeat split. Qed.
Print Assumptions C22_mismatch_not_sticky_refuted.

(** A tokenizer loop always ends: Next returns true at most once per byte. *)
Theorem C22_run_bounded : forall t l t', wf (t_json t) -> steps t l t' -> (length l + length (t_json t') <= length (t_json t))%nat.
Proof. exact steps_bounded. Qed.
Print Assumptions C22_run_bounded.

(** Brackets, on every input: the brackets of the tokens returned match, Depth is
    the nesting, and a closing bracket is returned if and only if it closes the
    innermost array or object. *)
Definition closer (s : bool * Z) : Z := if fst s then 125 else 93.
Lemma next_nested t t' l : wf (t_json t) -> tok_next t = Some (t', true) -> nested l (map closer (t_stack t)) ->
  nested (l ++ [view t']) (map closer (t_stack t')).
Proof.
  intros W H N. destruct (t_err t) eqn:Ee; [unfold tok_next in H; rewrite Ee in H; discriminate|].
  destruct (skip_spaces_split (t_json t)) as (w & Hw & Ej & Hn).
  rewrite (tok_next_eq t w _ _ _ Hw Hn Ee Ej eq_refl eq_refl) in H.
  destruct (skip_spaces (t_json t)) as [|c s]; [discriminate|].
  destruct (scan_token (c :: s)) as [[[d v] r] e] eqn:Et.
  assert (DP : forall st, tok_depth st = Z.of_nat (length (map closer st))) by (intros st; unfold tok_depth; now rewrite map_length).
  destruct (d =? 0) eqn:E0.
  { zb. subst d. injection H as <- _. cbn [t_stack view]. apply ne_other; [exact N|cbn; intuition discriminate|apply DP]. }
  destruct (d =? 123) eqn:E1; [zb; subst; injection H as <-; cbn [map closer fst]; apply ne_obj; [exact N|reflexivity|apply DP]|].
  destruct (d =? 91) eqn:E2; [zb; subst; injection H as <-; cbn [map closer fst]; apply ne_arr; [exact N|reflexivity|apply DP]|].
  destruct ((d =? 125) || (d =? 93)) eqn:E3.
  { destruct (tok_pop (d =? 125) (t_stack t)) as [st'|] eqn:EP; [|discriminate]. injection H as <-.
    unfold tok_pop in EP. destruct (t_stack t) as [|[o n] st0] eqn:ES; [discriminate|]. destruct (Bool.eqb (d =? 125) o) eqn:EB; [|discriminate]. injection EP as ->.
    apply Bool.eqb_prop in EB. subst o. cbn [map t_stack] in *. eapply ne_close; [exact N| |].
    - cbn [view k_delim t_delim closer fst]. apply orb_true_iff in E3. destruct (d =? 125) eqn:E4; [now apply Z.eqb_eq in E4|]. destruct E3 as [E3|E3]; [discriminate|now apply Z.eqb_eq in E3].
    - cbn [view k_depth t_depth]. unfold tok_depth. rewrite map_length. cbn [length]. unfold tstate in *. lia. }
  assert (NI : ~ In d [123; 125; 91; 93]) by (zb; cbn; intuition congruence).
  destruct (d =? 58) eqn:E4; [injection H as <-; apply ne_other; [exact N|exact NI|apply DP]|].
  destruct (t_stack t) as [|[o n] st0]; [discriminate|]. injection H as <-. cbn [map t_stack] in *. apply ne_other; [exact N|exact NI|].
  cbn [view k_depth t_depth]. rewrite DP. reflexivity.
Qed.
Lemma steps_nested t l t' : steps t l t' -> forall l0, wf (t_json t) -> t_err t = None -> nested l0 (map closer (t_stack t)) ->
  nested (l0 ++ l) (map closer (t_stack t')) /\ t_err t' = None /\ wf (t_json t').
Proof.
  induction 1 as [t|t t1 l t' H S IH]; intros l0 W E N; [rewrite app_nil_r; auto|].
  pose proof (next_nested _ _ _ W H N) as N1. destruct (tok_next_sound t t1 W H) as (w & _ & Ej & E1 & _ & _).
  assert (W1 : wf (t_json t1)) by (rewrite Ej in W; apply wf_app in W as [_ W]; apply wf_app in W; apply W).
  destruct (IH _ W1 E1 N1) as (A & B & C). rewrite <- app_assoc in A. auto.
Qed.
Theorem C22_brackets data l t : wf data -> steps (new_tokenizer data) l t ->
  exists st, nested l st /\
    forall w c r, ws w -> t_json t = w ++ c :: r -> In c [125; 93] ->
      exists t' more, tok_next t = Some (t', more) /\ (more = true <-> hd_error st = Some c).
Proof.
  intros W S. destruct (steps_nested _ _ _ S [] W eq_refl ne_nil) as (N & E & W'). exists (map closer (t_stack t)). split; [exact N|].
  intros w c r Hw Ej IC. assert (D : c = 125 \/ c = 93) by (cbn in IC; intuition).
  rewrite (tok_next_eq t w (c :: r) _ _ Hw ltac:(destruct D; subst; reflexivity) E Ej eq_refl eq_refl).
  assert (ES : scan_token (c :: r) = (c, [c], r, None)) by (destruct D; subst; reflexivity). rewrite ES.
  destruct D; subst c; cbn [Z.eqb Pos.eqb orb tok_pop]; destruct (t_stack t) as [|[o n] st]; cbn [map hd_error closer fst tok_pop];
    try (eexists _, _; split; [reflexivity|split; discriminate]); destruct o; cbn [Bool.eqb]; eexists _, _; (split; [reflexivity|]); split; intros X; auto; discriminate.
Qed.
Print Assumptions C22_brackets.
Example C22_brackets_case : exists l t, wf (bs "[{1 ]") /\ steps (new_tokenizer (bs "[{1 ]")) l t /\ map k_delim l = [91; 123; 0] /\ nested l [125; 93] /\
  exists t', tok_next t = Some (t', false).
Proof.
  eexists _, _. split; [repeat constructor; unfold is_byte; cbn; lia|]. split; [do 3 (eapply st_cons; [vm_compute; reflexivity|]); apply st_nil|].
  split; [reflexivity|]. split; [|eexists; vm_compute; reflexivity].
  apply (ne_other [_; _]); [|cbn; intuition discriminate|reflexivity]. apply (ne_obj [_]); [|reflexivity..]. apply (ne_arr []); [apply ne_nil|reflexivity..].
Qed.
