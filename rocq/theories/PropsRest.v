(** C76: Parse reads one value and returns what follows it. *)
From Verif Require Import Bytes ParseModel IntModel StringModel EncModel DecModel SpecJson SpecString SpecDec ParseFacts IntFacts DecFacts
  TypeModel ApiModel SpecType SpecFit SpecErr SpecStream SpecParse NodeFacts TypeLoops TypeFacts TypeMain TypeSound TypeSafe ErrFacts TailFacts PropsType PropsErr.

Lemma num_end_stop r : num_end r -> num_stop r.
Proof.
  destruct r as [|c r]; [exact (fun h => h)|]. cbn. intros (D & H1 & H2 & H3). unfold num_cont, is_digit.
  destruct (_ && _) eqn:E; [apply andb_true_iff in E; lia|]. cbn. rewrite !orb_false_iff, !Z.eqb_neq. auto.
Qed.
Lemma ends_stops nd s : jnode nd -> ends_at nd s -> stops nd s.
Proof.
  intros J E. unfold stops. destruct (nshape nd) eqn:S; auto. apply num_end_stop, E. destruct J; try discriminate. assumption.
Qed.
Lemma unspaced_skip r : (forall c r', r = c :: r' -> ~ ws [c]) -> skip_spaces r = r.
Proof.
  intros H. destruct r as [|c r]; [reflexivity|]. apply skip_spaces_nsp. cbn. destruct (is_space c) eqn:E; [|reflexivity].
  destruct (H c r eq_refl). constructor; [apply is_space_iff, E|constructor].
Qed.
Lemma parse_start V F t w nd s x : ws w -> jnode nd -> parse V F t (w ++ ntext nd ++ s) x =
  let d := dec_ty V F (S (length (ntext nd ++ s))) t (ntext nd ++ s) x in DR (skip_spaces (d_rest d)) (d_err d) (d_val d).
Proof.
  intros W J. unfold parse, parse_with, decode. rewrite skip_spaces_ws by exact W. destruct (node_start nd J) as (NS & _ & NN & _).
  rewrite (skip_spaces_nsp (ntext nd ++ s)) by (destruct (ntext nd); [congruence|exact NS]). reflexivity.
Qed.
(** Whatever follows a value, Parse stores what the value says, or reports an
    error if the type cannot hold it, and if it stores it the rest is what
    follows the value and the white space after it. *)
Theorem C76_one_value V F t w1 nd w2 r x : env_ok V -> ws w1 -> jnode nd -> ws w2 -> (forall c r', r = c :: r' -> ~ ws [c]) -> ends_at nd (w2 ++ r) ->
  match d_err (parse V F t (w1 ++ ntext nd ++ w2 ++ r) x) with
  | None => stores V F t nd x (d_val (parse V F t (w1 ++ ntext nd ++ w2 ++ r) x)) /\ d_rest (parse V F t (w1 ++ ntext nd ++ w2 ++ r) x) = r
  | Some _ => forall y, ~ stores V F t nd x y
  end.
Proof.
  intros OK W1 J W2 NR EN. rewrite parse_start by assumption. cbv zeta. cbn [d_err d_val d_rest].
  destruct (dec_ty_meets V F OK (S (length (ntext nd ++ w2 ++ r))) t nd x J ltac:(rewrite app_length; lia) (w2 ++ r) (ends_stops _ _ J EN))
    as [(r1 & y & E & SP & R & U)|(r1 & e & y & E & NE & U)]; rewrite E; cbn [d_rest d_err d_val]; [|exact U].
  split; [exact R|]. rewrite SP, skip_spaces_ws by exact W2. apply unspaced_skip, NR.
Qed.
(** Successive calls read the values of a text one by one. *)
Theorem C76_each_value V F t s nds r xs ys : env_ok V -> values s nds r -> Forall2 (fun nx y => stores V F t (fst nx) (snd nx) y) (combine nds xs) ys ->
  length xs = length nds ->
  all_ok (fst (parses (parse V F t) xs s)) = Some ys /\ skip_spaces (snd (parses (parse V F t) xs s)) = r.
Proof.
  intros OK H. revert xs ys. assert (SK : forall w r, ws w -> (forall c r', r = c :: r' -> ~ ws [c]) -> skip_spaces (w ++ r) = r).
  { intros w r0 W N. rewrite skip_spaces_ws by exact W. apply unspaced_skip, N. }
  induction H as [w r W NR|w nd s nds r W J EN VS IH]; intros xs ys H L.
  - destruct xs; [|discriminate]. cbn in *. inversion H; subst. split; [reflexivity|]. apply SK; assumption.
  - destruct xs as [|x xs]; [discriminate|]. injection L as L. cbn [combine] in H. inversion H as [|nx y l ys' S1 S2]; subst. cbn [fst snd] in S1.
    cbn [parses]. rewrite parse_start by assumption. cbv zeta. cbn [d_err d_val d_rest].
    destruct (dec_ty_meets V F OK (S (length (ntext nd ++ s))) t nd x J ltac:(rewrite app_length; lia) s (ends_stops _ _ J EN))
      as [(r1 & y1 & E & SP & R & U)|(r1 & e & y1 & E & NE & U)]; [|elim (U _ S1)]. rewrite E. cbn [d_err d_val d_rest]. rewrite SP.
    assert (PS : parses (parse V F t) xs (skip_spaces s) = parses (parse V F t) xs s \/ xs = []).
    { destruct xs as [|x' xs]; [auto|]. left. cbn [parses]. unfold parse, parse_with. rewrite skip_spaces_idem. reflexivity. }
    rewrite (U _ S1). destruct PS as [->| ->].
    + destruct (IH xs ys' S2 L) as [I1 I2]. destruct (parses (parse V F t) xs s) as [l0 r0]. cbn [fst snd all_ok] in *. rewrite I1. auto.
    + destruct nds; [|discriminate]. destruct (IH [] ys' S2 L) as [I1 I2]. cbn [parses fst snd all_ok] in *. injection I1 as <-. split; [reflexivity|].
      rewrite skip_spaces_idem. exact I2.
Qed.
(** A value of another type is read over, too: the calls after it are not
    disturbed. *)
Theorem C76_goes_on_partial V F t w1 nd w2 r x : env_ok V -> env_typed V -> mild_env V -> d_disallow F = false -> fits V t x ->
  mild t -> not_integer t -> wf (w1 ++ ntext nd ++ w2 ++ r) -> ws w1 -> jnode nd -> ws w2 -> (forall c r', r = c :: r' -> ~ ws [c]) -> ends_at nd (w2 ++ r) ->
  d_rest (parse V F t (w1 ++ ntext nd ++ w2 ++ r) x) = r.
Proof.
  intros OK ET ME DA FX MT NI W W1 J W2 NR EN. rewrite parse_start by assumption. cbv zeta. cbn [d_rest].
  pose proof (dec_ty_quiet V F OK ME (S (length (ntext nd ++ w2 ++ r))) t nd x MT J ltac:(rewrite app_length; lia) (w2 ++ r) (ends_stops _ _ J EN)) as q.
  assert (WN : wf (ntext nd ++ w2 ++ r)) by (apply wf_app in W; apply W).
  destruct (dec_ty_safe V F OK ET (S (length (ntext nd ++ w2 ++ r))) t (ntext nd ++ w2 ++ r) x WN ltac:(lia) FX) as [_ S2].
  assert (G : skip_spaces (d_rest (dec_ty V F (S (length (ntext nd ++ w2 ++ r))) t (ntext nd ++ w2 ++ r) x)) = skip_spaces (w2 ++ r)).
  { destruct (d_err _) as [e|]; [|exact q]. destruct q as [_ q]. destruct (q (conj NI DA)) as [->|q']; [congruence|exact q']. }
  rewrite G, skip_spaces_ws by exact W2. apply unspaced_skip, NR.
Qed.
(** C58: with any flags, Parse and Decode report no SyntaxError for a value that
    is JSON, whatever follows it. *)
Theorem C58_parse_wellformed_partial V F t w1 nd r x : env_ok V -> mild_env V -> mild t ->
  ws w1 -> jnode nd -> ends_at nd r -> d_err (parse V F t (w1 ++ ntext nd ++ r) x) <> Some ESyntax.
Proof.
  intros OK ME MT W1 J EN. rewrite parse_start by assumption. cbv zeta. cbn [d_err].
  pose proof (dec_ty_quiet V F OK ME (S (length (ntext nd ++ r))) t nd x MT J ltac:(rewrite app_length; lia) r (ends_stops _ _ J EN)) as q.
  destruct (d_err _) as [e|]; [|discriminate]. destruct q as [q _]. congruence.
Qed.
Print Assumptions C58_parse_wellformed_partial.
(** A member that is not known, under DisallowUnknownFields, inside a slice. *)
Example C58_parse_case :
  d_err (parse er_env (DFlags false true false) (YSlice (YStruct 0)) (bs " [{""a"":1},{""x"":[2]}]3") (MSlice None)) = Some EOther /\
  mild (YSlice (YStruct 0)).
Proof. split; [vm_compute; reflexivity|exact I]. Qed.
(** On any input, what Parse returns is an end of it. *)
Theorem C76_rest_of_input V F t b x : exists p, b = p ++ d_rest (parse V F t b x).
Proof. apply parse_tail. Qed.
(** Without a pointer to store into the error says so exactly if the text is
    JSON, otherwise it is a SyntaxError. *)
Theorem C76_no_target b : wf b ->
  ((exists a, jtext b a) -> unmarshal_no_target b = EInvalidUnmarshal) /\
  ((forall a, ~ jtext b a) -> unmarshal_no_target b = ESyntax).
Proof.
  intros W. assert (K : unmarshal_no_target b = if Valid b then EInvalidUnmarshal else ESyntax).
  { unfold unmarshal_no_target, parse_no_target, Valid. destruct (parseValue (skip_spaces b)) as [v r|r e] eqn:E.
    - destruct (skip_spaces r); reflexivity.
    - apply parseValue_err in E; [|apply wf_skip_spaces, W]. subst e. destruct (skip_spaces r); reflexivity. }
  rewrite K. split.
  - intros J. apply jtext_wf_Valid in J; [|exact W]. rewrite J. reflexivity.
  - intros N. destruct (Valid b) eqn:E; [|reflexivity]. apply jtext_wf_Valid in E; [|exact W]. destruct E as [a J]. elim (N a J).
Qed.
(** Three values in one text, the second of another type. *)
Definition pa_text : bytes := bs "{""a"":1} {""a"":""x""}{""kids"":null} ]".
(** An object with one member and no white space. *)
Definition pa_obj (k : bytes) (v : node) : node := ND (123 :: ([] ++ k ++ [] ++ 58 :: [] ++ ntext v ++ []) ++ [125]) (HObj [(k, v)]).
Lemma pa_obj_ok k v : string_lit k -> jnode v -> jnode (pa_obj k v).
Proof. intros K J. apply N_obj. apply NM_one; try constructor; assumption. Qed.
Lemma pa_str k : Forall (fun c => 32 <= c <= 33 \/ 35 <= c <= 91 \/ 93 <= c <= 127) k -> string_lit (34 :: k ++ [34]).
Proof. intros H. exists k. split; [reflexivity|]. induction H; constructor; try assumption; lia. Qed.
Lemma pa_obj_ends k v r : ends_at (pa_obj k v) r.
Proof.
  intros H. exfalso. change (ntext (pa_obj k v)) with (123 :: ([] ++ k ++ [] ++ 58 :: [] ++ ntext v ++ []) ++ [125]) in H.
  inversion H as [sign int frac exp S I Fr Ex E]. destruct S as [->| ->]; [|discriminate]. destruct I; cbn in E; inversion E; subst; lia.
Qed.
Example C76_example : exists n1 n2 n3, values pa_text [n1; n2; n3] (bs "]") /\
  env_ok er_env /\ env_typed er_env /\ mild_env er_env /\ fits er_env (YStruct 0) er_zero /\ mild (YStruct 0) /\ not_integer (YStruct 0) /\
  map fst (fst (parses (parse er_env ex_flags (YStruct 0)) [er_zero; er_zero; er_zero] pa_text)) = [None; Some EType; None] /\
  snd (parses (parse er_env ex_flags (YStruct 0)) [er_zero; er_zero; er_zero] pa_text) = bs "]".
Proof.
  set (n1 := pa_obj (bs """a""") (ND (bs "1") HNum)). set (n2 := pa_obj (bs """a""") (ND (bs """x""") HStr)). set (n3 := pa_obj (bs """kids""") (ND (bs "null") HNull)).
  exists n1, n2, n3.
  split; [|split; [apply er_env_ok|]; split; [apply er_env_typed|]; split; [apply er_mild|]; split; [apply er_fits|]; split; [exact I|]; split; [exact I|]; split; vm_compute; reflexivity].
  assert (K1 : string_lit (bs """a""")) by (apply (pa_str [97]); repeat constructor; lia).
  assert (K2 : string_lit (bs """x""")) by (apply (pa_str [120]); repeat constructor; lia).
  assert (K3 : string_lit (bs """kids""")) by (apply (pa_str [107; 105; 100; 115]); repeat constructor; lia).
  change pa_text with ([] ++ ntext n1 ++ (bs " " ++ ntext n2 ++ ([] ++ ntext n3 ++ (bs " " ++ bs "]")))).
  apply vs_value; [constructor| |apply pa_obj_ends|].
  { apply pa_obj_ok; [exact K1|]. apply N_num. apply (number_intro [] (bs "1") [] []); [auto| |constructor|constructor]. apply (int_pos 49 []); [lia|constructor]. }
  apply vs_value; [repeat constructor| |apply pa_obj_ends|].
  { apply pa_obj_ok; [exact K1|]. apply N_str, K2. }
  apply vs_value; [constructor| |apply pa_obj_ends|].
  { apply pa_obj_ok; [exact K3|]. apply N_null. }
  apply vs_end; [repeat constructor|]. intros c r' E W. injection E as <- <-. inversion W as [|? ? H ?]; subst. cbn in H. lia.
Qed.

(** Not so for integers and fixed-size arrays: after the error the rest is not
    what follows the value. *)
Theorem C76_goes_on_refuted :
  ~ (forall V F t w1 nd w2 r x, env_ok V -> env_typed V -> d_disallow F = false -> fits V t x -> wf (w1 ++ ntext nd ++ w2 ++ r) ->
     ws w1 -> jnode nd -> ws w2 -> (forall c r', r = c :: r' -> ~ ws [c]) -> ends_at nd (w2 ++ r) ->
     d_rest (parse V F t (w1 ++ ntext nd ++ w2 ++ r) x) = r).
Proof.
  intros H. specialize (H er_env ex_flags (YInt TInt64) [] (ND (bs "9999999999999999999") HNum) (bs " ") (bs "true") (MInt 0)).
  assert (K : d_rest (parse er_env ex_flags (YInt TInt64) ([] ++ ntext (ND (bs "9999999999999999999") HNum) ++ bs " " ++ bs "true") (MInt 0)) <> bs "true") by (vm_compute; discriminate).
  apply K, H; clear; [apply er_env_ok|apply er_env_typed|reflexivity| | | | | | |].
  - constructor. cbn; lia.
  - apply Forall_forall. intros c H. cbn in H. unfold is_byte. lia.
  - constructor.
  - apply N_num. apply (number_intro [] (bs "9999999999999999999") [] []); [auto| |constructor|constructor]. apply (int_pos 57 (bs "999999999999999999")); [lia|].
    apply Forall_forall. intros c H. cbn in H. unfold digit. lia.
  - repeat constructor.
  - intros c r' E W. injection E as <- <-. inversion W as [|? ? H ?]; subst. cbn in H. lia.
  - intros _. cbn. unfold digit. lia.
Qed.
Print Assumptions C76_one_value.
Print Assumptions C76_each_value.
Print Assumptions C76_goes_on_partial.
Print Assumptions C76_goes_on_refuted.
Print Assumptions C76_rest_of_input.
Print Assumptions C76_no_target.
