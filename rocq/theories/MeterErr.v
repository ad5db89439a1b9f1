(** A failure deep inside is found again at each level around it. *)
From Verif Require Import Bytes SpecJson SpecString SpecDec AsciiModel Utf8Model ParseModel IntModel StringModel EncModel DecModel TypeModel
  ParseFacts IntFacts StringFacts DecFacts SpecType NodeFacts TypeFacts TypeMain SpecMeter MeterModel MeterFacts MeterParse MeterDec MeterLoop MeterRest MeterType
  MeterDeep MeterDepth MeterLow.

Lemma ladder_S n : ladder (S n) = bs "{""k"":" ++ ladder n ++ [125].
Proof. reflexivity. Qed.
Definition k_lit : bytes := bs """k""".
Lemma k_lit_ok : string_lit k_lit.
Proof. exists (bs "k"). split; [reflexivity|]. apply (sb_char 107 []); [lia|lia|lia|constructor]. Qed.
Fixpoint ladder_tree (n : nat) : jast := match n with O => JTrue | S n => JObj [(k_lit, ladder_tree n)] end.
Lemma ladder_value n : jvalue (ladder n) (ladder_tree n).
Proof.
  induction n as [|n IH]; [apply V_true|]. cbn [ladder_tree]. rewrite ladder_S.
  assert (N : ws []) by constructor. pose proof (M_intro [] k_lit [] [] (ladder n) _ [] N k_lit_ok N N IH N) as M. rewrite app_nil_r in M.
  pose proof (V_obj _ _ (M_one _ _ M)) as H. exact H.
Qed.
Lemma ladder_wf n : wf (ladder n).
Proof. induction n as [|n IH]; [repeat constructor; lia|]. rewrite ladder_S. apply Forall_app. split; [repeat constructor; unfold is_byte; lia|]. apply Forall_app. split; [exact IH|repeat constructor; unfold is_byte; lia]. Qed.
Lemma ladder_length n : length (ladder n) = (6 * n + 4)%nat.
Proof. induction n as [|n IH]; [reflexivity|]. rewrite ladder_S, !app_length, IH. change (length (bs "{""k"":")) with 5%nat. cbn [length]. lia. Qed.
Lemma ladder_skip n r : skip_spaces (ladder n ++ r) = ladder n ++ r.
Proof. destruct n; reflexivity. Qed.
Lemma ladder_parse n r : wf r -> parseValue (ladder n ++ r) = POk (ladder n) r /\ 6 * Z.of_nat n + 4 <= steps (snd (parseValue_m (ladder n ++ r))).
Proof.
  intros W. assert (P : parseValue (ladder n ++ r) = POk (ladder n) r).
  { apply (parseValue_complete' _ _ _ (ladder_value n)). intros N. exfalso. apply number_head in N. destruct N as (c & s & E & H). destruct n; injection E as <- _; lia. }
  split; [exact P|]. destruct (parse_tree (parse_fuel (ladder n ++ r))) as [T _].
  destruct (T (ladder n ++ r) (ladder n) r) as (a & _ & _ & S); [apply Forall_app; split; [apply ladder_wf|exact W]|exact P|].
  unfold used in S. rewrite app_length, ladder_length in S. unfold parseValue_m. lia.
Qed.
Lemma struct_first {A} (lm : bytes -> option (bytes -> A -> M (dres A))) dis input k q x d e v r : skip_spaces q = q -> lm (bs "k") = Some d ->
  d_err (fst (d q x)) = Some e -> parseValue input = POk v r ->
  d_err (fst (struct_loop_m lm dis input (S k) true (k_lit ++ 58 :: q) x)) = Some e /\ d_rest (fst (struct_loop_m lm dis input (S k) true (k_lit ++ 58 :: q) x)) = r /\
  steps (snd (d q x)) + steps (snd (parseValue_m input)) <= steps (snd (struct_loop_m lm dis input (S k) true (k_lit ++ 58 :: q) x)).
Proof.
  intros SQ LM E P. destruct (string_lit_unquote k_lit (58 :: q) k_lit_ok) as [i U]. change (str_text k_lit) with (bs "k") in U.
  cbn [struct_loop_m]. fold sdeck. set (b1 := k_lit ++ 58 :: q) in *. assert (S1 : skip_spaces b1 = b1) by reflexivity. assert (NP : has_null_prefix b1 = false) by reflexivity.
  assert (C1 : match b1 with c :: _ => c =? cRBRACE | [] => false end = false) by reflexivity. clearbody b1.
  assert (KE : fst (obj_key_m sdeck true b1) = inr (q, bs "k")).
  { assert (SD : fst (sdeck b1) = DR (58 :: q) None (bs "k")) by (unfold sdeck; rewrite fst_bind, fst_unquote, U; reflexivity).
    unfold obj_key_m. cbv zeta. rewrite NP. rewrite fst_bind, SD. cbn [d_err d_rest d_val]. rewrite fst_bind, fst_skip.
    change (skip_spaces (58 :: q)) with (58 :: q). cbv iota beta. change (58 =? 58) with true. cbv iota. rewrite fst_bind, fst_skip, SQ. reflexivity. }
  pose proof (nn_obj_key sdeck true b1 nn_sdeck) as N1. pose proof (nn_skip b1) as N2. unfold nn in *.
  rewrite fst_bind, steps_bind, fst_skip, S1, C1. cbv iota. rewrite fst_bind, steps_bind, KE. cbv iota. rewrite LM, fst_bind, steps_bind, E. cbv iota.
  unfold elem_err_m. rewrite fst_bind, steps_bind, erase_parseValue, P. cbn [ret fst snd steps d_err d_rest]. split; [reflexivity|]. split; [reflexivity|]. lia.
Qed.
Lemma ladder_time F n : forall k r, (n < k)%nat -> wf r ->
  d_err (fst (dec_ty_m lad_env F k (YPtr (YStruct 0)) (ladder n ++ r) (MPtr None))) = Some EType /\ skip_spaces (d_rest (fst (dec_ty_m lad_env F k (YPtr (YStruct 0)) (ladder n ++ r) (MPtr None)))) = skip_spaces r /\
  Z.of_nat n * Z.of_nat n <= steps (snd (dec_ty_m lad_env F k (YPtr (YStruct 0)) (ladder n ++ r) (MPtr None))).
Proof.
  induction n as [|n IH]; intros k r Hk W; (destruct k as [|k]; [lia|]).
  - apply and_assoc. split; [|apply nn_ty]. destruct (ladder_parse 0 r W) as [P _]. rewrite !dec_ty_m_eq. cbv iota beta. change (has_null_prefix (ladder 0 ++ r)) with false. cbv iota.
    change (zero lad_env (YStruct 0)) with (MList [MPtr None]). cbv iota beta. unfold decode_struct_m. change (has_null_prefix (ladder 0 ++ r)) with false. cbv iota.
    set (b := ladder 0 ++ r) in *. assert (E : exists t, b = 116 :: t) by (eexists; reflexivity). assert (L : Nat.ltb (length b) 2 = false) by reflexivity. rewrite L. clear L.
    clearbody b. destruct E as [t ->]. change (116 =? cLBRACE) with false. cbv iota. unfold md_map. rewrite fst_call, fst_bind. cbn [ret fst d_map d_err d_rest]. rewrite fst_call.
    unfold in_err_m, input_error_m. rewrite !fst_bind, erase_parseValue, P, fst_bind, fst_skip. split; [reflexivity|]. cbn [ret fst d_rest]. apply skip_spaces_idem.
  - set (q := ladder n ++ [125] ++ r). assert (EQ : ladder (S n) ++ r = 123 :: k_lit ++ 58 :: q) by (rewrite ladder_S, <- !app_assoc; reflexivity).
    destruct (ladder_parse (S n) r W) as [P PS].
    destruct (IH k ([125] ++ r)) as (I1 & _ & I2); [lia|apply Forall_app; split; [repeat constructor; unfold is_byte; lia|exact W]|]. fold q in I1, I2.
    assert (SQ : skip_spaces q = q) by apply ladder_skip. clearbody q.
    rewrite EQ in *. rewrite dec_ty_m_eq. cbv iota beta. change (has_null_prefix (123 :: k_lit ++ 58 :: q)) with false. cbv iota.
    rewrite dec_ty_m_eq. change (zero lad_env (YStruct 0)) with (MList [MPtr None]). cbv iota beta.
    unfold decode_struct_m. change (has_null_prefix (123 :: k_lit ++ 58 :: q)) with false. cbv iota. change (Nat.ltb _ 2) with false. change (123 =? cLBRACE) with true. cbv iota.
    set (lm := fun k0 : bytes => _). set (D := on_path_m lad_env [PIn 0] (dec_ty_m lad_env F k (YPtr (YStruct 0)))).
    assert (LM : lm (bs "k") = Some D) by reflexivity. clearbody lm.
    assert (D1 : d_err (fst (D q (MList [MPtr None]))) = Some EType). { subst D. cbn [on_path_m nth_error]. unfold md_map. rewrite fst_bind. cbn [ret fst d_map d_err]. exact I1. }
    assert (D2 : steps (snd (dec_ty_m lad_env F k (YPtr (YStruct 0)) q (MPtr None))) <= steps (snd (D q (MList [MPtr None])))).
    { subst D. cbn [on_path_m nth_error]. unfold md_map. rewrite steps_bind. cbn [ret snd steps]. lia. }
    destruct (struct_first lm (d_disallow F) (123 :: k_lit ++ 58 :: q) (length (123 :: k_lit ++ 58 :: q)) q (MList [MPtr None]) D EType _ r SQ LM D1 P) as (R1 & RR & R2).
    set (m := struct_loop_m _ _ _ _ _ _ _) in *. clearbody m. unfold md_map. rewrite !fst_call, fst_bind. cbn [ret fst d_map d_err d_rest]. rewrite fst_call. split; [exact R1|]. split; [now rewrite RR|].
    unfold call. cbn [snd steps]. rewrite steps_bind. cbn [ret snd steps fst]. nia.
Qed.
Lemma ladder_unmarshal F n : fst (unmarshal lad_env F (YPtr (YStruct 0)) (ladder n) (MPtr None)) = Some EType /\
  Z.of_nat n * Z.of_nat n <= steps (snd (unmarshal_m lad_env F (YPtr (YStruct 0)) (ladder n) (MPtr None))).
Proof.
  rewrite <- (erase_unmarshal lad_env F). unfold unmarshal_m, unmarshal_with_m, parse_with_m, decode_m.
  pose proof (ladder_skip n []) as SK. rewrite app_nil_r in SK.
  destruct (ladder_time F n (S (length (ladder n))) []) as (E & R & T); [rewrite ladder_length; lia|constructor|]. rewrite app_nil_r in E, R, T.
  pose proof (nn_skip (ladder n)) as N1. pose proof (nn_skip []) as N2. unfold nn in *.
  rewrite !fst_bind, !steps_bind, !fst_bind, !fst_skip. rewrite !SK. cbn [ret fst snd steps d_err d_rest]. rewrite R, E. split; [reflexivity|]. pose proof (nn_skip (d_rest (fst (dec_ty_m lad_env F (S (length (ladder n))) (YPtr (YStruct 0)) (ladder n) (MPtr None))))) as N3. unfold nn in N3. lia.
Qed.
