(** What the decoders of single values use. *)
From Verif Require Import Bytes SpecJson SpecString SpecDec AsciiModel Utf8Model ParseModel IntModel StringModel EncModel DecModel TypeModel
  ParseFacts IntFacts StringFacts DecFacts SpecType NodeFacts TypeFacts SpecMeter MeterModel MeterFacts MeterParse.

(** Text of strings: at most four bytes for each byte of the literal. *)
Lemma denotes_len s l : str_denotes s l -> (length l <= length s)%nat.
Proof.
  induction 1; cbn [length]; repeat (rewrite ?app_length; cbn [length]); try lia.
  destruct H; cbn [length]; lia.
Qed.
Lemma utf8_len l s : utf8 l s -> (length s <= 4 * length l)%nat.
Proof. induction 1 as [|r l e s U _ IH]; [cbn; lia|]. rewrite app_length. cbn [length]. destruct U; cbn [length]; lia. Qed.
Lemma text_len lit : string_lit lit -> (length (str_text lit) <= 4 * length lit)%nat.
Proof.
  intros SL. destruct (str_text_means lit SL) as (body & l & -> & D & U). apply denotes_len in D. apply utf8_len in U.
  cbn [length]. rewrite app_length. cbn [length]. lia.
Qed.

Definition len (b : bytes) : Z := Z.of_nat (length b).
Definition usd {A} (b : bytes) (d : dres A) : Z := match d_err d with None => len b - len (d_rest d) | Some _ => len b + 1 end.
Definition shorter {A} (b : bytes) (d : dres A) : Prop := d_err d = None -> suf (d_rest d) b /\ (length (d_rest d) < length b)%nat.
Definition lean {A} (c : Z) (b : bytes) (m : M (dres A)) : Prop :=
  shorter b (fst m) /\ steps (snd m) + 1 <= c * usd b (fst m).

Lemma usd_pos {A} b (d : dres A) : shorter b d -> 1 <= usd b d.
Proof. unfold usd, shorter, len. destruct (d_err d); intros H; [lia|]. destruct (H eq_refl). lia. Qed.
Lemma lean_mono {A} c c' b (m : M (dres A)) : lean c b m -> c <= c' -> lean c' b m.
Proof. intros [S H] L. split; [exact S|]. pose proof (usd_pos _ _ S). nia. Qed.
Lemma lean_map {A B} (f : A -> B) c b m : lean c b m -> lean c b (md_map f m).
Proof. intros [S H]. split; [exact S|]. unfold md_map. rewrite steps_bind. unfold usd in *. cbn. cbn in H. lia. Qed.
Lemma reads_shorter {A} (D : bytes -> A -> dres A) b x : reads D b x -> shorter b (D b x).
Proof.
  unfold reads, shorter. intros R E. rewrite E in R. destruct R as (nd & J & Eb). split; [exists (ntext nd); exact Eb|].
  rewrite Eb at 2. rewrite app_length. destruct (node_head nd J) as (c & t & -> & _). cbn [length]. lia.
Qed.

Ltac ms := repeat first [rewrite steps_bind | rewrite fst_bind | rewrite fst_skip | rewrite fst_pres | rewrite fst_unquote | rewrite erase_parseValue].
Lemma spend_steps b r : steps (snd (spend b r)) = 1 + Z.of_nat (length b - length r).
Proof. reflexivity. Qed.
Lemma ret_steps {A} (a : A) : steps (snd (ret a)) = 0.
Proof. reflexivity. Qed.
Lemma used_len b p : used b p = match p with POk _ r => len b - len r | PErr _ _ => len b + 1 end.
Proof. reflexivity. Qed.
Lemma pv_steps b : wf b -> steps (snd (parseValue_m b)) <= 4 * used b (parseValue b).
Proof. intros W. destruct (parse_value_use (parse_fuel b) b W) as [H _]. fold (parseValue_m b) in H. rewrite erase_parseValue in H. lia. Qed.
Lemma pv_suf b v r : wf b -> parseValue b = POk v r -> suf r b /\ (length r < length b)%nat.
Proof. apply value_suf. Qed.
Lemma skip_le b : 0 <= 1 + len b - len (skip_spaces b) <= 1 + len b.
Proof. pose proof (skip_spaces_le b). unfold len. lia. Qed.

Lemma ie_steps b : wf b -> steps (snd (input_error_m b)) <= 5 * len b + 5.
Proof.
  intros W. unfold input_error_m. destruct b as [|c b0]; [cbn; lia|]. set (b := c :: b0) in *. ms. pose proof (pv_steps b W) as H.
  rewrite used_len in H. destruct (parseValue b) as [v r|r e] eqn:E.
  - apply pv_suf in E as [_ L]; [|exact W]. ms. rewrite skip_steps, ret_steps. pose proof (skip_le r). unfold len in *. lia.
  - rewrite ret_steps. unfold len in *. lia.
Qed.
Lemma in_err_steps {A} b (x : A) : wf b -> steps (snd (in_err_m b x)) <= 5 * len b + 5.
Proof. intros W. unfold in_err_m. ms. rewrite ret_steps. pose proof (ie_steps b W). lia. Qed.
Lemma in_err_fst {A} b (x : A) : exists r e, fst (in_err_m b x) = DR r (Some e) x.
Proof. unfold in_err_m. ms. eexists _, _. reflexivity. Qed.
Lemma in_err_lean {A} b (x : A) : wf b -> lean 6 b (in_err_m b x).
Proof.
  intros W. destruct (in_err_fst b x) as (r & e & E). unfold lean, shorter, usd. rewrite E. cbn [d_err]. split; [discriminate|].
  pose proof (in_err_steps b x W). unfold len in *. lia.
Qed.
(** after [k] steps a decoder that reports an error by inputError *)
Lemma in_err_after {A} b (x : A) k : wf b -> 0 <= k -> k + 1 + steps (snd (in_err_m b x)) <= k + 6 * usd b (fst (in_err_m b x)).
Proof. intros W K. destruct (in_err_lean b x W) as [_ H]. lia. Qed.
Lemma in_err_usd {A} b (x : A) : usd b (fst (in_err_m b x)) = len b + 1.
Proof. destruct (in_err_fst b x) as (r & e & E). unfold usd. rewrite E. reflexivity. Qed.

Lemma null_usd {A} b (x : A) : has_null_prefix b = true -> usd b (DR (skipn 4 b) None x) = 4.
Proof.
  intros N. apply null_read in N. unfold usd, len. cbn [d_err d_rest]. rewrite N at 1. rewrite app_length.
  change (length (bs "null")) with 4%nat. lia.
Qed.
Lemma num_steps b : steps (snd (pres_m b (parse_number b))) <= 1 + used b (parse_number b).
Proof. apply pres_steps. intros v r H. exact (proj1 (number_suf _ _ _ H)). Qed.

Lemma null_lean {A} b (x y : A) k : has_null_prefix b = true -> k <= 10 -> k + 1 <= 4 * usd b (DR (skipn 4 b) None x).
Proof. intros N. rewrite (null_usd b x N). lia. Qed.

Lemma finish_steps b v c : steps (snd (int_finish_m b v c)) <= 2 + 2 * (len b + 1) /\
  forall v' r, int_finish b v c = IOk v' r -> steps (snd (int_finish_m b v c)) <= 1 + len b - len r.
Proof.
  unfold int_finish_m, int_finish. ms. rewrite spend_steps.
  assert (L : (length (skipn c b) <= length b)%nat) by (rewrite skipn_length; lia).
  destruct (skipn c b) as [|d r]; [rewrite ret_steps; split; [unfold len; cbn [length]; lia|intros v' r [= _ <-]; unfold len; cbn [length]; lia]|].
  destruct (_ || _)%bool.
  - ms. pose proof (num_steps b) as N. split.
    + destruct (parse_number b) as [w q|q e]; rewrite ret_steps; rewrite used_len in N; unfold len in *; cbn [length] in *; lia.
    + intros v' q. destruct (parse_number b); discriminate.
  - rewrite ret_steps. split; [unfold len; cbn [length] in *; lia|]. intros v' q [= _ <-]. unfold len. cbn [length] in *. lia.
Qed.
Definition ires_fits (b : bytes) (x : ires) (n : Z) : Prop :=
  match x with IOk v r => n <= 1 + len b - len r | IErr r e => n <= 5 * len b + 5 end.
Lemma finish_fits b v c : 1 <= len b -> ires_fits b (int_finish b v c) (steps (snd (int_finish_m b v c))).
Proof. intros L. destruct (finish_steps b v c) as [H1 H2]. unfold ires_fits. destruct (int_finish b v c); [exact (H2 _ _ eq_refl)|lia]. Qed.
Lemma pint_steps b : wf b -> ires_fits b (parse_int b) (steps (snd (parse_int_m b))).
Proof.
  intros W. pose proof (ie_steps b W) as IE. unfold parse_int, parse_int_m in *. destruct b as [|c b1]; [cbn; lia|].
  assert (L : 1 <= len (c :: b1)) by (unfold len; cbn [length]; lia).
  assert (Z0 : forall r e, ires_fits (c :: b1) (IErr r e) (steps (snd (ret (IErr r e))))) by (intros; rewrite ret_steps; cbn [ires_fits]; lia).
  assert (ZI : ires_fits (c :: b1) (let '(r, e) := input_error (c :: b1) in IErr r e)
     (steps (snd (let* x := input_error_m (c :: b1) in ret (IErr (fst x) (snd x)))))).
  { ms. rewrite ret_steps. destruct (input_error (c :: b1)). cbn [ires_fits]. lia. }
  assert (ZO : ires_fits (c :: b1) (IErr (c :: b1) EType) (steps (snd (let* _ := spend (c :: b1) [] in ret (IErr (c :: b1) EType))))).
  { ms. rewrite ret_steps, spend_steps. cbn [ires_fits length]. unfold len in *. cbn [length] in *. lia. }
  destruct (c =? cMINUS).
  - destruct b1 as [|d b1]; [apply Z0|]. destruct (leading_zero _); [apply Z0|].
    destruct (neg_loop _ _ _); [apply finish_fits, L|exact ZI|exact ZO].
  - destruct (leading_zero _); [apply Z0|]. destruct (pos_loop _ _ _); [apply finish_fits, L|exact ZI|exact ZO].
Qed.
Lemma puint_steps b : wf b -> ires_fits b (parse_uint b) (steps (snd (parse_uint_m b))).
Proof.
  intros W. pose proof (ie_steps b W) as IE. unfold parse_uint, parse_uint_m in *. destruct b as [|c b1]; [cbn; lia|].
  assert (L : 1 <= len (c :: b1)) by (unfold len; cbn [length]; lia).
  destruct (leading_zero _); [rewrite ret_steps; cbn [ires_fits]; lia|]. destruct (uint_loop _ _ _); [apply finish_fits, L| |].
  - ms. rewrite ret_steps. destruct (input_error (c :: b1)). cbn [ires_fits]. lia.
  - ms. rewrite ret_steps, spend_steps. cbn [ires_fits length]. unfold len in *. cbn [length] in *. lia.
Qed.

Lemma int_lean t b x : wf b -> lean 6 b (decode_int_m t b x).
Proof.
  intros W. split; [rewrite erase_int; apply reads_shorter, int_reads, W|].
  pose proof (reads_shorter _ _ _ (int_reads t b x W)) as SH. pose proof (usd_pos _ _ SH) as UP.
  rewrite erase_int. unfold decode_int_m, decode_int in *. destruct (has_null_prefix b) eqn:N; [rewrite ret_steps; lia|]. ms.
  assert (G : forall i m, ires_fits b i (steps (snd m)) -> fst m = i ->
    1 <= usd b (match i with IErr r e => DR r (Some e) x | IOk v r => if out_of_range t v then DR r (Some EType) x else DR r None v end) ->
    steps (snd m) + steps (snd (match fst m with IErr r e => ret (DR r (Some e) x)
       | IOk v r => if out_of_range t v then ret (DR r (Some EType) x) else ret (DR r None v) end)) + 1 <=
    6 * usd b (match i with IErr r e => DR r (Some e) x | IOk v r => if out_of_range t v then DR r (Some EType) x else DR r None v end)).
  { intros i m H -> U. destruct i as [v r|r e]; cbn [ires_fits] in H; [destruct (out_of_range t v)|]; rewrite ret_steps; unfold usd in *;
      cbn [d_err d_rest] in *; unfold len in *; lia. }
  destruct (signed t); apply G; auto using pint_steps, puint_steps, erase_pint, erase_puint.
Qed.

Lemma null_m_lean {A} b (x : A) : wf b -> lean 6 b (decode_null_m b x).
Proof.
  intros W. unfold decode_null_m. destruct (has_null_prefix b) eqn:N; [|apply in_err_lean, W]. split; [|rewrite ret_steps; cbn [fst ret]; rewrite (null_usd b x N); lia].
  intros _. cbn. apply null_read in N. split; [exists (bs "null"); exact N|]. rewrite N at 2. rewrite app_length. cbn. lia.
Qed.
(** a decoder that is known to stop behind a value *)
Lemma lean_reads {A} c (dm : bytes -> A -> M (dres A)) D b x : (forall b x, fst (dm b x) = D b x) -> reads D b x ->
  (1 <= usd b (D b x) -> steps (snd (dm b x)) + 1 <= c * usd b (D b x)) -> lean c b (dm b x).
Proof.
  intros E R H. split; rewrite E; [apply reads_shorter, R|]. apply H, usd_pos, reads_shorter, R.
Qed.
Ltac ies := rewrite ?ret_steps, ?spend_steps; repeat match goal with
  |- context [steps (snd (in_err_m ?b ?x))] => pose proof (in_err_steps b x ltac:(first [assumption|apply Forall_nil])); generalize dependent (steps (snd (in_err_m b x))); intros end;
  unfold usd in *; cbn [d_err d_rest in_err] in *; unfold len in *; cbn [length] in *; try lia.
Lemma in_err_d {A} b (x : A) : usd b (in_err b x) = len b + 1.
Proof. unfold in_err. destruct (input_error b). reflexivity. Qed.
Lemma bool_lean b x : wf b -> lean 6 b (decode_bool_m b x).
Proof.
  intros W. apply (lean_reads 6 decode_bool_m decode_bool); [apply erase_bool|apply bool_reads, W|].
  unfold decode_bool_m, decode_bool. destruct (has_true_prefix b); [ies|]. destruct (has_false_prefix b); [ies|].
  destruct (has_null_prefix b); [ies|]. rewrite in_err_d. ies.
Qed.
Lemma float_lean pf b x : wf b -> lean 8 b (decode_float_m pf b x).
Proof.
  intros W. apply (lean_reads 8 (decode_float_m pf) (decode_float pf)); [apply erase_float|apply float_reads, W|].
  unfold decode_float_m, decode_float. destruct (has_null_prefix b); [ies|]. ms. pose proof (num_steps b) as NS.
  destruct (parse_number b) as [v r|r e] eqn:E; rewrite used_len in NS.
  - ms. apply number_suf in E as [S L]. destruct (pf v); [ies|]. rewrite in_err_d. ies.
  - rewrite in_err_d. ies.
Qed.
Lemma number_lean b x : wf b -> lean 8 b (decode_number_m b x).
Proof.
  intros W. apply (lean_reads 8 decode_number_m decode_number); [apply erase_number|apply number_reads, W|].
  unfold decode_number_m, decode_number. destruct (has_null_prefix b); [ies|]. ms. pose proof (num_steps b) as NS.
  destruct (parse_number b) as [v r|r e] eqn:E; rewrite used_len in NS; [ies|]. rewrite in_err_d. ies.
Qed.

(** strings *)
Lemma unq_steps b : wf b ->
  (exists lit r i, string_lit lit /\ b = lit ++ r /\ parse_string_unquote b [] = QOk (str_text lit) r i /\
     steps (snd (unquote_m b)) = 1 + len lit) \/
  (exists r, parse_string_unquote b [] = QErr r ESyntax /\ steps (snd (unquote_m b)) = 1 + len b).
Proof.
  intros W. unfold unquote_m. destruct (unquote_cases b W) as [(lit & r & i & SL & E & Q)|(r & Q)].
  - left. exists lit, r, i. repeat split; auto. rewrite Q. ms. rewrite ret_steps, spend_steps, E, app_length. unfold len. lia.
  - right. exists r. split; [exact Q|]. rewrite Q. ms. rewrite ret_steps, spend_steps. cbn [length]. unfold len. lia.
Qed.
Lemma string_lean b x : wf b -> lean 8 b (decode_string_m b x).
Proof.
  intros W. apply (lean_reads 8 decode_string_m decode_string); [apply erase_string|apply string_reads, W|].
  unfold decode_string_m, decode_string. destruct (has_null_prefix b); [ies|]. ms.
  destruct (unq_steps b W) as [(lit & r & i & SL & E & -> & ->)|(r & -> & ->)].
  - rewrite E. ies. rewrite app_length in *. lia.
  - destruct b as [|c b1]; [rewrite in_err_d; ies|]. destruct (c =? cQUOTE); [ies|]. rewrite in_err_d. ies.
Qed.
Lemma raw_lean b x : wf b -> lean 12 b (decode_raw_m b x).
Proof.
  intros W. apply (lean_reads 12 decode_raw_m decode_raw); [apply erase_raw|apply raw_reads, W|].
  unfold decode_raw_m, decode_raw. ms. pose proof (pv_steps b W) as PS.
  destruct (parseValue b) as [v r|r e] eqn:E; rewrite used_len in PS; [|rewrite in_err_d; ies].
  ms. apply pv_suf in E as [S L]; [|exact W]. ies.
Qed.
Lemma type_error_lean b x : wf b -> lean 12 b (decode_type_error_m b x).
Proof.
  intros W. unfold decode_type_error_m, lean, shorter. ms. pose proof (pv_steps b W) as PS.
  destruct (parseValue b) as [v r|r e] eqn:E; rewrite used_len in PS; (split; [discriminate|]); cbn [fst ret]; ies.
Qed.
Section Env.
Context (V : tenv) (OK : env_ok V).
Lemma quoted_lean {A} (p : bytes -> option A) b x : wf b -> (forall t z, p t = Some z -> plain_text t) -> lean 8 b (decode_quoted_m p b x).
Proof.
  intros W P. apply (lean_reads 8 (decode_quoted_m p) (decode_quoted p)); [apply erase_quoted|apply quoted_reads; assumption|].
  unfold decode_quoted_m, decode_quoted. destruct (Nat.ltb _ _); [rewrite in_err_d; ies|]. destruct b as [|c b1]; [rewrite in_err_d; ies|].
  destruct (negb (c =? cQUOTE)); [rewrite in_err_d; ies|]. destruct (index_byte cQUOTE b1) as [i|]; ms; [|rewrite in_err_d; ies].
  assert (L : (length (skipn (S i) b1) <= length b1)%nat) by (rewrite skipn_length; lia).
  destruct (p (firstn i b1)); [|rewrite in_err_d; ies]. ies.
Qed.
Lemma duration_lean b x : wf b -> lean 12 b (decode_duration_m V b x).
Proof.
  intros W. apply (lean_reads 12 (decode_duration_m V) (decode_duration V)); [apply erase_duration|apply duration_reads; assumption|].
  assert (Q : forall b x, wf b -> steps (snd (decode_quoted_m (v_dur V) b x)) + 1 <= 8 * usd b (decode_quoted (v_dur V) b x)).
  { intros b0 x0 W0. destruct (quoted_lean (v_dur V) b0 x0 W0 (ok_dur V OK)) as [_ H]. rewrite erase_quoted in H. exact H. }
  unfold decode_duration_m, decode_duration. destruct (has_null_prefix b); [ies|]. destruct b as [|c b1]; [intros; pose proof (Q [] x W); lia|].
  destruct (negb (c =? cQUOTE)); [|intros; pose proof (Q _ x W); lia]. ms. rewrite erase_pint. pose proof (pint_steps _ W) as PS.
  destruct (parse_int (c :: b1)) as [v r|r e]; cbn [ires_fits] in PS; [ies|]. rewrite in_err_d. ies.
Qed.
Lemma time_lean b x : wf b -> lean 8 b (decode_time_m V b x).
Proof.
  intros W. apply (lean_reads 8 (decode_time_m V) (decode_time V)); [apply erase_time|apply time_reads; assumption|].
  unfold decode_time_m, decode_time. destruct (has_null_prefix b); [ies|].
  destruct (quoted_lean (v_time V) b x W (ok_time V OK)) as [_ H]. rewrite erase_quoted in H. lia.
Qed.
Lemma json_lean u b x : wf b -> lean 12 b (decode_json_user_m V u b x).
Proof.
  intros W. apply (lean_reads 12 (decode_json_user_m V u) (decode_json_user V u)); [apply erase_json_user|apply json_reads; assumption|].
  unfold decode_json_user_m, decode_json_user. ms. pose proof (pv_steps b W) as PS.
  destruct (parseValue b) as [v r|r e] eqn:E; rewrite used_len in PS; [|ies]. apply pv_suf in E as [S L]; [|exact W].
  destruct (rv_null v); [ies|]. ms. destruct (v_json V u v x) as [[e|] s]; ies.
Qed.
Lemma text_lean u b x : wf b -> lean 12 b (decode_text_user_m V u b x).
Proof.
  intros W. apply (lean_reads 12 (decode_text_user_m V u) (decode_text_user V u)); [apply erase_text_user|apply text_reads; assumption|].
  unfold decode_text_user_m, decode_text_user. ms. pose proof (pv_steps b W) as PS.
  destruct (parseValue b) as [v r|r e] eqn:E; rewrite used_len in PS; [|ies].
  pose proof (parse_value_sound _ _ _ _ W E) as [Eb _].
  assert (Wv : wf v) by (rewrite Eb in W; apply wf_app in W; tauto).
  assert (LV : len b = len v + len r) by (rewrite Eb; unfold len; rewrite app_length; lia).
  apply pv_suf in E as [S L]; [|exact W].
  destruct (rv_null v); [destruct (parse_null v); ies|]. destruct (rv_string v); [|ies]. ms.
  destruct (unq_steps v Wv) as [(lit & r' & i & SL & E & -> & ->)|(r' & -> & ->)]; [|ies].
  apply (f_equal len) in E. unfold len in E, LV. rewrite app_length in E. ms. destruct (v_text V u (str_text lit) x) as [[e|] s]; ies.
Qed.
End Env.
