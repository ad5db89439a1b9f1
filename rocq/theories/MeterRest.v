(** What a decoder returns as the rest is not longer than what it was given,
    also when it fails (four times, for a text in a string). *)
From Verif Require Import Bytes SpecJson SpecString SpecDec AsciiModel Utf8Model ParseModel IntModel StringModel EncModel DecModel TypeModel
  ParseFacts IntFacts StringFacts DecFacts SpecType NodeFacts TypeFacts TypeMain SpecMeter MeterModel MeterFacts MeterParse MeterDec.

Definition prest (p : pres) : bytes := match p with POk _ r => r | PErr r _ => r end.
Ltac pk := match goal with |- context [match ?x with _ => _ end] => destruct x eqn:? end.
Lemma digits_le b : (length (skip_digits b) <= length b)%nat.
Proof. induction b as [|c b IH]; [cbn; lia|]. cbn [skip_digits]. destruct (is_digit c); cbn [length]; lia. Qed.
Lemma exp_le b s : (length (prest (parse_exp b s)) <= length s)%nat.
Proof.
  unfold parse_exp. destruct s as [|c s1]; [cbn; lia|]. destruct (_ || _)%bool; [|cbn [prest]; lia]. cbv zeta.
  set (s2 := match s1 with c1 :: s2 => if (c1 =? cPLUS) || (c1 =? cMINUS) then s2 else s1 | [] => s1 end).
  assert (L : (length s2 <= length s1)%nat) by (subst s2; destruct s1 as [|c1 s1]; [lia|]; destruct (_ || _)%bool; cbn [length]; lia). clearbody s2.
  destruct s2 as [|c2 s3]; [cbn; lia|]. destruct (is_digit c2); [|cbn; lia]. cbn [prest]. pose proof (digits_le (c2 :: s3)). cbn [length] in *. lia.
Qed.
Lemma frac_le b s : (length (prest (parse_frac b s)) <= length s)%nat.
Proof.
  unfold parse_frac. destruct s as [|c s1]; [apply exp_le|]. destruct (c =? cDOT); [|apply exp_le]. destruct s1 as [|c1 s2]; [cbn; lia|].
  destruct (is_digit c1); [|cbn [prest length]; lia]. pose proof (exp_le b (skip_digits (c1 :: s2))). pose proof (digits_le (c1 :: s2)). cbn [length] in *. lia.
Qed.
Lemma number_le b : (length (prest (parse_number b)) <= length b)%nat.
Proof.
  unfold parse_number. destruct b as [|c b1]; [cbn; lia|]. cbv zeta. set (s := if c =? cMINUS then b1 else c :: b1).
  assert (L : (length s <= length (c :: b1))%nat) by (subst s; destruct (c =? cMINUS); cbn [length]; lia). clearbody s.
  destruct s as [|d s1]; [cbn; lia|]. destruct (negb (is_digit d)); [cbn [prest]; lia|]. destruct (d =? c0).
  - destruct s1 as [|x s2]; [cbn [prest length]; lia|]. destruct (_ && _)%bool; [cbn [prest length] in *; lia|].
    destruct (is_digit x); [cbn [prest length] in *; lia|]. pose proof (frac_le (c :: b1) (skip_digits (x :: s2))). pose proof (digits_le (x :: s2)). cbn [length] in *. lia.
  - pose proof (frac_le (c :: b1) (skip_digits (d :: s1))). pose proof (digits_le (d :: s1)). lia.
Qed.
Lemma lit_le l b : (length (prest (parse_lit l b)) <= length b)%nat.
Proof. unfold parse_lit. repeat pk; cbn [prest length]; rewrite ?skipn_length; lia. Qed.
Lemma sloop_le n : forall s r, (length s <= n)%nat -> string_loop s = SLEnd r -> (length r <= length s)%nat.
Proof.
  induction n as [|n IH]; intros s r L; [destruct s; [discriminate|cbn in L; lia]|]. destruct s as [|c s1]; [discriminate|]. cbn [string_loop length] in *.
  destruct (c =? cBSLASH).
  - destruct s1 as [|e s2]; [discriminate|]. cbn [length] in *. destruct (is_simple_escape e); [intros H; apply IH in H; lia|].
    destruct (e =? cu); [|discriminate]. do 4 (destruct s2 as [|? s2]; [discriminate|]). destruct (parse_unicode _); [|discriminate].
    cbn [length] in *. intros H. apply IH in H; lia.
  - destruct (c =? cQUOTE); [intros [= <-]; lia|]. destruct (c <? 32); [discriminate|]. intros H. apply IH in H; lia.
Qed.
Definition srest (p : sres) : bytes := match p with SOk _ r _ => r | SErr r _ => r end.
Lemma fast_le b : (length (srest (parse_string_fast b)) <= length b)%nat.
Proof.
  unfold parse_string_fast. destruct b as [|c [|c1 b1]]; [cbn; lia|cbn; lia|]. destruct (negb _); [cbn [srest]; lia|].
  destruct (index_byte cQUOTE _) as [k|]; [|cbn; lia]. cbv zeta.
  assert (G : (length (srest match string_loop (c1 :: b1) with SLEnd r => SOk (upto (c :: c1 :: b1) r) r true | SLBad => SErr (c :: c1 :: b1) ESyntax
      | SLMissing => SErr [] ESyntax end) <= length (c :: c1 :: b1))%nat).
  { destruct (string_loop (c1 :: b1)) eqn:E; cbn [srest length]; try lia. apply (sloop_le (length (c1 :: b1))) in E; cbn [length] in *; lia. }
  match goal with |- context [match ?x with None => _ | _ => _ end] => destruct x end; [exact G|].
  match goal with |- context [if ?x then _ else _] => destruct x end; [|exact G]. cbn [srest]. rewrite skipn_length. lia.
Qed.
Lemma string_le b : (length (prest (parse_string b)) <= length b)%nat.
Proof. unfold parse_string. pose proof (fast_le b). destruct (parse_string_fast b); exact H. Qed.
Definition qrest (b : bytes) (p : qres) : bytes := match p with QOk _ r _ => r | QErr r _ => r | _ => b end.
Lemma unquote_le b : (length (qrest b (parse_string_unquote b [])) <= length b)%nat.
Proof. unfold parse_string_unquote. pose proof (fast_le b). destruct (parse_string_fast b); cbn [srest] in H; repeat pk; cbn [qrest]; lia. Qed.
Lemma pv_le n : (forall b, (length (prest (parse_value n b)) <= length b)%nat) /\
  (forall f a b, (length (prest (object_loop n f a b)) <= length b)%nat) /\
  (forall f a b, (length (prest (array_loop n f a b)) <= length b)%nat).
Proof.
  induction n as [|n (IV & IO & IA)]; [repeat split; intros; cbn; lia|].
  assert (SK := skip_spaces_le). assert (CL : forall a c t, (length (prest (close_at a (c :: t))) <= length (c :: t))%nat).
  { intros a c t. unfold close_at. cbn [prest]. rewrite skipn_length. lia. }
  assert (KO : forall a b, (length (prest (obj_k n a b)) <= length b)%nat).
  { intros a b. unfold obj_k. pose proof (string_le b) as LS. destruct (parse_string b) as [k b2|]; [|exact LS]. cbn [prest] in LS. pose proof (SK b2) as L2.
    destruct (skip_spaces b2) as [|c2 b3]; [cbn; lia|]. cbn [length] in L2. destruct (negb _); [cbn [prest length]; lia|].
    pose proof (IV (skip_spaces b3)). pose proof (SK b3). destruct (parse_value n (skip_spaces b3)) as [u b4|]; cbn [prest] in *; [|lia].
    pose proof (IO false a b4). lia. }
  assert (KA : forall a b, (length (prest (arr_k n a b)) <= length b)%nat).
  { intros a b. unfold arr_k. pose proof (IV b) as H. destruct (parse_value n b) as [u b4|]; cbn [prest] in *; [|lia]. pose proof (IA false a b4). lia. }
  split; [|split].
  - intros b. cbn [parse_value]. destruct b as [|c b1]; [cbn; lia|]. destruct (c =? cLBRACE).
    { destruct (Nat.ltb _ _); [cbn; lia|]. pose proof (IO true (c :: b1) b1). cbn [length]. lia. }
    destruct (c =? cLBRACK). { destruct (Nat.ltb _ _); [cbn; lia|]. pose proof (IA true (c :: b1) b1). cbn [length]. lia. }
    destruct (c =? cQUOTE); [apply string_le|]. destruct (c =? cn); [apply lit_le|]. destruct (c =? ct); [apply lit_le|]. destruct (c =? cf); [apply lit_le|].
    destruct (is_num_start c); [apply number_le|]. cbn [prest]. lia.
  - intros f a b. rewrite object_loop_S. pose proof (SK b) as L. destruct (skip_spaces b) as [|c b1]; [cbn; lia|].
    destruct (c =? 125); [pose proof (CL a c b1); lia|]. destruct f; [pose proof (KO a (c :: b1)); lia|]. destruct (negb _); [cbn [prest]; lia|].
    pose proof (SK b1) as L1. cbn [length] in L. destruct (skip_spaces b1) as [|c2 b2]; [cbn; lia|]. destruct (c2 =? 125); [cbn [prest]; lia|].
    pose proof (KO a (c2 :: b2)). lia.
  - intros f a b. rewrite array_loop_S. pose proof (SK b) as L. destruct (skip_spaces b) as [|c b1]; [cbn; lia|].
    destruct (c =? 93); [pose proof (CL a c b1); lia|]. destruct f; [pose proof (KA a (c :: b1)); lia|]. destruct (negb _); [cbn [prest]; lia|].
    pose proof (SK b1) as L1. cbn [length] in L. destruct (skip_spaces b1) as [|c2 b2]; [cbn; lia|]. destruct (c2 =? 93); [cbn [prest]; lia|].
    pose proof (KA a (c2 :: b2)). lia.
Qed.
Lemma parseValue_le b : (length (prest (parseValue b)) <= length b)%nat.
Proof. apply pv_le. Qed.
Lemma input_error_le b : (length (fst (input_error b)) <= length b)%nat.
Proof.
  unfold input_error. destruct b as [|c b1]; [cbn; lia|]. pose proof (parseValue_le (c :: b1)) as H.
  destruct (parseValue (c :: b1)) as [v r|r e]; cbn [prest fst] in *; [|lia]. pose proof (skip_spaces_le r). lia.
Qed.
Lemma in_err_le {A} b (x : A) : (length (d_rest (in_err b x)) <= length b)%nat.
Proof. unfold in_err. pose proof (input_error_le b). destruct (input_error b). exact H. Qed.
Lemma elem_err_le {A} b e (x : A) : (length (d_rest (elem_err b e x)) <= length b)%nat.
Proof. unfold elem_err. pose proof (parseValue_le b). destruct (parseValue b); exact H. Qed.
Lemma iface_le un pf n b x : (length (d_rest (dec_iface un pf n b x)) <= length b)%nat.
Proof.
  destruct n as [|n]; [cbn; lia|]. cbn [dec_iface]. pose proof (parseValue_le b) as H. destruct (parseValue b) as [v b'|r e]; cbn [prest] in H; [|exact H].
  cbv zeta. repeat (cbn [d_rest]; first [exact H | pk]).
Qed.

(** numbers *)
Definition irest (i : ires) : bytes := match i with IOk _ r => r | IErr r _ => r end.
Lemma finish_le b v c : (length (irest (int_finish b v c)) <= length b)%nat.
Proof.
  unfold int_finish. assert (L : (length (skipn c b) <= length b)%nat) by (rewrite skipn_length; lia). destruct (skipn c b) as [|d r]; [cbn; lia|].
  destruct (_ || _)%bool; [|cbn [irest]; exact L]. pose proof (number_le b). destruct (parse_number b); cbn [irest prest] in *; [exact H|].
  rewrite skipn_length. lia.
Qed.
Lemma pint_le b : (length (irest (parse_int b)) <= length b)%nat.
Proof.
  unfold parse_int. destruct b as [|c b1]; [cbn; lia|]. pose proof (input_error_le (c :: b1)) as IE. destruct (c =? cMINUS).
  - destruct b1 as [|d b1]; [cbn; lia|]. destruct (leading_zero _); [cbn [irest]; lia|]. destruct (neg_loop _ _ _); [apply finish_le| |cbn [irest]; lia].
    destruct (input_error (c :: d :: b1)). exact IE.
  - destruct (leading_zero _); [cbn [irest]; lia|]. destruct (pos_loop _ _ _); [apply finish_le| |cbn [irest]; lia]. destruct (input_error (c :: b1)). exact IE.
Qed.
Lemma puint_le b : (length (irest (parse_uint b)) <= length b)%nat.
Proof.
  unfold parse_uint. destruct b as [|c b1]; [cbn; lia|]. pose proof (input_error_le (c :: b1)) as IE.
  destruct (leading_zero _); [cbn [irest]; lia|]. destruct (uint_loop _ _ _); [apply finish_le| |cbn [irest]; lia]. destruct (input_error (c :: b1)). exact IE.
Qed.

Definition kept {A} (b : bytes) (d : dres A) : Prop := (length (d_rest d) <= length b)%nat.
Lemma null_kept {A} b (x : A) e : kept b (DR (skipn 4 b) e x).
Proof. unfold kept. cbn [d_rest]. rewrite skipn_length. lia. Qed.
Lemma int_kept t b x : kept b (decode_int t b x).
Proof.
  unfold decode_int. destruct (has_null_prefix b); [apply null_kept|]. unfold kept.
  assert (H : (length (irest (if signed t then parse_int b else parse_uint b)) <= length b)%nat) by (destruct (signed t); [apply pint_le|apply puint_le]).
  destruct (if signed t then _ else _); [|exact H]. destruct (out_of_range t v); exact H.
Qed.
Lemma bool_kept b x : kept b (decode_bool b x).
Proof. unfold decode_bool, kept. repeat pk; cbn [d_rest]; rewrite ?skipn_length; try lia. apply in_err_le. Qed.
Lemma float_kept pf b x : kept b (decode_float pf b x).
Proof.
  unfold decode_float. destruct (has_null_prefix b); [apply null_kept|]. pose proof (number_le b). destruct (parse_number b); cbn [prest] in *; [|apply in_err_le].
  destruct (pf v); [exact H|apply in_err_le].
Qed.
Lemma number_kept b x : kept b (decode_number b x).
Proof.
  unfold decode_number. destruct (has_null_prefix b); [apply null_kept|]. pose proof (number_le b). destruct (parse_number b); cbn [prest] in *; [exact H|apply in_err_le].
Qed.
Lemma string_kept b x : kept b (decode_string b x).
Proof.
  unfold decode_string. destruct (has_null_prefix b); [apply null_kept|]. pose proof (unquote_le b). destruct (parse_string_unquote b []); cbn [qrest] in *; try exact H.
  destruct b as [|c b1]; [apply in_err_le|]. destruct (c =? cQUOTE); [exact H|apply in_err_le].
Qed.
Lemma raw_kept b x : kept b (decode_raw b x).
Proof. unfold decode_raw. pose proof (parseValue_le b). destruct (parseValue b); [exact H|apply in_err_le]. Qed.
Lemma quoted_kept {A} (p : bytes -> option A) b x : kept b (decode_quoted p b x).
Proof.
  unfold decode_quoted. destruct (Nat.ltb _ _); [apply in_err_le|]. destruct b as [|c b1]; [apply in_err_le|]. destruct (negb _); [apply in_err_le|].
  destruct (index_byte _ _) as [i|]; [|apply in_err_le]. destruct (p (firstn i b1)); [|apply in_err_le]. unfold kept. cbn [d_rest].
  rewrite skipn_length. cbn [length]. lia.
Qed.
Lemma duration_kept V b x : kept b (decode_duration V b x).
Proof.
  unfold decode_duration. destruct (has_null_prefix b); [apply null_kept|]. destruct b as [|c b1]; [apply quoted_kept|].
  destruct (negb _); [|apply quoted_kept]. pose proof (pint_le (c :: b1)). destruct (parse_int (c :: b1)); [exact H|apply in_err_le].
Qed.
Lemma time_kept V b x : kept b (decode_time V b x).
Proof. unfold decode_time. destruct (has_null_prefix b); [apply null_kept|apply quoted_kept]. Qed.
Lemma type_error_kept b x : kept b (decode_type_error b x).
Proof. unfold decode_type_error. pose proof (parseValue_le b). destruct (parseValue b); exact H. Qed.
Lemma json_kept V u b x : kept b (decode_json_user V u b x).
Proof.
  unfold decode_json_user. pose proof (parseValue_le b). destruct (parseValue b); [|exact H]. destruct (rv_null v); [exact H|]. destruct (v_json V u v x). exact H.
Qed.
Lemma text_kept V u b x : kept b (decode_text_user V u b x).
Proof.
  unfold decode_text_user. pose proof (parseValue_le b). destruct (parseValue b); [|exact H]. destruct (rv_null v); [destruct (parse_null v); exact H|].
  destruct (rv_string v); [|exact H]. destruct (parse_string_unquote v []); try exact H; try (unfold kept; cbn [d_rest]; lia). destruct (v_text V u s x). exact H.
Qed.
