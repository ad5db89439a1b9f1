(** C01, C08, C09.  Statements only; proofs in ParseFacts.v and IntFacts.v. *)
From Verif Require Import Bytes ParseModel IntModel SpecJson ParseFacts IntFacts.

(** C01: Valid(data) iff data is a JSON text of RFC 8259. *)
Theorem C01_valid_iff_grammar : forall data, wf data ->
  (Valid data = true <-> exists v, jtext data v).
Proof. exact jtext_wf_Valid. Qed.
Print Assumptions C01_valid_iff_grammar.

(** The parser behind Valid always terminates with a result or a syntax error. *)
Theorem C01_parse_total : forall data, wf data -> forall r, parseValue data <> PErr r EFuel.
Proof. exact parseValue_nofuel. Qed.
Print Assumptions C01_parse_total.

(** And returns exactly the value at the front of the input. *)
Theorem C01_parse_value_exact : forall s v r, jvalue s v -> (number_lit s -> num_stop r) -> parseValue (s ++ r) = POk s r.
Proof. exact parseValue_complete'. Qed.
Print Assumptions C01_parse_value_exact.

Example C01_case_yes : Valid (bs " {""a"": [1, -2.5e+3, ""xé"", null], ""b"":{}} ") = true.
Proof. reflexivity. Qed.
Example C01_case_no : map Valid [bs "01"; bs "[1,]"; bs "{""a"" 1}"; bs """\x"""; bs "1 2"; bs "nul"; bs ""; bs "-"]
  = repeat false 8.
Proof. reflexivity. Qed.

(** C08: an integer literal in the range of the target type is stored exactly
    (unsigned types accept no sign, so not "-0"). *)
Theorem C08_in_range_stored : forall t w1 s z w2 cur,
  ws w1 -> int_text s z -> ws w2 ->
  signed t = true \/ (forall s', s <> 45 :: s') -> ity_lo t <= z <= ity_hi t ->
  unmarshal_with (decode_int t) (w1 ++ s ++ w2) cur = (None, z).
Proof. exact unmarshal_int_ok. Qed.
Print Assumptions C08_in_range_stored.

(** C08: out of range is an error and the target is unchanged. *)
Theorem C08_out_of_range_error : forall t w1 s z w2 cur,
  ws w1 -> int_text s z -> ws w2 -> ~ (ity_lo t <= z <= ity_hi t) ->
  exists e, unmarshal_with (decode_int t) (w1 ++ s ++ w2) cur = (Some e, cur).
Proof. exact unmarshal_int_err. Qed.
Print Assumptions C08_out_of_range_error.

(** C08, for arbitrary input: whatever gets stored is an in-range integer
    literal found at the front of the input and not continued as a number. *)
Theorem C08_only_integers_stored : forall t b cur,
  let d := decode_int t b cur in
  d_val d = cur \/
  (d_err d = None /\ exists s, b = s ++ d_rest d /\ num_stop (d_rest d) /\ int_text s (d_val d) /\
   ity_lo t <= d_val d <= ity_hi t).
Proof. exact decode_int_stores. Qed.
Print Assumptions C08_only_integers_stored.

Example C08_case : int_text (bs "-129") (-129) /\
  unmarshal_with (decode_int TInt8) (bs " -129 ") 7 = (Some EType, 7) /\
  unmarshal_with (decode_int TInt8) (bs " -128 ") 7 = (None, -128) /\
  unmarshal_with (decode_int TUint64) (bs "18446744073709551616") 7 = (Some ESyntax, 7) /\
  unmarshal_with (decode_int TUint64) (bs "18446744073709551615") 7 = (None, 18446744073709551615) /\
  unmarshal_with (decode_int TInt64) (bs "1.0") 7 = (Some EType, 7).
Proof.
  split; [|vm_compute; auto].
  apply (it_neg [49; 50; 57]). constructor; [lia|]. repeat constructor; unfold digit; lia.
Qed.

(** The sign exception is real: "-0" denotes 0 but is rejected by unsigned types. *)
Theorem C08_minus_zero_unsigned_refuted :
  exists s, int_text s 0 /\ unmarshal_with (decode_int TUint8) s 7 <> (None, 0).
Proof.
  exists (bs "-0"). split; [apply (it_neg [48]); constructor|]. vm_compute. discriminate.
Qed.
Print Assumptions C08_minus_zero_unsigned_refuted.

(** C09: integers of every type survive formatting and decoding. *)
Theorem C09_int_round_trip : forall t z cur, ity_lo t <= z <= ity_hi t ->
  unmarshal_with (decode_int t) (itoa z) cur = (None, z).
Proof.
  intros t z cur Hz. unfold unmarshal_with, parse_with.
  rewrite (skip_spaces_nsp (itoa z)).
  2:{ destruct (int_text_head _ _ (itoa_text z)) as (c & t' & -> & Hc). cbn. apply vhead_nsp. unfold vhead. lia. }
  rewrite int_round_trip by exact Hz. reflexivity.
Qed.
Print Assumptions C09_int_round_trip.

Example C09_case : itoa (- 2 ^ 63) = bs "-9223372036854775808" /\
  unmarshal_with (decode_int TInt64) (itoa (- 2 ^ 63)) 0 = (None, - 2 ^ 63).
Proof. vm_compute. auto. Qed.
