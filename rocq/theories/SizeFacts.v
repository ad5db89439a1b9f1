(** How many bytes the encoders of EncModel.v append: lemmas for PropsSize.v. *)
From Coq Require Import Permutation.
From Verif Require Import Bytes Utf8Model ParseModel StringModel IntModel TokenModel EncModel SpecJson SpecTokens
  SpecRender SpecSize ParseFacts IntFacts TokenFacts EncFacts.
Local Open Scope nat_scope.

(** * Leaves *)
Lemma rune_size s : snd (decode_rune s) <= 4.
Proof.
  unfold decode_rune. repeat match goal with
  | |- context [match ?x with _ => _ end] => destruct x
  end; cbn; lia.
Qed.
Lemma string_loop_len n html : forall b pend s r, encode_string_loop n html b pend s = Some r ->
  length r <= length b + length pend + 6 * n + 1.
Proof.
  induction n as [|n IH]; intros b pend s r H; destruct s as [|c s]; cbn [encode_string_loop] in H; try discriminate.
  1-2: injection H as <-; rewrite !app_length; cbn [length]; lia.
  repeat match type of H with
  | (if ?x then _ else _) = _ => destruct x
  | (let '(_, _) := ?x in _) = _ => pose proof (rune_size (c :: s)) as R; destruct x as [r0 size]; cbn [snd] in R
  end; apply IH in H; rewrite ?app_length in H; cbn [length u00 u202 ufffd] in H; try lia.
  pose proof (firstn_le_length size (c :: s)). rewrite firstn_length in H. lia.
Qed.
Lemma string_len html b s : length (do_encode_string html b s) <= length b + 6 * length s + 2.
Proof.
  unfold do_encode_string. destruct (encode_string_loop _ _ _ _ _) as [r|] eqn:E; [|lia].
  apply string_loop_len in E. rewrite app_length in E. cbn [length] in E. lia.
Qed.
Lemma compact_len src : forall dst pend i e k, length (compact_html dst pend i e k src) <= length dst + length pend + 6 * length src.
Proof.
  induction src as [|c src IH]; intros dst pend i e k; cbn [compact_html]; [rewrite app_length; cbn; lia|].
  repeat match goal with
  | |- context [if ?x then compact_html _ _ _ _ _ _ else _] => destruct x
  | |- context [match ?x with O => _ | Datatypes.S _ => _ end] => destruct x
  end; (etransitivity; [apply IH|]); rewrite ?app_length; cbn [length u00 u202]; lia.
Qed.
Lemma b64_len n : forall s, length s <= n -> length (b64 s) <= 4 * length s.
Proof.
  induction n as [|n IH]; intros s L; [destruct s; cbn in *; lia|].
  destruct s as [|x [|y [|z s]]]; cbn [b64 length] in *; try lia.
  specialize (IH s ltac:(lia)). lia.
Qed.
Lemma utoa_f_len f : forall n acc, length (utoa_f f n acc) <= f + length acc.
Proof.
  induction f as [|f IH]; intros n acc; cbn [utoa_f]; [lia|].
  destruct (_ <? _)%Z; [cbn; lia|]. etransitivity; [apply IH|]. cbn. lia.
Qed.
Lemma utoa_len n : (0 <= n)%Z -> length (utoa n) + 1 <= digits n.
Proof. intros N. unfold utoa, digits. pose proof (utoa_f_len (S (Z.to_nat (Z.log2 n))) n []). cbn [length] in H. rewrite Z.abs_eq by exact N. lia. Qed.
Lemma itoa_len z : length (itoa z) <= digits z.
Proof.
  unfold itoa. destruct (z <? 0)%Z eqn:E.
  - apply Z.ltb_lt in E. pose proof (utoa_len (- z) ltac:(lia)). unfold digits in *. cbn [length].
    rewrite Z.abs_opp in H. lia.
  - apply Z.ltb_ge in E. pose proof (utoa_len z E). lia.
Qed.
Lemma clean_len b : length (clean_exp b) <= length b.
Proof.
  unfold clean_exp. destruct (_ && _)%bool eqn:E; [|lia]. rewrite app_length, firstn_length. cbn [length].
  assert (4 <= length b); [|lia]. rewrite !andb_true_iff in E. apply Nat.leb_le, E.
Qed.
Lemma digits_pred z : digits (Z.abs (z - 1)) <= digits z + 1.
Proof.
  unfold digits. rewrite Z.abs_involutive.
  assert (Z.log2 (Z.abs (z - 1)) <= Z.log2 (Z.abs z) + 1)%Z.
  { destruct (Z.eq_dec z 0) as [->|N]; [vm_compute; discriminate|].
    etransitivity; [apply Z.log2_le_mono with (b := (2 * Z.abs z)%Z); lia|].
    rewrite Z.log2_double by lia. lia. }
  pose proof (Z.log2_nonneg (Z.abs (z - 1))). pose proof (Z.log2_nonneg (Z.abs z)). lia.
Qed.
Lemma float_len b f : length (fst (encode_float b f)) <= length b + 6 * units (GFloat f).
Proof.
  destruct f as [|n|n|n ds dp]; cbn [encode_float fst units].
  1,2: lia.
  - rewrite app_length. unfold fmt_f. destruct n; cbn; lia.
  - destruct (_ || _)%bool eqn:E; cbn [fst].
    + etransitivity; [apply clean_len|]. rewrite app_length. apply Nat.add_le_mono_l.
      unfold fmt_e. rewrite !app_length.
      assert (X : length (skipn 1 ds) <= length ds) by (rewrite skipn_length; lia).
      assert (Y : length (firstn 1 ds) <= 1) by apply firstn_le_length.
      pose proof (utoa_len (Z.abs (dp - 1)) ltac:(lia)) as L1. pose proof (digits_pred dp) as L2. cbn zeta. cbn [units]. revert X. destruct (skipn 1 ds); intros X; cbn [length] in X;
      destruct n, (dp - 1 <? 0)%Z, (Z.abs (dp - 1) <? 10)%Z; cbn [length app]; rewrite ?app_length; cbn [length]; lia.
    + rewrite app_length. apply Nat.add_le_mono_l. apply orb_false_iff in E. destruct E as [E1 E2].
      apply Z.ltb_ge in E1, E2. unfold fmt_f. rewrite !app_length.
      assert (X : length (if (0 <? dp)%Z then firstn (Z.to_nat dp) ds ++ repeat 48%Z (Z.to_nat dp - length ds) else [48%Z]) <= 22 + length ds).
      { destruct (0 <? dp)%Z; [|cbn [length]; lia]. rewrite app_length, firstn_length, repeat_length. lia. }
      assert (Y : length (if (dp <? Z.of_nat (length ds))%Z then 46%Z :: repeat 48%Z (Z.to_nat (- dp)) ++ skipn (Z.to_nat dp) ds else []) <= 10 + length ds).
      { clear X. destruct (dp <? Z.of_nat (length ds))%Z; [|cbn [length]; lia]. cbn [length]. rewrite app_length, repeat_length, skipn_length. lia. }
      destruct n; cbn [length]; lia.
Qed.

(** * Steps of an encoder *)
Section size.
  Variable c : cfg.
  (** The most bytes written for one unit at depth [D]. *)
  Definition rate (D : nat) : nat := 6 + tint (e_clrs c) + layout (e_ind c) D.
  (** From buffer [b] at depth [d] to buffer [b'] at depth [d'], for [n] units. *)
  Definition step (n : nat) (b : bytes) (d : Z) (b' : bytes) (d' : Z) : Prop :=
    length b' <= length b + n * rate (Z.to_nat d + n) /\ Z.to_nat d' <= Z.to_nat d + n.
  Definition grows (f : encf) (n : nat) : Prop := forall b d b' d' e, f b d = ER b' d' e -> step n b d b' d'.

  Lemma rate_mono D D' : D <= D' -> rate D <= rate D'.
  Proof. unfold rate, layout. destruct (e_ind c) as [i|]; [|lia]. destruct (i_disabled i); [lia|]. nia. Qed.
  Lemma rate_six D : 6 <= rate D.
  Proof. unfold rate. lia. Qed.
  Lemma step_refl b d : step 0 b d b d.
  Proof. unfold step. cbn. lia. Qed.
  Lemma step_trans n m b d b1 d1 b2 d2 : step n b d b1 d1 -> step m b1 d1 b2 d2 -> step (n + m) b d b2 d2.
  Proof.
    unfold step. intros [L1 D1] [L2 D2]. split; [|lia].
    pose proof (rate_mono (Z.to_nat d + n) (Z.to_nat d + (n + m)) ltac:(lia)).
    pose proof (rate_mono (Z.to_nat d1 + m) (Z.to_nat d + (n + m)) ltac:(lia)). nia.
  Qed.
  Lemma step_weak n m b d b' d' : step n b d b' d' -> n <= m -> step m b d b' d'.
  Proof.
    unfold step. intros [L D] H. split; [|lia].
    pose proof (rate_mono (Z.to_nat d + n) (Z.to_nat d + m) ltac:(lia)). nia.
  Qed.
  (** Text of at most six bytes per unit, with one color. *)
  Lemma step_text n b d b' : length b' <= length b + 6 * n + tint (e_clrs c) -> 1 <= n -> step n b d b' d.
  Proof. unfold step, rate. intros L N. split; [|lia]. set (X := layout _ _). nia. Qed.
  Lemma step_plain n b d b' : length b' <= length b + 6 * n -> step n b d b' d.
  Proof. unfold step, rate. intros L. split; [|lia]. set (X := layout _ _). nia. Qed.
  Lemma step_cut n b d b' d' m : step n b d b' d' -> m <= length b -> step n b d (firstn m b') d'.
  Proof. unfold step. intros [L D] M. split; [|lia]. pose proof (firstn_le_length m b'). lia. Qed.
  Lemma step_depth n b d b' d' d'' : step n b d b' d' -> Z.to_nat d'' <= Z.to_nat d' -> step n b d b' d''.
  Proof. unfold step. intros [L D] M. split; [exact L|]. lia. Qed.

  Lemma tint_in (f : colors -> bytes) k : e_clrs c = Some k ->
    In f [c_null; c_bool; c_number; c_string; c_key; c_bytes; c_time; c_punc; c_brackets; c_braces; c_comma; c_colon; c_textm] ->
    4 + length (f k) <= tint (e_clrs c).
  Proof.
    intros -> H. unfold tint.
    assert (X : forall l, In f l -> length (f k) <= fold_right Nat.max 0 (map (fun f => length (f k)) l)).
    { clear H. induction l as [|g l IH]; [intros []|]. intros [->|I]; cbn [map fold_right]; [lia|]. specialize (IH I). lia. }
    specialize (X _ H). lia.
  Qed.
  Ltac color f k E := pose proof (tint_in f k E ltac:(cbn; tauto)).
  Lemma punc_len b v : length (append_punc (e_clrs c) b v) <= length b + 1 + tint (e_clrs c).
  Proof.
    unfold append_punc. destruct (e_clrs c) as [k|] eqn:E; [|rewrite app_length; cbn; lia].
    color c_punc k E. color c_brackets k E. color c_braces k E. color c_comma k E. color c_colon k E. rewrite E in *.
    assert (length (punc_color k v) <= tint (Some k) - 4).
    { unfold punc_color.
      destruct ((v =? 91) || (v =? 93))%Z%bool; [destruct (c_brackets k); lia|].
      destruct ((v =? 123) || (v =? 125))%Z%bool; [destruct (c_braces k); lia|].
      destruct (v =? 44)%Z; [destruct (c_comma k); lia|].
      destruct (v =? 58)%Z; [destruct (c_colon k); lia|lia]. }
    rewrite !app_length. unfold ansi_reset. cbn [length]. lia.
  Qed.
  Lemma null_len b : length (append_null (e_clrs c) b) <= length b + 4 + tint (e_clrs c).
  Proof.
    unfold append_null. destruct (e_clrs c) as [k|] eqn:E; rewrite !app_length; change (length lit_null) with 4; [|lia].
    color c_null k E. rewrite E in *. unfold ansi_reset. cbn [length]. lia.
  Qed.
  Lemma bool_len b x : length (append_bool (e_clrs c) b x) <= length b + 5 + tint (e_clrs c).
  Proof.
    unfold append_bool. destruct (e_clrs c) as [k|] eqn:E; destruct x; rewrite !app_length; change (length lit_true) with 4; change (length lit_false) with 5; unfold ansi_reset; cbn [length].
    3,4: lia. all: color c_bool k E; rewrite E in *; lia.
  Qed.
  Lemma int_len b z : length (append_int (e_clrs c) b z) <= length b + length (itoa z) + tint (e_clrs c).
  Proof.
    unfold append_int. destruct (e_clrs c) as [k|] eqn:E; rewrite !app_length; [|lia].
    color c_number k E. rewrite E in *. unfold ansi_reset. cbn [length]. lia.
  Qed.
  Lemma indent_len b d : length (in_indent c b d) <= length b + layout (e_ind c) (Z.to_nat d).
  Proof.
    unfold in_indent, layout. destruct (e_ind c) as [i|]; [|lia]. destruct (i_disabled i); [lia|].
    rewrite repeat_app_spec, !app_length.
    assert (length (concat (repeat (i_indent i) (Z.to_nat d))) = Z.to_nat d * length (i_indent i)); [|lia].
    induction (Z.to_nat d) as [|n IH]; [reflexivity|]. cbn [repeat concat]. rewrite app_length, IH. lia.
  Qed.
  Lemma byte_len b a : length (in_byte c b a) <= length b + 1.
  Proof. unfold in_byte. destruct (e_ind c) as [i|]; [|lia]. destruct (i_disabled i); [lia|]. rewrite app_length. cbn. lia. Qed.
  Lemma push_le d : Z.to_nat (in_push c d) <= Z.to_nat d + 1.
  Proof. unfold in_push. destruct (e_ind c); lia. Qed.
  Lemma pop_le d : Z.to_nat (in_pop c d) <= Z.to_nat d.
  Proof. unfold in_pop. destruct (e_ind c); lia. Qed.

  (** Anything of at most six bytes, one color and one indentation is one unit. *)
  Lemma step_one b d b' d' D : length b' <= length b + 6 + tint (e_clrs c) + layout (e_ind c) D -> D <= Z.to_nat d + 1 ->
    Z.to_nat d' <= Z.to_nat d + 1 -> step 1 b d b' d'.
  Proof.
    intros L H1 H2. unfold step. split; [|exact H2]. pose proof (rate_mono D (Z.to_nat d + 1) H1). unfold rate in *. lia.
  Qed.
  Lemma step_pair b d d' l : length l <= 6 + tint (e_clrs c) -> Z.to_nat d' <= Z.to_nat d + 1 -> step 1 b d (b ++ l) d'.
  Proof. intros L H. apply (step_one b d _ _ 0); [rewrite app_length; lia|lia|exact H]. Qed.

  (** * Scalars *)
  Lemma grows_weak f n m : grows f n -> n <= m -> grows f m.
  Proof. intros G H b d b' d' e E. apply (step_weak n); [eapply G, E|exact H]. Qed.
  Lemma grows_null n : 1 <= n -> grows (fun b d => ER (append_null (e_clrs c) b) d None) n.
  Proof. intros N b d b' d' e E. injection E as <- <- _. pose proof (null_len b). apply step_text; lia. Qed.
  Lemma grows_err e n : grows (fun b d => ER b d (Some e)) n.
  Proof. intros b d b' d' e' E. injection E as <- <- _. apply step_plain. lia. Qed.
  Lemma grows_str f s : In f [c_null; c_bool; c_number; c_string; c_key; c_bytes; c_time; c_punc; c_brackets; c_braces; c_comma; c_colon; c_textm] ->
    grows (encode_str c f s) (text s).
  Proof.
    intros I b d b' d' e. unfold encode_str, text. destruct (e_clrs c) as [k|] eqn:E; intros H; injection H as <- <- _.
    - pose proof (tint_in f k E I). pose proof (string_len (e_html c) (b ++ f k) s). rewrite app_length in *.
      apply step_text; rewrite ?app_length; unfold ansi_reset; cbn [length]; lia.
    - pose proof (string_len (e_html c) b s). apply step_plain. lia.
  Qed.
  Lemma grows_number s : grows (encode_number c s) (1 + length s).
  Proof.
    intros b d b' d' e. unfold encode_number. cbv zeta. set (n := match s with [] => [48%Z] | _ => s end).
    assert (length n <= 1 + length s) by (subst n; destruct s; cbn; lia).
    destruct (parse_number n); [|intros H1; injection H1 as <- <- _; apply step_plain; lia].
    destruct (e_clrs c) as [k|] eqn:E; intros H1; injection H1 as <- <- _.
    - color c_number k E. apply step_text; rewrite ?app_length; unfold ansi_reset; cbn [length]; lia.
    - apply step_plain. rewrite app_length. lia.
  Qed.
  Lemma grows_float f : grows (encode_float_c c f) (units (GFloat f)).
  Proof.
    intros b d b' d' e. unfold encode_float_c. assert (1 <= units (GFloat f)) by (destruct f; cbn; lia).
    destruct (e_clrs c) as [k|] eqn:E.
    - color c_number k E. pose proof (float_len (b ++ c_number k) f) as L. destruct (encode_float _ f) as [o x]. cbn [fst] in L. rewrite app_length in L.
      intros H1; injection H1 as <- <- _. apply step_text; [|exact H]. rewrite app_length. unfold ansi_reset. cbn [length]. lia.
    - pose proof (float_len b f) as L. destruct (encode_float _ f) as [o x]. cbn [fst] in L.
      intros H1; injection H1 as <- <- _. apply step_plain. lia.
  Qed.
  Lemma grows_bytes s : grows (encode_bytes c s) (units (GBytes s)).
  Proof.
    intros b d b' d' e. unfold encode_bytes, do_encode_bytes. destruct s as [s|]; cbn [units].
    - pose proof (b64_len (length s) s ltac:(lia)) as L. unfold text.
      destruct (e_clrs c) as [k|] eqn:E; intros H; injection H as <- <- _.
      + color c_bytes k E. apply step_text; [|lia]. unfold ansi_reset. repeat (rewrite app_length; cbn [length]). lia.
      + apply step_plain. repeat (rewrite app_length; cbn [length]). lia.
    - set (N := fun b => append_null (e_clrs c) b). change (append_null (e_clrs c)) with N.
      assert (L : forall b, length (N b) <= length b + 4 + tint (e_clrs c)) by (intros; apply null_len).
      assert (A : forall b, length (N b) = length b + length (N [])) by (intros; unfold N; rewrite append_null_app, app_length; reflexivity).
      clearbody N. destruct (e_clrs c) as [k|] eqn:E; intros H; injection H as <- <- _.
      + color c_bytes k E. rewrite E in *. apply (step_trans 1 1 b d (N b) d).
        * apply step_text; rewrite ?E; [|lia]. specialize (L b). lia.
        * apply step_text; rewrite ?E; [|lia]. rewrite app_length, (A (b ++ c_bytes k)), (A b), app_length. unfold ansi_reset. cbn [length]. lia.
      + specialize (L b). apply step_text; rewrite ?E; lia.
  Qed.
  Lemma grows_time t : grows (encode_time c t) (text t).
  Proof.
    intros b d b' d' e. unfold encode_time, text. destruct (e_clrs c) as [k|] eqn:E; intros H; injection H as <- <- _.
    - color c_time k E. apply step_text; [|lia]. unfold ansi_reset. repeat (rewrite app_length; cbn [length]). lia.
    - apply step_plain. repeat (rewrite app_length; cbn [length]). lia.
  Qed.
  Lemma grows_int z : grows (fun b d => ER (append_int (e_clrs c) b z) d None) (digits z).
  Proof. intros b d b' d' e H. injection H as <- <- _. pose proof (int_len b z). pose proof (itoa_len z). apply step_text; [lia|unfold digits; lia]. Qed.
  Lemma grows_bool x : grows (fun b d => ER (append_bool (e_clrs c) b x) d None) 1.
  Proof. intros b d b' d' e H. injection H as <- <- _. pose proof (bool_len b x). apply step_text; lia. Qed.
  Lemma grows_to_string f n : grows f n -> grows (encode_to_string c f) (1 + 6 * n).
  Proof.
    intros G b d b' d' e. unfold encode_to_string. destruct (f b d) as [o x [r|]|] eqn:E; [| |discriminate]; intros H; injection H as <- <- _.
    - apply (step_weak n); [eapply G, E|lia].
    - destruct (G _ _ _ _ _ E) as [L D]. split; [|lia]. pose proof (string_len (e_html c) o (skipn (length b) o)) as S.
      rewrite app_length. pose proof (firstn_le_length (length b) (do_encode_string (e_html c) o (skipn (length b) o))) as S1. rewrite skipn_length in *.
      pose proof (rate_mono (Z.to_nat d + n) (Z.to_nat d + (1 + 6 * n)) ltac:(lia)). pose proof (rate_six (Z.to_nat d + (1 + 6 * n))).
      set (R := rate (Z.to_nat d + (1 + 6 * n))) in *. nia.
  Qed.
  Lemma grows_mkey k : grows (encode_mkey c k) (key_units k).
  Proof.
    destruct k as [s|z|s [e|]|]; cbn [encode_mkey key_units].
    - apply grows_str. cbn. tauto.
    - apply grows_to_string, grows_int.
    - apply grows_err.
    - apply grows_str. cbn. tauto.
    - apply grows_null. lia.
  Qed.

  (** * Containers *)
  Lemma step_comma b d : step 1 b d (in_indent c (in_byte c (append_punc (e_clrs c) b 44) 10) d) d.
  Proof.
    apply (step_one b d _ _ (Z.to_nat d)); [|lia|lia].
    pose proof (indent_len (in_byte c (append_punc (e_clrs c) b 44) 10) d). pose proof (byte_len (append_punc (e_clrs c) b 44) 10). pose proof (punc_len b 44). lia.
  Qed.
  Lemma step_first b d : step 1 b d (in_indent c (in_byte c b 10) d) d.
  Proof.
    apply (step_one b d _ _ (Z.to_nat d)); [|lia|lia].
    pose proof (indent_len (in_byte c b 10) d). pose proof (byte_len b 10). lia.
  Qed.
  Lemma step_indent b d : step 1 b d (in_indent c b d) d.
  Proof. apply (step_one b d _ _ (Z.to_nat d)); [|lia|lia]. pose proof (indent_len b d). lia. Qed.
  Lemma step_colon b d : step 1 b d (in_byte c (append_punc (e_clrs c) b 58) 32) d.
  Proof.
    apply (step_one b d _ _ 0); [|lia|lia]. pose proof (byte_len (append_punc (e_clrs c) b 58) 32). pose proof (punc_len b 58). lia.
  Qed.
  Lemma step_open b d v : step 1 b d (append_punc (e_clrs c) b v) (in_push c d).
  Proof. apply (step_one b d _ _ 0); [|lia|apply push_le]. pose proof (punc_len b v). lia. Qed.
  Lemma step_open_nl b d v : step 1 b d (in_byte c (append_punc (e_clrs c) b v) 10) (in_push c d).
  Proof. apply (step_one b d _ _ 0); [|lia|apply push_le]. pose proof (punc_len b v). pose proof (byte_len (append_punc (e_clrs c) b v) 10). lia. Qed.
  Lemma step_open_nl' b d v : step 1 b d (in_byte c (append_punc (e_clrs c) b v) 10) d.
  Proof. apply (step_one b d _ _ 0); [|lia|lia]. pose proof (punc_len b v). pose proof (byte_len (append_punc (e_clrs c) b v) 10). lia. Qed.
  Lemma step_punc b d v : step 1 b d (append_punc (e_clrs c) b v) d.
  Proof. apply (step_one b d _ _ 0); [|lia|lia]. pose proof (punc_len b v). lia. Qed.
  Lemma step_close b d v : step 1 b d (append_punc (e_clrs c) (in_indent c (in_byte c b 10) (in_pop c d)) v) (in_pop c d).
  Proof.
    pose proof (pop_le d). apply (step_one b d _ _ (Z.to_nat (in_pop c d))); [|lia|lia].
    pose proof (punc_len (in_indent c (in_byte c b 10) (in_pop c d)) v). pose proof (indent_len (in_byte c b 10) (in_pop c d)). pose proof (byte_len b 10). lia.
  Qed.
  Lemma step_close' b d v : step 1 b d (append_punc (e_clrs c) (in_indent c b (in_pop c d)) v) (in_pop c d).
  Proof.
    pose proof (pop_le d). apply (step_one b d _ _ (Z.to_nat (in_pop c d))); [|lia|lia].
    pose proof (punc_len (in_indent c b (in_pop c d)) v). pose proof (indent_len b (in_pop c d)). lia.
  Qed.

  Lemma array_elems_grow fs ns : Forall2 grows fs ns -> forall first b d b' d' e, array_elems c first fs b d = ER b' d' e ->
    step (sum (map (fun n => 1 + n) ns)) b d b' d'.
  Proof.
    induction 1 as [|f n fs ns G F IH]; intros first b d b' d' e; cbn [array_elems map sum fold_right].
    - intros E. injection E as <- <- _. apply step_refl.
    - cbv zeta. match goal with |- context [f ?x d] => set (b1 := x) end.
      assert (S1 : step 1 b d b1 d) by (subst b1; destruct first; [apply step_first|apply step_comma]).
      destruct (f b1 d) as [o x [r|]|] eqn:E; [| |discriminate]; pose proof (G _ _ _ _ _ E) as S2; intros H.
      + injection H as <- <- _. apply (step_weak (1 + n)); [exact (step_trans _ _ _ _ _ _ _ _ S1 S2)|lia].
      + exact (step_trans _ _ _ _ _ _ _ _ (step_trans _ _ _ _ _ _ _ _ S1 S2) (IH _ _ _ _ _ _ H)).
  Qed.
  Lemma array_grows fs ns : Forall2 grows fs ns -> grows (encode_array c fs) (2 + sum (map (fun n => 1 + n) ns)).
  Proof.
    intros F b d b' d' e. unfold encode_array. cbv zeta. destruct fs as [|f fs].
    - intros H. injection H as <- <- _. inversion F; subst. cbn [map sum fold_right].
      exact (step_trans 1 1 _ _ _ _ _ _ (step_punc b d 91) (step_punc _ d 93)).
    - destruct (array_elems c true (f :: fs) _ _) as [o x [r|]|] eqn:E; [| |discriminate]; pose proof (array_elems_grow _ _ F _ _ _ _ _ _ E) as S;
        pose proof (step_trans _ _ _ _ _ _ _ _ (step_open b d 91) S) as S1; intros H; injection H as <- <- _.
      + apply (step_weak (1 + sum (map (fun n => 1 + n) ns))); [|lia]. apply step_cut; [exact S1|lia].
      + apply (step_weak ((1 + sum (map (fun n => 1 + n) ns)) + 1)); [|lia]. exact (step_trans _ _ _ _ _ _ _ _ S1 (step_close o x 93)).
  Qed.

  Definition grows2 (f : encf * encf) (n : nat * nat) : Prop := grows (fst f) (fst n) /\ grows (snd f) (snd n).
  Definition pairs (ns : list (nat * nat)) : nat := sum (map (fun n => 2 + fst n + snd n) ns).
  Lemma map_elems_grow fs ns : Forall2 grows2 fs ns -> forall first b d b' d' e, map_elems c first fs b d = ER b' d' e ->
    step (pairs ns) b d b' d'.
  Proof.
    induction 1 as [|[fk fv] [nk nv] fs ns [Gk Gv] F IH]; intros first b d b' d' e; cbn [map_elems pairs map sum fold_right fst snd] in *.
    - intros E. injection E as <- <- _. apply step_refl.
    - cbv zeta. match goal with |- context [fk ?x d] => set (b1 := x) end.
      assert (S1 : step 1 b d b1 d) by (subst b1; destruct first; [apply step_indent|apply step_comma]).
      fold (pairs ns) in *. change (fold_right Nat.add 0 (map (fun n => 2 + fst n + snd n) ns)) with (pairs ns).
      destruct (fk b1 d) as [o x [r|]|] eqn:E; [| |discriminate]; pose proof (Gk _ _ _ _ _ E) as S2;
        pose proof (step_trans _ _ _ _ _ _ _ _ S1 S2) as S3.
      + intros H. injection H as <- <- _. apply (step_weak (1 + nk)); [exact S3|lia].
      + match goal with |- context [fv ?y x] => set (b2 := y) end.
        pose proof (step_trans _ _ _ _ _ _ _ _ S3 (step_colon o x)) as S4. fold b2 in S4.
        destruct (fv b2 x) as [o2 x2 [r|]|] eqn:E2; [| |discriminate]; pose proof (Gv _ _ _ _ _ E2) as S5;
          pose proof (step_trans _ _ _ _ _ _ _ _ S4 S5) as S6; intros H.
        * injection H as <- <- _. apply (step_weak (1 + nk + 1 + nv)); [exact S6|lia].
        * apply (step_weak (1 + nk + 1 + nv + pairs ns)); [|lia]. exact (step_trans _ _ _ _ _ _ _ _ S6 (IH _ _ _ _ _ _ H)).
  Qed.
  Ltac maps F b d := intros b d b' d' e;
    match goal with |- ?g c _ b d = _ -> _ => unfold g | |- ?g c _ _ b d = _ -> _ => unfold g end; cbv zeta;
    match type of F with Forall2 _ ?fs _ => destruct fs as [|f fs'] end;
    [intros H; injection H as <- <- _; inversion F; subst; exact (step_trans 1 1 _ _ _ _ _ _ (step_punc b d 123) (step_punc _ d 125))|];
    destruct (map_elems c true _ _ _) as [o x r|] eqn:E; [|discriminate]; pose proof (map_elems_grow _ _ F _ _ _ _ _ _ E) as S;
    pose proof (step_trans _ _ _ _ _ _ _ _ (step_open_nl b d 123) S) as S1.
  Lemma map_grows cut fs ns : Forall2 grows2 fs ns -> grows (encode_map c cut fs) (2 + pairs ns).
  Proof.
    intros F. maps F b d. destruct r as [r|]; intros H; injection H as <- <- _.
    - apply (step_weak (1 + pairs ns)); [|lia]. destruct cut; [apply step_cut; [exact S1|lia]|exact S1].
    - apply (step_weak (1 + pairs ns + 1)); [|lia]. exact (step_trans _ _ _ _ _ _ _ _ S1 (step_close o x 125)).
  Qed.
  Lemma map_break_grows fs ns : Forall2 grows2 fs ns -> grows (encode_map_break c fs) (2 + pairs ns).
  Proof.
    intros F. maps F b d. destruct r as [r|]; intros H; injection H as <- <- _.
    - apply (step_weak (1 + pairs ns)); [|lia]. apply step_cut; [|lia]. eapply step_depth; [exact S1|apply pop_le].
    - apply (step_weak (1 + pairs ns + 1)); [|lia]. exact (step_trans _ _ _ _ _ _ _ _ S1 (step_close o x 125)).
  Qed.
  Lemma map_swallow_grows fs ns : Forall2 grows2 fs ns -> grows (encode_map_swallow c fs) (2 + pairs ns).
  Proof.
    intros F. maps F b d. intros H; injection H as <- <- _.
    apply (step_weak (1 + pairs ns + 1)); [|lia]. exact (step_trans _ _ _ _ _ _ _ _ S1 (step_close o x 125)).
  Qed.

  (** Structs. *)
  Definition fields (ns : list (fhead * nat)) : nat := sum (map (fun hn => 2 + text (f_name (fst hn)) + snd hn) ns).
  Lemma key_step h b d : step (1 + text (f_name h)) b d
    (in_byte c (append_punc (e_clrs c) (match e_clrs c with
       | None => b ++ (if e_html c then f_html h else f_json h)
       | Some cl => ((b ++ c_key cl) ++ (if e_html c then f_html h else f_json h)) ++ ansi_reset end) 58) 32) d.
  Proof.
    rewrite Nat.add_comm. eapply step_trans; [|apply step_colon]. unfold text, f_html, f_json.
    pose proof (string_len true [] (f_name h)). pose proof (string_len false [] (f_name h)). cbn [length] in *.
    destruct (e_clrs c) as [k|] eqn:E.
    - color c_key k E. apply step_text; [|lia]. unfold ansi_reset. rewrite !app_length. cbn [length]. destruct (e_html c); lia.
    - apply step_plain. rewrite app_length. destruct (e_html c); lia.
  Qed.
  Lemma struct_fields_grow fs : forall ns, Forall2 (fun p q => fst p = fst q /\ grows (snd p) (snd q)) fs ns ->
    forall n b d b' d' e m, struct_fields c n fs b d = (ER b' d' e, m) -> step (fields ns) b d b' d'.
  Proof.
    intros ns. induction 1 as [|[h f] [h' k] fs ns [Eh G] F IH]; intros n b d b' d' e m; cbn [struct_fields fst snd] in *.
    - intros E. injection E as <- <- _ _. apply step_refl.
    - subst h'. unfold fields. cbn [map sum fold_right fst snd]. change (fold_right Nat.add 0 (map _ ns)) with (fields ns).
      destruct (f_omitempty h && f_empty h)%bool.
      { intros H. apply IH in H. apply (step_weak (fields ns)); [exact H|lia]. }
      cbv zeta. set (b0 := if Nat.eqb n 0 then b else _).
      assert (S0 : step 1 b d (in_indent c b0 d) d) by (subst b0; destruct (Nat.eqb n 0); [apply step_indent|apply step_comma]).
      assert (S00 : step 1 b d b0 d).
      { subst b0; destruct (Nat.eqb n 0); [apply (step_weak 0); [apply step_refl|lia]|apply step_open_nl']. }
      match goal with |- context [f ?x d] => set (b1 := x) end.
      pose proof (step_trans _ _ _ _ _ _ _ _ S0 (key_step h (in_indent c b0 d) d)) as S1. fold b1 in S1.
      destruct (f b1 d) as [o x [r|]|] eqn:E; [| |discriminate]; pose proof (step_trans _ _ _ _ _ _ _ _ S1 (G _ _ _ _ _ E)) as S2; intros H.
      + assert (K : step (1 + (1 + text (f_name h)) + k) b d (firstn (length b0) o) x).
        { destruct S2 as [L2 D2]. destruct S00 as [L0 _]. split; [|exact D2].
          pose proof (firstn_le_length (length b0) o).
          pose proof (rate_mono (Z.to_nat d + 1) (Z.to_nat d + (1 + (1 + text (f_name h)) + k)) ltac:(lia)). nia. }
        assert (FIN : (ER o x (Some r), n) = (ER b' d' e, m) -> step (2 + text (f_name h) + k + fields ns) b d b' d').
        { intros X. injection X as <- <- _ _. apply (step_weak _ _ _ _ _ _ S2). lia. }
        assert (ROL : struct_fields c n fs (firstn (length b0) o) x = (ER b' d' e, m) -> step (2 + text (f_name h) + k + fields ns) b d b' d').
        { intros X. apply IH in X. apply (step_weak _ _ _ _ _ _ (step_trans _ _ _ _ _ _ _ _ K X)). lia. }
        destruct r; first [exact (ROL H)|exact (FIN H)].
      + apply IH in H. apply (step_weak _ _ _ _ _ _ (step_trans _ _ _ _ _ _ _ _ S2 H)). lia.
  Qed.
  Lemma struct_grows fs ns : Forall2 (fun p q => fst p = fst q /\ grows (snd p) (snd q)) fs ns -> grows (encode_struct c fs) (2 + fields ns).
  Proof.
    intros F b d b' d' e. unfold encode_struct. cbv zeta.
    set (b0 := match fs with [] => _ | _ => _ end).
    assert (S0 : step 1 b d b0 (in_push c d)) by (subst b0; destruct fs; [apply step_open|apply step_open_nl]).
    destruct (struct_fields c 0 fs b0 (in_push c d)) as [[o x [r|]|] m] eqn:E; [| |discriminate];
      pose proof (step_trans _ _ _ _ _ _ _ _ S0 (struct_fields_grow _ _ F _ _ _ _ _ _ _ E)) as S1; intros H; injection H as <- <- _.
    - apply (step_weak (1 + fields ns)); [|lia]. apply step_cut; [exact S1|lia].
    - apply (step_weak (1 + fields ns + 1)); [|lia]. refine (step_trans _ _ _ _ _ _ _ _ S1 _).
      destruct (Nat.eqb m 0); [apply step_close'|apply step_close].
  Qed.

  (** * Raw messages *)
  Lemma scalar_step b d v k : 1 <= length v -> step (length v) b d (raw_scalar c b v k) d.
  Proof.
    intros V. unfold raw_scalar, append_compact_escape_html. destruct (e_clrs c) as [cl|] eqn:E.
    - color c_key cl E. color c_string cl E. color c_number cl E. color c_bool cl E. color c_null cl E.
      match goal with |- context [b ++ ?x] => set (co := x) end.
      assert (4 + length co <= tint (e_clrs c)).
      { subst co. rewrite E in *. repeat match goal with |- context [if ?x then _ else _] => destruct x end; try assumption. cbn [length]. lia. }
      clearbody co. pose proof (compact_len v (b ++ co) [] false false 0) as L. rewrite app_length in L. cbn [length] in L.
      apply step_text; [|exact V]. unfold ansi_reset. rewrite app_length. cbn [length].
      destruct (_ && _)%bool; [lia|]. rewrite !app_length. lia.
    - pose proof (compact_len v b [] false false 0) as L. cbn [length] in L. apply step_plain.
      destruct (_ && _)%bool; [lia|]. rewrite app_length. lia.
  Qed.
  Lemma prefix_step b d st k : step 1 b d (fst (raw_prefix c b d st k)) d.
  Proof.
    unfold raw_prefix. destruct st as [|[o n] st]; [apply (step_weak 0); [apply step_refl|lia]|].
    destruct (o && negb k)%bool; [apply (step_weak 0); [apply step_refl|lia]|]. cbn [fst].
    destruct (Nat.eqb n 0); [apply step_first|apply step_comma].
  Qed.
  Lemma raw_loop_grow n : forall t st b d b' d' e, wf (t_json t) -> raw_loop n c t st b d = RawDone b' d' e ->
    step (2 * length (t_json t)) b d b' d'.
  Proof.
    induction n as [|n IH]; intros t st b d b' d' e W; cbn [raw_loop]; [discriminate|].
    destruct (tok_next t) as [[t1 []]|] eqn:E; [| |discriminate].
    2:{ intros H. injection H as <- <- _. apply (step_weak 0); [apply step_refl|lia]. }
    destruct (tok_next_sound t t1 W E) as (w & _ & Ej & _ & _ & K).
    assert (V : 1 <= length (t_value t1)).
    { assert (t_value t1 <> []) by (destruct K as [[_ K]|[_ ->]]; [apply lit_token_nonempty, K|discriminate]).
      destruct (t_value t1); [congruence|cbn; lia]. }
    rewrite Ej in W |- *. apply wf_app in W. destruct W as [_ W]. apply wf_app in W. destruct W as [_ W].
    rewrite !app_length. cbv zeta.
    assert (GO : forall b1 d1 k st1, step k b d b1 d1 -> k <= 2 * length (t_value t1) -> raw_loop n c t1 st1 b1 d1 = RawDone b' d' e ->
      step (2 * (length w + (length (t_value t1) + length (t_json t1)))) b d b' d').
    { intros b1 d1 k st1 S L H. apply IH in H; [|exact W]. apply (step_weak _ _ _ _ _ _ (step_trans _ _ _ _ _ _ _ _ S H)). lia. }
    destruct (t_delim t1 =? 58)%Z. { apply (GO _ _ 1); [apply step_colon|lia]. }
    destruct (t_delim t1 =? 44)%Z. { apply (GO _ _ 0); [apply step_refl|lia]. }
    destruct ((t_delim t1 =? 125) || (t_delim t1 =? 93))%Z%bool.
    { apply (GO _ _ 1); [|lia]. destruct (match st with [] => false | _ => _ end); [apply step_close|].
      eapply step_depth; [apply step_punc|apply pop_le]. }
    pose proof (prefix_step b d st ((t_delim t1 =? 0)%Z && t_IsKey t1)) as SP.
    destruct (raw_prefix c b d st _) as [b1 st1]. cbn [fst] in SP.
    destruct ((t_delim t1 =? 123) || (t_delim t1 =? 91))%Z%bool.
    - apply (GO _ _ (1 + 1)); [exact (step_trans _ _ _ _ _ _ _ _ SP (step_open _ _ _))|lia].
    - apply (GO _ _ (1 + length (t_value t1))); [exact (step_trans _ _ _ _ _ _ _ _ SP (scalar_step _ _ _ _ V))|lia].
  Qed.
  Lemma raw_tokens_grow s b d b' d' e : wf s -> append_raw_tokens c b s d = ER b' d' e -> step (2 * length s) b d b' d'.
  Proof.
    intros W. unfold append_raw_tokens. destruct (raw_loop _ _ _ _ _ _) as [o x [r|]| |] eqn:E; [| |discriminate|];
      try (pose proof (raw_loop_grow _ (new_tokenizer s) _ _ _ _ _ _ W E) as S; cbn [t_json new_tokenizer] in S); intros H; injection H as <- <- _.
    - apply step_cut; [exact S|lia].
    - exact S.
    - apply (step_weak 0); [apply step_refl|lia].
  Qed.
  Hypothesis NT : e_trust c = false \/ active (e_ind c) = None.
  Lemma verbatim_len s b d : e_trust c = true -> length (append_raw_verbatim c b s d) <= length b + 6 * length s.
  Proof.
    intros T. destruct NT as [N|N]; [congruence|]. unfold append_raw_verbatim.
    assert (match e_ind c with None => true | Some i => i_disabled i end = true) as ->
      by (unfold active in N; destruct (e_ind c) as [i|]; [destruct (i_disabled i); [reflexivity|discriminate]|reflexivity]).
    pose proof (compact_len s b [] false false 0) as L. cbn [length] in L.
    destruct (e_html c); [unfold append_compact_escape_html; lia|rewrite app_length; lia].
  Qed.
  Lemma raw_go_grow s b d b' d' e : wf s ->
    match append_raw_tokens c b s d with
    | ER b d (Some e) => if e_trust c then ER (append_raw_verbatim c b s d) d None else ER b d (Some e)
    | r => r
    end = ER b' d' e -> step (2 * length s) b d b' d'.
  Proof.
    intros W. destruct (append_raw_tokens c b s d) as [o x [r|]|] eqn:E; [| |discriminate].
    - pose proof (raw_tokens_grow _ _ _ _ _ _ W E) as S1.
      assert (C : length o <= length b).
      { unfold append_raw_tokens in E. destruct (raw_loop _ _ _ _ _ _) as [o1 x1 [r1|]| |] eqn:E1; try discriminate; injection E as <- <- _.
        - apply firstn_le_length.
        - lia. }
      pose proof (verbatim_len s o x) as L. clear NT. destruct (e_trust c) eqn:T; intros H; injection H as <- <- _; [|exact S1].
      destruct S1 as [_ D1]. split; [|exact D1].
      specialize (L eq_refl). pose proof (rate_six (Z.to_nat d + 2 * length s)). nia.
    - intros H. injection H as <- <- _. exact (raw_tokens_grow _ _ _ _ _ _ W E).
  Qed.
  Lemma raw_grows v : byte_opt v -> grows (encode_raw c v) (message v).
  Proof.
    intros W b d b' d' e. unfold encode_raw. destruct v as [v|]; cbn [byte_opt message] in *; [|apply grows_null; lia].
    cbv zeta. assert (G := fun s => raw_go_grow s b d b' d' e). clear NT. destruct (e_trust c) eqn:T.
    - apply G, W.
    - destruct (parseValue v) as [s r|] eqn:P; [|intros H; injection H as <- <- _; apply (step_weak 0); [apply step_refl|lia]].
      destruct (parseValue_sound _ _ _ W P) as [-> _]. apply wf_app in W. intros H. apply G in H; [|apply W].
      apply (step_weak _ _ _ _ _ _ H). rewrite app_length. lia.
  Qed.
End size.
