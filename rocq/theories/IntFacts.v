(** Lemmas about integer parsing and formatting. *)
From Verif Require Import Bytes ParseModel IntModel SpecJson ParseFacts.

(** Independent meaning of a decimal digit string. *)
Definition dec_from (v : Z) (ds : bytes) : Z := fold_left (fun a d => a * 10 + (d - 48)) ds v.
Definition dec (ds : bytes) : Z := dec_from 0 ds.
(** [int_text s z]: [s] is a JSON integer literal (no fraction, no exponent) of value [z]. *)
Inductive int_text : bytes -> Z -> Prop :=
| it_pos ds : int_lit ds -> int_text ds (dec ds)
| it_neg ds : int_lit ds -> int_text (45 :: ds) (- dec ds).

Lemma dec_from_mono v ds : Forall digit ds -> 0 <= v -> v <= dec_from v ds.
Proof.
  intros H. revert v. induction H as [|d ds Hd H IH]; intros v Hv; cbn [dec_from fold_left]; [lia|].
  unfold digit in Hd. unfold dec_from in IH. specialize (IH (v * 10 + (d - 48))). lia.
Qed.
Lemma dec_from_cons v d ds : dec_from v (d :: ds) = dec_from (v * 10 + (d - 48)) ds.
Proof. reflexivity. Qed.
Lemma dec_from_app v a b : dec_from v (a ++ b) = dec_from (dec_from v a) b.
Proof. apply fold_left_app. Qed.

Lemma gtb_true a b : (a >? b) = true <-> b < a.
Proof. rewrite Z.gtb_ltb. apply Z.ltb_lt. Qed.
Lemma gtb_false a b : (a >? b) = false <-> a <= b.
Proof. rewrite Z.gtb_ltb. apply Z.ltb_ge. Qed.

Lemma sw64_id z : minI64 <= z <= maxI64 -> sw64 z = z.
Proof.
  unfold sw64, minI64, maxI64. intros H.
  change (2 ^ 63) with 9223372036854775808 in *. change (2 ^ 64) with 18446744073709551616.
  rewrite Z.mod_small; lia.
Qed.
Lemma wrap64_id z : 0 <= z <= maxU64 -> wrap64 z = z.
Proof. unfold wrap64, maxU64. intros H. apply Z.mod_small. lia. Qed.

Ltac bigz :=
  change (Z.quot minI64 10) with (-922337203685477580) in *;
  change (Z.quot maxI64 10) with 922337203685477580 in *;
  change (maxU64 / 10) with 1844674407370955161 in *;
  change minI64 with (-9223372036854775808) in *;
  change maxI64 with 9223372036854775807 in *;
  change maxU64 with 18446744073709551615 in *.

Lemma loop_stop (v : Z) (c : nat) (r : bytes) : (0 < c)%nat -> ndig r ->
  pos_loop v c r = LOk v c /\ neg_loop v c r = LOk v c /\ uint_loop v c r = LOk v c.
Proof.
  intros Hc Hr. destruct r as [|d r]; [auto|]. cbn in Hr. cbn [pos_loop neg_loop uint_loop]. rewrite Hr.
  destruct c; [lia|]. auto.
Qed.

Lemma pos_loop_spec ds r : Forall digit ds -> ndig r -> forall v c, 0 <= v <= maxI64 ->
  (0 < c)%nat \/ ds <> [] ->
  pos_loop v c (ds ++ r) = if dec_from v ds <=? maxI64 then LOk (dec_from v ds) (c + length ds) else LOverflow.
Proof.
  intros H Hr. induction H as [|d ds Hd H IH]; intros v c Hv Hc.
  - destruct Hc as [Hc|Hc]; [|congruence]. cbn [app length]. rewrite Nat.add_0_r.
    destruct (loop_stop v c r Hc Hr) as [-> _]. unfold dec_from. cbn [fold_left].
    destruct (v <=? maxI64) eqn:E; [reflexivity|zb; lia].
  - rewrite dec_from_cons. cbn [app pos_loop]. assert (Hd' := Hd). apply is_digit_iff in Hd'. rewrite Hd'. cbn [negb].
    unfold digit in Hd.
    destruct (v >? Z.quot maxI64 10) eqn:E1.
    + apply gtb_true in E1. bigz.
      destruct (dec_from (v * 10 + (d - 48)) ds <=? 9223372036854775807) eqn:E; [|reflexivity].
      assert (M := dec_from_mono (v * 10 + (d - 48)) ds H). zb. lia.
    + apply gtb_false in E1. bigz.
      rewrite (sw64_id (v * 10)) by (bigz; lia). rewrite (sw64_id (9223372036854775807 - _)) by (bigz; lia).
      destruct (v * 10 >? 9223372036854775807 - (d - 48)) eqn:E2.
      * apply gtb_true in E2.
        destruct (dec_from (v * 10 + (d - 48)) ds <=? 9223372036854775807) eqn:E; [|reflexivity].
        assert (M := dec_from_mono (v * 10 + (d - 48)) ds H). zb. lia.
      * apply gtb_false in E2. rewrite sw64_id by (bigz; lia). rewrite IH by (try lia; left; lia).
        cbn [length]. rewrite Nat.add_succ_r. reflexivity.
Qed.
Lemma uint_loop_spec ds r : Forall digit ds -> ndig r -> forall v c, 0 <= v <= maxU64 ->
  (0 < c)%nat \/ ds <> [] ->
  uint_loop v c (ds ++ r) = if dec_from v ds <=? maxU64 then LOk (dec_from v ds) (c + length ds) else LOverflow.
Proof.
  intros H Hr. induction H as [|d ds Hd H IH]; intros v c Hv Hc.
  - destruct Hc as [Hc|Hc]; [|congruence]. cbn [app length]. rewrite Nat.add_0_r.
    destruct (loop_stop v c r Hc Hr) as (_ & _ & ->). unfold dec_from. cbn [fold_left].
    destruct (v <=? maxU64) eqn:E; [reflexivity|zb; lia].
  - rewrite dec_from_cons. cbn [app uint_loop]. assert (Hd' := Hd). apply is_digit_iff in Hd'. rewrite Hd'. cbn [negb].
    unfold digit in Hd.
    destruct (v >? maxU64 / 10) eqn:E1.
    + apply gtb_true in E1. bigz.
      destruct (dec_from (v * 10 + (d - 48)) ds <=? 18446744073709551615) eqn:E; [|reflexivity].
      assert (M := dec_from_mono (v * 10 + (d - 48)) ds H). zb. lia.
    + apply gtb_false in E1. bigz.
      rewrite (wrap64_id (v * 10)) by (bigz; lia). rewrite (wrap64_id (18446744073709551615 - _)) by (bigz; lia).
      destruct (v * 10 >? 18446744073709551615 - (d - 48)) eqn:E2.
      * apply gtb_true in E2.
        destruct (dec_from (v * 10 + (d - 48)) ds <=? 18446744073709551615) eqn:E; [|reflexivity].
        assert (M := dec_from_mono (v * 10 + (d - 48)) ds H). zb. lia.
      * apply gtb_false in E2. rewrite wrap64_id by (bigz; lia). rewrite IH by (try lia; left; lia).
        cbn [length]. rewrite Nat.add_succ_r. reflexivity.
Qed.
Lemma neg_loop_spec ds r : Forall digit ds -> ndig r -> forall v c, 0 <= v <= - minI64 ->
  (0 < c)%nat \/ ds <> [] ->
  neg_loop (- v) c (ds ++ r) = if dec_from v ds <=? - minI64 then LOk (- dec_from v ds) (c + length ds) else LOverflow.
Proof.
  intros H Hr. induction H as [|d ds Hd H IH]; intros v c Hv Hc.
  - destruct Hc as [Hc|Hc]; [|congruence]. cbn [app length]. rewrite Nat.add_0_r.
    destruct (loop_stop (- v) c r Hc Hr) as (_ & -> & _). unfold dec_from. cbn [fold_left].
    destruct (v <=? - minI64) eqn:E; [reflexivity|zb; lia].
  - rewrite dec_from_cons. cbn [app neg_loop]. assert (Hd' := Hd). apply is_digit_iff in Hd'. rewrite Hd'. cbn [negb].
    unfold digit in Hd.
    destruct (- v <? Z.quot minI64 10) eqn:E1.
    + bigz.
      destruct (dec_from (v * 10 + (d - 48)) ds <=? - -9223372036854775808) eqn:E; [|reflexivity].
      assert (M := dec_from_mono (v * 10 + (d - 48)) ds H). zb. lia.
    + bigz. zb.
      rewrite (sw64_id (- v * 10)) by (bigz; lia). rewrite (sw64_id (-9223372036854775808 + _)) by (bigz; lia).
      destruct (- v * 10 <? -9223372036854775808 + (d - 48)) eqn:E2.
      * destruct (dec_from (v * 10 + (d - 48)) ds <=? - -9223372036854775808) eqn:E; [|reflexivity].
        assert (M := dec_from_mono (v * 10 + (d - 48)) ds H). zb. lia.
      * zb. rewrite sw64_id by (bigz; lia). replace (- v * 10 - (d - 48)) with (- (v * 10 + (d - 48))) by lia.
        rewrite IH by (try lia; left; lia).
        cbn [length]. rewrite Nat.add_succ_r. reflexivity.
Qed.

Lemma int_lit_digits s : int_lit s -> s <> [] /\ Forall digit s.
Proof.
  intros [|d ds Hd H]; split; try discriminate; constructor; auto; unfold digit; lia || auto.
Qed.
Lemma int_lit_no_leading_zero s r : int_lit s -> ndig r -> leading_zero (s ++ r) = false.
Proof.
  intros [|d ds Hd H] Hr.
  - cbn. destruct r as [|x r]; [reflexivity|]. cbn in Hr |- *. rewrite Hr. reflexivity.
  - cbn. assert (E : (d =? 48) = false) by (apply Z.eqb_neq; lia). destruct (ds ++ r); [reflexivity|]. rewrite E. reflexivity.
Qed.
Lemma int_finish_stop p r v : num_stop r -> int_finish (p ++ r) v (length p) = IOk v r.
Proof.
  intros Hr. unfold int_finish. rewrite skipn_app_len by reflexivity. destruct r as [|c r]; [reflexivity|].
  cbn in Hr. unfold num_cont in Hr. zb.
  destruct ((c =? 46) || (c =? 101) || (c =? 69)) eqn:E; [|reflexivity].
  zb. destruct E as [E|E]; zb; [destruct E|]; zb; lia.
Qed.

Lemma parse_int_text s z r : int_text s z -> num_stop r ->
  parse_int (s ++ r) = if (minI64 <=? z) && (z <=? maxI64) then IOk z r else IErr (s ++ r) EType.
Proof.
  intros H Hr. assert (Hr' := num_stop_ndig r Hr). destruct H as [ds H|ds H].
  - assert (Hd := int_lit_digits ds H). destruct Hd as [Hne Hd].
    assert (E0 : exists c t, ds ++ r = c :: t /\ (c =? 45) = false).
    { destruct H as [|d ds Hd']; [exists 48, r|exists d, (ds ++ r)]; split; try reflexivity. apply Z.eqb_neq; lia. }
    destruct E0 as (c & t & E0 & E45). unfold parse_int. rewrite E0, E45, <- E0.
    rewrite int_lit_no_leading_zero by assumption.
    rewrite pos_loop_spec by (auto; bigz; lia).
    change (dec_from 0 ds) with (dec ds).
    assert (M : 0 <= dec ds) by (apply dec_from_mono; [exact Hd|lia]).
    replace (minI64 <=? dec ds) with true by (symmetry; apply Z.leb_le; bigz; lia). cbn [andb].
    destruct (dec ds <=? maxI64); [|reflexivity]. apply int_finish_stop, Hr.
  - assert (Hd := int_lit_digits ds H). destruct Hd as [Hne Hd].
    cbn [app]. unfold parse_int. change (45 =? 45) with true. cbv iota.
    destruct (ds ++ r) as [|c t] eqn:E; [destruct ds; [congruence|discriminate]|]. rewrite <- E.
    rewrite int_lit_no_leading_zero by assumption.
    replace (neg_loop 0 0 (ds ++ r)) with (neg_loop (- 0) 0 (ds ++ r)) by reflexivity.
    rewrite neg_loop_spec by (auto; bigz; lia).
    change (dec_from 0 ds) with (dec ds).
    assert (M : 0 <= dec ds) by (apply dec_from_mono; [exact Hd|lia]).
    replace (- dec ds <=? maxI64) with true by (symmetry; apply Z.leb_le; bigz; lia). rewrite andb_true_r.
    replace (minI64 <=? - dec ds) with (dec ds <=? - minI64) by (apply eq_true_iff_eq; rewrite !Z.leb_le; bigz; lia).
    destruct (dec ds <=? - minI64); [|reflexivity].
    change (45 :: ds ++ r) with ((45 :: ds) ++ r). change (S (0 + length ds)) with (length (45 :: ds)).
    apply int_finish_stop, Hr.
Qed.
Lemma parse_uint_text s r : int_lit s -> num_stop r ->
  parse_uint (s ++ r) = if dec s <=? maxU64 then IOk (dec s) r else IErr (s ++ r) EType.
Proof.
  intros H Hr. assert (Hr' := num_stop_ndig r Hr). destruct (int_lit_digits s H) as [Hne Hd].
  unfold parse_uint. destruct (s ++ r) as [|c t] eqn:E; [destruct s; [congruence|discriminate]|]. rewrite <- E.
  rewrite int_lit_no_leading_zero by assumption.
  rewrite uint_loop_spec by (auto; bigz; lia). change (dec_from 0 s) with (dec s).
  destruct (dec s <=? maxU64); [|reflexivity]. apply int_finish_stop, Hr.
Qed.
Lemma parse_uint_neg s r : wf (s ++ r) -> int_lit s -> num_stop r ->
  exists r' e, parse_uint (45 :: s ++ r) = IErr r' e.
Proof.
  intros Hw H Hr. unfold parse_uint.
  assert (E : leading_zero (45 :: s ++ r) = false) by (cbn; destruct (s ++ r); reflexivity). rewrite E.
  cbn [uint_loop]. change (is_digit 45) with false. cbn [negb Nat.eqb].
  destruct (input_error (45 :: s ++ r)). eauto.
Qed.

(** Converse: what the integer parsers accept. *)
Lemma leading_zero_int_lit ds r : ds <> [] -> Forall digit ds -> leading_zero (ds ++ r) = false -> int_lit ds.
Proof.
  intros Hne Hd H. destruct ds as [|d ds]; [congruence|]. inversion Hd; subst.
  destruct (Z.eq_dec d 48) as [->|N].
  - destruct ds as [|d2 ds]; [constructor|]. cbn in H. inversion H3; subst.
    apply is_digit_iff in H4. rewrite H4 in H. discriminate.
  - constructor; auto. unfold digit in *. lia.
Qed.
Lemma int_finish_inv p r v v' r' : ndig r -> int_finish (p ++ r) v (length p) = IOk v' r' ->
  v' = v /\ r' = r /\ num_stop r.
Proof.
  unfold int_finish. rewrite skipn_app_len by reflexivity. destruct r as [|c r].
  - intros _ H. injection H as <- <-. repeat split.
  - cbn [ndig num_stop]. intros Hn. destruct (_ || _) eqn:E; [destruct (parse_number _); discriminate|].
    intros H. injection H as <- <-. repeat split. unfold num_cont. rewrite Hn. exact E.
Qed.
Lemma loop_no_digit v r : ndig r -> r <> [] ->
  pos_loop v 0 r = LInput /\ neg_loop v 0 r = LInput /\ uint_loop v 0 r = LInput.
Proof.
  destruct r as [|d r]; [congruence|]. cbn [ndig pos_loop neg_loop uint_loop]. intros -> _. auto.
Qed.

Lemma parse_int_inv b z r : parse_int b = IOk z r ->
  exists s, b = s ++ r /\ num_stop r /\ int_text s z /\ minI64 <= z <= maxI64.
Proof.
  unfold parse_int. destruct b as [|c b1]; [discriminate|]. destruct (c =? 45) eqn:E45.
  - zb; subst c. destruct b1 as [|d b1']; [discriminate|].
    assert (Hne1 : d :: b1' <> []) by discriminate. set (b1 := d :: b1') in *. clearbody b1.
    destruct (leading_zero b1) eqn:Elz; [discriminate|].
    destruct (skip_digits_split b1) as (ds & Hds & E & Hn).
    remember (skip_digits b1) as q eqn:Eq. clear Eq. subst b1.
    destruct ds as [|d0 ds0].
    { destruct (loop_no_digit 0 q Hn Hne1) as (_ & L & _). cbn [app]. rewrite L.
      destruct (input_error _). discriminate. }
    set (ds := d0 :: ds0) in *. assert (Hne : ds <> []) by discriminate. clearbody ds.
    replace (neg_loop 0 0 (ds ++ q)) with (neg_loop (- 0) 0 (ds ++ q)) by reflexivity.
    rewrite neg_loop_spec by (auto; bigz; lia).
    destruct (dec_from 0 ds <=? - minI64) eqn:El; [|discriminate].
    change (45 :: ds ++ q) with ((45 :: ds) ++ q).
    change (S (0 + length ds)) with (length (45 :: ds)). intros H.
    apply int_finish_inv in H; [|exact Hn]. destruct H as (-> & -> & Hstop).
    exists (45 :: ds). split; [reflexivity|]. split; [exact Hstop|]. split.
    + apply it_neg. eapply leading_zero_int_lit; eauto.
    + assert (M := dec_from_mono 0 ds Hds). zb. bigz. lia.
  - assert (Hne1 : c :: b1 <> []) by discriminate. set (b := c :: b1) in *. clearbody b.
    destruct (leading_zero b) eqn:Elz; [discriminate|].
    destruct (skip_digits_split b) as (ds & Hds & E & Hn).
    remember (skip_digits b) as q eqn:Eq. clear Eq. subst b.
    destruct ds as [|d0 ds0].
    { destruct (loop_no_digit 0 q Hn Hne1) as (L & _ & _). cbn [app]. rewrite L.
      destruct (input_error _). discriminate. }
    set (ds := d0 :: ds0) in *. assert (Hne : ds <> []) by discriminate. clearbody ds.
    rewrite pos_loop_spec by (auto; bigz; lia).
    destruct (dec_from 0 ds <=? maxI64) eqn:El; [|discriminate].
    change (0 + length ds)%nat with (length ds). intros H.
    apply int_finish_inv in H; [|exact Hn]. destruct H as (-> & -> & Hstop).
    exists ds. split; [reflexivity|]. split; [exact Hstop|]. split.
    + apply it_pos. eapply leading_zero_int_lit; eauto.
    + assert (M := dec_from_mono 0 ds Hds). zb. bigz. lia.
Qed.
Lemma parse_uint_inv b z r : parse_uint b = IOk z r ->
  exists s, b = s ++ r /\ num_stop r /\ int_lit s /\ z = dec s /\ 0 <= z <= maxU64.
Proof.
  unfold parse_uint. destruct b as [|c b1]; [discriminate|].
  assert (Hne1 : c :: b1 <> []) by discriminate. set (b := c :: b1) in *. clearbody b.
  destruct (leading_zero b) eqn:Elz; [discriminate|].
  destruct (skip_digits_split b) as (ds & Hds & E & Hn).
  remember (skip_digits b) as q eqn:Eq. clear Eq. subst b.
  destruct ds as [|d0 ds0].
  { destruct (loop_no_digit 0 q Hn Hne1) as (_ & _ & L). cbn [app]. rewrite L.
    destruct (input_error _). discriminate. }
  set (ds := d0 :: ds0) in *. assert (Hne : ds <> []) by discriminate. clearbody ds.
  rewrite uint_loop_spec by (auto; bigz; lia).
  destruct (dec_from 0 ds <=? maxU64) eqn:El; [|discriminate].
  change (0 + length ds)%nat with (length ds). intros H.
  apply int_finish_inv in H; [|exact Hn]. destruct H as (-> & -> & Hstop).
  exists ds. split; [reflexivity|]. split; [exact Hstop|]. split; [eapply leading_zero_int_lit; eauto|]. split; [reflexivity|].
  assert (M := dec_from_mono 0 ds Hds). zb. bigz. lia.
Qed.

(** * Typed integer decoding *)
Lemma int_text_head s z : int_text s z -> exists c t, s = c :: t /\ (c = 45 \/ 48 <= c <= 57).
Proof.
  intros [ds H|ds H]; [|eauto]. destruct H; eexists _, _; split; try reflexivity; lia.
Qed.
Lemma int_text_not_null s z r : int_text s z -> has_null_prefix (s ++ r) = false.
Proof.
  intros H. destruct (int_text_head s z H) as (c & t & -> & Hc). unfold has_null_prefix, lit_null.
  cbn [app has_prefix]. replace (110 =? c) with false by (symmetry; apply Z.eqb_neq; lia). reflexivity.
Qed.

Lemma out_of_range_iff t v : (if signed t then minI64 <= v <= maxI64 else 0 <= v <= maxU64) ->
  (out_of_range t v = false <-> ity_lo t <= v <= ity_hi t).
Proof.
  intros H. destruct t; cbn [signed] in H; cbn [out_of_range ity_lo ity_hi];
    rewrite ?orb_false_iff, ?gtb_false, ?Z.ltb_ge; bigz;
    change (2 ^ 7) with 128; change (2 ^ 15) with 32768; change (2 ^ 31) with 2147483648;
    change (2 ^ 63) with 9223372036854775808; change (2 ^ 8) with 256; change (2 ^ 16) with 65536;
    change (2 ^ 32) with 4294967296; change (2 ^ 64) with 18446744073709551616; split; intros; try lia; reflexivity.
Qed.

Lemma ity_bounds t : ity_lo t <= 0 <= ity_hi t /\
  (signed t = true -> minI64 <= ity_lo t /\ ity_hi t <= maxI64) /\
  (signed t = false -> ity_lo t = 0 /\ ity_hi t <= maxU64).
Proof. destruct t; cbn; unfold minI64, maxI64, maxU64; lia. Qed.

Lemma int_text_nonneg s z : int_text s z -> (exists t, s = 45 :: t) \/ (int_lit s /\ z = dec s /\ 0 <= z).
Proof.
  intros [ds H|ds H]; [right|left; eauto]. split; [exact H|]. split; [reflexivity|].
  apply dec_from_mono; [apply int_lit_digits, H|lia].
Qed.

(** The literal is in range: the integer is stored.  (An unsigned target does
    not accept a sign, not even in "-0".) *)
Lemma decode_int_in_range t s z r cur : int_text s z -> num_stop r ->
  signed t = true \/ (forall s', s <> 45 :: s') ->
  ity_lo t <= z <= ity_hi t ->
  decode_int t (s ++ r) cur = DR r None z.
Proof.
  intros Ht Hr Hs Hz. unfold decode_int. rewrite (int_text_not_null s z) by exact Ht.
  destruct (ity_bounds t) as (B0 & B1 & B2).
  destruct (signed t) eqn:Es.
  - specialize (B1 eq_refl). rewrite (parse_int_text s z) by assumption.
    replace ((minI64 <=? z) && (z <=? maxI64)) with true
      by (symmetry; apply andb_true_iff; rewrite !Z.leb_le; lia).
    replace (out_of_range t z) with false; [reflexivity|].
    symmetry. apply out_of_range_iff; [rewrite Es; lia|exact Hz].
  - specialize (B2 eq_refl). destruct Hs as [Hs|Hs]; [discriminate|].
    destruct (int_text_nonneg s z Ht) as [[t' E]|(Hl & -> & _)]; [exfalso; eapply Hs; exact E|].
    rewrite parse_uint_text by assumption.
    replace (dec s <=? maxU64) with true by (symmetry; apply Z.leb_le; lia).
    replace (out_of_range t (dec s)) with false; [reflexivity|].
    symmetry. apply out_of_range_iff; [rewrite Es; lia|exact Hz].
Qed.

(** The literal is out of range: an error, and the target keeps its content. *)
Lemma decode_int_out_of_range t s z r cur : int_text s z -> num_stop r ->
  ~ (ity_lo t <= z <= ity_hi t) ->
  exists r' e, decode_int t (s ++ r) cur = DR r' (Some e) cur.
Proof.
  intros Ht Hr Hz. unfold decode_int. rewrite (int_text_not_null s z) by exact Ht.
  destruct (ity_bounds t) as (B0 & B1 & B2).
  destruct (signed t) eqn:Es.
  - rewrite (parse_int_text s z) by assumption.
    destruct ((minI64 <=? z) && (z <=? maxI64)) eqn:E; [|eauto]. zb.
    destruct (out_of_range t z) eqn:Eo; [eauto|].
    apply out_of_range_iff in Eo; [tauto|rewrite Es; lia].
  - destruct (int_text_nonneg s z Ht) as [[t' ->]|(Hl & -> & Hp)].
    + cbn [app]. destruct (parse_uint (45 :: t' ++ r)) as [v r'|] eqn:E; [|eauto].
      exfalso. apply parse_uint_inv in E. destruct E as (s' & E & _ & Hs' & _).
      inversion Hs'; subst; cbn in E; injection E; intros; lia.
    + rewrite parse_uint_text by assumption.
      destruct (dec s <=? maxU64) eqn:E; [|eauto]. zb.
      destruct (out_of_range t (dec s)) eqn:Eo; [eauto|].
      apply out_of_range_iff in Eo; [tauto|rewrite Es; lia].
Qed.

(** Whatever is stored was an in-range integer literal at the front of the
    input (or null was read, or an error returned, and nothing was stored). *)
Lemma decode_int_stores t b cur :
  let d := decode_int t b cur in
  d_val d = cur \/ (d_err d = None /\ exists s, b = s ++ d_rest d /\ num_stop (d_rest d) /\ int_text s (d_val d) /\
                    ity_lo t <= d_val d <= ity_hi t).
Proof.
  unfold decode_int. destruct (has_null_prefix b); [left; reflexivity|].
  destruct (if signed t then parse_int b else parse_uint b) as [v r|r e] eqn:E; [|left; reflexivity].
  destruct (out_of_range t v) eqn:Eo; [left; reflexivity|]. right. cbn. split; [reflexivity|].
  assert (H : exists s, b = s ++ r /\ num_stop r /\ int_text s v /\ (if signed t then minI64 <= v <= maxI64 else 0 <= v <= maxU64)).
  { destruct (signed t); [apply parse_int_inv, E|].
    apply parse_uint_inv in E. destruct E as (s & -> & Hn & Hs & -> & Hb). exists s. split; [reflexivity|]. split; [exact Hn|].
    split; [apply it_pos, Hs|exact Hb]. }
  destruct H as (s & Eb & Hn & Hs & Hb). exists s. split; [exact Eb|]. split; [exact Hn|]. split; [exact Hs|].
  apply out_of_range_iff; assumption.
Qed.

(** * Formatting *)
Lemma utoa_f_spec f : forall n acc, 0 <= n < 2 ^ Z.of_nat f -> Forall digit acc ->
  exists ds, utoa_f (S f) n acc = ds ++ acc /\ int_lit ds /\ dec ds = n.
Proof.
  induction f as [|f IH]; intros n acc Hn Ha.
  - change (2 ^ Z.of_nat 0) with 1 in Hn. assert (n = 0) by lia. subst. cbn.
    exists [48]. split; [reflexivity|]. split; [constructor|reflexivity].
  - remember (S f) as g. cbn [utoa_f]. subst g.
    assert (Hm := Z.mod_pos_bound n 10 ltac:(lia)). assert (Hdm := Z.div_mod n 10 ltac:(lia)).
    destruct (n <? 10) eqn:E.
    + zb. rewrite Z.mod_small by lia. exists [48 + n]. split; [reflexivity|].
      split; [|unfold dec, dec_from; cbn [fold_left]; lia].
      destruct (Z.eq_dec n 0) as [->|N]; [constructor|]. constructor; [lia|constructor].
    + zb. destruct (IH (n / 10) ((48 + n mod 10) :: acc)) as (ds & -> & Hl & Hd).
      { rewrite Nat2Z.inj_succ, Z.pow_succ_r in Hn by lia. lia. }
      { constructor; [unfold digit; lia|exact Ha]. }
      exists (ds ++ [48 + n mod 10]). split; [rewrite <- app_assoc; reflexivity|]. split.
      * destruct Hl as [|d ds Hd0 Hds]; [exfalso; unfold dec, dec_from in Hd; cbn in Hd; lia|].
        cbn [app]. constructor; [exact Hd0|]. apply Forall_app. split; [exact Hds|].
        constructor; [unfold digit; lia|constructor].
      * unfold dec in *. rewrite dec_from_app, Hd. unfold dec_from. cbn [fold_left]. lia.
Qed.
Lemma utoa_spec n : 0 <= n -> int_lit (utoa n) /\ dec (utoa n) = n.
Proof.
  intros Hn. unfold utoa.
  assert (B : n < 2 ^ Z.of_nat (S (Z.to_nat (Z.log2 n)))).
  { rewrite Nat2Z.inj_succ, Z2Nat.id by apply Z.log2_nonneg.
    destruct (Z.eq_dec n 0) as [->|N]; [reflexivity|]. apply Z.log2_spec. lia. }
  destruct (Z.eq_dec n 0) as [->|N]; [split; [constructor|reflexivity]|].
  set (f := Z.to_nat (Z.log2 n)) in *. clearbody f.
  (* one step of fuel less than the bound is enough because n / 10 < n / 2 *)
  cbn [utoa_f]. destruct (n <? 10) eqn:E.
  { zb. rewrite Z.mod_small by lia. split; [constructor; [lia|constructor]|unfold dec, dec_from; cbn [fold_left]; lia]. }
  zb. assert (Hf : exists g, f = S g).
  { destruct f as [|g]; [change (2 ^ Z.of_nat 1) with 2 in B; lia|eauto]. }
  destruct Hf as [g Hg]. rewrite Hg in *.
  assert (Hm := Z.mod_pos_bound n 10 ltac:(lia)). assert (Hdm := Z.div_mod n 10 ltac:(lia)).
  destruct (utoa_f_spec g (n / 10) [48 + n mod 10]) as (ds & -> & Hl & Hd).
  { rewrite !Nat2Z.inj_succ in B. rewrite !Z.pow_succ_r in B by lia. lia. }
  { constructor; [unfold digit; lia|constructor]. }
  split.
  - destruct Hl as [|d ds Hd0 Hds]; [exfalso; unfold dec, dec_from in Hd; cbn in Hd; lia|].
    cbn [app]. constructor; [exact Hd0|]. apply Forall_app. split; [exact Hds|].
    constructor; [unfold digit; lia|constructor].
  - unfold dec in *. rewrite dec_from_app, Hd. unfold dec_from. cbn [fold_left]. lia.
Qed.
Lemma itoa_text z : int_text (itoa z) z.
Proof.
  unfold itoa. destruct (z <? 0) eqn:E; zb.
  - destruct (utoa_spec (- z)) as [H1 H2]; [lia|]. replace z with (- dec (utoa (- z))) at 2 by lia. constructor; exact H1.
  - destruct (utoa_spec z) as [H1 H2]; [lia|]. rewrite <- H2 at 2. constructor; exact H1.
Qed.
Lemma itoa_nonneg z s : 0 <= z -> itoa z <> 45 :: s.
Proof.
  intros Hz. unfold itoa. replace (z <? 0) with false by (symmetry; apply Z.ltb_ge; lia).
  destruct (utoa_spec z Hz) as [H _]. inversion H; [intros X; discriminate|]. intros X. injection X. lia.
Qed.
Lemma int_round_trip t z cur : ity_lo t <= z <= ity_hi t -> decode_int t (itoa z) cur = DR [] None z.
Proof.
  intros Hz. rewrite <- (app_nil_r (itoa z)). apply decode_int_in_range; [apply itoa_text|exact I| |exact Hz].
  destruct (signed t) eqn:E; [auto|]. right. intros s'.
  destruct (ity_bounds t) as (_ & _ & B). specialize (B E). apply itoa_nonneg. lia.
Qed.
Lemma int_text_number s z : int_text s z -> number_lit s.
Proof.
  intros [ds H|ds H].
  - replace ds with ([] ++ ds ++ [] ++ []) by (cbn; rewrite ?app_nil_r; reflexivity). constructor; auto; constructor.
  - replace (45 :: ds) with ([45] ++ ds ++ [] ++ []) by (cbn; rewrite ?app_nil_r; reflexivity). constructor; auto; constructor.
Qed.

(** * Through Unmarshal *)
Lemma unmarshal_int_ok t w1 s z w2 cur : ws w1 -> int_text s z -> ws w2 ->
  signed t = true \/ (forall s', s <> 45 :: s') -> ity_lo t <= z <= ity_hi t ->
  unmarshal_with (decode_int t) (w1 ++ s ++ w2) cur = (None, z).
Proof.
  intros H1 Hs H2 Ht Hz. unfold unmarshal_with, parse_with. rewrite skip_spaces_ws by exact H1.
  rewrite (skip_spaces_nsp (s ++ w2)).
  2:{ destruct (int_text_head s z Hs) as (c & t' & -> & Hc). cbn. apply vhead_nsp. unfold vhead. lia. }
  rewrite (decode_int_in_range t s z w2); [|exact Hs| |exact Ht|exact Hz].
  - cbn [d_rest d_err d_val]. rewrite skip_spaces_all by exact H2. reflexivity.
  - rewrite <- (app_nil_r w2). apply num_stop_ws; [exact H2|exact I].
Qed.
Lemma unmarshal_int_err t w1 s z w2 cur : ws w1 -> int_text s z -> ws w2 ->
  ~ (ity_lo t <= z <= ity_hi t) ->
  exists e, unmarshal_with (decode_int t) (w1 ++ s ++ w2) cur = (Some e, cur).
Proof.
  intros H1 Hs H2 Hz. unfold unmarshal_with, parse_with. rewrite skip_spaces_ws by exact H1.
  rewrite (skip_spaces_nsp (s ++ w2)).
  2:{ destruct (int_text_head s z Hs) as (c & t' & -> & Hc). cbn. apply vhead_nsp. unfold vhead. lia. }
  destruct (decode_int_out_of_range t s z w2 cur) as (r' & e & E); [exact Hs| |exact Hz|].
  - rewrite <- (app_nil_r w2). apply num_stop_ws; [exact H2|exact I].
  - rewrite E. cbn [d_rest d_err d_val]. destruct (skip_spaces r'); eauto.
Qed.
