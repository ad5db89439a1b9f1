(** The word tricks of ascii.go are exact. *)
From Verif Require Import Bytes AsciiModel.

Lemma land_split a A b B : 0 <= a < 256 -> 0 <= b < 256 ->
  Z.land (a + 256 * A) (b + 256 * B) = Z.land a b + 256 * Z.land A B.
Proof.
  intros Ha Hb.
  assert (E : forall x X, 0 <= x < 256 -> x + 256 * X = Z.lor x (Z.shiftl X 8)).
  { intros x X Hx. rewrite Z.shiftl_mul_pow2 by lia. change (2 ^ 8) with 256.
    rewrite (Z.mul_comm X). rewrite <- Z.lxor_lor.
    - rewrite <- Z.add_nocarry_lxor; [lia|].
      apply Z.bits_inj'. intros n Hn. rewrite Z.land_spec, Z.bits_0.
      destruct (Z.ltb_spec n 8).
      + rewrite Z.mul_comm. change 256 with (2 ^ 8). rewrite Z.mul_pow2_bits_low by lia.
        apply andb_false_r.
      + replace (Z.testbit x n) with false; [reflexivity|].
        symmetry. destruct (Z.eq_dec x 0) as [->|Hx0]; [apply Z.bits_0|].
        apply Z.bits_above_log2; [lia|].
        apply Z.log2_lt_pow2; [lia|].
        assert (2 ^ 8 <= 2 ^ n) by (apply Z.pow_le_mono_r; lia). lia.
    - apply Z.bits_inj'. intros n Hn. rewrite Z.land_spec, Z.bits_0.
      destruct (Z.ltb_spec n 8).
      + rewrite Z.mul_comm. change 256 with (2 ^ 8). rewrite Z.mul_pow2_bits_low by lia.
        apply andb_false_r.
      + replace (Z.testbit x n) with false; [reflexivity|].
        symmetry. destruct (Z.eq_dec x 0) as [->|Hx0]; [apply Z.bits_0|].
        apply Z.bits_above_log2; [lia|].
        apply Z.log2_lt_pow2; [lia|].
        assert (2 ^ 8 <= 2 ^ n) by (apply Z.pow_le_mono_r; lia). lia. }
  assert (Hab : 0 <= Z.land a b < 256).
  { split; [apply Z.land_nonneg; lia|].
    destruct (Z.eq_dec (Z.land a b) 0) as [->|H0]; [lia|].
    assert (0 <= Z.land a b) by (apply Z.land_nonneg; lia).
    change 256 with (2 ^ 8). apply Z.log2_lt_pow2; [lia|].
    pose proof (Z.log2_land a b ltac:(lia) ltac:(lia)).
    destruct (Z.eq_dec a 0) as [->|Ha0]; [rewrite Z.land_0_l in H0; lia|].
    assert (Z.log2 a < 8) by (apply Z.log2_lt_pow2; lia). lia. }
  rewrite (E a A Ha), (E b B Hb), (E _ (Z.land A B) Hab).
  apply Z.bits_inj'. intros n Hn.
  rewrite !Z.land_spec, !Z.lor_spec, !Z.land_spec, !Z.shiftl_spec by lia.
  destruct (Z.ltb_spec n 8).
  - rewrite !(Z.testbit_neg_r _ (n - 8)) by lia. rewrite !orb_false_r. reflexivity.
  - assert (T : forall x, 0 <= x < 256 -> Z.testbit x n = false).
    { intros x Hx. destruct (Z.eq_dec x 0) as [->|Hx0]; [apply Z.bits_0|].
      apply Z.bits_above_log2; [lia|]. apply Z.log2_lt_pow2; [lia|].
      assert (2 ^ 8 <= 2 ^ n) by (apply Z.pow_le_mono_r; lia). lia. }
    rewrite (T a Ha), (T b Hb). cbn [orb andb]. rewrite Z.land_spec. reflexivity.
Qed.

Lemma lor_split a A b B : 0 <= a < 256 -> 0 <= b < 256 ->
  Z.lor (a + 256 * A) (b + 256 * B) = Z.lor a b + 256 * Z.lor A B.
Proof.
  intros Ha Hb.
  assert (N : forall x X, Z.lnot (x + 256 * X) = (255 - x) + 256 * Z.lnot X).
  { intros x X. unfold Z.lnot. lia. }
  assert (D : forall x y, Z.lor x y = Z.lnot (Z.land (Z.lnot x) (Z.lnot y))).
  { intros x y. rewrite Z.lnot_land, !Z.lnot_involutive. reflexivity. }
  rewrite (D (a + 256 * A)), (D A B), !N, land_split by lia.
  assert (E : Z.lor a b = 255 - Z.land (255 - a) (255 - b)).
  { rewrite (D a b).
    replace a with (a + 256 * 0) at 1 by lia. replace b with (b + 256 * 0) at 1 by lia.
    rewrite !N, land_split by lia. change (Z.land (Z.lnot 0) (Z.lnot 0)) with (-1).
    rewrite N. change (Z.lnot (-1)) with 0. lia. }
  rewrite N, E. reflexivity.
Qed.

(** 0x0101...01 with [n] bytes *)
Fixpoint ones (n : nat) : Z := match n with O => 0 | S n' => 1 + 256 * ones n' end.
Definition pw (n : nat) : Z := 256 ^ Z.of_nat n.

Lemma pw_S n : pw (S n) = 256 * pw n.
Proof. unfold pw. rewrite Nat2Z.inj_succ, Z.pow_succ_r by lia. lia. Qed.
Lemma pw_pos n : 0 < pw n.
Proof. unfold pw. apply Z.pow_pos_nonneg; lia. Qed.
Lemma ones_nonneg n : 0 <= ones n.
Proof. induction n; cbn [ones]; lia. Qed.
Lemma ones_lt n : 255 * ones n = pw n - 1.
Proof. induction n as [|n IH]; [reflexivity|]. cbn [ones]. rewrite pw_S. lia. Qed.

Lemma load_bound l : wf l -> 0 <= load l < pw (length l).
Proof.
  intros H; induction H as [|b l Hb Hl IH]; [cbn; lia|].
  cbn [load length]. rewrite pw_S. unfold is_byte in Hb. lia.
Qed.

Lemma mod_split a q M : 0 <= a < 256 -> 0 < M ->
  (a + 256 * q) mod (256 * M) = a + 256 * (q mod M).
Proof.
  intros Ha HM.
  pose proof (Z.mod_pos_bound q M HM). pose proof (Z.div_mod q M ltac:(lia)).
  symmetry. apply Z.mod_unique with (q := q / M); [left; nia|nia].
Qed.

(** Byte-level facts, by exhaustion over the 256 byte values. *)
Definition all_bytes : list Z := map Z.of_nat (seq 0 256).
Lemma all_bytes_in b : is_byte b -> In b all_bytes.
Proof.
  intros H. unfold all_bytes. apply in_map_iff. exists (Z.to_nat b).
  unfold is_byte in H. split; [lia|]. apply in_seq. lia.
Qed.
Lemma byte_forall (P : Z -> bool) : forallb P all_bytes = true -> forall b, is_byte b -> P b = true.
Proof. intros H b Hb. rewrite forallb_forall in H. apply H, all_bytes_in, Hb. Qed.

Definition TL (l : bytes) (k : Z) : Z :=
  Z.land (Z.land ((load l - 32 * ones (length l) - k) mod pw (length l))
                 (pw (length l) - 1 - load l)) (128 * ones (length l)).

Lemma TL_nonneg l k : 0 <= TL l k.
Proof.
  unfold TL. apply Z.land_nonneg. right. pose proof (ones_nonneg (length l)). lia.
Qed.

Lemma TL_cons b l k : is_byte b -> 0 <= k <= 1 ->
  TL (b :: l) k =
  Z.land (Z.land ((b - 32 - k) mod 256) (255 - b)) 128 + 256 * TL l (if b <? 32 + k then 1 else 0).
Proof.
  intros Hb Hk. unfold is_byte in Hb. unfold TL. cbn [load length ones].
  set (n := length l). set (W := load l).
  assert (E : b + 256 * W - 32 * (1 + 256 * ones n) - k =
              (b - 32 - k) mod 256 + 256 * (W - 32 * ones n - (if b <? 32 + k then 1 else 0))).
  { destruct (Z.ltb_spec b (32 + k)).
    - rewrite <- (Z.mod_add _ 1 256) by lia. rewrite Z.mod_small by lia. lia.
    - rewrite Z.mod_small by lia. lia. }
  rewrite E, pw_S. rewrite mod_split; [|apply Z.mod_pos_bound; lia|apply pw_pos].
  replace (256 * pw n - 1 - (b + 256 * W)) with ((255 - b) + 256 * (pw n - 1 - W)) by lia.
  replace (128 * (1 + 256 * ones n)) with (128 + 256 * (128 * ones n)) by lia.
  pose proof (Z.mod_pos_bound (b - 32 - k) 256 ltac:(lia)).
  rewrite land_split by lia. rewrite land_split; [reflexivity| |lia].
  assert (0 <= Z.land ((b - 32 - k) mod 256) (255 - b)) by (apply Z.land_nonneg; lia).
  pose proof (land_split ((b - 32 - k) mod 256) 0 (255 - b) 0 ltac:(lia) ltac:(lia)).
  split; [lia|].
  destruct (Z.eq_dec (Z.land ((b - 32 - k) mod 256) (255 - b)) 0) as [->|]; [lia|].
  change 256 with (2 ^ 8) at 2. apply Z.log2_lt_pow2; [lia|].
  pose proof (Z.log2_land ((b - 32 - k) mod 256) (255 - b) ltac:(lia) ltac:(lia)).
  destruct (Z.eq_dec (255 - b) 0) as [E0|]; [rewrite E0, Z.land_0_r in *; lia|].
  assert (Z.log2 (255 - b) < 8) by (apply Z.log2_lt_pow2; lia). lia.
Qed.

Lemma TL_byte b : is_byte b ->
  (Z.land (Z.land ((b - 32 - 0) mod 256) (255 - b)) 128 =? 0) = (32 <=? b).
Proof.
  intros Hb.
  apply eqb_prop.
  exact (byte_forall (fun b => eqb (Z.land (Z.land ((b - 32 - 0) mod 256) (255 - b)) 128 =? 0) (32 <=? b))
           ltac:(vm_compute; reflexivity) b Hb).
Qed.

Lemma TL_spec l : wf l -> (TL l 0 =? 0) = forallb (fun b => 32 <=? b) l.
Proof.
  intros H; induction H as [|b l Hb Hl IH]; [reflexivity|].
  rewrite TL_cons by (assumption || lia). cbn [forallb].
  rewrite <- (TL_byte b Hb).
  assert (H0 : 0 <= Z.land (Z.land ((b - 32 - 0) mod 256) (255 - b)) 128)
    by (apply Z.land_nonneg; right; lia).
  destruct (Z.eqb_spec (Z.land (Z.land ((b - 32 - 0) mod 256) (255 - b)) 128) 0) as [E|E].
  - assert (Hge : 32 <= b).
    { pose proof (TL_byte b Hb) as T. rewrite E in T. cbn in T.
      symmetry in T. apply Z.leb_le in T. exact T. }
    rewrite E. replace (b <? 32 + 0) with false by (symmetry; apply Z.ltb_ge; lia).
    rewrite <- IH. cbn [andb].
    destruct (Z.eqb_spec (TL l 0) 0), (Z.eqb_spec (0 + 256 * TL l 0) 0); lia || reflexivity.
  - cbn [andb]. apply Z.eqb_neq.
    pose proof (TL_nonneg l (if b <? 32 + 0 then 1 else 0)). lia.
Qed.

Definition TM (l : bytes) (k : Z) : Z :=
  Z.land (Z.lor ((load l + ones (length l) + k) mod pw (length l)) (load l)) (128 * ones (length l)).

Lemma TM_nonneg l k : 0 <= TM l k.
Proof.
  unfold TM. apply Z.land_nonneg. right. pose proof (ones_nonneg (length l)). lia.
Qed.

Lemma lor_byte a b : 0 <= a < 256 -> 0 <= b < 256 -> 0 <= Z.lor a b < 256.
Proof.
  intros Ha Hb. assert (0 <= Z.lor a b) by (apply Z.lor_nonneg; lia).
  split; [lia|].
  destruct (Z.eq_dec (Z.lor a b) 0) as [->|]; [lia|].
  change 256 with (2 ^ 8). apply Z.log2_lt_pow2; [lia|].
  rewrite Z.log2_lor by lia.
  destruct (Z.eq_dec a 0) as [->|]; destruct (Z.eq_dec b 0) as [->|];
    try (assert (Z.log2 a < 8) by (apply Z.log2_lt_pow2; lia));
    try (assert (Z.log2 b < 8) by (apply Z.log2_lt_pow2; lia));
    change (Z.log2 0) with 0; lia.
Qed.

Lemma TM_cons b l k : is_byte b -> 0 <= k <= 1 ->
  TM (b :: l) k =
  Z.land (Z.lor ((b + 1 + k) mod 256) b) 128 + 256 * TM l (if 256 <=? b + 1 + k then 1 else 0).
Proof.
  intros Hb Hk. unfold is_byte in Hb. unfold TM. cbn [load length ones].
  set (n := length l). set (W := load l).
  assert (E : b + 256 * W + (1 + 256 * ones n) + k =
              (b + 1 + k) mod 256 + 256 * (W + ones n + (if 256 <=? b + 1 + k then 1 else 0))).
  { destruct (Z.leb_spec 256 (b + 1 + k)).
    - rewrite <- (Z.mod_add _ (-1) 256) by lia. rewrite Z.mod_small by lia. lia.
    - rewrite Z.mod_small by lia. lia. }
  rewrite E, pw_S. rewrite mod_split; [|apply Z.mod_pos_bound; lia|apply pw_pos].
  replace (128 * (1 + 256 * ones n)) with (128 + 256 * (128 * ones n)) by lia.
  pose proof (Z.mod_pos_bound (b + 1 + k) 256 ltac:(lia)).
  rewrite lor_split by lia. rewrite land_split; [reflexivity| |lia].
  apply lor_byte; lia.
Qed.

Lemma TM_byte b : is_byte b -> (Z.land (Z.lor ((b + 1 + 0) mod 256) b) 128 =? 0) = (b <=? 126).
Proof.
  intros Hb. apply eqb_prop.
  exact (byte_forall (fun b => eqb (Z.land (Z.lor ((b + 1 + 0) mod 256) b) 128 =? 0) (b <=? 126))
           ltac:(vm_compute; reflexivity) b Hb).
Qed.

Lemma TM_spec l : wf l -> (TM l 0 =? 0) = forallb (fun b => b <=? 126) l.
Proof.
  intros H; induction H as [|b l Hb Hl IH]; [reflexivity|].
  rewrite TM_cons by (assumption || lia). cbn [forallb].
  rewrite <- (TM_byte b Hb).
  assert (H0 : 0 <= Z.land (Z.lor ((b + 1 + 0) mod 256) b) 128)
    by (apply Z.land_nonneg; right; lia).
  destruct (Z.eqb_spec (Z.land (Z.lor ((b + 1 + 0) mod 256) b) 128) 0) as [E|E].
  - assert (Hge : b <= 126).
    { pose proof (TM_byte b Hb) as T. rewrite E in T. cbn in T.
      symmetry in T. apply Z.leb_le in T. exact T. }
    rewrite E. replace (256 <=? b + 1 + 0) with false by (symmetry; apply Z.leb_gt; lia).
    rewrite <- IH. cbn [andb].
    destruct (Z.eqb_spec (TM l 0) 0), (Z.eqb_spec (0 + 256 * TM l 0) 0); lia || reflexivity.
  - cbn [andb]. apply Z.eqb_neq.
    pose proof (TM_nonneg l (if 256 <=? b + 1 + 0 then 1 else 0)). lia.
Qed.

(** plain high-bit test *)
Definition TH (l : bytes) : Z := Z.land (load l) (128 * ones (length l)).
Lemma TH_byte b : is_byte b -> (Z.land b 128 =? 0) = (b <? 128).
Proof.
  intros Hb. apply eqb_prop.
  exact (byte_forall (fun b => eqb (Z.land b 128 =? 0) (b <? 128)) ltac:(vm_compute; reflexivity) b Hb).
Qed.
Lemma TH_spec l : wf l -> (TH l =? 0) = forallb (fun b => b <? 128) l.
Proof.
  intros H; induction H as [|b l Hb Hl IH]; [reflexivity|].
  unfold TH. cbn [load length ones forallb]. rewrite <- (TH_byte b Hb), <- IH.
  replace (128 * (1 + 256 * ones (length l))) with (128 + 256 * (128 * ones (length l))) by lia.
  unfold is_byte in Hb. rewrite land_split by lia. fold (TH l).
  assert (0 <= Z.land b 128) by (apply Z.land_nonneg; lia).
  assert (0 <= TH l).
  { unfold TH. apply Z.land_nonneg. right. pose proof (ones_nonneg (length l)). lia. }
  destruct (Z.eqb_spec (Z.land b 128) 0), (Z.eqb_spec (TH l) 0),
    (Z.eqb_spec (Z.land b 128 + 256 * TH l) 0); cbn [andb]; lia || reflexivity.
Qed.

Lemma hasLess64_spec l : wf l -> length l = 8%nat ->
  hasLess64 (load l) 32 = negb (forallb (fun b => 32 <=? b) l).
Proof.
  intros H Hn. rewrite <- (TL_spec l H). unfold hasLess64, TL. rewrite Hn.
  change (wrap64 (L64 * 32)) with (32 * ones 8). change R64 with (128 * ones 8).
  unfold wrap64, not64. change (2 ^ 64) with (pw 8). rewrite Z.sub_0_r. reflexivity.
Qed.
Lemma hasLess32_spec l : wf l -> length l = 4%nat ->
  hasLess32 (load l) 32 = negb (forallb (fun b => 32 <=? b) l).
Proof.
  intros H Hn. rewrite <- (TL_spec l H). unfold hasLess32, TL. rewrite Hn.
  change (wrap32 (L32 * 32)) with (32 * ones 4). change R32 with (128 * ones 4).
  unfold wrap32, not32. change (2 ^ 32) with (pw 4). rewrite Z.sub_0_r. reflexivity.
Qed.
Lemma hasMore64_spec l : wf l -> length l = 8%nat ->
  hasMore64 (load l) 126 = negb (forallb (fun b => b <=? 126) l).
Proof.
  intros H Hn. rewrite <- (TM_spec l H). unfold hasMore64, TM. rewrite Hn.
  change (wrap64 (L64 * wrap64 (127 - 126))) with (ones 8). change R64 with (128 * ones 8).
  unfold wrap64. change (2 ^ 64) with (pw 8). rewrite Z.add_0_r. reflexivity.
Qed.
Lemma hasMore32_spec l : wf l -> length l = 4%nat ->
  hasMore32 (load l) 126 = negb (forallb (fun b => b <=? 126) l).
Proof.
  intros H Hn. rewrite <- (TM_spec l H). unfold hasMore32, TM. rewrite Hn.
  change (wrap32 (L32 * wrap32 (127 - 126))) with (ones 4). change R32 with (128 * ones 4).
  unfold wrap32. change (2 ^ 32) with (pw 4). rewrite Z.add_0_r. reflexivity.
Qed.

Definition printable (b : Z) : bool := (32 <=? b) && (b <=? 126).

Lemma forallb_and {A} (f g : A -> bool) l : forallb (fun x => f x && g x) l = forallb f l && forallb g l.
Proof.
  induction l as [|x l IH]; [reflexivity|]. cbn [forallb]. rewrite IH.
  destruct (f x), (g x), (forallb f l), (forallb g l); reflexivity.
Qed.

Lemma word64_print l : wf l -> length l = 8%nat ->
  hasLess64 (load l) 32 || hasMore64 (load l) 126 = negb (forallb printable l).
Proof.
  intros H Hn. rewrite hasLess64_spec, hasMore64_spec by assumption.
  unfold printable. rewrite forallb_and, negb_andb. reflexivity.
Qed.
Lemma word32_print l : wf l -> length l = 4%nat ->
  hasLess32 (load l) 32 || hasMore32 (load l) 126 = negb (forallb printable l).
Proof.
  intros H Hn. rewrite hasLess32_spec, hasMore32_spec by assumption.
  unfold printable. rewrite forallb_and, negb_andb. reflexivity.
Qed.

Lemma lor_bytes3 b0 b1 b2 : is_byte b0 -> is_byte b1 -> is_byte b2 ->
  Z.lor (Z.lor 0x20000000 b0) (Z.shiftl (load [b1; b2]) 8) = load [b0; b1; b2; 32].
Proof.
  unfold is_byte; intros H0 H1 H2. cbn [load]. rewrite Z.shiftl_mul_pow2 by lia. change (2 ^ 8) with 256.
  replace 0x20000000 with (0 + 256 * (0 + 256 * (0 + 256 * 32))) by reflexivity.
  replace b0 with (b0 + 256 * 0) at 1 by lia. rewrite lor_split by lia.
  replace ((b1 + 256 * (b2 + 256 * 0)) * 256) with (0 + 256 * (b1 + 256 * (b2 + 256 * 0))) by lia.
  rewrite lor_split by (rewrite ?Z.lor_0_l; lia).
  rewrite Z.lor_0_r, Z.lor_0_l, Z.lor_0_r.
  rewrite lor_split by lia. rewrite lor_split by lia. rewrite !Z.lor_0_l, Z.lor_0_r. lia.
Qed.
Lemma lor_bytes2 b0 b1 : is_byte b0 -> is_byte b1 ->
  Z.lor 0x20200000 (load [b0; b1]) = load [b0; b1; 32; 32].
Proof.
  unfold is_byte; intros H0 H1. cbn [load].
  replace 0x20200000 with (0 + 256 * (0 + 256 * (32 + 256 * 32))) by reflexivity.
  rewrite lor_split by lia. rewrite lor_split by lia. rewrite !Z.lor_0_l, Z.lor_0_r. lia.
Qed.
Lemma lor_bytes1 b0 : is_byte b0 -> Z.lor 0x20202000 b0 = load [b0; 32; 32; 32].
Proof.
  unfold is_byte; intros H0. cbn [load].
  replace 0x20202000 with (0 + 256 * (32 + 256 * (32 + 256 * 32))) by reflexivity.
  replace b0 with (b0 + 256 * 0) at 1 by lia.
  rewrite lor_split by lia. rewrite Z.lor_0_l, Z.lor_0_r. lia.
Qed.

Lemma print32 l : wf l -> length l = 4%nat ->
  negb (hasLess32 (load l) 32) && negb (hasMore32 (load l) 126) = forallb printable l.
Proof.
  intros H Hn. rewrite <- negb_orb, word32_print by assumption. apply negb_involutive.
Qed.

Ltac wfs := unfold wf; repeat (apply Forall_cons; [assumption|]); apply Forall_nil.

Ltac wf_inv := repeat match goal with
  | H : wf (_ :: _) |- _ => apply Forall_inv in H as ?; apply Forall_inv_tail in H; fold (wf) in *
  | H : Forall is_byte (_ :: _) |- _ => inversion H; clear H; subst
  end.

Lemma wf32 : is_byte 32. Proof. unfold is_byte; lia. Qed.

Lemma ascii_valid_print_tail_spec b : wf b -> (length b < 4)%nat ->
  ascii_valid_print_tail b = forallb printable b.
Proof.
  intros H Hn. pose proof wf32 as W.
  destruct b as [|b0 [|b1 [|b2 [|b3 b]]]]; cbn [length] in Hn; try lia; [reflexivity| | |];
    unfold wf in H; wf_inv; unfold ascii_valid_print_tail; cbv zeta.
  - rewrite lor_bytes1 by assumption. rewrite print32 by (reflexivity || wfs).
    cbn [forallb]. change (printable 32) with true. rewrite ?andb_true_r. reflexivity.
  - rewrite lor_bytes2 by assumption. rewrite print32 by (reflexivity || wfs).
    cbn [forallb]. change (printable 32) with true. rewrite ?andb_true_r. reflexivity.
  - rewrite lor_bytes3 by assumption. rewrite print32 by (reflexivity || wfs).
    cbn [forallb]. change (printable 32) with true. rewrite ?andb_true_r. reflexivity.
Qed.

Lemma ascii_valid_print4_spec b : wf b -> (length b < 8)%nat ->
  ascii_valid_print4 b = forallb printable b.
Proof.
  intros H Hn.
  destruct b as [|b0 [|b1 [|b2 [|b3 b]]]]; try (apply ascii_valid_print_tail_spec; [exact H|cbn; lia]).
  unfold ascii_valid_print4; cbv zeta. unfold wf in H; wf_inv.
  rewrite word32_print by (reflexivity || wfs).
  rewrite ascii_valid_print_tail_spec by (assumption || (cbn [length] in Hn; lia)).
  change (b0 :: b1 :: b2 :: b3 :: b) with ([b0; b1; b2; b3] ++ b).
  rewrite forallb_app. destruct (forallb printable [b0; b1; b2; b3]); reflexivity.
Qed.

Lemma ascii_valid_print_spec b : wf b -> ascii_valid_print b = forallb printable b.
Proof.
  remember (length b) as n eqn:Hn. assert (Hle : (length b <= n)%nat) by lia. clear Hn.
  revert b Hle. induction n as [|n IH]; intros b Hle H.
  { destruct b; [reflexivity|cbn in Hle; lia]. }
  destruct b as [|b0 [|b1 [|b2 [|b3 [|b4 [|b5 [|b6 [|b7 b]]]]]]]];
    try (apply ascii_valid_print4_spec; [exact H|cbn; lia]).
  cbn [ascii_valid_print]; cbv zeta. unfold wf in H; wf_inv.
  rewrite word64_print by (reflexivity || wfs).
  rewrite IH by (assumption || (cbn [length] in Hle; lia)).
  change (b0 :: b1 :: b2 :: b3 :: b4 :: b5 :: b6 :: b7 :: b)
    with ([b0; b1; b2; b3; b4; b5; b6; b7] ++ b).
  rewrite forallb_app. destruct (forallb printable [b0; b1; b2; b3; b4; b5; b6; b7]); reflexivity.
Qed.

(** asciiValid *)
Definition is_ascii (b : Z) : bool := b <? 128.

Lemma high32 l : wf l -> length l = 4%nat -> (Z.land (load l) 0x80808080 =? 0) = forallb is_ascii l.
Proof.
  intros H Hn. unfold is_ascii. rewrite <- (TH_spec l H). unfold TH. rewrite Hn. reflexivity.
Qed.
Lemma high64 l : wf l -> length l = 8%nat -> (Z.land (load l) 0x8080808080808080 =? 0) = forallb is_ascii l.
Proof.
  intros H Hn. unfold is_ascii. rewrite <- (TH_spec l H). unfold TH. rewrite Hn. reflexivity.
Qed.

Lemma ascii_valid_tail_spec b : wf b -> (length b < 4)%nat -> ascii_valid_tail b = forallb is_ascii b.
Proof.
  intros H Hn. assert (W : is_byte 0) by (unfold is_byte; lia).
  destruct b as [|b0 [|b1 [|b2 [|b3 b]]]]; cbn [length] in Hn; try lia; [reflexivity| | |];
    unfold wf in H; wf_inv; unfold ascii_valid_tail.
  - replace b0 with (load [b0; 0; 0; 0]) at 1 by (cbn [load]; lia).
    rewrite high32 by (reflexivity || wfs).
    cbn [forallb]. change (is_ascii 0) with true. rewrite ?andb_true_r. reflexivity.
  - replace (load [b0; b1]) with (load [b0; b1; 0; 0]) by (cbn [load]; lia).
    rewrite high32 by (reflexivity || wfs).
    cbn [forallb]. change (is_ascii 0) with true. rewrite ?andb_true_r. reflexivity.
  - replace (Z.lor b0 (Z.shiftl (load [b1; b2]) 8)) with (load [b0; b1; b2; 0]).
    2:{ cbn [load]. rewrite Z.shiftl_mul_pow2 by lia. change (2 ^ 8) with 256. unfold is_byte in *.
        replace b0 with (b0 + 256 * 0) at 2 by lia.
        replace ((b1 + 256 * (b2 + 256 * 0)) * 256) with (0 + 256 * (b1 + 256 * (b2 + 256 * 0))) by lia.
        rewrite lor_split by lia. rewrite Z.lor_0_r, Z.lor_0_l. lia. }
    rewrite high32 by (reflexivity || wfs).
    cbn [forallb]. change (is_ascii 0) with true. rewrite ?andb_true_r. reflexivity.
Qed.

Lemma ascii_valid4_spec b : wf b -> (length b < 8)%nat -> ascii_valid4 b = forallb is_ascii b.
Proof.
  intros H Hn.
  destruct b as [|b0 [|b1 [|b2 [|b3 b]]]]; try (apply ascii_valid_tail_spec; [exact H|cbn; lia]).
  unfold ascii_valid4. unfold wf in H; wf_inv.
  rewrite high32 by (reflexivity || wfs).
  rewrite ascii_valid_tail_spec by (assumption || (cbn [length] in Hn; lia)).
  change (b0 :: b1 :: b2 :: b3 :: b) with ([b0; b1; b2; b3] ++ b).
  rewrite forallb_app. destruct (forallb is_ascii [b0; b1; b2; b3]); reflexivity.
Qed.

Lemma ascii_valid_spec b : wf b -> ascii_valid b = forallb is_ascii b.
Proof.
  remember (length b) as n eqn:Hn. assert (Hle : (length b <= n)%nat) by lia. clear Hn.
  revert b Hle. induction n as [|n IH]; intros b Hle H.
  { destruct b; [reflexivity|cbn in Hle; lia]. }
  destruct b as [|b0 [|b1 [|b2 [|b3 [|b4 [|b5 [|b6 [|b7 b]]]]]]]];
    try (apply ascii_valid4_spec; [exact H|cbn; lia]).
  cbn [ascii_valid]. unfold wf in H; wf_inv.
  rewrite high64 by (reflexivity || wfs).
  rewrite IH by (assumption || (cbn [length] in Hle; lia)).
  change (b0 :: b1 :: b2 :: b3 :: b4 :: b5 :: b6 :: b7 :: b)
    with ([b0; b1; b2; b3; b4; b5; b6; b7] ++ b).
  rewrite forallb_app. destruct (forallb is_ascii [b0; b1; b2; b3; b4; b5; b6; b7]); reflexivity.
Qed.
