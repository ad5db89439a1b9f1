(** Lemmas about durations: the arithmetic of a fraction. *)
From Coq Require Import QArith Qabs Qpower Lqa.
From Verif Require Import Bytes ParseModel IntModel EncModel SpecJson SpecNum SpecRender FloatModel SpecFloat ParseFacts IntFacts NumFacts ExactFloat FloatFacts DurModel SpecDur.
From Coq Require Import Lia.
Local Open Scope Z_scope.

Lemma ok64 : fmt_ok binary64. Proof. unfold fmt_ok. cbn. lia. Qed.
Lemma q2_pos m e : 0 < m -> (0 < q2 m e)%Q.
Proof. intros H. unfold q2. apply Qmult_lt_0_compat; [change 0%Q with (inject_Z 0); rewrite <- Zlt_Qlt; exact H|apply (pw_pos 2); lia]. Qed.
Lemma q2_nonneg m e : 0 <= m -> (0 <= q2 m e)%Q.
Proof. intros H. unfold q2. apply Qmult_le_0_compat; [change 0%Q with (inject_Z 0); rewrite <- Zle_Qle; exact H|apply Qlt_le_weak, (pw_pos 2); lia]. Qed.
Lemma pow2_float e : -1022 <= e -> is_float binary64 (q2 1 e).
Proof.
  intros H. exists (2 ^ 52), (e - 52). split; [unfold canonical; cbn [binary64 b_prec b_emin]; split; [reflexivity|split; [lia|left; discriminate]]|].
  change (q2 1 e == qb 2 (2 ^ 52) (e - 52))%Q. replace (2 ^ 52) with (1 * 2 ^ 52) by reflexivity. rewrite qb_shift by lia. replace (e - 52 + 52) with e by lia. reflexivity.
Qed.
Lemma int_float z : 0 <= z < 2 ^ 53 -> is_float binary64 (inject_Z z).
Proof.
  intros H. destruct (Z.eq_dec z 0) as [->|N]; [apply (zero_float binary64 ok64)|].
  pose proof (Z.log2_spec z ltac:(lia)) as L. pose proof (Z.log2_nonneg z) as L0. assert (L1 : Z.log2 z < 53) by (apply Z.log2_lt_pow2; lia). unfold Z.succ in L. set (l := Z.log2 z) in *. clearbody l.
  exists (z * 2 ^ (52 - l)), (l - 52). split.
  - assert (A : 2 ^ l * 2 ^ (52 - l) = 2 ^ 52) by (rewrite <- Z.pow_add_r by lia; f_equal; lia).
    assert (B : 2 ^ (l + 1) * 2 ^ (52 - l) = 2 ^ 53) by (rewrite <- Z.pow_add_r by lia; f_equal; lia).
    assert (P : 0 < 2 ^ (52 - l)) by (apply Z.pow_pos_nonneg; lia).
    unfold canonical. cbn [binary64 b_prec b_emin]. rewrite Z.abs_eq by lia. change (53 - 1) with 52. split; [nia|]. split; [lia|]. left. nia.
  - change (inject_Z z == qb 2 (z * 2 ^ (52 - l)) (l - 52))%Q. rewrite qb_shift by lia. replace (l - 52 + (52 - l)) with 0 by lia. unfold qb. cbn. ring.
Qed.
Lemma f64_of_ok n d : 0 <= n -> 0 < d -> (qr n d <= q2 1 1023)%Q -> exists m e, f64_of n d = Some (m, e) /\ 0 <= m /\ nearest binary64 (qr n d) (q2 m e).
Proof.
  intros N D B. unfold f64_of. destruct (Z.eqb_spec n 0) as [->|NZ].
  - exists 0, 0. split; [reflexivity|]. split; [lia|]. eapply nearest_eq with (q := 0%Q) (x := 0%Q); [|reflexivity|apply nearest_self, zero_float, ok64].
    unfold qr. unfold Qdiv. rewrite Qmult_0_l. reflexivity.
  - destruct (round_to binary64 n d) as [m e] eqn:R. destruct (round_to_ok binary64 n d m e ok64 ltac:(lia) D R) as (C & M & NR). cbn [fst snd].
    destruct (ratio 2 m e) as [n' d'] eqn:RT. assert (X : (q2 m e <= q2 1 1023)%Q) by (eapply (nearest_mono binary64 _ _ _ _ ok64 B NR), nearest_self, pow2_float; lia).
    assert (T : (d' * 2 ^ b_emax binary64 <=? n') = false); [|rewrite T; eauto].
    apply (range_test binary64 m e n' d'); [cbn; lia|exact M|exact RT|]. unfold in_range. rewrite q2_abs by exact M. eapply Qle_lt_trans; [exact X|]. vm_compute. reflexivity.
Qed.
Definition eps : Q := 1 # (2 ^ 52).
Lemma rel_error n d x : 0 < n -> 0 < d -> (q2 1 (-1022) <= qr n d)%Q -> nearest binary64 (qr n d) x -> (qr n d * (1 - eps) <= x)%Q /\ (x <= qr n d * (1 + eps))%Q.
Proof.
  intros N D B (_ & NR & _). destruct (floor_log2_ok n d N D) as [LL LU]. set (l := floor_log2 n d) in *. clearbody l.
  assert (L : -1022 <= l).
  { assert (K : -1022 < l + 1); [|lia]. apply (pw_mono 2); [lia|]. eapply Qle_lt_trans; [|exact LU]. eapply Qle_trans; [|exact B]. unfold q2. rewrite Qmult_1_l. apply Qle_refl. }
  destruct (scale 2 n d (l - 52)) as [n' d'] eqn:S. destruct (scale_val 2 n d (l - 52) n' d' ltac:(lia) D S) as (D' & V & NP). specialize (NP N).
  assert (UP : (0 < inject_Z 2 ^ (l - 52))%Q) by (apply pw_pos; lia).
  assert (E : (inject_Z 2 ^ l == inject_Z (2 ^ 52) * inject_Z 2 ^ (l - 52))%Q).
  { rewrite Zpower_Qpower by lia. rewrite <- Qpower_plus by (apply inj_nz; lia). replace (52 + (l - 52)) with l by lia. reflexivity. }
  assert (E1 : (inject_Z 2 ^ (l + 1) == inject_Z (2 ^ 53) * inject_Z 2 ^ (l - 52))%Q).
  { rewrite Zpower_Qpower by lia. rewrite <- Qpower_plus by (apply inj_nz; lia). replace (53 + (l - 52)) with (l + 1) by lia. reflexivity. }
  rewrite V, E, Qmult_le_r in LL by exact UP. rewrite V, E1, Qmult_lt_r in LU by exact UP.
  apply (qr_le n' d' _ D') in LL. apply (qr_lt n' d' _ D') in LU.
  set (k := n' / d'). pose proof (Z.div_mod n' d' ltac:(lia)) as DM. pose proof (Z.mod_pos_bound n' d' ltac:(lia)) as MB. fold k in DM.
  assert (K : 2 ^ 52 <= k < 2 ^ 53) by nia.
  assert (FY : is_float binary64 (q2 k (l - 52))).
  { exists k, (l - 52). split; [|reflexivity]. unfold canonical. cbn [binary64 b_prec b_emin]. rewrite Z.abs_eq by lia. change (53 - 1) with 52. split; [lia|]. split; [lia|]. left. lia. }
  specialize (NR _ FY).
  assert (Y : (Qabs (qr n d - q2 k (l - 52)) <= inject_Z 2 ^ (l - 52))%Q).
  { assert (A1 : (inject_Z k <= qr n' d')%Q) by (apply qr_le; [exact D'|nia]).
    assert (A2 : (qr n' d' < inject_Z (k + 1))%Q) by (apply qr_lt; [exact D'|nia]). rewrite inject_Z_plus in A2. change (inject_Z 1) with 1%Q in A2.
    change (q2 k (l - 52)) with (inject_Z k * inject_Z 2 ^ (l - 52))%Q. rewrite V, dist_scale by exact UP.
    apply Qle_trans with (1 * inject_Z 2 ^ (l - 52))%Q; [|rewrite Qmult_1_l; apply Qle_refl]. rewrite Qmult_le_r by exact UP. rewrite Qabs_pos by lra. lra. }
  assert (Z1 : (inject_Z 2 ^ (l - 52) <= qr n d * eps)%Q).
  { assert (A1 : (inject_Z (2 ^ 52) <= qr n' d')%Q) by (apply qr_le; [exact D'|lia]). rewrite V.
    setoid_replace (qr n' d' * inject_Z 2 ^ (l - 52) * eps)%Q with ((qr n' d' * eps) * inject_Z 2 ^ (l - 52))%Q by ring.
    apply Qle_trans with (1 * inject_Z 2 ^ (l - 52))%Q; [rewrite Qmult_1_l; apply Qle_refl|]. rewrite Qmult_le_r by exact UP.
    apply Qle_trans with (inject_Z (2 ^ 52) * eps)%Q; [vm_compute; discriminate|]. rewrite Qmult_le_r by reflexivity. exact A1. }
  assert (G : (Qabs (qr n d - x) <= qr n d * eps)%Q) by (eapply Qle_trans; [exact NR|eapply Qle_trans; [exact Y|exact Z1]]).
  apply Qabs_Qle_condition in G. destruct G. split; lra.
Qed.

(** * The scale *)
Fixpoint sc (k : nat) : f64 := match k with O => Some (1, 0) | S k' => f64_times10 (sc k') end.
Definition sc_near (k : nat) : bool :=
  match sc k with
  | None => false
  | Some (m, e) => let (n, d) := ratio 2 m e in
      (0 <? m) && (Z.abs (n - 10 ^ Z.of_nat k * d) * 2 ^ 52 <=? 10 ^ Z.of_nat k * d) && (if (k <=? 22)%nat then n =? 10 ^ Z.of_nat k * d else true)
  end.
Lemma sc_table : forallb sc_near (seq 0 33) = true.
Proof. vm_compute. reflexivity. Qed.
Definition p10 (k : nat) : Q := inject_Z (10 ^ Z.of_nat k).
Lemma p10_pos k : (0 < p10 k)%Q.
Proof. unfold p10. change 0%Q with (inject_Z 0). rewrite <- Zlt_Qlt. apply Z.pow_pos_nonneg; lia. Qed.
Lemma sc_small k : (k <= 32)%nat -> exists m e, sc k = Some (m, e) /\ 0 < m /\ (p10 k * (1 - eps) <= q2 m e)%Q /\ (q2 m e <= p10 k * (1 + eps))%Q /\ ((k <= 22)%nat -> (q2 m e == p10 k)%Q).
Proof.
  intros K. pose proof sc_table as T. rewrite forallb_forall in T. specialize (T k ltac:(apply in_seq; lia)). unfold sc_near in T.
  destruct (sc k) as [[m e]|]; [|discriminate]. destruct (ratio 2 m e) as [n d] eqn:R. apply andb_prop in T as [T T3]. apply andb_prop in T as [T1 T2].
  apply Z.ltb_lt in T1. apply Z.leb_le in T2. destruct (ratio_val 2 m e n d ltac:(lia) R) as (D & V & _). exists m, e. split; [reflexivity|]. split; [exact T1|].
  change (q2 m e) with (qb 2 m e). unfold p10. set (t := 10 ^ Z.of_nat k) in *. clearbody t.
  assert (DP : (0 < inject_Z d)%Q) by (change 0%Q with (inject_Z 0); rewrite <- Zlt_Qlt; exact D).
  pose proof (qr_mul n d D) as Q. rewrite V in Q. set (x := qb 2 m e) in *. clearbody x.
  assert (I : (inject_Z (2 ^ 52) == / eps)%Q) by reflexivity.
  assert (LO : (inject_Z (t * d * 2 ^ 52 - t * d) <= inject_Z (n * 2 ^ 52))%Q) by (rewrite <- Zle_Qle; nia).
  assert (HI : (inject_Z (n * 2 ^ 52) <= inject_Z (t * d * 2 ^ 52 + t * d))%Q) by (rewrite <- Zle_Qle; nia).
  unfold Z.sub in LO. rewrite inject_Z_plus, inject_Z_opp, !inject_Z_mult, <- Q in LO. rewrite inject_Z_plus, !inject_Z_mult, <- Q in HI.
  split; [|split].
  - rewrite <- (Qmult_le_r _ _ (inject_Z d * inject_Z (2 ^ 52))) by (apply Qmult_lt_0_compat; [exact DP|reflexivity]).
    setoid_replace (inject_Z t * (1 - eps) * (inject_Z d * inject_Z (2 ^ 52)))%Q with (inject_Z t * inject_Z d * inject_Z (2 ^ 52) - inject_Z t * inject_Z d * (eps * inject_Z (2 ^ 52)))%Q by ring.
    setoid_replace (eps * inject_Z (2 ^ 52))%Q with 1%Q by reflexivity. lra.
  - rewrite <- (Qmult_le_r _ _ (inject_Z d * inject_Z (2 ^ 52))) by (apply Qmult_lt_0_compat; [exact DP|reflexivity]).
    setoid_replace (inject_Z t * (1 + eps) * (inject_Z d * inject_Z (2 ^ 52)))%Q with (inject_Z t * inject_Z d * inject_Z (2 ^ 52) + inject_Z t * inject_Z d * (eps * inject_Z (2 ^ 52)))%Q by ring.
    setoid_replace (eps * inject_Z (2 ^ 52))%Q with 1%Q by reflexivity. lra.
  - intros K2. apply Nat.leb_le in K2. rewrite K2 in T3. apply Z.eqb_eq in T3. rewrite T3, inject_Z_mult in Q. apply Qmult_inj_r in Q; [exact Q|]. apply inj_nz, D.
Qed.
(** From 10^32 on: infinite, or at least 2^106. *)
Lemma sc_large k : (32 <= k)%nat -> match sc k with None => True | Some (m, e) => 0 < m /\ (q2 1 106 <= q2 m e)%Q end.
Proof.
  intros K. induction K as [|k K IH].
  - vm_compute. split; [reflexivity|discriminate].
  - cbn [sc]. destruct (sc k) as [[m e]|]; [|exact I]. destruct IH as [M B]. cbn [f64_times10]. destruct (ratio 2 m e) as [n d] eqn:R.
    destruct (ratio_val 2 m e n d ltac:(lia) R) as (D & V & NP). specialize (NP M). unfold f64_of. rewrite (proj2 (Z.eqb_neq (10 * n) 0)) by lia.
    destruct (round_to binary64 (10 * n) d) as [m' e'] eqn:RT. destruct (round_to_ok binary64 (10 * n) d m' e' ok64 ltac:(lia) D RT) as (C & M' & NR). cbn [fst snd].
    destruct (ratio 2 m' e') as [n' d']. destruct (_ <=? _); [exact I|].
    assert (X : (q2 1 106 <= q2 m' e')%Q).
    { refine (nearest_mono binary64 (q2 1 106) (qr (10 * n) d) _ _ ok64 _ _ NR); [|apply nearest_self, pow2_float; lia].
      eapply Qle_trans; [exact B|]. change (q2 m e) with (qb 2 m e). rewrite <- V. unfold qr. rewrite inject_Z_mult. change (inject_Z 10) with 10%Q.
      setoid_replace (10 * inject_Z n / inject_Z d)%Q with (10 * qr n d)%Q by (unfold qr, Qdiv; ring). pose proof (qr_pos n d NP D). fold (qr n d). lra. }
    split; [|exact X]. destruct (Z.eq_dec m' 0) as [->|]; [|lia]. exfalso. assert (Y : (q2 0 e' == 0)%Q) by (unfold q2; change (inject_Z 0) with 0%Q; ring).
    rewrite Y in X. apply (Qlt_irrefl 0). eapply Qlt_le_trans; [apply (q2_pos 1 106); lia|exact X].
Qed.

(** * The value of a fraction *)
Definition max_unit : Z := 3600 * 10 ^ 9.
Lemma div_floor n d q : 0 < d -> (qr n d == q)%Q -> (inject_Z (n / d) <= q)%Q /\ (q < inject_Z (n / d) + 1)%Q.
Proof.
  intros D <-. pose proof (Z.div_mod n d ltac:(lia)) as DM. pose proof (Z.mod_pos_bound n d ltac:(lia)) as MB.
  split; [apply qr_le; [exact D|nia]|]. change 1%Q with (inject_Z 1). rewrite <- inject_Z_plus. apply qr_lt; [exact D|nia].
Qed.
Lemma frac_ns_spec f unit m e : 0 < f <= 2 ^ 63 -> 0 < unit <= max_unit -> 0 < m -> (1 <= q2 m e)%Q ->
  exists A B P, nearest binary64 (inject_Z f) A /\ nearest binary64 (inject_Z unit / q2 m e) B /\ nearest binary64 (A * B) P /\
    (inject_Z (frac_ns f unit (Some (m, e))) <= P)%Q /\ (P < inject_Z (frac_ns f unit (Some (m, e))) + 1)%Q /\ (0 <= A)%Q /\ (0 <= B)%Q /\
    (exists a d, 0 < d /\ (A * B == qr a d)%Q) /\ (exists a d, 0 < d /\ (inject_Z unit / q2 m e == qr a d)%Q).
Proof.
  intros HF HU M SB. unfold frac_ns. destruct (ratio 2 m e) as [n d] eqn:R. destruct (ratio_val 2 m e n d ltac:(lia) R) as (D & V & NP). specialize (NP M).
  change (qb 2 m e) with (q2 m e) in V.
  assert (E1 : (qr f 1 == inject_Z f)%Q) by (unfold qr, Qdiv; change (/ inject_Z 1)%Q with 1%Q; ring).
  assert (F63 : (inject_Z f <= q2 1 63)%Q) by (change (q2 1 63) with (inject_Z (2 ^ 63)); rewrite <- Zle_Qle; lia).
  assert (UM : (inject_Z unit <= q2 1 42)%Q) by (change (q2 1 42) with (inject_Z (2 ^ 42)); rewrite <- Zle_Qle; unfold max_unit in HU; lia).
  assert (U0 : (0 < inject_Z unit)%Q) by (change 0%Q with (inject_Z 0); rewrite <- Zlt_Qlt; lia).
  destruct (f64_of_ok f 1 ltac:(lia) ltac:(lia)) as (mf & ef & -> & M1 & N1); [rewrite E1; eapply Qle_trans; [exact F63|vm_compute; discriminate]|].
  assert (E2 : (qr (unit * d) n == inject_Z unit / q2 m e)%Q).
  { rewrite <- V. unfold qr. rewrite inject_Z_mult. field. split; apply inj_nz; assumption. }
  assert (B2 : (inject_Z unit / q2 m e <= q2 1 42)%Q).
  { apply Qle_shift_div_r; [apply q2_pos, M|]. eapply Qle_trans; [exact UM|]. rewrite <- (Qmult_1_r (q2 1 42)) at 1. rewrite Qmult_le_l by (apply q2_pos; lia). exact SB. }
  destruct (f64_of_ok (unit * d) n ltac:(nia) NP) as (mq & eq & -> & M2 & N2); [rewrite E2; eapply Qle_trans; [exact B2|vm_compute; discriminate]|].
  destruct (ratio 2 mf ef) as [nf df] eqn:R1. destruct (ratio 2 mq eq) as [nq dq] eqn:R2.
  destruct (ratio_val 2 mf ef nf df ltac:(lia) R1) as (D1 & V1 & _). destruct (ratio_val 2 mq eq nq dq ltac:(lia) R2) as (D2 & V2 & _).
  change (qb 2 mf ef) with (q2 mf ef) in V1. change (qb 2 mq eq) with (q2 mq eq) in V2.
  apply (nearest_eq _ _ _ _ _ E1 (Qeq_refl _)) in N1. apply (nearest_eq _ _ _ _ _ E2 (Qeq_refl _)) in N2.
  pose proof (q2_nonneg mf ef M1) as A0. pose proof (q2_nonneg mq eq M2) as B0.
  assert (A1 : (q2 mf ef <= q2 1 63)%Q) by (apply (nearest_mono binary64 _ _ _ _ ok64 F63 N1), nearest_self, pow2_float; lia).
  assert (B1 : (q2 mq eq <= q2 1 42)%Q) by (apply (nearest_mono binary64 _ _ _ _ ok64 B2 N2), nearest_self, pow2_float; lia).
  assert (E3 : (qr (nf * nq) (df * dq) == q2 mf ef * q2 mq eq)%Q) by (rewrite <- V1, <- V2; unfold qr; rewrite !inject_Z_mult; field; split; apply inj_nz; assumption).
  assert (P3 : 0 <= nf * nq).
  { apply Z.mul_nonneg_nonneg.
    - rewrite <- V1 in A0. change 0%Q with (inject_Z 0) in A0. apply (qr_le nf df 0 D1) in A0. lia.
    - rewrite <- V2 in B0. change 0%Q with (inject_Z 0) in B0. apply (qr_le nq dq 0 D2) in B0. lia. }
  destruct (f64_of_ok (nf * nq) (df * dq) P3 ltac:(nia)) as (mp & ep & -> & M3 & N3).
  { rewrite E3. apply Qle_trans with (q2 1 63 * q2 1 42)%Q; [|vm_compute; discriminate].
    apply Qle_trans with (q2 1 63 * q2 mq eq)%Q; [apply Qmult_le_compat_r; assumption|]. rewrite Qmult_le_l by (apply q2_pos; lia). exact B1. }
  destruct (ratio 2 mp ep) as [np dp] eqn:R3. destruct (ratio_val 2 mp ep np dp ltac:(lia) R3) as (D3 & V3 & _).
  apply (nearest_eq _ _ _ _ _ E3 (Qeq_refl _)) in N3. destruct (div_floor np dp _ D3 V3) as [L1 L2].
  exists (q2 mf ef), (q2 mq eq), (q2 mp ep). repeat (split; [assumption|]). split; [exists (nf * nq), (df * dq)|exists (unit * d), n]; (split; [nia|symmetry; assumption]).
Qed.

Lemma dbl q : (q == qr (Qnum q) (Zpos (Qden q)))%Q.
Proof. destruct q as [a b]. unfold qr. cbn [Qnum Qden]. rewrite (Qmake_Qdiv a b). reflexivity. Qed.
Lemma rel q x : (q2 1 (-1022) <= q)%Q -> nearest binary64 q x -> (q * (1 - eps) <= x)%Q /\ (x <= q * (1 + eps))%Q.
Proof.
  intros B N. pose proof (dbl q) as E. assert (P : 0 < Qnum q).
  { assert (X : (0 < q)%Q) by (eapply Qlt_le_trans; [apply (q2_pos 1 (-1022)); lia|exact B]). unfold Qlt in X. cbn in X. lia. }
  rewrite E in B. apply (nearest_eq _ _ _ _ _ E (Qeq_refl _)) in N. destruct (rel_error (Qnum q) (Zpos (Qden q)) x P eq_refl B N) as [L U]. rewrite <- E in L, U. auto.
Qed.
Lemma float_num q z : (q == inject_Z z)%Q -> 0 <= z < 2 ^ 53 -> forall x, nearest binary64 q x -> (x == inject_Z z)%Q.
Proof.
  intros E B x N. apply (nearest_unique binary64 q x _ ok64 N). apply (nearest_eq _ (inject_Z z) _ (inject_Z z) _); [symmetry; exact E|reflexivity|]. apply nearest_self, int_float, B.
Qed.

(** Exact if the unit divided by the scale is an integer. *)
Lemma frac_exact f c k : (k <= 22)%nat -> 0 < f < 10 ^ Z.of_nat k -> 0 < c -> c * 10 ^ Z.of_nat k <= max_unit ->
  frac_ns f (c * 10 ^ Z.of_nat k) (sc k) = f * c.
Proof.
  intros K HF HC HU. destruct (sc_small k ltac:(lia)) as (m & e & -> & M & _ & _ & EX). specialize (EX K).
  set (t := 10 ^ Z.of_nat k) in *. assert (T : 1 <= t) by lia.
  assert (UB : c * t < 2 ^ 53) by (unfold max_unit in HU; lia).
  assert (S1 : (1 <= q2 m e)%Q) by (rewrite EX; unfold p10; fold t; change 1%Q with (inject_Z 1); rewrite <- Zle_Qle; exact T).
  destruct (frac_ns_spec f (c * t) m e ltac:(nia) ltac:(nia) M S1) as (A & B & P & NA & NB & NP & L1 & L2 & _).
  pose proof (float_num _ f (Qeq_refl _) ltac:(nia) A NA) as EA.
  assert (EQ : (inject_Z (c * t) / q2 m e == inject_Z c)%Q) by (rewrite EX; unfold p10; fold t; rewrite inject_Z_mult; field; apply inj_nz; lia).
  pose proof (float_num _ c EQ ltac:(nia) B NB) as EB.
  assert (EP : (P == inject_Z (f * c))%Q) by (apply (float_num (A * B)); [rewrite EA, EB, inject_Z_mult; reflexivity|nia|exact NP]).
  rewrite EP in L1, L2. rewrite <- Zle_Qle in L1. change 1%Q with (inject_Z 1) in L2. rewrite <- inject_Z_plus, <- Zlt_Qlt in L2. lia.
Qed.
(** Close in any case. *)
Lemma q2_shift m e j : (q2 m (e + j) == q2 m e * inject_Z 2 ^ j)%Q.
Proof. unfold q2. rewrite Qpower_plus by (apply (inj_nz 2); lia). change (2 # 1)%Q with (inject_Z 2). ring. Qed.
Lemma le_mult a b c d : (0 <= a)%Q -> (0 <= c)%Q -> (a <= b)%Q -> (c <= d)%Q -> (a * c <= b * d)%Q.
Proof. intros A C H K. apply Qle_trans with (b * c)%Q; [apply Qmult_le_compat_r; assumption|]. rewrite (Qmult_comm b c), (Qmult_comm b d). apply Qmult_le_compat_r; [exact K|exact (Qle_trans _ _ _ A H)]. Qed.
Lemma frac_near f unit k : 0 < f <= 2 ^ 63 -> f < 10 ^ Z.of_nat k -> 0 < unit <= max_unit ->
  let G := (inject_Z (f * unit) / p10 k)%Q in let v := inject_Z (frac_ns f unit (sc k)) in
  (G - (1005 # 1000) < v)%Q /\ (v < G + (5 # 1000))%Q /\ (0 <= v)%Q.
Proof.
  intros HF HT HU G v.
  assert (F1 : (1 <= inject_Z f)%Q) by (change 1%Q with (inject_Z 1); rewrite <- Zle_Qle; lia).
  assert (U1 : (1 <= inject_Z unit)%Q) by (change 1%Q with (inject_Z 1); rewrite <- Zle_Qle; lia).
  assert (UM : (inject_Z unit <= inject_Z max_unit)%Q) by (rewrite <- Zle_Qle; lia).
  assert (TP : (0 < p10 k)%Q) by apply p10_pos.
  assert (FT : (inject_Z f < p10 k)%Q) by (unfold p10; rewrite <- Zlt_Qlt; exact HT).
  assert (NT : ~ (p10 k == 0)%Q) by (apply Qnot_eq_sym, Qlt_not_eq, TP).
  assert (GE : (G == inject_Z f * (inject_Z unit / p10 k))%Q) by (unfold G; rewrite inject_Z_mult; field; exact NT).
  assert (GT : (G * p10 k == inject_Z f * inject_Z unit)%Q) by (unfold G; rewrite inject_Z_mult; field; exact NT).
  assert (G0 : (0 < G)%Q).
  { rewrite GE. apply Qmult_lt_0_compat; [lra|]. apply Qlt_shift_div_l; [exact TP|]. rewrite Qmult_0_l. lra. }
  assert (GU : (G < inject_Z unit)%Q).
  { rewrite <- (Qmult_lt_r _ _ (p10 k)) by exact TP. rewrite GT, Qmult_comm. rewrite Qmult_lt_l by lra. exact FT. }
  assert (K1 : (q2 1 (-1022) <= 1)%Q) by (vm_compute; discriminate).
  assert (K2 : (q2 1 (-1022) <= q2 1 (-200))%Q) by (vm_compute; discriminate).
  assert (K3 : (q2 1 (-1022) <= q2 1 (-300))%Q) by (vm_compute; discriminate).
  destruct (le_lt_dec k 32) as [K|K].
  - destruct (sc_small k K) as (m & e & S & M & SL & SU & _). unfold v. rewrite S. set (t := p10 k) in *. set (s := q2 m e) in *.
    assert (T1 : (1 < t)%Q) by lra.
    assert (S1 : (1 <= s)%Q).
    { unfold s. destruct k as [|k']; [unfold t, p10 in FT; cbn in FT; change 1%Q with (inject_Z 1) in F1; rewrite <- Zlt_Qlt in FT; lia|].
      eapply Qle_trans; [|exact SL]. apply Qle_trans with (10 * (1 - eps))%Q; [vm_compute; discriminate|]. rewrite Qmult_le_r by (vm_compute; reflexivity).
      unfold t, p10. change 10%Q with (inject_Z 10). rewrite <- Zle_Qle. rewrite Nat2Z.inj_succ, Z.pow_succ_r by lia. pose proof (Z.pow_pos_nonneg 10 (Z.of_nat k')). lia. }
    destruct (frac_ns_spec f unit m e HF ltac:(lia) M S1) as (A & B & P & NA & NB & NP & L1 & L2 & A0 & B0 & _). fold s in NB. clearbody s.
    set (r := (inject_Z unit / t)%Q) in *. set (y := (inject_Z unit / s)%Q) in *.
    assert (YS : (y * s == inject_Z unit)%Q) by (unfold y; field; lra).
    assert (RT : (r * t == inject_Z unit)%Q) by (unfold r; field; exact NT).
    assert (R0 : (0 < r)%Q) by (unfold r; apply Qlt_shift_div_l; [exact TP|rewrite Qmult_0_l; lra]).
    assert (Y0 : (0 < y)%Q) by (unfold y; apply Qlt_shift_div_l; [lra|rewrite Qmult_0_l; lra]).
    assert (YU : (y <= r * (1 + 2 * eps))%Q).
    { assert (X : (y * (1 - eps) <= r)%Q).
      { rewrite <- (Qmult_le_r _ _ t) by exact TP. rewrite RT, <- YS.
        setoid_replace (y * (1 - eps) * t)%Q with (y * (t * (1 - eps)))%Q by ring. rewrite Qmult_le_l by exact Y0. exact SL. }
      rewrite <- (Qmult_le_r _ _ (1 - eps)) by (vm_compute; reflexivity). eapply Qle_trans; [exact X|].
      setoid_replace (r * (1 + 2 * eps) * (1 - eps))%Q with (r * ((1 + 2 * eps) * (1 - eps)))%Q by ring. rewrite <- (Qmult_1_r r) at 1. rewrite Qmult_le_l by exact R0. vm_compute. discriminate. }
    assert (YL : (r * (1 - eps) <= y)%Q).
    { assert (X : (r <= y * (1 + eps))%Q).
      { rewrite <- (Qmult_le_r _ _ t) by exact TP. rewrite RT, <- YS.
        setoid_replace (y * (1 + eps) * t)%Q with (y * (t * (1 + eps)))%Q by ring. rewrite Qmult_le_l by exact Y0. exact SU. }
      rewrite <- (Qmult_le_r _ _ (1 + eps)) by (vm_compute; reflexivity). eapply Qle_trans; [|exact X].
      setoid_replace (r * (1 - eps) * (1 + eps))%Q with (r * ((1 - eps) * (1 + eps)))%Q by ring. rewrite <- (Qmult_1_r r) at 2. rewrite Qmult_le_l by exact R0. vm_compute. discriminate. }
    assert (YB : (q2 1 (-200) <= y)%Q).
    { unfold y. apply Qle_shift_div_l; [lra|]. apply Qle_trans with (q2 1 (-200) * inject_Z (2 ^ 200))%Q; [|eapply Qle_trans; [|exact U1]; vm_compute; discriminate].
      rewrite Qmult_le_l by (apply q2_pos; lia). eapply Qle_trans; [exact SU|]. apply Qle_trans with (p10 32 * (1 + eps))%Q; [|vm_compute; discriminate].
      rewrite Qmult_le_r by (vm_compute; reflexivity). unfold t, p10. rewrite <- Zle_Qle. apply Z.pow_le_mono_r; lia. }
    destruct (rel _ A (Qle_trans _ _ _ K1 F1) NA) as [AL AU].
    destruct (rel _ B (Qle_trans _ _ _ K2 YB) NB) as [BL BU].
    set (ff := inject_Z f) in *.
    assert (BU' : (B <= r * ((1 + 2 * eps) * (1 + eps)))%Q).
    { eapply Qle_trans; [exact BU|]. rewrite Qmult_assoc. rewrite Qmult_le_r by (vm_compute; reflexivity). exact YU. }
    assert (BL' : (r * ((1 - eps) * (1 - eps)) <= B)%Q).
    { eapply Qle_trans; [|exact BL]. rewrite Qmult_assoc. rewrite Qmult_le_r by (vm_compute; reflexivity). exact YL. }
    assert (ABU : (A * B <= G * ((1 + eps) * ((1 + 2 * eps) * (1 + eps))))%Q).
    { eapply Qle_trans; [apply (le_mult A _ B _ A0 B0 AU BU')|]. rewrite GE. apply Qle_lteq. right. ring. }
    assert (ABL : (G * ((1 - eps) * ((1 - eps) * (1 - eps))) <= A * B)%Q).
    { eapply Qle_trans; [|apply (le_mult (ff * (1 - eps)) _ (r * ((1 - eps) * (1 - eps))) _)]; [rewrite GE; apply Qle_lteq; right; ring| | |exact AL|exact BL'].
      - apply Qmult_le_0_compat; [lra|vm_compute; discriminate].
      - apply Qmult_le_0_compat; [lra|vm_compute; discriminate]. }
    assert (GB : (q2 1 (-300) <= A * B)%Q).
    { apply Qle_trans with ((1 - eps) * (q2 1 (-200) * (1 - eps)))%Q; [vm_compute; discriminate|]. apply le_mult; try (vm_compute; discriminate).
      - eapply Qle_trans; [|exact AL]. rewrite <- (Qmult_1_l (1 - eps)) at 1. rewrite Qmult_le_r by (vm_compute; reflexivity). exact F1.
      - eapply Qle_trans; [|exact BL]. rewrite Qmult_le_r by (vm_compute; reflexivity). exact YB. }
    destruct (rel _ P (Qle_trans _ _ _ K3 GB) NP) as [PL PU].
    assert (PU' : (P <= G * (1 + 6 * eps))%Q).
    { eapply Qle_trans; [exact PU|]. apply Qle_trans with (G * ((1 + eps) * ((1 + 2 * eps) * (1 + eps))) * (1 + eps))%Q; [rewrite Qmult_le_r by (vm_compute; reflexivity); exact ABU|].
      setoid_replace (G * ((1 + eps) * ((1 + 2 * eps) * (1 + eps))) * (1 + eps))%Q with (G * ((1 + eps) * ((1 + 2 * eps) * (1 + eps)) * (1 + eps)))%Q by ring.
      rewrite Qmult_le_l by exact G0. vm_compute. discriminate. }
    assert (PL' : (G * (1 - 6 * eps) <= P)%Q).
    { eapply Qle_trans; [|exact PL]. apply Qle_trans with (G * ((1 - eps) * ((1 - eps) * (1 - eps))) * (1 - eps))%Q; [|rewrite Qmult_le_r by (vm_compute; reflexivity); exact ABL].
      setoid_replace (G * ((1 - eps) * ((1 - eps) * (1 - eps))) * (1 - eps))%Q with (G * ((1 - eps) * ((1 - eps) * (1 - eps)) * (1 - eps)))%Q by ring.
      rewrite Qmult_le_l by exact G0. vm_compute. discriminate. }
    assert (SM : (G * (6 * eps) < 5 # 1000)%Q).
    { apply Qlt_trans with (inject_Z unit * (6 * eps))%Q; [rewrite Qmult_lt_r by reflexivity; exact GU|].
      apply Qle_lt_trans with (inject_Z max_unit * (6 * eps))%Q; [rewrite Qmult_le_r by reflexivity; exact UM|]. vm_compute. reflexivity. }
    set (z := frac_ns f unit (Some (m, e))) in *. split; [lra|]. split; [lra|].
    change 0%Q with (inject_Z 0). rewrite <- Zle_Qle. assert (X : (inject_Z (-1) < inject_Z z)%Q); [|rewrite <- Zlt_Qlt in X; lia].
    assert (P0 : (0 <= P)%Q) by (eapply Qle_trans; [|exact PL']; apply Qmult_le_0_compat; [lra|vm_compute; discriminate]). change (inject_Z (-1)) with (-1)%Q. lra.
  - assert (V : (v == 0)%Q).
    { unfold v. pose proof (sc_large k ltac:(lia)) as L. destruct (sc k) as [[m e]|]; [|reflexivity]. destruct L as [M L].
      destruct (frac_ns_spec f unit m e HF ltac:(lia) M) as (A & B & P & NA & NB & NP & L1 & L2 & A0 & B0 & _); [eapply Qle_trans; [|exact L]; vm_compute; discriminate|].
      assert (AU : (A <= q2 1 63)%Q).
      { refine (nearest_mono binary64 _ (q2 1 63) _ _ ok64 _ NA _); [|apply nearest_self, pow2_float; lia]. change (q2 1 63) with (inject_Z (2 ^ 63)). rewrite <- Zle_Qle. lia. }
      assert (BU : (B <= q2 1 (-64))%Q).
      { refine (nearest_mono binary64 _ (q2 1 (-64)) _ _ ok64 _ NB _); [|apply nearest_self, pow2_float; lia]. apply Qle_shift_div_r; [apply q2_pos, M|].
        apply Qle_trans with (q2 1 (-64) * q2 1 106)%Q; [|rewrite Qmult_le_l by (apply q2_pos; lia); exact L]. eapply Qle_trans; [exact UM|]. vm_compute. discriminate. }
      assert (PU : (P <= q2 1 (-1))%Q).
      { refine (nearest_mono binary64 _ (q2 1 (-1)) _ _ ok64 _ NP _); [|apply nearest_self, pow2_float; lia]. eapply Qle_trans; [apply (le_mult A _ B _ A0 B0 AU BU)|]. vm_compute. discriminate. }
      assert (P0 : (0 <= P)%Q) by (apply (nearest_nonneg binary64 (A * B)); [exact ok64|apply Qmult_le_0_compat; assumption|exact NP]).
      set (z := frac_ns f unit (Some (m, e))) in *. change (q2 1 (-1)) with (1 # 2)%Q in PU. change 0%Q with (inject_Z 0). apply inject_Z_injective.
      assert (X1 : (inject_Z z < inject_Z 1)%Q) by (change (inject_Z 1) with 1%Q; lra). assert (X2 : (inject_Z (-1) < inject_Z z)%Q) by (change (inject_Z (-1)) with (-1)%Q; lra).
      rewrite <- Zlt_Qlt in X1, X2. lia. }
    assert (GS : (G < 1)%Q).
    { rewrite <- (Qmult_lt_r _ _ (p10 k)) by exact TP. rewrite GT, Qmult_1_l. unfold p10. rewrite <- inject_Z_mult, <- Zlt_Qlt.
      apply Z.lt_le_trans with (10 ^ 32); [unfold max_unit in HU; nia|]. apply Z.pow_le_mono_r; lia. }
    rewrite V. split; [lra|]. split; lra.
Qed.
