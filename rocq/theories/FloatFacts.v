(** Lemmas about floats: rounding gives the nearest float, the nearest float is
    unique, rounding is monotone, the shortest decimal reads back. *)
From Coq Require Import QArith Qabs Qpower Lqa.
From Verif Require Import Bytes ParseModel IntModel EncModel SpecJson SpecNum SpecRender SpecTrip FloatModel SpecFloat ParseFacts IntFacts NumFacts ExactFloat.
From Coq Require Import Lia.
Local Open Scope Z_scope.

(** m * b^e *)
Definition qb (b m e : Z) : Q := (inject_Z m * inject_Z b ^ e)%Q.
Lemma pw_pos b e : 0 < b -> (0 < inject_Z b ^ e)%Q.
Proof. intros H. apply Qpower_0_lt. change 0%Q with (inject_Z 0). rewrite <- Zlt_Qlt. exact H. Qed.
Lemma inj_nz b : 0 < b -> ~ (inject_Z b == 0)%Q.
Proof. intros H E. apply (proj1 (inject_Z_injective b 0)) in E. lia. Qed.
Lemma qb_shift b m e k : 0 < b -> 0 <= k -> (qb b (m * b ^ k) e == qb b m (e + k))%Q.
Proof.
  intros B K. unfold qb. rewrite Qpower_plus by (apply inj_nz, B). rewrite inject_Z_mult, Zpower_Qpower by exact K. ring.
Qed.
Lemma qb_le b m m' e : 0 < b -> ((qb b m e <= qb b m' e)%Q <-> m <= m').
Proof. intros B. unfold qb. rewrite Qmult_le_r by (apply pw_pos, B). rewrite <- Zle_Qle. reflexivity. Qed.
Lemma qb_lt b m m' e : 0 < b -> ((qb b m e < qb b m' e)%Q <-> m < m').
Proof. intros B. unfold qb. rewrite Qmult_lt_r by (apply pw_pos, B). rewrite <- Zlt_Qlt. reflexivity. Qed.
Lemma qb_eq b m m' e : 0 < b -> ((qb b m e == qb b m' e)%Q <-> m = m').
Proof.
  intros B. unfold qb. split; [|intros ->; reflexivity].
  intros H. apply Qmult_inj_r in H; [apply inject_Z_injective, H|]. apply Qnot_eq_sym, Qlt_not_eq, pw_pos, B.
Qed.
(** n / d *)
Definition qr (n d : Z) : Q := (inject_Z n / inject_Z d)%Q.
Lemma qr_mul n d : 0 < d -> (qr n d * inject_Z d == inject_Z n)%Q.
Proof. intros D. unfold qr. field. apply inj_nz, D. Qed.
Lemma ratio_val b m e n d : 0 < b -> ratio b m e = (n, d) -> 0 < d /\ (qr n d == qb b m e)%Q /\ (0 < m -> 0 < n).
Proof.
  intros B E. unfold ratio in E. destruct (0 <=? e) eqn:L; injection E as <- <-.
  - apply Z.leb_le in L. split; [lia|]. split; [|intros; apply Z.mul_pos_pos; [lia|apply Z.pow_pos_nonneg; lia]].
    unfold qr, qb. rewrite inject_Z_mult, Zpower_Qpower by exact L. change (inject_Z 1) with 1%Q. field.
  - apply Z.leb_gt in L. split; [apply Z.pow_pos_nonneg; lia|]. split; [|lia].
    unfold qr, qb. rewrite Zpower_Qpower by lia. rewrite Qpower_opp. unfold Qdiv. rewrite Qinv_involutive. reflexivity.
Qed.
Lemma scale_val b n d e n' d' : 0 < b -> 0 < d -> scale b n d e = (n', d') ->
  0 < d' /\ (qr n d == qr n' d' * inject_Z b ^ e)%Q /\ (0 < n -> 0 < n').
Proof.
  intros B D E. unfold scale in E. destruct (0 <=? e) eqn:L; injection E as <- <-.
  - apply Z.leb_le in L. split; [apply Z.mul_pos_pos; [lia|apply Z.pow_pos_nonneg; lia]|]. split; [|auto].
    unfold qr. rewrite inject_Z_mult, Zpower_Qpower by exact L. field. split; [apply Qnot_eq_sym, Qlt_not_eq, pw_pos, B|apply inj_nz, D].
  - apply Z.leb_gt in L. split; [lia|]. split; [|intros; apply Z.mul_pos_pos; [lia|apply Z.pow_pos_nonneg; lia]].
    unfold qr. rewrite inject_Z_mult, Zpower_Qpower by lia. rewrite Qpower_opp. field. split; [apply Qnot_eq_sym, Qlt_not_eq, pw_pos, B|apply inj_nz, D].
Qed.

Lemma qr_lt n d k : 0 < d -> ((qr n d < inject_Z k)%Q <-> n < k * d).
Proof.
  intros D. rewrite <- (Qmult_lt_r _ _ (inject_Z d)) by (change 0%Q with (inject_Z 0); rewrite <- Zlt_Qlt; exact D).
  rewrite qr_mul by exact D. rewrite <- inject_Z_mult, <- Zlt_Qlt. reflexivity.
Qed.
Lemma qr_le n d k : 0 < d -> ((inject_Z k <= qr n d)%Q <-> k * d <= n).
Proof.
  intros D. rewrite <- (Qmult_le_r _ _ (inject_Z d)) by (change 0%Q with (inject_Z 0); rewrite <- Zlt_Qlt; exact D).
  rewrite qr_mul by exact D. rewrite <- inject_Z_mult, <- Zle_Qle. reflexivity.
Qed.
Lemma qr_pos n d : 0 < n -> 0 < d -> (0 < qr n d)%Q.
Proof. intros N D. unfold qr. apply Qlt_shift_div_l; [change 0%Q with (inject_Z 0); rewrite <- Zlt_Qlt; exact D|]. rewrite Qmult_0_l. change 0%Q with (inject_Z 0). rewrite <- Zlt_Qlt. exact N. Qed.

(** Logarithms. *)
Lemma pw_mono b e e' : 1 < b -> ((inject_Z b ^ e < inject_Z b ^ e')%Q <-> e < e').
Proof.
  intros B.
  assert (M : forall e e', e < e' -> (inject_Z b ^ e < inject_Z b ^ e')%Q).
  { clear e e'. intros e e' L. replace e' with (e + (e' - e)) by lia. rewrite Qpower_plus by (apply inj_nz; lia).
    rewrite <- (Qmult_1_r (inject_Z b ^ e)) at 1. rewrite Qmult_lt_l by (apply pw_pos; lia).
    rewrite <- Zpower_Qpower by lia. change 1%Q with (inject_Z 1). rewrite <- Zlt_Qlt. apply Z.pow_gt_1; lia. }
  split; [|apply M]. intros H. destruct (Z.lt_trichotomy e e') as [L|[->|L]]; [exact L| |].
  - exfalso. apply (Qlt_irrefl _ H).
  - exfalso. apply (Qlt_irrefl (inject_Z b ^ e)). eapply Qlt_trans; [exact H|apply M, L].
Qed.
Lemma pw_mono_le b e e' : 1 < b -> e <= e' -> (inject_Z b ^ e <= inject_Z b ^ e')%Q.
Proof. intros B L. destruct (Z.eq_dec e e') as [->|N]; [apply Qle_refl|]. apply Qlt_le_weak, pw_mono; lia. Qed.
Lemma log_step b n d ln ld n' d' : 1 < b -> 0 < n -> 0 < d -> 0 <= ln -> 0 <= ld -> b ^ ln <= n < b ^ (ln + 1) -> b ^ ld <= d < b ^ (ld + 1) ->
  scale b n d (ln - ld) = (n', d') ->
  let k := if n' <? d' then ln - ld - 1 else ln - ld in (inject_Z b ^ k <= qr n d)%Q /\ (qr n d < inject_Z b ^ (k + 1))%Q.
Proof.
  intros B N D Ln Ld [N1 N2] [D1 D2] E. destruct (scale_val b n d _ n' d' ltac:(lia) D E) as (D' & V & _).
  assert (P : (0 < inject_Z b ^ (ln - ld))%Q) by (apply pw_pos; lia).
  assert (U : (qr n d < inject_Z b ^ (ln - ld + 1))%Q).
  { unfold qr. apply Qlt_shift_div_r; [change 0%Q with (inject_Z 0); rewrite <- Zlt_Qlt; exact D|].
    apply Qlt_le_trans with (inject_Z (b ^ (ln + 1))); [rewrite <- Zlt_Qlt; exact N2|].
    rewrite Zpower_Qpower by lia. replace (ln + 1) with (ln - ld + 1 + ld) by lia. rewrite Qpower_plus by (apply inj_nz; lia).
    rewrite Qmult_le_l by (apply pw_pos; lia). rewrite <- Zpower_Qpower by lia. rewrite <- Zle_Qle. exact D1. }
  assert (W : (inject_Z b ^ (ln - ld - 1) <= qr n d)%Q).
  { unfold qr. apply Qle_shift_div_l; [change 0%Q with (inject_Z 0); rewrite <- Zlt_Qlt; exact D|].
    apply Qle_trans with (inject_Z (b ^ ln)); [|rewrite <- Zle_Qle; exact N1].
    rewrite Zpower_Qpower by lia. replace ln with (ln - ld - 1 + (ld + 1)) at 2 by lia. rewrite Qpower_plus by (apply inj_nz; lia).
    rewrite Qmult_le_l by (apply pw_pos; lia). rewrite <- Zpower_Qpower by lia. rewrite <- Zle_Qle. lia. }
  cbv zeta. destruct (n' <? d') eqn:L.
  - apply Z.ltb_lt in L. split; [exact W|]. replace (ln - ld - 1 + 1) with (ln - ld) by lia. rewrite V.
    rewrite <- (Qmult_1_l (inject_Z b ^ (ln - ld))) at 2. rewrite Qmult_lt_r by exact P. apply (qr_lt n' d' 1 D'). lia.
  - apply Z.ltb_ge in L. split; [|exact U]. rewrite V. rewrite <- (Qmult_1_l (inject_Z b ^ (ln - ld))) at 1.
    rewrite Qmult_le_r by exact P. apply (qr_le n' d' 1 D'). lia.
Qed.
Lemma floor_log2_ok n d : 0 < n -> 0 < d -> (inject_Z 2 ^ floor_log2 n d <= qr n d)%Q /\ (qr n d < inject_Z 2 ^ (floor_log2 n d + 1))%Q.
Proof.
  intros N D. unfold floor_log2. cbv zeta. destruct (scale 2 n d (Z.log2 n - Z.log2 d)) as [n' d'] eqn:E.
  apply (log_step 2 n d (Z.log2 n) (Z.log2 d) n' d'); try lia; try apply Z.log2_nonneg; try exact E.
  - pose proof (Z.log2_spec n N). unfold Z.succ in *. lia.
  - pose proof (Z.log2_spec d D). unfold Z.succ in *. lia.
Qed.
(** The nearest integer. *)
Lemma div_even_ok n d : 0 < d -> let m := div_even n d in 2 * Z.abs (n - m * d) <= d /\ (2 * Z.abs (n - m * d) = d -> Z.even m = true) /\ n / d <= m <= n / d + 1.
Proof.
  intros D. unfold div_even. cbv zeta. pose proof (Z.div_mod n d ltac:(lia)) as E. pose proof (Z.mod_pos_bound n d D) as B.
  set (q := n / d) in *. set (r := n mod d) in *. clearbody q r.
  destruct (2 * r <? d) eqn:L; [apply Z.ltb_lt in L; split; [nia|split; [nia|lia]]|apply Z.ltb_ge in L].
  destruct (d <? 2 * r) eqn:L2; [apply Z.ltb_lt in L2; split; [nia|split; [nia|lia]]|apply Z.ltb_ge in L2].
  destruct (Z.even q) eqn:V; (split; [nia|split; [|lia]]); [auto|]. intros _. rewrite Z.add_1_r, Z.even_succ, <- Z.negb_even, V. reflexivity.
Qed.
Lemma half_int v (m k : Z) : (- (1 # 2) <= v - inject_Z m)%Q -> (v - inject_Z m <= 1 # 2)%Q -> k <> m ->
  (Qabs (v - inject_Z m) <= Qabs (v - inject_Z k))%Q /\
  ((Qabs (v - inject_Z m) == Qabs (v - inject_Z k))%Q -> (Qabs (v - inject_Z m) == 1 # 2)%Q).
Proof.
  intros H1 H2 N.
  assert (A : (Qabs (v - inject_Z m) <= 1 # 2)%Q) by (apply Qabs_Qle_condition; split; assumption).
  assert (B : ((1 # 2) <= Qabs (v - inject_Z k))%Q).
  { destruct (Z.lt_ge_cases k m) as [L|L].
    - apply Qle_trans with (v - inject_Z k)%Q; [|apply Qle_Qabs]. assert (X : (inject_Z k + 1 <= inject_Z m)%Q) by (change 1%Q with (inject_Z 1); rewrite <- inject_Z_plus, <- Zle_Qle; lia). lra.
    - rewrite Qabs_Qminus. apply Qle_trans with (inject_Z k - v)%Q; [|apply Qle_Qabs]. assert (X : (inject_Z m + 1 <= inject_Z k)%Q) by (change 1%Q with (inject_Z 1); rewrite <- inject_Z_plus, <- Zle_Qle; lia). lra. }
  split; [eapply Qle_trans; eassumption|]. intros E. apply Qle_antisym; [exact A|]. rewrite E. exact B.
Qed.
Lemma div_even_q n d : 0 < d -> let m := div_even n d in (- (1 # 2) <= qr n d - inject_Z m)%Q /\ (qr n d - inject_Z m <= 1 # 2)%Q /\
  ((Qabs (qr n d - inject_Z m) == 1 # 2)%Q -> Z.even m = true).
Proof.
  intros D. cbv zeta. destruct (div_even_ok n d D) as (A & B & _). set (m := div_even n d) in *. clearbody m.
  assert (DP : (0 < inject_Z d)%Q) by (change 0%Q with (inject_Z 0); rewrite <- Zlt_Qlt; exact D).
  assert (E : (qr n d - inject_Z m == qr (n - m * d) d)%Q) by (unfold qr, Z.sub; rewrite inject_Z_plus, inject_Z_opp, inject_Z_mult; field; apply inj_nz, D).
  assert (R : forall z, (qr z d == inject_Z z * / inject_Z d)%Q) by reflexivity.
  rewrite E. set (z := n - m * d) in *. clearbody z. split; [|split].
  - unfold qr. apply Qle_shift_div_l; [exact DP|]. assert (X : (inject_Z (- d) <= inject_Z (2 * z))%Q) by (rewrite <- Zle_Qle; lia).
    rewrite inject_Z_opp, inject_Z_mult in X. change (inject_Z 2) with (2 # 1)%Q in X. lra.
  - unfold qr. apply Qle_shift_div_r; [exact DP|]. assert (X : (inject_Z (2 * z) <= inject_Z d)%Q) by (rewrite <- Zle_Qle; lia).
    rewrite inject_Z_mult in X. change (inject_Z 2) with (2 # 1)%Q in X. lra.
  - intros H. apply B. assert (X : (Qabs (qr z d) * inject_Z d == inject_Z (Z.abs z))%Q).
    { unfold qr. rewrite <- (Qabs_pos (inject_Z d)) at 2 by (apply Qlt_le_weak, DP). rewrite <- Qabs_Qmult.
      setoid_replace (inject_Z z / inject_Z d * inject_Z d)%Q with (inject_Z z) by (field; apply inj_nz, D). reflexivity. }
    rewrite H in X. apply inject_Z_injective. rewrite inject_Z_mult, <- X. change (inject_Z 2) with (2 # 1)%Q. field.
Qed.

(** Floats. *)
Lemma q2_qb m e : q2 m e = qb 2 m e.
Proof. reflexivity. Qed.
Lemma dist_scale a b u : (0 < u)%Q -> (Qabs (a * u - b * u) == Qabs (a - b) * u)%Q.
Proof. intros U. setoid_replace (a * u - b * u)%Q with ((a - b) * u)%Q by ring. rewrite Qabs_Qmult, (Qabs_pos u) by (apply Qlt_le_weak, U). reflexivity. Qed.
Definition fmt_ok (F : bfmt) : Prop := 2 <= b_prec F.

(** Every float y, in units of 2^e: an integer, or smaller than any normal
    significand. *)
Lemma float_units F m' e' e : fmt_ok F -> canonical F m' e' -> b_emin F <= e ->
  (exists k, (q2 m' e' == inject_Z k * inject_Z 2 ^ e)%Q) \/ (b_emin F < e /\ exists r, (q2 m' e' == r * inject_Z 2 ^ e)%Q /\ (Qabs r < inject_Z (2 ^ (b_prec F - 1)))%Q).
Proof.
  intros OK (C1 & C2 & C3) L. unfold fmt_ok in OK. destruct (Z.le_gt_cases e e') as [G|G].
  - left. exists (m' * 2 ^ (e' - e)). change (q2 m' e' == qb 2 (m' * 2 ^ (e' - e)) e)%Q. rewrite qb_shift by lia. replace (e + (e' - e)) with e' by lia. reflexivity.
  - right. split; [lia|]. exists (inject_Z m' * inject_Z 2 ^ (e' - e))%Q. split.
    + unfold q2. change (2 # 1)%Q with (inject_Z 2). rewrite <- Qmult_assoc, <- Qpower_plus by (apply inj_nz; lia). replace (e' - e + e) with e' by lia. reflexivity.
    + rewrite Qabs_Qmult, (Qabs_pos (inject_Z 2 ^ (e' - e))) by (apply Qlt_le_weak, pw_pos; lia).
      apply Qlt_le_trans with (inject_Z (2 ^ b_prec F) * inject_Z 2 ^ (e' - e))%Q.
      * rewrite Qmult_lt_r by (apply pw_pos; lia). change (Qabs (inject_Z m')) with (inject_Z (Z.abs m')). rewrite <- Zlt_Qlt. exact C1.
      * rewrite !Zpower_Qpower by lia. rewrite <- Qpower_plus by (apply inj_nz; lia). apply pw_mono_le; lia.
Qed.
Lemma round_to_ok F n d m e : fmt_ok F -> 0 < n -> 0 < d -> round_to F n d = (m, e) -> canonical F m e /\ 0 <= m /\ nearest F (qr n d) (q2 m e).
Proof.
  intros OK N D E. unfold fmt_ok in OK. unfold round_to in E. cbv zeta in E. set (e0 := Z.max (b_emin F) (floor_log2 n d - b_prec F + 1)) in *.
  destruct (scale 2 n d e0) as [n' d'] eqn:S. destruct (scale_val 2 n d e0 n' d' ltac:(lia) D S) as (D' & V & NP). specialize (NP N).
  destruct (floor_log2_ok n d N D) as [LL LU]. set (l := floor_log2 n d) in *. clearbody l.
  destruct (div_even_q n' d' D') as (H1 & H2 & H3). destruct (div_even_ok n' d' D') as (_ & _ & H4). set (m0 := div_even n' d') in *.
  assert (UP : (0 < inject_Z 2 ^ e0)%Q) by (apply pw_pos; lia).
  set (v := qr n' d') in *. assert (V0 : (0 < v)%Q) by (apply qr_pos; lia).
  assert (VU : (v < inject_Z (2 ^ b_prec F))%Q).
  { rewrite <- (Qmult_lt_r _ _ (inject_Z 2 ^ e0)) by exact UP. rewrite <- V. eapply Qlt_le_trans; [exact LU|].
    rewrite Zpower_Qpower by lia. rewrite <- Qpower_plus by (apply inj_nz; lia). apply pw_mono_le; lia. }
  assert (VL : b_emin F < e0 -> (inject_Z (2 ^ (b_prec F - 1)) <= v)%Q).
  { intros G. rewrite <- (Qmult_le_r _ _ (inject_Z 2 ^ e0)) by exact UP. rewrite <- V. eapply Qle_trans; [|exact LL].
    rewrite Zpower_Qpower by lia. rewrite <- Qpower_plus by (apply inj_nz; lia). apply pw_mono_le; lia. }
  assert (M0 : 0 <= m0) by (pose proof (Z.div_pos n' d' ltac:(lia) ltac:(lia)); lia).
  assert (MU : m0 <= 2 ^ b_prec F).
  { assert (n' / d' < 2 ^ b_prec F); [|lia]. apply Z.div_lt_upper_bound; [lia|]. apply (qr_lt n' d' _ D') in VU. lia. }
  assert (ML : b_emin F < e0 -> 2 ^ (b_prec F - 1) <= m0).
  { intros G. specialize (VL G). apply (qr_le n' d' _ D') in VL. pose proof (Z.div_le_lower_bound n' d' (2 ^ (b_prec F - 1)) ltac:(lia) ltac:(lia)). lia. }
  assert (E0 : b_emin F <= e0) by (unfold e0; lia).
  assert (PP : 2 ^ b_prec F = 2 * 2 ^ (b_prec F - 1)) by (rewrite <- Z.pow_succ_r by lia; f_equal; lia).
  assert (P1 : 0 < 2 ^ (b_prec F - 1)) by (apply Z.pow_pos_nonneg; lia).
  assert (CV : canonical F m e /\ 0 <= m /\ (q2 m e == inject_Z m0 * inject_Z 2 ^ e0)%Q /\ (Z.even m0 = true -> Z.even m = true)).
  { destruct (m0 =? 2 ^ b_prec F) eqn:Q; injection E as <- <-.
    - apply Z.eqb_eq in Q. unfold canonical. rewrite Z.abs_eq by lia. split; [split; [lia|split; [lia|left; lia]]|]. split; [lia|]. split.
      + rewrite Q, PP. change (q2 (2 ^ (b_prec F - 1)) (e0 + 1) == qb 2 (2 * 2 ^ (b_prec F - 1)) e0)%Q. rewrite Z.mul_comm.
        replace (2 ^ (b_prec F - 1) * 2) with (2 ^ (b_prec F - 1) * 2 ^ 1) by lia. rewrite qb_shift by lia. reflexivity.
      + intros _. replace (b_prec F - 1) with (Z.succ (b_prec F - 2)) by lia. rewrite Z.pow_succ_r by lia. rewrite Z.even_mul. reflexivity.
    - apply Z.eqb_neq in Q. unfold canonical. rewrite Z.abs_eq by lia. split; [|split; [lia|split; [reflexivity|auto]]].
      split; [lia|]. split; [lia|]. destruct (Z.eq_dec e0 (b_emin F)) as [->|NE]; [right; reflexivity|left; apply ML; lia]. }
  destruct CV as (C & MP & XV & EV). split; [exact C|]. split; [exact MP|].
  assert (KEY : forall y, is_float F y -> (Qabs (qr n d - q2 m e) <= Qabs (qr n d - y))%Q /\
     (~ (y == q2 m e)%Q -> (Qabs (qr n d - q2 m e) == Qabs (qr n d - y))%Q -> Z.even m0 = true)).
  { intros y (my & ey & CY & ->). rewrite XV, V.
    destruct (float_units F my ey e0 OK CY E0) as [(k & ->)|(G & r & -> & R)]; rewrite !dist_scale by exact UP; rewrite Qmult_le_r by exact UP.
    - destruct (Z.eq_dec k m0) as [->|NK]; [split; [apply Qle_refl|intros NE; destruct NE; reflexivity]|].
      destruct (half_int v m0 k H1 H2 NK) as [A B]. split; [exact A|]. intros _ Q. apply H3, B. apply Qmult_inj_r in Q; [exact Q|]. apply Qnot_eq_sym, Qlt_not_eq, UP.
    - specialize (VL G). specialize (ML G). set (P := 2 ^ (b_prec F - 1)) in *.
      assert (A : (Qabs (v - inject_Z m0) <= v - inject_Z P)%Q).
      { destruct (Z.eq_dec P m0) as [<-|NK]; [rewrite Qabs_pos by lra; apply Qle_refl|].
        destruct (half_int v m0 P H1 H2 NK) as [A _]. rewrite (Qabs_pos (v - inject_Z P)) in A by lra. exact A. }
      assert (B : (v - inject_Z P < Qabs (v - r))%Q).
      { apply Qlt_le_trans with (v - r)%Q; [|apply Qle_Qabs]. pose proof (Qle_Qabs r). lra. }
      split; [apply Qlt_le_weak; eapply Qle_lt_trans; eassumption|]. intros _ Q. exfalso.
      apply Qmult_inj_r in Q; [|apply Qnot_eq_sym, Qlt_not_eq, UP]. rewrite Q in A. apply (Qlt_irrefl (v - inject_Z P)). eapply Qlt_le_trans; eassumption. }
  split; [exists m, e; split; [exact C|reflexivity]|]. split; [intros y Y; apply (KEY y Y)|].
  intros (y & Y & NE & Q). exists m, e. split; [exact C|]. split; [apply EV, (proj2 (KEY y Y) NE Q)|reflexivity].
Qed.

(** The nearest float is unique. *)
Lemma canonical_unique F m1 e1 m2 e2 : fmt_ok F -> canonical F m1 e1 -> canonical F m2 e2 -> (q2 m1 e1 == q2 m2 e2)%Q -> m1 = m2 /\ e1 = e2.
Proof.
  intros OK C1 C2 E. unfold fmt_ok in OK.
  assert (W : forall m1 e1 m2 e2, canonical F m1 e1 -> canonical F m2 e2 -> (q2 m1 e1 == q2 m2 e2)%Q -> ~ e1 < e2).
  { clear m1 e1 m2 e2 C1 C2 E. intros m1 e1 m2 e2 (A1 & A2 & A3) (B1 & B2 & B3) E L.
    assert (X : m1 = m2 * 2 ^ (e2 - e1)).
    { apply (qb_eq 2 _ _ e1); [lia|]. rewrite qb_shift by lia. replace (e1 + (e2 - e1)) with e2 by lia. exact E. }
    destruct B3 as [B3|B3]; [|lia]. rewrite X, Z.abs_mul in A1. rewrite (Z.abs_eq (2 ^ (e2 - e1))) in A1 by (apply Z.pow_nonneg; lia).
    assert (2 ^ 1 <= 2 ^ (e2 - e1)) by (apply Z.pow_le_mono_r; lia).
    assert (PP : 2 ^ b_prec F = 2 * 2 ^ (b_prec F - 1)) by (rewrite <- Z.pow_succ_r by lia; f_equal; lia).
    assert (0 < 2 ^ (b_prec F - 1)) by (apply Z.pow_pos_nonneg; lia). nia. }
  pose proof (W m1 e1 m2 e2 C1 C2 E). assert (E' : (q2 m2 e2 == q2 m1 e1)%Q) by (symmetry; exact E). pose proof (W m2 e2 m1 e1 C2 C1 E').
  assert (e1 = e2) by lia. subst e2. split; [|reflexivity]. apply (qb_eq 2 m1 m2 e1); [lia|exact E].
Qed.
Lemma is_float_eq F x y : (x == y)%Q -> is_float F x -> is_float F y.
Proof. intros E (m & e & C & X). exists m, e. split; [exact C|]. rewrite <- E. exact X. Qed.
Lemma even_float_eq F x y : (x == y)%Q -> even_float F x -> even_float F y.
Proof. intros E (m & e & C & V & X). exists m, e. split; [exact C|]. split; [exact V|]. rewrite <- E. exact X. Qed.
Lemma nearest_eq F q q' x x' : (q == q')%Q -> (x == x')%Q -> nearest F q x -> nearest F q' x'.
Proof.
  intros EQ EX (A & B & C). split; [eapply is_float_eq; eassumption|]. split.
  - intros y Y. rewrite <- EQ, <- EX. apply B, Y.
  - intros (y & Y & N & D). apply (even_float_eq F x); [exact EX|]. apply C. exists y. split; [exact Y|]. split; [rewrite EX; exact N|]. rewrite EQ, EX. exact D.
Qed.
Lemma canonical_opp F m e : canonical F m e -> canonical F (- m) e.
Proof. unfold canonical. rewrite Z.abs_opp. auto. Qed.
Lemma q2_opp m e : (q2 (- m) e == - q2 m e)%Q.
Proof. unfold q2. rewrite inject_Z_opp. ring. Qed.
Lemma is_float_opp F x : is_float F x -> is_float F (- x).
Proof. intros (m & e & C & E). exists (- m), e. split; [apply canonical_opp, C|]. rewrite q2_opp, E. reflexivity. Qed.
Lemma opp_dist q x : (Qabs (- q - x) == Qabs (q - - x))%Q.
Proof. rewrite <- (Qabs_opp (- q - x)). setoid_replace (- (- q - x))%Q with (q - - x)%Q by ring. reflexivity. Qed.
Lemma nearest_opp F q x : nearest F q x -> nearest F (- q) (- x).
Proof.
  intros (A & B & C). split; [apply is_float_opp, A|].
  assert (D : (Qabs (- q - - x) == Qabs (q - x))%Q) by (rewrite opp_dist; setoid_replace (- - x)%Q with x by ring; reflexivity). split.
  - intros y Y. rewrite D, opp_dist. apply B, is_float_opp, Y.
  - intros (y & Y & N & Q). destruct C as (m & e & CA & V & X).
    { exists (- y)%Q. split; [apply is_float_opp, Y|]. split; [intros H; apply N; rewrite <- H; ring|]. rewrite <- D, Q. apply opp_dist. }
    exists (- m), e. split; [apply canonical_opp, CA|]. split; [rewrite Z.even_opp; exact V|]. rewrite q2_opp, X. reflexivity.
Qed.
Lemma zero_float F : fmt_ok F -> is_float F 0.
Proof.
  intros OK. unfold fmt_ok in OK. exists 0, (b_emin F). split; [|unfold q2; change (inject_Z 0) with 0%Q; ring].
  split; [apply Z.pow_pos_nonneg; lia|]. split; [lia|right; reflexivity].
Qed.
Lemma nearest_nonneg F q x : fmt_ok F -> (0 <= q)%Q -> nearest F q x -> (0 <= x)%Q.
Proof.
  intros OK Q (A & B & _). specialize (B 0%Q (zero_float F OK)). destruct (Qlt_le_dec x 0) as [L|L]; [|exact L]. exfalso.
  rewrite (Qabs_pos (q - x)), (Qabs_pos (q - 0)) in B by lra. lra.
Qed.
(** Between a float with an even significand and the next float that also has
    one there is another. *)
Lemma gap F mx ex my ey : fmt_ok F -> canonical F mx ex -> canonical F my ey -> 0 <= mx -> Z.even mx = true -> Z.even my = true ->
  (q2 mx ex < q2 my ey)%Q -> exists z, is_float F z /\ (q2 mx ex < z)%Q /\ (z < q2 my ey)%Q.
Proof.
  intros OK CX CY P VX VY L. pose proof CX as (X1 & X2 & X3). pose proof CY as (Y1 & Y2 & Y3). pose proof OK as OK'. unfold fmt_ok in OK'.
  assert (P1 : 0 < 2 ^ (b_prec F - 1)) by (apply Z.pow_pos_nonneg; lia).
  assert (PP : 2 ^ b_prec F = 2 * 2 ^ (b_prec F - 1)) by (rewrite <- Z.pow_succ_r by lia; f_equal; lia).
  assert (M1 : mx + 1 < 2 ^ b_prec F).
  { assert (mx + 1 <> 2 ^ b_prec F); [|lia]. intros E. assert (V : Z.even (mx + 1) = true) by (rewrite E, PP, Z.even_mul; reflexivity).
    rewrite Z.add_1_r, Z.even_succ, <- Z.negb_even, VX in V. discriminate. }
  assert (CZ : canonical F (mx + 1) ex).
  { split; [lia|]. split; [exact X2|]. destruct X3 as [X3|X3]; [left; lia|right; exact X3]. }
  exists (q2 (mx + 1) ex). split; [exists (mx + 1), ex; split; [exact CZ|reflexivity]|]. split; [rewrite !q2_qb; apply qb_lt; lia|].
  destruct (Qlt_le_dec (q2 (mx + 1) ex) (q2 my ey)) as [G|G]; [exact G|exfalso].
  assert (UP : (0 < inject_Z 2 ^ ex)%Q) by (apply pw_pos; lia).
  destruct (float_units F my ey ex OK CY X2) as [(k & E)|(H & r & E & R)]; rewrite E in L, G; change (q2 mx ex) with (inject_Z mx * inject_Z 2 ^ ex)%Q in L;
    change (q2 (mx + 1) ex) with (inject_Z (mx + 1) * inject_Z 2 ^ ex)%Q in G; rewrite Qmult_lt_r in L by exact UP; rewrite Qmult_le_r in G by exact UP.
  - rewrite <- Zlt_Qlt in L. rewrite <- Zle_Qle in G. assert (k = mx + 1) by lia. subst k.
    destruct (canonical_unique F my ey (mx + 1) ex OK CY CZ E) as [-> _]. rewrite Z.add_1_r, Z.even_succ, <- Z.negb_even, VX in VY. discriminate.
  - destruct X3 as [X3|X3]; [|lia]. apply (Qlt_irrefl r). apply Qlt_trans with (inject_Z mx); [|exact L]. apply Qle_lt_trans with (Qabs r); [apply Qle_Qabs|].
    eapply Qlt_le_trans; [exact R|]. rewrite <- Zle_Qle. lia.
Qed.
Lemma nearest_unique_pos F q x y : fmt_ok F -> (0 <= q)%Q -> nearest F q x -> nearest F q y -> ~ (x < y)%Q.
Proof.
  intros OK Q NX NY L. pose proof (nearest_nonneg F q x OK Q NX) as X0. destruct NX as (FX & BX & TX), NY as (FY & BY & TY).
  assert (D : (Qabs (q - x) == Qabs (q - y))%Q) by (apply Qle_antisym; [apply BX, FY|apply BY, FX]).
  destruct TX as (mx & ex & CX & VX & EX); [exists y; split; [exact FY|]; split; [intros H; rewrite H in L; apply (Qlt_irrefl _ L)|exact D]|].
  destruct TY as (my & ey & CY & VY & EY); [exists x; split; [exact FX|]; split; [intros H; rewrite H in L; apply (Qlt_irrefl _ L)|symmetry; exact D]|].
  assert (MX : 0 <= mx).
  { rewrite EX in X0. assert (X : (qb 2 0 ex <= qb 2 mx ex)%Q) by (unfold qb at 1; change (inject_Z 0) with 0%Q; rewrite Qmult_0_l; exact X0). apply qb_le in X; lia. }
  assert (L' : (q2 mx ex < q2 my ey)%Q) by (rewrite <- EX, <- EY; exact L).
  destruct (gap F mx ex my ey OK CX CY MX VX VY L') as (z & FZ & Z1 & Z2). rewrite <- EX in Z1. rewrite <- EY in Z2.
  assert (H : (q - x == y - q)%Q).
  { revert D. apply Qabs_case; intros A; apply Qabs_case; intros B D; lra. }
  assert (A : (Qabs (q - x) == q - x)%Q) by (apply Qabs_pos; lra).
  pose proof (BX z FZ) as BZ. rewrite A in BZ. assert (C : (Qabs (q - z) < q - x)%Q) by (apply Qabs_Qlt_condition; split; lra). lra.
Qed.
Lemma nearest_unique F q x y : fmt_ok F -> nearest F q x -> nearest F q y -> (x == y)%Q.
Proof.
  assert (W : forall q x y, fmt_ok F -> (0 <= q)%Q -> nearest F q x -> nearest F q y -> (x == y)%Q).
  { clear. intros q x y OK Q NX NY. apply Qle_antisym; apply Qnot_lt_le; eapply nearest_unique_pos; eassumption. }
  intros OK NX NY. destruct (Qlt_le_dec q 0) as [L|L]; [|eapply W; eassumption].
  assert (E : (- x == - y)%Q) by (apply (W (- q)%Q); [exact OK|lra|apply nearest_opp, NX|apply nearest_opp, NY]). lra.
Qed.
Lemma nearest_mono F q1 q2 x1 x2 : fmt_ok F -> (q1 <= q2)%Q -> nearest F q1 x1 -> nearest F q2 x2 -> (x1 <= x2)%Q.
Proof.
  intros OK L N1 N2. destruct (Qeq_dec q1 q2) as [E|NE].
  - assert ((x1 == x2)%Q) as ->; [|apply Qle_refl]. eapply nearest_unique; [exact OK|exact N1|]. eapply nearest_eq; [symmetry; exact E|reflexivity|exact N2].
  - apply Qnot_lt_le. intros G. destruct N1 as (F1 & B1 & _), N2 as (F2 & B2 & _). specialize (B1 _ F2). specialize (B2 _ F1).
    assert (LT : (q1 < q2)%Q) by (apply Qle_lteq in L; destruct L as [L|L]; [exact L|contradiction]).
    revert B1 B2. apply Qabs_case; intros A1; apply Qabs_case; intros A2 B1; apply Qabs_case; intros A3; apply Qabs_case; intros A4 B2; lra.
Qed.
Lemma nearest_between F a b c x : fmt_ok F -> (a <= b)%Q -> (b <= c)%Q -> nearest F a x -> nearest F c x -> (exists y, nearest F b y) -> nearest F b x.
Proof.
  intros OK L1 L2 NA NC (y & NB). apply (nearest_eq F b b y x); [reflexivity| |exact NB].
  apply Qle_antisym; [apply (nearest_mono F b c y x OK L2 NB NC)|apply (nearest_mono F a b x y OK L1 NA NB)].
Qed.
Lemma nearest_self F x : is_float F x -> nearest F x x.
Proof.
  intros H. split; [exact H|]. assert (Z : (Qabs (x - x) == 0)%Q) by (setoid_replace (x - x)%Q with 0%Q by ring; reflexivity). split.
  - intros y _. rewrite Z. apply Qabs_nonneg.
  - intros (y & _ & N & E). exfalso. apply N. rewrite Z in E. symmetry in E. revert E. apply Qabs_case; intros; lra.
Qed.

(** * The shortest decimal *)
Lemma utoa_log n : 0 < n -> 10 ^ (Z.of_nat (length (utoa n)) - 1) <= n < 10 ^ Z.of_nat (length (utoa n)) /\ 1 <= Z.of_nat (length (utoa n)).
Proof.
  intros N. destruct (utoa_spec n ltac:(lia)) as [I D]. destruct I as [|d ds Hd F].
  - unfold dec, dec_from in D. cbn in D. lia.
  - assert (FF : Forall digit (d :: ds)) by (constructor; [unfold digit; lia|exact F]). pose proof (dec_bounds _ FF) as B. rewrite D in B.
    assert (L : 10 ^ (Z.of_nat (length (d :: ds)) - 1) <= n).
    { rewrite <- D. change (d :: ds) with ([d] ++ ds) at 2. rewrite dec_app. assert (dec [d] = d - 48) by (unfold dec, dec_from; cbn; lia).
      pose proof (dec_bounds ds F). cbn [length]. replace (Z.of_nat (Datatypes.S (length ds)) - 1) with (Z.of_nat (length ds)) by lia.
      assert (0 < 10 ^ Z.of_nat (length ds)) by (apply Z.pow_pos_nonneg; lia). nia. }
    split; [lia|cbn [length]; lia].
Qed.
Lemma dec_exp_ok n d : 0 < n -> 0 < d -> (inject_Z 10 ^ (dec_exp n d - 1) <= qr n d)%Q /\ (qr n d < inject_Z 10 ^ dec_exp n d)%Q.
Proof.
  intros N D. unfold dec_exp. cbv zeta. destruct (utoa_log n N) as [LN1 LN2]. destruct (utoa_log d D) as [LD1 LD2].
  set (ln := Z.of_nat (length (utoa n)) - 1). set (ld := Z.of_nat (length (utoa d)) - 1).
  replace (Z.of_nat (length (utoa n)) - Z.of_nat (length (utoa d))) with (ln - ld) by (unfold ln, ld; lia).
  destruct (scale 10 n d (ln - ld)) as [n' d'] eqn:E.
  pose proof (log_step 10 n d ln ld n' d' ltac:(lia) N D ltac:(unfold ln; lia) ltac:(unfold ld; lia)) as H.
  replace (ln + 1) with (Z.of_nat (length (utoa n))) in H by (unfold ln; lia). replace (ld + 1) with (Z.of_nat (length (utoa d))) in H by (unfold ld; lia).
  specialize (H LN1 LD1 E). cbv zeta in H. destruct (n' <? d').
  - replace (ln - ld - 1 + 1) with (ln - ld) in H by lia. exact H.
  - replace (ln - ld + 1 - 1) with (ln - ld) by lia. exact H.
Qed.
Lemma q10_qb m e : q10 m e = qb 10 m e.
Proof. reflexivity. Qed.
Lemma reads_back_ok F m ex c e : fmt_ok F -> canonical F m ex -> 0 < c -> reads_back F (m, ex) c e = true <-> nearest F (q10 c e) (q2 m ex).
Proof.
  intros OK C P. unfold reads_back. destruct (ratio 10 c e) as [n d] eqn:R. destruct (ratio_val 10 c e n d ltac:(lia) R) as (D & V & NP).
  destruct (round_to F n d) as [m' e'] eqn:E. destruct (round_to_ok F n d m' e' OK (NP P) D E) as (C' & _ & N'). cbn [fst snd].
  assert (N2 : nearest F (q10 c e) (q2 m' e')) by (eapply nearest_eq; [exact V|reflexivity|exact N']). split.
  - intros H. apply andb_prop in H. destruct H as [H1 H2]. apply Z.eqb_eq in H1. apply Z.eqb_eq in H2. subst. exact N2.
  - intros H. destruct (canonical_unique F m' e' m ex OK C' C) as [-> ->]; [eapply nearest_unique; eassumption|]. rewrite !Z.eqb_refl. reflexivity.
Qed.
Lemma nearest_exists F q : fmt_ok F -> (0 < q)%Q -> exists m e, canonical F m e /\ 0 <= m /\ nearest F q (q2 m e).
Proof.
  intros OK Q. destruct q as [n d]. assert (N : 0 < n) by (unfold Qlt in Q; cbn in Q; lia). destruct (round_to F n (Zpos d)) as [m e] eqn:E.
  destruct (round_to_ok F n (Zpos d) m e OK N ltac:(lia) E) as (C & P & H). exists m, e. split; [exact C|]. split; [exact P|].
  eapply nearest_eq; [|reflexivity|exact H]. unfold qr. rewrite (Qmake_Qdiv n d). reflexivity.
Qed.

Section Shortest.
Variable F : bfmt.
Hypothesis OK : fmt_ok F.
Variables m ex : Z.
Hypothesis C : canonical F m ex.
Hypothesis P : 0 < m.
Let v := q2 m ex.
Variables n d k : Z.
Hypothesis R : ratio 2 m ex = (n, d).
Hypothesis K : k = dec_exp n d.

Lemma sh_d : 0 < d. Proof. apply (ratio_val 2 m ex n d ltac:(lia) R). Qed.
Lemma sh_n : 0 < n. Proof. apply (ratio_val 2 m ex n d ltac:(lia) R). exact P. Qed.
Lemma sh_v : (qr n d == v)%Q. Proof. apply (ratio_val 2 m ex n d ltac:(lia) R). Qed.
Lemma sh_k : (q10 1 (k - 1) <= v)%Q /\ (v < q10 1 k)%Q.
Proof. pose proof (dec_exp_ok n d sh_n sh_d) as [A B]. rewrite <- K in A, B. rewrite sh_v in A, B. unfold q10. change (inject_Z 1) with 1%Q. rewrite !Qmult_1_l. split; assumption. Qed.
Lemma q10_pos a e : 0 < a -> (0 < q10 a e)%Q.
Proof. intros H. unfold q10. rewrite <- (Qmult_0_l ((10 # 1) ^ e)). apply Qmult_lt_compat_r; [apply Qpower_0_lt; reflexivity|]. change 0%Q with (inject_Z 0). rewrite <- Zlt_Qlt. exact H. Qed.
Lemma v_pos : (0 < v)%Q.
Proof. eapply Qlt_le_trans; [|apply sh_k]. apply q10_pos. lia. Qed.

(** The decimals with i digits around v. *)
Lemma step_floor i n' d' : scale 10 n d (k - i) = (n', d') -> let c := n' / d' in (q10 c (k - i) <= v)%Q /\ (v < q10 (c + 1) (k - i))%Q /\ 0 < d' /\ (v == q10 1 (k - i) * qr n' d')%Q.
Proof.
  intros E c. destruct (scale_val 10 n d (k - i) n' d' ltac:(lia) sh_d E) as (D' & V & _). rewrite sh_v in V.
  assert (U : (0 < inject_Z 10 ^ (k - i))%Q) by (apply pw_pos; lia). rewrite !q10_qb. unfold qb.
  pose proof (Z.div_mod n' d' ltac:(lia)) as DM. pose proof (Z.mod_pos_bound n' d' D') as MB. fold c in DM.
  split; [rewrite V; apply Qmult_le_compat_r; [apply qr_le; [exact D'|nia]|apply Qlt_le_weak, U]|].
  split; [rewrite V; apply Qmult_lt_r; [exact U|apply qr_lt; [exact D'|nia]]|]. split; [exact D'|]. change (q10 1 (k - i)) with (1 * inject_Z 10 ^ (k - i))%Q. rewrite V. ring.
Qed.
Lemma step_bounds i c : 1 <= i -> (q10 c (k - i) <= v)%Q -> (v < q10 (c + 1) (k - i))%Q -> 10 ^ (i - 1) <= c < 10 ^ i.
Proof.
  intros I A B. destruct sh_k as [K1 K2]. split.
  - apply Z.lt_succ_r. unfold Z.succ. apply (qb_lt 10 _ _ (k - i)); [lia|]. eapply Qle_lt_trans; [|exact B]. rewrite <- q10_qb. rewrite <- (Z.mul_1_l (10 ^ (i - 1))), q10_shift by lia.
    replace (k - i + (i - 1)) with (k - 1) by lia. exact K1.
  - apply (qb_lt 10 _ _ (k - i)); [lia|]. eapply Qle_lt_trans; [exact A|]. rewrite <- q10_qb, <- (Z.mul_1_l (10 ^ i)), q10_shift by lia. replace (k - i + i) with k by lia. exact K2.
Qed.
(** A decimal with at most i digits is not strictly between them. *)
Lemma grid i c ds dp : 1 <= i -> (q10 c (k - i) <= v)%Q -> (v < q10 (c + 1) (k - i))%Q -> float_form ds -> Z.of_nat (length ds) <= i ->
  (q10 (dec ds) (dp - Z.of_nat (length ds)) <= q10 c (k - i))%Q \/ (q10 (c + 1) (k - i) <= q10 (dec ds) (dp - Z.of_nat (length ds)))%Q.
Proof.
  intros I A B FF L. pose proof (step_bounds i c I A B) as [S1 S2]. set (l := Z.of_nat (length ds)) in *. destruct (Z.lt_ge_cases dp k) as [G|G].
  - left. eapply Qle_trans; [apply Qlt_le_weak, (float_upper ds dp FF)|]. eapply Qle_trans; [apply (q10_one_le dp (k - 1)); lia|].
    replace (k - 1) with (k - i + (i - 1)) by lia. rewrite <- q10_shift by lia. rewrite Z.mul_1_l. apply q10_le. exact S1.
  - replace (dp - l) with (k - i + (dp - l - (k - i))) by lia. rewrite <- q10_shift by lia. set (z := dec ds * _). destruct (Z.le_gt_cases z c) as [H|H]; [left|right]; apply q10_le; lia.
Qed.
Definition reads (q : Q) : Prop := nearest F q v.
Lemma v_reads : reads v.
Proof. apply nearest_self. exists m, ex. split; [exact C|reflexivity]. Qed.
Lemma reads_below a b : (0 < a)%Q -> (a <= b)%Q -> (b <= v)%Q -> reads a -> reads b.
Proof.
  intros A L1 L2 H. destruct (nearest_exists F b OK ltac:(eapply Qlt_le_trans; eassumption)) as (m' & e' & _ & _ & N).
  apply (nearest_between F a b v v OK L1 L2 H v_reads). eauto.
Qed.
Lemma reads_above a b : (0 < a)%Q -> (v <= a)%Q -> (a <= b)%Q -> reads b -> reads a.
Proof.
  intros A L1 L2 H. destruct (nearest_exists F a OK A) as (m' & e' & _ & _ & N).
  apply (nearest_between F v a b v OK L1 L2 v_reads H). eauto.
Qed.
(** No decimal with fewer than i digits reads as v. *)
Definition none_below (i : Z) : Prop := forall ds dp, float_form ds -> reads (q10 (dec ds) (dp - Z.of_nat (length ds))) -> i <= Z.of_nat (length ds).
Definition closest (i : Z) (q : Q) : Prop := forall ds dp, float_form ds -> Z.of_nat (length ds) <= i -> reads (q10 (dec ds) (dp - Z.of_nat (length ds))) -> (Qabs (v - q) <= Qabs (v - q10 (dec ds) (dp - Z.of_nat (length ds))))%Q.

Lemma ff_pos ds dp : float_form ds -> (0 < q10 (dec ds) (dp - Z.of_nat (length ds)))%Q.
Proof. intros H. apply q10_pos, dec_pos_form, H. Qed.
Lemma exact_step i n' d' : scale 10 n d (k - i) = (n', d') -> k - i <= - Z.abs ex -> (q10 (n' / d') (k - i) == v)%Q.
Proof.
  intros E L. destruct (step_floor i n' d' E) as (A & B & _).
  assert (X : exists z, (v == q10 z (k - i))%Q).
  { destruct (Z.le_ge_cases 0 ex) as [G|G].
    - exists (m * 2 ^ ex * 10 ^ (i - k)). rewrite q10_shift by lia. replace (k - i + (i - k)) with 0 by lia. unfold v, q2, q10. rewrite inject_Z_mult, Zpower_Qpower by lia. cbn [Qpower]. change (inject_Z 2) with (2 # 1)%Q. ring.
    - exists (m * 5 ^ (- ex) * 10 ^ (i - k + ex)). rewrite q10_shift by lia. replace (k - i + (i - k + ex)) with ex by lia. unfold v, q2, q10. rewrite inject_Z_mult, Zpower_Qpower by lia.
      rewrite Qpower_opp. change (10 # 1)%Q with (inject_Z (2 * 5)). rewrite inject_Z_mult. change (inject_Z 2) with (2 # 1)%Q. rewrite Qmult_power. field. apply Qnot_eq_sym, Qlt_not_eq. apply pw_pos. lia. }
  destruct X as (z & X). rewrite X in A, B. rewrite X. rewrite q10_qb in *. apply qb_le in A; [|lia]. change (q10 (n' / d' + 1) (k - i)) with (qb 10 (n' / d' + 1) (k - i)) in B. apply qb_lt in B; [|lia].
  assert (n' / d' = z) as -> by lia. reflexivity.
Qed.

Lemma abs_below a b : (a <= b)%Q -> (b <= v)%Q -> (Qabs (v - b) <= Qabs (v - a))%Q.
Proof. intros. rewrite !Qabs_pos by lra. lra. Qed.
Lemma abs_above a b : (v <= a)%Q -> (a <= b)%Q -> (Qabs (v - a) <= Qabs (v - b))%Q.
Proof. intros. rewrite !Qabs_neg by lra. lra. Qed.

Lemma shortest_from_ok fuel : forall i c e, 1 <= i -> none_below i -> k + Z.abs ex < i + Z.of_nat fuel -> shortest_from F (m, ex) n d k fuel i = (c, e) ->
  exists j, 1 <= j /\ e = k - j /\ 10 ^ (j - 1) <= c <= 10 ^ j /\ reads (q10 c e) /\ none_below j /\ closest j (q10 c e).
Proof.
  induction fuel as [|fuel IH]; intros i c e I NB FU E; cbn [shortest_from] in E; destruct (scale 10 n d (k - i)) as [n' d'] eqn:SC; cbv zeta in E;
    destruct (step_floor i n' d' SC) as (A & B & D' & V); set (f := n' / d') in *; pose proof (step_bounds i f I A B) as [S1 S2];
    assert (FP : 0 < 10 ^ (i - 1)) by (apply Z.pow_pos_nonneg; lia).
  - assert (X : (q10 f (k - i) == v)%Q) by (apply exact_step; [exact SC|lia]). pose proof (f_equal fst E) as E1. pose proof (f_equal snd E) as E2. cbn [fst snd] in E1, E2. subst c e.
    exists i. split; [exact I|]. split; [reflexivity|]. split; [lia|]. split; [eapply nearest_eq; [symmetry; exact X|reflexivity|apply v_reads]|]. split; [exact NB|].
    intros ds dp _ _ _. rewrite X. setoid_replace (v - v)%Q with 0%Q by ring. apply Qabs_nonneg.
  - assert (PF : (0 < q10 f (k - i))%Q) by (apply q10_pos; lia). assert (PC : (0 < q10 (f + 1) (k - i))%Q) by (apply q10_pos; lia).
    assert (RF : reads_back F (m, ex) f (k - i) = true <-> reads (q10 f (k - i))) by (apply reads_back_ok; [exact OK|exact C|lia]).
    assert (RC : reads_back F (m, ex) (f + 1) (k - i) = true <-> reads (q10 (f + 1) (k - i))) by (apply reads_back_ok; [exact OK|exact C|lia]).
    assert (LF : forall ds dp, float_form ds -> Z.of_nat (length ds) <= i -> reads (q10 (dec ds) (dp - Z.of_nat (length ds))) ->
      (q10 (dec ds) (dp - Z.of_nat (length ds)) <= q10 f (k - i))%Q /\ reads (q10 f (k - i)) \/ (q10 (f + 1) (k - i) <= q10 (dec ds) (dp - Z.of_nat (length ds)))%Q /\ reads (q10 (f + 1) (k - i))).
    { intros ds dp FF L H. destruct (grid i f ds dp I A B FF L) as [G|G]; [left|right]; (split; [exact G|]).
      - eapply reads_below; [apply (ff_pos ds dp FF)|exact G|exact A|exact H].
      - eapply reads_above; [exact PC|apply Qlt_le_weak, B|exact G|exact H]. }
    destruct (reads_back F (m, ex) f (k - i)) eqn:RBF; destruct (reads_back F (m, ex) (f + 1) (k - i)) eqn:RBC.
    + pose proof (f_equal fst E) as E1. pose proof (f_equal snd E) as E2. cbn [fst snd] in E1, E2. subst e.
      destruct (div_even_ok n' d' D') as (_ & _ & DB). cbv zeta in DB. rewrite E1 in DB. fold f in DB.
      exists i. split; [exact I|]. split; [reflexivity|]. split; [lia|].
      split; [assert (c = f \/ c = f + 1) as [->| ->] by lia; tauto|]. split; [exact NB|].
      assert (NR : forall z, z = f \/ z = f + 1 -> (Qabs (v - q10 c (k - i)) <= Qabs (v - q10 z (k - i)))%Q).
      { intros z HZ. pose proof (div_even_q n' d' D') as DQ. cbv zeta in DQ. rewrite E1 in DQ. destruct DQ as (Q1 & Q2 & _).
        assert (U : (0 < q10 1 (k - i))%Q) by (apply q10_pos; lia).
        assert (SC2 : forall z, (v - q10 z (k - i) == (qr n' d' - inject_Z z) * q10 1 (k - i))%Q) by (intros z0; rewrite V; unfold q10; change (inject_Z 1) with 1%Q; ring).
        rewrite !SC2, !Qabs_Qmult, (Qabs_pos (q10 1 _)) by (apply Qlt_le_weak, U). apply Qmult_le_compat_r; [|apply Qlt_le_weak, U].
        destruct (Z.eq_dec z c) as [->|NE]; [apply Qle_refl|]. apply (half_int (qr n' d') c z); assumption. }
      intros ds dp FF L H. destruct (LF ds dp FF L H) as [[G _]|[G _]].
      * eapply Qle_trans; [apply (NR f); auto|]. apply abs_below; assumption.
      * eapply Qle_trans; [apply (NR (f + 1)); auto|]. apply abs_above; [apply Qlt_le_weak, B|exact G].
    + pose proof (f_equal fst E) as E1. pose proof (f_equal snd E) as E2. cbn [fst snd] in E1, E2. subst c e.
      exists i. split; [exact I|]. split; [reflexivity|]. split; [lia|]. split; [tauto|]. split; [exact NB|].
      intros ds dp FF L H. destruct (LF ds dp FF L H) as [[G _]|[_ G]]; [apply abs_below; assumption|]. apply RC in G. discriminate.
    + pose proof (f_equal fst E) as E1. pose proof (f_equal snd E) as E2. cbn [fst snd] in E1, E2. subst c e.
      exists i. split; [exact I|]. split; [reflexivity|]. split; [lia|]. split; [tauto|]. split; [exact NB|].
      intros ds dp FF L H. destruct (LF ds dp FF L H) as [[_ G]|[G _]]; [apply RF in G; discriminate|]. apply abs_above; [apply Qlt_le_weak, B|exact G].
    + apply (IH (i + 1) c e); [lia| |lia|exact E]. intros ds dp FF H. destruct (Z.le_gt_cases (Z.of_nat (length ds)) i) as [L|L]; [|lia]. exfalso.
      destruct (LF ds dp FF L H) as [[_ G]|[_ G]]; [apply RF in G|apply RC in G]; discriminate.
Qed.
End Shortest.

Lemma drop0_utoa c : 0 < c -> drop0 (utoa c) = utoa c /\ Forall digit (utoa c) /\ dec (utoa c) = c.
Proof.
  intros P. destruct (utoa_spec c ltac:(lia)) as [I D]. split; [|split; [apply int_lit_digits, I|exact D]].
  destruct I as [|d ds Hd F]; [unfold dec, dec_from in D; cbn in D; lia|].
  assert (d = 49 \/ d = 50 \/ d = 51 \/ d = 52 \/ d = 53 \/ d = 54 \/ d = 55 \/ d = 56 \/ d = 57) as HH by lia.
  repeat (destruct HH as [->|HH]; [reflexivity|]). subst d. reflexivity.
Qed.
Lemma strip0_short b : (length (strip0 b) <= length b)%nat.
Proof. destruct (strip0_split b) as (n & E & _). rewrite E at 2. rewrite app_length. lia. Qed.
Lemma decimal_sign neg ds dp : (decimal neg ds dp == (if neg then -1 else 1) * q10 (dec ds) (dp - Z.of_nat (length ds)))%Q.
Proof. unfold decimal, q10. rewrite inject_Z_mult, dval_dec. destruct neg; [change (inject_Z (-1)) with (-1)%Q|change (inject_Z 1) with 1%Q]; ring. Qed.
Definition signed (neg : bool) (x : Q) : Q := if neg then (- x)%Q else x.
Lemma nearest_signed F neg q x : nearest F q x -> nearest F (signed neg q) (signed neg x).
Proof. destruct neg; [apply nearest_opp|auto]. Qed.

Lemma shortest_ok F neg m ex : fmt_ok F -> canonical F m ex -> 0 < m ->
  exists ds dp, shortest F neg (m, ex) = FFin neg ds dp /\ float_form ds /\ nearest F (q10 (dec ds) (dp - Z.of_nat (length ds))) (q2 m ex) /\
    writes F (FFin neg ds dp) (signed neg (q2 m ex)).
Proof.
  intros OK C P. unfold shortest. cbn [fst snd]. destruct (ratio 2 m ex) as [n d] eqn:R. cbv zeta. set (k := dec_exp n d).
  destruct (shortest_from F (m, ex) n d k (Z.to_nat (Z.abs k + Z.abs ex + 1)) 1) as [c e] eqn:S.
  destruct (shortest_from_ok F OK m ex C P n d k R eq_refl (Z.to_nat (Z.abs k + Z.abs ex + 1)) 1 c e ltac:(lia)) as (j & J & -> & B & RD & NB & CL); [|lia|exact S|].
  { intros ds dp (_ & a & t & -> & _) _. cbn [length]. lia. }
  assert (0 < 10 ^ (j - 1)) by (apply Z.pow_pos_nonneg; lia). assert (CP : 0 < c) by lia.
  destruct (drop0_utoa c CP) as (DU & FU & VU). unfold norm. rewrite DU. destruct (utoa c) as [|a t] eqn:EU; [unfold dec, dec_from in VU; cbn in VU; lia|].
  rewrite <- EU in *. destruct (norm_form (utoa c) FU) as (FF & EQ); [rewrite DU, EU; discriminate|]. rewrite DU in FF, EQ. rewrite EU. rewrite <- EU.
  specialize (EQ (k - j)). rewrite dval_dec, VU in EQ. set (ds := strip0 (utoa c)) in *. set (dp := k - j + Z.of_nat (length (utoa c))) in *.
  exists ds, dp. split; [reflexivity|]. split; [exact FF|].
  assert (RDS : nearest F (q10 (dec ds) (dp - Z.of_nat (length ds))) (q2 m ex)) by (eapply nearest_eq; [exact EQ|reflexivity|exact RD]).
  split; [exact RDS|].
  assert (LJ : Z.of_nat (length ds) = j).
  { pose proof (NB ds dp FF RDS) as L1. apply Z.le_antisymm; [|exact L1]. destruct (Z.eq_dec c (10 ^ j)) as [E|N].
    - assert (F1 : float_form [49]) by (split; [repeat constructor; unfold digit; lia|exists 49, []; split; [reflexivity|split; [lia|cbn; lia]]]).
      destruct (form_unique ds [49] dp (k + 1) FF F1) as [_ ->].
      + rewrite <- EQ, E. rewrite <- (Z.mul_1_l (10 ^ j)), q10_shift by lia. cbn [length]. replace (k - j + j) with (k + 1 - Z.of_nat 1) by lia. reflexivity.
      + cbn [length]. lia.
    - pose proof (strip0_short (utoa c)) as L2. fold ds in L2. pose proof (utoa_log c CP) as [LG _].
      assert (Z.of_nat (length (utoa c)) <= j); [|lia]. destruct (Z.le_gt_cases (Z.of_nat (length (utoa c))) j) as [G|G]; [exact G|].
      assert (10 ^ j <= 10 ^ (Z.of_nat (length (utoa c)) - 1)) by (apply Z.pow_le_mono_r; lia). lia. }
  assert (VP : (0 < q2 m ex)%Q).
  { unfold q2. rewrite <- (Qmult_0_l ((2 # 1) ^ ex)). apply Qmult_lt_compat_r; [apply Qpower_0_lt; reflexivity|]. change 0%Q with (inject_Z 0). rewrite <- Zlt_Qlt. exact P. }
  cbn [writes]. split; [exact FF|]. split; [destruct neg; cbn [signed]; lra|].
  assert (DS : forall (b : bool) ds dp, (decimal b ds dp == signed b (q10 (dec ds) (dp - Z.of_nat (length ds))))%Q) by (intros b ds0 dp0; rewrite decimal_sign; destruct b; cbn [signed]; ring).
  split; [eapply nearest_eq; [symmetry; apply DS|reflexivity|apply nearest_signed, RDS]|].
  intros neg' ds' dp' FF' N'. assert (PD : (0 < q10 (dec ds') (dp' - Z.of_nat (length ds')))%Q) by (apply q10_pos, dec_pos_form, FF').
  assert (N2 : nearest F (signed neg' (q10 (dec ds') (dp' - Z.of_nat (length ds')))) (signed neg (q2 m ex))) by (eapply nearest_eq; [apply DS|reflexivity|exact N']).
  assert (neg' = neg /\ nearest F (q10 (dec ds') (dp' - Z.of_nat (length ds'))) (q2 m ex)) as [-> N3].
  { assert (ZZ : forall x, (- - x == x)%Q) by (intros; ring). destruct neg', neg; cbn [signed] in N2.
    - split; [reflexivity|]. apply nearest_opp in N2. eapply nearest_eq; [apply ZZ|apply ZZ|exact N2].
    - exfalso. apply nearest_opp in N2. assert (PN : (0 <= - - q10 (dec ds') (dp' - Z.of_nat (length ds')))%Q) by lra. pose proof (nearest_nonneg F _ _ OK PN N2). lra.
    - exfalso. pose proof (nearest_nonneg F _ _ OK (Qlt_le_weak _ _ PD) N2). lra.
    - auto. }
  pose proof (NB ds' dp' FF' N3) as L. destruct (Z.eq_dec (Z.of_nat (length ds')) j) as [E|NE]; [right|left; lia]. split; [lia|].
  pose proof (CL ds' dp' FF' ltac:(lia) N3) as H1. rewrite (DS neg ds dp), (DS neg ds' dp'). rewrite EQ in H1. destruct neg; cbn [signed]; [|exact H1].
  assert (OD : forall a b, (Qabs (- a - - b) == Qabs (a - b))%Q) by (intros a0 b0; rewrite opp_dist; setoid_replace (a0 - - - b0)%Q with (a0 - b0)%Q by ring; reflexivity).
  rewrite !OD. exact H1.
Qed.

(** * Reading *)
Lemma exact_val s q : num_val s q -> exists f, exact s = Some f /\ (negative f = true <-> hd 0 s = 45) /\
  match f with FZero _ => (q == 0)%Q | FFin neg ds dp => float_form ds /\ (q == decimal neg ds dp)%Q | _ => False end.
Proof.
  intros V. destruct V as [ng i ft f et x Hi Hf He]. rewrite (exact_num ng i ft f et x Hi Hf He). eexists. split; [reflexivity|].
  assert (Fd : Forall digit (i ++ f)) by (apply Forall_app; split; [apply int_lit_digits, Hi|destruct Hf as [|? Hd]; [constructor|apply Hd]]).
  assert (NG : negative (norm ng (i ++ f) (x - Z.of_nat (length f))) = ng) by (unfold norm; destruct (drop0 (i ++ f)); reflexivity).
  split.
  { rewrite NG. destruct (int_lit_digits i Hi) as (Fi & c & t & ->). inversion Fi as [|? ? Hc _]; subst. apply digit_not in Hc. destruct ng; cbn; [tauto|]. split; [discriminate|tauto]. }
  clear NG. unfold norm. destruct (drop0 (i ++ f)) as [|c m] eqn:E.
  - rewrite (norm_zero _ E), Z.mul_0_r. apply q10_zero_iff. reflexivity.
  - destruct (norm_form (i ++ f) Fd) as (FF & EQ); [congruence|]. rewrite E in FF, EQ. split; [exact FF|].
    rewrite decimal_sign. specialize (EQ (x - Z.of_nat (length f))). rewrite <- EQ. unfold q10. rewrite inject_Z_mult. destruct ng; [change (inject_Z (-1)) with (-1)%Q|change (inject_Z 1) with 1%Q]; ring.
Qed.
Lemma q2_abs m e : 0 <= m -> (Qabs (q2 m e) == q2 m e)%Q.
Proof. intros H. apply Qabs_pos. unfold q2. apply Qmult_le_0_compat; [change 0%Q with (inject_Z 0); rewrite <- Zle_Qle; exact H|apply Qpower_pos; discriminate]. Qed.
Lemma range_test F m e n d : 0 <= b_emax F -> 0 <= m -> ratio 2 m e = (n, d) -> (d * 2 ^ b_emax F <=? n) = false <-> in_range F (q2 m e).
Proof.
  intros EM M R. destruct (ratio_val 2 m e n d ltac:(lia) R) as (D & V & _). assert (V2 : (Qabs (q2 m e) == qr n d)%Q) by (rewrite (q2_abs m e M); symmetry; exact V). unfold in_range. rewrite V2.
  assert (X : (q2 1 (b_emax F) == inject_Z (2 ^ b_emax F))%Q) by (unfold q2; rewrite Zpower_Qpower by exact EM; change (inject_Z 1) with 1%Q; change (inject_Z 2) with (2 # 1)%Q; ring).
  rewrite X, qr_lt by exact D. rewrite Z.leb_gt. lia.
Qed.
Lemma parse_fin F s neg ds dp : fmt_ok F -> 0 <= b_emax F -> exact s = Some (FFin neg ds dp) -> float_form ds ->
  exists m e, canonical F m e /\ 0 <= m /\ nearest F (q10 (dec ds) (dp - Z.of_nat (length ds))) (q2 m e) /\
    (m = 0 /\ parse_float F s = Some (FZero neg) \/
     0 < m /\ in_range F (q2 m e) /\ parse_float F s = Some (shortest F neg (m, e)) \/
     0 < m /\ ~ in_range F (q2 m e) /\ parse_float F s = None).
Proof.
  intros OK EM E FF. unfold parse_float. rewrite E. assert (DV : digits_value ds = dec ds) by exact (dval_dec ds). rewrite DV.
  destruct (ratio 10 (dec ds) (dp - Z.of_nat (length ds))) as [n d] eqn:R. destruct (ratio_val 10 _ _ n d ltac:(lia) R) as (D & V & NP).
  specialize (NP (dec_pos_form ds FF)). cbv zeta. destruct (round_to F n d) as [m e] eqn:RT. destruct (round_to_ok F n d m e OK NP D RT) as (C & M & N).
  exists m, e. split; [exact C|]. split; [exact M|]. split; [eapply nearest_eq; [exact V|reflexivity|exact N]|]. cbn [fst snd].
  destruct (m =? 0) eqn:Z0; [apply Z.eqb_eq in Z0; left; auto|apply Z.eqb_neq in Z0; right]. destruct (ratio 2 m e) as [n' d'] eqn:R2.
  pose proof (range_test F m e n' d' EM M R2) as RG. destruct (d' * 2 ^ b_emax F <=? n').
  - right. split; [lia|]. split; [intros H; apply RG in H; discriminate|reflexivity].
  - left. split; [lia|]. split; [apply RG; reflexivity|reflexivity].
Qed.
Lemma zero_canonical F m e : fmt_ok F -> canonical F m e -> m = 0 -> (q2 m e == 0)%Q.
Proof. intros _ _ ->. unfold q2. change (inject_Z 0) with 0%Q. ring. Qed.
Lemma in_range_signed F neg x : in_range F (signed neg x) <-> in_range F x.
Proof. unfold in_range. destruct neg; cbn [signed]; [rewrite Qabs_opp|]; tauto. Qed.

Lemma reads_ok F s q : fmt_ok F -> 0 <= b_emax F -> num_val s q ->
  match parse_float F s with
  | Some f => exists x, nearest F q x /\ in_range F x /\ writes F f x /\ (negative f = true <-> hd 0 s = 45)
  | None => exists x, nearest F q x /\ ~ in_range F x
  end.
Proof.
  intros OK EM V. destruct (exact_val s q V) as (f & E & SG & Q). assert (RZ : in_range F 0).
  { unfold in_range. change (Qabs 0) with 0%Q. unfold q2. change (inject_Z 1) with 1%Q. rewrite Qmult_1_l. apply Qpower_0_lt. reflexivity. }
  destruct f as [| |neg|neg ds dp]; try contradiction.
  - unfold parse_float. rewrite E. exists 0%Q. split; [eapply nearest_eq; [symmetry; exact Q|reflexivity|apply nearest_self, zero_float, OK]|]. split; [exact RZ|]. split; [reflexivity|exact SG].
  - destruct Q as [FF Q]. destruct (parse_fin F s neg ds dp OK EM E FF) as (m & e & C & M & N & H).
    assert (NQ : nearest F q (signed neg (q2 m e))).
    { eapply nearest_eq; [|reflexivity|apply (nearest_signed F neg _ _ N)]. rewrite Q, decimal_sign. destruct neg; cbn [signed]; ring. }
    destruct H as [[Z0 ->]|[(P & R & ->)|(P & R & ->)]].
    + exists 0%Q. assert (X : (signed neg (q2 m e) == 0)%Q) by (pose proof (zero_canonical F m e OK C Z0) as X; destruct neg; cbn [signed]; rewrite X; reflexivity).
      split; [eapply nearest_eq; [reflexivity|exact X|exact NQ]|]. split; [exact RZ|]. split; [reflexivity|exact SG].
    + exists (signed neg (q2 m e)). split; [exact NQ|]. split; [apply in_range_signed, R|]. destruct (shortest_ok F neg m e OK C P) as (ds' & dp' & -> & _ & _ & W). split; [exact W|exact SG].
    + exists (signed neg (q2 m e)). split; [exact NQ|]. intros H. apply R, (in_range_signed F neg), H.
Qed.

(** What AppendFloat gives for the floats of the format. *)
Definition real (F : bfmt) (f : fl) : Prop :=
  match f with
  | FZero _ => True
  | FFin neg _ _ => exists m e, canonical F m e /\ 0 < m /\ in_range F (q2 m e) /\ f = shortest F neg (m, e)
  | _ => False
  end.
Lemma exact_finite s : exists f, exact s = Some f /\ finite f.
Proof.
  unfold exact. destruct (x_sign s) as [neg s1].
  assert (SD : forall s, Forall digit (fst (spand s))).
  { induction s0 as [|c s0 IH]; cbn [spand]; [constructor|]. destruct (isd c) eqn:D; [|constructor]. destruct (spand s0). cbn [fst] in *. constructor; [|exact IH]. unfold isd in D. apply andb_prop in D. unfold digit. lia. }
  pose proof (SD s1) as H1. destruct (spand s1) as [i r]. cbn [fst] in H1.
  assert (H2 : Forall digit (fst (x_frac r))).
  { unfold x_frac. destruct r as [|c r]; [constructor|]. destruct (Z.eq_dec c 46) as [->|N]; [apply SD|].
    destruct c as [|p|p]; try constructor. do 6 (destruct p as [p|p|]; try apply Forall_nil); try contradiction; apply SD. }
  destruct (x_frac r) as [fr r2]. cbn [fst] in H2. eexists. split; [reflexivity|].
  unfold norm. destruct (drop0 (i ++ fr)) as [|c m] eqn:D; [exact I|]. cbn [finite]. rewrite <- D. apply norm_form; [apply Forall_app; auto|congruence].
Qed.
Lemma parse_real F s f : fmt_ok F -> 0 <= b_emax F -> parse_float F s = Some f -> real F f.
Proof.
  intros OK EM P. destruct (exact_finite s) as (g & E & FN). destruct g as [| |neg|neg ds dp]; cbn [finite] in FN; try contradiction.
  - unfold parse_float in P. rewrite E in P. injection P as <-. exact I.
  - destruct (parse_fin F s neg ds dp OK EM E FN) as (m & e & C & M & N & [[Z0 H]|[(Q & R & H)|(Q & R & H)]]); rewrite H in P; [injection P as <-; exact I| |discriminate].
    injection P as <-. destruct (shortest_ok F neg m e OK C Q) as (ds' & dp' & S & _). rewrite S. exists m, e. auto.
Qed.
Lemma real_parses F f : fmt_ok F -> 0 <= b_emax F -> real F f -> finite f /\ parses (parse_float F) f.
Proof.
  intros OK EM RL. destruct f as [| |neg|neg ds dp]; cbn [real] in RL; try contradiction.
  - split; [exact I|]. intros s q V Q SG. unfold parse_float. rewrite (exact_parses (FZero neg) I s q V Q SG). reflexivity.
  - destruct RL as (m & e & C & P & R & E). destruct (shortest_ok F neg m e OK C P) as (ds' & dp' & S & FF & N & _). rewrite S in E.
    assert (ds = ds' /\ dp = dp') as [-> ->] by (injection E; auto). split; [exact FF|]. intros s q V Q.
    pose proof (exact_parses (FFin neg ds' dp') FF s q V Q) as X.
    destruct (parse_fin F s neg ds' dp' OK EM X FF) as (m' & e' & C' & M' & N' & H).
    destruct (canonical_unique F m' e' m e OK C' C) as [-> ->]; [eapply nearest_unique; eassumption|].
    destruct H as [[Z0 _]|[(_ & _ & ->)|(_ & NR & _)]]; [lia|rewrite S; reflexivity|contradiction].
Qed.
