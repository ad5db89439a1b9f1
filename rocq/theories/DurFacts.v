(** Lemmas about durations: reading a text. *)
From Coq Require Import QArith Qabs Qpower Lqa.
From Verif Require Import Bytes ParseModel IntModel EncModel DecModel SpecJson SpecNum SpecRender FloatModel SpecFloat ParseFacts IntFacts NumFacts TextFacts ExactFloat FloatFacts DurModel SpecDur DurFloat.
From Coq Require Import Lia.
Local Open Scope Z_scope.

Lemma isd_iff c : isd c = true <-> digit c.
Proof. unfold isd, digit. rewrite andb_true_iff, !Z.leb_le. reflexivity. Qed.
Definition stops (r : bytes) : Prop := match r with [] => True | c :: _ => isd c = false end.
(** digits in front *)
Lemma digits_split s : exists ds r, s = ds ++ r /\ Forall digit ds /\ stops r.
Proof.
  induction s as [|c s (ds & r & -> & F & S)]; [exists [], []; cbn; auto|].
  destruct (isd c) eqn:I; [exists (c :: ds), r|exists [], (c :: ds ++ r); auto]. split; [reflexivity|]. split; [constructor; [apply isd_iff, I|exact F]|exact S].
Qed.
Lemma lead_int_ok ds : forall x r, Forall digit ds -> stops r -> 0 <= x <= 2 ^ 63 ->
  lead_int x (ds ++ r) = if dec_from x ds <=? 2 ^ 63 then Some (dec_from x ds, r) else None.
Proof.
  induction ds as [|c ds IH]; intros x r F S X.
  - cbn [app]. change (dec_from x []) with x. rewrite (proj2 (Z.leb_le x _)) by lia. destruct r as [|c r]; [reflexivity|]. cbn [lead_int]. cbn in S. rewrite S. reflexivity.
  - inversion F as [|? ? Fc Fd]; subst. cbn [app lead_int]. rewrite (proj2 (isd_iff c) Fc). rewrite dec_from_cons. unfold digit in Fc.
    change (2 ^ 63 / 10) with 922337203685477580.
    assert (G : forall y, 2 ^ 63 < y -> (dec_from y ds <=? 2 ^ 63) = false).
    { intros y Y. apply Z.leb_gt. pose proof (dec_from_mono y ds Fd ltac:(lia)). lia. }
    destruct (Z.ltb_spec 922337203685477580 x) as [L|L]; [rewrite G by lia; reflexivity|]. cbv zeta.
    destruct (Z.ltb_spec (2 ^ 63) (x * 10 + (c - 48))) as [L2|L2]; [rewrite G by lia; reflexivity|]. apply IH; [exact Fd|exact S|lia].
Qed.
Lemma lead_frac_over ds : forall x s r, Forall digit ds -> stops r -> lead_frac x s true (ds ++ r) = (x, s, r).
Proof.
  induction ds as [|c ds IH]; intros x s r F S.
  - cbn [app]. destruct r as [|c r]; [reflexivity|]. cbn [lead_frac]. cbn in S. rewrite S. reflexivity.
  - inversion F as [|? ? Fc Fd]; subst. cbn [app lead_frac]. rewrite (proj2 (isd_iff c) Fc). apply IH; assumption.
Qed.
Definition cut : Z := 922337203685477580.
(** the digits that are used *)
Lemma lead_frac_ok ds : forall x k r, Forall digit ds -> stops r -> 0 <= x <= 2 ^ 63 ->
  exists j, (j <= length ds)%nat /\ lead_frac x (sc k) false (ds ++ r) = (dec_from x (firstn j ds), sc (k + j), r) /\ 0 <= dec_from x (firstn j ds) <= 2 ^ 63 /\
    (j = length ds \/ cut <= dec_from x (firstn j ds)).
Proof.
  induction ds as [|c ds IH]; intros x k r F S X.
  - exists O. cbn [app firstn length]. change (dec_from x []) with x. rewrite Nat.add_0_r. repeat split; auto; try lia. destruct r as [|c r]; [reflexivity|]. cbn [lead_frac]. cbn in S. rewrite S. reflexivity.
  - inversion F as [|? ? Fc Fd]; subst. cbn [app lead_frac]. rewrite (proj2 (isd_iff c) Fc). unfold digit in Fc.
    change ((2 ^ 63 - 1) / 10) with 922337203685477580. unfold cut.
    destruct (Z.ltb_spec 922337203685477580 x) as [L|L].
    + exists O. cbn [firstn]. change (dec_from x []) with x. rewrite Nat.add_0_r, lead_frac_over by assumption. repeat split; auto; try lia.
    + cbv zeta. destruct (Z.ltb_spec (2 ^ 63) (x * 10 + (c - 48))) as [L2|L2].
      * exists O. cbn [firstn]. change (dec_from x []) with x. rewrite Nat.add_0_r, lead_frac_over by assumption. repeat split; auto; try lia.
      * change (f64_times10 (sc k)) with (sc (Datatypes.S k)). destruct (IH (x * 10 + (c - 48)) (Datatypes.S k) r Fd S ltac:(lia)) as (j & J & E & B & C).
        exists (Datatypes.S j). cbn [firstn length]. rewrite dec_from_cons. rewrite E. replace (k + Datatypes.S j)%nat with (Datatypes.S k + j)%nat by lia. split; [lia|]. split; [reflexivity|]. split; [lia|]. unfold cut in C. destruct C as [->|C]; [left; reflexivity|right; exact C].
Qed.

(** * The units *)
Definition unit_char (c : Z) : Prop := (c =? 46) || isd c = false.
Lemma unit_name_ok u z : unit_name u z -> dur_unit u = Some z /\ Forall unit_char u /\ u <> [] /\ 0 < z <= max_unit.
Proof.
  intros H. destruct H; (split; [vm_compute; reflexivity|]); (split; [vm_compute; repeat constructor|]); (split; [discriminate|]); unfold max_unit; lia.
Qed.
Lemma beqb_true a : forall b, beqb a b = true -> a = b.
Proof.
  induction a as [|x a IH]; intros [|y b] H; try discriminate H; [reflexivity|]. cbn in H. apply andb_prop in H as [H1 H2]. apply Z.eqb_eq in H1. f_equal; auto.
Qed.
Lemma dur_unit_inv u z : dur_unit u = Some z -> unit_name u z.
Proof.
  unfold dur_unit. destruct (find _ dur_units) as [[u' z']|] eqn:E; [|discriminate]. intros [= <-]. apply find_some in E as [I B]. apply beqb_true in B. cbn [fst] in B. subst u'.
  unfold dur_units in I. cbn [In] in I. repeat destruct I as [I|I]; try contradiction; injection I as <- <-; constructor.
Qed.
Lemma take_unit_ok u : forall r, Forall unit_char u -> match r with [] => True | c :: _ => (c =? 46) || isd c = true end -> take_unit (u ++ r) = (u, r).
Proof.
  induction u as [|c u IH]; intros r F S.
  - cbn [app]. destruct r as [|c r]; [reflexivity|]. cbn [take_unit]. rewrite S. reflexivity.
  - inversion F as [|? ? Fc Fd]; subst. cbn [app take_unit]. unfold unit_char in Fc. rewrite Fc, IH by assumption. reflexivity.
Qed.
Lemma take_unit_inv s : forall u r, take_unit s = (u, r) -> s = u ++ r /\ match r with [] => True | c :: _ => (c =? 46) || isd c = true end.
Proof.
  induction s as [|c s IH]; intros u r; cbn [take_unit]; [intros [= <- <-]; auto|].
  destruct ((c =? 46) || isd c) eqn:I; [intros [= <- <-]; auto|]. destruct (take_unit s) as [u' r']. intros [= <- <-]. destruct (IH u' r' eq_refl) as [-> S]. auto.
Qed.

(** * One number with its unit *)
(** what is read for the fraction *)
Definition frac_read (ds : bytes) (unit : Z) : Z :=
  let '(f, s, _) := lead_frac 0 (sc 0) false ds in if 0 <? f then frac_ns f unit s else 0.
Definition part_ns (p : part) : Z := dec (p_int p) * p_unit p + frac_read (p_frac p) (p_unit p).
Definition next_ok (r : bytes) : Prop := match r with [] => True | c :: _ => (c =? 46) || isd c = true end.
Lemma point_stops r : stops (46 :: r). Proof. reflexivity. Qed.
Lemma unit_stops u r : u <> [] -> Forall unit_char u -> stops (u ++ r).
Proof. intros N F. destruct F as [|c u Fc F]; [congruence|]. cbn. unfold unit_char in Fc. apply orb_false_elim in Fc. apply Fc. Qed.
Lemma lead_frac_rest ds x k o r : Forall digit ds -> stops r -> lead_frac x k o (ds ++ r) = (fst (lead_frac x k o ds), r).
Proof.
  intros F S. revert x k o. induction F as [|c ds Fc F IH]; intros x k o.
  - cbn [app]. destruct r as [|c r]; [reflexivity|]. cbn [lead_frac]. cbn in S. rewrite S. reflexivity.
  - cbn [app lead_frac]. rewrite (proj2 (isd_iff c) Fc). destruct o; [apply IH|]. destruct (_ <? x); [apply IH|]. cbv zeta. destruct (_ <? _); apply IH.
Qed.
Lemma frac_read_bounds ds unit : Forall digit ds -> 0 < unit <= max_unit ->
  0 <= frac_read ds unit /\ (Qabs (inject_Z (frac_read ds unit) - q10 (dec ds * unit) (- Z.of_nat (length ds))) < 101 # 100)%Q /\
  (forall k, unit = k * 10 ^ Z.of_nat (length ds) -> frac_read ds unit = dec ds * k).
Proof.
  intros F HU. unfold frac_read. destruct (lead_frac_ok ds 0 0 [] F I ltac:(lia)) as (j & J & E & B & C). rewrite app_nil_r in E. rewrite E. cbn [Nat.add].
  change (dec_from 0 (firstn j ds)) with (dec (firstn j ds)) in *. set (f := dec (firstn j ds)) in *.
  assert (Fj : Forall digit (firstn j ds)) by (apply Forall_firstn, F). pose proof (dec_bounds _ Fj) as D1. fold f in D1. rewrite firstn_length_le in D1 by exact J.
  assert (Fs : Forall digit (skipn j ds)) by (apply Forall_skipn, F). pose proof (dec_bounds _ Fs) as D2.
  assert (DS : dec ds = f * 10 ^ Z.of_nat (length ds - j) + dec (skipn j ds)).
  { rewrite <- (firstn_skipn j ds) at 1. rewrite dec_app, skipn_length. reflexivity. }
  rewrite skipn_length in D2. set (g := dec (skipn j ds)) in *.
  assert (Q : forall z n, (q10 z (- Z.of_nat n) == inject_Z z / p10 n)%Q).
  { intros z n. unfold q10, p10. change (10 # 1)%Q with (inject_Z 10). rewrite Qpower_opp, Zpower_Qpower by lia. reflexivity. }
  assert (PL : (p10 (length ds) == p10 j * p10 (length ds - j))%Q).
  { unfold p10. rewrite <- inject_Z_mult, <- Z.pow_add_r by lia. replace (Z.of_nat j + Z.of_nat (length ds - j)) with (Z.of_nat (length ds)) by lia. reflexivity. }
  pose proof (p10_pos j) as P1. pose proof (p10_pos (length ds - j)) as P2.
  (* the digits that are not used *)
  assert (W : exists w, (q10 (dec ds * unit) (- Z.of_nat (length ds)) == inject_Z (f * unit) / p10 j + w)%Q /\ (0 <= w)%Q /\ (w < 5 # 1000)%Q /\ (j = length ds -> (w == 0)%Q)).
  { exists (inject_Z (g * unit) / p10 (length ds))%Q. split; [|split; [|split]].
    - rewrite Q, DS, PL. rewrite Z.mul_add_distr_r, inject_Z_plus. rewrite !inject_Z_mult. fold (p10 (length ds - j)). field. split; apply Qnot_eq_sym, Qlt_not_eq; assumption.
    - apply Qle_shift_div_l; [apply p10_pos|]. rewrite Qmult_0_l. change 0%Q with (inject_Z 0). rewrite <- Zle_Qle. nia.
    - destruct C as [C|C].
      + assert (g = 0) as ->; [unfold g; rewrite C, skipn_all; reflexivity|]. rewrite Z.mul_0_l. unfold Qdiv. rewrite Qmult_0_l. reflexivity.
      + apply Qlt_shift_div_r; [apply p10_pos|]. rewrite PL.
        apply Qle_lt_trans with (inject_Z unit * p10 (length ds - j))%Q; [unfold p10; rewrite <- inject_Z_mult, <- Zle_Qle; nia|].
        rewrite Qmult_assoc. rewrite Qmult_lt_r by exact P2.
        apply Qle_lt_trans with (inject_Z max_unit)%Q; [rewrite <- Zle_Qle; lia|]. apply Qlt_trans with ((5 # 1000) * inject_Z cut)%Q; [reflexivity|].
        rewrite Qmult_lt_l by reflexivity. unfold p10. rewrite <- Zlt_Qlt. lia.
    - intros ->. assert (g = 0) as ->; [unfold g; rewrite skipn_all; reflexivity|]. rewrite Z.mul_0_l. unfold Qdiv. rewrite Qmult_0_l. reflexivity. }
  destruct W as (w & WE & W0 & W1 & W2).
  destruct (Z.ltb_spec 0 f) as [P|P].
  - destruct (frac_near f unit j ltac:(lia) ltac:(lia) HU) as (N1 & N2 & N3). split; [rewrite Zle_Qle; exact N3|]. split.
    + rewrite WE. apply Qabs_Qlt_condition. split; lra.
    + intros k K. assert (L11 : (length ds <= 12)%nat).
      { destruct (le_lt_dec (length ds) 12) as [|L]; [assumption|]. assert (10 ^ 13 <= 10 ^ Z.of_nat (length ds)) by (apply Z.pow_le_mono_r; lia). unfold max_unit in HU. assert (1 <= k) by nia. nia. }
      assert (JL : j = length ds).
      { destruct C as [C|C]; [exact C|]. assert (10 ^ Z.of_nat j <= 10 ^ 12) by (apply Z.pow_le_mono_r; lia). unfold cut in C. lia. }
      assert (FD : f = dec ds) by (unfold f; rewrite JL, firstn_all; reflexivity). rewrite <- FD. rewrite JL in *. rewrite K.
      apply frac_exact; [lia|lia|nia|lia].
  - assert (f0 : f = 0) by lia. assert (JL : j = length ds) by (destruct C as [C|C]; [exact C|unfold cut in C; lia]).
    assert (DZ : dec ds = 0) by (rewrite <- f0; unfold f; rewrite JL, firstn_all; reflexivity). split; [lia|]. split.
    + rewrite DZ, Z.mul_0_l. unfold q10. change (inject_Z 0) with 0%Q. rewrite Qmult_0_l. reflexivity.
    + intros k _. rewrite DZ. reflexivity.
Qed.
Lemma part_near p : part_ok p -> near p (part_ns p).
Proof.
  intros (F1 & F2 & N & PT & U). destruct (unit_name_ok _ _ U) as (_ & _ & _ & UB). destruct (frac_read_bounds (p_frac p) (p_unit p) F2 UB) as (B0 & B1 & B2).
  pose proof (dec_bounds _ F1) as D. unfold near, part_ns. split; [nia|].
  assert (V : (part_value p == inject_Z (dec (p_int p) * p_unit p) + q10 (dec (p_frac p) * p_unit p) (- Z.of_nat (length (p_frac p))))%Q).
  { unfold part_value. rewrite dval_dec, dec_app. unfold q10. change (10 # 1)%Q with (inject_Z 10). rewrite Z.mul_add_distr_r, inject_Z_plus. rewrite !inject_Z_mult, Zpower_Qpower by lia.
    rewrite Qpower_opp. field. apply Qnot_eq_sym, Qlt_not_eq, pw_pos. lia. }
  split.
  - intros (k & K). rewrite V, (B2 k K), inject_Z_plus. unfold q10. change (10 # 1)%Q with (inject_Z 10). rewrite K. rewrite !inject_Z_mult, Zpower_Qpower by lia. rewrite Qpower_opp. field. apply Qnot_eq_sym, Qlt_not_eq, pw_pos. lia.
  - rewrite V, inject_Z_plus. set (a := inject_Z (dec (p_int p) * p_unit p)) in *. set (b := inject_Z (frac_read (p_frac p) (p_unit p))) in *. set (c := q10 _ _) in *.
    setoid_replace (a + b - (a + c))%Q with (b - c)%Q by ring. exact B1.
Qed.

Lemma dur_one_ok p r : part_ok p -> next_ok r -> dur_one (part_text p ++ r) = if part_ns p <=? 2 ^ 63 then Some (part_ns p, r) else None.
Proof.
  intros (F1 & F2 & N & PT & U) NX. destruct (unit_name_ok _ _ U) as (UE & UC & UN & UB). destruct (frac_read_bounds (p_frac p) (p_unit p) F2 UB) as (B0 & _ & _).
  pose proof (dec_bounds _ F1) as D. destruct p as [i pt fr u unit]. unfold part_text, part_ns. cbn [p_int p_point p_frac p_name p_unit] in *.
  set (tail := (if pt then 46 :: fr else []) ++ u ++ r). rewrite <- !app_assoc. fold tail.
  assert (ST : stops tail) by (unfold tail; destruct pt; [apply point_stops|apply (unit_stops u r); assumption]).
  assert (HD : exists c s, i ++ tail = c :: s /\ (c =? 46) || isd c = true).
  { destruct i as [|c i]; [|exists c, (i ++ tail); split; [reflexivity|]; inversion F1 as [|? ? Fc _]; subst; rewrite (proj2 (isd_iff c) Fc); apply orb_true_r].
    destruct pt; [exists 46, (fr ++ u ++ r); split; [reflexivity|reflexivity]|]. rewrite PT in N by reflexivity. exfalso. apply N. reflexivity. }
  unfold dur_one. destruct HD as (c & s & EH & CH). rewrite EH, CH. cbn [negb]. rewrite <- EH. clear c s EH CH.
  rewrite lead_int_ok by (try assumption; lia). change (dec_from 0 i) with (dec i).
  destruct (Z.leb_spec (dec i) (2 ^ 63)) as [LI|LI]; [|rewrite (proj2 (Z.leb_gt _ _)) by nia; reflexivity].
  assert (PRE : negb (Nat.eqb (length (i ++ tail)) (length tail)) = negb (Nat.eqb (length i) 0)).
  { rewrite app_length. destruct (Nat.eqb_spec (length i) 0) as [->|X]; [rewrite Nat.eqb_refl; reflexivity|]. rewrite (proj2 (Nat.eqb_neq _ _)) by lia. reflexivity. }
  rewrite PRE. clear PRE.
  set (mid := match tail with 46 :: t => _ | _ => _ end).
  assert (M : mid = (fst (fst (lead_frac 0 (sc 0) false fr)), snd (fst (lead_frac 0 (sc 0) false fr)), negb (Nat.eqb (length fr) 0), u ++ r)).
  { unfold mid, tail. destruct pt.
    - cbn [app]. change (Some (1, 0)) with (sc 0). rewrite lead_frac_rest by (try assumption; apply unit_stops; assumption).
      destruct (lead_frac 0 (sc 0) false fr) as [[f s] q]. cbn [fst snd]. rewrite app_length. f_equal. f_equal.
      destruct (Nat.eqb_spec (length fr) 0) as [->|X]; [rewrite Nat.eqb_refl; reflexivity|]. rewrite (proj2 (Nat.eqb_neq _ _)) by lia. reflexivity.
    - rewrite PT by reflexivity. cbn [app lead_frac fst snd length Nat.eqb negb]. destruct UC as [|c u Fc UC]; [congruence|]. cbn [app]. unfold unit_char in Fc.
      assert (c <> 46) by (intros ->; discriminate Fc).
      assert (X : forall A (a b : A), match c with 46 => a | _ => b end = b); [|apply (X _ _ _)].
      intros A a b. destruct c as [|c|c]; try reflexivity. repeat (destruct c as [c|c|]; try reflexivity). congruence. }
  rewrite M. clear M mid. unfold frac_read in *. destruct (lead_frac 0 (sc 0) false fr) as [[f s] q] eqn:LF. cbn [fst snd].
  assert (NN : negb (negb (Nat.eqb (length i) 0)) && negb (negb (Nat.eqb (length fr) 0)) = false).
  { destruct i; [|reflexivity]. destruct fr; [cbn in N; congruence|]. reflexivity. }
  rewrite NN. rewrite take_unit_ok by assumption. destruct u as [|c0 u0]; [congruence|]. rewrite UE.
  assert (DV : (2 ^ 63 / unit <? dec i) = (2 ^ 63 <? dec i * unit)).
  { destruct (Z.ltb_spec (2 ^ 63) (dec i * unit)) as [L|L].
    - apply Z.ltb_lt. apply Z.div_lt_upper_bound; lia.
    - apply Z.ltb_ge. apply Z.div_le_lower_bound; lia. }
  rewrite DV. cbv zeta. destruct (Z.ltb_spec (2 ^ 63) (dec i * unit)) as [L|L]; [rewrite (proj2 (Z.leb_gt _ _)) by lia; reflexivity|].
  destruct (Z.ltb_spec 0 f).
  - rewrite Z.ltb_antisym. destruct (_ <=? 2 ^ 63); reflexivity.
  - rewrite Z.add_0_r. rewrite (proj2 (Z.leb_le _ _)) by lia. reflexivity.
Qed.
Lemma part_text_head p r : part_ok p -> next_ok (part_text p ++ r) /\ part_text p <> [].
Proof.
  intros (F1 & F2 & N & PT & U). destruct p as [i pt fr u unit]. unfold part_text. cbn [p_int p_point p_frac p_name p_unit] in *.
  destruct i as [|c i].
  - destruct pt; [split; [reflexivity|discriminate]|]. rewrite PT in N by reflexivity. exfalso. apply N. reflexivity.
  - split; [|discriminate]. cbn. inversion F1 as [|? ? Fc _]; subst. rewrite (proj2 (isd_iff c) Fc). apply orb_true_r.
Qed.
Lemma dur_one_inv s v r : dur_one s = Some (v, r) -> exists p, part_ok p /\ s = part_text p ++ r /\ next_ok r.
Proof.
  unfold dur_one. destruct s as [|c s0]; [discriminate|]. set (s := c :: s0). destruct (negb _) eqn:H0; [discriminate|]. clear H0. clearbody s. clear c s0.
  destruct (digits_split s) as (i & s1 & -> & F1 & S1). rewrite lead_int_ok by (try assumption; lia). destruct (_ <=? _); [|discriminate].
  assert (PRE : negb (Nat.eqb (length (i ++ s1)) (length s1)) = negb (Nat.eqb (length i) 0)).
  { rewrite app_length. destruct (Nat.eqb_spec (length i) 0) as [->|X]; [rewrite Nat.eqb_refl; reflexivity|]. rewrite (proj2 (Nat.eqb_neq _ _)) by lia. reflexivity. }
  rewrite PRE. clear PRE.
  set (mid := match s1 with 46 :: t => _ | _ => _ end).
  assert (M : exists pt fr s2 f sc', Forall digit fr /\ (pt = false -> fr = []) /\ s1 = (if pt then 46 :: fr else []) ++ s2 /\ mid = (f, sc', negb (Nat.eqb (length fr) 0), s2)).
  { destruct (Z.eq_dec (hd 0 s1) 46) as [E|E].
    - destruct s1 as [|c t]; [discriminate E|]. cbn [hd] in E. subst c. destruct (digits_split t) as (fr & s2 & -> & F2 & S2). unfold mid.
      rewrite lead_frac_rest by assumption. destruct (lead_frac 0 (Some (1, 0)) false fr) as [[f s'] q]. cbn [fst]. exists true, fr, s2, f, s'. split; [exact F2|]. split; [discriminate|]. split; [reflexivity|].
      rewrite app_length. f_equal. f_equal. destruct (Nat.eqb_spec (length fr) 0) as [->|X]; [rewrite Nat.eqb_refl; reflexivity|]. rewrite (proj2 (Nat.eqb_neq _ _)) by lia. reflexivity.
    - exists false, [], s1, 0, (Some (1, 0)). split; [constructor|]. split; [reflexivity|]. split; [reflexivity|]. unfold mid. destruct s1 as [|c t]; [reflexivity|]. cbn [hd] in E.
      destruct c as [|c|c]; try reflexivity. repeat (destruct c as [c|c|]; try reflexivity). congruence. }
  destruct M as (pt & fr & s2 & f & sc' & F2 & PT & -> & ->).
  destruct (negb _ && _) eqn:NN; [discriminate|]. destruct (take_unit s2) as [u r'] eqn:TU. destruct (take_unit_inv s2 u r' TU) as [-> NX]. destruct u as [|c u]; [discriminate|].
  destruct (dur_unit (c :: u)) as [unit|] eqn:DU; [|discriminate]. apply dur_unit_inv in DU.
  intros H. assert (r' = r).
  { destruct (_ <? _); [discriminate|]. cbv zeta in H. destruct (0 <? f); [destruct (_ <? _); [discriminate|]|]; injection H as _ <-; reflexivity. }
  subst r'. exists (Part i pt fr (c :: u) unit). split; [|split; [unfold part_text; cbn [p_int p_point p_frac p_name]; rewrite <- !app_assoc; reflexivity|exact NX]].
  unfold part_ok. cbn [p_int p_point p_frac p_name p_unit]. split; [exact F1|]. split; [exact F2|]. split; [|split; [exact PT|exact DU]].
  intros E. apply app_eq_nil in E as [-> ->]. discriminate NN.
Qed.

(** * All of them *)
Fixpoint run (d : Z) (vs : list Z) : option Z :=
  match vs with
  | [] => Some d
  | v :: vs => if v <=? 2 ^ 63 then let d := (d + v) mod 2 ^ 64 in if 2 ^ 63 <? d then None else run d vs else None
  end.
Lemma run_ok vs : forall d, Forall (fun v => 0 <= v) vs -> 0 <= d -> d + sum vs <= 2 ^ 63 -> run d vs = Some (d + sum vs).
Proof.
  induction vs as [|v vs IH]; intros d F D L; [cbn [sum fold_right run] in *; f_equal; unfold sum; cbn; lia|].
  inversion F as [|? ? Fv Fs]; subst. change (sum (v :: vs)) with (v + sum vs) in *.
  assert (0 <= sum vs) by (clear - Fs; unfold sum; induction Fs; cbn; lia).
  cbn [run]. rewrite (proj2 (Z.leb_le v _)) by lia. cbv zeta. rewrite Z.mod_small by lia. rewrite (proj2 (Z.ltb_ge _ _)) by lia. rewrite IH by (try assumption; lia). f_equal. lia.
Qed.
Lemma run_inv vs : forall d z, 0 <= d <= 2 ^ 63 -> run d vs = Some z -> 0 <= z <= 2 ^ 63 /\ z = (d + sum vs) mod 2 ^ 64.
Proof.
  induction vs as [|v vs IH]; intros d z D H; cbn [run] in H.
  - injection H as <-. change (sum []) with 0. rewrite Z.add_0_r, Z.mod_small by lia. auto.
  - change (sum (v :: vs)) with (v + sum vs). destruct (v <=? 2 ^ 63); [|discriminate]. cbv zeta in H. destruct (Z.ltb_spec (2 ^ 63) ((d + v) mod 2 ^ 64)) as [L|L]; [discriminate|].
    apply IH in H as [B ->]; [|pose proof (Z.mod_pos_bound (d + v) (2 ^ 64)); lia]. split; [exact B|]. rewrite Z.add_mod_idemp_l by lia. f_equal. lia.
Qed.
Lemma parts_next ps : Forall part_ok ps -> next_ok (parts_text ps).
Proof. intros F. destruct F as [|p ps Fp F]; [exact I|]. apply (part_text_head p (parts_text ps) Fp). Qed.
Lemma loop_ok ps : forall fuel d, Forall part_ok ps -> (length ps <= fuel)%nat -> dur_loop fuel (parts_text ps) d = run d (map part_ns ps).
Proof.
  induction ps as [|p ps IH]; intros fuel d F L; [destruct fuel; reflexivity|]. inversion F as [|? ? Fp Fs]; subst.
  destruct fuel as [|fuel]; [cbn [length] in L; lia|]. change (parts_text (p :: ps)) with (part_text p ++ parts_text ps). cbn [map run dur_loop].
  destruct (part_text_head p (parts_text ps) Fp) as [_ NE]. destruct (part_text p ++ parts_text ps) as [|c s] eqn:E; [apply app_eq_nil in E as [E _]; congruence|]. rewrite <- E.
  rewrite dur_one_ok by (try assumption; apply parts_next, Fs). destruct (part_ns p <=? 2 ^ 63); [|reflexivity]. cbv zeta. destruct (_ <? _); [reflexivity|]. apply IH; [exact Fs|cbn [length] in L; lia].
Qed.
Lemma loop_inv fuel : forall s d z, dur_loop fuel s d = Some z -> exists ps, Forall part_ok ps /\ s = parts_text ps.
Proof.
  induction fuel as [|fuel IH]; intros s d z H.
  - destruct s; [exists []; auto|discriminate H].
  - destruct s as [|c s0]; [exists []; auto|]. cbn [dur_loop] in H. set (s := c :: s0) in *. destruct (dur_one s) as [[v r]|] eqn:E; [|discriminate]. cbv zeta in H. destruct (_ <? _); [discriminate|].
    apply IH in H as (ps & F & ->). apply dur_one_inv in E as (p & Fp & E & _). exists (p :: ps). split; [constructor; assumption|exact E].
Qed.
Lemma parts_len ps : Forall part_ok ps -> (length ps <= length (parts_text ps))%nat.
Proof.
  induction 1 as [|p ps Fp F IH]; [cbn; lia|]. change (parts_text (p :: ps)) with (part_text p ++ parts_text ps). rewrite app_length. cbn [length].
  destruct (part_text_head p [] Fp) as [_ NE]. destruct (part_text p); [congruence|]. cbn [length]. lia.
Qed.
Lemma parts_ns_nonneg ps : Forall part_ok ps -> Forall (fun v => 0 <= v) (map part_ns ps).
Proof. induction 1 as [|p ps Fp F IH]; constructor; [apply part_near, Fp|exact IH]. Qed.
Lemma parts_near ps : Forall part_ok ps -> Forall2 near ps (map part_ns ps).
Proof. induction 1 as [|p ps Fp F IH]; constructor; [apply part_near, Fp|exact IH]. Qed.
Lemma parts_exact ps vs : Forall2 near ps vs -> Forall whole ps -> (inject_Z (sum vs) == parts_value ps)%Q.
Proof.
  induction 1 as [|p v ps vs H F IH]; intros W; [reflexivity|]. inversion W as [|? ? Wp Ws]; subst. change (sum (v :: vs)) with (v + sum vs). change (parts_value (p :: ps)) with (part_value p + parts_value ps)%Q.
  rewrite inject_Z_plus, IH by exact Ws. destruct H as (_ & H & _). rewrite (H Wp). reflexivity.
Qed.
Definition count (ps : list part) : Q := inject_Z (Z.of_nat (length ps)).
Lemma parts_close ps vs : Forall2 near ps vs -> (Qabs (inject_Z (sum vs) - parts_value ps) <= (101 # 100) * count ps)%Q.
Proof.
  induction 1 as [|p v ps vs H F IH]; [vm_compute; discriminate|]. change (sum (v :: vs)) with (v + sum vs). change (parts_value (p :: ps)) with (part_value p + parts_value ps)%Q.
  unfold count in *. cbn [length]. rewrite Nat2Z.inj_succ. unfold Z.succ. rewrite !inject_Z_plus. change (inject_Z 1) with 1%Q. destruct H as (_ & _ & H).
  apply Qabs_Qle_condition in IH. apply Qabs_Qlt_condition in H. apply Qabs_Qle_condition. split; lra.
Qed.
(** The last byte of a sequence of parts is not a digit. *)
Lemma parts_not_zero ps : Forall part_ok ps -> parts_text ps <> [48].
Proof.
  intros F. destruct F as [|p ps Fp F]; [discriminate|]. change (parts_text (p :: ps)) with (part_text p ++ parts_text ps).
  destruct Fp as (F1 & F2 & N & PT & U). destruct (unit_name_ok _ _ U) as (_ & UC & UN & _). unfold part_text. intros E.
  assert (X : In 48 (p_name p) \/ p_name p = []).
  { destruct (p_name p) as [|c u] eqn:EU; [auto|]. left.
    assert (L : length ((p_int p ++ (if p_point p then 46 :: p_frac p else []) ++ c :: u) ++ parts_text ps) = 1%nat) by (rewrite E; reflexivity).
    rewrite !app_length in L. cbn [length] in L. destruct (p_int p) as [|c1 i]; [|cbn [length] in L; lia]. destruct (p_point p); [cbn [length] in L; lia|]. rewrite PT in N by reflexivity. exfalso. apply N. reflexivity. }
  destruct X as [X|X]; [|congruence]. rewrite Forall_forall in UC. specialize (UC 48 X). discriminate UC.
Qed.
Definition sgn (neg : bool) (z : Z) : Z := if neg then - z else z.
(** the whole text *)
Lemma parse_parts neg sg ps : signs neg sg -> ps <> [] -> Forall part_ok ps ->
  parse_dur (sg ++ parts_text ps) = match run 0 (map part_ns ps) with None => None | Some d => if neg then Some (- d) else if 2 ^ 63 - 1 <? d then None else Some d end.
Proof.
  intros SG NE F. assert (NX : next_ok (parts_text ps)) by (apply parts_next, F).
  assert (NN : parts_text ps <> []).
  { destruct F as [|p ps Fp F]; [congruence|]. change (parts_text (p :: ps)) with (part_text p ++ parts_text ps). intros E. apply app_eq_nil in E as [E _]. destruct (part_text_head p [] Fp). congruence. }
  assert (NZ := parts_not_zero ps F). pose proof (loop_ok ps (length (parts_text ps)) 0 F (parts_len ps F)) as L.
  set (t := parts_text ps) in *. clearbody t.
  assert (H : forall b, (if beqb t [48] then Some 0 else match t with [] => None | _ => match dur_loop (length t) t 0 with None => None | Some d => if b : bool then Some (- d) else if 2 ^ 63 - 1 <? d then None else Some d end end)
            = match run 0 (map part_ns ps) with None => None | Some d => if b then Some (- d) else if 2 ^ 63 - 1 <? d then None else Some d end).
  { intros b. destruct (beqb t [48]) eqn:B; [apply beqb_true in B; congruence|]. rewrite L. destruct t; [congruence|]. reflexivity. }
  unfold parse_dur. inversion SG; subst; cbn [app].
  - destruct t as [|c t]; [congruence|]. cbn in NX. assert (X : (c =? 45) || (c =? 43) = false).
    { unfold isd in NX. apply orb_true_iff in NX. rewrite Z.eqb_eq, andb_true_iff, !Z.leb_le in NX. apply orb_false_iff. rewrite !Z.eqb_neq. lia. }
    rewrite X. apply (H false).
  - cbn [Z.eqb orb Pos.eqb]. apply (H false).
  - cbn [Z.eqb orb Pos.eqb]. apply (H true).
Qed.
Lemma parse_inv s z : parse_dur s = Some z -> exists neg sg, signs neg sg /\ ((s = sg ++ [48] /\ z = 0) \/ exists ps, ps <> [] /\ Forall part_ok ps /\ s = sg ++ parts_text ps).
Proof.
  unfold parse_dur. set (x := match s with c :: t => _ | [] => _ end).
  assert (X : exists neg sg t, x = (neg, t) /\ signs neg sg /\ s = sg ++ t).
  { unfold x. destruct s as [|c t]; [exists false, [], []; repeat split; constructor|]. destruct ((c =? 45) || (c =? 43)) eqn:C; [|exists false, [], (c :: t); repeat split; constructor].
    apply orb_true_iff in C. rewrite !Z.eqb_eq in C. destruct C as [->| ->]; [exists true, [45], t|exists false, [43], t]; repeat split; constructor. }
  destruct X as (neg & sg & t & -> & SG & ->). exists neg, sg. split; [exact SG|]. destruct (beqb t [48]) eqn:B; [apply beqb_true in B; subst t; left; split; congruence|].
  right. destruct t as [|c t]; [discriminate|]. destruct (dur_loop (length (c :: t)) (c :: t) 0) as [d|] eqn:L; [|discriminate]. apply loop_inv in L as (ps & F & E). exists ps. split; [intros ->; discriminate E|]. split; [exact F|]. rewrite E. reflexivity.
Qed.
