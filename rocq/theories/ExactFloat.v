(** The parser of decimal literals without rounding (FloatModel.v).  It shows
    that the contract [parses] (SpecTrip.v) can be met for all finite decimals at
    once. *)
From Coq Require Import QArith Qpower Lqa.
From Verif Require Import Bytes ParseModel IntModel EncModel SpecJson SpecNum SpecRender SpecTrip ParseFacts IntFacts NumFacts.
From Verif Require Export FloatModel.
From Coq Require Import Lia.
Local Open Scope Z_scope.

Lemma isd_true c : digit c -> isd c = true.
Proof. unfold digit, isd. intros H. apply andb_true_iff. rewrite !Z.leb_le. lia. Qed.
Lemma spand_app ds r : Forall digit ds -> match r with [] => True | c :: _ => isd c = false end -> spand (ds ++ r) = (ds, r).
Proof.
  intros F H. induction F as [|c ds Hc F IH]; cbn [app spand].
  - destruct r as [|c r]; [reflexivity|]. cbn [spand]. rewrite H. reflexivity.
  - rewrite (isd_true c Hc), IH. reflexivity.
Qed.
Lemma drop0_split b : exists n, b = repeat 48 n ++ drop0 b /\ hd 0 (drop0 b) <> 48.
Proof.
  induction b as [|c b (n & E & H)]; [exists O; split; [reflexivity|discriminate]|].
  destruct (Z.eq_dec c 48) as [->|N].
  - exists (S n). cbn [drop0 repeat app]. split; [rewrite E at 1; reflexivity|exact H].
  - exists O. assert (D : drop0 (c :: b) = c :: b). { destruct c as [|p|p]; try reflexivity. do 6 (destruct p as [p|p|]; try reflexivity). destruct N. reflexivity. }
    rewrite D. split; [reflexivity|exact N].
Qed.
Lemma repeat_rev n : rev (repeat (48:Z) n) = repeat 48 n.
Proof. induction n as [|n IH]; [reflexivity|]. cbn [repeat rev]. rewrite IH. clear. induction n as [|n IH]; [reflexivity|]. cbn. rewrite IH. reflexivity. Qed.
Lemma strip0_split b : exists n, b = strip0 b ++ repeat 48 n /\ last (strip0 b) 0 <> 48.
Proof.
  destruct (drop0_split (rev b)) as (n & E & H). exists n. unfold strip0. split.
  - rewrite <- (rev_involutive b) at 1. rewrite E at 1. rewrite rev_app_distr, repeat_rev. reflexivity.
  - destruct (drop0 (rev b)) as [|c t]; [discriminate|]. cbn [rev]. rewrite last_last. exact H.
Qed.

Lemma dec_same_length a : forall b, Forall digit a -> Forall digit b -> length a = length b -> dec a = dec b -> a = b.
Proof.
  induction a as [|x a IH]; intros [|y b] Fa Fb L E; try discriminate; [reflexivity|].
  inversion Fa as [|? ? Hx Fa']; inversion Fb as [|? ? Hy Fb']; subst. cbn [length] in L. injection L as L.
  pose proof (dec_app [x] a) as Ea. pose proof (dec_app [y] b) as Eb. cbn [app] in Ea, Eb.
  pose proof (dec_bounds a Fa') as Ba. pose proof (dec_bounds b Fb') as Bb. rewrite <- L in Eb, Bb.
  assert (Dx : dec [x] = x - 48) by (unfold dec; cbn; lia). assert (Dy : dec [y] = y - 48) by (unfold dec; cbn; lia).
  assert (x = y) by nia. subst y. f_equal. apply IH; auto. nia.
Qed.

Lemma dec_pos_form ds : float_form ds -> 0 < dec ds.
Proof.
  intros F. pose proof (dec_lower ds F) as H. destruct F as (_ & d & t & -> & _). cbn [length] in H.
  assert (0 < 10 ^ (Z.of_nat (S (length t)) - 1)) by (apply Z.pow_pos_nonneg; lia). lia.
Qed.

Lemma form_unique ds ds' dp dp' : float_form ds -> float_form ds' ->
  (q10 (dec ds) (dp - Z.of_nat (length ds)) == q10 (dec ds') (dp' - Z.of_nat (length ds')))%Q -> dp = dp' /\ ds = ds'.
Proof.
  intros F F' E.
  assert (LT : forall a b, (q10 1 a < q10 1 b)%Q -> a < b).
  { intros a b H. destruct (Z.lt_ge_cases a b) as [|G]; [assumption|]. exfalso. apply (Qlt_not_le _ _ H). apply q10_one_le. exact G. }
  assert (D : dp = dp').
  { assert (dp - 1 < dp').
    { apply LT. eapply Qle_lt_trans; [apply (float_lower ds dp F)|]. rewrite E. apply (float_upper ds' dp' F'). }
    assert (dp' - 1 < dp).
    { apply LT. eapply Qle_lt_trans; [apply (float_lower ds' dp' F')|]. rewrite <- E. apply (float_upper ds dp F). }
    lia. }
  subst dp'. split; [reflexivity|].
  assert (K : forall a b, float_form a -> float_form b -> (length a <= length b)%nat ->
     (q10 (dec a) (dp - Z.of_nat (length a)) == q10 (dec b) (dp - Z.of_nat (length b)))%Q -> a = b).
  { clear. intros a b Fa Fb L E. set (k := (length b - length a)%nat).
    assert (E2 : dec (a ++ repeat 48 k) = dec b).
    { rewrite dec_app, dec_repeat0, repeat_length, Z.add_0_r.
      replace (dp - Z.of_nat (length a)) with (dp - Z.of_nat (length b) + Z.of_nat k) in E by (unfold k; lia).
      rewrite <- q10_shift in E by lia. unfold q10 in E.
      apply Qmult_inj_r in E; [|apply Qnot_eq_sym, Qlt_not_eq, Qpower_0_lt; reflexivity].
      exact (proj1 (inject_Z_injective _ _) E). }
    apply dec_same_length in E2.
    - destruct k as [|k]; [cbn in E2; rewrite app_nil_r in E2; exact E2|]. exfalso.
      destruct Fb as (_ & d & t & Eb & _ & NL). apply NL. rewrite <- E2.
      cbn [repeat]. rewrite repeat_cons, app_assoc, last_last. reflexivity.
    - apply Forall_app. split; [apply Fa|]. apply Forall_forall. intros c Hc. apply repeat_spec in Hc. subst c. unfold digit. lia.
    - apply Fb.
    - rewrite app_length, repeat_length. unfold k. lia. }
  destruct (Nat.le_ge_cases (length ds) (length ds')) as [L|L].
  - apply K; auto.
  - symmetry. apply K; auto. symmetry. exact E.
Qed.

(** The digits of a literal, normalized. *)
Lemma int_lit_digits i : int_lit i -> Forall digit i /\ exists c t, i = c :: t.
Proof. intros [|d ds Hd F]; [split; [repeat constructor; unfold digit; lia|eauto]|]. split; [constructor; [unfold digit in *; lia|exact F]|eauto]. Qed.
Lemma digit_not c : digit c -> c <> 45 /\ c <> 43 /\ c <> 46 /\ c <> 101 /\ c <> 69.
Proof. unfold digit. lia. Qed.

Lemma exact_num neg i ft f et x : int_lit i -> frac_digits ft f -> exp_val et x ->
  exact ((if neg : bool then [45] else []) ++ i ++ ft ++ et) = Some (norm neg (i ++ f) (x - Z.of_nat (length f))).
Proof.
  intros Hi Hf He. destruct (int_lit_digits i Hi) as (Fi & c & t & Ei).
  assert (Hs : x_sign ((if neg then [45] else []) ++ i ++ ft ++ et) = (neg, i ++ ft ++ et)).
  { destruct neg; [reflexivity|]. cbn [app]. subst i. cbn [app]. inversion Fi as [|? ? Hc _]; subst. unfold digit in Hc.
    assert (c = 48 \/ c = 49 \/ c = 50 \/ c = 51 \/ c = 52 \/ c = 53 \/ c = 54 \/ c = 55 \/ c = 56 \/ c = 57) as HH by lia.
    repeat (destruct HH as [->|HH]; [reflexivity|]). subst c. reflexivity. }
  unfold exact. rewrite Hs.
  assert (Het : match et with [] => True | c :: _ => isd c = false /\ (c = 101 \/ c = 69) end).
  { inversion He as [|e sg ds [H|H] _ _|e ds [H|H] _]; subst; cbn; auto. }
  rewrite spand_app; [|exact Fi|].
  2:{ destruct Hf as [|ds Hd]; [destruct et; tauto|reflexivity]. }
  assert (Hfr : x_frac (ft ++ et) = (f, et)).
  { destruct Hf as [|ds Hd]; cbn [app].
    - destruct et as [|c0 et]; [reflexivity|]. destruct Het as [_ [->| ->]]; reflexivity.
    - apply spand_app; [apply Hd|]. destruct et; tauto. }
  rewrite Hfr.
  assert (Hx : x_exp et = x).
  { assert (SP : forall ds, Forall digit ds -> spand ds = (ds, [])) by (intros ds F; rewrite <- (app_nil_r ds) at 1; apply spand_app; [exact F|exact I]).
    inversion He as [|e sg ds H1 Hsg [N Hd]|e ds H1 [N Hd]]; subst; [reflexivity| |].
    - destruct Hsg as [->| ->]; cbn [app].
      + destruct ds as [|d ds]; [congruence|].
        assert (X : fst (spand (d :: ds)) = d :: ds) by (rewrite SP; auto).
        inversion Hd as [|? ? Hdd _]; subst. unfold digit in Hdd.
        assert (d = 48 \/ d = 49 \/ d = 50 \/ d = 51 \/ d = 52 \/ d = 53 \/ d = 54 \/ d = 55 \/ d = 56 \/ d = 57) as HH by lia.
        repeat (destruct HH as [->|HH]; [unfold x_exp; rewrite X; reflexivity|]). subst d. unfold x_exp. rewrite X. reflexivity.
      + unfold x_exp. rewrite SP by exact Hd. reflexivity.
    - unfold x_exp. rewrite SP by exact Hd. reflexivity. }
  rewrite Hx. reflexivity.
Qed.

Lemma norm_form ds : Forall digit ds -> drop0 ds <> [] -> float_form (strip0 (drop0 ds)) /\
  forall e, (q10 (dval ds) e == q10 (dec (strip0 (drop0 ds))) (e + Z.of_nat (length (drop0 ds)) - Z.of_nat (length (strip0 (drop0 ds)))))%Q.
Proof.
  intros F N. destruct (drop0_split ds) as (n & E & H). destruct (strip0_split (drop0 ds)) as (k & E2 & H2).
  set (m := drop0 ds) in *. set (z := strip0 m) in *.
  assert (Fm : Forall digit m) by (rewrite E in F; apply Forall_app in F; tauto).
  assert (Fz : Forall digit z) by (rewrite E2 in Fm; apply Forall_app in Fm; tauto).
  split.
  - split; [exact Fz|]. destruct z as [|d t] eqn:Ez.
    + exfalso. cbn [app] in E2. destruct k; [cbn in E2; congruence|]. rewrite E2 in H. apply H. reflexivity.
    + exists d, t. split; [reflexivity|]. split; [|exact H2]. rewrite E2 in H. exact H.
  - intros e. rewrite dval_dec. rewrite E at 1. rewrite dec_zeros. rewrite E2 at 1 2. rewrite dec_app, dec_repeat0, repeat_length, Z.add_0_r.
    rewrite q10_shift by lia. rewrite app_length, repeat_length. replace (e + Z.of_nat (length z + k) - Z.of_nat (length z)) with (e + Z.of_nat k) by lia. reflexivity.
Qed.

Lemma norm_zero ds : drop0 ds = [] -> dval ds = 0.
Proof. intros E. destruct (drop0_split ds) as (n & E2 & _). rewrite E, app_nil_r in E2. rewrite E2, dval_dec, dec_repeat0. reflexivity. Qed.

Lemma q10_zero_iff m e : (q10 m e == 0)%Q <-> m = 0.
Proof.
  unfold q10. split.
  - intros H. apply Qmult_integral in H. destruct H as [H|H]; [exact (proj1 (inject_Z_injective m 0) H)|].
    exfalso. revert H. apply Qnot_eq_sym, Qlt_not_eq, Qpower_0_lt. reflexivity.
  - intros ->. ring.
Qed.

Theorem exact_parses f : finite f -> parses exact f.
Proof.
  intros F. destruct f as [| |neg|neg ds dp]; cbn [finite parses] in *; try contradiction.
  - intros s q V Q S. destruct V as [ng i ft f et x Hi Hf He]. rewrite (exact_num ng i ft f et x Hi Hf He).
    apply q10_zero_iff in Q. assert (D0 : dval (i ++ f) = 0) by (destruct ng; lia).
    assert (neg = ng).
    { destruct (int_lit_digits i Hi) as (Fi & c & t & ->). inversion Fi as [|? ? Hc _]; subst. apply digit_not in Hc.
      destruct ng, neg; cbn in S; try reflexivity; exfalso; [assert (false = true) by (apply S; reflexivity); discriminate|apply Hc; tauto]. }
    subst ng. unfold norm. destruct (drop0 (i ++ f)) as [|c m] eqn:E; [reflexivity|]. exfalso.
    assert (Fd : Forall digit (i ++ f)) by (apply Forall_app; split; [apply int_lit_digits, Hi|destruct Hf as [|? Hd]; [constructor|apply Hd]]).
    destruct (norm_form (i ++ f) Fd) as (FF & EQ); [congruence|]. specialize (EQ 0). rewrite D0 in EQ.
    assert (Z : dec (strip0 (drop0 (i ++ f))) = 0) by (eapply q10_zero_iff; symmetry; rewrite <- (proj2 (q10_zero_iff 0 0) eq_refl); exact EQ).
    pose proof (dec_pos_form _ FF). lia.
  - intros s q V Q. destruct V as [ng i ft f et x Hi Hf He]. rewrite (exact_num ng i ft f et x Hi Hf He).
    assert (Fd : Forall digit (i ++ f)) by (apply Forall_app; split; [apply int_lit_digits, Hi|destruct Hf as [|? Hd]; [constructor|apply Hd]]).
    rewrite (dval_dec ds) in Q. pose proof (dec_pos_form ds F) as P.
    assert (Sg : forall (b : bool) m e, (q10 ((if b then -1 else 1) * m) e == (if b then -1 else 1) * q10 m e)%Q).
    { intros b m e. unfold q10. destruct b; rewrite inject_Z_mult; [change (inject_Z (-1)) with (-1)%Q|change (inject_Z 1) with 1%Q]; ring. }
    assert (Pos : forall a e, 0 < a -> (0 < q10 a e)%Q).
    { intros a e Ha. unfold q10. rewrite <- (Qmult_0_l ((10 # 1) ^ e)). apply Qmult_lt_compat_r; [apply Qpower_0_lt; reflexivity|].
      change 0%Q with (inject_Z 0). rewrite <- Zlt_Qlt. exact Ha. }
    destruct (drop0 (i ++ f)) as [|c m] eqn:E.
    + exfalso. pose proof (norm_zero _ E) as D0. rewrite D0, Z.mul_0_r in Q.
      rewrite (proj2 (q10_zero_iff 0 _) eq_refl) in Q. symmetry in Q. apply q10_zero_iff in Q. destruct neg; lia.
    + destruct (norm_form (i ++ f) Fd) as (FF & EQ); [congruence|]. rewrite E in FF, EQ.
      rewrite Sg, (EQ (x - Z.of_nat (length f))), (Sg neg) in Q. pose proof (dec_pos_form _ FF) as P2.
      set (A := q10 (dec (strip0 (c :: m))) _) in Q. set (B := q10 (dec ds) _) in Q.
      assert (PA : (0 < A)%Q) by (apply Pos, P2). assert (PB : (0 < B)%Q) by (apply Pos, P).
      assert (ng = neg /\ (A == B)%Q) as [-> AB].
      { destruct ng, neg; split; try reflexivity; try lra. all: exfalso; lra. }
      unfold norm. rewrite E. destruct (form_unique _ _ _ _ FF F AB) as [-> ->]. reflexivity.
Qed.
