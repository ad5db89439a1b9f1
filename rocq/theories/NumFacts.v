(** The numbers and base64 texts written by the encoder denote the right
    values. *)
From Coq Require Import QArith Qpower Lqa.
From Verif Require Import Bytes Utf8Model ParseModel StringModel IntModel TokenModel EncModel SpecJson SpecString SpecTokens
  SpecRender SpecColor SpecNum ParseFacts Utf8Facts StringFacts IntFacts TokenFacts EncFacts RawFacts EncMain TextFacts.
Local Open Scope Z_scope.

Lemma dval_dec ds : dval ds = dec ds.
Proof. reflexivity. Qed.
Lemma dec_from_pow ds : forall v, dec_from v ds = v * 10 ^ Z.of_nat (length ds) + dec ds.
Proof.
  unfold dec. induction ds as [|d ds IH]; intros v. { cbn. lia. }
  rewrite !dec_from_cons, IH, (IH (0 * 10 + _)). cbn [length]. rewrite Nat2Z.inj_succ, Z.pow_succ_r by lia. ring.
Qed.
Lemma dec_app a b : dec (a ++ b) = dec a * 10 ^ Z.of_nat (length b) + dec b.
Proof. unfold dec at 1. rewrite dec_from_app, dec_from_pow. reflexivity. Qed.
Lemma dec_repeat0 n : dec (repeat 48 n) = 0.
Proof. induction n as [|n IH]; [reflexivity|]. cbn [repeat]. unfold dec in *. rewrite dec_from_cons. exact IH. Qed.
Lemma dec_zeros n ds : dec (repeat 48 n ++ ds) = dec ds.
Proof. rewrite dec_app, dec_repeat0. lia. Qed.
Lemma dec_zero_cons ds : dec (48 :: ds) = dec ds.
Proof. reflexivity. Qed.

Definition sg (neg : bool) : Z := if neg then -1 else 1.
Definition sgt (neg : bool) : bytes := if neg then [45] else [].
Lemma q10_shift m e k : (0 <= k)%Z -> (q10 (m * 10 ^ k) e == q10 m (e + k))%Q.
Proof.
  intros H. unfold q10. rewrite inject_Z_mult, Qpower_plus by discriminate. rewrite (Zpower_Qpower 10 k H). change (inject_Z 10) with (10 # 1)%Q. ring.
Qed.
Lemma nval' neg i ft f et x t q : int_lit i -> frac_digits ft f -> exp_val et x -> t = sgt neg ++ i ++ ft ++ et ->
  (q10 (sg neg * dec (i ++ f)) (x - Z.of_nat (length f)) == q)%Q -> exists q', num_val t q' /\ (q' == q)%Q.
Proof. intros I F E -> Q. eexists. split; [apply (nval neg i ft f et x I F E)|exact Q]. Qed.

Lemma fmt_f_val neg ds dp : float_form ds -> exists q, num_val (fmt_f neg ds dp) q /\ (q == q10 (sg neg * dec ds) (dp - Z.of_nat (length ds)))%Q.
Proof.
  intros (F & d & t & E & N & _). assert (Fd : digit d /\ Forall digit t) by (rewrite E in F; inversion F; auto). destruct Fd as [Fd Ft].
  assert (L : (0 < length ds)%nat) by (rewrite E; cbn; lia). unfold fmt_f. fold (sgt neg).
  destruct (0 <? dp) eqn:E0; zb.
  - assert (I : int_lit (firstn (Z.to_nat dp) ds ++ repeat 48 (Z.to_nat dp - length ds))).
    { rewrite E. replace (Z.to_nat dp) with (S (Z.to_nat dp - 1)) by lia. cbn [firstn app].
      apply int_pos; [unfold digit in Fd; lia|]. apply Forall_app. split; [apply Forall_firstn, Ft|apply digits_repeat0]. }
    destruct (dp <? _) eqn:E1; zb.
    + eapply (nval' neg _ _ _ [] 0 _ _ I); [apply fd_some|constructor|rewrite app_nil_r; reflexivity|].
      * split; [|apply Forall_app; split; [apply digits_repeat0|apply Forall_skipn, F]].
        intros H. apply (f_equal (@length Z)) in H. rewrite app_length, repeat_length, skipn_length in H. cbn [length] in *. lia.
      * replace (Z.to_nat dp - length ds)%nat with 0%nat by lia. replace (Z.to_nat (- dp)) with 0%nat by lia. cbn [repeat app]. rewrite app_nil_r, firstn_skipn.
        rewrite skipn_length. replace (0 - _) with (dp - Z.of_nat (length ds)) by lia. reflexivity.
    + eapply (nval' neg _ _ _ [] 0 _ _ I); [apply fd_none|constructor|reflexivity|]. rewrite app_nil_r. rewrite (firstn_all2 ds) by lia.
      rewrite dec_app, dec_repeat0, repeat_length, Z.add_0_r, Z.mul_assoc. rewrite q10_shift by lia. cbn [length].
      replace (0 - Z.of_nat 0 + Z.of_nat (Z.to_nat dp - length ds)) with (dp - Z.of_nat (length ds)) by lia. reflexivity.
  - assert (E1 : (dp <? Z.of_nat (length ds)) = true) by (apply Z.ltb_lt; lia). rewrite E1. replace (Z.to_nat dp) with 0%nat by lia. cbn [skipn].
    eapply (nval' neg [48] _ _ [] 0); [constructor|apply fd_some|constructor|rewrite app_nil_r; reflexivity|].
    + split; [|apply Forall_app; split; [apply digits_repeat0|exact F]].
      intros H. apply (f_equal (@length Z)) in H. rewrite app_length in H. cbn [length] in *. lia.
    + cbn [app]. rewrite dec_zero_cons, dec_zeros, app_length, repeat_length. replace (0 - _) with (dp - Z.of_nat (length ds)) by lia. reflexivity.
Qed.
Lemma exp_digits_val x : exp_val (101 :: exp_digits x) x.
Proof.
  unfold exp_digits. destruct (utoa_spec (Z.abs x) ltac:(lia)) as [I D]. apply int_lit_digits in I. destruct I as [I1 I2].
  destruct (x <? 0) eqn:E; zb.
  - destruct (0 <=? x) eqn:E2; zb; [lia|]. cbn [andb app]. replace x with (- dval (utoa (Z.abs x))) at 2 by (rewrite dval_dec, D; lia). apply ev_neg; [auto|split; assumption].
  - set (z := if _ && _ then [48] else []). replace x with (dval (z ++ utoa (Z.abs x))) at 2.
    + apply (ev_pos 101 [43]); [auto|auto|]. split; [unfold z; destruct (_ && _); [discriminate|exact I1]|]. apply Forall_app. split; [|exact I2].
      unfold z; destruct (_ && _); repeat constructor; unfold digit; lia.
    + rewrite dval_dec. unfold z. destruct (_ && _); cbn [app]; rewrite ?dec_zero_cons, D; lia.
Qed.
Lemma fmt_e_val neg ds dp : float_form ds -> exists q, num_val (clean_exp (fmt_e neg ds dp)) q /\ (q == q10 (sg neg * dec ds) (dp - Z.of_nat (length ds)))%Q.
Proof.
  intros Hf. rewrite (fmt_e_clean neg ds dp Hf). destruct Hf as (F & d & t & -> & N & _). inversion F as [|? ? Fd Ft]; subst. cbn [firstn skipn]. fold (sgt neg).
  assert (I : int_lit [d]) by (apply int_pos; [unfold digit in Fd; lia|constructor]).
  destruct t as [|y t].
  - eapply (nval' neg [d] [] [] _ (dp - 1) _ _ I); [constructor|apply exp_digits_val|reflexivity|]. cbn [app length].
    replace (dp - 1 - Z.of_nat 0) with (dp - Z.of_nat 1) by lia. reflexivity.
  - eapply (nval' neg [d] (46 :: y :: t) (y :: t) _ (dp - 1) _ _ I); [apply fd_some; split; [discriminate|exact Ft]|apply exp_digits_val|reflexivity|].
    cbn [app]. replace (dp - 1 - Z.of_nat (length (y :: t))) with (dp - Z.of_nat (length (d :: y :: t))) by (cbn [length]; lia). reflexivity.
Qed.

(** Digits give the magnitude. *)
Lemma dec_bounds ds : Forall digit ds -> 0 <= dec ds < 10 ^ Z.of_nat (length ds).
Proof.
  induction 1 as [|d ds Hd H IH]; [cbn; lia|]. change (d :: ds) with ([d] ++ ds). rewrite dec_app. cbn [app length]. rewrite Nat2Z.inj_succ, Z.pow_succ_r by lia.
  assert (dec [d] = d - 48) by (unfold dec, dec_from; cbn; lia). unfold digit in Hd. nia.
Qed.
Lemma dec_lower ds : float_form ds -> 10 ^ (Z.of_nat (length ds) - 1) <= dec ds.
Proof.
  intros (F & d & t & -> & N & _). inversion F as [|? ? Fd Ft]; subst. change (d :: t) with ([d] ++ t). rewrite dec_app.
  assert (dec [d] = d - 48) by (unfold dec, dec_from; cbn; lia). pose proof (dec_bounds t Ft). unfold digit in Fd.
  rewrite app_length. cbn [length]. replace (Z.of_nat (1 + length t) - 1) with (Z.of_nat (length t)) by lia. nia.
Qed.
Lemma q10_le m m' e : m <= m' -> (q10 m e <= q10 m' e)%Q.
Proof. intros H. unfold q10. apply Qmult_le_compat_r; [rewrite <- Zle_Qle; exact H|apply Qpower_pos; discriminate]. Qed.
Lemma q10_lt m m' e : m < m' -> (q10 m e < q10 m' e)%Q.
Proof. intros H. unfold q10. apply Qmult_lt_r; [apply Qpower_0_lt; reflexivity|rewrite <- Zlt_Qlt; exact H]. Qed.
Lemma q10_one_le e e' : e <= e' -> (q10 1 e <= q10 1 e')%Q.
Proof.
  intros H. replace e' with (e + (e' - e)) by lia. rewrite <- (q10_shift 1 e (e' - e)) by lia. apply q10_le.
  pose proof (Z.pow_pos_nonneg 10 (e' - e) ltac:(lia) ltac:(lia)). lia.
Qed.
Lemma float_lower ds dp : float_form ds -> (q10 1 (dp - 1) <= q10 (dec ds) (dp - Z.of_nat (length ds)))%Q.
Proof.
  intros F. assert (L : (0 < length ds)%nat) by (destruct F as (_ & ? & ? & -> & _); cbn; lia).
  replace (dp - 1) with (dp - Z.of_nat (length ds) + (Z.of_nat (length ds) - 1)) by lia. rewrite <- q10_shift by lia.
  apply q10_le. pose proof (dec_lower ds F). lia.
Qed.
Lemma float_upper ds dp : float_form ds -> (q10 (dec ds) (dp - Z.of_nat (length ds)) < q10 1 dp)%Q.
Proof.
  intros (F & _). replace dp with (dp - Z.of_nat (length ds) + Z.of_nat (length ds)) at 2 by lia. rewrite <- q10_shift by lia.
  apply q10_lt. pose proof (dec_bounds ds F). lia.
Qed.
Lemma digits_no_e ds : Forall digit ds -> ~ In 101 ds.
Proof. intros F H. rewrite Forall_forall in F. apply F in H. unfold digit in H. lia. Qed.
Lemma fmt_f_no_e neg ds dp : Forall digit ds -> ~ In 101 (fmt_f neg ds dp).
Proof.
  intros F. unfold fmt_f. rewrite !in_app_iff. intros [H|[H|H]].
  - destruct neg; cbn in H; lia.
  - destruct (0 <? dp); [|cbn in H; lia]. apply in_app_iff in H. destruct H as [H|H]; [apply digits_no_e in H; [tauto|apply Forall_firstn, F]|].
    apply digits_no_e in H; [tauto|apply digits_repeat0].
  - destruct (dp <? _); [|cbn in H; tauto]. destruct H as [H|H]; [lia|]. apply in_app_iff in H. destruct H as [H|H]; apply digits_no_e in H; try tauto; [apply digits_repeat0|apply Forall_skipn, F].
Qed.

(** * Base64 *)
Lemma b64_char_sextet n : 0 <= n < 64 -> sextet (b64_char n) n.
Proof.
  intros H. assert (X : forallb (fun k => let n := Z.of_nat k in let c := b64_char n in
     (65 <=? c) && (c <=? 90) && (n =? c - 65) || (97 <=? c) && (c <=? 122) && (n =? c - 97 + 26) ||
     (48 <=? c) && (c <=? 57) && (n =? c - 48 + 52) || (c =? 43) && (n =? 62) || (c =? 47) && (n =? 63)) (seq 0 64) = true) by (vm_compute; reflexivity).
  rewrite forallb_forall in X. specialize (X (Z.to_nat n)). cbv zeta in X. rewrite Z2Nat.id in X by lia.
  specialize (X ltac:(apply in_seq; lia)). rewrite !orb_true_iff, !andb_true_iff, !Z.leb_le, !Z.eqb_eq in X. unfold sextet. tauto.
Qed.
Lemma b64_base64 n : forall s, (length s <= n)%nat -> wf s -> base64 (b64 s) s.
Proof.
  induction n as [|n IH]; intros s L W; (destruct s as [|x [|y [|z s]]]; cbn [length] in L; try lia; cbn [b64]).
  1, 2: constructor.
  - inversion W as [|? ? Bx W1]; subst. unfold is_byte in *. eapply b64_one; try (apply b64_char_sextet); try assumption; Z.to_euclidean_division_equations; lia.
  - inversion W as [|? ? Bx W1]; subst. inversion W1 as [|? ? By W2]; subst. unfold is_byte in *.
    eapply b64_two; try (apply b64_char_sextet); try assumption; Z.to_euclidean_division_equations; lia.
  - inversion W as [|? ? Bx W1]; subst. inversion W1 as [|? ? By W2]; subst. inversion W2 as [|? ? Bz W3]; subst. unfold is_byte in *.
    eapply b64_more; try (apply b64_char_sextet); try assumption; try (Z.to_euclidean_division_equations; lia). apply IH; [lia|exact W3].
Qed.
Lemma sextet_fun c n n' : sextet c n -> sextet c n' -> n = n'.
Proof. unfold sextet. lia. Qed.
Lemma sextet_range c n : sextet c n -> 0 <= n < 64.
Proof. unfold sextet. lia. Qed.
Lemma sextet_pad n : ~ sextet 61 n.
Proof. unfold sextet. lia. Qed.
Lemma base64_fun t s : base64 t s -> forall s', base64 t s' -> s = s'.
Proof.
  induction 1 as [|a b x m n Sa Sb Bx E|a b c x y m n o Sa Sb Sc Bx By E|a b c d x y z m n o p t s Sa Sb Sc Sd Bx By Bz E H IH]; intros s' H'.
  - inversion H'. reflexivity.
  - inversion H'; subst; try (exfalso; eapply sextet_pad; eassumption).
    repeat match goal with A : sextet ?c ?n, B : sextet ?c ?k |- _ => pose proof (sextet_fun _ _ _ A B); subst k; clear B end.
    repeat match goal with A : sextet _ _ |- _ => apply sextet_range in A end. unfold is_byte in *. f_equal; lia.
  - inversion H'; subst; try (exfalso; eapply sextet_pad; eassumption).
    repeat match goal with A : sextet ?c ?n, B : sextet ?c ?k |- _ => pose proof (sextet_fun _ _ _ A B); subst k; clear B end.
    repeat match goal with A : sextet _ _ |- _ => apply sextet_range in A end. unfold is_byte in *.
    assert (x = x0 /\ y = y0) as [-> ->] by lia. reflexivity.
  - inversion H'; subst; try (exfalso; eapply sextet_pad; eassumption).
    match goal with A : base64 t _ |- _ => apply IH in A; subst end.
    repeat match goal with A : sextet ?c ?n, B : sextet ?c ?k |- _ => pose proof (sextet_fun _ _ _ A B); subst k; clear B end.
    unfold is_byte in *. f_equal; [lia|]. f_equal; [lia|]. f_equal; lia.
Qed.
