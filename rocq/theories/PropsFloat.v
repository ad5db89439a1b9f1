(** C83: floats of IEEE 754: numbers are read as the nearest float, floats are
    written as the shortest decimal that is read as the same float. *)
From Coq Require Import QArith Qabs Qpower Lqa.
From Verif Require Import Bytes ParseModel IntModel EncModel DecModel TypeModel ViewModel EncoderModel JcModel SpecJson SpecNum SpecRender SpecEnc SpecDec SpecType SpecTrip SpecSame SpecJc SpecColor SpecCanon FloatModel SpecFloat
  ParseFacts IntFacts NumFacts TextFacts DocFacts ExactFloat FloatFacts EncFacts TripFacts DecFacts NodeFacts StreamFacts TypeLoops TypeFacts TypeMain PropsParse PropsColor PropsLeaf PropsDec PropsJc PropsCanon PropsType PropsTrip.
From Coq Require Import Lia.
Local Open Scope Z_scope.

(** C83: what strconv.ParseFloat does with a JSON number: the result is the
    nearest float, and fails when that is out of the range of the format.  Its
    digits are a shortest decimal. *)
Theorem C83_nearest : forall F s q, 2 <= b_prec F -> 0 <= b_emax F -> num_val s q ->
  match parse_float F s with
  | Some f => exists x, nearest F q x /\ in_range F x /\ writes F f x /\ (negative f = true <-> hd 0 s = 45)
  | None => exists x, nearest F q x /\ ~ in_range F x
  end.
Proof. intros F s q P E. apply reads_ok; assumption. Qed.
(** There is one nearest float. *)
Theorem C83_unique : forall F q x y, 2 <= b_prec F -> nearest F q x -> nearest F q y -> (x == y)%Q.
Proof. intros F q x y P. apply nearest_unique, P. Qed.
(** Larger numbers are not read as smaller floats. *)
Theorem C83_monotone : forall F q r x y, 2 <= b_prec F -> (q <= r)%Q -> nearest F q x -> nearest F r y -> (x <= y)%Q.
Proof. intros F q r x y P. apply nearest_mono, P. Qed.

Lemma nearest_abs F q x : fmt_ok F -> nearest F q x -> nearest F (Qabs q) (Qabs x).
Proof.
  intros OK N. destruct (Qlt_le_dec q 0) as [L|L].
  - apply nearest_opp in N. assert (Q : (0 <= - q)%Q) by lra. pose proof (nearest_nonneg F (- q) (- x) OK Q N). eapply nearest_eq; [| |exact N]; rewrite Qabs_neg by lra; reflexivity.
  - pose proof (nearest_nonneg F q x OK L N). eapply nearest_eq; [| |exact N]; rewrite Qabs_pos by lra; reflexivity.
Qed.
Lemma round_near F n d m e : fmt_ok F -> 0 < n -> 0 < d -> round_to F n d = (m, e) -> nearest F (qr n d) (q2 m e).
Proof. intros OK N D E. apply (round_to_ok F n d m e OK N D E). Qed.
Lemma range_limit F lim top big : fmt_ok F -> nearest F lim top -> (top == q2 1 (b_emax F))%Q -> is_float F big -> (big + top == 2 * lim)%Q -> (lim < top)%Q ->
  forall q x, nearest F q x -> (in_range F x <-> (Qabs q < lim)%Q).
Proof.
  intros OK NT ET FB MID LT q x N. pose proof (nearest_abs F q x OK N) as NA. unfold in_range. rewrite <- ET. split.
  - intros R. apply Qnot_le_lt. intros L. apply (Qlt_not_le _ _ R). exact (nearest_mono F lim (Qabs q) top (Qabs x) OK L NT NA).
  - intros L. pose proof (nearest_mono F (Qabs q) lim (Qabs x) top OK (Qlt_le_weak _ _ L) NA NT) as U. apply Qle_lteq in U. destruct U as [U|U]; [exact U|exfalso].
    destruct NA as (_ & B & _). specialize (B big FB). rewrite U in B. clear N. set (a := Qabs q) in *. rewrite (Qabs_neg (a - top)) in B by lra. revert B. apply (Qabs_case (a - big) (fun z => - (a - top) <= z -> False)%Q); intros; lra.
Qed.
(** The numbers that are rejected: those of at least (2 - 2^-53) * 2^1023, half
    way between the largest float64 and 2^1024; likewise float32. *)
Definition limit64 : Q := q2 (2 ^ 54 - 1) 970.
Definition limit32 : Q := q2 (2 ^ 25 - 1) 103.
Theorem C83_range64 : forall s q, num_val s q -> (parse_float binary64 s = None <-> (limit64 <= Qabs q)%Q).
Proof.
  intros s q V. assert (OK : fmt_ok binary64) by (unfold fmt_ok; cbn; lia). pose proof (C83_nearest binary64 s q OK ltac:(cbn; lia) V) as H.
  assert (RL : forall x, nearest binary64 q x -> (in_range binary64 x <-> (Qabs q < limit64)%Q)).
  { intros x. apply (range_limit binary64 limit64 (q2 (2 ^ 52) 972) (q2 (2 ^ 53 - 1) 971) OK).
    - eapply (nearest_eq binary64 (qr ((2 ^ 54 - 1) * 2 ^ 970) 1)); [|reflexivity|apply round_near; [exact OK|reflexivity|reflexivity|vm_compute; reflexivity]].
      unfold limit64, q2, qr. rewrite inject_Z_mult, (Zpower_Qpower 2 970) by lia. change (inject_Z 1) with 1%Q. change (inject_Z 2) with (2 # 1)%Q. field.
    - vm_compute. reflexivity.
    - exists (2 ^ 53 - 1), 971. split; [|reflexivity]. unfold canonical. cbn. lia.
    - vm_compute. reflexivity.
    - vm_compute. reflexivity. }
  destruct (parse_float binary64 s).
  - destruct H as (x & N & R & _). apply (RL x N) in R. split; [discriminate|]. intros L. exfalso. apply (Qlt_not_le _ _ R L).
  - destruct H as (x & N & R). split; [intros _|reflexivity]. apply Qnot_lt_le. intros L. apply R, (RL x N), L.
Qed.
Theorem C83_range32 : forall s q, num_val s q -> (parse_float binary32 s = None <-> (limit32 <= Qabs q)%Q).
Proof.
  intros s q V. assert (OK : fmt_ok binary32) by (unfold fmt_ok; cbn; lia). pose proof (C83_nearest binary32 s q OK ltac:(cbn; lia) V) as H.
  assert (RL : forall x, nearest binary32 q x -> (in_range binary32 x <-> (Qabs q < limit32)%Q)).
  { intros x. apply (range_limit binary32 limit32 (q2 (2 ^ 23) 105) (q2 (2 ^ 24 - 1) 104) OK).
    - eapply (nearest_eq binary32 (qr ((2 ^ 25 - 1) * 2 ^ 103) 1)); [|reflexivity|apply round_near; [exact OK|reflexivity|reflexivity|vm_compute; reflexivity]].
      unfold limit32, q2, qr. rewrite inject_Z_mult, (Zpower_Qpower 2 103) by lia. change (inject_Z 1) with 1%Q. change (inject_Z 2) with (2 # 1)%Q. field.
    - vm_compute. reflexivity.
    - exists (2 ^ 24 - 1), 104. split; [|reflexivity]. unfold canonical. cbn. lia.
    - vm_compute. reflexivity.
    - vm_compute. reflexivity. }
  destruct (parse_float binary32 s).
  - destruct H as (x & N & R & _). apply (RL x N) in R. split; [discriminate|]. intros L. exfalso. apply (Qlt_not_le _ _ R L).
  - destruct H as (x & N & R). split; [intros _|reflexivity]. apply Qnot_lt_le. intros L. apply R, (RL x N), L.
Qed.
(** The numbers that are read as a zero: those up to half of the smallest float,
    2^-1074 for float64 and 2^-149 for float32. *)
Lemma zero_limit F least : fmt_ok F -> is_float F least -> (0 < least)%Q -> nearest F (least * (1 # 2)) 0 -> in_range F 0 ->
  forall s q, 0 <= b_emax F -> num_val s q -> ((exists n, parse_float F s = Some (FZero n)) <-> (Qabs q <= least * (1 # 2))%Q).
Proof.
  intros OK FL LP NL RZ s q E V. pose proof (C83_nearest F s q OK E V) as H.
  assert (Z : forall x, nearest F q x -> ((x == 0)%Q <-> (Qabs q <= least * (1 # 2))%Q)).
  { intros x N. pose proof (nearest_abs F q x OK N) as NA. split.
    - intros Z. destruct NA as (_ & B & _). specialize (B least FL). rewrite Z in B. change (Qabs 0) with 0%Q in B. pose proof (Qabs_nonneg q) as P. set (a := Qabs q) in *.
      rewrite (Qabs_pos (a - 0)) in B by lra. revert B. apply (Qabs_case (a - least) (fun z => (a - 0 <= z -> a <= least * (1 # 2))%Q)); intros; lra.
    - intros L. pose proof (nearest_mono F (Qabs q) (least * (1 # 2)) (Qabs x) 0 OK L NA NL) as U. revert U. apply (Qabs_case x (fun z => (z <= 0 -> x == 0)%Q)); intros; lra. }
  destruct (parse_float F s) as [f|].
  - destruct H as (x & N & _ & W & _). rewrite <- (Z x N). split.
    + intros (n & E1). injection E1 as ->. exact W.
    + intros X. destruct f as [| | |neg ds dp]; cbn [writes] in W; try contradiction; [eauto|]. tauto.
  - destruct H as (x & N & R). split; [intros (n & E1); discriminate E1|]. intros L. exfalso. apply R. apply (Z x N) in L. unfold in_range in *. rewrite L. exact RZ.
Qed.
Theorem C83_zero64 : forall s q, num_val s q -> ((exists n, parse_float binary64 s = Some (FZero n)) <-> (Qabs q <= q2 1 (-1074) * (1 # 2))%Q).
Proof.
  assert (OK : fmt_ok binary64) by (unfold fmt_ok; cbn; lia). intros s q. apply (zero_limit binary64 (q2 1 (-1074)) OK).
  - exists 1, (-1074). split; [|reflexivity]. unfold canonical. cbn. lia.
  - vm_compute. reflexivity.
  - destruct (round_to binary64 1 (2 ^ 1075)) as [m e] eqn:E. pose proof (round_near binary64 1 (2 ^ 1075) m e OK ltac:(lia) ltac:(reflexivity) E) as N.
    eapply nearest_eq; [| |exact N]; [vm_compute; reflexivity|]. vm_compute in E. injection E as <- <-. vm_compute. reflexivity.
  - vm_compute. reflexivity.
  - cbn. lia.
Qed.
Theorem C83_zero32 : forall s q, num_val s q -> ((exists n, parse_float binary32 s = Some (FZero n)) <-> (Qabs q <= q2 1 (-149) * (1 # 2))%Q).
Proof.
  assert (OK : fmt_ok binary32) by (unfold fmt_ok; cbn; lia). intros s q. apply (zero_limit binary32 (q2 1 (-149)) OK).
  - exists 1, (-149). split; [|reflexivity]. unfold canonical. cbn. lia.
  - vm_compute. reflexivity.
  - destruct (round_to binary32 1 (2 ^ 150)) as [m e] eqn:E. pose proof (round_near binary32 1 (2 ^ 150) m e OK ltac:(lia) ltac:(reflexivity) E) as N.
    eapply nearest_eq; [| |exact N]; [vm_compute; reflexivity|]. vm_compute in E. injection E as <- <-. vm_compute. reflexivity.
  - vm_compute. reflexivity.
  - cbn. lia.
Qed.
Print Assumptions C83_zero64.
Print Assumptions C83_zero32.

(** Every float of the format other than zero has an f that the encoder writes
    as a JSON number; that number is read back as f, and so is any other that
    denotes the same decimal. *)
Theorem C83_written : forall F neg m e, 2 <= b_prec F -> 0 <= b_emax F -> canonical F m e -> 0 < m -> in_range F (q2 m e) ->
  let f := shortest F neg (m, e) in
  writes F f (if neg then (- q2 m e)%Q else q2 m e) /\ finite f /\ parses (parse_float F) f /\
  exists t, encode_float [] f = (t, None) /\ number_lit t /\ parse_float F t = Some f.
Proof.
  intros F neg m e P E C M R f. destruct (shortest_ok F neg m e P C M) as (ds & dp & S & FF & _ & W). unfold f in *. rewrite S in *. clear f.
  assert (RL : real F (FFin neg ds dp)) by (exists m, e; auto). destruct (real_parses F _ P E RL) as [FN PF].
  split; [exact W|]. split; [exact FN|]. split; [exact PF|]. destruct (encode_float [] (FFin neg ds dp)) as [t o] eqn:EF.
  assert (o = None) as -> by (cbn [encode_float] in EF; destruct ((dp <? -5) || (21 <? dp)); injection EF; auto).
  exists t. split; [reflexivity|]. exact (float_text_parses (parse_float F) _ t FN PF EF).
Qed.
(** Whatever ParseFloat returns meets the contract that the theorems on round
    trips ask for. *)
Theorem C83_contract : forall F s f, 2 <= b_prec F -> 0 <= b_emax F -> parse_float F s = Some f -> finite f /\ parses (parse_float F) f.
Proof. intros F s f P E H. apply real_parses; [exact P|exact E|]. exact (parse_real F s f P E H). Qed.

(** The encoder's choice between 1000000 and 1e+06: encode.go compares the
    float with the floats 1e-6 and 1e21; the model looks at the decimal point of
    the shortest form.  Both come to the same. *)
Lemma cut F a c neg ds dp x : fmt_ok F -> nearest F (q10 1 a) c -> (forall y, nearest F (q10 9 (a - 1)) y -> ~ (y == c)%Q) ->
  writes F (FFin neg ds dp) x -> (dp <= a <-> (Qabs x < c)%Q).
Proof.
  intros OK NC N9 (FF & NZ & N & MIN). pose proof (nearest_abs F _ _ OK N) as NA.
  assert (PD : (0 < q10 (dec ds) (dp - Z.of_nat (length ds)))%Q) by (apply q10_pos, dec_pos_form, FF).
  assert (AB : (Qabs (decimal neg ds dp) == q10 (dec ds) (dp - Z.of_nat (length ds)))%Q).
  { rewrite decimal_sign. destruct neg; [rewrite Qabs_neg by lra|rewrite Qabs_pos by lra]; ring. }
  assert (ND : nearest F (q10 (dec ds) (dp - Z.of_nat (length ds))) (Qabs x)) by (eapply nearest_eq; [exact AB|reflexivity|exact NA]). split.
  - intros L. assert (LT : (q10 (dec ds) (dp - Z.of_nat (length ds)) < q10 1 a)%Q) by (eapply Qlt_le_trans; [apply (float_upper ds dp FF)|apply q10_one_le, L]).
    pose proof (nearest_mono F _ _ _ _ OK (Qlt_le_weak _ _ LT) ND NC) as U. apply Qle_lteq in U. destruct U as [U|U]; [exact U|exfalso].
    assert (F1 : float_form [49]) by (split; [repeat constructor; unfold digit; lia|exists 49, []; split; [reflexivity|split; [lia|cbn; lia]]]).
    assert (NX : nearest F (decimal neg [49] (a + 1)) x).
    { assert (SX : (x == signed neg (Qabs x))%Q).
      { destruct neg; cbn [signed]; [rewrite Qabs_neg|rewrite Qabs_pos]; try ring.
        - apply nearest_opp in N. assert (Q : (0 <= - decimal true ds dp)%Q) by (rewrite decimal_sign; lra). pose proof (nearest_nonneg F _ _ OK Q N). lra.
        - assert (Q : (0 <= decimal false ds dp)%Q) by (rewrite decimal_sign; lra). exact (nearest_nonneg F _ _ OK Q N). }
      apply (nearest_eq F (signed neg (q10 1 a)) _ (signed neg c)); [| |apply nearest_signed, NC].
      - rewrite decimal_sign. change (dec [49]) with 1. change (Z.of_nat (length [49])) with 1. replace (a + 1 - 1) with a by lia. destruct neg; cbn [signed]; ring.
      - rewrite SX. destruct neg; cbn [signed]; rewrite U; reflexivity. }
    destruct (MIN neg [49] (a + 1) F1 NX) as [LL|[LL _]]; cbn [length] in LL; (destruct ds as [|d0 [|]]; cbn [length] in LL; try lia).
    + destruct FF as (_ & ? & ? & ? & _). discriminate.
    + cbn [length] in *. change (Z.of_nat 1) with 1 in *. pose proof FF as (FD & _). apply Forall_cons_iff in FD as [FD _]. unfold digit in FD. assert (DE : dec [d0] = d0 - 48) by (unfold dec, dec_from; cbn; lia). rewrite DE in *.
      assert (L9 : (q10 (d0 - 48) (dp - 1) <= q10 9 (a - 1))%Q).
      { eapply Qle_trans; [apply (q10_le (d0 - 48) 9 (dp - 1)); lia|]. unfold q10. rewrite !(Qmult_comm (inject_Z 9)). apply Qmult_le_compat_r; [|discriminate].
        pose proof (q10_one_le (dp - 1) (a - 1) ltac:(lia)) as H. unfold q10 in H. change (inject_Z 1) with 1%Q in H. rewrite !Qmult_1_l in H. exact H. }
      assert (U9 : (q10 9 (a - 1) <= q10 1 a)%Q) by (replace a with (a - 1 + 1) at 2 by lia; rewrite <- (q10_shift 1 (a - 1) 1) by lia; apply q10_le; lia).
      destruct (nearest_exists F (q10 9 (a - 1)) OK ltac:(apply q10_pos; lia)) as (m9 & e9 & _ & _ & H9). apply (N9 _ H9). apply Qle_antisym.
      * exact (nearest_mono F _ _ _ _ OK U9 H9 NC).
      * rewrite <- U. exact (nearest_mono F _ _ _ _ OK L9 ND H9).
  - intros L. destruct (Z.le_gt_cases dp a) as [G|G]; [exact G|exfalso]. apply (Qlt_not_le _ _ L).
    apply (nearest_mono F (q10 1 a) (q10 (dec ds) (dp - Z.of_nat (length ds))) c (Qabs x) OK); [|exact NC|exact ND].
    eapply Qle_trans; [|apply (float_lower ds dp FF)]. apply q10_one_le. lia.
Qed.
Lemma cut_fmt F a c n1 d1 n9 d9 m1 e1 m9 e9 : fmt_ok F -> 0 < n1 -> 0 < d1 -> 0 < n9 -> 0 < d9 -> (qr n1 d1 == q10 1 a)%Q -> (qr n9 d9 == q10 9 (a - 1))%Q ->
  round_to F n1 d1 = (m1, e1) -> round_to F n9 d9 = (m9, e9) -> m1 <> m9 -> nearest F (q10 1 a) c -> forall y, nearest F (q10 9 (a - 1)) y -> ~ (y == c)%Q.
Proof.
  intros OK P1 D1 P9 D9 E1 E9 R1 R9 NE NC y NY E.
  destruct (round_to_ok F n1 d1 m1 e1 OK P1 D1 R1) as (C1 & _ & N1). destruct (round_to_ok F n9 d9 m9 e9 OK P9 D9 R9) as (C9 & _ & N9).
  destruct (canonical_unique F m1 e1 m9 e9 OK C1 C9) as [X _]; [|contradiction].
  assert (A : (c == q2 m1 e1)%Q) by (eapply (nearest_unique F (q10 1 a)); [exact OK|exact NC|eapply nearest_eq; [exact E1|reflexivity|exact N1]]).
  assert (B : (y == q2 m9 e9)%Q) by (eapply (nearest_unique F (q10 9 (a - 1))); [exact OK|exact NY|eapply nearest_eq; [exact E9|reflexivity|exact N9]]).
  rewrite <- A, <- B. symmetry. exact E.
Qed.
Theorem C83_cutoff : forall F f x lo hi t, F = binary32 \/ F = binary64 -> writes F f x -> ~ (x == 0)%Q ->
  nearest F (q10 1 (-6)) lo -> nearest F (q10 1 21) hi -> encode_float [] f = (t, None) ->
  (In 101 t <-> (Qabs x < lo \/ hi <= Qabs x)%Q).
Proof.
  intros F f x lo hi t HF W NZ NL NH E. destruct f as [| |neg|neg ds dp]; cbn [writes] in W; try contradiction.
  assert (OK : fmt_ok F) by (destruct HF; subst F; unfold fmt_ok; cbn; lia).
  assert (CL : dp <= -6 <-> (Qabs x < lo)%Q).
  { apply (cut F (-6) lo neg ds dp x OK NL); [|exact W].
    destruct HF; subst F; (eapply (cut_fmt _ (-6) lo 1 1000000 9 10000000); [exact OK|lia|lia|lia|lia|reflexivity|reflexivity|vm_compute; reflexivity|vm_compute; reflexivity|vm_compute; discriminate|exact NL]). }
  assert (CH : dp <= 21 <-> (Qabs x < hi)%Q).
  { apply (cut F 21 hi neg ds dp x OK NH); [|exact W].
    destruct HF; subst F; (eapply (cut_fmt _ 21 hi (10 ^ 21) 1 (9 * 10 ^ 20) 1); [exact OK|lia|lia|lia|lia|reflexivity|reflexivity|vm_compute; reflexivity|vm_compute; reflexivity|vm_compute; discriminate|exact NH]). }
  destruct W as (FF & _).
  assert (T : In 101 t <-> dp < -5 \/ 21 < dp).
  { cbn [encode_float app] in E. destruct ((dp <? -5) || (21 <? dp)) eqn:B.
    - rewrite orb_true_iff, !Z.ltb_lt in B. injection E as <-. split; [auto|intros _]. rewrite fmt_e_clean by exact FF. rewrite !in_app_iff. right. right. right. left. reflexivity.
    - rewrite orb_false_iff, !Z.ltb_ge in B. injection E as <-. split; [|lia]. intros H. exfalso. eapply fmt_f_no_e; [apply FF|exact H]. }
  rewrite T, <- CL. split; (intros [H|H]; [left; lia|right]).
  - apply Qnot_lt_le. intros L. apply CH in L. lia.
  - destruct (Z.le_gt_cases dp 21) as [L|L]; [|exact L]. apply CH in L. exfalso. apply (Qlt_not_le _ _ L H).
Qed.

(** C83: Unmarshal of a JSON number into a float64 (wide) or float32 variable
    stores the nearest float, or fails and leaves the variable as it was when
    that is out of range. *)
Definition ieee (V : tenv) : Prop := forall wide s, v_float V wide s = parse_float (if wide then binary64 else binary32) s.
Theorem C83_decode : forall V F w1 s q w2 (wide : bool) cur, ieee V -> ws w1 -> num_val s q -> ws w2 ->
  let fmt := if wide then binary64 else binary32 in
  match unmarshal V F (YFloat wide) (w1 ++ s ++ w2) (MFloat cur) with
  | (None, y) => exists f x, y = MFloat f /\ nearest fmt q x /\ in_range fmt x /\ writes fmt f x /\ (negative f = true <-> hd 0 s = 45)
  | (Some e, y) => e = EType /\ y = MFloat cur /\ exists x, nearest fmt q x /\ ~ in_range fmt x
  end.
Proof.
  intros V F w1 s q w2 wide cur IE W1 NV W2 fmt. pose proof (num_val_lit s q NV) as NL. pose proof (N_num s NL) as J.
  assert (C : match parse_float fmt s with
    | Some f => exists x, nearest fmt q x /\ in_range fmt x /\ writes fmt f x /\ (negative f = true <-> hd 0 s = 45)
    | None => exists x, nearest fmt q x /\ ~ in_range fmt x end) by (apply C83_nearest; [unfold fmt; destruct wide; cbn; lia|unfold fmt; destruct wide; cbn; lia|exact NV]).
  pose proof (node_start _ J) as (NS & _ & NN & _). cbn [ntext] in NS, NN.
  assert (SK : skip_spaces (w1 ++ s ++ w2) = s ++ w2).
  { rewrite skip_spaces_ws by exact W1. apply skip_spaces_nsp. destruct s; [congruence|exact NS]. }
  assert (SW : skip_spaces w2 = []) by (apply skip_spaces_all, W2).
  assert (ST : stops (ND s HNum) w2) by (apply stop_any, ws_num_stop, W2).
  unfold unmarshal, unmarshal_with, parse_with. rewrite SK. unfold decode. cbn [dec_ty]. unfold decode_float.
  pose proof (null_only (ND s HNum) w2 J ST) as NU. cbn [ntext nshape] in NU. rewrite NU, (parse_number_complete s w2 NL (ws_num_stop w2 W2)), IE. fold fmt.
  destruct (parse_float fmt s) as [f|].
  - cbn [d_map d_rest d_err d_val]. rewrite SW. destruct C as (x & C). exists f, x. split; [reflexivity|exact C].
  - pose proof (node_in_err (ND s HNum) w2 cur J ST) as IN. cbn [ntext] in IN. rewrite IN. cbn [d_map d_rest d_err d_val]. rewrite SW. cbn. split; [reflexivity|split; [reflexivity|exact C]].
Qed.

(** * The theorems on round trips, with the floats of IEEE 754 *)
(** The numbers of a JSON text that are in range. *)
Definition numbers_in_range (a : jast) : Prop := forall s q, number_in s a -> num_val s q -> (Qabs q < limit64)%Q.
Lemma exp_lit_val et : exp_lit et -> exists x, exp_val et x.
Proof.
  intros [|e sg ds He Hs Hd]; [exists 0; constructor|]. destruct Hs as [->|[->| ->]].
  - exists (dval ds). apply (ev_pos e [] ds); auto.
  - exists (dval ds). apply (ev_pos e [43] ds); auto.
  - exists (- dval ds). apply (ev_neg e ds); auto.
Qed.
Lemma lit_num_val s : number_lit s -> exists q, num_val s q.
Proof.
  intros [sg i ft et Hsg Hi Hf He]. destruct (exp_lit_val et He) as (x & Hx).
  assert (FD : exists f, frac_digits ft f) by (destruct Hf as [|ds Hd]; [exists []; constructor|exists ds; constructor; exact Hd]). destruct FD as (f & FD).
  destruct Hsg as [->| ->]; eexists.
  - apply (nval false i ft f et x Hi FD Hx).
  - apply (nval true i ft f et x Hi FD Hx).
Qed.
Lemma number_in_lit : (forall s a, jvalue s a -> forall n, number_in n a -> number_lit n) /\
  (forall s l, jelems s l -> forall a n, In a l -> number_in n a -> number_lit n) /\
  (forall s l, jmembers s l -> forall kv n, In kv l -> number_in n (snd kv) -> number_lit n) /\
  (forall s kv, jmember s kv -> forall n, number_in n (snd kv) -> number_lit n).
Proof.
  apply json_mutind; try (intros; match goal with H : number_in _ _ |- _ => inversion H; subst; assumption end); try (intros; match goal with H : number_in _ _ |- _ => inversion H; fail end).
  - intros w _ n N. inversion N as [|? a I N'|]; subst. destruct I.
  - intros s l _ IH n N. inversion N as [|? a I N'|]; subst. eauto.
  - intros w _ n N. inversion N as [| |? k a I N']; subst. destruct I.
  - intros s l _ IH n N. inversion N as [| |? k a I N']; subst. exact (IH (k, a) n I N').
  - intros w1 s v w2 _ _ IH _ a n [<-|[]] N. eauto.
  - intros w1 s v w2 t l _ _ IH _ _ IH2 a n [<-|I] N; eauto.
  - intros m kv _ IH kv' n [<-|[]] N. eauto.
  - intros m kv t l _ IH _ IH2 kv' n [<-|I] N; eauto.
  - intros w1 k w2 w3 s v w4 _ _ _ _ _ IH _ n N. cbn [snd] in N. eauto.
Qed.
Lemma text_number_lit data a s : jtext data a -> number_in s a -> number_lit s.
Proof. intros (w1 & t & w2 & _ & _ & J & _) N. exact (proj1 number_in_lit t a J s N). Qed.
Lemma range_good data a : jtext data a -> numbers_in_range a -> floats_good (parse_float binary64) a.
Proof.
  intros J R s N. destruct (lit_num_val s (text_number_lit data a s J N)) as (q & V). specialize (R s q N V).
  destruct (parse_float binary64 s) as [f|] eqn:P; [|apply (C83_range64 s q V) in P; exfalso; apply (Qlt_not_le _ _ R P)].
  exists f. split; [reflexivity|]. apply (C83_contract binary64 s f); [cbn; lia|cbn; lia|exact P].
Qed.
(** jc reads numbers as float64: a JSON text whose numbers are in range is
    written again with the same value ... *)
Theorem C83_jc_preserves : forall std f o input a, jc_ready f o input -> jtext input a -> numbers_in_range a ->
  exists line out v v', jr_err (do_main (parse_float binary64) std f o) = None /\ jc_written (do_main (parse_float binary64) std f o) = [line] /\ strip line = out ++ [10] /\
    unmarshal_with (decode_interface false (parse_float binary64)) input JVNull = (None, v) /\
    unmarshal_with (decode_interface false (parse_float binary64)) out JVNull = (None, v') /\ jv_same v v'.
Proof.
  intros std f o input a R J N. destruct (C39_jc_preserves (parse_float binary64) std f o input a R J (range_good _ _ J N)) as (line & out & b & v & v' & A1 & A2 & A3 & A4 & _ & _ & A5).
  exists line, out, v, v'. split; [exact A1|]. split; [unfold jc_written; rewrite A2, A3; destruct (is_empty (j_out f)); reflexivity|]. auto.
Qed.
(** ... and one with a number out of range is rejected, with no output. *)
Theorem C83_jc_rejects : forall std f o input a s q, wf input -> jc_ready f o input -> jtext input a -> number_in s a -> num_val s q -> (limit64 <= Qabs q)%Q ->
  jr_err (do_main (parse_float binary64) std f o) <> None /\ jc_written (do_main (parse_float binary64) std f o) = [].
Proof.
  intros std f o input a s q W R J N V L. apply C39_jc_rejects with input; [exact W|exact R|]. right. exists a, s. split; [exact J|]. split; [exact N|]. apply (C83_range64 s q V), L.
Qed.
(** Reformatting (decoding to interface{} and encoding with sorted keys) is
    idempotent for every JSON text whose numbers are in range. *)
Theorem C83_reformat : forall c input a, jtext input a -> numbers_in_range a -> e_sort c = true -> e_clrs c = None -> ind_all ws (e_ind c) ->
  exists out, reformats (parse_float binary64) c input out /\ reformats (parse_float binary64) c out out.
Proof. intros c input a J N. apply (C78_idempotent (parse_float binary64) c input a J (range_good _ _ J N)). Qed.
(** The finite floats of a format. *)
Definition of_format (F : bfmt) (f : fl) : Prop :=
  f = FZero false \/ f = FZero true \/ exists neg m e, canonical F m e /\ 0 < m /\ in_range F (q2 m e) /\ f = shortest F neg (m, e).
(** A tree of nil, booleans, strings, lists, maps and any finite float64 comes
    back from its encoding. *)
Theorem C83_trees : forall c g v cur, go_tree g v -> (forall f, float_in f v -> of_format binary64 f) -> e_clrs c = None -> ind_all ws (e_ind c) ->
  exists out v', enc c g [] 0 = ER out 0 None /\ unmarshal_with (decode_interface false (parse_float binary64)) out cur = (None, v') /\ jv_same v v'.
Proof.
  intros c g v cur T D. apply C11_round_trip_partial; [exact T|]. intros f I. destruct (D f I) as [->|[->|(neg & m & e & C & M & R & ->)]].
  - apply (real_parses binary64 (FZero false)); [unfold fmt_ok; cbn; lia|cbn; lia|exact Logic.I].
  - apply (real_parses binary64 (FZero true)); [unfold fmt_ok; cbn; lia|cbn; lia|exact Logic.I].
  - apply C83_written; try assumption; cbn; lia.
Qed.
(** A float32 or float64 variable comes back from what Marshal writes for it. *)
Theorem C83_variable : forall V F c (wide : bool) neg m e d cur, ieee V -> let fmt := if wide then binary64 else binary32 in
  canonical fmt m e -> 0 < m -> in_range fmt (q2 m e) -> e_clrs c = None ->
  exists out, enc c (GFloat (shortest fmt neg (m, e))) [] d = ER out d None /\
    unmarshal V F (YFloat wide) out (MFloat cur) = (None, MFloat (shortest fmt neg (m, e))).
Proof.
  intros V F c wide neg m e d cur IE fmt C M R HC.
  destruct (C83_written fmt neg m e ltac:(unfold fmt; destruct wide; cbn; lia) ltac:(unfold fmt; destruct wide; cbn; lia) C M R) as (_ & _ & _ & t & E & NL & P).
  set (f := shortest fmt neg (m, e)) in *. exists t. split.
  { cbn [enc]. unfold encode_float_c. rewrite HC, E. reflexivity. }
  pose proof (N_num t NL) as J. pose proof (node_start _ J) as (NS & _ & NN & _). cbn [ntext] in NS, NN.
  assert (ST : stops (ND t HNum) []) by (apply stop_any, ws_num_stop; constructor).
  assert (SK : skip_spaces t = t) by (apply skip_spaces_nsp; destruct t; [congruence|exact NS]).
  unfold unmarshal, unmarshal_with, parse_with. rewrite SK. unfold decode. cbn [dec_ty]. unfold decode_float.
  pose proof (null_only (ND t HNum) [] J ST) as NU. cbn [ntext nshape] in NU. rewrite app_nil_r in NU. rewrite NU.
  pose proof (parse_number_complete t [] NL (ws_num_stop [] (Forall_nil _))) as PN. rewrite app_nil_r in PN. rewrite PN, IE. fold fmt. rewrite P. reflexivity.
Qed.

(** Numbers are not kept exactly: an integer of 16 digits comes back changed
    from interface{}, and from jc. *)
Theorem C83_exact_refuted : exists input out q q', num_val input q /\ num_val out q' /\ ~ (q == q')%Q /\
  reformats (parse_float binary64) (marshal_cfg std0) input out /\
  jc_written (do_main (parse_float binary64) std0 (JcFlags false false (bs "in.json") []) (JcOS (env_of []) (inl input) None true (inl []) None false true None)) = [out ++ [10]].
Proof.
  exists (bs "9007199254740993"), (bs "9007199254740992").
  assert (N : forall ds, Forall digit ds -> int_lit (57 :: ds)) by (intros ds F; constructor; [lia|exact F]).
  assert (dig : forall ds, forallb isd ds = true -> Forall digit ds).
  { intros ds H. rewrite forallb_forall in H. apply Forall_forall. intros c C. specialize (H c C). unfold isd in H. unfold digit. lia. }
  eexists _, _. split; [|split; [|split; [|split]]].
  - apply (nval false (bs "9007199254740993") [] [] [] 0); [apply (N (bs "007199254740993")), dig; reflexivity|constructor|constructor].
  - apply (nval false (bs "9007199254740992") [] [] [] 0); [apply (N (bs "007199254740992")), dig; reflexivity|constructor|constructor].
  - vm_compute. discriminate.
  - exists (JVFloat (FFin false (bs "9007199254740992") 16)). split; vm_compute; reflexivity.
  - vm_compute. reflexivity.
Qed.
(** Not every JSON text is accepted: 1e400 is one, but it is no float64. *)
Theorem C83_any_number_refuted : exists input a, jtext input a /\
  fst (unmarshal_with (decode_interface false (parse_float binary64)) input JVNull) = Some EType /\
  unmarshal_with (decode_interface true (parse_float binary64)) input JVNull = (None, JVNumber input).
Proof.
  exists (bs "1e400"), (JNum (bs "1e400")). split; [|split; vm_compute; reflexivity].
  exists [], (bs "1e400"), []. split; [reflexivity|]. split; [constructor|]. split; [|constructor]. apply V_num.
  apply (number_intro [] [49] [] (bs "e400")); [left; reflexivity|constructor; [lia|constructor]|constructor|].
  apply (exp_some 101 [] (bs "400")); [auto|auto|]. split; [discriminate|]. apply Forall_forall. cbn. unfold digit. intros c C. lia.
Qed.

(** The floats of the round trips of typed values (C50, C56). *)
Lemma format_parses V (wide : bool) f : ieee V -> of_format (if wide then binary64 else binary32) f -> finite f /\ parses (v_float V wide) f.
Proof.
  intros IE H. set (fmt := if wide then binary64 else binary32) in *.
  assert (P1 : 2 <= b_prec fmt) by (unfold fmt; destruct wide; cbn; lia). assert (P2 : 0 <= b_emax fmt) by (unfold fmt; destruct wide; cbn; lia).
  assert (X : finite f /\ parses (parse_float fmt) f).
  { destruct H as [->|[->|(neg & m & e & C & M & R & ->)]]; [apply (real_parses fmt (FZero false) P1 P2 I)|apply (real_parses fmt (FZero true) P1 P2 I)|].
    destruct (C83_written fmt neg m e P1 P2 C M R) as (_ & A & B & _). auto. }
  destruct X as [FN PS]. split; [exact FN|]. unfold parses in *. destruct f; try exact PS; intros; rewrite IE; eapply PS; eassumption.
Qed.
Theorem C83_typed : forall V W F (wide : bool) f, ieee V -> of_format (if wide then binary64 else binary32) f -> trip V W F (YFloat wide) (MFloat f).
Proof.
  intros V W F wide f IE H. destruct (format_parses V wide f IE H). constructor; assumption.
Qed.
Theorem C83_tree_ok : forall V F v, ieee V -> go_tree_of (d_usenum F) (tree v) v -> (forall f, float_in f v -> of_format binary64 f) -> tree_ok V F v.
Proof.
  intros V F v IE T D. split; [exact T|]. intros f H. apply (format_parses V true f IE (D f H)).
Qed.

(** * Cases *)
Definition fx_env : tenv := TEnv ex_decl 2 ex_flds (fun wide => parse_float (if wide : bool then binary64 else binary32))
  (v_time ex_env) (v_dur ex_env) (v_b64 ex_env) (v_json ex_env) (v_text ex_env) (v_lower ex_env) (v_fold ex_env).
Lemma fx_env_ok : env_ok fx_env.
Proof. destruct ex_env_ok as [A B C D E]. constructor; [exact A|exact B|exact C|exact D|exact E]. Qed.
Lemma fx_ieee : ieee fx_env.
Proof. intros wide s. reflexivity. Qed.
Definition text_of (o : option fl) : option bytes := match o with Some f => Some (fst (encode_float [] f)) | None => None end.
(** One tenth; half way between two floats; the smallest float64; the largest
    below the normal ones; the largest, and above it. *)
Example C83_reads :
  map (fun s => text_of (parse_float binary64 s)) [bs "0.1"; bs "9007199254740993"; bs "9007199254740995"; bs "3e-324"; bs "2.4703282292062327e-324"; bs "17976931348623158e292"; bs "17976931348623159e292"; bs "-1e-400"]
  = [Some (bs "0.1"); Some (bs "9007199254740992"); Some (bs "9007199254740996"); Some (bs "5e-324"); Some (bs "0"); Some (bs "1.7976931348623157e+308"); None; Some (bs "-0")] /\
  map (fun s => text_of (parse_float binary32 s)) [bs "0.1"; bs "16777217"; bs "8589973504"; bs "3.4028235e38"; bs "3.4028236e38"; bs "1e-46"]
  = [Some (bs "0.1"); Some (bs "16777216"); Some (bs "8589974000"); Some (bs "3.4028235e+38"); None; Some (bs "0")].
Proof. split; vm_compute; reflexivity. Qed.
Example C83_unmarshal :
  unmarshal fx_env ex_flags (YFloat false) (bs " 16777217 ") (MFloat (FZero false)) = (None, MFloat (FFin false (bs "16777216") 8)) /\
  unmarshal fx_env ex_flags (YFloat false) (bs "1e39") (MFloat (FZero true)) = (Some EType, MFloat (FZero true)) /\
  unmarshal fx_env ex_flags (YFloat true) (bs "1e39") (MFloat (FZero true)) = (None, MFloat (FFin false (bs "1") 40)) /\ env_ok fx_env.
Proof. split; [vm_compute; reflexivity|]. split; [vm_compute; reflexivity|]. split; [vm_compute; reflexivity|exact fx_env_ok]. Qed.
(** The float nearest to 1/3, written. *)
Example C83_third : let m := 6004799503160661 in let e := -54 in canonical binary64 m e /\ 0 < m /\ in_range binary64 (q2 m e) /\
  nearest binary64 (1 # 3) (q2 m e) /\ shortest binary64 true (m, e) = FFin true (bs "3333333333333333") 0.
Proof.
  cbv zeta. split; [unfold canonical; cbn; lia|]. split; [lia|]. split; [vm_compute; reflexivity|]. split; [|vm_compute; reflexivity].
  eapply (nearest_eq binary64 (qr 1 3)); [reflexivity|reflexivity|]. apply round_near; [unfold fmt_ok; cbn; lia|lia|lia|vm_compute; reflexivity].
Qed.
(** 1e-6 itself is written without an exponent, the float below it with one. *)
Example C83_cutoff_case : exists lo hi m e, nearest binary64 (q10 1 (-6)) lo /\ nearest binary64 (q10 1 21) hi /\
  writes binary64 (shortest binary64 false (m, e)) (q2 m e) /\ ~ (q2 m e == 0)%Q /\ (Qabs (q2 m e) < lo)%Q /\
  encode_float [] (shortest binary64 false (m, e)) = (bs "9.999999999999997e-7", None).
Proof.
  exists (q2 4722366482869645 (-72)), (q2 7629394531250000 17), 4722366482869644, (-72).
  assert (OK : fmt_ok binary64) by (unfold fmt_ok; cbn; lia).
  split; [eapply (nearest_eq binary64 (qr 1 1000000)); [reflexivity|reflexivity|]; apply round_near; [exact OK|lia|lia|vm_compute; reflexivity]|].
  split; [eapply (nearest_eq binary64 (qr (10 ^ 21) 1)); [reflexivity|reflexivity|]; apply round_near; [exact OK|lia|lia|vm_compute; reflexivity]|].
  split.
  { destruct (C83_written binary64 false 4722366482869644 (-72)) as (A & _); [cbn; lia|cbn; lia|unfold canonical; cbn; lia|lia|vm_compute; reflexivity|]. exact A. }
  split; [vm_compute; discriminate|]. split; [vm_compute; reflexivity|vm_compute; reflexivity].
Qed.
Example C83_jc_case : exists a, jtext (bs "[0.10, 1E2]") a /\ numbers_in_range a /\
  jc_ready (JcFlags false false (bs "in.json") []) (JcOS (env_of []) (inl (bs "[0.10, 1E2]")) None true (inl []) None false true None) (bs "[0.10, 1E2]") /\
  jc_written (do_main (parse_float binary64) std0 (JcFlags false false (bs "in.json") []) (JcOS (env_of []) (inl (bs "[0.10, 1E2]")) None true (inl []) None false true None)) = [bs "[0.1,100]" ++ [10]].
Proof.
  assert (D : forall ds, forallb isd ds = true -> Forall digit ds).
  { intros ds H. rewrite forallb_forall in H. apply Forall_forall. intros c C. specialize (H c C). unfold isd in H. unfold digit. lia. }
  assert (N1 : number_lit (bs "0.10")) by (apply (number_intro [] [48] (bs ".10") []); [auto|constructor|constructor; split; [discriminate|apply D; reflexivity]|constructor]).
  assert (N2 : number_lit (bs "1E2")) by (apply (number_intro [] [49] [] (bs "E2")); [auto|constructor; [lia|constructor]|constructor|apply (exp_some 69 [] [50]); [auto|auto|split; [discriminate|apply D; reflexivity]]]).
  assert (J : jtext (bs "[0.10, 1E2]") (JArr [JNum (bs "0.10"); JNum (bs "1E2")])).
  { exists [], (bs "[0.10, 1E2]"), []. split; [reflexivity|]. split; [constructor|]. split; [|constructor].
    apply (V_arr (bs "0.10, 1E2")). apply (E_cons [] (bs "0.10") _ [] (bs " 1E2")); [constructor|apply V_num, N1|constructor|].
    apply (E_one (bs " ") (bs "1E2") _ []); [apply Forall_cons; [left; reflexivity|apply Forall_nil]|apply V_num, N2|constructor]. }
  exists (JArr [JNum (bs "0.10"); JNum (bs "1E2")]). split; [exact J|]. split; [|split; [|vm_compute; reflexivity]].
  - intros s q NI V. apply Qnot_le_lt. intros L. apply (C83_range64 s q V) in L.
    inversion NI as [|? a I NI'|]; subst. destruct I as [<-|[<-|[]]]; inversion NI'; subst; vm_compute in L; discriminate.
  - split; [left; split; [discriminate|reflexivity]|left; reflexivity].
Qed.
Print Assumptions C83_nearest.
Print Assumptions C83_unique.
Print Assumptions C83_monotone.
Print Assumptions C83_range64.
Print Assumptions C83_range32.
Print Assumptions C83_written.
Print Assumptions C83_contract.
Print Assumptions C83_cutoff.
Print Assumptions C83_decode.
Print Assumptions C83_jc_preserves.
Print Assumptions C83_jc_rejects.
Print Assumptions C83_reformat.
Print Assumptions C83_trees.
Print Assumptions C83_variable.
Print Assumptions C83_typed.
Print Assumptions C83_tree_ok.
Print Assumptions C83_exact_refuted.
Print Assumptions C83_any_number_refuted.
