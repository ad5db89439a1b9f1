(** Facts for C92: what decoding adds to the memory of its target is paid for
    by the bytes it reads. *)
From Verif Require Import Bytes AsciiModel Utf8Model ParseModel IntModel StringModel EncModel DecModel
  SpecJson SpecString SpecDec ParseFacts Utf8Facts StringFacts IntFacts DecLoops DecFacts TypeModel SpecType SpecFit NodeFacts TypeLoops TypeFacts TypeMain TypeSound TypeSafe
  LeftFacts MeterDec MeterType SpecAlloc.
Local Open Scope nat_scope.

(** The bytes that pay: all that were given, less those left when there was no
    error. *)
Definition left {A} (d : dres A) : nat := match d_err d with None => length (d_rest d) | Some _ => 0 end.
Definition pays {A} (c : A -> nat) (p K : nat) (D : bytes -> A -> dres A) (b : bytes) (x : A) : Prop :=
  c (d_val (D b x)) + K * left (D b x) <= c x + p + K * length b.

Lemma takes_left {A} P (D : bytes -> A -> dres A) b x : takes P D b x -> left (D b x) <= length b.
Proof. unfold takes, left. destruct (d_err (D b x)); [lia|]. intros (_ & H & _). lia. Qed.
Lemma pays_flat {A} (c : A -> nat) p K P (D : bytes -> A -> dres A) b x : takes P D b x -> c (d_val (D b x)) <= c x + p -> pays c p K D b x.
Proof. intros T H. apply takes_left in T. unfold pays. apply (Nat.mul_le_mono_l _ _ K) in T. lia. Qed.
Lemma pays_err {A} (c : A -> nat) p K (D : bytes -> A -> dres A) b x r e y : D b x = DR r (Some e) y -> c y <= c x + p -> pays c p K D b x.
Proof. intros E H. unfold pays, left. rewrite E. cbn [d_err d_val]. lia. Qed.
Lemma in_err_pays {A} (c : A -> nat) p K (D : bytes -> A -> dres A) b x : D b x = in_err b x -> pays c p K D b x.
Proof. intros E. unfold in_err in E. destruct (input_error b). eapply pays_err; [exact E|lia]. Qed.
Lemma pays_up {A} (c : A -> nat) p p' K K' P (D : bytes -> A -> dres A) b x : takes P D b x -> p <= p' -> K <= K' -> pays c p K D b x -> pays c p' K' D b x.
Proof.
  intros T LP LK. apply takes_left in T. unfold pays. intros H. replace K' with (K + (K' - K)) by lia. rewrite !Nat.mul_add_distr_r.
  apply (Nat.mul_le_mono_l _ _ (K' - K)) in T. lia.
Qed.
Lemma pays_map {A B} (c : A -> nat) (c' : B -> nat) p p' K (D : bytes -> A -> dres A) (D' : bytes -> B -> dres B) (f : A -> B) b x y :
  D' b y = d_map f (D b x) -> (forall z, c' (f z) + c x + p <= c' y + c z + p') -> pays c p K D b x -> pays c' p' K D' b y.
Proof. intros E H. unfold pays, left. rewrite E. cbn [d_map d_val d_err d_rest]. specialize (H (d_val (D b x))). lia. Qed.
Lemma null_pays {A} (c : A -> nat) p K (D : bytes -> A -> dres A) b x y : D b x = DR (skipn 4 b) None y -> c y <= c x + p -> pays c p K D b x.
Proof.
  intros E H. unfold pays, left. rewrite E. cbn [d_err d_val d_rest]. assert (L : length (skipn 4 b) <= length b) by (rewrite skipn_length; lia).
  apply (Nat.mul_le_mono_l _ _ K) in L. lia.
Qed.

(** * Lists of cells *)
Definition sum {A} (c : A -> nat) (l : list A) : nat := list_sum (map c l).
Lemma sum_app {A} (c : A -> nat) l l' : sum c (l ++ l') = sum c l + sum c l'.
Proof. unfold sum. rewrite map_app. apply list_sum_app. Qed.
Lemma sum_repeat {A} (c : A -> nat) x n : sum c (repeat x n) = n * c x.
Proof. unfold sum. induction n as [|n IH]; [reflexivity|]. cbn [repeat map list_sum fold_right Nat.mul] in *. unfold list_sum in IH. lia. Qed.
Lemma sum_cons {A} (c : A -> nat) x l : sum c (x :: l) = c x + sum c l.
Proof. reflexivity. Qed.
Lemma sum_set {A} (c : A -> nat) z i y l : i < length l -> sum c (set_nth i y l) + c (nth i l z) = sum c l + c y.
Proof.
  intros H. unfold set_nth. rewrite sum_app, sum_cons.
  assert (E : sum c l = sum c (firstn i l) + (c (nth i l z) + sum c (skipn (S i) l))).
  { rewrite <- (firstn_skipn i l) at 1. rewrite sum_app. f_equal. rewrite <- sum_cons. f_equal. clear c. revert i H. induction l as [|a l IH]; intros [|i] H; cbn [length] in H; try lia; [reflexivity|].
    cbn [skipn nth]. apply IH. lia. }
  lia.
Qed.

(** * Loops *)
Section Loops.
Context {A : Type} (c : A -> nat) (p K : nat) (D : bytes -> A -> dres A) (z : A) (N : nat).
Hypothesis HT : forall b x, wf b -> length b < N -> takes False D b x.
Hypothesis HD : forall b x, wf b -> length b < N -> pays c p K D b x.

Definition sl_cells (s : sl A) : nat := 1 + match s with None => 0 | Some (_, d) => sum c d end.
Definition data_of (data : option (list A)) : list A := match data with None => [] | Some d => d end.

(** [L0] and [S0]: length and cells of the backing array at the start, [B]: the
    bytes at the start, bracket included. *)
Definition slice_inv (L0 S0 B len : nat) (d : list A) (b : bytes) : Prop :=
  L0 <= length d /\ len <= length d /\ (length d = L0 \/ length d <= 10 * len) /\
  sum c d + K * length b + K * Nat.max 1 len <= S0 + (length d - L0) * c z + len * p + K * B.
Lemma slice_inv_end L0 S0 B len d b K' : slice_inv L0 S0 B len d b -> 10 * c z + p <= K -> K' <= K * length b -> 1 + sum c d + K' <= 1 + S0 + K * B.
Proof.
  intros (I1 & I2 & I3 & I4) HK HB.
  assert (H : (length d - L0) * c z <= 10 * len * c z) by (apply Nat.mul_le_mono_r; lia).
  assert (H2 : len * (10 * c z + p) <= len * K) by (apply Nat.mul_le_mono_l; exact HK).
  assert (H3 : K * len <= K * Nat.max 1 len) by (apply Nat.mul_le_mono_l; lia).
  replace (len * (10 * c z + p)) with (10 * len * c z + len * p) in H2 by lia. rewrite (Nat.mul_comm len K) in H2. lia.
Qed.
Lemma now_pays L0 S0 B len data b r e : 10 * c z + p <= K -> slice_inv L0 S0 B len (data_of data) b ->
  let q := DR r (Some e) (match data with None => None | Some d => Some (len, d) end) in sl_cells (d_val q) + K * left q <= 1 + S0 + K * B.
Proof.
  intros HK INV. cbv zeta. unfold left. cbn [d_val d_err]. pose proof (slice_inv_end _ _ _ _ _ _ 0 INV HK ltac:(lia)) as H. unfold sl_cells. destruct data; cbn [data_of] in H; [lia|].
  change (sum c []) with 0 in H. lia.
Qed.
Lemma slice_loop_pays L0 S0 B inp k : 10 * c z + p <= K -> forall b len data, wf b -> length b < N ->
  slice_inv L0 S0 B len (data_of data) b ->
  let r := slice_loop D z inp k b len data in sl_cells (d_val r) + K * left r <= 1 + S0 + K * B.
Proof.
  intros HK. induction k as [|k IH]; intros b len data W LN INV.
  { eapply now_pays; eassumption. }
  assert (NOW : forall r e, let q := DR r (Some e) (match data with None => None | Some d => Some (len, d) end) in sl_cells (d_val q) + K * left q <= 1 + S0 + K * B)
    by (intros r e; eapply now_pays; eassumption).
  cbn [slice_loop]. cbv zeta. change (match data with None => [] | Some d => d end) with (data_of data). set (d0 := data_of data) in *.
  destruct (skip_read b W) as (w & Ww & Eb & Ws & Ls). set (sb := skip_spaces b) in *.
  destruct (match sb with ch :: _ => (ch =? 93)%Z | [] => false end) eqn:EB.
  { unfold left. cbn [d_val d_err d_rest sl_cells]. apply (slice_inv_end _ _ _ _ _ _ _ INV HK). apply Nat.mul_le_mono_l. destruct sb; cbn [tl length] in *; lia. }
  set (dd := if Nat.eqb len (length d0) then grow z d0 else d0).
  destruct INV as (I1 & I2 & I3 & I4).
  assert (GD : L0 <= length dd /\ len < length dd /\ (length dd = L0 \/ length dd <= 10 * S len) /\ sum c dd = sum c d0 + (length dd - length d0) * c z /\ length d0 <= length dd).
  { unfold dd. destruct (Nat.eqb len (length d0)) eqn:E.
    - apply Nat.eqb_eq in E. unfold grow. rewrite app_length, repeat_length, sum_app, sum_repeat. set (g := match d0 with [] => 10 | _ :: _ => length d0 end).
      assert (G : (length d0 = 0 /\ g = 10) \/ (g = length d0 /\ 0 < length d0)) by (unfold g; destruct d0; cbn [length]; lia).
      replace (length d0 + g - length d0) with g by lia. repeat split; lia.
    - apply Nat.eqb_neq in E. rewrite Nat.sub_diag. cbn [Nat.mul]. repeat split; lia. }
  destruct GD as (G1 & G2 & G3 & G4 & G5).
  assert (EL : forall b2, wf b2 -> length b2 <= length b -> K * length b2 + K * Nat.max 1 (S len) <= K * length b + K * Nat.max 1 len ->
    let r := match d_err (D b2 (nth len dd z)) with
    | None => slice_loop D z inp k (d_rest (D b2 (nth len dd z))) (S len) (Some (set_nth len (d_val (D b2 (nth len dd z))) dd))
    | Some e => elem_err inp e (Some (len, set_nth len (d_val (D b2 (nth len dd z))) dd)) end in
    sl_cells (d_val r) + K * left r <= 1 + S0 + K * B).
  { intros b2 W2 L2 LK. set (x := nth len dd z). pose proof (HT b2 x W2 ltac:(lia)) as T. pose proof (HD b2 x W2 ltac:(lia)) as P. unfold takes in T. unfold pays, left in P.
    pose proof (sum_set c z len (d_val (D b2 x)) dd G2) as SS. fold x in SS.
    assert (EZ : (length dd - L0) * c z = (length d0 - L0) * c z + (length dd - length d0) * c z) by (rewrite <- Nat.mul_add_distr_r; f_equal; lia).
    assert (NEW : forall rr, length rr = left (D b2 x) -> slice_inv L0 S0 B (S len) (set_nth len (d_val (D b2 x)) dd) rr).
    { intros rr LR. unfold slice_inv. rewrite (TypeSafe.set_nth_len _ _ _ G2). split; [exact G1|]. split; [lia|]. split; [exact G3|].
      rewrite LR, EZ. unfold left. cbn [Nat.mul]. lia. }
    destruct (D b2 x) as [r [e|] y]; cbn [d_err d_rest d_val] in *; cbv zeta.
    - pose proof (slice_inv_end _ _ _ _ _ _ 0 (NEW [] eq_refl) HK ltac:(lia)) as H. unfold elem_err. destruct (parseValue inp); unfold left, sl_cells; cbn [d_err d_val]; lia.
    - destruct T as (Wr & Lr & _). apply IH; [exact Wr|lia|apply NEW; reflexivity]. }
  destruct (Nat.eqb len 0) eqn:E0.
  - apply Nat.eqb_eq in E0. apply (EL sb Ws Ls). subst len. apply (Nat.mul_le_mono_l _ _ K) in Ls. cbn [Nat.max]. lia.
  - apply Nat.eqb_neq in E0. destruct sb as [|ch b1]; [apply NOW|]. destruct (ch =? 44)%Z; [|apply NOW].
    apply wf_cons in Ws as [_ Ws]. destruct (skip_read b1 Ws) as (w2 & Ww2 & Eb1 & Ws1 & Ls1). cbn [length] in Ls. apply (EL (skip_spaces b1) Ws1); [lia|].
    rewrite !Nat.max_r by lia. rewrite <- !Nat.mul_add_distr_l. apply Nat.mul_le_mono_l. lia.
Qed.
Lemma decode_slice_pays b x : 10 * c z + p <= K -> wf b -> length b <= N -> pays sl_cells 0 K (decode_slice D z) b x.
Proof.
  intros HK W L. destruct (has_null_prefix b) eqn:NP; [eapply null_pays; [unfold decode_slice; rewrite NP; reflexivity|unfold sl_cells; lia]|].
  destruct (Nat.ltb (length b) 2) eqn:L2; [apply in_err_pays; unfold decode_slice; rewrite NP, L2; reflexivity|].
  destruct b as [|ch b1]; [apply in_err_pays; unfold decode_slice; rewrite NP, L2; reflexivity|].
  destruct (ch =? 91)%Z eqn:CB; [|apply in_err_pays; unfold decode_slice; rewrite NP, L2, CB; reflexivity].
  unfold pays, decode_slice. rewrite NP, L2, CB. assert (W1 := W). apply wf_cons in W1 as [_ W1]. cbn [length] in L.
  set (d := match x with None => [] | Some (_, d) => d end).
  pose proof (slice_loop_pays (length d) (sum c d) (length (ch :: b1)) (ch :: b1) (S (length (ch :: b1))) HK b1 0 (option_map snd x) W1 ltac:(lia)) as H.
  assert (ED : data_of (option_map snd x) = d) by (unfold d; destruct x as [[? ?]|]; reflexivity). rewrite ED in H. cbv zeta in H.
  assert (EX : sl_cells x = 1 + sum c d) by (unfold d; destruct x as [[? ?]|]; reflexivity). rewrite EX, Nat.add_0_r. apply H.
  unfold slice_inv. repeat split; [lia|lia|lia|]. cbn [length Nat.max]. rewrite Nat.sub_diag. lia.
Qed.

Lemma array_skip_left k : forall b, wf b -> snd (array_skip k b) = None -> length (fst (array_skip k b)) <= length b.
Proof.
  induction k as [|k IH]; intros b W; [discriminate|]. cbn [array_skip]. destruct (skip_read b W) as (w & Ww & Eb & Ws & Ls).
  destruct (skip_spaces b) as [|ch b1]; [discriminate|]. destruct (ch =? 93)%Z; [cbn [snd fst length] in *; lia|]. cbv zeta.
  set (b2 := if (ch =? 44)%Z then skip_spaces b1 else ch :: b1).
  assert (W2 : wf b2 /\ length b2 <= length b).
  { unfold b2. destruct (ch =? 44)%Z; [|auto]. apply wf_cons in Ws as [_ Ws]. destruct (skip_read b1 Ws) as (? & _ & _ & ? & ?). cbn [length] in Ls. split; [assumption|lia]. }
  destruct W2 as [W2 L2]. pose proof (parse_takes _ W2) as PT. destruct (parseValue b2) as [v r|r e]; [|discriminate].
  destruct PT as (_ & Wr & Lr & _). intros H. specialize (IH r Wr H). lia.
Qed.
Lemma arr_loop_pays todo : p <= K -> forall first b done, wf b -> length b < N ->
  let r := arr_loop D first b done todo in
  sum c (d_val r) + K * left r <= sum c done + sum c todo + K * (length b + if first then 1 else 0).
Proof.
  intros HK. induction todo as [|x todo IH]; intros first b done W L; cbn [arr_loop].
  - pose proof (array_skip_left (S (length b)) b W) as H. destruct (array_skip (S (length b)) b) as [r e]. cbn [fst snd] in H. unfold left. cbn [d_val d_err d_rest]. cbn [sum map list_sum fold_right].
    destruct e; [lia|]. specialize (H eq_refl). assert (K * length r <= K * (length b + if first then 1 else 0)) by (apply Nat.mul_le_mono_l; lia). unfold sum. cbn [map list_sum fold_right]. lia.
  - cbv zeta. destruct (skip_read b W) as (w & Ww & Eb & Ws & Ls). set (sb := skip_spaces b) in *.
    assert (EL : forall b2, wf b2 -> length b2 <= length b -> K * length b2 + K <= K * (length b + if first then 1 else 0) ->
      let r := match d_err (D b2 x) with None => arr_loop D false (d_rest (D b2 x)) (done ++ [d_val (D b2 x)]) todo
               | Some e => DR (d_rest (D b2 x)) (Some e) (done ++ d_val (D b2 x) :: todo) end in
      sum c (d_val r) + K * left r <= sum c done + sum c (x :: todo) + K * (length b + if first then 1 else 0)).
    { intros b2 W2 L2 LK. pose proof (HT b2 x W2 ltac:(lia)) as T. pose proof (HD b2 x W2 ltac:(lia)) as P. unfold takes in T. unfold pays, left in P.
      destruct (D b2 x) as [r [e|] y]; cbn [d_err d_rest d_val] in *; cbv zeta.
      - unfold left. cbn [d_err d_val]. rewrite sum_app, !sum_cons. lia.
      - destruct T as (Wr & Lr & _). specialize (IH false r (done ++ [y]) Wr ltac:(lia)). cbv zeta in IH. rewrite sum_app, !sum_cons, Nat.add_0_r in IH. change (sum c []) with 0 in IH. rewrite sum_cons. lia. }
    assert (NOW : forall r o, length r <= length b -> let q := DR r o (done ++ x :: todo) in sum c (d_val q) + K * left q <= sum c done + sum c (x :: todo) + K * (length b + if first then 1 else 0)).
    { intros r o LR. cbv zeta. unfold left. cbn [d_val d_err d_rest]. rewrite sum_app. destruct o; [lia|]. assert (K * length r <= K * (length b + if first then 1 else 0)) by (apply Nat.mul_le_mono_l; lia). lia. }
    destruct first.
    + apply (EL sb Ws Ls). apply (Nat.mul_le_mono_l _ _ K) in Ls. lia.
    + destruct sb as [|ch b1]; [apply NOW; cbn; lia|]. cbn [length] in Ls. apply wf_cons in Ws as [_ Ws]. destruct (ch =? 44)%Z.
      * destruct (skip_read b1 Ws) as (w2 & _ & _ & Ws1 & Ls1). apply (EL (skip_spaces b1) Ws1); [lia|]. rewrite Nat.add_0_r. transitivity (K * S (length (skip_spaces b1))); [lia|]. apply Nat.mul_le_mono_l. lia.
      * destruct (ch =? 93)%Z; apply NOW; cbn [length]; lia.
Qed.
Lemma decode_array_pays b x : p <= K -> wf b -> length b <= N -> pays (fun l => 1 + sum c l) 0 K (decode_array D) b x.
Proof.
  intros HK W L. destruct (has_null_prefix b) eqn:NP; [eapply null_pays; [unfold decode_array; rewrite NP; reflexivity|lia]|].
  destruct (Nat.ltb (length b) 2) eqn:L2; [apply in_err_pays; unfold decode_array; rewrite NP, L2; reflexivity|].
  destruct b as [|ch b1]; [apply in_err_pays; unfold decode_array; rewrite NP, L2; reflexivity|].
  destruct (ch =? 91)%Z eqn:CB; [|apply in_err_pays; unfold decode_array; rewrite NP, L2, CB; reflexivity].
  unfold pays, decode_array. rewrite NP, L2, CB. assert (W1 := W). apply wf_cons in W1 as [_ W1]. cbn [length] in L.
  pose proof (arr_loop_pays x HK true b1 [] W1 ltac:(lia)) as H. cbv zeta in H. change (sum c []) with 0 in H. cbv beta iota in H |- *. cbn [length]. replace (S (length b1)) with (length b1 + 1) by lia. lia.
Qed.
End Loops.

Lemma obj_key_pays {X} (ck : X -> nat) K (deck : bytes -> dres X) first b :
  (forall b, wf b -> has_null_prefix b = false -> d_err (deck b) = None -> wf (d_rest (deck b)) /\ ck (d_val (deck b)) + K * length (d_rest (deck b)) <= K * length b) -> wf b ->
  match obj_key deck first b with inl _ => True | inr (b', k) => ck k + K + K * length b' <= K * length b end.
Proof.
  intros HK W. unfold obj_key. cbv zeta.
  assert (KY : forall b, wf b ->
    match (if has_null_prefix b then inl (b, ESyntax) else match d_err (deck b) with
           | Some e => inl (key_error (d_rest (deck b)) e)
           | None => match skip_spaces (d_rest (deck b)) with
                     | [] => inl (skip_spaces (d_rest (deck b)), ESyntax)
                     | ch :: b1 => if (ch =? 58)%Z then inr (skip_spaces b1, d_val (deck b)) else inl (skip_spaces (d_rest (deck b)), ESyntax)
                     end end) with
    | inl _ => True
    | inr (b', k) => ck k + K + K * length b' <= K * length b
    end).
  { clear b W. intros b W. destruct (has_null_prefix b) eqn:N; [exact I|]. specialize (HK b W N).
    destruct (deck b) as [r [e|] k]; cbn [d_err d_rest d_val] in *; [exact I|]. destruct (HK eq_refl) as [Wr H].
    destruct (skip_read r Wr) as (w & _ & _ & Ws & Ls). destruct (skip_spaces r) as [|ch b1]; [exact I|]. destruct (ch =? 58)%Z; [|exact I].
    apply wf_cons in Ws as [_ Ws]. destruct (skip_read b1 Ws) as (w2 & _ & _ & Ws1 & Ls1). cbn [length] in Ls.
    assert (X2 : K * S (length (skip_spaces b1)) <= K * length r) by (apply Nat.mul_le_mono_l; lia). lia. }
  destruct first; [exact (KY b W)|]. destruct b as [|ch b1]; [exact I|]. destruct (ch =? 44)%Z; [|exact I].
  apply wf_cons in W as [_ W]. destruct (skip_read b1 W) as (w & _ & _ & Ws & Ls). specialize (KY (skip_spaces b1) Ws).
  match goal with |- match ?x with _ => _ end => destruct x as [|[b' k]] end; [exact I|].
  assert (X2 : K * length (skip_spaces b1) <= K * length (ch :: b1)) by (apply Nat.mul_le_mono_l; cbn [length]; lia). lia.
Qed.
Lemma map_set_sum {X A} eqb (c : X * A -> nat) k v m : sum c (map_set eqb k v m) <= c (k, v) + sum c m.
Proof.
  induction m as [|[k' v'] m IH]; [reflexivity|]. cbn [map_set]. destruct (eqb k' k); rewrite !sum_cons in *; lia.
Qed.

Section ObjLoops.
Context {X A : Type} (ck : X -> nat) (c : A -> nat) (p K : nat) (eqb : X -> X -> bool) (deck : bytes -> dres X) (D : bytes -> A -> dres A) (z : A) (N : nat).
Hypothesis HT : forall b, wf b -> length b < N -> takes False D b z.
Hypothesis HD : forall b, wf b -> length b < N -> pays c p K D b z.
Hypothesis HK : key_takes deck.
Hypothesis HP : forall b, wf b -> has_null_prefix b = false -> d_err (deck b) = None -> wf (d_rest (deck b)) /\ ck (d_val (deck b)) + K * length (d_rest (deck b)) <= K * length b.
Definition entry_cells (e : X * A) : nat := match e with (k, v) => 1 + ck k + c v end.
Definition map_cells (m : option (list (X * A))) : nat := 1 + match m with None => 0 | Some m => sum entry_cells m end.

Lemma map_loop_pays inp fresh k : 1 + c z + p <= K -> forall first b m, wf b -> length b < N ->
  let r := map_loop eqb deck D z inp fresh k first b m in map_cells (d_val r) + K * left r <= 1 + sum entry_cells m + K * length b.
Proof.
  intros LK. induction k as [|k IH]; intros first b m W LN.
  { cbn [map_loop]. cbv zeta. unfold left, map_cells. cbn [d_val d_err]. destruct fresh; lia. }
  assert (NOW : forall r e, let q := DR r (Some e) (if fresh then None else Some m) in map_cells (d_val q) + K * left q <= 1 + sum entry_cells m + K * length b).
  { intros r e. cbv zeta. unfold left, map_cells. cbn [d_val d_err]. destruct fresh; lia. }
  cbn [map_loop]. cbv zeta. destruct (skip_read b W) as (w & Ww & Eb & Ws & Ls). set (sb := skip_spaces b) in *.
  destruct (match sb with ch :: _ => (ch =? 125)%Z | [] => false end).
  { unfold left, map_cells. cbn [d_val d_err d_rest]. assert (X2 : K * length (tl sb) <= K * length b) by (apply Nat.mul_le_mono_l; destruct sb; cbn [tl length] in *; lia). lia. }
  pose proof (obj_key_read deck first sb HK Ws) as OK. pose proof (obj_key_pays ck K deck first sb HP Ws) as OP.
  destruct (obj_key deck first sb) as [[r e]|[b2 key]]; [apply NOW|].
  destruct OK as (W2 & L2 & _). pose proof (HT b2 W2 ltac:(lia)) as T. pose proof (HD b2 W2 ltac:(lia)) as P. unfold takes in T. unfold pays, left in P.
  assert (X2 : K * length sb <= K * length b) by (apply Nat.mul_le_mono_l; exact Ls).
  destruct (D b2 z) as [r [e|] y]; cbn [d_err d_rest d_val] in *.
  - unfold elem_err. destruct (parseValue inp); apply NOW.
  - destruct T as (Wr & Lr & _). specialize (IH false r (map_set eqb key y m) Wr ltac:(lia)). cbv zeta in IH.
    pose proof (map_set_sum eqb entry_cells key y m) as MS. cbn [entry_cells] in MS. lia.
Qed.
Lemma decode_map_pays b x : 1 + c z + p <= K -> wf b -> length b <= N -> pays map_cells 0 K (decode_map eqb deck D z) b x.
Proof.
  intros LK W L. destruct (has_null_prefix b) eqn:NP; [eapply null_pays; [unfold decode_map; rewrite NP; reflexivity|unfold map_cells; lia]|].
  destruct (Nat.ltb (length b) 2) eqn:L2; [apply in_err_pays; unfold decode_map; rewrite NP, L2; reflexivity|].
  destruct b as [|ch b1]; [apply in_err_pays; unfold decode_map; rewrite NP, L2; reflexivity|].
  destruct (ch =? 123)%Z eqn:CB; [|apply in_err_pays; unfold decode_map; rewrite NP, L2, CB; reflexivity].
  unfold pays, decode_map. rewrite NP, L2, CB. assert (W1 := W). apply wf_cons in W1 as [_ W1]. cbn [length] in L.
  pose proof (map_loop_pays (ch :: b1) (match x with None => true | _ => false end) (S (length (ch :: b1))) LK true b1 (match x with None => [] | Some m => m end) W1 ltac:(lia)) as H. cbv zeta in H.
  assert (X2 : K * length b1 <= K * length (ch :: b1)) by (apply Nat.mul_le_mono_l; cbn [length]; lia).
  assert (EX : map_cells x = 1 + sum entry_cells (match x with None => [] | Some m => m end)) by (unfold map_cells; destruct x; reflexivity).
  lia.
Qed.
End ObjLoops.

Lemma text4 lit : string_lit lit -> length (str_text lit) <= 4 * length lit.
Proof. apply text_len. Qed.
Lemma lit_two lit : string_lit lit -> 2 <= length lit.
Proof. intros (body & -> & _). cbn [length]. rewrite app_length. cbn [length]. lia. Qed.

Section StructLoop.
Context {A : Type} (c : A -> nat) (p K : nat) (look : bytes -> option (bytes -> A -> dres A)) (dis : bool) (N : nat).
Hypothesis HT : forall k D b x, look k = Some D -> wf b -> length b < N -> takes False D b x.
Hypothesis HD : forall k D b x, look k = Some D -> wf b -> length b < N -> pays c p K D b x.

Lemma struct_loop_pays inp k : p <= K -> forall first b x, wf b -> length b < N ->
  let r := struct_loop look dis inp k first b x in c (d_val r) + K * left r <= c x + K * length b.
Proof.
  intros LK. induction k as [|k IH]; intros first b x W LN; [cbn [struct_loop]; cbv zeta; unfold left; cbn [d_val d_err]; lia|].
  cbn [struct_loop]. cbv zeta. destruct (skip_read b W) as (w & Ww & Eb & Ws & Ls). set (sb := skip_spaces b) in *.
  destruct (match sb with ch :: _ => (ch =? 125)%Z | [] => false end).
  { unfold left. cbn [d_val d_err d_rest]. assert (X2 : K * length (tl sb) <= K * length b) by (apply Nat.mul_le_mono_l; destruct sb; cbn [tl length] in *; lia). lia. }
  change (fun b0 : bytes => match parse_string_unquote b0 [] with QOk s q1 _ => DR q1 None s | QErr q2 e => DR q2 (Some e) [] | QPanic => DR b0 (Some EPanicked) [] | QFuel => DR b0 (Some EFuel) [] end) with deck_name.
  pose proof (obj_key_read deck_name first sb deck_name_takes Ws) as OK.
  assert (HP : forall b, wf b -> has_null_prefix b = false -> d_err (deck_name b) = None -> wf (d_rest (deck_name b)) /\ 0 + K * length (d_rest (deck_name b)) <= K * length b).
  { intros b0 W0 _. unfold deck_name. destruct (unquote_cases b0 W0) as [(lit & r & i & SL & E & U)|(r & U)]; rewrite U; [|discriminate]. intros _. cbn [d_rest]. subst b0. apply wf_app in W0 as [_ W0]. split; [exact W0|].
    apply Nat.mul_le_mono_l. rewrite app_length. lia. }
  pose proof (obj_key_pays (fun _ => 0) K deck_name first sb HP Ws) as OP.
  assert (X2 : K * length sb <= K * length b) by (apply Nat.mul_le_mono_l; exact Ls).
  destruct (obj_key deck_name first sb) as [[r e]|[b2 key]]; [unfold left; cbn [d_val d_err]; lia|].
  destruct OK as (W2 & L2 & _). destruct (look key) as [D|] eqn:LO.
  - pose proof (HT key D b2 x LO W2 ltac:(lia)) as T. pose proof (HD key D b2 x LO W2 ltac:(lia)) as P. unfold takes in T. unfold pays, left in P.
    destruct (D b2 x) as [r [e|] y]; cbn [d_err d_rest d_val] in *.
    + unfold elem_err, left. destruct (parseValue inp); cbn [d_err d_val]; lia.
    + destruct T as (Wr & Lr & _). specialize (IH false r y Wr ltac:(lia)). cbv zeta in IH. lia.
  - destruct dis; [unfold left; cbn [d_val d_err]; lia|]. pose proof (parse_takes b2 W2) as PT. destruct (parseValue b2) as [v r|r e]; [|unfold left; cbn [d_val d_err]; lia].
    destruct PT as (Wv & Wr & Lr & _). specialize (IH false r x Wr ltac:(lia)). cbv zeta in IH. assert (K * length r <= K * length b2) by (apply Nat.mul_le_mono_l; lia). lia.
Qed.
Lemma decode_struct_pays b x : p <= K -> wf b -> length b <= N -> pays c 0 K (decode_struct look dis) b x.
Proof.
  intros LK W L. destruct (has_null_prefix b) eqn:NP; [eapply null_pays; [unfold decode_struct; rewrite NP; reflexivity|lia]|].
  destruct (Nat.ltb (length b) 2) eqn:L2; [apply in_err_pays; unfold decode_struct; rewrite NP, L2; reflexivity|].
  destruct b as [|ch b1]; [apply in_err_pays; unfold decode_struct; rewrite NP, L2; reflexivity|].
  destruct (ch =? 123)%Z eqn:CB; [|apply in_err_pays; unfold decode_struct; rewrite NP, L2, CB; reflexivity].
  unfold pays, decode_struct. rewrite NP, L2, CB. assert (W1 := W). apply wf_cons in W1 as [_ W1]. cbn [length] in L.
  pose proof (struct_loop_pays (ch :: b1) (S (length (ch :: b1))) LK true b1 x W1 ltac:(lia)) as H. cbv zeta in H.
  assert (X2 : K * length b1 <= K * length (ch :: b1)) by (apply Nat.mul_le_mono_l; cbn [length]; lia). lia.
Qed.
End StructLoop.

(** * Interfaces *)
Section Iface.
Context (un : bool) (pf : bytes -> option fl).

Lemma add_all_sum {X A} eqb (c : X * A -> nat) kvs : forall m, sum c (add_all eqb kvs m) <= sum c kvs + sum c m.
Proof.
  induction kvs as [|[k v] kvs IH]; intros m; [reflexivity|]. unfold add_all in *. cbn [fold_left fst snd]. rewrite sum_cons.
  specialize (IH (map_set eqb k v m)). pose proof (map_set_sum eqb c k v m). lia.
Qed.
Definition mcells (e : bytes * jv) : nat := match e with (k, v) => 1 + length k + held v end.
Definition jmem (kv : bytes * jast) : option (bytes * jv) := match kv with (lit, x) => match jden un pf x with Some v => Some (str_text lit, v) | None => None end end.
Lemma held_all :
  (forall s a, jvalue s a -> forall v, jden un pf a = Some v -> held v <= 12 * length s) /\
  (forall s l, jelems s l -> forall vs, Forall2 (fun a v => jden un pf a = Some v) l vs -> 10 * length vs + sum held vs <= 12 * length s + 12) /\
  (forall s l, jmembers s l -> forall kvs, Forall2 (fun a v => jmem a = Some v) l kvs -> sum mcells kvs <= 12 * length s) /\
  (forall s kv, jmember s kv -> forall e, jmem kv = Some e -> mcells e <= 12 * length s).
Proof.
  apply json_mutind.
  - intros v [= <-]. cbn. lia.
  - intros v [= <-]. cbn. lia.
  - intros v [= <-]. cbn. lia.
  - intros s NL v E. cbn [jden] in E. unfold numv in E. pose proof (jvalue_pos s _ (V_num s NL)) as PO. destruct un; [injection E as <-; cbn [held]; lia|]. destruct (pf s); [|discriminate]. injection E as <-. cbn [held]. lia.
  - intros s SL v [= <-]. cbn [held]. pose proof (text4 s SL). pose proof (lit_two s SL). lia.
  - intros w _ v [= <-]. cbn [held length map list_sum fold_right]. rewrite app_length. cbn [length]. lia.
  - intros s l _ IH v E. cbn [jden] in E. destruct (seq_opt (map (jden un pf) l)) as [vs|] eqn:ES; [|discriminate]. injection E as <-. apply seq_opt_some in ES. specialize (IH vs ES).
    cbn [held length]. rewrite app_length. cbn [length]. unfold sum in IH. lia.
  - intros w _ v [= <-]. cbn [held add_all fold_left length map list_sum fold_right]. rewrite app_length. cbn [length]. lia.
  - intros s l _ IH v E. cbn [jden] in E. change (fun kv : bytes * jast => _) with jmem in E. destruct (seq_opt (map jmem l)) as [kvs|] eqn:ES; [|discriminate]. injection E as <-. apply seq_opt_some in ES. specialize (IH kvs ES).
    pose proof (add_all_sum beqb mcells kvs []) as AS. change (sum mcells []) with 0 in AS.
    cbn [held length]. rewrite app_length. cbn [length]. change (list_sum (map (fun e => match e with (k, v) => 1 + length k + held v end) (add_all beqb kvs []))) with (sum mcells (add_all beqb kvs [])). lia.
  - intros w1 s v w2 _ _ IH _ vs FV. inversion FV as [|? y ? ? E F2]; subst. inversion F2; subst. specialize (IH y E). rewrite sum_cons. change (sum held []) with 0. cbn [length]. rewrite !app_length. lia.
  - intros w1 s v w2 t l _ _ IH _ _ IHl vs FV. inversion FV as [|? y ? ys E F2]; subst. specialize (IH y E). specialize (IHl ys F2). rewrite sum_cons. cbn [length]. rewrite !app_length. cbn [length]. lia.
  - intros m kv _ IH kvs FV. inversion FV as [|? y ? ? E F2]; subst. inversion F2; subst. specialize (IH y E). rewrite sum_cons. change (sum mcells []) with 0. lia.
  - intros m kv t l _ IH _ IHl kvs FV. inversion FV as [|? y ? ys E F2]; subst. specialize (IH y E). specialize (IHl ys F2). rewrite sum_cons, app_length. cbn [length]. lia.
  - intros w1 k w2 w3 s v w4 _ SL _ _ _ IH _ e E. cbn [jmem] in E. destruct (jden un pf v) as [y|]; [|discriminate]. injection E as <-. specialize (IH y eq_refl).
    cbn [mcells]. pose proof (text4 k SL). pose proof (lit_two k SL). rewrite !app_length. cbn [length]. rewrite !app_length. lia.
Qed.
Lemma held_pos v : 1 <= held v.
Proof. destruct v; cbn [held]; lia. Qed.
Lemma iface_pays b x : wf b -> pays held 0 12 (decode_interface un pf) b x.
Proof.
  intros W. pose proof (parse_takes b W) as PT. pose proof (held_pos x) as HX. unfold pays, decode_interface. destruct (parseValue b) as [v r|r e] eqn:E.
  - destruct PT as (Wv & Wr & L & Eb & a & J). pose proof (parseValue_complete v a [] J I) as P2. rewrite app_nil_r in P2.
    destruct (iface_split un pf (length b) b v r x E P2) as (o & y & E3 & E4).
    assert (E5 := dec_iface_ok un pf (S (length b)) v a [] x J). rewrite app_nil_r in E5.
    assert (LV : length v < S (length b)) by (subst b; rewrite app_length; lia).
    rewrite E4 in E5. specialize (E5 ltac:(lia) (fun _ => I)). rewrite E3. unfold left. cbn [d_err d_val d_rest].
    destruct (jden un pf a) as [u|] eqn:JD; injection E5 as -> ->.
    + pose proof (proj1 held_all v a J u JD). subst b. rewrite app_length. lia.
    + cbn [held]. lia.
  - cbn [dec_iface]. rewrite E. unfold left. cbn [d_err d_val held]. lia.
Qed.
End Iface.

(** * Types *)
Lemma nth_set (l : list mem) i x y : nth_error l i = Some x -> cells (MList (set_nth i y l)) + cells x = cells (MList l) + cells y.
Proof.
  intros E. assert (L : i < length l) by (apply nth_error_Some; congruence). pose proof (sum_set cells x i y l L) as H. rewrite (nth_error_nth l i x E) in H.
  cbn [cells]. unfold sum in H. lia.
Qed.
Lemma sum_ones {A} (l : list A) : sum (fun _ => 1) l = length l.
Proof. unfold sum. induction l as [|a l IH]; [reflexivity|]. cbn [map list_sum fold_right length] in *. unfold list_sum in IH. lia. Qed.

Section Types.
Context (V : tenv) (F : dflags) (OK : env_ok V) (B64 : b64_short V) (t0 : gty) (z d : nat) (SZ : sized V t0 z d).
Notation dec_ty := (dec_ty V F).
Notation K := (per_byte z d).

Lemma zero_le u : part V t0 u -> cells (zero V u) <= z.
Proof. intros P. apply (proj1 SZ u P). Qed.
Lemma ptrs_le u : part V t0 u -> pointers u * z <= d * z.
Proof. intros P. apply Nat.mul_le_mono_r. apply (proj1 SZ u P). Qed.
Lemma K_big : 40 + 10 * z + d * z <= K /\ 2 * (d * z) <= K.
Proof. unfold per_byte. nia. Qed.

Lemma bytes_pays b x : wf b -> pays (fun s => cells (MBytes s)) 0 K (decode_bytes V) b x.
Proof.
  intros W. pose proof K_big as [KB _]. destruct (has_null_prefix b) eqn:NP; [eapply null_pays; [unfold decode_bytes; rewrite NP; reflexivity|cbn [cells]; lia]|].
  destruct (Nat.ltb (length b) 2) eqn:L2; [apply in_err_pays; unfold decode_bytes; rewrite NP, L2; reflexivity|].
  destruct b as [|ch b1]; [apply in_err_pays; unfold decode_bytes; rewrite NP, L2; reflexivity|].
  destruct (negb (ch =? 34)%Z) eqn:CQ.
  - destruct (ch =? 91)%Z eqn:CB; [|apply in_err_pays; unfold decode_bytes; rewrite NP, L2, CQ, CB; reflexivity].
    assert (E : decode_bytes V (ch :: b1) x = decode_slice (decode_int TUint8) 0%Z (ch :: b1) x) by (unfold decode_bytes; rewrite NP, L2, CQ, CB; reflexivity).
    unfold pays, left. rewrite E. pose proof (decode_slice_pays (fun _ => 1) 0 K (decode_int TUint8) 0%Z (length (ch :: b1))) as H.
    assert (EC : forall s : sl Z, cells (MBytes s) = sl_cells (fun _ => 1) s) by (intros [[? ?]|]; unfold sl_cells; cbn [cells]; rewrite ?sum_ones; reflexivity).
    rewrite !EC. apply H; [| |lia|exact W|lia].
    + intros b' x' W' _. apply reads_takes; [exact W'|apply int_reads, W'].
    + intros b' x' W' _. apply (pays_flat _ _ _ False); [apply reads_takes; [exact W'|apply int_reads, W']|lia].
  - unfold pays, decode_bytes. rewrite NP, L2, CQ.
    destruct (unquote_cases (ch :: b1) W) as [(lit & r0 & i & SL & E0 & Q)|(r0 & Q)]; rewrite Q.
    + destruct (v_b64 V (str_text lit)) as [v|] eqn:B; unfold left; cbn [d_err d_val d_rest]; [|lia]. pose proof (B64 _ _ B) as LB. pose proof (text4 lit SL).
      rewrite E0, app_length. cbn [cells]. rewrite Nat.mul_add_distr_l. assert (4 * length lit <= K * length lit) by (apply Nat.mul_le_mono_r; lia). lia.
    + unfold in_err. destruct (input_error (ch :: b1)). unfold left. cbn [d_err d_val]. lia.
Qed.
Lemma raw_pays b x : wf b -> pays (fun r => cells (MRaw r)) 0 1 decode_raw b x.
Proof.
  intros W. pose proof (parse_takes b W) as PT. unfold pays, decode_raw. destruct (parseValue b) as [v r|r e].
  - destruct PT as (_ & _ & _ & -> & _). unfold left. cbn [d_err d_val d_rest cells]. rewrite app_length. lia.
  - unfold in_err. destruct (input_error b). unfold left. cbn [d_err d_val]. lia.
Qed.
Lemma string_pays b x : wf b -> pays (fun s => cells (MStr s)) 0 4 decode_string b x.
Proof.
  intros W. destruct (has_null_prefix b) eqn:NP; [eapply null_pays; [unfold decode_string; rewrite NP; reflexivity|lia]|]. unfold pays, decode_string. rewrite NP.
  destruct (unquote_cases b W) as [(lit & r & i & SL & E & Q)|(r & Q)]; rewrite Q.
  - unfold left. cbn [d_err d_val d_rest cells]. subst b. rewrite app_length. pose proof (text4 lit SL). lia.
  - destruct b as [|ch b]; [|destruct (ch =? 34)%Z]; unfold in_err; try destruct (input_error _); unfold left; cbn [d_err d_val]; lia.
Qed.
Lemma number_pays b x : wf b -> pays (fun s => cells (MStr s)) 0 4 decode_number b x.
Proof.
  intros W. destruct (has_null_prefix b) eqn:NP; [eapply null_pays; [unfold decode_number; rewrite NP; reflexivity|lia]|]. unfold pays, decode_number. rewrite NP.
  destruct (parse_number b) as [v r|r e] eqn:P.
  - apply parse_number_sound in P as [-> _]. unfold left. cbn [d_err d_val d_rest cells]. rewrite app_length. lia.
  - unfold in_err. destruct (input_error b). unfold left. cbn [d_err d_val]. lia.
Qed.

Lemma key_pays k b : wf b -> has_null_prefix b = false -> d_err (decode_key V k b) = None ->
  wf (d_rest (decode_key V k b)) /\ key_cells (d_val (decode_key V k b)) + K * length (d_rest (decode_key V k b)) <= K * length b.
Proof.
  intros W N E. pose proof K_big as [KB _]. pose proof (key_takes_all V OK k b W N) as T. rewrite E in T. destruct T as (Wr & lit & SL & Eb). split; [exact Wr|].
  pose proof (lit_two lit SL). pose proof (text4 lit SL). assert (LB : length b = length lit + length (d_rest (decode_key V k b))) by (rewrite Eb at 1; apply app_length). rewrite LB.
  rewrite Nat.mul_add_distr_l. assert (5 * length lit <= K * length lit) by (apply Nat.mul_le_mono_r; lia).
  assert (KC : key_cells (d_val (decode_key V k b)) <= 1 + length (str_text lit)); [|lia].
  destruct k as [|it|u]; cbn [decode_key d_map d_val key_cells]; [|lia|lia].
  cbn [decode_key d_map d_err d_rest] in E, Eb, Wr. unfold decode_string in *. rewrite N in *.
  destruct (unquote_cases b W) as [(lit' & r & i & SL' & E' & Q)|(r & Q)]; rewrite Q in *; [|destruct b as [|ch b]; [discriminate E|]; destruct (ch =? 34)%Z; [discriminate E|]; unfold in_err in E; destruct (input_error _); discriminate E].
  cbn [d_rest] in Eb. rewrite E' in Eb. apply app_inv_tail in Eb. subst lit'. cbn [d_val]. lia.
Qed.

Lemma ptr_pays n e b x k : part V t0 e -> (forall x, pays cells (pointers e * z) k (dec_ty n e) b x) -> pays cells (pointers (YPtr e) * z) k (dec_ty n (YPtr e)) b x.
Proof.
  intros PE H. pose proof (zero_le e PE) as ZE. destruct x; try (eapply pays_err; [rewrite dec_ty_eq; reflexivity|lia]). rename p into q.
  cbn [pointers Nat.mul]. destruct (has_null_prefix b) eqn:N.
  - assert (C : (forall (A : Type) (f : mem -> A) (g : A), match q, e with Some x, YPtr _ => f x | _, _ => g end = g) \/ exists x e', q = Some x /\ e = YPtr e') by (destruct q, e; eauto).
    destruct C as [C|(x & e' & -> & ->)].
    + eapply null_pays; [rewrite dec_ty_eq, N, C; reflexivity|cbn [cells]; lia].
    + eapply (pays_map cells cells _ _ k (dec_ty n (YPtr e'))); [rewrite dec_ty_eq, N; reflexivity| |apply H]. intros w. cbn [cells]. lia.
  - eapply (pays_map cells cells _ _ k (dec_ty n e)); [rewrite dec_ty_eq, N; reflexivity| |apply H]. intros w. cbn [cells]. destruct q; lia.
Qed.
Lemma quotable_pays n t : quotable t -> part V t0 t -> forall b x, wf b -> pays cells (pointers t * z) 4 (dec_ty n t) b x.
Proof.
  induction t; cbn [quotable]; try contradiction; intros QT PT b x W;
    try (destruct x; try (eapply pays_err; [rewrite dec_ty_eq; reflexivity|lia]); apply (pays_flat _ _ _ False); [apply reads_takes; [exact W|apply quotable_reads; [exact OK|exact I|exact W]]|rewrite dec_ty_eq; cbn [d_map d_val cells]; lia]; fail).
  - destruct x; try (eapply pays_err; [rewrite dec_ty_eq; reflexivity|lia]). eapply (pays_map (fun s => cells (MStr s)) cells 0 _ 4 decode_number); [rewrite dec_ty_eq; reflexivity|intros; lia|apply number_pays, W].
  - destruct x; try (eapply pays_err; [rewrite dec_ty_eq; reflexivity|lia]). eapply (pays_map (fun s => cells (MStr s)) cells 0 _ 4 decode_string); [rewrite dec_ty_eq; reflexivity|intros; lia|apply string_pays, W].
  - apply ptr_pays; [eapply pa_ptr, PT|]. intros y. apply IHt; [destruct t; contradiction || exact QT|eapply pa_ptr, PT|exact W].
Qed.

Lemma path_pays D b q p : (forall x, pays cells q K D b x) -> (forall k s u, In (PVia k s u) p -> cells (zero V (YStruct s)) <= z) ->
  forall m, pays cells (q + length p * z) K (on_path V p D) b m.
Proof.
  intros HD. induction p as [|[i|i s un] p IH]; intros HP m.
  - cbn [on_path length Nat.mul]. rewrite Nat.add_0_r. apply HD.
  - assert (HP' : forall k s u, In (PVia k s u) p -> cells (zero V (YStruct s)) <= z) by (intros k s u H; apply (HP k s u); right; exact H). specialize (IH HP'). cbn [length Nat.mul].
    destruct m; try (eapply pays_err; [reflexivity|lia]). destruct (nth_error l i) as [x|] eqn:E; [|eapply pays_err; [cbn [on_path]; rewrite E; reflexivity|lia]].
    eapply (pays_map cells cells _ _ K (on_path V p D)); [cbn [on_path]; rewrite E; reflexivity| |apply IH]. intros w. pose proof (nth_set l i x w E). lia.
  - assert (HP' : forall k s u, In (PVia k s u) p -> cells (zero V (YStruct s)) <= z) by (intros k s' u H; apply (HP k s' u); right; exact H). specialize (IH HP'). cbn [length Nat.mul].
    assert (ZS : cells (zero V (YStruct s)) <= z) by (apply (HP i s un); left; reflexivity).
    destruct m; try (eapply pays_err; [reflexivity|lia]). destruct (nth_error l i) as [x|] eqn:E; [|eapply pays_err; [cbn [on_path]; rewrite E; reflexivity|lia]].
    destruct x; try (eapply pays_err; [cbn [on_path]; rewrite E; reflexivity|lia]). rename p0 into o. destruct o as [x|]; [|destruct un].
    + eapply (pays_map cells cells _ _ K (on_path V p D)); [cbn [on_path]; rewrite E; reflexivity| |apply IH]. intros w. pose proof (nth_set l i _ (MPtr (Some w)) E) as H. cbn [cells] in *. lia.
    + eapply pays_err; [cbn [on_path]; rewrite E; reflexivity|lia].
    + eapply (pays_map cells cells _ _ K (on_path V p D)); [cbn [on_path]; rewrite E; reflexivity| |apply IH]. intros w. pose proof (nth_set l i _ (MPtr (Some w)) E) as H. cbn [cells] in *. lia.
Qed.
Lemma from_string_pays (D : bytes -> mem -> dres mem) q b x : wf b -> (forall b, wf b -> reads D b x) -> (forall b, wf b -> pays cells q 4 D b x) -> pays cells q K (decode_from_string D) b x.
Proof.
  intros W HR HS. pose proof K_big as [KB _]. unfold pays, decode_from_string. destruct (has_null_prefix b).
  { apply (pays_up cells q q 4 K False); [apply reads_takes; auto|lia|lia|auto]. }
  destruct (unquote_cases b W) as [(lit & r & i & SL & Eb & E)|(r & E)]; rewrite E; [|unfold in_err, left; cbn [input_error d_err d_val]; lia].
  specialize (HS (str_text lit) (str_text_wf lit SL)). unfold pays in HS. pose proof (text4 lit SL). cbv zeta.
  rewrite Eb, app_length, Nat.mul_add_distr_l. assert (16 * length lit <= K * length lit) by (apply Nat.mul_le_mono_r; lia).
  unfold left. destruct (D (str_text lit) x) as [u [e|] y]; cbn [d_err d_rest d_val] in *; [lia|]. destruct (skip_spaces u); cbn [d_err d_rest d_val]; lia.
Qed.
Lemma from_string_int_pays pf (D : bytes -> mem -> dres mem) q b x : wf b -> (forall b, wf b -> reads D b x) -> (forall b, wf b -> pays cells q 4 D b x) -> pays cells q K (decode_from_string_int pf D) b x.
Proof.
  intros W HR HS. pose proof K_big as [KB _]. unfold pays, decode_from_string_int. destruct (has_null_prefix b).
  { apply (pays_up cells q q 4 K False); [apply reads_takes; auto|lia|lia|auto]. }
  cbv zeta. set (g := match parse_string_unquote b [] with QOk _ _ _ => _ | _ => _ end).
  assert (SQ : cells (d_val g) + K * left g <= cells x + q + K * length b).
  { unfold g. destruct (unquote_cases b W) as [(lit & r & i & SL & Eb & E)|(r & E)]; rewrite E; [|unfold in_err, left; cbn [input_error d_err d_val]; lia].
    specialize (HS (strip_zeroes (str_text lit)) (strip_wf _ (str_text_wf lit SL))). unfold pays in HS. pose proof (text4 lit SL). pose proof (strip_len (str_text lit)).
    rewrite Eb, app_length, Nat.mul_add_distr_l. assert (16 * length lit <= K * length lit) by (apply Nat.mul_le_mono_r; lia).
    unfold left. destruct (D (strip_zeroes (str_text lit)) x) as [u [e|] y]; cbn [d_err d_rest d_val] in *; [destruct e; cbn [d_err d_val]; lia|]. destruct u; cbn [d_err d_rest d_val]; lia. }
  destruct b as [|ch b1]; [exact SQ|]. destruct (ch =? 34)%Z; cbn [negb].
  - destruct b1 as [|c1 b2]; [exact SQ|]. destruct (c1 =? 34)%Z; [unfold left; cbn [d_err d_val]; lia|exact SQ].
  - unfold left. destruct (parse_number (ch :: b1)); [|cbn [d_err d_val]; lia]. destruct (existsb _ v); [|cbn [d_err d_val]; lia]. destruct (pf v); cbn [d_err d_val]; lia.
Qed.

Lemma dec_ty_pays n : forall t b x, part V t0 t -> wf b -> length b < n -> pays cells (pointers t * z) K (dec_ty n t) b x.
Proof.
  pose proof K_big as [KB KB2]. induction n as [|n IHn]; [intros; lia|].
  assert (HT : forall t b x, wf b -> length b < S n -> takes False (dec_ty (S n) t) b x).
  { intros t b x W L. eapply takes_imp; [|apply (dec_ty_takes V F OK (S n) t b x W L)]. contradiction. }
  induction t; intros b x PT W L;
    try (eapply (pays_up cells _ _ 4 K False); [apply HT; assumption|apply le_n|lia|apply quotable_pays; [exact I|exact PT|exact W]]; fail);
    try (apply ptr_pays; [eapply pa_ptr, PT|]; intros y; apply IHt; [eapply pa_ptr, PT|exact W|exact L]);
    (destruct x; try (eapply pays_err; [rewrite dec_ty_eq; reflexivity|lia])).
  - eapply (pays_map (fun s => cells (MBytes s)) cells 0 _ K (decode_bytes V)); [rewrite dec_ty_eq; reflexivity|intros; lia|apply bytes_pays, W].
  - apply (pays_flat _ _ _ False); [apply HT; assumption|]. rewrite dec_ty_eq. cbn [d_map d_val cells]. lia.
  - eapply (pays_up cells _ _ 12 K False); [apply HT; assumption|apply le_n|lia|].
    eapply (pays_map held cells 0 _ 12 (decode_interface _ _)); [rewrite dec_ty_eq; reflexivity|intros; cbn [cells]; lia|apply iface_pays, W].
  - destruct (has_null_prefix b) eqn:N; [eapply null_pays; [rewrite dec_ty_eq, N; reflexivity|cbn [cells]; pose proof (held_pos v); cbn [held]; lia]|].
    assert (C : (empty = true /\ v = JVNull) \/ (forall A (f g : A), (match v with JVNull => if empty then f else g | _ => g end) = g)) by (destruct empty, v; auto).
    destruct C as [[-> ->]|C].
    + eapply (pays_up cells _ _ 12 K False); [apply HT; assumption|apply le_n|lia|].
      eapply (pays_map held cells 0 _ 12 (parse_with (decode_interface (d_usenum F) (v_float V true)))); [rewrite dec_ty_eq, N; reflexivity|intros; cbn [cells]; lia|].
      destruct (skip_read b W) as (w & _ & _ & Ws & Ls). pose proof (iface_pays (d_usenum F) (v_float V true) (skip_spaces b) JVNull Ws) as H. unfold pays, parse_with, left in *. cbn [d_err d_rest d_val].
      destruct (d_err (decode_interface _ _ _ _)); [lia|]. pose proof (skip_spaces_le (d_rest (decode_interface (d_usenum F) (v_float V true) (skip_spaces b) JVNull))). lia.
    + assert (E : dec_ty (S n) (YNamedIface empty) b (MIface v) = decode_type_error b (MIface v)) by (rewrite dec_ty_eq, N; apply C). unfold decode_type_error in E.
      destruct (parseValue b); (eapply pays_err; [exact E|lia]).
  - eapply (pays_up cells _ _ 1 K False); [apply HT; assumption|apply le_n|lia|].
    eapply (pays_map (fun r => cells (MRaw r)) cells 0 _ 1 decode_raw); [rewrite dec_ty_eq; reflexivity|intros; lia|apply raw_pays, W].
  - destruct (Nat.eqb (length l) n0) eqn:LE; [|eapply pays_err; [rewrite dec_ty_eq, LE; reflexivity|lia]].
    pose proof (ptrs_le t (pa_array V t0 n0 t PT)) as PL.
    eapply (pays_map (fun l => 1 + sum cells l) cells 0 _ K (decode_array (dec_ty (S n) t))); [rewrite dec_ty_eq, LE; reflexivity|intros; cbn [cells]; unfold sum; lia|].
    apply (decode_array_pays cells (pointers t * z) K _ (length b)); [| |lia|exact W|lia].
    + intros b' x' W' L'. apply HT; [exact W'|lia].
    + intros b' x' W' L'. apply IHt; [eapply pa_array, PT|exact W'|lia].
  - pose proof (ptrs_le t (pa_slice V t0 t PT)) as PL. pose proof (zero_le t (pa_slice V t0 t PT)) as ZL.
    eapply (pays_map (sl_cells cells) cells 0 _ K (decode_slice (dec_ty (S n) t) (zero V t))); [rewrite dec_ty_eq; reflexivity|intros; unfold sl_cells; cbn [cells]; unfold sum; lia|].
    apply (decode_slice_pays cells (pointers t * z) K _ _ (length b)); [| |lia|exact W|lia].
    + intros b' x' W' L'. apply HT; [exact W'|lia].
    + intros b' x' W' L'. apply IHt; [eapply pa_slice, PT|exact W'|lia].
  - pose proof (ptrs_le t (pa_map V t0 k t PT)) as PL. pose proof (zero_le t (pa_map V t0 k t PT)) as ZL.
    eapply (pays_map (map_cells key_cells cells) cells 0 _ K (decode_map mkey_eqb (decode_key V k) (dec_ty (S n) t) (zero V t))); [rewrite dec_ty_eq; reflexivity|intros; unfold map_cells, sum, entry_cells; cbn [cells]; lia|].
    apply (decode_map_pays key_cells cells (pointers t * z) K _ _ _ _ (length b)); [| |apply key_takes_all; exact OK|apply key_pays|lia|exact W|lia].
    + intros b' W' L'. apply HT; [exact W'|lia].
    + intros b' W' L'. apply IHt; [eapply pa_map, PT|exact W'|lia].
  - eapply (pays_map (map_cells key_cells cells) cells 0 _ K (decode_map mkey_eqb (decode_key V KYString) _ _)); [rewrite dec_ty_eq; reflexivity|intros; unfold map_cells, sum, entry_cells; cbn [cells]; lia|].
    apply (decode_map_pays key_cells cells 0 K _ _ _ _ (length b)); [| |apply key_takes_all; exact OK|apply key_pays|cbn [cells held]; lia|exact W|lia].
    + intros b' W' L'. eapply (map_takes _ (decode_interface _ _)); [reflexivity|apply iface_takes, W'].
    + intros b' W' L'. apply (pays_up cells 0 0 12 K False); [eapply (map_takes _ (decode_interface _ _)); [reflexivity|apply iface_takes, W']|lia|lia|].
      eapply (pays_map held cells 0 0 12 (decode_interface _ _)); [reflexivity|intros; cbn [cells]; lia|apply iface_pays, W'].
  - eapply (pays_map (map_cells key_cells cells) cells 0 _ K (decode_map mkey_eqb (decode_key V KYString) _ _)); [rewrite dec_ty_eq; reflexivity|intros; unfold map_cells, sum, entry_cells; cbn [cells]; lia|].
    apply (decode_map_pays key_cells cells 0 K _ _ _ _ (length b)); [| |apply key_takes_all; exact OK|apply key_pays|cbn [cells]; lia|exact W|lia].
    + intros b' W' L'. eapply (map_takes _ decode_raw); [reflexivity|apply reads_takes; [exact W'|apply raw_reads, W']].
    + intros b' W' L'. apply (pays_up cells 0 0 1 K False); [eapply (map_takes _ decode_raw); [reflexivity|apply reads_takes; [exact W'|apply raw_reads, W']]|lia|lia|].
      eapply (pays_map (fun r => cells (MRaw r)) cells 0 0 1 decode_raw); [reflexivity|intros; lia|apply raw_pays, W'].
  - unfold pays. rewrite dec_ty_eq. cbn [pointers Nat.mul].
    set (look := fun k => match find_field V F (v_flds V i) k with Some f => Some (on_path V (jf_path f) (decode_field V f (dec_ty n (jf_ty f)))) | None => None end).
    apply (decode_struct_pays cells (2 * (d * z)) K look (d_disallow F) (length b)); [| |lia|exact W|lia].
    + intros k D b' x' LO W' L'. unfold look in LO. destruct (find_field V F (v_flds V i) k) as [f|] eqn:FF; [|discriminate]. injection LO as <-.
      eapply takes_imp; [|apply (field_takes V F OK n i f b' x' (field_in V F i k f FF) W')]; [contradiction|lia].
    + intros k D b' x' LO W' L'. unfold look in LO. destruct (find_field V F (v_flds V i) k) as [f|] eqn:FF; [|discriminate]. injection LO as <-.
      pose proof (field_in V F i k f FF) as IN. assert (PF : part V t0 (jf_ty f)) by (eapply pa_field; eassumption). pose proof (ptrs_le _ PF) as PL.
      pose proof (proj2 SZ i f PT IN) as LP. apply (Nat.mul_le_mono_r _ _ z) in LP.
      assert (PP : pays cells (pointers (jf_ty f) * z + length (jf_path f) * z) K (on_path V (jf_path f) (decode_field V f (dec_ty n (jf_ty f)))) b' x').
      { apply path_pays; [|intros k0 s u IV; apply zero_le; eapply pa_embedded; eassumption]. intros y. unfold decode_field. destruct (jf_quot f) eqn:Q.
        - apply IHn; [exact PF|exact W'|lia].
        - assert (QT : quotable (jf_ty f)) by (eapply (ok_quot V OK); [exact IN|congruence]).
          apply from_string_pays; [exact W'| |]; intros b2 W2; [apply quotable_reads; [exact OK|exact QT|exact W2]|apply quotable_pays; assumption].
        - assert (QT : quotable (jf_ty f)) by (eapply (ok_quot V OK); [exact IN|congruence]).
          apply from_string_int_pays; [exact W'| |]; intros b2 W2; [apply quotable_reads; [exact OK|exact QT|exact W2]|apply quotable_pays; assumption]. }
      unfold pays in *. lia.
  - assert (E : dec_ty (S n) YUnsupported b (MUser s) = decode_type_error b (MUser s)) by (rewrite dec_ty_eq; reflexivity). unfold decode_type_error in E.
    destruct (parseValue b); (eapply pays_err; [exact E|lia]).
Qed.

Lemma decode_pays t b x : part V t0 t -> wf b -> pays cells (pointers t * z) K (decode V F t) b x.
Proof. intros PT W. apply dec_ty_pays; [exact PT|exact W|lia]. Qed.
End Types.
