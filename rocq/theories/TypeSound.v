(** Decoding arbitrary bytes into typed values: a decoder that succeeds has read
    a JSON value, unless a fixed-size array is involved; fuel never runs out. *)
From Verif Require Import Bytes AsciiModel Utf8Model ParseModel IntModel StringModel EncModel DecModel
  SpecJson SpecString SpecDec ParseFacts Utf8Facts StringFacts IntFacts DecLoops DecFacts TypeModel SpecType NodeFacts TypeLoops TypeFacts TypeMain.

(** [P]: "no arrays are involved". *)
Definition value_read (b r : bytes) : Prop := exists w0 s a w1, ws w0 /\ jvalue s a /\ ws w1 /\ b = w0 ++ s ++ w1 ++ r.
Definition takes {A} (P : Prop) (D : bytes -> A -> dres A) (b : bytes) (x : A) : Prop :=
  match d_err (D b x) with
  | None => wf (d_rest (D b x)) /\ (length (d_rest (D b x)) < length b)%nat /\ (P -> value_read b (d_rest (D b x)))
  | Some e => e <> EFuel
  end.

Lemma jvalue_pos s a : jvalue s a -> (0 < length s)%nat.
Proof. intros H. apply jvalue_head in H as (c & t & -> & _). cbn. lia. Qed.
Lemma value_takes {A} P (D : bytes -> A -> dres A) b x s a r y : wf b -> b = s ++ r -> jvalue s a -> D b x = DR r None y -> takes P D b x.
Proof.
  intros W E J ED. unfold takes. rewrite ED. cbn [d_err d_rest]. subst b. apply wf_app in W as [_ W]. split; [exact W|].
  pose proof (jvalue_pos s a J). rewrite app_length. split; [lia|]. intros _. exists [], s, a, []. split; [constructor|]. split; [exact J|]. split; [constructor|reflexivity].
Qed.
Lemma reads_takes {A} P (D : bytes -> A -> dres A) b x : wf b -> reads D b x -> takes P D b x.
Proof.
  intros W H. unfold reads in H. destruct (D b x) as [r [e|] y] eqn:E; cbn [d_err d_rest] in *.
  - unfold takes. rewrite E. exact H.
  - destruct H as (nd & J & Eb). eapply value_takes; [exact W|exact Eb|apply jnode_jvalue, J|exact E].
Qed.
Lemma err_takes {A} P (D : bytes -> A -> dres A) b x r e y : D b x = DR r (Some e) y -> e <> EFuel -> takes P D b x.
Proof. intros E NE. unfold takes. rewrite E. exact NE. Qed.
Lemma in_err_takes {A} P (D : bytes -> A -> dres A) b x y : wf b -> D b x = in_err b y -> takes P D b x.
Proof. intros W E. destruct (in_err_wf b y W) as (r & e & E2 & NE). eapply err_takes; [rewrite E; exact E2|exact NE]. Qed.
Lemma map_takes {A B} P (D : bytes -> A -> dres A) (D' : bytes -> B -> dres B) (f : A -> B) b x y :
  D' b y = d_map f (D b x) -> takes P D b x -> takes P D' b y.
Proof. intros E. unfold takes. rewrite E. exact (fun H => H). Qed.
Lemma same_takes {A} P (D D' : bytes -> A -> dres A) b x y : D' b y = D b x -> takes P D b x -> takes P D' b y.
Proof. intros E. unfold takes. rewrite E. exact (fun H => H). Qed.
Lemma null_takes {A} P (D : bytes -> A -> dres A) b x y : wf b -> has_null_prefix b = true -> D b x = DR (skipn 4 b) None y -> takes P D b x.
Proof. intros W N E. eapply value_takes; [exact W|apply null_read, N|constructor|exact E]. Qed.
Lemma elem_err_nf {A} inp e (x : A) : wf inp -> e <> EFuel -> exists r e', elem_err inp e x = DR r (Some e') x /\ e' <> EFuel.
Proof.
  intros W NE. unfold elem_err. destruct (parseValue inp) as [v r|r e2] eqn:E; eexists _, _; (split; [reflexivity|]); [exact NE|].
  apply parseValue_err in E; [|exact W]. subst e2. discriminate.
Qed.
Lemma parse_takes b : wf b -> match parseValue b with
  | POk v r => wf v /\ wf r /\ (length r < length b)%nat /\ b = v ++ r /\ exists a, jvalue v a
  | PErr _ e => e = ESyntax
  end.
Proof.
  intros W. destruct (parseValue b) as [v r|r e] eqn:E; [|eapply parseValue_err; eassumption].
  apply parseValue_sound in E as [-> [a J]]; [|exact W]. pose proof (jvalue_pos v a J). apply wf_app in W as [W1 W2]. rewrite app_length. repeat split; eauto; lia.
Qed.

(** * interface{} *)
Section Iface.
Context (un : bool) (pf : bytes -> option fl).
Lemma iface_split n b v b' cur : parseValue b = POk v b' -> parseValue v = POk v [] ->
  exists o y, dec_iface un pf (S n) b cur = DR b' o y /\ dec_iface un pf (S n) v cur = DR [] o y.
Proof.
  intros E1 E2. cbn [dec_iface]. rewrite E1, E2. destruct v as [|c t]; [eexists _, _; split; reflexivity|].
  repeat match goal with |- context [if ?x then _ else _] => match x with c =? _ => destruct x | _ || _ => destruct x | is_num_start _ => destruct x | un => destruct x end end;
  try (eexists _, _; split; reflexivity);
  match goal with |- context [d_err (d_map ?f ?x)] => destruct (d_map f x) as [r [e|] y] | |- context [d_err ?x] => destruct x as [r [e|] y] end;
    cbn [d_err d_rest d_val]; try (destruct (skip_spaces r)); eexists _, _; split; reflexivity.
Qed.
Lemma iface_takes P b x : wf b -> takes P (decode_interface un pf) b x.
Proof.
  intros W. pose proof (parse_takes b W) as PT. unfold decode_interface. destruct (parseValue b) as [v r|r e] eqn:E.
  - destruct PT as (Wv & Wr & L & Eb & a & J). pose proof (parseValue_complete v a [] J I) as P2. rewrite app_nil_r in P2.
    destruct (iface_split (length b) b v r x E P2) as (o & y & E3 & E4).
    assert (E5 := dec_iface_ok un pf (S (length b)) v a [] x J). rewrite app_nil_r in E5.
    assert (LV : (length v < S (length b))%nat) by (subst b; rewrite app_length; lia).
    destruct o as [e|].
    + eapply err_takes; [exact E3|]. intros ->. rewrite E4 in E5. specialize (E5 ltac:(lia) (fun _ => I)). destruct (jden un pf a); discriminate.
    + eapply value_takes; [exact W|exact Eb|exact J|exact E3].
  - subst e. eapply err_takes; [cbn [dec_iface]; rewrite E; reflexivity|discriminate].
Qed.
End Iface.

Lemma ws_app a b : ws a -> ws b -> ws (a ++ b).
Proof. intros H1 H2. apply Forall_app. auto. Qed.
Lemma skip_read b : wf b -> exists w, ws w /\ b = w ++ skip_spaces b /\ wf (skip_spaces b) /\ (length (skip_spaces b) <= length b)%nat.
Proof.
  intros W. destruct (skip_spaces_split b) as (w & Ww & E & _). exists w. split; [exact Ww|]. split; [exact E|].
  pose proof (skip_spaces_le b). split; [|assumption]. apply wf_skip_spaces, W.
Qed.

(** * Slices *)
(** What is left of an array after none or some of its elements. *)
Definition atail (first : bool) (b r : bytes) : Prop :=
  (exists w, ws w /\ b = w ++ 93 :: r) \/
  (exists w s l, ws w /\ jelems s l /\ b = (if first then [] else w ++ [44]) ++ s ++ 93 :: r).
Lemma elem_tail b rest r : value_read b rest -> atail false rest r -> exists s l, jelems s l /\ b = s ++ 93 :: r.
Proof.
  intros (w0 & s & a & w1 & W0 & J & W1 & ->) [(w & W & ->)|(w & s' & l & W & JE & ->)].
  - exists (w0 ++ s ++ (w1 ++ w)), [a]. split; [constructor; auto using ws_app|]. appn. reflexivity.
  - exists (w0 ++ s ++ (w1 ++ w) ++ 44 :: s'), (a :: l). split; [constructor; auto using ws_app|]. appn. reflexivity.
Qed.
Lemma atail_node b r : atail true b r -> exists s a, jvalue s a /\ 91 :: b = s ++ r.
Proof.
  intros [(w & W & ->)|(w & s & l & W & JE & ->)].
  - exists (91 :: w ++ [93]), (JArr []). split; [constructor; exact W|]. appn. reflexivity.
  - exists (91 :: s ++ [93]), (JArr l). split; [constructor; exact JE|]. appn. reflexivity.
Qed.
Definition ends {A} (P : Prop) (d : dres A) (b : bytes) (T : bytes -> bytes -> Prop) : Prop :=
  match d_err d with
  | None => wf (d_rest d) /\ (length (d_rest d) < length b)%nat /\ (P -> T b (d_rest d))
  | Some e => e <> EFuel
  end.

Lemma ends_weaken {A} P (d : dres A) b b' (T T' : bytes -> bytes -> Prop) : ends P d b T -> (length b <= length b')%nat ->
  (forall r, T b r -> T' b' r) -> ends P d b' T'.
Proof. unfold ends. destruct (d_err d); [auto|]. intros (H1 & H2 & H3) L H. split; [exact H1|]. split; [lia|]. auto. Qed.

Section Loops.
Context {A : Type} (P : Prop) (D : bytes -> A -> dres A) (N : nat).
Hypothesis HD : forall b x, wf b -> (length b < N)%nat -> takes P D b x.

Lemma slice_loop_ends z inp k : wf inp -> forall b len data, wf b -> (length b < k)%nat -> (length b < N)%nat ->
  ends P (slice_loop D z inp k b len data) b (atail (Nat.eqb len 0)).
Proof.
  intros WI. induction k as [|k IH]; intros b len data W LK LN; [lia|]. cbn [slice_loop]. cbv zeta.
  destruct (skip_read b W) as (w & Ww & Eb & Ws & Ls). set (sb := skip_spaces b) in *.
  set (now := match data with None => None | Some d => Some (len, d) end).
  assert (CL : forall v, (match sb with c :: _ => c =? 93 | [] => false end) = true -> ends P (DR (tl sb) None v : dres (sl A)) b (atail (Nat.eqb len 0))).
  { intros v H. destruct sb as [|c t]; [discriminate|]. apply Z.eqb_eq in H. subst c. unfold ends. cbn [d_err d_rest tl].
    apply wf_cons in Ws as [_ Ws]. split; [exact Ws|]. cbn [length] in Ls. split; [lia|]. intros _. left. exists w. auto. }
  destruct (match sb with c :: _ => c =? 93 | [] => false end) eqn:C; [apply CL; reflexivity|]. clear CL.
  assert (EL : forall b2, wf b2 -> (length b2 <= length b)%nat -> forall x (v : A -> option (list A)) (ve : A -> sl A),
    ends P (match d_err (D b2 x) with None => slice_loop D z inp k (d_rest (D b2 x)) (S len) (v (d_val (D b2 x))) | Some e => elem_err inp e (ve (d_val (D b2 x))) end) b2
      (fun b r => exists s l, jelems s l /\ b = s ++ 93 :: r)).
  { intros b2 W2 L2 x v ve. pose proof (HD b2 x W2 ltac:(lia)) as T. unfold takes in T. destruct (D b2 x) as [r [e|] y]; cbn [d_err d_rest d_val] in *.
    - destruct (elem_err_nf inp e (ve y) WI T) as (r' & e' & E & NE). unfold ends. rewrite E. exact NE.
    - destruct T as (Wr & Lr & VR). pose proof (IH r (S len) (v y) Wr ltac:(lia) ltac:(lia)) as H. unfold ends in *.
      destruct (d_err (slice_loop D z inp k r (S len) (v y))); [exact H|]. destruct H as (H1 & H2 & H3). split; [exact H1|]. split; [lia|].
      intros p. eapply elem_tail; [exact (VR p)|exact (H3 p)]. }
  set (dd := if Nat.eqb len (length (match data with None => [] | Some d => d end)) then grow z (match data with None => [] | Some d => d end) else (match data with None => [] | Some d => d end)) in *.
  destruct (Nat.eqb len 0) eqn:L0.
  - eapply ends_weaken; [exact (EL sb Ws Ls (nth len dd z) (fun y => Some (set_nth len y dd)) (fun y => Some (len, set_nth len y dd)))|exact Ls|]. intros r (s & l & JE & E). right.
    destruct JE as [w1 s1 v1 w2 V1 J1 V2|w1 s1 v1 w2 t l V1 J1 V2 JE].
    + exists [], ((w ++ w1) ++ s1 ++ w2), [v1]. split; [constructor|]. split; [constructor; auto using ws_app|]. rewrite Eb, E. appn. reflexivity.
    + exists [], ((w ++ w1) ++ s1 ++ w2 ++ 44 :: t), (v1 :: l). split; [constructor|]. split; [constructor; auto using ws_app|]. rewrite Eb, E. appn. reflexivity.
  - destruct sb as [|c b1]; [unfold ends; discriminate|]. destruct (c =? 44) eqn:C2; [|unfold ends; discriminate]. apply Z.eqb_eq in C2. subst c.
    apply wf_cons in Ws as [_ Ws]. destruct (skip_read b1 Ws) as (w2 & Ww2 & Eb1 & Ws1 & Ls1). cbn [length] in Ls.
    eapply ends_weaken; [exact (EL (skip_spaces b1) Ws1 ltac:(lia) (nth len dd z) (fun y => Some (set_nth len y dd)) (fun y => Some (len, set_nth len y dd)))|lia|]. intros r (s & l & JE & E). right.
    destruct JE as [w1 s1 v1 w3 V1 J1 V2|w1 s1 v1 w3 t l V1 J1 V2 JE].
    + exists w, ((w2 ++ w1) ++ s1 ++ w3), [v1]. split; [exact Ww|]. split; [constructor; auto using ws_app|]. rewrite Eb, Eb1, E. appn. reflexivity.
    + exists w, ((w2 ++ w1) ++ s1 ++ w3 ++ 44 :: t), (v1 :: l). split; [exact Ww|]. split; [constructor; auto using ws_app|]. rewrite Eb, Eb1, E. appn. reflexivity.
Qed.
Lemma decode_slice_takes z b x : wf b -> (length b <= N)%nat -> takes P (decode_slice D z) b x.
Proof.
  intros W L. destruct (has_null_prefix b) eqn:E; [eapply null_takes; [exact W|exact E|unfold decode_slice; rewrite E; reflexivity]|].
  destruct (Nat.ltb (length b) 2) eqn:E2; [eapply in_err_takes; [exact W|unfold decode_slice; rewrite E, E2; reflexivity]|].
  destruct b as [|c b1]; [discriminate E2|]. destruct (c =? 91) eqn:C; [|eapply in_err_takes; [exact W|unfold decode_slice; rewrite E, E2, C; reflexivity]].
  apply Z.eqb_eq in C. subst c. assert (W1 := W). apply wf_cons in W1 as [_ W1]. cbn [length] in L.
  pose proof (slice_loop_ends z (91 :: b1) (S (length (91 :: b1))) W b1 0 (option_map snd x) W1 ltac:(cbn [length]; lia) ltac:(lia)) as H.
  unfold takes, decode_slice. rewrite E, E2. change (91 =? 91) with true. cbv iota. unfold ends in H.
  destruct (d_err (slice_loop D z (91 :: b1) (S (length (91 :: b1))) b1 0 (option_map snd x))); [exact H|].
  destruct H as (H1 & H2 & H3). split; [exact H1|]. split; [apply Nat.lt_lt_succ_r, H2|]. intros p. destruct (atail_node _ _ (H3 p)) as (s & a & J & Es).
  exists [], s, a, []. split; [constructor|]. split; [exact J|]. split; [constructor|exact Es].
Qed.

(** * Arrays *)
Lemma array_skip_nf k b : wf b -> (length b < k)%nat ->
  match array_skip k b with
  | (r, None) => wf r /\ (length r < length b)%nat
  | (_, Some e) => e <> EFuel
  end.
Proof.
  revert b. induction k as [|k IH]; intros b W L; [lia|]. cbn [array_skip]. cbv zeta.
  destruct (skip_read b W) as (w & Ww & Eb & Ws & Ls). destruct (skip_spaces b) as [|c b1]; [discriminate|].
  assert (W1 := Ws). apply wf_cons in W1 as [_ W1]. cbn [length] in Ls. destruct (c =? 93); [split; [exact W1|lia]|].
  set (b2 := if c =? 44 then skip_spaces b1 else c :: b1).
  assert (B2 : wf b2 /\ (length b2 <= length b)%nat).
  { unfold b2. destruct (c =? 44); [|split; [exact Ws|cbn [length]; lia]]. destruct (skip_read b1 W1) as (w2 & _ & _ & H1 & H2). split; [exact H1|lia]. }
  destruct B2 as [W2 L2]. pose proof (parse_takes b2 W2) as PT. destruct (parseValue b2) as [v r|r e]; [|subst e; discriminate].
  destruct PT as (_ & Wr & Lr & _). pose proof (IH r Wr ltac:(lia)) as H. destruct (array_skip k r) as [r' [e|]]; [exact H|]. destruct H. split; [assumption|lia].
Qed.
Lemma arr_loop_ends todo : forall first b done, wf b -> (length b < N)%nat -> ends P (arr_loop D first b done todo) b (fun _ _ => True).
Proof.
  induction todo as [|x todo IH]; intros first b done W L; cbn [arr_loop].
  - pose proof (array_skip_nf (S (length b)) b W ltac:(lia)) as H. destruct (array_skip (S (length b)) b) as [r [e|]]; unfold ends; cbn [d_err d_rest]; [exact H|].
    destruct H. auto.
  - cbv zeta. destruct (skip_read b W) as (w & Ww & Eb & Ws & Ls). set (sb := skip_spaces b) in *.
    assert (EL : forall b2, wf b2 -> (length b2 <= length b)%nat ->
      ends P (match d_err (D b2 x) with None => arr_loop D false (d_rest (D b2 x)) (done ++ [d_val (D b2 x)]) todo | Some e => DR (d_rest (D b2 x)) (Some e) (done ++ d_val (D b2 x) :: todo) end) b2 (fun _ _ => True)).
    { intros b2 W2 L2. pose proof (HD b2 x W2 ltac:(lia)) as T. unfold takes in T. destruct (D b2 x) as [r [e|] y]; cbn [d_err d_rest d_val] in *; [exact T|].
      destruct T as (Wr & Lr & _). eapply ends_weaken; [apply IH; [exact Wr|lia]|lia|auto]. }
    destruct first.
    + eapply ends_weaken; [exact (EL sb Ws Ls)|exact Ls|auto].
    + destruct sb as [|c b1]; [unfold ends; discriminate|]. apply wf_cons in Ws as [_ Ws]. cbn [length] in Ls. destruct (c =? 44).
      * destruct (skip_read b1 Ws) as (w2 & _ & _ & Ws1 & Ls1). eapply ends_weaken; [exact (EL (skip_spaces b1) Ws1 ltac:(lia))|lia|auto].
      * destruct (c =? 93); unfold ends; cbn [d_err d_rest]; [|discriminate]. split; [exact Ws|]. split; [lia|auto].
Qed.
Lemma decode_array_takes b x : wf b -> (length b <= N)%nat -> ~ P -> takes P (decode_array D) b x.
Proof.
  intros W L NP. destruct (has_null_prefix b) eqn:E; [eapply null_takes; [exact W|exact E|unfold decode_array; rewrite E; reflexivity]|].
  destruct (Nat.ltb (length b) 2) eqn:E2; [eapply in_err_takes; [exact W|unfold decode_array; rewrite E, E2; reflexivity]|].
  destruct b as [|c b1]; [discriminate E2|]. destruct (c =? 91) eqn:C; [|eapply in_err_takes; [exact W|unfold decode_array; rewrite E, E2, C; reflexivity]].
  assert (W1 := W). apply wf_cons in W1 as [_ W1]. cbn [length] in L. pose proof (arr_loop_ends x true b1 [] W1 ltac:(lia)) as H.
  unfold takes, decode_array. rewrite E, E2, C. unfold ends in H. destruct (d_err (arr_loop D true b1 [] x)); [exact H|].
  destruct H as (H1 & H2 & _). split; [exact H1|]. split; [cbn [length]; lia|]. intros p. contradiction.
Qed.
End Loops.

(** * Objects *)
Definition mtail (first : bool) (b r : bytes) : Prop :=
  (exists w, ws w /\ b = w ++ 125 :: r) \/
  (exists w s l, ws w /\ jmembers s l /\ b = (if first then [] else w ++ [44]) ++ s ++ 125 :: r).
(** A key, a colon and white space. *)
Definition key_read (b r : bytes) : Prop := exists w1 k w2 w3, ws w1 /\ string_lit k /\ ws w2 /\ ws w3 /\ b = w1 ++ k ++ w2 ++ 58 :: w3 ++ r.
Lemma member_tail b0 b rest r : key_read b0 b -> value_read b rest -> mtail false rest r -> exists s l, jmembers s l /\ b0 = s ++ 125 :: r.
Proof.
  intros (u1 & k & u2 & u3 & U1 & K & U2 & U3 & ->) (w0 & s & a & w1 & W0 & J & W1 & ->) [(w & W & ->)|(w & s' & l & W & JE & ->)].
  - exists (u1 ++ k ++ u2 ++ 58 :: (u3 ++ w0) ++ s ++ (w1 ++ w)), [(k, a)]. split; [apply M_one, M_intro; auto using ws_app|]. appn. reflexivity.
  - exists ((u1 ++ k ++ u2 ++ 58 :: (u3 ++ w0) ++ s ++ (w1 ++ w)) ++ 44 :: s'), ((k, a) :: l).
    split; [apply M_cons; [apply M_intro; auto using ws_app|exact JE]|]. appn. reflexivity.
Qed.
Lemma mtail_node b r : mtail true b r -> exists s a, jvalue s a /\ 123 :: b = s ++ r.
Proof.
  intros [(w & W & ->)|(w & s & l & W & JE & ->)].
  - exists (123 :: w ++ [125]), (JObj []). split; [constructor; exact W|]. appn. reflexivity.
  - exists (123 :: s ++ [125]), (JObj l). split; [constructor; exact JE|]. appn. reflexivity.
Qed.
Lemma members_ws w s l : ws w -> jmembers s l -> jmembers (w ++ s) l.
Proof.
  intros W H. destruct H as [m kv H|m kv t l H H2]; destruct H as [w1 k w2 w3 s v w4 W1 K W2 W3 J W4].
  - apply M_one. rewrite app_assoc. apply M_intro; auto using ws_app.
  - rewrite app_assoc. apply M_cons; [|exact H2]. rewrite app_assoc. apply M_intro; auto using ws_app.
Qed.

(** What a key decoder may do. *)
Definition key_takes {K} (deck : bytes -> dres K) : Prop := forall b, wf b -> has_null_prefix b = false ->
  match d_err (deck b) with
  | None => wf (d_rest (deck b)) /\ exists k, string_lit k /\ b = k ++ d_rest (deck b)
  | Some e => e <> EFuel
  end.
Lemma obj_key_read {K} (deck : bytes -> dres K) first b : key_takes deck -> wf b ->
  match obj_key deck first b with
  | inl (_, e) => e <> EFuel
  | inr (b', _) => wf b' /\ (length b' < length b)%nat /\ exists b1, b = (if first then [] else [44]) ++ b1 /\ key_read b1 b'
  end.
Proof.
  intros HK W. unfold obj_key. cbv zeta.
  assert (KE : forall r e, e <> EFuel -> let (_, e') := key_error r e in e' <> EFuel).
  { intros r e NE. unfold key_error. destruct r; [discriminate|]. destruct e; congruence || discriminate. }
  assert (KY : forall b, wf b ->
    match (if has_null_prefix b then inl (b, ESyntax) else match d_err (deck b) with
           | Some e => inl (key_error (d_rest (deck b)) e)
           | None => match skip_spaces (d_rest (deck b)) with
                     | [] => inl (skip_spaces (d_rest (deck b)), ESyntax)
                     | c :: b1 => if c =? 58 then inr (skip_spaces b1, d_val (deck b)) else inl (skip_spaces (d_rest (deck b)), ESyntax)
                     end end) with
    | inl (_, e) => e <> EFuel
    | inr (b', _) => wf b' /\ (length b' < length b)%nat /\ key_read b b'
    end).
  { clear b W. intros b W. destruct (has_null_prefix b) eqn:N; [discriminate|]. pose proof (HK b W N) as H.
    destruct (deck b) as [r [e|] k]; cbn [d_err d_rest d_val] in *.
    - pose proof (KE r e H) as H'. destruct (key_error r e). exact H'.
    - destruct H as (Wr & lit & SL & Eb). destruct (skip_read r Wr) as (w & Ww & Er & Ws & Ls). destruct (skip_spaces r) as [|c b1]; [discriminate|].
      destruct (c =? 58) eqn:C; [|discriminate]. apply Z.eqb_eq in C. subst c. apply wf_cons in Ws as [_ Ws].
      destruct (skip_read b1 Ws) as (w2 & Ww2 & Eb1 & Ws1 & Ls1). split; [exact Ws1|]. cbn [length] in Ls. split; [rewrite Eb, app_length; lia|].
      exists [], lit, w, w2. split; [constructor|]. split; [exact SL|]. split; [exact Ww|]. split; [exact Ww2|]. rewrite Eb, Er, Eb1 at 1. reflexivity. }
  destruct first.
  - pose proof (KY b W) as H. destruct (if has_null_prefix b then _ else _) as [[r e]|[b' k]]; [exact H|]. destruct H as (H1 & H2 & H3). split; [exact H1|]. split; [exact H2|].
    exists b. auto.
  - destruct b as [|c b1]; [discriminate|]. destruct (c =? 44) eqn:C; [|discriminate]. apply Z.eqb_eq in C. subst c. apply wf_cons in W as [_ W].
    destruct (skip_read b1 W) as (w & Ww & Eb & Ws & Ls). pose proof (KY (skip_spaces b1) Ws) as H.
    destruct (if has_null_prefix (skip_spaces b1) then _ else _) as [[r e]|[b' k]]; [exact H|]. destruct H as (H1 & H2 & (w1 & k' & w2 & w3 & H3 & H4 & H5 & H6 & H7)). split; [exact H1|].
    split; [cbn [length]; lia|]. exists b1. split; [reflexivity|]. exists (w ++ w1), k', w2, w3. split; [auto using ws_app|]. repeat split; try assumption. rewrite Eb, H7. appn. reflexivity.
Qed.

Section ObjLoops.
Context {K A : Type} (P : Prop) (eqb : K -> K -> bool) (deck : bytes -> dres K) (D : bytes -> A -> dres A) (z : A) (N : nat).
Hypothesis HD : forall b, wf b -> (length b < N)%nat -> takes P D b z.
Hypothesis HK : key_takes deck.

Lemma map_loop_ends inp fresh k : wf inp -> forall first b m, wf b -> (length b < k)%nat -> (length b < N)%nat ->
  ends P (map_loop eqb deck D z inp fresh k first b m) b (mtail first).
Proof.
  intros WI. induction k as [|k IH]; intros first b m W LK LN; [lia|]. cbn [map_loop]. cbv zeta.
  destruct (skip_read b W) as (w & Ww & Eb & Ws & Ls). set (sb := skip_spaces b) in *.
  destruct (match sb with c :: _ => c =? 125 | [] => false end) eqn:C.
  { destruct sb as [|c t]; [discriminate|]. apply Z.eqb_eq in C. subst c. unfold ends. cbn [d_err d_rest tl].
    apply wf_cons in Ws as [_ Ws]. split; [exact Ws|]. cbn [length] in Ls. split; [lia|]. intros _. left. exists w. auto. }
  pose proof (obj_key_read deck first sb HK Ws) as OK. destruct (obj_key deck first sb) as [[r e]|[b2 key]]; [exact OK|].
  destruct OK as (W2 & L2 & b1 & E1 & KR). pose proof (HD b2 W2 ltac:(lia)) as T. unfold takes in T.
  destruct (D b2 z) as [r [e|] y]; cbn [d_err d_rest d_val] in *.
  - destruct (elem_err_nf inp e (if fresh then None else Some m) WI T) as (r' & e' & E & NE). unfold ends. rewrite E. exact NE.
  - destruct T as (Wr & Lr & VR). pose proof (IH false r (map_set eqb key y m) Wr ltac:(lia) ltac:(lia)) as H. unfold ends in *.
    destruct (d_err (map_loop eqb deck D z inp fresh k false r (map_set eqb key y m))); [exact H|]. destruct H as (H1 & H2 & H3). split; [exact H1|]. split; [lia|].
    intros p. destruct (member_tail _ _ _ _ KR (VR p) (H3 p)) as (s & l & JM & E). right. destruct first.
    + exists [], (w ++ s), l. split; [constructor|]. split; [apply members_ws; assumption|]. rewrite Eb, E1, E. appn. reflexivity.
    + exists w, s, l. split; [exact Ww|]. split; [exact JM|]. rewrite Eb, E1, E. appn. reflexivity.
Qed.
Lemma decode_map_takes b x : wf b -> (length b <= N)%nat -> takes P (decode_map eqb deck D z) b x.
Proof.
  intros W L. destruct (has_null_prefix b) eqn:E; [eapply null_takes; [exact W|exact E|unfold decode_map; rewrite E; reflexivity]|].
  destruct (Nat.ltb (length b) 2) eqn:E2; [eapply in_err_takes; [exact W|unfold decode_map; rewrite E, E2; reflexivity]|].
  destruct b as [|c b1]; [discriminate E2|]. destruct (c =? 123) eqn:C; [|eapply in_err_takes; [exact W|unfold decode_map; rewrite E, E2, C; reflexivity]].
  apply Z.eqb_eq in C. subst c. assert (W1 := W). apply wf_cons in W1 as [_ W1]. cbn [length] in L.
  unfold takes, decode_map. rewrite E, E2. change (123 =? 123) with true. cbv iota.
  pose proof (map_loop_ends (123 :: b1) (match x with None => true | _ => false end) (S (length (123 :: b1))) W true b1 (match x with None => [] | Some m => m end) W1 ltac:(cbn [length]; lia) ltac:(lia)) as H.
  unfold ends in H. match type of H with match d_err ?q with _ => _ end => destruct (d_err q) end; [exact H|].
  destruct H as (H1 & H2 & H3). split; [exact H1|]. split; [apply Nat.lt_lt_succ_r, H2|]. intros p. destruct (mtail_node _ _ (H3 p)) as (s & a & J & Es).
  exists [], s, a, []. split; [constructor|]. split; [exact J|]. split; [constructor|exact Es].
Qed.
End ObjLoops.

Section StructLoop.
Context {A : Type} (P : Prop) (look : bytes -> option (bytes -> A -> dres A)) (dis : bool) (N : nat).
Hypothesis HD : forall k D b x, look k = Some D -> wf b -> (length b < N)%nat -> takes P D b x.

Lemma deck_name_takes : key_takes deck_name.
Proof.
  intros b W NN. unfold deck_name. destruct (unquote_cases b W) as [(lit & r & i & SL & E & Q)|(r & Q)]; rewrite Q; cbn [d_err d_rest]; [|discriminate].
  subst b. apply wf_app in W as [_ W]. eauto.
Qed.
Lemma struct_loop_ends inp k : wf inp -> forall first b x, wf b -> (length b < k)%nat -> (length b < N)%nat ->
  ends P (struct_loop look dis inp k first b x) b (mtail first).
Proof.
  intros WI. induction k as [|k IH]; intros first b x W LK LN; [lia|]. cbn [struct_loop]. cbv zeta. fold deck_name.
  destruct (skip_read b W) as (w & Ww & Eb & Ws & Ls). set (sb := skip_spaces b) in *.
  destruct (match sb with c :: _ => c =? 125 | [] => false end) eqn:C.
  { destruct sb as [|c t]; [discriminate|]. apply Z.eqb_eq in C. subst c. unfold ends. cbn [d_err d_rest tl].
    apply wf_cons in Ws as [_ Ws]. split; [exact Ws|]. cbn [length] in Ls. split; [lia|]. intros _. left. exists w. auto. }
  pose proof (obj_key_read deck_name first sb deck_name_takes Ws) as OK. fold deck_name. change (fun b0 : bytes => match parse_string_unquote b0 [] with QOk s q1 _ => DR q1 None s | QErr q2 e => DR q2 (Some e) [] | QPanic => DR b0 (Some EPanicked) [] | QFuel => DR b0 (Some EFuel) [] end) with deck_name.
  destruct (obj_key deck_name first sb) as [[r e]|[b2 key]]; [exact OK|].
  destruct OK as (W2 & L2 & b1 & E1 & KR).
  assert (NEXT : forall r y, wf r -> (length r < length b2)%nat -> (P -> value_read b2 r) -> ends P (struct_loop look dis inp k false r y) b (mtail first)).
  { intros r y Wr Lr VR. pose proof (IH false r y Wr ltac:(lia) ltac:(lia)) as H. unfold ends in *.
    destruct (d_err (struct_loop look dis inp k false r y)); [exact H|]. destruct H as (H1 & H2 & H3). split; [exact H1|]. split; [lia|].
    intros p. destruct (member_tail _ _ _ _ KR (VR p) (H3 p)) as (s & l & JM & E). right. destruct first.
    + exists [], (w ++ s), l. split; [constructor|]. split; [apply members_ws; assumption|]. rewrite Eb, E1, E. appn. reflexivity.
    + exists w, s, l. split; [exact Ww|]. split; [exact JM|]. rewrite Eb, E1, E. appn. reflexivity. }
  destruct (look key) as [D|] eqn:LO.
  - pose proof (HD key D b2 x LO W2 ltac:(lia)) as T. unfold takes in T. destruct (D b2 x) as [r [e|] y]; cbn [d_err d_rest d_val] in *.
    + destruct (elem_err_nf inp e y WI T) as (r' & e' & E & NE). unfold ends. rewrite E. exact NE.
    + destruct T as (Wr & Lr & VR). apply NEXT; assumption.
  - destruct dis; [unfold ends; discriminate|]. pose proof (parse_takes b2 W2) as PT. destruct (parseValue b2) as [v r|r e]; [|subst e; unfold ends; discriminate].
    destruct PT as (Wv & Wr & Lr & E & a & J). apply NEXT; [exact Wr|exact Lr|]. intros _. exists [], v, a, []. split; [constructor|]. split; [exact J|]. split; [constructor|exact E].
Qed.
Lemma decode_struct_takes b x : wf b -> (length b <= N)%nat -> takes P (decode_struct look dis) b x.
Proof.
  intros W L. destruct (has_null_prefix b) eqn:E; [eapply null_takes; [exact W|exact E|unfold decode_struct; rewrite E; reflexivity]|].
  destruct (Nat.ltb (length b) 2) eqn:E2; [eapply in_err_takes; [exact W|unfold decode_struct; rewrite E, E2; reflexivity]|].
  destruct b as [|c b1]; [discriminate E2|]. destruct (c =? 123) eqn:C; [|eapply in_err_takes; [exact W|unfold decode_struct; rewrite E, E2, C; reflexivity]].
  apply Z.eqb_eq in C. subst c. assert (W1 := W). apply wf_cons in W1 as [_ W1]. cbn [length] in L.
  unfold takes, decode_struct. rewrite E, E2. change (123 =? 123) with true. cbv iota.
  pose proof (struct_loop_ends (123 :: b1) (S (length (123 :: b1))) W true b1 x W1 ltac:(cbn [length]; lia) ltac:(lia)) as H.
  unfold ends in H. match type of H with match d_err ?q with _ => _ end => destruct (d_err q) end; [exact H|].
  destruct H as (H1 & H2 & H3). split; [exact H1|]. split; [apply Nat.lt_lt_succ_r, H2|]. intros p. destruct (mtail_node _ _ (H3 p)) as (s & a & J & Es).
  exists [], s, a, []. split; [constructor|]. split; [exact J|]. split; [constructor|exact Es].
Qed.
End StructLoop.

Lemma takes_imp {A} (P P' : Prop) (D : bytes -> A -> dres A) b x : (P' -> P) -> takes P D b x -> takes P' D b x.
Proof. unfold takes. destruct (d_err (D b x)); [auto|]. intros H (H1 & H2 & H3). auto. Qed.

(** * Types *)
(** No fixed-size array in the type itself. *)
Fixpoint flat (t : gty) : Prop :=
  match t with
  | YArray _ _ => False
  | YSlice e | YMap _ e | YPtr e => flat e
  | _ => True
  end.
(** ... nor in a field of a struct. *)
Definition no_arrays (V : tenv) (t : gty) : Prop := flat t /\ forall i f, In f (v_flds V i) -> flat (jf_ty f).

Section Types.
Context (V : tenv) (F : dflags) (OK : env_ok V).
Notation dec_ty := (dec_ty V F).

Lemma key_takes_all k : key_takes (decode_key V k).
Proof.
  intros b W NN. destruct k as [|it|u]; cbn [decode_key].
  - unfold decode_string. rewrite NN. destruct (unquote_cases b W) as [(lit & r & i & SL & E & Q)|(r & Q)]; rewrite Q.
    + cbn [d_map d_err d_rest]. subst b. apply wf_app in W as [_ W]. eauto.
    + destruct (in_err_wf (A:=bytes) b [] W) as (r' & e & E & NE). destruct b as [|c b]; [discriminate|]. destruct (c =? 34); [discriminate|rewrite E; exact NE].
  - unfold decode_from_string. rewrite NN. destruct (unquote_cases b W) as [(lit & r & i & SL & E & Q)|(r & Q)]; rewrite Q; [|discriminate].
    cbv zeta. pose proof (int_reads it (str_text lit) 0 (str_text_wf lit SL)) as R. unfold reads in R.
    destruct (decode_int it (str_text lit) 0) as [u [e|] y]; cbn [d_err d_rest d_val] in *; [exact R|].
    destruct (skip_spaces u); cbn [d_map d_err d_rest]; [|discriminate]. subst b. apply wf_app in W as [_ W]. eauto.
  - unfold decode_text_user. pose proof (parse_takes b W) as PT. destruct (parseValue b) as [v r|r e] eqn:PV; [|subst e; discriminate].
    destruct PT as (Wv & Wr & Lr & E & a & J). destruct (rv_null v) eqn:RN.
    { exfalso. destruct J; cbn [rv_null bs] in RN; try discriminate RN.
      - assert (X : has_null_prefix b = true) by (apply has_prefix_iff; eexists; exact E). congruence.
      - destruct (number_head s H) as (c & t & -> & Hc). cbn in RN. apply Z.eqb_eq in RN. lia.
      - destruct H as (body & -> & _). discriminate RN. }
    destruct (rv_string v) eqn:RS; [|discriminate].
    destruct (unquote_cases v Wv) as [(lit & r0 & i & SL & E0 & Q)|(r0 & Q)]; rewrite Q; [|discriminate].
    destruct (v_text V u (str_text lit) []) as [[e|] y] eqn:E2; cbn [d_map d_err d_rest]; [eapply ok_text; eassumption|]. split; [exact Wr|].
    exists v. split; [|exact E]. destruct J; cbn in RS; try discriminate RS; [|exact H].
    destruct (number_head s H) as (c & t & -> & Hc). cbn in RS. apply Z.eqb_eq in RS. lia.
Qed.
Lemma bytes_takes P b x : wf b -> takes P (decode_bytes V) b x.
Proof.
  intros W. destruct (has_null_prefix b) eqn:E; [eapply null_takes; [exact W|exact E|unfold decode_bytes; rewrite E; reflexivity]|].
  destruct (Nat.ltb (length b) 2) eqn:E2; [eapply in_err_takes; [exact W|unfold decode_bytes; rewrite E, E2; reflexivity]|].
  destruct b as [|c b1]; [discriminate E2|]. destruct (c =? 34) eqn:C.
  - destruct (unquote_cases (c :: b1) W) as [(lit & r & i & SL & Eb & Q)|(r & Q)].
    + destruct (v_b64 V (str_text lit)) as [v|] eqn:B.
      * eapply value_takes; [exact W|exact Eb|apply V_str, SL|]. unfold decode_bytes. rewrite E, E2, C, Q, B. reflexivity.
      * eapply err_takes; [unfold decode_bytes; rewrite E, E2, C, Q, B; reflexivity|discriminate].
    + eapply in_err_takes; [exact W|unfold decode_bytes; rewrite E, E2, C, Q; reflexivity].
  - destruct (c =? 91) eqn:C2.
    + eapply (same_takes P (decode_slice (decode_int TUint8) 0)); [unfold decode_bytes; rewrite E, E2, C, C2; reflexivity|].
      apply (decode_slice_takes P (decode_int TUint8) (length (c :: b1))); [|exact W|lia]. intros b' x' W' _. apply reads_takes; [exact W'|apply int_reads, W'].
    + eapply in_err_takes; [exact W|unfold decode_bytes; rewrite E, E2, C, C2; reflexivity].
Qed.
Lemma type_error_takes P (D : bytes -> mem -> dres mem) b x y : wf b -> D b x = decode_type_error b y -> takes P D b x.
Proof.
  intros W E. pose proof (parse_takes b W) as PT. unfold decode_type_error in E.
  destruct (parseValue b); (eapply err_takes; [exact E|]); [discriminate|]. subst e. discriminate.
Qed.
Lemma path_takes P D p b : (forall x, takes P D b x) -> forall m, takes P (on_path V p D) b m.
Proof.
  intros HD. induction p as [|[i|i s un] p IH]; intros m; [apply HD| |].
  - destruct m; try (eapply err_takes; [reflexivity|discriminate]). destruct (nth_error l i) as [x|] eqn:E.
    + eapply (map_takes P (on_path V p D)); [cbn [on_path]; rewrite E; reflexivity|apply IH].
    + eapply err_takes; [cbn [on_path]; rewrite E; reflexivity|discriminate].
  - destruct m; try (eapply err_takes; [reflexivity|discriminate]). destruct (nth_error l i) as [x|] eqn:E.
    + destruct x; try (eapply err_takes; [cbn [on_path]; rewrite E; reflexivity|discriminate]). destruct p0 as [x|]; [|destruct un].
      * eapply (map_takes P (on_path V p D)); [cbn [on_path]; rewrite E; reflexivity|apply IH].
      * eapply err_takes; [cbn [on_path]; rewrite E; reflexivity|discriminate].
      * eapply (map_takes P (on_path V p D)); [cbn [on_path]; rewrite E; reflexivity|apply IH].
    + eapply err_takes; [cbn [on_path]; rewrite E; reflexivity|discriminate].
Qed.
Lemma from_string_takes P (D : bytes -> mem -> dres mem) b x : wf b -> (forall b, wf b -> reads D b x) -> takes P (decode_from_string D) b x.
Proof.
  intros W HR. destruct (has_null_prefix b) eqn:E.
  { eapply (same_takes P D); [unfold decode_from_string; rewrite E; reflexivity|]. apply reads_takes; auto. }
  destruct (unquote_cases b W) as [(lit & r & i & SL & Eb & Q)|(r & Q)].
  - pose proof (HR (str_text lit) (str_text_wf lit SL)) as R. unfold reads in R. destruct (D (str_text lit) x) as [u [e|] y] eqn:ED; cbn [d_err d_rest] in R.
    + eapply err_takes; [unfold decode_from_string; rewrite E, Q, ED; reflexivity|exact R].
    + destruct (skip_spaces u) eqn:SU.
      * eapply value_takes; [exact W|exact Eb|apply V_str, SL|]. unfold decode_from_string. rewrite E, Q, ED. cbn [d_err d_rest d_val]. rewrite SU. reflexivity.
      * eapply err_takes; [unfold decode_from_string; rewrite E, Q, ED; cbn [d_err d_rest d_val]; rewrite SU; reflexivity|discriminate].
  - eapply err_takes; [unfold decode_from_string; rewrite E, Q; reflexivity|discriminate].
Qed.
Lemma from_string_int_takes P pf (D : bytes -> mem -> dres mem) b x : wf b -> (forall b, wf b -> reads D b x) -> takes P (decode_from_string_int pf D) b x.
Proof.
  intros W HR. destruct (has_null_prefix b) eqn:E.
  { eapply (same_takes P D); [unfold decode_from_string_int; rewrite E; reflexivity|]. apply reads_takes; auto. }
  unfold takes, decode_from_string_int. rewrite E. cbv zeta.
  set (q := match parse_string_unquote b [] with QOk _ _ _ => _ | _ => _ end).
  assert (TQ : match d_err q with None => wf (d_rest q) /\ (length (d_rest q) < length b)%nat /\ (P -> value_read b (d_rest q)) | Some e => e <> EFuel end).
  { unfold q. destruct (unquote_cases b W) as [(lit & r & i & SL & Eb & Q)|(r & Q)]; rewrite Q; [|discriminate].
    pose proof (HR (strip_zeroes (str_text lit)) (strip_wf _ (str_text_wf lit SL))) as R. unfold reads in R.
    destruct (D (strip_zeroes (str_text lit)) x) as [u [e|] y] eqn:ED; cbn [d_err d_rest d_val] in *.
    - destruct e; cbn [d_err]; repeat match goal with |- match ?z with _ => _ end <> _ => destruct z end; congruence || discriminate.
    - destruct u; cbn [d_err d_rest]; [|discriminate].
      pose proof (value_takes P (fun _ _ => DR r None x) b x lit (JStr lit) r x W Eb (V_str lit SL) eq_refl) as T. exact T. }
  destruct b as [|c b1]; [exact TQ|]. destruct (c =? 34); cbn [negb].
  - destruct b1 as [|c1 b2]; [exact TQ|]. destruct (c1 =? 34); [discriminate|exact TQ].
  - destruct (parse_number (c :: b1)); [|discriminate]. destruct (existsb _ v); [|discriminate]. destruct (pf v); discriminate.
Qed.

Lemma no_arrays_imp t t' : (flat t -> flat t') -> no_arrays V t -> no_arrays V t'.
Proof. intros H [H1 H2]. split; auto. Qed.
Lemma ptr_takes P n e b x : wf b -> (forall x, takes P (dec_ty n e) b x) -> takes P (dec_ty n (YPtr e)) b x.
Proof.
  intros W H. destruct x; try (eapply err_takes; [rewrite dec_ty_eq; reflexivity|discriminate]). destruct (has_null_prefix b) eqn:N.
  - assert (C : (forall (A : Type) (f : mem -> A) (g : A), match p, e with Some x, YPtr _ => f x | _, _ => g end = g) \/ exists x e', p = Some x /\ e = YPtr e') by (destruct p, e; eauto).
    destruct C as [C|(x & e' & -> & ->)].
    + eapply null_takes; [exact W|exact N|rewrite dec_ty_eq, N, C; reflexivity].
    + eapply (map_takes P (dec_ty n (YPtr e'))); [rewrite dec_ty_eq, N; reflexivity|apply H].
  - eapply (map_takes P (dec_ty n e)); [rewrite dec_ty_eq, N; reflexivity|apply H].
Qed.

Lemma dec_ty_takes n : forall t b x, wf b -> (length b < n)%nat -> takes (no_arrays V t) (dec_ty n t) b x.
Proof.
  induction n as [|n IHn]; [intros; lia|].
  induction t; intros b x W L; (destruct x; try (eapply err_takes; [rewrite dec_ty_eq; reflexivity|discriminate])).
  - eapply (map_takes _ decode_bool); [rewrite dec_ty_eq; reflexivity|apply reads_takes; [exact W|apply bool_reads, W]].
  - eapply (map_takes _ (decode_int t)); [rewrite dec_ty_eq; reflexivity|apply reads_takes; [exact W|apply int_reads, W]].
  - eapply (map_takes _ (decode_float _)); [rewrite dec_ty_eq; reflexivity|apply reads_takes; [exact W|apply float_reads, W]].
  - eapply (map_takes _ decode_number); [rewrite dec_ty_eq; reflexivity|apply reads_takes; [exact W|apply number_reads, W]].
  - eapply (map_takes _ decode_string); [rewrite dec_ty_eq; reflexivity|apply reads_takes; [exact W|apply string_reads, W]].
  - eapply (map_takes _ (decode_bytes V)); [rewrite dec_ty_eq; reflexivity|apply bytes_takes, W].
  - eapply (map_takes _ (decode_duration V)); [rewrite dec_ty_eq; reflexivity|apply reads_takes; [exact W|apply duration_reads; assumption]].
  - eapply (map_takes _ (decode_time V)); [rewrite dec_ty_eq; reflexivity|apply reads_takes; [exact W|apply time_reads; assumption]].
  - eapply (map_takes _ (decode_interface _ _)); [rewrite dec_ty_eq; reflexivity|apply iface_takes, W].
  - (* named interfaces *)
    destruct (has_null_prefix b) eqn:N; [eapply null_takes; [exact W|exact N|rewrite dec_ty_eq, N; reflexivity]|].
    assert (C : (empty = true /\ v = JVNull) \/ (forall A (f g : A), (match v with JVNull => if empty then f else g | _ => g end) = g)) by (destruct empty, v; auto).
    destruct C as [[-> ->]|C].
    + set (di := decode_interface (d_usenum F) (v_float V true)). destruct (skip_read b W) as (w & Ww & Eb & Ws & Ls).
      pose proof (iface_takes (d_usenum F) (v_float V true) True (skip_spaces b) JVNull Ws) as T. fold di in T. unfold takes in T.
      unfold takes. rewrite dec_ty_eq, N. fold di. unfold parse_with. cbv zeta. destruct (di (skip_spaces b) JVNull) as [r [e|] y]; cbn [d_map d_err d_rest d_val] in *; [exact T|].
      destruct T as (Wr & Lr & VR). destruct (skip_read r Wr) as (w2 & Ww2 & Er & Wsr & Lsr). split; [exact Wsr|]. split; [lia|]. intros _.
      destruct (VR I) as (w0 & s & a & w1 & W0 & J & W1 & E). exists (w ++ w0), s, a, (w1 ++ w2). split; [auto using ws_app|]. split; [exact J|]. split; [auto using ws_app|].
      rewrite Eb, E, Er at 1. appn. reflexivity.
    + eapply type_error_takes; [exact W|]. rewrite dec_ty_eq, N. apply C.
  - eapply (map_takes _ decode_raw); [rewrite dec_ty_eq; reflexivity|apply reads_takes; [exact W|apply raw_reads, W]].
  - (* arrays *)
    destruct (Nat.eqb (length l) n0) eqn:EL; [|eapply err_takes; [rewrite dec_ty_eq, EL; reflexivity|discriminate]].
    eapply (map_takes _ (decode_array (dec_ty (S n) t))); [rewrite dec_ty_eq, EL; reflexivity|].
    apply (takes_imp False); [intros [H _]; exact H|]. apply (decode_array_takes False _ (length b)); [|exact W|lia|auto].
    intros b' x' W' L'. eapply takes_imp; [|apply IHt; [exact W'|lia]]. contradiction.
  - eapply (map_takes _ (decode_slice (dec_ty (S n) t) (zero V t))); [rewrite dec_ty_eq; reflexivity|].
    apply (decode_slice_takes _ _ (length b)); [|exact W|lia]. intros b' x' W' L'. apply IHt; [exact W'|lia].
  - eapply (map_takes _ (decode_map mkey_eqb (decode_key V k) (dec_ty (S n) t) (zero V t))); [rewrite dec_ty_eq; reflexivity|].
    apply (decode_map_takes _ _ _ _ _ (length b)); [|apply key_takes_all|exact W|lia]. intros b' W' L'. apply IHt; [exact W'|lia].
  - eapply (map_takes _ (decode_map mkey_eqb (decode_key V KYString) _ _)); [rewrite dec_ty_eq; reflexivity|].
    apply (decode_map_takes _ _ _ _ _ (length b)); [|apply key_takes_all|exact W|lia]. intros b' W' L'.
    eapply (map_takes _ (decode_interface _ _)); [reflexivity|apply iface_takes, W'].
  - eapply (map_takes _ (decode_map mkey_eqb (decode_key V KYString) _ _)); [rewrite dec_ty_eq; reflexivity|].
    apply (decode_map_takes _ _ _ _ _ (length b)); [|apply key_takes_all|exact W|lia]. intros b' W' L'.
    eapply (map_takes _ decode_raw); [reflexivity|apply reads_takes; [exact W'|apply raw_reads, W']].
  - apply ptr_takes; [exact W|]. intros x. apply IHt; assumption.
  - (* structs *)
    eapply (same_takes _ (decode_struct _ _)); [rewrite dec_ty_eq; reflexivity|].
    apply (decode_struct_takes _ _ _ (length b)); [|exact W|lia]. intros k D b' x' LO W' L'.
    destruct (find_field V F (v_flds V i) k) as [f|] eqn:FF; [|discriminate]. injection LO as <-.
    assert (IN : In f (v_flds V i)).
    { unfold find_field in FF. destruct (find _ (rev _)) eqn:E1.
      - injection FF as ->. apply find_some in E1 as [E1 _]. apply in_rev, E1.
      - destruct (d_nocase F); [discriminate|]. apply find_some in FF as [E2 _]. exact E2. }
    apply path_takes. intros y. unfold decode_field. destruct (jf_quot f) eqn:Q.
    + eapply takes_imp; [|apply IHn; [exact W'|lia]]. intros [H1 H2]. split; [apply (H2 i), IN|exact H2].
    + apply from_string_takes; [exact W'|]. intros b2 W2. apply quotable_reads; [exact OK| |exact W2]. eapply (ok_quot V OK); [exact IN|congruence].
    + apply from_string_int_takes; [exact W'|]. intros b2 W2. apply quotable_reads; [exact OK| |exact W2]. eapply (ok_quot V OK); [exact IN|congruence].
  - eapply (map_takes _ (decode_json_user V u)); [rewrite dec_ty_eq; reflexivity|apply reads_takes; [exact W|apply json_reads; assumption]].
  - eapply (map_takes _ (decode_text_user V u)); [rewrite dec_ty_eq; reflexivity|apply reads_takes; [exact W|apply text_reads; assumption]].
  - eapply type_error_takes; [exact W|]. rewrite dec_ty_eq. reflexivity.
Qed.
End Types.
