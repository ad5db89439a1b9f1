(** Decoding keeps memory well typed, on any input, also when it fails. *)
From Verif Require Import Bytes AsciiModel Utf8Model ParseModel IntModel StringModel EncModel DecModel
  SpecJson SpecString SpecDec ParseFacts Utf8Facts StringFacts IntFacts DecLoops DecFacts TypeModel SpecType SpecFit NodeFacts TypeLoops TypeFacts TypeMain TypeSound.

Definition safe {A} (Q : A -> Prop) (D : bytes -> A -> dres A) (b : bytes) (x : A) : Prop :=
  Q (d_val (D b x)) /\ d_err (D b x) <> Some EPanicked.

Lemma in_err_safe {A} (Q : A -> Prop) (D : bytes -> A -> dres A) b x y : wf b -> D b x = in_err b y -> Q y -> safe Q D b x.
Proof.
  intros W E H. unfold safe. rewrite E. unfold in_err, input_error. destruct b as [|c b]; [split; [exact H|discriminate]|].
  destruct (parseValue (c :: b)) as [v r|r e] eqn:P; (split; [exact H|]); [discriminate|]. apply parseValue_err in P; [|exact W]. subst e. discriminate.
Qed.
Lemma val_safe {A} (Q : A -> Prop) (D : bytes -> A -> dres A) b x r o y : D b x = DR r o y -> Q y -> o <> Some EPanicked -> safe Q D b x.
Proof. intros E H N. unfold safe. rewrite E. auto. Qed.
Lemma map_safe {A B} (Q : A -> Prop) (Q' : B -> Prop) (D : bytes -> A -> dres A) (D' : bytes -> B -> dres B) (f : A -> B) b x y :
  D' b y = d_map f (D b x) -> (forall z, Q z -> Q' (f z)) -> safe Q D b x -> safe Q' D' b y.
Proof. intros E H [H1 H2]. unfold safe. rewrite E. split; [apply H, H1|exact H2]. Qed.
Lemma same_safe {A} (Q : A -> Prop) (D D' : bytes -> A -> dres A) b x y : D' b y = D b x -> safe Q D b x -> safe Q D' b y.
Proof. intros E. unfold safe. rewrite E. auto. Qed.
Lemma safe_imp {A} (Q Q' : A -> Prop) (D : bytes -> A -> dres A) b x : (forall z, Q z -> Q' z) -> safe Q D b x -> safe Q' D b x.
Proof. intros H [H1 H2]. split; auto. Qed.
Lemma elem_err_np {A} inp e (x : A) : wf inp -> e <> EPanicked -> d_val (elem_err inp e x) = x /\ d_err (elem_err inp e x) <> Some EPanicked.
Proof.
  intros W NE. unfold elem_err. destruct (parseValue inp) as [v r|r e2] eqn:E; (split; [reflexivity|]); cbn [d_err]; [congruence|].
  apply parseValue_err in E; [|exact W]. subst e2. discriminate.
Qed.

(** * Leaves *)
Lemma bool_safe b x : wf b -> safe (fun _ => True) decode_bool b x.
Proof.
  intros W. unfold safe, decode_bool. destruct (has_true_prefix b); [split; [exact I|discriminate]|]. destruct (has_false_prefix b); [split; [exact I|discriminate]|].
  destruct (has_null_prefix b); [split; [exact I|discriminate]|]. apply (in_err_safe (fun _ => True) (fun b x => in_err b x) b x x W eq_refl I).
Qed.
Lemma int_safe it b x : wf b -> ity_lo it <= x <= ity_hi it -> safe (fun z => ity_lo it <= z <= ity_hi it) (decode_int it) b x.
Proof.
  intros W H. split.
  - destruct (decode_int_stores it b x) as [->|(_ & s & _ & _ & _ & R)]; assumption.
  - unfold decode_int. destruct (has_null_prefix b); [discriminate|]. fold (parse_sint it b).
    destruct (parse_sint it b) as [v r|r e] eqn:E; [destruct (out_of_range it v); discriminate|]. cbn [d_err].
    apply sint_err in E. pose proof (in_err_safe (fun _ => True) (fun b x => in_err b x) b x x W eq_refl I) as [_ N]. unfold in_err in N.
    destruct (input_error b). cbn [snd d_err] in *. destruct E as [->|[->| ->]]; try discriminate. exact N.
Qed.
Lemma float_safe pf b x : wf b -> safe (fun _ => True) (decode_float pf) b x.
Proof.
  intros W. unfold safe, decode_float. destruct (has_null_prefix b); [split; [exact I|discriminate]|].
  destruct (parse_number b); [destruct (pf v); [split; [exact I|discriminate]|]|]; apply (in_err_safe (fun _ => True) (fun b x => in_err b x) b x x W eq_refl I).
Qed.
Lemma number_safe b x : wf b -> safe (fun _ => True) decode_number b x.
Proof.
  intros W. unfold safe, decode_number. destruct (has_null_prefix b); [split; [exact I|discriminate]|].
  destruct (parse_number b); [split; [exact I|discriminate]|]. apply (in_err_safe (fun _ => True) (fun b x => in_err b x) b x x W eq_refl I).
Qed.
Lemma string_safe b x : wf b -> safe (fun _ => True) decode_string b x.
Proof.
  intros W. unfold safe, decode_string. destruct (has_null_prefix b); [split; [exact I|discriminate]|].
  destruct (unquote_cases b W) as [(lit & r & i & SL & E & Q)|(r & Q)]; rewrite Q; [split; [exact I|discriminate]|].
  destruct b as [|c b]; [split; [exact I|discriminate]|]. destruct (c =? 34); [split; [exact I|discriminate]|]. apply (in_err_safe (fun _ => True) (fun b x => in_err b x) (c :: b) x x W eq_refl I).
Qed.
Lemma quoted_safe {A} (Q : A -> Prop) (prs : bytes -> option A) b x : wf b -> (forall t z, prs t = Some z -> Q z) -> Q x -> safe Q (decode_quoted prs) b x.
Proof.
  intros W HP HQ. unfold safe, decode_quoted.
  assert (IE : Q (d_val (in_err b x)) /\ d_err (in_err b x) <> Some EPanicked) by exact (in_err_safe Q (fun b x => in_err b x) b x x W eq_refl HQ).
  destruct (Nat.ltb (length b) 2); [exact IE|]. destruct b as [|c b1]; [exact IE|]. destruct (negb (c =? 34)); [exact IE|].
  destruct (index_byte 34 b1); [|exact IE]. destruct (prs (firstn n b1)) eqn:P; [|exact IE]. split; [eapply HP, P|discriminate].
Qed.
Lemma raw_safe b x : wf b -> safe (fun _ => True) decode_raw b x.
Proof.
  intros W. unfold safe, decode_raw. destruct (parseValue b); [split; [exact I|discriminate]|]. apply (in_err_safe (fun _ => True) (fun b x => in_err b x) b x x W eq_refl I).
Qed.
Lemma iface_safe un pf b x : wf b -> safe (fun _ => True) (decode_interface un pf) b x.
Proof.
  intros W. split; [exact I|]. pose proof (parse_takes b W) as PT. unfold decode_interface. destruct (parseValue b) as [v r|r e] eqn:E.
  - destruct PT as (Wv & Wr & L & Eb & a & J). pose proof (parseValue_complete v a [] J I) as P2. rewrite app_nil_r in P2.
    destruct (iface_split un pf (length b) b v r x E P2) as (o & y & E3 & E4).
    assert (E5 := dec_iface_ok un pf (S (length b)) v a [] x J). rewrite app_nil_r in E5.
    assert (LV : (length v < S (length b))%nat) by (subst b; rewrite app_length; lia).
    rewrite E3. cbn [d_err]. intros ->. rewrite E4 in E5. specialize (E5 ltac:(lia) (fun _ => I)). destruct (jden un pf a); discriminate.
  - subst e. cbn [dec_iface]. rewrite E. discriminate.
Qed.

(** * Loops *)
Section Loops.
Context {A : Type} (Q : A -> Prop) (D : bytes -> A -> dres A) (z : A) (N : nat).
Hypothesis HZ : Q z.
Hypothesis HT : forall b x, wf b -> (length b < N)%nat -> takes False D b x.
Hypothesis HD : forall b x, wf b -> (length b < N)%nat -> Q x -> safe Q D b x.

Lemma set_nth_len {B} i (x : B) l : (i < length l)%nat -> length (set_nth i x l) = length l.
Proof. intros H. unfold set_nth. rewrite app_length, firstn_length. cbn [length]. rewrite skipn_length. lia. Qed.
Lemma set_nth_all {B} (R : B -> Prop) i x l : Forall R l -> R x -> Forall R (set_nth i x l).
Proof.
  intros H X. unfold set_nth. apply Forall_app. rewrite Forall_forall in H. split; [|constructor; [exact X|]]; apply Forall_forall; intros y Y; apply H.
  - rewrite <- (firstn_skipn i l). apply in_or_app. auto.
  - rewrite <- (firstn_skipn (S i) l). apply in_or_app. auto.
Qed.
Definition now_ok (len : nat) (data : option (list A)) : Prop :=
  match data with None => len = 0%nat | Some d => (len <= length d)%nat /\ Forall Q d end.
Lemma slice_loop_safe inp k : wf inp -> forall b len data, wf b -> (length b < N)%nat -> now_ok len data ->
  sl_ok Q (d_val (slice_loop D z inp k b len data)) /\ d_err (slice_loop D z inp k b len data) <> Some EPanicked.
Proof.
  intros WI. induction k as [|k IH]; intros b len data W LN NO.
  { cbn [slice_loop d_val d_err]. split; [destruct data; [exact NO|exact I]|discriminate]. }
  cbn [slice_loop]. cbv zeta. destruct (skip_read b W) as (w & Ww & Eb & Ws & Ls). set (sb := skip_spaces b) in *.
  set (d0 := match data with None => [] | Some d => d end).
  assert (NO' : (len <= length d0)%nat /\ Forall Q d0) by (unfold d0; destruct data; [exact NO|cbn in NO; subst len; split; [apply Nat.le_0_l|constructor]]).
  set (dd := if Nat.eqb len (length d0) then grow z d0 else d0).
  assert (ND : (len < length dd)%nat /\ Forall Q dd).
  { unfold dd. destruct NO' as [H1 H2]. destruct (Nat.eqb len (length d0)) eqn:E.
    - unfold grow. rewrite app_length, repeat_length. apply Nat.eqb_eq in E. split; [destruct d0; cbn [length] in *; lia|].
      apply Forall_app. split; [exact H2|]. apply Forall_forall. intros y Y. apply repeat_spec in Y. subst y. exact HZ.
    - apply Nat.eqb_neq in E. split; [lia|exact H2]. }
  destruct ND as [ND1 ND2].
  destruct (match sb with c :: _ => c =? 93 | [] => false end); [split; [exact NO'|discriminate]|].
  assert (EL : forall b2, wf b2 -> (length b2 <= length b)%nat ->
    let r := match d_err (D b2 (nth len dd z)) with
    | None => slice_loop D z inp k (d_rest (D b2 (nth len dd z))) (S len) (Some (set_nth len (d_val (D b2 (nth len dd z))) dd))
    | Some e => elem_err inp e (Some (len, set_nth len (d_val (D b2 (nth len dd z))) dd)) end in
    sl_ok Q (d_val r) /\ d_err r <> Some EPanicked).
  { intros b2 W2 L2. set (x := nth len dd z). assert (Qx : Q x) by (apply Forall_nth; assumption).
    pose proof (HT b2 x W2 ltac:(lia)) as T. pose proof (HD b2 x W2 ltac:(lia) Qx) as [S1 S2]. unfold takes in T.
    destruct (D b2 x) as [r [e|] y]; cbn [d_err d_rest d_val] in *; cbv zeta.
    - destruct (elem_err_np inp e (Some (len, set_nth len y dd)) WI ltac:(congruence)) as [-> H]. split; [|exact H].
      cbn [sl_ok]. rewrite set_nth_len by exact ND1. split; [lia|apply set_nth_all; assumption].
    - destruct T as (Wr & Lr & _). apply IH; [exact Wr|lia|]. cbn [now_ok]. rewrite set_nth_len by exact ND1. split; [lia|apply set_nth_all; assumption]. }
  assert (NW : forall e, e <> EPanicked -> let r := DR sb (Some e) (match data with None => None | Some d => Some (len, d) end) in sl_ok Q (d_val r) /\ d_err r <> Some EPanicked).
  { intros e NE. cbn. split; [destruct data; [exact NO|exact I]|congruence]. }
  destruct (Nat.eqb len 0); [exact (EL sb Ws Ls)|]. destruct sb as [|c b1]; [apply NW; discriminate|]. destruct (c =? 44); [|apply NW; discriminate].
  apply wf_cons in Ws as [_ Ws]. destruct (skip_read b1 Ws) as (w2 & Ww2 & Eb1 & Ws1 & Ls1). cbn [length] in Ls. apply (EL (skip_spaces b1) Ws1). lia.
Qed.
Lemma decode_slice_safe b x : wf b -> (length b <= N)%nat -> sl_ok Q x -> safe (sl_ok Q) (decode_slice D z) b x.
Proof.
  intros W L H. assert (IE := in_err_safe (sl_ok Q) (fun b x => in_err b x) b x x W eq_refl H). unfold safe, decode_slice in *.
  destruct (has_null_prefix b); [split; [exact I|discriminate]|]. destruct (Nat.ltb (length b) 2); [exact IE|]. destruct b as [|c b1]; [exact IE|].
  destruct (c =? 91); [|exact IE]. assert (W1 := W). apply wf_cons in W1 as [_ W1]. cbn [length] in L. apply slice_loop_safe; [exact W|exact W1|lia|].
  destruct x as [[len d]|]; cbn [option_map snd now_ok]; [|reflexivity]. destruct H. split; [apply Nat.le_0_l|assumption].
Qed.

Lemma arr_loop_safe todo : forall first b done, wf b -> (length b < N)%nat -> Forall Q done -> Forall Q todo ->
  let r := arr_loop D first b done todo in
  (length (d_val r) = (length done + length todo)%nat /\ Forall Q (d_val r)) /\ d_err r <> Some EPanicked.
Proof.
  induction todo as [|x todo IH]; intros first b done W L HD1 HT1; cbn [arr_loop].
  - assert (NP : forall k b, wf b -> snd (array_skip k b) <> Some EPanicked).
    { clear -HT. induction k as [|k IH]; intros b W; [discriminate|]. cbn [array_skip]. destruct (skip_read b W) as (w & Ww & Eb & Ws & Ls).
      destruct (skip_spaces b) as [|c b1]; [discriminate|]. destruct (c =? 93); [discriminate|].
      assert (W2 : wf (if c =? 44 then skip_spaces b1 else c :: b1)) by (destruct (c =? 44); [apply wf_skip_spaces; apply wf_cons in Ws; tauto|exact Ws]).
      pose proof (parse_takes _ W2) as PT. cbv zeta. destruct (parseValue (if c =? 44 then skip_spaces b1 else c :: b1)); [apply IH; tauto|]. subst e. discriminate. }
    specialize (NP (S (length b)) b W). destruct (array_skip (S (length b)) b) as [r e]. cbn [d_val d_err snd length] in *. rewrite Nat.add_0_r. auto.
  - cbv zeta. inversion HT1 as [|? ? Qx HT2]; subst. destruct (skip_read b W) as (w & Ww & Eb & Ws & Ls). set (sb := skip_spaces b) in *.
    assert (EL : forall b2, wf b2 -> (length b2 <= length b)%nat ->
      let r := match d_err (D b2 x) with None => arr_loop D false (d_rest (D b2 x)) (done ++ [d_val (D b2 x)]) todo
               | Some e => DR (d_rest (D b2 x)) (Some e) (done ++ d_val (D b2 x) :: todo) end in
      (length (d_val r) = (length done + length (x :: todo))%nat /\ Forall Q (d_val r)) /\ d_err r <> Some EPanicked).
    { intros b2 W2 L2. pose proof (HT b2 x W2 ltac:(lia)) as T. pose proof (HD b2 x W2 ltac:(lia) Qx) as [S1 S2]. unfold takes in T.
      destruct (D b2 x) as [r [e|] y]; cbn [d_err d_rest d_val] in *; cbv zeta.
      - split; [|exact S2]. rewrite app_length. split; [reflexivity|]. apply Forall_app. auto.
      - destruct T as (Wr & Lr & _). destruct (IH false r (done ++ [y]) Wr ltac:(lia) ltac:(apply Forall_app; auto) HT2) as [[H1 H2] H3].
        split; [|exact H3]. split; [rewrite H1, app_length; cbn [length]; lia|exact H2]. }
    assert (DT : length (done ++ x :: todo) = (length done + length (x :: todo))%nat /\ Forall Q (done ++ x :: todo)) by (rewrite app_length; split; [reflexivity|apply Forall_app; auto]).
    destruct first; [exact (EL sb Ws Ls)|]. destruct sb as [|c b1]; [split; [exact DT|discriminate]|]. apply wf_cons in Ws as [_ Ws]. cbn [length] in Ls.
    destruct (c =? 44).
    + destruct (skip_read b1 Ws) as (w2 & _ & _ & Ws1 & Ls1). apply (EL (skip_spaces b1) Ws1). lia.
    + destruct (c =? 93); (split; [exact DT|discriminate]).
Qed.
Lemma decode_array_safe b x n : wf b -> (length b <= N)%nat -> length x = n -> Forall Q x ->
  safe (fun y => length y = n /\ Forall Q y) (decode_array D) b x.
Proof.
  intros W L E H. assert (IE := in_err_safe (fun y => length y = n /\ Forall Q y) (fun b x => in_err b x) b x x W eq_refl (conj E H)). unfold safe, decode_array in *.
  destruct (has_null_prefix b); [split; [auto|discriminate]|]. destruct (Nat.ltb (length b) 2); [exact IE|]. destruct b as [|c b1]; [exact IE|].
  destruct (c =? 91); [|exact IE]. assert (W1 := W). apply wf_cons in W1 as [_ W1]. cbn [length] in L.
  destruct (arr_loop_safe x true b1 [] W1 ltac:(lia) ltac:(constructor) H) as [[H1 H2] H3]. cbn [length Nat.add] in H1. split; [split; [congruence|exact H2]|exact H3].
Qed.
End Loops.

Lemma obj_key_np {K} (KQ : K -> Prop) (deck : bytes -> dres K) first b :
  (forall b, wf b -> has_null_prefix b = false -> KQ (d_val (deck b)) /\ d_err (deck b) <> Some EPanicked) -> wf b ->
  match obj_key deck first b with inl (_, e) => e <> EPanicked | inr (_, k) => KQ k end.
Proof.
  intros HK W. unfold obj_key. cbv zeta.
  assert (KY : forall b, wf b ->
    match (if has_null_prefix b then inl (b, ESyntax) else match d_err (deck b) with
           | Some e => inl (key_error (d_rest (deck b)) e)
           | None => match skip_spaces (d_rest (deck b)) with
                     | [] => inl (skip_spaces (d_rest (deck b)), ESyntax)
                     | c :: b1 => if c =? 58 then inr (skip_spaces b1, d_val (deck b)) else inl (skip_spaces (d_rest (deck b)), ESyntax)
                     end end) with
    | inl (_, e) => e <> EPanicked
    | inr (_, k) => KQ k
    end).
  { clear b W. intros b W. destruct (has_null_prefix b) eqn:N; [discriminate|]. destruct (HK b W N) as [H1 H2].
    destruct (deck b) as [r [e|] k]; cbn [d_err d_rest d_val] in *.
    - unfold key_error. destruct r; [discriminate|]. destruct e; congruence || discriminate.
    - destruct (skip_spaces r) as [|c b1]; [discriminate|]. destruct (c =? 58); [exact H1|discriminate]. }
  destruct first; [exact (KY b W)|]. destruct b as [|c b1]; [discriminate|]. destruct (c =? 44); [|discriminate]. apply KY, wf_skip_spaces. apply wf_cons in W. tauto.
Qed.
Lemma map_set_all {K A} eqb (R : K * A -> Prop) k v m : Forall R m -> R (k, v) -> Forall R (map_set eqb k v m).
Proof.
  intros H X. induction H as [|[k' v'] m H0 H IH]; cbn [map_set]; [constructor; [exact X|constructor]|]. destruct (eqb k' k); constructor; assumption.
Qed.

Section ObjLoops.
Context {K A : Type} (KQ : K -> Prop) (Q : A -> Prop) (eqb : K -> K -> bool) (deck : bytes -> dres K) (D : bytes -> A -> dres A) (z : A) (N : nat).
Hypothesis HT : forall b, wf b -> (length b < N)%nat -> takes False D b z.
Hypothesis HD : forall b, wf b -> (length b < N)%nat -> safe Q D b z.
Hypothesis HK : key_takes deck.
Hypothesis HKQ : forall b, wf b -> has_null_prefix b = false -> KQ (d_val (deck b)) /\ d_err (deck b) <> Some EPanicked.
Definition m_ok (m : list (K * A)) : Prop := Forall (fun kv => KQ (fst kv) /\ Q (snd kv)) m.
Definition om_ok (m : option (list (K * A))) : Prop := match m with None => True | Some m => m_ok m end.

Lemma map_loop_safe inp fresh k : wf inp -> forall first b m, wf b -> (length b < N)%nat -> m_ok m ->
  om_ok (d_val (map_loop eqb deck D z inp fresh k first b m)) /\ d_err (map_loop eqb deck D z inp fresh k first b m) <> Some EPanicked.
Proof.
  intros WI. induction k as [|k IH]; intros first b m W LN M.
  { cbn. split; [destruct fresh; [exact I|exact M]|discriminate]. }
  assert (NOW : om_ok (if fresh then None else Some m)) by (destruct fresh; [exact I|exact M]).
  cbn [map_loop]. cbv zeta. destruct (skip_read b W) as (w & Ww & Eb & Ws & Ls). set (sb := skip_spaces b) in *.
  destruct (match sb with c :: _ => c =? 125 | [] => false end); [split; [exact M|discriminate]|].
  pose proof (obj_key_read deck first sb HK Ws) as OK. pose proof (obj_key_np KQ deck first sb HKQ Ws) as OQ.
  destruct (obj_key deck first sb) as [[r e]|[b2 key]]; [split; [exact NOW|cbn [d_err]; congruence]|].
  destruct OK as (W2 & L2 & _). pose proof (HT b2 W2 ltac:(lia)) as T. pose proof (HD b2 W2 ltac:(lia)) as [S1 S2]. unfold takes in T.
  destruct (D b2 z) as [r [e|] y]; cbn [d_err d_rest d_val] in *.
  - destruct (elem_err_np inp e (if fresh then None else Some m) WI ltac:(congruence)) as [-> H]. auto.
  - destruct T as (Wr & Lr & _). apply IH; [exact Wr|lia|]. apply map_set_all; [exact M|auto].
Qed.
Lemma decode_map_safe b x : wf b -> (length b <= N)%nat -> om_ok x -> safe om_ok (decode_map eqb deck D z) b x.
Proof.
  intros W L H. assert (IE := in_err_safe om_ok (fun b x => in_err b x) b x x W eq_refl H). unfold safe, decode_map in *.
  destruct (has_null_prefix b); [split; [exact I|discriminate]|]. destruct (Nat.ltb (length b) 2); [exact IE|]. destruct b as [|c b1]; [exact IE|].
  destruct (c =? 123); [|exact IE]. assert (W1 := W). apply wf_cons in W1 as [_ W1]. cbn [length] in L. apply map_loop_safe; [exact W|exact W1|lia|].
  destruct x; [exact H|constructor].
Qed.
End ObjLoops.

Section StructLoop.
Context {A : Type} (Q : A -> Prop) (look : bytes -> option (bytes -> A -> dres A)) (dis : bool) (N : nat).
Hypothesis HT : forall k D b x, look k = Some D -> wf b -> (length b < N)%nat -> takes False D b x.
Hypothesis HD : forall k D b x, look k = Some D -> wf b -> (length b < N)%nat -> Q x -> safe Q D b x.

Lemma struct_loop_safe inp k : wf inp -> forall first b x, wf b -> (length b < N)%nat -> Q x ->
  Q (d_val (struct_loop look dis inp k first b x)) /\ d_err (struct_loop look dis inp k first b x) <> Some EPanicked.
Proof.
  intros WI. induction k as [|k IH]; intros first b x W LN Qx; [cbn; split; [exact Qx|discriminate]|].
  cbn [struct_loop]. cbv zeta. destruct (skip_read b W) as (w & Ww & Eb & Ws & Ls). set (sb := skip_spaces b) in *.
  destruct (match sb with c :: _ => c =? 125 | [] => false end); [split; [exact Qx|discriminate]|].
  change (fun b0 : bytes => match parse_string_unquote b0 [] with QOk s q1 _ => DR q1 None s | QErr q2 e => DR q2 (Some e) [] | QPanic => DR b0 (Some EPanicked) [] | QFuel => DR b0 (Some EFuel) [] end) with deck_name.
  pose proof (obj_key_read deck_name first sb deck_name_takes Ws) as OK.
  assert (HKQ : forall b, wf b -> has_null_prefix b = false -> True /\ d_err (deck_name b) <> Some EPanicked).
  { intros b0 W0 _. split; [exact I|]. unfold deck_name. destruct (unquote_cases b0 W0) as [(lit & r & i & SL & E & U)|(r & U)]; rewrite U; discriminate. }
  pose proof (obj_key_np (fun _ => True) deck_name first sb HKQ Ws) as OQ.
  destruct (obj_key deck_name first sb) as [[r e]|[b2 key]]; [split; [exact Qx|cbn [d_err]; congruence]|].
  destruct OK as (W2 & L2 & _). destruct (look key) as [D|] eqn:LO.
  - pose proof (HT key D b2 x LO W2 ltac:(lia)) as T. pose proof (HD key D b2 x LO W2 ltac:(lia) Qx) as [S1 S2]. unfold takes in T.
    destruct (D b2 x) as [r [e|] y]; cbn [d_err d_rest d_val] in *.
    + destruct (elem_err_np inp e y WI ltac:(congruence)) as [-> H]. auto.
    + destruct T as (Wr & Lr & _). apply IH; [exact Wr|lia|exact S1].
  - destruct dis; [split; [exact Qx|discriminate]|]. pose proof (parse_takes b2 W2) as PT. destruct (parseValue b2) as [v r|r e]; [|subst e; split; [exact Qx|discriminate]].
    destruct PT as (Wv & Wr & Lr & _). apply IH; [exact Wr|lia|exact Qx].
Qed.
Lemma decode_struct_safe b x : wf b -> (length b <= N)%nat -> Q x -> safe Q (decode_struct look dis) b x.
Proof.
  intros W L H. assert (IE := in_err_safe Q (fun b x => in_err b x) b x x W eq_refl H). unfold safe, decode_struct in *.
  destruct (has_null_prefix b); [split; [exact H|discriminate]|]. destruct (Nat.ltb (length b) 2); [exact IE|]. destruct b as [|c b1]; [exact IE|].
  destruct (c =? 123); [|exact IE]. assert (W1 := W). apply wf_cons in W1 as [_ W1]. cbn [length] in L. apply struct_loop_safe; [exact W|exact W1|lia|exact H].
Qed.
End StructLoop.

(** * Types *)
Section Types.
Context (V : tenv) (F : dflags) (OK : env_ok V) (ET : env_typed V).
Notation dec_ty := (dec_ty V F).
Notation fits := (fits V).

Lemma zero_fits t : fits t (zero V t).
Proof.
  destruct (et_rank V ET) as (rk & R1 & R2).
  assert (G : forall n t, (forall i, In i (holds t) -> (rk i < n)%nat) -> fits t (zero_f V n t)).
  { induction n as [|n IHn]; intros u; induction u; intros H; cbn [zero_f]; try (constructor; fail).
    - constructor. apply ity_bounds.
    - constructor. exact I.
    - constructor. cbn. lia.
    - constructor; [apply repeat_length|]. apply Forall_forall. intros y Y. apply repeat_spec in Y. subst y. apply IHu. exact H.
    - constructor. constructor.
    - constructor. constructor.
    - exfalso. specialize (H i (or_introl eq_refl)). lia.
    - constructor. apply ity_bounds.
    - constructor. exact I.
    - constructor. cbn. lia.
    - constructor; [apply repeat_length|]. apply Forall_forall. intros y Y. apply repeat_spec in Y. subst y. apply IHu. exact H.
    - constructor. constructor.
    - constructor. constructor.
    - constructor. assert (X : forall l, incl l (v_decl V i) -> Forall2 fits l (map (zero_f V n) l)).
      { induction l as [|a l IHl]; intros IC; constructor; [|apply IHl; intros y Y; apply IC; right; exact Y].
        apply IHn. intros j J. specialize (R1 i a j (IC a (or_introl eq_refl)) J). specialize (H i (or_introl eq_refl)). lia. }
      apply X. intros y Y. exact Y. }
  apply G. intros i _. apply R2.
Qed.

Lemma duration_safe b x : wf b -> ity_lo TInt64 <= x <= ity_hi TInt64 -> safe (fun z => ity_lo TInt64 <= z <= ity_hi TInt64) (decode_duration V) b x.
Proof.
  intros W H. pose proof (quoted_safe _ (v_dur V) b x W (et_dur V ET) H) as Q. unfold safe, decode_duration in *.
  destruct (has_null_prefix b); [split; [exact H|discriminate]|]. destruct b as [|c b1]; [exact Q|]. destruct (negb (c =? 34)); [|exact Q].
  destruct (parse_int (c :: b1)) as [v r|r e] eqn:E.
  - apply parse_int_inv in E as (s & _ & _ & _ & R). split; [exact R|discriminate].
  - apply (in_err_safe (fun z => ity_lo TInt64 <= z <= ity_hi TInt64) (fun b x => in_err b x) (c :: b1) x x W eq_refl H).
Qed.
Lemma time_safe b x : wf b -> safe (fun _ => True) (decode_time V) b x.
Proof.
  intros W. pose proof (quoted_safe (fun _ => True) (v_time V) b x W (fun _ _ _ => I) I) as Q. unfold safe, decode_time in *.
  destruct (has_null_prefix b); [split; [exact I|discriminate]|exact Q].
Qed.
Lemma json_safe u b x : wf b -> safe (fun _ => True) (decode_json_user V u) b x.
Proof.
  intros W. split; [exact I|]. pose proof (parse_takes b W) as PT. unfold decode_json_user. destruct (parseValue b); [|subst e; discriminate].
  destruct (rv_null v); [discriminate|]. pose proof (et_json V ET u v x) as H. destruct (v_json V u v x) as [e s]. cbn [d_err]. intros ->. exact (H s eq_refl).
Qed.
Lemma text_safe u b x : wf b -> safe (fun _ => True) (decode_text_user V u) b x.
Proof.
  intros W. split; [exact I|]. pose proof (parse_takes b W) as PT. unfold decode_text_user. destruct (parseValue b) as [v r|r e]; [|subst e; discriminate].
  destruct PT as (Wv & Wr & _). destruct (rv_null v).
  - unfold parse_null, parse_lit. repeat match goal with |- context [if ?c then _ else _] => destruct c end; discriminate.
  - destruct (rv_string v); [|discriminate]. destruct (unquote_cases v Wv) as [(lit & r0 & i & SL & E0 & Q)|(r0 & Q)]; rewrite Q; [|discriminate].
    pose proof (et_text V ET u (str_text lit) x) as H. destruct (v_text V u (str_text lit) x) as [e s]. cbn [d_err]. intros ->. exact (H s eq_refl).
Qed.
Lemma bytes_safe b x : wf b -> sl_ok u8 x -> safe (sl_ok u8) (decode_bytes V) b x.
Proof.
  intros W H. assert (IE := in_err_safe (sl_ok u8) (fun b x => in_err b x) b x x W eq_refl H). unfold safe, decode_bytes in *.
  destruct (has_null_prefix b); [split; [exact I|discriminate]|]. destruct (Nat.ltb (length b) 2); [exact IE|]. destruct b as [|c b1]; [exact IE|].
  destruct (negb (c =? 34)).
  - destruct (c =? 91); [|exact IE]. apply (decode_slice_safe u8 (decode_int TUint8) 0 (length (c :: b1))); [split; lia| | |exact W|lia|exact H].
    + intros b' x' W' _. apply reads_takes; [exact W'|apply int_reads, W'].
    + intros b' x' W' _ Q. apply (int_safe TUint8 b' x' W' Q).
  - destruct (unquote_cases (c :: b1) W) as [(lit & r0 & i & SL & E0 & Q)|(r0 & Q)]; rewrite Q; [|exact IE].
    destruct (v_b64 V (str_text lit)) as [v|] eqn:B; (split; [|discriminate]); [|exact H]. split; [lia|apply (et_b64 V ET _ _ B)].
Qed.
Lemma type_error_safe (Q : mem -> Prop) (D : bytes -> mem -> dres mem) b x y : wf b -> D b x = decode_type_error b y -> Q y -> safe Q D b x.
Proof.
  intros W E H. pose proof (parse_takes b W) as PT. unfold safe. rewrite E. unfold decode_type_error.
  destruct (parseValue b); (split; [exact H|]); [discriminate|]. subst e. discriminate.
Qed.

Lemma key_safe k b : wf b -> has_null_prefix b = false -> key_fits k (d_val (decode_key V k b)) /\ d_err (decode_key V k b) <> Some EPanicked.
Proof.
  intros W NN. destruct k as [|it|u]; cbn [decode_key].
  - destruct (string_safe b [] W) as [_ H]. split; [exact I|exact H].
  - unfold decode_from_string. rewrite NN. pose proof (proj1 (ity_bounds it)) as IB.
    destruct (unquote_cases b W) as [(lit & r & i & SL & E & Q)|(r & Q)]; rewrite Q; [|split; [exact IB|discriminate]].
    destruct (int_safe it (str_text lit) 0 (str_text_wf lit SL) IB) as [H1 H2]. cbv zeta.
    destruct (decode_int it (str_text lit) 0) as [u [e|] y]; cbn [d_err d_rest d_val] in *; [split; [exact H1|exact H2]|].
    destruct (skip_spaces u); (split; [exact H1|discriminate]).
  - destruct (text_safe u b [] W) as [_ H]. split; [exact I|exact H].
Qed.

Lemma set_nth_fit l m i u y : Forall2 fits l m -> nth_error l i = Some u -> fits u y -> Forall2 fits l (set_nth i y m).
Proof.
  intros H. revert i. induction H as [|t x l m H1 H IH]; intros [|i] E Y; try discriminate.
  - injection E as ->. unfold set_nth. cbn [firstn skipn app]. constructor; assumption.
  - unfold set_nth in *. cbn [firstn skipn app]. constructor; [exact H1|apply IH; assumption].
Qed.
Lemma nth_fit l m i u : Forall2 fits l m -> nth_error l i = Some u -> exists x, nth_error m i = Some x /\ fits u x.
Proof.
  intros H. revert i. induction H as [|t x l m H1 H IH]; intros [|i] E; try discriminate.
  - injection E as ->. exists x. auto.
  - apply IH, E.
Qed.
Lemma path_safe u D b : (forall x, fits u x -> safe (fits u) D b x) -> forall t p, leads V t p u -> forall m, fits t m -> safe (fits t) (on_path V p D) b m.
Proof.
  intros HD t p LD. induction LD as [t|i k u' p t E LD IH|i k j un p t E LD IH]; intros m FM; [apply HD, FM| |]; inversion FM as [| | | | | | | | | | | | | | | | | | | |i' l FL| | |]; subst.
  - destruct (nth_fit _ _ _ _ FL E) as (x & X & FX). eapply (map_safe (fits u') _ (on_path V p D)); [cbn [on_path]; rewrite X; reflexivity| |apply (IH HD), FX].
    intros z FZ. constructor. eapply set_nth_fit; eassumption.
  - destruct (nth_fit _ _ _ _ FL E) as (x & X & FX).
    assert (ST : forall z, fits (YStruct j) z -> fits (YStruct i) (MList (set_nth k (MPtr (Some z)) l))).
    { intros z FZ. constructor. eapply set_nth_fit; [exact FL|exact E|]. constructor. exact FZ. }
    inversion FX as [| | | | | | | | | | | | | | | | | |e|e x' FX'| | | |]; subst.
    + destruct un; [eapply val_safe; [cbn [on_path]; rewrite X; reflexivity|exact FM|discriminate]|].
      eapply (map_safe (fits (YStruct j)) _ (on_path V p D)); [cbn [on_path]; rewrite X; reflexivity|exact ST|]. apply (IH HD), zero_fits.
    + eapply (map_safe (fits (YStruct j)) _ (on_path V p D)); [cbn [on_path]; rewrite X; reflexivity|exact ST|]. apply (IH HD), FX'.
Qed.

Lemma from_string_safe (Q : mem -> Prop) (D : bytes -> mem -> dres mem) b x : wf b -> (forall b, wf b -> safe Q D b x) -> Q x -> safe Q (decode_from_string D) b x.
Proof.
  intros W HS H. unfold safe, decode_from_string. destruct (has_null_prefix b); [apply HS, W|].
  destruct (unquote_cases b W) as [(lit & r & i & SL & Eb & E)|(r & E)]; rewrite E; [|split; [exact H|discriminate]].
  destruct (HS (str_text lit) (str_text_wf lit SL)) as [H1 H2]. cbv zeta.
  destruct (D (str_text lit) x) as [u [e|] y]; cbn [d_err d_rest d_val] in *; [auto|]. destruct (skip_spaces u); (split; [exact H1|discriminate]).
Qed.
Lemma from_string_int_safe (Q : mem -> Prop) pf (D : bytes -> mem -> dres mem) b x : wf b -> (forall b, wf b -> safe Q D b x) -> Q x -> safe Q (decode_from_string_int pf D) b x.
Proof.
  intros W HS H. unfold safe, decode_from_string_int. destruct (has_null_prefix b); [apply HS, W|]. cbv zeta.
  set (q := match parse_string_unquote b [] with QOk _ _ _ => _ | _ => _ end).
  assert (SQ : Q (d_val q) /\ d_err q <> Some EPanicked).
  { unfold q. destruct (unquote_cases b W) as [(lit & r & i & SL & Eb & E)|(r & E)]; rewrite E; [|split; [exact H|discriminate]].
    destruct (HS (strip_zeroes (str_text lit)) (strip_wf _ (str_text_wf lit SL))) as [H1 H2].
    destruct (D (strip_zeroes (str_text lit)) x) as [u [e|] y]; cbn [d_err d_rest d_val] in *.
    - assert (NE : e <> EPanicked) by congruence. split; [destruct e; exact H1|].
      destruct e; cbn [d_err]; intros X; injection X; repeat match goal with |- match ?z with _ => _ end = _ -> _ => destruct z end; congruence || discriminate.
    - destruct u; (split; [exact H1|discriminate]). }
  destruct b as [|c b1]; [exact SQ|]. destruct (c =? 34); cbn [negb].
  - destruct b1 as [|c1 b2]; [exact SQ|]. destruct (c1 =? 34); [split; [exact H|discriminate]|exact SQ].
  - destruct (parse_number (c :: b1)); [|split; [exact H|discriminate]]. destruct (existsb _ v); [|split; [exact H|discriminate]]. destruct (pf v); (split; [exact H|discriminate]).
Qed.
Lemma ptr_safe n e b x : (forall x, fits e x -> safe (fits e) (dec_ty n e) b x) -> fits (YPtr e) x -> safe (fits (YPtr e)) (dec_ty n (YPtr e)) b x.
Proof.
  intros H FX. assert (C : exists p, x = MPtr p /\ forall y, p = Some y -> fits e y).
  { inversion FX; subst; eexists; (split; [reflexivity|]); [discriminate|]. intros y [= <-]. assumption. }
  destruct C as (p & -> & FP). assert (UP : forall z, fits e z -> fits (YPtr e) (MPtr (Some z))) by (intros; constructor; assumption).
  destruct (has_null_prefix b) eqn:N.
  - assert (C : (forall (A : Type) (f : mem -> A) (g : A), match p, e with Some x, YPtr _ => f x | _, _ => g end = g) \/ exists x e', p = Some x /\ e = YPtr e') by (destruct p, e; eauto).
    destruct C as [C|(x & e' & -> & ->)].
    + eapply val_safe; [rewrite dec_ty_eq, N, C; reflexivity|constructor|discriminate].
    + eapply (map_safe _ _ (dec_ty n (YPtr e'))); [rewrite dec_ty_eq, N; reflexivity|exact UP|]. apply H, FP, eq_refl.
  - eapply (map_safe _ _ (dec_ty n e)); [rewrite dec_ty_eq, N; reflexivity|exact UP|]. apply H. destruct p; [apply FP, eq_refl|apply zero_fits].
Qed.
Lemma quotable_safe n t : quotable t -> forall b x, wf b -> fits t x -> safe (fits t) (dec_ty n t) b x.
Proof.
  induction t; cbn [quotable]; try contradiction; intros QT b x W FX; try (inversion FX; subst).
  - eapply (map_safe _ _ decode_bool); [rewrite dec_ty_eq; reflexivity|intros; constructor|apply bool_safe, W].
  - eapply (map_safe _ _ (decode_int t)); [rewrite dec_ty_eq; reflexivity| |apply int_safe; assumption]. intros; constructor; assumption.
  - eapply (map_safe _ _ (decode_float _)); [rewrite dec_ty_eq; reflexivity|intros; constructor|apply float_safe, W].
  - eapply (map_safe _ _ decode_number); [rewrite dec_ty_eq; reflexivity|intros; constructor|apply number_safe, W].
  - eapply (map_safe _ _ decode_string); [rewrite dec_ty_eq; reflexivity|intros; constructor|apply string_safe, W].
  - eapply (map_safe _ _ (decode_duration V)); [rewrite dec_ty_eq; reflexivity| |apply duration_safe; assumption]. intros; constructor; assumption.
  - apply ptr_safe; [|exact FX]. intros y FY. apply IHt; [destruct t; contradiction || exact QT|exact W|exact FY].
  - apply ptr_safe; [|exact FX]. intros y FY. apply IHt; [destruct t; contradiction || exact QT|exact W|exact FY].
  - eapply (map_safe _ _ (decode_json_user V u)); [rewrite dec_ty_eq; reflexivity|intros; constructor|apply json_safe, W].
  - eapply (map_safe _ _ (decode_text_user V u)); [rewrite dec_ty_eq; reflexivity|intros; constructor|apply text_safe, W].
Qed.

Lemma om_fits k e m : om_ok (key_fits k) (fits e) m -> fits (YMap k e) (MMap m).
Proof. destruct m; intros H; constructor. exact H. Qed.
Lemma fits_om k e m : fits (YMap k e) (MMap m) -> om_ok (key_fits k) (fits e) m.
Proof. intros H. inversion H; subst; [exact I|assumption]. Qed.

Lemma dec_ty_safe n : forall t b x, wf b -> (length b < n)%nat -> fits t x -> safe (fits t) (dec_ty n t) b x.
Proof.
  induction n as [|n IHn]; [intros; lia|].
  assert (HT : forall t b x, wf b -> (length b < S n)%nat -> takes False (dec_ty (S n) t) b x).
  { intros t b x W L. eapply takes_imp; [|apply (dec_ty_takes V F OK (S n) t b x W L)]. contradiction. }
  induction t; intros b x W L FX; try (apply quotable_safe; [exact I|exact W|exact FX]); try (inversion FX; subst).
  - eapply (map_safe _ _ (decode_bytes V)); [rewrite dec_ty_eq; reflexivity| |apply bytes_safe; eassumption]. intros; constructor; assumption.
  - eapply (map_safe _ _ (decode_time V)); [rewrite dec_ty_eq; reflexivity|intros; constructor|apply time_safe, W].
  - eapply (map_safe _ _ (decode_interface _ _)); [rewrite dec_ty_eq; reflexivity|intros; constructor|apply iface_safe, W].
  - destruct (has_null_prefix b) eqn:N; [eapply val_safe; [rewrite dec_ty_eq, N; reflexivity|constructor|discriminate]|].
    assert (C : (empty = true /\ v = JVNull) \/ (forall A (f g : A), (match v with JVNull => if empty then f else g | _ => g end) = g)) by (destruct empty, v; auto).
    destruct C as [[-> ->]|C].
    + eapply (map_safe (fun _ => True) _ (parse_with (decode_interface (d_usenum F) (v_float V true)))); [rewrite dec_ty_eq, N; reflexivity|intros; constructor|].
      destruct (iface_safe (d_usenum F) (v_float V true) (skip_spaces b) JVNull (wf_skip_spaces _ W)) as [_ H]. split; [exact I|exact H].
    + eapply type_error_safe; [exact W| |exact FX]. rewrite dec_ty_eq, N. apply C.
  - eapply (map_safe _ _ decode_raw); [rewrite dec_ty_eq; reflexivity|intros; constructor|apply raw_safe, W].
  - eapply (map_safe (fun y => length y = length l /\ Forall (fits t) y) _ (decode_array (dec_ty (S n) t))); [rewrite dec_ty_eq, Nat.eqb_refl; reflexivity| |].
    + intros z [H1 H2]. constructor; assumption.
    + apply (decode_array_safe (fits t) _ (length b)); try assumption; [| |lia|reflexivity].
      * intros b' x' W' L'. apply HT; [exact W'|lia].
      * intros b' x' W' L' F'. apply IHt; [exact W'|lia|exact F'].
  - eapply (map_safe (sl_ok (fits t)) _ (decode_slice (dec_ty (S n) t) (zero V t))); [rewrite dec_ty_eq; reflexivity| |].
    + intros [[? ?]|] H; [destruct H|]; constructor; assumption.
    + apply (decode_slice_safe (fits t) _ _ (length b)); [apply zero_fits| | |exact W|lia|exact I].
      * intros b' x' W' L'. apply HT; [exact W'|lia].
      * intros b' x' W' L' F'. apply IHt; [exact W'|lia|exact F'].
  - eapply (map_safe (sl_ok (fits t)) _ (decode_slice (dec_ty (S n) t) (zero V t))); [rewrite dec_ty_eq; reflexivity| |].
    + intros [[? ?]|] H; [destruct H|]; constructor; assumption.
    + apply (decode_slice_safe (fits t) _ _ (length b)); [apply zero_fits| | |exact W|lia|split; assumption].
      * intros b' x' W' L'. apply HT; [exact W'|lia].
      * intros b' x' W' L' F'. apply IHt; [exact W'|lia|exact F'].
  - eapply (map_safe (om_ok (key_fits k) (fits t)) _ (decode_map mkey_eqb (decode_key V k) (dec_ty (S n) t) (zero V t))); [rewrite dec_ty_eq; reflexivity|apply om_fits|].
    apply (decode_map_safe _ _ _ _ _ _ (length b)); [| |apply key_takes_all; exact OK|apply key_safe|exact W|lia|exact I].
    + intros b' W' L'. apply HT; [exact W'|lia].
    + intros b' W' L'. apply IHt; [exact W'|lia|apply zero_fits].
  - eapply (map_safe (om_ok (key_fits k) (fits t)) _ (decode_map mkey_eqb (decode_key V k) (dec_ty (S n) t) (zero V t))); [rewrite dec_ty_eq; reflexivity|apply om_fits|].
    apply (decode_map_safe _ _ _ _ _ _ (length b)); [| |apply key_takes_all; exact OK|apply key_safe|exact W|lia|assumption].
    + intros b' W' L'. apply HT; [exact W'|lia].
    + intros b' W' L'. apply IHt; [exact W'|lia|apply zero_fits].
  - eapply (map_safe (om_ok (key_fits KYString) (fits YIface)) _ (decode_map mkey_eqb (decode_key V KYString) _ _)); [rewrite dec_ty_eq; reflexivity|intros z Z1; constructor; apply om_fits, Z1|].
    apply (decode_map_safe _ _ _ _ _ _ (length b)); [| |apply key_takes_all; exact OK|apply key_safe|exact W|lia|apply fits_om; assumption].
    + intros b' W' L'. eapply (map_takes _ (decode_interface _ _)); [reflexivity|apply iface_takes, W'].
    + intros b' W' L'. eapply (map_safe _ _ (decode_interface _ _)); [reflexivity|intros; constructor|apply iface_safe, W'].
  - eapply (map_safe (om_ok (key_fits KYString) (fits YRaw)) _ (decode_map mkey_eqb (decode_key V KYString) _ _)); [rewrite dec_ty_eq; reflexivity|intros z Z1; constructor; apply om_fits, Z1|].
    apply (decode_map_safe _ _ _ _ _ _ (length b)); [| |apply key_takes_all; exact OK|apply key_safe|exact W|lia|apply fits_om; assumption].
    + intros b' W' L'. eapply (map_takes _ decode_raw); [reflexivity|apply reads_takes; [exact W'|apply raw_reads, W']].
    + intros b' W' L'. eapply (map_safe _ _ decode_raw); [reflexivity|intros; constructor|apply raw_safe, W'].
  - apply ptr_safe; [|exact FX]. intros y FY. apply IHt; [exact W|exact L|exact FY].
  - apply ptr_safe; [|exact FX]. intros y FY. apply IHt; [exact W|exact L|exact FY].
  - eapply (same_safe _ (decode_struct _ _)); [rewrite dec_ty_eq; reflexivity|].
    apply (decode_struct_safe (fits (YStruct i)) _ _ (length b)); [| |exact W|lia|exact FX]; intros k D b' x' LO W' L'.
    all: destruct (find_field V F (v_flds V i) k) as [f|] eqn:FF; [|discriminate]; injection LO as <-.
    all: assert (IN : In f (v_flds V i)) by
     (unfold find_field in FF; destruct (find _ (rev _)) eqn:E1;
      [injection FF as ->; apply find_some in E1 as [E1 _]; apply in_rev, E1
      |destruct (d_nocase F); [discriminate|]; apply find_some in FF as [E2 _]; exact E2]).
    + apply path_takes. intros y. unfold decode_field. destruct (jf_quot f) eqn:Q.
      * eapply takes_imp; [|apply (dec_ty_takes V F OK n); [exact W'|lia]]. contradiction.
      * apply from_string_takes; [exact W'|]. intros b2 W2. apply quotable_reads; [exact OK| |exact W2]. eapply (ok_quot V OK); [exact IN|congruence].
      * apply from_string_int_takes; [exact W'|]. intros b2 W2. apply quotable_reads; [exact OK| |exact W2]. eapply (ok_quot V OK); [exact IN|congruence].
    + intros FX'. apply (path_safe (jf_ty f)); [|apply (et_path V ET), IN|exact FX']. intros y FY. unfold decode_field. destruct (jf_quot f) eqn:Q.
      * apply IHn; [exact W'|lia|exact FY].
      * apply from_string_safe; [exact W'| |exact FY]. intros b2 W2. apply quotable_safe; [|exact W2|exact FY]. eapply (ok_quot V OK); [exact IN|congruence].
      * apply from_string_int_safe; [exact W'| |exact FY]. intros b2 W2. apply quotable_safe; [|exact W2|exact FY]. eapply (ok_quot V OK); [exact IN|congruence].
  - eapply type_error_safe; [exact W| |exact FX]. rewrite dec_ty_eq. reflexivity.
Qed.
End Types.
