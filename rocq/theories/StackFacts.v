(** Lemmas for C84: Next on the stack in memory is Next on a list, and writes
    only to the array that the stack is in. *)
From Verif Require Import Bytes ParseModel StringModel TokenModel StackModel SpecStack.
From Coq Require Import Lia.

Lemma aid_eqb_eq a b : aid_eqb a b = true <-> a = b.
Proof.
  destruct a, b; simpl; rewrite ?Nat.eqb_eq; split; intros H; try discriminate; try congruence.
Qed.
Lemma aid_eqb_refl a : aid_eqb a a = true.
Proof. apply aid_eqb_eq. reflexivity. Qed.
Lemma aid_eqb_neq a b : a <> b -> aid_eqb a b = false.
Proof. intros H. destruct (aid_eqb a b) eqn:E; [|reflexivity]. apply aid_eqb_eq in E. contradiction. Qed.
Lemma aid_dec (a b : aid) : {a = b} + {a <> b}.
Proof. destruct (aid_eqb a b) eqn:E; [left; apply aid_eqb_eq, E|right; intros ->; rewrite aid_eqb_refl in E; discriminate]. Qed.
Lemma upd_same {A} (f : nat -> A) x v : upd f x v x = v.
Proof. unfold upd. rewrite Nat.eqb_refl. reflexivity. Qed.
Lemma upd_other {A} (f : nat -> A) x v y : y <> x -> upd f x v y = f y.
Proof. intros H. unfold upd. destruct (Nat.eqb_spec y x); congruence. Qed.

Lemma length_put i v l : length (put i v l) = length l.
Proof. revert i. induction l as [|h t IH]; intros [|i]; simpl; try reflexivity. rewrite IH. reflexivity. Qed.
Lemma firstn_put i v l : (i < length l)%nat -> firstn (S i) (put i v l) = firstn i l ++ [v].
Proof.
  revert i. induction l as [|h t IH]; intros [|i] H; simpl in H; try lia; [reflexivity|].
  change (h :: firstn (S i) (put i v t) = h :: firstn i t ++ [v]). rewrite IH by lia. reflexivity.
Qed.
Lemma firstn_last (l : list tstate) i : (S i <= length l)%nat ->
  exists v, nth_error l i = Some v /\ firstn (S i) l = firstn i l ++ [v].
Proof.
  revert i. induction l as [|h t IH]; intros i H; simpl in H; [lia|].
  destruct i as [|i]; [exists h; auto|].
  destruct (IH i) as (v & E1 & E2); [lia|]. exists v. split; [exact E1|].
  change (h :: firstn (S i) t = h :: firstn i t ++ [v]). rewrite E2. reflexivity.
Qed.

(** the stack in memory is this list *)
Definition stk (arr : aid -> list tstate) (s : option (aid * nat)) (st : list tstate) : Prop :=
  match s with None => st = [] | Some (a, n) => (n <= length (arr a))%nat /\ st = rev (firstn n (arr a)) end.
Definition fields (q : mtok) (t : tokenizer) : Prop :=
  q_delim q = t_delim t /\ q_value q = t_value t /\ q_err q = t_err t /\ q_depth q = t_depth t /\ q_index q = t_index t /\
  q_IsKey q = t_IsKey t /\ q_isKey q = t_isKey t /\ q_json q = t_json t.
Definition rep (m : tmem) (x : nat) (t : tokenizer) : Prop :=
  fields (m_tok m x) t /\ stk (m_arr m) (q_stack (m_tok m x)) (t_stack t).
(** the array that Next of x writes to *)
Definition own (m : tmem) (x : nat) : aid := match q_stack (m_tok m x) with Some (a, _) => a | None => Buf x end.

Lemma stk_depth arr s st : stk arr s st -> m_depth s = tok_depth st.
Proof.
  destruct s as [[a n]|]; simpl; [|intros ->; reflexivity]. intros [H ->]. unfold tok_depth.
  rewrite rev_length, firstn_length, Nat.min_l by exact H. reflexivity.
Qed.
Lemma stk_top m s st : stk (m_arr m) s st -> m_top m s = hd_error st.
Proof.
  destruct s as [[a [|i]]|]; simpl; [intros [_ ->]; reflexivity| |intros ->; reflexivity].
  intros [H ->]. destruct (firstn_last _ _ H) as (v & E1 & E2).
  change (match m_arr m a with [] => [] | a0 :: l => a0 :: firstn i l end) with (firstn (S i) (m_arr m a)).
  rewrite E2, rev_unit. exact E1.
Qed.
Lemma stk_index m s st : stk (m_arr m) s st -> m_index m s = tok_index st.
Proof. intros H. unfold m_index, tok_index. rewrite (stk_top _ _ _ H). destruct st as [|[o n] st']; reflexivity. Qed.
Lemma stk_in_object m s st : stk (m_arr m) s st -> m_in_object m s = tok_in_object st.
Proof. intros H. unfold m_in_object, tok_in_object. rewrite (stk_top _ _ _ H). destruct st as [|[o n] st']; reflexivity. Qed.
Lemma stk_nonempty arr s st : stk arr s st -> st <> [] ->
  exists a i v st', s = Some (a, S i) /\ nth_error (arr a) i = Some v /\ st = v :: st' /\ stk arr (Some (a, i)) st' /\ (S i <= length (arr a))%nat.
Proof.
  destruct s as [[a [|i]]|]; simpl; intros H N; [destruct H; contradiction| |contradiction].
  destruct H as [H E]. destruct (firstn_last _ _ H) as (v & E1 & E2).
  change (st = rev (firstn (S i) (arr a))) in E. rewrite E2, rev_unit in E.
  exists a, i, v, (rev (firstn i (arr a))). repeat split; auto. lia.
Qed.
Lemma stk_empty arr s st : stk arr s st -> st = [] -> match s with Some (_, S _) => False | _ => True end.
Proof.
  destruct s as [[a [|i]]|]; simpl; auto. intros [H ->] E.
  apply (f_equal (@length _)) in E. rewrite rev_length in E.
  change (length (firstn (S i) (arr a)) = 0%nat) in E. rewrite firstn_length in E. lia.
Qed.
Lemma pop_stk m s st obj : stk (m_arr m) s st ->
  match m_pop obj s m, tok_pop obj st with
  | Some s', Some st' => stk (m_arr m) s' st' /\ exists a i, s = Some (a, S i) /\ s' = Some (a, i)
  | None, None => True
  | _, _ => False
  end.
Proof.
  intros H. destruct st as [|[o n] st'] eqn:Est.
  - pose proof (stk_empty _ _ _ H eq_refl) as E. destruct s as [[a [|i]]|]; simpl in *; [exact I|contradiction|exact I].
  - destruct (stk_nonempty _ _ _ H) as (a & i & v & st1 & -> & En & Ev & Hs & L); [discriminate|].
    injection Ev as <- <-. simpl. rewrite En. destruct (Bool.eqb obj o); [|exact I].
    split; [exact Hs|]. eauto.
Qed.

(** What a step of x leaves alone, and where the stack of x is after it. *)
Definition frame (m m' : tmem) (x : nat) : Prop :=
  (forall y, y <> x -> m_tok m' y = m_tok m y) /\
  (forall a, a <> own m x -> a <> Heap (m_made m) -> m_arr m' a = m_arr m a) /\
  (m_made m <= m_made m')%nat /\
  (forall z, length (m_arr m' (Buf z)) = length (m_arr m (Buf z))) /\
  (forall a n, q_stack (m_tok m' x) = Some (a, n) ->
     (a = own m x /\ (forall st, stk (m_arr m) (q_stack (m_tok m x)) st -> (n <= length (m_arr m a) \/ q_stack (m_tok m x) = Some (a, n))%nat)) \/
     (a = Heap (m_made m) /\ (m_made m < m_made m')%nat /\ (n > length (m_arr m (own m x)))%nat)).

Lemma push_stk grow x obj m s st : s = q_stack (m_tok m x) -> stk (m_arr m) s st ->
  (forall k, own m x = Heap k -> (k < m_made m)%nat) ->
  exists s' m', m_push grow x obj s m = (s', m') /\ m_tok m' = m_tok m /\ stk (m_arr m') s' ((obj, 1) :: st) /\
    (forall a, a <> own m x -> a <> Heap (m_made m) -> m_arr m' a = m_arr m a) /\
    (m_made m <= m_made m')%nat /\ (forall z, length (m_arr m' (Buf z)) = length (m_arr m (Buf z))) /\
    exists a n, s' = Some (a, n) /\ ((a = own m x /\ (n <= length (m_arr m a))%nat) \/
      (a = Heap (m_made m) /\ (m_made m < m_made m')%nat /\ (n > length (m_arr m (own m x)))%nat)).
Proof.
  intros Es Hs Hk. unfold m_push.
  assert (Hp : exists n, (match s with None => (Buf x, O) | Some s0 => s0 end) = (own m x, n) /\
              (n <= length (m_arr m (own m x)))%nat /\ st = rev (firstn n (m_arr m (own m x)))).
  { unfold own. rewrite <- Es. destruct s as [[a n]|]; simpl in *; [exists n; tauto|exists O].
    subst st. repeat split; simpl; lia. }
  destruct Hp as (n & -> & L & ->). set (a := own m x) in *. set (l := m_arr m a) in *.
  destruct (Nat.ltb_spec n (length l)) as [Lt|Ge].
  - eexists _, _. split; [reflexivity|]. split; [reflexivity|]. cbn [m_arr set_arr m_made]. split.
    { simpl. rewrite aid_eqb_refl, length_put. split; [lia|].
      change (match put n (obj, 1) l with [] => [] | a0 :: l0 => a0 :: firstn n l0 end) with (firstn (S n) (put n (obj, 1) l)).
      rewrite firstn_put by exact Lt. rewrite rev_unit. reflexivity. }
    split. { intros b Nb _. rewrite aid_eqb_neq by exact Nb. reflexivity. }
    split; [lia|]. split.
    { intros z. destruct (aid_eqb (Buf z) a) eqn:E; [|reflexivity]. apply aid_eqb_eq in E. rewrite E, length_put. reflexivity. }
    exists a, (S n). split; [reflexivity|]. left. split; [reflexivity|fold l; lia].
  - assert (En : n = length l) by lia. eexists _, _. split; [reflexivity|]. split; [reflexivity|]. cbn [m_arr m_made]. split.
    { simpl. rewrite Nat.eqb_refl. rewrite En, firstn_all. rewrite app_length. simpl. split; [lia|].
      change (match l ++ (obj, 1) :: repeat (false, 0) (grow (length l)) with [] => [] | a0 :: l0 => a0 :: firstn (length l) l0 end)
        with (firstn (S (length l)) (l ++ (obj, 1) :: repeat (false, 0) (grow (length l)))).
      rewrite firstn_app. replace (S (length l) - length l)%nat with 1%nat by lia. rewrite firstn_all2 by lia.
      simpl. rewrite rev_unit. reflexivity. }
    split. { intros b _ Nb. rewrite aid_eqb_neq by exact Nb. reflexivity. }
    split; [lia|]. split; [intros z; reflexivity|].
    eexists _, _. split; [reflexivity|]. right. repeat split; lia.
Qed.

Lemma m_tok_set_same x q m : m_tok (set_tok x q m) x = q.
Proof. simpl. rewrite Nat.eqb_refl. reflexivity. Qed.
Lemma m_tok_set_other x q m y : y <> x -> m_tok (set_tok x q m) y = m_tok m y.
Proof. intros H. simpl. destruct (Nat.eqb_spec y x); congruence. Qed.

(** a step that writes no array *)
Lemma frame_set m x q : (q_stack q = None \/ q_stack q = q_stack (m_tok m x) \/
    exists a i, q_stack (m_tok m x) = Some (a, S i) /\ q_stack q = Some (a, i)) -> frame m (set_tok x q m) x.
Proof.
  intros H. repeat split; try reflexivity.
  - intros y Hy. apply m_tok_set_other, Hy.
  - intros a n E. rewrite m_tok_set_same in E. destruct H as [H|[H|(b & i & H1 & H2)]]; [congruence| |].
    + left. rewrite <- H, E. unfold own. rewrite <- H, E. split; [reflexivity|]. intros; right; reflexivity.
    + rewrite H2 in E. injection E as <- <-. left. unfold own. rewrite H1. split; [reflexivity|].
      intros st Hs. left. simpl in Hs. destruct Hs. lia.
Qed.

Lemma next_refines grow x m t : rep m x t -> (forall k, own m x = Heap k -> (k < m_made m)%nat) ->
  match m_next grow x m, tok_next t with
  | Some (m', r), Some (t', r') => r = r' /\ rep m' x t' /\ frame m m' x /\
      (q_stack (m_tok m x) = None -> opening t' = false -> q_stack (m_tok m' x) = None)
  | None, None => True
  | _, _ => False
  end.
Proof.
  intros [(F1 & F2 & F3 & F4 & F5 & F6 & F7 & F8) Hs] Hk. unfold m_next, tok_next.
  set (q := m_tok m x) in *. rewrite F3. destruct (t_err t) eqn:Et.
  { repeat split; auto; try lia; try (fold q; congruence).
    intros a n E. fold q in E. left. unfold own. fold q. rewrite E. split; [reflexivity|]. right. reflexivity. }
  rewrite F8. destruct (skip_spaces (t_json t)) as [|c json] eqn:Ej.
  { unfold m_reset. split; [reflexivity|]. split.
    - split; rewrite m_tok_set_same; [repeat split|reflexivity].
    - split; [apply frame_set; left; reflexivity|]. intros. rewrite m_tok_set_same. reflexivity. }
  destruct (scan_token (c :: json)) as [[[d v] b] er].
  rewrite (stk_depth _ _ _ Hs), (stk_index _ _ _ Hs), F7.
  destruct (Z.eqb_spec d 0) as [D0|D0].
  { split; [reflexivity|]. split; [split; rewrite m_tok_set_same; [repeat split|exact Hs]|].
    split; [apply frame_set; right; left; reflexivity|]. intros; rewrite m_tok_set_same; assumption. }
  destruct (Z.eqb_spec d 123) as [D1|D1]; [|destruct (Z.eqb_spec d 91) as [D2|D2]].
  - match goal with |- context [m_push grow x ?o (q_stack q) m] =>
    destruct (push_stk grow x o m (q_stack q) (t_stack t) eq_refl Hs Hk) as (s' & m' & -> & Et' & Hs' & Ha & Hm & Hl & a & n & E & C) end;
    (split; [reflexivity|]; split; [split; rewrite m_tok_set_same; [repeat split|exact Hs']|]; split;
     [ split; [intros y Hy; rewrite m_tok_set_other by exact Hy; rewrite Et'; reflexivity|];
       split; [exact Ha|]; split; [exact Hm|]; split; [exact Hl|];
       intros a0 n0 E0; rewrite m_tok_set_same in E0; cbn [q_stack] in E0; rewrite E in E0; injection E0 as <- <-;
       destruct C as [[C1 C2]|C]; [left; split; [exact C1|]; intros; left; exact C2|right; exact C]
     | intros _ Ho; subst d; discriminate Ho ]).
  - match goal with |- context [m_push grow x ?o (q_stack q) m] =>
    destruct (push_stk grow x o m (q_stack q) (t_stack t) eq_refl Hs Hk) as (s' & m' & -> & Et' & Hs' & Ha & Hm & Hl & a & n & E & C) end;
    (split; [reflexivity|]; split; [split; rewrite m_tok_set_same; [repeat split|exact Hs']|]; split;
     [ split; [intros y Hy; rewrite m_tok_set_other by exact Hy; rewrite Et'; reflexivity|];
       split; [exact Ha|]; split; [exact Hm|]; split; [exact Hl|];
       intros a0 n0 E0; rewrite m_tok_set_same in E0; cbn [q_stack] in E0; rewrite E in E0; injection E0 as <- <-;
       destruct C as [[C1 C2]|C]; [left; split; [exact C1|]; intros; left; exact C2|right; exact C]
     | intros _ Ho; subst d; discriminate Ho ]).
  - destruct ((d =? 125) || (d =? 93)).
  { pose proof (pop_stk m (q_stack q) (t_stack t) (d =? 125) Hs) as Hp.
    destruct (m_pop (d =? 125) (q_stack q) m) as [s'|], (tok_pop (d =? 125) (t_stack t)) as [st'|]; try contradiction.
    - destruct Hp as (Hs' & a & i & E1 & E2). split; [reflexivity|].
      split; [split; rewrite m_tok_set_same; [|exact Hs']|].
      { repeat split; cbn; auto. apply stk_index, Hs'. }
      split; [apply frame_set; right; right; exists a, i; split; [exact E1|exact E2]|].
      intros E. congruence.
    - split; [reflexivity|]. split; [split; rewrite m_tok_set_same; [|exact Hs]|].
      { repeat split; cbn; auto. }
      split; [apply frame_set; right; left; reflexivity|]. intros; rewrite m_tok_set_same; assumption. }
  destruct (Z.eqb_spec d 58) as [D3|D3].
  { split; [reflexivity|]. split; [split; rewrite m_tok_set_same; [repeat split|exact Hs]|].
    split; [apply frame_set; right; left; reflexivity|]. intros; rewrite m_tok_set_same; assumption. }
  destruct (t_stack t) as [|[o n] st'] eqn:Est.
  { pose proof (stk_empty _ _ _ Hs eq_refl) as E. destruct (q_stack q) as [[a [|i]]|]; [exact I|contradiction|exact I]. }
  destruct (stk_nonempty _ _ _ Hs) as (a & i & w & st1 & Eq & En & Ev & Hs1 & L); [discriminate|].
  injection Ev as <- <-. rewrite Eq, En. rewrite <- Eq, (stk_in_object _ _ _ Hs).
  assert (Ow : own m x = a) by (unfold own; fold q; rewrite Eq; reflexivity).
  split; [reflexivity|]. split; [split; rewrite m_tok_set_same; [repeat split|]|].
  { cbn [q_stack t_stack m_arr set_tok set_arr]. rewrite Eq. simpl. rewrite aid_eqb_refl, length_put. split; [exact L|].
    change (match put i (o, n + 1) (m_arr m a) with [] => [] | a0 :: l0 => a0 :: firstn i l0 end) with (firstn (S i) (put i (o, n + 1) (m_arr m a))).
    rewrite firstn_put by lia. rewrite rev_unit. f_equal. destruct Hs1 as [_ <-]. reflexivity. }
  split; [|intros E; congruence].
  split; [intros y Hy; rewrite m_tok_set_other by exact Hy; reflexivity|].
  split. { intros a0 N0 _. cbn. rewrite aid_eqb_neq by congruence. reflexivity. }
  split; [cbn; lia|]. split.
  { intros z. cbn -[aid_eqb]. destruct (aid_eqb (Buf z) a) eqn:E; [|reflexivity]. apply aid_eqb_eq in E. rewrite E, length_put. reflexivity. }
  intros a0 n0 E0. rewrite m_tok_set_same in E0. cbn [q_stack] in E0. left. rewrite Ow. rewrite Eq in E0. injection E0 as <- <-.
  split; [reflexivity|]. intros; right. exact Eq.
Qed.
