(** Facts about values in memory (SpecAddr.v): moving, overwriting and allocating
    variables. *)
From Verif Require Import Bytes IntModel EncModel DecModel TypeModel SpecFit TypeSafe AddrModel SpecAddr.

Definition emp (x : Z) : Prop := False.
Lemma union_l P Q : sub P (union P Q). Proof. intros x H. left. exact H. Qed.
Lemma union_r P Q : sub Q (union P Q). Proof. intros x H. right. exact H. Qed.
Lemma sub_refl P : sub P P. Proof. intros x H. exact H. Qed.
Lemma sub_trans P Q R : sub P Q -> sub Q R -> sub P R. Proof. intros A B x H. auto. Qed.
Lemma disj_sub P Q P' Q' : disj P Q -> sub P' P -> sub Q' Q -> disj P' Q'.
Proof. intros H A B x X Y. exact (H x (A x X) (B x Y)). Qed.
Lemma disj_sym P Q : disj P Q -> disj Q P. Proof. intros H x X Y. exact (H x Y X). Qed.

(** ** Writing *)
Lemma writes_refl P h : writes_only P h h. Proof. split; [lia|reflexivity]. Qed.
Lemma writes_trans P h h1 h2 : writes_only P h h1 -> writes_only (union P (fresh h h1)) h1 h2 -> writes_only P h h2.
Proof.
  intros [A1 B1] [A2 B2]. split; [lia|]. intros x X NP. rewrite B2; [apply B1; assumption|lia|].
  intros [Y|Y]; [exact (NP Y)|unfold fresh in Y; lia].
Qed.
Lemma writes_sub (P P' : Z -> Prop) h h' : writes_only P h h' -> (forall x, x < nx h -> P x -> P' x) -> writes_only P' h h'.
Proof. intros [A B] S. split; [exact A|]. intros x X N. apply B; auto. Qed.
Lemma put_writes a c h (P : Z -> Prop) : P a -> writes_only P h (put_cell a c h).
Proof. intros H. split; [cbn; lia|]. intros x _ N. cbn. destruct (Z.eqb_spec x a) as [->|]; [contradiction|reflexivity]. Qed.
Lemma fill_writes a n h : writes_only (seg a n) h (fill a n h).
Proof. split; [cbn; lia|]. intros x _ N. cbn. unfold seg in N. destruct (Z.leb_spec a x), (Z.ltb_spec x (a + n)); cbn [andb]; try reflexivity. lia. Qed.
Lemma copy_writes s d n h : writes_only (seg d n) h (copy s d n h).
Proof. split; [cbn; lia|]. intros x _ N. cbn. unfold seg in N. destruct (Z.leb_spec d x), (Z.ltb_spec x (d + n)); cbn [andb]; try reflexivity. lia. Qed.
Lemma alloc_writes n h P : 0 <= n -> writes_only P h (snd (alloc n h)).
Proof.
  intros N. split; [cbn; lia|]. intros x X _. cbn. destruct (Z.leb_spec (nx h) x); [lia|]. reflexivity.
Qed.
Lemma alloc_old n h x : x < nx h -> hp (snd (alloc n h)) x = hp h x.
Proof. intros X. cbn. destruct (Z.leb_spec (nx h) x); [lia|]. reflexivity. Qed.
Lemma alloc_zero n h x : seg (fst (alloc n h)) n x -> hp (snd (alloc n h)) x = CZero.
Proof. unfold seg. cbn. intros X. destruct (Z.leb_spec (nx h) x), (Z.ltb_spec x (nx h + n)); cbn [andb]; try reflexivity; lia. Qed.
Lemma fill_zero a n h x : seg a n x -> hp (fill a n h) x = CZero.
Proof. unfold seg. cbn. intros X. destruct (Z.leb_spec a x), (Z.ltb_spec x (a + n)); cbn [andb]; try reflexivity; lia. Qed.
Lemma copy_there s d n h o : 0 <= o < n -> hp (copy s d n h) (d + o) = hp h (s + o).
Proof. intros O. cbn. destruct (Z.leb_spec d (d + o)), (Z.ltb_spec (d + o) (d + n)); cbn [andb]; try lia. f_equal. lia. Qed.
Lemma copy_else s d n h x : ~ seg d n x -> hp (copy s d n h) x = hp h x.
Proof. intros N. cbn. unfold seg in N. destruct (Z.leb_spec d x), (Z.ltb_spec x (d + n)); cbn [andb]; try reflexivity; lia. Qed.
Lemma put_same a c h : hp (put_cell a c h) a = c. Proof. cbn. rewrite Z.eqb_refl. reflexivity. Qed.
Lemma put_else a c h x : x <> a -> hp (put_cell a c h) x = hp h x. Proof. intros N. cbn. destruct (Z.eqb_spec x a); [contradiction|reflexivity]. Qed.
Lemma mkey_eqb_eq a b : mkey_eqb a b = true -> a = b.
Proof.
  destruct a, b; cbn; intros E; try discriminate; f_equal.
  - revert s0 E. induction s as [|c s IH]; intros [|d t] E; cbn in E; try discriminate; [reflexivity|]. apply andb_true_iff in E as [E1 E2]. apply Z.eqb_eq in E1. f_equal; auto.
  - apply Z.eqb_eq, E.
  - revert s0 E. induction s as [|c s IH]; intros [|d t] E; cbn in E; try discriminate; [reflexivity|]. apply andb_true_iff in E as [E1 E2]. apply Z.eqb_eq in E1. f_equal; auto.
Qed.

(** ** Variables made of parts *)
Section Parts.
Context {A : Type} (er : nat -> st -> Z -> A -> (Z -> Prop) -> Prop) (off sz : nat -> Z).
Definition parts (h : st) (p : Z) (l : list A) (D : Z -> Prop) : Prop :=
  exists Q : nat -> Z -> Prop, (forall i x, nth_error l i = Some x -> er i h (p + off i) x (Q i)) /\
    (forall i, sub (Q i) D) /\ (forall i j, i <> j -> disj (Q i) (Q j)).
Definition laid (n : nat) (total : Z) : Prop :=
  (forall i, (i < n)%nat -> 0 <= sz i /\ 0 <= off i /\ off i + sz i <= total) /\
  (forall i j, (i < j)%nat -> (j < n)%nat -> off i + sz i <= off j).
Hypothesis er_move : forall i h h' p p' x D, er i h p x D -> (forall o, 0 <= o < sz i -> hp h' (p' + o) = hp h (p + o)) ->
  (forall y, D y -> hp h' y = hp h y) -> er i h' p' x D.

Lemma parts_mono h p l D D' : parts h p l D -> sub D D' -> parts h p l D'.
Proof. intros (Q & A1 & A2 & A3) S. exists Q. split; [exact A1|]. split; [|exact A3]. intros i. eapply sub_trans; [apply A2|exact S]. Qed.
Lemma parts_move h h' p p' l D total : laid (length l) total -> parts h p l D -> (forall o, 0 <= o < total -> hp h' (p' + o) = hp h (p + o)) ->
  (forall y, D y -> hp h' y = hp h y) -> parts h' p' l D.
Proof.
  intros LA (Q & A1 & A2 & A3) M K. exists Q. split; [|split; assumption]. intros i x N.
  assert (IL : (i < length l)%nat) by (apply nth_error_Some; congruence). destruct (proj1 LA i IL) as (S1 & S2 & S3).
  eapply er_move; [apply A1, N| |].
  - intros o O. replace (p' + off i + o) with (p' + (off i + o)) by lia. replace (p + off i + o) with (p + (off i + o)) by lia. apply M. lia.
  - intros y Y. apply K. apply (A2 i), Y.
Qed.
Lemma nth_set_nth (i j : nat) (y : A) l : (i < length l)%nat -> nth_error (set_nth i y l) j = if (j =? i)%nat then Some y else nth_error l j.
Proof.
  intros IL. unfold set_nth. destruct (Nat.eqb_spec j i) as [->|N].
  - rewrite nth_error_app2; rewrite firstn_length_le by lia; [|lia]. rewrite Nat.sub_diag. reflexivity.
  - destruct (Nat.lt_ge_cases j i).
    + rewrite nth_error_app1 by (rewrite firstn_length_le; lia). clear - H. revert l j H. induction i as [|i IH]; intros l j H; [lia|]. destruct l as [|a l]; [destruct j; reflexivity|]. destruct j as [|j]; [reflexivity|]. cbn. apply IH. lia.
    + rewrite nth_error_app2; rewrite firstn_length_le by lia; [|lia]. destruct (j - i)%nat as [|k] eqn:E; [lia|]. cbn [nth_error].
      clear - E. assert (X : (j = S i + k)%nat) by lia. subst j. clear E. revert l k. induction (S i) as [|n IH]; intros l k; [reflexivity|]. destruct l as [|a l]; [destruct k; reflexivity|]. cbn. apply IH.
Qed.
Lemma set_nth_length (i : nat) (y : A) l : (i < length l)%nat -> length (set_nth i y l) = length l.
Proof. intros H. unfold set_nth. rewrite app_length, firstn_length_le by lia. cbn [length]. rewrite skipn_length. lia. Qed.

(** One part is given another value. *)
Lemma parts_step h p l D total i x : laid (length l) total -> parts h p l D -> disj D (seg p total) -> (forall y, seg p total y \/ D y -> y < nx h) ->
  nth_error l i = Some x ->
  exists Qi, er i h (p + off i) x Qi /\ sub Qi D /\ disj Qi (seg (p + off i) (sz i)) /\ sub (seg (p + off i) (sz i)) (seg p total) /\
    forall h' y, er i h' (p + off i) y (union Qi (fresh h h')) -> writes_only (union (seg (p + off i) (sz i)) Qi) h h' ->
      parts h' p (set_nth i y l) (union D (fresh h h')).
Proof.
  intros LA (Q & A1 & A2 & A3) DJ BD N. assert (IL : (i < length l)%nat) by (apply nth_error_Some; congruence).
  destruct (proj1 LA i IL) as (S1 & S2 & S3).
  assert (SS : sub (seg (p + off i) (sz i)) (seg p total)) by (intros y; unfold seg; lia).
  exists (Q i). split; [apply A1, N|]. split; [apply A2|]. split; [eapply disj_sub; [exact DJ|apply A2|exact SS]|]. split; [exact SS|].
  intros h' y E [W1 W2]. exists (fun j => if (j =? i)%nat then union (Q i) (fresh h h') else Q j). split; [|split].
  - intros j z. rewrite nth_set_nth by exact IL. destruct (Nat.eqb_spec j i) as [->|NJ]; [intros X; injection X as <-; exact E|]. intros NZ.
    assert (JL : (j < length l)%nat) by (apply nth_error_Some; congruence). destruct (proj1 LA j JL) as (T1 & T2 & T3).
    assert (AP : forall o, 0 <= o < sz j -> ~ seg (p + off i) (sz i) (p + off j + o)).
    { intros o O X. unfold seg in X. destruct (Nat.lt_ge_cases i j); [pose proof (proj2 LA i j ltac:(lia) JL)|pose proof (proj2 LA j i ltac:(lia) IL)]; lia. }
    eapply er_move; [apply A1, NZ| |].
    + intros o O. apply W2; [apply BD; left; unfold seg; lia|]. intros [X|X]; [exact (AP o O X)|]. apply (DJ _ (A2 i _ X)). unfold seg. lia.
    + intros y' Y. apply W2; [apply BD; right; apply (A2 j), Y|]. intros [X|X]; [|exact (A3 i j ltac:(congruence) _ X Y)]. exact (DJ _ (A2 j _ Y) (SS _ X)).
  - intros j z. destruct (Nat.eqb_spec j i) as [->|NJ]; [intros [X|X]; [left; apply (A2 i), X|right; exact X]|intros X; left; apply (A2 j), X].
  - intros j k NE z. destruct (Nat.eqb_spec j i) as [->|NJ], (Nat.eqb_spec k i) as [->|NK]; try congruence.
    + intros [X|X] Y; [exact (A3 i k NE z X Y)|]. assert (z < nx h) by (apply BD; right; apply (A2 k), Y). unfold fresh in X. lia.
    + intros Y [X|X]; [exact (A3 j i NE z Y X)|]. assert (z < nx h) by (apply BD; right; apply (A2 j), Y). unfold fresh in X. lia.
    + apply A3, NE.
Qed.
End Parts.

Section Rep.
Context (V : tenv) (L : layout) (LO : lay_ok V L).
Notation size := (l_size L).
Notation rep := (rep V L).

Lemma stride_size t : stride L t = size t.
Proof.
  unfold stride, align. destruct (lo_align V L LO t) as [P [k E]]. rewrite E, Z.mod_mul by lia. rewrite Z.eqb_refl, andb_false_r. reflexivity.
Qed.
Lemma own_cell t a : leafy t = true \/ (exists e, t = YPtr e) \/ (exists e, t = YSlice e) \/ t = YBytes \/ (exists k e, t = YMap k e) \/ t = YMapSI \/ t = YMapSR -> seg a (size t) a.
Proof.
  intros H. unfold seg. pose proof (lo_one V L LO t) as O. destruct t; try lia; exfalso.
  all: destruct H as [H|[[? H]|[[? H]|[H|[(? & ? & H)|[H|H]]]]]]; discriminate.
Qed.
Lemma one_cell_leafy t m : one_cell t m -> leafy t = true.
Proof. destruct t, m; cbn; tauto. Qed.

Lemma rep_mono h t a m D D' : rep h t a m D -> sub D D' -> rep h t a m D'.
Proof.
  intros R. revert D'. induction R; intros D' S.
  - apply rp_leaf; assumption.
  - eapply rp_array; try eassumption. intros i. eapply sub_trans; [apply H2|exact S].
  - eapply rp_struct; try eassumption. intros k. eapply sub_trans; [apply H2|exact S].
  - apply rp_nil; assumption.
  - eapply rp_ptr; try eassumption; eapply sub_trans; eassumption.
  - apply rp_slice_nil; assumption.
  - eapply rp_slice; try eassumption; [intros i; eapply sub_trans; [apply H3|exact S]|eapply sub_trans; eassumption].
  - apply rp_bytes_nil; assumption.
  - eapply rp_bytes; try eassumption. eapply sub_trans; eassumption.
  - apply rp_map_nil; assumption.
  - eapply rp_map with (Q := Q) (R := R); try eassumption; [apply S; assumption|]. intros i. eapply sub_trans; [apply H6|exact S].
  - apply rp_map_si. apply IHR, S.
  - apply rp_map_sr. apply IHR, S.
Qed.

(** A variable can be copied to another place; what it refers to stays where it is. *)
Lemma rep_move h h' t a a' m D : rep h t a m D -> (forall o, 0 <= o < size t -> hp h' (a' + o) = hp h (a + o)) ->
  (forall y, D y -> hp h' y = hp h y) -> rep h' t a' m D.
Proof.
  intros R. revert a'.
  assert (HERE : forall t a a', 1 <= size t -> (forall o, 0 <= o < size t -> hp h' (a' + o) = hp h (a + o)) -> hp h' a' = hp h a).
  { intros u b b' O M. specialize (M 0 ltac:(lia)). rewrite !Z.add_0_r in M. exact M. }
  induction R; intros a' M K.
  - apply rp_leaf; [assumption|]. rewrite (HERE t a a'); [assumption| |assumption]. pose proof (lo_one V L LO t). destruct t, m; cbn in H; tauto || lia.
  - apply rp_array with (Q := Q); try assumption. intros i x N. apply (H1 i x N).
    + intros o O. assert (IL : (i < length l)%nat) by (apply nth_error_Some; congruence). pose proof (lo_array V L LO n e) as SA. rewrite SA in M.
      rewrite <- !Z.add_assoc. apply M. pose proof (lo_size V L LO e). nia.
    + intros y Y. apply K, (H2 i), Y.
  - apply rp_struct with (Q := Q); try assumption. intros k u x NU N. apply (H1 k u x NU N).
    + intros o O. destruct (lo_in V L LO i k u NU). rewrite <- !Z.add_assoc. apply M. lia.
    + intros y Y. apply K, (H2 k), Y.
  - apply rp_nil. rewrite (HERE (YPtr e) a a'); [assumption|exact (lo_one V L LO (YPtr e))|assumption].
  - apply rp_ptr with (p := p) (Q := Q); try assumption; [rewrite (HERE (YPtr e) a a'); [assumption|exact (lo_one V L LO (YPtr e))|assumption]|].
    apply IHR; [intros o O; apply K, H2; unfold seg; lia|intros y Y; apply K, H1, Y].
  - apply rp_slice_nil. rewrite (HERE (YSlice e) a a'); [assumption|exact (lo_one V L LO (YSlice e))|assumption].
  - apply rp_slice with (p := p) (Q := Q); try assumption; [rewrite (HERE (YSlice e) a a'); [assumption|exact (lo_one V L LO (YSlice e))|assumption]|].
    intros i x N. apply (H2 i x N); [|intros y Y; apply K, (H3 i), Y]. intros o O. apply K, H6. assert (IL : (i < length d)%nat) by (apply nth_error_Some; congruence).
    pose proof (lo_size V L LO e). unfold seg. nia.
  - apply rp_bytes_nil. rewrite (HERE YBytes a a'); [assumption|exact (lo_one V L LO YBytes)|assumption].
  - apply rp_bytes with (p := p); try assumption; [rewrite (HERE YBytes a a'); [assumption|exact (lo_one V L LO YBytes)|assumption]|].
    intros i z N. rewrite K; [apply H1, N|]. apply H2. assert (IL : (i < length d)%nat) by (apply nth_error_Some; congruence).
    pose proof (lo_one V L LO (YInt TUint8)) as O. cbn in O. unfold seg. nia.
  - apply rp_map_nil. rewrite (HERE (YMap k e) a a'); [assumption|exact (lo_one V L LO (YMap k e))|assumption].
  - apply rp_map with (q := q) (l := l) (Q := Q) (R := R); try assumption; [rewrite (HERE (YMap k e) a a'); [assumption|exact (lo_one V L LO (YMap k e))|assumption]|rewrite K; assumption|].
    intros i kx s ky x N1 N2. destruct (H5 i kx s N1) as (D1 & D2 & D3). apply (H4 i kx s ky x N1 N2).
    + intros o O. apply K, (H6 i), D2. unfold seg. lia.
    + intros y Y. apply K, (H6 i), D3, Y.
  - apply rp_map_si. apply IHR; [|assumption]. destruct (lo_map V L LO KYString YIface) as [-> _]. exact M.
  - apply rp_map_sr. apply IHR; [|assumption]. destruct (lo_map V L LO KYString YRaw) as [-> E]. rewrite <- E. exact M.
Qed.
Lemma rep_frame h h' t a m D : rep h t a m D -> (forall y, seg a (size t) y \/ D y -> hp h' y = hp h y) -> rep h' t a m D.
Proof. intros R K. eapply rep_move; [exact R| |]; [intros o O; apply K; left; unfold seg; lia|intros y Y; apply K; right; exact Y]. Qed.

(** Zeroed memory holds the zero value. *)
Lemma zero_leaf n n' t : leafy t = true -> zero_f V n t = zero_f V n' t.
Proof. destruct n, n', t; intros H; try discriminate H; reflexivity. Qed.
Lemma zero_one n t : leafy t = true -> one_cell t (zero_f V n t).
Proof. destruct n, t; intros H; try discriminate H; exact I. Qed.
Lemma rep_zero (ET : env_typed V) h t a : (forall x, seg a (size t) x -> hp h x = CZero) -> rep h t a (zero V t) emp.
Proof.
  destruct (et_rank V ET) as (rk & R1 & R2).
  assert (G : forall n t a, (forall i, In i (SpecFit.holds t) -> (rk i < n)%nat) -> (forall x, seg a (size t) x -> hp h x = CZero) -> rep h t a (zero_f V n t) emp).
  { induction n as [|n IHn]; intros u; induction u; intros b HR Z0.
    all: lazymatch goal with
         | |- rep _ (YArray ?k ?e) _ _ _ =>
             cbn [zero_f]; apply rp_array with (Q := fun _ => emp); [apply repeat_length| |intros i x []|intros i j _ x []]; intros i x N;
             match type of N with nth_error ?l _ = _ => assert (IL : (i < k)%nat) by (assert (LL : length l = k) by apply repeat_length; rewrite <- LL; apply nth_error_Some; congruence) end;
             apply nth_error_In, repeat_spec in N; subst x; apply IHu; [exact HR|]; intros x X; apply Z0; rewrite (lo_array V L LO);
             pose proof (lo_size V L LO e); unfold seg in *; nia
         | |- rep _ (YStruct _) _ _ _ => idtac
         | |- rep _ ?t _ _ _ =>
             assert (C0 : hp h b = CZero) by (apply Z0; unfold seg; pose proof (lo_one V L LO t) as O1; cbn in O1; lia);
             first [apply rp_nil; rewrite C0; reflexivity|apply rp_slice_nil; rewrite C0; reflexivity|apply rp_bytes_nil; rewrite C0; reflexivity
                   |apply rp_map_nil; rewrite C0; reflexivity|apply rp_map_si, rp_map_nil; rewrite C0; reflexivity|apply rp_map_sr, rp_map_nil; rewrite C0; reflexivity
                   |apply rp_leaf; [apply zero_one; reflexivity|rewrite C0; cbn [rd_leaf]; f_equal; apply zero_leaf; reflexivity]]
         end.
    - exfalso. specialize (HR i (or_introl eq_refl)). lia.
    - cbn [zero_f]. apply rp_struct with (Q := fun _ => emp); [apply map_length| |intros k x []|intros k k' _ x []]. intros k u x NU N.
      rewrite (map_nth_error _ _ _ NU) in N. injection N as <-. apply IHn.
      + intros j J. specialize (R1 i u j (nth_error_In _ _ NU) J). specialize (HR i (or_introl eq_refl)). lia.
      + intros x X. apply Z0. destruct (lo_in V L LO i k u NU). unfold seg in *. lia. }
  intros H. apply G; [intros i _; apply R2|exact H].
Qed.
End Rep.
