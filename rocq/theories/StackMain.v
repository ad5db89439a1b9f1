(** Disciplined programs see Tokenizers as values: the proof for C84. *)
From Verif Require Import Bytes ParseModel StringModel TokenModel StackModel SpecStack StackFacts.
From Coq Require Import Lia.

Definition where_ok (m : tmem) (u : nat -> use) (x : nat) : Prop :=
  forall a n, q_stack (m_tok m x) = Some (a, n) ->
    match a with Buf z => z = x \/ u z = Dead | Heap k => (k < m_made m)%nat end /\
    forall y o h n', y <> x -> u y = Live o h -> q_stack (m_tok m y) <> Some (a, n').
Definition live_ok (m : tmem) (v : nat -> tokenizer) (u : nat -> use) (x : nat) (o h : bool) : Prop :=
  rep m x (v x) /\ (o = false -> q_stack (m_tok m x) = None) /\
  (h = true -> forall a n, q_stack (m_tok m x) = Some (a, n) -> a = Buf x) /\ where_ok m u x.
Definition saved_ok (m : tmem) (v : nat -> tokenizer) (x z : nat) : Prop :=
  fields (m_tok m x) (v x) /\ match q_stack (m_tok m x) with
  | None => t_stack (v x) = []
  | Some (a, n) => a = Buf z /\ (n <= 8)%nat /\ t_stack (v x) = rev (firstn n (m_arr m (Buf x)))
  end.
Definition inv (m : tmem) (v : nat -> tokenizer) (u : nat -> use) : Prop :=
  (forall x o h, u x = Live o h -> live_ok m v u x o h) /\
  (forall x z, u x = Saved z -> saved_ok m v x z) /\
  (forall x, length (m_arr m (Buf x)) = 8%nat).

Lemma inv_start : inv zero_mem no_tok no_use.
Proof.
  repeat split; intros; try discriminate; reflexivity.
Qed.

Lemma fields_v q t : fields q t -> m_view q = v_view t.
Proof. intros (F1 & F2 & F3 & F4 & F5 & F6 & _). unfold m_view, v_view. congruence. Qed.

(** what stays when another variable y is changed *)
Lemma live_other m v u x o h m' v' u' y :
  live_ok m v u x o h -> x <> y ->
  m_tok m' x = m_tok m x -> v' x = v x ->
  (forall a n, q_stack (m_tok m x) = Some (a, n) -> m_arr m' a = m_arr m a) ->
  (m_made m <= m_made m')%nat ->
  (forall z, u z = Dead -> u' z = Dead) ->
  (forall z o h, z <> x -> z <> y -> u' z = Live o h -> u z = Live o h /\ m_tok m' z = m_tok m z) ->
  (forall a n n', q_stack (m_tok m x) = Some (a, n) -> forall o h, u' y = Live o h -> q_stack (m_tok m' y) <> Some (a, n')) ->
  live_ok m' v' u' x o h.
Proof.
  intros ((F & S) & Ho & Hh & W) N Et Ev Ea Em Ed El Ey.
  split; [split|split; [|split]].
  - rewrite Et, Ev. exact F.
  - rewrite Et, Ev. unfold stk in *. destruct (q_stack (m_tok m x)) as [[a n]|] eqn:E; [|exact S].
    rewrite (Ea a n eq_refl). exact S.
  - rewrite Et. exact Ho.
  - rewrite Et. exact Hh.
  - intros a n E. rewrite Et in E. destruct (W a n E) as [W1 W2]. split.
    + destruct a as [z|k]; [destruct W1; [left; assumption|right; auto]|lia].
    + intros z o' h' n' Nz Uz. destruct (Nat.eq_dec z y) as [->|Nzy].
      * eapply Ey; eassumption.
      * destruct (El z o' h' Nz Nzy Uz) as [U T]. rewrite T. eapply W2; eassumption.
Qed.

Lemma inv_reset m v u x b : inv m v u -> u x <> Dead ->
  inv (m_reset x b m) (upd v x (new_tokenizer b)) (upd u x (Live false true)).
Proof.
  intros (IL & IS & I8) Hx. split; [|split].
  - intros y o h U. destruct (Nat.eq_dec y x) as [->|N].
    + rewrite upd_same in U. injection U as <- <-. unfold live_ok, rep, where_ok.
      unfold m_reset. rewrite m_tok_set_same, upd_same. repeat split; intros; discriminate.
    + rewrite upd_other in U by exact N.
      apply (live_other m v u y o h _ _ _ x (IL _ _ _ U) N).
      * apply m_tok_set_other, N.
      * apply upd_other, N.
      * reflexivity.
      * simpl. lia.
      * intros z Uz. rewrite upd_other; [exact Uz|congruence].
      * intros z o' h' _ Nz Uz. rewrite upd_other in Uz by exact Nz. split; [exact Uz|apply m_tok_set_other, Nz].
      * intros. unfold m_reset. rewrite m_tok_set_same. discriminate.
  - intros y z U. destruct (Nat.eq_dec y x) as [->|N].
    + rewrite upd_same in U. discriminate.
    + rewrite upd_other in U by exact N. specialize (IS y z U). unfold saved_ok, m_reset in *.
      rewrite m_tok_set_other, upd_other by exact N. exact IS.
  - exact I8.
Qed.

Lemma own_ok m v u x o h : inv m v u -> u x = Live o h ->
  (match own m x with Buf z => z = x \/ u z = Dead | Heap k => (k < m_made m)%nat end) /\
  (forall y o' h' n, y <> x -> u y = Live o' h' -> q_stack (m_tok m y) <> Some (own m x, n)).
Proof.
  intros (IL & _ & _) U. unfold own. destruct (IL _ _ _ U) as (_ & _ & _ & W).
  destruct (q_stack (m_tok m x)) as [[a n]|] eqn:E.
  - exact (W a n E).
  - split; [left; reflexivity|]. intros y o' h' n N Uy Eq.
    destruct (IL _ _ _ Uy) as (_ & _ & _ & Wy). destruct (Wy _ _ Eq) as [[->|D] _]; congruence.
Qed.

Lemma inv_next grow m v u x o h : inv m v u -> u x = Live o h ->
  match m_next grow x m, tok_next (v x) with
  | Some (m', r), Some (t, r') => r = r' /\ m_view (m_tok m' x) = v_view t /\
      inv m' (upd v x t) (upd u x (Live (o || opening t) (h && Nat.leb (length (t_stack t)) 8)))
  | None, None => True
  | _, _ => False
  end.
Proof.
  intros I U. pose proof (own_ok _ _ _ _ _ _ I U) as [O1 O2]. pose proof I as (IL & IS & I8).
  destruct (IL _ _ _ U) as (R & Ho & Hh & W).
  assert (Hk : forall k, own m x = Heap k -> (k < m_made m)%nat) by (intros k E; rewrite E in O1; exact O1).
  pose proof (next_refines grow x m (v x) R Hk) as H.
  destruct (m_next grow x m) as [[m' r]|], (tok_next (v x)) as [[t r']|]; try contradiction; [|exact H].
  destruct H as (-> & R' & (FT & FA & FM & F8 & FS) & Op). split; [reflexivity|].
  split; [apply fields_v, R'|].
  assert (Arr : forall y o' h' a n, y <> x -> u y = Live o' h' -> q_stack (m_tok m y) = Some (a, n) -> m_arr m' a = m_arr m a).
  { intros y o' h' a n N Uy E. apply FA.
    - intros ->. exact (O2 _ _ _ _ N Uy E).
    - intros ->. destruct (IL _ _ _ Uy) as (_ & _ & _ & Wy). destruct (Wy _ _ E) as [K _]. lia. }
  split; [|split].
  - intros y o' h' Uy. destruct (Nat.eq_dec y x) as [->|N].
    + rewrite upd_same in Uy. injection Uy as <- <-. split; [rewrite upd_same; exact R'|]. split; [|split].
      * intros E. apply orb_false_iff in E as [E1 E2]. apply Op; auto.
      * intros E a n Eq. apply andb_true_iff in E as [E1 E2]. apply Nat.leb_le in E2.
        assert (Ow : own m x = Buf x).
        { unfold own. destruct (q_stack (m_tok m x)) as [[a' n']|] eqn:E; [|reflexivity]. exact (Hh E1 _ _ eq_refl). }
        destruct (FS _ _ Eq) as [[-> _]|(-> & _ & G)]; [exact Ow|].
        exfalso. rewrite Ow, I8 in G. destruct R' as [_ S']. unfold stk in S'. rewrite Eq in S'. destruct S' as [L S'].
        rewrite S', rev_length, firstn_length, Nat.min_l in E2 by exact L. lia.
      * intros a n Eq. destruct (FS _ _ Eq) as [[-> _]|(-> & G & _)].
        -- split.
           ++ destruct (own m x) as [z|k]; [|lia]. destruct O1 as [->|D]; [left; reflexivity|right].
              rewrite upd_other; [exact D|congruence].
           ++ intros y o' h' n' N Uy. rewrite upd_other in Uy by exact N. rewrite FT by exact N. exact (O2 _ _ _ _ N Uy).
        -- split; [exact G|]. intros y o' h' n' N Uy E. rewrite upd_other in Uy by exact N. rewrite FT in E by exact N.
           destruct (IL _ _ _ Uy) as (_ & _ & _ & Wy). destruct (Wy _ _ E) as [K _]. lia.
    + rewrite upd_other in Uy by exact N.
      apply (live_other m v u y o' h' _ _ _ x (IL _ _ _ Uy) N).
      * apply FT, N.
      * apply upd_other, N.
      * intros a n E. exact (Arr _ _ _ _ _ N Uy E).
      * exact FM.
      * intros z Uz. rewrite upd_other; [exact Uz|congruence].
      * intros z o2 h2 _ Nz Uz. rewrite upd_other in Uz by exact Nz. split; [exact Uz|apply FT, Nz].
      * intros a n n' E o2 h2 _ E'. destruct (IL _ _ _ Uy) as (_ & _ & _ & Wy).
        destruct (FS _ _ E') as [[-> _]|(-> & _ & _)].
        -- exact (O2 _ _ _ _ N Uy E).
        -- destruct (Wy _ _ E) as [K _]. lia.
  - intros y z Uy. destruct (Nat.eq_dec y x) as [->|N].
    + rewrite upd_same in Uy. discriminate.
    + rewrite upd_other in Uy by exact N. specialize (IS y z Uy). unfold saved_ok in *.
      rewrite FT by exact N. rewrite upd_other by exact N. rewrite (FA (Buf y)); [exact IS| |discriminate].
      intros E. rewrite <- E in O1. destruct O1; congruence.
  - intros y. rewrite F8. apply I8.
Qed.

Lemma m_arr_copy_same x y m : m_arr (m_copy x y m) (Buf y) = m_arr m (Buf x).
Proof. cbn. rewrite Nat.eqb_refl. reflexivity. Qed.
Lemma m_arr_copy_other x y m a : a <> Buf y -> m_arr (m_copy x y m) a = m_arr m a.
Proof. intros N. cbn -[aid_eqb]. rewrite aid_eqb_neq by exact N. reflexivity. Qed.
Lemma m_tok_copy_same x y m : m_tok (m_copy x y m) y = m_tok m x.
Proof. apply m_tok_set_same. Qed.
Lemma m_tok_copy_other x y m z : z <> y -> m_tok (m_copy x y m) z = m_tok m z.
Proof. intros N. unfold m_copy. rewrite m_tok_set_other by exact N. reflexivity. Qed.

(** The assignment *y = *x: what is left to show is what becomes of y. *)
Lemma inv_copy m v u x y w u' : inv m v u -> x <> y -> u y <> Dead -> w <> Dead ->
  u' y = w ->
  (forall z, z <> y -> u' z = u z \/ (z = x /\ u' z = Dead)) ->
  (forall o h, w = Live o h -> live_ok (m_copy x y m) (upd v y (v x)) u' y o h) ->
  (forall o h, w = Live o h -> forall a n z o' h' n', q_stack (m_tok m x) = Some (a, n) -> z <> y -> u' z = Live o' h' ->
     q_stack (m_tok m z) <> Some (a, n')) ->
  (forall z, w = Saved z -> saved_ok (m_copy x y m) (upd v y (v x)) y z) ->
  inv (m_copy x y m) (upd v y (v x)) u'.
Proof.
  intros (IL & IS & I8) Nxy Uy Ww Ey Eo HL HX HS.
  assert (Lu : forall z o h, z <> y -> u' z = Live o h -> u z = Live o h).
  { intros z o h N E. destruct (Eo z N) as [Z|[_ Z]]; congruence. }
  split; [|split].
  - intros z o h U. destruct (Nat.eq_dec z y) as [->|N]; [apply HL; congruence|].
    pose proof (Lu _ _ _ N U) as Uz. pose proof (IL _ _ _ Uz) as Z.
    apply (live_other m v u z o h _ _ _ y Z N).
    + apply m_tok_copy_other, N.
    + apply upd_other, N.
    + intros a n E. apply m_arr_copy_other. intros ->. destruct Z as (_ & _ & _ & W). destruct (W _ _ E) as [[K|K] _]; congruence.
    + simpl. lia.
    + intros k D. assert (Nk : k <> y) by congruence. destruct (Eo k Nk) as [K|[_ K]]; congruence.
    + intros k o' h' _ Nk Uk. split; [apply Lu; assumption|apply m_tok_copy_other, Nk].
    + intros a n n' E o' h' Uy' E'. rewrite m_tok_copy_same in E'.
      assert (Hw : w = Live o' h') by congruence. exact (HX _ _ Hw a n' z o h n E' N U E).
  - intros z k U. destruct (Nat.eq_dec z y) as [->|N]; [apply HS; congruence|].
    assert (Uz : u z = Saved k) by (destruct (Eo z N) as [Z|[_ Z]]; congruence).
    specialize (IS z k Uz). unfold saved_ok in *. rewrite m_tok_copy_other, upd_other by exact N.
    rewrite m_arr_copy_other by congruence. exact IS.
  - intros z. destruct (Nat.eq_dec z y) as [->|N]; [rewrite m_arr_copy_same; apply I8|].
    rewrite m_arr_copy_other by congruence. apply I8.
Qed.

Lemma inv_fresh m v u x y h : inv m v u -> x <> y -> u x = Live false h -> u y <> Dead ->
  inv (m_copy x y m) (upd v y (v x)) (upd u y (Live false true)).
Proof.
  intros I N U Uy. pose proof I as (IL & IS & I8). destruct (IL _ _ _ U) as ((F & S) & Ho & Hh & W).
  assert (Q : q_stack (m_tok m x) = None) by auto.
  apply (inv_copy m v u x y (Live false true)); auto; try discriminate.
  - apply upd_same.
  - intros z Nz. left. apply upd_other, Nz.
  - intros o h' E. injection E as <- <-. unfold live_ok, rep, where_ok. rewrite m_tok_copy_same, upd_same.
    split; [split; [exact F|]|].
    + rewrite Q in *. exact S.
    + repeat split; intros; congruence.
  - intros. congruence.
Qed.

Lemma inv_move m v u x y h : inv m v u -> x <> y -> u x = Live true h -> u y <> Dead ->
  inv (m_copy x y m) (upd v y (v x)) (upd (upd u x Dead) y (Live true false)).
Proof.
  intros I N U Uy. pose proof I as (IL & IS & I8). destruct (IL _ _ _ U) as ((F & S) & Ho & Hh & W).
  assert (Nb : forall a n, q_stack (m_tok m x) = Some (a, n) -> a <> Buf y).
  { intros a n E ->. destruct (W _ _ E) as [[K|K] _]; congruence. }
  apply (inv_copy m v u x y (Live true false)); auto; try discriminate.
  - apply upd_same.
  - intros z Nz. rewrite upd_other by exact Nz. destruct (Nat.eq_dec z x) as [->|K]; [right; rewrite upd_same; auto|left; apply upd_other, K].
  - intros o h' E. injection E as <- <-. unfold live_ok, rep, where_ok. rewrite m_tok_copy_same, upd_same.
    split; [split; [exact F|]|split; [discriminate|split; [discriminate|]]].
    + unfold stk in *. destruct (q_stack (m_tok m x)) as [[a n]|]; [|exact S].
      rewrite m_arr_copy_other by (eapply Nb; reflexivity). exact S.
    + intros a n E. destruct (W _ _ E) as [W1 W2]. split.
      * destruct a as [z|k]; [|exact W1]. right. assert (z <> y) by (intros ->; eapply Nb; [exact E|reflexivity]).
        rewrite upd_other by assumption. destruct W1 as [->|D]; [apply upd_same|].
        destruct (Nat.eq_dec z x) as [->|K]; [apply upd_same|rewrite upd_other; assumption].
      * intros z o' h' n' Nz Uz. rewrite upd_other in Uz by exact Nz.
        assert (z <> x) by (intros ->; rewrite upd_same in Uz; discriminate).
        rewrite upd_other in Uz by assumption. rewrite m_tok_copy_other by exact Nz. eapply W2; eassumption.
  - intros o h' _ a n z o' h'' n' E Nz Uz. rewrite upd_other in Uz by exact Nz.
    assert (z <> x) by (intros ->; rewrite upd_same in Uz; discriminate).
    rewrite upd_other in Uz by assumption. destruct (W _ _ E) as [_ W2]. eapply W2; eassumption.
Qed.

Lemma inv_save m v u x y : inv m v u -> x <> y -> u x = Live true true -> u y <> Dead ->
  inv (m_copy x y m) (upd v y (v x)) (upd u y (Saved x)).
Proof.
  intros I N U Uy. pose proof I as (IL & IS & I8). destruct (IL _ _ _ U) as ((F & S) & Ho & Hh & W).
  apply (inv_copy m v u x y (Saved x)); auto; try discriminate.
  - apply upd_same.
  - intros z Nz. left. apply upd_other, Nz.
  - intros z E. injection E as <-. unfold saved_ok. rewrite m_tok_copy_same, upd_same, m_arr_copy_same. split; [exact F|].
    unfold stk in S. destruct (q_stack (m_tok m x)) as [[a n]|]; [|exact S].
    rewrite (Hh eq_refl a n eq_refl) in *. destruct S as [S1 S2]. rewrite I8 in S1. auto.
Qed.

Lemma inv_back m v u x y : inv m v u -> x <> y -> u x = Saved y -> u y <> Dead ->
  inv (m_copy x y m) (upd v y (v x)) (upd u y (Live true true)).
Proof.
  intros I N U Uy. pose proof I as (IL & IS & I8). destruct (IS _ _ U) as (F & S).
  assert (K : forall a n z o h n', q_stack (m_tok m x) = Some (a, n) -> z <> y -> u z = Live o h -> q_stack (m_tok m z) <> Some (a, n')).
  { intros a n z o h n' E Nz Uz E'. rewrite E in S. destruct S as (-> & _).
    destruct (IL _ _ _ Uz) as (_ & _ & _ & W). destruct (W _ _ E') as [[K|K] _]; congruence. }
  apply (inv_copy m v u x y (Live true true)); auto; try discriminate.
  - apply upd_same.
  - intros z Nz. left. apply upd_other, Nz.
  - intros o h E. injection E as <- <-. unfold live_ok, rep, where_ok. rewrite m_tok_copy_same, upd_same.
    split; [split; [exact F|]|split; [discriminate|split]].
    + unfold stk. destruct (q_stack (m_tok m x)) as [[a n]|]; [|exact S]. destruct S as (-> & L & S).
      rewrite m_arr_copy_same, I8. split; [exact L|exact S].
    + intros _ a n E. rewrite E in S. apply S.
    + intros a n E. split.
      * rewrite E in S. destruct S as (-> & _). left. reflexivity.
      * intros z o' h' n' Nz Uz. rewrite upd_other in Uz by exact Nz. rewrite m_tok_copy_other by exact Nz. eapply K; eassumption.
  - intros o h _ a n z o' h' n' E Nz Uz. rewrite upd_other in Uz by exact Nz. eapply K; eassumption.
Qed.

Lemma inv_again m v u x y z : inv m v u -> x <> y -> u x = Saved z -> u y <> Dead ->
  inv (m_copy x y m) (upd v y (v x)) (upd u y (Saved z)).
Proof.
  intros I N U Uy. pose proof I as (IL & IS & I8). destruct (IS _ _ U) as (F & S).
  apply (inv_copy m v u x y (Saved z)); auto; try discriminate.
  - apply upd_same.
  - intros k Nk. left. apply upd_other, Nk.
  - intros k E. injection E as <-. unfold saved_ok. rewrite m_tok_copy_same, upd_same, m_arr_copy_same. auto.
Qed.

Theorem run_disciplined grow v u ops : disciplined v u ops -> forall m, inv m v u ->
  option_map fst (m_run grow ops m) = v_run ops v.
Proof.
  induction 1 as [|v u x b ops Hx D IH|v u x o h t r ops U E D IH|v u x o h ops U E|v u x y h ops N U Uy D IH|v u x y h ops N U Uy D IH|
    v u x y ops N U Uy D IH|v u x y ops N U Uy D IH|v u x y z ops N U Nz Uy D IH]; intros m I; simpl.
  - reflexivity.
  - rewrite <- (IH (m_reset x b m)) by (apply inv_reset; assumption). rewrite Nat.eqb_refl.
    destruct (m_run grow ops (m_reset x b m)) as [[l m2]|]; reflexivity.
  - pose proof (inv_next grow m v u x o h I U) as H. rewrite E in *.
    destruct (m_next grow x m) as [[m1 r1]|]; [|contradiction]. destruct H as (-> & Ev & I1). rewrite <- (IH m1 I1), <- Ev.
    destruct (m_run grow ops m1) as [[l m2]|]; reflexivity.
  - pose proof (inv_next grow m v u x o h I U) as H. rewrite E in *.
    destruct (m_next grow x m) as [[m1 r1]|]; [contradiction|reflexivity].
  - rewrite <- (IH (m_copy x y m)) by (eapply inv_fresh; eassumption).
    destruct I as (IL & _). destruct (IL _ _ _ U) as ((F & _) & _). rewrite <- (fields_v _ _ F), Nat.eqb_refl.
    destruct (m_run grow ops (m_copy x y m)) as [[l m2]|]; reflexivity.
  - rewrite <- (IH (m_copy x y m)) by (eapply inv_move; eassumption).
    destruct I as (IL & _). destruct (IL _ _ _ U) as ((F & _) & _). rewrite <- (fields_v _ _ F), Nat.eqb_refl.
    destruct (m_run grow ops (m_copy x y m)) as [[l m2]|]; reflexivity.
  - rewrite <- (IH (m_copy x y m)) by (eapply inv_save; eassumption).
    destruct I as (IL & _). destruct (IL _ _ _ U) as ((F & _) & _). rewrite <- (fields_v _ _ F), Nat.eqb_refl.
    destruct (m_run grow ops (m_copy x y m)) as [[l m2]|]; reflexivity.
  - rewrite <- (IH (m_copy x y m)) by (eapply inv_back; eassumption).
    destruct I as (_ & IS & _). destruct (IS _ _ U) as (F & _). rewrite <- (fields_v _ _ F), Nat.eqb_refl.
    destruct (m_run grow ops (m_copy x y m)) as [[l m2]|]; reflexivity.
  - rewrite <- (IH (m_copy x y m)) by (eapply inv_again; eassumption).
    destruct I as (_ & IS & _). destruct (IS _ _ U) as (F & _). rewrite <- (fields_v _ _ F), Nat.eqb_refl.
    destruct (m_run grow ops (m_copy x y m)) as [[l m2]|]; reflexivity.
Qed.
