(** C84: a Tokenizer keeps its stack in its own buffer; which programs can tell. *)
From Verif Require Import Bytes ParseModel StringModel TokenModel StackModel SpecStack StackFacts StackMain.
From Coq Require Import Lia.

(** Programs that keep to the discipline see Tokenizers as values: the results
    of Next and the exported fields are those of [v_run], whatever append does. *)
Theorem C84_disciplined grow ops : disciplined no_tok no_use ops ->
  option_map fst (m_run grow ops zero_mem) = v_run ops no_tok.
Proof. intros D. apply (run_disciplined grow no_tok no_use ops D), inv_start. Qed.

Theorem C84_growth grow grow' ops : disciplined no_tok no_use ops ->
  option_map fst (m_run grow ops zero_mem) = option_map fst (m_run grow' ops zero_mem).
Proof. intros D. rewrite !C84_disciplined by exact D. reflexivity. Qed.

(** Any program that assigns no Tokenizer to another keeps to it, with any
    number of Tokenizers, of any depth, in any order. *)
Lemma disciplined_no_copy ops : Forall no_copy ops -> forall v u, (forall x, exists o h, u x = Live o h) -> disciplined v u ops.
Proof.
  induction 1 as [|op ops H _ IH]; intros v u U; [constructor|].
  assert (K : forall x o h y, exists o' h', upd u x (Live o h) y = Live o' h').
  { intros x o h y. unfold upd. destruct (Nat.eqb y x); eauto. }
  destruct op as [x b|x|x y]; [| |destruct H].
  - apply Di_reset; [destruct (U x) as (o & h & ->); discriminate|apply IH; auto].
  - destruct (U x) as (o & h & E). destruct (tok_next (v x)) as [[t r]|] eqn:En.
    + eapply Di_next; eauto.
    + eapply Di_panic; eauto.
Qed.
Theorem C84_uncopied grow ops : Forall no_copy ops ->
  option_map fst (m_run grow ops zero_mem) = v_run ops no_tok.
Proof. intros H. apply C84_disciplined, disciplined_no_copy; [exact H|]. intros x. exists false, true. reflexivity. Qed.

(** * Going back *)

Lemma v_run_go ops : forall v, v_run ops v = option_map fst (v_go ops v).
Proof.
  induction ops as [|[x b|x|x y] ops IH]; intros v; simpl; [reflexivity| | |].
  - rewrite IH. destruct (v_go ops _) as [[l w]|]; reflexivity.
  - destruct (tok_next (v x)) as [[t r]|]; [|reflexivity]. rewrite IH. destruct (v_go ops _) as [[l w]|]; reflexivity.
  - rewrite IH. destruct (v_go ops _) as [[l w]|]; reflexivity.
Qed.
Lemma v_go_app a b : forall v, v_go (a ++ b) v =
  match v_go a v with Some (l, w) => option_map (fun p => (l ++ fst p, snd p)) (v_go b w) | None => None end.
Proof.
  induction a as [|[x c|x|x y] a IH]; intros v; simpl.
  - destruct (v_go b v) as [[l w]|]; reflexivity.
  - rewrite IH. destruct (v_go a _) as [[l w]|]; [|reflexivity]. simpl. destruct (v_go b w) as [[l' w']|]; reflexivity.
  - destruct (tok_next (v x)) as [[t r]|]; [|reflexivity]. rewrite IH. destruct (v_go a _) as [[l w]|]; [|reflexivity]. simpl.
    destruct (v_go b w) as [[l' w']|]; reflexivity.
  - rewrite IH. destruct (v_go a _) as [[l w]|]; [|reflexivity]. simpl. destruct (v_go b w) as [[l' w']|]; reflexivity.
Qed.
Lemma v_go_length ops : forall v l w, v_go ops v = Some (l, w) -> length l = length ops.
Proof.
  induction ops as [|[x b|x|x y] ops IH]; intros v l w H; simpl in H.
  - injection H as <- <-. reflexivity.
  - destruct (v_go ops _) as [[l' w']|] eqn:E; [|discriminate]. injection H as <- <-. simpl. f_equal. eapply IH, E.
  - destruct (tok_next (v x)) as [[t r]|]; [|discriminate]. destruct (v_go ops _) as [[l' w']|] eqn:E; [|discriminate].
    injection H as <- <-. simpl. f_equal. eapply IH, E.
  - destruct (v_go ops _) as [[l' w']|] eqn:E; [|discriminate]. injection H as <- <-. simpl. f_equal. eapply IH, E.
Qed.

Lemma v_go_only x ops : Forall (only x) ops -> forall v v' l w, v x = v' x -> v_go ops v = Some (l, w) ->
  exists w', v_go ops v' = Some (l, w') /\ w x = w' x /\ (forall y, y <> x -> w y = v y).
Proof.
  induction 1 as [|[y b|y|y z] ops H _ IH]; intros v v' l w E G; simpl in G; try simpl in H; try subst y.
  - injection G as <- <-. exists v'. auto.
  - destruct (v_go ops _) as [[l1 w1]|] eqn:G1; [|discriminate]. injection G as <- <-.
    destruct (IH _ (upd v' x (new_tokenizer b)) _ _ ltac:(rewrite !upd_same; reflexivity) G1) as (w2 & G2 & E2 & E3).
    exists w2. simpl. rewrite G2. repeat split; auto. intros y Ny. rewrite E3, upd_other by exact Ny. reflexivity.
  - destruct (tok_next (v x)) as [[t r]|] eqn:En; [|discriminate].
    destruct (v_go ops _) as [[l1 w1]|] eqn:G1; [|discriminate]. injection G as <- <-.
    destruct (IH _ (upd v' x t) _ _ ltac:(rewrite !upd_same; reflexivity) G1) as (w2 & G2 & E2 & E3).
    exists w2. simpl. rewrite <- E, En, G2. repeat split; auto. intros y Ny. rewrite E3, upd_other by exact Ny. reflexivity.
  - destruct H.
Qed.

Lemma tok_next_height t t' r : tok_next t = Some (t', r) -> (length (t_stack t) <= 8)%nat -> (opening t' = true -> t_depth t' < 8) ->
  (length (t_stack t') <= 8)%nat.
Proof.
  unfold tok_next. destruct (t_err t); [intros H; injection H as <- <-; auto|].
  destruct (skip_spaces (t_json t)) as [|c json]; [intros H; injection H as <- <-; simpl; lia|].
  destruct (scan_token (c :: json)) as [[[d v] b] er].
  destruct (Z.eqb_spec d 0); [intros H; injection H as <- <-; auto|].
  destruct (Z.eqb_spec d 123).
  { intros H L O. injection H as <- <-. subst d. specialize (O eq_refl). unfold tok_depth in O. simpl in *. lia. }
  destruct (Z.eqb_spec d 91).
  { intros H L O. injection H as <- <-. subst d. specialize (O eq_refl). unfold tok_depth in O. simpl in *. lia. }
  destruct ((d =? 125) || (d =? 93)).
  { unfold tok_pop. destruct (t_stack t) as [|[o k] st'].
    - intros H; injection H as <- <-; simpl; lia.
    - destruct (Bool.eqb (d =? 125) o); intros H; injection H as <- <-; simpl; lia. }
  destruct (Z.eqb_spec d 58); [intros H; injection H as <- <-; auto|].
  destruct (t_stack t) as [|[o k] st']; [discriminate|]. intros H; injection H as <- <-. simpl. lia.
Qed.

(** After a run of x alone that is shallow, x may be kept. *)
Lemma disciplined_shallow x ops : Forall (only x) ops -> forall v u l w rest o,
  u x = Live o true -> (length (t_stack (v x)) <= 8)%nat -> v_go ops v = Some (l, w) -> Forall (fun p => shallow (snd p)) l ->
  (forall u', (exists o', u' x = Live o' true) -> (forall y, y <> x -> u' y = u y) -> disciplined w u' rest) ->
  disciplined v u (ops ++ rest).
Proof.
  induction 1 as [|[y b|y|y z] ops H _ IH]; intros v u l w rest o U L G F K; simpl in G; try simpl in H; try subst y.
  - injection G as <- <-. apply K; eauto.
  - destruct (v_go ops _) as [[l1 w1]|] eqn:G1; [|discriminate]. injection G as <- <-. inversion F; subst.
    apply Di_reset; [congruence|]. eapply IH; [apply upd_same|rewrite upd_same; simpl; lia|exact G1|assumption|].
    intros u' U' E. apply K; [exact U'|]. intros y Ny. rewrite E, upd_other by exact Ny. reflexivity.
  - destruct (tok_next (v x)) as [[t r]|] eqn:En; [|discriminate].
    destruct (v_go ops _) as [[l1 w1]|] eqn:G1; [|discriminate]. injection G as <- <-. inversion F as [|p ps P1 P2]; subst.
    assert (L' : (length (t_stack t) <= 8)%nat).
    { eapply tok_next_height; [exact En|exact L|]. intros O. apply P1. simpl. unfold opening in O.
      apply orb_true_iff in O as [O|O]; apply Z.eqb_eq in O; auto. }
    eapply Di_next; [exact U|exact En|]. rewrite (proj2 (Nat.leb_le _ _) L'). cbn [andb].
    eapply IH; [apply upd_same|rewrite upd_same; exact L'|exact G1|assumption|].
    intros u' U' E. apply K; [exact U'|]. intros y Ny. rewrite E, upd_other by exact Ny. reflexivity.
  - destruct H.
Qed.
(** Any run of x alone. *)
Lemma disciplined_only x ops : Forall (only x) ops -> forall v u l w rest o h,
  u x = Live o h -> v_go ops v = Some (l, w) ->
  (forall u', (exists o' h', u' x = Live o' h') -> (forall y, y <> x -> u' y = u y) -> disciplined w u' rest) ->
  disciplined v u (ops ++ rest).
Proof.
  induction 1 as [|[y b|y|y z] ops H _ IH]; intros v u l w rest o h U G K; simpl in G; try simpl in H; try subst y.
  - injection G as <- <-. apply K; eauto.
  - destruct (v_go ops _) as [[l1 w1]|] eqn:G1; [|discriminate]. injection G as <- <-.
    apply Di_reset; [congruence|]. eapply IH; [apply upd_same|exact G1|].
    intros u' U' E. apply K; [exact U'|]. intros y Ny. rewrite E, upd_other by exact Ny. reflexivity.
  - destruct (tok_next (v x)) as [[t r]|] eqn:En; [|discriminate].
    destruct (v_go ops _) as [[l1 w1]|] eqn:G1; [|discriminate]. injection G as <- <-.
    eapply Di_next; [exact U|exact En|].
    eapply IH; [apply upd_same|exact G1|].
    intros u' U' E. apply K; [exact U'|]. intros y Ny. rewrite E, upd_other by exact Ny. reflexivity.
  - destruct H.
Qed.
Lemma m_run_v grow ops l m : m_run grow ops zero_mem = Some (l, m) -> disciplined no_tok no_use ops -> exists w, v_go ops no_tok = Some (l, w).
Proof.
  intros H D. pose proof (C84_disciplined grow ops D) as E. rewrite H, v_run_go in E. simpl in E.
  destruct (v_go ops no_tok) as [[l' w]|]; [|discriminate]. injection E as ->. eauto.
Qed.
Lemma v_m_run grow ops l w : v_go ops no_tok = Some (l, w) -> disciplined no_tok no_use ops -> exists m, m_run grow ops zero_mem = Some (l, m).
Proof.
  intros H D. pose proof (C84_disciplined grow ops D) as E. rewrite v_run_go, H in E. simpl in E.
  destruct (m_run grow ops zero_mem) as [[l' m]|]; [|discriminate]. injection E as ->. eauto.
Qed.

(** save := *t; use t in any way, Reset included; *t = save; go on.  What is
    returned after going back is what would have been returned without the
    detour, if no bracket was opened at a Depth of 8 or more before saving. *)
Theorem C84_backtrack grow x s pre mid post lp wp lm wm lq wq : x <> s ->
  Forall (only x) pre -> Forall (only x) mid -> Forall (only x) post ->
  v_go pre no_tok = Some (lp, wp) -> Forall (fun p => shallow (snd p)) lp ->
  v_go mid wp = Some (lm, wm) -> v_go post wp = Some (lq, wq) ->
  exists m m',
    m_run grow (pre ++ TCopy x s :: mid ++ TCopy s x :: post) zero_mem =
      Some (lp ++ (true, v_view (wp x)) :: lm ++ (true, v_view (wp x)) :: lq, m) /\
    m_run grow (pre ++ post) zero_mem = Some (lp ++ lq, m').
Proof.
  intros N Fp Fm Fq Gp Sh Gm Gq.
  assert (D1 : disciplined no_tok no_use (pre ++ post)).
  { rewrite <- (app_nil_r (pre ++ post)). eapply (disciplined_only x); [apply Forall_app; auto|reflexivity| |constructor].
    rewrite v_go_app, Gp, Gq. reflexivity. }
  assert (G1 : v_go (pre ++ post) no_tok = Some (lp ++ lq, wq)) by (rewrite v_go_app, Gp, Gq; reflexivity).
  destruct (v_go_only x mid Fm wp (upd wp s (wp x)) lm wm) as (wm' & Gm' & Em & _); [rewrite upd_other; auto|exact Gm|].
  destruct (v_go_only x mid Fm (upd wp s (wp x)) (upd wp s (wp x)) lm wm') as (_ & _ & _ & Eo); [reflexivity|exact Gm'|].
  assert (Es : wm' s = wp x) by (rewrite Eo by auto; apply upd_same).
  destruct (v_go_only x post Fq wp (upd wm' x (wm' s)) lq wq) as (wq' & Gq' & _); [rewrite upd_same; auto|exact Gq|].
  assert (G2 : v_go (pre ++ TCopy x s :: mid ++ TCopy s x :: post) no_tok =
               Some (lp ++ (true, v_view (wp x)) :: lm ++ (true, v_view (wp x)) :: lq, wq')).
  { rewrite v_go_app, Gp. simpl. rewrite v_go_app, Gm'. simpl. rewrite Gq'. simpl. rewrite Es. reflexivity. }
  assert (D2 : disciplined no_tok no_use (pre ++ TCopy x s :: mid ++ TCopy s x :: post)).
  { eapply (disciplined_shallow x pre Fp); [reflexivity|simpl; lia|exact Gp|exact Sh|].
    intros u (o & U) Eu. assert (Us : u s = Live false true) by (rewrite Eu; auto).
    assert (Hend : forall u', (exists o' h', u' x = Live o' h') -> disciplined (upd wm' x (wm' s)) u' post).
    { intros u' (o' & h' & U'). rewrite <- (app_nil_r post). eapply (disciplined_only x post Fq); [exact U'|exact Gq'|constructor]. }
    destruct o.
    - eapply Di_save; [exact N|exact U|congruence|].
      eapply (disciplined_only x mid Fm); [rewrite upd_other by exact N; exact U|exact Gm'|].
      intros u' (o' & h' & U') E'. eapply Di_back; [congruence|rewrite E' by auto; apply upd_same|congruence|].
      apply Hend. rewrite upd_same. eauto.
    - eapply Di_fresh; [exact N|exact U|congruence|].
      eapply (disciplined_only x mid Fm); [rewrite upd_other by exact N; exact U|exact Gm'|].
      intros u' (o' & h' & U') E'. eapply Di_fresh; [congruence|rewrite E' by auto; apply upd_same|congruence|].
      apply Hend. rewrite upd_same. eauto. }
  destruct (v_m_run grow _ _ _ G2 D2) as [m Hm]. destruct (v_m_run grow _ _ _ G1 D1) as [m' Hm']. eauto.
Qed.

(** * What is not so *)

Definition twice (n : nat) : nat := n.
Fixpoint nexts (x n : nat) : list top := match n with O => [] | S k => TNext x :: nexts x k end.

(** A copy of a Tokenizer inside brackets is not independent of it: the copy
    reads the 2 of [1,2] as the element with Index 2. *)
Definition ex_shared : list top := TReset 0 (bs "[1,2]") :: nexts 0 2 ++ TCopy 0 1 :: nexts 0 1 ++ nexts 1 2.
Theorem C84_independent_refuted :
  ~ (forall grow ops, option_map fst (m_run grow ops zero_mem) = v_run ops no_tok).
Proof. intros H. specialize (H twice ex_shared). vm_compute in H. discriminate H. Qed.
Example C84_shared_index :
  option_map (fun l => last (map (fun p => w_index (snd p)) l) 0) (option_map fst (m_run twice ex_shared zero_mem)) = Some 2 /\
  option_map (fun l => last (map (fun p => w_index (snd p)) l) 0) (v_run ex_shared no_tok) = Some 1.
Proof. split; vm_compute; reflexivity. Qed.

Lemma last_detour {A} (lp lm lq : list A) a b d : lq <> [] -> last (lp ++ a :: lm ++ b :: lq) d = last (lp ++ lq) d.
Proof.
  intros N. destruct (exists_last N) as (q0 & z & ->).
  replace (lp ++ a :: lm ++ b :: q0 ++ [z]) with ((lp ++ a :: lm ++ b :: q0) ++ [z]).
  - rewrite (app_assoc lp q0 [z]), !last_last. reflexivity.
  - rewrite <- app_assoc. simpl. rewrite <- app_assoc. reflexivity.
Qed.
(** Going back fails 9 deep. *)
Definition nine : list top := TReset 0 (bs "[[[[[[[[[1,2") :: nexts 0 9.
Theorem C84_deep_backtrack_refuted :
  ~ (forall grow mid post lp wp lm wm lq wq, Forall (only 0) mid -> Forall (only 0) post ->
       v_go nine no_tok = Some (lp, wp) -> v_go mid wp = Some (lm, wm) -> v_go post wp = Some (lq, wq) ->
       exists m, m_run grow (nine ++ TCopy 0 1 :: mid ++ TCopy 1 0 :: post) zero_mem =
         Some (lp ++ (true, v_view (wp 0%nat)) :: lm ++ (true, v_view (wp 0%nat)) :: lq, m)).
Proof.
  intros H. specialize (H twice (nexts 0 2) (nexts 0 3)).
  assert (F : forall n, Forall (only 0) (nexts 0 n)) by (induction n; simpl; constructor; simpl; auto).
  destruct (v_go nine no_tok) as [[lp wp]|] eqn:Gp; [|vm_compute in Gp; discriminate Gp].
  destruct (v_go (nexts 0 2) wp) as [[lm wm]|] eqn:Gm.
  2:{ assert (E : v_go (nine ++ nexts 0 2) no_tok = None) by (rewrite v_go_app, Gp, Gm; reflexivity). vm_compute in E. discriminate E. }
  destruct (v_go (nexts 0 3) wp) as [[lq wq]|] eqn:Gq.
  2:{ assert (E : v_go (nine ++ nexts 0 3) no_tok = None) by (rewrite v_go_app, Gp, Gq; reflexivity). vm_compute in E. discriminate E. }
  destruct (H lp wp lm wm lq wq (F 2%nat) (F 3%nat) eq_refl Gm Gq) as [m E].
  assert (E1 : v_run (nine ++ nexts 0 3) no_tok = Some (lp ++ lq)) by (rewrite v_run_go, v_go_app, Gp, Gq; reflexivity).
  apply (f_equal (fun r => match r with Some (l, _) => w_index (snd (last l (true, m_view (zero_mtok [])))) | None => 99 end)) in E.
  apply (f_equal (fun r => match r with Some l => w_index (snd (last l (true, m_view (zero_mtok [])))) | None => 98 end)) in E1.
  assert (L : last (lp ++ (true, v_view (wp 0%nat)) :: lm ++ (true, v_view (wp 0%nat)) :: lq) (true, m_view (zero_mtok [])) =
              last (lp ++ lq) (true, m_view (zero_mtok []))).
  { apply last_detour. intros ->. pose proof (v_go_length _ _ _ _ Gq) as Lq. discriminate Lq. }
  rewrite L in E. rewrite <- E1 in E. vm_compute in E. discriminate E.
Qed.

(** A copy made inside brackets does not survive the reuse of the original: the
    copy then rejects the end of the array. *)
Definition ex_reuse : list top := TReset 0 (bs "[1]") :: nexts 0 1 ++ TCopy 0 1 :: TReset 0 (bs "{}") :: nexts 0 1 ++ nexts 1 2.
Theorem C84_reuse_refuted :
  option_map (fun l => fst (last l (true, m_view (zero_mtok [])))) (option_map fst (m_run twice ex_reuse zero_mem)) = Some false /\
  option_map (fun l => fst (last l (true, m_view (zero_mtok [])))) (v_run ex_reuse no_tok) = Some true.
Proof. split; vm_compute; reflexivity. Qed.

(** * The hypotheses are met *)

(** Two Tokenizers, one of them 10 deep, in turn. *)
Example C84_two :
  let ops := TReset 0 (bs "[[[[[[[[[[1,2]") :: TReset 1 (bs "{""a"":1}") :: nexts 0 4 ++ nexts 1 2 ++ nexts 0 10 ++ nexts 1 4 in
  Forall no_copy ops /\
  option_map (fun l => map (fun p => (w_depth (snd p), w_index (snd p))) (skipn 16 l)) (option_map fst (m_run twice ops zero_mem)) =
    Some [(10, 1); (9, 0); (1, 0); (1, 0); (0, 0); (0, 0)].
Proof. split; [repeat constructor|vm_compute; reflexivity]. Qed.
(** Going back 8 deep. *)
Example C84_eight :
  let pre := TReset 0 (bs "[[[[[[[[1,2,3") :: nexts 0 9 in
  match v_go pre no_tok with
  | Some (lp, wp) => Forall (fun p => shallow (snd p)) lp /\
      option_map (fun l => map (fun p => (w_value (snd p), w_index (snd p))) (skipn 16 l))
        (option_map fst (m_run twice (pre ++ TCopy 0 1 :: nexts 0 4 ++ TCopy 1 0 :: nexts 0 2) zero_mem)) =
        Some [(bs ",", 0); (bs "2", 1)]
  | None => False
  end.
Proof.
  vm_compute. split; [|reflexivity]. repeat (apply Forall_cons; [vm_compute; try reflexivity; intros [E|E]; discriminate E|]). apply Forall_nil.
Qed.
(** A copy that takes the place of the original; a copy before anything is read. *)
Example C84_moves : disciplined no_tok no_use
  (TReset 0 (bs "[1]") :: TCopy 0 2 :: TNext 0 :: TNext 2 :: TCopy 0 1 :: TNext 1 :: TNext 2 :: TNext 1 :: nil).
Proof.
  apply Di_reset; [discriminate|].
  eapply Di_fresh; [discriminate|reflexivity|discriminate|].
  eapply Di_next; [reflexivity|vm_compute; reflexivity|].
  eapply Di_next; [reflexivity|vm_compute; reflexivity|].
  eapply Di_move; [discriminate|reflexivity|discriminate|].
  eapply Di_next; [reflexivity|vm_compute; reflexivity|].
  eapply Di_next; [reflexivity|vm_compute; reflexivity|].
  eapply Di_next; [reflexivity|vm_compute; reflexivity|].
  apply Di_end.
Qed.

Print Assumptions C84_disciplined.
Print Assumptions C84_growth.
Print Assumptions C84_uncopied.
Print Assumptions C84_backtrack.
Print Assumptions C84_independent_refuted.
Print Assumptions C84_deep_backtrack_refuted.
Print Assumptions C84_reuse_refuted.
