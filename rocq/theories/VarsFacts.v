(** Facts about memory with variables that may refer to each other in any way
    (SpecVars.v): reading, writing, allocating, copying. *)
From Verif Require DecFacts.
From Verif Require Import Bytes IntModel EncModel DecModel TypeModel TypeFacts SpecFit TypeSafe AddrModel SpecAddr AddrFacts SpecVars.

Section Vars.
Context (V : tenv) (L : layout) (LO : lay_ok V L) (ET : env_typed V).
Notation size := (l_size L).
Notation cell_of := (cell_of V L).
Notation typed := (typed V L).
Notation cell_ok := (cell_ok V L).
Notation good := (good V L).
Notation within := (within V L).
Notation moves := (moves V L).

(** ** The cells of a variable *)
Definition one (t : gty) : Prop := match t with YArray _ _ | YStruct _ => False | _ => True end.
Lemma cell_of_one t a x u : cell_of t a x u -> one u.
Proof. induction 1; assumption. Qed.
Lemma one_size t : one t -> 1 <= size t.
Proof. intros O. pose proof (lo_one V L LO t) as H. destruct t; try exact H; destruct O. Qed.
Lemma cell_of_in t a x u : cell_of t a x u -> seg a (size t) x.
Proof.
  induction 1 as [t a O|n e a i x u I C IH|i a k t x u N C IH].
  - unfold seg. pose proof (one_size t O). lia.
  - unfold seg in *. rewrite (lo_array V L LO). pose proof (lo_size V L LO e). nia.
  - destruct (lo_in V L LO i k t N). unfold seg in *. lia.
Qed.
Lemma cell_of_move d t a x u : cell_of t a x u -> cell_of t (a + d) (x + d) u.
Proof.
  induction 1 as [t a O|n e a i x u I C IH|i a k t x u N C IH].
  - apply co_one, O.
  - eapply co_array; [exact I|]. replace (a + d + Z.of_nat i * size e) with (a + Z.of_nat i * size e + d) by lia. exact IH.
  - eapply co_struct; [exact N|]. replace (a + d + l_off L i k) with (a + l_off L i k + d) by lia. exact IH.
Qed.
Lemma elem_apart e a i j x : seg (a + Z.of_nat i * size e) (size e) x -> seg (a + Z.of_nat j * size e) (size e) x -> i = j.
Proof. unfold seg. intros A B. pose proof (lo_size V L LO e). assert (~ (i < j)%nat) by (intros C; nia). assert (~ (j < i)%nat) by (intros C; nia). lia. Qed.
Lemma field_apart i a k k' u u' x : nth_error (v_decl V i) k = Some u -> nth_error (v_decl V i) k' = Some u' ->
  seg (a + l_off L i k) (size u) x -> seg (a + l_off L i k') (size u') x -> k = k'.
Proof.
  unfold seg. intros A B X Y. assert (~ (k < k')%nat) by (intros C; pose proof (lo_order V L LO i k k' u u' A B C); lia).
  assert (~ (k' < k)%nat) by (intros C; pose proof (lo_order V L LO i k' k u' u B A C); lia). lia.
Qed.
Lemma cell_of_fun t a x u u' : cell_of t a x u -> cell_of t a x u' -> u = u'.
Proof.
  intros C. revert u'. induction C as [t a O|n e a i x u I C IH|i a k t x u N C IH]; intros u' C'; inversion C'; subst; try contradiction; try reflexivity.
  - apply IH. match goal with H : cell_of e _ x u' |- _ => pose proof (elem_apart e a _ _ x (cell_of_in _ _ _ _ C) (cell_of_in _ _ _ _ H)); subst; exact H end.
  - match goal with H : nth_error _ ?k' = Some ?t', H2 : cell_of ?t' _ x u' |- _ => pose proof (field_apart i a _ _ _ _ x N H (cell_of_in _ _ _ _ C) (cell_of_in _ _ _ _ H2)); subst k'; rewrite N in H; injection H as <-; apply IH; exact H2 end.
Qed.
Lemma some_below (P : nat -> Prop) n : (forall i, P i \/ ~ P i) -> (exists i, (i < n)%nat /\ P i) \/ ~ (exists i, (i < n)%nat /\ P i).
Proof.
  intros D. induction n as [|n [IH|IH]]; [right; intros (i & I & _); lia| |].
  - left. destruct IH as (i & I & H). exists i. split; [lia|exact H].
  - destruct (D n) as [H|H]; [left; exists n; auto|]. right. intros (i & I & H'). destruct (Nat.eq_dec i n) as [->|]; [auto|]. apply IH. exists i. split; [lia|exact H'].
Qed.
Lemma cell_of_dec t a x : (exists u, cell_of t a x u) \/ ~ (exists u, cell_of t a x u).
Proof.
  destruct (et_rank V ET) as (rk & R1 & R2).
  assert (G : forall n t a, (forall i, In i (SpecFit.holds t) -> (rk i < n)%nat) -> (exists u, cell_of t a x u) \/ ~ (exists u, cell_of t a x u)).
  { induction n as [|n IHn]; intros w; induction w; intros b HR;
    try (destruct (Z.eq_dec b x) as [->|NX]; [left; eexists; apply co_one; exact I|right; intros (u9 & C); inversion C; subst; congruence]).
    all: lazymatch goal with
         | |- (exists u, cell_of (YArray ?k ?e) _ _ u) \/ _ =>
             destruct (some_below (fun i => exists u, cell_of e (b + Z.of_nat i * size e) x u) k) as [(i & I & u & C)|NO];
             [intros i; apply IHw, HR|left; exists u; eapply co_array; eauto|right; intros (u & C); inversion C; subst; [contradiction|]; apply NO; eauto]
         | |- _ => idtac
         end.
    - exfalso. specialize (HR i (or_introl eq_refl)). lia.
    - destruct (some_below (fun k => exists t u, nth_error (v_decl V i) k = Some t /\ cell_of t (b + l_off L i k) x u) (length (v_decl V i))) as [(k & K & t1 & u & N & C)|NO].
      + intros k. destruct (nth_error (v_decl V i) k) as [t1|] eqn:N; [|right; intros (t1 & u & E & _); congruence].
        destruct (IHn t1 (b + l_off L i k)) as [(u & C)|NC]; [|left; eauto|right; intros (t' & u & E & C); injection E as <-; apply NC; eauto].
        intros j J. specialize (R1 i t1 j (nth_error_In _ _ N) J). specialize (HR i (or_introl eq_refl)). lia.
      + left. exists u. eapply co_struct; eassumption.
      + right. intros (u & C). inversion C; subst; [contradiction|]. apply NO. exists k. split; [apply nth_error_Some; congruence|eauto]. }
  apply (G (v_depth V)). intros i _. apply R2.
Qed.

(** ** Variables *)
Lemma typed_mono (T T' : vars) t a : typed T t a -> (forall x k, T x k -> T' x k) -> typed T' t a.
Proof. intros [A B] S. split; auto. Qed.
Lemma typed_one T t a : one t -> typed T t a -> T a (KVar t).
Proof. intros O [A _]. apply A, co_one, O. Qed.
Lemma one_typed (T : vars) t a : one t -> T a (KVar t) -> (forall x, seg (a + 1) (size t - 1) x -> T x KPad) -> typed T t a.
Proof.
  intros O H P. split.
  - intros x u C. inversion C; subst; try contradiction. exact H.
  - intros x X N. apply P. unfold seg in *. assert (x <> a) by (intros ->; apply N; eexists; apply co_one, O). lia.
Qed.
Lemma typed_elem T n e a i : typed T (YArray n e) a -> (i < n)%nat -> typed T e (a + Z.of_nat i * size e).
Proof.
  intros [A B] I. split; [intros x u C; apply A; eapply co_array; eassumption|]. intros x X N. apply B.
  - rewrite (lo_array V L LO). unfold seg in *. pose proof (lo_size V L LO e). nia.
  - intros (u & C). inversion C; subst; [contradiction|]. apply N. exists u. match goal with H : cell_of e (a + Z.of_nat ?j * _) x u |- _ => pose proof (elem_apart e a i j x X (cell_of_in _ _ _ _ H)); subst; exact H end.
Qed.
Lemma typed_prefix T n m e a : typed T (YArray n e) a -> (m <= n)%nat -> typed T (YArray m e) a.
Proof.
  intros [A B] I. split.
  - intros x u C. inversion C; subst; [contradiction|]. apply A. eapply co_array; [|eassumption]. lia.
  - intros x X N. apply B; [rewrite (lo_array V L LO) in *; unfold seg in *; pose proof (lo_size V L LO e); nia|].
    intros (u & C). inversion C; subst; [contradiction|]. apply N. exists u. eapply co_array; [|eassumption].
    match goal with H : cell_of e (a + Z.of_nat ?j * _) x u |- _ => pose proof (cell_of_in _ _ _ _ H) as S end. rewrite (lo_array V L LO) in X. unfold seg in *. pose proof (lo_size V L LO e). nia.
Qed.
Lemma typed_none T e a : typed T (YArray 0 e) a.
Proof. split; [intros x u C; inversion C; subst; [contradiction|lia]|]. intros x X. rewrite (lo_array V L LO) in X. unfold seg in X. lia. Qed.
Lemma typed_field T i a k u : typed T (YStruct i) a -> nth_error (v_decl V i) k = Some u -> typed T u (a + l_off L i k).
Proof.
  intros [A B] N. split; [intros x w C; apply A; eapply co_struct; eassumption|]. intros x X NC. apply B.
  - destruct (lo_in V L LO i k u N). unfold seg in *. lia.
  - intros (w & C). inversion C; subst; [contradiction|]. apply NC. exists w.
    match goal with H : nth_error _ ?k' = Some ?t', H2 : cell_of ?t' _ x w |- _ => pose proof (field_apart i a k k' _ _ x N H X (cell_of_in _ _ _ _ H2)); subst k'; rewrite N in H; injection H as <-; exact H2 end.
Qed.

(** ** What can be reached *)
Lemma within_self t : one t -> within t (KVar t).
Proof. intros O. eapply (wi_own V L t 0 0 t). apply co_one, O. Qed.
Lemma within_part t e : (forall a x u, cell_of e a x u -> exists a', cell_of t a' x u) -> forall k, within e k -> within t k.
Proof.
  intros H k W. induction W as [e a x u C|e e' k W1 IH1 W2 _|e s e' k W1 IH1 E W2 _|e m k e' W1 IH1 E|e m kk e' k W1 IH1 E W2 _|e].
  - destruct (H _ _ _ C) as (a' & C'). eapply wi_own, C'.
  - eapply wi_ptr; [apply IH1, H|exact W2].
  - eapply wi_slice; [apply IH1, H|exact E|exact W2].
  - eapply wi_map; [apply IH1, H|exact E].
  - eapply wi_val; [apply IH1, H|exact E|exact W2].
  - apply wi_pad.
Qed.
Lemma within_elem n e k : (0 < n)%nat -> within e k -> within (YArray n e) k.
Proof. intros P. apply within_part. intros a x u C. exists a. eapply (co_array V L n e a 0); [exact P|]. replace (a + Z.of_nat 0 * size e) with a by lia. exact C. Qed.
Lemma within_of_array n e k : within (YArray n e) k -> within e k.
Proof. apply within_part. intros a x u C. inversion C; subst; [contradiction|]. eauto. Qed.
Lemma within_field i f u k : nth_error (v_decl V i) f = Some u -> within u k -> within (YStruct i) k.
Proof. intros N. apply within_part. intros a x w C. exists (a - l_off L i f). eapply co_struct; [exact N|]. replace (a - l_off L i f + l_off L i f) with a by lia. exact C. Qed.
Lemma within_ptr e k : within e k -> within (YPtr e) k.
Proof. intros W. eapply wi_ptr; [apply within_self; exact I|exact W]. Qed.
Lemma within_slice s e k : slice_elem s = Some e -> within e k -> within s k.
Proof. intros E W. eapply wi_slice; [apply within_self; destruct s; try discriminate; exact I|exact E|exact W]. Qed.
Lemma within_val m kk e k : map_elem m = Some (kk, e) -> within e k -> within m k.
Proof. intros E W. eapply wi_val; [apply within_self; destruct m; try discriminate; exact I|exact E|exact W]. Qed.
Lemma within_map m k e : map_elem m = Some (k, e) -> within m (KMap k e).
Proof. intros E. eapply wi_map; [apply within_self; destruct m; try discriminate; exact I|exact E]. Qed.
Lemma flat_sub t e : flat_slices V L t -> (forall k, within e k -> within t k) -> flat_slices V L e.
Proof. intros H S s x W. apply H, S, W. Qed.

(** ** Cells *)
Lemma cell_ok_mono (T T' : vars) c k : cell_ok T c k -> (forall x k, T x k -> T' x k) -> cell_ok T' c k.
Proof.
  intros H S. destruct k as [t|k e|]; cbn [SpecVars.cell_ok] in *; [|destruct H as (l & E & ND' & H); exists l; split; [exact E|]; split; [exact ND'|]; intros key s IN; destruct (H key s IN); split; [assumption|]; eapply typed_mono; [eassumption|exact S]|exact I].
  destruct t; try exact H.
  - destruct H as (e & d & len & cap & E & R & LE & H). exists e, d, len, cap. repeat (split; [assumption|]). destruct d; [eapply typed_mono; eassumption|exact H].
  - destruct H as (e & d & len & cap & E & R & LE & H). exists e, d, len, cap. repeat (split; [assumption|]). destruct d; [eapply typed_mono; eassumption|exact H].
  - destruct H as (kk & e & q & E & R & H). exists kk, e, q. repeat (split; [assumption|]). auto.
  - destruct H as (kk & e & q & E & R & H). exists kk, e, q. repeat (split; [assumption|]). auto.
  - destruct H as (kk & e & q & E & R & H). exists kk, e, q. repeat (split; [assumption|]). auto.
  - destruct H as (p & R & H). exists p. split; [exact R|]. intros v E. eapply typed_mono; [apply H, E|exact S].
Qed.
Lemma zero_ok (T : vars) u : one u -> cell_ok T CZero (KVar u).
Proof.
  intros O. destruct u; try contradiction; cbn [SpecVars.cell_ok rd_leaf rd_ptr rd_slice rd_map];
  try (eexists; split; [reflexivity|apply (zero_fits V ET)]).
  - exists (YInt TUint8), None, 0%nat, 0%nat. auto.
  - eexists _, None, 0%nat, 0%nat. split; [reflexivity|]. auto.
  - eexists _, _, None. split; [reflexivity|]. split; [reflexivity|discriminate].
  - eexists _, _, None. split; [reflexivity|]. split; [reflexivity|discriminate].
  - eexists _, _, None. split; [reflexivity|]. split; [reflexivity|discriminate].
  - exists None. split; [reflexivity|discriminate].
Qed.

(** ** Changes *)
Lemma moves_refl t T h : good h T -> moves t T h T h.
Proof. intros G. split; auto; lia. Qed.
Lemma moves_trans t T h T1 h1 T2 h2 : moves t T h T1 h1 -> moves t T1 h1 T2 h2 -> moves t T h T2 h2.
Proof.
  intros [A1 B1 C1 D1 E1] [A2 B2 C2 D2 E2]. split; [auto| |exact C2|lia|].
  - intros x k H. destruct (B2 x k H) as [H'|H']; [apply B1, H'|right; lia].
  - intros x X N. rewrite E2; [apply E1; assumption|lia|]. intros k K. destruct (B1 x k K) as [K'|K']; [apply N, K'|lia].
Qed.
Lemma moves_weaken t e T h T' h' : (forall k, within e k -> within t k) -> moves e T h T' h' -> moves t T h T' h'.
Proof. intros S [A B C D E]. split; try assumption. intros x X N. apply E; [exact X|]. intros k K W. exact (N k K (S k W)). Qed.
Lemma moves_put t T h a k c : good h T -> T a k -> within t k -> cell_ok T c k -> moves t T h T (put_cell a c h).
Proof.
  intros [G1 G2] TA W OK. split; [auto|auto| |cbn; lia|].
  - split; [|exact G2]. intros x k' H. split; [apply (G1 x k' H)|]. cbn. destruct (Z.eqb_spec x a) as [->|]; [|apply (G1 x k' H)]. rewrite (G2 _ _ _ H TA). exact OK.
  - intros x X N. apply put_else. intros ->. exact (N k TA W).
Qed.
(** The kinds of the addresses of a variable. *)
Definition block (t : gty) (a : Z) (x : Z) (k : kind) : Prop :=
  (exists u, cell_of t a x u /\ k = KVar u) \/ (seg a (size t) x /\ ~ (exists u, cell_of t a x u) /\ k = KPad).
Lemma typed_block (T : vars) t a : (forall x k, block t a x k -> T x k) -> typed T t a.
Proof. intros H. split; [intros x u C; apply H; left; eauto|intros x X N; apply H; right; auto]. Qed.
Lemma block_in t a x k : block t a x k -> seg a (size t) x.
Proof. intros [(u & C & _)|(H & _)]; [eapply cell_of_in, C|exact H]. Qed.
Lemma kind_block (T : vars) t a x k : (forall x k k', T x k -> T x k' -> k = k') -> typed T t a -> seg a (size t) x -> T x k -> block t a x k.
Proof.
  intros G [A B] X H. destruct (cell_of_dec t a x) as [(u & C)|N].
  - left. exists u. split; [exact C|]. eapply G; [exact H|apply A, C].
  - right. split; [exact X|]. split; [exact N|]. eapply G; [exact H|apply B; assumption].
Qed.
Lemma block_within t a x k : block t a x k -> within t k.
Proof. intros [(u & C & ->)|(_ & _ & ->)]; [eapply wi_own, C|apply wi_pad]. Qed.
Lemma typed_kind T t a x : typed T t a -> seg a (size t) x -> exists k, T x k /\ within t k.
Proof.
  intros [A B] X. destruct (cell_of_dec t a x) as [(u & C)|N]; [exists (KVar u); split; [apply A, C|eapply wi_own, C]|]. exists KPad. split; [apply B; assumption|apply wi_pad].
Qed.
Definition tplus (T : vars) (P : vars) : vars := fun x k => T x k \/ P x k.
Lemma moves_new t e T h n : good h T -> n = size e ->
  moves t T h (tplus T (block e (nx h))) (snd (alloc n h)) /\ typed (tplus T (block e (nx h))) e (nx h).
Proof.
  intros [G1 G2] ->. pose proof (lo_size V L LO e) as SP. split; [|apply typed_block; intros x k B; right; exact B]. split.
  - intros x k H. left. exact H.
  - intros x k [H|H]; [left; exact H|]. right. apply block_in in H. unfold seg in H. lia.
  - split.
    + intros x k [H|H].
      * destruct (G1 x k H) as [X OK]. split; [cbn; lia|]. rewrite alloc_old by exact X. eapply cell_ok_mono; [exact OK|]. intros; left; assumption.
      * pose proof (block_in _ _ _ _ H) as X. split; [cbn; unfold seg in X; lia|]. rewrite alloc_zero by exact X.
        destruct H as [(u & C & ->)|(_ & _ & ->)]; [|exact I]. apply zero_ok. eapply cell_of_one, C.
    + assert (OLD : forall x k, T x k -> ~ seg (nx h) (size e) x) by (intros x k H X; pose proof (proj1 (G1 x k H)); unfold seg in X; lia).
      intros x k k' [H|H] [H'|H']; [eapply G2; eassumption|exfalso; eapply OLD; [exact H|eapply block_in, H']|exfalso; eapply OLD; [exact H'|eapply block_in, H]|].
      destruct H as [(u & C & ->)|(_ & N & ->)], H' as [(u' & C' & ->)|(_ & N' & ->)]; [f_equal; eapply cell_of_fun; eassumption|exfalso; apply N'; eauto|exfalso; apply N; eauto|reflexivity].
  - cbn. lia.
  - intros x X _. apply alloc_old, X.
Qed.
Lemma moves_new_map t kk e T h : good h T ->
  moves t T h (tplus T (fun x k => x = nx h /\ k = KMap kk e)) (snd (alloc 1 h)).
Proof.
  intros [G1 G2]. split.
  - intros x k H. left. exact H.
  - intros x k [H|[-> _]]; [left; exact H|right; lia].
  - split.
    + intros x k [H|[-> ->]].
      * destruct (G1 x k H) as [X OK]. split; [cbn; lia|]. rewrite alloc_old by exact X. eapply cell_ok_mono; [exact OK|]. intros; left; assumption.
      * split; [cbn; lia|]. rewrite alloc_zero by (unfold seg; cbn; lia). exists []. split; [reflexivity|]. split; [constructor|intros key s []].
    + intros x k k' [H|[-> ->]] [H'|[E' ->]]; [eapply G2; eassumption| | |reflexivity]; exfalso; [pose proof (proj1 (G1 _ _ H)); lia|pose proof (proj1 (G1 _ _ H')); lia].
  - cbn. lia.
  - intros x X _. apply alloc_old, X.
Qed.
Lemma moves_fill T h e v : good h T -> typed T e v -> moves e T h T (fill v (size e) h).
Proof.
  intros [G1 G2] TV. split; [auto|auto| |cbn; lia|].
  - split; [|exact G2]. intros x k H. split; [apply (G1 x k H)|].
    assert (C : seg v (size e) x \/ ~ seg v (size e) x) by (unfold seg; lia). destruct C as [X|X].
    + rewrite fill_zero by exact X. destruct (kind_block T e v x k G2 TV X H) as [(u & C & ->)|(_ & _ & ->)]; [|exact I]. apply zero_ok. eapply cell_of_one, C.
    + rewrite (proj2 (fill_writes v (size e) h)); [apply (G1 x k H)|apply (G1 x k H)|exact X].
  - intros x X N. apply (proj2 (fill_writes v (size e) h)); [exact X|]. intros S. destruct (typed_kind T e v x TV S) as (k & K & W). exact (N k K W).
Qed.
Lemma moves_copy T h e v s n : good h T -> typed T e v -> typed T e s -> n = size e -> moves e T h T (copy v s n h).
Proof.
  intros [G1 G2] TV TS ->. split; [auto|auto| |cbn; lia|].
  - split; [|exact G2]. intros x k H. split; [apply (G1 x k H)|].
    assert (C : seg s (size e) x \/ ~ seg s (size e) x) by (unfold seg; lia). destruct C as [X|X].
    + replace x with (s + (x - s)) by lia. rewrite copy_there by (unfold seg in X; lia).
      destruct (kind_block T e s x k G2 TS X H) as [(u & C & ->)|(_ & _ & ->)]; [|exact I]. apply (cell_of_move (v - s)) in C.
      replace (s + (v - s)) with v in C by lia. replace (v + (x - s)) with (x + (v - s)) by lia. apply (G1 _ _ (proj1 TV _ _ C)).
    + rewrite copy_else by exact X. apply (G1 x k H).
  - intros x X N. apply copy_else. intros S. destruct (typed_kind T e s x TS S) as (k & K & W). exact (N k K W).
Qed.
Lemma typed_after t T h T' h' u a : moves t T h T' h' -> typed T u a -> typed T' u a.
Proof. intros M H. eapply typed_mono; [exact H|apply (mv_keep _ _ _ _ _ _ _ M)]. Qed.
Lemma slot_in k l s : slot k l = Some s -> exists k', In (k', s) l.
Proof. induction l as [|[k' s'] l IH]; [discriminate|]. cbn. destruct (mkey_eqb k' k); [intros [= <-]; eauto|]. intros E. destruct (IH E) as (k2 & IN). eauto. Qed.
Lemma NoDup_app_one {A} (l : list A) x : NoDup l -> ~ In x l -> NoDup (l ++ [x]).
Proof. intros H N. apply (NoDup_Add (Add_app x l [])). rewrite app_nil_r. auto. Qed.
Lemma mkey_eqb_refl k : mkey_eqb k k = true.
Proof. destruct k; cbn; try apply Z.eqb_refl; apply DecFacts.beqb_eq; reflexivity. Qed.
Lemma slot_none k l : slot k l = None -> ~ In k (map fst l).
Proof. induction l as [|[k' s'] l IH]; [intros _ []|]. cbn. destruct (mkey_eqb k' k) eqn:E; [discriminate|]. intros N [->|IN]; [rewrite mkey_eqb_refl in E; discriminate|exact (IH N IN)]. Qed.
Lemma set_index_moves t kk e T h q key v sz : good h T -> T q (KMap kk e) -> key_fits kk key -> typed T e v -> within t (KMap kk e) -> (forall k, within e k -> within t k) -> sz = size e ->
  exists h1 T1, set_index sz q key v h = Some h1 /\ moves t T h T1 h1.
Proof.
  intros G TQ KF TV WM WE ->. destruct (proj1 G _ _ TQ) as [_ (l & RL & ND' & HL)]. unfold set_index. rewrite RL. destruct (slot key l) as [s|] eqn:SL.
  - destruct (slot_in _ _ _ SL) as (k' & IN). eexists _, T. split; [reflexivity|]. eapply moves_weaken; [exact WE|]. apply moves_copy; auto. apply (HL _ _ IN).
  - destruct (moves_new t e T h (size e) G eq_refl) as [M TS]. set (T1 := tplus T _) in *. assert (AL : alloc (size e) h = (nx h, snd (alloc (size e) h))) by reflexivity. rewrite AL.
    set (h1 := snd (alloc (size e) h)) in *.
    assert (M2 : moves t T1 h1 T1 (copy v (nx h) (size e) h1)).
    { eapply moves_weaken; [exact WE|]. apply moves_copy; [apply (mv_good _ _ _ _ _ _ _ M)|eapply typed_after; eassumption|exact TS|reflexivity]. }
    eexists _, T1. split; [reflexivity|]. eapply moves_trans; [exact M|]. eapply moves_trans; [exact M2|].
    eapply moves_put; [apply (mv_good _ _ _ _ _ _ _ M2)|apply (mv_keep _ _ _ _ _ _ _ M), TQ|exact WM|].
    eexists. split; [reflexivity|]. split.
    + rewrite map_app. apply NoDup_app_one; [exact ND'|apply slot_none, SL].
    + intros key' s IN. apply in_app_or in IN as [IN|[[= <- <-]|[]]]; [|split; [exact KF|exact TS]]. destruct (HL _ _ IN). split; [assumption|]. eapply typed_after; [exact M|assumption].
Qed.
End Vars.
