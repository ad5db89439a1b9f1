(** Theorems about decoding into memory in which variables refer to each other in
    any way, also in cycles (SpecVars.v): C70. *)
From Verif Require Import Bytes ParseModel IntModel StringModel EncModel DecModel TypeModel TypeFacts SpecFit AddrModel SpecAddr AddrFacts AddrMain AddrLayout SpecVars VarsFacts AddrSafe PropsType PropsAddr.

(** C70, for types in which no slice can be reached from its own elements:
    whatever refers to whatever in memory, Unmarshal returns, and does not panic;
    every variable of memory then holds a value of its type (slices no more
    elements than they have room for, references to variables of their type); and only
    variables of types that can be reached from the target's are written. *)
Theorem C70_any_memory_partial V F L t a b h T : lay_ok V L -> env_typed V -> env_ok V -> flat_slices V L t -> wf b -> good V L h T -> typed V L T t a ->
  let '(e, h') := m_unmarshal V F L t a b h in
  e <> Some EPanicked /\ e <> Some EFuel /\ exists T', moves V L t T h T' h'.
Proof.
  intros LO ET EO FS W G TA. unfold m_unmarshal, unmarshal_with, parse_with, m_decode. cbn [d_rest d_err d_val].
  assert (Ws : wf (skip_spaces b)) by (apply TypeSound.skip_read in W; destruct W as (w & _ & _ & H & _); exact H). set (s := skip_spaces b) in *.
  destruct (dec_ran V F L LO ET EO (S (length s)) t FS a s h T Ws ltac:(lia) G TA) as [FI M]. set (X := m_dec V F L (S (length s)) t a s h) in *.
  assert (NE : d_err X <> Some EPanicked /\ d_err X <> Some EFuel).
  { unfold fine in FI. destruct (d_err X); [destruct FI; split; congruence|split; discriminate]. }
  destruct NE. destruct (skip_spaces (d_rest X)); repeat split; try assumption; discriminate.
Qed.
(** What is at no address of a variable, or in a variable of a type that cannot be
    reached from the target's, is the same afterwards. *)
Theorem C70_untouched_partial V F L t a b h T x : lay_ok V L -> env_typed V -> env_ok V -> flat_slices V L t -> wf b -> good V L h T -> typed V L T t a ->
  x < nx h -> (forall k, T x k -> ~ within V L t k) -> hp (snd (m_unmarshal V F L t a b h)) x = hp h x.
Proof.
  intros LO ET EO FS W G TA X N. pose proof (C70_any_memory_partial V F L t a b h T LO ET EO FS W G TA) as H.
  destruct (m_unmarshal V F L t a b h) as [e h']. destruct H as (_ & _ & T' & M). exact (mv_frame _ _ _ _ _ _ _ M x X N).
Qed.

(** * type Node struct { V int; N *Node; M map[string]*Node }
      two nodes that refer to each other, with one map that refers to the first. *)
Notation rg_ptr := (YPtr (YStruct 0)).
Definition rg_env : tenv := TEnv (fun i => match i with O => [YInt TInt64; rg_ptr; YMap KYString rg_ptr] | _ => [] end) 1
  (fun i => match i with O => [JField (bs "v") [PIn 0] (YInt TInt64) QNo; JField (bs "n") [PIn 1] rg_ptr QNo; JField (bs "m") [PIn 2] (YMap KYString rg_ptr) QNo] | _ => [] end)
  (v_float ex_env) (v_time ex_env) (v_dur ex_env) (v_b64 ex_env) (v_json ex_env) (v_text ex_env) (v_lower ex_env) (v_fold ex_env).
Lemma rg_typed : env_typed rg_env.
Proof.
  destruct ex_env_typed as [_ _ E3 E4 E5 E6]. constructor; try assumption.
  - intros [|i] f H; [|destruct H]. cbn [v_flds rg_env In] in H. repeat destruct H as [<-|H]; try contradiction; (eapply ld_in; [reflexivity|apply ld_here]).
  - exists (fun _ => O). split; [|intros i; cbn; lia]. intros [|i] u j H J; [|destruct H]. cbn [v_decl rg_env In] in H. repeat destruct H as [<-|H]; try contradiction; destruct J.
Qed.
Lemma rg_ok : env_ok rg_env.
Proof.
  destruct ex_env_ok as [E1 E2 E3 E4 _]. constructor; try assumption.
  intros [|i] f H; [|destruct H]. cbn [v_flds rg_env In] in H. repeat destruct H as [<-|H]; try contradiction; cbn; congruence.
Qed.
Notation rg_lay := (go_layout rg_env).
Lemma rg_cells a x u : cell_of rg_env rg_lay (YStruct 0) a x u -> (x = a /\ u = YInt TInt64) \/ (x = a + 8 /\ u = rg_ptr) \/ (x = a + 16 /\ u = YMap KYString rg_ptr).
Proof.
  intros C. inversion C as [? ? O| |i a' k t x' u' N C']; subst; [destruct O|].
  assert (OF : l_off rg_lay 0 0 = 0 /\ l_off rg_lay 0 1 = 8 /\ l_off rg_lay 0 2 = 16) by (vm_compute; auto). destruct OF as (O0 & O1 & O2).
  destruct k as [|[|[|k]]]; cbn [v_decl rg_env nth_error] in N; try (destruct k; discriminate N); injection N as <-; inversion C'; subst.
  - left. split; [lia|reflexivity].
  - right. left. split; [lia|reflexivity].
  - right. right. split; [lia|reflexivity].
Qed.
Lemma rg_kinds t k : within rg_env rg_lay t k -> t = YStruct 0 \/ t = rg_ptr -> k = KVar (YInt TInt64) \/ k = KVar rg_ptr \/ k = KVar (YMap KYString rg_ptr) \/ k = KMap KYString rg_ptr \/ k = KPad.
Proof.
  intros W. induction W as [t a x u C|t e k W1 IH1 W2 IH2|t s e k W1 IH1 E W2 IH2|t m k e W1 IH1 E|t m kk e k W1 IH1 E W2 IH2|t]; intros HT.
  - destruct HT as [-> | ->]; [destruct (rg_cells _ _ _ C) as [[_ ->]|[[_ ->]|[_ ->]]]; auto|]. inversion C; subst. auto.
  - apply IH2. destruct (IH1 HT) as [[= ]|[[= ->]|[[= ]|[[= ]|[= ]]]]]. auto.
  - destruct (IH1 HT) as [[= ->]|[[= ->]|[[= ->]|[[= ]|[= ]]]]]; discriminate.
  - destruct (IH1 HT) as [[= ->]|[[= ->]|[[= ->]|[[= ]|[= ]]]]]; try discriminate. injection E as <- <-. auto.
  - apply IH2. destruct (IH1 HT) as [[= ->]|[[= ->]|[[= ->]|[[= ]|[= ]]]]]; try discriminate. injection E as <- <-. auto.
  - auto.
Qed.
Lemma rg_flat : flat_slices rg_env rg_lay (YStruct 0).
Proof.
  intros s e W E. destruct (rg_kinds _ _ W (or_introl eq_refl)) as [[= ->]|[[= ->]|[[= ->]|[[= ]|[= ]]]]]; discriminate.
Qed.
Definition rg_mem : st :=
  St (fun x => match x with
      | 1000 => CLeaf (MInt 1) | 1008 => CPtr (Some 1024) | 1016 => CMap (Some 1048)
      | 1024 => CLeaf (MInt 2) | 1032 => CPtr (Some 1000) | 1040 => CMap (Some 1048)
      | 1048 => CObj [(MKStr (bs "a"), 1056)] | 1056 => CPtr (Some 1000) | _ => CZero end) 1064.
Definition rg_vars : vars := fun x k =>
  block rg_env rg_lay (YStruct 0) 1000 x k \/ block rg_env rg_lay (YStruct 0) 1024 x k \/ (x = 1048 /\ k = KMap KYString rg_ptr) \/ block rg_env rg_lay rg_ptr 1056 x k.
Lemma rg_good : good rg_env rg_lay rg_mem rg_vars.
Proof.
  assert (SS : l_size rg_lay (YStruct 0) = 24 /\ l_size rg_lay rg_ptr = 8) by (vm_compute; auto). destruct SS as [S1 S2].
  assert (T1 : typed rg_env rg_lay rg_vars (YStruct 0) 1000) by (apply typed_block; unfold rg_vars; auto).
  assert (T2 : typed rg_env rg_lay rg_vars (YStruct 0) 1024) by (apply typed_block; unfold rg_vars; auto).
  assert (T3 : typed rg_env rg_lay rg_vars rg_ptr 1056) by (apply typed_block; unfold rg_vars; auto).
  assert (T4 : rg_vars 1048 (KMap KYString rg_ptr)) by (right; right; left; auto).
  assert (LO := C69_layout rg_env rg_typed).
  split.
  - intros x k [B|[B|[[-> ->]|B]]]; [| |split; [cbn; lia|]; eexists; split; [reflexivity|]; split; [repeat constructor; intros []|]; intros key s [[= <- <-]|[]]; split; [exact I|exact T3]|];
    (split; [apply (block_in rg_env rg_lay LO) in B; rewrite ?S1, ?S2 in B; unfold seg in B; cbn; lia|]);
    (destruct B as [(u & C & ->)|(_ & _ & ->)]; [|exact I]).
    + destruct (rg_cells _ _ _ C) as [[-> ->]|[[-> ->]|[-> ->]]]; cbn.
      * eexists. split; [reflexivity|]. constructor. cbn. lia.
      * eexists. split; [reflexivity|]. intros v [= <-]. exact T2.
      * eexists _, _, _. split; [reflexivity|]. split; [reflexivity|]. intros v [= <-]. exact T4.
    + destruct (rg_cells _ _ _ C) as [[-> ->]|[[-> ->]|[-> ->]]]; cbn.
      * eexists. split; [reflexivity|]. constructor. cbn. lia.
      * eexists. split; [reflexivity|]. intros v [= <-]. exact T1.
      * eexists _, _, _. split; [reflexivity|]. split; [reflexivity|]. intros v [= <-]. exact T4.
    + inversion C; subst. cbn. eexists. split; [reflexivity|]. intros v [= <-]. exact T1.
  - assert (SEG : forall x k, rg_vars x k -> (block rg_env rg_lay (YStruct 0) 1000 x k /\ 1000 <= x < 1024) \/ (block rg_env rg_lay (YStruct 0) 1024 x k /\ 1024 <= x < 1048) \/
        (k = KMap KYString rg_ptr /\ x = 1048) \/ (block rg_env rg_lay rg_ptr 1056 x k /\ 1056 <= x < 1064)).
    { intros x k [B|[B|[[-> ->]|B]]]; [| |auto|]; pose proof (block_in rg_env rg_lay LO _ _ _ _ B) as X; rewrite ?S1, ?S2 in X; unfold seg in X; [left|right; left|right; right; right]; (split; [exact B|lia]). }
    assert (BF : forall t a x k k', block rg_env rg_lay t a x k -> block rg_env rg_lay t a x k' -> k = k').
    { intros t a x k k' [(u & C & ->)|(_ & N & ->)] [(u' & C' & ->)|(_ & N' & ->)]; [f_equal; eapply cell_of_fun; eassumption|exfalso; apply N'; eauto|exfalso; apply N; eauto|reflexivity]. }
    intros x k k' H H'. destruct (SEG x k H) as [[B X]|[[B X]|[[-> X]|[B X]]]], (SEG x k' H') as [[B' X']|[[B' X']|[[-> X']|[B' X']]]]; try lia; try (eapply BF; eassumption). reflexivity.
Qed.
Definition rg_text : bytes := bs "{""v"":5,""n"":{""n"":{""v"":6},""m"":{""a"":{""v"":7},""b"":{}}}}".
Definition rg_run : option err * st := m_unmarshal rg_env ex_flags rg_lay (YStruct 0) 1000 rg_text rg_mem.
Example C70_case : lay_ok rg_env rg_lay /\ env_typed rg_env /\ env_ok rg_env /\ flat_slices rg_env rg_lay (YStruct 0) /\ wf rg_text /\
  good rg_env rg_lay rg_mem rg_vars /\ typed rg_env rg_lay rg_vars (YStruct 0) 1000 /\
  (* through the second node, the text sets the first node's V again; both see the new entry of the map *)
  (fst rg_run, map (hp (snd rg_run)) [1000; 1008; 1024; 1032; 1040; 1048; 1056]) =
  (None, [CLeaf (MInt 6); CPtr (Some 1024); CLeaf (MInt 2); CPtr (Some 1000); CMap (Some 1048); CObj [(MKStr (bs "a"), 1056); (MKStr (bs "b"), 1120)]; CPtr (Some 1072)]) /\
  hp (snd rg_run) 1072 = CLeaf (MInt 7).
Proof.
  split; [apply C69_layout, rg_typed|]. split; [apply rg_typed|]. split; [apply rg_ok|]. split; [apply rg_flat|].
  split; [repeat constructor; unfold is_byte; cbn; lia|]. split; [apply rg_good|]. split; [apply typed_block; unfold rg_vars; auto|].
  split; vm_compute; reflexivity.
Qed.

(** Any number of Unmarshal calls one after the other, into any variables of memory:
    none of them panics or fails to return, and memory stays as it should be. *)
Theorem C70_history_partial V F L ops h T : lay_ok V L -> env_typed V -> env_ok V -> good V L h T ->
  (forall t a b, In (t, a, b) ops -> flat_slices V L t /\ wf b /\ typed V L T t a) ->
  let run := fold_left (fun s '(t, a, b) => let '(e, h') := m_unmarshal V F L t a b (snd s) in (fst s ++ [e], h')) ops ([], h) in
  ~ In (Some EPanicked) (fst run) /\ ~ In (Some EFuel) (fst run) /\
  exists T', good V L (snd run) T' /\ (forall x k, T x k -> T' x k).
Proof.
  intros LO ET EO G H. cbv zeta.
  assert (R : forall ops es h T, good V L h T -> (forall t a b, In (t, a, b) ops -> flat_slices V L t /\ wf b /\ typed V L T t a) -> ~ In (Some EPanicked) es -> ~ In (Some EFuel) es ->
    let run := fold_left (fun s '(t, a, b) => let '(e, h') := m_unmarshal V F L t a b (snd s) in (fst s ++ [e], h')) ops (es, h) in
    ~ In (Some EPanicked) (fst run) /\ ~ In (Some EFuel) (fst run) /\ exists T', good V L (snd run) T' /\ (forall x k, T x k -> T' x k)).
  { clear ops h T G H. induction ops as [|[[t a] b] ops IH]; intros es h T G H N1 N2; cbn [fold_left]; [repeat split; try assumption; exists T; auto|].
    destruct (H t a b (or_introl eq_refl)) as (FS & W & TA). pose proof (C70_any_memory_partial V F L t a b h T LO ET EO FS W G TA) as M. cbn [snd fst].
    destruct (m_unmarshal V F L t a b h) as [e h']. destruct M as (E1 & E2 & T1 & M).
    destruct (IH (es ++ [e]) h' T1) as (R1 & R2 & T2 & R3 & R4).
    - apply (mv_good _ _ _ _ _ _ _ M).
    - intros t' a' b' IN. destruct (H t' a' b' (or_intror IN)) as (X1 & X2 & X3). repeat split; try assumption. all: apply (typed_after V L _ _ _ _ _ _ _ M X3).
    - intros IN. apply in_app_or in IN as [IN|[IN|[]]]; [exact (N1 IN)|congruence].
    - intros IN. apply in_app_or in IN as [IN|[IN|[]]]; [exact (N2 IN)|congruence].
    - repeat split; try assumption. exists T2. split; [exact R3|]. intros x k K. apply R4, (mv_keep _ _ _ _ _ _ _ M), K. }
  apply R; auto.
Qed.
(** A new variable of any type is one more variable of memory. *)
Theorem C70_new V L t h T : lay_ok V L -> env_typed V -> good V L h T -> let '(a, h') := alloc (l_size L t) h in
  exists T', typed V L T' t a /\ good V L h' T' /\ forall x k, T x k -> T' x k.
Proof.
  intros LO ET G. destruct (moves_new V L LO ET t t T h _ G eq_refl) as [M TA]. destruct (alloc (l_size L t) h) as [a h'] eqn:AL.
  assert (E : a = nx h) by (injection AL as <- _; reflexivity). subst a. cbn [snd] in M. eexists. split; [exact TA|]. split; [apply (mv_good _ _ _ _ _ _ _ M)|apply (mv_keep _ _ _ _ _ _ _ M)].
Qed.

(** The condition on slices is needed: with type T struct { S []*T } and t.S[0] = &t
    (PropsAddr.v), a slice has more elements than room afterwards. *)
Definition cy_vars : vars := fun x k => block cy_env (go_layout cy_env) (YStruct 0) 0 x k \/ block cy_env (go_layout cy_env) (YPtr (YStruct 0)) 100 x k.
Lemma cy_cells a x u : cell_of cy_env (go_layout cy_env) (YStruct 0) a x u -> x = a /\ u = YSlice (YPtr (YStruct 0)).
Proof.
  intros C. inversion C as [? ? O| |i a' k t x' u' N C']; subst; [destruct O|].
  assert (O0 : l_off (go_layout cy_env) 0 0 = 0) by (vm_compute; auto).
  destruct k as [|k]; cbn [v_decl cy_env nth_error] in N; [|destruct k; discriminate N]. injection N as <-. inversion C'; subst. split; [lia|reflexivity].
Qed.
Theorem C70_refuted : exists V F L t a b h T, lay_ok V L /\ env_typed V /\ env_ok V /\ wf b /\ good V L h T /\ typed V L T t a /\
  ~ exists T', moves V L t T h T' (snd (m_unmarshal V F L t a b h)).
Proof.
  exists cy_env, ex_flags, (go_layout cy_env), (YStruct 0), 0, (bs "{""S"":[{""S"":[null]},null]}"), cy_mem, cy_vars.
  assert (LO := C69_layout cy_env cy_typed).
  assert (SS : l_size (go_layout cy_env) (YStruct 0) = 24 /\ l_size (go_layout cy_env) (YPtr (YStruct 0)) = 8) by (vm_compute; auto). destruct SS as [S1 S2].
  assert (T1 : typed cy_env (go_layout cy_env) cy_vars (YStruct 0) 0) by (apply typed_block; unfold cy_vars; auto).
  assert (T2 : typed cy_env (go_layout cy_env) cy_vars (YPtr (YStruct 0)) 100) by (apply typed_block; unfold cy_vars; auto).
  split; [exact LO|]. split; [apply cy_typed|]. split.
  { destruct ex_env_ok as [E1 E2 E3 E4 _]. constructor; try assumption. intros [|i] f H; [|destruct H]. destruct H as [<-|[]]. cbn. congruence. }
  split; [repeat constructor; unfold is_byte; cbn; lia|]. split; [|split; [exact T1|]].
  - split.
    + intros x k [B|B]; (split; [apply (block_in cy_env _ LO) in B; rewrite ?S1, ?S2 in B; unfold seg in B; cbn; lia|]); (destruct B as [(u & C & ->)|(_ & _ & ->)]; [|exact I]).
      * destruct (cy_cells _ _ _ C) as [-> ->]. cbn. eexists _, _, _, _. split; [reflexivity|]. split; [reflexivity|]. split; [lia|]. split.
        -- intros x u C'. inversion C' as [? ? O|n e a i x' u' I0 C0|]; subst; [destruct O|]. destruct i as [|i]; [|lia]. rewrite Z.mul_0_l, Z.add_0_r in C0. apply T2, C0.
        -- intros x X N. apply T2; [rewrite (lo_array _ _ LO) in X; rewrite Z.mul_1_l in X; exact X|]. intros (u & C'). apply N. exists u. eapply (co_array _ _ 1 _ 100 O); [lia|]. rewrite Z.mul_0_l, Z.add_0_r. exact C'.
      * inversion C; subst. cbn. eexists. split; [reflexivity|]. intros v [= <-]. exact T1.
    + assert (BF : forall t a x k k', block cy_env (go_layout cy_env) t a x k -> block cy_env (go_layout cy_env) t a x k' -> k = k').
      { intros t a x k k' [(u & C & ->)|(_ & N & ->)] [(u' & C' & ->)|(_ & N' & ->)]; [f_equal; eapply cell_of_fun; eassumption|exfalso; apply N'; eauto|exfalso; apply N; eauto|reflexivity]. }
      intros x k k' [B|B] [B'|B']; try (eapply BF; eassumption); apply (block_in cy_env _ LO) in B; apply (block_in cy_env _ LO) in B'; rewrite ?S1, ?S2 in B, B'; unfold seg in *; lia.
  - intros (T' & M). change (m_unmarshal _ _ _ _ _ _ _) with cy_run in M.
    assert (E : hp (snd cy_run) 0 = CSlice (Some 100) 3 1) by (vm_compute; reflexivity).
    assert (K : T' 0 (KVar (YSlice (YPtr (YStruct 0))))).
    { apply (mv_keep _ _ _ _ _ _ _ M). left. left. eexists. split; [|reflexivity]. eapply (co_struct _ _ 0 0 0%nat); [reflexivity|]. replace (l_off (go_layout cy_env) 0 0) with 0 by (vm_compute; reflexivity). apply co_one. exact I. }
    destruct (proj1 (mv_good _ _ _ _ _ _ _ M) _ _ K) as [_ (e & d & len & cap & _ & RD & LE & _)]. rewrite E in RD. injection RD as <- <- <-. lia.
Qed.

Print Assumptions C70_any_memory_partial.
Print Assumptions C70_untouched_partial.
Print Assumptions C70_history_partial.
Print Assumptions C70_new.
Print Assumptions C70_refuted.
