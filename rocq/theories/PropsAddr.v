(** Theorems about decoding into memory (AddrModel.v): C69. *)
From Verif Require Import Bytes ParseModel IntModel StringModel EncModel DecModel TypeModel TypeFacts SpecFit AddrModel SpecAddr AddrFacts AddrLoops AddrMain AddrLayout PropsType.

(** C69, for targets of which no part is referred to twice: Unmarshal returns the error
    that decoding into a value returns; the variable then holds the result, in its
    own memory, the memory it referred to before (D) and newly allocated memory;
    and nothing else is written. *)
Theorem C69_memory_partial V F L t a b h m D : lay_ok V L -> env_typed V -> holds_at V L h t a m D ->
  let '(e, h') := m_unmarshal V F L t a b h in
  let '(e', m') := unmarshal V F t b m in
  e = e' /\ holds_at V L h' t a m' (union D (fresh h h')) /\ writes_only (union (seg a (l_size L t)) D) h h'.
Proof.
  intros LO ET (R & DJ & BD). unfold m_unmarshal, unmarshal, unmarshal_with, parse_with, m_decode, decode. cbn [d_rest d_err d_val].
  set (s := skip_spaces b). destruct (dec_sim V F L LO ET (S (length s)) t a s h m D R DJ BD) as (E1 & E2 & E3 & E4). rewrite E1, E2.
  split; [reflexivity|]. split; [|exact E4]. split; [exact E3|]. split; [apply after_disj; assumption|]. apply after_bounded; [exact BD|exact (proj1 E4)].
Qed.
(** Any other variable, of any type, holds after Unmarshal what it held before. *)
Theorem C69_others_partial V F L t a b h m D t2 a2 m2 D2 : lay_ok V L -> env_typed V -> holds_at V L h t a m D -> holds_at V L h t2 a2 m2 D2 ->
  disj (union (seg a (l_size L t)) D) (union (seg a2 (l_size L t2)) D2) ->
  holds_at V L (snd (m_unmarshal V F L t a b h)) t2 a2 m2 D2.
Proof.
  intros LO ET H1 (R2 & DJ2 & BD2) DD. pose proof (C69_memory_partial V F L t a b h m D LO ET H1) as M.
  destruct (m_unmarshal V F L t a b h) as [e h'], (unmarshal V F t b m) as [e' m']. destruct M as (_ & _ & [N W]). cbn [snd].
  split; [|split; [exact DJ2|intros x X; specialize (BD2 x X); lia]]. eapply rep_frame; [exact LO|exact R2|]. intros y Y. apply W; [apply BD2; exact Y|]. intros X. exact (DD y X Y).
Qed.
(** A new variable holds the zero value of its type, and meets the hypothesis of the
    theorem; so does the layout the compiler chooses. *)
Theorem C69_new V L t h : lay_ok V L -> env_typed V -> let '(a, h') := alloc (l_size L t) h in holds_at V L h' t a (zero V t) (fun _ => False).
Proof.
  intros LO ET. destruct (alloc (l_size L t) h) as [a h'] eqn:AL. pose proof (lo_size V L LO t) as SP.
  assert (P : a = nx h /\ nx h' = nx h + l_size L t) by (injection AL as <- <-; split; reflexivity). destruct P as [-> N].
  split; [|split; [intros x []|]].
  - apply rep_zero; [exact LO|exact ET|]. intros x X. pose proof (alloc_zero (l_size L t) h x) as Z0. rewrite AL in Z0. apply Z0, X.
  - intros x [X|[]]. unfold seg in X. lia.
Qed.
Theorem C69_layout V : env_typed V -> lay_ok V (go_layout V).
Proof. apply go_layout_ok. Qed.

(** * var x Node; Unmarshal([]byte(`...`), &x) with x at address 1000 *)
Definition ad_mem : st := St (fun _ => CZero) 1000.
Definition ad_new : st := snd (alloc (l_size (go_layout ex_env) (YStruct 0)) ad_mem).
Example C69_case : lay_ok ex_env (go_layout ex_env) /\ holds_at ex_env (go_layout ex_env) ad_new (YStruct 0) 1000 ex_zero (fun _ => False) /\
  (forall k, In k (combine [0; 1; 2; 3; 4; 5]%nat [0; 8; 24; 32; 56; 64]) -> l_off (go_layout ex_env) 0 (fst k) = snd k) /\
  let r := m_unmarshal ex_env ex_flags (go_layout ex_env) (YStruct 0) 1000 ex_text ad_new in
  (fst r, map (hp (snd r)) [1000; 1008; 1024; 1120; 1032; 1144; 1224; 1152]) =
  (None, [CLeaf (MInt 7); CLeaf (MStr (bs "xA")); CPtr (Some 1120); CLeaf (MBool true); CSlice (Some 1144) 2 10; CPtr (Some 1224); CLeaf (MInt (-1)); CPtr None]).
Proof.
  split; [apply C69_layout, ex_env_typed|]. split; [exact (C69_new ex_env (go_layout ex_env) (YStruct 0) ad_mem (C69_layout _ ex_env_typed) ex_env_typed)|].
  split; [intros k H; repeat destruct H as [<-|H]; try contradiction; vm_compute; reflexivity|].
  vm_compute. reflexivity.
Qed.

(** * type T struct { S []*T }; var t T; t.S = make([]*T, 1); t.S[0] = &t
      The claim for all targets is false: Unmarshal of {"S":[{"S":[null]},null]}
      into &t writes behind the end of the slice, to the variable at address 116 (a pointer to t), and
      leaves a slice with more elements than its capacity. *)
Definition cy_flds (i : nat) : list jfield := match i with O => [JField (bs "S") [PIn 0] (YSlice (YPtr (YStruct 0))) QNo] | _ => [] end.
Definition cy_env : tenv := TEnv (fun i => match i with O => [YSlice (YPtr (YStruct 0))] | _ => [] end) 1 cy_flds (v_float ex_env) (v_time ex_env) (v_dur ex_env) (v_b64 ex_env)
  (v_json ex_env) (v_text ex_env) (v_lower ex_env) (v_fold ex_env).
Lemma cy_typed : env_typed cy_env.
Proof.
  destruct ex_env_typed as [_ _ E3 E4 E5 E6]. constructor; try assumption.
  - intros [|i] f H; [|destruct H]. destruct H as [<-|[]]. eapply ld_in; [reflexivity|apply ld_here].
  - exists (fun _ => O). split; [|intros i; cbn; lia]. intros [|i] u j H J; [|destruct H]. destruct H as [<-|[]]. destruct J.
Qed.
Definition cy_mem : st :=
  St (fun x => if x =? 0 then CSlice (Some 100) 1 1 else if x =? 100 then CPtr (Some 0) else if x =? 116 then CPtr (Some 0) else CZero) 200.
Definition cy_run : option err * st := m_unmarshal cy_env ex_flags (go_layout cy_env) (YStruct 0) 0 (bs "{""S"":[{""S"":[null]},null]}") cy_mem.
Theorem C69_refuted : exists V F L i b h p x, env_typed V /\ lay_ok V L /\ v_decl V i = [YSlice (YPtr (YStruct i))] /\
  rd_slice (hp h 0) = Some (Some p, 1%nat, 1%nat) /\ rd_ptr (hp h p) = Some (Some 0) /\
  ~ seg 0 (l_size L (YStruct i)) x /\ ~ seg p (l_size L (YPtr (YStruct i))) x /\ x < nx h /\
  let '(e, h') := m_unmarshal V F L (YStruct i) 0 b h in
  e = None /\ hp h' x <> hp h x /\ exists len cap, rd_slice (hp h' 0) = Some (Some p, len, cap) /\ (cap < len)%nat.
Proof.
  exists cy_env, ex_flags, (go_layout cy_env), O, (bs "{""S"":[{""S"":[null]},null]}"), cy_mem, 100, 116.
  split; [apply cy_typed|]. split; [apply C69_layout, cy_typed|]. split; [reflexivity|]. split; [reflexivity|]. split; [reflexivity|].
  assert (S1 : l_size (go_layout cy_env) (YStruct 0) = 24) by (vm_compute; reflexivity). assert (S2 : l_size (go_layout cy_env) (YPtr (YStruct 0)) = 8) by (vm_compute; reflexivity).
  rewrite S1, S2. split; [unfold seg; lia|]. split; [unfold seg; lia|]. split; [cbn; lia|].
  assert (E : (fst cy_run, hp (snd cy_run) 116, hp (snd cy_run) 0) = (None, CPtr None, CSlice (Some 100) 3 1)) by (vm_compute; reflexivity).
  change (m_unmarshal _ _ _ _ _ _ _) with cy_run. destruct cy_run as [e h']. cbn [fst snd] in E. injection E as -> E1 E2.
  split; [reflexivity|]. rewrite E1, E2. split; [discriminate|]. exists 3%nat, 1%nat. split; [reflexivity|lia].
Qed.

Print Assumptions C69_memory_partial.
Print Assumptions C69_others_partial.
Print Assumptions C69_new.
Print Assumptions C69_layout.
Print Assumptions C69_refuted.
