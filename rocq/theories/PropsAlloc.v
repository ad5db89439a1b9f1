(** C92: the memory a text can make Unmarshal allocate. *)
From Verif Require Import Bytes AsciiModel ParseModel IntModel StringModel EncModel DecModel SpecJson SpecString SpecDec ParseFacts IntFacts DecFacts
  TypeModel SpecType SpecFit NodeFacts TypeLoops TypeFacts TypeMain TypeSound TypeSafe ExactFloat PropsDec PropsType B64Model SpecAlloc AllocFacts.
Local Open Scope nat_scope.

(** Whatever the bytes are, and whether they are accepted or not, Unmarshal adds
    at most so many cells for every byte to what its target holds, and the cells
    of the pointers that lead to the value. *)
Theorem C92_unmarshal V F t z d b x : env_ok V -> b64_short V -> sized V t z d -> wf b ->
  cells (snd (unmarshal V F t b x)) <= cells x + pointers t * z + per_byte z d * length b.
Proof.
  intros OK B SZ W. unfold unmarshal, unmarshal_with, parse_with. cbn [snd d_val].
  destruct (skip_read b W) as (w & _ & _ & Ws & Ls).
  pose proof (decode_pays V F OK B t z d SZ t (skip_spaces b) x (pa_self V t) Ws) as H. unfold pays in H. apply (Nat.mul_le_mono_l _ _ (per_byte z d)) in Ls. lia.
Qed.
(** Parse: the bytes it returns have cost nothing. *)
Theorem C92_parse V F t z d b x : env_ok V -> b64_short V -> sized V t z d -> wf b -> d_err (parse V F t b x) = None ->
  cells (d_val (parse V F t b x)) + per_byte z d * length (d_rest (parse V F t b x)) <= cells x + pointers t * z + per_byte z d * length b.
Proof.
  intros OK B SZ W E. unfold parse, parse_with in *. cbn [d_val d_err d_rest] in *.
  destruct (skip_read b W) as (w & _ & _ & Ws & Ls).
  pose proof (decode_pays V F OK B t z d SZ t (skip_spaces b) x (pa_self V t) Ws) as H. unfold pays, left in H. rewrite E in H. apply (Nat.mul_le_mono_l _ _ (per_byte z d)) in Ls.
  pose proof (skip_spaces_le (d_rest (decode V F t (skip_spaces b) x))) as LR. apply (Nat.mul_le_mono_l _ _ (per_byte z d)) in LR. lia.
Qed.
(** An interface{}: twelve cells for every byte. *)
Theorem C92_interface V F b x : wf b -> exists y, snd (unmarshal V F YIface b (MIface x)) = MIface y /\ held y <= held x + 12 * length b.
Proof.
  intros W. unfold unmarshal, unmarshal_with, parse_with, decode. cbn [snd d_val]. rewrite dec_ty_eq. cbn [d_map d_val]. eexists. split; [reflexivity|].
  destruct (skip_read b W) as (w & _ & _ & Ws & Ls). pose proof (iface_pays (d_usenum F) (v_float V true) (skip_spaces b) x Ws) as H. unfold pays in H. lia.
Qed.

(** The hypotheses: a type made of finitely many types has the bounds, and
    base64.StdEncoding is short. *)
Lemma max_in {A} (f : A -> nat) l x : In x l -> f x <= list_max (map f l).
Proof.
  intros H. pose proof (proj1 (list_max_le (map f l) (list_max (map f l))) (le_n _)) as FA. rewrite Forall_forall in FA. apply FA, in_map, H.
Qed.
Theorem C92_every_type V t ts : (forall u, part V t u -> In u ts) -> exists z d, sized V t z d.
Proof.
  intros H. set (deep := fun u => match u with YStruct i => list_max (map (fun f => length (jf_path f)) (v_flds V i)) | _ => 0 end).
  exists (list_max (map (fun u => cells (zero V u)) ts)), (Nat.max (list_max (map pointers ts)) (list_max (map deep ts))). split.
  - intros u P. specialize (H u P). split; [apply (max_in (fun u => cells (zero V u))), H|]. pose proof (max_in pointers ts u H). lia.
  - intros i f P IN. specialize (H _ P). pose proof (max_in deep ts _ H) as M. cbn [deep] in M. pose proof (max_in (fun f => length (jf_path f)) _ _ IN). cbv beta in *. lia.
Qed.
Lemma groups_short : forall n s v, length s <= n -> b64_groups s = Some v -> length v <= length s.
Proof.
  induction n as [|n IH]; intros s v L E.
  - destruct s; [injection E as <-; cbn; lia|cbn [length] in L; lia].
  - destruct s as [|a [|b [|c [|e t]]]]; cbn [b64_groups] in E; try discriminate; [injection E as <-; cbn; lia|]. cbn [length] in *.
    destruct (b64_val a) as [m|]; [|discriminate]. destruct (b64_val b) as [o|]; [|discriminate].
    destruct (c =? 61)%Z.
    + destruct (e =? 61)%Z; [|discriminate]. destruct t; [injection E as <-; cbn [length]; lia|discriminate].
    + destruct (b64_val c) as [q|]; [|discriminate]. destruct (e =? 61)%Z.
      * destruct t; [injection E as <-; cbn [length]; lia|discriminate].
      * destruct (b64_val e); [|discriminate]. destruct (b64_groups t) as [r|] eqn:G; [|discriminate]. apply IH in G; [|lia]. injection E as <-. cbn [length]. lia.
Qed.
Theorem C92_base64 V : v_b64 V = b64_decode -> b64_short V.
Proof.
  intros E s v. rewrite E. unfold b64_decode. intros H. apply (groups_short _ _ _ (le_n _)) in H.
  etransitivity; [exact H|]. clear. induction s as [|c s IH]; [reflexivity|]. cbn [filter]. destruct (negb _); cbn [length]; lia.
Qed.

(** NB: the number of cells per byte depends on the type.  The first element of
    a slice makes room for ten, however large the element type is, and null is
    enough for an element. *)
Definition one_null : node := ND (bs "[null]") (HArr [ND (bs "null") HNull]).
Lemma one_null_node : jnode one_null.
Proof.
  apply (N_arr (bs "null") [ND (bs "null") HNull]). change (bs "null") with ([] ++ ntext (ND (bs "null") HNull) ++ []) at 1. constructor; constructor.
Qed.
Theorem C92_one_rate_refuted : ~ (exists k, forall V F t b, env_ok V -> b64_short V -> wf b ->
  cells (snd (unmarshal V F t b (zero V t))) <= cells (zero V t) + k * length b).
Proof.
  intros (k & H). set (e := YArray (k + 1) YBool). specialize (H ex_env ex_flags (YSlice e) (bs "[null]") ex_env_ok).
  assert (B : b64_short ex_env) by (intros s v; cbn [v_b64 ex_env]; destruct (beqb s (bs "AQI=")) eqn:E; [|discriminate]; apply beqb_eq in E; subst s; intros [= <-]; cbn; lia).
  specialize (H B ltac:(repeat constructor; unfold is_byte; cbn; lia)).
  assert (Z : zero ex_env e = MList (repeat (MBool false) (k + 1))) by reflexivity.
  assert (E : unmarshal ex_env ex_flags (YSlice e) (bs "[null]") (zero ex_env (YSlice e)) = (None, MSlice (Some (1, zero ex_env e :: repeat (zero ex_env e) 9)))).
  { apply (C42_accepts_iff ex_env ex_flags (YSlice e) [] one_null [] (MSlice None) _ ex_env_ok ltac:(constructor) one_null_node ltac:(constructor)).
    constructor. apply (sr_arr (stores ex_env ex_flags e) (zero ex_env e) (bs "[null]") [ND (bs "null") HNull] None [zero ex_env e] 10).
    - constructor; [|constructor]. cbn [backing hd]. rewrite Z. constructor; [apply repeat_length|constructor].
    - apply grows_more; [cbn; lia|]. apply grows_fit. cbn. lia. }
  rewrite E in H. cbn [snd] in H. cbn [cells map] in H.
  assert (C : cells (zero ex_env e) = k + 2) by (rewrite Z; cbn [cells]; fold (sum cells (repeat (MBool false) (k + 1))); rewrite sum_repeat; cbn [cells]; lia).
  fold (sum cells (repeat (zero ex_env e) 9)) in H. cbn [repeat map list_sum fold_right cells zero zero_f] in H. rewrite C in H. cbn in H. lia.
Qed.

(** A case: the environment of PropsType.v. *)
Definition ex_types : list gty :=
  [YStruct 0; YInt TInt8; YString; YBool; YIface; YSlice (YPtr (YStruct 0)); YPtr (YStruct 0); YPtr (YInt TInt64); YInt TInt64; YTime; YBytes; YMap (KYInt TInt8) YRaw; YRaw; YStruct 1].
Example C92_case : sized ex_env (YStruct 0) 10 2 /\ b64_short ex_env /\ env_ok ex_env /\ wf ex_text /\
  cells ex_zero = 10 /\ cells (snd (unmarshal ex_env ex_flags (YStruct 0) ex_text ex_zero)) = 84 /\ length ex_text = 125 /\ pointers (YStruct 0) = 0 /\ per_byte 10 2 = 420.
Proof.
  assert (IN : forall u, part ex_env (YStruct 0) u -> In u ex_types).
  { intros u P. induction P as [|n e P IH|e P IH|k e P IH|P IH|P IH|e P IH|i f P IH H|i f k s u P IH H H2]; [left; reflexivity| | | | | | | |];
      cbn [ex_types In] in IH; repeat (destruct IH as [IH|IH]; [try discriminate IH|]); try contradiction; try (injection IH as <-); try (injection IH as <- <-);
      try (cbn [ex_types In]; tauto);
      cbn [v_flds ex_env ex_flds In] in H; repeat (destruct H as [<-|H]); try contradiction; try (cbn [jf_ty ex_types In]; tauto);
      cbn [jf_path In] in H2; repeat (destruct H2 as [H2|H2]; [try discriminate H2; injection H2 as <- <- <-; cbn [ex_types In]; tauto|]); contradiction. }
  split.
  { split.
    - intros u P. apply IN in P. cbn [ex_types In] in P. repeat (destruct P as [<-|P]; [vm_compute; split; repeat constructor|]). contradiction.
    - intros i f P H. apply IN in P. cbn [ex_types In] in P. repeat (destruct P as [P|P]; [try discriminate P|]); try contradiction; injection P as <-;
        cbn [v_flds ex_env ex_flds In] in H; repeat (destruct H as [<-|H]); try contradiction; cbn; lia. }
  split; [intros s v; cbn [v_b64 ex_env]; destruct (beqb s (bs "AQI=")) eqn:E; [|discriminate]; apply beqb_eq in E; subst s; intros [= <-]; cbn; lia|].
  split; [apply ex_env_ok|]. split; [repeat constructor; unfold is_byte; cbn; lia|]. vm_compute. repeat split; reflexivity.
Qed.
Print Assumptions C92_unmarshal.
Print Assumptions C92_parse.
Print Assumptions C92_interface.
Print Assumptions C92_every_type.
Print Assumptions C92_base64.
Print Assumptions C92_one_rate_refuted.
