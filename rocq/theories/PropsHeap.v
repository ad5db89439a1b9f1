(** Values that share parts or contain themselves: C67. *)
From Verif Require Import Bytes IntModel EncModel HeapModel SpecHeap EncMain EncExtra HeapFacts.

(** A value whose references can be followed to the end is encoded as the tree
    it stands for, given enough stack; a shared part is written as often as it
    is referred to.  For every setting of the encoder and every output so far. *)
Theorem C67_finite_partial h c v g : tree h v g -> exists n0, forall n, (n0 <= n)%nat -> forall b d, enc_ref n h c v b d = enc c g b d.
Proof. intros T. destruct (tree_enc h c v g T) as [n0 H]. exists n0. intros n L b d. apply H, L. Qed.
(** With less stack the program ends, or the result is the same. *)
Theorem C67_stack h c v g : tree h v g -> forall n b d, enc_ref n h c v b d = EPanic \/ enc_ref n h c v b d = enc c g b d.
Proof.
  intros T n b d. destruct (tree_enc h c v g T) as [n0 H]. destruct (enc_ref_more h c n (Nat.max n n0) v ltac:(lia) b d) as [E|E]; [left; exact E|].
  right. rewrite E. apply H. lia.
Qed.
(** What is encoded without an error is finite: the encoder cannot skip, cut or
    invent a part of a value that contains itself. *)
Theorem C67_encoded_is_finite h c n v b d b' d' : proper_heap h -> proper false v -> enc_ref n h c v b d = ER b' d' None ->
  exists g, tree h v g /\ enc c g b d = ER b' d' None.
Proof.
  intros PH PV E. destruct (success_tree h c PH n v false PV _ _ _ _ _ E ltac:(auto)) as [g T]. exists g. split; [exact T|].
  destruct (C67_stack h c v g T n b d) as [X|X]; congruence.
Qed.
(** So if nothing in a value can fail and it contains itself, no stack is large
    enough and the program ends. *)
Theorem C67_infinite_partial h c v : (forall a, sure (h a)) -> sure v -> (forall g, ~ tree h v g) -> forall n b d, enc_ref n h c v b d = EPanic.
Proof.
  intros SH SV NT n b d. destruct (enc_ref n h c v b d) as [b' d' [e|]|] eqn:E; [|exfalso|reflexivity].
  - destruct (enc_ref_sure h c e SH n v SV _ _ _ _ E).
  - destruct (C67_encoded_is_finite h c n v b d b' d') as (g & T & _); [|apply sure_proper, SV|exact E|exact (NT g T)]. intros a. apply sure_proper, SH.
Qed.

(** * Example: a value used twice, and a field left out that leads to itself *)
Definition fh (s : bytes) (om em : bool) : fhead := FH s om em.
Definition share_heap : heap := fun a => match a with
  | 0%nat => HStruct [(fh (bs "x") false false, HLeaf (GInt 1)); (fh (bs "y") false false, HRef 1); (fh (bs "z") true true, HRef 0)]
  | 1%nat => HArray [HLeaf (GString (bs "p")); HLeaf GNil]
  | _ => HLeaf GNil end.
Definition share_val : hval := HArray [HRef 0; HRef 1; HIface (HRef 0)].
Definition share_tree : gval :=
  let arr := GArray [GString (bs "p"); GNil] in
  let st := GStruct [(fh (bs "x") false false, GInt 1); (fh (bs "y") false false, GPtr (Some arr)); (fh (bs "z") true true, GNil)] in
  GArray [GPtr (Some st); GPtr (Some arr); GIface (Some (GPtr (Some st)))].
Lemma share_is_tree : tree share_heap share_val share_tree.
Proof.
  assert (A : tree share_heap (HRef 1) (GPtr (Some (GArray [GString (bs "p"); GNil])))) by (apply tr_ref; apply tr_array; repeat constructor).
  assert (B : tree share_heap (HRef 0) (GPtr (Some (GStruct [(fh (bs "x") false false, GInt 1); (fh (bs "y") false false, GPtr (Some (GArray [GString (bs "p"); GNil]))); (fh (bs "z") true true, GNil)])))).
  { apply tr_ref. apply tr_struct. constructor; [split; [reflexivity|right; constructor]|]. constructor; [split; [reflexivity|right; exact A]|].
    constructor; [split; [reflexivity|left; split; reflexivity]|constructor]. }
  apply tr_array. constructor; [exact B|]. constructor; [exact A|]. constructor; [apply tr_iface, B|constructor].
Qed.
Example C67_finite_ex : exists n0, forall n, (n0 <= n)%nat -> marshal_ref n share_heap (fun _ _ b => Some b) share_val = marshal (fun _ _ b => Some b) share_tree.
Proof.
  destruct (C67_finite_partial share_heap (marshal_cfg (fun _ _ b => Some b)) share_val share_tree share_is_tree) as [n0 H]. exists n0. intros n L.
  unfold marshal_ref, marshal. rewrite (H n L). reflexivity.
Qed.
Example C67_finite_text : marshal_ref 3 share_heap (fun _ _ b => Some b) share_val = Some (bs "[{""x"":1,""y"":[""p"",null]},[""p"",null],{""x"":1,""y"":[""p"",null]}]", None).
Proof. vm_compute. reflexivity. Qed.

(** * A list that ends in itself, a map that contains itself in an interface *)
Definition ring_heap : heap := fun a => match a with
  | 0%nat => HStruct [(fh (bs "v") false false, HLeaf (GInt 1)); (fh (bs "next") true false, HRef 1)]
  | 1%nat => HStruct [(fh (bs "v") false false, HLeaf (GInt 2)); (fh (bs "next") true false, HRef 0)]
  | 2%nat => HMapSI [(bs "self", HIface (HRef 2))]
  | _ => HLeaf GNil end.
Lemma ring_no_tree a : (a <= 2)%nat -> forall g, ~ tree ring_heap (HRef a) g.
Proof.
  assert (X : forall v g, tree ring_heap v g -> v <> ring_heap 0%nat /\ v <> ring_heap 1%nat /\ v <> ring_heap 2%nat /\ v <> HRef 0 /\ v <> HRef 1 /\ v <> HRef 2 /\ v <> HIface (HRef 2)).
  { intros v g T. induction T as [g|l gs IH|m gs IH|m gs IH|fs gs IH|v g IH|v g IH|a' g IH] using tree_ind'; repeat split; try discriminate; intros E; injection E as E; subst; cbn in IH; try intuition congruence.
    - inversion IH as [|? ? ? ? [_ H1]]; subst. cbn in H1. tauto.
    - inversion IH as [|? ? ? ? _ H2]; subst. inversion H2 as [|? ? ? ? [_ [[_ H1]|H1]]]; subst; cbn in H1; [discriminate H1|tauto].
    - inversion IH as [|? ? ? ? _ H2]; subst. inversion H2 as [|? ? ? ? [_ [[_ H1]|H1]]]; subst; cbn in H1; [discriminate H1|tauto]. }
  intros L g T. apply X in T. destruct a as [|[|[|a]]]; [tauto..|lia].
Qed.
Lemma ring_sure a : sure (ring_heap a).
Proof.
  assert (I : forall z, sure_leaf (GInt z)) by (intros z c b d; eexists; reflexivity).
  destruct a as [|[|[|a]]]; cbn; repeat split; auto. intros c b d. eexists. reflexivity.
Qed.
(** The claim that Marshal returns for every value is false: for these it ends the
    program, where encoding/json returns an error. *)
Theorem C67_refuted : exists h v, forall n ind, marshal_ref n h ind v = None.
Proof.
  exists ring_heap, (HRef 0). intros n ind. unfold marshal_ref. rewrite (C67_infinite_partial ring_heap _ (HRef 0) ring_sure I (ring_no_tree 0 ltac:(lia))). reflexivity.
Qed.
Example C67_map_in_itself n c b d : enc_ref n ring_heap c (HRef 2) b d = EPanic.
Proof. apply C67_infinite_partial; [exact ring_sure|exact I|apply ring_no_tree; lia]. Qed.

Print Assumptions C67_finite_partial.
Print Assumptions C67_stack.
Print Assumptions C67_encoded_is_finite.
Print Assumptions C67_infinite_partial.
Print Assumptions C67_refuted.
