(** Theorems about interface variables that hold pointers: C65. *)
From Verif Require Import Bytes ParseModel IntModel StringModel EncModel DecModel SpecJson SpecString SpecDec ParseFacts IntFacts DecFacts
  TypeModel IfaceModel SpecType SpecFit NodeFacts TypeLoops TypeFacts TypeMain ExactFloat ErrFacts PropsType PropsErr PropsDec.

(** What a pointer variable holds, as the content of an interface: a nil pointer
    becomes a nil interface. *)
Definition as_held (m : mem) : held :=
  match m with MPtr (Some x) => Some (Some x) | _ => None end.

Lemma dec_ptr V F n t b m : dec_ty V F (S n) (YPtr t) b (MPtr (Some m)) =
  if has_null_prefix b && match t with YPtr _ => false | _ => true end then DR (skipn 4 b) None (MPtr None)
  else d_map (fun y => MPtr (Some y)) (dec_ty V F (S n) t b m).
Proof. cbn [dec_ty]. destruct (has_null_prefix b); [|reflexivity]. destruct t; reflexivity. Qed.

(** An interface{} that holds a pointer is decoded like a variable of that pointer
    type: same error, for every input; same content on success. *)
Theorem C65_like_the_pointer V F t b m :
  let i := unmarshal_iface V F t b (Some m) in let p := unmarshal V F (YPtr t) b (MPtr (Some m)) in
  fst i = fst p /\ (fst i = None -> snd i = as_held (snd p)).
Proof.
  cbv zeta. unfold unmarshal_iface, unmarshal, unmarshal_with, parse_with, decode, decode_iface_ptr, parse, parse_with, decode. cbn [d_rest d_err d_val].
  rewrite !(skip_spaces_idem b). set (c := skip_spaces b). rewrite dec_ptr.
  replace (match t with YPtr _ => false | _ => true end) with (match Some m, t with Some _, YPtr _ => false | _, _ => true end) by reflexivity.
  destruct (has_null_prefix c && _); cbn [d_map d_rest d_err d_val fst snd as_held]; [split; [reflexivity|]; reflexivity|].
  destruct (dec_ty V F (S (length c)) t c m) as [r e y]. cbn [d_rest d_err d_val d_map]. rewrite !skip_spaces_idem. split; [reflexivity|].
  destruct (skip_spaces r); destruct e; intros X; try discriminate; reflexivity.
Qed.
(** So, for JSON texts: success means that the value was stored where the pointer
    leads, or was null. *)
Theorem C65_stored V F t w1 nd w2 m h : env_ok V -> ws w1 -> jnode nd -> ws w2 ->
  (unmarshal_iface V F t (w1 ++ ntext nd ++ w2) (Some m) = (None, h) <->
   exists p, stores V F (YPtr t) nd (MPtr (Some m)) (MPtr p) /\ h = match p with Some x => Some (Some x) | None => None end).
Proof.
  intros OK W1 J W2. pose proof (C65_like_the_pointer V F t (w1 ++ ntext nd ++ w2) m) as [E S]. cbv zeta in E, S. split.
  - intros H. rewrite H in E, S. cbn [fst snd] in E, S. specialize (S eq_refl).
    destruct (unmarshal V F (YPtr t) (w1 ++ ntext nd ++ w2) (MPtr (Some m))) as [e y] eqn:U. cbn [fst snd] in *. subst e h.
    apply (C42_accepts_iff V F (YPtr t) w1 nd w2 _ y OK W1 J W2) in U.
    assert (P : exists p, y = MPtr p) by (inversion U; subst; try contradiction; eauto). destruct P as (p & ->). exists p. split; [exact U|]. reflexivity.
  - intros (p & H & ->). apply (C42_accepts_iff V F (YPtr t) w1 nd w2 _ _ OK W1 J W2) in H. rewrite H in E, S. cbn [fst snd] in *.
    destruct (unmarshal_iface V F t (w1 ++ ntext nd ++ w2) (Some m)) as [e y]. cbn [fst snd] in *. subst e. rewrite (S eq_refl). now destruct p.
Qed.
(** A nil pointer: only null is accepted, and leaves the interface nil. *)
Theorem C65_nil_pointer V F t b h : wf b -> unmarshal_iface V F t b None = (None, h) -> h = None /\ exists w1 w2, ws w1 /\ ws w2 /\ b = w1 ++ bs "null" ++ w2.
Proof.
  intros W. unfold unmarshal_iface, unmarshal_with, parse_with, decode_iface_ptr. rewrite !skip_spaces_idem.
  destruct (skip_spaces_split b) as (w & Hw & Eb & Hn). set (c := skip_spaces b) in *. rewrite andb_true_r.
  destruct (has_null_prefix c) eqn:HN; cbn [d_rest d_err d_val].
  - destruct (skip_spaces (skipn 4 c)) eqn:ES; [|discriminate]. intros [= <-]. split; [reflexivity|].
    exists w, (skipn 4 c). split; [exact Hw|]. split.
    + destruct (skip_spaces_split (skipn 4 c)) as (w2 & Hw2 & E2 & _). rewrite ES, app_nil_r in E2. now rewrite E2.
    + rewrite Eb at 1. f_equal. apply null_read, HN.
  - destruct (parseValue c) as [v r|r e]; cbn [d_rest d_err d_val]; destruct (skip_spaces (skip_spaces r)); discriminate.
Qed.
(** After an error an interface{} no longer holds its pointer (the standard
    library keeps it). *)
Theorem C65_error_drops_refuted : exists m b, unmarshal_iface er_env ex_flags YBool b (Some m) = (Some EType, None).
Proof. exists (MBool false), (bs "1"). vm_compute. reflexivity. Qed.

(** Other interface types: they keep the pointer, with what was stored, also after
    an error; but null makes them nil even if the pointer leads to a pointer. *)
Theorem C65_named V F t b m : let i := unmarshal_named V F t b (Some m) in let p := unmarshal V F (YPtr t) b (MPtr (Some m)) in
  has_null_prefix (skip_spaces b) = false -> fst i = fst p /\ snd i = as_held (snd p) /\ snd i <> None.
Proof.
  cbv zeta. intros HN. unfold unmarshal_named, unmarshal, unmarshal_with, parse_with, decode, decode_named_ptr, parse, parse_with, decode. cbn [d_rest d_err d_val].
  rewrite !(skip_spaces_idem b). rewrite dec_ptr, HN. cbn [andb].
  destruct (dec_ty V F (S (length (skip_spaces b))) t (skip_spaces b) m) as [r e y]. cbn [d_rest d_err d_val d_map fst snd as_held]. rewrite !skip_spaces_idem.
  split; [reflexivity|]. split; [reflexivity|discriminate].
Qed.
(** With a nil pointer inside, only null is accepted, too. *)
Theorem C65_named_nil V F t b h : wf b -> unmarshal_named V F t b None = (None, h) -> h = None /\ exists w1 w2, ws w1 /\ ws w2 /\ b = w1 ++ bs "null" ++ w2.
Proof.
  intros W. unfold unmarshal_named, unmarshal_with, parse_with, decode_named_ptr. rewrite !skip_spaces_idem.
  destruct (skip_spaces_split b) as (w & Hw & Eb & Hn). set (c := skip_spaces b) in *.
  destruct (has_null_prefix c) eqn:HN; cbn [d_rest d_err d_val].
  - destruct (skip_spaces (skipn 4 c)) eqn:ES; [|discriminate]. intros [= <-]. split; [reflexivity|].
    exists w, (skipn 4 c). split; [exact Hw|]. split.
    + destruct (skip_spaces_split (skipn 4 c)) as (w2 & Hw2 & E2 & _). rewrite ES, app_nil_r in E2. now rewrite E2.
    + rewrite Eb at 1. f_equal. apply null_read, HN.
  - destruct (parseValue c) as [v r|r e]; cbn [d_rest d_err d_val]; destruct (skip_spaces (skip_spaces r)); discriminate.
Qed.
Theorem C65_named_null_refuted :
  unmarshal_named er_env ex_flags (YPtr YBool) (bs "null") (Some (MPtr (Some (MBool true)))) = (None, None) /\
  unmarshal_iface er_env ex_flags (YPtr YBool) (bs "null") (Some (MPtr (Some (MBool true)))) = (None, Some (Some (MPtr None))).
Proof. split; vm_compute; reflexivity. Qed.
(** A variable of type Any (type Any interface{}) can be decoded into once, but
    not again. *)
Theorem C65_named_again_refuted : exists y, unmarshal er_env ex_flags (YNamedIface true) (bs "true") (zero er_env (YNamedIface true)) = (None, y) /\
  unmarshal er_env ex_flags (YNamedIface true) (bs "true") y = (Some EType, y).
Proof. eexists. split; vm_compute; reflexivity. Qed.
Example C65_example : env_ok er_env /\
  unmarshal_iface er_env ex_flags (YStruct 1) (bs " {""ok"":true} ") (Some (zero er_env (YStruct 1))) = (None, Some (Some (MList [MBool true; MMap None]))) /\
  unmarshal_iface er_env ex_flags (YStruct 1) (bs "null") (Some (zero er_env (YStruct 1))) = (None, None) /\
  unmarshal_iface er_env ex_flags (YStruct 1) (bs " null ") None = (None, None) /\
  unmarshal_named er_env ex_flags (YStruct 1) (bs "{""ok"":1}") (Some (zero er_env (YStruct 1))) = (Some EType, Some (Some (zero er_env (YStruct 1)))).
Proof. split; [apply er_env_ok|]. repeat split; vm_compute; reflexivity. Qed.
Print Assumptions C65_like_the_pointer.
Print Assumptions C65_stored.
Print Assumptions C65_nil_pointer.
Print Assumptions C65_error_drops_refuted.
Print Assumptions C65_named.
Print Assumptions C65_named_null_refuted.
Print Assumptions C65_named_again_refuted.
Print Assumptions C65_named_nil.
