(** What a failed Unmarshal leaves in its target: C72. *)
From Verif Require Import Bytes ParseModel IntModel StringModel EncModel DecModel SpecJson SpecString SpecDec ParseFacts IntFacts DecFacts
  TypeModel SpecType SpecFit NodeFacts TypeLoops TypeFacts TypeMain TypeSound TypeSafe ExactFloat DecLoops SpecLeft LeftFacts PropsDec PropsType.

(** * C72: for every text, what was read before the failure is stored *)

(** All types, fixed-size arrays included.  The last clause is a value that
    is followed by something that does not belong there: it has been stored. *)
Theorem C72_left V F t b x e y : env_ok V -> wf b -> unmarshal V F t b x = (Some e, y) ->
  exists w b', b = w ++ b' /\ ws w /\ unspaced b' /\
    (leaves V F t b' x y \/ exists r, took V F t b' r x y /\ ~ ws r).
Proof.
  intros OK W E. unfold unmarshal, unmarshal_with in E.
  destruct (skip_spaces_split b) as (w & WW & EB & NB).
  assert (W' : wf (skip_spaces b)) by (apply wf_skip_spaces, W).
  exists w, (skip_spaces b). split; [exact EB|]. split; [exact WW|]. split; [apply nsp_unspaced, NB|].
  unfold parse, parse_with, decode in E. cbv zeta in E. cbn [d_rest d_err d_val] in E.
  destruct (dec_ty V F (S (length (skip_spaces b))) t (skip_spaces b) x) as [r o z] eqn:D. cbn [d_rest d_err d_val] in E. injection E as E <-.
  destruct o as [o|].
  - left. pose proof (dec_ty_left V F OK (S (length (skip_spaces b))) t (skip_spaces b) x W' ltac:(lia)) as H. rewrite D in H. apply H. discriminate.
  - right. destruct (dec_took V F OK (S (length (skip_spaces b))) t (skip_spaces b) x r z W' NB ltac:(lia) D) as (T & _). exists r. split; [exact T|].
    intros WR. rewrite (ws_skip_nil r WR) in E. discriminate.
Qed.
Lemma C72_no_arrays : no_arrays ex_env (YStruct 0).
Proof. apply C41_example. Qed.

(** The parts of a struct that no key of the text names keep their contents,
    whatever the text and whatever the outcome. *)
Theorem C72_unnamed V F i b l p : env_ok V -> wf b ->
  (forall k f, top_key V F i b k -> picks V F (v_flds V i) k (Some f) -> ~ lies_in p f) ->
  exists l', snd (unmarshal V F (YStruct i) b (MList l)) = MList l' /\ nth_error l' p = nth_error l p.
Proof.
  intros OK W HK. destruct (skip_spaces_split b) as (w & WW & EB & NB).
  apply (struct_unnamed V F OK (S (length (skip_spaces b))) i (skip_spaces b) l p (wf_skip_spaces b W) ltac:(lia)).
  intros s k f E MK. apply HK. exists w, s. rewrite <- E. auto.
Qed.
(** A text that ends in the middle of its second member: the field of the first
    one is set, the name and the others are as they were. *)
Definition left_text : bytes := bs " {""a"": 7, ""kids"":[{""a"":1},".
Definition left_old : list mem :=
  [MInt 3; MStr (bs "x"); MPtr None; MSlice None; MPtr (Some (MInt 5)); MList [MTime []; MBytes None; MMap None]].
Example C72_example : env_ok ex_env /\ no_arrays ex_env (YStruct 0) /\ wf left_text /\
  exists k, unmarshal ex_env ex_flags (YStruct 0) left_text (MList left_old) =
    (Some ESyntax, MList [MInt 7; MStr (bs "x"); MPtr None; MSlice (Some (1%nat, k)); MPtr (Some (MInt 5)); MList [MTime []; MBytes None; MMap None]]).
Proof.
  split; [apply ex_env_ok|]. split; [apply C72_no_arrays|]. split; [repeat constructor; unfold is_byte; cbn; lia|]. eexists. vm_compute. reflexivity.
Qed.

(** Fixed-size arrays: a failure in an element, at a separator, and among the
    elements there is no room for. *)
Definition left_cells : mem := MList [MInt 7; MInt 8; MInt 9].
Example C72_array_example : env_ok ex_env /\ wf (bs "[1,2,true]") /\ wf (bs " [1,2 3]") /\ wf (bs "[1,2,3 4,x]") /\
  unmarshal ex_env ex_flags (YArray 3 (YInt TInt8)) (bs "[1,2,true]") left_cells = (Some ESyntax, MList [MInt 1; MInt 2; MInt 9]) /\
  unmarshal ex_env ex_flags (YArray 3 (YInt TInt8)) (bs " [1,2 3]") left_cells = (Some ESyntax, MList [MInt 1; MInt 2; MInt 9]) /\
  unmarshal ex_env ex_flags (YArray 3 (YInt TInt8)) (bs "[1,2,3 4,x]") left_cells = (Some ESyntax, MList [MInt 1; MInt 2; MInt 3]).
Proof.
  split; [apply ex_env_ok|]. do 3 (split; [repeat constructor; unfold is_byte; cbn; lia|]). split; [vm_compute; reflexivity|]. split; vm_compute; reflexivity.
Qed.

(** Unlike encoding/json, which checks the whole text first: a text that is not
    JSON changes the target. *)
Theorem C72_untouched_refuted : ~ (forall V F t b x, env_ok V -> no_arrays V t -> wf b -> (forall a, ~ jtext b a) -> snd (unmarshal V F t b x) = x).
Proof.
  intros H. assert (WF : wf left_text) by (repeat constructor; unfold is_byte; cbn; lia).
  specialize (H ex_env ex_flags (YStruct 0) left_text (MList left_old) ex_env_ok C72_no_arrays WF).
  assert (N : forall a, ~ jtext left_text a).
  { intros a J. pose proof (proj2 (jtext_wf_Valid left_text WF) (ex_intro _ a J)) as E. vm_compute in E. discriminate. }
  specialize (H N). vm_compute in H. discriminate.
Qed.
(** An interface{} that held something is nil afterwards. *)
Theorem C72_interface_kept_refuted : ~ (forall V F b x e y, env_ok V -> wf b -> unmarshal V F YIface b x = (Some e, y) -> y = x).
Proof.
  intros H. specialize (H ex_env ex_flags (bs "[1,") (MIface (JVBool true)) ESyntax (MIface JVNull) ex_env_ok).
  assert (W : wf (bs "[1,")) by (repeat constructor; unfold is_byte; cbn; lia). specialize (H W eq_refl). discriminate.
Qed.
(** Whether the entries that were read are kept depends on the map: a nil one
    stays nil. *)
Theorem C72_entries_refuted : ~ (forall V F t b e y z, env_ok V -> wf b ->
  unmarshal V F (YMap KYString t) b (MMap None) = (Some e, MMap y) -> unmarshal V F (YMap KYString t) b (MMap (Some [])) = (Some e, MMap z) ->
  match y with Some m => m | None => [] end = match z with Some m => m | None => [] end).
Proof.
  intros H. assert (W : wf (bs "{""a"":true,")) by (repeat constructor; unfold is_byte; cbn; lia).
  specialize (H ex_env ex_flags YBool (bs "{""a"":true,") ESyntax None (Some [(MKStr (bs "a"), MBool true)]) ex_env_ok W eq_refl eq_refl). discriminate.
Qed.
(** A slice is cut to the elements that were read, and the one behind them may
    have changed. *)
Theorem C72_slice_kept_refuted : exists b x y e, wf b /\ unmarshal ex_env ex_flags (YSlice YIface) b x = (Some e, y) /\
  x = MSlice (Some (3%nat, [MIface (JVBool false); MIface (JVBool false); MIface (JVBool false)])) /\
  y = MSlice (Some (1%nat, [MIface (JVBool true); MIface JVNull; MIface (JVBool false)])).
Proof.
  exists (bs "[true,x]"), (MSlice (Some (3%nat, [MIface (JVBool false); MIface (JVBool false); MIface (JVBool false)]))),
    (MSlice (Some (1%nat, [MIface (JVBool true); MIface JVNull; MIface (JVBool false)]))), ESyntax.
  split; [repeat constructor; unfold is_byte; cbn; lia|]. split; [vm_compute; reflexivity|]. split; reflexivity.
Qed.
Print Assumptions C72_left.
Print Assumptions C72_unnamed.
Print Assumptions C72_untouched_refuted.
Print Assumptions C72_interface_kept_refuted.
Print Assumptions C72_entries_refuted.
Print Assumptions C72_slice_kept_refuted.
