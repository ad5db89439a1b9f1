(** Theorems about truncated texts: C99. *)
From Verif Require Import Bytes ParseModel IntModel StringModel EncModel DecModel StreamModel SpecJson SpecStream SpecConserve SpecString SpecDec TypeModel SpecType SpecLoose
  ParseFacts DecFacts NodeFacts TypeFacts TypeSound CutFacts PropsParse PropsStream PropsConserve PropsDec PropsType PropsLoose PropsAgain.

(** * C99: a truncated text is never taken for a whole one *)
Lemma text_wf b a : jtext b a -> wf b.
Proof.
  intros (w1 & s & w2 & -> & W1 & J & W2). apply Forall_app. split; [eapply Forall_impl; [|exact W1]; unfold is_byte; cbv beta; intros; lia|]. apply Forall_app. split; [|eapply Forall_impl; [|exact W2]; unfold is_byte; cbv beta; intros; lia].
  exact (proj1 DocFacts.jvalue_wf _ _ J).
Qed.
Lemma front_wf p q a : jtext (p ++ q) a -> wf p.
Proof. intros J. apply text_wf in J. now apply Forall_app in J. Qed.

(** A JSON text that loses more than white space at its end is no JSON text,
    unless its value is a number. *)
Theorem C99_valid p q a : jtext (p ++ q) a -> (forall n, a <> JNum n) -> ~ ws q -> Valid p = false.
Proof.
  intros J NN NW. destruct (Valid p) eqn:E; [exfalso|reflexivity]. apply C01_valid_iff_grammar in E as (a' & w1 & s & w2 & -> & W1 & J' & W2); [|exact (front_wf _ _ _ J)].
  destruct (jvalue_node s a' J') as (nd & <- & _ & Jn). exact (no_front ex_env (DFlags false false false) YIface nd _ q a w1 (ntext nd) w2 J NN NW (sl_json _ _ _ nd Jn) W1 eq_refl).
Qed.
(** Parse and Unmarshal refuse it whatever the type of the target, although
    fixed-size arrays make them accept more than JSON. *)
Theorem C99_parse V F t p q a x : env_ok V -> jtext (p ++ q) a -> (forall n, a <> JNum n) -> ~ ws q -> d_err (parse V F t p x) <> None.
Proof.
  intros OK J NN NW E. destruct (parse V F t p x) as [r o y] eqn:EP. cbn [d_err] in E. subst o.
  destruct (C41_spelled_parse V F t p x r y OK (front_wf _ _ _ J) EP) as (w1 & s & w2 & v & Ep & W1 & _ & SP & _). exact (no_front V F t v p q a w1 s (w2 ++ r) J NN NW SP W1 Ep).
Qed.
Theorem C99_unmarshal V F t p q a x : env_ok V -> jtext (p ++ q) a -> (forall n, a <> JNum n) -> ~ ws q -> fst (unmarshal V F t p x) <> None.
Proof.
  intros OK J NN NW E. destruct (unmarshal V F t p x) as [o y] eqn:EU. cbn [fst] in E. subst o.
  destruct (C41_spelled V F t p x y OK (front_wf _ _ _ J) EU) as (w1 & s & w2 & v & Ep & W1 & _ & SP & _). exact (no_front V F t v p q a w1 s w2 J NN NW SP W1 Ep).
Qed.
(** A Decoder whose reader ends or fails there returns no value at all, however
    the input is divided and however often Decode is called. *)
Theorem C99_decoder r q a k : jtext (unread r ++ q) a -> (forall n, a <> JNum n) -> ~ ws q -> got (SpecStream.reads k (new_decoder r)) = [].
Proof.
  intros J NN NW. pose proof (C37_conserved r k (front_wf _ _ _ J)) as C. destruct (got (SpecStream.reads k (new_decoder r))) as [|v vs]; [reflexivity|exfalso]. inversion C as [|w v' a' s vs' r' W J' C' E]; subst.
  destruct (jvalue_node v a' J') as (nd & <- & _ & Jn). symmetry in E. exact (no_front ex_env (DFlags false false false) YIface nd _ q a w (ntext nd) s J NN NW (sl_json _ _ _ nd Jn) W E).
Qed.
(** Numbers are the exception. *)
Theorem C99_number_refuted : ~ forall p q a, jtext (p ++ q) a -> ~ ws q -> Valid p = false.
Proof.
  intros H. destruct (is_text (bs "12")) as (a & J); [reflexivity|vm_compute; reflexivity|]. specialize (H (bs "1") (bs "2") a J). assert (X : Valid (bs "1") = false) by (apply H; intros W; inversion W; subst; vm_compute in *; lia). vm_compute in X. discriminate X.
Qed.
(** Non-vacuity: a text cut inside a string in an array, for a target that also
    takes texts which are not JSON. *)
Example C99_holds : exists a, jtext (bs "[1, ""ab"", {}]" ++ bs " ") a /\ jtext (bs "[1, ""a" ++ bs "b"", {}] ") a /\ (forall n, a <> JNum n) /\ ~ ws (bs "b"", {}] ") /\
  env_ok ex_env /\ fst (unmarshal ex_env ex_flags (YArray 0 YBool) (bs "[1, ""ab"", {}] ") (MList [])) = None /\
  fst (unmarshal ex_env ex_flags (YArray 0 YBool) (bs "[1, ""a") (MList [])) = Some ESyntax.
Proof.
  destruct (is_text (bs "[1, ""ab"", {}] ")) as (a & J); [reflexivity|vm_compute; reflexivity|]. exists a. split; [exact J|]. split; [exact J|]. split.
  - intros n ->. destruct J as (w1 & s & w2 & E & W1 & J & W2). inversion J as [| | |? N| | | | |]; subst. destruct N as [sg int fr ex SG IN FR EX]. destruct W1 as [|c w1 C W1]; [|injection E as <- _; lia].
    destruct SG as [->| ->]; [|discriminate]. destruct IN as [|d ds D _]; [discriminate|]. injection E as <- _. lia.
  - split; [intros W; inversion W; subst; vm_compute in *; lia|]. split; [exact ex_env_ok|]. split; vm_compute; reflexivity.
Qed.
Print Assumptions C99_valid.
Print Assumptions C99_parse.
Print Assumptions C99_unmarshal.
Print Assumptions C99_decoder.
Print Assumptions C99_number_refuted.
