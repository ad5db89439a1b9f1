(** C43: what the model takes for a fresh variable is the zero value of its type. *)
From Verif Require Import Bytes IntModel EncModel DecModel TypeModel SpecFit SpecZero SpecType TypeFacts PropsType.
Local Open Scope Z_scope.

Lemma zero_is V t : env_typed V -> is_zero V t (zero V t).
Proof.
  intros ET. destruct (et_rank V ET) as (rk & R1 & R2).
  assert (G : forall n t, (forall i, In i (holds t) -> (rk i < n)%nat) -> is_zero V t (zero_f V n t)).
  { induction n as [|n IHn]; intros u; induction u; intros H; cbn [zero_f]; try (constructor; fail).
    - constructor; [apply repeat_length|]. apply Forall_forall. intros y Y. apply repeat_spec in Y. subst y. apply IHu. exact H.
    - exfalso. specialize (H i (or_introl eq_refl)). lia.
    - constructor; [apply repeat_length|]. apply Forall_forall. intros y Y. apply repeat_spec in Y. subst y. apply IHu. exact H.
    - constructor. assert (D : forall u, In u (v_decl V i) -> is_zero V u (zero_f V n u)).
      { intros u Iu. apply IHn. intros j Ij. specialize (R1 i u j Iu Ij). specialize (H i (or_introl eq_refl)). lia. }
      induction (v_decl V i) as [|u us IH]; constructor; [apply D; left; reflexivity|apply IH; intros u' I'; apply D; right; exact I']. }
  apply G. intros i _. apply R2.
Qed.
Lemma list_alike {A} (P : A -> Prop) l : Forall (fun x => forall y, P y -> x = y) l -> forall l', length l' = length l -> Forall P l' -> l = l'.
Proof.
  induction 1 as [|x l H F IH]; intros [|y l'] L Q; try discriminate; [reflexivity|]. inversion Q; subst. f_equal; [apply H; assumption|apply IH; [cbn in L; lia|assumption]].
Qed.
Fixpoint zero_one V t m (H : is_zero V t m) {struct H} : forall m', is_zero V t m' -> m = m'.
Proof.
  destruct H as [ | | | | | | | | | | |n e l L F| | | | | |i l F| | | ]; intros m' H'; try (inversion H'; reflexivity).
  - inversion H' as [ | | | | | | | | | | |? ? l' L' F'| | | | | | | | | ]; subst. f_equal. apply (list_alike (is_zero V e)); [|congruence|exact F'].
    clear - F zero_one. induction F as [|x l Hx F IH]; constructor; [exact (zero_one V e x Hx)|exact IH].
  - inversion H' as [ | | | | | | | | | | | | | | | | |? l' F'| | | ]; subst. f_equal. clear H'. revert l' F'.
    induction F as [|u x us l Hx F IH]; intros l' F'; inversion F' as [|? y ? l'' Hy F'']; subst; [reflexivity|]. f_equal; [exact (zero_one V u x Hx y Hy)|exact (IH _ F'')].
Qed.
(** A variable that Unmarshal allocates, and the one it starts with in every
    statement about a fresh variable, holds the zero value, and there is one. *)
Theorem C43_zero : forall V t m, env_typed V -> (m = zero V t <-> is_zero V t m).
Proof.
  intros V t m ET. split; [intros ->; apply zero_is, ET|]. intros H. exact (zero_one V t m H _ (zero_is V t ET)).
Qed.
Print Assumptions C43_zero.
Example C43_zero_case : zero ex_env (YStruct 0) = ex_zero /\ env_typed ex_env.
Proof. split; [reflexivity|apply ex_env_typed]. Qed.
