(** C02. Statements only; proofs in AsciiFacts.v. *)
From Verif Require Import Bytes AsciiModel AsciiFacts.

Lemma forallb_Forall_iff {A} (f : A -> bool) (P : A -> Prop) l :
  (forall x, f x = true <-> P x) -> (forallb f l = true <-> Forall P l).
Proof.
  intros H. rewrite forallb_forall, Forall_forall. split; intros G x Hx; apply H, G, Hx.
Qed.

(** asciiValidPrint(b) is true exactly when every byte is in 0x20..0x7e. *)
Theorem C02_ascii_valid_print_exact : forall b, wf b ->
  (ascii_valid_print b = true <-> Forall (fun c => 0x20 <= c <= 0x7e) b).
Proof.
  intros b H. rewrite ascii_valid_print_spec by exact H.
  apply forallb_Forall_iff. intros x. unfold printable. rewrite andb_true_iff, !Z.leb_le. lia.
Qed.
Print Assumptions C02_ascii_valid_print_exact.

(** asciiValid(b) is true exactly when every byte is below 0x80. *)
Theorem C02_ascii_valid_exact : forall b, wf b ->
  (ascii_valid b = true <-> Forall (fun c => c < 0x80) b).
Proof.
  intros b H. rewrite ascii_valid_spec by exact H.
  apply forallb_Forall_iff. intros x. unfold is_ascii. rewrite Z.ltb_lt. lia.
Qed.
Print Assumptions C02_ascii_valid_exact.

Example C02_case : wf (bs "hello, world 0123") /\ ascii_valid_print (bs "hello, world 0123") = true
  /\ ascii_valid_print (bs "hello, world" ++ [127]) = false /\ ascii_valid (bs "hello, world" ++ [127]) = true
  /\ ascii_valid (bs "hello, world" ++ [128]) = false /\ ascii_valid_print (bs "hello, world" ++ [31]) = false.
Proof. split; [repeat apply Forall_cons; unfold is_byte; try apply Forall_nil; vm_compute; intuition discriminate | vm_compute; auto]. Qed.
