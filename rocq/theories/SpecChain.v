(** Independent specification: the variables met by following the pointers. *)
From Verif Require Import Bytes DecModel ChainModel.

(** [leads h a l z]: from variable a the pointers lead through the variables of l
    to variable z. *)
Inductive leads (h : cells) : nat -> list nat -> nat -> Prop :=
| leads_here a : leads h a [] a
| leads_ptr a a' l z : h a = CPtr a' -> leads h a' l z -> leads h a (a :: l) z.
