(** Independent specification for texts that pass through RawMessages (C107). *)
From Verif Require Import TypeModel.

(** RawMessage, and slices and pointers that lead to it, to any depth. *)
Fixpoint carrier (t : gty) : Prop :=
  match t with YRaw => True | YSlice e | YPtr e => carrier e | _ => False end.
