(** Specification vocabulary for struct fields: reading a field, fields that do
    not overlap, what null does, names that differ only in case. *)
From Verif Require Import Bytes IntModel EncModel DecModel TypeModel.

(** The content of the field a path leads to; none behind a nil pointer. *)
Fixpoint get (p : list pstep) (m : mem) : option mem :=
  match p, m with
  | [], _ => Some m
  | PIn i :: p', MList l => match nth_error l i with Some x => get p' x | None => None end
  | PVia i _ _ :: p', MList l => match nth_error l i with Some (MPtr (Some x)) => get p' x | _ => None end
  | _, _ => None
  end.

(** Paths to different fields, none inside the other: they part at some struct. *)
Definition idx (a : pstep) : nat := match a with PIn i => i | PVia i _ _ => i end.
Inductive apart : list pstep -> list pstep -> Prop :=
| apart_here a b p q : idx a <> idx b -> apart (a :: p) (b :: q)
| apart_next a p q : apart p q -> apart (a :: p) (a :: q).

(** What null makes of memory.  NB: a pointer to a pointer stays, the pointer it
    points to is set to nil. *)
Fixpoint on_null (t : gty) (x : mem) : mem :=
  match t, x with
  | YPtr e, MPtr (Some y) => match e with YPtr _ => MPtr (Some (on_null e y)) | _ => MPtr None end
  | YPtr _, _ => MPtr None
  | YSlice _, _ => MSlice None
  | YBytes, _ => MBytes None
  | YMap _ _, _ | YMapSI, _ | YMapSR, _ => MMap None
  | YIface, _ | YNamedIface _, _ => MIface JVNull
  | YRaw, _ => MRaw (Some (bs "null"))
  | _, _ => x
  end.

(** Names that are equal up to the case of the letters A to Z. *)
Definition same_letter (a b : Z) : Prop := a = b \/ (65 <= a <= 90 /\ b = a + 32) \/ (65 <= b <= 90 /\ a = b + 32).
Definition same_name (a b : bytes) : Prop := Forall2 same_letter a b.
Definition ascii (s : bytes) : Prop := Forall (fun c => 0 <= c < 128) s.
