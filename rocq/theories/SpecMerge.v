(** Independent specification for objects that act member by member (C95). *)
From Verif Require Import Bytes EncModel DecModel TypeModel SpecType.

(** Structs, maps and pointers to them. *)
Fixpoint merges (t : gty) : Prop :=
  match t with
  | YStruct _ | YMap _ _ | YMapSI | YMapSR => True
  | YPtr e => merges e
  | _ => False
  end.
(** The object with these members, and members joined by commas. *)
Definition braced (m : bytes) : bytes := 123 :: m ++ [125].
Fixpoint commas (ms : list bytes) : bytes :=
  match ms with
  | [] => []
  | [m] => m
  | m :: rest => m ++ 44 :: commas rest
  end.
