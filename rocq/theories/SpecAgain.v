(** Independent specification for decoding the same text again (C93). *)
From Verif Require Import Bytes EncModel DecModel TypeModel.

(** Types without interface types that have a name: such an interface takes a
    value only while it is nil. *)
Fixpoint no_named (t : gty) : Prop :=
  match t with
  | YNamedIface _ => False
  | YArray _ e | YSlice e | YMap _ e | YPtr e => no_named e
  | _ => True
  end.
(** No embedded pointer to a struct of an unexported type: the decoder does not
    allocate those. *)
Definition all_exported (V : tenv) : Prop := forall i f k s, In f (v_flds V i) -> ~ In (PVia k s true) (jf_path f).
(** Unmarshalers that overwrite their receiver: what it held before does not
    matter, if they succeed. *)
Definition overwrites (m : nat -> bytes -> bytes -> option err * bytes) : Prop :=
  forall u s x y, m u s x = (None, y) -> forall x', m u s x' = (None, y).
(** Decoding a list of texts one after the other into the same variable; nothing
    if one of them is rejected. *)
Section Replay.
Context (V : tenv) (F : dflags) (t : gty).
Fixpoint replay (texts : list bytes) (x : mem) : option mem :=
  match texts with
  | [] => Some x
  | b :: rest => match unmarshal V F t b x with (None, y) => replay rest y | _ => None end
  end.
End Replay.
