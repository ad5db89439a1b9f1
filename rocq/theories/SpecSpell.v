(** Independent specification: texts that differ only in white space, or in
    white space and the spelling of their strings. *)
From Verif Require Import Bytes SpecJson SpecString SpecDec IntModel DecModel TypeModel.

(** Two string literals of the same meaning, as "a/b" and "a\/b". *)
Definition same_text (lit lit' : bytes) : Prop := forall t, str_means lit t <-> str_means lit' t.

(** Trees that differ only in the spelling of strings, keys included. *)
Inductive respelled : jast -> jast -> Prop :=
| rs_null : respelled JNull JNull
| rs_true : respelled JTrue JTrue
| rs_false : respelled JFalse JFalse
| rs_num s : respelled (JNum s) (JNum s)
| rs_str s s' : same_text s s' -> respelled (JStr s) (JStr s')
| rs_arr l l' : Forall2 respelled l l' -> respelled (JArr l) (JArr l')
| rs_obj l l' : Forall2 (fun m m' => same_text (fst m) (fst m') /\ respelled (snd m) (snd m')) l l' -> respelled (JObj l) (JObj l').

(** Types whose values do not keep the text itself: no RawMessage and no type
    with its own UnmarshalJSON, which are given the text as it is. *)
Fixpoint keeps_no_text (t : gty) : Prop :=
  match t with
  | YRaw | YMapSR | YJSON _ => False
  | YArray _ e | YSlice e | YMap _ e | YPtr e => keeps_no_text e
  | _ => True
  end.
(** ... and no time or duration: this package reads them without interpreting
    escapes. *)
Fixpoint reads_escapes (t : gty) : Prop :=
  match t with
  | YTime | YDuration => False
  | YArray _ e | YSlice e | YMap _ e | YPtr e => reads_escapes e
  | _ => True
  end.
(** The same for a type and all struct fields. *)
Definition everywhere (P : gty -> Prop) (V : tenv) (t : gty) : Prop := P t /\ forall i f, In f (v_flds V i) -> P (jf_ty f).
