(** Specification for Indent, Compact and HTMLEscape: how deep the brackets of a
    text are nested.  The layouts are those of SpecRender.v ([render] of the
    document [jdoc] of a syntax tree). *)
From Verif Require Import Bytes SpecJson.

(** The largest number of brackets open at once. *)
Fixpoint brackets (a : jast) : Z :=
  match a with
  | JArr l => 1 + fold_right Z.max 0 (map brackets l)
  | JObj l => 1 + fold_right Z.max 0 (map (fun kv => match kv with (_, v) => brackets v end) l)
  | _ => 0
  end.
