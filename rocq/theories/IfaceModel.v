(** Decoding into an interface variable that holds a pointer. *)
From Verif Require Import Bytes ParseModel IntModel DecModel TypeModel.

Section Iface.
Context (V : tenv) (F : dflags).
(** What the variable holds: None is nil, [Some None] a nil pointer and
    [Some (Some m)] a pointer to a variable of type t with content m.  The
    variable p of decode.go:986-1010 and 1069-1084. *)
Definition held : Type := option (option mem).

(** decode.go:1069-1084 decodeMaybeEmptyInterface for a variable of another
    interface type than interface{} itself that holds a pointer; 1076-1078 leave
    the variable as it is *)
Definition decode_named_ptr (t : gty) (b : bytes) (p : option mem) : dres held :=
  if has_null_prefix b then DR (skipn 4 b) None None
  else match p with
       | None =>
           (* json.go:213-220: Parse of a nil pointer *)
           match parseValue (skip_spaces b) with
           | PErr r e => DR (skip_spaces r) (Some e) (Some None)
           | POk _ r => DR (skip_spaces r) (Some EInvalidUnmarshal) (Some None)
           end
       | Some m => let x := parse V F t b m in DR (d_rest x) (d_err x) (Some (Some (d_val x)))
       end.

(** json.go:193-232 Unmarshal of such variables.  Only variables that hold a
    pointer are modelled here, so the case None is empty. *)
Definition unmarshal_iface (t : gty) (b : bytes) (p : option mem) : option err * held :=
  unmarshal_with (fun b h => match h with Some p => decode_iface_ptr V F t b p | None => DR b None None end) b (Some p).
(** json.go:193-232, decode.go:1069-1084 *)
Definition unmarshal_named (t : gty) (b : bytes) (p : option mem) : option err * held :=
  unmarshal_with (fun b h => match h with Some p => decode_named_ptr t b p | None => DR b None None end) b (Some p).
End Iface.
