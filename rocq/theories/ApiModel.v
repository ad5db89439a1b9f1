(** Model of /repo/json.go: Parse and Unmarshal on anything, pointer or not. *)
From Verif Require Import Bytes ParseModel IntModel DecModel TypeModel.

(** json.go:213-220: Parse when x is nil, a nil pointer or not a pointer: what
    is left of the input, and the error *)
Definition parse_no_target (b : bytes) : bytes * err :=
  match parseValue (skip_spaces b) with
  | PErr r e => (skip_spaces r, e)
  | POk _ r => (skip_spaces r, EInvalidUnmarshal)
  end.
(** json.go:193-205: Unmarshal on such an x *)
Definition unmarshal_no_target (b : bytes) : err :=
  let '(r, e) := parse_no_target b in
  match r with
  | [] => e
  | _ => match e with ESyntax => e | _ => ESyntax end
  end.
