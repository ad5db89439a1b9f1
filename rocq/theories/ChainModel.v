(** Decoding into interface{} variables that hold pointers to interface{}
    variables, which may lead back to themselves. *)
From Verif Require Import Bytes ParseModel IntModel EncModel DecModel.

(** A variable of type interface{}: it holds a pointer to another one, or a value
    that is not a pointer: the variables p of decode.go:986-1010. *)
Inductive cell := CVal (v : jv) | CPtr (a : nat).
(** all of them, by their addresses: decode.go:986-1010 *)
Definition cells := nat -> cell.
(** An assignment to variable a, as in decode.go:1064. *)
Definition upd (h : cells) (a : nat) (c : cell) : cells := fun x => if Nat.eqb x a then c else h x.

(** decode.go:986-1010 decodeInterface of variable a, with json.go:209-232 Parse
    of the pointer it holds; [n] bounds the number of pointers followed and the
    result is [None] if that is not enough.  A value that is not a pointer is
    replaced as in [decode_interface] (DecModel.v; decode.go:1012-1066). *)
Fixpoint dec_cell (usenum : bool) (pf : bytes -> option fl) (n : nat) (h : cells) (a : nat) (b : bytes) : option (dres cells) :=
  let h0 := upd h a (CVal JVNull) in
  match h a with
  | CVal v =>
      let x := decode_interface usenum pf b v in
      Some (DR (d_rest x) (d_err x) (upd h0 a (CVal (d_val x))))
  | CPtr a' =>
      if has_null_prefix b then Some (DR (skipn 4 b) None h0)
      else match n with
           | O => None
           | S n =>
               match dec_cell usenum pf n h0 a' (skip_spaces b) with
               | None => None
               | Some x => Some (DR (skip_spaces (d_rest x)) (d_err x)
                                   (match d_err x with None => upd (d_val x) a (CPtr a') | Some _ => d_val x end))
               end
           end
  end.
(** json.go:193-232 Unmarshal of a pointer to variable a *)
Definition unmarshal_cell (usenum : bool) (pf : bytes -> option fl) (n : nat) (h : cells) (a : nat) (b : bytes) : option (option err * cells) :=
  match dec_cell usenum pf n h a (skip_spaces b) with
  | None => None
  | Some x => Some (unmarshal_with (fun _ _ => x) b h)
  end.
