(** Specification of reading values one after the other from one text. *)
From Verif Require Import Bytes SpecJson IntModel TypeModel SpecType SpecStream.

(** What follows a number does not go on with it. *)
Definition ends_at (nd : node) (r : bytes) : Prop := number_lit (ntext nd) -> num_end r.
(** [values s nds r]: the text [s] is the values [nds], with white space between
    and around them, and then [r], which does not start with white space. *)
Inductive values : bytes -> list node -> bytes -> Prop :=
| vs_end w r : ws w -> (forall c r', r = c :: r' -> ~ ws [c]) -> values (w ++ r) [] r
| vs_value w nd s nds r : ws w -> jnode nd -> ends_at nd s -> values s nds r -> values (w ++ ntext nd ++ s) (nd :: nds) r.

(** Successive calls of Parse, each on what the one before has left: the
    results and what is left in the end. *)
Fixpoint parses (P : bytes -> mem -> dres mem) (xs : list mem) (b : bytes) : list (option err * mem) * bytes :=
  match xs with
  | [] => ([], b)
  | x :: xs' => let d := P b x in let '(l, r) := parses P xs' (d_rest d) in ((d_err d, d_val d) :: l, r)
  end.
(** The same as long as there is no error: None. *)
Fixpoint all_ok (l : list (option err * mem)) : option (list mem) :=
  match l with
  | [] => Some []
  | (None, y) :: l' => match all_ok l' with Some ys => Some (y :: ys) | None => None end
  | (Some _, _) :: _ => None
  end.
