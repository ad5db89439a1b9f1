(** Specification: how Go represents a value in an interface or a
    reflect.Value. *)
From Verif Require Import Bytes WordModel.
Local Open Scope Z_scope.

(** Types that are stored in the data word itself: one pointer, a struct with
    one field or an array with one element of that kind. *)
Inductive direct : rty -> Prop :=
| D_ptr : direct RPtr
| D_map : direct RMap
| D_chan : direct RChan
| D_func : direct RFunc
| D_unsafe : direct RUnsafe
| D_struct f : direct f -> direct (RStruct [f])
| D_array e : direct e -> direct (RArray 1 e).

(** The data word [data] represents, in memory [h], the value of type [t] that
    consists of the words [ws]. *)
Definition represents (h : heap) (t : rty) (data : Z) (ws : list Z) : Prop :=
  (direct t /\ ws = [data]) \/
  (~ direct t /\ forall i w, nth_error ws i = Some w -> h (data + Z.of_nat i) = w).
(** [l] is the address of a new variable: not part of the value. *)
Definition apart_from (l : Z) (t : rty) (data : Z) (ws : list Z) : Prop :=
  ~ direct t -> forall i, (i < length ws)%nat -> l <> data + Z.of_nat i.
(** The encoder finds the words [ws] at the address it is called with. *)
Definition finds (r : heap * Z) (ws : list Z) : Prop :=
  forall i w, nth_error ws i = Some w -> fst r (snd r + Z.of_nat i) = w.

(** Without arrays of length one and without channels, functions and unsafe
    pointers. *)
Fixpoint usual (t : rty) : Prop :=
  match t with
  | RPtr | RMap | RWords _ => True
  | RChan | RFunc | RUnsafe => False
  | RStruct fs => fold_right and True (map usual fs)
  | RArray n e => n <> 1%nat
  end.
