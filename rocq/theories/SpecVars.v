(** Memory in which variables may refer to each other in any way: what is at which
    address, and when memory agrees with that. *)
From Verif Require Import Bytes IntModel EncModel DecModel TypeModel SpecFit AddrModel SpecAddr.

(** What an address is: that of a variable which is one cell (every variable that is
    not an array or a struct), of a map with keys and values of a type, or padding. *)
Inductive kind := KVar (t : gty) | KMap (k : kty) (e : gty) | KPad.
Definition vars := Z -> kind -> Prop.

Section Vars.
Context (V : tenv) (L : layout).
Notation size := (l_size L).

(** [cell_of t a x u]: the variable of type t at a has at x a variable of type u
    that is one cell. *)
Inductive cell_of : gty -> Z -> Z -> gty -> Prop :=
| co_one t a : match t with YArray _ _ | YStruct _ => False | _ => True end -> cell_of t a a t
| co_array n e a i x u : (i < n)%nat -> cell_of e (a + Z.of_nat i * size e) x u -> cell_of (YArray n e) a x u
| co_struct i a k t x u : nth_error (v_decl V i) k = Some t -> cell_of t (a + l_off L i k) x u -> cell_of (YStruct i) a x u.

(** [typed T t a]: at a is a variable of type t. *)
Definition typed (T : vars) (t : gty) (a : Z) : Prop :=
  (forall x u, cell_of t a x u -> T x (KVar u)) /\
  (forall x, seg a (size t) x -> ~ (exists u, cell_of t a x u) -> T x KPad).

(** The element type of slices, the types of the keys and values of maps. *)
Definition slice_elem (t : gty) : option gty := match t with YSlice e => Some e | YBytes => Some (YInt TUint8) | _ => None end.
Definition map_elem (t : gty) : option (kty * gty) :=
  match t with YMap k e => Some (k, e) | YMapSI => Some (KYString, YIface) | YMapSR => Some (KYString, YRaw) | _ => None end.

(** What the cell of an address may be: values of the type; pointers to variables of
    the type; slices of an array of variables that has as many as the capacity says, and of no
    greater length; maps whose keys are different values of the key type, and whose values
    are variables of the type. *)
Definition cell_ok (T : vars) (c : cell) (k : kind) : Prop :=
  match k with
  | KPad => True
  | KMap k e => exists l, rd_obj c = Some l /\ NoDup (map fst l) /\ forall key s, In (key, s) l -> key_fits k key /\ typed T e s
  | KVar t =>
      match t with
      | YPtr e => exists p, rd_ptr c = Some p /\ forall v, p = Some v -> typed T e v
      | YSlice _ | YBytes => exists e d len cap, slice_elem t = Some e /\ rd_slice c = Some (d, len, cap) /\ (len <= cap)%nat /\
          match d with Some p => typed T (YArray cap e) p | None => cap = O end
      | YMap _ _ | YMapSI | YMapSR => exists k e q, map_elem t = Some (k, e) /\ rd_map c = Some q /\ forall m, q = Some m -> T m (KMap k e)
      | _ => exists m, rd_leaf V t c = Some m /\ fits V t m
      end
  end.
(** Every address is one thing only, is allocated, and holds what it may. *)
Definition good (h : st) (T : vars) : Prop :=
  (forall x k, T x k -> x < nx h /\ cell_ok T (hp h x) k) /\ (forall x k k', T x k -> T x k' -> k = k').

(** What can be reached from a variable of a type. *)
Inductive within : gty -> kind -> Prop :=
| wi_own t a x u : cell_of t a x u -> within t (KVar u)
| wi_ptr t e k : within t (KVar (YPtr e)) -> within e k -> within t k
| wi_slice t s e k : within t (KVar s) -> slice_elem s = Some e -> within e k -> within t k
| wi_map t m k e : within t (KVar m) -> map_elem m = Some (k, e) -> within t (KMap k e)
| wi_val t m kk e k : within t (KVar m) -> map_elem m = Some (kk, e) -> within e k -> within t k
| wi_pad t : within t KPad.
(** From the elements of a slice no slice of the same type can be reached. *)
Definition flat_slices (t : gty) : Prop :=
  forall s e, within t (KVar s) -> slice_elem s = Some e -> ~ within e (KVar s).

(** [moves t T h T' h']: from h and T, memory becomes h' and T': variables stay, new ones are
    in new memory, and only what can be reached from a variable of type t is written. *)
Record moves (t : gty) (T : vars) (h : st) (T' : vars) (h' : st) : Prop := Moves {
  mv_keep : forall x k, T x k -> T' x k;
  mv_new : forall x k, T' x k -> T x k \/ nx h <= x;
  mv_good : good h' T';
  mv_next : nx h <= nx h';
  mv_frame : forall x, x < nx h -> (forall k, T x k -> ~ within t k) -> hp h' x = hp h x }.
End Vars.
