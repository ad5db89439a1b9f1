(** When memory holds a value: the variables of which the value consists lie
    where the layout of the types says, and no two of them overlap. *)
From Verif Require Import Bytes IntModel EncModel DecModel TypeModel AddrModel.

(** The addresses from a to a + n, and sets of addresses. *)
Definition seg (a n x : Z) : Prop := a <= x < a + n.
Definition sub (P Q : Z -> Prop) : Prop := forall x, P x -> Q x.
Definition disj (P Q : Z -> Prop) : Prop := forall x, P x -> Q x -> False.
Definition union (P Q : Z -> Prop) (x : Z) : Prop := P x \/ Q x.

Section Rep.
Context (V : tenv) (L : layout).
Notation size := (l_size L).

(** What the Go compiler guarantees of the layout of types: sizes are multiples of
    the alignment, the elements of an array follow each other, references
    to maps are of one size, the fields of a struct lie in it one after the other. *)
Record lay_ok : Prop := LayOk {
  lo_size : forall t, 0 <= size t;
  lo_align : forall t, 0 < l_align L t /\ (l_align L t | size t);
  lo_one : forall t, match t with YArray _ _ | YStruct _ => True | _ => 1 <= size t end;
  lo_array : forall n e, size (YArray n e) = Z.of_nat n * size e;
  lo_map : forall k e, size (YMap k e) = size YMapSI /\ size YMapSR = size YMapSI;
  lo_in : forall i k u, nth_error (v_decl V i) k = Some u -> 0 <= l_off L i k /\ l_off L i k + size u <= size (YStruct i);
  lo_order : forall i k k' u u', nth_error (v_decl V i) k = Some u -> nth_error (v_decl V i) k' = Some u' -> (k < k')%nat ->
    l_off L i k + size u <= l_off L i k' }.

(** Values that are one cell. *)
Definition one_cell (t : gty) (m : mem) : Prop :=
  match t, m with
  | YBool, MBool _ | YInt _, MInt _ | YDuration, MInt _ | YFloat _, MFloat _ | YNumber, MStr _ | YString, MStr _ | YTime, MTime _
  | YIface, MIface _ | YNamedIface _, MIface _ | YRaw, MRaw _ | YJSON _, MUser _ | YText _, MUser _ | YUnsupported, MUser _ => True
  | _, _ => False
  end.

(** [rep h t a m D]: the variable of type t at address a holds m.  The variable
    itself takes the addresses from a to a + size t; everything its pointers,
    slices and maps refer to lies in D, outside of the variable that refers to it,
    and no two parts of it share an address. *)
Inductive rep (h : st) : gty -> Z -> mem -> (Z -> Prop) -> Prop :=
| rp_leaf t a m (D : Z -> Prop) : one_cell t m -> rd_leaf V t (hp h a) = Some m -> rep h t a m D
| rp_array n e a l (D : Z -> Prop) (Q : nat -> Z -> Prop) : length l = n ->
    (forall i x, nth_error l i = Some x -> rep h e (a + Z.of_nat i * size e) x (Q i)) ->
    (forall i, sub (Q i) D) -> (forall i j, i <> j -> disj (Q i) (Q j)) ->
    rep h (YArray n e) a (MList l) D
| rp_struct i a l (D : Z -> Prop) (Q : nat -> Z -> Prop) : length l = length (v_decl V i) ->
    (forall k u x, nth_error (v_decl V i) k = Some u -> nth_error l k = Some x -> rep h u (a + l_off L i k) x (Q k)) ->
    (forall k, sub (Q k) D) -> (forall k k', k <> k' -> disj (Q k) (Q k')) ->
    rep h (YStruct i) a (MList l) D
| rp_nil e a (D : Z -> Prop) : rd_ptr (hp h a) = Some None -> rep h (YPtr e) a (MPtr None) D
| rp_ptr e a p x (D : Z -> Prop) (Q : Z -> Prop) : rd_ptr (hp h a) = Some (Some p) ->
    rep h e p x Q -> disj Q (seg p (size e)) -> sub Q D -> sub (seg p (size e)) D ->
    rep h (YPtr e) a (MPtr (Some x)) D
| rp_slice_nil e a (D : Z -> Prop) : rd_slice (hp h a) = Some (None, O, O) -> rep h (YSlice e) a (MSlice None) D
| rp_slice e a p len d (D : Z -> Prop) (Q : nat -> Z -> Prop) : rd_slice (hp h a) = Some (Some p, len, length d) -> (len <= length d)%nat ->
    (forall i x, nth_error d i = Some x -> rep h e (p + Z.of_nat i * size e) x (Q i)) ->
    (forall i, sub (Q i) D) -> (forall i j, i <> j -> disj (Q i) (Q j)) ->
    (forall i, disj (Q i) (seg p (Z.of_nat (length d) * size e))) -> sub (seg p (Z.of_nat (length d) * size e)) D ->
    rep h (YSlice e) a (MSlice (Some (len, d))) D
| rp_bytes_nil a (D : Z -> Prop) : rd_slice (hp h a) = Some (None, O, O) -> rep h YBytes a (MBytes None) D
| rp_bytes a p len d (D : Z -> Prop) : rd_slice (hp h a) = Some (Some p, len, length d) -> (len <= length d)%nat ->
    (forall i z, nth_error d i = Some z -> rd_leaf V (YInt TUint8) (hp h (p + Z.of_nat i * size (YInt TUint8))) = Some (MInt z)) ->
    sub (seg p (Z.of_nat (length d) * size (YInt TUint8))) D ->
    rep h YBytes a (MBytes (Some (len, d))) D
| rp_map_nil k e a (D : Z -> Prop) : rd_map (hp h a) = Some None -> rep h (YMap k e) a (MMap None) D
| rp_map k e a q l m (D : Z -> Prop) (Q R : nat -> Z -> Prop) : rd_map (hp h a) = Some (Some q) -> rd_obj (hp h q) = Some l -> D q ->
    map fst l = map fst m ->
    (forall i kx s ky x, nth_error l i = Some (kx, s) -> nth_error m i = Some (ky, x) -> rep h e s x (Q i)) ->
    (forall i kx s, nth_error l i = Some (kx, s) -> disj (Q i) (seg s (size e)) /\ sub (seg s (size e)) (R i) /\ sub (Q i) (R i)) ->
    (forall i, sub (R i) D) -> (forall i, ~ R i q) -> (forall i j, i <> j -> disj (R i) (R j)) ->
    rep h (YMap k e) a (MMap (Some m)) D
| rp_map_si a m (D : Z -> Prop) : rep h (YMap KYString YIface) a (MMap m) D -> rep h YMapSI a (MMap m) D
| rp_map_sr a m (D : Z -> Prop) : rep h (YMap KYString YRaw) a (MMap m) D -> rep h YMapSR a (MMap m) D.

(** A variable of type t at a with all that belongs to it: allocated memory,
    nothing of which is used twice. *)
Definition holds_at (h : st) (t : gty) (a : Z) (m : mem) (D : Z -> Prop) : Prop :=
  rep h t a m D /\ disj D (seg a (size t)) /\ (forall x, seg a (size t) x \/ D x -> x < nx h).

(** [h'] comes from h by writing to the addresses in P only, and to newly
    allocated memory. *)
Definition writes_only (P : Z -> Prop) (h h' : st) : Prop :=
  nx h <= nx h' /\ forall x, x < nx h -> ~ P x -> hp h' x = hp h x.
(** Memory allocated between h and h'. *)
Definition fresh (h h' : st) (x : Z) : Prop := nx h <= x < nx h'.
End Rep.
