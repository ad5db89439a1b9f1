(** Independent specification of the memory a value takes, for the bound of
    what Unmarshal makes reachable from its target (C92).  Of the model only the
    data types, the environment and the zero value of a type are used. *)
From Verif Require Import Bytes IntModel EncModel DecModel TypeModel.
Local Open Scope nat_scope.

(** Memory is counted in cells: a cell is a byte of a string, or a word or
    header of fixed size (an integer, a float, a time, the header of a string,
    slice, map or interface, a pointer, an entry of a map).  What a user-defined
    unmarshaler keeps is its own business and counts as one cell. *)

(** What an interface holds.  The slices in it were made by the decoder, with 10
    elements at first and then twice as many: at most ten, and ten for every
    element. *)
Fixpoint held (v : jv) : nat :=
  match v with
  | JVNull | JVBool _ | JVFloat _ => 1
  | JVNumber s | JVString s => 1 + length s
  | JVArr l => 11 + 10 * length l + list_sum (map held l)
  | JVMap m => 1 + list_sum (map (fun e => match e with (k, v) => 1 + length k + held v end) m)
  end.
Definition key_cells (k : mkey) : nat := match k with MKStr s => 1 + length s | MKInt _ | MKUser _ => 1 end.
(** All the cells reachable from a variable, also those of a backing array
    beyond the length of the slice. *)
Fixpoint cells (m : mem) : nat :=
  match m with
  | MBool _ | MInt _ | MFloat _ | MTime _ | MUser _ => 1
  | MStr s => 1 + length s
  | MBytes s => 1 + match s with None => 0 | Some (_, d) => length d end
  | MRaw r => 1 + match r with None => 0 | Some s => length s end
  | MIface v => held v
  | MList l => 1 + list_sum (map cells l)
  | MSlice s => 1 + match s with None => 0 | Some (_, d) => list_sum (map cells d) end
  | MMap m => 1 + match m with None => 0 | Some m => list_sum (map (fun e => match e with (k, v) => 1 + key_cells k + cells v end) m) end
  | MPtr p => 1 + match p with None => 0 | Some x => cells x end
  end.

(** How many pointers lead from a variable of the type to its value. *)
Fixpoint pointers (t : gty) : nat := match t with YPtr e => S (pointers e) | _ => 0 end.

Section Types.
Context (V : tenv).

(** The types a value of type [t] can contain. *)
Inductive part (t : gty) : gty -> Prop :=
| pa_self : part t t
| pa_array n e : part t (YArray n e) -> part t e
| pa_slice e : part t (YSlice e) -> part t e
| pa_map k e : part t (YMap k e) -> part t e
| pa_map_si : part t YMapSI -> part t YIface
| pa_map_sr : part t YMapSR -> part t YRaw
| pa_ptr e : part t (YPtr e) -> part t e
| pa_field i f : part t (YStruct i) -> In f (v_flds V i) -> part t (jf_ty f)
| pa_embedded i f k s u : part t (YStruct i) -> In f (v_flds V i) -> In (PVia k s u) (jf_path f) -> part t (YStruct s).

(** [sized t z d]: the zero values of these types take at most z cells, and at
    most d pointers are followed to reach a value of one of them, or a field of
    one of them.  Every Go type has such bounds, because it is made of finitely
    many types. *)
Definition sized (t : gty) (z d : nat) : Prop :=
  (forall u, part t u -> cells (zero V u) <= z /\ pointers u <= d) /\
  (forall i f, part t (YStruct i) -> In f (v_flds V i) -> length (jf_path f) <= d).

(** base64 does not lengthen. *)
Definition b64_short : Prop := forall s v, v_b64 V s = Some v -> length v <= length s.

(** Cells for each byte of the text. *)
Definition per_byte (z d : nat) : nat := 10 * (z + 4) * (d + 1).
End Types.
