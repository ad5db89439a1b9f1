(** Independent specification of what a failed Unmarshal leaves in its target,
    for every text, JSON or not: what was read before the failure is stored, and
    the variable the failure happened in is as the relation [leaves] says.  It is
    built on [stores] (SpecType.v) and, for the texts that are read, on [spells]
    (SpecLoose.v); no decoder occurs here. *)
From Verif Require Import Bytes SpecJson SpecString SpecDec IntModel EncModel DecModel TypeModel DecLoops SpecType SpecLoose.

(** Nothing that could continue a number; what may follow a value. *)
Definition cut (b : bytes) : Prop := match b with [] => True | c :: _ => ~ digit c /\ c <> 46 /\ c <> 101 /\ c <> 69 end.
Definition apart (v : node) (r : bytes) : Prop := match nshape v with HNum => cut r | _ => True end.
(** What stands before an element or a member: white space, and a comma unless it
    is the first one. *)
Definition lead (first : bool) (w : bytes) : Prop :=
  if first then ws w else exists w1 w2, ws w1 /\ ws w2 /\ w = w1 ++ 44 :: w2.
Definition none {A} (l : list A) : bool := match l with [] => true | _ => false end.
Definition unspaced (b : bytes) : Prop := forall w c r, ws (c :: w) -> b <> (c :: w) ++ r.

(** * Slices.  [T b r x y]: a value at the start of b, r following it, turns x
    into y; [L b x y]: there is none, and x becomes y. *)
Section Slices.
Context {A : Type} (T : bytes -> bytes -> A -> A -> Prop) (L : bytes -> A -> A -> Prop) (zero : A).

Inductive elems_read : bool -> bytes -> list A -> list A -> bytes -> Prop :=
| er_none first b d : elems_read first b d [] b
| er_more first w b1 r d y ys b2 : lead first w -> T b1 r (hd zero d) y -> elems_read false r (tl d) ys b2 ->
    elems_read first (w ++ b1) d (y :: ys) b2.
(** The backing array, of capacity [c], after elements have been written over [d]. *)
Definition array_after (ys d : list A) (c : nat) : list A :=
  ys ++ skipn (length ys) d ++ repeat zero (c - max (length ys) (length d)).

(** The length is the number of the elements read; the cell behind them may
    have been touched. *)
Inductive slice_left : bytes -> sl A -> sl A -> Prop :=
| sl_elem x s ys w b1 y c : elems_read true s (backing x) ys (w ++ b1) -> lead (none ys) w -> unspaced b1 ->
    (ys = [] -> forall r, b1 <> 93 :: r) -> L b1 (nth (length ys) (backing x) zero) y ->
    grows (length (backing x)) (S (length ys)) c ->
    slice_left s x (Some (length ys, array_after (ys ++ [y]) (backing x) c))
| sl_sep x s ys b1 c : elems_read true s (backing x) ys b1 -> ys <> [] ->
    (forall w r, ws w -> b1 <> w ++ 44 :: r) -> (forall w r, ws w -> b1 <> w ++ 93 :: r) ->
    grows (length (backing x)) (length ys) c ->
    slice_left s x (Some (length ys, array_after ys (backing x) c)).

(** Fixed-size arrays.  Elements beyond the size, with a comma before them or
    not, are skipped. *)
Inductive extras_read : bytes -> bytes -> Prop :=
| ex_none b : extras_read b b
| ex_more w v r b2 : ws w \/ lead false w -> jnode v -> extras_read r b2 -> extras_read (w ++ ntext v ++ r) b2.
(** The cells behind the one the failure happened in are as they were. *)
Inductive array_left : bytes -> list A -> list A -> Prop :=
| al_elem x s ys w b1 y : (length ys < length x)%nat -> elems_read true s x ys (w ++ b1) -> lead (none ys) w -> unspaced b1 ->
    L b1 (nth (length ys) x zero) y -> array_left s x (ys ++ y :: skipn (S (length ys)) x)
| al_sep x s ys b1 : (length ys < length x)%nat -> elems_read true s x ys b1 -> ys <> [] ->
    (forall w r, ws w -> b1 <> w ++ 44 :: r) -> (forall w r, ws w -> b1 <> w ++ 93 :: r) ->
    array_left s x (ys ++ skipn (length ys) x)
| al_extra x s ys b0 b1 : length ys = length x -> elems_read true s x ys b0 -> extras_read b0 b1 ->
    (forall w r, ws w -> b1 <> w ++ 93 :: r) ->
    (forall w v r, ws w \/ lead false w -> jnode v -> apart v r -> b1 <> w ++ ntext v ++ r) ->
    array_left s x ys.
End Slices.

(** * Maps: the entries read. *)
Section Maps.
Context {K A : Type} (R : node -> A -> A -> Prop) (T : bytes -> bytes -> A -> A -> Prop) (zero : A)
  (keym : bytes -> K -> Prop) (eqb : K -> K -> bool).

Inductive entries_read : bool -> bytes -> list (K * A) -> bytes -> Prop :=
| en_none first b : entries_read first b [] b
| en_more first w lit w2 w3 b1 r k y kvs b2 : lead first w -> string_lit lit -> ws w2 -> ws w3 -> keym lit k ->
    T b1 r zero y -> entries_read false r kvs b2 ->
    entries_read first (w ++ lit ++ w2 ++ 58 :: w3 ++ b1) ((k, y) :: kvs) b2.
(** Neither the end nor an entry that can be stored comes next. *)
Definition stuck (first : bool) (b : bytes) : Prop :=
  (forall w r, ws w -> b <> w ++ 125 :: r) /\
  (forall w lit w2 w3 v r k y, lead first w -> string_lit lit -> ws w2 -> ws w3 -> keym lit k -> jnode v -> apart v r ->
     b = w ++ lit ++ w2 ++ 58 :: w3 ++ ntext v ++ r -> ~ R v zero y).
(** A nil map stays nil; to any other the entries are added. *)
Inductive map_left : bytes -> option (list (K * A)) -> option (list (K * A)) -> Prop :=
| ml s x kvs b1 : entries_read true s kvs b1 -> stuck (none kvs) b1 ->
    map_left s x (match x with None => None | Some m => Some (add_all eqb kvs m) end).
End Maps.

(** * Structs. *)
Inductive fields_read {A} (M : bytes -> bytes -> bytes -> A -> A -> Prop) : bool -> bytes -> A -> A -> bool -> bytes -> Prop :=
| fr_none first b x : fields_read M first b x x first b
| fr_more first w lit k w2 w3 b1 r x y z last b2 : lead first w -> string_lit lit -> str_means lit k -> ws w2 -> ws w3 ->
    M k b1 r x y -> fields_read M false r y z last b2 ->
    fields_read M first (w ++ lit ++ w2 ++ 58 :: w3 ++ b1) x z last b2.

Section Left.
Context (V : tenv) (F : dflags).

(** A text that is read as a value at the start of [b], white space, then [r];
    the value turns x into y. *)
Definition took (t : gty) (b r : bytes) (x y : mem) : Prop :=
  exists s v w, spells V F t s v /\ ws w /\ b = s ++ w ++ r /\ stores V F t v x y.
(** The text of a member with key [k]: JSON, unless the field it is for accepts
    more. *)
Definition member_text (i : nat) (k s : bytes) (v : node) : Prop :=
  (jnode v /\ s = ntext v) \/ exists f, picks V F (v_flds V i) k (Some f) /\ jf_quot f = QNo /\ spells V F (jf_ty f) s v.
Definition took_member (i : nat) (k b r : bytes) (x y : mem) : Prop :=
  exists s v w, member_text i k s v /\ ws w /\ b = s ++ w ++ r /\ member V F i k v x y.
(** No value that could be stored stands at the start of [b]. *)
Definition unfit (t : gty) (b : bytes) (x : mem) : Prop :=
  forall v r y, jnode v -> apart v r -> b = ntext v ++ r -> ~ stores V F t v x y.
Definition no_value (b : bytes) : Prop := forall v r, jnode v -> apart v r -> b <> ntext v ++ r.

(** The target takes the text apart. *)
Definition opened (t : gty) (b : bytes) : Prop :=
  match t, b with
  | YSlice _, 91 :: _ :: _ | YArray _ _, 91 :: _ :: _ | YBytes, 91 :: _ :: _ => True
  | YMap _ _, 123 :: _ :: _ | YMapSI, 123 :: _ :: _ | YMapSR, 123 :: _ :: _ | YStruct _, 123 :: _ :: _ => True
  | _, _ => False
  end.
(** Types whose variables keep their value if they are given something else. *)
Definition keeps (t : gty) : Prop :=
  match t with YIface | YPtr _ | YJSON _ | YText _ => False | _ => True end.

(** The part of a struct a path leads to is left as [L] says; nil pointers on
    the way have been set, unless their type is unexported. *)
Inductive path_left (L : bytes -> mem -> mem -> Prop) : list pstep -> bytes -> mem -> mem -> Prop :=
| pl_here b x y : L b x y -> path_left L [] b x y
| pl_in l1 x l2 p b y : path_left L p b x y -> path_left L (PIn (length l1) :: p) b (MList (l1 ++ x :: l2)) (MList (l1 ++ y :: l2))
| pl_via l1 x l2 s u p b y : path_left L p b x y ->
    path_left L (PVia (length l1) s u :: p) b (MList (l1 ++ MPtr (Some x) :: l2)) (MList (l1 ++ MPtr (Some y) :: l2))
| pl_new l1 l2 s p b y : path_left L p b (zero V (YStruct s)) y ->
    path_left L (PVia (length l1) s false :: p) b (MList (l1 ++ MPtr None :: l2)) (MList (l1 ++ MPtr (Some y) :: l2))
| pl_unexported l1 l2 s p b :
    path_left L (PVia (length l1) s true :: p) b (MList (l1 ++ MPtr None :: l2)) (MList (l1 ++ MPtr None :: l2))
| pl_wrong st p b x :
    (match st with
     | PIn i => forall l y, x = MList l -> nth_error l i <> Some y
     | PVia i _ _ => forall l y, x = MList l -> nth_error l i <> Some (MPtr y)
     end) -> path_left L (st :: p) b x x.

(** The option ",string": a failure inside the string, a value in the string
    that is followed by more, or no string of the kind wanted. *)
Inductive field_left (q : quot) (T : bytes -> bytes -> mem -> mem -> Prop) (L : bytes -> mem -> mem -> Prop) : bytes -> mem -> mem -> Prop :=
| fl_plain b x y : q = QNo -> L b x y -> field_left q T L b x y
| fl_null r x y : q <> QNo -> L (bs "null" ++ r) x y -> field_left q T L (bs "null" ++ r) x y
| fl_kept b x : q <> QNo -> (forall lit r, string_lit lit -> b <> lit ++ r) -> field_left q T L b x x
| fl_empty r x : q = QInt -> field_left q T L (34 :: 34 :: r) x x
| fl_str lit r s x y : q = QStr -> string_lit lit -> str_means lit s -> L s x y -> field_left q T L (lit ++ r) x y
| fl_str_more lit r s r1 x y : q = QStr -> string_lit lit -> str_means lit s -> T s r1 x y -> ~ ws r1 -> field_left q T L (lit ++ r) x y
| fl_int lit r s u x y : q = QInt -> string_lit lit -> lit <> [34; 34] -> str_means lit s -> unzeroed s u -> L u x y -> field_left q T L (lit ++ r) x y
| fl_int_more lit r s u r1 x y : q = QInt -> string_lit lit -> lit <> [34; 34] -> str_means lit s -> unzeroed s u -> T u r1 x y -> r1 <> [] ->
    field_left q T L (lit ++ r) x y.

(** [leaves t b x y]: no value of type [t] can be read from the start of [b] into
    [x], and the attempt leaves [y]. *)
Inductive leaves : gty -> bytes -> mem -> mem -> Prop :=
| le_kept t b x : keeps t -> ~ opened t b -> unfit t b x -> leaves t b x x
| le_wrong t b x : ~ shape_of t x -> leaves t b x x                  (* cannot occur: C43 *)
| le_iface b x : unfit YIface b (MIface x) -> leaves YIface b (MIface x) (MIface JVNull)
| le_ptr e b x y : leaves e b (match x with Some x => x | None => zero V e end) y -> leaves (YPtr e) b (MPtr x) (MPtr (Some y))
| le_json_text u b x : no_value b -> leaves (YJSON u) b x x
| le_json u v r x e y : jnode v -> nshape v <> HNull -> v_json V u (ntext v) x = (Some e, y) ->
    leaves (YJSON u) (ntext v ++ r) (MUser x) (MUser y)
| le_text_text u b x : (forall lit r, string_lit lit -> b <> lit ++ r) -> leaves (YText u) b x x
| le_text u lit r s x e y : string_lit lit -> str_means lit s -> v_text V u s x = (Some e, y) ->
    leaves (YText u) (lit ++ r) (MUser x) (MUser y)
| le_slice e s x y : s <> [] -> slice_left (took e) (leaves e) (zero V e) s x y -> leaves (YSlice e) (91 :: s) (MSlice x) (MSlice y)
| le_array n e s x y : s <> [] -> array_left (took e) (leaves e) (zero V e) s x y -> leaves (YArray n e) (91 :: s) (MList x) (MList y)
| le_bytes s x y : s <> [] ->
    slice_left (fun b r x y => took (YInt TUint8) b r (MInt x) (MInt y)) (fun b x y => leaves (YInt TUint8) b (MInt x) (MInt y)) 0 s x y ->
    leaves YBytes (91 :: s) (MBytes x) (MBytes y)
| le_map k e s x y : s <> [] -> map_left (stores V F e) (took e) (zero V e) (key_means V k) mkey_eqb s x y ->
    leaves (YMap k e) (123 :: s) (MMap x) (MMap y)
| le_map_si b x y : opened YMapSI b -> leaves (YMap KYString YIface) b x y -> leaves YMapSI b x y
| le_map_sr b x y : opened YMapSR b -> leaves (YMap KYString YRaw) b x y -> leaves YMapSR b x y
(** No member comes next. *)
| le_struct_text i s x y first b1 : s <> [] -> fields_read (took_member i) true s (MList x) y first b1 ->
    (forall w r, ws w -> b1 <> w ++ 125 :: r) ->
    (forall w lit w2 r, lead first w -> string_lit lit -> ws w2 -> b1 <> w ++ lit ++ w2 ++ 58 :: r) ->
    leaves (YStruct i) (123 :: s) (MList x) y
(** A member that no field is for. *)
| le_struct_other i s x y first w lit k w2 w3 b1 : s <> [] ->
    fields_read (took_member i) true s (MList x) y first (w ++ lit ++ w2 ++ 58 :: w3 ++ b1) ->
    lead first w -> string_lit lit -> str_means lit k -> ws w2 -> ws w3 -> unspaced b1 ->
    picks V F (v_flds V i) k None -> d_disallow F = true \/ no_value b1 -> leaves (YStruct i) (123 :: s) (MList x) y
(** A member whose field cannot take it. *)
| le_struct i s x y first w lit k w2 w3 b1 f z : s <> [] ->
    fields_read (took_member i) true s (MList x) y first (w ++ lit ++ w2 ++ 58 :: w3 ++ b1) ->
    lead first w -> string_lit lit -> str_means lit k -> ws w2 -> ws w3 -> unspaced b1 ->
    picks V F (v_flds V i) k (Some f) ->
    path_left (field_left (jf_quot f) (took (jf_ty f)) (leaves (jf_ty f))) (jf_path f) b1 y z ->
    leaves (YStruct i) (123 :: s) (MList x) z.

(** * The keys of the object at the start of a text, JSON or not, that is to be
    stored in struct number i *)
Inductive member_key (i : nat) : bool -> bytes -> bytes -> Prop :=
| mk_here first w lit k w2 b : lead first w -> string_lit lit -> str_means lit k -> ws w2 -> member_key i first (w ++ lit ++ w2 ++ 58 :: b) k
| mk_later first w lit k0 w2 w3 s v w4 r k : lead first w -> string_lit lit -> str_means lit k0 -> ws w2 -> ws w3 -> member_text i k0 s v -> ws w4 ->
    member_key i false r k -> member_key i first (w ++ lit ++ w2 ++ 58 :: w3 ++ s ++ w4 ++ r) k.
Definition top_key (i : nat) (b k : bytes) : Prop := exists w s, ws w /\ b = w ++ 123 :: s /\ member_key i true s k.
End Left.
(** A field lies in part number [p] of its struct. *)
Definition lies_in (p : nat) (f : jfield) : Prop :=
  match jf_path f with [] => True | PIn j :: _ => j = p | PVia j _ _ :: _ => j = p end.
