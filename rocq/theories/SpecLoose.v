(** Which texts a type accepts: JSON, and more than JSON where a fixed-size
    array is decoded.  [spells t s v] says that the text s is read as the JSON
    value v (which keeps its own, proper text). *)
From Verif Require Import Bytes SpecJson SpecString SpecDec IntModel DecModel TypeModel SpecType.

Section Lists.
Context (S : bytes -> node -> Prop).
(** The elements between the brackets of an array, properly separated. *)
Inductive selems : bytes -> list node -> Prop :=
| se_one w1 s v w2 : ws w1 -> S s v -> ws w2 -> selems (w1 ++ s ++ w2) [v]
| se_cons w1 s v w2 t l : ws w1 -> S s v -> ws w2 -> selems t l -> selems (w1 ++ s ++ w2 ++ 44 :: t) (v :: l).
(** The same for an array with room for k elements: those are separated
    properly; each one after them must be JSON but may have a comma before it
    or not, even if it is the first. *)
Inductive room : nat -> bool -> bytes -> list node -> Prop :=
| ro_end k first w : ws w -> (first = true -> k = O) -> room k first w []
| ro_first k w1 s v t l : ws w1 -> S s v -> room k false t l -> room (Datatypes.S k) true (w1 ++ s ++ t) (v :: l)
| ro_next k w1 w2 s v t l : ws w1 -> ws w2 -> S s v -> room k false t l ->
    room (Datatypes.S k) false (w1 ++ 44 :: w2 ++ s ++ t) (v :: l)
| ro_extra first w1 v t l : ws w1 -> jnode v -> room 0 false t l -> room 0 first (w1 ++ ntext v ++ t) (v :: l)
| ro_extra_comma first w1 w2 v t l : ws w1 -> ws w2 -> jnode v -> room 0 false t l ->
    room 0 first (w1 ++ 44 :: w2 ++ ntext v ++ t) (v :: l).
End Lists.
(** The members between the braces of an object; [S k s v]: the text s of a
    member with key literal k is read as v. *)
Inductive smembers (S : bytes -> bytes -> node -> Prop) : bytes -> list (bytes * node) -> Prop :=
| sm_one w1 k w2 w3 s v w4 : ws w1 -> string_lit k -> ws w2 -> ws w3 -> S k s v -> ws w4 ->
    smembers S (w1 ++ k ++ w2 ++ 58 :: w3 ++ s ++ w4) [(k, v)]
| sm_cons w1 k w2 w3 s v w4 t l : ws w1 -> string_lit k -> ws w2 -> ws w3 -> S k s v -> ws w4 -> smembers S t l ->
    smembers S (w1 ++ k ++ w2 ++ 58 :: w3 ++ s ++ w4 ++ 44 :: t) ((k, v) :: l).

Section Spells.
Context (V : tenv) (F : dflags).
Inductive spells : gty -> bytes -> node -> Prop :=
| sl_json t v : jnode v -> spells t (ntext v) v
| sl_array k e s l u : room (spells e) k true s l -> jnode (ND u (HArr l)) -> spells (YArray k e) (91 :: s ++ [93]) (ND u (HArr l))
| sl_slice e s l u : selems (spells e) s l -> jnode (ND u (HArr l)) -> spells (YSlice e) (91 :: s ++ [93]) (ND u (HArr l))
| sl_map k e s l u : smembers (fun _ => spells e) s l -> jnode (ND u (HObj l)) -> spells (YMap k e) (123 :: s ++ [125]) (ND u (HObj l))
| sl_struct i s l u : smembers (spells_member i) s l -> jnode (ND u (HObj l)) -> spells (YStruct i) (123 :: s ++ [125]) (ND u (HObj l))
| sl_ptr e s v : spells e s v -> spells (YPtr e) s v
with spells_member : nat -> bytes -> bytes -> node -> Prop :=
| sp_json i k v : jnode v -> spells_member i k (ntext v) v
| sp_field i k key f s v : str_means k key -> picks V F (v_flds V i) key (Some f) -> jf_quot f = QNo -> spells (jf_ty f) s v ->
    spells_member i k s v.
End Spells.
