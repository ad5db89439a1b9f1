(** Independent specification: objects whose members stand in another order, and
    memory with the same content up to the order of the entries of maps. *)
From Coq Require Import Permutation.
From Verif Require Import Bytes SpecJson SpecString SpecDec IntModel EncModel DecModel TypeModel SpecType.

(** Two keys that may mean the same: they select the same field of some struct
    type, or denote the same key of a map with keys of a type in K. *)
Definition clash (V : tenv) (F : dflags) (K : kty -> Prop) (lit lit' : bytes) : Prop :=
  (exists i k k' f, str_means lit k /\ str_means lit' k' /\ picks V F (v_flds V i) k (Some f) /\ picks V F (v_flds V i) k' (Some f)) \/
  (exists kt a, K kt /\ key_means V kt lit a /\ key_means V kt lit' a).

(** Trees that differ in the order of the members of objects, at any depth.  An
    object whose members change places has no two keys that clash. *)
Inductive reordered (V : tenv) (F : dflags) (K : kty -> Prop) : jast -> jast -> Prop :=
| ro_leaf a : (match a with JArr _ | JObj _ => False | _ => True end) -> reordered V F K a a
| ro_arr l l' : Forall2 (reordered V F K) l l' -> reordered V F K (JArr l) (JArr l')
| ro_obj l l1 l' :
    l1 = l \/ (Permutation l l1 /\ ForallOrdPairs (fun m m' => ~ clash V F K (fst m) (fst m')) l) ->
    Forall2 (fun m m' => fst m = fst m' /\ reordered V F K (snd m) (snd m')) l1 l' ->
    reordered V F K (JObj l) (JObj l').

(** The key types of the maps of a type. *)
Fixpoint keys_in (K : kty -> Prop) (t : gty) : Prop :=
  match t with
  | YMap k e => K k /\ keys_in K e
  | YArray _ e | YSlice e | YPtr e => keys_in K e
  | _ => True
  end.

(** Maps with the same entries, up to [R]. *)
Definition same_map {K A} (R : A -> A -> Prop) (m m' : list (K * A)) : Prop :=
  NoDup (map fst m) /\ NoDup (map fst m') /\
  (forall k x, In (k, x) m -> exists x', In (k, x') m' /\ R x x') /\
  (forall k x', In (k, x') m' -> exists x, In (k, x) m /\ R x x').

Inductive same_value : jv -> jv -> Prop :=
| ov_leaf v : (match v with JVArr _ | JVMap _ => False | _ => True end) -> same_value v v
| ov_arr l l' : Forall2 same_value l l' -> same_value (JVArr l) (JVArr l')
| ov_map m m' : same_map same_value m m' -> same_value (JVMap m) (JVMap m').

(** Memory that differs in the order of the entries of maps only. *)
Inductive same_mem : mem -> mem -> Prop :=
| om_leaf m : (match m with MIface _ | MList _ | MSlice _ | MMap _ | MPtr _ => False | _ => True end) -> same_mem m m
| om_iface v v' : same_value v v' -> same_mem (MIface v) (MIface v')
| om_list l l' : Forall2 same_mem l l' -> same_mem (MList l) (MList l')
| om_slice0 : same_mem (MSlice None) (MSlice None)
| om_slice n l l' : Forall2 same_mem l l' -> same_mem (MSlice (Some (n, l))) (MSlice (Some (n, l')))
| om_map0 : same_mem (MMap None) (MMap None)
| om_map m m' : same_map same_mem m m' -> same_mem (MMap (Some m)) (MMap (Some m'))
| om_ptr0 : same_mem (MPtr None) (MPtr None)
| om_ptr m m' : same_mem m m' -> same_mem (MPtr (Some m)) (MPtr (Some m')).
