(** Independent specification of values with references: the tree a value
    stands for, if it is finite. *)
From Verif Require Import Bytes EncModel HeapModel.

(** A field that is left out is not looked at. *)
Definition left_out (f : fhead) : Prop := f_omitempty f = true /\ f_empty f = true.

(** [tree h v g]: following the references in [v] ends, and gives the value
    [g].  A shared part occurs in [g] as often as it is referred to. *)
Inductive tree (h : heap) : hval -> gval -> Prop :=
| tr_leaf g : tree h (HLeaf g) g
| tr_array l gs : Forall2 (tree h) l gs -> tree h (HArray l) (GArray gs)
| tr_map m gs : Forall2 (fun kv kg => fst kv = fst kg /\ tree h (snd kv) (snd kg)) m gs -> tree h (HMap m) (GMap (Some gs))
| tr_map_si m gs : Forall2 (fun kv kg => fst kv = fst kg /\ tree h (snd kv) (snd kg)) m gs -> tree h (HMapSI m) (GMapSI (Some gs))
| tr_struct fs gs : Forall2 (fun fv fg => fst fv = fst fg /\ (left_out (fst fv) \/ tree h (snd fv) (snd fg))) fs gs ->
    tree h (HStruct fs) (GStruct gs)
| tr_iface v g : tree h v g -> tree h (HIface v) (GIface (Some g))
| tr_quoted v g : tree h v g -> tree h (HQuoted v) (GQuoted g)
| tr_ref a g : tree h (h a) g -> tree h (HRef a) (GPtr (Some g)).

(** Values as Go has them: a field behind a nil embedded pointer is a field of a
    struct, and no method returns the package's own error that skips a field. *)
Definition skips_not (g : gval) : Prop := forall c b d b' d', enc c g b d <> ER b' d' (Some ERollback).
Fixpoint proper (field : bool) (v : hval) : Prop :=
  match v with
  | HLeaf g => skips_not g \/ (field = true /\ g = GEmbPtr None)
  | HArray l => fold_right (fun v P => proper false v /\ P) True l
  | HMap m => fold_right (fun kv P => (forall s, fst kv <> KText s (Some ERollback)) /\ proper false (snd kv) /\ P) True m
  | HMapSI m => fold_right (fun kv P => proper false (snd kv) /\ P) True m
  | HStruct fs => fold_right (fun kv P => proper true (snd kv) /\ P) True fs
  | HIface v | HQuoted v => proper false v
  | HRef _ => True
  end.
Definition proper_heap (h : heap) : Prop := forall a, proper false (h a).
(** Nothing in the value can make encoding fail. *)
Definition sure_leaf (g : gval) : Prop := forall c b d, exists b', enc c g b d = ER b' d None.
Fixpoint sure (v : hval) : Prop :=
  match v with
  | HLeaf g => sure_leaf g
  | HArray l => fold_right (fun v P => sure v /\ P) True l
  | HMap m => fold_right (fun kv P => (forall s e, fst kv <> KText s (Some e)) /\ sure (snd kv) /\ P) True m
  | HMapSI m => fold_right (fun kv P => sure (snd kv) /\ P) True m
  | HStruct fs => fold_right (fun kv P => sure (snd kv) /\ P) True fs
  | HIface v | HQuoted v => sure v
  | HRef _ => True
  end.
