(** Independent specification for the options of encoding (C98). *)
From Coq Require Import Permutation.
From Verif Require Import Bytes EncModel SpecJson.

(** The values a value consists of; a raw message in a map, or returned by
    MarshalJSON, counts as one. *)
Inductive part : gval -> gval -> Prop :=
| pt_self v : part v v
| pt_array w x l : In x l -> part w x -> part w (GArray l)
| pt_slice w x l : In x l -> part w x -> part w (GSlice (Some l))
| pt_map w k x m : In (k, x) m -> part w x -> part w (GMap (Some m))
| pt_mapsi w k x m : In (k, x) m -> part w x -> part w (GMapSI (Some m))
| pt_mapsr k r m : In (k, r) m -> part (GRaw r) (GMapSR (Some m))
| pt_struct w h x fs : In (h, x) fs -> part w x -> part w (GStruct fs)
| pt_emb w x : part w x -> part w (GEmbPtr (Some x))
| pt_ptr w x : part w x -> part w (GPtr (Some x))
| pt_iface w x : part w x -> part w (GIface (Some x))
| pt_marshaler r : part (GRaw r) (GMarshaler (Some (inl r)))
| pt_quoted w x : part w x -> part w (GQuoted x).

(** No map but nil maps. *)
Definition no_map (v : gval) : Prop :=
  forall w, part w v -> match w with GMap (Some _) | GMapSI (Some _) | GMapSR (Some _) => False | _ => True end.
(** Every raw message is one JSON value. *)
Definition raws_whole (v : gval) : Prop := forall s, part (GRaw (Some s)) v -> wf s /\ exists a, jvalue s a.

(** The same value with the entries of its maps in another order. *)
Inductive rearranged : gval -> gval -> Prop :=
| ra_refl v : rearranged v v
| ra_array l l' : Forall2 rearranged l l' -> rearranged (GArray l) (GArray l')
| ra_slice l l' : Forall2 rearranged l l' -> rearranged (GSlice (Some l)) (GSlice (Some l'))
| ra_map m m1 m' : Permutation m m1 -> Forall2 (fun e e' => fst e = fst e' /\ rearranged (snd e) (snd e')) m1 m' ->
    rearranged (GMap (Some m)) (GMap (Some m'))
| ra_mapsi m m1 m' : Permutation m m1 -> Forall2 (fun e e' => fst e = fst e' /\ rearranged (snd e) (snd e')) m1 m' ->
    rearranged (GMapSI (Some m)) (GMapSI (Some m'))
| ra_mapsr m m' : Permutation m m' -> rearranged (GMapSR (Some m)) (GMapSR (Some m'))
| ra_struct fs fs' : Forall2 (fun e e' => fst e = fst e' /\ rearranged (snd e) (snd e')) fs fs' -> rearranged (GStruct fs) (GStruct fs')
| ra_emb v v' : rearranged v v' -> rearranged (GEmbPtr (Some v)) (GEmbPtr (Some v'))
| ra_ptr v v' : rearranged v v' -> rearranged (GPtr (Some v)) (GPtr (Some v'))
| ra_iface v v' : rearranged v v' -> rearranged (GIface (Some v)) (GIface (Some v'))
| ra_quoted v v' : rearranged v v' -> rearranged (GQuoted v) (GQuoted v').

(** A configuration with SortMapKeys, or TrustRawMessage, set or not. *)
Definition with_sort (s : bool) (c : cfg) : cfg := Cfg (e_html c) s (e_trust c) (e_clrs c) (e_ind c) (e_stdindent c).
Definition with_trust (t : bool) (c : cfg) : cfg := Cfg (e_html c) (e_sort c) t (e_clrs c) (e_ind c) (e_stdindent c).
