(** Independent specification for parts replaced by their own text (C102). *)
From Verif Require Import Bytes EncModel SpecRender SpecSum.

(** A clean value (SpecRender.clean) was written as o. *)
Definition written (c : cfg) (v : gval) (o : bytes) : Prop := clean (e_sort c) (e_trust c) false v /\ outcome c v = Some (inl o).
(** The same value with some parts replaced by a RawMessage with what was written
    for them, or by a value whose MarshalJSON returns that. *)
Inductive cached (c : cfg) : gval -> gval -> Prop :=
| ca_same v : cached c v v
| ca_raw v o : written c v o -> cached c v (GRaw (Some o))
| ca_own v o : written c v o -> cached c v (GMarshaler (Some (inl (Some o))))
| ca_array l l' : Forall2 (cached c) l l' -> cached c (GArray l) (GArray l')
| ca_slice l l' : Forall2 (cached c) l l' -> cached c (GSlice (Some l)) (GSlice (Some l'))
| ca_map m m' : Forall2 (fun e e' => fst e = fst e' /\ cached c (snd e) (snd e')) m m' -> cached c (GMap (Some m)) (GMap (Some m'))
| ca_mapsi m m' : Forall2 (fun e e' => fst e = fst e' /\ cached c (snd e) (snd e')) m m' -> cached c (GMapSI (Some m)) (GMapSI (Some m'))
| ca_struct fs fs' : Forall2 (fun e e' => fst e = fst e' /\ cached c (snd e) (snd e')) fs fs' -> cached c (GStruct fs) (GStruct fs')
| ca_emb v v' : cached c v v' -> cached c (GEmbPtr (Some v)) (GEmbPtr (Some v'))
| ca_ptr v v' : cached c v v' -> cached c (GPtr (Some v)) (GPtr (Some v'))
| ca_iface v v' : cached c v v' -> cached c (GIface (Some v)) (GIface (Some v'))
| ca_quoted v v' : cached c v v' -> cached c (GQuoted v) (GQuoted v').
