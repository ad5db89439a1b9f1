(** Independent specifications for further properties of the encoders. *)
From Coq Require Import Permutation.
From Verif Require Import Bytes EncModel SpecJson SpecRender SpecColor.

(** Values as they come from Go types: fields of embedded pointers only in
    structs, errors of marshalers not the encoder's private one, and raw
    messages checked by the encoder or valid. *)
Fixpoint shaped (trust fld : bool) (v : gval) : Prop :=
  match v with
  | GArray l => all (map (shaped trust false) l)
  | GSlice (Some l) => all (map (shaped trust false) l)
  | GMap (Some m) => all (map (fun kv => match kv with (k, x) =>
      match k with KText _ e => e <> Some ERollback | _ => True end /\ shaped trust false x end) m)
  | GMapSI (Some m) => all (map (fun kv => match kv with (_, x) => shaped trust false x end) m)
  | GMapSR (Some m) => Forall (fun kv => raw_opt (raw_checked trust) (snd kv)) m
  | GStruct fs => all (map (fun hv => match hv with (_, x) => shaped trust true x end) fs)
  | GEmbPtr None => fld = true
  | GEmbPtr (Some x) => fld = true /\ shaped trust true x
  | GPtr (Some x) => shaped trust false x
  | GIface (Some x) => shaped trust false x
  | GRaw s => raw_opt (raw_checked trust) s
  | GMarshaler (Some (inl s)) => raw_opt (raw_checked trust) s
  | GMarshaler (Some (inr e)) => e <> ERollback
  | GText (Some (inr e)) => e <> ERollback
  | GQuoted x => shaped trust false x
  | _ => True
  end.

(** Two values alike up to the iteration order of their maps, whose keys are
    distinct. *)
Inductive reorder : gval -> gval -> Prop :=
| ro_refl v : reorder v v
| ro_array l l' : Forall2 reorder l l' -> reorder (GArray l) (GArray l')
| ro_slice l l' : Forall2 reorder l l' -> reorder (GSlice (Some l)) (GSlice (Some l'))
| ro_map m m1 m' : NoDup (map (fun e => key_text (fst e)) m) -> Permutation m m1 ->
    Forall2 (fun e e' => fst e = fst e' /\ reorder (snd e) (snd e')) m1 m' -> reorder (GMap (Some m)) (GMap (Some m'))
| ro_mapsi m m1 m' : NoDup (map fst m) -> Permutation m m1 ->
    Forall2 (fun e e' => fst e = fst e' /\ reorder (snd e) (snd e')) m1 m' -> reorder (GMapSI (Some m)) (GMapSI (Some m'))
| ro_mapsr m m' : NoDup (map fst m) -> Permutation m m' -> reorder (GMapSR (Some m)) (GMapSR (Some m'))
| ro_struct fs fs' : Forall2 (fun e e' => fst e = fst e' /\ reorder (snd e) (snd e')) fs fs' -> reorder (GStruct fs) (GStruct fs')
| ro_emb v v' : reorder v v' -> reorder (GEmbPtr (Some v)) (GEmbPtr (Some v'))
| ro_ptr v v' : reorder v v' -> reorder (GPtr (Some v)) (GPtr (Some v'))
| ro_iface v v' : reorder v v' -> reorder (GIface (Some v)) (GIface (Some v'))
| ro_quoted v v' : reorder v v' -> reorder (GQuoted v) (GQuoted v').
