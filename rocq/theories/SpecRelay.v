(** Independent specification for parts replaced by their text in another layout (C105)
    and in colors (C106). *)
From Verif Require Import Bytes EncModel SpecJson SpecRender SpecColor SpecSum.

(** The same options, without colors, and a layout of white space only. *)
Definition other_layout (c c0 : cfg) : Prop :=
  e_html c0 = e_html c /\ e_sort c0 = e_sort c /\ e_trust c0 = e_trust c /\ e_clrs c0 = None /\ ind_all ws (e_ind c0).
(** A clean value, in which every struct writes a field and the string option is on
    scalars only (SpecColor.std_layout), was written as o in some layout. *)
Definition laid_out (c : cfg) (v : gval) (o : bytes) : Prop :=
  exists c0, other_layout c c0 /\ clean (e_sort c) (e_trust c) false v /\ std_layout v /\ outcome c0 v = Some (inl o).
(** The same value with some parts replaced by a RawMessage with a text that is as good,
    or by a value whose MarshalJSON returns that. *)
Inductive replaced (good : gval -> bytes -> Prop) : gval -> gval -> Prop :=
| re_same v : replaced good v v
| re_raw v o : good v o -> replaced good v (GRaw (Some o))
| re_own v o : good v o -> replaced good v (GMarshaler (Some (inl (Some o))))
| re_array l l' : Forall2 (replaced good) l l' -> replaced good (GArray l) (GArray l')
| re_slice l l' : Forall2 (replaced good) l l' -> replaced good (GSlice (Some l)) (GSlice (Some l'))
| re_map m m' : Forall2 (fun e e' => fst e = fst e' /\ replaced good (snd e) (snd e')) m m' -> replaced good (GMap (Some m)) (GMap (Some m'))
| re_mapsi m m' : Forall2 (fun e e' => fst e = fst e' /\ replaced good (snd e) (snd e')) m m' -> replaced good (GMapSI (Some m)) (GMapSI (Some m'))
| re_struct fs fs' : Forall2 (fun e e' => fst e = fst e' /\ replaced good (snd e) (snd e')) fs fs' -> replaced good (GStruct fs) (GStruct fs')
| re_emb v v' : replaced good v v' -> replaced good (GEmbPtr (Some v)) (GEmbPtr (Some v'))
| re_ptr v v' : replaced good v v' -> replaced good (GPtr (Some v)) (GPtr (Some v'))
| re_iface v v' : replaced good v v' -> replaced good (GIface (Some v)) (GIface (Some v'))
| re_quoted v v' : replaced good v v' -> replaced good (GQuoted v) (GQuoted v').

(** Values all of whose tokens have the color that tokens of their form have in a raw
    message: no []byte, no time, no MarshalText, no map key but strings, no string option. *)
Fixpoint plain_kinds (v : gval) : Prop :=
  match v with
  | GBytes _ | GTime _ | GText (Some _) | GQuoted _ => False
  | GArray l | GSlice (Some l) => SpecRender.all (map plain_kinds l)
  | GMap (Some m) => SpecRender.all (map (fun kv => match kv with (k, x) => (match k with KString _ => True | _ => False end) /\ plain_kinds x end) m)
  | GMapSI (Some m) => SpecRender.all (map (fun kv => match kv with (_, x) => plain_kinds x end) m)
  | GStruct fs => SpecRender.all (map (fun hv => match hv with (_, x) => plain_kinds x end) fs)
  | GEmbPtr (Some x) | GPtr (Some x) | GIface (Some x) => plain_kinds x
  | _ => True
  end.
(** Such a value, and the text written for it without colors in some layout; no empty
    object inside an array (raw_colors; see C14 and C19 for what goes wrong there). *)
Definition shown_alike (c : cfg) (v : gval) (o : bytes) : Prop :=
  laid_out c v o /\ plain_kinds v /\ colors_clean v /\ raw_colors (Some o).
