(** Independent specification for readers of what was written in some layout (C108, C109). *)
From Verif Require Import Bytes EncModel SpecJson SpecRender SpecColor.

(** Settings that differ in layout only: white space, no colors. *)
Definition laid_alike (c1 c2 : cfg) : Prop :=
  e_html c1 = e_html c2 /\ e_sort c1 = e_sort c2 /\ e_trust c1 = e_trust c2 /\ e_clrs c1 = None /\ e_clrs c2 = None /\
  ind_all ws (e_ind c1) /\ ind_all ws (e_ind c2).
(** The string option is on scalars and pointers to them only (SpecColor.flat). *)
Fixpoint scalar_strings (v : gval) : Prop :=
  match v with
  | GArray l => SpecRender.all (map scalar_strings l)
  | GSlice (Some l) => SpecRender.all (map scalar_strings l)
  | GMap (Some m) => SpecRender.all (map (fun kv => match kv with (_, x) => scalar_strings x end) m)
  | GMapSI (Some m) => SpecRender.all (map (fun kv => match kv with (_, x) => scalar_strings x end) m)
  | GStruct fs => SpecRender.all (map (fun hv => match hv with (_, x) => scalar_strings x end) fs)
  | GEmbPtr (Some x) => scalar_strings x
  | GPtr (Some x) => scalar_strings x
  | GIface (Some x) => scalar_strings x
  | GQuoted x => flat x
  | _ => True
  end.

(** Settings that differ in layout and in EscapeHTML: white space, no colors (C109). *)
Definition told_alike (c1 c2 : cfg) : Prop :=
  e_sort c1 = e_sort c2 /\ e_trust c1 = e_trust c2 /\ e_clrs c1 = None /\ e_clrs c2 = None /\ ind_all ws (e_ind c1) /\ ind_all ws (e_ind c2).
