(** Independent specification for the layout of parts (C104).  Append is called with
    an active indenter of prefix [p] and indent [i]. *)
From Verif Require Import Bytes EncModel SpecRender SpecSum.

(** The same options, with one indent more in the prefix. *)
Definition with_ind (c : cfg) (p i : bytes) : cfg :=
  Cfg (e_html c) (e_sort c) (e_trust c) (e_clrs c) (Some (Indenter false p i)) (e_stdindent c).
Definition inside (c : cfg) (p i : bytes) : cfg := with_ind c (p ++ i) i.
(** A part on a line of its own; the array and the object with these parts. *)
Definition on_line (p i o : bytes) : bytes := [10] ++ p ++ i ++ o.
Definition array_in (cl : option colors) (p i : bytes) (os : list bytes) : bytes :=
  lbrack cl ++ join (comma cl) (map (on_line p i) os) ++ [10] ++ p ++ rbrack cl.
Definition object_in (cl : option colors) (p i : bytes) (os : list bytes) : bytes :=
  lbrace cl ++ join (comma cl) (map (on_line p i) os) ++ [10] ++ p ++ rbrace cl.
(** The member with this name. *)
Definition member_in (c : cfg) (k : bytes) (r : result) : result :=
  then_ (fun o => paint (e_clrs c) c_key (json_string (e_html c) k) ++ colon (e_clrs c) ++ [32] ++ o) r.
Definition field_in (c : cfg) (hv : fhead * gval) : list result :=
  if f_omitempty (fst hv) && f_empty (fst hv) then [] else [member_in c (f_name (fst hv)) (outcome c (snd hv))].
(** Append leaves the indenter at the depth it had. *)
Definition settled (c : cfg) (v : gval) : Prop := forall o d, enc c v [] 0 = ER o d None -> d = 0.
