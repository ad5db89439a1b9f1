(** Independent specification for what the flags of Parse and the options of a
    Decoder change (C96). *)
From Verif Require Import Bytes EncModel DecModel SpecJson SpecString SpecDec TypeModel SpecType.

(** Types that contain no interface types. *)
Fixpoint no_iface (t : gty) : Prop :=
  match t with
  | YIface | YNamedIface _ | YMapSI => False
  | YArray _ e | YSlice e | YMap _ e | YPtr e => no_iface e
  | _ => True
  end.
(** The key literals of a text. *)
Fixpoint keys_in (a : jast) : list bytes :=
  match a with
  | JArr l => flat_map keys_in l
  | JObj l => flat_map (fun kv => match kv with (k, v) => k :: keys_in v end) l
  | _ => []
  end.
(** A key that is the exact name of a field, or not its name in any case. *)
Definition cased (V : tenv) (lit : bytes) : Prop :=
  forall k i, str_means lit k -> (exists f, In f (v_flds V i) /\ jf_name f = k) \/ (forall f, In f (v_flds V i) -> v_lower V (jf_name f) <> append_to_lower V k).
