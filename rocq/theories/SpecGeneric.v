(** Independent specification for targets of generic types (C97). *)
From Verif Require Import Bytes EncModel DecModel TypeModel.

(** A map[string]interface{} with the entries of a map in an interface. *)
Definition as_map (kvs : list (bytes * jv)) : mem := MMap (Some (map (fun kv => (MKStr (fst kv), MIface (snd kv))) kvs)).
(** An []interface{} with the elements of a slice in an interface, whatever its
    spare capacity. *)
Definition as_slice (vs : list jv) (m : mem) : Prop := exists spare, m = MSlice (Some (length vs, map MIface vs ++ spare)).
(** The types whose values are what an interface holds for a scalar or null. *)
Inductive as_scalar : jv -> gty -> mem -> Prop :=
| as_bool b : as_scalar (JVBool b) YBool (MBool b)
| as_float f : as_scalar (JVFloat f) (YFloat true) (MFloat f)
| as_number s : as_scalar (JVNumber s) YNumber (MStr s)
| as_string s : as_scalar (JVString s) YString (MStr s)
| as_nil_map : as_scalar JVNull YMapSI (MMap None)
| as_nil_slice e : as_scalar JVNull (YSlice e) (MSlice None).
