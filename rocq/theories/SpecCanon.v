(** What C78 speaks of: decoding a text and writing the value again. *)
From Verif Require Import Bytes IntModel EncModel DecModel JcModel.
Local Open Scope Z_scope.

(** [reformats pf c input out]: Unmarshal of [input] into a nil interface{}
    succeeds, and what it gives is encoded with the settings [c] as [out]. *)
Definition reformats (pf : bytes -> option fl) (c : cfg) (input out : bytes) : Prop :=
  exists v, unmarshal_with (decode_interface false pf) input JVNull = (None, v) /\ enc c (gv v) [] 0 = ER out 0 None.
