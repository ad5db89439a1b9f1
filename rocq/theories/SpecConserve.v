(** Specification for C24 and C37: how a stream is divided. *)
From Verif Require Import Bytes SpecJson IntModel StreamModel SpecStream.

(** [cut s vs r]: [s] is the JSON values [vs], in order and with nothing but
    white space before, between and after them, followed by [r]. *)
Inductive cut : bytes -> list bytes -> bytes -> Prop :=
| cut_end w r : ws w -> cut (w ++ r) [] r
| cut_value w v a s vs r : ws w -> jvalue v a -> cut s vs r -> cut (w ++ v ++ s) (v :: vs) r.

(** The values among the results of some calls of Decode. *)
Definition got (l : list ((bytes + err) * (bytes * Z))) : list bytes :=
  flat_map (fun x => match fst x with inl v => [v] | inr _ => [] end) l.
(** What the Decoder and its reader still hold. *)
Definition left_over (d : decoder) : bytes := buffered d ++ unread (dc_reader d).
