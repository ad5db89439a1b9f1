(** Specification of values that go through an Encoder and a Decoder. *)
From Verif Require Import Bytes SpecJson EncModel EncoderModel DecModel.

(** The values a history of calls hands to Encode. *)
Fixpoint encoded (ops : list op) : list gval :=
  match ops with
  | [] => []
  | OEncode v :: ops' => v :: encoded ops'
  | _ :: ops' => encoded ops'
  end.
(** No call asks for colors or for indentation by anything but white space. *)
Definition plain_op (o : op) : Prop :=
  match o with
  | OSetColors c => c = None
  | OSetIndent p i => ws p /\ ws i
  | _ => True
  end.
(** The strings in a value, keys of maps included. *)
Inductive text_in (s : bytes) : jv -> Prop :=
| ti_str : text_in s (JVString s)
| ti_arr l v : In v l -> text_in s v -> text_in s (JVArr l)
| ti_key m v : In (s, v) m -> text_in s (JVMap m)
| ti_map m k v : In (k, v) m -> text_in s v -> text_in s (JVMap m).
(** A string without quotes, or without characters that are written as
    \uXXXX and without backslashes: no control characters, none of < > &, and no lead byte of U+2028 and U+2029. *)
Definition calm_text (s : bytes) : Prop :=
  ~ In 34 s \/ Forall (fun c => 32 <= c /\ ~ In c [92; 60; 62; 38; 226]) s.
(** A value that is not a number, and with calm strings. *)
Definition calm_value (v : jv) : Prop := (forall f, v <> JVFloat f) /\ (forall n, v <> JVNumber n) /\ forall s, text_in s v -> calm_text s.
