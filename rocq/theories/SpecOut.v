(** Specifications of what the bytes of an output are: single lines, UTF-8,
    and what EscapeHTML changes. *)
From Verif Require Import Bytes EncModel EncoderModel SpecJson SpecString SpecRender SpecColor.

(** No line feed and no carriage return. *)
Definition one_line (s : bytes) : Prop := Forall (fun c => c <> 10 /\ c <> 13) s.
(** No control character. *)
Definition no_control (s : bytes) : Prop := Forall (fun c => 0x20 <= c) s.
(** No indentation. *)
Definition compact (i : option indenter) : Prop := match i with None => True | Some i => i_disabled i = true end.

(** The pieces of a text between line feeds. *)
Fixpoint split_lines (s : bytes) : list bytes :=
  match s with
  | [] => [[]]
  | c :: t => if c =? 10 then [] :: split_lines t
              else match split_lines t with [] => [[c]] | l :: r => (c :: l) :: r end
  end.

(** Text data in a value: strings of any bytes, Numbers and times without
    control characters, raw messages that the encoder checks or that are valid. *)
Definition line_data (trust : bool) : gval -> Prop :=
  leaves wf (raw_checked trust) (fun s => wf s /\ no_control s) (fun s => wf s /\ no_control s) float_ok any True.
(** Calls that keep an Encoder compact. *)
Definition line_op (trust : bool) (o : op) : Prop :=
  match o with
  | OSetColors k => match k with None => True | Some k => Forall (fun x => wf x /\ one_line x) (palette k) end
  | OSetIndent p i => p = [] /\ i = []
  | OSetTrustRawMessage on => on = true -> trust = true
  | OEncode v => line_data trust v
  | _ => True
  end.

(** A raw message that is UTF-8, and checked or valid. *)
Definition raw_utf8 (trust : bool) (s : bytes) : Prop := raw_checked trust s /\ valid_utf8 s.

(** The same settings but for EscapeHTML. *)
Definition set_html (on : bool) (c : cfg) : cfg := Cfg on (e_sort c) (e_trust c) (e_clrs c) (e_ind c) (e_stdindent c).
(** Values with the ",string" option whose text contains no string. *)
Fixpoint textless (v : gval) : Prop :=
  match v with
  | GBool _ | GInt _ | GFloat _ | GNumber _ | GPtr None => True
  | GPtr (Some v) => textless v
  | _ => False
  end.
(** ASCII without '<', '>' and '&'. *)
Definition mild_text (s : bytes) : Prop := Forall (fun c => 0 <= c < 0x80 /\ c <> 60 /\ c <> 62 /\ c <> 38) s.
