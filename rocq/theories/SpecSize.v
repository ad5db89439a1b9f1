(** Independent specification of the size of a Go value, in units, and of the
    largest number of bytes an Encoder may write for one unit. *)
From Verif Require Import Bytes EncModel SpecRender.

(** The size of a string in units, and of a number: its binary digits and sign. *)
Definition text (s : bytes) : nat := 2 + length s.
Definition digits (z : Z) : nat := 2 + Z.to_nat (Z.log2 (Z.abs z)).
(** A raw message: every byte may be a token that a comma is put before. *)
Definition message (s : option bytes) : nat := match s with None => 1 | Some s => 2 * length s end.
(** The key of a map; integers are written as strings. *)
Definition key_units (k : mkey) : nat :=
  match k with KString s => text s | KInt z => 1 + 6 * digits z | KText s _ => text s | KNil => 1 end.

Definition sum (l : list nat) : nat := fold_right Nat.add 0%nat l.

(** The size of a value: two for the brackets and one for every comma and
    every colon of an array, map or struct, and the sizes of its parts. *)
Fixpoint units (v : gval) : nat :=
  match v with
  | GInt z => digits z
  | GFloat (FFin _ ds dp) => 30 + length ds + digits dp
  | GNumber s => 1 + length s
  | GString s => text s
  | GBytes (Some s) => text s
  | GBytes None => 2
  | GTime t => text t
  | GArray l => 2 + sum (map (fun x => 1 + units x)%nat l)
  | GSlice (Some l) => 2 + sum (map (fun x => 1 + units x)%nat l)
  | GMap (Some m) => 2 + sum (map (fun kv => match kv with (k, x) => 2 + key_units k + units x end)%nat m)
  | GMapSI (Some m) => 2 + sum (map (fun kv => match kv with (k, x) => 2 + text k + units x end)%nat m)
  | GMapSR (Some m) => 2 + sum (map (fun kv => match kv with (k, x) => 2 + text k + message x end)%nat m)
  | GStruct fs => 2 + sum (map (fun hx => match hx with (h, x) => 2 + text (f_name h) + units x end)%nat fs)
  | GEmbPtr (Some x) => units x
  | GPtr (Some x) => units x
  | GIface (Some x) => units x
  | GRaw s => message s
  | GMarshaler (Some (inl s)) => message s
  | GText (Some (inl s)) => text s
  | GQuoted x => 1 + 6 * units x
  | _ => 1
  end%nat.

(** The bytes that coloring adds to one token: the longest color and the code
    that ends it. *)
Definition tint (cl : option colors) : nat :=
  match cl with
  | None => 0
  | Some k =>
      4 + fold_right Nat.max 0
        (map (fun f => length (f k))
           [c_null; c_bool; c_number; c_string; c_key; c_bytes; c_time; c_punc; c_brackets; c_braces; c_comma; c_colon; c_textm])
  end%nat.
(** The bytes that the layout adds to one line at a given depth. *)
Definition layout (ind : option indenter) (depth : nat) : nat :=
  match ind with
  | Some i => if i_disabled i then 0 else length (i_prefix i) + depth * length (i_indent i)
  | None => 0
  end%nat.

(** Raw messages consist of bytes. *)
Definition byte_opt (s : option bytes) : Prop := match s with None => True | Some s => wf s end.
Fixpoint messages_ok (v : gval) : Prop :=
  match v with
  | GArray l => all (map messages_ok l)
  | GSlice (Some l) => all (map messages_ok l)
  | GMap (Some m) => all (map (fun kv => match kv with (k, x) => messages_ok x end) m)
  | GMapSI (Some m) => all (map (fun kv => match kv with (k, x) => messages_ok x end) m)
  | GMapSR (Some m) => Forall (fun kv => byte_opt (snd kv)) m
  | GStruct fs => all (map (fun hx => match hx with (h, x) => messages_ok x end) fs)
  | GEmbPtr (Some x) => messages_ok x
  | GPtr (Some x) => messages_ok x
  | GIface (Some x) => messages_ok x
  | GRaw s => byte_opt s
  | GMarshaler (Some (inl s)) => byte_opt s
  | GQuoted x => messages_ok x
  | _ => True
  end.
