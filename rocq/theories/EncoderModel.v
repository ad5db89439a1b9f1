(** Model of the Encoder of /repo/json.go:375-452, as a state machine. *)
From Verif Require Import Bytes IntModel EncModel.

(** json.go:54-67: the bits of AppendFlags *)
Definition fEscapeHTML : Z := 1.
(** json.go:61 *)
Definition fSortMapKeys : Z := 2.
(** json.go:66 *)
Definition fTrustRawMessage : Z := 4.
(** (e.flags & f) != 0, as at encode.go:181, 421, 812 *)
Definition has_flag (flags f : Z) : bool := negb (Z.land flags f =? 0).
(** enc.flags |= f, enc.flags &= ^f *)
(** json.go:420-426, 435-452 *)
Definition set_flag (on : bool) (flags f : Z) : Z := if on then Z.lor flags f else Z.land flags (Z.lnot f).

(** json.go:375-381 Encoder, without the writer.  The depth of the Indenter,
    which NewIndenter sets to 0 and Append changes, is [en_depth]. *)
Record encoder := Encoder { en_err : option err; en_flags : Z; en_clrs : option colors; en_ind : option indenter; en_depth : Z }.
(** json.go:384 NewEncoder *)
Definition new_encoder : encoder := Encoder None (Z.lor fEscapeHTML fSortMapKeys) None None 0.

(** The io.Writer: the errors its successive Writes will return (nil when the
    list is used up), and what it was given. *)
(** the writer of json.go:375-381 *)
Record world := World { w_results : list (option err); w_log : list bytes }.
(** enc.writer.Write at json.go:411 *)
Definition write (w : world) (b : bytes) : option err * world :=
  match w_results w with
  | [] => (None, World [] (w_log w ++ [b]))
  | e :: l => (e, World l (w_log w ++ [b]))
  end.

(** Calls of the methods of Encoder. *)
(** json.go:387-452 *)
Inductive op :=
| OSetColors (c : option colors)
| OSetIndent (prefix indent : bytes)
| OSetEscapeHTML (on : bool)
| OSetSortMapKeys (on : bool)
| OSetTrustRawMessage (on : bool)
| OEncode (v : gval).

(** json.go:122-142: the encoder of codec.go:23-27 that Append builds from the
    flags, colors and indenter.  [std] is json.Indent. *)
Definition cfg_of (std : bytes -> bytes -> bytes -> option bytes) (e : encoder) : cfg :=
  Cfg (has_flag (en_flags e) fEscapeHTML) (has_flag (en_flags e) fSortMapKeys) (has_flag (en_flags e) fTrustRawMessage)
      (en_clrs e) (en_ind e) std.

(** json.go:392-417 Encode: the error, the encoder, the writer; None is a
    panic, after which nothing is modelled.  The buffer comes empty from the
    pool (buf.data[:0]).  NB: the error of Write is stored but not returned
    (411-416). *)
Definition encode_op (std : bytes -> bytes -> bytes -> option bytes) (v : gval) (e : encoder) (w : world)
    : option (option err * encoder * world) :=
  match en_err e with
  | Some x => Some (Some x, e, w)
  | None =>
      match enc (cfg_of std e) v [] (en_depth e) with
      | EPanic => None
      | ER _ d (Some x) => Some (Some x, Encoder (en_err e) (en_flags e) (en_clrs e) (en_ind e) d, w)
      | ER b d None =>
          let '(err2, w) := write w (b ++ [10]) in
          Some (None, Encoder (match err2 with Some x => Some x | None => en_err e end) (en_flags e) (en_clrs e) (en_ind e) d, w)
      end
  end.
(** json.go:387-389 SetColors, 420-426 SetEscapeHTML, 429-431 SetIndent,
    435-441 SetSortMapKeys, 446-452 SetTrustRawMessage *)
Definition step (std : bytes -> bytes -> bytes -> option bytes) (o : op) (e : encoder) (w : world)
    : option (option err * encoder * world) :=
  match o with
  | OSetColors c => Some (None, Encoder (en_err e) (en_flags e) c (en_ind e) (en_depth e), w)
  | OSetIndent p i => Some (None, Encoder (en_err e) (en_flags e) (en_clrs e) (Some (new_indenter p i)) 0, w)
  | OSetEscapeHTML on => Some (None, Encoder (en_err e) (set_flag on (en_flags e) fEscapeHTML) (en_clrs e) (en_ind e) (en_depth e), w)
  | OSetSortMapKeys on => Some (None, Encoder (en_err e) (set_flag on (en_flags e) fSortMapKeys) (en_clrs e) (en_ind e) (en_depth e), w)
  | OSetTrustRawMessage on => Some (None, Encoder (en_err e) (set_flag on (en_flags e) fTrustRawMessage) (en_clrs e) (en_ind e) (en_depth e), w)
  | OEncode v => encode_op std v e w
  end.
(** A history of calls: the errors they return, and the final state. *)
(** successive calls of the methods of json.go:387-452 *)
Fixpoint run (std : bytes -> bytes -> bytes -> option bytes) (ops : list op) (e : encoder) (w : world)
    : option (list (option err) * encoder * world) :=
  match ops with
  | [] => Some ([], e, w)
  | o :: ops' =>
      match step std o e w with
      | None => None
      | Some (r, e, w) => match run std ops' e w with None => None | Some (rs, e, w) => Some (r :: rs, e, w) end
      end
  end.
