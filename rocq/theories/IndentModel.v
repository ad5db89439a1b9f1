(** Model of MarshalIndent of /repo/json.go. *)
From Verif Require Import Bytes Utf8Model ParseModel StringModel IntModel TokenModel EncModel.

(** json.go:175-191 MarshalIndent, with Indent (json.go:155-157) of the standard
    library as a parameter; None is a run-time panic.  NB: when Indent fails,
    the compact text is returned with the error. *)
Definition marshal_indent (std : bytes -> bytes -> bytes -> option bytes) (v : gval) (prefix indent : bytes) : option (bytes * option err) :=
  match marshal std v with
  | None => None
  | Some (b, Some e) => Some (b, Some e)
  | Some (b, None) =>
      match std prefix indent b with
      | None => Some (b, Some ESyntax)
      | Some t => Some (t, None)
      end
  end.
