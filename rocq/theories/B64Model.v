(** Model of the standard library's base64.StdEncoding.Decode, as called at
    /repo/decode.go:430-437. *)
From Verif Require Import Bytes.

(** The decoding table of StdEncoding (library function used at decode.go:432). *)
Definition b64_val (c : Z) : option Z :=
  if (65 <=? c) && (c <=? 90) then Some (c - 65)
  else if (97 <=? c) && (c <=? 122) then Some (c - 71)
  else if (48 <=? c) && (c <=? 57) then Some (c + 4)
  else if c =? 43 then Some 62
  else if c =? 47 then Some 63
  else None.

(** The groups of four characters; unused bits of the last group are ignored
    (StdEncoding is not Strict).  Library function used at decode.go:432. *)
Fixpoint b64_groups (s : bytes) : option bytes :=
  match s with
  | [] => Some []
  | a :: b :: c :: d :: t =>
      match b64_val a, b64_val b with
      | Some m, Some n =>
          if c =? 61 then
            if d =? 61 then match t with [] => Some [(m * 64 + n) / 16] | _ => None end else None
          else match b64_val c with
               | None => None
               | Some o =>
                   if d =? 61 then
                     match t with [] => Some [(m * 64 + n) / 16; ((m * 64 + n) * 64 + o) / 4 mod 256] | _ => None end
                   else match b64_val d with
                        | None => None
                        | Some p =>
                            let w := ((m * 64 + n) * 64 + o) * 64 + p in
                            match b64_groups t with
                            | None => None
                            | Some r => Some (w / 65536 :: w / 256 mod 256 :: w mod 256 :: r)
                            end
                        end
               end
      | _, _ => None
      end
  | _ => None
  end.
(** Carriage returns and line feeds are skipped wherever they are.  Library
    function used at decode.go:432; None is a CorruptInputError. *)
Definition b64_decode (s : bytes) : option bytes := b64_groups (filter (fun c => negb ((c =? 10) || (c =? 13))) s).
