(** Contract of the Go standard library functions on UTF-8 and UTF-16 used by
    the code (unicode/utf8, unicode/utf16).  These are not part of /repo; they
    are defined here as the Go documentation and the UTF-8 definition (Unicode
    Table 3-7) give them. *)
From Verif Require Import Bytes.

(** utf8.RuneError, parse.go:433-530 *)
Definition runeError : Z := 0xFFFD.
(** the ranges of the tables of utf8.DecodeRune, a library function used at parse.go:433-530 *)
Definition in_rng (lo hi c : Z) : bool := (lo <=? c) && (c <=? hi).
(** a continuation byte, in the same tables (library) *)
Definition is_cont (c : Z) : bool := in_rng 0x80 0xBF c.

(** utf8.DecodeRune: the first rune and its width; (U+FFFD, 1) if invalid and
    (U+FFFD, 0) if empty. *)
(** library function used at encode.go:240-268 and parse.go:516-530 *)
Definition decode_rune (s : bytes) : Z * nat :=
  match s with
  | [] => (runeError, 0%nat)
  | b0 :: s1 =>
      if b0 <? 0x80 then (b0, 1%nat)
      else if in_rng 0xC2 0xDF b0 then
        match s1 with
        | b1 :: _ => if is_cont b1 then ((b0 - 0xC0) * 64 + (b1 - 0x80), 2%nat) else (runeError, 1%nat)
        | _ => (runeError, 1%nat)
        end
      else if in_rng 0xE0 0xEF b0 then
        match s1 with
        | b1 :: b2 :: _ =>
            let lo := if b0 =? 0xE0 then 0xA0 else 0x80 in
            let hi := if b0 =? 0xED then 0x9F else 0xBF in
            if in_rng lo hi b1 && is_cont b2
            then ((b0 - 0xE0) * 4096 + (b1 - 0x80) * 64 + (b2 - 0x80), 3%nat)
            else (runeError, 1%nat)
        | _ => (runeError, 1%nat)
        end
      else if in_rng 0xF0 0xF4 b0 then
        match s1 with
        | b1 :: b2 :: b3 :: _ =>
            let lo := if b0 =? 0xF0 then 0x90 else 0x80 in
            let hi := if b0 =? 0xF4 then 0x8F else 0xBF in
            if in_rng lo hi b1 && is_cont b2 && is_cont b3
            then ((b0 - 0xF0) * 262144 + (b1 - 0x80) * 4096 + (b2 - 0x80) * 64 + (b3 - 0x80), 4%nat)
            else (runeError, 1%nat)
        | _ => (runeError, 1%nat)
        end
      else (runeError, 1%nat)
  end.

(** utf8.EncodeRune: surrogates and out-of-range runes become U+FFFD. *)
(** library function used at parse.go:516-520 *)
Definition encode_rune (r : Z) : bytes :=
  let r := if (r <? 0) || (0x10FFFF <? r) || in_rng 0xD800 0xDFFF r then runeError else r in
  if r <? 0x80 then [r]
  else if r <? 0x800 then [0xC0 + r / 64; 0x80 + r mod 64]
  else if r <? 0x10000 then [0xE0 + r / 4096; 0x80 + (r / 64) mod 64; 0x80 + r mod 64]
  else [0xF0 + r / 262144; 0x80 + (r / 4096) mod 64; 0x80 + (r / 64) mod 64; 0x80 + r mod 64].

(** [for _, r := range string(s)]: the runes of a string (fuel: its length). *)
(** library function used at parse.go:522-530, 701-723 *)
Fixpoint runes_f (n : nat) (s : bytes) : list Z :=
  match n with
  | O => []
  | S n' => match s with
            | [] => []
            | _ => let '(r, w) := decode_rune s in r :: runes_f n' (skipn w s)
            end
  end.
(** library function used at parse.go:522-530, 701-723 *)
Definition runes (s : bytes) : list Z := runes_f (length s) s.

(** utf16.IsSurrogate, utf16.DecodeRune *)
(** library function used at parse.go:449-513 *)
Definition is_surrogate (r : Z) : bool := in_rng 0xD800 0xDFFF r.
(** library function used at parse.go:449-513 *)
Definition utf16_decode (r1 r2 : Z) : Z :=
  if in_rng 0xD800 0xDBFF r1 && in_rng 0xDC00 0xDFFF r2
  then (r1 - 0xD800) * 1024 + (r2 - 0xDC00) + 0x10000
  else runeError.
