(** Model of the floating-point conversions of package strconv that
    /repo/decode.go:220-256, 1033-1041 and /repo/encode.go:96-130 call.  Package
    strconv is not in /repo: what its documentation promises is written here as
    arithmetic on integers of any size, without the algorithms it uses. *)
From Verif Require Import Bytes IntModel EncModel.

(** A format of IEEE 754: bits of the significand, smallest exponent, and the
    power of two at which the range ends. *)
(** the argument 32 or 64 of strconv.ParseFloat at decode.go:231, 250 *)
Record bfmt := BFmt { b_prec : Z; b_emin : Z; b_emax : Z }.
(** float64: decode.go:250 *)
Definition binary64 : bfmt := BFmt 53 (-1074) 1024.
(** float32: decode.go:231 *)
Definition binary32 : bfmt := BFmt 24 (-149) 128.

(** Value of digits (library function used at decode.go:231, 250). *)
Definition digits_value (ds : bytes) : Z := fold_left (fun a c => a * 10 + (c - 48)) ds 0.
(** Reading of a literal: sign, digits, exponent (library function used at
    decode.go:231, 250). *)
Definition isd (c : Z) : bool := (48 <=? c) && (c <=? 57).
(** digits at the front: library function used at decode.go:231, 250 *)
Fixpoint spand (b : bytes) : bytes * bytes :=
  match b with c :: t => if isd c then let (d, r) := spand t in (c :: d, r) else ([], b) | [] => ([], []) end.
(** without leading zeros *)
(** library function used at decode.go:231, 250 *)
Fixpoint drop0 (b : bytes) : bytes := match b with 48 :: t => drop0 t | _ => b end.
(** without trailing zeros *)
(** library function used at decode.go:231, 250 *)
Definition strip0 (b : bytes) : bytes := rev (drop0 (rev b)).
(** library function used at decode.go:231, 250: the sign *)
Definition x_sign (s : bytes) : bool * bytes := match s with 45 :: t => (true, t) | _ => (false, s) end.
(** library function used at decode.go:231, 250: the digits after the point *)
Definition x_frac (r : bytes) : bytes * bytes := match r with 46 :: t => spand t | _ => ([], r) end.
(** library function used at decode.go:231, 250: the exponent *)
Definition x_exp (r : bytes) : Z :=
  match r with
  | _ :: 45 :: t => - digits_value (fst (spand t))
  | _ :: 43 :: t => digits_value (fst (spand t))
  | _ :: t => digits_value (fst (spand t))
  | [] => 0
  end.
(** library function used at decode.go:231, 250: the number 0.DIGITS * 10^e with
    no zeros at either end of the digits *)
Definition norm (neg : bool) (ds : bytes) (e : Z) : fl :=
  match drop0 ds with [] => FZero neg | m => FFin neg (strip0 m) (e + Z.of_nat (length m)) end.
(** The literal as a decimal, before rounding (library function used at
    decode.go:231, 250). *)
Definition exact (s : bytes) : option fl :=
  let (neg, s1) := x_sign s in
  let (i, r) := spand s1 in
  let (f, r) := x_frac r in
  Some (norm neg (i ++ f) (x_exp r - Z.of_nat (length f))).

(** A positive rational is a pair of positive integers.  m * base^e as one: *)
(** library function used at decode.go:231, 250 *)
Definition ratio (base m e : Z) : Z * Z := if 0 <=? e then (m * base ^ e, 1) else (m, base ^ (- e)).
(** n/d divided by base^e: library function used at decode.go:231, 250 *)
Definition scale (base n d e : Z) : Z * Z := if 0 <=? e then (n, d * base ^ e) else (n * base ^ (- e), d).
(** The integer nearest to n/d, the even one of two (IEEE 754
    roundTiesToEven; library function used at decode.go:231, 250). *)
Definition div_even (n d : Z) : Z :=
  let q := n / d in let r := n mod d in
  if 2 * r <? d then q else if d <? 2 * r then q + 1 else if Z.even q then q else q + 1.
(** The largest k with 2^k <= n/d: library function used at decode.go:231, 250 *)
Definition floor_log2 (n d : Z) : Z :=
  let l := Z.log2 n - Z.log2 d in
  let (n', d') := scale 2 n d l in if n' <? d' then l - 1 else l.
(** The float nearest to n/d, as significand and exponent; the range is not
    limited above (library function used at decode.go:231, 250). *)
Definition round_to (F : bfmt) (n d : Z) : Z * Z :=
  let e := Z.max (b_emin F) (floor_log2 n d - b_prec F + 1) in
  let (n', d') := scale 2 n d e in
  let m := div_even n' d' in
  if m =? 2 ^ b_prec F then (2 ^ (b_prec F - 1), e + 1) else (m, e).

(** The largest k with 10^(k-1) <= n/d (library function used at encode.go:119,
    strconv.AppendFloat with precision -1, as are the next three). *)
Definition dec_exp (n d : Z) : Z :=
  let l := Z.of_nat (length (utoa n)) - Z.of_nat (length (utoa d)) in
  let (n', d') := scale 10 n d l in if n' <? d' then l else l + 1.
(** Does c * 10^e read back as the float?  encode.go:119 *)
Definition reads_back (F : bfmt) (x : Z * Z) (c e : Z) : bool :=
  let (n, d) := ratio 10 c e in
  let (m', e') := round_to F n d in (m' =? fst x) && (e' =? snd x).
(** From i digits on: the first number of digits for which the decimal below or
    above the value reads back; the nearer one if both do.  encode.go:119 *)
Fixpoint shortest_from (F : bfmt) (x : Z * Z) (n d k : Z) (fuel : nat) (i : Z) : Z * Z :=
  let (n', d') := scale 10 n d (k - i) in
  let c := n' / d' in
  match fuel with
  | O => (c, k - i)
  | S fuel' =>
      match reads_back F x c (k - i), reads_back F x (c + 1) (k - i) with
      | true, true => (div_even n' d', k - i)
      | true, false => (c, k - i)
      | false, true => (c + 1, k - i)
      | false, false => shortest_from F x n d k fuel' (i + 1)
      end
  end.
(** The shortest decimal of a float: encode.go:119 *)
Definition shortest (F : bfmt) (neg : bool) (x : Z * Z) : fl :=
  let (n, d) := ratio 2 (fst x) (snd x) in
  let k := dec_exp n d in
  let (c, e) := shortest_from F x n d k (Z.to_nat (Z.abs k + Z.abs (snd x) + 1)) 1 in
  norm neg (utoa c) e.
(** decode.go:231, 250 strconv.ParseFloat on a JSON number; None: ErrRange.  A
    float is given by its shortest decimal (EncModel.v). *)
Definition parse_float (F : bfmt) (s : bytes) : option fl :=
  match exact s with
  | Some (FFin neg ds dp) =>
      let (n, d) := ratio 10 (digits_value ds) (dp - Z.of_nat (length ds)) in
      let x := round_to F n d in
      if fst x =? 0 then Some (FZero neg)
      else let (n', d') := ratio 2 (fst x) (snd x) in
           if d' * 2 ^ b_emax F <=? n' then None else Some (shortest F neg x)
  | f => f
  end.
