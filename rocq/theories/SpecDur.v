(** Durations written as text: specification for C87. *)
From Coq Require Import QArith Qabs.
From Verif Require Import Bytes IntModel SpecJson SpecNum SpecRender FloatModel TimeModel.
Local Open Scope Z_scope.

(** * What package time documents: a sequence of decimal numbers, each with
    an optional fraction and a unit, such as 300ms, -1.5h or 2h45m *)
(** the units, in nanoseconds *)
Inductive unit_name : bytes -> Z -> Prop :=
| un_ns : unit_name (bs "ns") 1
| un_us : unit_name (bs "us") (10 ^ 3)
| un_us_micro : unit_name [0xC2; 0xB5; 115] (10 ^ 3)   (* U+00B5 *)
| un_us_mu : unit_name [0xCE; 0xBC; 115] (10 ^ 3)      (* U+03BC *)
| un_ms : unit_name (bs "ms") (10 ^ 6)
| un_s : unit_name (bs "s") (10 ^ 9)
| un_m : unit_name (bs "m") (60 * 10 ^ 9)
| un_h : unit_name (bs "h") (3600 * 10 ^ 9).
(** A number and its unit: digits before the point, whether there is a point,
    digits after it, name and size of the unit. *)
Record part := Part { p_int : bytes; p_point : bool; p_frac : bytes; p_name : bytes; p_unit : Z }.
Definition part_ok (p : part) : Prop :=
  Forall digit (p_int p) /\ Forall digit (p_frac p) /\ p_int p ++ p_frac p <> [] /\ (p_point p = false -> p_frac p = []) /\ unit_name (p_name p) (p_unit p).
Definition part_text (p : part) : bytes := p_int p ++ (if p_point p then 46 :: p_frac p else []) ++ p_name p.
Definition parts_text (ps : list part) : bytes := concat (map part_text ps).
(** what it denotes, in nanoseconds *)
Definition part_value (p : part) : Q := q10 (dval (p_int p ++ p_frac p) * p_unit p) (- Z.of_nat (length (p_frac p))).
Definition parts_value (ps : list part) : Q := fold_right Qplus 0%Q (map part_value ps).
(** The fraction is no finer than a nanosecond: digits that the unit has zeros
    for. *)
Definition whole (p : part) : Prop := exists k, p_unit p = k * 10 ^ Z.of_nat (length (p_frac p)).
(** the sign *)
Inductive signs : bool -> bytes -> Prop := sg_none : signs false [] | sg_plus : signs false [43] | sg_minus : signs true [45].
Definition sum (vs : list Z) : Z := fold_right Z.add 0 vs.
(** [near p v]: v nanoseconds are read for the part p, exactly what it denotes,
    or if the fraction is finer than a nanosecond, less than 1.01 ns off. *)
Definition near (p : part) (v : Z) : Prop :=
  0 <= v /\ (whole p -> (inject_Z v == part_value p)%Q) /\ (Qabs (inject_Z v - part_value p) < 101 # 100)%Q.

(** * What the method String of time.Duration writes, as documented: 72h3m0.5s;
    less than a second in a smaller unit; trailing zeros of a fraction left out *)
Definition frac_of (prec : nat) (r : Z) : bytes := if r =? 0 then [] else 46 :: strip0 (pad prec r).
Definition dur_string_abs (u : Z) : bytes :=
  if u =? 0 then bs "0s"
  else if u <? 10 ^ 3 then utoa u ++ bs "ns"
  else if u <? 10 ^ 6 then utoa (u / 10 ^ 3) ++ frac_of 3 (u mod 10 ^ 3) ++ [0xC2; 0xB5; 115]
  else if u <? 10 ^ 9 then utoa (u / 10 ^ 6) ++ frac_of 6 (u mod 10 ^ 6) ++ bs "ms"
  else
    let s := u / 10 ^ 9 in
    (if 3600 <=? s then utoa (s / 3600) ++ bs "h" else []) ++
    (if 60 <=? s then utoa (s / 60 mod 60) ++ bs "m" else []) ++
    utoa (s mod 60) ++ frac_of 9 (u mod 10 ^ 9) ++ bs "s".
Definition dur_string (d : Z) : bytes := (if d <? 0 then [45] else []) ++ dur_string_abs (Z.abs d).
