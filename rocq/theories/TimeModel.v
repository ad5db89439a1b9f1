(** Model of what /repo/encode.go:356-372 and /repo/decode.go:480-503 use of
    package time, which is not in /repo: Time.AppendFormat and time.Parse with
    the layout time.RFC3339Nano (Go 1.25).  The monotonic clock reading and the
    name of the location are left out: neither is written. *)
From Verif Require Import Bytes IntModel FloatModel.

(** A time.Time: seconds since 1970-01-01T00:00:00Z, nanoseconds, and the offset
    of its location in seconds east of UTC.  encode.go:358, 365; decode.go:501 *)
Record gtime := GT { g_sec : Z; g_nsec : Z; g_off : Z }.

(** Leap years.  Library function used at encode.go:360, 368; decode.go:496 *)
Definition is_leap (y : Z) : bool := (y mod 4 =? 0) && (negb (y mod 100 =? 0) || (y mod 400 =? 0)).
(** Days before each month of a year that is not a leap year.  Library function
    used at encode.go:360, 368; decode.go:496 *)
Definition days_before (m : Z) : Z :=
  nth (Z.to_nat (m - 1)) [0; 31; 59; 90; 120; 151; 181; 212; 243; 273; 304; 334; 365] 0.
(** Month and day from the day of the year, from 0.  Library function used at
    encode.go:360, 368 *)
Definition month_day (leap : bool) (yd : Z) : Z * Z :=
  if leap && (yd =? 59) then (2, 29)
  else
    let d := if leap && (59 <? yd) then yd - 1 else yd in
    let m := d / 31 + 1 in
    if days_before (m + 1) <=? d then (m + 1, d - days_before (m + 1) + 1) else (m, d - days_before m + 1).
(** Date of a day, counted from 1970-01-01, by cycles of 400, 100, 4 and 1 years
    from the year 1 (719162 days earlier).  Library function used at
    encode.go:360, 368 *)
Definition date_of (day : Z) : Z * Z * Z :=
  let d := day + 719162 in
  let n4 := d / 146097 in let d := d - 146097 * n4 in
  let n1 := d / 36524 in let n1 := n1 - n1 / 4 in let d := d - 36524 * n1 in
  let n2 := d / 1461 in let d := d - 1461 * n2 in
  let n3 := d / 365 in let n3 := n3 - n3 / 4 in let d := d - 365 * n3 in
  let y := 400 * n4 + 100 * n1 + 4 * n2 + n3 + 1 in
  let (m, dd) := month_day (is_leap y) d in (y, m, dd).
(** The day of a date, counted from 1970-01-01 (time.Date).  Library function
    used at decode.go:496 *)
Definition day_of (y m d : Z) : Z :=
  let p := y - 1 in
  365 * p + p / 4 - p / 100 + p / 400 + days_before m + (if is_leap y && (2 <? m) then 1 else 0) + (d - 1) - 719162.
(** Library function used at decode.go:496 *)
Definition days_in (y m : Z) : Z :=
  if m =? 2 then (if is_leap y then 29 else 28) else if (m =? 4) || (m =? 6) || (m =? 9) || (m =? 11) then 30 else 31.

(** At least w digits.  Library function used at encode.go:360, 368 *)
Definition pad (w : nat) (n : Z) : bytes := repeat 48 (w - length (utoa n)) ++ utoa n.
(** The fraction of a second, without zeros at its end.  Library function used
    at encode.go:360, 368 *)
Definition fmt_frac (ns : Z) : bytes := if ns =? 0 then [] else 46 :: strip0 (pad 9 ns).
(** The offset: whole minutes, towards zero.  Library function used at
    encode.go:360, 368 *)
Definition fmt_off (off : Z) : bytes :=
  if off =? 0 then [90]
  else let z := Z.quot off 60 in let a := Z.abs z in (if z <? 0 then 45 else 43) :: pad 2 (a / 60) ++ 58 :: pad 2 (a mod 60).
(** t.AppendFormat(b, time.RFC3339Nano): encode.go:360, 368 *)
Definition fmt_time (t : gtime) : bytes :=
  let s := g_sec t + g_off t in
  let '(y, m, d) := date_of (s / 86400) in
  let r := s mod 86400 in
  (if y <? 0 then [45] else []) ++ pad 4 (Z.abs y) ++ 45 :: pad 2 m ++ 45 :: pad 2 d ++ 84 :: pad 2 (r / 3600) ++ 58 ::
  pad 2 (r / 60 mod 60) ++ 58 :: pad 2 (r mod 60) ++ fmt_frac (g_nsec t) ++ fmt_off (g_off t).

(** w digits.  Library function used at decode.go:496, as are the next four *)
Definition get_num (w : nat) (b : bytes) : option (Z * bytes) :=
  if Nat.leb w (length b) && forallb isd (firstn w b) then Some (digits_value (firstn w b), skipn w b) else None.
(** one or two digits: decode.go:496 *)
Definition get_hour (b : bytes) : option (Z * bytes) := match get_num 2 b with Some p => Some p | None => get_num 1 b end.
(** one character of the layout: decode.go:496 *)
Definition get_char (c : Z) (b : bytes) : option bytes := match b with x :: r => if x =? c then Some r else None | [] => None end.
(** the fraction, if there is one; digits after the ninth are dropped: decode.go:496 *)
Definition get_frac (b : bytes) : Z * bytes :=
  match b with
  | c :: r =>
      if (c =? 46) || (c =? 44) then
        match spand r with
        | ([], _) => (0, b)
        | (f, r') => (digits_value (firstn 9 f) * 10 ^ (9 - Z.of_nat (length (firstn 9 f))), r')
        end
      else (0, b)
  | [] => (0, b)
  end.
(** the offset: decode.go:496 *)
Definition get_off (b : bytes) : option (Z * bytes) :=
  match b with
  | [] => None
  | c :: r =>
      if c =? 90 then Some (0, r)
      else if (c =? 43) || (c =? 45) then
        match get_num 2 r with
        | None => None
        | Some (h, r) =>
            match get_char 58 r with
            | None => None
            | Some r =>
                match get_num 2 r with
                | None => None
                | Some (m, r) => if (24 <? h) || (60 <? m) then None else Some ((if c =? 45 then -1 else 1) * (3600 * h + 60 * m), r)
                end
            end
        end
      else None
  end.
(** A step of the layout: decode.go:496 *)
Definition bind {A B} (x : option A) (f : A -> option B) : option B := match x with Some a => f a | None => None end.
(** time.Parse(time.RFC3339Nano, s): decode.go:496 *)
Definition parse_time (s : bytes) : option gtime :=
  bind (get_num 4 s) (fun '(y, s) => bind (get_char 45 s) (fun s =>
  bind (get_num 2 s) (fun '(m, s) => bind (get_char 45 s) (fun s =>
  bind (get_num 2 s) (fun '(d, s) => bind (get_char 84 s) (fun s =>
  bind (get_hour s) (fun '(h, s) => bind (get_char 58 s) (fun s =>
  bind (get_num 2 s) (fun '(mi, s) => bind (get_char 58 s) (fun s =>
  bind (get_num 2 s) (fun '(sec, s) =>
  let (ns, s) := get_frac s in
  bind (get_off s) (fun '(off, s) =>
  if ((1 <=? m) && (m <=? 12) && (h <? 24) && (mi <? 60) && (sec <? 60) && (1 <=? d) && (d <=? days_in y m))%bool
  then match s with
       | [] => Some (GT (86400 * day_of y m d + 3600 * h + 60 * mi + sec - off) ns off)
       | _ => None
       end
  else None)))))))))))).
