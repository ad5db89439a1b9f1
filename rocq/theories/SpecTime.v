(** Dates and RFC 3339: specification for C85. *)
From Verif Require Import Bytes SpecJson SpecNum TimeModel.

(** * The calendar: a date and the date of the next day *)
Definition leap_year (y : Z) : Prop := (4 | y) /\ (~ (100 | y) \/ (400 | y)).
(** how many days a month has *)
Inductive month_length (y : Z) : Z -> Z -> Prop :=
| ml_31 m : In m [1; 3; 5; 7; 8; 10; 12] -> month_length y m 31
| ml_30 m : In m [4; 6; 9; 11] -> month_length y m 30
| ml_29 : leap_year y -> month_length y 2 29
| ml_28 : ~ leap_year y -> month_length y 2 28.
Inductive tomorrow : Z * Z * Z -> Z * Z * Z -> Prop :=
| tm_day y m d n : month_length y m n -> 1 <= d < n -> tomorrow (y, m, d) (y, m, d + 1)
| tm_month y m n : month_length y m n -> m < 12 -> tomorrow (y, m, n) (y, m + 1, 1)
| tm_year y : tomorrow (y, 12, 31) (y + 1, 1, 1).
Definition valid_date (y m d : Z) : Prop := exists n, month_length y m n /\ 1 <= d <= n.
(** [dated n date]: the day n, counted from 1970-01-01, has this date *)
Inductive dated : Z -> Z * Z * Z -> Prop :=
| dt_epoch : dated 0 (1970, 1, 1)
| dt_next n a b : dated n a -> tomorrow a b -> dated (n + 1) b
| dt_prev n a b : dated (n + 1) b -> tomorrow a b -> dated n a.

(** * RFC 3339, section 5.6 *)
(** n with w digits *)
Definition numeral (w : nat) (n : Z) (s : bytes) : Prop := length s = w /\ Forall digit s /\ n = dval s.
(** The fraction: ns is its value in nanoseconds, what is below is lost. *)
Inductive secfrac (lax : bool) : Z -> bytes -> Prop :=
| sf_none : secfrac lax 0 []
| sf_some c ds ns : c = 46 \/ (lax = true /\ c = 44) -> ds <> [] -> Forall digit ds ->
    ns * 10 ^ Z.of_nat (length ds) <= dval ds * 10 ^ 9 < (ns + 1) * 10 ^ Z.of_nat (length ds) -> secfrac lax ns (c :: ds).
Definition hh_mm (lax : bool) (h m : Z) : Prop := (h < 24 /\ m < 60) \/ (lax = true /\ h <= 24 /\ m <= 60).
Inductive time_offset (lax : bool) : Z -> bytes -> Prop :=
| to_z : time_offset lax 0 [90]
| to_east h m hs ms : numeral 2 h hs -> numeral 2 m ms -> hh_mm lax h m -> time_offset lax (3600 * h + 60 * m) (43 :: hs ++ 58 :: ms)
| to_west h m hs ms : numeral 2 h hs -> numeral 2 m ms -> hh_mm lax h m -> time_offset lax (- (3600 * h + 60 * m)) (45 :: hs ++ 58 :: ms).
(** [date_time lax s t]: s is a date-time, and denotes the instant and offset t
    (leap seconds excluded).  What is allowed only if lax: an hour of one digit,
    a comma before the fraction, 24 hours or 60 minutes in the offset. *)
Inductive date_time (lax : bool) : bytes -> gtime -> Prop :=
| rf ys y ms m ds d hs h mis mi ss s fs ns os off day :
    numeral 4 y ys -> numeral 2 m ms -> numeral 2 d ds -> dated day (y, m, d) ->
    numeral 2 h hs \/ (lax = true /\ numeral 1 h hs) -> h < 24 -> numeral 2 mi mis -> mi < 60 -> numeral 2 s ss -> s < 60 ->
    secfrac lax ns fs -> time_offset lax off os ->
    date_time lax (ys ++ 45 :: ms ++ 45 :: ds ++ 84 :: hs ++ 58 :: mis ++ 58 :: ss ++ fs ++ os)
      (GT (86400 * day + 3600 * h + 60 * mi + s - off) ns off).
Definition rfc3339 : bytes -> gtime -> Prop := date_time false.
(** The times that RFC 3339 can write: the year has four digits, the offset is
    in minutes and less than a day. *)
Definition writable (t : gtime) : Prop :=
  0 <= g_nsec t < 10 ^ 9 /\ (exists k, g_off t = 60 * k) /\ -86400 < g_off t < 86400 /\
  exists y m d, dated ((g_sec t + g_off t) / 86400) (y, m, d) /\ 0 <= y <= 9999.
