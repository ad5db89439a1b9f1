(** Specification of binary floating-point numbers (IEEE 754), and of what it
    means to read a decimal as one and to write one as a decimal. *)
From Coq Require Import QArith Qabs.
From Verif Require Import Bytes SpecJson SpecNum SpecRender EncModel FloatModel.
Local Open Scope Z_scope.

(** m * 2^e *)
Definition q2 (m e : Z) : Q := (inject_Z m * (2 # 1) ^ e)%Q.
(** Significand and exponent of a float: as many bits as the format has, or
    fewer if the exponent is the smallest. *)
Definition canonical (F : bfmt) (m e : Z) : Prop :=
  Z.abs m < 2 ^ b_prec F /\ b_emin F <= e /\ (2 ^ (b_prec F - 1) <= Z.abs m \/ e = b_emin F).
Definition is_float (F : bfmt) (x : Q) : Prop := exists m e, canonical F m e /\ (x == q2 m e)%Q.
Definition even_float (F : bfmt) (x : Q) : Prop := exists m e, canonical F m e /\ Z.even m = true /\ (x == q2 m e)%Q.
(** x is the float nearest to q; of two that are equally near, the one with an
    even significand.  Whether x is in the range is a separate question. *)
Definition nearest (F : bfmt) (q x : Q) : Prop :=
  is_float F x /\
  (forall y, is_float F y -> (Qabs (q - x) <= Qabs (q - y))%Q) /\
  ((exists y, is_float F y /\ ~ (y == x)%Q /\ (Qabs (q - x) == Qabs (q - y))%Q) -> even_float F x).
Definition in_range (F : bfmt) (x : Q) : Prop := (Qabs x < q2 1 (b_emax F))%Q.

(** The value of a decimal with digits ds, the point before the digit dp. *)
Definition decimal (neg : bool) (ds : bytes) (dp : Z) : Q := q10 ((if neg then -1 else 1) * dval ds) (dp - Z.of_nat (length ds)).
(** [writes F f x]: f holds a shortest decimal for which x is nearest; of those
    that are equally short, one closest to x. *)
Definition writes (F : bfmt) (f : fl) (x : Q) : Prop :=
  match f with
  | FZero _ => (x == 0)%Q
  | FFin neg ds dp => float_form ds /\ ~ (x == 0)%Q /\ nearest F (decimal neg ds dp) x /\
      forall neg' ds' dp', float_form ds' -> nearest F (decimal neg' ds' dp') x ->
        (length ds < length ds')%nat \/
        length ds = length ds' /\ (Qabs (x - decimal neg ds dp) <= Qabs (x - decimal neg' ds' dp'))%Q
  | _ => False
  end.
Definition negative (f : fl) : bool := match f with FNaN => false | FInf n | FZero n | FFin n _ _ => n end.
