(** Independent specification of the number a JSON number literal denotes
    (RFC 8259 section 6) and of base64 (RFC 4648 section 4). *)
From Coq Require Import QArith.
From Verif Require Import Bytes SpecJson.
Local Open Scope Z_scope.

(** Value of a string of decimal digits. *)
Definition dval (ds : bytes) : Z := fold_left (fun a c => a * 10 + (c - 48)) ds 0.

(** Digits after the point. *)
Inductive frac_digits : bytes -> bytes -> Prop :=
| fd_none : frac_digits [] []
| fd_some ds : digits1 ds -> frac_digits (46 :: ds) ds.
(** Value of the exponent part. *)
Inductive exp_val : bytes -> Z -> Prop :=
| ev_none : exp_val [] 0
| ev_pos e sg ds : e = 101 \/ e = 69 -> sg = [] \/ sg = [43] -> digits1 ds -> exp_val (e :: sg ++ ds) (dval ds)
| ev_neg e ds : e = 101 \/ e = 69 -> digits1 ds -> exp_val (e :: 45 :: ds) (- dval ds).

(** m * 10^e *)
Definition q10 (m e : Z) : Q := (inject_Z m * (10 # 1) ^ e)%Q.

(** [num_val s q]: the literal s denotes the rational q.  The digits before
    and after the point are read as one integer, which the exponent and the
    number of digits after the point scale. *)
Inductive num_val : bytes -> Q -> Prop :=
| nval (neg : bool) i ft f et x : int_lit i -> frac_digits ft f -> exp_val et x ->
    num_val ((if neg then [45] else []) ++ i ++ ft ++ et)
            (q10 ((if neg then -1 else 1) * dval (i ++ f)) (x - Z.of_nat (length f))).

(** Base64: the 64 characters, groups of three bytes as four characters, and
    padding. *)
Definition sextet (c n : Z) : Prop :=
  65 <= c <= 90 /\ n = c - 65 \/ 97 <= c <= 122 /\ n = c - 97 + 26 \/
  48 <= c <= 57 /\ n = c - 48 + 52 \/ c = 43 /\ n = 62 \/ c = 47 /\ n = 63.
Inductive base64 : bytes -> bytes -> Prop :=
| b64_nil : base64 [] []
| b64_one a b x m n : sextet a m -> sextet b n -> is_byte x ->
    x * 16 = m * 64 + n -> base64 [a; b; 61; 61] [x]
| b64_two a b c x y m n o : sextet a m -> sextet b n -> sextet c o -> is_byte x -> is_byte y ->
    (x * 256 + y) * 4 = m * 4096 + n * 64 + o -> base64 [a; b; c; 61] [x; y]
| b64_more a b c d x y z m n o p t s :
    sextet a m -> sextet b n -> sextet c o -> sextet d p -> is_byte x -> is_byte y -> is_byte z ->
    x * 65536 + y * 256 + z = m * 262144 + n * 4096 + o * 64 + p ->
    base64 t s -> base64 (a :: b :: c :: d :: t) (x :: y :: z :: s).
