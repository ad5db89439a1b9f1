(** Base64 text as a reader accepts it (RFC 4648 section 4): the unused bits of
    the last character may be anything. *)
From Verif Require Import Bytes SpecNum.

Inductive base64_read : bytes -> bytes -> Prop :=
| br_nil : base64_read [] []
| br_one a b x m n : sextet a m -> sextet b n -> is_byte x ->
    x * 16 <= m * 64 + n < x * 16 + 16 -> base64_read [a; b; 61; 61] [x]
| br_two a b c x y m n o : sextet a m -> sextet b n -> sextet c o -> is_byte x -> is_byte y ->
    (x * 256 + y) * 4 <= m * 4096 + n * 64 + o < (x * 256 + y) * 4 + 4 -> base64_read [a; b; c; 61] [x; y]
| br_more a b c d x y z m n o p t s :
    sextet a m -> sextet b n -> sextet c o -> sextet d p -> is_byte x -> is_byte y -> is_byte z ->
    x * 65536 + y * 256 + z = m * 262144 + n * 4096 + o * 64 + p ->
    base64_read t s -> base64_read (a :: b :: c :: d :: t) (x :: y :: z :: s).
(** The text without its line breaks. *)
Inductive unbroken : bytes -> bytes -> Prop :=
| ub_nil : unbroken [] []
| ub_break c s t : c = 10 \/ c = 13 -> unbroken s t -> unbroken (c :: s) t
| ub_keep c s t : c <> 10 -> c <> 13 -> unbroken s t -> unbroken (c :: s) (c :: t).
