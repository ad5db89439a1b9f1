(** Independent specification of what strings mean: Unicode scalar values,
    the UTF-8 encoding form, and the characters a JSON string denotes
    (RFC 8259 section 7).  Nothing here mentions the model. *)
From Verif Require Import Bytes SpecJson.

(** Unicode scalar values. *)
Definition scalar (r : Z) : Prop := 0 <= r < 0xD800 \/ 0xE000 <= r <= 0x10FFFF.

(** UTF-8 (RFC 3629 section 3) as a relation between a scalar value and its
    bytes: the bits of the value are spread over the bytes, in the shortest
    form. *)
Inductive utf8_seq : Z -> bytes -> Prop :=
| u8_1 r : 0 <= r < 0x80 -> utf8_seq r [r]
| u8_2 a b : 0x80 <= a * 64 + b < 0x800 -> 0 <= b < 64 ->
             utf8_seq (a * 64 + b) [0xC0 + a; 0x80 + b]
| u8_3 a b c : 0x800 <= a * 4096 + b * 64 + c < 0x10000 -> 0 <= b < 64 -> 0 <= c < 64 ->
               scalar (a * 4096 + b * 64 + c) ->
               utf8_seq (a * 4096 + b * 64 + c) [0xE0 + a; 0x80 + b; 0x80 + c]
| u8_4 a b c d : 0x10000 <= a * 262144 + b * 4096 + c * 64 + d <= 0x10FFFF ->
                 0 <= b < 64 -> 0 <= c < 64 -> 0 <= d < 64 ->
                 utf8_seq (a * 262144 + b * 4096 + c * 64 + d) [0xF0 + a; 0x80 + b; 0x80 + c; 0x80 + d].

(** [utf8 l s]: s is the UTF-8 encoding of the characters l. *)
Inductive utf8 : list Z -> bytes -> Prop :=
| u8_nil : utf8 [] []
| u8_cons r l e s : utf8_seq r e -> utf8 l s -> utf8 (r :: l) (e ++ s).
Definition valid_utf8 (s : bytes) : Prop := exists l, utf8 l s.

(** No UTF-8 sequence starts here. *)
Definition no_seq (s : bytes) : Prop := forall r e t, utf8_seq r e -> s <> e ++ t.

(** [utf8_lossy l s]: the characters of an arbitrary byte string, each byte
    that does not start a UTF-8 sequence counting as U+FFFD (the Go rule). *)
Inductive utf8_lossy : list Z -> bytes -> Prop :=
| ul_nil : utf8_lossy [] []
| ul_seq r l e s : utf8_seq r e -> utf8_lossy l s -> utf8_lossy (r :: l) (e ++ s)
| ul_bad c l s : no_seq (c :: s) -> utf8_lossy l s -> utf8_lossy (0xFFFD :: l) (c :: s).

(** Value of four hexadecimal digits. *)
Inductive hex1 : Z -> Z -> Prop :=
| hex1_d c : 48 <= c <= 57 -> hex1 c (c - 48)
| hex1_u c : 65 <= c <= 70 -> hex1 c (c - 65 + 10)
| hex1_l c : 97 <= c <= 102 -> hex1 c (c - 97 + 10).
Inductive hex4v : bytes -> Z -> Prop :=
| hex4v_intro a b c d va vb vc vd : hex1 a va -> hex1 b vb -> hex1 c vc -> hex1 d vd ->
    hex4v [a; b; c; d] (va * 4096 + vb * 256 + vc * 16 + vd).

Definition high_sur (r : Z) : Prop := 0xD800 <= r <= 0xDBFF.
Definition low_sur (r : Z) : Prop := 0xDC00 <= r <= 0xDFFF.

(** The two-character escapes. *)
Inductive short_esc : Z -> Z -> Prop :=
| se_quote : short_esc 34 34
| se_bslash : short_esc 92 92
| se_slash : short_esc 47 47
| se_b : short_esc 98 8
| se_f : short_esc 102 12
| se_n : short_esc 110 10
| se_r : short_esc 114 13
| se_t : short_esc 116 9.

(** [str_denotes body l]: the characters denoted by the body of a JSON string.
    An escaped surrogate that is not part of a high-low pair, and a byte that
    does not start a UTF-8 sequence, count as U+FFFD. *)
Inductive str_denotes : bytes -> list Z -> Prop :=
| sd_nil : str_denotes [] []
| sd_char r e s l : utf8_seq r e -> 0x20 <= r -> r <> 34 -> r <> 92 ->
                    str_denotes s l -> str_denotes (e ++ s) (r :: l)
| sd_bad c s l : 0x80 <= c -> no_seq (c :: s) -> str_denotes s l -> str_denotes (c :: s) (0xFFFD :: l)
| sd_short e v s l : short_esc e v -> str_denotes s l -> str_denotes (92 :: e :: s) (v :: l)
| sd_uni h r s l : hex4v h r -> scalar r -> str_denotes s l -> str_denotes (92 :: 117 :: h ++ s) (r :: l)
| sd_pair h1 r1 h2 r2 s l : hex4v h1 r1 -> high_sur r1 -> hex4v h2 r2 -> low_sur r2 ->
    str_denotes s l ->
    str_denotes (92 :: 117 :: h1 ++ 92 :: 117 :: h2 ++ s) (0x10000 + (r1 - 0xD800) * 1024 + (r2 - 0xDC00) :: l)
| sd_lone h r s l : hex4v h r -> high_sur r \/ low_sur r ->
    (forall h2 r2 t, high_sur r -> hex4v h2 r2 -> low_sur r2 -> s <> 92 :: 117 :: h2 ++ t) ->
    str_denotes s l -> str_denotes (92 :: 117 :: h ++ s) (0xFFFD :: l).
