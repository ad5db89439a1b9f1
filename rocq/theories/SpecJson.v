(** Independent specification: the JSON grammar of RFC 8259, as relations
    between byte strings and syntax trees.  Nothing here mentions the model. *)
From Verif Require Import Bytes.

(** Section 2: whitespace. *)
Definition ws (s : bytes) : Prop := Forall (fun c => c = 32 \/ c = 9 \/ c = 10 \/ c = 13) s.

(** Section 6: numbers. *)
Definition digit (c : Z) : Prop := 48 <= c <= 57.
Definition digits1 (s : bytes) : Prop := s <> [] /\ Forall digit s.
Inductive int_lit : bytes -> Prop :=
| int_zero : int_lit [48]
| int_pos d ds : 49 <= d <= 57 -> Forall digit ds -> int_lit (d :: ds).
Inductive frac_lit : bytes -> Prop :=
| frac_none : frac_lit []
| frac_some ds : digits1 ds -> frac_lit (46 :: ds).
Inductive exp_lit : bytes -> Prop :=
| exp_none : exp_lit []
| exp_some e sg ds : e = 101 \/ e = 69 -> sg = [] \/ sg = [43] \/ sg = [45] -> digits1 ds ->
                     exp_lit (e :: sg ++ ds).
Inductive number_lit : bytes -> Prop :=
| number_intro sign int frac exp :
    sign = [] \/ sign = [45] -> int_lit int -> frac_lit frac -> exp_lit exp ->
    number_lit (sign ++ int ++ frac ++ exp).

(** Section 7: strings (any byte 0x80..0xFF is taken as part of a character). *)
Definition hex_digit (c : Z) : Prop := 48 <= c <= 57 \/ 65 <= c <= 70 \/ 97 <= c <= 102.
Inductive str_body : bytes -> Prop :=
| sb_nil : str_body []
| sb_char c s : 0x20 <= c < 256 -> c <> 34 -> c <> 92 -> str_body s -> str_body (c :: s)
| sb_esc e s : In e [34; 92; 47; 98; 102; 110; 114; 116] -> str_body s -> str_body (92 :: e :: s)
| sb_uni h1 h2 h3 h4 s : hex_digit h1 -> hex_digit h2 -> hex_digit h3 -> hex_digit h4 -> str_body s ->
                         str_body (92 :: 117 :: h1 :: h2 :: h3 :: h4 :: s).
Definition string_lit (s : bytes) : Prop := exists body, s = 34 :: body ++ [34] /\ str_body body.

(** Syntax trees keep the literal text of numbers and strings. *)
Inductive jast :=
| JNull | JTrue | JFalse
| JNum (lit : bytes)
| JStr (lit : bytes)
| JArr (l : list jast)
| JObj (l : list (bytes * jast)).

(** Sections 3, 4, 5: values, objects, arrays. *)
Inductive jvalue : bytes -> jast -> Prop :=
| V_null : jvalue (bs "null") JNull
| V_true : jvalue (bs "true") JTrue
| V_false : jvalue (bs "false") JFalse
| V_num s : number_lit s -> jvalue s (JNum s)
| V_str s : string_lit s -> jvalue s (JStr s)
| V_arr0 w : ws w -> jvalue (91 :: w ++ [93]) (JArr [])
| V_arr s l : jelems s l -> jvalue (91 :: s ++ [93]) (JArr l)
| V_obj0 w : ws w -> jvalue (123 :: w ++ [125]) (JObj [])
| V_obj s l : jmembers s l -> jvalue (123 :: s ++ [125]) (JObj l)
with jelems : bytes -> list jast -> Prop :=
| E_one w1 s v w2 : ws w1 -> jvalue s v -> ws w2 -> jelems (w1 ++ s ++ w2) [v]
| E_cons w1 s v w2 t l : ws w1 -> jvalue s v -> ws w2 -> jelems t l ->
                         jelems (w1 ++ s ++ w2 ++ 44 :: t) (v :: l)
with jmembers : bytes -> list (bytes * jast) -> Prop :=
| M_one m kv : jmember m kv -> jmembers m [kv]
| M_cons m kv t l : jmember m kv -> jmembers t l -> jmembers (m ++ 44 :: t) (kv :: l)
with jmember : bytes -> bytes * jast -> Prop :=
| M_intro w1 k w2 w3 s v w4 :
    ws w1 -> string_lit k -> ws w2 -> ws w3 -> jvalue s v -> ws w4 ->
    jmember (w1 ++ k ++ w2 ++ 58 :: w3 ++ s ++ w4) (k, v).

(** A JSON text. *)
Definition jtext (data : bytes) (v : jast) : Prop :=
  exists w1 s w2, data = w1 ++ s ++ w2 /\ ws w1 /\ jvalue s v /\ ws w2.

Scheme jvalue_ind' := Induction for jvalue Sort Prop
  with jelems_ind' := Induction for jelems Sort Prop
  with jmembers_ind' := Induction for jmembers Sort Prop
  with jmember_ind' := Induction for jmember Sort Prop.
Combined Scheme json_mutind from jvalue_ind', jelems_ind', jmembers_ind', jmember_ind'.
