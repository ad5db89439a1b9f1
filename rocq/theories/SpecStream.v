(** Specification of streams of JSON values. *)
From Verif Require Import Bytes SpecJson ParseModel IntModel StreamModel.

(** A number must be told from what follows it. *)
Definition num_end (r : bytes) : Prop :=
  match r with c :: _ => ~ (48 <= c <= 57) /\ c <> 46 /\ c <> 101 /\ c <> 69 | [] => True end.

(** [stream s vs tl]: [s] is the values [vs] (their texts and trees), with
    optional whitespace around them, followed by [tl]. *)
Inductive stream : bytes -> list (bytes * jast) -> bytes -> Prop :=
| st_end w tl : ws w -> stream (w ++ tl) [] tl
| st_value w v a r vs tl : ws w -> jvalue v a -> (number_lit v -> num_end r) -> stream r vs tl ->
    stream (w ++ v ++ r) ((v, a) :: vs) tl.

(** String literals of a tree, keys included. *)
Inductive lit_in (lit : bytes) : jast -> Prop :=
| li_str : lit_in lit (JStr lit)
| li_arr l a : In a l -> lit_in lit a -> lit_in lit (JArr l)
| li_key l a : In (lit, a) l -> lit_in lit (JObj l)
| li_obj l k a : In (k, a) l -> lit_in lit a -> lit_in lit (JObj l).

(** A literal without an escaped quote before a \u escape. *)
Definition resumable (lit : bytes) : Prop :=
  forall l1 l2 l3, lit <> l1 ++ [92; 34] ++ l2 ++ [92; 117] ++ l3.
(** Values that can be split anywhere by the end of the buffer. *)
Definition splittable (a : jast) : Prop :=
  (forall s, a <> JNum s) /\ forall lit, lit_in lit a -> resumable lit.

(** Reader without errors before its end: only the last chunk may come with an
    error, and it is the one that follows. *)
Inductive calm (final : err) : list (bytes * option err) -> Prop :=
| calm_nil : calm final []
| calm_last ch : calm final [(ch, Some final)]
| calm_cons ch l : calm final l -> calm final ((ch, None) :: l).
Definition delivers (r : reader) (s : bytes) (e : err) : Prop :=
  calm (r_final r) (r_chunks r) /\ unread r = s /\ r_final r = e.

(** [k] calls of readValue: their results. *)
Fixpoint reads (k : nat) (d : decoder) : list ((bytes + err) * (bytes * Z)) :=
  match k with
  | O => []
  | S k' => let '(x, d') := readValue d in (x, (buffered d', input_offset d')) :: reads k' d'
  end.
(** The decoder after [k] calls. *)
Fixpoint after (k : nat) (d : decoder) : decoder :=
  match k with O => d | S k' => after k' (snd (readValue d)) end.
(** What Decode finally returns for the error at the end of the reader. *)
Definition end_error (e : err) : err := match e with EUnexpectedEOF => EOF | _ => e end.
(** The values can be read whatever the buffer boundaries: they all fit in the
    first buffer, or no boundary can confuse them. *)
Definition readable (s : bytes) (vs : list (bytes * jast)) : Prop :=
  Z.of_nat (length s) <= minBufferSize \/ Forall (fun va => splittable (snd va)) vs.
(** Successive Decode calls into targets with contents [curs]. *)
Fixpoint decodes {A} (dec : bytes -> A -> dres A) (curs : list A) (d : decoder) : list (option err * A) :=
  match curs with
  | [] => []
  | cur :: curs' => let '(e, x, d') := decode_next dec d cur in (e, x) :: decodes dec curs' d'
  end.
