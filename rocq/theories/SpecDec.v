(** Independent specification of decoding into interface{}: the value a JSON
    syntax tree denotes.  [jv], [fl] are the Go values; nothing else of the
    model is used. *)
From Verif Require Import Bytes SpecJson SpecString EncModel DecModel.

(** [str_means lit t]: the string literal [lit] (with its quotes) denotes the
    text [t]. *)
Definition str_means (lit t : bytes) : Prop :=
  exists body l, lit = 34 :: body ++ [34] /\ str_denotes body l /\ utf8 l t.

(** The value of the last member of an object whose key denotes [k]. *)
Definition last_member (l : list (bytes * jast)) (k : bytes) (a : jast) : Prop :=
  exists l1 lit l2, l = l1 ++ (lit, a) :: l2 /\ str_means lit k /\
    forall lit' a', In (lit', a') l2 -> ~ str_means lit' k.

(** [denotes num a v]: the tree [a] denotes the Go value [v]; [num] says what a
    number literal is decoded to. *)
Inductive denotes (num : bytes -> jv -> Prop) : jast -> jv -> Prop :=
| den_null : denotes num JNull JVNull
| den_true : denotes num JTrue (JVBool true)
| den_false : denotes num JFalse (JVBool false)
| den_num s v : num s v -> denotes num (JNum s) v
| den_str lit t : str_means lit t -> denotes num (JStr lit) (JVString t)
| den_arr l vs : Forall2 (denotes num) l vs -> denotes num (JArr l) (JVArr vs)
| den_obj l m : NoDup (map fst m) ->
    (forall k v, In (k, v) m -> exists a, last_member l k a /\ denotes num a v) ->
    (forall k a, last_member l k a -> exists v, In (k, v) m /\ denotes num a v) ->
    denotes num (JObj l) (JVMap m).

(** The number literals of a tree. *)
Inductive number_in (s : bytes) : jast -> Prop :=
| ni_num : number_in s (JNum s)
| ni_arr l a : In a l -> number_in s a -> number_in s (JArr l)
| ni_obj l k a : In (k, a) l -> number_in s a -> number_in s (JObj l).

(** Numbers become float64 through [pf] (strconv.ParseFloat, which may fail on
    range), or json.Number with the flag UseNumber. *)
Definition as_float (pf : bytes -> option fl) (s : bytes) (v : jv) : Prop := exists f, pf s = Some f /\ v = JVFloat f.
Definition as_number (s : bytes) (v : jv) : Prop := v = JVNumber s.

(** Equality of decoded values, maps being unordered. *)
Inductive jv_same : jv -> jv -> Prop :=
| same_leaf v : (match v with JVArr _ | JVMap _ => False | _ => True end) -> jv_same v v
| same_arr l l' : Forall2 jv_same l l' -> jv_same (JVArr l) (JVArr l')
| same_map m m' :
    (forall k v, In (k, v) m -> exists v', In (k, v') m' /\ jv_same v v') ->
    (forall k v', In (k, v') m' -> exists v, In (k, v) m /\ jv_same v v') ->
    jv_same (JVMap m) (JVMap m').
