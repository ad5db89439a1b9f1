(** Model of the Tokenizer's stack as it is in memory: a slice of an array,
    first that of the field [buffer], and of assignments between Tokenizers
    (/repo/token.go:41-112, 121-236). *)
From Verif Require Import Bytes ParseModel StringModel TokenModel.

(** The array that a stack lives in: the field [buffer] of a variable
    (token.go:77), or one that append has made (token.go:204). *)
Inductive aid := Buf (x : nat) | Heap (n : nat).
(** Equality of arrays: whether t.stack refers to t.buffer, token.go:202 *)
Definition aid_eqb (a b : aid) : bool :=
  match a, b with Buf x, Buf y => Nat.eqb x y | Heap x, Heap y => Nat.eqb x y | _, _ => false end.

(** token.go:41-78: a Tokenizer without its buffer.  The stack is nil, or the
    first [len] entries of an array. *)
Record mtok := MTok {
  q_delim : Z; q_value : bytes; q_err : option err; q_depth : Z; q_index : Z;
  q_IsKey : bool; q_isKey : bool; q_json : bytes; q_stack : option (aid * nat)
}.
(** Memory: the Tokenizer variables, the arrays (of fixed length), and the
    number of arrays made so far (token.go:41-78). *)
Record tmem := TMem { m_tok : nat -> mtok; m_arr : aid -> list tstate; m_made : nat }.

(** token.go:41-78: the zero Tokenizer; the buffer has room for 8 *)
Definition zero_mtok (b : bytes) : mtok := MTok 0 [] None 0 0 false false b None.
(** token.go:77: buffer [8]state *)
Definition zero_mem : tmem := TMem (fun _ => zero_mtok []) (fun a => match a with Buf _ => repeat (false, 0) 8 | Heap _ => [] end) 0.
(** assignment to *t: token.go:96-112 *)
Definition set_tok (x : nat) (t : mtok) (m : tmem) : tmem := TMem (fun y => if Nat.eqb y x then t else m_tok m y) (m_arr m) (m_made m).
(** assignment to an array: token.go:194, 204 *)
Definition set_arr (a : aid) (l : list tstate) (m : tmem) : tmem := TMem (m_tok m) (fun b => if aid_eqb b a then l else m_arr m b) (m_made m).
(** l[i] = v: token.go:194, 204 *)
Fixpoint put (i : nat) (v : tstate) (l : list tstate) : list tstate :=
  match l, i with [], _ => [] | _ :: t, O => v :: t | h :: t, S j => h :: put j v t end.
(** t.stack[len(t.stack)-1]: token.go:194, 215, 224, 235 *)
Definition m_top (m : tmem) (s : option (aid * nat)) : option tstate :=
  match s with Some (a, S i) => nth_error (m_arr m a) i | _ => None end.
(** token.go:227-229 depth *)
Definition m_depth (s : option (aid * nat)) : Z := match s with Some (_, n) => Z.of_nat n | None => 0 end.
(** token.go:231-236 index *)
Definition m_index (m : tmem) (s : option (aid * nat)) : Z := match m_top m s with Some (_, n) => n - 1 | None => 0 end.
(** token.go:223-225 is(inObject) *)
Definition m_in_object (m : tmem) (s : option (aid * nat)) : bool := match m_top m s with Some (o, _) => o | None => false end.

(** token.go:96-112 Reset; also NewTokenizer (93), on a new variable *)
Definition m_reset (x : nat) (b : bytes) (m : tmem) : tmem := set_tok x (zero_mtok b) m.

(** token.go:200-205 push: the new stack, and memory.  append makes a new array
    if the old one is full; [grow] is its length (not specified by Go, at least
    what is needed). *)
Definition m_push (grow : nat -> nat) (x : nat) (obj : bool) (s : option (aid * nat)) (m : tmem) : option (aid * nat) * tmem :=
  let '(a, n) := match s with None => (Buf x, O) | Some s => s end in
  let l := m_arr m a in
  if Nat.ltb n (length l) then (Some (a, S n), set_arr a (put n (obj, 1) l) m)
  else let b := Heap (m_made m) in
       (Some (b, S n), TMem (m_tok m) (fun c => if aid_eqb c b then firstn n l ++ (obj, 1) :: repeat (false, 0) (grow n) else m_arr m c) (S (m_made m))).
(** token.go:207-221 pop; None is the error *)
Definition m_pop (obj : bool) (s : option (aid * nat)) (m : tmem) : option (option (aid * nat)) :=
  match s with
  | Some (a, S i) => match nth_error (m_arr m a) i with Some (o, _) => if Bool.eqb obj o then Some (Some (a, i)) else None | None => None end
  | _ => None
  end.

(** token.go:121-198 Next of the variable x; None is the panic of 194. *)
Definition m_next (grow : nat -> nat) (x : nat) (m : tmem) : option (tmem * bool) :=
  let t := m_tok m x in
  match q_err t with
  | Some _ => Some (m, false)
  | None =>
      let json := skip_spaces (q_json t) in
      match json with
      | [] => Some (m_reset x [] m, false)
      | _ =>
          let '(d, v, b, err) := scan_token json in
          let s := q_stack t in
          let IsKey := (d =? 0) && q_isKey t in
          let mk depth index isKey stack := MTok d v err depth index IsKey isKey b stack in
          let depth := m_depth s in
          let index := m_index m s in
          if d =? 0 then
            Some (set_tok x (mk depth index (q_isKey t) s) m,
                  match err with None => negb (Nat.eqb (length v) 0) | Some _ => false end)
          else if d =? 123 then let '(s', m') := m_push grow x true s m in Some (set_tok x (mk depth index true s') m', true)
          else if d =? 91 then let '(s', m') := m_push grow x false s m in Some (set_tok x (mk depth index (q_isKey t) s') m', true)
          else if (d =? 125) || (d =? 93) then
            match m_pop (d =? 125) s m with
            | Some s' => Some (set_tok x (mk (depth - 1) (m_index m s') (q_isKey t) s') m, true)
            | None => Some (set_tok x (mk (depth - 1) (m_index m s) (q_isKey t) s) m, false)
            end
          else if d =? 58 then Some (set_tok x (mk depth index false s) m, true)
          else (* ',' *)
            match s with
            | Some (a, S i) =>
                match nth_error (m_arr m a) i with
                | Some (o, n) => Some (set_tok x (mk depth index (if m_in_object m s then true else q_isKey t) s) (set_arr a (put i (o, n + 1) (m_arr m a)) m), true)
                | None => None
                end
            | _ => None
            end
      end
  end.

(** The assignment *y = *x: the fields, the slice header of the stack, and the
    content of the buffer (token.go:41-78). *)
Definition m_copy (x y : nat) (m : tmem) : tmem :=
  let m1 := set_arr (Buf y) (m_arr m (Buf x)) m in set_tok y (m_tok m x) m1.

(** What a program does with Tokenizer variables, token.go:41-121. *)
Inductive top := TReset (x : nat) (b : bytes) | TNext (x : nat) | TCopy (x y : nat).
(** What it sees of a variable: the result of Next and the exported fields,
    token.go:41-65. *)
Record tview := TView { w_delim : Z; w_value : bytes; w_err : option err; w_depth : Z; w_index : Z; w_IsKey : bool }.
(** token.go:41-65 *)
Definition m_view (t : mtok) : tview := TView (q_delim t) (q_value t) (q_err t) (q_depth t) (q_index t) (q_IsKey t).
(** A program; None is a panic.  For each step the result of Next and what is
    then seen of the variable: token.go:93-198 *)
Fixpoint m_run (grow : nat -> nat) (ops : list top) (m : tmem) : option (list (bool * tview) * tmem) :=
  match ops with
  | [] => Some ([], m)
  | TReset x b :: ops' => let m1 := m_reset x b m in
      match m_run grow ops' m1 with Some (l, m2) => Some ((true, m_view (m_tok m1 x)) :: l, m2) | None => None end
  | TCopy x y :: ops' => let m1 := m_copy x y m in
      match m_run grow ops' m1 with Some (l, m2) => Some ((true, m_view (m_tok m1 y)) :: l, m2) | None => None end
  | TNext x :: ops' =>
      match m_next grow x m with
      | None => None
      | Some (m1, r) => match m_run grow ops' m1 with Some (l, m2) => Some ((r, m_view (m_tok m1 x)) :: l, m2) | None => None end
      end
  end.
