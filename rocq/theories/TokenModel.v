(** Model of the Tokenizer of /repo/token.go. *)
From Verif Require Import Bytes ParseModel StringModel.

(** token.go:80-90: one entry of the stack; [true] is inObject *)
Definition tstate : Type := (bool * Z)%type.

(** token.go:41-78.  The stack is kept top first. *)
Record tokenizer := Tok {
  t_delim : Z;             (* 0: no delimiter *)
  t_value : bytes;
  t_err : option err;
  t_depth : Z;
  t_index : Z;
  t_IsKey : bool;
  t_isKey : bool;
  t_json : bytes;
  t_stack : list tstate
}.

(** token.go:93 NewTokenizer, 96-112 Reset *)
Definition new_tokenizer (b : bytes) : tokenizer := Tok 0 [] None 0 0 false false b [].

(** token.go:227-229, 231-236 *)
Definition tok_depth (st : list tstate) : Z := Z.of_nat (length st).
(** token.go:231-236 *)
Definition tok_index (st : list tstate) : Z := match st with [] => 0 | (_, n) :: _ => n - 1 end.
(** token.go:223-225: t.is(inObject) *)
Definition tok_in_object (st : list tstate) : bool := match st with (o, _) :: _ => o | [] => false end.
(** token.go:208-221: pop; None is the error *)
Definition tok_pop (obj : bool) (st : list tstate) : option (list tstate) :=
  match st with
  | (o, _) :: st' => if Bool.eqb obj o then Some st' else None
  | [] => None
  end.

(** token.go:148-163: the token at the head of a non-empty input: delimiter,
    value, remainder and error.  The parsers return a nil value on error. *)
Definition tok_of_pres (p : pres) : Z * bytes * bytes * option err :=
  match p with
  | POk v r => (0, v, r, None)
  | PErr r e => (0, [], r, Some e)
  end.
(** token.go:148-163 *)
Definition is_delim (c : Z) : bool :=
  (c =? 123) || (c =? 125) || (c =? 91) || (c =? 93) || (c =? 58) || (c =? 44).
(** token.go:148-163 *)
Definition scan_token (json : bytes) : Z * bytes * bytes * option err :=
  match json with
  | [] => (0, [], [], None)
  | c :: rest =>
      if c =? 34 then tok_of_pres (parse_string json)
      else if c =? 110 then tok_of_pres (parse_null json)
      else if c =? 116 then tok_of_pres (parse_true json)
      else if c =? 102 then tok_of_pres (parse_false json)
      else if is_num_start c then tok_of_pres (parse_number json)
      else if is_delim c then (c, [c], rest, None)
      else (0, [c], rest, Some ESyntax)
  end.

(** token.go:121-199 Next; None is the run-time panic of
    [t.stack[len(t.stack)-1].len++] (194) on an empty stack. *)
Definition tok_next (t : tokenizer) : option (tokenizer * bool) :=
  match t_err t with
  | Some _ => Some (t, false)
  | None =>
      let json := skip_spaces (t_json t) in
      match json with
      | [] => Some (new_tokenizer [], false)
      | _ =>
          let '(d, v, b, err) := scan_token json in
          let st := t_stack t in
          let IsKey := (d =? 0) && t_isKey t in
          let mk depth index isKey stack :=
            Tok d v err depth index IsKey isKey b stack in
          let depth := tok_depth st in
          let index := tok_index st in
          if d =? 0 then
            Some (mk depth index (t_isKey t) st,
                  match err with None => negb (Nat.eqb (length v) 0) | Some _ => false end)
          else if d =? 123 then Some (mk depth index true ((true, 1) :: st), true)
          else if d =? 91 then Some (mk depth index (t_isKey t) ((false, 1) :: st), true)
          else if (d =? 125) || (d =? 93) then
            match tok_pop (d =? 125) st with
            | Some st' => Some (mk (depth - 1) (tok_index st') (t_isKey t) st', true)
            | None => Some (mk (depth - 1) (tok_index st) (t_isKey t) st, false)
            end
          else if d =? 58 then Some (mk depth index false st, true)
          else (* ',' *)
            match st with
            | [] => None
            | (o, n) :: st' =>
                Some (mk depth index (if o then true else t_isKey t) ((o, n + 1) :: st'), true)
            end
      end
  end.
