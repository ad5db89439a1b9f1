(** The decoders again, with what they use: the number of bytes they look at
    and the depth of their recursion.  Every function here does what the one
    without the final _m in ParseModel.v, IntModel.v, DecModel.v or TypeModel.v
    does (MeterFacts.v: equal results), and counts.

    Steps: skipSpaces, parseString, parseNumber and the like are loops over
    their input; each is charged one step for each byte from where it starts to
    where the rest it returns starts, or for all of the input if it fails, and
    one for the call.  Constant factors of these loops (parseString may look at
    a byte three times) are left out, and so are the functions outside the
    package: strconv.ParseFloat, base64, UnmarshalJSON, ... are charged one step
    for each byte they are given, the allocation of memory nothing.

    Depth: parseValue and the decoders of values count as one call each; a
    value in an array or object is read by a call inside the call for the array
    or object.  Go has one or two more frames for each of them (parseArray,
    parseObject). *)
From Verif Require Import Bytes AsciiModel Utf8Model ParseModel IntModel StringModel EncModel DecModel TypeModel.

(** no code: the meter *)
Record met := MT { steps : Z; calls : nat }.
(** no code *)
Definition M (A : Type) : Type := (A * met)%type.
(** no code: a result that costs nothing *)
Definition ret {A} (a : A) : M A := (a, MT 0 0).
(** no code: one thing after the other *)
Definition bind {A B} (m : M A) (f : A -> M B) : M B :=
  let x := f (fst m) in
  (fst x, MT (steps (snd m) + steps (snd x)) (Nat.max (calls (snd m)) (calls (snd x)))).
Notation "'let*' x ':=' m 'in' k" := (bind m (fun x => k)) (at level 200, x pattern, right associativity).
(** no code: steps *)
Definition tick (n : Z) : M unit := (tt, MT n 0).
(** no code: a call of a function that recurses *)
Definition call {A} (m : M A) : M A := (fst m, MT (1 + steps (snd m)) (S (calls (snd m)))).
(** no code: the bytes from the start of [b] to the start of [r], and the call *)
Definition spend (b r : bytes) : M unit := tick (1 + Z.of_nat (length b - length r)).

(** parse.go:20-34 skipSpaces *)
Definition skip_spaces_m (b : bytes) : M bytes :=
  let r := skip_spaces b in let* _ := spend b r in ret r.
(** parse.go:271-363 parseNumber, 382-426 parseStringFast, 241-269 parseNull,
    parseTrue, parseFalse *)
Definition pres_m (b : bytes) (p : pres) : M pres :=
  match p with
  | POk v r => let* _ := spend b r in ret (POk v r)
  | PErr r e => let* _ := spend b [] in ret (PErr r e)
  end.
(** parse.go:433-514 parseStringUnquote *)
Definition unquote_m (b : bytes) : M qres :=
  match parse_string_unquote b [] with
  | QOk s r e => let* _ := spend b r in ret (QOk s r e)
  | x => let* _ := spend b [] in ret x
  end.

(** parse.go:532-672 parseValue, parseObject, parseArray *)
Fixpoint parse_value_m (n : nat) (b : bytes) {struct n} : M pres :=
  match n with
  | O => ret (PErr b EFuel)
  | S n' =>
    call
    match b with
    | [] => ret (PErr [] ESyntax)
    | c :: b1 =>
        if c =? cLBRACE then
          if Nat.ltb (length b) 2 then ret (PErr [] ESyntax) else object_loop_m n' true b b1
        else if c =? cLBRACK then
          if Nat.ltb (length b) 2 then ret (PErr [] ESyntax) else array_loop_m n' true b b1
        else if c =? cQUOTE then pres_m b (parse_string b)
        else if c =? cn then pres_m b (parse_null b)
        else if c =? ct then pres_m b (parse_true b)
        else if c =? cf then pres_m b (parse_false b)
        else if is_num_start c then pres_m b (parse_number b)
        else ret (PErr b ESyntax)
    end
  end
with object_loop_m (n : nat) (first : bool) (a b : bytes) {struct n} : M pres :=
  match n with
  | O => ret (PErr b EFuel)
  | S n' =>
    let* b := skip_spaces_m b in
    match b with
    | [] => ret (PErr [] ESyntax)
    | c :: b1 =>
        if c =? cRBRACE then ret (close_at a b)
        else
          let k (b : bytes) : M pres :=
            let* p := pres_m b (parse_string b) in
            match p with
            | PErr r e => ret (PErr r e)
            | POk _ b =>
                let* b := skip_spaces_m b in
                match b with
                | [] => ret (PErr [] ESyntax)
                | c :: b1 =>
                    if negb (c =? cCOLON) then ret (PErr (c :: b1) ESyntax)
                    else let* b := skip_spaces_m b1 in
                         let* p := parse_value_m n' b in
                         match p with
                         | PErr r e => ret (PErr r e)
                         | POk _ b => object_loop_m n' false a b
                         end
                end
            end in
          if first then k b
          else if negb (c =? cCOMMA) then ret (PErr b ESyntax)
          else let* b := skip_spaces_m b1 in
               match b with
               | [] => ret (PErr [] ESyntax)
               | c2 :: b2 => if c2 =? cRBRACE then ret (PErr (c2 :: b2) ESyntax) else k (c2 :: b2)
               end
    end
  end
with array_loop_m (n : nat) (first : bool) (a b : bytes) {struct n} : M pres :=
  match n with
  | O => ret (PErr b EFuel)
  | S n' =>
    let* b := skip_spaces_m b in
    match b with
    | [] => ret (PErr [] ESyntax)
    | c :: b1 =>
        if c =? cRBRACK then ret (close_at a b)
        else
          let k (b : bytes) : M pres :=
            let* p := parse_value_m n' b in
            match p with
            | PErr r e => ret (PErr r e)
            | POk _ b => array_loop_m n' false a b
            end in
          if first then k b
          else if negb (c =? cCOMMA) then ret (PErr b ESyntax)
          else let* b := skip_spaces_m b1 in
               match b with
               | [] => ret (PErr [] ESyntax)
               | c2 :: b2 => if c2 =? cRBRACK then ret (PErr (c2 :: b2) ESyntax) else k (c2 :: b2)
               end
    end
  end.
(** parse.go:650-672 parseValue *)
Definition parseValue_m (b : bytes) : M pres := parse_value_m (parse_fuel b) b.
(** json.go:235-241 Valid *)
Definition Valid_m (data : bytes) : M bool :=
  let* b := skip_spaces_m data in
  let* p := parseValue_m b in
  match p with
  | PErr _ _ => ret false
  | POk _ r => let* r := skip_spaces_m r in ret (match r with [] => true | _ => false end)
  end.

(** codec.go:972-981 inputError *)
Definition input_error_m (b : bytes) : M (bytes * err) :=
  match b with
  | [] => ret ([], ESyntax)
  | _ => let* p := parseValue_m b in
         match p with
         | PErr r e => ret (r, e)
         | POk _ r => let* r := skip_spaces_m r in ret (r, EType)
         end
  end.
(** codec.go:972-981 *)
Definition in_err_m {A} (b : bytes) (cur : A) : M (dres A) :=
  let* x := input_error_m b in ret (DR (fst x) (Some (snd x)) cur).
(** decode.go:630-643 and the same elsewhere: the container is parsed again *)
Definition elem_err_m {A} (input : bytes) (e : err) (cur : A) : M (dres A) :=
  let* p := parseValue_m input in
  match p with
  | PErr r2 e2 => ret (DR r2 (Some e2) cur)
  | POk _ r2 => ret (DR r2 (Some e) cur)
  end.

(** parse.go:120-131, 172-183 *)
Definition int_finish_m (b : bytes) (value : Z) (count : nat) : M ires :=
  let* _ := spend b (skipn count b) in
  match skipn count b with
  | (c :: _) as rest =>
      if (c =? cDOT) || (c =? ce) || (c =? cE) then
        let* p := pres_m b (parse_number b) in
        match p with
        | POk _ r => ret (IErr r EType)
        | PErr _ _ => ret (IErr (skipn (count + 1) b) EType)
        end
      else ret (IOk value rest)
  | [] => ret (IOk value [])
  end.
(** parse.go:44-132 parseInt; the loop is charged at its end *)
Definition parse_int_m (b : bytes) : M ires :=
  match b with
  | [] => ret (IErr [] ESyntax)
  | c :: b1 =>
      if c =? cMINUS then
        match b1 with
        | [] => ret (IErr b ESyntax)
        | _ =>
            if leading_zero b1 then ret (IErr b ESyntax)
            else match neg_loop 0 0 b1 with
                 | LInput => let* x := input_error_m b in ret (IErr (fst x) (snd x))
                 | LOverflow => let* _ := spend b [] in ret (IErr b EType)
                 | LOk v count => int_finish_m b v (S count)
                 end
        end
      else if leading_zero b then ret (IErr b ESyntax)
      else match pos_loop 0 0 b with
           | LInput => let* x := input_error_m b in ret (IErr (fst x) (snd x))
           | LOverflow => let* _ := spend b [] in ret (IErr b EType)
           | LOk v count => int_finish_m b v count
           end
  end.
(** parse.go:135-184 parseUint *)
Definition parse_uint_m (b : bytes) : M ires :=
  match b with
  | [] => ret (IErr [] ESyntax)
  | _ =>
      if leading_zero b then ret (IErr b ESyntax)
      else match uint_loop 0 0 b with
           | LInput => let* x := input_error_m b in ret (IErr (fst x) (snd x))
           | LOverflow => let* _ := spend b [] in ret (IErr b EType)
           | LOk v count => int_finish_m b v count
           end
  end.

(** decode.go:42-218 decodeInt, ... *)
Definition decode_int_m (t : ity) (b : bytes) (cur : Z) : M (dres Z) :=
  if has_null_prefix b then ret (DR (skipn 4 b) None cur)
  else let* x := if signed t then parse_int_m b else parse_uint_m b in
       match x with
       | IErr r e => ret (DR r (Some e) cur)
       | IOk v r => if out_of_range t v then ret (DR r (Some EType) cur) else ret (DR r None v)
       end.
(** decode.go:17-22 decodeNull *)
Definition decode_null_m {A} (b : bytes) (cur : A) : M (dres A) :=
  if has_null_prefix b then ret (DR (skipn 4 b) None cur) else in_err_m b cur.
(** decode.go:24-40 decodeBool *)
Definition decode_bool_m (b : bytes) (cur : bool) : M (dres bool) :=
  if has_true_prefix b then ret (DR (skipn 4 b) None true)
  else if has_false_prefix b then ret (DR (skipn 5 b) None false)
  else if has_null_prefix b then ret (DR (skipn 4 b) None cur)
  else in_err_m b cur.
(** decode.go:220-256 decodeFloat32, decodeFloat64 *)
Definition decode_float_m (pf : bytes -> option fl) (b : bytes) (cur : fl) : M (dres fl) :=
  if has_null_prefix b then ret (DR (skipn 4 b) None cur)
  else let* p := pres_m b (parse_number b) in
       match p with
       | PErr _ _ => in_err_m b cur
       | POk v r => let* _ := spend b r in
                    match pf v with
                    | None => in_err_m b cur
                    | Some f => ret (DR r None f)
                    end
       end.
(** decode.go:258-275 decodeNumber *)
Definition decode_number_m (b : bytes) (cur : bytes) : M (dres bytes) :=
  if has_null_prefix b then ret (DR (skipn 4 b) None cur)
  else let* p := pres_m b (parse_number b) in
       match p with
       | PErr _ _ => in_err_m b cur
       | POk v r => ret (DR r None v)
       end.
(** decode.go:277-297 decodeString *)
Definition decode_string_m (b : bytes) (cur : bytes) : M (dres bytes) :=
  if has_null_prefix b then ret (DR (skipn 4 b) None cur)
  else let* q := unquote_m b in
       match q with
       | QOk s r _ => ret (DR r None s)
       | QErr r e => match b with
                     | [] => in_err_m b cur
                     | c :: _ => if c =? cQUOTE then ret (DR r (Some e) cur) else in_err_m b cur
                     end
       | QPanic => ret (DR b (Some EPanicked) cur)
       | QFuel => ret (DR b (Some EFuel) cur)
       end.
(** decode.go:1097-1109 decodeRawMessage *)
Definition decode_raw_m (b : bytes) (cur : option bytes) : M (dres (option bytes)) :=
  let* p := parseValue_m b in
  match p with
  | PErr _ _ => in_err_m b cur
  | POk v r => let* _ := spend b r in ret (DR r None (Some v))
  end.

(** no code: see [d_map] *)
Definition md_map {A B} (f : A -> B) (m : M (dres A)) : M (dres B) := let* x := m in ret (d_map f x).

(** decode.go:590-646, the loop of decodeSlice *)
Fixpoint slice_loop_m {A} (dec : bytes -> A -> M (dres A)) (zero : A) (input : bytes)
    (k : nat) (b : bytes) (len : nat) (data : option (list A)) : M (dres (sl A)) :=
  let now := match data with None => None | Some d => Some (len, d) end in
  match k with
  | O => ret (DR b (Some EFuel) now)
  | S k' =>
    let* b := skip_spaces_m b in
    let d := match data with None => [] | Some d => d end in
    if (match b with c :: _ => c =? cRBRACK | [] => false end) then ret (DR (tl b) None (Some (len, d)))
    else
      let elem (b : bytes) :=
        let d := if Nat.eqb len (length d) then grow zero d else d in
        let* x := dec b (nth len d zero) in
        match d_err x with
        | None => slice_loop_m dec zero input k' (d_rest x) (S len) (Some (set_nth len (d_val x) d))
        | Some e => elem_err_m input e (Some (len, set_nth len (d_val x) d))
        end in
      if Nat.eqb len 0 then elem b
      else match b with
           | [] => ret (DR b (Some ESyntax) now)
           | c :: b1 => if c =? cCOMMA then let* b2 := skip_spaces_m b1 in elem b2
                        else ret (DR b (Some ESyntax) now)
           end
  end.
(** decode.go:570-647 decodeSlice *)
Definition decode_slice_m {A} (dec : bytes -> A -> M (dres A)) (zero : A) (b : bytes) (cur : sl A) : M (dres (sl A)) :=
  if has_null_prefix b then ret (DR (skipn 4 b) None None)
  else if Nat.ltb (length b) 2 then in_err_m b cur
  else match b with
       | c :: b1 => if c =? cLBRACK
                    then slice_loop_m dec zero b (S (length b)) b1 0 (option_map snd cur)
                    else in_err_m b cur
       | [] => in_err_m b cur
       end.

(** decode.go:544-564: the surplus elements of an array *)
Fixpoint array_skip_m (k : nat) (b : bytes) : M (bytes * option err) :=
  match k with
  | O => ret (b, Some EFuel)
  | S k' =>
    let* b := skip_spaces_m b in
    match b with
    | [] => ret (b, Some ESyntax)
    | c :: b1 =>
        if c =? cRBRACK then ret (b1, None)
        else
          let* b2 := if c =? cCOMMA then skip_spaces_m b1 else ret b in
          let* p := parseValue_m b2 in
          match p with
          | PErr r e => ret (r, Some e)
          | POk _ r => array_skip_m k' r
          end
    end
  end.
(** decode.go:516-542 *)
Fixpoint arr_loop_m {A} (dec : bytes -> A -> M (dres A)) (first : bool) (b : bytes) (done todo : list A)
    : M (dres (list A)) :=
  match todo with
  | [] => let* x := array_skip_m (S (length b)) b in ret (DR (fst x) (snd x) done)
  | x :: todo' =>
    let* b := skip_spaces_m b in
    let elem (b : bytes) :=
      let* y := dec b x in
      match d_err y with
      | None => arr_loop_m dec false (d_rest y) (done ++ [d_val y]) todo'
      | Some e => ret (DR (d_rest y) (Some e) (done ++ d_val y :: todo'))
      end in
    if first then elem b
    else match b with
         | [] => ret (DR b (Some ESyntax) (done ++ todo))
         | c :: b1 =>
             if c =? cCOMMA then let* b2 := skip_spaces_m b1 in elem b2
             else if c =? cRBRACK then ret (DR b1 None (done ++ todo))
             else ret (DR b (Some ESyntax) (done ++ todo))
         end
  end.
(** decode.go:505-565 decodeArray *)
Definition decode_array_m {A} (dec : bytes -> A -> M (dres A)) (b : bytes) (cur : list A) : M (dres (list A)) :=
  if has_null_prefix b then ret (DR (skipn 4 b) None cur)
  else if Nat.ltb (length b) 2 then in_err_m b cur
  else match b with
       | c :: b1 => if c =? cLBRACK then arr_loop_m dec true b1 [] cur else in_err_m b cur
       | [] => in_err_m b cur
       end.

(** decode.go:836-866 preprocessInput, 671-697, 891-917 *)
Definition obj_key_m {K} (deck : bytes -> M (dres K)) (first : bool) (b : bytes) : M ((bytes * err) + (bytes * K)) :=
  let key (b : bytes) :=
    if has_null_prefix b then ret (inl (b, ESyntax))
    else
      let* x := deck b in
      match d_err x with
      | Some e => ret (inl (key_error (d_rest x) e))
      | None =>
          let* b := skip_spaces_m (d_rest x) in
          match b with
          | [] => ret (inl (b, ESyntax))
          | c :: b1 => if c =? cCOLON then let* b2 := skip_spaces_m b1 in ret (inr (b2, d_val x))
                       else ret (inl (b, ESyntax))
          end
      end in
  if first then key b
  else match b with
       | [] => ret (inl (b, ESyntax))
       | c :: b1 => if c =? cCOMMA then let* b2 := skip_spaces_m b1 in key b2 else ret (inl (b, ESyntax))
       end.
(** decode.go:649-834, the loops of the decoders of maps *)
Fixpoint map_loop_m {K V} (eqb : K -> K -> bool) (deck : bytes -> M (dres K)) (decv : bytes -> V -> M (dres V))
    (zero : V) (input : bytes) (fresh : bool) (k : nat) (first : bool) (b : bytes) (m : list (K * V))
    : M (dres (option (list (K * V)))) :=
  let now := if fresh then None else Some m in
  match k with
  | O => ret (DR b (Some EFuel) now)
  | S k' =>
    let* b := skip_spaces_m b in
    if (match b with c :: _ => c =? cRBRACE | [] => false end) then ret (DR (tl b) None (Some m))
    else
      let* o := obj_key_m deck first b in
      match o with
      | inl (r, e) => ret (DR r (Some e) now)
      | inr (b, key) =>
          let* x := decv b zero in
          match d_err x with
          | None => map_loop_m eqb deck decv zero input fresh k' false (d_rest x) (map_set eqb key (d_val x) m)
          | Some e => elem_err_m input e now
          end
      end
  end.
(** decode.go:649-834 *)
Definition decode_map_m {K V} (eqb : K -> K -> bool) (deck : bytes -> M (dres K)) (decv : bytes -> V -> M (dres V))
    (zero : V) (b : bytes) (cur : option (list (K * V))) : M (dres (option (list (K * V)))) :=
  if has_null_prefix b then ret (DR (skipn 4 b) None None)
  else if Nat.ltb (length b) 2 then in_err_m b cur
  else match b with
       | c :: b1 =>
           if c =? cLBRACE then
             map_loop_m eqb deck decv zero b (match cur with None => true | _ => false end) (S (length b)) true b1
               (match cur with None => [] | Some m => m end)
           else in_err_m b cur
       | [] => in_err_m b cur
       end.

(** decode.go:868-955, the loop of decodeStruct *)
Fixpoint struct_loop_m {A} (look : bytes -> option (bytes -> A -> M (dres A))) (disallow : bool) (input : bytes)
    (k : nat) (first : bool) (b : bytes) (cur : A) : M (dres A) :=
  match k with
  | O => ret (DR b (Some EFuel) cur)
  | S k' =>
    let* b := skip_spaces_m b in
    if (match b with c :: _ => c =? cRBRACE | [] => false end) then ret (DR (tl b) None cur)
    else
      let deck b :=
        let* q := unquote_m b in
        match q with
        | QOk s r _ => let* _ := spend b r in ret (DR r None s)       (* the lookup by name *)
        | QErr r e => ret (DR r (Some e) [])
        | QPanic => ret (DR b (Some EPanicked) [])
        | QFuel => ret (DR b (Some EFuel) [])
        end in
      let* o := obj_key_m deck first b in
      match o with
      | inl (r, e) => ret (DR r (Some e) cur)
      | inr (b, key) =>
          match look key with
          | None =>
              if disallow then ret (DR b (Some EOther) cur)
              else let* p := parseValue_m b in
                   match p with
                   | PErr r e => ret (DR r (Some e) cur)
                   | POk _ r => struct_loop_m look disallow input k' false r cur
                   end
          | Some decf =>
              let* x := decf b cur in
              match d_err x with
              | None => struct_loop_m look disallow input k' false (d_rest x) (d_val x)
              | Some e => elem_err_m input e (d_val x)
              end
          end
      end
  end.
(** decode.go:868-955 decodeStruct *)
Definition decode_struct_m {A} (look : bytes -> option (bytes -> A -> M (dres A))) (disallow : bool) (b : bytes) (cur : A)
    : M (dres A) :=
  if has_null_prefix b then ret (DR (skipn 4 b) None cur)
  else if Nat.ltb (length b) 2 then in_err_m b cur
  else match b with
       | c :: b1 => if c =? cLBRACE then struct_loop_m look disallow b (S (length b)) true b1 cur else in_err_m b cur
       | [] => in_err_m b cur
       end.

(** decode.go:990-1067 decodeInterface *)
Fixpoint dec_iface_m (usenum : bool) (pf : bytes -> option fl) (n : nat) (b : bytes) (cur : jv) : M (dres jv) :=
  match n with
  | O => ret (DR b (Some EFuel) JVNull)
  | S n' =>
    call
    (let* p := parseValue_m b in
    match p with
    | PErr r e => ret (DR r (Some e) JVNull)
    | POk v b' =>
        let done (m : M (dres jv)) :=
          let* x := m in
          match d_err x with
          | Some e => ret (DR b' (Some e) JVNull)
          | None => let* s := skip_spaces_m (d_rest x) in
                    match s with
                    | [] => ret (DR b' None (d_val x))
                    | _ => ret (DR b' (Some ESyntax) JVNull)
                    end
          end in
        match v with
        | [] => ret (DR b' (Some EPanicked) JVNull)
        | c :: _ =>
            if c =? cLBRACE then
              done (md_map (fun m => match m with None => JVMap [] | Some m => JVMap m end)
                     (decode_map_m beqb (fun b => decode_string_m b []) (dec_iface_m usenum pf n') JVNull v (Some [])))
            else if c =? cLBRACK then
              done (md_map (fun s => match s with None => JVArr [] | Some (len, d) => JVArr (firstn len d) end)
                     (decode_slice_m (dec_iface_m usenum pf n') JVNull v (Some (O, repeat JVNull 10))))
            else if c =? cQUOTE then done (md_map JVString (decode_string_m v []))
            else if c =? cn then done (decode_null_m v JVNull)
            else if (c =? ct) || (c =? cf) then done (md_map JVBool (decode_bool_m v false))
            else if is_num_start c then
              if usenum then done (md_map JVNumber (decode_number_m v []))
              else done (md_map JVFloat (decode_float_m pf v (FZero false)))
            else ret (DR b' (Some ESyntax) JVNull)
        end
    end)
  end.
(** decode.go:990-1067 decodeInterface *)
Definition decode_interface_m (usenum : bool) (pf : bytes -> option fl) (b : bytes) (cur : jv) : M (dres jv) :=
  dec_iface_m usenum pf (S (length b)) b cur.

(** json.go:209-232 Parse *)
Definition parse_with_m {A} (dec : bytes -> A -> M (dres A)) (b : bytes) (cur : A) : M (dres A) :=
  let* b := skip_spaces_m b in
  let* d := dec b cur in
  let* r := skip_spaces_m (d_rest d) in
  ret (DR r (d_err d) (d_val d)).
(** json.go:193-205 Unmarshal *)
Definition unmarshal_with_m {A} (dec : bytes -> A -> M (dres A)) (b : bytes) (cur : A) : M (option err * A) :=
  let* d := parse_with_m dec b cur in
  ret (match d_rest d with [] => d_err d | _ => Some ESyntax end, d_val d).

Section Typed.
Context (V : tenv) (F : dflags).

(** decode.go:299-318 decodeFromString *)
Definition decode_from_string_m {A} (dec : bytes -> A -> M (dres A)) (b : bytes) (cur : A) : M (dres A) :=
  if has_null_prefix b then dec b cur
  else let* q := unquote_m b in
       match q with
       | QErr _ _ => in_err_m [] cur
       | QPanic => ret (DR b (Some EPanicked) cur)
       | QFuel => ret (DR b (Some EFuel) cur)
       | QOk v r _ =>
           let* x := dec v cur in
           match d_err x with
           | Some e => ret (DR r (Some e) (d_val x))
           | None => let* s := skip_spaces_m (d_rest x) in
                     match s with
                     | [] => ret (DR r None (d_val x))
                     | _ => ret (DR r (Some ESyntax) (d_val x))
                     end
           end
       end.
(** decode.go:320-403 decodeFromStringToInt *)
Definition decode_from_string_int_m {A} (pf : bytes -> option fl) (dec : bytes -> A -> M (dres A)) (b : bytes) (cur : A)
    : M (dres A) :=
  if has_null_prefix b then dec b cur
  else
    let quoted :=
      let* q := unquote_m b in
      match q with
      | QErr _ _ => in_err_m [] cur
      | QPanic => ret (DR b (Some EPanicked) cur)
      | QFuel => ret (DR b (Some EFuel) cur)
      | QOk v r _ =>
          let v := strip_zeroes v in
          let* _ := spend v [] in
          let* x := dec v cur in
          match d_err x with
          | Some ESyntax => ret (DR r (Some (match v with 45 :: _ => EType | _ => EOther end)) (d_val x))
          | Some e =>
              let* p := pres_m v (parse_number v) in
              let* e := match p with
                        | POk _ _ => ret e
                        | PErr _ _ => let* w := parseValue_m v in
                                      ret (match w with POk _ _ => EOther | PErr _ _ => e end)
                        end in
              ret (DR r (Some e) (d_val x))
          | None => match d_rest x with
                    | [] => ret (DR r None (d_val x))
                    | u => ret (DR u (Some EType) (d_val x))
                    end
          end
      end in
    match b with
    | [] => quoted
    | c :: b1 =>
        if negb (c =? cQUOTE) then
          let* p := pres_m b (parse_number b) in
          match p with
          | PErr r _ => ret (DR r (Some EOther) cur)
          | POk v r =>
              let* _ := spend b r in
              if existsb (fun c => (c =? 46) || (c =? 101) || (c =? 69)) v
              then match pf v with None => ret (DR r (Some EType) cur) | Some _ => ret (DR r (Some EOther) cur) end
              else ret (DR r (Some EOther) cur)
          end
        else match b1 with
             | c1 :: _ => if c1 =? cQUOTE then ret (DR b (Some EOther) cur) else quoted
             | [] => quoted
             end
    end.

(** decode.go:405-439 decodeBytes *)
Definition decode_bytes_m (b : bytes) (cur : sl Z) : M (dres (sl Z)) :=
  if has_null_prefix b then ret (DR (skipn 4 b) None None)
  else if Nat.ltb (length b) 2 then in_err_m b cur
  else match b with
       | c :: _ =>
           if negb (c =? cQUOTE) then
             if c =? cLBRACK then decode_slice_m (decode_int_m TUint8) 0 b cur else in_err_m b cur
           else let* q := unquote_m b in
                match q with
                | QErr _ _ => in_err_m b cur
                | QPanic => ret (DR b (Some EPanicked) cur)
                | QFuel => ret (DR b (Some EFuel) cur)
                | QOk v r _ => let* _ := spend b r in
                               match v_b64 V v with
                               | None => ret (DR r (Some EBase64) cur)
                               | Some x => ret (DR r None (Some (length x, x)))
                               end
                end
       | [] => in_err_m b cur
       end.

(** decode.go:456-478, 485-503 *)
Definition decode_quoted_m {A} (parse : bytes -> option A) (b : bytes) (cur : A) : M (dres A) :=
  if Nat.ltb (length b) 2 then in_err_m b cur
  else match b with
       | c :: b1 =>
           if negb (c =? cQUOTE) then in_err_m b cur
           else match index_byte cQUOTE b1 with
                | None => let* _ := spend b [] in in_err_m b cur
                | Some i => let* _ := spend b (skipn (S i) b1) in
                            match parse (firstn i b1) with
                            | None => in_err_m b cur
                            | Some v => ret (DR (skipn (S i) b1) None v)
                            end
                end
       | [] => in_err_m b cur
       end.
(** decode.go:441-478 decodeDuration *)
Definition decode_duration_m (b : bytes) (cur : Z) : M (dres Z) :=
  if has_null_prefix b then ret (DR (skipn 4 b) None cur)
  else match b with
       | c :: _ =>
           if negb (c =? cQUOTE) then
             let* x := parse_int_m b in
             match x with
             | IErr _ _ => in_err_m b cur
             | IOk v r => ret (DR r None v)
             end
           else decode_quoted_m (v_dur V) b cur
       | [] => decode_quoted_m (v_dur V) b cur
       end.
(** decode.go:480-503 decodeTime *)
Definition decode_time_m (b : bytes) (cur : bytes) : M (dres bytes) :=
  if has_null_prefix b then ret (DR (skipn 4 b) None cur) else decode_quoted_m (v_time V) b cur.
(** decode.go:1086-1095 decodeUnmarshalTypeError *)
Definition decode_type_error_m (b : bytes) (cur : mem) : M (dres mem) :=
  let* p := parseValue_m b in
  match p with
  | PErr r e => ret (DR r (Some e) cur)
  | POk _ r => ret (DR r (Some EType) cur)
  end.
(** decode.go:1111-1131 decodeJSONUnmarshaler *)
Definition decode_json_user_m (u : nat) (b : bytes) (cur : bytes) : M (dres bytes) :=
  let* p := parseValue_m b in
  match p with
  | PErr r e => ret (DR r (Some e) cur)
  | POk v r =>
      if rv_null v then ret (DR r None cur)
      else let* _ := spend b r in let '(e, s) := v_json V u v cur in ret (DR r e s)
  end.
(** decode.go:1133-1176 decodeTextUnmarshaler *)
Definition decode_text_user_m (u : nat) (b : bytes) (cur : bytes) : M (dres bytes) :=
  let* p := parseValue_m b in
  match p with
  | PErr r e => ret (DR r (Some e) cur)
  | POk v r =>
      if rv_null v then match parse_null v with POk _ _ => ret (DR r None cur) | PErr _ e => ret (DR r (Some e) cur) end
      else if rv_string v then
        let* q := unquote_m v in
        match q with
        | QErr _ e => ret (DR r (Some e) cur)
        | QPanic => ret (DR b (Some EPanicked) cur)
        | QFuel => ret (DR b (Some EFuel) cur)
        | QOk s _ _ => let* _ := spend b r in let '(e, x) := v_text V u s cur in ret (DR r e x)
        end
      else ret (DR r (Some EType) cur)
  end.
(** codec.go:355-406: the decoder of map keys *)
Definition decode_key_m (k : kty) (b : bytes) : M (dres mkey) :=
  match k with
  | KYString => md_map MKStr (decode_string_m b [])
  | KYInt t => md_map MKInt (decode_from_string_m (decode_int_m t) b 0)
  | KYText u => md_map MKUser (decode_text_user_m u b [])
  end.

(** decode.go:957-969 decodeEmbeddedStructPointer on the way to a field *)
Fixpoint on_path_m (p : list pstep) (dec : bytes -> mem -> M (dres mem)) (b : bytes) (m : mem) : M (dres mem) :=
  match p with
  | [] => dec b m
  | PIn i :: p' =>
      match m with
      | MList l => match nth_error l i with
                   | Some x => md_map (fun y => MList (set_nth i y l)) (on_path_m p' dec b x)
                   | None => ret (bad b m)
                   end
      | _ => ret (bad b m)
      end
  | PVia i s unexp :: p' =>
      call
      match m with
      | MList l => match nth_error l i with
                   | Some (MPtr (Some x)) => md_map (fun y => MList (set_nth i (MPtr (Some y)) l)) (on_path_m p' dec b x)
                   | Some (MPtr None) =>
                       if unexp then ret (DR [] (Some EOther) m)
                       else md_map (fun y => MList (set_nth i (MPtr (Some y)) l)) (on_path_m p' dec b (zero V (YStruct s)))
                   | _ => ret (bad b m)
                   end
      | _ => ret (bad b m)
      end
  end.
(** codec.go:668-705 stringify *)
Definition decode_field_m (f : jfield) (dec : bytes -> mem -> M (dres mem)) : bytes -> mem -> M (dres mem) :=
  match jf_quot f with
  | QNo => dec
  | QStr => decode_from_string_m dec
  | QInt => decode_from_string_int_m (v_float V true) dec
  end.

(** decode.go:17-1176 through codec.go:79-440 *)
Fixpoint dec_ty_m (n : nat) : gty -> bytes -> mem -> M (dres mem) :=
  fix go (t : gty) (b : bytes) (cur : mem) {struct t} : M (dres mem) :=
  call
  match t with
  | YBool => match cur with MBool x => md_map MBool (decode_bool_m b x) | _ => ret (bad b cur) end
  | YInt it => match cur with MInt x => md_map MInt (decode_int_m it b x) | _ => ret (bad b cur) end
  | YFloat w => match cur with MFloat x => md_map MFloat (decode_float_m (v_float V w) b x) | _ => ret (bad b cur) end
  | YNumber => match cur with MStr x => md_map MStr (decode_number_m b x) | _ => ret (bad b cur) end
  | YString => match cur with MStr x => md_map MStr (decode_string_m b x) | _ => ret (bad b cur) end
  | YBytes => match cur with MBytes x => md_map MBytes (decode_bytes_m b x) | _ => ret (bad b cur) end
  | YDuration => match cur with MInt x => md_map MInt (decode_duration_m b x) | _ => ret (bad b cur) end
  | YTime => match cur with MTime x => md_map MTime (decode_time_m b x) | _ => ret (bad b cur) end
  | YIface =>
      match cur with
      | MIface x => md_map MIface (decode_interface_m (d_usenum F) (v_float V true) b x)
      | _ => ret (bad b cur)
      end
  | YNamedIface empty =>
      match cur with
      | MIface x =>
          if has_null_prefix b then ret (DR (skipn 4 b) None (MIface JVNull))
          else match x with
               | JVNull => if empty
                           then md_map MIface (parse_with_m (decode_interface_m (d_usenum F) (v_float V true)) b JVNull)
                           else decode_type_error_m b cur
               | _ => decode_type_error_m b cur
               end
      | _ => ret (bad b cur)
      end
  | YRaw => match cur with MRaw x => md_map MRaw (decode_raw_m b x) | _ => ret (bad b cur) end
  | YArray k e =>
      match cur with
      | MList l => if Nat.eqb (length l) k then md_map MList (decode_array_m (go e) b l) else ret (bad b cur)
      | _ => ret (bad b cur)
      end
  | YSlice e =>
      match cur with MSlice s => md_map MSlice (decode_slice_m (go e) (zero V e) b s) | _ => ret (bad b cur) end
  | YMap k e =>
      match cur with
      | MMap m => md_map MMap (decode_map_m mkey_eqb (decode_key_m k) (go e) (zero V e) b m)
      | _ => ret (bad b cur)
      end
  | YMapSI =>
      match cur with
      | MMap m => md_map MMap (decode_map_m mkey_eqb (decode_key_m KYString)
                                (fun b x => md_map MIface (decode_interface_m (d_usenum F) (v_float V true) b JVNull))
                                (MIface JVNull) b m)
      | _ => ret (bad b cur)
      end
  | YMapSR =>
      match cur with
      | MMap m => md_map MMap (decode_map_m mkey_eqb (decode_key_m KYString)
                                (fun b x => md_map MRaw (decode_raw_m b None)) (MRaw None) b m)
      | _ => ret (bad b cur)
      end
  | YPtr e =>
      match cur with
      | MPtr p =>
          if has_null_prefix b then
            match p, e with
            | Some x, YPtr _ => md_map (fun y => MPtr (Some y)) (go e b x)
            | _, _ => ret (DR (skipn 4 b) None (MPtr None))
            end
          else md_map (fun y => MPtr (Some y)) (go e b (match p with Some x => x | None => zero V e end))
      | _ => ret (bad b cur)
      end
  | YStruct i =>
      match n with
      | O => ret (DR b (Some EFuel) cur)
      | S n' =>
          match cur with
          | MList _ =>
              decode_struct_m
                (fun k => match find_field V F (v_flds V i) k with
                          | Some f => Some (on_path_m (jf_path f) (decode_field_m f (dec_ty_m n' (jf_ty f))))
                          | None => None
                          end) (d_disallow F) b cur
          | _ => ret (bad b cur)
          end
      end
  | YJSON u => match cur with MUser s => md_map MUser (decode_json_user_m u b s) | _ => ret (bad b cur) end
  | YText u => match cur with MUser s => md_map MUser (decode_text_user_m u b s) | _ => ret (bad b cur) end
  | YUnsupported => match cur with MUser _ => decode_type_error_m b cur | _ => ret (bad b cur) end
  end.
(** c.decode at json.go:230 *)
Definition decode_m (t : gty) (b : bytes) (cur : mem) : M (dres mem) := dec_ty_m (S (length b)) t b cur.
(** json.go:193-205 Unmarshal *)
Definition unmarshal_m (t : gty) (b : bytes) (cur : mem) : M (option err * mem) := unmarshal_with_m (decode_m t) b cur.

End Typed.
