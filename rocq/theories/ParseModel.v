(** Model of /repo/parse.go (and the error helpers of codec.go it uses). *)
From Verif Require Import Bytes AsciiModel Utf8Model.

(** Result of the (v, r, err) parsers.  Every error return of these functions
    has v = nil, so [PErr] keeps only the remainder [r] and the error. *)
(** the results of parse.go:241-672 *)
Inductive pres :=
| POk (v r : bytes)
| PErr (r : bytes) (e : err).

(** parse.go:13-18 *)
Definition is_space (c : Z) : bool := (c =? 32) || (c =? 9) || (c =? 10) || (c =? 13).

(** parse.go:25-34 skipSpacesN.  NB: when [b] is all spaces the code returns
    (nil, 0), not (nil, len b). *)
Fixpoint skip_spaces_from (i : nat) (b : bytes) : bytes * nat :=
  match b with
  | [] => ([], 0%nat)
  | c :: b' => if is_space c then skip_spaces_from (S i) b' else (b, i)
  end.
(** parse.go:25-34 skipSpacesN *)
Definition skip_spaces_n (b : bytes) : bytes * nat := skip_spaces_from 0 b.
(** parse.go:20-23 skipSpaces *)
Definition skip_spaces (b : bytes) : bytes := fst (skip_spaces_n b).

(** [for i < len(b) && '0' <= b[i] && b[i] <= '9' { i++ }]; an index [i] into
    [b] is modelled by the suffix b[i:]. *)
(** parse.go:306-308, 315-325, 349-359 *)
Fixpoint skip_digits (b : bytes) : bytes :=
  match b with
  | c :: b' => if is_digit c then skip_digits b' else b
  | [] => []
  end.

(** v, r = b[:i], b[i:] for the suffix r of b *)
(** parse.go:271-672 *)
Definition upto (b r : bytes) : bytes := firstn (length b - length r) b.

(** parse.go:332-362, exponent part of parseNumber; [s] is b[i:].  NB: the
    "expected digit" error (352-353) returns the never-assigned r = nil. *)
Definition parse_exp (b s : bytes) : pres :=
  match s with
  | c :: s1 =>
      if (c =? ce) || (c =? cE) then
        let s2 := match s1 with
                  | c1 :: s2 => if (c1 =? cPLUS) || (c1 =? cMINUS) then s2 else s1
                  | [] => s1
                  end in
        match s2 with
        | [] => PErr [] ESyntax
        | c2 :: _ => if is_digit c2
                     then let r := skip_digits s2 in POk (upto b r) r
                     else PErr [] ESyntax
        end
      else POk (upto b s) s
  | [] => POk (upto b s) s
  end.

(** parse.go:310-330, decimal part of parseNumber *)
Definition parse_frac (b s : bytes) : pres :=
  match s with
  | c :: s1 =>
      if c =? cDOT then
        match s1 with
        | [] => PErr [] ESyntax
        | c1 :: _ => if is_digit c1 then parse_exp b (skip_digits s1) else PErr s1 ESyntax
        end
      else parse_exp b s
  | [] => parse_exp b s
  end.

(** parse.go:271-363 parseNumber *)
Definition parse_number (b : bytes) : pres :=
  match b with
  | [] => PErr [] ESyntax
  | c :: b1 =>
      let s := if c =? cMINUS then b1 else b in
      match s with
      | [] => PErr [] ESyntax
      | d :: s1 =>
          if negb (is_digit d) then PErr s ESyntax
          else if d =? c0 then
            match s1 with
            | [] => POk (upto b s1) s1
            | x :: _ =>
                if negb (x =? cDOT) && negb (x =? ce) && negb (x =? cE)
                then POk (upto b s1) s1
                else if is_digit x then PErr s1 ESyntax
                else parse_frac b (skip_digits s1)
            end
          else parse_frac b (skip_digits s)
      end
  end.

(** parse.go:241-249, 251-259, 261-269: parseNull, parseTrue, parseFalse *)
Definition parse_lit (lit b : bytes) : pres :=
  if has_prefix b lit then POk (firstn (length lit) b) (skipn (length lit) b)
  else if Nat.ltb (length b) (length lit) then PErr [] ESyntax
  else PErr b ESyntax.
(** parse.go:241 *)
Definition lit_null : bytes := [110; 117; 108; 108].
(** parse.go:251 *)
Definition lit_true : bytes := [116; 114; 117; 101].
(** parse.go:261 *)
Definition lit_false : bytes := [102; 97; 108; 115; 101].
(** parse.go:241-249 parseNull *)
Definition parse_null := parse_lit lit_null.
(** parse.go:251-259 parseTrue *)
Definition parse_true := parse_lit lit_true.
(** parse.go:261-269 parseFalse *)
Definition parse_false := parse_lit lit_false.
(** parse.go:674-684 *)
Definition has_null_prefix (b : bytes) : bool := has_prefix b lit_null.
(** parse.go:678-680 *)
Definition has_true_prefix (b : bytes) : bool := has_prefix b lit_true.
(** parse.go:682-684 *)
Definition has_false_prefix (b : bytes) : bool := has_prefix b lit_false.

(** parse.go:209-224, value of one hexadecimal digit *)
Definition hex_val (d : Z) : option Z :=
  if (48 <=? d) && (d <=? 57) then Some (d - 48)
  else if (65 <=? d) && (d <=? 70) then Some (d - 65 + 10)
  else if (97 <=? d) && (d <=? 102) then Some (d - 97 + 10)
  else None.

(** parse.go:194-239 parseUintHex; [first] is i == 0.  None is an error. *)
Fixpoint parse_uint_hex_loop (first : bool) (value : Z) (b : bytes) : option (Z * bytes) :=
  match b with
  | [] => Some (value, [])
  | d :: b' =>
      match hex_val d with
      | None => if first then None else Some (value, b)
      | Some x =>
          if value >? (2 ^ 64 - 1) / 16 then None
          else let value := wrap64 (value * 16) in
               if value >? wrap64 (2 ^ 64 - 1 - x) then None
               else parse_uint_hex_loop false (wrap64 (value + x)) b'
      end
  end.
(** parse.go:194-239 parseUintHex *)
Definition parse_uint_hex (b : bytes) : option (Z * bytes) :=
  match b with [] => None | _ => parse_uint_hex_loop true 0 b end.

(** parse.go:365-380 parseUnicode (the width is always 4); None is an error *)
Definition parse_unicode (b : bytes) : option Z :=
  if Nat.ltb (length b) 4 then None
  else match parse_uint_hex (firstn 4 b) with
       | Some (u, []) => Some u
       | _ => None
       end.

(** parse.go:403 *)
Definition is_simple_escape (c : Z) : bool :=
  (c =? 34) || (c =? 92) || (c =? 47) || (c =? 110) || (c =? 114) || (c =? 116) || (c =? 102) || (c =? 98).

(** parse.go:398-425, slow loop of parseStringFast over b[i:].
    [SLEnd r]: closing quote found, r follows it.  [SLBad]: an error that
    returns the whole input as remainder.  [SLMissing]: input exhausted. *)
Inductive sloop := SLEnd (r : bytes) | SLBad | SLMissing.
(** parse.go:398-425 *)
Fixpoint string_loop (s : bytes) : sloop :=
  match s with
  | [] => SLMissing
  | c :: s1 =>
      if c =? cBSLASH then
        match s1 with
        | [] => SLMissing
        | e :: s2 =>
            if is_simple_escape e then string_loop s2
            else if e =? cu then
              match s2 with
              | _ :: _ :: _ :: _ :: s3 =>
                  match parse_unicode s2 with
                  | Some _ => string_loop s3
                  | None => SLBad
                  end
              | _ => SLBad    (* parseUnicode: fewer than 4 characters *)
              end
            else SLBad
        end
      else if c =? cQUOTE then SLEnd s1
      else if c <? 0x20 then SLBad
      else string_loop s1
  end.

(** parse.go:382-426 parseStringFast: the bool is the third result. *)
Inductive sres := SOk (v r : bytes) (escaped : bool) | SErr (r : bytes) (e : err).
(** parse.go:382-426 parseStringFast *)
Definition parse_string_fast (b : bytes) : sres :=
  match b with
  | [] | [_] => SErr [] ESyntax
  | c :: b1 =>
      if negb (c =? cQUOTE) then SErr b ESyntax
      else match index_byte cQUOTE b1 with
           | None => SErr [] ESyntax
           | Some k =>
               let n := (k + 2)%nat in
               let body := firstn (k + 1) b1 in     (* b[1:n] *)
               match index_byte cBSLASH body, ascii_valid_print body with
               | None, true => SOk (firstn n b) (skipn n b) false
               | _, _ =>
                   match string_loop b1 with
                   | SLEnd r => SOk (upto b r) r true
                   | SLBad => SErr b ESyntax
                   | SLMissing => SErr [] ESyntax
                   end
               end
           end
  end.

(** parse.go:428-431 parseString *)
Definition parse_string (b : bytes) : pres :=
  match parse_string_fast b with SOk v r _ => POk v r | SErr r e => PErr r e end.

(** parse.go:516-520 appendRune *)
Definition append_rune (b : bytes) (r : Z) : bytes := b ++ encode_rune r.
(** parse.go:522-530 appendCoerceInvalidUTF8 *)
Definition append_coerce (b s : bytes) : bytes := b ++ flat_map encode_rune (runes s).

(** parse.go:449-513, the unescaping loop of parseStringUnquote (fuel: length
    of [s]).  None is an error return; UPanic is the run-time panic of [s[0]]
    on an empty slice (460). *)
Inductive ures := UOk (r : bytes) | UErr | UPanic | UFuel.
(** parse.go:449-513 *)
Fixpoint unquote_loop (n : nat) (s r : bytes) : ures :=
  match s with
  | [] => UOk r
  | _ =>
    match n with
    | O => UFuel
    | S n' =>
      match index_byte cBSLASH s with
      | None => UOk (append_coerce r s)
      | Some i =>
          let r := append_coerce r (firstn i s) in
          match skipn (S i) s with
          | [] => UPanic
          | c :: s1 =>
              if (c =? 34) || (c =? 92) || (c =? 47) then unquote_loop n' s1 (r ++ [c])
              else if c =? cn then unquote_loop n' s1 (r ++ [10])
              else if c =? cr_ then unquote_loop n' s1 (r ++ [13])
              else if c =? ct then unquote_loop n' s1 (r ++ [9])
              else if c =? cb then unquote_loop n' s1 (r ++ [8])
              else if c =? cf then unquote_loop n' s1 (r ++ [12])
              else if c =? cu then
                match parse_unicode s1 with
                | None => UErr
                | Some r1 =>
                    let s2 := skipn 4 s1 in
                    if is_surrogate r1 then
                      if negb (has_prefix s2 [92; 117]) then
                        unquote_loop n' s2 (append_rune r runeError)
                      else
                        match parse_unicode (skipn 2 s2) with
                        | None => UErr
                        | Some r2 =>
                            let r1 := utf16_decode r1 r2 in
                            let s3 := if r1 =? runeError then s2 else skipn 6 s2 in
                            unquote_loop n' s3 (append_rune r r1)
                        end
                    else unquote_loop n' s2 (append_rune r r1)
                end
              else UErr
          end
      end
    end
  end.

(** parse.go:433-514 parseStringUnquote(b, r).  [QOk s rest isNew]. *)
Inductive qres := QOk (s rest : bytes) (isNew : bool) | QErr (rest : bytes) (e : err) | QPanic | QFuel.
(** parse.go:433-514 parseStringUnquote *)
Definition parse_string_unquote (b r : bytes) : qres :=
  match parse_string_fast b with
  | SErr rest e => QErr rest e
  | SOk v rest escaped =>
      let s := firstn (length v - 2) (skipn 1 v) in      (* s[1 : len(s)-1] *)
      if negb escaped then QOk s rest false
      else match unquote_loop (length s) s r with
           | UOk u => QOk u rest true
           | UErr => QErr rest ESyntax
           | UPanic => QPanic
           | UFuel => QFuel
           end
  end.

(** parse.go:650-672 parseValue, 532-596 parseObject, 598-648 parseArray.
    [n] is fuel.  In the loops [a] is the slice the function was called with
    (so j = len a - len b + 1) and [first] is i == 0. *)
Definition close_at (a b : bytes) : pres :=
  let j := (length a - length b + 1)%nat in POk (firstn j a) (skipn j a).

(** parse.go:650-672 and token.go:148-163 *)
Definition is_num_start (c : Z) : bool := (c =? cMINUS) || is_digit c.

(** parse.go:532-672 *)
Fixpoint parse_value (n : nat) (b : bytes) {struct n} : pres :=
  match n with
  | O => PErr b EFuel
  | S n' =>
    match b with
    | [] => PErr [] ESyntax
    | c :: b1 =>
        if c =? cLBRACE then
          (* parseObject *)
          if Nat.ltb (length b) 2 then PErr [] ESyntax else object_loop n' true b b1
        else if c =? cLBRACK then
          (* parseArray *)
          if Nat.ltb (length b) 2 then PErr [] ESyntax else array_loop n' true b b1
        else if c =? cQUOTE then parse_string b
        else if c =? cn then parse_null b
        else if c =? ct then parse_true b
        else if c =? cf then parse_false b
        else if is_num_start c then parse_number b
        else PErr b ESyntax
    end
  end
with object_loop (n : nat) (first : bool) (a b : bytes) {struct n} : pres :=
  match n with
  | O => PErr b EFuel
  | S n' =>
    let b := skip_spaces b in
    match b with
    | [] => PErr [] ESyntax
    | c :: b1 =>
        if c =? cRBRACE then close_at a b
        else
          let k (b : bytes) : pres :=      (* parse.go:575-594 *)
            match parse_string b with
            | PErr r e => PErr r e
            | POk _ b =>
                match skip_spaces b with
                | [] => PErr [] ESyntax
                | c :: b1 =>
                    if negb (c =? cCOLON) then PErr (c :: b1) ESyntax
                    else match parse_value n' (skip_spaces b1) with
                         | PErr r e => PErr r e
                         | POk _ b => object_loop n' false a b
                         end
                end
            end in
          if first then k b
          else if negb (c =? cCOMMA) then PErr b ESyntax
          else match skip_spaces b1 with
               | [] => PErr [] ESyntax
               | c2 :: b2 => if c2 =? cRBRACE then PErr (c2 :: b2) ESyntax else k (c2 :: b2)
               end
    end
  end
with array_loop (n : nat) (first : bool) (a b : bytes) {struct n} : pres :=
  match n with
  | O => PErr b EFuel
  | S n' =>
    let b := skip_spaces b in
    match b with
    | [] => PErr [] ESyntax
    | c :: b1 =>
        if c =? cRBRACK then close_at a b
        else
          let k (b : bytes) : pres :=      (* parse.go:641-646 *)
            match parse_value n' b with
            | PErr r e => PErr r e
            | POk _ b => array_loop n' false a b
            end in
          if first then k b
          else if negb (c =? cCOMMA) then PErr b ESyntax
          else match skip_spaces b1 with
               | [] => PErr [] ESyntax
               | c2 :: b2 => if c2 =? cRBRACK then PErr (c2 :: b2) ESyntax else k (c2 :: b2)
               end
    end
  end.

(** Fuel that always suffices (proved in ParseFacts.v). *)
(** bounds the recursion of parse.go:532-672 *)
Definition parse_fuel (b : bytes) : nat := (2 * length b + 2)%nat.
(** parse.go:650-672 parseValue *)
Definition parseValue (b : bytes) : pres := parse_value (parse_fuel b) b.

(** json.go:235-241 Valid *)
Definition Valid (data : bytes) : bool :=
  match parseValue (skip_spaces data) with
  | PErr _ _ => false
  | POk _ r => match skip_spaces r with [] => true | _ => false end
  end.

(** codec.go:972-981 inputError: the remainder and the error *)
Definition input_error (b : bytes) : bytes * err :=
  match b with
  | [] => ([], ESyntax)
  | _ => match parseValue b with
         | PErr r e => (r, e)
         | POk _ r => (skip_spaces r, EType)
         end
  end.

(** Result of parseInt/parseUint *)
(** the results of parse.go:44-184 *)
Inductive ires := IOk (v : Z) (r : bytes) | IErr (r : bytes) (e : err).

(** The digit loops of parse.go:64-86, 97-117 and 150-170.  [LOk v count]. *)
Inductive lres := LOk (v : Z) (count : nat) | LInput | LOverflow.

(** parse.go:53 *)
Definition minI64 : Z := - 2 ^ 63.
(** parse.go:90 *)
Definition maxI64 : Z := 2 ^ 63 - 1.
(** parse.go:136 *)
Definition maxU64 : Z := 2 ^ 64 - 1.

(** parse.go:64-86 (Go's constant division truncates toward zero: Z.quot) *)
Fixpoint neg_loop (value : Z) (count : nat) (b : bytes) : lres :=
  match b with
  | [] => LOk value count
  | d :: b' =>
      if negb (is_digit d) then (if Nat.eqb count 0 then LInput else LOk value count)
      else if value <? Z.quot minI64 10 then LOverflow
      else let value := sw64 (value * 10) in
           let x := d - 48 in
           if value <? sw64 (minI64 + x) then LOverflow
           else neg_loop (sw64 (value - x)) (S count) b'
  end.
(** parse.go:97-117 *)
Fixpoint pos_loop (value : Z) (count : nat) (b : bytes) : lres :=
  match b with
  | [] => LOk value count
  | d :: b' =>
      if negb (is_digit d) then (if Nat.eqb count 0 then LInput else LOk value count)
      else let x := d - 48 in
           if value >? Z.quot maxI64 10 then LOverflow
           else let value := sw64 (value * 10) in
                if value >? sw64 (maxI64 - x) then LOverflow
                else pos_loop (sw64 (value + x)) (S count) b'
  end.
(** parse.go:150-170 *)
Fixpoint uint_loop (value : Z) (count : nat) (b : bytes) : lres :=
  match b with
  | [] => LOk value count
  | d :: b' =>
      if negb (is_digit d) then (if Nat.eqb count 0 then LInput else LOk value count)
      else let x := d - 48 in
           if value >? maxU64 / 10 then LOverflow
           else let value := wrap64 (value * 10) in
                if value >? wrap64 (maxU64 - x) then LOverflow
                else uint_loop (wrap64 (value + x)) (S count) b'
  end.

(** b[0] == '0' && '0' <= b[1] <= '9' with the length guard: parse.go:60 (on
    b[1:]), 93, 146 *)
Definition leading_zero (b : bytes) : bool :=
  match b with
  | z :: d :: _ => (z =? c0) && is_digit d
  | _ => false
  end.

(** parse.go:120-131 and 172-183 *)
Definition int_finish (b : bytes) (value : Z) (count : nat) : ires :=
  match skipn count b with
  | (c :: _) as rest =>
      if (c =? cDOT) || (c =? ce) || (c =? cE) then
        match parse_number b with
        | POk _ r => IErr r EType
        | PErr _ _ => IErr (skipn (count + 1) b) EType
        end
      else IOk value rest
  | [] => IOk value []
  end.

(** parse.go:44-132 parseInt *)
Definition parse_int (b : bytes) : ires :=
  match b with
  | [] => IErr [] ESyntax
  | c :: b1 =>
      if c =? cMINUS then
        match b1 with
        | [] => IErr b ESyntax
        | _ =>
            if leading_zero b1 then IErr b ESyntax
            else match neg_loop 0 0 b1 with
                 | LInput => let '(r, e) := input_error b in IErr r e
                 | LOverflow => IErr b EType
                 | LOk v count => int_finish b v (S count)
                 end
        end
      else if leading_zero b then IErr b ESyntax
      else match pos_loop 0 0 b with
           | LInput => let '(r, e) := input_error b in IErr r e
           | LOverflow => IErr b EType
           | LOk v count => int_finish b v count
           end
  end.

(** parse.go:135-184 parseUint *)
Definition parse_uint (b : bytes) : ires :=
  match b with
  | [] => IErr [] ESyntax
  | _ =>
      if leading_zero b then IErr b ESyntax
      else match uint_loop 0 0 b with
           | LInput => let '(r, e) := input_error b in IErr r e
           | LOverflow => IErr b EType
           | LOk v count => int_finish b v count
           end
  end.
