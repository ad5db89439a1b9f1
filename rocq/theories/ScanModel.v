(** Model of Compact, HTMLEscape and Indent of /repo/json.go:145-157.  They are
    calls of functions of the same names of encoding/json (version 1, as of
    go 1.25 of /repo/go.mod:3), which are modelled here with the scanner they
    use; /repo has no copy of that code.  Simplified: texts of errors are left
    out, and the buffer dst is its contents.  All definitions below are of
    library functions used at json.go:145-157; scanner.go and indent.go are
    files of encoding/json. *)
From Verif Require Import Bytes ParseModel StringModel.

(** scanner.go: parseState: what the innermost open bracket waits for. *)
Inductive pstate := PKey | PVal | PArr.
(** scanner.go: the step function; SU k: k hexadecimal digits of an escape are
    missing (stateInStringEscU, ...U1, ...U12, ...U123); SLit w: the letters w of
    a literal are missing (stateT, stateTr, ..., stateNul). *)
Inductive sstate :=
| SBeginValue | SBeginValueOrEmpty | SBeginString | SBeginStringOrEmpty | SEndValue | SEndTop
| SInString | SEsc | SU (k : nat) | SNeg | S1 | S0 | SDot | SDot0 | SE | SESign | SE0 | SLit (w : bytes) | SError.
(** scanner.go: scanContinue etc. (all those that Indent and Compact tell apart;
    [OBegin] is scanBeginLiteral, scanBeginObject, scanBeginArray, scanObjectKey,
    scanObjectValue and scanArrayValue, [OClose] scanEndObject and scanEndArray). *)
Inductive scode := OContinue | OBegin | OClose | OSkipSpace | OEnd | OError.
(** scanner.go: scanner, without bytes; s_err says whether err is set. *)
Record scanner := Scanner { s_step : sstate; s_stack : list pstate; s_end : bool; s_err : bool }.

(** scanner.go: maxNestingDepth. *)
Definition max_nesting : Z := 10000.
(** scanner.go: isSpace. *)
Definition sc_space (c : Z) : bool := (c =? 32) || (c =? 9) || (c =? 10) || (c =? 13).
(** scanner.go: the digits of state1, stateDot, stateE0. *)
Definition sc_digit (c : Z) : bool := (48 <=? c) && (c <=? 57).
(** scanner.go: stateInStringEscU and the three after it. *)
Definition sc_hex (c : Z) : bool := sc_digit c || (97 <=? c) && (c <=? 102) || (65 <=? c) && (c <=? 70).

(** scanner.go: reset. *)
Definition sc_new : scanner := Scanner SBeginValue [] false false.
(** scanner.go: s.step = q and a return of o. *)
Definition sc_to (s : scanner) (q : sstate) (o : scode) : scanner * scode := (Scanner q (s_stack s) (s_end s) (s_err s), o).
(** scanner.go: error. *)
Definition sc_error (s : scanner) : scanner * scode := (Scanner SError (s_stack s) (s_end s) true, OError).
(** scanner.go: pushParseState; the step has been set before. *)
Definition sc_push (s : scanner) (q : sstate) (p : pstate) : scanner * scode :=
  let s' := Scanner q (p :: s_stack s) (s_end s) (s_err s) in
  if Z.of_nat (length (s_stack s')) <=? max_nesting then (s', OBegin) else sc_error s'.
(** scanner.go: popParseState. *)
Definition sc_pop (s : scanner) (st : list pstate) : scanner :=
  match st with
  | [] => Scanner SEndTop [] true (s_err s)
  | _ => Scanner SEndValue st (s_end s) (s_err s)
  end.
(** scanner.go: stateEndTop; NB the code is scanEnd also after an error. *)
Definition sc_end_top (s : scanner) (c : Z) : scanner * scode :=
  if sc_space c then (s, OEnd) else (fst (sc_error s), OEnd).
(** scanner.go: stateEndValue. *)
Definition sc_end_value (s : scanner) (c : Z) : scanner * scode :=
  match s_stack s with
  | [] => sc_end_top (Scanner SEndTop [] true (s_err s)) c
  | p :: st =>
      if sc_space c then sc_to s SEndValue OSkipSpace
      else match p with
           | PKey => if c =? 58 then (Scanner SBeginValue (PVal :: st) (s_end s) (s_err s), OBegin) else sc_error s
           | PVal => if c =? 44 then (Scanner SBeginString (PKey :: st) (s_end s) (s_err s), OBegin)
                     else if c =? 125 then (sc_pop s st, OClose) else sc_error s
           | PArr => if c =? 44 then sc_to s SBeginValue OBegin
                     else if c =? 93 then (sc_pop s st, OClose) else sc_error s
           end
  end.
(** scanner.go: stateBeginValue. *)
Definition sc_begin_value (s : scanner) (c : Z) : scanner * scode :=
  if sc_space c then (s, OSkipSpace)
  else if c =? 123 then sc_push s SBeginStringOrEmpty PKey
  else if c =? 91 then sc_push s SBeginValueOrEmpty PArr
  else if c =? 34 then sc_to s SInString OBegin
  else if c =? 45 then sc_to s SNeg OBegin
  else if c =? 48 then sc_to s S0 OBegin
  else if c =? 116 then sc_to s (SLit (bs "rue")) OBegin
  else if c =? 102 then sc_to s (SLit (bs "alse")) OBegin
  else if c =? 110 then sc_to s (SLit (bs "ull")) OBegin
  else if (49 <=? c) && (c <=? 57) then sc_to s S1 OBegin
  else sc_error s.
(** scanner.go: stateBeginString. *)
Definition sc_begin_string (s : scanner) (c : Z) : scanner * scode :=
  if sc_space c then (s, OSkipSpace) else if c =? 34 then sc_to s SInString OBegin else sc_error s.
(** scanner.go: state0, state1, stateDot0, stateE, stateESign, stateE0. *)
Definition sc_exp (s : scanner) (c : Z) : scanner * scode := if (c =? 101) || (c =? 69) then sc_to s SE OContinue else sc_end_value s c.
(** scanner.go: state0. *)
Definition sc_0 (s : scanner) (c : Z) : scanner * scode := if c =? 46 then sc_to s SDot OContinue else sc_exp s c.
(** scanner.go: stateESign. *)
Definition sc_esign (s : scanner) (c : Z) : scanner * scode := if sc_digit c then sc_to s SE0 OContinue else sc_error s.

(** scanner.go: s.step(s, c). *)
Definition sc_step (s : scanner) (c : Z) : scanner * scode :=
  match s_step s with
  | SBeginValueOrEmpty => if sc_space c then (s, OSkipSpace) else if c =? 93 then sc_end_value s c else sc_begin_value s c
  | SBeginValue => sc_begin_value s c
  | SBeginStringOrEmpty =>
      if sc_space c then (s, OSkipSpace)
      else if c =? 125 then sc_end_value (Scanner (s_step s) (match s_stack s with [] => [] | _ :: st => PVal :: st end) (s_end s) (s_err s)) c
      else sc_begin_string s c
  | SBeginString => sc_begin_string s c
  | SEndValue => sc_end_value s c
  | SEndTop => sc_end_top s c
  | SInString =>
      if c =? 34 then sc_to s SEndValue OContinue
      else if c =? 92 then sc_to s SEsc OContinue
      else if c <? 32 then sc_error s else (s, OContinue)
  | SEsc =>
      if existsb (Z.eqb c) [98; 102; 110; 114; 116; 92; 47; 34] then sc_to s SInString OContinue
      else if c =? 117 then sc_to s (SU 4) OContinue else sc_error s
  | SU k => if sc_hex c then sc_to s (match k with Datatypes.S (Datatypes.S k') => SU (Datatypes.S k') | _ => SInString end) OContinue else sc_error s
  | SNeg => if c =? 48 then sc_to s S0 OContinue else if (49 <=? c) && (c <=? 57) then sc_to s S1 OContinue else sc_error s
  | S1 => if sc_digit c then sc_to s S1 OContinue else sc_0 s c
  | S0 => sc_0 s c
  | SDot => if sc_digit c then sc_to s SDot0 OContinue else sc_error s
  | SDot0 => if sc_digit c then sc_to s SDot0 OContinue else sc_exp s c
  | SE => if (c =? 43) || (c =? 45) then sc_to s SESign OContinue else sc_esign s c
  | SESign => sc_esign s c
  | SE0 => if sc_digit c then (s, OContinue) else sc_end_value s c
  | SLit w =>
      match w with
      | x :: w' => if c =? x then sc_to s (match w' with [] => SEndValue | _ => SLit w' end) OContinue else sc_error s
      | [] => sc_error s
      end
  | SError => (s, OError)
  end.
(** scanner.go: eof; true unless scanError. *)
Definition sc_eof (s : scanner) : bool :=
  if s_err s then false else s_end s || s_end (fst (sc_step s 32)).

(** indent.go: appendNewline. *)
Definition in_newline (prefix indent : bytes) (d : Z) : bytes := 10 :: prefix ++ concat (repeat indent (Z.to_nat d)).
(** indent.go: appendIndent, the loop; the scanner at its end and the output. *)
Fixpoint in_loop (prefix indent : bytes) (s : scanner) (need : bool) (d : Z) (src dst : bytes) : scanner * bytes :=
  match src with
  | [] => (s, dst)
  | c :: src' =>
      match sc_step s c with
      | (s', OSkipSpace) => in_loop prefix indent s' need d src' dst
      | (s', OError) => (s', dst)
      | (s', v) =>
          let opens := need && match v with OClose => false | _ => true end in
          let d := if opens then d + 1 else d in
          let dst := if opens then dst ++ in_newline prefix indent d else dst in
          let need := need && negb opens in
          match v with
          | OContinue => in_loop prefix indent s' need d src' (dst ++ [c])
          | _ =>
              if (c =? 123) || (c =? 91) then in_loop prefix indent s' true d src' (dst ++ [c])
              else if c =? 44 then in_loop prefix indent s' need d src' ((dst ++ [c]) ++ in_newline prefix indent d)
              else if c =? 58 then in_loop prefix indent s' need d src' (dst ++ [c; 32])
              else if (c =? 125) || (c =? 93) then
                if need then in_loop prefix indent s' false d src' (dst ++ [c])
                else in_loop prefix indent s' need (d - 1) src' ((dst ++ in_newline prefix indent (d - 1)) ++ [c])
              else in_loop prefix indent s' need d src' (dst ++ [c])
          end
      end
  end.
(** json.go:155-157 Indent: what is appended to dst; None is an error (and
    nothing is appended). *)
Definition go_indent (prefix indent src : bytes) : option bytes :=
  let (s, dst) := in_loop prefix indent sc_new false 0 src [] in
  if sc_eof s then Some dst else None.

(** indent.go: appendCompact without escape, the loop; pend is src[start:i]. *)
Fixpoint co_loop (s : scanner) (src pend dst : bytes) : scanner * bytes * bytes :=
  match src with
  | [] => (s, pend, dst)
  | c :: src' =>
      match sc_step s c with
      | (s', OError) => (s', pend, dst)
      | (s', OSkipSpace) | (s', OEnd) => co_loop s' src' [] (dst ++ pend)
      | (s', _) => co_loop s' src' (pend ++ [c]) dst
      end
  end.
(** json.go:145-147 Compact. *)
Definition go_compact (src : bytes) : option bytes :=
  match co_loop sc_new src [] [] with (s, pend, dst) => if sc_eof s then Some (dst ++ pend) else None end.

(** indent.go: appendHTMLEscape; skip counts the bytes of U+2028 or U+2029 that
    are left out; pend is src[start:i]. *)
Fixpoint he_loop (skip : nat) (src pend dst : bytes) : bytes :=
  match src with
  | [] => dst ++ pend
  | c :: src' =>
      match skip with
      | Datatypes.S k => he_loop k src' pend dst
      | O =>
          if (c =? 60) || (c =? 62) || (c =? 38) then he_loop 0 src' [] ((dst ++ pend) ++ u00 c)
          else match src' with
               | a :: b :: _ =>
                   if (c =? 0xE2) && (a =? 0x80) && (Z.land b 0xFE =? 0xA8)
                   then he_loop 2 src' [] ((dst ++ pend) ++ u202 b)
                   else he_loop 0 src' (pend ++ [c]) dst
               | _ => he_loop 0 src' (pend ++ [c]) dst
               end
      end
  end.
(** json.go:150-152 HTMLEscape. *)
Definition go_html_escape (src : bytes) : bytes := he_loop 0 src [] [].
