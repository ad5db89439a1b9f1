(** Model of /repo/encode.go and /repo/jsoncolor.go: the encoders, over a
    universe of Go values. *)
From Verif Require Import Bytes Utf8Model ParseModel StringModel IntModel TokenModel.

(** jsoncolor.go:9-66: type Colors *)
Record colors := Colors {
  c_null : bytes; c_bool : bytes; c_number : bytes; c_string : bytes; c_key : bytes;
  c_bytes : bytes; c_time : bytes; c_punc : bytes; c_brackets : bytes; c_braces : bytes;
  c_comma : bytes; c_colon : bytes; c_textm : bytes }.

(** jsoncolor.go:170 *)
Definition ansi_reset : bytes := [27; 91; 48; 109].

(** jsoncolor.go:175-191 DefaultColors *)
Definition default_colors : colors :=
  Colors [27; 91; 50; 109] [27; 91; 49; 109] [27; 91; 51; 54; 109] [27; 91; 51; 50; 109]
         [27; 91; 51; 52; 59; 49; 109] [27; 91; 50; 109] [27; 91; 51; 50; 59; 50; 109]
         [] [] [] [] [] [27; 91; 51; 50; 109].

(** encode.go:1126-1131, without the depth, which is threaded separately *)
Record indenter := Indenter { i_disabled : bool; i_prefix : bytes; i_indent : bytes }.
(** encode.go:1139-1145 NewIndenter (depth 0) *)
Definition new_indenter (prefix indent : bytes) : indenter :=
  Indenter (match prefix, indent with [], [] => true | _, _ => false end) prefix indent.

(** codec.go:23-27: type encoder; the flags of json.go:52-67 as booleans.
    [e_stdindent prefix indent s] stands for the standard library's
    json.Indent (json.go:155-157); None is an error. *)
Record cfg := Cfg {
  e_html : bool; e_sort : bool; e_trust : bool;
  e_clrs : option colors;
  e_ind : option indenter;
  e_stdindent : bytes -> bytes -> bytes -> option bytes }.

(** Result of an encodeFunc: the buffer, the indenter depth, the error; or a
    run-time panic. *)
(** codec.go:30-33 encodeFunc *)
Inductive eres := ER (b : bytes) (d : Z) (e : option err) | EPanic.
(** codec.go:30-33 encodeFunc *)
Definition encf := bytes -> Z -> eres.

(** jsoncolor.go:140-157 puncColor *)
Definition punc_color (c : colors) (v : Z) : bytes :=
  let clr := if (v =? 91) || (v =? 93) then c_brackets c
             else if (v =? 123) || (v =? 125) then c_braces c
             else if v =? 44 then c_comma c
             else if v =? 58 then c_colon c
             else [] in
  match clr with [] => c_punc c | _ => clr end.

(** jsoncolor.go:125-133 appendPunc *)
Definition append_punc (clrs : option colors) (b : bytes) (v : Z) : bytes :=
  match clrs with
  | None => b ++ [v]
  | Some c => ((b ++ punc_color c v) ++ [v]) ++ ansi_reset
  end.
(** jsoncolor.go:69-77 appendNull *)
Definition append_null (clrs : option colors) (b : bytes) : bytes :=
  match clrs with
  | None => b ++ lit_null
  | Some c => ((b ++ c_null c) ++ lit_null) ++ ansi_reset
  end.
(** jsoncolor.go:80-97 appendBool *)
Definition append_bool (clrs : option colors) (b : bytes) (v : bool) : bytes :=
  match clrs with
  | None => if v then b ++ lit_true else b ++ lit_false
  | Some c => let b := b ++ c_bool c in
              let b := if v then b ++ lit_true else b ++ lit_false in
              b ++ ansi_reset
  end.
(** jsoncolor.go:100-108 appendInt64, 111-119 appendUint64 *)
Definition append_int (clrs : option colors) (b : bytes) (v : Z) : bytes :=
  match clrs with
  | None => b ++ itoa v
  | Some c => ((b ++ c_number c) ++ itoa v) ++ ansi_reset
  end.

(** encode.go:1148-1159 push, pop: no-ops on a nil Indenter *)
Definition in_push (c : cfg) (d : Z) : Z := match e_ind c with None => d | Some _ => d + 1 end.
(** encode.go:1155-1159 pop *)
Definition in_pop (c : cfg) (d : Z) : Z := match e_ind c with None => d | Some _ => d - 1 end.
(** encode.go:1163-1169 appendByte *)
Definition in_byte (c : cfg) (b : bytes) (a : Z) : bytes :=
  match e_ind c with
  | None => b
  | Some i => if i_disabled i then b else b ++ [a]
  end.
(** encode.go:1173-1183 appendIndent *)
Fixpoint repeat_app (n : nat) (b s : bytes) : bytes :=
  match n with O => b | S n' => repeat_app n' (b ++ s) s end.
(** encode.go:1173-1183 appendIndent *)
Definition in_indent (c : cfg) (b : bytes) (d : Z) : bytes :=
  match e_ind c with
  | None => b
  | Some i => if i_disabled i then b else repeat_app (Z.to_nat d) (b ++ i_prefix i) (i_indent i)
  end.

(** Floating-point values by their shortest decimal digits, which is what
    strconv.AppendFloat(..., -1, bits) formats (contract of the standard
    library): the value is 0.DIGITS * 10^dp.  float32 and float64 differ only
    in the digits. *)
(** the floats of encode.go:96-130 *)
Inductive fl := FNaN | FInf (neg : bool) | FZero (neg : bool) | FFin (neg : bool) (digits : bytes) (dp : Z).

(** strconv.AppendFloat(b, f, 'f', -1, bits): digits padded with zeros *)
(** library function used at encode.go:96-130, format 'f' *)
Definition fmt_f (neg : bool) (ds : bytes) (dp : Z) : bytes :=
  (if neg then [45] else []) ++
  (if 0 <? dp then firstn (Z.to_nat dp) ds ++ repeat 48 (Z.to_nat dp - length ds) else [48]) ++
  (if dp <? Z.of_nat (length ds)
   then 46 :: repeat 48 (Z.to_nat (- dp)) ++ skipn (Z.to_nat dp) ds
   else []).
(** strconv.AppendFloat(b, f, 'e', -1, bits): d.ddde+XX, at least two
    exponent digits *)
(** library function used at encode.go:96-130, format 'e' *)
Definition fmt_e (neg : bool) (ds : bytes) (dp : Z) : bytes :=
  (if neg then [45] else []) ++ firstn 1 ds ++
  match skipn 1 ds with [] => [] | t => 46 :: t end ++
  let x := dp - 1 in
  101 :: (if x <? 0 then 45 else 43) :: (if Z.abs x <? 10 then [48] else []) ++ utoa (Z.abs x).

(** encode.go:120-127: clean up e-09 to e-9, on the whole buffer *)
Definition clean_exp (b : bytes) : bytes :=
  let n := length b in
  if Nat.leb 4 n && (nth (n - 4) b 0 =? 101) && (nth (n - 3) b 0 =? 45) && (nth (n - 2) b 0 =? 48)
  then firstn (n - 2) b ++ [nth (n - 1) b 0] else b.

(** encode.go:96-130 encodeFloat.  abs < 1e-6 iff dp < -5 and abs >= 1e21 iff
    dp > 21 because shortest digits are monotone and 1e-6, 1e21 are their own
    shortest form. *)
Definition encode_float (b : bytes) (f : fl) : bytes * option err :=
  match f with
  | FNaN | FInf _ => (b, Some EUnsupportedValue)
  | FZero neg => (b ++ fmt_f neg [] 0, None)
  | FFin neg ds dp =>
      if (dp <? -5) || (21 <? dp) then (clean_exp (b ++ fmt_e neg ds dp), None)
      else (b ++ fmt_f neg ds dp, None)
  end.
(** encode.go:72-82 encodeFloat32, 84-94 encodeFloat64 *)
Definition encode_float_c (c : cfg) (f : fl) : encf := fun b d =>
  match e_clrs c with
  | None => let '(b, e) := encode_float b f in ER b d e
  | Some k => let '(b, e) := encode_float (b ++ c_number k) f in ER (b ++ ansi_reset) d e
  end.

(** encode.go:132-151 encodeNumber.  NB: the remainder of parseNumber is
    ignored (138). *)
Definition encode_number (c : cfg) (n : bytes) : encf := fun b d =>
  let n := match n with [] => [48] | _ => n end in
  match parse_number n with
  | PErr _ e => ER b d (Some e)
  | POk _ _ =>
      match e_clrs c with
      | None => ER (b ++ n) d None
      | Some k => ER (((b ++ c_number k) ++ n) ++ ansi_reset) d None
      end
  end.

(** encode.go:153-163 encodeKey, 165-175 encodeString and 1047-1054 (the tail
    of encodeTextMarshaler): a string in the color chosen by [clr] *)
Definition encode_str (c : cfg) (clr : colors -> bytes) (s : bytes) : encf := fun b d =>
  match e_clrs c with
  | None => ER (do_encode_string (e_html c) b s) d None
  | Some k => ER (do_encode_string (e_html c) (b ++ clr k) s ++ ansi_reset) d None
  end.
(** encode.go:153-163 encodeKey *)
Definition encode_key (c : cfg) := encode_str c c_key.
(** encode.go:165-175 encodeString *)
Definition encode_string (c : cfg) := encode_str c c_string.

(** encode.go:277-294 encodeToString *)
Definition encode_to_string (c : cfg) (f : encf) : encf := fun b d =>
  let i := length b in
  match f b d with
  | EPanic => EPanic
  | ER b d (Some e) => ER b d (Some e)
  | ER b d None =>
      let j := length b in
      let s := skipn i b in
      let b := do_encode_string (e_html c) b s in
      (* n := copy(b[i:], b[j:]); b[:i+n] *)
      ER (firstn i b ++ skipn j b) d None
  end.

(** base64.StdEncoding.Encode (standard library) *)
(** library function used at encode.go:307-329 *)
Definition b64_char (n : Z) : Z :=
  nth (Z.to_nat n) (bs "ABCDEFGHIJKLMNOPQRSTUVWXYZabcdefghijklmnopqrstuvwxyz0123456789+/") 0.
(** library function used at encode.go:307-329 *)
Fixpoint b64 (v : bytes) : bytes :=
  match v with
  | [] => []
  | [x] => [b64_char (x / 4); b64_char (x mod 4 * 16); 61; 61]
  | [x; y] => [b64_char (x / 4); b64_char (x mod 4 * 16 + y / 16); b64_char (y mod 16 * 4); 61]
  | x :: y :: z :: v' =>
      b64_char (x / 4) :: b64_char (x mod 4 * 16 + y / 16) :: b64_char (y mod 16 * 4 + z / 64) ::
      b64_char (z mod 64) :: b64 v'
  end.

(** encode.go:307-329 doEncodeBytes *)
Definition do_encode_bytes (c : cfg) (v : option bytes) (b : bytes) : bytes :=
  match v with
  | None => append_null (e_clrs c) b
  | Some v => b ++ 34 :: b64 v ++ [34]
  end.
(** encode.go:296-305 encodeBytes *)
Definition encode_bytes (c : cfg) (v : option bytes) : encf := fun b d =>
  match e_clrs c with
  | None => ER (do_encode_bytes c v b) d None
  | Some k => ER (do_encode_bytes c v (b ++ c_bytes k) ++ ansi_reset) d None
  end.

(** encode.go:356-372 encodeTime; [t] is the RFC3339Nano text *)
Definition encode_time (c : cfg) (t : bytes) : encf := fun b d =>
  match e_clrs c with
  | None => ER (((b ++ [34]) ++ t) ++ [34]) d None
  | Some k => ER (((((b ++ c_time k) ++ [34]) ++ t) ++ [34]) ++ ansi_reset) d None
  end.

(** encode.go:374-402 encodeArray over the encoders of the elements *)
Fixpoint array_elems (c : cfg) (first : bool) (fs : list encf) (b : bytes) (d : Z) : eres :=
  match fs with
  | [] => ER b d None
  | f :: fs' =>
      let b := if first then b else append_punc (e_clrs c) b 44 in
      let b := in_byte c b 10 in
      let b := in_indent c b d in
      match f b d with
      | ER b d None => array_elems c false fs' b d
      | r => r
      end
  end.
(** encode.go:374-402 encodeArray *)
Definition encode_array (c : cfg) (fs : list encf) : encf := fun b d =>
  let start := length b in
  let b := append_punc (e_clrs c) b 91 in
  match fs with
  | [] => ER (append_punc (e_clrs c) b 93) d None
  | _ =>
      match array_elems c true fs b (in_push c d) with
      | ER b d None =>
          let d := in_pop c d in
          let b := in_byte c b 10 in
          let b := in_indent c b d in
          ER (append_punc (e_clrs c) b 93) d None
      | ER b d (Some e) => ER (firstn start b) d (Some e)
      | EPanic => EPanic
      end
  end.

(** encode.go:433-453 (and 499-521, 548-565, 604-624, 652-669): the loop over
    the entries of a map, as pairs of a key encoder and a value encoder *)
Fixpoint map_elems (c : cfg) (first : bool) (fs : list (encf * encf)) (b : bytes) (d : Z) : eres :=
  match fs with
  | [] => ER b d None
  | (fk, fv) :: fs' =>
      let b := if first then b else in_byte c (append_punc (e_clrs c) b 44) 10 in
      let b := in_indent c b d in
      match fk b d with
      | ER b d None =>
          let b := append_punc (e_clrs c) b 58 in
          let b := in_byte c b 32 in
          match fv b d with
          | ER b d None => map_elems c false fs' b d
          | r => r
          end
      | r => r
      end
  end.
(** encode.go:425-460 encodeMap after sorting; also 487-528
    encodeMapStringInterface without sorting, which differs only in not
    cutting the buffer back on error ([cut] = false) *)
Definition encode_map (c : cfg) (cut : bool) (fs : list (encf * encf)) : encf := fun b d =>
  let start := length b in
  let b := append_punc (e_clrs c) b 123 in
  match fs with
  | [] => ER (append_punc (e_clrs c) b 125) d None
  | _ =>
      let b := in_byte c b 10 in
      match map_elems c true fs b (in_push c d) with
      | ER b d None =>
          let b := in_byte c b 10 in
          let d := in_pop c d in
          let b := in_indent c b d in
          ER (append_punc (e_clrs c) b 125) d None
      | ER b d (Some e) => ER (if cut then firstn start b else b) d (Some e)
      | EPanic => EPanic
      end
  end.
(** encode.go:540-583 (sorted) and 643-687 (sorted): like encodeMap, but the
    loop is left by break, so the indenter is popped before the error return *)
Definition encode_map_break (c : cfg) (fs : list (encf * encf)) : encf := fun b d =>
  let start := length b in
  let b := append_punc (e_clrs c) b 123 in
  match fs with
  | [] => ER (append_punc (e_clrs c) b 125) d None
  | _ =>
      let b := in_byte c b 10 in
      match map_elems c true fs b (in_push c d) with
      | ER b d None =>
          let b := in_byte c b 10 in
          let d := in_pop c d in
          let b := in_indent c b d in
          ER (append_punc (e_clrs c) b 125) d None
      | ER b d (Some e) => ER (firstn start b) (in_pop c d) (Some e)
      | EPanic => EPanic
      end
  end.
(** encode.go:592-632 encodeMapStringRawMessage without sorting.  NB: the
    error is dropped (631): the object is closed and nil is returned. *)
Definition encode_map_swallow (c : cfg) (fs : list (encf * encf)) : encf := fun b d =>
  let b := append_punc (e_clrs c) b 123 in
  match fs with
  | [] => ER (append_punc (e_clrs c) b 125) d None
  | _ =>
      let b := in_byte c b 10 in
      match map_elems c true fs b (in_push c d) with
      | ER b d _ =>
          let b := in_byte c b 10 in
          let d := in_pop c d in
          let b := in_indent c b d in
          ER (append_punc (e_clrs c) b 125) d None
      | EPanic => EPanic
      end
  end.

(** Byte-wise comparison of Go strings, and sorting by a string key.
    sort.Sort and sort.Slice are modelled by insertion sort; for distinct keys
    every sorting function gives the same result (EncFacts.v). *)
(** the comparison of encode.go:474 and codec.go:359-377 *)
Fixpoint bytes_ltb (a b : bytes) : bool :=
  match a, b with
  | [], [] => false
  | [], _ :: _ => true
  | _ :: _, [] => false
  | x :: a', y :: b' => if x <? y then true else if y <? x then false else bytes_ltb a' b'
  end.
(** sort.Slice and sort.Sort of encode.go:414-688 *)
Fixpoint insert_by {A} (key : A -> bytes) (x : A) (l : list A) : list A :=
  match l with
  | [] => [x]
  | y :: l' => if bytes_ltb (key y) (key x) then y :: insert_by key x l' else x :: l
  end.
(** sort.Slice and sort.Sort of encode.go:414-688 *)
Fixpoint sort_by {A} (key : A -> bytes) (l : list A) : list A :=
  match l with
  | [] => []
  | x :: l' => insert_by key x (sort_by key l')
  end.

(** codec.go:935-947, the part of structField used by encodeStruct; [f_empty]
    is the value of f.empty on the field *)
Record fhead := FH { f_name : bytes; f_omitempty : bool; f_empty : bool }.
(** codec.go:638-641 and 707-712: the key text, with and without EscapeHTML *)
Definition f_json (h : fhead) : bytes := do_encode_string false [] (f_name h).
(** codec.go:640 *)
Definition f_html (h : fhead) : bytes := do_encode_string true [] (f_name h).

(** encode.go:704-747, the loop of encodeStruct *)
Fixpoint struct_fields (c : cfg) (n : nat) (fs : list (fhead * encf)) (b : bytes) (d : Z) : eres * nat :=
  match fs with
  | [] => (ER b d None, n)
  | (h, f) :: fs' =>
      if f_omitempty h && f_empty h then struct_fields c n fs' b d
      else
        let b := if Nat.eqb n 0 then b else in_byte c (append_punc (e_clrs c) b 44) 10 in
        let k := if e_html c then f_html h else f_json h in
        let lengthBeforeKey := length b in
        let b := in_indent c b d in
        let b := match e_clrs c with
                 | None => b ++ k
                 | Some cl => ((b ++ c_key cl) ++ k) ++ ansi_reset
                 end in
        let b := append_punc (e_clrs c) b 58 in
        let b := in_byte c b 32 in
        match f b d with
        | ER b d None => struct_fields c (S n) fs' b d
        | ER b d (Some ERollback) => struct_fields c n fs' (firstn lengthBeforeKey b) d
        | r => (r, n)
        end
  end.
(** encode.go:690-758 encodeStruct *)
Definition encode_struct (c : cfg) (fs : list (fhead * encf)) : encf := fun b d =>
  let start := length b in
  let b := append_punc (e_clrs c) b 123 in
  let b := match fs with [] => b | _ => in_byte c b 10 end in
  match struct_fields c 0 fs b (in_push c d) with
  | (ER b d None, n) =>
      let b := if Nat.eqb n 0 then b else in_byte c b 10 in
      let d := in_pop c d in
      let b := in_indent c b d in
      ER (append_punc (e_clrs c) b 125) d None
  | (ER b d (Some e), _) => ER (firstn start b) d (Some e)
  | (EPanic, _) => EPanic
  end.

(** encode.go:1057-1118 appendCompactEscapeHTML.  The copied run
    src[start:i] is kept in [pend]; a skipped byte of U+2028/9 is counted by
    [skip] (start = i + 3 while the loop goes on over the two bytes). *)
Fixpoint compact_html (dst pend : bytes) (inString escape : bool) (skip : nat) (src : bytes) : bytes :=
  match src with
  | [] => dst ++ pend
  | c :: src' =>
      match skip with
      | S k =>
          (* inside the two trailing bytes 0x80, 0xA8/0xA9: start is ahead of i *)
          compact_html dst pend inString escape k src'
      | O =>
          if negb inString then
            if c =? 34 then compact_html dst (pend ++ [c]) true escape 0 src'
            else if is_space c then compact_html (dst ++ pend) [] inString escape 0 src'
            else compact_html dst (pend ++ [c]) inString escape 0 src'
          else if escape then compact_html dst (pend ++ [c]) inString false 0 src'
          else if c =? 92 then compact_html dst (pend ++ [c]) inString true 0 src'
          else if c =? 34 then compact_html dst (pend ++ [c]) false escape 0 src'
          else if is_html c then compact_html ((dst ++ pend) ++ u00 c) [] inString escape 0 src'
          else if (c =? 0xE2) && match src' with
                                 | a :: b :: _ => (a =? 0x80) && ((b =? 0xA8) || (b =? 0xA9))
                                 | _ => false
                                 end
               then compact_html ((dst ++ pend) ++ u202 (nth 1 src' 0)) [] inString escape 2 src'
          else compact_html dst (pend ++ [c]) inString escape 0 src'
      end
  end.
(** encode.go:1057-1118 appendCompactEscapeHTML *)
Definition append_compact_escape_html (dst src : bytes) : bytes := compact_html dst [] false false 0 src.

(** encode.go:836-858 appendRawMessageVerbatim *)
Definition append_raw_verbatim (c : cfg) (b s : bytes) (d : Z) : bytes :=
  let plain := match e_ind c with None => true | Some i => i_disabled i end in
  if plain then
    if e_html c then append_compact_escape_html b s else b ++ s
  else
    let s := if e_html c then append_compact_escape_html [] s else s in
    let pre := in_indent c [] d in
    let ind := match e_ind c with None => [] | Some i => i_indent i end in
    match e_stdindent c pre ind s with
    | None => b ++ s
    | Some t => b ++ t
    end.

(** encode.go:863-866 rawFrame, top first *)
Definition frame : Type := (bool * nat)%type.

(** encode.go:941-962 appendRawMessageItemPrefix: the buffer and the stack,
    whose top count it increments *)
Definition raw_prefix (c : cfg) (b : bytes) (d : Z) (stack : list frame) (isKey : bool) : bytes * list frame :=
  match stack with
  | [] => (b, stack)
  | (isObject, count) :: st =>
      if isObject && negb isKey then (b, stack)
      else
        let b := if Nat.eqb count 0 then b else append_punc (e_clrs c) b 44 in
        let b := in_byte c b 10 in
        (in_indent c b d, (isObject, S count) :: st)
  end.

(** encode.go:968-999 appendRawMessageScalar *)
Definition raw_scalar (c : cfg) (b v : bytes) (isKey : bool) : bytes :=
  match e_clrs c with
  | None => if e_html c && rv_string v then append_compact_escape_html b v else b ++ v
  | Some k =>
      let clr := if isKey then c_key k
                 else if rv_string v then c_string k
                 else if rv_number v then c_number k
                 else if rv_true v || rv_false v then c_bool k
                 else if rv_null v then c_null k
                 else [] in
      let b := b ++ clr in
      (if e_html c && rv_string v then append_compact_escape_html b v else b ++ v) ++ ansi_reset
  end.

(** encode.go:882-926, the loop of appendRawMessageTokens.  [n] is fuel
    (the length of the input plus one suffices: each token consumes a byte). *)
Inductive rawres := RawDone (b : bytes) (d : Z) (e : option err) | RawPanic | RawFuel.
(** encode.go:882-926 *)
Fixpoint raw_loop (n : nat) (c : cfg) (t : tokenizer) (stack : list frame) (b : bytes) (d : Z) : rawres :=
  match n with
  | O => RawFuel
  | S n' =>
      match tok_next t with
      | None => RawPanic
      | Some (t, false) => RawDone b d (t_err t)
      | Some (t, true) =>
          let dl := t_delim t in
          if dl =? 58 then raw_loop n' c t stack (in_byte c (append_punc (e_clrs c) b 58) 32) d
          else if dl =? 44 then raw_loop n' c t stack b d
          else if (dl =? 125) || (dl =? 93) then
            let had := match stack with (_, k) :: _ => negb (Nat.eqb k 0) | [] => false end in
            let stack := tl stack in
            let d := in_pop c d in
            let b := if had then in_indent c (in_byte c b 10) d else b in
            raw_loop n' c t stack (append_punc (e_clrs c) b (nth 0 (t_value t) 0)) d
          else
            let isKey := (dl =? 0) && t_IsKey t in
            let '(b, stack) := raw_prefix c b d stack isKey in
            if (dl =? 123) || (dl =? 91) then
              raw_loop n' c t ((dl =? 123, 0%nat) :: stack)
                       (append_punc (e_clrs c) b (nth 0 (t_value t) 0)) (in_push c d)
            else raw_loop n' c t stack (raw_scalar c b (t_value t) isKey) d
      end
  end.

(** encode.go:876-933 appendRawMessageTokens.  Out of fuel is proved
    unreachable. *)
Definition append_raw_tokens (c : cfg) (b s : bytes) (d : Z) : eres :=
  let start := length b in
  match raw_loop (S (length s)) c (new_tokenizer s) [] b d with
  | RawDone b d None => ER b d None
  | RawDone b d (Some e) => ER (firstn start b) d (Some e)
  | RawPanic => EPanic
  | RawFuel => ER b d (Some EFuel)
  end.

(** encode.go:805-831 encodeRawMessage *)
Definition encode_raw (c : cfg) (v : option bytes) : encf := fun b d =>
  match v with
  | None => ER (append_null (e_clrs c) b) d None
  | Some v =>
      let go s :=
        match append_raw_tokens c b s d with
        | ER b d (Some e) => if e_trust c then ER (append_raw_verbatim c b s d) d None else ER b d (Some e)
        | r => r
        end in
      if e_trust c then go v
      else match parseValue v with
           | PErr _ _ => ER b d (Some EUnsupportedValue)
           | POk s _ => go s
           end
  end.

(** Map keys (codec.go:352-406): a string kind, an integer kind, or a
    TextMarshaler with the result of MarshalText; [KNil] is a nil pointer or
    interface key implementing TextMarshaler. *)
Inductive mkey :=
| KString (s : bytes)
| KInt (z : Z)
| KText (s : bytes) (e : option err)
| KNil.

(** codec.go:359-401: the string by which keys are sorted *)
Definition key_text (k : mkey) : bytes :=
  match k with KString s => s | KInt z => itoa z | KText s _ => s | KNil => [] end.

(** encode.go:1027-1055 encodeTextMarshaler on the result of MarshalText *)
Definition encode_text (c : cfg) (r : bytes + err) : encf :=
  match r with
  | inl s => encode_str c c_textm s
  | inr e => fun b d => ER b d (Some e)
  end.
(** codec.go:356, 373, 385, 397: kc.encode *)
Definition encode_mkey (c : cfg) (k : mkey) : encf :=
  match k with
  | KString s => encode_key c s
  | KInt z => encode_to_string c (fun b d => ER (append_int (e_clrs c) b z) d None)
  | KText s None => encode_text c (inl s)
  | KText _ (Some e) => encode_text c (inr e)
  | KNil => fun b d => ER (append_null (e_clrs c) b) d None
  end.

(** Go values with the encoder that codec.go:79-213 constructCodec selects for
    their type.  Values are finite trees; shared and cyclic ones
    are in HeapModel.v. *)
Inductive gval :=
| GNil                                               (* nil interface, json.go:123-127 *)
| GBool (b : bool)                                   (* encode.go:24-26 *)
| GInt (z : Z)                                       (* int*, uint*, Duration: encode.go:28-70, 331-337 *)
| GFloat (f : fl)                                    (* encode.go:72-130 *)
| GNumber (s : bytes)                                (* encode.go:132-151 *)
| GString (s : bytes)                                (* encode.go:165-175 *)
| GBytes (s : option bytes)                          (* encode.go:296-329; None is nil *)
| GTime (t : bytes)                                  (* encode.go:356-372; the RFC3339Nano text *)
| GArray (l : list gval)                             (* encode.go:374-402 *)
| GSlice (l : option (list gval))                    (* encode.go:404-412 *)
| GMap (m : option (list (mkey * gval)))             (* encode.go:414-461; entries in iteration order *)
| GMapSI (m : option (list (bytes * gval)))          (* map[string]interface{}: encode.go:481-584 *)
| GMapSR (m : option (list (bytes * option bytes)))  (* map[string]RawMessage: encode.go:586-688 *)
| GStruct (fs : list (fhead * gval))                 (* encode.go:690-758 *)
| GEmbPtr (v : option gval)                          (* field reached through an embedded pointer: 764-770 *)
| GPtr (v : option gval)                             (* encode.go:772-777 *)
| GIface (v : option gval)                           (* encode.go:779-785 *)
| GRaw (v : option bytes)                            (* encode.go:805-831 *)
| GMarshaler (r : option (option bytes + err))       (* encode.go:1003-1025; None is a nil receiver *)
| GText (r : option (bytes + err))                   (* encode.go:1027-1055 *)
| GQuoted (v : gval)                                 (* the ",string" option: encode.go:277-294 *)
| GUnsupported.                                      (* encode.go:787-789 *)

(** The encoder of a value: what [Append(b, x, flags, clrs, indentr)] of
    json.go:122-142 does once the codec is found. *)
Fixpoint enc (c : cfg) (v : gval) {struct v} : encf :=
  match v with
  | GNil => fun b d => ER (append_null (e_clrs c) b) d None
  | GBool x => fun b d => ER (append_bool (e_clrs c) b x) d None
  | GInt z => fun b d => ER (append_int (e_clrs c) b z) d None
  | GFloat f => encode_float_c c f
  | GNumber s => encode_number c s
  | GString s => encode_string c s
  | GBytes s => encode_bytes c s
  | GTime t => encode_time c t
  | GArray l => encode_array c (map (enc c) l)
  | GSlice None => fun b d => ER (append_null (e_clrs c) b) d None
  | GSlice (Some l) => encode_array c (map (enc c) l)
  | GMap None => fun b d => ER (append_null (e_clrs c) b) d None
  | GMap (Some m) =>
      let es := map (fun kv => match kv with (k, x) => (k, enc c x) end) m in
      let es := if e_sort c then sort_by (fun e => key_text (fst e)) es else es in
      encode_map c true (map (fun e => (encode_mkey c (fst e), snd e)) es)
  | GMapSI None => fun b d => ER (append_null (e_clrs c) b) d None
  | GMapSI (Some m) =>
      let es := map (fun kv => match kv with (k, x) => (k, enc c x) end) m in
      if e_sort c
      then encode_map_break c (map (fun e => (encode_key c (fst e), snd e)) (sort_by fst es))
      else encode_map c false (map (fun e => (encode_key c (fst e), snd e)) es)
  | GMapSR None => fun b d => ER (append_null (e_clrs c) b) d None
  | GMapSR (Some m) =>
      if e_sort c
      then encode_map_break c (map (fun e => (encode_key c (fst e), encode_raw c (snd e))) (sort_by fst m))
      else encode_map_swallow c (map (fun e => (encode_key c (fst e), encode_raw c (snd e))) m)
  | GStruct fs => encode_struct c (map (fun hv => match hv with (h, x) => (h, enc c x) end) fs)
  | GEmbPtr None => fun b d => ER b d (Some ERollback)
  | GEmbPtr (Some x) => enc c x
  | GPtr None => fun b d => ER (append_null (e_clrs c) b) d None
  | GPtr (Some x) => enc c x
  | GIface None => fun b d => ER (append_null (e_clrs c) b) d None
  | GIface (Some x) => enc c x
  | GRaw r => encode_raw c r
  | GMarshaler None => fun b d => ER (append_null (e_clrs c) b) d None
  | GMarshaler (Some (inl j)) => encode_raw c j
  | GMarshaler (Some (inr e)) => fun b d => ER b d (Some e)
  | GText None => fun b d => ER (append_null (e_clrs c) b) d None
  | GText (Some r) => encode_text c r
  | GQuoted x => encode_to_string c (enc c x)
  | GUnsupported => fun b d => ER b d (Some EUnsupportedType)
  end.

(** json.go:160-172 Marshal: EscapeHTML|SortMapKeys, no colors, no indenter.
    The buffer taken from the pool is emptied first, so its contents do not
    matter (see SharedModel.v). *)
Definition marshal_cfg (ind : bytes -> bytes -> bytes -> option bytes) : cfg := Cfg true true false None None ind.
(** json.go:160-172 Marshal *)
Definition marshal (ind : bytes -> bytes -> bytes -> option bytes) (v : gval) : option (bytes * option err) :=
  match enc (marshal_cfg ind) v [] 0 with
  | EPanic => None
  | ER b _ None => Some (b, None)
  | ER _ _ (Some e) => Some ([], Some e)
  end.
