(** Model of the contents of an UnmarshalTypeError (/repo/decode.go): Field,
    Struct, Value and Type.  Every container decoder, when the decoder of an
    element fails with such an error, puts the place of the element before what
    Field already says and its own type before what Struct already says.  The
    functions here follow the decoders of DecModel.v and TypeModel.v and return
    what the error says; they matter when the decoder returns the error [EType].
    Offset is never set by the code. *)
From Verif Require Import Bytes AsciiModel Utf8Model ParseModel IntModel StringModel EncModel DecModel TypeModel.

(** A place in a container: decode.go:538, 640 (index), 720, 773, 827 (map
    key), 950 (struct member) *)
Inductive seg := SIdx (i : nat) | SKey (k : mkey) | SName (k : bytes).
(** Value: [WQuote b] is strconv.Quote(prefix(b)), codec.go:951-953; [WOver b] is
    the text for the overflow of prefix(b), codec.go:955-957; [WText b] is b,
    decode.go:1092, 1175 *)
Inductive what := WQuote (b : bytes) | WOver (b : bytes) | WText (b : bytes).
(** Type: a type, or reflect.PointerTo of one (decode.go:1175) *)
Inductive rty := RTy (t : gty) | RPtr (t : gty).
(** An UnmarshalTypeError: [r_path] is what makes Field and [r_in] what makes
    Struct, both outermost first. *)
(** codec.go:951-957, decode.go:1091-1094, 1175 *)
Record rep := Rep { r_path : list seg; r_in : list gty; r_value : what; r_type : rty }.
(** There is no such error; also the error that a user's method returned, whose
    contents are not modelled. *)
(** no counterpart in /repo *)
Definition no_rep : rep := Rep [] [] (WText []) (RTy YUnsupported).
(** unmarshalTypeError(b, t): codec.go:951-953 *)
Definition told (b : bytes) (t : gty) : rep := Rep [] [] (WQuote b) (RTy t).
(** e.Struct = t.String() + e.Struct and e.Field = place + "." + e.Field:
    decode.go:537-538, 639-640, 719-720, 772-773, 826-827, 949-950 *)
Definition into (t : gty) (s : seg) (r : rep) : rep := Rep (s :: r_path r) (t :: r_in r) (r_value r) (r_type r).

Section Loops.
Context {A : Type} (dec : bytes -> A -> dres A) (loc : bytes -> A -> rep) (ct : gty).

(** decode.go:590-646, the loop of decodeSlice: 637-641 *)
Fixpoint slice_at (zero : A) (k : nat) (b : bytes) (len : nat) (data : option (list A)) : rep :=
  match k with
  | O => no_rep
  | S k' =>
    let b := skip_spaces b in
    let d := match data with None => [] | Some d => d end in
    if (match b with c :: _ => c =? cRBRACK | [] => false end) then no_rep
    else
      let elem (b : bytes) :=
        let d := if Nat.eqb len (length d) then grow zero d else d in
        let x := dec b (nth len d zero) in
        match d_err x with
        | None => slice_at zero k' (d_rest x) (S len) (Some (set_nth len (d_val x) d))
        | Some _ => into ct (SIdx len) (loc b (nth len d zero))
        end in
      if Nat.eqb len 0 then elem b
      else match b with
           | [] => no_rep
           | c :: b1 => if c =? cCOMMA then elem (skip_spaces b1) else no_rep
           end
  end.
(** decode.go:570-647 decodeSlice *)
Definition decode_slice_at (zero : A) (b : bytes) (cur : sl A) : rep :=
  match b with
  | c :: b1 => if c =? cLBRACK then slice_at zero (S (length b)) b1 0 (option_map snd cur) else told b ct
  | [] => no_rep
  end.

(** decode.go:516-542, the loop of decodeArray: 535-539 *)
Fixpoint arr_at (i : nat) (b : bytes) (todo : list A) : rep :=
  match todo with
  | [] => no_rep
  | x :: todo' =>
    let b := skip_spaces b in
    let elem (b : bytes) :=
      let y := dec b x in
      match d_err y with
      | None => arr_at (S i) (d_rest y) todo'
      | Some _ => into ct (SIdx i) (loc b x)
      end in
    if Nat.eqb i 0 then elem b
    else match b with
         | [] => no_rep
         | c :: b1 => if c =? cCOMMA then elem (skip_spaces b1) else no_rep
         end
  end.
(** decode.go:505-565 decodeArray *)
Definition decode_array_at (b : bytes) (cur : list A) : rep :=
  match b with
  | c :: b1 => if c =? cLBRACK then arr_at 0 b1 cur else told b ct
  | [] => no_rep
  end.

(** decode.go:649-834, the loops of the map decoders: 717-721, 770-774,
    824-828; [name] makes the place from the key *)
Fixpoint map_at {K} (name : K -> mkey) (deck : bytes -> dres K) (zero : A) (k : nat) (first : bool) (b : bytes) : rep :=
  match k with
  | O => no_rep
  | S k' =>
    let b := skip_spaces b in
    if (match b with c :: _ => c =? cRBRACE | [] => false end) then no_rep
    else
      match obj_key deck first b with
      | inl _ => no_rep
      | inr (b, key) =>
          let x := dec b zero in
          match d_err x with
          | None => map_at name deck zero k' false (d_rest x)
          | Some _ => into ct (SKey (name key)) (loc b zero)
          end
      end
  end.
(** decode.go:649-834 decodeMap, decodeMapStringInterface,
    decodeMapStringRawMessage *)
Definition decode_map_at {K} (name : K -> mkey) (deck : bytes -> dres K) (zero : A) (b : bytes) : rep :=
  match b with
  | c :: b1 => if c =? cLBRACE then map_at name deck zero (S (length b)) true b1 else told b ct
  | [] => no_rep
  end.
End Loops.

(** decode.go:868-955, the loop of decodeStruct: 947-951; [look] finds the
    decoder of a field and what it says about places *)
Fixpoint struct_at {A} (ct : gty) (look : bytes -> option ((bytes -> A -> dres A) * (bytes -> A -> rep)))
    (k : nat) (first : bool) (b : bytes) (cur : A) : rep :=
  match k with
  | O => no_rep
  | S k' =>
    let b := skip_spaces b in
    if (match b with c :: _ => c =? cRBRACE | [] => false end) then no_rep
    else
      let deck b := match parse_string_unquote b [] with
                    | QOk s r _ => DR r None s
                    | QErr r e => DR r (Some e) []
                    | QPanic => DR b (Some EPanicked) []
                    | QFuel => DR b (Some EFuel) []
                    end in
      match obj_key deck first b with
      | inl _ => no_rep
      | inr (b, key) =>
          match look key with
          | None => match parseValue b with
                    | PErr _ _ => no_rep
                    | POk _ r => struct_at ct look k' false r cur
                    end
          | Some (decf, locf) =>
              let x := decf b cur in
              match d_err x with
              | None => struct_at ct look k' false (d_rest x) (d_val x)
              | Some _ => into ct (SName key) (locf b cur)
              end
          end
      end
  end.
(** decode.go:868-955 decodeStruct *)
Definition decode_struct_at {A} (ct : gty) (look : bytes -> option ((bytes -> A -> dres A) * (bytes -> A -> rep)))
    (b : bytes) (cur : A) : rep :=
  match b with
  | c :: b1 => if c =? cLBRACE then struct_at ct look (S (length b)) true b1 cur else told b ct
  | [] => no_rep
  end.

(** decode.go:990-1067 decodeInterface: the maps and slices it decodes into add
    their places, it adds none of its own; what it decodes is the text of the
    value alone.  Only decodeFloat64 can fail (1039-1041). *)
Fixpoint iface_at (usenum : bool) (pf : bytes -> option fl) (n : nat) (b : bytes) (cur : jv) : rep :=
  match n with
  | O => no_rep
  | S n' =>
    match parseValue b with
    | PErr _ _ => no_rep
    | POk v _ =>
        match v with
        | [] => no_rep
        | c :: _ =>
            if c =? cLBRACE then
              decode_map_at (dec_iface usenum pf n') (iface_at usenum pf n') YMapSI MKStr (fun b => decode_string b []) JVNull v
            else if c =? cLBRACK then
              decode_slice_at (dec_iface usenum pf n') (iface_at usenum pf n') (YSlice YIface) JVNull v (Some (O, repeat JVNull 10))
            else told v (YFloat true)
        end
    end
  end.
(** decode.go:990-1067 decodeInterface *)
Definition decode_interface_at (usenum : bool) (pf : bytes -> option fl) (b : bytes) (cur : jv) : rep :=
  iface_at usenum pf (S (length b)) b cur.

Section Typed.
Context (V : tenv) (F : dflags).

(** decode.go:957-969 decodeEmbeddedStructPointer adds no place *)
Fixpoint on_path_at (p : list pstep) (loc : bytes -> mem -> rep) (b : bytes) (m : mem) : rep :=
  match p with
  | [] => loc b m
  | PIn i :: p' =>
      match m with
      | MList l => match nth_error l i with Some x => on_path_at p' loc b x | None => no_rep end
      | _ => no_rep
      end
  | PVia i s unexp :: p' =>
      match m with
      | MList l => match nth_error l i with
                   | Some (MPtr (Some x)) => on_path_at p' loc b x
                   | Some (MPtr None) => if unexp then no_rep else on_path_at p' loc b (zero V (YStruct s))
                   | _ => no_rep
                   end
      | _ => no_rep
      end
  end.

(** codec.go:668-705 stringify: decode.go:299-316 decodeFromString and 318-403
    decodeFromStringToInt (347, 385, 399); the type they name is the field's, or
    what it points to: codec.go:676-680 *)
Definition deref (t : gty) : gty := match t with YPtr e => e | _ => t end.
(** decode.go:299-403 through codec.go:668-705 *)
Definition field_at (f : jfield) (dec : bytes -> mem -> dres mem) (loc : bytes -> mem -> rep) : bytes -> mem -> rep :=
  match jf_quot f with
  | QNo => loc
  | QStr => fun b m =>
      if has_null_prefix b then loc b m
      else match parse_string_unquote b [] with QOk v _ _ => loc v m | _ => no_rep end
  | QInt => fun b m =>
      if has_null_prefix b then loc b m
      else
        let t := deref (jf_ty f) in
        let quoted :=
          match parse_string_unquote b [] with
          | QOk v _ _ =>
              let v := strip_zeroes v in
              match d_err (dec v m) with
              | Some ESyntax | None => told v t
              | Some _ => loc v m
              end
          | _ => no_rep
          end in
        match b with
        | [] => quoted
        | c :: _ =>
            if negb (c =? cQUOTE) then match parse_number b with POk v _ => told v t | PErr _ _ => no_rep end
            else quoted
        end
  end.

(** parse.go:120-131, 172-183: was this actually a float? *)
Definition float_what (b : bytes) (count : nat) : what :=
  match parse_number b with
  | POk v _ => WQuote v
  | PErr _ _ => WQuote (firstn (count + 1) b)
  end.
(** parse.go:44-132 parseInt *)
Definition int_what (b : bytes) : what :=
  let loop x n :=
    match x with
    | LInput => WQuote b
    | LOverflow => WOver b
    | LOk _ count => float_what b (n + count)
    end in
  match b with
  | [] => WText []
  | c :: b1 => if c =? cMINUS then loop (neg_loop 0 0 b1) 1%nat else loop (pos_loop 0 0 b) O
  end.
(** parse.go:135-184 parseUint *)
Definition uint_what (b : bytes) : what :=
  match uint_loop 0 0 b with
  | LInput => WQuote b
  | LOverflow => WOver b
  | LOk _ count => float_what b count
  end.
(** decode.go:42-218: the error of parseInt or parseUint, or an overflow (67, 85,
    103, 163, 181, 199) *)
Definition ity_what (t : ity) (b : bytes) : what :=
  match (if signed t then parse_int b else parse_uint b) with
  | IErr _ _ => if signed t then int_what b else uint_what b
  | IOk _ r => WOver (firstn (length b - length r) b)
  end.
(** decode.go:1163-1173 *)
Definition kind_text (v : bytes) : bytes :=
  match v with
  | c :: _ => if c =? cLBRACE then bs "object" else if c =? cLBRACK then bs "array"
              else if c =? 116 then bs "true" else if c =? 102 then bs "false" else bs "number"
  | [] => []
  end.
(** What the decoders of single values say.  [b] is the rest of the input from
    the value on. *)
(** decode.go:17-297, 405-503, 1069-1176 *)
Definition leaf_at (t : gty) (b : bytes) : rep :=
  match t with
  | YInt it => Rep [] [] (ity_what it b) (RTy t)
  | YDuration =>
      (* decode.go:453 names int32Type *)
      match b with
      | c :: _ => if negb (c =? cQUOTE) then told b (YInt TInt32) else told b t
      | [] => told b t
      end
  | YNamedIface _ | YUnsupported =>
      (* decode.go:1086-1095 decodeUnmarshalTypeError *)
      match parseValue b with POk v _ => Rep [] [] (WText v) (RTy t) | PErr _ _ => no_rep end
  | YText _ =>
      match parseValue b with
      | POk v _ => if rv_string v then no_rep else Rep [] [] (WText (kind_text v)) (RPtr t)
      | PErr _ _ => no_rep
      end
  | YJSON _ => no_rep
  | _ => told b t
  end.

(** decode.go:17-1176 through codec.go:79-440: as [dec_ty] *)
Fixpoint ty_at (n : nat) : gty -> bytes -> mem -> rep :=
  fix go (t : gty) (b : bytes) (cur : mem) {struct t} : rep :=
  match t with
  | YBytes =>
      (* decode.go:415-417: decodeSlice of uint8 *)
      match cur with MBytes x => decode_slice_at (decode_int TUint8) (fun b _ => leaf_at (YInt TUint8) b) t 0 b x | _ => no_rep end
  | YIface =>
      match cur with MIface x => decode_interface_at (d_usenum F) (v_float V true) b x | _ => no_rep end
  | YNamedIface true =>
      (* decode.go:1076-1081: Parse *)
      match cur with
      | MIface JVNull => decode_interface_at (d_usenum F) (v_float V true) (skip_spaces b) JVNull
      | _ => leaf_at t b
      end
  | YArray _ e => match cur with MList l => decode_array_at (dec_ty V F n e) (go e) t b l | _ => no_rep end
  | YSlice e => match cur with MSlice s => decode_slice_at (dec_ty V F n e) (go e) t (zero V e) b s | _ => no_rep end
  | YMap k e => match cur with MMap _ => decode_map_at (dec_ty V F n e) (go e) t (fun k => k) (decode_key V k) (zero V e) b | _ => no_rep end
  | YMapSI =>
      decode_map_at (fun b x => d_map MIface (decode_interface (d_usenum F) (v_float V true) b JVNull))
        (fun b x => decode_interface_at (d_usenum F) (v_float V true) b JVNull) t (fun k => k) (decode_key V KYString) (MIface JVNull) b
  | YMapSR =>
      decode_map_at (fun b x => d_map MRaw (decode_raw b None)) (fun _ _ => no_rep) t (fun k => k) (decode_key V KYString) (MRaw None) b
  | YPtr e =>
      match cur with MPtr p => go e b (match p with Some x => x | None => zero V e end) | _ => no_rep end
  | YStruct i =>
      match n with
      | O => no_rep
      | S n' =>
          decode_struct_at t
            (fun k => match find_field V F (v_flds V i) k with
                      | Some f => Some (on_path V (jf_path f) (decode_field V f (dec_ty V F n' (jf_ty f))),
                                        on_path_at (jf_path f) (field_at f (dec_ty V F n' (jf_ty f)) (ty_at n' (jf_ty f))))
                      | None => None
                      end) b cur
      end
  | _ => leaf_at t b
  end.

(** json.go:193-232 Unmarshal and Parse of a non-nil pointer to a [t]: what
    an UnmarshalTypeError says *)
Definition unmarshal_at (t : gty) (b : bytes) (cur : mem) : rep :=
  let b := skip_spaces b in ty_at (S (length b)) t b cur.
End Typed.

(** strconv.Itoa(i), fmt.Sprint(k.Interface()), key, string(k); [sprint] is
    fmt.Sprint on a key of a type with its own UnmarshalText.  decode.go:538, 640, 720, 773, 827, 950 *)
Definition seg_text (sprint : bytes -> bytes) (s : seg) : bytes :=
  match s with
  | SIdx i => itoa (Z.of_nat i)
  | SKey (MKStr k) => k
  | SKey (MKInt z) => itoa z
  | SKey (MKUser x) => sprint x
  | SName k => k
  end.
(** e.Field = ... + "." + e.Field: decode.go:538, 640, 720, 773, 827, 950.  The
    errors of the decoders themselves start with an empty Field. *)
Definition field_text (sprint : bytes -> bytes) (p : list seg) : bytes :=
  fold_right (fun s f => seg_text sprint s ++ 46 :: f) [] p.

(** prefix: codec.go:994-999 *)
Definition prefix (b : bytes) : bytes := if Nat.ltb (length b) 32 then b else firstn 32 b ++ bs "...".
(** codec.go:951-957: Value; [quote] is strconv.Quote *)
Definition value_text (quote : bytes -> bytes) (w : what) : bytes :=
  match w with
  | WQuote b => quote (prefix b)
  | WOver b => bs "number " ++ prefix b ++ bs " overflows"
  | WText b => b
  end.
(** decode.go:537, 639, 719, 772, 826, 949: Struct; [str] is the String method
    of a type.  Only decodeMap puts what it finds in braces; it writes the type as "map[", key
    type, "]", element type, which is [str] of it when it has no name. *)
Definition struct_text (str : gty -> bytes) (l : list gty) : bytes :=
  fold_right (fun t s => match t with YMap _ _ => str t ++ 123 :: s ++ [125] | _ => str t ++ s end) [] l.
