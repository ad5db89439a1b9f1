(** Model of /repo/decode.go and /repo/codec.go: decoding into values of every
    type.  Types are a small language of type descriptions, memory is a value
    that follows the shape of the type; unsafe pointers and offsets become
    positions in that value, and no two parts of the target share memory.
    Decoding memory that does not fit its type is the model-only error
    [EPanicked] (proved unreachable from memory that fits, TypeSafe.v). *)
From Verif Require Import Bytes AsciiModel Utf8Model ParseModel IntModel StringModel EncModel DecModel.

(** codec.go:79-213 constructCodec, 265-330 constructSliceCodec,
    constructMapCodec: the cases the codec of a type is chosen from.
    [YStruct i] is the struct type number i of the environment; [YJSON u] and
    [YText u] are types with their own UnmarshalJSON or UnmarshalText; a slice
    of uint8 is [YBytes]; [YIface] is interface{} itself and [YNamedIface
    empty] any other interface type, [empty] if it has no methods. *)
Inductive kty := KYString | KYInt (t : ity) | KYText (u : nat).
(** codec.go:79-213 *)
Inductive gty :=
| YBool | YInt (t : ity) | YFloat (wide : bool) | YNumber | YString | YBytes | YDuration | YTime
| YIface | YNamedIface (empty : bool) | YRaw
| YArray (n : nat) (e : gty) | YSlice (e : gty)
| YMap (k : kty) (e : gty) | YMapSI | YMapSR
| YPtr (e : gty) | YStruct (i : nat) | YJSON (u : nat) | YText (u : nat) | YUnsupported.

(** Map keys in memory. *)
(** the keys of decode.go:661-725 *)
Inductive mkey := MKStr (s : bytes) | MKInt (z : Z) | MKUser (s : bytes).
(** Memory.  A time is its RFC 3339 text; what a user-defined type holds is
    opaque bytes; an interface holds what decoding into interface{} stores
    (interfaces that hold pointers are treated in [decode_iface_ptr]). *)
(** what the unsafe.Pointers of decode.go:17-1176 point to *)
Inductive mem :=
| MBool (x : bool) | MInt (z : Z) | MFloat (f : fl) | MStr (s : bytes) | MTime (t : bytes)
| MBytes (s : sl Z) | MRaw (r : option bytes) | MIface (v : jv)
| MList (l : list mem)                          (* arrays, structs *)
| MSlice (s : sl mem)
| MMap (m : option (list (mkey * mem)))
| MPtr (p : option mem)
| MUser (s : bytes).

(** the comparison of m.SetMapIndex at decode.go:725 *)
Definition mkey_eqb (a b : mkey) : bool :=
  match a, b with
  | MKStr x, MKStr y | MKUser x, MKUser y => beqb x y
  | MKInt x, MKInt y => x =? y
  | _, _ => false
  end.

(** codec.go:935-947 structField, as far as decoding needs it.  [jf_path] leads
    from the struct to the field: positions of embedded structs ([PIn]) or of
    pointers to embedded structs ([PVia], codec.go:485-502, 621-626), the last step being
    the field itself. *)
Inductive pstep := PIn (i : nat) | PVia (i s : nat) (unexported : bool).
(** codec.go:668-705 *)
Inductive quot := QNo | QStr | QInt.
(** codec.go:935-947 structField *)
Record jfield := JField { jf_name : bytes; jf_path : list pstep; jf_ty : gty; jf_quot : quot }.

(** The environment: the struct types ([v_decl i] are the types of the fields
    of struct i, [v_flds i] its JSON fields) and the standard library and
    user-defined functions the decoders call: strconv.ParseFloat, time.Parse,
    time.ParseDuration, base64 decoding, UnmarshalJSON and UnmarshalText (from
    the text and the state of the receiver to the error and the new state),
    strings.ToLower, unicode.SimpleFold.  [v_depth] bounds the nesting of struct
    values. *)
(** codec.go:930-947 structType, and the library functions decode.go and parse.go call *)
Record tenv := TEnv {
  v_decl : nat -> list gty; v_depth : nat; v_flds : nat -> list jfield;
  v_float : bool -> bytes -> option fl; v_time : bytes -> option bytes; v_dur : bytes -> option Z;
  v_b64 : bytes -> option bytes;
  v_json : nat -> bytes -> bytes -> option err * bytes; v_text : nat -> bytes -> bytes -> option err * bytes;
  v_lower : bytes -> bytes; v_fold : Z -> Z }.

Section Typed.
Context (V : tenv) (F : dflags).

(** reflect.Zero; [n] bounds the nesting of struct values *)
(** reflect.New and reflect.Zero at decode.go:661, 675, 964, 983 and codec.go:427 *)
Fixpoint zero_f (n : nat) : gty -> mem :=
  fix z (t : gty) : mem :=
  match t with
  | YBool => MBool false
  | YInt _ | YDuration => MInt 0
  | YFloat _ => MFloat (FZero false)
  | YNumber | YString => MStr []
  | YBytes => MBytes None
  | YTime => MTime (bs "0001-01-01T00:00:00Z")
  | YIface | YNamedIface _ => MIface JVNull
  | YRaw => MRaw None
  | YArray n e => MList (repeat (z e) n)
  | YSlice _ => MSlice None
  | YMap _ _ | YMapSI | YMapSR => MMap None
  | YPtr _ => MPtr None
  | YStruct i => match n with O => MList [] | S n' => MList (map (zero_f n') (v_decl V i)) end
  | YJSON _ | YText _ | YUnsupported => MUser []
  end.
(** reflect.New and reflect.Zero at decode.go:661, 675, 964, 983 *)
Definition zero (t : gty) : mem := zero_f (v_depth V) t.

(** Memory that does not fit the type. *)
(** no code: the model's own error *)
Definition bad (b : bytes) (m : mem) : dres mem := DR b (Some EPanicked) m.

(** decode.go:299-318 decodeFromString.  parseStringUnquote returns no text
    with its errors on a malformed literal (parse.go:433-447), so inputError
    sees an empty slice; [NB: what is left of the input is dropped]. *)
Definition decode_from_string {A} (dec : bytes -> A -> dres A) (b : bytes) (cur : A) : dres A :=
  if has_null_prefix b then dec b cur
  else match parse_string_unquote b [] with
       | QErr _ _ => in_err [] cur
       | QPanic => DR b (Some EPanicked) cur
       | QFuel => DR b (Some EFuel) cur
       | QOk v r _ =>
           let x := dec v cur in
           match d_err x with
           | Some e => DR r (Some e) (d_val x)
           | None => match skip_spaces (d_rest x) with
                     | [] => DR r None (d_val x)
                     | _ => DR r (Some ESyntax) (d_val x)
                     end
           end
       end.

(** parse.go:690-699 hasLeadingSign, hasLeadingZeroes *)
Definition has_leading_zeroes (v : bytes) : bool :=
  let v := match v with c :: v' => if (c =? 45) || (c =? 43) then v' else v | [] => v end in
  match v with c :: d :: _ => (c =? 48) && is_digit d | _ => false end.
(** decode.go:358-375: removal of leading zeroes *)
Fixpoint drop_zeroes (v : bytes) : bytes :=
  match v with
  | c :: v' => match v' with
               | d :: _ => if (c =? 48) && is_digit d then drop_zeroes v' else v
               | [] => v
               end
  | [] => v
  end.
(** decode.go:358-375 *)
Definition strip_zeroes (v : bytes) : bytes :=
  if has_leading_zeroes v
  then match v with
       | c :: v' => if (c =? 45) || (c =? 43) then c :: drop_zeroes v' else drop_zeroes v
       | [] => v
       end
  else v.
(** decode.go:320-403 decodeFromStringToInt; NB 349: the empty string is not
    consumed; 398: the error of trailing bytes returns the rest of the string *)
Definition decode_from_string_int {A} (pf : bytes -> option fl) (dec : bytes -> A -> dres A) (b : bytes) (cur : A) : dres A :=
  if has_null_prefix b then dec b cur
  else
    let quoted :=
      match parse_string_unquote b [] with
      | QErr _ _ => in_err [] cur
      | QPanic => DR b (Some EPanicked) cur
      | QFuel => DR b (Some EFuel) cur
      | QOk v r _ =>
          let v := strip_zeroes v in
          let x := dec v cur in
          match d_err x with
          | Some ESyntax => DR r (Some (match v with 45 :: _ => EType | _ => EOther end)) (d_val x)
          | Some e =>
              let e := match parse_number v with
                       | POk _ _ => e
                       | PErr _ _ => match parseValue v with POk _ _ => EOther | PErr _ _ => e end
                       end in
              DR r (Some e) (d_val x)
          | None => match d_rest x with
                    | [] => DR r None (d_val x)
                    | u => DR u (Some EType) (d_val x)
                    end
          end
      end in
    match b with
    | [] => quoted
    | c :: b1 =>
        if negb (c =? cQUOTE) then
          match parse_number b with
          | PErr r _ => DR r (Some EOther) cur
          | POk v r =>
              if existsb (fun c => (c =? 46) || (c =? 101) || (c =? 69)) v
              then match pf v with None => DR r (Some EType) cur | Some _ => DR r (Some EOther) cur end
              else DR r (Some EOther) cur
          end
        else match b1 with
             | c1 :: _ => if c1 =? cQUOTE then DR b (Some EOther) cur else quoted
             | [] => quoted
             end
    end.

(** decode.go:405-439 decodeBytes (the capacity beyond the decoded bytes is not
    modelled) *)
Definition decode_bytes (b : bytes) (cur : sl Z) : dres (sl Z) :=
  if has_null_prefix b then DR (skipn 4 b) None None
  else if Nat.ltb (length b) 2 then in_err b cur
  else match b with
       | c :: _ =>
           if negb (c =? cQUOTE) then
             if c =? cLBRACK then decode_slice (decode_int TUint8) 0 b cur else in_err b cur
           else match parse_string_unquote b [] with
                | QErr _ _ => in_err b cur
                | QPanic => DR b (Some EPanicked) cur
                | QFuel => DR b (Some EFuel) cur
                | QOk v r _ => match v_b64 V v with
                               | None => DR r (Some EBase64) cur
                               | Some x => DR r None (Some (length x, x))
                               end
                end
       | [] => in_err b cur
       end.

(** decode.go:464-469, 489-494: the text up to the next quote (no escapes) *)
Definition decode_quoted {A} (parse : bytes -> option A) (b : bytes) (cur : A) : dres A :=
  if Nat.ltb (length b) 2 then in_err b cur
  else match b with
       | c :: b1 =>
           if negb (c =? cQUOTE) then in_err b cur
           else match index_byte cQUOTE b1 with
                | None => in_err b cur
                | Some i => match parse (firstn i b1) with
                            | None => in_err b cur
                            | Some v => DR (skipn (S i) b1) None v
                            end
                end
       | [] => in_err b cur
       end.
(** decode.go:441-478 decodeDuration *)
Definition decode_duration (b : bytes) (cur : Z) : dres Z :=
  if has_null_prefix b then DR (skipn 4 b) None cur
  else match b with
       | c :: _ =>
           if negb (c =? cQUOTE) then
             match parse_int b with
             | IErr _ _ => in_err b cur
             | IOk v r => DR r None v
             end
           else decode_quoted (v_dur V) b cur
       | [] => decode_quoted (v_dur V) b cur
       end.
(** decode.go:480-503 decodeTime *)
Definition decode_time (b : bytes) (cur : bytes) : dres bytes :=
  if has_null_prefix b then DR (skipn 4 b) None cur else decode_quoted (v_time V) b cur.

(** decode.go:1086-1095 decodeUnmarshalTypeError *)
Definition decode_type_error (b : bytes) (cur : mem) : dres mem :=
  match parseValue b with
  | PErr r e => DR r (Some e) cur
  | POk _ r => DR r (Some EType) cur
  end.

(** decode.go:1111-1131 decodeJSONUnmarshaler (pointer receivers, so the
    receiver is never nil) *)
Definition decode_json_user (u : nat) (b : bytes) (cur : bytes) : dres bytes :=
  match parseValue b with
  | PErr r e => DR r (Some e) cur
  | POk v r =>
      if rv_null v then DR r None cur
      else let '(e, s) := v_json V u v cur in DR r e s
  end.
(** decode.go:1133-1176 decodeTextUnmarshaler *)
Definition decode_text_user (u : nat) (b : bytes) (cur : bytes) : dres bytes :=
  match parseValue b with
  | PErr r e => DR r (Some e) cur
  | POk v r =>
      if rv_null v then match parse_null v with POk _ _ => DR r None cur | PErr _ e => DR r (Some e) cur end
      else if rv_string v then
        match parse_string_unquote v [] with
        | QErr _ e => DR r (Some e) cur
        | QPanic => DR b (Some EPanicked) cur
        | QFuel => DR b (Some EFuel) cur
        | QOk s _ _ => let '(e, x) := v_text V u s cur in DR r e x
        end
      else DR r (Some EType) cur
  end.

(** The decoder of map keys: codec.go:355-406; a key starts from the zero
    value (decode.go:675) *)
Definition decode_key (k : kty) (b : bytes) : dres mkey :=
  match k with
  | KYString => d_map MKStr (decode_string b [])
  | KYInt t => d_map MKInt (decode_from_string (decode_int t) b 0)
  | KYText u => d_map MKUser (decode_text_user u b [])
  end.

(** parse.go:701-730 appendToLower, foldRune *)
Definition lower_ascii (c : Z) : Z := if (65 <=? c) && (c <=? 90) then c + 32 else c.
(** parse.go:725-730 foldRune *)
Definition fold_rune (r : Z) : Z := lower_ascii (v_fold V r).
(** parse.go:701-723 appendToLower *)
Definition append_to_lower (s : bytes) : bytes :=
  if ascii_valid s then map lower_ascii s else flat_map encode_rune (map fold_rune (runes s)).

(** decode.go:923-928 with codec.go:458-467: fieldsIndex keeps the last of the
    fields of a name, ficaseIndex the first of those with the same lower case
    name *)
Definition find_field (fs : list jfield) (k : bytes) : option jfield :=
  match find (fun f => beqb (jf_name f) k) (rev fs) with
  | Some f => Some f
  | None => if d_nocase F then None
            else find (fun f => beqb (v_lower V (jf_name f)) (append_to_lower k)) fs
  end.

(** The address of a field, and decode.go:957-969 decodeEmbeddedStructPointer
    on the way *)
Fixpoint on_path (p : list pstep) (dec : bytes -> mem -> dres mem) (b : bytes) (m : mem) : dres mem :=
  match p with
  | [] => dec b m
  | PIn i :: p' =>
      match m with
      | MList l => match nth_error l i with
                   | Some x => d_map (fun y => MList (set_nth i y l)) (on_path p' dec b x)
                   | None => bad b m
                   end
      | _ => bad b m
      end
  | PVia i s unexp :: p' =>
      match m with
      | MList l => match nth_error l i with
                   | Some (MPtr (Some x)) => d_map (fun y => MList (set_nth i (MPtr (Some y)) l)) (on_path p' dec b x)
                   | Some (MPtr None) =>
                       if unexp then DR [] (Some EOther) m
                       else d_map (fun y => MList (set_nth i (MPtr (Some y)) l)) (on_path p' dec b (zero (YStruct s)))
                   | _ => bad b m
                   end
      | _ => bad b m
      end
  end.

(** codec.go:668-705 stringify *)
Definition decode_field (f : jfield) (dec : bytes -> mem -> dres mem) : bytes -> mem -> dres mem :=
  match jf_quot f with
  | QNo => dec
  | QStr => decode_from_string dec
  | QInt => decode_from_string_int (v_float V true) dec
  end.

(** The decoder of a type.  [n] is fuel: it decreases at every struct, which
    consumes an opening brace. *)
(** decode.go:17-1176 through codec.go:79-440 *)
Fixpoint dec_ty (n : nat) : gty -> bytes -> mem -> dres mem :=
  fix go (t : gty) (b : bytes) (cur : mem) {struct t} : dres mem :=
  match t with
  | YBool => match cur with MBool x => d_map MBool (decode_bool b x) | _ => bad b cur end
  | YInt it => match cur with MInt x => d_map MInt (decode_int it b x) | _ => bad b cur end
  | YFloat w => match cur with MFloat x => d_map MFloat (decode_float (v_float V w) b x) | _ => bad b cur end
  | YNumber => match cur with MStr x => d_map MStr (decode_number b x) | _ => bad b cur end
  | YString => match cur with MStr x => d_map MStr (decode_string b x) | _ => bad b cur end
  | YBytes => match cur with MBytes x => d_map MBytes (decode_bytes b x) | _ => bad b cur end
  | YDuration => match cur with MInt x => d_map MInt (decode_duration b x) | _ => bad b cur end
  | YTime => match cur with MTime x => d_map MTime (decode_time b x) | _ => bad b cur end
  | YIface =>
      match cur with MIface x => d_map MIface (decode_interface (d_usenum F) (v_float V true) b x) | _ => bad b cur end
  | YNamedIface empty =>
      (* decode.go:1069-1084 decodeMaybeEmptyInterface *)
      match cur with
      | MIface x =>
          if has_null_prefix b then DR (skipn 4 b) None (MIface JVNull)
          else match x with
               | JVNull => if empty
                           then d_map MIface (parse_with (decode_interface (d_usenum F) (v_float V true)) b JVNull)
                           else decode_type_error b cur
               | _ => decode_type_error b cur
               end
      | _ => bad b cur
      end
  | YRaw => match cur with MRaw x => d_map MRaw (decode_raw b x) | _ => bad b cur end
  | YArray k e =>
      match cur with
      | MList l => if Nat.eqb (length l) k then d_map MList (decode_array (go e) b l) else bad b cur
      | _ => bad b cur
      end
  | YSlice e => match cur with MSlice s => d_map MSlice (decode_slice (go e) (zero e) b s) | _ => bad b cur end
  | YMap k e =>
      match cur with MMap m => d_map MMap (decode_map mkey_eqb (decode_key k) (go e) (zero e) b m) | _ => bad b cur end
  | YMapSI =>
      match cur with
      | MMap m => d_map MMap (decode_map mkey_eqb (decode_key KYString)
                                (fun b x => d_map MIface (decode_interface (d_usenum F) (v_float V true) b JVNull)) (MIface JVNull) b m)
      | _ => bad b cur
      end
  | YMapSR =>
      match cur with
      | MMap m => d_map MMap (decode_map mkey_eqb (decode_key KYString)
                                (fun b x => d_map MRaw (decode_raw b None)) (MRaw None) b m)
      | _ => bad b cur
      end
  | YPtr e =>
      (* decode.go:971-988 decodePointer *)
      match cur with
      | MPtr p =>
          if has_null_prefix b then
            match p, e with
            | Some x, YPtr _ => d_map (fun y => MPtr (Some y)) (go e b x)
            | _, _ => DR (skipn 4 b) None (MPtr None)
            end
          else d_map (fun y => MPtr (Some y)) (go e b (match p with Some x => x | None => zero e end))
      | _ => bad b cur
      end
  | YStruct i =>
      match n with
      | O => DR b (Some EFuel) cur
      | S n' =>
          match cur with
          | MList _ =>
              decode_struct
                (fun k => match find_field (v_flds V i) k with
                          | Some f => Some (on_path (jf_path f) (decode_field f (dec_ty n' (jf_ty f))))
                          | None => None
                          end) (d_disallow F) b cur
          | _ => bad b cur
          end
      end
  | YJSON u => match cur with MUser s => d_map MUser (decode_json_user u b s) | _ => bad b cur end
  | YText u => match cur with MUser s => d_map MUser (decode_text_user u b s) | _ => bad b cur end
  | YUnsupported => match cur with MUser _ => decode_type_error b cur | _ => bad b cur end
  end.

(** Fuel that always suffices (TypeFacts.v). *)
(** c.decode at json.go:230 *)
Definition decode (t : gty) (b : bytes) (cur : mem) : dres mem := dec_ty (S (length b)) t b cur.

(** json.go:193-205 Unmarshal of a non-nil pointer to a [t] *)
Definition unmarshal (t : gty) (b : bytes) (cur : mem) : option err * mem := unmarshal_with (decode t) b cur.
(** json.go:209-232 Parse, likewise *)
Definition parse (t : gty) (b : bytes) (cur : mem) : dres mem := parse_with (decode t) b cur.

(** decode.go:990-1010: an interface{} that holds a pointer to a [t] ([None]: a
    nil pointer).  The result is what the interface then holds: None is nil,
    Some p the pointer. *)
Definition decode_iface_ptr (t : gty) (b : bytes) (p : option mem) : dres (option (option mem)) :=
  if has_null_prefix b && match p, t with Some _, YPtr _ => false | _, _ => true end
  then DR (skipn 4 b) None None
  else match p with
       | None =>
           (* json.go:213-220: Parse of a nil pointer *)
           match parseValue (skip_spaces b) with
           | PErr r e => DR (skip_spaces r) (Some e) None
           | POk _ r => DR (skip_spaces r) (Some EInvalidUnmarshal) None
           end
       | Some m =>
           let x := parse t b m in
           DR (d_rest x) (d_err x) (match d_err x with None => Some (Some (d_val x)) | Some _ => None end)
       end.
End Typed.
