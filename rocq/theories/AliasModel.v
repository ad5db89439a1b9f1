(** Model of what decoded values share with the input: the decoders of
    /repo/decode.go again, every string, number and message in memory now with
    the place where its bytes are.  The flags DontCopyString, DontCopyNumber and
    DontCopyRawMessage (json.go:83-113) decide between a copy and a pointer into
    the input. *)
From Verif Require Import Bytes AsciiModel Utf8Model ParseModel IntModel StringModel EncModel DecModel TypeModel.

(** json.go:89, 93, 100 *)
Record cflags := CFlags { k_string : bool; k_number : bool; k_raw : bool }.

(** A string, Number or RawMessage: its bytes when it was stored, and where they
    are: in memory of their own ([None]) or in the input, from an offset on. *)
(** what is stored at decode.go:291, 293 (strings), 269, 271 (Number), 1107 (RawMessage) *)
Record astr := AS { a_text : bytes; a_place : option nat }.

(** Memory as in TypeModel.v. *)
(** decode.go:1017-1055 *)
Inductive ajv :=
| AVNull | AVBool (b : bool) | AVFloat (f : fl) | AVNumber (s : astr) | AVString (s : astr)
| AVArr (l : list ajv) | AVMap (m : list (astr * ajv)).
(** the keys of decode.go:661-725 *)
Inductive akey := AKStr (s : astr) | AKInt (z : Z) | AKUser (s : bytes).
(** what the unsafe.Pointers of decode.go:17-1176 point to *)
Inductive amem :=
| ABool (x : bool) | AInt (z : Z) | AFloat (f : fl) | AStr (s : astr) | ATime (t : bytes)
| ABytes (s : sl Z) | ARaw (r : option astr) | AIface (v : ajv)
| AList (l : list amem)
| ASlice (s : sl amem)
| AMap (m : option (list (akey * amem)))
| APtr (p : option amem)
| AUser (s : bytes).

(** The value, its strings read by [f]. *)
(** reading the interface stored at decode.go:1064 *)
Fixpoint walk_jv (f : astr -> bytes) (v : ajv) : jv :=
  match v with
  | AVNull => JVNull
  | AVBool b => JVBool b
  | AVFloat x => JVFloat x
  | AVNumber s => JVNumber (f s)
  | AVString s => JVString (f s)
  | AVArr l => JVArr (map (walk_jv f) l)
  | AVMap m => JVMap (map (fun kv => match kv with (k, x) => (f k, walk_jv f x) end) m)
  end.
(** reading a key of the map of decode.go:725 *)
Definition walk_key (f : astr -> bytes) (k : akey) : mkey :=
  match k with AKStr s => MKStr (f s) | AKInt z => MKInt z | AKUser s => MKUser s end.
(** reading the target after the decoders of decode.go:24-1176 returned *)
Fixpoint walk (f : astr -> bytes) (m : amem) : mem :=
  match m with
  | ABool x => MBool x
  | AInt z => MInt z
  | AFloat x => MFloat x
  | AStr s => MStr (f s)
  | ATime t => MTime t
  | ABytes s => MBytes s
  | ARaw r => MRaw (option_map f r)
  | AIface v => MIface (walk_jv f v)
  | AList l => MList (map (walk f) l)
  | ASlice s => MSlice (match s with None => None | Some (n, d) => Some (n, map (walk f) d) end)
  | AMap m => MMap (match m with
                    | None => None
                    | Some l => Some (map (fun kv => match kv with (k, x) => (walk_key f k, walk f x) end) l)
                    end)
  | APtr p => MPtr (match p with None => None | Some x => Some (walk f x) end)
  | AUser s => MUser s
  end.

(** Sharing or copying the [s] that [after] bytes of the current slice follow.
    [at] is where in the input the current slice ends (None: it is a slice of
    other memory). *)
(** decode.go:268-272, 290-294, 1103-1107 *)
Definition share (on : bool) (at_ : option nat) (after : nat) (s : bytes) : astr :=
  AS s (if on then option_map (fun e => e - after - length s)%nat at_ else None).
(** The end of a slice that [after] bytes of the current one follow. *)
(** v of decode.go:1012, 304 *)
Definition stop_at (at_ : option nat) (after : nat) : option nat := option_map (fun e => e - after)%nat at_.
(** comparison of the keys of m[key] = val: decode.go:725, 778, 832 *)
Definition aeqb (a b : astr) : bool := beqb (a_text a) (a_text b).
(** the comparison of m.SetMapIndex at decode.go:725 *)
Definition akey_eqb (a b : akey) : bool :=
  match a, b with
  | AKStr x, AKStr y => aeqb x y
  | AKUser x, AKUser y => beqb x y
  | AKInt x, AKInt y => x =? y
  | _, _ => false
  end.

Section Alias.
Context (V : tenv) (F : dflags) (C : cflags).

(** decode.go:258-275 decodeNumber *)
Definition a_number (at_ : option nat) (b : bytes) (cur : astr) : dres astr :=
  if has_null_prefix b then DR (skipn 4 b) None cur
  else match parse_number b with
       | PErr _ _ => in_err b cur
       | POk v r => DR r None (share (k_number C) at_ (length r) v)
       end.
(** decode.go:277-297 decodeString; [isNew]: parseStringUnquote allocated the
    text (parse.go:441-447) *)
Definition a_string (at_ : option nat) (b : bytes) (cur : astr) : dres astr :=
  if has_null_prefix b then DR (skipn 4 b) None cur
  else match parse_string_unquote b [] with
       | QOk s r isNew => DR r None (if isNew then AS s None else share (k_string C) at_ (S (length r)) s)
       | QErr r e => match b with
                     | [] => in_err b cur
                     | c :: _ => if c =? cQUOTE then DR r (Some e) cur else in_err b cur
                     end
       | QPanic => DR b (Some EPanicked) cur
       | QFuel => DR b (Some EFuel) cur
       end.
(** decode.go:1097-1109 decodeRawMessage *)
Definition a_raw (at_ : option nat) (b : bytes) (cur : option astr) : dres (option astr) :=
  match parseValue b with
  | PErr _ _ => in_err b cur
  | POk v r => DR r None (Some (share (k_raw C) at_ (length r) v))
  end.

(** decode.go:990-1067 decodeInterface *)
Fixpoint a_iface_f (n : nat) (at_ : option nat) (b : bytes) (cur : ajv) : dres ajv :=
  match n with
  | O => DR b (Some EFuel) AVNull
  | S n' =>
    match parseValue b with
    | PErr r e => DR r (Some e) AVNull
    | POk v b' =>
        let at_ := stop_at at_ (length b') in
        let done (x : dres ajv) :=
          match d_err x with
          | Some e => DR b' (Some e) AVNull
          | None => match skip_spaces (d_rest x) with
                    | [] => DR b' None (d_val x)
                    | _ => DR b' (Some ESyntax) AVNull
                    end
          end in
        match v with
        | [] => DR b' (Some EPanicked) AVNull
        | c :: _ =>
            if c =? cLBRACE then
              done (d_map (fun m => match m with None => AVMap [] | Some m => AVMap m end)
                     (decode_map aeqb (fun b => a_string at_ b (AS [] None)) (a_iface_f n' at_) AVNull v (Some [])))
            else if c =? cLBRACK then
              done (d_map (fun s => match s with None => AVArr [] | Some (len, d) => AVArr (firstn len d) end)
                     (decode_slice (a_iface_f n' at_) AVNull v (Some (O, repeat AVNull 10))))
            else if c =? cQUOTE then done (d_map AVString (a_string at_ v (AS [] None)))
            else if c =? cn then done (decode_null v AVNull)
            else if (c =? ct) || (c =? cf) then done (d_map AVBool (decode_bool v false))
            else if is_num_start c then
              if d_usenum F then done (d_map AVNumber (a_number at_ v (AS [] None)))
              else done (d_map AVFloat (decode_float (v_float V true) v (FZero false)))
            else DR b' (Some ESyntax) AVNull
        end
    end
  end.
(** decode.go:990-1067 decodeInterface *)
Definition a_iface (at_ : option nat) (b : bytes) (cur : ajv) : dres ajv := a_iface_f (S (length b)) at_ b cur.

(** reflect.New and reflect.Zero at decode.go:661, 675, 964, 983 *)
Fixpoint a_zero_f (n : nat) : gty -> amem :=
  fix z (t : gty) : amem :=
  match t with
  | YBool => ABool false
  | YInt _ | YDuration => AInt 0
  | YFloat _ => AFloat (FZero false)
  | YNumber | YString => AStr (AS [] None)
  | YBytes => ABytes None
  | YTime => ATime (bs "0001-01-01T00:00:00Z")
  | YIface | YNamedIface _ => AIface AVNull
  | YRaw => ARaw None
  | YArray n e => AList (repeat (z e) n)
  | YSlice _ => ASlice None
  | YMap _ _ | YMapSI | YMapSR => AMap None
  | YPtr _ => APtr None
  | YStruct i => match n with O => AList [] | S n' => AList (map (a_zero_f n') (v_decl V i)) end
  | YJSON _ | YText _ | YUnsupported => AUser []
  end.
(** reflect.New and reflect.Zero at decode.go:661, 675, 964, 983 *)
Definition a_zero (t : gty) : amem := a_zero_f (v_depth V) t.
(** no code: the model's own error *)
Definition a_bad (b : bytes) (m : amem) : dres amem := DR b (Some EPanicked) m.

(** decode.go:299-318 decodeFromString: the text is decoded where it is, or
    where parseStringUnquote put it *)
Definition a_from_string {A} (at_ : option nat) (dec : option nat -> bytes -> A -> dres A) (b : bytes) (cur : A) : dres A :=
  if has_null_prefix b then dec at_ b cur
  else match parse_string_unquote b [] with
       | QErr _ _ => in_err [] cur
       | QPanic => DR b (Some EPanicked) cur
       | QFuel => DR b (Some EFuel) cur
       | QOk v r isNew =>
           let x := dec (if isNew then None else stop_at at_ (S (length r))) v cur in
           match d_err x with
           | Some e => DR r (Some e) (d_val x)
           | None => match skip_spaces (d_rest x) with
                     | [] => DR r None (d_val x)
                     | _ => DR r (Some ESyntax) (d_val x)
                     end
           end
       end.
(** decode.go:320-403 decodeFromStringToInt; 361-374 copy the text *)
Definition a_from_string_int {A} (at_ : option nat) (pf : bytes -> option fl) (dec : option nat -> bytes -> A -> dres A) (b : bytes) (cur : A) : dres A :=
  if has_null_prefix b then dec at_ b cur
  else
    let quoted :=
      match parse_string_unquote b [] with
      | QErr _ _ => in_err [] cur
      | QPanic => DR b (Some EPanicked) cur
      | QFuel => DR b (Some EFuel) cur
      | QOk v r isNew =>
          let at_ := if isNew || has_leading_zeroes v then None else stop_at at_ (S (length r)) in
          let v := strip_zeroes v in
          let x := dec at_ v cur in
          match d_err x with
          | Some ESyntax => DR r (Some (match v with 45 :: _ => EType | _ => EOther end)) (d_val x)
          | Some e =>
              let e := match parse_number v with
                       | POk _ _ => e
                       | PErr _ _ => match parseValue v with POk _ _ => EOther | PErr _ _ => e end
                       end in
              DR r (Some e) (d_val x)
          | None => match d_rest x with
                    | [] => DR r None (d_val x)
                    | u => DR u (Some EType) (d_val x)
                    end
          end
      end in
    match b with
    | [] => quoted
    | c :: b1 =>
        if negb (c =? cQUOTE) then
          match parse_number b with
          | PErr r _ => DR r (Some EOther) cur
          | POk v r =>
              if existsb (fun c => (c =? 46) || (c =? 101) || (c =? 69)) v
              then match pf v with None => DR r (Some EType) cur | Some _ => DR r (Some EOther) cur end
              else DR r (Some EOther) cur
          end
        else match b1 with
             | c1 :: _ => if c1 =? cQUOTE then DR b (Some EOther) cur else quoted
             | [] => quoted
             end
    end.

(** decode.go:1086-1095 decodeUnmarshalTypeError *)
Definition a_type_error (b : bytes) (cur : amem) : dres amem :=
  match parseValue b with
  | PErr r e => DR r (Some e) cur
  | POk _ r => DR r (Some EType) cur
  end.
(** The decoder of map keys: codec.go:355-406; a key starts from the zero
    value (decode.go:675) *)
Definition a_key (at_ : option nat) (k : kty) (b : bytes) : dres akey :=
  match k with
  | KYString => d_map AKStr (a_string at_ b (AS [] None))
  | KYInt t => d_map AKInt (decode_from_string (decode_int t) b 0)
  | KYText u => d_map AKUser (decode_text_user V u b [])
  end.
(** decode.go:957-969 decodeEmbeddedStructPointer *)
Fixpoint a_on_path (p : list pstep) (dec : bytes -> amem -> dres amem) (b : bytes) (m : amem) : dres amem :=
  match p with
  | [] => dec b m
  | PIn i :: p' =>
      match m with
      | AList l => match nth_error l i with
                   | Some x => d_map (fun y => AList (set_nth i y l)) (a_on_path p' dec b x)
                   | None => a_bad b m
                   end
      | _ => a_bad b m
      end
  | PVia i s unexp :: p' =>
      match m with
      | AList l => match nth_error l i with
                   | Some (APtr (Some x)) => d_map (fun y => AList (set_nth i (APtr (Some y)) l)) (a_on_path p' dec b x)
                   | Some (APtr None) =>
                       if unexp then DR [] (Some EOther) m
                       else d_map (fun y => AList (set_nth i (APtr (Some y)) l)) (a_on_path p' dec b (a_zero (YStruct s)))
                   | _ => a_bad b m
                   end
      | _ => a_bad b m
      end
  end.
(** codec.go:668-705 stringify *)
Definition a_field (at_ : option nat) (f : jfield) (dec : option nat -> bytes -> amem -> dres amem) : bytes -> amem -> dres amem :=
  match jf_quot f with
  | QNo => dec at_
  | QStr => a_from_string at_ dec
  | QInt => a_from_string_int at_ (v_float V true) dec
  end.

(** decode.go:17-1176 through codec.go:79-440, as TypeModel.dec_ty *)
Fixpoint a_dec (n : nat) : gty -> option nat -> bytes -> amem -> dres amem :=
  fix go (t : gty) (at_ : option nat) (b : bytes) (cur : amem) {struct t} : dres amem :=
  match t with
  | YBool => match cur with ABool x => d_map ABool (decode_bool b x) | _ => a_bad b cur end
  | YInt it => match cur with AInt x => d_map AInt (decode_int it b x) | _ => a_bad b cur end
  | YFloat w => match cur with AFloat x => d_map AFloat (decode_float (v_float V w) b x) | _ => a_bad b cur end
  | YNumber => match cur with AStr x => d_map AStr (a_number at_ b x) | _ => a_bad b cur end
  | YString => match cur with AStr x => d_map AStr (a_string at_ b x) | _ => a_bad b cur end
  | YBytes => match cur with ABytes x => d_map ABytes (decode_bytes V b x) | _ => a_bad b cur end
  | YDuration => match cur with AInt x => d_map AInt (decode_duration V b x) | _ => a_bad b cur end
  | YTime => match cur with ATime x => d_map ATime (decode_time V b x) | _ => a_bad b cur end
  | YIface => match cur with AIface x => d_map AIface (a_iface at_ b x) | _ => a_bad b cur end
  | YNamedIface empty =>
      match cur with
      | AIface x =>
          if has_null_prefix b then DR (skipn 4 b) None (AIface AVNull)
          else match x with
               | AVNull => if empty then d_map AIface (parse_with (a_iface at_) b AVNull) else a_type_error b cur
               | _ => a_type_error b cur
               end
      | _ => a_bad b cur
      end
  | YRaw => match cur with ARaw x => d_map ARaw (a_raw at_ b x) | _ => a_bad b cur end
  | YArray k e =>
      match cur with
      | AList l => if Nat.eqb (length l) k then d_map AList (decode_array (go e at_) b l) else a_bad b cur
      | _ => a_bad b cur
      end
  | YSlice e => match cur with ASlice s => d_map ASlice (decode_slice (go e at_) (a_zero e) b s) | _ => a_bad b cur end
  | YMap k e =>
      match cur with AMap m => d_map AMap (decode_map akey_eqb (a_key at_ k) (go e at_) (a_zero e) b m) | _ => a_bad b cur end
  | YMapSI =>
      match cur with
      | AMap m => d_map AMap (decode_map akey_eqb (a_key at_ KYString) (fun b x => d_map AIface (a_iface at_ b AVNull)) (AIface AVNull) b m)
      | _ => a_bad b cur
      end
  | YMapSR =>
      match cur with
      | AMap m => d_map AMap (decode_map akey_eqb (a_key at_ KYString) (fun b x => d_map ARaw (a_raw at_ b None)) (ARaw None) b m)
      | _ => a_bad b cur
      end
  | YPtr e =>
      match cur with
      | APtr p =>
          if has_null_prefix b then
            match p, e with
            | Some x, YPtr _ => d_map (fun y => APtr (Some y)) (go e at_ b x)
            | _, _ => DR (skipn 4 b) None (APtr None)
            end
          else d_map (fun y => APtr (Some y)) (go e at_ b (match p with Some x => x | None => a_zero e end))
      | _ => a_bad b cur
      end
  | YStruct i =>
      match n with
      | O => DR b (Some EFuel) cur
      | S n' =>
          match cur with
          | AList _ =>
              decode_struct
                (fun k => match find_field V F (v_flds V i) k with
                          | Some f => Some (a_on_path (jf_path f) (a_field at_ f (a_dec n' (jf_ty f))))
                          | None => None
                          end) (d_disallow F) b cur
          | _ => a_bad b cur
          end
      end
  | YJSON u => match cur with AUser s => d_map AUser (decode_json_user V u b s) | _ => a_bad b cur end
  | YText u => match cur with AUser s => d_map AUser (decode_text_user V u b s) | _ => a_bad b cur end
  | YUnsupported => match cur with AUser _ => a_type_error b cur | _ => a_bad b cur end
  end.

(** c.decode at json.go:230 *)
Definition a_decode (t : gty) (at_ : option nat) (b : bytes) (cur : amem) : dres amem := a_dec (S (length b)) t at_ b cur.
(** json.go:193-205 Unmarshal of the input [b] *)
Definition a_unmarshal (t : gty) (b : bytes) (cur : amem) : option err * amem :=
  unmarshal_with (a_decode t (Some (length b))) b cur.
(** json.go:209-232 Parse of the part of some memory that ends at offset [stop] *)
Definition a_parse (t : gty) (stop : nat) (b : bytes) (cur : amem) : dres amem := parse_with (a_decode t (Some stop)) b cur.
End Alias.
