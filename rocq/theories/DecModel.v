(** Model of /repo/decode.go: the decoders that do not depend on the target's
    type, the element loops, and interface{} decoding.  A decoder takes the
    input and the current content of the target and returns the remaining
    input, the error, and the new content (IntModel.v [dres]).  A run-time panic
    is the model-only error [EPanicked]. *)
From Verif Require Import Bytes AsciiModel Utf8Model ParseModel IntModel StringModel EncModel.

(** inputError(b, t) as the result of a decoder: codec.go:972-981 *)
Definition in_err {A} (b : bytes) (cur : A) : dres A :=
  let '(r, e) := input_error b in DR r (Some e) cur.

(** Parse flags used by the decoders (json.go:36-66).  The DontCopy flags only
    decide whether memory is shared and are not modelled. *)
Record dflags := DFlags { d_usenum : bool; d_disallow : bool; d_nocase : bool }.

(** decode.go:17-22 decodeNull (the target is not written) *)
Definition decode_null {A} (b : bytes) (cur : A) : dres A :=
  if has_null_prefix b then DR (skipn 4 b) None cur else in_err b cur.
(** decode.go:24-40 decodeBool *)
Definition decode_bool (b : bytes) (cur : bool) : dres bool :=
  if has_true_prefix b then DR (skipn 4 b) None true
  else if has_false_prefix b then DR (skipn 5 b) None false
  else if has_null_prefix b then DR (skipn 4 b) None cur
  else in_err b cur.
(** decode.go:220-256 decodeFloat32, decodeFloat64; [pf] is strconv.ParseFloat
    on a JSON number, None being an error (out of range). *)
Definition decode_float (pf : bytes -> option fl) (b : bytes) (cur : fl) : dres fl :=
  if has_null_prefix b then DR (skipn 4 b) None cur
  else match parse_number b with
       | PErr _ _ => in_err b cur
       | POk v r => match pf v with
                    | None => in_err b cur
                    | Some f => DR r None f
                    end
       end.
(** decode.go:258-275 decodeNumber *)
Definition decode_number (b : bytes) (cur : bytes) : dres bytes :=
  if has_null_prefix b then DR (skipn 4 b) None cur
  else match parse_number b with
       | PErr _ _ => in_err b cur
       | POk v r => DR r None v
       end.
(** decode.go:277-297 decodeString *)
Definition decode_string (b : bytes) (cur : bytes) : dres bytes :=
  if has_null_prefix b then DR (skipn 4 b) None cur
  else match parse_string_unquote b [] with
       | QOk s r _ => DR r None s
       | QErr r e => match b with
                     | [] => in_err b cur
                     | c :: _ => if c =? cQUOTE then DR r (Some e) cur else in_err b cur
                     end
       | QPanic => DR b (Some EPanicked) cur
       | QFuel => DR b (Some EFuel) cur
       end.
(** decode.go:1097-1109 decodeRawMessage *)
Definition decode_raw (b : bytes) (cur : option bytes) : dres (option bytes) :=
  match parseValue b with
  | PErr _ _ => in_err b cur
  | POk v r => DR r None (Some v)
  end.

(** What the container decoders return when the decoder of an element failed
    with [e]: decode.go:630-643, 711-723, 764-776, 817-830, 940-953.  The whole
    container [input] is parsed again: a syntax error in it wins, otherwise the
    container is skipped. *)
Definition elem_err {A} (input : bytes) (e : err) (cur : A) : dres A :=
  match parseValue input with
  | PErr r2 e2 => DR r2 (Some e2) cur
  | POk _ r2 => DR r2 (Some e) cur
  end.

(** A slice in memory: nil, or a length and the backing array. *)
(** codec.go:924-928 slice *)
Definition sl (A : Type) : Type := option (nat * list A).
(** the write through s.data at decode.go:629 *)
Definition set_nth {A} (i : nat) (x : A) (l : list A) : list A := firstn i l ++ x :: skipn (S i) l.
(** decode.go:617-627 and reflect.go extendSlice: called when len = cap *)
Definition grow {A} (zero : A) (d : list A) : list A :=
  d ++ repeat zero (match d with [] => 10%nat | _ => length d end).

(** decode.go:590-646 the loop of decodeSlice; [k] is fuel (one unit per
    element), [len] is s.len and [data] the backing array (None: s.data is
    nil). *)
Fixpoint slice_loop {A} (dec : bytes -> A -> dres A) (zero : A) (input : bytes)
    (k : nat) (b : bytes) (len : nat) (data : option (list A)) : dres (sl A) :=
  let now := match data with None => None | Some d => Some (len, d) end in
  match k with
  | O => DR b (Some EFuel) now
  | S k' =>
    let b := skip_spaces b in
    let d := match data with None => [] | Some d => d end in
    if (match b with c :: _ => c =? cRBRACK | [] => false end) then DR (tl b) None (Some (len, d))
    else
      let elem (b : bytes) :=
        let d := if Nat.eqb len (length d) then grow zero d else d in
        let x := dec b (nth len d zero) in
        match d_err x with
        | None => slice_loop dec zero input k' (d_rest x) (S len) (Some (set_nth len (d_val x) d))
        | Some e => elem_err input e (Some (len, set_nth len (d_val x) d))
        end in
      if Nat.eqb len 0 then elem b
      else match b with
           | [] => DR b (Some ESyntax) now
           | c :: b1 => if c =? cCOMMA then elem (skip_spaces b1) else DR b (Some ESyntax) now
           end
  end.

(** decode.go:570-647 decodeSlice (the fallback of 580-588 to decodeBytes is for
    element types of kind uint8 with their own unmarshaler, not modelled). *)
Definition decode_slice {A} (dec : bytes -> A -> dres A) (zero : A) (b : bytes) (cur : sl A) : dres (sl A) :=
  if has_null_prefix b then DR (skipn 4 b) None None
  else if Nat.ltb (length b) 2 then in_err b cur
  else match b with
       | c :: b1 => if c =? cLBRACK
                    then slice_loop dec zero b (S (length b)) b1 0 (option_map snd cur)
                    else in_err b cur
       | [] => in_err b cur
       end.

(** decode.go:505-565 decodeArray.  First loop: the elements of the array. *)
Fixpoint array_skip (k : nat) (b : bytes) : bytes * option err :=
  (* 536-555: the extra elements; NB: a missing comma is not noticed *)
  match k with
  | O => (b, Some EFuel)
  | S k' =>
    let b := skip_spaces b in
    match b with
    | [] => (b, Some ESyntax)
    | c :: b1 =>
        if c =? cRBRACK then (b1, None)
        else
          let b2 := if c =? cCOMMA then skip_spaces b1 else b in
          match parseValue b2 with
          | PErr r e => (r, Some e)
          | POk _ r => array_skip k' r
          end
    end
  end.
(** the loop decode.go:516-542 *)
Fixpoint arr_loop {A} (dec : bytes -> A -> dres A) (first : bool) (b : bytes) (done todo : list A)
    : dres (list A) :=
  match todo with
  | [] => let '(r, e) := array_skip (S (length b)) b in DR r e done
  | x :: todo' =>
    let b := skip_spaces b in
    let elem (b : bytes) :=
      let y := dec b x in
      match d_err y with
      | None => arr_loop dec false (d_rest y) (done ++ [d_val y]) todo'
      | Some e => DR (d_rest y) (Some e) (done ++ d_val y :: todo')
      end in
    if first then elem b
    else match b with
         | [] => DR b (Some ESyntax) (done ++ todo)
         | c :: b1 =>
             if c =? cCOMMA then elem (skip_spaces b1)
             else if c =? cRBRACK then DR b1 None (done ++ todo)
             else DR b (Some ESyntax) (done ++ todo)
         end
  end.
(** decode.go:505-565 decodeArray *)
Definition decode_array {A} (dec : bytes -> A -> dres A) (b : bytes) (cur : list A) : dres (list A) :=
  if has_null_prefix b then DR (skipn 4 b) None cur
  else if Nat.ltb (length b) 2 then in_err b cur
  else match b with
       | c :: b1 => if c =? cLBRACK then arr_loop dec true b1 [] cur else in_err b cur
       | [] => in_err b cur
       end.

(** codec.go:983-992 objectKeyError *)
Definition key_error (b : bytes) (e : err) : bytes * err :=
  match b with
  | [] => ([], ESyntax)
  | _ => (b, match e with EType => ESyntax | _ => e end)
  end.

(** decode.go:836-866 preprocessInput, and the same statements in decodeMap
    (671-697) and decodeStruct (891-917): the comma, the key and the colon.
    [deck] decodes the key. *)
Definition obj_key {K} (deck : bytes -> dres K) (first : bool) (b : bytes) : (bytes * err) + (bytes * K) :=
  let key (b : bytes) :=
    if has_null_prefix b then inl (b, ESyntax)
    else
      let x := deck b in
      match d_err x with
      | Some e => inl (key_error (d_rest x) e)
      | None =>
          let b := skip_spaces (d_rest x) in
          match b with
          | [] => inl (b, ESyntax)
          | c :: b1 => if c =? cCOLON then inr (skip_spaces b1, d_val x) else inl (b, ESyntax)
          end
      end in
  if first then key b
  else match b with
       | [] => inl (b, ESyntax)
       | c :: b1 => if c =? cCOMMA then key (skip_spaces b1) else inl (b, ESyntax)
       end.

(** A Go map as an association list without duplicate keys; [m[k] = v]. *)
(** m[key] = val: decode.go:725, 778, 832 *)
Fixpoint map_set {K V} (eqb : K -> K -> bool) (k : K) (v : V) (m : list (K * V)) : list (K * V) :=
  match m with
  | [] => [(k, v)]
  | (k', v') :: m' => if eqb k' k then (k, v) :: m' else (k', v') :: map_set eqb k v m'
  end.
(** comparison of the keys of m[key] = val: decode.go:725, 778, 832 *)
Fixpoint beqb (a b : bytes) : bool :=
  match a, b with
  | [], [] => true
  | x :: a', y :: b' => (x =? y) && beqb a' b'
  | _, _ => false
  end.

(** decode.go:649-728 decodeMap, 730-780 decodeMapStringInterface, 782-834
    decodeMapStringRawMessage: the loop.  [k] is fuel.  The map is a reference:
    entries already added stay in it when an error is returned, and are visible
    to the caller iff the target was not nil ([fresh] is false). *)
Fixpoint map_loop {K V} (eqb : K -> K -> bool) (deck : bytes -> dres K) (decv : bytes -> V -> dres V) (zero : V)
    (input : bytes) (fresh : bool) (k : nat) (first : bool) (b : bytes) (m : list (K * V))
    : dres (option (list (K * V))) :=
  let now := if fresh then None else Some m in
  match k with
  | O => DR b (Some EFuel) now
  | S k' =>
    let b := skip_spaces b in
    if (match b with c :: _ => c =? cRBRACE | [] => false end) then DR (tl b) None (Some m)
    else
      match obj_key deck first b with
      | inl (r, e) => DR r (Some e) now
      | inr (b, key) =>
          let x := decv b zero in
          match d_err x with
          | None => map_loop eqb deck decv zero input fresh k' false (d_rest x) (map_set eqb key (d_val x) m)
          | Some e => elem_err input e now
          end
      end
  end.
(** decode.go:649-834 decodeMap and the two special cases *)
Definition decode_map {K V} (eqb : K -> K -> bool) (deck : bytes -> dres K) (decv : bytes -> V -> dres V) (zero : V)
    (b : bytes) (cur : option (list (K * V))) : dres (option (list (K * V))) :=
  if has_null_prefix b then DR (skipn 4 b) None None
  else if Nat.ltb (length b) 2 then in_err b cur
  else match b with
       | c :: b1 =>
           if c =? cLBRACE then
             map_loop eqb deck decv zero b (match cur with None => true | _ => false end) (S (length b)) true b1
               (match cur with None => [] | Some m => m end)
           else in_err b cur
       | [] => in_err b cur
       end.

(** decode.go:868-955 decodeStruct; [look] finds the decoder of a field by name
    (920-925), acting on the whole struct; [disallow] is DisallowUnknownFields. *)
Fixpoint struct_loop {A} (look : bytes -> option (bytes -> A -> dres A)) (disallow : bool) (input : bytes)
    (k : nat) (first : bool) (b : bytes) (cur : A) : dres A :=
  match k with
  | O => DR b (Some EFuel) cur
  | S k' =>
    let b := skip_spaces b in
    if (match b with c :: _ => c =? cRBRACE | [] => false end) then DR (tl b) None cur
    else
      let deck b := match parse_string_unquote b [] with
                    | QOk s r _ => DR r None s
                    | QErr r e => DR r (Some e) []
                    | QPanic => DR b (Some EPanicked) []
                    | QFuel => DR b (Some EFuel) []
                    end in
      match obj_key deck first b with
      | inl (r, e) => DR r (Some e) cur
      | inr (b, key) =>
          match look key with
          | None =>
              if disallow then DR b (Some EOther) cur
              else match parseValue b with
                   | PErr r e => DR r (Some e) cur
                   | POk _ r => struct_loop look disallow input k' false r cur
                   end
          | Some decf =>
              let x := decf b cur in
              match d_err x with
              | None => struct_loop look disallow input k' false (d_rest x) (d_val x)
              | Some e => elem_err input e (d_val x)
              end
          end
      end
  end.
(** decode.go:868-955 decodeStruct *)
Definition decode_struct {A} (look : bytes -> option (bytes -> A -> dres A)) (disallow : bool) (b : bytes) (cur : A)
    : dres A :=
  if has_null_prefix b then DR (skipn 4 b) None cur
  else if Nat.ltb (length b) 2 then in_err b cur
  else match b with
       | c :: b1 => if c =? cLBRACE then struct_loop look disallow b (S (length b)) true b1 cur else in_err b cur
       | [] => in_err b cur
       end.

(** What an interface{} holds after decoding into it. *)
(** decode.go:1017-1055 *)
Inductive jv :=
| JVNull
| JVBool (b : bool)
| JVFloat (f : fl)
| JVNumber (s : bytes)
| JVString (s : bytes)
| JVArr (l : list jv)
| JVMap (m : list (bytes * jv)).

(** val = m, val = a, ...: decode.go:1021, 1026, 1031, 1040 *)
Definition d_map {A B} (f : A -> B) (d : dres A) : dres B := DR (d_rest d) (d_err d) (f (d_val d)).

(** decode.go:990-1067 decodeInterface on an interface that does not hold a
    pointer (the other case, 990-1004, is in TypeModel.v).  [n] is fuel: the
    nesting depth. *)
Fixpoint dec_iface (usenum : bool) (pf : bytes -> option fl) (n : nat) (b : bytes) (cur : jv) : dres jv :=
  match n with
  | O => DR b (Some EFuel) JVNull
  | S n' =>
    match parseValue b with
    | PErr r e => DR r (Some e) JVNull
    | POk v b' =>
        let done (x : dres jv) :=
          match d_err x with
          | Some e => DR b' (Some e) JVNull
          | None => match skip_spaces (d_rest x) with
                    | [] => DR b' None (d_val x)
                    | _ => DR b' (Some ESyntax) JVNull
                    end
          end in
        match v with
        | [] => DR b' (Some EPanicked) JVNull      (* v[0] *)
        | c :: _ =>
            if c =? cLBRACE then
              done (d_map (fun m => match m with None => JVMap [] | Some m => JVMap m end)
                     (decode_map beqb (fun b => decode_string b []) (dec_iface usenum pf n') JVNull v (Some [])))
            else if c =? cLBRACK then
              done (d_map (fun s => match s with None => JVArr [] | Some (len, d) => JVArr (firstn len d) end)
                     (decode_slice (dec_iface usenum pf n') JVNull v (Some (O, repeat JVNull 10))))
            else if c =? cQUOTE then done (d_map JVString (decode_string v []))
            else if c =? cn then done (decode_null v JVNull)
            else if (c =? ct) || (c =? cf) then done (d_map JVBool (decode_bool v false))
            else if is_num_start c then
              if usenum then done (d_map JVNumber (decode_number v []))
              else done (d_map JVFloat (decode_float pf v (FZero false)))
            else DR b' (Some ESyntax) JVNull
        end
    end
  end.

(** Fuel that always suffices (DecFacts.v). *)
(** decode.go:990-1067 decodeInterface *)
Definition decode_interface (usenum : bool) (pf : bytes -> option fl) (b : bytes) (cur : jv) : dres jv :=
  dec_iface usenum pf (S (length b)) b cur.
