(** Model of /repo/decode.go and /repo/codec.go with addresses: the decoders
    read and write a flat memory through pointers, offsets and sizes, as the code
    does with unsafe.Pointer.  TypeModel.v is the same decoders on values without
    addresses; PropsAddr.v relates the two.
    Simplifications: a variable that the decoders read and write as a whole
    (a number, a string, a pointer, a slice header, a reference to a map, an
    interface, what a user-defined type holds) is one cell, at the address of the
    variable; the text of strings, raw messages and interfaces is part of the
    cell.  Memory is allocated at addresses never used before and never freed. *)
From Verif Require Import Bytes ParseModel IntModel StringModel EncModel DecModel TypeModel.

(** What is stored at an address: zeroed memory, a value without references, a
    pointer, a slice header (codec.go:924-928), a reference to a map, a map: its
    keys with the addresses of their values. *)
(** what the unsafe.Pointers of decode.go:17-1176 point to *)
Inductive cell :=
| CZero | CLeaf (m : mem) | CPtr (p : option Z) | CSlice (data : option Z) (len cap : nat)
| CMap (q : option Z) | CObj (l : list (mkey * Z)).
(** Memory: the cells, and the first address that was never allocated. *)
(** the memory decode.go:17-1176 work on *)
Record st := St { hp : Z -> cell; nx : Z }.

(** reflect.Type.Size and Align, and reflect.StructField.Offset of the fields of
    struct type i: what the code reads at codec.go:517, 573, 599, 816-820 *)
Record layout := Layout { l_size : gty -> Z; l_align : gty -> Z; l_off : nat -> nat -> Z }.

(** codec.go:822-827 align *)
Definition align (a size : Z) : Z := if negb (a =? 0) && negb (size mod a =? 0) then (size / a + 1) * a else size.

(** writing through a pointer: decode.go:17-1176 *)
Definition put_cell (a : Z) (c : cell) (h : st) : st := St (fun x => if x =? a then c else hp h x) (nx h).
(** filling n bytes with zero: v.Set(vz) at decode.go:675 *)
Definition fill (a n : Z) (h : st) : st := St (fun x => if (a <=? x) && (x <? a + n) then CZero else hp h x) (nx h).
(** copying n bytes: reflect.Copy at reflect.go:14, m.SetMapIndex at decode.go:725 *)
Definition copy (src dst n : Z) (h : st) : st :=
  St (fun x => if (dst <=? x) && (x <? dst + n) then hp h (x - dst + src) else hp h x) (nx h).
(** reflect.New, reflect.MakeMap: n zeroed bytes (a map takes one) *)
(** decode.go:661, 668, 964, 983 and reflect.go:13 *)
Definition alloc (n : Z) (h : st) : Z * st := (nx h, St (hp (fill (nx h) n h)) (nx h + n)).

Section Addr.
Context (V : tenv) (F : dflags) (L : layout).

(** codec.go:816-820 alignedSize *)
Definition stride (t : gty) : Z := align (l_align L t) (l_size L t).

(** Reading a cell: zeroed memory is the zero value of every type. *)
(** reads such as val := *( *interface{})(p) at decode.go:17-1176 *)
Definition rd_leaf (t : gty) (c : cell) : option mem :=
  match c with CLeaf m => Some m | CZero => Some (zero V t) | _ => None end.
(** decode.go:958, 973, 981 *)
Definition rd_ptr (c : cell) : option (option Z) :=
  match c with CPtr p => Some p | CZero => Some None | _ => None end.
(** decode.go:593 s := ( *slice)(p) *)
Definition rd_slice (c : cell) : option (option Z * nat * nat) :=
  match c with CSlice d l k => Some (d, l, k) | CZero => Some (None, O, O) | _ => None end.
(** decode.go:659, 740, 792 *)
Definition rd_map (c : cell) : option (option Z) :=
  match c with CMap q => Some q | CZero => Some None | _ => None end.
(** the entries of a map: decode.go:725 *)
Definition rd_obj (c : cell) : option (list (mkey * Z)) :=
  match c with CObj l => Some l | CZero => Some [] | _ => None end.

(** A cell of another kind than the type says. *)
(** no code: the model's own error *)
Definition oops (b : bytes) (h : st) : dres st := DR b (Some EPanicked) h.

(** Types whose variables are one cell without references: the decoders of
    decode.go:17-503, 990-1176 *)
Definition leafy (t : gty) : bool :=
  match t with
  | YArray _ _ | YSlice _ | YMap _ _ | YMapSI | YMapSR | YPtr _ | YStruct _ | YBytes => false
  | _ => true
  end.
(** decode.go:17-404, 441-503, 990-1176 *)
Definition m_leaf (t : gty) (a : Z) (b : bytes) (h : st) : dres st :=
  match rd_leaf t (hp h a) with
  | Some m => d_map (fun y => put_cell a (CLeaf y) h) (dec_ty V F 0 t b m)
  | None => oops b h
  end.

(** decode.go:505-565 decodeArray: the loop over the n elements, from element i
    on (k are left) *)
Fixpoint m_arr (dec : Z -> bytes -> st -> dres st) (sz a : Z) (k i : nat) (b : bytes) (h : st) : dres st :=
  match k with
  | O => let '(r, e) := array_skip (S (length b)) b in DR r e h
  | S k' =>
    let b := skip_spaces b in
    let elem (b : bytes) :=
      let y := dec (a + Z.of_nat i * sz) b h in
      match d_err y with
      | None => m_arr dec sz a k' (S i) (d_rest y) (d_val y)
      | Some _ => y
      end in
    if Nat.eqb i 0 then elem b
    else match b with
         | [] => DR b (Some ESyntax) h
         | c :: b1 =>
             if c =? cCOMMA then elem (skip_spaces b1)
             else if c =? cRBRACK then DR b1 None h
             else DR b (Some ESyntax) h
         end
  end.
(** decode.go:505-565 decodeArray *)
Definition m_array (dec : Z -> bytes -> st -> dres st) (sz : Z) (n : nat) (a : Z) (b : bytes) (h : st) : dres st :=
  if has_null_prefix b then DR (skipn 4 b) None h
  else if Nat.ltb (length b) 2 then in_err b h
  else match b with
       | c :: b1 => if c =? cLBRACK then m_arr dec sz a n 0 b1 h else in_err b h
       | [] => in_err b h
       end.

(** decode.go:567-568 the variable empty: its address is not that of any other
    variable *)
Definition addr_empty : Z := -1.
(** reflect.go:11-20 extendSlice; nothing is copied from a nil slice *)
Definition extend (sz : Z) (data : option Z) (len n : nat) (h : st) : Z * st :=
  let '(p, h1) := alloc (Z.of_nat n * sz) h in
  (p, match data with Some d => copy d p (Z.of_nat (Nat.min n len) * sz) h1 | None => h1 end).
(** decode.go:590-646 the loop of decodeSlice; the header is read from memory
    again after every element, as the code does through s.  [k] is fuel. *)
Fixpoint m_slice_loop (dec : Z -> bytes -> st -> dres st) (sz : Z) (a : Z) (input : bytes)
    (k : nat) (b : bytes) (h : st) : dres st :=
  match k with
  | O => DR b (Some EFuel) h
  | S k' =>
    match rd_slice (hp h a) with
    | None => oops b h
    | Some (data, len, cap) =>
      let b := skip_spaces b in
      if (match b with c :: _ => c =? cRBRACK | [] => false end)
      then DR (tl b) None (match data with None => put_cell a (CSlice (Some addr_empty) len cap) h | Some _ => h end)
      else
        let elem (b : bytes) :=
          let h1 := if Nat.eqb len cap
                    then let n := match cap with O => 10%nat | _ => (cap * 2)%nat end in
                         let '(p, h1) := extend sz data len n h in put_cell a (CSlice (Some p) len n) h1
                    else h in
          match rd_slice (hp h1 a) with
          | Some (Some p, _, _) =>
              let x := dec (p + Z.of_nat len * sz) b h1 in
              match d_err x with
              | None =>
                  (* 645: s.len++ *)
                  match rd_slice (hp (d_val x) a) with
                  | Some (data', len', cap') =>
                      m_slice_loop dec sz a input k' (d_rest x) (put_cell a (CSlice data' (S len') cap') (d_val x))
                  | None => oops b h
                  end
              | Some e => elem_err input e (d_val x)
              end
          | _ => oops b h
          end in
        if Nat.eqb len 0 then elem b
        else match b with
             | [] => DR b (Some ESyntax) h
             | c :: b1 => if c =? cCOMMA then elem (skip_spaces b1) else DR b (Some ESyntax) h
             end
    end
  end.
(** decode.go:570-647 decodeSlice; the fallback to decodeBytes
    (580-588) is not modelled, as in DecModel.v *)
Definition m_slice (dec : Z -> bytes -> st -> dres st) (sz : Z) (a : Z) (b : bytes) (h : st) : dres st :=
  if has_null_prefix b then DR (skipn 4 b) None (put_cell a (CSlice None 0 0) h)
  else if Nat.ltb (length b) 2 then in_err b h
  else match b with
       | c :: b1 =>
           if c =? cLBRACK then
             match rd_slice (hp h a) with
             | Some (data, _, cap) => m_slice_loop dec sz a b (S (length b)) b1 (put_cell a (CSlice data 0 cap) h)
             | None => oops b h
             end
           else in_err b h
       | [] => in_err b h
       end.

(** The bytes of a decoded base64 text, at the addresses from p on (as elements
    of type uint8). *)
(** decode.go:430-437: dst and base64.StdEncoding.Decode *)
Fixpoint put_bytes (p sz : Z) (l : bytes) (h : st) : st :=
  match l with
  | [] => h
  | c :: l' => put_bytes (p + sz) sz l' (put_cell p (CLeaf (MInt c)) h)
  end.
(** decode.go:405-439 decodeBytes *)
Definition m_bytes (dec : Z -> bytes -> st -> dres st) (sz : Z) (a : Z) (b : bytes) (h : st) : dres st :=
  if has_null_prefix b then DR (skipn 4 b) None (put_cell a (CSlice None 0 0) h)
  else if Nat.ltb (length b) 2 then in_err b h
  else match b with
       | c :: _ =>
           if negb (c =? cQUOTE) then
             if c =? cLBRACK then m_slice dec sz a b h else in_err b h
           else match parse_string_unquote b [] with
                | QErr _ _ => in_err b h
                | QPanic => oops b h
                | QFuel => DR b (Some EFuel) h
                | QOk v r _ => match v_b64 V v with
                               | None => DR r (Some EBase64) h
                               | Some x =>
                                   let '(p, h1) := alloc (Z.of_nat (length x) * sz) h in
                                   DR r None (put_cell a (CSlice (Some p) (length x) (length x)) (put_bytes p sz x h1))
                               end
                end
       | [] => in_err b h
       end.

(** m.SetMapIndex(k, v) at decode.go:725, m[key] = val at 778 and 832: the value at
    address v is copied to the place the map keeps for the key. *)
Fixpoint slot (k : mkey) (l : list (mkey * Z)) : option Z :=
  match l with
  | [] => None
  | (k', s) :: l' => if mkey_eqb k' k then Some s else slot k l'
  end.
(** decode.go:725, 778, 832 *)
Definition set_index (sz q : Z) (k : mkey) (v : Z) (h : st) : option st :=
  match rd_obj (hp h q) with
  | None => None
  | Some l =>
      match slot k l with
      | Some s => Some (copy v s sz h)
      | None => let '(s, h1) := alloc sz h in Some (put_cell q (CObj (l ++ [(k, s)])) (copy v s sz h1))
      end
  end.
(** decode.go:649-728 decodeMap, 730-834 decodeMapStringInterface,
    decodeMapStringRawMessage: the loop.  [q] is the map, [v] the variable the
    values are decoded into, which is set to zero every time (673-675; a new
    variable in 748, 800).  [k] is fuel. *)
Fixpoint m_map_loop (deck : bytes -> dres mkey) (dec : Z -> bytes -> st -> dres st) (sz : Z) (a q v : Z) (input : bytes)
    (k : nat) (first : bool) (b : bytes) (h : st) : dres st :=
  match k with
  | O => DR b (Some EFuel) h
  | S k' =>
    let h := fill v sz h in
    let b := skip_spaces b in
    if (match b with c :: _ => c =? cRBRACE | [] => false end) then DR (tl b) None (put_cell a (CMap (Some q)) h)
    else
      match obj_key deck first b with
      | inl (r, e) => DR r (Some e) h
      | inr (b, key) =>
          let x := dec v b h in
          match d_err x with
          | None =>
              match set_index sz q key v (d_val x) with
              | Some h1 => m_map_loop deck dec sz a q v input k' false (d_rest x) h1
              | None => oops b (d_val x)
              end
          | Some e => elem_err input e (d_val x)
          end
      end
  end.
(** decode.go:649-834 *)
Definition m_map (deck : bytes -> dres mkey) (dec : Z -> bytes -> st -> dres st) (sz : Z) (a : Z) (b : bytes) (h : st) : dres st :=
  if has_null_prefix b then DR (skipn 4 b) None (put_cell a (CMap None) h)
  else if Nat.ltb (length b) 2 then in_err b h
  else match b with
       | c :: b1 =>
           if c =? cLBRACE then
             match rd_map (hp h a) with
             | None => oops b h
             | Some q0 =>
                 let '(v, h1) := alloc sz h in
                 let '(q, h2) := match q0 with Some q => (q, h1) | None => alloc 1 h1 end in
                 m_map_loop deck dec sz a q v b (S (length b)) true b1 h2
             end
           else in_err b h
       | [] => in_err b h
       end.

(** decode.go:957-969 decodeEmbeddedStructPointer *)
Definition m_emb (s : nat) (unexp : bool) (off : Z) (dec : Z -> bytes -> st -> dres st) (a : Z) (b : bytes) (h : st) : dres st :=
  match rd_ptr (hp h a) with
  | None => oops b h
  | Some (Some v) => dec (v + off) b h
  | Some None =>
      if unexp then DR [] (Some EOther) h
      else let '(v, h1) := alloc (l_size L (YStruct s)) h in dec (v + off) b (put_cell a (CPtr (Some v)) h1)
  end.
(** The offset and the decoder of a JSON field of struct type i: codec.go:571-580,
    598-609, 621-626; the types of embedded structs are looked up on the way. *)
Fixpoint m_field (p : list pstep) (i : nat) (dec : Z -> bytes -> st -> dres st) : Z * (Z -> bytes -> st -> dres st) :=
  match p with
  | [] => (0, dec)
  | PIn k :: p' =>
      let j := match nth_error (v_decl V i) k with Some (YStruct j) => j | _ => O end in
      let '(o, d) := m_field p' j dec in (l_off L i k + o, d)
  | PVia k s unexp :: p' =>
      let '(o, d) := m_field p' s dec in (l_off L i k, m_emb s unexp o d)
  end.

(** codec.go:668-705 stringify *)
Definition m_quot (q : quot) (dec : Z -> bytes -> st -> dres st) (a : Z) : bytes -> st -> dres st :=
  match q with
  | QNo => dec a
  | QStr => decode_from_string (dec a)
  | QInt => decode_from_string_int (v_float V true) (dec a)
  end.

(** The decoder of a type at an address; [n] is fuel, as in TypeModel.v. *)
(** decode.go:17-1176 through codec.go:79-440 *)
Fixpoint m_dec (n : nat) : gty -> Z -> bytes -> st -> dres st :=
  fix go (t : gty) (a : Z) (b : bytes) (h : st) {struct t} : dres st :=
  match t with
  | YBytes => m_bytes (m_leaf (YInt TUint8)) (stride (YInt TUint8)) a b h
  | YArray k e => m_array (go e) (stride e) k a b h
  | YSlice e => m_slice (go e) (stride e) a b h
  | YMap k e => m_map (decode_key V k) (go e) (l_size L e) a b h
  | YMapSI => m_map (decode_key V KYString) (m_leaf YIface) (l_size L YIface) a b h
  | YMapSR => m_map (decode_key V KYString) (m_leaf YRaw) (l_size L YRaw) a b h
  | YPtr e =>
      (* decode.go:971-988 decodePointer *)
      match rd_ptr (hp h a) with
      | None => oops b h
      | Some p =>
          if has_null_prefix b then
            match p, e with
            | Some v, YPtr _ => go e v b h
            | _, _ => DR (skipn 4 b) None (put_cell a (CPtr None) h)
            end
          else match p with
               | Some v => go e v b h
               | None => let '(v, h1) := alloc (l_size L e) h in go e v b (put_cell a (CPtr (Some v)) h1)
               end
      end
  | YStruct i =>
      match n with
      | O => DR b (Some EFuel) h
      | S n' =>
          decode_struct
            (fun k => match find_field V F (v_flds V i) k with
                      | Some f =>
                          let '(o, d) := m_field (jf_path f) i (fun a => m_quot (jf_quot f) (m_dec n' (jf_ty f)) a) in
                          Some (d (a + o))
                      | None => None
                      end) (d_disallow F) b h
      end
  | _ => m_leaf t a b h
  end.

(** c.decode at json.go:230 *)
Definition m_decode (t : gty) (a : Z) (b : bytes) (h : st) : dres st := m_dec (S (length b)) t a b h.
(** json.go:193-205 Unmarshal of the pointer a to a variable of type t *)
Definition m_unmarshal (t : gty) (a : Z) (b : bytes) (h : st) : option err * st := unmarshal_with (m_decode t a) b h.
End Addr.
