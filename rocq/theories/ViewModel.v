(** Model of the encoding side of /repo/codec.go: which encoder the codec of a
    type applies to the memory of a value.  The result is the value given to
    the encoders of EncModel.v. *)
From Verif Require Import Bytes IntModel StringModel EncModel DecModel TypeModel.

(** What the encoder needs besides the decoder's environment: MarshalJSON and
    MarshalText of the user-defined types, which fields have the option
    omitempty (codec.go:533-552), and when a user-defined type counts as empty.
    [o_via]: for a field behind an embedded pointer, codec.go:621-626 keep the
    test of the field itself but apply it to the memory of the pointer, so its
    result is unspecified (NB).  A type with UnmarshalJSON (UnmarshalText) is
    taken to have MarshalJSON (MarshalText) as well. *)
Record menv := MEnv {
  o_json : nat -> bytes -> option bytes + err; o_text : nat -> bytes -> bytes + err;
  o_omit : nat -> jfield -> bool; o_empty : bytes -> bool; o_via : nat -> jfield -> mem -> bool }.

(** json.go:122-142 Append of the dynamic value of an interface: the types that
    decoding into interface{} stores. *)
Fixpoint tree (v : jv) : gval :=
  match v with
  | JVNull => GNil
  | JVBool b => GBool b
  | JVFloat f => GFloat f
  | JVNumber s => GNumber s
  | JVString s => GString s
  | JVArr l => GSlice (Some (map (fun x => match x with JVNull => GIface None | _ => GIface (Some (tree x)) end) l))
  | JVMap m => GMapSI (Some (map (fun e => match e with (k, x) => (k, tree x) end) m))
  end.
(** encode.go:779-781 encodeInterface, 783-785 encodeMaybeEmptyInterface *)
Definition view_iface (v : jv) : gval := match v with JVNull => GIface None | _ => GIface (Some (tree v)) end.

(** helper: the loops of encode.go:374-402 *)
Fixpoint opt_list {A} (l : list (option A)) : option (list A) :=
  match l with
  | [] => Some []
  | Some x :: l' => match opt_list l' with Some xs => Some (x :: xs) | None => None end
  | None :: _ => None
  end.

Section View.
Context (V : tenv) (W : menv).

(** codec.go:355-406, the encoders of map keys *)
Definition view_key (k : kty) (x : mkey) : option EncModel.mkey :=
  match k, x with
  | KYString, MKStr s => Some (KString s)
  | KYInt _, MKInt z => Some (KInt z)
  | KYText u, MKUser s => Some (match o_text W u s with inl t => KText t None | inr e => KText [] (Some e) end)
  | _, _ => None
  end.

(** codec.go:861-918 emptyFuncOf *)
Definition is_empty (t : gty) (m : mem) : bool :=
  match t, m with
  | YBytes, MBytes s => match s with Some (S _, _) => false | _ => true end
  | YRaw, MRaw r => match r with Some (_ :: _) => false | _ => true end
  | YArray n _, _ => match n with O => true | S _ => false end
  | YMap _ _, MMap m | YMapSI, MMap m | YMapSR, MMap m => match m with Some (_ :: _) => false | _ => true end
  | YSlice _, MSlice s => match s with Some (S _, _) => false | _ => true end
  | YString, MStr s | YNumber, MStr s => match s with [] => true | _ => false end
  | YBool, MBool b => negb b
  | YInt _, MInt z | YDuration, MInt z => z =? 0
  | YFloat _, MFloat f => match f with FZero _ => true | _ => false end
  | YPtr _, MPtr p => match p with None => true | Some _ => false end
  | YIface, MIface v | YNamedIface _, MIface v => match v with JVNull => true | _ => false end
  | YJSON _, MUser s | YText _, MUser s => o_empty W s
  | _, _ => false
  end.

(** codec.go:621-626 *)
Fixpoint direct (p : list pstep) : bool :=
  match p with
  | [] => true
  | PIn _ :: p' => direct p'
  | PVia _ _ _ :: _ => false
  end.
(** The value of a field, by its offset, and through embedded pointers
    (encode.go:764-770 encodeEmbeddedStructPointer) *)
Fixpoint view_path (p : list pstep) (g : mem -> option gval) (m : mem) : option gval :=
  match p with
  | [] => g m
  | PIn i :: p' =>
      match m with
      | MList l => match nth_error l i with Some x => view_path p' g x | None => None end
      | _ => None
      end
  | PVia i _ _ :: p' =>
      match m with
      | MList l => match nth_error l i with
                   | Some (MPtr None) => Some (GEmbPtr None)
                   | Some (MPtr (Some x)) => option_map (fun v => GEmbPtr (Some v)) (view_path p' g x)
                   | _ => None
                   end
      | _ => None
      end
  end.
(** codec.go:621-626 *)
Fixpoint test_path (p : list pstep) (q : mem -> bool) (m : mem) : bool :=
  match p with
  | [] => q m
  | PIn i :: p' =>
      match m with
      | MList l => match nth_error l i with Some x => test_path p' q x | None => false end
      | _ => false
      end
  | PVia _ _ _ :: _ => false
  end.
(** encode.go:704-747 with codec.go:861-918 *)
Definition field_empty (i : nat) (f : jfield) (m : mem) : bool :=
  if direct (jf_path f) then test_path (jf_path f) (is_empty (jf_ty f)) m else o_via W i f m.
(** codec.go:668-705 stringify *)
Definition view_quot (q : quot) (v : gval) : gval := match q with QNo => v | _ => GQuoted v end.

(** codec.go:79-213 constructCodec, 265-440: the encoder of a type.  [n] bounds
    the nesting of structs; None: memory that does not fit the type, or nesting
    deeper than [n]. *)
Fixpoint view (n : nat) : gty -> mem -> option gval :=
  fix go (t : gty) (m : mem) {struct t} : option gval :=
  match t, m with
  | YBool, MBool x => Some (GBool x)
  | YInt _, MInt z | YDuration, MInt z => Some (GInt z)
  | YFloat _, MFloat f => Some (GFloat f)
  | YNumber, MStr s => Some (GNumber s)
  | YString, MStr s => Some (GString s)
  | YBytes, MBytes s => Some (GBytes (match s with None => None | Some (len, d) => Some (firstn len d) end))
  | YTime, MTime x => Some (GTime x)
  | YIface, MIface v | YNamedIface _, MIface v => Some (view_iface v)
  | YRaw, MRaw r => Some (GRaw r)
  | YArray _ e, MList l => option_map GArray (opt_list (map (go e) l))
  | YSlice _, MSlice None => Some (GSlice None)
  | YSlice e, MSlice (Some (len, d)) => option_map (fun l => GSlice (Some l)) (opt_list (map (go e) (firstn len d)))
  | YMap _ _, MMap None => Some (GMap None)
  | YMap k e, MMap (Some l) =>
      option_map (fun l => GMap (Some l))
        (opt_list (map (fun kv => match view_key k (fst kv), go e (snd kv) with
                                  | Some a, Some b => Some (a, b)
                                  | _, _ => None
                                  end) l))
  | YMapSI, MMap None => Some (GMapSI None)
  | YMapSI, MMap (Some l) =>
      option_map (fun l => GMapSI (Some l))
        (opt_list (map (fun kv => match kv with (MKStr k, MIface v) => Some (k, tree v) | _ => None end) l))
  | YMapSR, MMap None => Some (GMapSR None)
  | YMapSR, MMap (Some l) =>
      option_map (fun l => GMapSR (Some l))
        (opt_list (map (fun kv => match kv with (MKStr k, MRaw r) => Some (k, r) | _ => None end) l))
  | YPtr _, MPtr None => Some (GPtr None)
  | YPtr e, MPtr (Some x) => option_map (fun g => GPtr (Some g)) (go e x)
  | YStruct i, MList _ =>
      match n with
      | O => None
      | S n' =>
          option_map GStruct
            (opt_list (map (fun f =>
               option_map (pair (FH (jf_name f) (o_omit W i f) (field_empty i f m)))
                 (view_path (jf_path f) (fun x => option_map (view_quot (jf_quot f)) (view n' (jf_ty f) x)) m)) (v_flds V i)))
      end
  | YJSON u, MUser s => Some (GMarshaler (Some (o_json W u s)))
  | YText u, MUser s => Some (GText (Some (o_text W u s)))
  | YUnsupported, MUser _ => Some GUnsupported
  | _, _ => None
  end.
End View.
