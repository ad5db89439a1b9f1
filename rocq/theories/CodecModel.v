(** Model of /repo/codec.go:68-440, 668-760: how the encoder and the decoder of
    a Go type are put together from what package reflect says about the type.
    TypeModel.v and ViewModel.v start from the result. *)
From Verif Require Import Bytes IntModel TypeModel.

(** What t.Implements says: MarshalJSON, MarshalText, UnmarshalJSON,
    UnmarshalText (codec.go:188-210). *)
Record methods := Methods { mj : bool; mt : bool; uj : bool; ut : bool }.
(** The types codec.go:80-114 and 340-351 compare with. *)
Inductive rspec := SNull | SNumber | SBytes | SDuration | STime | SIface | SRaw | SString | SPtr (s : rspec).
(** reflect.Kind with the types a type is made of (numbers in the table of
    types).  A struct is the list of its fields that codec.go:513-592 do not skip:
    [FOwn t str] is a field of type t, with ",string" if [str]; [FEmb t ptr] an
    embedded struct of type t, or an embedded pointer to it.  [ROther]: chan,
    func, complex numbers, unsafe.Pointer. *)
Inductive rfield := FOwn (t : nat) (str : bool) | FEmb (t : nat) (ptr : bool).
(** reflect.Kind, used at codec.go:120-185 *)
Inductive rkind :=
| RBool | RInt (k : ity) | RFloat (wide : bool) | RString | RIface (empty : bool)
| RArray (n e : nat) | RSlice (e : nat) | RMap (k e : nat) | RStruct (fs : list rfield) | RPtr (e : nat) | ROther.
(** reflect.Type: which of the types of codec.go:80-114 it is, its kind, the
    methods of the type and of the pointer to it (codec.go:187). *)
Record rtype := RType { r_spec : option rspec; r_kind : rkind; r_own : methods; r_ptr : methods }.

(** The encoders of encode.go as codec.go combines them.  [EMethod j t p]:
    encodeJSONMarshaler ([j]) or encodeTextMarshaler for type t, [p]: called on
    the pointer.  The wrapper of codec.go:786-790 for values stored in interface
    words is left to WordModel.v. *)
Inductive enc :=
| ENull | ENumber | EBytes | EDuration | ETime | EIface | ERaw
| EBool | EInt (k : ity) | EFloat (wide : bool) | EString | EDynamic (empty : bool)
| EArray (n : nat) (e : enc) | ESlice (e : enc) | EMapSI | EMapSR | EMap (k e : enc) | EKey
| EStruct (t : nat) | EPtr (e : enc) | EQuoted (e : enc) | EEmbPtr (t : nat) (e : enc)
| EMethod (json : bool) (t : nat) (ptr : bool) | EUnsupported.
(** The decoders of decode.go as codec.go:79-213 combines them.  [DQuoted true]:
    decodeFromStringToInt, [DQuoted false]: decodeFromString. *)
Inductive dec :=
| DNull | DNumber | DBytes | DDuration | DTime | DIface | DRaw
| DBool | DInt (k : ity) | DFloat (wide : bool) | DString | DDynamic (empty : bool)
| DArray (n : nat) (e : dec) | DSlice (e : dec) | DMapSI | DMapSR | DMap (k e : dec)
| DStruct (t : nat) | DPtr (e : dec) | DQuoted (int : bool) (e : dec) | DEmbPtr (t : nat) (e : dec)
| DMethod (json : bool) (t : nat) (ptr : bool) | DUnsupported.
(** codec.go:23-27 codec *)
Record codec := Codec { c_enc : enc; c_dec : dec }.

(** codec.go:434-455: the struct types already met, with the codecs of their fields *)
Definition rseen := list (nat * list codec).
(** seen[t]: codec.go:445 *)
Fixpoint rlook (t : nat) (s : rseen) : option (list codec) :=
  match s with
  | [] => None
  | (k, l) :: s' => if (k =? t)%nat then Some l else rlook t s'
  end.
(** seen[t] = st and the assignment to st.fields: codec.go:455-456 *)
Fixpoint rput (t : nat) (l : list codec) (s : rseen) : rseen :=
  match s with
  | [] => [(t, l)]
  | (k, x) :: s' => if (k =? t)%nat then (t, l) :: s' else (k, x) :: rput t l s'
  end.

(** codec.go:80-118, with 707-719 constructPointerCodec for the pointers *)
Fixpoint special (s : rspec) : codec :=
  match s with
  | SNull => Codec ENull DNull
  | SNumber => Codec ENumber DNumber
  | SBytes => Codec EBytes DBytes
  | SDuration => Codec EDuration DDuration
  | STime => Codec ETime DTime
  | SIface => Codec EIface DIface
  | SRaw => Codec ERaw DRaw
  | SString => Codec EString DString   (* by its kind, codec.go:163-164; string has no methods *)
  | SPtr s => Codec (EPtr (c_enc (special s))) (DPtr (c_dec (special s)))
  end.

Section Codec.
Context (decls : nat -> rtype).
(** [decls t]: type number t. *)

(** codec.go:187-210 *)
Definition with_methods (t : nat) (ca : bool) (c : codec) : codec :=
  let own := r_own (decls t) in let ptr := r_ptr (decls t) in
  let e := if ca then if mj ptr then EMethod true t true else if mt ptr then EMethod false t true else c_enc c else c_enc c in
  let e := if mj own then EMethod true t false else if mt own then EMethod false t false else e in
  let d := if uj ptr then DMethod true t true else if ut ptr then DMethod false t true else c_dec c in
  Codec e d.

(** codec.go:668-705 stringify *)
Definition stringify (t : nat) (c : codec) : codec :=
  let k := match r_kind (decls t) with RPtr e => r_kind (decls e) | k => k end in
  match k with
  | RInt _ => Codec (EQuoted (c_enc c)) (DQuoted true (c_dec c))
  | RBool | RFloat _ | RString => Codec (EQuoted (c_enc c)) (DQuoted false (c_dec c))
  | _ => c
  end.

(** codec.go:265-305: slices of a type of kind uint8 *)
Definition slice8 (e : nat) : codec :=
  let own := r_own (decls e) in let ptr := r_ptr (decls e) in
  Codec
    (if mj own then ESlice (EMethod true e false) else if mt own then ESlice (EMethod false e false)
     else if mj ptr then ESlice (EMethod true e true) else if mt ptr then ESlice (EMethod false e true)
     else EBytes)
    (if uj own then DSlice (DMethod true e false) else if ut own then DSlice (DMethod false e false)
     else if uj ptr then DSlice (DMethod true e true) else if ut ptr then DSlice (DMethod false e true)
     else DBytes).

(** codec.go:571-580, 621-626: the codecs of the fields of an embedded struct.
    All of them are kept here: which ones are ambiguous is the subject of
    StructModel.v. *)
Definition emb (t : nat) (ptr : bool) (l : list codec) : list codec :=
  if ptr then map (fun c => Codec (EEmbPtr t (c_enc c)) (DEmbPtr t (c_dec c))) l else l.

(** codec.go:513-609: the loop over the fields; [rec] is constructCodec, [sub]
    constructStructType. *)
Fixpoint rwalk (rec : nat -> rseen -> option (codec * rseen)) (sub : nat -> rseen -> option rseen)
         (fs : list rfield) (s : rseen) : option (list codec * list codec * rseen) :=
  match fs with
  | [] => Some ([], [], s)
  | FOwn t str :: fs' =>
      match rec t s with
      | Some (c, s1) =>
          match rwalk rec sub fs' s1 with
          | Some (own, em, s2) => Some ((if str then stringify t c else c) :: own, em, s2)
          | None => None
          end
      | None => None
      end
  | FEmb t ptr :: fs' =>
      match sub t s with
      | Some s1 =>
          let l := match rlook t s1 with Some l => l | None => [] end in
          match rwalk rec sub fs' s1 with
          | Some (own, em, s2) => Some (own, emb t ptr l ++ em, s2)
          | None => None
          end
      | None => None
      end
  end.

(** codec.go:336-418 constructMapCodec, the codec of a key type; [rec] is
    constructCodec with canAddr false.  The inner option: unsupported key type. *)
Definition key_codec (rec : nat -> rseen -> option (codec * rseen)) (k : nat) (s : rseen) : option (option codec * rseen) :=
  if mt (r_own (decls k)) || ut (r_ptr (decls k)) then Some (Some (Codec (EMethod false k false) (DMethod false k true)), s)
  else match r_kind (decls k) with
       | RString => Some (Some (Codec EKey DString), s)
       | RInt _ =>
           match rec k s with
           | Some (c, s1) => Some (Some (Codec (EQuoted (c_enc c)) (DQuoted false (c_dec c))), s1)
           | None => None
           end
       | _ => Some (None, s)
       end.

(** codec.go:340-351 *)
Definition common_map (k e : nat) : option codec :=
  match r_spec (decls k), r_spec (decls e) with
  | Some SString, Some SIface => Some (Codec EMapSI DMapSI)
  | Some SString, Some SRaw => Some (Codec EMapSR DMapSR)
  | _, _ => None
  end.

(** codec.go:442-471 constructStructType ([rec]: constructCodec, [sub]: this
    function, one level down) *)
Definition rstruct (rec : nat -> rseen -> option (codec * rseen)) (sub : nat -> rseen -> option rseen) (t : nat) (s : rseen) : option rseen :=
  match rlook t s with
  | Some _ => Some s
  | None =>
      match r_kind (decls t) with
      | RStruct fs =>
          match rwalk rec sub fs ((t, []) :: s) with
          | Some (own, em, s1) => Some (rput t (own ++ em) s1)
          | None => None
          end
      | _ => Some s
      end
  end.

(** codec.go:79-213 constructCodec and 442-471 constructStructType.  Fuel: the
    depth of the recursion; None: out of fuel. *)
Fixpoint construct (n : nat) (t : nat) (s : rseen) (ca : bool) {struct n} : option (codec * rseen) :=
  match n with
  | O => None
  | S n =>
      match r_spec (decls t) with
      | Some sp => Some (special sp, s)
      | None =>
          let r :=
            match r_kind (decls t) with
            | RBool => Some (Codec EBool DBool, s)
            | RInt k => Some (Codec (EInt k) (DInt k), s)
            | RFloat w => Some (Codec (EFloat w) (DFloat w), s)
            | RString => Some (Codec EString DString, s)
            | RIface b => Some (Codec (EDynamic b) (DDynamic b), s)
            | RArray k e =>
                match construct n e s ca with
                | Some (c, s1) => Some (Codec (EArray k (c_enc c)) (DArray k (c_dec c)), s1)
                | None => None
                end
            | RSlice e =>
                match r_kind (decls e) with
                | RInt TUint8 => Some (slice8 e, s)
                | _ => match construct n e s true with
                       | Some (c, s1) => Some (Codec (ESlice (c_enc c)) (DSlice (c_dec c)), s1)
                       | None => None
                       end
                end
            | RMap k e =>
                match common_map k e with
                | Some c => Some (c, s)
                | None =>
                    match construct n e s false with
                    | Some (vc, s1) =>
                        match key_codec (fun t s => construct n t s false) k s1 with
                        | Some (Some kc, s2) => Some (Codec (EMap (c_enc kc) (c_enc vc)) (DMap (c_dec kc) (c_dec vc)), s2)
                        | Some (None, s2) => Some (Codec EUnsupported DUnsupported, s2)
                        | None => None
                        end
                    | None => None
                    end
                end
            | RStruct _ =>
                match build_rstruct n t s ca with
                | Some s1 => Some (Codec (EStruct t) (DStruct t), s1)
                | None => None
                end
            | RPtr e =>
                match construct n e s true with
                | Some (c, s1) => Some (Codec (EPtr (c_enc c)) (DPtr (c_dec c)), s1)
                | None => None
                end
            | ROther => Some (Codec EUnsupported DUnsupported, s)
            end in
          match r with
          | Some (c, s1) => Some (with_methods t ca c, s1)
          | None => None
          end
      end
  end
with build_rstruct (n : nat) (t : nat) (s : rseen) (ca : bool) {struct n} : option rseen :=
  match n with
  | O => None
  | S n => rstruct (fun t s => construct n t s ca) (fun t s => build_rstruct n t s ca) t s
  end.

(** codec.go:68-77 constructCachedCodec *)
Definition is_ptr (k : rkind) : bool := match k with RPtr _ => true | _ => false end.
(** codec.go:68-77 constructCachedCodec *)
Definition construct_root (n t : nat) : option (codec * rseen) := construct n t [] (is_ptr (r_kind (decls t))).
End Codec.
