(** Which methods the encoder of a type calls, and which decoder a type gets, as
    the documentation of encoding/json (which jsoncolor follows) has it. *)
From Verif Require Import Bytes IntModel TypeModel CodecModel.

Section Spec.
Context (decls : nat -> rtype).

Definition plain (t : nat) : Prop := r_spec (decls t) = None.
(** MarshalJSON (MarshalText) can be called on a value of type t: it is a method
    of the type, or of the pointer to it and the value has an address. *)
Definition json_usable (a : bool) (t : nat) : Prop := mj (r_own (decls t)) = true \/ (a = true /\ mj (r_ptr (decls t)) = true).
Definition text_usable (a : bool) (t : nat) : Prop := mt (r_own (decls t)) = true \/ (a = true /\ mt (r_ptr (decls t)) = true).

(** The types that have an encoder of their own. *)
Inductive own_enc : rspec -> enc -> Prop :=
| oe_null : own_enc SNull ENull
| oe_number : own_enc SNumber ENumber
| oe_bytes : own_enc SBytes EBytes
| oe_duration : own_enc SDuration EDuration
| oe_time : own_enc STime ETime
| oe_iface : own_enc SIface EIface
| oe_raw : own_enc SRaw ERaw
| oe_string : own_enc SString EString
| oe_ptr s e : own_enc s e -> own_enc (SPtr s) (EPtr e).

(** Kinds ",string" applies to, directly or behind one pointer. *)
Definition basic (k : rkind) : Prop := match k with RBool | RInt _ | RFloat _ | RString => True | _ => False end.
Definition quotable (t : nat) : Prop :=
  match r_kind (decls t) with RPtr e => basic (r_kind (decls e)) | k => basic k end.

(** [right a t e]: e is the encoder for values of type t, [a]: that have an
    address.  A method is used if one can be called, MarshalJSON before
    MarshalText; what has no method is encoded by its kind.  What a pointer or a
    slice holds has an address, what a map holds has none. *)
Inductive right : bool -> nat -> enc -> Prop :=
| ri_own a t sp e : r_spec (decls t) = Some sp -> own_enc sp e -> right a t e
| ri_json a t (p : bool) : plain t -> json_usable a t ->
    (if p then a = true /\ mj (r_ptr (decls t)) = true else mj (r_own (decls t)) = true) -> right a t (EMethod true t p)
| ri_text a t (p : bool) : plain t -> ~ json_usable a t -> text_usable a t ->
    (if p then a = true /\ mt (r_ptr (decls t)) = true else mt (r_own (decls t)) = true) -> right a t (EMethod false t p)
| ri_kind a t e : plain t -> ~ json_usable a t -> ~ text_usable a t -> by_kind a t (r_kind (decls t)) e -> right a t e
with by_kind : bool -> nat -> rkind -> enc -> Prop :=
| bk_bool a t : by_kind a t RBool EBool
| bk_int a t k : by_kind a t (RInt k) (EInt k)
| bk_float a t w : by_kind a t (RFloat w) (EFloat w)
| bk_string a t : by_kind a t RString EString
| bk_iface a t b : by_kind a t (RIface b) (EDynamic b)
| bk_array a t n u e : right a u e -> by_kind a t (RArray n u) (EArray n e)
| bk_bytes a t u : r_kind (decls u) = RInt TUint8 -> ~ json_usable true u -> ~ text_usable true u -> by_kind a t (RSlice u) EBytes
| bk_slice a t u e : r_kind (decls u) <> RInt TUint8 \/ json_usable true u \/ text_usable true u ->
    right true u e -> by_kind a t (RSlice u) (ESlice e)
| bk_map_si a t k u : r_spec (decls k) = Some SString -> r_spec (decls u) = Some SIface -> by_kind a t (RMap k u) EMapSI
| bk_map_sr a t k u : r_spec (decls k) = Some SString -> r_spec (decls u) = Some SRaw -> by_kind a t (RMap k u) EMapSR
| bk_map a t k u kd e : ~ (r_spec (decls k) = Some SString /\ (r_spec (decls u) = Some SIface \/ r_spec (decls u) = Some SRaw)) ->
    key_right k kd -> right false u e -> by_kind a t (RMap k u) (EMap kd e)
| bk_map_bad a t k u : ~ (r_spec (decls k) = Some SString /\ (r_spec (decls u) = Some SIface \/ r_spec (decls u) = Some SRaw)) ->
    r_kind (decls k) <> RString -> (forall i, r_kind (decls k) <> RInt i) ->
    mt (r_own (decls k)) = false -> ut (r_ptr (decls k)) = false -> by_kind a t (RMap k u) EUnsupported
| bk_struct a t fs : by_kind a t (RStruct fs) (EStruct t)
| bk_ptr a t u e : right true u e -> by_kind a t (RPtr u) (EPtr e)
| bk_other a t : by_kind a t ROther EUnsupported
with key_right : nat -> enc -> Prop :=
| kr_text k : mt (r_own (decls k)) = true \/ ut (r_ptr (decls k)) = true -> key_right k (EMethod false k false)
| kr_string k : mt (r_own (decls k)) = false -> ut (r_ptr (decls k)) = false -> r_kind (decls k) = RString -> key_right k EKey
| kr_int k i e : mt (r_own (decls k)) = false -> ut (r_ptr (decls k)) = false -> r_kind (decls k) = RInt i ->
    right false k e -> key_right k (EQuoted e).

(** The encoder of a field, from the encoder of its type. *)
Definition field_enc (t : nat) (str : bool) (e0 e : enc) : Prop :=
  (str = true /\ quotable t /\ e = EQuoted e0) \/ (~ (str = true /\ quotable t) /\ e = e0).
(** A field of a struct of type t, its own or one of an embedded struct. *)
Inductive fright : bool -> nat -> enc -> Prop :=
| fr_own a t fs u str e0 e : r_kind (decls t) = RStruct fs -> In (FOwn u str) fs -> right a u e0 -> field_enc u str e0 e -> fright a t e
| fr_in a t fs u e : r_kind (decls t) = RStruct fs -> In (FEmb u false) fs -> fright a u e -> fright a t e
| fr_via a t fs u e : r_kind (decls t) = RStruct fs -> In (FEmb u true) fs -> fright true u e -> fright a t (EEmbPtr u e).
Fixpoint own_fields (fs : list rfield) : list (nat * bool) :=
  match fs with
  | [] => []
  | FOwn u str :: fs' => (u, str) :: own_fields fs'
  | FEmb _ _ :: fs' => own_fields fs'
  end.
(** The encoders of the fields of a struct: one for each own field, then those
    of embedded structs. *)
Definition struct_right (a : bool) (t : nat) (l : list enc) : Prop :=
  exists fs own em, r_kind (decls t) = RStruct fs /\ l = own ++ em /\
    Forall2 (fun f e => exists e0, right a (fst f) e0 /\ field_enc (fst f) (snd f) e0 e) (own_fields fs) own /\
    Forall (fright a t) em.

(** [occurs t0 a0 t a]: in a value of type t0 ([a0]: with an address) there may
    be values of type t ([a]: with an address).  For embedded structs too; what an
    embedded pointer points to has an address. *)
Inductive occurs (t0 : nat) (a0 : bool) : nat -> bool -> Prop :=
| oc_root : occurs t0 a0 t0 a0
| oc_array t a n u : occurs t0 a0 t a -> plain t -> r_kind (decls t) = RArray n u -> occurs t0 a0 u a
| oc_slice t a u : occurs t0 a0 t a -> plain t -> r_kind (decls t) = RSlice u -> occurs t0 a0 u true
| oc_map t a k u : occurs t0 a0 t a -> plain t -> r_kind (decls t) = RMap k u -> occurs t0 a0 u false
| oc_key t a k u : occurs t0 a0 t a -> plain t -> r_kind (decls t) = RMap k u -> occurs t0 a0 k false
| oc_ptr t a u : occurs t0 a0 t a -> plain t -> r_kind (decls t) = RPtr u -> occurs t0 a0 u true
| oc_field t a fs u str : occurs t0 a0 t a -> r_kind (decls t) = RStruct fs -> In (FOwn u str) fs -> occurs t0 a0 u a
| oc_emb t a fs u : occurs t0 a0 t a -> r_kind (decls t) = RStruct fs -> In (FEmb u false) fs -> occurs t0 a0 u a
| oc_via t a fs u : occurs t0 a0 t a -> r_kind (decls t) = RStruct fs -> In (FEmb u true) fs -> occurs t0 a0 u true.

(** The steps from a type to the types it is made of, other than from a struct
    to its fields. *)
Inductive inner : nat -> nat -> Prop :=
| in_array t n u : plain t -> r_kind (decls t) = RArray n u -> inner t u
| in_slice t u : plain t -> r_kind (decls t) = RSlice u -> r_kind (decls u) <> RInt TUint8 -> inner t u
| in_map t k u : plain t -> r_kind (decls t) = RMap k u ->
    ~ (r_spec (decls k) = Some SString /\ (r_spec (decls u) = Some SIface \/ r_spec (decls u) = Some SRaw)) -> inner t u
| in_ptr t u : plain t -> r_kind (decls t) = RPtr u -> inner t u.

(** The decoders, as the types of TypeModel.v. *)
Definition key_of (d : dec) : option kty :=
  match d with
  | DString => Some KYString
  | DQuoted false (DInt k) => Some (KYInt k)
  | DMethod false u true => Some (KYText u)
  | _ => None
  end.
Fixpoint gty_of (d : dec) : option gty :=
  match d with
  | DNumber => Some YNumber | DBytes => Some YBytes | DDuration => Some YDuration | DTime => Some YTime
  | DIface => Some YIface | DRaw => Some YRaw | DBool => Some YBool | DInt k => Some (YInt k)
  | DFloat w => Some (YFloat w) | DString => Some YString | DDynamic b => Some (YNamedIface b)
  | DArray n e => option_map (YArray n) (gty_of e)
  | DSlice e => option_map YSlice (gty_of e)
  | DMapSI => Some YMapSI | DMapSR => Some YMapSR
  | DMap k e => match key_of k, gty_of e with Some k', Some e' => Some (YMap k' e') | _, _ => None end
  | DStruct t => Some (YStruct t)
  | DPtr e => option_map YPtr (gty_of e)
  | DMethod true t true => Some (YJSON t)
  | DMethod false t true => Some (YText t)
  | DUnsupported => Some YUnsupported
  | DNull | DQuoted _ _ | DEmbPtr _ _ | DMethod _ _ false => None
  end.

Inductive own_gty : rspec -> gty -> Prop :=
| og_number : own_gty SNumber YNumber
| og_bytes : own_gty SBytes YBytes
| og_duration : own_gty SDuration YDuration
| og_time : own_gty STime YTime
| og_iface : own_gty SIface YIface
| og_raw : own_gty SRaw YRaw
| og_string : own_gty SString YString
| og_ptr s g : own_gty s g -> own_gty (SPtr s) (YPtr g).

(** [means t g]: values of type t are decoded as g says.  Decoding always has an
    address, so the methods of the pointer count. *)
Inductive means : nat -> gty -> Prop :=
| mn_own t sp g : r_spec (decls t) = Some sp -> own_gty sp g -> means t g
| mn_json t : plain t -> uj (r_ptr (decls t)) = true -> means t (YJSON t)
| mn_text t : plain t -> uj (r_ptr (decls t)) = false -> ut (r_ptr (decls t)) = true -> means t (YText t)
| mn_kind t g : plain t -> uj (r_ptr (decls t)) = false -> ut (r_ptr (decls t)) = false -> kind_means t (r_kind (decls t)) g -> means t g
with kind_means : nat -> rkind -> gty -> Prop :=
| km_bool t : kind_means t RBool YBool
| km_int t k : kind_means t (RInt k) (YInt k)
| km_float t w : kind_means t (RFloat w) (YFloat w)
| km_string t : kind_means t RString YString
| km_iface t b : kind_means t (RIface b) (YNamedIface b)
| km_array t n u g : means u g -> kind_means t (RArray n u) (YArray n g)
| km_bytes t u : r_kind (decls u) = RInt TUint8 -> uj (r_ptr (decls u)) = false -> ut (r_ptr (decls u)) = false -> kind_means t (RSlice u) YBytes
| km_slice t u g : r_kind (decls u) <> RInt TUint8 \/ uj (r_ptr (decls u)) = true \/ ut (r_ptr (decls u)) = true ->
    means u g -> kind_means t (RSlice u) (YSlice g)
| km_map_si t k u : r_spec (decls k) = Some SString -> r_spec (decls u) = Some SIface -> kind_means t (RMap k u) YMapSI
| km_map_sr t k u : r_spec (decls k) = Some SString -> r_spec (decls u) = Some SRaw -> kind_means t (RMap k u) YMapSR
| km_map t k u kg g : ~ (r_spec (decls k) = Some SString /\ (r_spec (decls u) = Some SIface \/ r_spec (decls u) = Some SRaw)) ->
    key_means k kg -> means u g -> kind_means t (RMap k u) (YMap kg g)
| km_map_bad t k u g : ~ (r_spec (decls k) = Some SString /\ (r_spec (decls u) = Some SIface \/ r_spec (decls u) = Some SRaw)) ->
    r_kind (decls k) <> RString -> (forall i, r_kind (decls k) <> RInt i) ->
    mt (r_own (decls k)) = false -> ut (r_ptr (decls k)) = false -> means u g -> kind_means t (RMap k u) YUnsupported
| km_struct t fs : kind_means t (RStruct fs) (YStruct t)
| km_ptr t u g : means u g -> kind_means t (RPtr u) (YPtr g)
| km_other t : kind_means t ROther YUnsupported
with key_means : nat -> kty -> Prop :=
| ke_text k : mt (r_own (decls k)) = true \/ ut (r_ptr (decls k)) = true -> key_means k (KYText k)
| ke_string k : mt (r_own (decls k)) = false -> ut (r_ptr (decls k)) = false -> r_kind (decls k) = RString -> key_means k KYString
| ke_int k i : mt (r_own (decls k)) = false -> ut (r_ptr (decls k)) = false -> uj (r_ptr (decls k)) = false ->
    plain k -> r_kind (decls k) = RInt i -> key_means k (KYInt i).

(** The decoder of a field, from the decoder of its type: with ",string" numbers
    of integer kind are read by a decoder of their own. *)
Definition base_kind (t : nat) : rkind := match r_kind (decls t) with RPtr e => r_kind (decls e) | k => k end.
Definition field_dec (t : nat) (str : bool) (d0 d : dec) : Prop :=
  ((str = false \/ ~ basic (base_kind t)) /\ d = d0) \/
  (str = true /\ (exists k, base_kind t = RInt k) /\ d = DQuoted true d0) \/
  (str = true /\ basic (base_kind t) /\ (forall k, base_kind t <> RInt k) /\ d = DQuoted false d0).

(** All the methods an encoder (a decoder) calls are methods of the type it
    calls them on.  A decoder can only call methods through the pointer. *)
Fixpoint enc_calls_ok (e : enc) : Prop :=
  match e with
  | EMethod j t p => (if j then mj else mt) ((if p then r_ptr else r_own) (decls t)) = true
  | EArray _ e | ESlice e | EPtr e | EQuoted e | EEmbPtr _ e => enc_calls_ok e
  | EMap k e => enc_calls_ok k /\ enc_calls_ok e
  | _ => True
  end.
Fixpoint dec_calls_ok (d : dec) : Prop :=
  match d with
  | DMethod j t p => p = true /\ (if j then uj else ut) (r_ptr (decls t)) = true
  | DArray _ d | DSlice d | DPtr d | DQuoted _ d | DEmbPtr _ d => dec_calls_ok d
  | DMap k d => dec_calls_ok k /\ dec_calls_ok d
  | _ => True
  end.

(** The struct types whose fields an encoder (a decoder) goes through. *)
Fixpoint enc_structs (e : enc) : list nat :=
  match e with
  | EStruct t => [t]
  | EArray _ e | ESlice e | EPtr e | EQuoted e | EEmbPtr _ e => enc_structs e
  | EMap k e => enc_structs k ++ enc_structs e
  | _ => []
  end.
Fixpoint dec_structs (d : dec) : list nat :=
  match d with
  | DStruct t => [t]
  | DArray _ d | DSlice d | DPtr d | DQuoted _ d | DEmbPtr _ d => dec_structs d
  | DMap k d => dec_structs k ++ dec_structs d
  | _ => []
  end.
(** All of them are in the table. *)
Definition listed (s : rseen) (c : codec) : Prop := forall t, In t (enc_structs (c_enc c) ++ dec_structs (c_dec c)) -> rlook t s <> None.
End Spec.
