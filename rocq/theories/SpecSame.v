(** Specification of the round trip of typed values: memory with the same
    content, and values that JSON can carry. *)
From Verif Require Import Bytes IntModel EncModel DecModel SpecJson SpecString SpecRender SpecRaw SpecTrip SpecDec TypeModel SpecFit SpecField ViewModel.

Section Same.
Context (V : tenv).

(** A message with the same tree; the nil message comes back as the message
    null. *)
Definition raw_same (r r' : option bytes) : Prop :=
  match r, r' with
  | None, None => True
  | None, Some s' => s' = bs "null"
  | Some s, Some s' => exists a a', jvalue s a /\ jvalue s' a' /\ same_tree a a'
  | Some _, None => False
  end.
(** Types whose values are compared as they are. *)
Definition leaf (t : gty) : Prop :=
  match t with
  | YBool | YInt _ | YFloat _ | YNumber | YString | YDuration | YTime | YJSON _ | YText _ => True
  | _ => False
  end.

(** [same t m m']: variables of type t with these contents are equal in Go's
    sense (reflect.DeepEqual, except for the nil message): slices up to
    capacity, maps up to order, structs in their JSON fields. *)
Inductive same : gty -> mem -> mem -> Prop :=
| sm_leaf t m : leaf t -> same t m m
| sm_bytes0 : same YBytes (MBytes None) (MBytes None)
| sm_bytes len d d' : (len <= length d')%nat -> firstn len d = firstn len d' -> same YBytes (MBytes (Some (len, d))) (MBytes (Some (len, d')))
| sm_iface v v' : jv_same v v' -> same YIface (MIface v) (MIface v')
| sm_named e v v' : jv_same v v' -> same (YNamedIface e) (MIface v) (MIface v')
| sm_raw r r' : raw_same r r' -> same YRaw (MRaw r) (MRaw r')
| sm_array n e l l' : Forall2 (same e) l l' -> same (YArray n e) (MList l) (MList l')
| sm_slice0 e : same (YSlice e) (MSlice None) (MSlice None)
| sm_slice e len d d' : (len <= length d')%nat -> Forall2 (same e) (firstn len d) (firstn len d') ->
    same (YSlice e) (MSlice (Some (len, d))) (MSlice (Some (len, d')))
| sm_map0 k e : same (YMap k e) (MMap None) (MMap None)
| sm_map k e m m' :
    (forall a x, In (a, x) m -> exists x', In (a, x') m' /\ same e x x') ->
    (forall a x', In (a, x') m' -> exists x, In (a, x) m /\ same e x x') ->
    same (YMap k e) (MMap (Some m)) (MMap (Some m'))
| sm_map_si m m' : same (YMap KYString YIface) m m' -> same YMapSI m m'
| sm_map_sr m m' : same (YMap KYString YRaw) m m' -> same YMapSR m m'
| sm_ptr0 e : same (YPtr e) (MPtr None) (MPtr None)
| sm_ptr e x x' : same e x x' -> same (YPtr e) (MPtr (Some x)) (MPtr (Some x'))
| sm_struct i l l' :
    (forall f x, In f (v_flds V i) -> get (jf_path f) (MList l) = Some x ->
       exists x', get (jf_path f) (MList l') = Some x' /\ same (jf_ty f) x x') ->
    (forall f, In f (v_flds V i) -> get (jf_path f) (MList l) = None -> get (jf_path f) (MList l') = None) ->
    same (YStruct i) (MList l) (MList l').

(** Struct types as Go programs have them: names that are distinct UTF-8 text,
    fields that lie inside the struct and do not overlap. *)
Record env_names : Prop := EnvNames {
  en_names : forall i, NoDup (map jf_name (v_flds V i));
  en_utf8 : forall i f, In f (v_flds V i) -> valid_utf8 (jf_name f);
  en_inside : forall i f, In f (v_flds V i) -> jf_path f <> [];
  en_apart : forall i f g, In f (v_flds V i) -> In g (v_flds V i) -> jf_name f <> jf_name g -> apart (jf_path f) (jf_path g) }.
End Same.

Section Trip.
Context (V : tenv) (W : menv) (F : dflags).

(** Interface content: nil, booleans, finite floats (with UseNumber: Numbers that
    hold a JSON number), UTF-8 strings, slices and maps of such values. *)
Definition tree_ok (v : jv) : Prop :=
  go_tree_of (d_usenum F) (tree v) v /\ forall f, float_in f v -> parses (v_float V true) f.
Definition key_ok (k : kty) (x : mkey) : Prop :=
  match k, x with
  | KYString, MKStr s => valid_utf8 s
  | KYInt t, MKInt z => ity_lo t <= z <= ity_hi t
  | KYText u, MKUser s => exists t, o_text W u s = inl t /\ valid_utf8 t /\ v_text V u t [] = (None, s)
  | _, _ => False
  end.
(** Values that are written as null. *)
Definition null_like (t : gty) (m : mem) : Prop :=
  match t, m with
  | YPtr _, MPtr None | YSlice _, MSlice None | YBytes, MBytes None
  | YMap _ _, MMap None | YMapSI, MMap None | YMapSR, MMap None
  | YIface, MIface JVNull | YNamedIface _, MIface JVNull | YRaw, MRaw None => True
  | YRaw, MRaw (Some s) => jvalue s JNull
  | _, _ => False
  end.
Definition exported (p : list pstep) : Prop := Forall (fun a => match a with PVia _ _ un => un = false | PIn _ => True end) p.
Definition quot_ok (t : gty) : Prop := match t with YJSON _ | YPtr (YJSON _) => False | _ => True end.
Definition left_out (i : nat) (f : jfield) (m : mem) : Prop := o_omit W i f = true /\ field_empty W i f m = true.

(** [trip t m]: a value that JSON can carry. *)
Inductive trip : gty -> mem -> Prop :=
| tr_bool x : trip YBool (MBool x)
| tr_int t z : ity_lo t <= z <= ity_hi t -> trip (YInt t) (MInt z)
| tr_dur z : ity_lo TInt64 <= z <= ity_hi TInt64 -> trip YDuration (MInt z)
| tr_float w f : finite f -> parses (v_float V w) f -> trip (YFloat w) (MFloat f)
| tr_number s : number_lit s -> trip YNumber (MStr s)
| tr_string s : valid_utf8 s -> trip YString (MStr s)
| tr_bytes0 : trip YBytes (MBytes None)
| tr_bytes len d : (len <= length d)%nat -> wf (firstn len d) -> v_b64 V (b64 (firstn len d)) = Some (firstn len d) ->
    trip YBytes (MBytes (Some (len, d)))
| tr_time t : Forall time_char t -> v_time V t = Some t -> trip YTime (MTime t)
| tr_iface v : tree_ok v -> trip YIface (MIface v)
| tr_named0 e : trip (YNamedIface e) (MIface JVNull)
| tr_named v : tree_ok v -> trip (YNamedIface true) (MIface v)
| tr_raw0 : trip YRaw (MRaw None)
| tr_raw s a : jvalue s a -> trip YRaw (MRaw (Some s))
| tr_array n e l : length l = n -> Forall (trip e) l -> trip (YArray n e) (MList l)
| tr_slice0 e : trip (YSlice e) (MSlice None)
| tr_slice e len d : (len <= length d)%nat -> Forall (trip e) (firstn len d) -> trip (YSlice e) (MSlice (Some (len, d)))
| tr_map0 k e : trip (YMap k e) (MMap None)
| tr_map k e m : NoDup (map fst m) -> Forall (fun kv => key_ok k (fst kv) /\ trip e (snd kv)) m -> trip (YMap k e) (MMap (Some m))
| tr_map_si m : trip (YMap KYString YIface) m -> trip YMapSI m
| tr_map_sr m : trip (YMap KYString YRaw) m -> trip YMapSR m
| tr_ptr0 e : trip (YPtr e) (MPtr None)
| tr_ptr e x : trip e x -> ~ null_like e x -> trip (YPtr e) (MPtr (Some x))
(** the fields of nil embedded pointers come before all that are written; a
    field with omitempty is not behind an embedded pointer, and if it is left
    out, it is zero *)
| tr_struct i l :
    (exists pre post, v_flds V i = pre ++ post /\
       Forall (fun f => left_out i f (MList l) \/ get (jf_path f) (MList l) = None) pre /\
       Forall (fun f => left_out i f (MList l) \/ get (jf_path f) (MList l) <> None) post) ->
    (forall f x, In f (v_flds V i) -> get (jf_path f) (MList l) = Some x -> trip (jf_ty f) x /\ exported (jf_path f)) ->
    (forall f, In f (v_flds V i) -> jf_quot f <> QNo -> quot_ok (jf_ty f)) ->
    (forall f, In f (v_flds V i) -> left_out i f (MList l) ->
       direct (jf_path f) = true /\ get (jf_path f) (MList l) = Some (zero V (jf_ty f))) ->
    trip (YStruct i) (MList l)
| tr_json u s t a : o_json W u s = inl (Some t) -> jvalue t a -> a <> JNull ->
    (forall t' a', jvalue t' a' -> same_tree a a' -> v_json V u t' [] = (None, s)) -> trip (YJSON u) (MUser s)
| tr_text u s t : o_text W u s = inl t -> valid_utf8 t -> v_text V u t [] = (None, s) -> trip (YText u) (MUser s).
End Trip.
