(** Memory that a Go variable of a type can hold, and environments whose struct
    types are those of a Go program. *)
From Verif Require Import Bytes IntModel EncModel DecModel TypeModel.

Section Fits.
Context (V : tenv).

Definition u8 (z : Z) : Prop := 0 <= z <= 255.
(** A slice has no more elements than cells. *)
Definition sl_ok {A} (Q : A -> Prop) (s : sl A) : Prop :=
  match s with None => True | Some (len, d) => (len <= length d)%nat /\ Forall Q d end.
Definition key_fits (k : kty) (x : mkey) : Prop :=
  match k, x with
  | KYString, MKStr _ => True
  | KYInt t, MKInt z => ity_lo t <= z <= ity_hi t
  | KYText _, MKUser _ => True
  | _, _ => False
  end.

(** [fits t m]: a variable of type t can hold m. *)
Inductive fits : gty -> mem -> Prop :=
| ft_bool x : fits YBool (MBool x)
| ft_int t z : ity_lo t <= z <= ity_hi t -> fits (YInt t) (MInt z)
| ft_float w f : fits (YFloat w) (MFloat f)
| ft_number s : fits YNumber (MStr s)
| ft_string s : fits YString (MStr s)
| ft_bytes s : sl_ok u8 s -> fits YBytes (MBytes s)
| ft_dur z : ity_lo TInt64 <= z <= ity_hi TInt64 -> fits YDuration (MInt z)
| ft_time t : fits YTime (MTime t)
| ft_iface v : fits YIface (MIface v)
| ft_named e v : fits (YNamedIface e) (MIface v)
| ft_raw r : fits YRaw (MRaw r)
| ft_array n e l : length l = n -> Forall (fits e) l -> fits (YArray n e) (MList l)
| ft_slice_nil e : fits (YSlice e) (MSlice None)
| ft_slice e len d : (len <= length d)%nat -> Forall (fits e) d -> fits (YSlice e) (MSlice (Some (len, d)))
| ft_map_nil k e : fits (YMap k e) (MMap None)
| ft_map k e m : Forall (fun kv => key_fits k (fst kv) /\ fits e (snd kv)) m -> fits (YMap k e) (MMap (Some m))
| ft_map_si m : fits (YMap KYString YIface) (MMap m) -> fits YMapSI (MMap m)
| ft_map_sr m : fits (YMap KYString YRaw) (MMap m) -> fits YMapSR (MMap m)
| ft_ptr_nil e : fits (YPtr e) (MPtr None)
| ft_ptr e x : fits e x -> fits (YPtr e) (MPtr (Some x))
| ft_struct i l : Forall2 fits (v_decl V i) l -> fits (YStruct i) (MList l)
| ft_json u s : fits (YJSON u) (MUser s)
| ft_text u s : fits (YText u) (MUser s)
| ft_unsupported s : fits YUnsupported (MUser s).

(** A path that leads from a variable of one type to one of another. *)
Inductive leads : gty -> list pstep -> gty -> Prop :=
| ld_here t : leads t [] t
| ld_in i k u p t : nth_error (v_decl V i) k = Some u -> leads u p t -> leads (YStruct i) (PIn k :: p) t
| ld_via i k j un p t : nth_error (v_decl V i) k = Some (YPtr (YStruct j)) -> leads (YStruct j) p t ->
    leads (YStruct i) (PVia k j un :: p) t.

(** The structs a value of a type contains (not through pointers). *)
Fixpoint holds (t : gty) : list nat :=
  match t with
  | YStruct i => [i]
  | YArray _ e => holds e
  | _ => []
  end.

(** Every JSON field lies where its path leads, no struct contains itself, and
    the library and user functions return proper values. *)
Record env_typed : Prop := EnvTyped {
  et_path : forall i f, In f (v_flds V i) -> leads (YStruct i) (jf_path f) (jf_ty f);
  et_rank : exists rk : nat -> nat, (forall i u j, In u (v_decl V i) -> In j (holds u) -> (rk j < rk i)%nat) /\
                                    (forall i, (rk i < v_depth V)%nat);
  et_dur : forall t z, v_dur V t = Some z -> ity_lo TInt64 <= z <= ity_hi TInt64;
  et_b64 : forall t v, v_b64 V t = Some v -> Forall u8 v;
  et_json : forall u s x y, v_json V u s x <> (Some EPanicked, y);
  et_text : forall u s x y, v_text V u s x <> (Some EPanicked, y) }.
End Fits.
