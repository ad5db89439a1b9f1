(** The zero value of a Go type (spec: The zero value): false, 0, the empty
    string, nil, the first instant of year 1 in UTC, and for arrays and structs
    the zero values of their elements and fields. *)
From Verif Require Import Bytes IntModel EncModel DecModel TypeModel.

Inductive is_zero (V : tenv) : gty -> mem -> Prop :=
| iz_bool : is_zero V YBool (MBool false)
| iz_int t : is_zero V (YInt t) (MInt 0)
| iz_float w : is_zero V (YFloat w) (MFloat (FZero false))
| iz_number : is_zero V YNumber (MStr [])
| iz_string : is_zero V YString (MStr [])
| iz_bytes : is_zero V YBytes (MBytes None)
| iz_dur : is_zero V YDuration (MInt 0)
| iz_time : is_zero V YTime (MTime (bs "0001-01-01T00:00:00Z"))
| iz_iface : is_zero V YIface (MIface JVNull)
| iz_named e : is_zero V (YNamedIface e) (MIface JVNull)
| iz_raw : is_zero V YRaw (MRaw None)
| iz_array n e l : length l = n -> Forall (is_zero V e) l -> is_zero V (YArray n e) (MList l)
| iz_slice e : is_zero V (YSlice e) (MSlice None)
| iz_map k e : is_zero V (YMap k e) (MMap None)
| iz_map_si : is_zero V YMapSI (MMap None)
| iz_map_sr : is_zero V YMapSR (MMap None)
| iz_ptr e : is_zero V (YPtr e) (MPtr None)
| iz_struct i l : Forall2 (is_zero V) (v_decl V i) l -> is_zero V (YStruct i) (MList l)
| iz_json u : is_zero V (YJSON u) (MUser [])
| iz_text u : is_zero V (YText u) (MUser [])
| iz_unsupported : is_zero V YUnsupported (MUser []).
