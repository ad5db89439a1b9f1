(** Specification of the option omitempty, from the documentation of
    encoding/json: a field with this option is left out if its value is false,
    0, a nil pointer, a nil interface value, or an array, slice, map or string
    of length zero. *)
From Verif Require Import Bytes EncModel DecModel TypeModel SpecField ViewModel WordModel.
Local Open Scope Z_scope.

(** [user]: which values of the user-defined types (with UnmarshalJSON or
    UnmarshalText) are empty, by their kind. *)
Inductive empty_value (user : bytes -> Prop) : gty -> mem -> Prop :=
| ev_false : empty_value user YBool (MBool false)
| ev_int t : empty_value user (YInt t) (MInt 0)
| ev_duration : empty_value user YDuration (MInt 0)
| ev_float w neg : empty_value user (YFloat w) (MFloat (FZero neg))
| ev_string : empty_value user YString (MStr [])
| ev_number : empty_value user YNumber (MStr [])
| ev_bytes_nil : empty_value user YBytes (MBytes None)
| ev_bytes d : empty_value user YBytes (MBytes (Some (0%nat, d)))
| ev_raw_nil : empty_value user YRaw (MRaw None)
| ev_raw : empty_value user YRaw (MRaw (Some []))
| ev_array e : empty_value user (YArray 0 e) (MList [])
| ev_slice_nil e : empty_value user (YSlice e) (MSlice None)
| ev_slice e d : empty_value user (YSlice e) (MSlice (Some (0%nat, d)))
| ev_map_nil k e : empty_value user (YMap k e) (MMap None)
| ev_map k e : empty_value user (YMap k e) (MMap (Some []))
| ev_map_si m : m = None \/ m = Some [] -> empty_value user YMapSI (MMap m)
| ev_map_sr m : m = None \/ m = Some [] -> empty_value user YMapSR (MMap m)
| ev_ptr e : empty_value user (YPtr e) (MPtr None)
| ev_iface : empty_value user YIface (MIface JVNull)
| ev_named e : empty_value user (YNamedIface e) (MIface JVNull)
| ev_json u s : user s -> empty_value user (YJSON u) (MUser s)
| ev_text u s : user s -> empty_value user (YText u) (MUser s).

(** The fields of a struct that the output must have: those that exist (are not
    behind a nil embedded pointer) and are not both omitempty and empty. *)
Definition wanted (omit : jfield -> bool) (user : bytes -> Prop) (m : mem) (f : jfield) : Prop :=
  exists x, get (jf_path f) m = Some x /\ ~ (omit f = true /\ empty_value user (jf_ty f) x).
(** [picks P l l']: l' has the elements of l with P, in the same order. *)
Inductive picks {A} (P : A -> Prop) : list A -> list A -> Prop :=
| pk_nil : picks P [] []
| pk_take x l l' : P x -> picks P l l' -> picks P (x :: l) (x :: l')
| pk_drop x l l' : ~ P x -> picks P l l' -> picks P (x :: l) l'.

(** In terms of words: an interface is nil if both its words are (a non-nil one
    has a type); a string or slice is empty if its length is 0. *)
Definition zero_at (k : tkind) (h : heap) (a : Z) : Prop :=
  match k with
  | T8 => h a mod 256 = 0
  | T16 => h a mod 65536 = 0
  | T32 => h a mod 4294967296 = 0
  | T64 | TPointer => h a = 0
  | TLen => h (a + 1) = 0
  | TInterface => h a = 0 /\ h (a + 1) = 0
  end.
(** Where the field is. *)
Definition field_at (h : heap) (s : Z) (f : fplace) : Z :=
  match f with FHere off => s + off | FBehind off sub => h (s + off) + sub end.
