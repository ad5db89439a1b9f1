(** Specification of re-encoding what was decoded: the types and texts for which
    nothing is lost. *)
From Verif Require Import Bytes IntModel EncModel DecModel SpecJson SpecTime TypeModel ViewModel.

(** The strings of a tree, as they are written between their quotes (keys are
    not counted). *)
Inductive string_in (s : bytes) : jast -> Prop :=
| si_str : string_in s (JStr (34 :: s ++ [34]))
| si_arr l a : In a l -> string_in s a -> string_in s (JArr l)
| si_obj l k a : In (k, a) l -> string_in s a -> string_in s (JObj l).
(** No string of the text is a date and time that cannot be written again (one
    whose offset is a day or more). *)
Definition times_writable (a : jast) : Prop := forall s t, string_in s a -> date_time true s t -> writable t.

(** Types without user-defined methods, without json.Number (its zero value is
    no number) and without pointers to pointers. *)
Definition std_key (k : kty) : Prop := match k with KYText _ => False | _ => True end.
Fixpoint std_ty (t : gty) : Prop :=
  match t with
  | YBool | YInt _ | YFloat _ | YString | YBytes | YDuration | YTime | YIface | YNamedIface _ | YRaw | YMapSI | YMapSR | YStruct _ => True
  | YArray _ e | YSlice e => std_ty e
  | YMap k e => std_key k /\ std_ty e
  | YPtr e => std_ty e /\ match e with YPtr _ => False | _ => True end
  | YNumber | YJSON _ | YText _ | YUnsupported => False
  end.
(** Types of which only the zero value is empty. *)
Definition omit_ok (t : gty) : Prop :=
  match t with YBool | YInt _ | YString | YDuration | YIface | YNamedIface _ | YPtr _ => True | _ => False end.
(** Structs with fields of these types, none of them behind an embedded pointer,
    and with omitempty only where empty means zero. *)
Definition std_env (V : tenv) (W : menv) : Prop :=
  forall i f, In f (v_flds V i) -> direct (jf_path f) = true /\ std_ty (jf_ty f) /\ (o_omit W i f = true -> omit_ok (jf_ty f)).

(** What a variable of type t can hold after any number of calls of Unmarshal
    that succeeded on such texts, starting from the zero value. *)
Inductive filled (V : tenv) (F : dflags) (t : gty) : mem -> Prop :=
| fi_zero : filled V F t (zero V t)
| fi_more x b a y : filled V F t x -> jtext b a -> times_writable a -> unmarshal V F t b x = (None, y) -> filled V F t y.
