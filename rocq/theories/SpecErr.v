(** Which types the two directions of "a SyntaxError is returned exactly for
    texts that are not JSON" are proved for. *)
From Verif Require Import Bytes IntModel DecModel TypeModel.

(** Targets of Unmarshal that report every malformed text as such: not an
    integer, not an array, not a map whose keys have their own UnmarshalText,
    and not a struct under DisallowUnknownFields; pointers to such. *)
Fixpoint plain_target (F : dflags) (t : gty) : Prop :=
  match t with
  | YPtr e => plain_target F e
  | YInt _ | YArray _ _ | YMap (KYText _) _ => False
  | YStruct _ => d_disallow F = false
  | _ => True
  end.

(** Types without arrays and without maps whose keys are not strings. *)
Fixpoint mild (t : gty) : Prop :=
  match t with
  | YArray _ _ | YMap (KYInt _) _ | YMap (KYText _) _ => False
  | YSlice e | YPtr e | YMap KYString e => mild e
  | _ => True
  end.
(** Not an integer or a pointer to one. *)
Fixpoint not_integer (t : gty) : Prop :=
  match t with
  | YInt _ => False
  | YPtr e => not_integer e
  | _ => True
  end.
(** ... all struct fields are like that and none has the option ",string" unless it is an integer;
    the user's methods never return a SyntaxError themselves. *)
Record mild_env (V : tenv) : Prop := MildEnv {
  mi_field : forall i f, In f (v_flds V i) -> mild (jf_ty f) /\ jf_quot f <> QStr;
  mi_json : forall u s x, fst (v_json V u s x) <> Some ESyntax;
  mi_text : forall u s x, fst (v_text V u s x) <> Some ESyntax }.
