(** Nesting of JSON texts. *)
From Verif Require Import Bytes SpecJson SpecType EncModel DecModel TypeModel.

(** The depth of the deepest value: how many arrays and objects it is inside
    of.  The whole value is inside of none. *)
Fixpoint nest (a : jast) : nat :=
  match a with
  | JArr l => list_max (map (fun v => S (nest v)) l)
  | JObj l => list_max (map (fun kv => match kv with (_, v) => S (nest v) end) l)
  | _ => 0
  end.
(** The opening brackets and braces of a byte string, also those in strings. *)
Fixpoint opens (b : bytes) : nat :=
  match b with
  | [] => 0
  | c :: b => (if (c =? 91) || (c =? 123) then 1 else 0) + opens b
  end.

(** [[[...]]], n deep. *)
Definition tower (n : nat) : bytes := repeat 91 n ++ repeat 93 n.

(** How many pointers, arrays, slices and maps a type is made of, one inside
    the other, down to a struct or a type without parts: 3 for **[]int. *)
Fixpoint layers (t : gty) : nat :=
  match t with
  | YArray _ e | YSlice e | YMap _ e | YPtr e => S (layers e)
  | _ => 0
  end.
(** The pointers to embedded structs on the way to a field. *)
Fixpoint pointers (p : list pstep) : nat :=
  match p with
  | [] => 0
  | PIn _ :: p => pointers p
  | PVia _ _ _ :: p => S (pointers p)
  end.
(** [K] layers and pointers at most in the fields of the structs. *)
Definition plain_fields (V : tenv) (K : nat) : Prop :=
  forall i f, In f (v_flds V i) -> (pointers (jf_path f) + layers (jf_ty f) <= K)%nat.
(** A type with no interface in it, through the structs in [S] also. *)
Fixpoint concrete (S : nat -> Prop) (t : gty) : Prop :=
  match t with
  | YIface | YNamedIface _ | YMapSI => False
  | YArray _ e | YSlice e | YMap _ e | YPtr e => concrete S e
  | YStruct i => S i
  | _ => True
  end.
Definition concrete_structs (V : tenv) (S : nat -> Prop) : Prop := forall i f, S i -> In f (v_flds V i) -> concrete S (jf_ty f).
(** {"k":{"k":...true...}}, n deep. *)
Fixpoint ladder (n : nat) : bytes := match n with O => bs "true" | S n => bs "{""k"":" ++ ladder n ++ bs "}" end.
(** type Ladder struct { K *Ladder `json:"k"` } *)
Definition lad_env : tenv := TEnv (fun _ => [YPtr (YStruct 0)]) 1 (fun _ => [JField (bs "k") [PIn 0] (YPtr (YStruct 0)) QNo])
  (fun _ _ => None) (fun _ => None) (fun _ => None) (fun _ => None) (fun _ s _ => (None, s)) (fun _ s _ => (None, s)) (fun s => s) (fun c => c).
