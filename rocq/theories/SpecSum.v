(** Independent specification for parts encoded as if alone (C101). *)
From Verif Require Import Bytes EncModel SpecRender.

(** What a call comes to: None for a panic, the text, or the error. *)
Definition result := option (bytes + err).
(** Append to nothing. *)
Definition outcome (c : cfg) (v : gval) : result :=
  match enc c v [] 0 with EPanic => None | ER o _ None => Some (inl o) | ER _ _ (Some e) => Some (inr e) end.
(** One after the other, up to the first that fails. *)
Fixpoint all (l : list result) : option (list bytes + err) :=
  match l with
  | [] => Some (inl [])
  | Some (inl o) :: l' => match all l' with Some (inl os) => Some (inl (o :: os)) | r => r end
  | Some (inr e) :: _ => Some (inr e)
  | None :: _ => None
  end.
Definition then_ {A B} (f : A -> B) (r : option (A + err)) : option (B + err) :=
  match r with Some (inl x) => Some (inl (f x)) | Some (inr e) => Some (inr e) | None => None end.
(** The array and the object with these parts. *)
Definition array_of (cl : option colors) (os : list bytes) : bytes := lbrack cl ++ join (comma cl) os ++ rbrack cl.
Definition object_of (cl : option colors) (os : list bytes) : bytes := lbrace cl ++ join (comma cl) os ++ rbrace cl.
(** The member with this name. *)
Definition member_of (c : cfg) (k : bytes) (r : result) : result :=
  then_ (fun o => paint (e_clrs c) c_key (json_string (e_html c) k) ++ colon (e_clrs c) ++ o) r.
(** The member of a struct, if omitempty does not leave it out. *)
Definition field_of (c : cfg) (hv : fhead * gval) : list result :=
  if f_omitempty (fst hv) && f_empty (fst hv) then [] else [member_of c (f_name (fst hv)) (outcome c (snd hv))].
(** No field is reached through a nil embedded pointer (see C31). *)
Definition reached (c : cfg) (fs : list (fhead * gval)) : Prop := Forall (fun hv => outcome c (snd hv) <> Some (inr ERollback)) fs.
