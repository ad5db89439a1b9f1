(** The rules of encoding/json for the JSON fields of a struct type, stated
    without the algorithm: which declared fields are candidates, which candidate
    of a name dominates, and in which order the fields come. *)
From Verif Require Import Bytes SpecString IntModel EncModel DecModel TypeModel SpecField StructModel.

(** A tag "name,opt,opt". *)
Definition no_comma (s : bytes) : Prop := ~ In 44 s.
Inductive tag_is : bytes -> bytes -> list bytes -> Prop :=
| ti_name n : no_comma n -> tag_is n n []
| ti_opts n t o os : no_comma n -> tag_is t o os -> tag_is (n ++ 44 :: t) n (o :: os).

Section Rules.
Context (letter : Z -> bool) (decls : nat -> list sfield).

(** Names a tag may give: letters, digits and punctuation except quote,
    backslash, comma, semicolon, backquote and apostrophe. *)
Definition name_char (r : Z) : Prop := letter r = true \/ In r (bs "!#$%&()*+-./:<=>?@[]^_{|}~ ").
Definition tag_name (s : bytes) : Prop := s <> [] /\ exists l, utf8_lossy l s /\ Forall name_char l.

(** The JSON name of a field, and whether it comes from the tag. *)
Inductive json_name (f : sfield) : bytes -> bool -> Prop :=
| jn_tag n os : tag_is (sf_tag f) n os -> tag_name n -> json_name f n true
| jn_go n os : tag_is (sf_tag f) n os -> ~ tag_name n -> json_name f (sf_name f) false.
Definition has_option (f : sfield) (o : bytes) : Prop := exists n os, tag_is (sf_tag f) n os /\ In o os.

(** The option "string" applies to integers, booleans, floating point numbers
    and strings, and to pointers to these. *)
Definition string_kind (t : gty) : quot :=
  match t with
  | YInt _ | YDuration | YPtr (YInt _) | YPtr YDuration => QInt
  | YBool | YFloat _ | YString | YNumber | YPtr YBool | YPtr (YFloat _) | YPtr YString | YPtr YNumber => QStr
  | _ => QNo
  end.

(** Embedded structs and pointers to structs. *)
Inductive struct_type : gty -> nat -> bool -> Prop :=
| st_value j : struct_type (YStruct j) j false
| st_pointer j : struct_type (YPtr (YStruct j)) j true.
(** A struct embedded without a name of its own: its fields are promoted. *)
Definition go_embed (f : sfield) (j : nat) (ptr unexported : bool) : Prop :=
  sf_anon f = true /\ sf_tag f <> bs "-" /\ (exists n, json_name f n false) /\ struct_type (sf_ty f) j ptr /\ unexported = negb (sf_exported f).
(** A field with a name: exported (an embedded struct need not be), not ignored,
    not a struct whose fields are promoted. *)
Definition go_field (f : sfield) (n : bytes) (tagged omit : bool) (q : quot) : Prop :=
  (sf_exported f = true \/ sf_anon f = true /\ exists j ptr, struct_type (sf_ty f) j ptr) /\
  sf_tag f <> bs "-" /\ json_name f n tagged /\
  ~ (exists j ptr un, go_embed f j ptr un) /\
  (omit = true <-> has_option f (bs "omitempty")) /\
  (has_option f (bs "string") /\ q = string_kind (sf_ty f) \/ ~ has_option f (bs "string") /\ q = QNo).

(** The candidates of a struct type: its own fields, and those promoted from
    embedded structs at any depth. *)
Inductive cand : nat -> jfield -> bool -> bool -> Prop :=
| cd_own i k f n tagged omit q :
    nth_error (decls i) k = Some f -> go_field f n tagged omit q -> cand i (JField n [PIn k] (sf_ty f) q) tagged omit
| cd_promoted i k f j ptr un n p t q tagged omit :
    nth_error (decls i) k = Some f -> go_embed f j ptr un -> cand j (JField n p t q) tagged omit ->
    cand i (JField n ((if ptr then PVia k j un else PIn k) :: p) t q) tagged omit.
Definition depth (f : jfield) : nat := length (jf_path f).

(** A candidate is a JSON field if it dominates every other candidate of its
    name: it is less deep, or as deep but the only one with a tag. *)
Definition dominant (i : nat) (f : jfield) (omit : bool) : Prop :=
  exists tagged, cand i f tagged omit /\
    forall g tg om, cand i g tg om -> jf_name g = jf_name f -> jf_path g <> jf_path f ->
      (depth f < depth g)%nat \/ depth f = depth g /\ tagged = true /\ tg = false.

(** Order of declaration, an embedded struct standing for its fields. *)
Inductive before : list pstep -> list pstep -> Prop :=
| bf_here a b p q : (idx a < idx b)%nat -> before (a :: p) (b :: q)
| bf_next a b p q : idx a = idx b -> before p q -> before (a :: p) (b :: q).
Inductive in_decl_order : list (jfield * bool) -> Prop :=
| do_nil : in_decl_order []
| do_cons f l : Forall (fun g => before (jf_path (fst f)) (jf_path (fst g))) l -> in_decl_order l -> in_decl_order (f :: l).

(** The JSON fields of struct type i with their option omitempty. *)
Definition go_fields (i : nat) (l : list (jfield * bool)) : Prop :=
  (forall f omit, In (f, omit) l <-> dominant i f omit) /\ in_decl_order l.

(** The declaration a path leads to. *)
Inductive declared_at : nat -> list pstep -> sfield -> Prop :=
| da_own i k f : nth_error (decls i) k = Some f -> declared_at i [PIn k] f
| da_in i k g j p f : nth_error (decls i) k = Some g -> sf_ty g = YStruct j -> declared_at j p f -> declared_at i (PIn k :: p) f
| da_via i k g j un p f : nth_error (decls i) k = Some g -> sf_ty g = YPtr (YStruct j) -> declared_at j p f -> declared_at i (PVia k j un :: p) f.

(** Declarations for which the package is shown to follow these rules.
    [plain_tags]: tag names are empty or proper names; unexported embedded
    fields that are not structs have no tag (no Go field is called "-"). *)
Definition plain_tags : Prop := forall i f, In f (decls i) ->
  wf (sf_tag f) /\ sf_name f <> bs "-" /\
  (forall n os, tag_is (sf_tag f) n os -> n = [] \/ tag_name n) /\
  (sf_anon f = true -> sf_exported f = false -> json_name f (sf_name f) false \/ exists j ptr, struct_type (sf_ty f) j ptr).
(** [clear_names]: two candidates of a struct type with the same name, that are
    not both inside the same embedded struct, are either one of its own fields
    and a promoted one, or both promoted from the first level. *)
Definition clear_names : Prop := forall i f g tf tg om om',
  cand i f tf om -> cand i g tg om' -> jf_name f = jf_name g ->
  hd_error (map idx (jf_path f)) <> hd_error (map idx (jf_path g)) ->
  (depth f = 1 /\ depth g > 1 \/ depth g = 1 /\ depth f > 1 \/ depth f = 2 /\ depth g = 2)%nat.

(** The struct types a type mentions. *)
Fixpoint mentions (t : gty) : list nat :=
  match t with
  | YStruct i => [i]
  | YArray _ e | YSlice e | YMap _ e | YPtr e => mentions e
  | _ => []
  end.
(** [no_cycles]: no struct type that is embedded mentions, directly or through
    other types, the struct type it is embedded in (ignored fields aside). *)
Definition used (f : sfield) : Prop := (sf_exported f = true \/ sf_anon f = true /\ exists j ptr, struct_type (sf_ty f) j ptr) /\ sf_tag f <> bs "-".
Definition no_cycles : Prop := exists rk : nat -> nat, forall i f j, In f (decls i) -> used f -> In j (mentions (sf_ty f)) ->
  (rk j <= rk i)%nat /\ (sf_anon f = true -> (exists ptr, struct_type (sf_ty f) j ptr) -> (rk j < rk i)%nat).
(** The struct types are those below [count]. *)
Definition closed (count : nat) (root : gty) : Prop :=
  (forall j, In j (mentions root) -> (j < count)%nat) /\
  (forall i f j, In f (decls i) -> In j (mentions (sf_ty f)) -> (j < count)%nat).
(** Values of struct type i can occur inside values of type t. *)
Inductive reaches : gty -> nat -> Prop :=
| rc_here t i : In i (mentions t) -> reaches t i
| rc_next t i f j : In i (mentions t) -> In f (decls i) -> used f -> reaches (sf_ty f) j -> reaches t j.
End Rules.
