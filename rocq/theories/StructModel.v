(** Model of /repo/codec.go:434-705: how the JSON fields of a struct type are
    computed from its declaration.  This is what the environments of
    TypeModel.v ([v_flds]) and ViewModel.v ([o_omit]) take as given. *)
From Verif Require Import Bytes Utf8Model IntModel EncModel DecModel TypeModel.

(** reflect.StructField: name, len(PkgPath) == 0, Anonymous, Tag.Get("json"),
    Type. *)
(** as used at codec.go:517-609 *)
Record sfield := SField { sf_name : bytes; sf_exported : bool; sf_anon : bool; sf_tag : bytes; sf_ty : gty }.

(** codec.go:935-947 structField: the part decoding uses, the flags [tag] and
    [omitempty].  The key [index] is the pair [i<<32 | j] is made of (codec.go:
    573, 603; a struct has fewer than 2^32 fields). *)
Record sel := Sel { se_field : jfield; se_tag : bool; se_omit : bool }.
(** codec.go:573, 603 *)
Definition skey := (nat * nat)%type.

(** strings.Split(s, ",") *)
(** library function used at codec.go:533 *)
Fixpoint split_comma (s : bytes) : list bytes :=
  match s with
  | [] => [[]]
  | c :: s' =>
      match split_comma s' with
      | [] => [[c]]
      | p :: ps => if c =? 44 then [] :: p :: ps else (c :: p) :: ps
      end
  end.

Section Struct.
Context (letter : Z -> bool) (decls : nat -> list sfield).
(** [letter]: unicode.IsLetter or unicode.IsDigit.  [decls i]: the declaration
    of struct type i. *)

(** codec.go:842-859 isValidTag *)
Definition tag_punct : bytes := bs "!#$%&()*+-./:<=>?@[]^_{|}~ ".
(** codec.go:842-859 isValidTag *)
Definition is_valid_tag (s : bytes) : bool :=
  match s with
  | [] => false
  | _ => forallb (fun r => existsb (Z.eqb r) tag_punct || letter r) (runes s)
  end.

(** codec.go:668-705 stringify, the kinds it applies to.  The kind of a
    user-defined type with methods is not part of its description; such types
    are taken to be of none of these kinds (simplification). *)
Definition quot_kind (t : gty) : quot :=
  match t with
  | YInt _ | YDuration => QInt
  | YBool | YFloat _ | YString | YNumber => QStr
  | _ => QNo
  end.
(** codec.go:668-705 stringify *)
Definition stringify (t : gty) : quot := match t with YPtr e => quot_kind e | _ => quot_kind t end.

(** codec.go:516-609, what is done with a field: nothing, inlining the fields of
    the embedded struct (or of the struct the embedded pointer points to), or
    using it as a field.  Only types without methods of their own count as
    structs here (simplification: time.Time has no exported fields, and a struct
    with an embedded type that has MarshalJSON has that method itself). *)
Inductive plan := PSkip | PEmbed (j : nat) (ptr unexported : bool) | PField (name : bytes) (tag omit : bool) (q : quot).
(** codec.go:556-564 *)
Definition struct_kind (t : gty) : option (nat * bool) :=
  match t with
  | YStruct j => Some (j, false)
  | YPtr (YStruct j) => Some (j, true)
  | _ => None
  end.
(** codec.go:516-592 *)
Definition plan_of (f : sfield) : plan :=
  let unexported := negb (sf_exported f) in
  if unexported && negb (sf_anon f) then PSkip else
  let parts := split_comma (sf_tag f) in
  let head := match parts with p :: _ => p | [] => [] end in
  let opts := match parts with _ :: ps => ps | [] => [] end in
  let is_tag := match head with [] => false | _ => true end in
  let name := if is_tag then head else sf_name f in
  if beqb name (bs "-") && (length parts =? 1)%nat then PSkip else
  let name := if is_valid_tag name then name else sf_name f in
  let omit := existsb (fun t => beqb t (bs "omitempty")) opts in
  let str := existsb (fun t => beqb t (bs "string")) opts in
  let plain := PField name is_tag omit (if str then stringify (sf_ty f) else QNo) in
  if sf_anon f && negb is_tag
  then match struct_kind (sf_ty f) with
       | Some (j, ptr) => PEmbed j ptr unexported
       | None => if unexported then PSkip else plain
       end
  else plain.

(** codec.go:442-455 *)
Definition seen := list (nat * list sel).
(** seen[t]: codec.go:445 *)
Fixpoint look (i : nat) (s : seen) : option (list sel) :=
  match s with
  | [] => None
  | (k, l) :: s' => if (k =? i)%nat then Some l else look i s'
  end.
(** seen[t] = st and the assignment to st.fields: codec.go:455-456 *)
Fixpoint put (i : nat) (l : list sel) (s : seen) : seen :=
  match s with
  | [] => [(i, l)]
  | (k, x) :: s' => if (k =? i)%nat then (i, l) :: s' else (k, x) :: put i l s'
  end.

(** codec.go:647-666 ambiguousNameTagCount, read off per name.  [names] is a
    set: a name counts once however many fields have it. *)
Definition has_name (n : bytes) (l : list (skey * sel)) : bool := existsb (fun e => beqb (jf_name (se_field (snd e))) n) l.
(** the counts of codec.go:647-666 *)
Definition b2n (b : bool) : nat := if b then 1 else 0.
(** the counts of codec.go:647-666 *)
Definition count (Q : sel -> bool) (l : list (skey * sel)) : nat := length (filter (fun e => Q (snd e)) l).
(** codec.go:647-666 *)
Definition name_count (fields embedded : list (skey * sel)) (n : bytes) : nat :=
  b2n (has_name n fields) + count (fun s => beqb (jf_name (se_field s)) n) embedded.
(** codec.go:647-666 *)
Definition tag_count (fields embedded : list (skey * sel)) (n : bytes) : nat :=
  b2n (has_name n fields) + count (fun s => beqb (jf_name (se_field s)) n && se_tag s) embedded.
(** codec.go:617-619 *)
Definition ambiguous (fields embedded : list (skey * sel)) (s : sel) : bool :=
  (1 <? name_count fields embedded (jf_name (se_field s)))%nat &&
  (negb (se_tag s) || negb (tag_count fields embedded (jf_name (se_field s)) =? 1)%nat).

(** codec.go:643 sort.Slice by index (the indices are distinct) *)
Definition skey_ltb (a b : skey) : bool := (fst a <? fst b)%nat || ((fst a =? fst b)%nat && (snd a <? snd b)%nat).
(** codec.go:643 *)
Fixpoint insert_sel (e : skey * sel) (l : list (skey * sel)) : list (skey * sel) :=
  match l with
  | [] => [e]
  | x :: l' => if skey_ltb (fst x) (fst e) then x :: insert_sel e l' else e :: l
  end.
(** codec.go:643 *)
Definition sort_sel (l : list (skey * sel)) : list (skey * sel) := fold_right insert_sel [] l.

(** codec.go:571-580 the entries of an embedded struct: the position and the
    field, with its offset (here: path) adjusted as in codec.go:621-626 *)
Definition via (k j : nat) (ptr unexported : bool) : pstep := if ptr then PVia k j unexported else PIn k.
(** codec.go:621-626 *)
Definition push (a : pstep) (s : sel) : sel :=
  let f := se_field s in
  Sel (JField (jf_name f) (a :: jf_path f) (jf_ty f) (jf_quot f)) (se_tag s) (se_omit s).
(** the j of codec.go:571 *)
Fixpoint number (n : nat) (l : list sel) : list (nat * sel) :=
  match l with [] => [] | s :: l' => (n, s) :: number (S n) l' end.
(** codec.go:571-580 *)
Definition embed (k j : nat) (ptr unexported : bool) (l : list sel) : list (skey * sel) :=
  map (fun e => ((k, fst e), push (via k j ptr unexported) (snd e))) (number 0 l).

(** codec.go:611-644 the selection *)
Definition untag (s : sel) : sel := Sel (se_field s) false (se_omit s).
(** codec.go:611-644 *)
Definition select (fields embedded : list (skey * sel)) : list sel :=
  map snd (sort_sel (fields ++ map (fun e => (fst e, untag (snd e))) (filter (fun e => negb (ambiguous fields embedded (snd e))) embedded))).

(** codec.go:513-609 the loop over the fields, from position k on; [rec] is
    constructCodec.  The result: [seen], the fields, the embedded fields. *)
Fixpoint walk (rec : gty -> seen -> option seen) (fs : list sfield) (k : nat) (s : seen)
  : option (seen * list (skey * sel) * list (skey * sel)) :=
  match fs with
  | [] => Some (s, [], [])
  | f :: fs' =>
      match plan_of f with
      | PSkip => walk rec fs' (S k) s
      | PEmbed j ptr un =>
          match rec (YStruct j) s with
          | Some s1 =>
              let sub := match look j s1 with Some l => l | None => [] end in
              match walk rec fs' (S k) s1 with
              | Some (s2, d, e) => Some (s2, d, embed k j ptr un sub ++ e)
              | None => None
              end
          | None => None
          end
      | PField name tag omit q =>
          match rec (sf_ty f) s with
          | Some s1 =>
              match walk rec fs' (S k) s1 with
              | Some (s2, d, e) => Some (s2, ((k, O), Sel (JField name [PIn k] (sf_ty f) q) tag omit) :: d, e)
              | None => None
              end
          | None => None
          end
      end
  end.

(** codec.go:442-471 constructStructType: while the fields of a struct are being
    computed its entry in [seen] has no fields. *)
Definition build_struct (rec : gty -> seen -> option seen) (i : nat) (s : seen) : option seen :=
  match look i s with
  | Some _ => Some s
  | None =>
      match walk rec (decls i) 0 ((i, []) :: s) with
      | Some (s1, d, e) => Some (put i (select d e) s1)
      | None => None
      end
  end.
(** codec.go:79-206 constructCodec as far as it fills [seen] (fuel: the number of
    struct types entered; None: out of fuel) *)
Fixpoint build (n : nat) (t : gty) (s : seen) {struct n} : option seen :=
  (fix go (t : gty) : option seen :=
     match t with
     | YArray _ e | YSlice e | YMap _ e | YPtr e => go e
     | YStruct i =>
         match n with
         | O => None
         | S n' => build_struct (build n') i s
         end
     | _ => Some s
     end) t.

(** json.go:131-137, 222-228 and codec.go:68-77: the codec of a type is computed
    with an empty [seen] for the type of the value that is encoded or decoded;
    [flds_of n t i] are the JSON fields used for values of struct type i inside
    a value of type t. *)
Definition flds_of (n : nat) (root : gty) (i : nat) : list sel :=
  match build n root [] with
  | Some s => match look i s with Some l => l | None => [] end
  | None => []
  end.
End Struct.
