(** Independent specification of encoder output: abstract documents, a
    reference printer, and the document of each Go value.  Only the types of
    the model (values, colors, indenter) and its leaf formats (strings,
    integers, floats, base64), which have their own theorems, are used. *)
From Coq Require Import Permutation Sorted.
From Verif Require Import Bytes StringModel IntModel TokenModel EncModel SpecJson SpecTokens.

(** Kinds of token, each with its color field. *)
Inductive tkind := TNull | TBool | TNum | TStr | TKey | TBytes | TTime | TText | TPlain.
Definition kind_color (k : tkind) (cl : colors) : bytes :=
  match k with
  | TNull => c_null cl | TBool => c_bool cl | TNum => c_number cl | TStr => c_string cl
  | TKey => c_key cl | TBytes => c_bytes cl | TTime => c_time cl | TText => c_textm cl
  | TPlain => []
  end.

(** Objects print alike except when empty: [ONormal] prints as {}; a struct
    type with no fields, or whose fields are all left out, is printed with the
    layout of those types (visible only with an indenter). *)
Inductive ostyle := ONormal | ONoFields | OAllOmitted.

Inductive doc :=
| DTok (k : tkind) (text : bytes)
| DQuote (x : doc)                                  (* the text of x as a JSON string *)
| DArr (l : list doc)
| DObj (q : ostyle) (l : list (tkind * bytes * doc)).

(** * The reference printer *)
Definition reset : bytes := [27; 91; 48; 109].
Definition paint (cl : option colors) (clr : colors -> bytes) (t : bytes) : bytes :=
  match cl with None => t | Some k => clr k ++ t ++ reset end.
(** Punctuation: its own field, else Punc. *)
Definition or_punc (f : colors -> bytes) (k : colors) : bytes :=
  match f k with [] => c_punc k | c => c end.
Definition lbrack cl := paint cl (or_punc c_brackets) [91].
Definition rbrack cl := paint cl (or_punc c_brackets) [93].
Definition lbrace cl := paint cl (or_punc c_braces) [123].
Definition rbrace cl := paint cl (or_punc c_braces) [125].
Definition comma cl := paint cl (or_punc c_comma) [44].
Definition colon cl := paint cl (or_punc c_colon) [58].

(** Layout: an indenter is active unless it is absent or disabled. *)
Definition active (ind : option indenter) : option indenter :=
  match ind with Some i => if i_disabled i then None else Some i | None => None end.
Definition margin (ind : option indenter) (d : Z) : bytes :=
  match active ind with
  | None => []
  | Some i => i_prefix i ++ concat (repeat (i_indent i) (Z.to_nat d))
  end.
Definition newline (ind : option indenter) : bytes := match active ind with None => [] | Some _ => [10] end.
Definition space (ind : option indenter) : bytes := match active ind with None => [] | Some _ => [32] end.
Definition line ind d := newline ind ++ margin ind d.

Fixpoint join (sep : bytes) (l : list bytes) : bytes :=
  match l with
  | [] => []
  | [x] => x
  | x :: l' => x ++ sep ++ join sep l'
  end.

Definition json_string (html : bool) (s : bytes) : bytes := do_encode_string html [] s.

Fixpoint render (html : bool) (cl : option colors) (ind : option indenter) (d : Z) (x : doc) : bytes :=
  match x with
  | DTok k t => paint cl (kind_color k) t
  | DQuote y => json_string html (render html cl ind d y)
  | DArr [] => lbrack cl ++ rbrack cl
  | DArr l =>
      lbrack cl ++
      join (comma cl) (map (fun y => line ind (d + 1) ++ render html cl ind (d + 1) y) l) ++
      line ind d ++ rbrack cl
  | DObj q [] =>
      lbrace cl ++
      match q with ONormal => [] | ONoFields => margin ind d | OAllOmitted => line ind d end ++
      rbrace cl
  | DObj _ l =>
      lbrace cl ++
      join (comma cl) (map (fun e => match e with (k, t, y) =>
        line ind (d + 1) ++ paint cl (kind_color k) t ++ colon cl ++ space ind ++ render html cl ind (d + 1) y end) l) ++
      line ind d ++ rbrace cl
  end.

(** * The document of a value *)

(** EscapeHTML inside the strings of a raw message: the HTML characters and
    U+2028, U+2029 as \u escapes. *)
Fixpoint html_escape (s : bytes) : bytes :=
  match s with
  | [] => []
  | c :: t =>
      if is_html c then u00 c ++ html_escape t
      else match t with
           | a :: b :: t' =>
               if (c =? 0xE2) && (a =? 0x80) && (b =? 0xA8) then bs "\u2028" ++ html_escape t'
               else if (c =? 0xE2) && (a =? 0x80) && (b =? 0xA9) then bs "\u2029" ++ html_escape t'
               else c :: html_escape t
           | _ => c :: html_escape t
           end
  end.
Definition raw_string (html : bool) (t : bytes) : bytes := if html then html_escape t else t.

Fixpoint jdoc (html : bool) (a : jast) : doc :=
  match a with
  | JNull => DTok TNull (bs "null")
  | JTrue => DTok TBool (bs "true")
  | JFalse => DTok TBool (bs "false")
  | JNum t => DTok TNum t
  | JStr t => DTok TStr (raw_string html t)
  | JArr l => DArr (map (jdoc html) l)
  | JObj l => DObj ONormal (map (fun kv => match kv with (k, x) => (TKey, raw_string html k, jdoc html x) end) l)
  end.

(** A field of a nil embedded pointer (possibly several levels down). *)
Fixpoint absent (v : gval) : bool :=
  match v with
  | GEmbPtr None => true
  | GEmbPtr (Some v) => absent v
  | _ => false
  end.
Definition emitted (hv : fhead * gval) : bool :=
  match hv with (h, v) => negb (f_omitempty h && f_empty h) && negb (absent v) end.

(** The entries of a map in the order they are written. *)
Definition ascending {A} (key : A -> bytes) (l : list A) : Prop :=
  StronglySorted (fun x y => bytes_ltb (key y) (key x) = false) l.
Definition in_order {A} (sorted : bool) (key : A -> bytes) (m m' : list A) : Prop :=
  if sorted then Permutation m m' /\ ascending key m' else m' = m.

Definition quote (t : bytes) : bytes := 34 :: t ++ [34].

(** What a raw message may be: exactly a JSON value; surrounding whitespace is
    allowed only when it is trusted. *)
Definition raw_text (trust : bool) (s : bytes) (a : jast) : Prop :=
  if trust then jtext s a else jvalue s a.

(** Key of a map entry. *)
Inductive kdoc (html : bool) : mkey -> tkind -> bytes -> Prop :=
| kd_string s : kdoc html (KString s) TKey (json_string html s)
| kd_int z : kdoc html (KInt z) TPlain (json_string html (itoa z))
| kd_text s : kdoc html (KText s None) TText (json_string html s).

Section vdoc.
  Variables html sorted trust : bool.

  Inductive vdoc : gval -> doc -> Prop :=
  | vd_nil : vdoc GNil (DTok TNull (bs "null"))
  | vd_true : vdoc (GBool true) (DTok TBool (bs "true"))
  | vd_false : vdoc (GBool false) (DTok TBool (bs "false"))
  | vd_int z : vdoc (GInt z) (DTok TNum (itoa z))
  | vd_float f t : encode_float [] f = (t, None) -> vdoc (GFloat f) (DTok TNum t)
  | vd_number0 : vdoc (GNumber []) (DTok TNum (bs "0"))
  | vd_number n : number_lit n -> vdoc (GNumber n) (DTok TNum n)
  | vd_string s : vdoc (GString s) (DTok TStr (json_string html s))
  | vd_bytes0 : vdoc (GBytes None) (DTok TNull (bs "null"))
  | vd_bytes s : vdoc (GBytes (Some s)) (DTok TBytes (quote (b64 s)))
  | vd_time t : vdoc (GTime t) (DTok TTime (quote t))
  | vd_array l xs : Forall2 vdoc l xs -> vdoc (GArray l) (DArr xs)
  | vd_slice0 : vdoc (GSlice None) (DTok TNull (bs "null"))
  | vd_slice l xs : Forall2 vdoc l xs -> vdoc (GSlice (Some l)) (DArr xs)
  | vd_map0 : vdoc (GMap None) (DTok TNull (bs "null"))
  | vd_map m m' xs : in_order sorted (fun e => key_text (fst e)) m m' ->
      Forall2 (fun e x => kdoc html (fst e) (fst (fst x)) (snd (fst x)) /\ vdoc (snd e) (snd x)) m' xs ->
      vdoc (GMap (Some m)) (DObj ONormal xs)
  | vd_mapsi0 : vdoc (GMapSI None) (DTok TNull (bs "null"))
  | vd_mapsi m m' xs : in_order sorted fst m m' ->
      Forall2 (fun e x => fst x = (TKey, json_string html (fst e)) /\ vdoc (snd e) (snd x)) m' xs ->
      vdoc (GMapSI (Some m)) (DObj ONormal xs)
  | vd_mapsr0 : vdoc (GMapSR None) (DTok TNull (bs "null"))
  | vd_mapsr m m' xs : in_order sorted fst m m' ->
      Forall2 (fun e x => fst x = (TKey, json_string html (fst e)) /\ vdoc (GRaw (snd e)) (snd x)) m' xs ->
      vdoc (GMapSR (Some m)) (DObj ONormal xs)
  | vd_struct0 : vdoc (GStruct []) (DObj ONoFields [])
  | vd_struct fs xs : fs <> [] ->
      Forall2 (fun e x => fst x = (TKey, json_string html (f_name (fst e))) /\ vdoc (snd e) (snd x)) (filter emitted fs) xs ->
      vdoc (GStruct fs) (DObj OAllOmitted xs)
  | vd_emb v x : vdoc v x -> vdoc (GEmbPtr (Some v)) x
  | vd_ptr0 : vdoc (GPtr None) (DTok TNull (bs "null"))
  | vd_ptr v x : vdoc v x -> vdoc (GPtr (Some v)) x
  | vd_iface0 : vdoc (GIface None) (DTok TNull (bs "null"))
  | vd_iface v x : vdoc v x -> vdoc (GIface (Some v)) x
  | vd_raw0 : vdoc (GRaw None) (DTok TNull (bs "null"))
  | vd_raw s a : raw_text trust s a -> vdoc (GRaw (Some s)) (jdoc html a)
  | vd_marshaler0 : vdoc (GMarshaler None) (DTok TNull (bs "null"))
  | vd_marshaler r x : vdoc (GRaw r) x -> vdoc (GMarshaler (Some (inl r))) x
  | vd_text0 : vdoc (GText None) (DTok TNull (bs "null"))
  | vd_text s : vdoc (GText (Some (inl s))) (DTok TText (json_string html s))
  | vd_quoted v x : vdoc v x -> vdoc (GQuoted v) (DQuote x).
End vdoc.

(** * Values for which the code meets the specification *)

(** Numbers and raw messages are either right or wrong from the start: the
    code looks only at the longest number (value) at the front. *)
Definition num_clean (n : bytes) : Prop :=
  n = [] \/ number_lit n \/ forall v r, n = v ++ r -> ~ number_lit v.
Definition raw_clean (trust : bool) (s : bytes) : Prop :=
  wf s /\ ((exists a, raw_text trust s a) \/ trust = false /\ forall v r a, s = v ++ r -> ~ jvalue v a).
Definition raw_good (trust : bool) (s : option bytes) : Prop :=
  match s with None => True | Some s => wf s /\ exists a, raw_text trust s a end.
(** Characters of RFC 3339 times. *)
Definition time_char (c : Z) : Prop :=
  48 <= c <= 57 \/ c = 45 \/ c = 58 \/ c = 84 \/ c = 90 \/ c = 46 \/ c = 43.
(** Decimal form of a finite float: digits, the first and last not zero. *)
Definition float_form (ds : bytes) : Prop :=
  Forall digit ds /\ exists d t, ds = d :: t /\ d <> 48 /\ last ds 0 <> 48.
Definition key_clean (k : mkey) : Prop :=
  match k with
  | KString s => wf s
  | KInt _ => True
  | KText s e => wf s /\ e <> Some ERollback
  | KNil => False
  end.
(** Fields of nil embedded pointers come before every field that is written. *)
Definition rollback_first (fs : list (fhead * gval)) : Prop :=
  exists pre post, fs = pre ++ post /\ filter emitted pre = [] /\
    Forall (fun hv => f_omitempty (fst hv) && f_empty (fst hv) = true \/ absent (snd hv) = false) post.

Definition all (l : list Prop) : Prop := fold_right and True l.

(** [clean fld v]; [fld] allows the forms that occur only as struct fields. *)
Fixpoint clean (sorted trust fld : bool) (v : gval) : Prop :=
  match v with
  | GNil | GBool _ | GInt _ | GUnsupported => True
  | GFloat (FFin _ ds _) => float_form ds
  | GFloat _ => True
  | GNumber n => num_clean n
  | GString s => wf s
  | GBytes None => True
  | GBytes (Some s) => wf s
  | GTime t => Forall time_char t
  | GArray l => all (map (clean sorted trust false) l)
  | GSlice None | GMap None | GMapSI None | GMapSR None => True
  | GSlice (Some l) => all (map (clean sorted trust false) l)
  | GMap (Some m) => all (map (fun kv => match kv with (k, x) => key_clean k /\ clean sorted trust false x end) m)
  | GMapSI (Some m) => all (map (fun kv => match kv with (k, x) => wf k /\ clean sorted trust false x end) m)
  | GMapSR (Some m) =>
      Forall (fun kv => wf (fst kv) /\
        if sorted then match snd kv with None => True | Some s => raw_clean trust s end
        else raw_good trust (snd kv)) m
  | GStruct fs => rollback_first fs /\
      all (map (fun hv => match hv with (h, x) => wf (f_name h) /\ clean sorted trust true x end) fs)
  | GEmbPtr None => fld = true
  | GEmbPtr (Some x) => fld = true /\ clean sorted trust true x
  | GPtr None | GIface None | GRaw None | GMarshaler None | GText None => True
  | GPtr (Some x) => clean sorted trust false x
  | GIface (Some x) => clean sorted trust false x
  | GRaw (Some s) => raw_clean trust s
  | GMarshaler (Some (inl None)) => True
  | GMarshaler (Some (inl (Some s))) => raw_clean trust s
  | GMarshaler (Some (inr e)) => e <> ERollback
  | GText (Some (inl s)) => wf s
  | GText (Some (inr e)) => e <> ERollback
  | GQuoted x => clean sorted trust false x
  end.

(** Values for which colors are as specified: no nil []byte, no ",string"
    option, no integer map key, and no empty object inside an array of a raw
    message. *)
Definition raw_colors (s : option bytes) : Prop :=
  match s with None => True | Some s => forall a, jtext s a -> no_empty_in_array a end.
Fixpoint colors_clean (v : gval) : Prop :=
  match v with
  | GBytes None => False
  | GArray l => all (map colors_clean l)
  | GSlice (Some l) => all (map colors_clean l)
  | GMap (Some m) =>
      all (map (fun kv => match kv with (k, x) => (match k with KInt _ => False | _ => True end) /\ colors_clean x end) m)
  | GMapSI (Some m) => all (map (fun kv => match kv with (_, x) => colors_clean x end) m)
  | GMapSR (Some m) => Forall (fun kv => raw_colors (snd kv)) m
  | GStruct fs => all (map (fun hv => match hv with (_, x) => colors_clean x end) fs)
  | GEmbPtr (Some x) => colors_clean x
  | GPtr (Some x) => colors_clean x
  | GIface (Some x) => colors_clean x
  | GRaw s => raw_colors s
  | GMarshaler (Some (inl s)) => raw_colors s
  | GQuoted _ => False
  | _ => True
  end.
