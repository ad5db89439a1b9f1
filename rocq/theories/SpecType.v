(** Independent specification of decoding into typed values: which memory a
    JSON value turns which memory into, by recursion on the syntax tree and the
    type.  Of the model only the data types, the environment and [map_set]
    (Go's m[k] = v) are used; no decoder occurs here. *)
From Verif Require Import Bytes SpecJson SpecString SpecDec IntModel EncModel DecModel TypeModel DecLoops IntFacts.

(** Syntax trees of SpecJson.v that also keep the text of every value. *)
Inductive node := ND (text : bytes) (sh : shape)
with shape :=
| HNull | HTrue | HFalse | HNum | HStr
| HArr (l : list node)
| HObj (l : list (bytes * node)).
Definition ntext (nd : node) : bytes := let (s, _) := nd in s.
Definition nshape (nd : node) : shape := let (_, h) := nd in h.

Inductive jnode : node -> Prop :=
| N_null : jnode (ND (bs "null") HNull)
| N_true : jnode (ND (bs "true") HTrue)
| N_false : jnode (ND (bs "false") HFalse)
| N_num s : number_lit s -> jnode (ND s HNum)
| N_str s : string_lit s -> jnode (ND s HStr)
| N_arr0 w : ws w -> jnode (ND (91 :: w ++ [93]) (HArr []))
| N_arr s l : nelems s l -> jnode (ND (91 :: s ++ [93]) (HArr l))
| N_obj0 w : ws w -> jnode (ND (123 :: w ++ [125]) (HObj []))
| N_obj s l : nmembers s l -> jnode (ND (123 :: s ++ [125]) (HObj l))
with nelems : bytes -> list node -> Prop :=
| NE_one w1 v w2 : ws w1 -> jnode v -> ws w2 -> nelems (w1 ++ ntext v ++ w2) [v]
| NE_cons w1 v w2 t l : ws w1 -> jnode v -> ws w2 -> nelems t l ->
                        nelems (w1 ++ ntext v ++ w2 ++ 44 :: t) (v :: l)
with nmembers : bytes -> list (bytes * node) -> Prop :=
| NM_one w1 k w2 w3 v w4 : ws w1 -> string_lit k -> ws w2 -> ws w3 -> jnode v -> ws w4 ->
    nmembers (w1 ++ k ++ w2 ++ 58 :: w3 ++ ntext v ++ w4) [(k, v)]
| NM_cons w1 k w2 w3 v w4 t l : ws w1 -> string_lit k -> ws w2 -> ws w3 -> jnode v -> ws w4 -> nmembers t l ->
    nmembers (w1 ++ k ++ w2 ++ 58 :: w3 ++ ntext v ++ w4 ++ 44 :: t) ((k, v) :: l).

(** The tree without the texts. *)
Fixpoint erase (nd : node) : jast :=
  let (s, h) := nd in
  match h with
  | HNull => JNull | HTrue => JTrue | HFalse => JFalse
  | HNum => JNum s | HStr => JStr s
  | HArr l => JArr (map erase l)
  | HObj l => JObj (map (fun kv => match kv with (k, v) => (k, erase v) end) l)
  end.

(** * Containers, for any way [R] of storing an element. *)
Section Containers.
Context {A : Type} (R : node -> A -> A -> Prop) (zero : A).

(** Element i goes to cell i of the old backing array, or to a fresh zero cell. *)
Inductive onto : list node -> list A -> list A -> Prop :=
| onto_nil d : onto [] d []
| onto_cons v l d y ys : R v (hd zero d) y -> onto l (tl d) ys -> onto (v :: l) d (y :: ys).
(** Growth of the capacity of the backing array from c until it holds n: 10
    cells at first, then twice as many. *)
Inductive grows : nat -> nat -> nat -> Prop :=
| grows_fit c n : (n <= c)%nat -> grows c n c
| grows_more c n c' : (c < n)%nat -> grows (match c with O => 10 | _ => c + c end)%nat n c' -> grows c n c'.
Definition backing (s : sl A) : list A := match s with None => [] | Some (_, d) => d end.
Inductive slice_rel : node -> sl A -> sl A -> Prop :=
| sr_null s x : slice_rel (ND s HNull) x None
| sr_arr s l x ys c : onto l (backing x) ys -> grows (length (backing x)) (length l) c ->
    slice_rel (ND s (HArr l)) x (Some (length l, ys ++ skipn (length l) (backing x) ++
                                  repeat zero (c - max (length l) (length (backing x))))).

(** Arrays: elements without a counterpart in the text stay as they are, extra
    values in the text are ignored. *)
Inductive along : list node -> list A -> list A -> Prop :=
| along_rest d : along [] d d
| along_extra l : along l [] []
| along_cons v l x d y ys : R v x y -> along l d ys -> along (v :: l) (x :: d) (y :: ys).
(** NB: an empty JSON array is accepted only by an array of length 0. *)
Inductive array_rel : node -> list A -> list A -> Prop :=
| ar_null s x : array_rel (ND s HNull) x x
| ar_arr s l x y : (l = [] -> x = []) -> along l x y -> array_rel (ND s (HArr l)) x y.

(** Maps: every value is decoded into a zero value, then the entries are
    assigned in order. *)
Context {K : Type} (keym : bytes -> K -> Prop) (eqb : K -> K -> bool).
Definition entry (la : bytes * node) (kv : K * A) : Prop := keym (fst la) (fst kv) /\ R (snd la) zero (snd kv).
Definition entries (m : option (list (K * A))) : list (K * A) := match m with None => [] | Some m => m end.
Inductive map_rel : node -> option (list (K * A)) -> option (list (K * A)) -> Prop :=
| mr_null s x : map_rel (ND s HNull) x None
| mr_obj s l x kvs : Forall2 entry l kvs -> map_rel (ND s (HObj l)) x (Some (add_all eqb kvs (entries x))).
End Containers.

(** Structs: the members act one after the other. *)
Section Structs.
Context {A : Type} (M : bytes -> node -> A -> A -> Prop).
Inductive members_rel : list (bytes * node) -> A -> A -> Prop :=
| mem_nil x : members_rel [] x x
| mem_cons lit k v l x y z : str_means lit k -> M k v x y -> members_rel l y z -> members_rel ((lit, v) :: l) x z.
Inductive struct_rel : node -> A -> A -> Prop :=
| str_null s x : struct_rel (ND s HNull) x x
| str_obj s l x y : members_rel l x y -> struct_rel (ND s (HObj l)) x y.
End Structs.

(** * Interface values: as [denotes], with the entries of maps in the order
    of assignment. *)
Inductive ival (num : bytes -> jv -> Prop) : jast -> jv -> Prop :=
| iv_null : ival num JNull JVNull
| iv_true : ival num JTrue (JVBool true)
| iv_false : ival num JFalse (JVBool false)
| iv_num s v : num s v -> ival num (JNum s) v
| iv_str lit t : str_means lit t -> ival num (JStr lit) (JVString t)
| iv_arr l vs : Forall2 (ival num) l vs -> ival num (JArr l) (JVArr vs)
| iv_obj l kvs : Forall2 (fun la kv => str_means (fst la) (fst kv) /\ ival num (snd la) (snd kv)) l kvs ->
    ival num (JObj l) (JVMap (add_all beqb kvs [])).

(** An integer literal a target of type [t] accepts (no sign if unsigned). *)
Definition int_ok (t : ity) (s : bytes) (z : Z) : Prop :=
  int_text s z /\ ity_lo t <= z <= ity_hi t /\ (signed t = true \/ forall s', s <> 45 :: s').

(** Text of a ",string" integer and the number it stands for: leading zeroes
    after the sign do not count. *)
Inductive unzeroed : bytes -> bytes -> Prop :=
| unz sg zs r : sg = [] \/ sg = [45] \/ sg = [43] -> Forall (eq 48) zs ->
    (zs <> [] -> exists d r', r = d :: r' /\ digit d) ->
    (sg = [] -> zs = [] -> forall c r', r = c :: r' -> c <> 45 /\ c <> 43) ->
    (forall c d r', r = c :: d :: r' -> c = 48 -> ~ digit d) ->
    unzeroed (sg ++ zs ++ r) (sg ++ r).

Section Stores.
Context (V : tenv) (F : dflags).

Definition num (s : bytes) (v : jv) : Prop :=
  if d_usenum F then v = JVNumber s else exists f, v_float V true s = Some f /\ v = JVFloat f.

(** Memory of the outermost shape of a type. *)
Definition shape_of (t : gty) (m : mem) : Prop :=
  match t, m with
  | YBool, MBool _ | YInt _, MInt _ | YFloat _, MFloat _ | YNumber, MStr _ | YString, MStr _
  | YBytes, MBytes _ | YDuration, MInt _ | YTime, MTime _ | YIface, MIface _ | YNamedIface _, MIface _
  | YRaw, MRaw _ | YSlice _, MSlice _ | YMap _ _, MMap _ | YMapSI, MMap _ | YMapSR, MMap _
  | YPtr _, MPtr _ | YStruct _, MList _ | YJSON _, MUser _ | YText _, MUser _ | YUnsupported, MUser _ => True
  | YArray n _, MList l => length l = n
  | _, _ => False
  end.
(** Types whose values null leaves unchanged. *)
Definition null_keeps (t : gty) : Prop :=
  match t with
  | YBool | YInt _ | YFloat _ | YNumber | YString | YDuration | YTime | YJSON _ | YText _ => True
  | _ => False
  end.

(** What a key literal denotes.  NB: the key "null" is 0 in a map with integer
    keys. *)
Inductive key_means : kty -> bytes -> mkey -> Prop :=
| km_str lit t : str_means lit t -> key_means KYString lit (MKStr t)
| km_int it lit s z w : str_means lit (s ++ w) -> ws w -> int_ok it s z -> key_means (KYInt it) lit (MKInt z)
| km_int_null it lit w : str_means lit (bs "null" ++ w) -> ws w -> key_means (KYInt it) lit (MKInt 0)
| km_text u lit t x : str_means lit t -> v_text V u t [] = (None, x) -> key_means (KYText u) lit (MKUser x).

(** The field a key selects: the last one of that very name, else (unless the
    flag forbids it) the first one whose lower case name is the folded key. *)
Definition exact_name (f : jfield) (k : bytes) : Prop := jf_name f = k.
Definition folded_name (f : jfield) (k : bytes) : Prop := v_lower V (jf_name f) = append_to_lower V k.
Inductive picks (fs : list jfield) (k : bytes) : option jfield -> Prop :=
| pk_exact l1 f l2 : fs = l1 ++ f :: l2 -> exact_name f k -> Forall (fun g => ~ exact_name g k) l2 -> picks fs k (Some f)
| pk_fold l1 f l2 : Forall (fun g => ~ exact_name g k) fs -> d_nocase F = false ->
    fs = l1 ++ f :: l2 -> folded_name f k -> Forall (fun g => ~ folded_name g k) l1 -> picks fs k (Some f)
| pk_none : Forall (fun g => ~ exact_name g k) fs -> (d_nocase F = false -> Forall (fun g => ~ folded_name g k) fs) -> picks fs k None.

(** Acting on the part of a struct a path leads to.  A nil pointer on the way is
    replaced by one to a zero struct, unless its type is unexported. *)
Inductive at_path (R : node -> mem -> mem -> Prop) : list pstep -> node -> mem -> mem -> Prop :=
| ap_here v x y : R v x y -> at_path R [] v x y
| ap_in l1 x l2 p v y : at_path R p v x y -> at_path R (PIn (length l1) :: p) v (MList (l1 ++ x :: l2)) (MList (l1 ++ y :: l2))
| ap_via l1 x l2 s u p v y : at_path R p v x y ->
    at_path R (PVia (length l1) s u :: p) v (MList (l1 ++ MPtr (Some x) :: l2)) (MList (l1 ++ MPtr (Some y) :: l2))
| ap_new l1 l2 s p v y : at_path R p v (zero V (YStruct s)) y ->
    at_path R (PVia (length l1) s false :: p) v (MList (l1 ++ MPtr None :: l2)) (MList (l1 ++ MPtr (Some y) :: l2)).

(** A field with option ",string" takes its JSON value from inside a string. *)
Inductive quoted (q : quot) (R : node -> mem -> mem -> Prop) : node -> mem -> mem -> Prop :=
| qu_no v x y : q = QNo -> R v x y -> quoted q R v x y
| qu_null s x y : q <> QNo -> R (ND s HNull) x y -> quoted q R (ND s HNull) x y
| qu_str s v w x y : q = QStr -> str_means s (ntext v ++ w) -> ws w -> jnode v -> R v x y -> quoted q R (ND s HStr) x y
| qu_int s t v x y : q = QInt -> str_means s t -> t <> [] -> unzeroed t (ntext v) -> jnode v -> R v x y -> quoted q R (ND s HStr) x y.

(** [stores t v x y]: decoding the value [v] into memory [x] of type [t]
    succeeds and leaves [y]. *)
Inductive stores : gty -> node -> mem -> mem -> Prop :=
| st_null t s x : null_keeps t -> shape_of t x -> stores t (ND s HNull) x x
| st_true s x : stores YBool (ND s HTrue) (MBool x) (MBool true)
| st_false s x : stores YBool (ND s HFalse) (MBool x) (MBool false)
| st_int it s z x : int_ok it s z -> stores (YInt it) (ND s HNum) (MInt x) (MInt z)
| st_float w s f x : v_float V w s = Some f -> stores (YFloat w) (ND s HNum) (MFloat x) (MFloat f)
| st_number s x : stores YNumber (ND s HNum) (MStr x) (MStr s)
| st_string s t x : str_means s t -> stores YString (ND s HStr) (MStr x) (MStr t)
| st_bytes s t v x : str_means s t -> v_b64 V t = Some v -> stores YBytes (ND s HStr) (MBytes x) (MBytes (Some (length v, v)))
| st_bytes_arr v x y :
    slice_rel (fun v x y => stores (YInt TUint8) v (MInt x) (MInt y)) 0 v x y -> stores YBytes v (MBytes x) (MBytes y)
| st_dur_num s z x : int_ok TInt64 s z -> stores YDuration (ND s HNum) (MInt x) (MInt z)
| st_dur_str t z x : v_dur V t = Some z -> stores YDuration (ND (34 :: t ++ [34]) HStr) (MInt x) (MInt z)
| st_time t z x : v_time V t = Some z -> stores YTime (ND (34 :: t ++ [34]) HStr) (MTime x) (MTime z)
| st_iface v x y : ival num (erase v) y -> stores YIface v (MIface x) (MIface y)
| st_named_null e s x : stores (YNamedIface e) (ND s HNull) (MIface x) (MIface JVNull)
| st_named v y : nshape v <> HNull -> ival num (erase v) y -> stores (YNamedIface true) v (MIface JVNull) (MIface y)
| st_raw v x : stores YRaw v (MRaw x) (MRaw (Some (ntext v)))
| st_array n e v x y : length x = n -> array_rel (stores e) v x y -> stores (YArray n e) v (MList x) (MList y)
| st_slice e v x y : slice_rel (stores e) (zero V e) v x y -> stores (YSlice e) v (MSlice x) (MSlice y)
| st_map k e v x y : map_rel (stores e) (zero V e) (key_means k) mkey_eqb v x y -> stores (YMap k e) v (MMap x) (MMap y)
| st_map_si v x y : stores (YMap KYString YIface) v x y -> stores YMapSI v x y
| st_map_sr v x y : stores (YMap KYString YRaw) v x y -> stores YMapSR v x y
| st_ptr_null e s x : (match x, e with Some _, YPtr _ => False | _, _ => True end) ->
    stores (YPtr e) (ND s HNull) (MPtr x) (MPtr None)
| st_ptr_ptr e s x y : stores (YPtr e) (ND s HNull) x y -> stores (YPtr (YPtr e)) (ND s HNull) (MPtr (Some x)) (MPtr (Some y))
| st_ptr e v x y : nshape v <> HNull -> stores e v (match x with Some x => x | None => zero V e end) y ->
    stores (YPtr e) v (MPtr x) (MPtr (Some y))
| st_struct i v x y : struct_rel (member i) v (MList x) y -> stores (YStruct i) v (MList x) y
| st_json u v x y : nshape v <> HNull -> v_json V u (ntext v) x = (None, y) -> stores (YJSON u) v (MUser x) (MUser y)
| st_text u s t x y : str_means s t -> v_text V u t x = (None, y) -> stores (YText u) (ND s HStr) (MUser x) (MUser y)
(** What a member with key [k] does to a struct of type i. *)
with member : nat -> bytes -> node -> mem -> mem -> Prop :=
| me_unknown i k v x : picks (v_flds V i) k None -> d_disallow F = false -> member i k v x x
| me_field i k f v x y : picks (v_flds V i) k (Some f) ->
    at_path (quoted (jf_quot f) (stores (jf_ty f))) (jf_path f) v x y -> member i k v x y.
End Stores.
