(** Independent specification of the place an UnmarshalTypeError names: which
    value of the text is the first that its place in the target cannot hold.
    It is built on [stores] (SpecType.v); no decoder occurs here.  Then what the
    error should say about that value. *)
From Verif Require Import Bytes SpecJson SpecString SpecDec IntModel EncModel DecModel IntFacts TypeModel DecLoops SpecType WhereModel.

(** Where that is: the way to it, the types of the containers it is in, its text
    (None for a field with the option ",string", whose text is in a string), and
    the type it should have had. *)
Record place := Place { pl_path : list seg; pl_in : list gty; pl_val : option bytes; pl_type : gty }.
Definition inside (t : gty) (s : seg) (p : place) : place := Place (s :: pl_path p) (t :: pl_in p) (pl_val p) (pl_type p).

(** * Containers, for any way [R] of storing an element and any way [B] of
    saying that an element cannot be stored because of the place p in it;
    [into s p] is the place p of the element s. *)
Section Containers.
Context {A P : Type} (into : seg -> P -> P) (R : node -> A -> A -> Prop) (B : node -> A -> P -> Prop) (zero : A).

(** The elements before the blamed one are stored. *)
Inductive slice_fault : list node -> list A -> P -> Prop :=
| sf l1 v l2 d ys p : onto R zero l1 d ys -> B v (nth (length l1) d zero) p ->
    slice_fault (l1 ++ v :: l2) d (into (SIdx (length l1)) p).
Inductive array_fault : list node -> list A -> P -> Prop :=
| af l1 v l2 d1 ys x d2 p : length d1 = length l1 -> along R l1 d1 ys -> B v x p ->
    array_fault (l1 ++ v :: l2) (d1 ++ x :: d2) (into (SIdx (length l1)) p).
Inductive map_fault {K} (name : K -> mkey) (keym : bytes -> K -> Prop) : list (bytes * node) -> P -> Prop :=
| mf l1 lit v l2 kvs k p : Forall2 (entry R zero keym) l1 kvs -> keym lit k -> B v zero p ->
    map_fault name keym (l1 ++ (lit, v) :: l2) (into (SKey (name k)) p).
End Containers.
Inductive struct_fault {A P} (into : seg -> P -> P) (M : bytes -> node -> A -> A -> Prop) (B : bytes -> node -> A -> P -> Prop) :
    list (bytes * node) -> A -> P -> Prop :=
| stf l1 lit k v l2 x y p : members_rel M l1 x y -> str_means lit k -> B k v y p ->
    struct_fault into M B (l1 ++ (lit, v) :: l2) x (into (SName k) p).

(** Inside interface{} only a number can be wrong: it should be a float64. *)
Inductive wrong (num : bytes -> jv -> Prop) : jast -> place -> Prop :=
| wr_num s : (forall v, ~ num s v) -> wrong num (JNum s) (Place [] [] (Some s) (YFloat true))
| wr_arr l1 a l2 p : Forall (fun a => exists v, ival num a v) l1 -> wrong num a p ->
    wrong num (JArr (l1 ++ a :: l2)) (inside (YSlice YIface) (SIdx (length l1)) p)
| wr_obj l1 lit k a l2 p : Forall (fun la => exists v, ival num (snd la) v) l1 -> str_means lit k -> wrong num a p ->
    wrong num (JObj (l1 ++ (lit, a) :: l2)) (inside YMapSI (SKey (MKStr k)) p).

Section Faults.
Context (V : tenv) (F : dflags).

(** The variable a path leads to; nil pointers on the way are set to zero
    structs unless their type is unexported. *)
Inductive reach : list pstep -> mem -> mem -> Prop :=
| re_here x : reach [] x x
| re_in l1 x l2 p y : reach p x y -> reach (PIn (length l1) :: p) (MList (l1 ++ x :: l2)) y
| re_via l1 x l2 s u p y : reach p x y -> reach (PVia (length l1) s u :: p) (MList (l1 ++ MPtr (Some x) :: l2)) y
| re_new l1 l2 s p y : reach p (zero V (YStruct s)) y -> reach (PVia (length l1) s false :: p) (MList (l1 ++ MPtr None :: l2)) y.

(** The target takes the value apart: only a part of it can be to blame. *)
Definition opens (t : gty) (nd : node) (x : mem) : Prop :=
  match t, nshape nd with
  | YSlice _, HArr _ | YArray _ _, HArr _ | YBytes, HArr _ => True
  | YMap _ _, HObj _ | YMapSI, HObj _ | YMapSR, HObj _ | YStruct _, HObj _ => True
  | YIface, _ => True
  | YNamedIface true, _ => x = MIface JVNull
  | YPtr _, _ => True
  | _, _ => False
  end.

(** [faults t nd x p]: storing [nd] into [x] of type [t] fails, and the first
    value that cannot be stored is at [p]. *)
Inductive faults : gty -> node -> mem -> place -> Prop :=
| fa_here t nd x : ~ opens t nd x -> (forall y, ~ stores V F t nd x y) -> faults t nd x (Place [] [] (Some (ntext nd)) t)
| fa_slice e s l x p : slice_fault (inside (YSlice e)) (stores V F e) (faults e) (zero V e) l (backing x) p ->
    faults (YSlice e) (ND s (HArr l)) (MSlice x) p
| fa_bytes s l x p :
    slice_fault (inside YBytes) (fun v x y => stores V F (YInt TUint8) v (MInt x) (MInt y)) (fun v x => faults (YInt TUint8) v (MInt x)) 0 l (backing x) p ->
    faults YBytes (ND s (HArr l)) (MBytes x) p
| fa_array n e s l x p : length x = n -> array_fault (inside (YArray n e)) (stores V F e) (faults e) l x p ->
    faults (YArray n e) (ND s (HArr l)) (MList x) p
| fa_map k e s l x p : map_fault (inside (YMap k e)) (stores V F e) (faults e) (zero V e) (fun k => k) (key_means V k) l p ->
    faults (YMap k e) (ND s (HObj l)) (MMap x) p
| fa_map_si s l x p : map_fault (inside YMapSI) (stores V F YIface) (faults YIface) (zero V YIface) (fun k => k) (key_means V KYString) l p ->
    faults YMapSI (ND s (HObj l)) (MMap x) p
| fa_map_sr s l x p : map_fault (inside YMapSR) (stores V F YRaw) (faults YRaw) (zero V YRaw) (fun k => k) (key_means V KYString) l p ->
    faults YMapSR (ND s (HObj l)) (MMap x) p
| fa_iface nd x p : wrong (num V F) (erase nd) p -> faults YIface nd (MIface x) p
| fa_named nd p : nshape nd <> HNull -> wrong (num V F) (erase nd) p -> faults (YNamedIface true) nd (MIface JVNull) p
| fa_ptr e nd x p : nshape nd <> HNull -> faults e nd (match x with Some x => x | None => zero V e end) p ->
    faults (YPtr e) nd (MPtr x) p
| fa_struct i s l x p : struct_fault (inside (YStruct i)) (member V F i) (at_field i) l (MList x) p ->
    faults (YStruct i) (ND s (HObj l)) (MList x) p
(** A member with key [k] of a struct of type i cannot be stored. *)
with at_field : nat -> bytes -> node -> mem -> place -> Prop :=
| at_plain i k f nd x y p : picks V F (v_flds V i) k (Some f) -> jf_quot f = QNo -> reach (jf_path f) x y ->
    faults (jf_ty f) nd y p -> at_field i k nd x p
| at_quoted i k f nd x y : picks V F (v_flds V i) k (Some f) -> jf_quot f <> QNo -> reach (jf_path f) x y ->
    (forall z, ~ quoted (jf_quot f) (stores V F (jf_ty f)) nd y z) -> at_field i k nd x (Place [] [] None (deref (jf_ty f))).
End Faults.

(** A place as encoding/json writes it: the segments with dots between them. *)
Fixpoint dotted (names : list bytes) : bytes :=
  match names with
  | [] => []
  | [n] => n
  | n :: l => n ++ 46 :: dotted l
  end.

(** * What the error says about the place *)
(** [quotes w v]: Value was made from a text that begins with the value. *)
Definition quotes (w : what) (v : option bytes) : Prop :=
  match v with Some v => exists r, w = WQuote (v ++ r) | None => True end.
(** An integer overflows, unless it is negative and the type is unsigned; a number
    with a fraction or exponent is quoted as it is if the part before that fits
    into 64 bits; other values are quoted. *)
Definition fits64 (it : ity) (s : bytes) (z : Z) : Prop :=
  if signed it then - 2 ^ 63 <= z < 2 ^ 63 else z < 2 ^ 64 /\ hd 0 s <> 45.
Definition counts (it : ity) (w : what) (v : option bytes) : Prop :=
  match v with
  | Some v => exists r, (w = WQuote (v ++ r) \/ w = WOver (v ++ r)) /\
      (forall z, int_text v z -> signed it = true \/ hd 0 v <> 45 -> w = WOver (v ++ r)) /\
      (forall s z c t, int_text s z -> fits64 it s z -> v = s ++ c :: t -> c = 46 \/ c = 101 \/ c = 69 -> w = WQuote v) /\
      (~ number_lit v -> w = WQuote (v ++ r))
  | None => True
  end.
Definition exactly (w : what) (v : option bytes) : Prop :=
  match v with Some v => w = WText v | None => True end.
(** The kind of a value that is no string and not null. *)
Inductive kind_of : bytes -> bytes -> Prop :=
| ko_obj r : kind_of (123 :: r) (bs "object")
| ko_arr r : kind_of (91 :: r) (bs "array")
| ko_true : kind_of (bs "true") (bs "true")
| ko_false : kind_of (bs "false") (bs "false")
| ko_num c r : c = 45 \/ 48 <= c <= 57 -> kind_of (c :: r) (bs "number").
(** Value and Type.  For the types with UnmarshalJSON, and with UnmarshalText if
    the value is a string, the error is the user's. *)
Definition says (t : gty) (v : option bytes) (w : what) (rt : rty) : Prop :=
  match t with
  | YJSON _ => True
  | YText _ => match v with
               | Some (34 :: _) | None => True
               | Some v => rt = RPtr t /\ exists k, w = WText k /\ kind_of v k
               end
  | YDuration => quotes w v /\
                 match v with
                 | Some (34 :: _) => rt = RTy t
                 | Some _ => rt = RTy (YInt TInt32)
                 | None => rt = RTy t \/ rt = RTy (YInt TInt32)
                 end
  | YNamedIface _ | YUnsupported => exactly w v /\ rt = RTy t
  | YInt it => counts it w v /\ rt = RTy t
  | _ => quotes w v /\ rt = RTy t
  end.
Definition reports (r : rep) (p : place) : Prop :=
  r_path r = pl_path p /\ r_in r = pl_in p /\ says (pl_type p) (pl_val p) (r_value r) (r_type r).
