(** Theorems about parts decoded as if alone: C100. *)
From Verif Require Import Bytes ParseModel IntModel StringModel EncModel DecModel SpecJson SpecString SpecDec DecLoops ParseFacts IntFacts DecFacts ExactFloat
  TypeModel SpecType SpecFit SpecMerge SpecPart NodeFacts TypeLoops TypeFacts TypeMain TypeSound TypeSafe PropsDec PropsType WhereUnique AgainFacts PropsTrip PropsAgain.

Lemma app_split {A} (a b c d : list A) : length a = length c -> a ++ b = c ++ d -> a = c /\ b = d.
Proof. revert c. induction a as [|x a IH]; intros [|y c] L E; try discriminate; [auto|]. cbn [app] in E. injection E as -> E. injection L as L. destruct (IH c L E) as [-> ->]. auto. Qed.

Section Part.
Context (V : tenv) (F : dflags).
Notation stores := (stores V F).
Definition framed (s : bytes) (nd : node) : Prop := exists w1 w2, s = w1 ++ ntext nd ++ w2 /\ ws w1 /\ jnode nd /\ ws w2.
Lemma text_framed s a : jtext s a -> exists nd, framed s nd /\ erase nd = a.
Proof. intros J. destruct (C42_every_text s a J) as (w1 & nd & w2 & E & W1 & JN & W2 & A). exists nd. split; [exists w1, w2; auto|exact A]. Qed.
Lemma framed_iff t s nd x y : env_ok V -> framed s nd -> unmarshal V F t s x = (None, y) <-> stores t nd x y.
Proof. intros OK (w1 & w2 & -> & W1 & JN & W2). now apply C42_accepts_iff. Qed.
Lemma texts_framed es : Forall (fun s => exists a, jtext s a) es -> exists nds, Forall2 framed es nds.
Proof. induction 1 as [|s es (a & J) _ (nds & IH)]; [exists []; constructor|]. destruct (text_framed s a J) as (nd & FR & _). exists (nd :: nds). now constructor. Qed.
Lemma commas_elems es nds : Forall2 framed es nds -> es <> [] -> nelems (commas es) nds.
Proof.
  induction 1 as [|s nd es nds (w1 & w2 & -> & W1 & JN & W2) H IH]; intros NE; [contradiction|]. destruct H as [|s' nd' es nds H' H]; [now constructor|].
  change (commas ((w1 ++ ntext nd ++ w2) :: s' :: es)) with ((w1 ++ ntext nd ++ w2) ++ 44 :: commas (s' :: es)). repeat (rewrite <- app_assoc; cbn [app]). constructor; try assumption. apply IH. discriminate.
Qed.
Lemma bracketed_node es nds : Forall2 framed es nds -> framed (bracketed es) (ND (bracketed es) (HArr nds)).
Proof.
  intros H. exists [], []. cbn [ntext app]. rewrite app_nil_r. split; [reflexivity|]. split; [constructor|]. split; [|constructor]. unfold bracketed.
  destruct es as [|s es]; [inversion H; subst; apply (N_arr0 []); constructor|]. apply N_arr, commas_elems; [exact H|discriminate].
Qed.
Lemma onto_alone e es nds : env_ok V -> Forall2 framed es nds -> forall l ys, onto (stores e) (zero V e) nds l ys <-> Forall2 (alone V F e) (combine es (cells V e (length es) l)) ys.
Proof.
  intros OK. induction 1 as [|s nd es nds FR H IH]; intros l ys.
  - split; [intros X; inversion X; subst; constructor|intros X; inversion X; subst; constructor].
  - assert (C : cells V e (length (s :: es)) l = hd (zero V e) l :: cells V e (length es) (tl l)).
    { unfold cells. cbn [length seq map]. f_equal; [destruct l; reflexivity|]. rewrite <- seq_shift, map_map. apply map_ext. intros i. destruct l as [|x l]; [destruct i; reflexivity|reflexivity]. }
    rewrite C. cbn [combine]. split.
    + intros X. inversion X; subst. constructor; [unfold alone; cbn [fst snd]; now apply (framed_iff e s nd)|now apply IH].
    + intros X. inversion X as [|? y ? ys' A B]; subst. constructor; [now apply (framed_iff e s nd)|now apply IH].
Qed.

(** * C100: a part is decoded as it would be alone *)
(** Slices: element i is what Unmarshal of its text alone leaves in the cell the
    slice has for it, or in a zero value. *)
Theorem C100_slice e es x ys : env_ok V -> Forall (fun s => exists a, jtext s a) es -> length ys = length es ->
  (Forall2 (alone V F e) (combine es (cells V e (length es) (backing x))) ys <->
   exists rest, unmarshal V F (YSlice e) (bracketed es) (MSlice x) = (None, MSlice (Some (length es, ys ++ rest)))).
Proof.
  intros OK JT LY. destruct (texts_framed es JT) as (nds & FR). pose proof (SpellFacts.f2_length _ _ _ FR) as LN.
  rewrite <- (onto_alone e es nds OK FR). split.
  - intros O. destruct (grows_any (length nds - length (backing x))%nat (length (backing x)) (length nds) (le_n _)) as (c & G). eexists. apply (framed_iff _ _ (ND (bracketed es) (HArr nds)) _ _ OK (bracketed_node _ _ FR)).
    rewrite LN. apply st_slice. exact (sr_arr _ _ _ nds x ys c O G).
  - intros (rest & H). apply (framed_iff _ _ (ND (bracketed es) (HArr nds)) _ _ OK (bracketed_node _ _ FR)) in H.
    inversion H as [| | | | | | | | | | | | | | | | |? ? ? ? SR| | | | | | | | |]; subst. inversion SR as [|? ? ? ys' c O G E1 E2]; subst.
    replace ys with ys'; [exact O|]. assert (L : length ys' = length ys) by (rewrite LY, LN; clear - O; induction O; cbn; congruence).
    match goal with Q : ys' ++ _ = ys ++ _ |- _ => revert Q end. clear - L. match goal with |- _ ++ ?z = _ -> _ => generalize z end. intros z. revert ys L. induction ys' as [|a ys' IH]; intros [|b ys] L Q; try discriminate; [reflexivity|].
    cbn [app] in Q. injection Q as <- Q. cbn [length] in L. f_equal. apply IH; [lia|exact Q].
Qed.
(** Fixed-size arrays: the elements there is room for; the others need only be
    JSON, and elements without a counterpart are kept. *)
Theorem C100_array e es xs ys : env_ok V -> Forall (fun s => exists a, jtext s a) es -> es <> [] -> length ys = Nat.min (length es) (length xs) ->
  (Forall2 (alone V F e) (combine es xs) ys <->
   unmarshal V F (YArray (length xs) e) (bracketed es) (MList xs) = (None, MList (ys ++ skipn (length es) xs))).
Proof.
  intros OK JT NE LY. destruct (texts_framed es JT) as (nds & FR). rewrite (framed_iff _ _ (ND (bracketed es) (HArr nds)) _ _ OK (bracketed_node _ _ FR)).
  assert (AL : forall es nds, Forall2 framed es nds -> forall xs ys, length ys = Nat.min (length es) (length xs) -> Forall2 (alone V F e) (combine es xs) ys <-> along (stores e) nds xs (ys ++ skipn (length es) xs)).
  { clear - OK. induction 1 as [|s nd es nds FR H IH]; intros xs ys LY.
    - destruct ys; [|discriminate]. cbn [length skipn app combine]. split; [constructor|constructor].
    - destruct xs as [|x xs]; cbn [length combine skipn] in *.
      + destruct ys; [|discriminate]. cbn [app]. split; [constructor|constructor].
      + destruct ys as [|y ys]; [discriminate|]. cbn [app]. split.
        * intros X. inversion X; subst. constructor; [now apply (framed_iff e s nd)|]. apply IH; [cbn [length] in LY; lia|assumption].
        * intros X. inversion X; subst. constructor; [now apply (framed_iff e s nd)|]. apply IH; [cbn [length] in LY; lia|assumption]. }
  rewrite (AL es nds FR xs ys LY). split.
  - intros A. apply st_array; [reflexivity|]. constructor; [|exact A]. intros ->. inversion FR; subst. contradiction.
  - intros H. inversion H as [| | | | | | | | | | | | | | | |? ? ? ? ? ? AR| | | | | | | | | |]; subst. now inversion AR; subst.
Qed.
(** Pointers: as what they point to, or as a new zero value. *)
Theorem C100_pointer e b a p y : env_ok V -> jtext b a -> a <> JNull ->
  (unmarshal V F (YPtr e) b (MPtr p) = (None, MPtr (Some y)) <-> unmarshal V F e b (match p with Some x => x | None => zero V e end) = (None, y)).
Proof.
  intros OK J NN. destruct (text_framed b a J) as ([s h] & FR & EA). rewrite !(framed_iff _ b (ND s h)) by assumption.
  assert (NH : nshape (ND s h) <> HNull) by (intros X; cbn in X; subst h; cbn in EA; congruence). split.
  - intros H. inversion H as [| | | | | | | | | | | | | | | | | | | | | | |? ? ? ? ? S| | |]; subst; first [exact S | contradiction | exfalso; apply NH; reflexivity].
  - intros H. now apply st_ptr.
Qed.
(** Maps: the value of an entry, into a zero value. *)
Theorem C100_entry e k t v a y : env_ok V -> string_lit k -> str_means k t -> jtext v a ->
  (unmarshal V F (YMap KYString e) (braced (k ++ 58 :: v)) (MMap None) = (None, MMap (Some [(MKStr t, y)])) <-> unmarshal V F e v (zero V e) = (None, y)).
Proof.
  intros OK K KT J. destruct (text_framed v a J) as (nd & (w1 & w2 & -> & W1 & JN & W2) & EA). rewrite (framed_iff e _ nd) by (try exact OK; exists w1, w2; auto).
  assert (FR : framed (braced (k ++ 58 :: w1 ++ ntext nd ++ w2)) (ND (braced (k ++ 58 :: w1 ++ ntext nd ++ w2)) (HObj [(k, nd)]))).
  { exists [], []. cbn [ntext app]. rewrite app_nil_r. split; [reflexivity|]. split; [constructor|]. split; [|constructor]. apply N_obj. apply (NM_one [] k [] w1 nd w2); auto; constructor. }
  rewrite (framed_iff _ _ _ _ _ OK FR). split.
  - intros H. inversion H as [| | | | | | | | | | | | | | | | | |? ? ? ? ? M| | | | | | | |]; subst. inversion M as [|? ? ? kvs FE E1 E2]; subst. inversion FE as [|? [k' y'] ? ? [KM S] FE']; subst. inversion FE'; subst. cbn [fst snd] in *.
    match goal with Q : add_all _ _ _ = _ |- _ => vm_compute in Q; injection Q as -> -> end. exact S.
  - intros S. apply st_map. apply (mr_obj _ _ _ mkey_eqb _ [(k, nd)] None [(MKStr t, y)]). constructor; [|constructor]. split; [now constructor|exact S].
Qed.
(** Fields of a struct that lie in it directly. *)
Theorem C100_field i f k key v a l1 x l2 y : env_ok V -> string_lit k -> str_means k key -> picks V F (v_flds V i) key (Some f) -> jf_quot f = QNo -> jf_path f = [PIn (length l1)] -> jtext v a ->
  (unmarshal V F (YStruct i) (braced (k ++ 58 :: v)) (MList (l1 ++ x :: l2)) = (None, MList (l1 ++ y :: l2)) <-> unmarshal V F (jf_ty f) v x = (None, y)).
Proof.
  intros OK K KT PK Q P J. destruct (text_framed v a J) as (nd & (w1 & w2 & -> & W1 & JN & W2) & EA). rewrite (framed_iff (jf_ty f) _ nd) by (try exact OK; exists w1, w2; auto).
  assert (FR : framed (braced (k ++ 58 :: w1 ++ ntext nd ++ w2)) (ND (braced (k ++ 58 :: w1 ++ ntext nd ++ w2)) (HObj [(k, nd)]))).
  { exists [], []. cbn [ntext app]. rewrite app_nil_r. split; [reflexivity|]. split; [constructor|]. split; [|constructor]. apply N_obj. apply (NM_one [] k [] w1 nd w2); auto; constructor. }
  rewrite (framed_iff _ _ _ _ _ OK FR). split.
  - intros H. inversion H as [| | | | | | | | | | | | | | | | | | | | | | | |? ? ? ? SR| |]; subst. inversion SR as [|? ? ? ? MR]; subst. inversion MR as [|? k' ? ? ? z ? KM M MR']; subst. inversion MR'; subst.
    rewrite (str_means_det _ _ _ KM KT) in M. inversion M as [? ? ? ? PK' DD|? ? f' ? ? ? PK' AP]; subst; pose proof (picks_uniq V F _ _ _ _ PK PK') as E; [discriminate|]. injection E as <-.
    rewrite P in AP. inversion AP as [|m1 x' m2 p ? y' AP' E1 E2 E3 E4| |]; subst. inversion AP' as [? ? ? QU| | |]; subst. inversion QU as [? ? ? _ S|? ? ? NQ|? ? ? ? ? NQ|? ? ? ? ? NQ]; subst; try congruence.
    match goal with A : length m1 = length l1, B : m1 ++ x' :: m2 = l1 ++ x :: l2, C : m1 ++ y' :: m2 = l1 ++ y :: l2 |- _ => apply (app_split _ _ _ _ A) in B as [_ B]; apply (app_split _ _ _ _ A) in C as [_ C]; injection B as -> _; injection C as -> _ end. exact S.
  - intros S. apply st_struct. constructor. econstructor; [exact KT| |constructor]. eapply me_field; [exact PK|]. rewrite P. constructor. constructor. now constructor.
Qed.
End Part.

(** Non-vacuity. *)
Definition pa_flags : dflags := DFlags true false false.
Definition pa_texts : list bytes := [bs " [1]"; bs "null "; bs "{""a"":true}"].
Example C100_holds : env_ok ex_env /\ Forall (fun s => exists a, jtext s a) pa_texts /\
  (exists ys, length ys = 3%nat /\ Forall2 (alone ex_env pa_flags YIface) (combine pa_texts (cells ex_env YIface 3 (backing (Some (1%nat, [MIface (JVBool true)]))))) ys /\
     exists rest, unmarshal ex_env pa_flags (YSlice YIface) (bracketed pa_texts) (MSlice (Some (1%nat, [MIface (JVBool true)]))) = (None, MSlice (Some (3%nat, ys ++ rest)))) /\
  unmarshal ex_env pa_flags (YArray 2 YIface) (bracketed pa_texts) (MList [MIface JVNull; MIface (JVBool true)]) = (None, MList [MIface (JVArr [JVNumber (bs "1")]); MIface JVNull]) /\
  unmarshal ex_env pa_flags (YPtr YString) (bs """x""") (MPtr None) = (None, MPtr (Some (MStr (bs "x")))) /\
  unmarshal ex_env pa_flags (YMap KYString YString) (braced (bs """k""" ++ 58 :: bs " ""x""")) (MMap None) = (None, MMap (Some [(MKStr (bs "k"), MStr (bs "x"))])).
Proof.
  split; [exact ex_env_ok|]. split; [repeat constructor; apply is_text; vm_compute; reflexivity|]. split.
  - exists [MIface (JVArr [JVNumber (bs "1")]); MIface JVNull; MIface (JVMap [(bs "a", JVBool true)])]. split; [reflexivity|]. split; [repeat constructor; vm_compute; reflexivity|]. eexists. vm_compute. reflexivity.
  - split; [vm_compute; reflexivity|]. split; vm_compute; reflexivity.
Qed.
Example C100_field_holds : env_ok rf_env /\ exists f, picks rf_env pa_flags (v_flds rf_env 0) (bs "l") (Some f) /\ jf_quot f = QNo /\ jf_path f = [PIn (@length mem [])] /\
  unmarshal rf_env pa_flags (YStruct 0) (braced (bs """l""" ++ 58 :: bs "[true]")) (MList ([] ++ MSlice None :: [])) = (None, MList ([] ++ MSlice (Some (1%nat, MBool true :: repeat (MBool false) 9)) :: [])).
Proof.
  split; [exact (proj1 rf_ok)|]. exists (JField (bs "l") [PIn 0] (YSlice YBool) QNo).
  split; [apply (pk_exact _ _ _ _ [] _ []); [reflexivity|reflexivity|constructor]|]. split; [reflexivity|]. split; [reflexivity|]. vm_compute; reflexivity.
Qed.
Print Assumptions C100_slice.
Print Assumptions C100_array.
Print Assumptions C100_pointer.
Print Assumptions C100_entry.
Print Assumptions C100_field.
