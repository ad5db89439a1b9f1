(** Decoding arbitrary bytes: what is read is spelled as SpecLoose.v says, and
    stored as SpecType.v says. *)
From Verif Require Import Bytes AsciiModel Utf8Model ParseModel IntModel StringModel EncModel DecModel
  SpecJson SpecString SpecDec ParseFacts Utf8Facts StringFacts IntFacts DecLoops DecFacts TypeModel SpecType SpecLoose NodeFacts TypeLoops TypeFacts TypeMain TypeSound.

(** A proper text for every list of proper values. *)
Lemma arr_node l : Forall jnode l -> exists u, jnode (ND u (HArr l)).
Proof.
  intros H. destruct l as [|v l]; [exists [91; 93]; exact (N_arr0 [] (Forall_nil _))|].
  assert (E : exists s, nelems s (v :: l)); [|destruct E as [s E]; eexists; apply N_arr, E].
  revert v H. induction l as [|v' l IH]; intros v H; inversion H as [|? ? J H']; subst.
  - eexists. exact (NE_one [] v [] (Forall_nil _) J (Forall_nil _)).
  - destruct (IH v' H') as [s E]. eexists. exact (NE_cons [] v [] s _ (Forall_nil _) J (Forall_nil _) E).
Qed.
Lemma obj_node l : Forall (fun kv => string_lit (fst kv) /\ jnode (snd kv)) l -> exists u, jnode (ND u (HObj l)).
Proof.
  intros H. destruct l as [|[k v] l]; [exists [123; 125]; exact (N_obj0 [] (Forall_nil _))|].
  assert (E : exists s, nmembers s ((k, v) :: l)); [|destruct E as [s E]; eexists; apply N_obj, E].
  revert k v H. induction l as [|[k' v'] l IH]; intros k v H; inversion H as [|? ? [K J] H']; subst.
  - eexists. exact (NM_one [] k [] [] v [] (Forall_nil _) K (Forall_nil _) (Forall_nil _) J (Forall_nil _)).
  - destruct (IH k' v' H') as [s E]. eexists. exact (NM_cons [] k [] [] v [] s _ (Forall_nil _) K (Forall_nil _) (Forall_nil _) J (Forall_nil _) E).
Qed.

Definition mends {A} (S : bytes -> node -> Prop) (R : node -> A -> A -> Prop) (D : bytes -> A -> dres A) (b : bytes) (x : A) : Prop :=
  forall r y, D b x = DR r None y ->
  exists w0 s w1 v, ws w0 /\ ws w1 /\ b = w0 ++ s ++ w1 ++ r /\ S s v /\ jnode v /\ R v x y.

Lemma map_mends {A B} S (R : node -> A -> A -> Prop) (R' : node -> B -> B -> Prop) (D : bytes -> A -> dres A) (D' : bytes -> B -> dres B) (f : A -> B) b x y :
  D' b y = d_map f (D b x) -> (forall v z, R v x z -> R' v y (f z)) -> mends S R D b x -> mends S R' D' b y.
Proof.
  intros E HR H r z Ez. rewrite E in Ez. destruct (D b x) as [r' [e|] z'] eqn:ED; cbn [d_map] in Ez; [discriminate|]. injection Ez as <- <-.
  destruct (H r' z' ED) as (w0 & s & w1 & v & A1 & A2 & A3 & A4 & A5 & A6). exists w0, s, w1, v. auto 10.
Qed.
Lemma err_mends {A} S R (D : bytes -> A -> dres A) b x r e y : D b x = DR r (Some e) y -> mends S R D b x.
Proof. intros E r' y' H. congruence. Qed.
Lemma in_err_mends {A} S R (D : bytes -> A -> dres A) b x y : wf b -> D b x = in_err b y -> mends S R D b x.
Proof. intros W E. destruct (in_err_wf b y W) as (r & e & E2 & NE). eapply err_mends. rewrite E. exact E2. Qed.

(** Leaves: the text is JSON; the value follows from the text alone. *)
Definition strict (s : bytes) (v : node) : Prop := s = ntext v.
Lemma node_mends {A} (R : node -> A -> A -> Prop) (D : bytes -> A -> dres A) b x v r y : jnode v -> b = ntext v ++ r -> D b x = DR r None y ->
  meets D R v x -> (stops v r \/ exists r1, D (ntext v) x = DR r1 None y) -> mends strict R D b x.
Proof.
  intros J Eb ED M H r' y' E. assert (r' = r /\ y' = y) as [-> ->] by (split; congruence). exists [], (ntext v), [], v.
  split; [constructor|]. split; [constructor|]. split; [exact Eb|]. split; [reflexivity|]. split; [exact J|]. destruct H as [H|(r1 & H)].
  - destruct (M r H) as [(r2 & y2 & E2 & _ & RY & _)|(r2 & e & y2 & E2 & _)]; rewrite <- Eb, ED in E2; congruence.
  - destruct (M [] (stop_any v [] I)) as [(r2 & y2 & E2 & _ & RY & _)|(r2 & e & y2 & E2 & _)]; rewrite app_nil_r in E2; congruence.
Qed.
Lemma strict_mends {A} (S : bytes -> node -> Prop) (R : node -> A -> A -> Prop) D b x : (forall v, jnode v -> S (ntext v) v) -> mends strict R D b x -> mends S R D b x.
Proof.
  intros HS H r y E. destruct (H r y E) as (w0 & s & w1 & v & A1 & A2 & A3 & A4 & A5 & A6). unfold strict in A4. subst s. exists w0, (ntext v), w1, v. auto 10.
Qed.
(** A decoder that reads a value and does not accept numbers. *)
Definition no_number {A} (D : bytes -> A -> dres A) (x : A) : Prop := forall v r, jnode v -> nshape v = HNum -> d_err (D (ntext v ++ r) x) <> None.
Lemma reads_mends {A} (R : node -> A -> A -> Prop) (D : bytes -> A -> dres A) b x :
  reads D b x -> (forall v, jnode v -> meets D R v x) -> no_number D x -> mends strict R D b x.
Proof.
  intros RD M NN r y E. unfold reads in RD. rewrite E in RD. cbn [d_err d_rest] in RD. destruct RD as (v & J & Eb).
  eapply node_mends; [exact J|exact Eb|exact E|apply M, J| |exact E]. left. unfold stops.
  destruct (nshape v) eqn:Hs; try exact I. exfalso. apply (NN v r J Hs). rewrite <- Eb, E. reflexivity.
Qed.

Lemma skip_nsp b : nsp (skip_spaces b).
Proof. destruct (skip_spaces_split b) as (w & _ & _ & H). exact H. Qed.

Section Arr.
Context {A : Type} (S : bytes -> node -> Prop) (R : node -> A -> A -> Prop) (D : bytes -> A -> dres A) (N : nat).
Hypothesis HT : forall b x, wf b -> (length b < N)%nat -> takes False D b x.
Hypothesis HM : forall b x, wf b -> nsp b -> (length b < N)%nat -> mends S R D b x.

Lemma skip_mend k : forall first b r, wf b -> array_skip k b = (r, None) ->
  exists s l, b = s ++ 93 :: r /\ room S 0 first s l /\ Forall jnode l.
Proof.
  induction k as [|k IH]; intros first b r W E; [discriminate|]. cbn [array_skip] in E. cbv zeta in E.
  destruct (skip_read b W) as (w & Ww & Eb & Ws & _). destruct (skip_spaces b) as [|c b1]; [discriminate|].
  destruct (c =? 93) eqn:C.
  { apply Z.eqb_eq in C. injection E as ->. subst c. exists w, []. split; [exact Eb|]. split; [apply ro_end; auto|constructor]. }
  assert (W1 := Ws). apply wf_cons in W1 as [_ W1].
  assert (EL : forall b2, wf b2 -> match parseValue b2 with PErr r e => (r, Some e) | POk _ r => array_skip k r end = (r, None) ->
    exists v t l, b2 = ntext v ++ t ++ 93 :: r /\ jnode v /\ room S 0 false t l /\ Forall jnode l).
  { intros b2 W2 E2. pose proof (parse_takes b2 W2) as PT. destruct (parseValue b2) as [v r2|r2 e]; [|congruence].
    destruct PT as (_ & Wr & _ & Eb2 & a & J). destruct (jvalue_nd v a J) as (nd & Jn & <-). destruct (IH false r2 r Wr E2) as (s & l & Es & RM & FJ).
    exists nd, s, l. rewrite <- Es. auto. }
  destruct (c =? 44) eqn:C2; rewrite ?C2 in E.
  - apply Z.eqb_eq in C2. subst c. destruct (skip_read b1 W1) as (w2 & Ww2 & Eb1 & Ws1 & _). destruct (EL _ Ws1 E) as (v & t & l & E2 & J & RM & FJ).
    exists (w ++ 44 :: w2 ++ ntext v ++ t), (v :: l). split; [rewrite Eb, Eb1, E2; appn; reflexivity|]. split; [apply ro_extra_comma; assumption|constructor; assumption].
  - destruct (EL _ Ws E) as (v & t & l & E2 & J & RM & FJ).
    exists (w ++ ntext v ++ t), (v :: l). split; [rewrite Eb, E2; appn; reflexivity|]. split; [apply ro_extra; assumption|constructor; assumption].
Qed.
Lemma room_ws k w s l : ws w -> room S k false s l -> room S k false (w ++ s) l.
Proof.
  intros W H. remember false as f eqn:Ef. destruct H; subst; try discriminate; try (rewrite app_assoc).
  - apply ro_end; [auto using ws_app|discriminate].
  - apply ro_next; auto using ws_app.
  - apply ro_extra; auto using ws_app.
  - apply ro_extra_comma; auto using ws_app.
Qed.
Lemma arr_mend todo : forall first b d0 r y, wf b -> (length b < N)%nat -> arr_loop D first b d0 todo = DR r None y ->
  exists s l ys, b = s ++ 93 :: r /\ y = d0 ++ ys /\ room S (length todo) first s l /\ Forall jnode l /\ along R l todo ys.
Proof.
  induction todo as [|x todo IH]; intros first b d0 r y W L E; cbn [arr_loop] in E.
  - destruct (array_skip (Datatypes.S (length b)) b) as [r' [e|]] eqn:ES; injection E as <- E1; [discriminate|]; intros; subst y; try discriminate.
    destruct (skip_mend _ first b r' W ES) as (s & l & Es & RM & FJ). exists s, l, []. split; [exact Es|]. split; [rewrite app_nil_r; reflexivity|]. split; [exact RM|]. split; [exact FJ|constructor].
  - cbv zeta in E. destruct (skip_read b W) as (w & Ww & Eb & Ws & Ls). set (sb := skip_spaces b) in *.
    assert (EL : forall b2, wf b2 -> nsp b2 -> (length b2 <= length b)%nat ->
      match d_err (D b2 x) with None => arr_loop D false (d_rest (D b2 x)) (d0 ++ [d_val (D b2 x)]) todo | Some e => DR (d_rest (D b2 x)) (Some e) (d0 ++ d_val (D b2 x) :: todo) end = DR r None y ->
      exists w2 s v t l ys, b2 = w2 ++ s ++ t ++ 93 :: r /\ ws w2 /\ y = d0 ++ ys /\ S s v /\ room S (length todo) false t l /\ Forall jnode (v :: l) /\ along R (v :: l) (x :: todo) ys).
    { intros b2 W2 N2 L2 E2. pose proof (HT b2 x W2 ltac:(lia)) as T. pose proof (HM b2 x W2 N2 ltac:(lia)) as M. unfold takes in T.
      destruct (D b2 x) as [r2 [e|] y2] eqn:ED; cbn [d_err d_rest d_val] in *; [discriminate|]. destruct T as (Wr & Lr & _).
      destruct (IH false r2 (d0 ++ [y2]) r y Wr ltac:(lia) E2) as (t & l & ys & Et & Ey & RM & FJ & AL).
      destruct (M r2 y2 ED) as (w0 & s & w1 & v & W0 & Ww1 & Es & HS & J & RY).
      exists w0, s, v, (w1 ++ t), l, (y2 :: ys). split; [rewrite Es, Et; appn; reflexivity|]. split; [exact W0|]. split; [rewrite Ey; appn; reflexivity|].
      split; [exact HS|]. split; [apply room_ws; assumption|]. split; [constructor; assumption|constructor; assumption]. }
    destruct first.
    + destruct (EL sb Ws (skip_nsp b) Ls E) as (w2 & s & v & t & l & ys & E2 & W2 & Ey & HS & RM & FJ & AL).
      exists ((w ++ w2) ++ s ++ t), (v :: l), ys. split; [rewrite Eb, E2; appn; reflexivity|]. split; [exact Ey|]. split; [apply ro_first; auto using ws_app|]. auto.
    + destruct sb as [|c b1]; [discriminate|]. apply wf_cons in Ws as [_ Ws]. cbn [length] in Ls. destruct (c =? 44) eqn:C.
      * apply Z.eqb_eq in C. subst c. destruct (skip_read b1 Ws) as (w3 & Ww3 & Eb1 & Ws1 & Ls1).
        destruct (EL (skip_spaces b1) Ws1 (skip_nsp b1) ltac:(lia) E) as (w2 & s & v & t & l & ys & E2 & W2 & Ey & HS & RM & FJ & AL).
        exists (w ++ 44 :: (w3 ++ w2) ++ s ++ t), (v :: l), ys. split; [rewrite Eb, Eb1, E2; appn; reflexivity|]. split; [exact Ey|]. split; [apply ro_next; auto using ws_app|]. auto.
      * destruct (c =? 93) eqn:C2; [|discriminate]. apply Z.eqb_eq in C2. subst c. injection E as <- <-.
        exists w, [], (x :: todo). split; [exact Eb|]. split; [reflexivity|]. split; [apply ro_end; [exact Ww|discriminate]|]. split; constructor.
Qed.

Lemma decode_array_mends b x : wf b -> (length b <= N)%nat -> (forall v, jnode v -> S (ntext v) v) ->
  mends (fun s v => strict s v \/ exists t l u, s = 91 :: t ++ [93] /\ v = ND u (HArr l) /\ room S (length x) true t l) (array_rel R) (decode_array D) b x.
Proof.
  intros W L HS r y E. unfold decode_array in E. destruct (has_null_prefix b) eqn:EN.
  { injection E as <- <-. exists [], (bs "null"), [], (ND (bs "null") HNull). split; [constructor|]. split; [constructor|]. split; [apply null_read, EN|].
    split; [left; reflexivity|]. split; [constructor|constructor]. }
  destruct (in_err_wf b x W) as (r' & e' & EE & _). destruct (Nat.ltb (length b) 2); [congruence|]. destruct b as [|c b1]; [congruence|].
  destruct (c =? 91) eqn:C; [|congruence]. apply Z.eqb_eq in C. subst c. apply wf_cons in W as [_ W]. cbn [length] in L.
  destruct (arr_mend x true b1 [] r y W ltac:(lia) E) as (s & l & ys & Es & -> & RM & FJ & AL). destruct (arr_node l FJ) as (u & J).
  exists [], (91 :: s ++ [93]), [], (ND u (HArr l)). split; [constructor|]. split; [constructor|]. split; [rewrite Es; appn; reflexivity|].
  split; [right; eauto 10|]. split; [exact J|]. cbn [app]. constructor; [|exact AL]. intros ->. inversion RM as [k f w Ww H| | | |]; subst.
  destruct x; [reflexivity|]. specialize (H eq_refl). discriminate H.
Qed.
End Arr.

Section Slices.
Context {A : Type} (S : bytes -> node -> Prop) (R : node -> A -> A -> Prop) (D : bytes -> A -> dres A) (N : nat) (z : A) (inp : bytes).
Hypothesis HT : forall b x, wf b -> (length b < N)%nat -> takes False D b x.
Hypothesis HM : forall b x, wf b -> nsp b -> (length b < N)%nat -> mends S R D b x.
Hypothesis WI : wf inp.

(** What is left of an array after none or some of its elements. *)
Definition stail (first : bool) (b r : bytes) (l : list node) : Prop :=
  (exists w, ws w /\ b = w ++ 93 :: r /\ l = []) \/
  (exists w s, ws w /\ selems S s l /\ b = (if first then [] else w ++ [44]) ++ s ++ 93 :: r).
Lemma selem_tail w0 s v w1 rest r l : ws w0 -> S s v -> ws w1 -> stail false rest r l -> exists t, selems S t (v :: l) /\ w0 ++ s ++ w1 ++ rest = t ++ 93 :: r.
Proof.
  intros W0 HS W1 [(w & W & -> & ->)|(w & s' & W & JE & ->)].
  - exists (w0 ++ s ++ (w1 ++ w)). split; [constructor; auto using ws_app|]. appn. reflexivity.
  - exists (w0 ++ s ++ (w1 ++ w) ++ 44 :: s'). split; [constructor; auto using ws_app|]. appn. reflexivity.
Qed.
Lemma selems_ws w s l : ws w -> selems S s l -> selems S (w ++ s) l.
Proof. intros W H. destruct H; rewrite app_assoc; constructor; auto using ws_app. Qed.

Lemma slice_mend k : forall b ys q data r y, wf b -> (length b < k)%nat -> (length b < N)%nat -> contents data = ys ++ q ->
  slice_loop D z inp k b (length ys) data = DR r None y ->
  exists l zs c, y = Some ((length ys + length zs)%nat, after z ys zs q c) /\ length zs = length l /\ stail (Nat.eqb (length ys) 0) b r l /\ Forall jnode l /\
    onto R z l q zs /\ grows (length ys + length q) (length ys + length zs) c.
Proof.
  induction k as [|k IH]; intros b ys q data r y W LK LN EC E; [lia|].
  destruct (skip_read b W) as (w & Ww & Eb & Ws & Ls). cbn [slice_loop] in E. cbv zeta in E. set (sb := skip_spaces b) in *.
  destruct (match sb with c :: _ => c =? 93 | [] => false end) eqn:C.
  { destruct sb as [|c t]; [discriminate|]. apply Z.eqb_eq in C. subst c. injection E as <- <-. fold (contents data). rewrite EC.
    exists [], [], (length ys + length q)%nat. split.
    - f_equal. f_equal; [cbn [length]; lia|]. unfold after. cbn [length skipn app]. replace (_ - _)%nat with 0%nat by lia. cbn [repeat]. rewrite app_nil_r. reflexivity.
    - split; [reflexivity|]. split; [left; exists w; auto|]. split; [constructor|]. split; [constructor|]. cbn [length]. constructor. lia. }
  assert (EL : forall b2, wf b2 -> nsp b2 -> (length b2 <= length b)%nat -> slice_elem D z inp k b2 (length ys) (contents data) = DR r None y ->
    exists l zs c, y = Some ((length ys + length zs)%nat, after z ys zs q c) /\ length zs = length l /\ (exists s, selems S s l /\ b2 = s ++ 93 :: r) /\ Forall jnode l /\
      onto R z l q zs /\ grows (length ys + length q) (length ys + length zs) c).
  { intros b2 W2 N2 L2 E2. rewrite EC in E2. destruct (slice_elem_eq D z inp k b2 ys q) as (q' & EQ & Q). rewrite EQ in E2. cbv zeta in E2.
    pose proof (HT b2 (hd z q) W2 ltac:(lia)) as T. unfold takes in T. pose proof (HM b2 (hd z q) W2 N2 ltac:(lia)) as M.
    destruct (D b2 (hd z q)) as [r2 [e|] y2] eqn:ED; cbn [d_err d_rest d_val] in *.
    { destruct (elem_err_nf inp e (Some (length ys, ys ++ y2 :: q')) WI T) as (? & ? & X & _). congruence. }
    destruct T as (Wr & Lr & _). destruct (M r2 y2 ED) as (w0 & s & w1 & v & W0 & W1 & Es & HS & J & RY).
    replace (Datatypes.S (length ys)) with (length (ys ++ [y2])) in E2 by (rewrite app_length; cbn; lia).
    destruct (IH r2 (ys ++ [y2]) q' (Some ((ys ++ [y2]) ++ q')) r y Wr ltac:(lia) ltac:(lia) eq_refl E2) as (l & zs & c & Ey & El & ST & FJ & ON & GR).
    replace (Nat.eqb (length (ys ++ [y2])) 0) with false in ST by (symmetry; apply Nat.eqb_neq; rewrite app_length; cbn; lia).
    destruct (selem_tail w0 s v w1 r2 r l W0 HS W1 ST) as (t & SE & Et).
    exists (v :: l), (y2 :: zs), c. split.
    { rewrite Ey. f_equal. rewrite (after_step z ys y2 zs q q' c (length zs) eq_refl);
        [|destruct Q as [Q|(-> & m & -> & _)]; [left; exact Q|right; eauto]|exact GR]. f_equal. rewrite app_length. cbn [length]. lia. }
    split; [cbn [length]; congruence|]. split; [exists t; split; [exact SE|rewrite Es; exact Et]|]. split; [constructor; assumption|].
    assert (OT : onto R z l (tl q) zs).
    { destruct Q as [(x0 & ->)|(-> & m & -> & _)]; [exact ON|]. cbn [tl]. eapply onto_zeros, ON. }
    split; [constructor; assumption|].
    rewrite app_length in GR. cbn [length] in *. destruct Q as [(x0 & ->)|(-> & m & -> & G)].
    - cbn [length]. replace (length ys + Datatypes.S (length q'))%nat with (length ys + 1 + length q')%nat by lia.
      replace (length ys + Datatypes.S (length zs))%nat with (length ys + 1 + length zs)%nat by lia. exact GR.
    - rewrite repeat_length in GR. cbn [length]. rewrite Nat.add_0_r. replace (length ys + Datatypes.S (length zs))%nat with (length ys + 1 + length zs)%nat by lia.
      apply G; [lia|exact GR]. }
  destruct (Nat.eqb (length ys) 0) eqn:L0.
  - destruct (EL sb Ws (skip_nsp b) Ls) as (l & zs & c & Ey & El & (s & SE & Es) & REST); [exact E|].
    exists l, zs, c. split; [exact Ey|]. split; [exact El|]. split; [|exact REST]. right. exists [], (w ++ s). split; [constructor|]. split; [apply selems_ws; assumption|].
    rewrite Eb, Es. appn. reflexivity.
  - destruct sb as [|c b1]; [discriminate|]. destruct (c =? 44) eqn:C2; [|discriminate]. apply Z.eqb_eq in C2. subst c.
    apply wf_cons in Ws as [_ Ws]. destruct (skip_read b1 Ws) as (w2 & Ww2 & Eb1 & Ws1 & Ls1). cbn [length] in Ls.
    destruct (EL (skip_spaces b1) Ws1 (skip_nsp b1) ltac:(lia) E) as (l & zs & c & Ey & El & (s & SE & Es) & REST).
    exists l, zs, c. split; [exact Ey|]. split; [exact El|]. split; [|exact REST]. right. exists w, (w2 ++ s). split; [exact Ww|]. split; [apply selems_ws; assumption|].
    rewrite Eb, Eb1, Es. appn. reflexivity.
Qed.
End Slices.
Lemma decode_slice_mends {A} S (R : node -> A -> A -> Prop) (D : bytes -> A -> dres A) N z b x :
  (forall b x, wf b -> (length b < N)%nat -> takes False D b x) -> (forall b x, wf b -> nsp b -> (length b < N)%nat -> mends S R D b x) ->
  wf b -> (length b <= N)%nat ->
  mends (fun s v => strict s v \/ exists t l u, s = 91 :: t ++ [93] /\ v = ND u (HArr l) /\ selems S t l) (slice_rel R z) (decode_slice D z) b x.
Proof.
  intros HT HM W L r y E. unfold decode_slice in E. destruct (has_null_prefix b) eqn:EN.
  { injection E as <- <-. exists [], (bs "null"), [], (ND (bs "null") HNull). split; [constructor|]. split; [constructor|]. split; [apply null_read, EN|].
    split; [left; reflexivity|]. split; [constructor|constructor]. }
  destruct (in_err_wf b x W) as (r' & e' & EE & _). destruct (Nat.ltb (length b) 2); [congruence|]. destruct b as [|c b1]; [congruence|].
  destruct (c =? 91) eqn:C; [|congruence]. apply Z.eqb_eq in C. subst c. assert (W1 := W). apply wf_cons in W1 as [_ W1]. cbn [length] in L.
  assert (B : contents (option_map snd x) = [] ++ backing x) by (destruct x as [[? ?]|]; reflexivity).
  destruct (slice_mend S R D N z (91 :: b1) HT HM W (Datatypes.S (length (91 :: b1))) b1 [] (backing x) (option_map snd x) r y W1 ltac:(cbn [length]; lia) ltac:(lia) B E)
    as (l & zs & c & -> & El & ST & FJ & ON & GR).
  assert (RL : forall u, slice_rel R z (ND u (HArr l)) x (Some ((length (@nil A) + length zs)%nat, after z [] zs (backing x) c))).
  { intros u. unfold after. cbn [length app Nat.add] in *. rewrite El in *. apply sr_arr; assumption. }
  destruct ST as [(w & Ww & Eb & ->)|(w & s & _ & SE & Eb)].
  - exists [], (91 :: w ++ [93]), [], (ND (91 :: w ++ [93]) (HArr [])). split; [constructor|]. split; [constructor|]. split; [rewrite Eb; appn; reflexivity|].
    split; [left; reflexivity|]. split; [constructor; exact Ww|apply RL].
  - destruct (arr_node l FJ) as (u & J). exists [], (91 :: s ++ [93]), [], (ND u (HArr l)). split; [constructor|]. split; [constructor|].
    split; [rewrite Eb; cbn [length Nat.eqb app]; appn; reflexivity|]. split; [right; eauto 10|]. split; [exact J|apply RL].
Qed.

(** * Objects *)
Lemma obj_key_nsp {K} (deck : bytes -> dres K) first b b' key : obj_key deck first b = inr (b', key) -> nsp b'.
Proof.
  intros E. unfold obj_key in E. cbv zeta in E.
  repeat match type of E with (match ?z with _ => _ end) = _ => destruct z | (if ?z then _ else _) = _ => destruct z end; try discriminate;
    injection E as <- _; apply skip_nsp.
Qed.
Lemma obj_key_lit {K} (deck : bytes -> dres K) first b b' key : key_takes deck -> wf b -> obj_key deck first b = inr (b', key) ->
  wf b' /\ nsp b' /\ (length b' < length b)%nat /\
  exists w1 lit w2 w3 q, ws w1 /\ string_lit lit /\ ws w2 /\ ws w3 /\ b = (if first then [] else [44]) ++ w1 ++ lit ++ w2 ++ 58 :: w3 ++ b' /\ deck (lit ++ q) = DR q None key.
Proof.
  intros HK W E. pose proof (obj_key_read deck first b HK W) as OK. rewrite E in OK. destruct OK as (W' & L' & _). split; [exact W'|].
  split; [eapply obj_key_nsp, E|]. split; [exact L'|].
  assert (KY : forall b, wf b ->
    (if has_null_prefix b then inl (b, ESyntax) else match d_err (deck b) with
           | Some e => inl (key_error (d_rest (deck b)) e)
           | None => match skip_spaces (d_rest (deck b)) with
                     | [] => inl (skip_spaces (d_rest (deck b)), ESyntax)
                     | c :: b1 => if c =? 58 then inr (skip_spaces b1, d_val (deck b)) else inl (skip_spaces (d_rest (deck b)), ESyntax)
                     end end) = inr (b', key) ->
    exists lit w2 w3 q, string_lit lit /\ ws w2 /\ ws w3 /\ b = lit ++ w2 ++ 58 :: w3 ++ b' /\ deck (lit ++ q) = DR q None key).
  { clear b W E W' L'. intros b W E. destruct (has_null_prefix b) eqn:N; [discriminate|]. pose proof (HK b W N) as H.
    destruct (deck b) as [r [e|] k] eqn:ED; cbn [d_err d_rest d_val] in *; [discriminate|].
    destruct H as (Wr & lit & SL & Eb). destruct (skip_read r Wr) as (w & Ww & Er & Ws & Ls). destruct (skip_spaces r) as [|c b1]; [discriminate|].
    destruct (c =? 58) eqn:C; [|discriminate]. apply Z.eqb_eq in C. subst c. apply wf_cons in Ws as [_ Ws].
    destruct (skip_read b1 Ws) as (w2 & Ww2 & Eb1 & Ws1 & Ls1). injection E as <- <-.
    exists lit, w, w2, r. split; [exact SL|]. split; [exact Ww|]. split; [exact Ww2|]. split; [rewrite Eb, Er, Eb1 at 1; reflexivity|]. rewrite <- Eb. exact ED. }
  unfold obj_key in E. cbv zeta in E. destruct first.
  - destruct (KY b W E) as (lit & w2 & w3 & q & A1 & A2 & A3 & A4 & A5). exists [], lit, w2, w3, q. split; [constructor|]. auto 10.
  - destruct b as [|c b1]; [discriminate|]. destruct (c =? 44) eqn:C; [|discriminate]. apply Z.eqb_eq in C. subst c. apply wf_cons in W as [_ W].
    destruct (skip_read b1 W) as (w & Ww & Eb & Ws & Ls). destruct (KY (skip_spaces b1) Ws E) as (lit & w2 & w3 & q & A1 & A2 & A3 & A4 & A5).
    exists w, lit, w2, w3, q. split; [exact Ww|]. split; [exact A1|]. split; [exact A2|]. split; [exact A3|]. split; [|exact A5]. cbn [app]. rewrite <- A4, <- Eb. reflexivity.
Qed.

Definition proper (kv : bytes * node) : Prop := string_lit (fst kv) /\ jnode (snd kv).
Section Tail.
Context (S : bytes -> bytes -> node -> Prop).
Definition mst (first : bool) (b r : bytes) (l : list (bytes * node)) : Prop :=
  (exists w, ws w /\ b = w ++ 125 :: r /\ l = []) \/
  (exists w s, ws w /\ smembers S s l /\ b = (if first then [] else w ++ [44]) ++ s ++ 125 :: r).
Lemma mst_cons (first : bool) w u1 lit u2 u3 w0 s v w1 rest r l b : ws w -> ws u1 -> string_lit lit -> ws u2 -> ws u3 -> ws w0 -> S lit s v -> ws w1 ->
  mst false rest r l -> b = w ++ (if first then [] else [44]) ++ u1 ++ lit ++ u2 ++ 58 :: u3 ++ w0 ++ s ++ w1 ++ rest -> mst first b r ((lit, v) :: l).
Proof.
  intros W U1 SL U2 U3 W0 HS W1 T ->. right.
  assert (E : forall u, ws u -> exists t, smembers S t ((lit, v) :: l) /\ u ++ lit ++ u2 ++ 58 :: u3 ++ w0 ++ s ++ w1 ++ rest = t ++ 125 :: r).
  { intros u U. destruct T as [(w' & W' & -> & ->)|(w' & s' & W' & SM & ->)].
    - exists (u ++ lit ++ u2 ++ 58 :: (u3 ++ w0) ++ s ++ (w1 ++ w')). split; [apply sm_one; auto using ws_app|]. appn. reflexivity.
    - exists (u ++ lit ++ u2 ++ 58 :: (u3 ++ w0) ++ s ++ (w1 ++ w') ++ 44 :: s'). split; [apply sm_cons; auto using ws_app|]. appn. reflexivity. }
  destruct first.
  - destruct (E (w ++ u1) ltac:(auto using ws_app)) as (t & SM & Et). exists [], t. split; [constructor|]. split; [exact SM|]. cbn [app] in *. rewrite <- Et. appn. reflexivity.
  - destruct (E u1 U1) as (t & SM & Et). exists w, t. split; [exact W|]. split; [exact SM|]. rewrite Et. appn. reflexivity.
Qed.
Definition oloose (s : bytes) (v : node) : Prop := strict s v \/ exists t l u, s = 123 :: t ++ [125] /\ v = ND u (HObj l) /\ smembers S t l.
Lemma mst_end {A} (R : node -> A -> A -> Prop) b r l x y : mst true b r l -> Forall proper l ->
  (forall u, R (ND u (HObj l)) x y) -> exists w0 s w1 v, ws w0 /\ ws w1 /\ 123 :: b = w0 ++ s ++ w1 ++ r /\ oloose s v /\ jnode v /\ R v x y.
Proof.
  intros [(w & Ww & -> & ->)|(w & s & _ & SM & ->)] FJ RY.
  - exists [], (123 :: w ++ [125]), [], (ND (123 :: w ++ [125]) (HObj [])). split; [constructor|]. split; [constructor|]. split; [appn; reflexivity|].
    split; [left; reflexivity|]. split; [constructor; exact Ww|apply RY].
  - destruct (obj_node l FJ) as (u & J). exists [], (123 :: s ++ [125]), [], (ND u (HObj l)). split; [constructor|]. split; [constructor|].
    split; [appn; reflexivity|]. split; [right; eauto 10|]. split; [exact J|apply RY].
Qed.
End Tail.

Section Maps.
Context {K A : Type} (S : bytes -> node -> Prop) (R : node -> A -> A -> Prop) (keym : bytes -> K -> Prop) (eqb : K -> K -> bool) (deck : bytes -> dres K)
  (D : bytes -> A -> dres A) (z : A) (N : nat).
Hypothesis HT : forall b, wf b -> (length b < N)%nat -> takes False D b z.
Hypothesis HM : forall b, wf b -> nsp b -> (length b < N)%nat -> mends S R D b z.
Hypothesis HK : key_takes deck.
Hypothesis HKM : forall lit, string_lit lit -> key_meets deck keym lit.

Lemma map_mend inp fresh k : wf inp -> forall first b m r y, wf b -> (length b < k)%nat -> (length b < N)%nat ->
  map_loop eqb deck D z inp fresh k first b m = DR r None y ->
  exists l kvs, y = Some (add_all eqb kvs m) /\ mst (fun _ => S) first b r l /\ Forall proper l /\ Forall2 (entry R z keym) l kvs.
Proof.
  intros WI. induction k as [|k IH]; intros first b m r y W LK LN E; [lia|]. cbn [map_loop] in E. cbv zeta in E.
  destruct (skip_read b W) as (w & Ww & Eb & Ws & Ls). set (sb := skip_spaces b) in *.
  destruct (match sb with c :: _ => c =? 125 | [] => false end) eqn:C.
  { destruct sb as [|c t]; [discriminate|]. apply Z.eqb_eq in C. subst c. injection E as <- <-. exists [], []. split; [reflexivity|]. split; [left; exists w; auto|]. split; constructor. }
  destruct (obj_key deck first sb) as [[r' e]|[b2 key]] eqn:EK; [discriminate|].
  destruct (obj_key_lit deck first sb b2 key HK Ws EK) as (W2 & N2 & L2 & u1 & lit & u2 & u3 & q & U1 & SL & U2 & U3 & E1 & KE).
  pose proof (HT b2 W2 ltac:(lia)) as T. unfold takes in T. pose proof (HM b2 W2 N2 ltac:(lia)) as M.
  destruct (D b2 z) as [r2 [e|] y2] eqn:ED; cbn [d_err d_rest d_val] in *.
  - destruct (elem_err_nf inp e (if fresh then None else Some m) WI T) as (r' & e' & X & _). congruence.
  - destruct T as (Wr & Lr & _). destruct (M r2 y2 ED) as (w0 & s & w1 & v & W0 & W1 & Es & HS & J & RY).
    destruct (IH false r2 _ r y Wr ltac:(lia) ltac:(lia) E) as (l & kvs & -> & MT & FJ & F2).
    exists ((lit, v) :: l), ((key, y2) :: kvs). split; [reflexivity|].
    split; [eapply (mst_cons (fun _ => S) first w u1 lit u2 u3 w0 s v w1 r2); try eassumption; rewrite Eb, E1, Es; appn; reflexivity|].
    split; [constructor; [split; assumption|exact FJ]|]. constructor; [|exact F2]. split; [|exact RY]. cbn [fst snd].
    destruct (HKM lit SL q) as [(k' & E2 & KM & _)|(r1 & e & k' & E2 & _)]; rewrite KE in E2; [injection E2 as ->; exact KM|discriminate].
Qed.
Lemma decode_map_mends b x : wf b -> (length b <= N)%nat -> mends (oloose (fun _ => S)) (map_rel R z keym eqb) (decode_map eqb deck D z) b x.
Proof.
  intros W L r y E. unfold decode_map in E. destruct (has_null_prefix b) eqn:EN.
  { injection E as <- <-. exists [], (bs "null"), [], (ND (bs "null") HNull). split; [constructor|]. split; [constructor|]. split; [apply null_read, EN|].
    split; [left; reflexivity|]. split; [constructor|constructor]. }
  destruct (in_err_wf b x W) as (r' & e' & EE & _). destruct (Nat.ltb (length b) 2); [congruence|]. destruct b as [|c b1]; [congruence|].
  destruct (c =? 123) eqn:C; [|congruence]. apply Z.eqb_eq in C. subst c. assert (W1 := W). apply wf_cons in W1 as [_ W1]. cbn [length] in L.
  apply map_mend in E as (l & kvs & -> & MT & FJ & F2); [|exact W|exact W1|cbn [length]; lia|lia].
  eapply mst_end; [exact MT|exact FJ|]. intros u. apply (mr_obj R z keym eqb u l x kvs F2).
Qed.
End Maps.

Section Structs.
Context {A : Type} (S : bytes -> bytes -> node -> Prop) (M : bytes -> node -> A -> A -> Prop) (look : bytes -> option (bytes -> A -> dres A)) (dis : bool) (N : nat).
Hypothesis HT : forall k D b x, look k = Some D -> wf b -> (length b < N)%nat -> takes False D b x.
Hypothesis HM : forall lit k D b x, str_means lit k -> look k = Some D -> wf b -> nsp b -> (length b < N)%nat -> mends (S lit) (M k) D b x.
Hypothesis HU : forall k v x, look k = None -> dis = false -> M k v x x.
Hypothesis HS : forall lit v, jnode v -> S lit (ntext v) v.

Lemma struct_mend inp k : wf inp -> forall first b x r y, wf b -> (length b < k)%nat -> (length b < N)%nat ->
  struct_loop look dis inp k first b x = DR r None y ->
  exists l, mst S first b r l /\ Forall proper l /\ members_rel M l x y.
Proof.
  intros WI. induction k as [|k IH]; intros first b x r y W LK LN E; [lia|]. cbn [struct_loop] in E. cbv zeta in E.
  destruct (skip_read b W) as (w & Ww & Eb & Ws & Ls). set (sb := skip_spaces b) in *.
  destruct (match sb with c :: _ => c =? 125 | [] => false end) eqn:C.
  { destruct sb as [|c t]; [discriminate|]. apply Z.eqb_eq in C. subst c. injection E as <- <-. exists []. split; [left; exists w; auto|]. split; constructor. }
  change (fun b0 : bytes => match parse_string_unquote b0 [] with QOk s q1 _ => DR q1 None s | QErr q2 e => DR q2 (Some e) [] | QPanic => DR b0 (Some EPanicked) [] | QFuel => DR b0 (Some EFuel) [] end) with deck_name in E.
  destruct (obj_key deck_name first sb) as [[r' e]|[b2 key]] eqn:EK; [discriminate|].
  destruct (obj_key_lit deck_name first sb b2 key deck_name_takes Ws EK) as (W2 & N2 & L2 & u1 & lit & u2 & u3 & q & U1 & SL & U2 & U3 & E1 & KE).
  assert (SM : str_means lit key).
  { unfold deck_name in KE. destruct (string_lit_unquote lit q SL) as [i Q]. rewrite Q in KE. injection KE as <-. apply str_text_means, SL. }
  assert (NEXT : forall w0 s w1 v r2 y2, wf r2 -> (length r2 < length b2)%nat -> ws w0 -> ws w1 -> b2 = w0 ++ s ++ w1 ++ r2 -> S lit s v -> jnode v -> M key v x y2 ->
    struct_loop look dis inp k false r2 y2 = DR r None y ->
    exists l, mst S first b r l /\ Forall proper l /\ members_rel M l x y).
  { intros w0 s w1 v r2 y2 Wr Lr W0 W1 Es HSv J RY E2. destruct (IH false r2 y2 r y Wr ltac:(lia) ltac:(lia) E2) as (l & MT & FJ & MR).
    exists ((lit, v) :: l). split; [eapply (mst_cons S first w u1 lit u2 u3 w0 s v w1 r2); try eassumption; rewrite Eb, E1, Es; appn; reflexivity|].
    split; [constructor; [split; assumption|exact FJ]|]. econstructor; eassumption. }
  destruct (look key) as [D|] eqn:LO.
  - pose proof (HT key D b2 x LO W2 ltac:(lia)) as T. unfold takes in T. pose proof (HM lit key D b2 x SM LO W2 N2 ltac:(lia)) as MM.
    destruct (D b2 x) as [r2 [e|] y2] eqn:ED; cbn [d_err d_rest d_val] in *.
    + destruct (elem_err_nf inp e y2 WI T) as (r' & e' & X & _). congruence.
    + destruct T as (Wr & Lr & _). destruct (MM r2 y2 ED) as (w0 & s & w1 & v & W0 & W1 & Es & HSv & J & RY). apply (NEXT w0 s w1 v r2 y2); assumption.
  - destruct dis eqn:DIS; [discriminate|]. pose proof (parse_takes b2 W2) as PT. destruct (parseValue b2) as [v r2|r2 e]; [|discriminate].
    destruct PT as (Wv & Wr & Lr & Eb2 & a & J). destruct (jvalue_nd v a J) as (nd & Jn & <-).
    apply (NEXT [] (ntext nd) [] nd r2 x); try assumption; try exact (Forall_nil _); [exact (HS lit nd Jn)|]. apply HU; [exact LO|reflexivity].
Qed.
Lemma decode_struct_mends b x : wf b -> (length b <= N)%nat -> mends (oloose S) (struct_rel M) (decode_struct look dis) b x.
Proof.
  intros W L r y E. unfold decode_struct in E. destruct (has_null_prefix b) eqn:EN.
  { injection E as <- <-. exists [], (bs "null"), [], (ND (bs "null") HNull). split; [constructor|]. split; [constructor|]. split; [apply null_read, EN|].
    split; [left; reflexivity|]. split; [constructor|constructor]. }
  destruct (in_err_wf b x W) as (r' & e' & EE & _). destruct (Nat.ltb (length b) 2); [congruence|]. destruct b as [|c b1]; [congruence|].
  destruct (c =? 123) eqn:C; [|congruence]. apply Z.eqb_eq in C. subst c. assert (W1 := W). apply wf_cons in W1 as [_ W1]. cbn [length] in L.
  apply struct_mend in E as (l & MT & FJ & MR); [|exact W|exact W1|cbn [length]; lia|lia].
  eapply mst_end; [exact MT|exact FJ|]. intros u. constructor. exact MR.
Qed.
End Structs.

(** * Leaves *)
(** A number is cut off where it ends, or the decoder looks no further. *)
Definition cut {A} (D : bytes -> A -> dres A) (x : A) : Prop := forall v r y, jnode v -> nshape v = HNum -> wf (ntext v ++ r) ->
  D (ntext v ++ r) x = DR r None y -> num_stop r \/ exists r1, D (ntext v) x = DR r1 None y.
Lemma cut_mends {A} (R : node -> A -> A -> Prop) (D : bytes -> A -> dres A) b x :
  wf b -> reads D b x -> (forall v, jnode v -> meets D R v x) -> cut D x -> mends strict R D b x.
Proof.
  intros W RD M CT r y E. unfold reads in RD. rewrite E in RD. cbn [d_err d_rest] in RD. destruct RD as (v & J & Eb).
  eapply node_mends; [exact J|exact Eb|exact E|apply M, J| |exact E]. destruct (nshape v) eqn:Hs; try (left; unfold stops; rewrite Hs; exact I).
  destruct (CT v r y J Hs ltac:(rewrite <- Eb; exact W) ltac:(rewrite <- Eb; exact E)) as [H|H]; [left; apply stop_any, H|right; exact H].
Qed.
Lemma num_start v r : jnode v -> nshape v = HNum -> exists c t, ntext v = c :: t /\ ntext v ++ r = c :: t ++ r /\ (c = 45 \/ 48 <= c <= 57).
Proof. intros J H. destruct (number_head _ (num_node_inv v J H)) as (c & t & E & Hc). exists c, t. rewrite E. auto. Qed.
Lemma num_not_lit v r c lit : jnode v -> nshape v = HNum -> 57 < c -> has_prefix (ntext v ++ r) (c :: lit) = false.
Proof.
  intros J H L. destruct (num_start v r J H) as (c' & t & _ & E & Hc). destruct (has_prefix _ _) eqn:P; [|reflexivity].
  exfalso. apply has_prefix_iff in P as (q & Q). rewrite E in Q. pose proof (f_equal (hd 0) Q) as X. cbn [hd app] in X. lia.
Qed.
Lemma num_not_null v r : jnode v -> nshape v = HNum -> has_null_prefix (ntext v ++ r) = false.
Proof. intros J H. apply (num_not_lit v r 110 (bs "ull") J H). lia. Qed.
Lemma cut_map {A} (D : bytes -> A -> dres A) (D' : bytes -> mem -> dres mem) (f : A -> mem) x m :
  (forall b, D' b m = d_map f (D b x)) -> cut D x -> cut D' m.
Proof.
  intros HD C v r y J H W E. rewrite HD in E. destruct (D (ntext v ++ r) x) as [r0 o y0] eqn:ED. cbn [d_map] in E. injection E as -> -> <-.
  destruct (C v r y0 J H W ED) as [N|(r1 & E1)]; [left; exact N|]. right. exists r1. rewrite HD, E1. reflexivity.
Qed.
Lemma no_number_cut {A} (D : bytes -> A -> dres A) x : (forall v r, jnode v -> nshape v = HNum -> d_err (D (ntext v ++ r) x) <> None) -> cut D x.
Proof. intros H v r y J S W E. exfalso. apply (H v r J S). rewrite E. reflexivity. Qed.
Lemma in_err_not_none {A} b (x : A) : d_err (in_err b x) <> None.
Proof. unfold in_err. destruct (input_error b). discriminate. Qed.
Lemma bool_cut x : cut decode_bool x.
Proof.
  apply no_number_cut. intros v r J S. unfold decode_bool. rewrite (num_not_null v r J S).
  assert (has_true_prefix (ntext v ++ r) = false) as -> by (apply (num_not_lit v r 116 (bs "rue") J S); lia).
  assert (has_false_prefix (ntext v ++ r) = false) as -> by (apply (num_not_lit v r 102 (bs "alse") J S); lia).
  apply in_err_not_none.
Qed.
Lemma int_cut it x : cut (decode_int it) x.
Proof.
  intros v r y J S W E. left. unfold decode_int in E. rewrite (num_not_null v r J S) in E. fold (parse_sint it (ntext v ++ r)) in E.
  destruct (parse_sint it (ntext v ++ r)) as [z r'|r' e] eqn:P; [|discriminate]. destruct (out_of_range it z); [discriminate|]. injection E as -> _.
  apply sint_inv in P as (s & _ & NS & _). exact NS.
Qed.
Lemma pn_self v : number_lit v -> parse_number v = POk v [].
Proof. intros H. rewrite <- (app_nil_r v) at 1. apply parse_number_complete; [exact H|exact I]. Qed.
Lemma pn_cut v r v' : parse_number (ntext v ++ r) = POk v' r -> v' = ntext v /\ number_lit v'.
Proof. intros P. apply parse_number_sound in P as [E NL]. apply app_inv_tail in E. auto. Qed.
Lemma float_cut pf x : cut (decode_float pf) x.
Proof.
  intros v r y J S W E. right. unfold decode_float in E. rewrite (num_not_null v r J S) in E. destruct (in_err_wf (ntext v ++ r) x W) as (? & ? & EE & _).
  destruct (parse_number (ntext v ++ r)) as [v' r'|] eqn:P; [|congruence]. destruct (pf v') eqn:PF; [|congruence]. injection E as -> ->.
  destruct (pn_cut v r v' P) as [-> NL]. exists []. unfold decode_float. pose proof (num_not_null v [] J S) as N. rewrite app_nil_r in N. rewrite N, (pn_self _ NL), PF. reflexivity.
Qed.
Lemma number_cut x : cut decode_number x.
Proof.
  intros v r y J S W E. right. unfold decode_number in E. rewrite (num_not_null v r J S) in E. destruct (in_err_wf (ntext v ++ r) x W) as (? & ? & EE & _).
  destruct (parse_number (ntext v ++ r)) as [v' r'|] eqn:P; [|congruence]. injection E as -> <-.
  destruct (pn_cut v r v' P) as [-> NL]. exists []. unfold decode_number. pose proof (num_not_null v [] J S) as N. rewrite app_nil_r in N. rewrite N, (pn_self _ NL). reflexivity.
Qed.
Lemma num_unquote v r : jnode v -> nshape v = HNum -> exists r1 e c t, parse_string_unquote (ntext v ++ r) [] = QErr r1 e /\ ntext v ++ r = c :: t /\ (c =? 34) = false.
Proof.
  intros J S. destruct (num_start v r J S) as (c & t & _ & E & Hc). rewrite E. destruct (not_quote_unquote c (t ++ r) ltac:(lia)) as (r1 & e & Q). exists r1, e, c, (t ++ r).
  split; [exact Q|]. split; [reflexivity|]. apply Z.eqb_neq. lia.
Qed.
Lemma string_cut x : cut decode_string x.
Proof.
  apply no_number_cut. intros v r J S. destruct (num_unquote v r J S) as (r1 & e & c & t & Q & E & C). pose proof (num_not_null v r J S) as N. unfold decode_string. rewrite N, Q, E, C. apply in_err_not_none.
Qed.
Lemma quoted_no {A} (prs : bytes -> option A) c t x : (c =? 34) = false -> d_err (decode_quoted prs (c :: t) x) <> None.
Proof. intros C. unfold decode_quoted. rewrite C. cbn [negb]. destruct (Nat.ltb _ 2); apply in_err_not_none. Qed.
Lemma time_cut V x : cut (decode_time V) x.
Proof.
  apply no_number_cut. intros v r J S. destruct (num_unquote v r J S) as (r1 & e & c & t & Q & E & C). pose proof (num_not_null v r J S) as N. unfold decode_time. rewrite N, E. apply quoted_no, C.
Qed.
Lemma duration_cut V x : cut (decode_duration V) x.
Proof.
  intros v r y J S W E. left. destruct (num_unquote v r J S) as (r1 & e & c & t & Q & Ec & C). unfold decode_duration in E. rewrite (num_not_null v r J S) in E. 
  rewrite Ec in E. rewrite C in E. cbn [negb] in E. destruct (parse_int (c :: t)) as [z r'|r' e'] eqn:P.
  - injection E as -> _. apply parse_int_inv in P as (s & _ & NS & _). exact NS.
  - exfalso. apply (in_err_not_none (c :: t) x). rewrite E. reflexivity.
Qed.
Lemma pv_cut v r v' r' : wf (ntext v ++ r) -> jnode v -> parseValue (ntext v ++ r) = POk v' r' -> r' = r -> v' = ntext v /\ parseValue (ntext v) = POk (ntext v) [].
Proof.
  intros W J P ->. pose proof (parse_takes _ W) as PT. rewrite P in PT. destruct PT as (_ & _ & _ & E & _). apply app_inv_tail in E. subst v'.
  split; [reflexivity|]. pose proof (node_parse v [] J (stop_any v [] I)) as H. rewrite app_nil_r in H. exact H.
Qed.
Lemma raw_cut x : cut decode_raw x.
Proof.
  intros v r y J S W E. right. unfold decode_raw in E. destruct (parseValue (ntext v ++ r)) as [v' r'|] eqn:P.
  - injection E as Er <-. destruct (pv_cut v r v' r' W J P Er) as [-> P2]. exists []. unfold decode_raw. rewrite P2. reflexivity.
  - exfalso. apply (in_err_not_none (ntext v ++ r) x). rewrite E. reflexivity.
Qed.
Lemma json_cut V u x : cut (decode_json_user V u) x.
Proof.
  intros v r y J S W E. right. unfold decode_json_user in E. destruct (parseValue (ntext v ++ r)) as [v' r'|] eqn:P; [|discriminate].
  assert (Er : r' = r) by (destruct (rv_null v'); [congruence|destruct (v_json V u v' x); congruence]).
  destruct (pv_cut v r v' r' W J P Er) as [-> P2]. exists []. unfold decode_json_user. rewrite P2.
  destruct (rv_null (ntext v)); [congruence|destruct (v_json V u (ntext v) x); congruence].
Qed.
Lemma text_cut V u x : cut (decode_text_user V u) x.
Proof.
  intros v r y J S W E. right. unfold decode_text_user in E. destruct (parseValue (ntext v ++ r)) as [v' r'|] eqn:P; [|discriminate].
  assert (Er : r' = r).
  { repeat match type of E with (match ?z with _ => _ end) = _ => destruct z end; try congruence. }
  destruct (pv_cut v r v' r' W J P Er) as [-> P2]. exists []. unfold decode_text_user. rewrite P2. 
  repeat match type of E with (match ?z with _ => _ end) = _ => destruct z end; try discriminate; congruence.
Qed.
Lemma iface_cut un pf x : cut (decode_interface un pf) x.
Proof.
  intros v r y J S W E. right. pose proof (parse_takes _ W) as PT. unfold decode_interface in *. destruct (parseValue (ntext v ++ r)) as [v' r'|r' e] eqn:P.
  - assert (Pv : parseValue v' = POk v' []).
    { destruct PT as (_ & _ & _ & _ & a & Ja). pose proof (parseValue_complete v' a [] Ja I) as P2. rewrite app_nil_r in P2. exact P2. }
    destruct (iface_split un pf (length (ntext v ++ r)) _ v' r' x P Pv) as (o & y' & E3 & E4). rewrite E3 in E. injection E as -> -> ->.
    destruct (pv_cut v r v' r W J P eq_refl) as [-> _]. exists []. rewrite <- E4.
    assert (Q : forall n, (length (ntext v) < n)%nat -> dec_iface un pf n (ntext v) x = match jden un pf (erase v) with Some v => DR [] None v | None => DR [] (Some EType) JVNull end).
    { intros n L. rewrite <- (app_nil_r (ntext v)) at 1. apply dec_iface_ok; [apply jnode_jvalue, J|exact L|exact (fun _ => I)]. }
    rewrite !Q; [reflexivity|rewrite app_length; lia|lia].
  - exfalso. cbn [dec_iface] in E. rewrite P in E. discriminate.
Qed.

(** * Types *)
Section Types.
Context (V : tenv) (F : dflags) (OK : env_ok V).
Notation dec_ty := (dec_ty V F).
Notation stores := (stores V F).
Notation spells := (spells V F).

Lemma spells_null t s v : spells t s v -> nshape v = HNull -> s = bs "null".
Proof.
  induction 1 as [t v J| | | | |e s v H IH]; cbn [nshape]; try discriminate; [|exact IH].
  intros S. destruct J; try discriminate S. reflexivity.
Qed.
Lemma nsp_start b w x : nsp b -> ws w -> b = w ++ x -> b = x.
Proof. intros N W ->. destruct w as [|c w]; [reflexivity|]. inversion W as [|? ? H _]; subst. cbn [app nsp] in N. exfalso. apply is_space_iff in H. congruence. Qed.
Lemma path_mends (S : bytes -> node -> Prop) R D p b : (forall x, mends S R D b x) -> forall m, mends S (at_path V R p) (on_path V p D) b m.
Proof.
  intros HD. induction p as [|st p IH]; intros m.
  - intros r y E. destruct (HD m r y E) as (w0 & s & w1 & v & A1 & A2 & A3 & A4 & A5 & A6). exists w0, s, w1, v. repeat (split; [assumption|]). constructor. exact A6.
  - assert (SN : forall (l1 : list mem) x l2 y, set_nth (length l1) y (l1 ++ x :: l2) = l1 ++ y :: l2) by (intros; apply set_nth_app).
    destruct m; try (eapply err_mends; destruct st; reflexivity). destruct st as [i|i s un].
    + destruct (nth_error l i) as [x|] eqn:E; [|eapply err_mends; cbn [on_path]; rewrite E; reflexivity].
      eapply (map_mends S (at_path V R p) _ (on_path V p D) _ _ b x); [cbn [on_path]; rewrite E; reflexivity| |apply IH].
      intros v z H. apply nth_error_split in E as (l1 & l2 & -> & <-). cbv beta. rewrite SN. constructor. exact H.
    + destruct (nth_error l i) as [x|] eqn:E; [|eapply err_mends; cbn [on_path]; rewrite E; reflexivity].
      destruct x; try (eapply err_mends; cbn [on_path]; rewrite E; reflexivity). destruct p0 as [x|]; [|destruct un].
      * eapply (map_mends S (at_path V R p) _ (on_path V p D) _ _ b x); [cbn [on_path]; rewrite E; reflexivity| |apply IH].
        intros v z H. apply nth_error_split in E as (l1 & l2 & -> & <-). cbv beta. rewrite SN. constructor. exact H.
      * eapply err_mends; cbn [on_path]; rewrite E; reflexivity.
      * eapply (map_mends S (at_path V R p) _ (on_path V p D) _ _ b (zero V (YStruct s))); [cbn [on_path]; rewrite E; reflexivity| |apply IH].
        intros v z H. apply nth_error_split in E as (l1 & l2 & -> & <-). cbv beta. rewrite SN. constructor. exact H.
Qed.
Lemma from_string_reads (D : bytes -> mem -> dres mem) b x : wf b -> (forall b, wf b -> reads D b x) -> reads (decode_from_string D) b x /\ cut (decode_from_string D) x.
Proof.
  intros W HR. split.
  - destruct (has_null_prefix b) eqn:E; [unfold reads, decode_from_string; rewrite E; apply HR, W|].
    unfold reads, decode_from_string. rewrite E. destruct (unquote_cases b W) as [(lit & r & i & SL & Eb & Q)|(r & Q)]; rewrite Q; [|discriminate]. cbv zeta.
    pose proof (HR (str_text lit) (str_text_wf lit SL)) as R. unfold reads in R. destruct (D (str_text lit) x) as [u [e|] y]; cbn [d_err d_rest d_val] in *; [exact R|].
    destruct (skip_spaces u); [|discriminate]. cbn [d_err d_rest]. exists (ND lit HStr). split; [constructor; exact SL|exact Eb].
  - apply no_number_cut. intros v r J S. unfold decode_from_string. rewrite (num_not_null v r J S). destruct (num_unquote v r J S) as (r1 & e & c & t & Q & _). rewrite Q. discriminate.
Qed.
Lemma from_string_int_reads pf (D : bytes -> mem -> dres mem) b x : wf b -> (forall b, wf b -> reads D b x) -> reads (decode_from_string_int pf D) b x /\ cut (decode_from_string_int pf D) x.
Proof.
  intros W HR. split.
  - pose proof (from_string_int_takes True pf D b x W HR) as T. destruct (has_null_prefix b) eqn:E; [unfold reads, decode_from_string_int; rewrite E; apply HR, W|].
    unfold reads. unfold takes in T. destruct (d_err (decode_from_string_int pf D b x)) eqn:EE; [exact T|].
    unfold decode_from_string_int in *. rewrite E in *. cbv zeta in *.
    set (q := match parse_string_unquote b [] with QOk _ _ _ => _ | _ => _ end) in *.
    assert (TQ : d_err q = None -> exists nd, jnode nd /\ b = ntext nd ++ d_rest q).
    { unfold q. destruct (unquote_cases b W) as [(lit & r & i & SL & Eb & Q)|(r & Q)]; rewrite Q; [|discriminate].
      destruct (D (strip_zeroes (str_text lit)) x) as [u [e|] y] eqn:ED; cbn [d_err d_rest d_val].
      - destruct e; cbn [d_err]; repeat match goal with |- context [match ?z with _ => _ end] => destruct z end; discriminate.
      - destruct u; cbn [d_err d_rest]; [|discriminate]. intros _. exists (ND lit HStr). split; [constructor; exact SL|exact Eb]. }
    destruct b as [|c b1]; [exact (TQ EE)|]. destruct (c =? 34); cbn [negb] in *.
    + destruct b1 as [|c1 b2]; [exact (TQ EE)|]. destruct (c1 =? 34); [discriminate|exact (TQ EE)].
    + destruct (parse_number (c :: b1)); [|discriminate]. destruct (existsb _ v); [|discriminate]. destruct (pf v); discriminate.
  - apply no_number_cut. intros v r J S. unfold decode_from_string_int. rewrite (num_not_null v r J S). destruct (num_unquote v r J S) as (r1 & e & c & t & _ & E & C). rewrite E, C. cbn [negb].
    cbv zeta. destruct (parse_number (c :: t)); [|discriminate]. destruct (existsb _ _); [|discriminate]. destruct (pf _); discriminate.
Qed.
Lemma ptr_mends n e b x : wf b -> nsp b -> (forall x, mends (spells e) (stores e) (dec_ty n e) b x) -> mends (spells (YPtr e)) (stores (YPtr e)) (dec_ty n (YPtr e)) b x.
Proof.
  intros W NB H. destruct x; try (eapply err_mends; rewrite dec_ty_eq; reflexivity). destruct (has_null_prefix b) eqn:N.
  - assert (C : ((match p, e with Some _, YPtr _ => False | _, _ => True end) /\ forall (A : Type) (f : mem -> A) (g : A), match p, e with Some x, YPtr _ => f x | _, _ => g end = g) \/ exists x e', p = Some x /\ e = YPtr e') by (destruct p, e; eauto).
    destruct C as [[C1 C]|(x & e' & -> & ->)].
    + intros r y E. rewrite dec_ty_eq, N, C in E. injection E as <- <-. exists [], (bs "null"), [], (ND (bs "null") HNull). split; [constructor|]. split; [constructor|]. split; [apply null_read, N|].
      split; [apply (sl_json V F (YPtr e) (ND (bs "null") HNull)); constructor|]. split; [constructor|]. constructor. exact C1.
    + intros r y E. rewrite dec_ty_eq, N in E. destruct (dec_ty n (YPtr e') b x) as [r0 o y0] eqn:ED. cbn [d_map] in E. injection E as -> -> <-.
      destruct (H x r y0 ED) as (w0 & s & w1 & v & A1 & A2 & A3 & A4 & A5 & A6). exists w0, s, w1, v. repeat (split; [assumption|]). split; [constructor; exact A4|]. split; [exact A5|].
      destruct (nshape v) eqn:S; [|apply st_ptr; [congruence|exact A6]..]. destruct v as [tx sh]. cbn [nshape] in S. subst sh. apply st_ptr_ptr. exact A6.
  - intros r y E. rewrite dec_ty_eq, N in E. destruct (dec_ty n e b (match p with Some x => x | None => zero V e end)) as [r0 o y0] eqn:ED. cbn [d_map] in E. injection E as -> -> <-.
    destruct (H _ r y0 ED) as (w0 & s & w1 & v & A1 & A2 & A3 & A4 & A5 & A6). exists w0, s, w1, v. repeat (split; [assumption|]). split; [constructor; exact A4|]. split; [exact A5|].
    apply st_ptr; [|exact A6]. intros S. apply (spells_null _ _ _ A4) in S. subst s. apply (nsp_start _ _ _ NB A1) in A3.
    assert (X : has_null_prefix b = true) by (apply has_prefix_iff; eexists; exact A3). congruence.
Qed.

Lemma strictly t R (D : bytes -> mem -> dres mem) b x : mends strict R D b x -> mends (spells t) R D b x.
Proof. apply strict_mends. intros v J. constructor. exact J. Qed.
Lemma leaf_mends {A} t (D : bytes -> A -> dres A) (f : A -> mem) n b x m :
  (forall b, dec_ty n t b m = d_map f (D b x)) -> wf b -> reads D b x -> (forall v, jnode v -> meets (dec_ty n t) (stores t) v m) -> cut D x ->
  mends (spells t) (stores t) (dec_ty n t) b m.
Proof.
  intros HD W RD M C. apply strictly, cut_mends; [exact W| |exact M|eapply cut_map; eassumption].
  unfold reads in *. rewrite HD. exact RD.
Qed.
Lemma iface_reads un pf b x : wf b -> reads (decode_interface un pf) b x.
Proof.
  intros W. pose proof (parse_takes b W) as PT. unfold reads, decode_interface in *. destruct (parseValue b) as [v r|r e] eqn:P.
  - destruct PT as (_ & _ & _ & Eb & a & Ja). pose proof (parseValue_complete v a [] Ja I) as Pv. rewrite app_nil_r in Pv.
    destruct (iface_split un pf (length b) b v r x P Pv) as (o & y' & E3 & E4). rewrite E3. cbn [d_err d_rest].
    pose proof (iface_takes un pf True b x W) as T. unfold takes, decode_interface in T. rewrite E3 in T. cbn [d_err d_rest] in T. destruct o; [exact T|].
    destruct (jvalue_nd v a Ja) as (nd & Jn & <-). eauto.
  - cbn [dec_iface]. rewrite P. subst e. discriminate.
Qed.
Lemma slice_loose e s v : strict s v /\ jnode v \/ (exists t l u, s = 91 :: t ++ [93] /\ v = ND u (HArr l) /\ selems (spells e) t l) /\ jnode v -> spells (YSlice e) s v.
Proof. intros [[-> J]|[(t & l & u & -> & -> & SE) J]]; constructor; assumption. Qed.
(** Weakening what is said of the text, knowing that the value is proper. *)
Lemma mends_text {A} (S S' : bytes -> node -> Prop) (R : node -> A -> A -> Prop) D b x : (forall s v, jnode v -> S s v -> S' s v) -> mends S R D b x -> mends S' R D b x.
Proof. intros H M r y E. destruct (M r y E) as (w0 & s & w1 & v & A1 & A2 & A3 & A4 & A5 & A6). exists w0, s, w1, v. auto 10. Qed.
Lemma strict_elems t l : selems strict t l -> Forall jnode l -> nelems t l.
Proof.
  induction 1 as [w1 s v w2 W1 HS W2|w1 s v w2 t l W1 HS W2 SE IH]; intros FJ; inversion FJ; subst; rewrite HS.
  - constructor; assumption.
  - constructor; try assumption. apply IH. assumption.
Qed.

Lemma named_mends n em b x : wf b -> nsp b -> mends (spells (YNamedIface em)) (stores (YNamedIface em)) (dec_ty n (YNamedIface em)) b x.
Proof.
  intros W NB. destruct x; try (eapply err_mends; rewrite dec_ty_eq; reflexivity). destruct (has_null_prefix b) eqn:N.
  { intros r y E. rewrite dec_ty_eq, N in E. injection E as <- <-. exists [], (bs "null"), [], (ND (bs "null") HNull). split; [constructor|]. split; [constructor|]. split; [apply null_read, N|].
    split; [apply (sl_json V F (YNamedIface em) (ND (bs "null") HNull)); constructor|]. split; constructor. }
  assert (C : (em = true /\ v = JVNull) \/ (forall A (f g : A), (match v with JVNull => if em then f else g | _ => g end) = g)) by (destruct em, v; auto).
  destruct C as [[-> ->]|C].
  - intros r y E. rewrite dec_ty_eq, N in E. unfold parse_with in E. cbv zeta in E. rewrite (skip_spaces_nsp b NB) in E.
    set (di := decode_interface (d_usenum F) (v_float V true)) in *. destruct (di b JVNull) as [r0 o y0] eqn:ED. cbn [d_map d_err d_rest d_val] in E. injection E as <- -> <-.
    pose proof (cut_mends (fun v x y => stores YIface v (MIface x) (MIface y)) di b JVNull W (iface_reads _ _ b JVNull W)) as CM.
    assert (ME : forall v, jnode v -> meets di (fun v x y => stores YIface v (MIface x) (MIface y)) v JVNull).
    { intros v J r NS. destruct (iface_meets V F n v (MIface JVNull) J r NS) as [(r1 & y1 & E1 & E2 & E3 & E4)|(r1 & e & y1 & E1 & E2 & E3)]; rewrite dec_ty_eq in E1; fold di in E1;
        destruct (di (ntext v ++ r) JVNull) as [r2 o2 y2]; cbn [d_map d_err d_rest d_val] in E1.
      - left. injection E1 as -> -> <-. exists r1, y2. split; [reflexivity|]. split; [exact E2|]. split; [exact E3|]. intros y' Y. apply E4 in Y. congruence.
      - right. injection E1 as -> -> <-. exists r1, e, y2. split; [reflexivity|]. split; [exact E2|]. intros y' Y. exact (E3 _ Y). }
    specialize (CM ME (iface_cut _ _ _)). destruct (CM r0 y0 ED) as (w0 & s & w1 & v & A1 & A2 & A3 & A4 & A5 & A6).
    assert (Wr : wf r0) by (rewrite A3 in W; apply wf_app in W as [_ W]; apply wf_app in W as [_ W]; apply wf_app in W as [_ W]; exact W).
    destruct (skip_read r0 Wr) as (w2 & Ww2 & Er & _ & _). exists w0, s, (w1 ++ w2), v. split; [exact A1|]. split; [auto using ws_app|].
    split; [rewrite A3, Er at 1; appn; reflexivity|]. rewrite A4 in *. split; [constructor; exact A5|]. split; [exact A5|].
    apply st_named.
    + intros S. apply (nsp_start _ _ _ NB A1) in A3. assert (X : has_null_prefix b = true); [|congruence]. apply has_prefix_iff. destruct A5; try discriminate S. eexists. exact A3.
    + inversion A6; subst; cbn [null_keeps] in *; try contradiction; assumption.
  - intros r y E. rewrite dec_ty_eq, N, C in E. unfold decode_type_error in E. destruct (parseValue b); discriminate.
Qed.
Lemma nelems_jnode t l : nelems t l -> Forall jnode l.
Proof. induction 1; constructor; auto. Qed.
Lemma bytes_mends n b x : wf b -> mends (spells YBytes) (stores YBytes) (dec_ty n YBytes) b x.
Proof.
  intros W. destruct x as [| | | | |s0| | | | | | |]; try (eapply err_mends; rewrite dec_ty_eq; reflexivity). apply strictly.
  assert (MI : forall b' x', wf b' -> nsp b' -> (length b' < length b)%nat -> mends strict (fun v x y => stores (YInt TUint8) v (MInt x) (MInt y)) (decode_int TUint8) b' x').
  { intros b' x' W' _ _. apply cut_mends; [exact W'|apply int_reads, W'| |apply int_cut]. intros v J r NS.
    destruct (ty_int_meets V F n TUint8 v (MInt x') J r NS) as [(r1 & y1 & E1 & E2 & E3 & E4)|(r1 & e & y1 & E1 & E2 & E3)]; rewrite dec_ty_eq in E1;
        destruct (decode_int TUint8 (ntext v ++ r) x') as [r2 o2 y2]; cbn [d_map d_err d_rest d_val] in E1.
      - left. injection E1 as -> -> <-. exists r1, y2. split; [reflexivity|]. split; [exact E2|]. split; [exact E3|]. intros y' Y. apply E4 in Y. congruence.
      - right. injection E1 as -> -> <-. exists r1, e, y2. split; [reflexivity|]. split; [exact E2|]. intros y' Y. exact (E3 _ Y). }
  assert (TI : forall b' x', wf b' -> (length b' < length b)%nat -> takes False (decode_int TUint8) b' x') by (intros; apply reads_takes; [assumption|apply int_reads; assumption]).
  destruct (match b with 91 :: _ => true | _ => false end) eqn:C91.
  - destruct b as [|c b1]; [discriminate|]. assert (c = 91) by (destruct c as [|p|p]; try discriminate; repeat (destruct p as [p|p|]; try discriminate); reflexivity). subst c.
    pose proof (decode_slice_mends strict _ (decode_int TUint8) (length (91 :: b1)) 0 (91 :: b1) s0 TI MI W ltac:(lia)) as M.
    intros r y E. rewrite dec_ty_eq in E. destruct (decode_bytes V (91 :: b1) s0) as [r0 o y0] eqn:ED. cbn [d_map] in E. injection E as -> -> <-.
    assert (ES : decode_slice (decode_int TUint8) 0 (91 :: b1) s0 = DR r None y0).
    { revert ED. unfold decode_bytes. change (has_null_prefix (91 :: b1)) with false. cbv iota. destruct (Nat.ltb (length (91 :: b1)) 2) eqn:L2.
      - intros ED. exfalso. apply (in_err_not_none (91 :: b1) s0). rewrite ED. reflexivity.
      - intros ED. exact ED. }
    destruct (M r y0 ES) as (w0 & s & w1 & v & A1 & A2 & A3 & A4 & A5 & A6).
    destruct A4 as [->|(t & l & u & -> & -> & SE)].
    + exists w0, (ntext v), w1, v. repeat (split; [assumption || reflexivity|]). constructor. exact A6.
    + assert (FJ : Forall jnode l) by (inversion A5; subst; [constructor|eapply nelems_jnode; eassumption]).
      exists w0, (91 :: t ++ [93]), w1, (ND (91 :: t ++ [93]) (HArr l)). repeat (split; [assumption || reflexivity|]). split; [constructor; apply strict_elems; assumption|].
      constructor. inversion A6; subst; constructor; assumption.
  - apply cut_mends; [exact W| |intros v J; apply bytes_meets, J|].
    + pose proof (bytes_takes V True b s0 W) as T. unfold reads. unfold takes in T. rewrite dec_ty_eq. cbn [d_map d_err d_rest]. destruct (d_err (decode_bytes V b s0)) eqn:EE; [exact T|]. clear T.
      revert EE. unfold decode_bytes. destruct (has_null_prefix b) eqn:N; [intros _; exists (ND (bs "null") HNull); split; [constructor|apply null_read, N]|].
      destruct (Nat.ltb (length b) 2); [intros EE; exfalso; exact (in_err_not_none b s0 EE)|]. destruct b as [|c b1]; [discriminate|].
      destruct (c =? 34) eqn:C; cbn [negb].
      * destruct (unquote_cases (c :: b1) W) as [(lit & r & i & SL & Eb & Q)|(r & Q)]; rewrite Q; [|intros EE; exfalso; exact (in_err_not_none _ s0 EE)].
        destruct (v_b64 V (str_text lit)); [|discriminate]. intros _. exists (ND lit HStr). split; [constructor; exact SL|exact Eb].
      * destruct (c =? 91) eqn:C2; [apply Z.eqb_eq in C2; subst c; discriminate|]. intros EE. exfalso. exact (in_err_not_none _ s0 EE).
    + apply no_number_cut. intros v r J S. rewrite dec_ty_eq. cbn [d_map d_err]. unfold decode_bytes. rewrite (num_not_null v r J S).
      destruct (Nat.ltb _ 2); [apply in_err_not_none|]. destruct (num_start v r J S) as (c & t & _ & E & Hc). rewrite E.
      replace (c =? 34) with false by (symmetry; apply Z.eqb_neq; lia). cbn [negb]. replace (c =? 91) with false by (symmetry; apply Z.eqb_neq; lia). apply in_err_not_none.
Qed.

Lemma strict_members t l : smembers (fun _ => strict) t l -> Forall proper l -> nmembers t l.
Proof.
  induction 1 as [w1 k w2 w3 s v w4 W1 SL W2 W3 HS W4|w1 k w2 w3 s v w4 t l W1 SL W2 W3 HS W4 SE IH]; intros FJ; inversion FJ as [|? ? [_ J] FJ']; subst; rewrite HS.
  - constructor; assumption.
  - constructor; try assumption. apply IH. assumption.
Qed.
Lemma nmembers_proper t l : nmembers t l -> Forall proper l.
Proof. induction 1; constructor; auto; split; assumption. Qed.
Lemma obj_strict {K A} (R : node -> A -> A -> Prop) z (keym : bytes -> K -> Prop) eqb D b x :
  mends (oloose (fun _ => strict)) (map_rel R z keym eqb) D b x -> mends strict (map_rel R z keym eqb) D b x.
Proof.
  intros M r y E. destruct (M r y E) as (w0 & s & w1 & v & A1 & A2 & A3 & A4 & A5 & A6). destruct A4 as [->|(t & l & u & -> & -> & SE)].
  - exists w0, (ntext v), w1, v. repeat (split; [assumption || reflexivity|]). exact A6.
  - assert (FJ : Forall proper l) by (inversion A5; subst; [constructor|eapply nmembers_proper; eassumption]).
    exists w0, (123 :: t ++ [125]), w1, (ND (123 :: t ++ [125]) (HObj l)). repeat (split; [assumption || reflexivity|]). split; [constructor; apply strict_members; assumption|].
    inversion A6; subst; constructor; assumption.
Qed.
Lemma dec_ty_mends n : forall t b x, wf b -> nsp b -> (length b < n)%nat -> mends (spells t) (stores t) (dec_ty n t) b x.
Proof.
  induction n as [|n IHn]; [intros; lia|].
  assert (TK : forall m t b x, wf b -> (length b < m)%nat -> takes False (dec_ty m t) b x).
  { intros m t b x W L. eapply takes_imp; [|apply dec_ty_takes; [exact OK|exact W|exact L]]. contradiction. }
  induction t; intros b x W NB L.
  - destruct x; try (eapply err_mends; rewrite dec_ty_eq; reflexivity).
    eapply (leaf_mends YBool decode_bool MBool); [intros; rewrite dec_ty_eq; reflexivity|exact W|apply bool_reads, W|intros; apply bool_meets; assumption|apply bool_cut].
  - destruct x; try (eapply err_mends; rewrite dec_ty_eq; reflexivity).
    eapply (leaf_mends _ (decode_int t) MInt); [intros; rewrite dec_ty_eq; reflexivity|exact W|apply int_reads, W|intros; apply ty_int_meets; assumption|apply int_cut].
  - destruct x; try (eapply err_mends; rewrite dec_ty_eq; reflexivity).
    eapply (leaf_mends _ (decode_float _) MFloat); [intros; rewrite dec_ty_eq; reflexivity|exact W|apply float_reads, W|intros; apply float_meets; assumption|apply float_cut].
  - destruct x; try (eapply err_mends; rewrite dec_ty_eq; reflexivity).
    eapply (leaf_mends _ decode_number MStr); [intros; rewrite dec_ty_eq; reflexivity|exact W|apply number_reads, W|intros; apply number_meets; assumption|apply number_cut].
  - destruct x; try (eapply err_mends; rewrite dec_ty_eq; reflexivity).
    eapply (leaf_mends _ decode_string MStr); [intros; rewrite dec_ty_eq; reflexivity|exact W|apply string_reads, W|intros; apply string_meets; assumption|apply string_cut].
  - apply bytes_mends, W.
  - destruct x; try (eapply err_mends; rewrite dec_ty_eq; reflexivity).
    eapply (leaf_mends _ (decode_duration V) MInt); [intros; rewrite dec_ty_eq; reflexivity|exact W|apply duration_reads; assumption|intros; apply duration_meets; assumption|apply duration_cut].
  - destruct x; try (eapply err_mends; rewrite dec_ty_eq; reflexivity).
    eapply (leaf_mends _ (decode_time V) MTime); [intros; rewrite dec_ty_eq; reflexivity|exact W|apply time_reads; assumption|intros; apply time_meets; assumption|apply time_cut].
  - destruct x; try (eapply err_mends; rewrite dec_ty_eq; reflexivity).
    eapply (leaf_mends _ (decode_interface _ _) MIface); [intros; rewrite dec_ty_eq; reflexivity|exact W|apply iface_reads, W|intros; apply iface_meets; assumption|apply iface_cut].
  - apply named_mends; assumption.
  - destruct x; try (eapply err_mends; rewrite dec_ty_eq; reflexivity).
    eapply (leaf_mends _ decode_raw MRaw); [intros; rewrite dec_ty_eq; reflexivity|exact W|apply raw_reads, W|intros; apply raw_meets; assumption|apply raw_cut].
  - (* arrays *)
    destruct x; try (eapply err_mends; rewrite dec_ty_eq; reflexivity).
    destruct (Nat.eqb (length l) n0) eqn:EL; [|eapply err_mends; rewrite dec_ty_eq, EL; reflexivity].
    eapply (mends_text (fun s v => strict s v \/ exists t' l' u, s = 91 :: t' ++ [93] /\ v = ND u (HArr l') /\ room (spells t) (length l) true t' l')).
    { apply Nat.eqb_eq in EL. intros s v J [->|(t' & l' & u & -> & -> & RM)]; [apply sl_json, J|]. rewrite EL in RM. apply sl_array; assumption. }
    eapply (map_mends _ (array_rel (stores t)) _ (decode_array (dec_ty (Datatypes.S n) t))); [rewrite dec_ty_eq, EL; reflexivity| |].
    { intros v z Z. constructor; [apply Nat.eqb_eq, EL|exact Z]. }
    apply (decode_array_mends (spells t) (stores t) _ (length b)); [| |exact W|lia|intros; constructor; assumption].
    + intros b' x' W' L'. apply TK; [exact W'|lia].
    + intros b' x' W' N' L'. apply IHt; [exact W'|exact N'|lia].
  - destruct x; try (eapply err_mends; rewrite dec_ty_eq; reflexivity).
    eapply mends_text; [|eapply (map_mends _ (slice_rel (stores t) (zero V t)) _ (decode_slice (dec_ty (Datatypes.S n) t) (zero V t))); [rewrite dec_ty_eq; reflexivity| |]].
    2:{ intros v z Z. constructor. exact Z. }
    2:{ apply (decode_slice_mends (spells t) (stores t) _ (length b)); [| |exact W|lia].
        - intros b' x' W' L'. apply TK; [exact W'|lia].
        - intros b' x' W' N' L'. apply IHt; [exact W'|exact N'|lia]. }
    intros s0 v J [->|(t' & l' & u & -> & -> & RM)]; constructor; assumption.
  - destruct x; try (eapply err_mends; rewrite dec_ty_eq; reflexivity).
    eapply mends_text; [|eapply (map_mends _ (map_rel (stores t) (zero V t) (key_means V k) mkey_eqb) _ (decode_map mkey_eqb (decode_key V k) (dec_ty (Datatypes.S n) t) (zero V t))); [rewrite dec_ty_eq; reflexivity| |]].
    2:{ intros v z Z. constructor. exact Z. }
    2:{ apply (decode_map_mends (spells t) (stores t) _ _ _ _ _ (length b)); [| |apply key_takes_all, OK|apply key_means_meets; exact OK|exact W|lia].
        - intros b' W' L'. apply TK; [exact W'|lia].
        - intros b' W' N' L'. apply IHt; [exact W'|exact N'|lia]. }
    intros s0 v J [->|(t' & l' & u & -> & -> & RM)]; constructor; assumption.
  - destruct x; try (eapply err_mends; rewrite dec_ty_eq; reflexivity).
    apply strictly. eapply (map_mends _ (map_rel (stores YIface) (MIface JVNull) (key_means V KYString) mkey_eqb) _
      (decode_map mkey_eqb (decode_key V KYString) (fun b x => d_map MIface (decode_interface (d_usenum F) (v_float V true) b JVNull)) (MIface JVNull))); [rewrite dec_ty_eq; reflexivity| |].
    { intros v z Z. apply si_rel. eauto. }
    apply obj_strict. apply (decode_map_mends strict (stores YIface) _ _ _ _ _ (length b)); [| |apply key_takes_all, OK|apply key_means_meets; exact OK|exact W|lia].
    + intros b' W' L'. eapply (map_takes _ (decode_interface _ _)); [reflexivity|apply iface_takes, W'].
    + intros b' W' N' L'. apply cut_mends; [exact W'|exact (iface_reads _ _ b' JVNull W')| |eapply (cut_map (decode_interface (d_usenum F) (v_float V true)) _ MIface JVNull); [reflexivity|apply iface_cut]].
      intros v J. eapply meets_ext; [|reflexivity|apply (iface_meets V F n v (MIface JVNull) J)]. intros r NS. rewrite dec_ty_eq. reflexivity.
  - destruct x; try (eapply err_mends; rewrite dec_ty_eq; reflexivity).
    apply strictly. eapply (map_mends _ (map_rel (stores YRaw) (MRaw None) (key_means V KYString) mkey_eqb) _
      (decode_map mkey_eqb (decode_key V KYString) (fun b x => d_map MRaw (decode_raw b None)) (MRaw None))); [rewrite dec_ty_eq; reflexivity| |].
    { intros v z Z. apply sr_rel. eauto. }
    apply obj_strict. apply (decode_map_mends strict (stores YRaw) _ _ _ _ _ (length b)); [| |apply key_takes_all, OK|apply key_means_meets; exact OK|exact W|lia].
    + intros b' W' L'. eapply (map_takes _ decode_raw); [reflexivity|apply reads_takes; [exact W'|apply raw_reads, W']].
    + intros b' W' N' L'. apply cut_mends; [exact W'|exact (raw_reads b' None W')| |eapply (cut_map decode_raw _ MRaw None); [reflexivity|apply raw_cut]].
      intros v J. eapply meets_ext; [|reflexivity|apply (raw_meets V F n v (MRaw None) J)]. intros r NS. rewrite dec_ty_eq. reflexivity.
  - apply ptr_mends; [exact W|exact NB|]. intros y. apply IHt; assumption.
  - (* structs *)
    destruct x; try (eapply err_mends; rewrite dec_ty_eq; reflexivity).
    set (look := fun k => match find_field V F (v_flds V i) k with
                          | Some f => Some (on_path V (jf_path f) (decode_field V f (dec_ty n (jf_ty f))))
                          | None => None
                          end).
    assert (IN : forall k f, find_field V F (v_flds V i) k = Some f -> In f (v_flds V i)).
    { intros k f FF. unfold find_field in FF. destruct (find _ (rev _)) eqn:E1.
      - injection FF as ->. apply find_some in E1 as [E1 _]. apply in_rev, E1.
      - destruct (d_nocase F); [discriminate|]. apply find_some in FF as [E2 _]. exact E2. }
    assert (M : mends (oloose (spells_member V F i)) (struct_rel (member V F i)) (decode_struct look (d_disallow F)) b (MList l)).
    { apply (decode_struct_mends (spells_member V F i) (member V F i) look (d_disallow F) (length b)); [| | | |exact W|lia].
      - intros k D b' x' LO W' L'. unfold look in LO. destruct (find_field V F (v_flds V i) k) as [f|] eqn:FF; [|discriminate]. injection LO as <-.
        apply path_takes. intros y. unfold decode_field. destruct (jf_quot f) eqn:Q.
        + apply TK; [exact W'|lia].
        + apply from_string_takes; [exact W'|]. intros b2 W2. apply quotable_reads; [exact OK| |exact W2]. eapply (ok_quot V OK); [eapply IN, FF|congruence].
        + apply from_string_int_takes; [exact W'|]. intros b2 W2. apply quotable_reads; [exact OK| |exact W2]. eapply (ok_quot V OK); [eapply IN, FF|congruence].
      - intros lit k D b' x' SM LO W' N' L'. unfold look in LO. pose proof (find_field_picks V F (v_flds V i) k) as PK.
        destruct (find_field V F (v_flds V i) k) as [f|] eqn:FF; [|discriminate]. injection LO as <-.
        assert (PM : mends (spells_member V F i lit) (at_path V (quoted (jf_quot f) (stores (jf_ty f))) (jf_path f)) (on_path V (jf_path f) (decode_field V f (dec_ty n (jf_ty f)))) b' x').
        { apply path_mends. intros y. unfold decode_field. destruct (jf_quot f) eqn:Q.
          + intros r z E. destruct (IHn (jf_ty f) b' y W' N' ltac:(lia) r z E) as (w0 & s & w1 & v & A1 & A2 & A3 & A4 & A5 & A6). exists w0, s, w1, v. repeat (split; [assumption|]).
            split; [eapply sp_field; eassumption|]. split; [exact A5|constructor; [reflexivity|exact A6]].
          + assert (QT : quotable (jf_ty f)) by (eapply (ok_quot V OK); [eapply IN, FF|congruence]).
            destruct (from_string_reads (dec_ty n (jf_ty f)) b' y W' (fun b W => quotable_reads V F OK n _ QT b y W)) as [RD CT].
            apply (strict_mends (spells_member V F i lit)); [intros v J; constructor; exact J|]. apply cut_mends; [exact W'|exact RD| |exact CT].
            intros v J. pose proof (field_meets V F OK n f v y J ltac:(congruence) (fun _ => QT)) as FM. unfold decode_field in FM. rewrite Q in FM. exact FM.
          + assert (QT : quotable (jf_ty f)) by (eapply (ok_quot V OK); [eapply IN, FF|congruence]).
            destruct (from_string_int_reads (v_float V true) (dec_ty n (jf_ty f)) b' y W' (fun b W => quotable_reads V F OK n _ QT b y W)) as [RD CT].
            apply (strict_mends (spells_member V F i lit)); [intros v J; constructor; exact J|]. apply cut_mends; [exact W'|exact RD| |exact CT].
            intros v J. pose proof (field_meets V F OK n f v y J ltac:(congruence) (fun _ => QT)) as FM. unfold decode_field in FM. rewrite Q in FM. exact FM. }
        intros r z E. destruct (PM r z E) as (w0 & s & w1 & v & A1 & A2 & A3 & A4 & A5 & A6). exists w0, s, w1, v. repeat (split; [assumption|]). eapply me_field; eassumption.
      - intros k v x' LO D. unfold look in LO. pose proof (find_field_picks V F (v_flds V i) k) as PK. destruct (find_field V F (v_flds V i) k); [discriminate|]. apply me_unknown; assumption.
      - intros lit v J. constructor. exact J. }
    intros r y E. rewrite dec_ty_eq in E. fold look in E. destruct (M r y E) as (w0 & s & w1 & v & A1 & A2 & A3 & A4 & A5 & A6). exists w0, s, w1, v. repeat (split; [assumption|]).
    split; [|split; [exact A5|constructor; exact A6]]. destruct A4 as [->|(t' & l' & u & -> & -> & RM)]; constructor; assumption.
  - destruct x; try (eapply err_mends; rewrite dec_ty_eq; reflexivity).
    eapply (leaf_mends _ (decode_json_user V u) MUser); [intros; rewrite dec_ty_eq; reflexivity|exact W|apply json_reads; assumption|intros; apply json_meets; assumption|apply json_cut].
  - destruct x; try (eapply err_mends; rewrite dec_ty_eq; reflexivity).
    eapply (leaf_mends _ (decode_text_user V u) MUser); [intros; rewrite dec_ty_eq; reflexivity|exact W|apply text_reads; assumption|intros; apply text_meets; assumption|apply text_cut].
  - intros r y E. rewrite dec_ty_eq in E. destruct x; try discriminate. unfold decode_type_error in E. destruct (parseValue b); discriminate.
Qed.
End Types.
