(** What failed decoders leave in their targets: the proofs for SpecLeft.v. *)
From Verif Require Import Bytes AsciiModel Utf8Model ParseModel IntModel StringModel EncModel DecModel
  SpecJson SpecString SpecDec ParseFacts Utf8Facts StringFacts IntFacts DecLoops DecFacts TypeModel SpecType NodeFacts TypeLoops TypeFacts TypeMain TypeSound SpecLoose LooseFacts SpecLeft.
From Verif Require ColorFacts.

Lemma cut_num_stop r : cut r -> num_stop r.
Proof.
  destruct r as [|c r]; [intros _; exact I|]. unfold cut, num_stop, num_cont, digit. intros (H1 & H2 & H3 & H4).
  unfold is_digit. repeat (apply orb_false_intro); try (apply Z.eqb_neq; assumption).
  destruct (48 <=? c) eqn:E1; [|reflexivity]. destruct (c <=? 57) eqn:E2; [|reflexivity]. apply Z.leb_le in E1, E2. exfalso. apply H1. lia.
Qed.
Lemma apart_stops v r : apart v r -> stops v r.
Proof. unfold apart, stops. destruct (nshape v); auto. apply cut_num_stop. Qed.
Lemma nsp_unspaced b : nsp b -> unspaced b.
Proof.
  intros H w c r W E. subst b. cbn [app nsp] in H. inversion W as [|? ? X _]; subst. unfold is_space in H. cbn in X.
  pose proof (skip_spaces_ws (c :: w) r W). rewrite (skip_spaces_nsp ((c :: w) ++ r)) in H0 by exact H.
  pose proof (skip_spaces_le r) as L. rewrite <- H0 in L. rewrite app_length in L. cbn [length] in L. lia.
Qed.
Lemma lead_sepw first w : lead first w -> exists u w1, sepw first u /\ ws w1 /\ w = u ++ w1.
Proof.
  destruct first; cbn [lead].
  - intros W. exists [], w. split; [left; auto|]. auto.
  - intros (w1 & w2 & W1 & W2 & ->). exists (w1 ++ [44]), w2. split; [right; split; [reflexivity|exists w1; auto]|]. split; [exact W2|]. appn. reflexivity.
Qed.
Lemma grows_step c0 n c : grows c0 n c -> (n < c -> grows c0 (S n) c)%nat /\
  (n = c -> grows c0 (S n) (match c with O => 10 | _ => c + c end)%nat).
Proof.
  induction 1 as [c n H|c n c' H G [IH1 IH2]].
  - split; intros L; [constructor; lia|]. subst c. apply grows_more; [lia|]. apply grows_fit. destruct n; lia.
  - split; intros L; (apply grows_more; [lia|]); auto.
Qed.

Lemma array_step {A} (z : A) ys d0 c : grows (length d0) (length ys) c ->
  let d := array_after z ys d0 c in let g := if Nat.eqb (length ys) (length d) then grow z d else d in
  exists c', grows (length d0) (S (length ys)) c' /\ nth (length ys) g z = nth (length ys) d0 z /\
    forall y, set_nth (length ys) y g = array_after z (ys ++ [y]) d0 c'.
Proof.
  intros G d g. destruct (grows_ge _ _ _ G) as [G1 G2]. destruct (grows_step _ _ _ G) as [S1 S2].
  assert (LD : length d = c) by (unfold d, array_after; rewrite !app_length, skipn_length, repeat_length; lia).
  assert (EG : exists c', grows (length d0) (S (length ys)) c' /\ g = ys ++ skipn (length ys) d0 ++ repeat z (c' - max (length ys) (length d0)) /\ (length ys < c')%nat).
  { unfold g. rewrite LD. destruct (Nat.eqb (length ys) c) eqn:E.
    - apply Nat.eqb_eq in E. exists (match c with O => 10 | _ => c + c end)%nat. split; [auto|].
      assert (GE : grow z d = d ++ repeat z (match c with O => 10 | _ => c end)%nat).
      { unfold grow. rewrite <- LD. destruct d; reflexivity. }
      split; [|destruct c; lia]. rewrite GE. unfold d, array_after. rewrite <- !app_assoc. do 2 f_equal. rewrite <- List.repeat_app. f_equal. destruct c; lia.
    - apply Nat.eqb_neq in E. exists c. split; [apply S1; lia|]. split; [reflexivity|lia]. }
  clearbody g. destruct EG as (c' & GC & -> & LT). exists c'. split; [exact GC|].
  destruct (Nat.lt_ge_cases (length ys) (length d0)) as [L|L].
  - destruct (skipn (length ys) d0) as [|x t] eqn:SK; [apply (f_equal (@length _)) in SK; rewrite skipn_length in SK; cbn in SK; lia|].
    assert (E0 : d0 = firstn (length ys) d0 ++ x :: t) by (rewrite <- SK, firstn_skipn; reflexivity).
    assert (LF : length (firstn (length ys) d0) = length ys) by (rewrite firstn_length; lia).
    clear SK LD d G G1 G2 S1 S2. set (p := firstn (length ys) d0) in *. clearbody p. subst d0. cbn [app]. split.
    + rewrite app_nth2, Nat.sub_diag by lia. cbn [nth]. rewrite <- LF, app_nth2, Nat.sub_diag by lia. reflexivity.
    + intros y. rewrite set_nth_app. unfold array_after. rewrite (app_length ys [y]), <- (app_assoc ys [y]). cbn [length app]. do 2 f_equal.
      replace (length ys + 1)%nat with (length (p ++ [x])) by (rewrite app_length, LF; cbn; lia). f_equal.
      * change (x :: t) with ([x] ++ t). rewrite app_assoc, skipn_app, skipn_all, Nat.sub_diag. reflexivity.
      * f_equal. rewrite !app_length in *. cbn [length] in *. lia.
  - rewrite (skipn_all2 d0) by exact L. cbn [app]. replace (c' - max (length ys) (length d0))%nat with (S (c' - S (length ys)))%nat by lia. cbn [repeat]. split.
    + rewrite app_nth2, Nat.sub_diag by lia. cbn [nth]. rewrite nth_overflow by lia. reflexivity.
    + intros y. rewrite set_nth_app. unfold array_after. rewrite app_length, <- app_assoc. cbn [length app]. do 2 f_equal.
      rewrite skipn_all2 by lia. cbn [app]. f_equal. lia.
Qed.

(** * Slices *)
Section Slice.
Context {A : Type} (D : bytes -> A -> dres A) (T : bytes -> bytes -> A -> A -> Prop) (L : bytes -> A -> A -> Prop) (z : A) (inp : bytes) (N : nat).
Hypothesis WI : wf inp.
Hypothesis HT : forall b x r y, wf b -> nsp b -> (length b < N)%nat -> D b x = DR r None y -> T b r x y /\ wf r /\ (length r < length b)%nat.
Hypothesis HL : forall b x, wf b -> nsp b -> (length b < N)%nat -> d_err (D b x) <> None -> L b x (d_val (D b x)).

Lemma elem_err_val {B} i e (x : B) : d_val (elem_err i e x) = x.
Proof. unfold elem_err. destruct (parseValue i); reflexivity. Qed.
Lemma nth_skip (l : list A) n : hd z (skipn n l) = nth n l z.
Proof. revert l. induction n as [|n IH]; intros [|x l]; try reflexivity. apply IH. Qed.
Lemma tl_skip (l : list A) n : tl (skipn n l) = skipn (S n) l.
Proof. revert l. induction n as [|n IH]; intros [|x l]; try reflexivity. cbn [skipn] in *. apply IH. Qed.
Lemma none_app_cons (ys zs : list A) y : none (ys ++ y :: zs) = false.
Proof. destruct ys; reflexivity. Qed.

Definition slice_ends d0 (ys : list A) b (res : dres (sl A)) : Prop :=
  (exists ys2 w b1 y c', elems_read T z (none ys) b (skipn (length ys) d0) ys2 (w ++ b1) /\ lead (none (ys ++ ys2)) w /\ nsp b1 /\
     (ys ++ ys2 = [] -> forall r, b1 <> 93 :: r) /\ L b1 (nth (length (ys ++ ys2)) d0 z) y /\ grows (length d0) (S (length (ys ++ ys2))) c' /\
     d_val res = Some (length (ys ++ ys2), array_after z ((ys ++ ys2) ++ [y]) d0 c')) \/
  (exists ys2 b1 c', elems_read T z (none ys) b (skipn (length ys) d0) ys2 b1 /\ ys ++ ys2 <> [] /\
     (forall w r, ws w -> b1 <> w ++ 44 :: r) /\ (forall w r, ws w -> b1 <> w ++ 93 :: r) /\ grows (length d0) (length (ys ++ ys2)) c' /\
     d_val res = Some (length (ys ++ ys2), array_after z (ys ++ ys2) d0 c')).

Lemma no_lead b c : (forall t, skip_spaces b <> c :: t) -> is_space c = false -> forall w r, ws w -> b <> w ++ c :: r.
Proof. intros H S w r W ->. apply (H r). rewrite skip_spaces_ws by exact W. apply skip_spaces_nsp, S. Qed.

Lemma slice_loop_left d0 k : forall b ys data c, wf b -> (length b < k)%nat -> (length b < N)%nat ->
  grows (length d0) (length ys) c -> contents data = array_after z ys d0 c -> (ys <> [] -> data <> None) ->
  d_err (slice_loop D z inp k b (length ys) data) <> None -> slice_ends d0 ys b (slice_loop D z inp k b (length ys) data).
Proof.
  induction k as [|k IH]; intros b ys data c W LK LN G EC DN HE; [lia|]. cbn [slice_loop] in *. cbv zeta in *.
  destruct (skip_read b W) as (w & Ww & Eb & Ws & Ls). destruct (skip_spaces_split b) as (_ & _ & _ & NS). set (sb := skip_spaces b) in *.
  change (match data with None => [] | Some d => d end) with (contents data) in *.
  destruct (match sb with c :: _ => c =? 93 | [] => false end) eqn:C; [elim HE; reflexivity|].
  set (g := if Nat.eqb (length ys) (length (contents data)) then grow z (contents data) else contents data) in *.
  destruct (array_step z ys d0 c G) as (c' & GC & NG & SG). rewrite <- EC in NG, SG. fold g in NG, SG.
  assert (EL : forall w b2, b = w ++ b2 -> lead (none ys) w -> wf b2 -> nsp b2 -> (length b2 <= length b)%nat -> (ys = [] -> forall r, b2 <> 93 :: r) ->
    let res := match d_err (D b2 (nth (length ys) g z)) with
      | None => slice_loop D z inp k (d_rest (D b2 (nth (length ys) g z))) (S (length ys)) (Some (set_nth (length ys) (d_val (D b2 (nth (length ys) g z))) g))
      | Some e => elem_err inp e (Some (length ys, set_nth (length ys) (d_val (D b2 (nth (length ys) g z))) g)) end in
    d_err res <> None -> slice_ends d0 ys b res).
  { clear HE. intros w2 b2 E2 LE W2 N2 L2 H93. cbv zeta. rewrite NG. set (x0 := nth (length ys) d0 z).
    destruct (D b2 x0) as [r [e|] y] eqn:ED; cbn [d_err d_rest d_val]; intros HE.
    - left. exists [], w2, b2, y, c'. rewrite app_nil_r. split; [rewrite E2; constructor|]. split; [exact LE|]. split; [exact N2|]. split; [exact H93|].
      split; [|split; [exact GC|rewrite elem_err_val, SG; reflexivity]].
      pose proof (HL b2 x0 W2 N2 ltac:(lia)) as H. rewrite ED in H. apply H. discriminate.
    - destruct (HT b2 x0 r y W2 N2 ltac:(lia) ED) as (TT & Wr & Lr). rewrite SG in *.
      assert (LS : S (length ys) = length (ys ++ [y])) by (rewrite app_length; cbn; lia). rewrite LS in *.
      assert (READ : forall ys2 b', elems_read T z (none (ys ++ [y])) r (skipn (length (ys ++ [y])) d0) ys2 b' -> elems_read T z (none ys) b (skipn (length ys) d0) (y :: ys2) b').
      { intros ys2 b' ER. rewrite E2. apply (er_more T z (none ys) w2 b2 r); [exact LE|rewrite nth_skip; exact TT|]. rewrite tl_skip, LS. rewrite none_app_cons in ER. exact ER. }
      destruct (IH r (ys ++ [y]) (Some (array_after z (ys ++ [y]) d0 c')) c' Wr ltac:(lia) ltac:(lia) GC eq_refl ltac:(discriminate) HE)
        as [(ys2 & w3 & b3 & y3 & c3 & H1 & H2 & H3 & H4 & H5 & H6 & H7)|(ys2 & b3 & c3 & H1 & H2 & H3 & H4 & H5 & H6)].
      + left. exists (y :: ys2), w3, b3, y3, c3. replace (ys ++ y :: ys2) with ((ys ++ [y]) ++ ys2) by (appn; reflexivity).
        split; [apply READ, H1|]. auto 10.
      + right. exists (y :: ys2), b3, c3. replace (ys ++ y :: ys2) with ((ys ++ [y]) ++ ys2) by (appn; reflexivity).
        split; [apply READ, H1|]. auto 10. }
  destruct (Nat.eqb (length ys) 0) eqn:L0.
  - assert (ys = []) as -> by (destruct ys; [reflexivity|discriminate L0]).
    apply (EL w sb Eb Ww Ws NS Ls); [|exact HE]. intros _ r E. rewrite E in C. discriminate C.
  - assert (NY : ys <> []) by (intros ->; discriminate L0).
    assert (NOW : forall r0, (forall t, sb <> 44 :: t) -> slice_ends d0 ys b (DR r0 (Some ESyntax) (match data with None => None | Some d => Some (length ys, d) end) : dres (sl A))).
    { intros r0 H. right. exists [], b, c. rewrite app_nil_r. split; [constructor|]. split; [exact NY|]. split; [apply no_lead; [exact H|reflexivity]|].
      split; [apply no_lead; [|reflexivity]; intros t E; fold sb in E; rewrite E in C; discriminate C|]. split; [exact G|]. cbn [d_val].
      destruct data as [d|]; [|elim (DN NY); reflexivity]. cbn [contents] in EC. rewrite EC. reflexivity. }
    destruct sb as [|h b1] eqn:SB; [apply NOW; discriminate|]. destruct (h =? 44) eqn:C2.
    + apply Z.eqb_eq in C2. subst h. apply wf_cons in Ws as [_ Ws]. cbn [length] in Ls.
      destruct (skip_read b1 Ws) as (w2 & Ww2 & Eb1 & Ws1 & Ls1). destruct (skip_spaces_split b1) as (_ & _ & _ & NS1).
      apply (EL (w ++ 44 :: w2) (skip_spaces b1)); [rewrite Eb, Eb1 at 1; appn; reflexivity| |exact Ws1|exact NS1|lia|intros ->; congruence|exact HE].
      destruct ys; [congruence|]. cbn [none lead]. exists w, w2. auto.
    + apply NOW. intros t [= -> _]. discriminate C2.
Qed.
Lemma decode_slice_left s x : inp = 91 :: s -> s <> [] -> (length s < N)%nat ->
  d_err (decode_slice D z (91 :: s) x) <> None -> slice_left T L z s x (d_val (decode_slice D z (91 :: s) x)).
Proof.
  intros EI NS LS. unfold decode_slice. change (has_null_prefix (91 :: s)) with false. cbv iota.
  replace (Nat.ltb (length (91 :: s)) 2) with false by (symmetry; apply Nat.ltb_ge; destruct s; [congruence|cbn [length]; lia]).
  rewrite Z.eqb_refl, <- EI. assert (W : wf s) by (rewrite EI in WI; apply wf_cons in WI; apply WI). intros HE.
  set (d0 := backing x).
  assert (EC : contents (option_map snd x) = array_after z [] d0 (length d0)).
  { unfold array_after, d0. cbn [length app skipn]. rewrite Nat.max_r, Nat.sub_diag by lia. cbn [repeat]. rewrite app_nil_r. destruct x as [[? ?]|]; reflexivity. }
  destruct (slice_loop_left d0 (S (length inp)) s [] (option_map snd x) (length d0) W ltac:(rewrite EI; cbn [length]; lia) LS ltac:(apply grows_fit; cbn; lia) EC ltac:(congruence) HE)
    as [(ys2 & w3 & b3 & y3 & c3 & H1 & H2 & H3 & H4 & H5 & H6 & H7)|(ys2 & b3 & c3 & H1 & H2 & H3 & H4 & H5 & H6)]; cbn [app length] in *.
  - rewrite H7. eapply sl_elem; try eassumption. apply nsp_unspaced, H3.
  - rewrite H6. eapply sl_sep; eassumption.
Qed.
End Slice.

(** * Fixed-size arrays *)
Lemma parse_no_value b r e : parseValue b = PErr r e -> no_value b.
Proof. intros E v r0 J C ->. rewrite (node_parse v r0 J (apart_stops _ _ C)) in E. discriminate E. Qed.
Lemma skip_left k : forall b r e, wf b -> (length b < k)%nat -> array_skip k b = (r, Some e) ->
  exists b1, extras_read b b1 /\ (forall w r, ws w -> b1 <> w ++ 93 :: r) /\
    (forall w v r, ws w \/ lead false w -> jnode v -> apart v r -> b1 <> w ++ ntext v ++ r).
Proof.
  induction k as [|k IH]; intros b r e W L E; [lia|]. cbn [array_skip] in E. cbv zeta in E.
  destruct (skip_read b W) as (w & Ww & Eb & Ws & Ls).
  assert (HERE : (forall t, skip_spaces b <> 93 :: t) ->
    (forall b2, skip_spaces b = b2 -> (forall t, b2 <> 44 :: t) -> no_value b2) -> (forall t, skip_spaces b = 44 :: t -> no_value (skip_spaces t)) ->
    exists b1, extras_read b b1 /\ (forall w r, ws w -> b1 <> w ++ 93 :: r) /\
    (forall w v r, ws w \/ lead false w -> jnode v -> apart v r -> b1 <> w ++ ntext v ++ r)).
  { intros N93 NV NC. exists b. split; [constructor|]. split; [apply no_lead; [exact N93|reflexivity]|].
    intros w0 v r0 LE J C E0. destruct (node_start v J) as (S1 & _ & S3 & _). assert (NS := nsp_app _ r0 S1 S3). destruct LE as [LE|(w1 & w2 & LE1 & LE2 & ->)].
    - apply (NV (ntext v ++ r0)) with (v := v) (r := r0); [rewrite E0, skip_spaces_ws by exact LE; apply skip_spaces_nsp, NS| |exact J|exact C|reflexivity].
      intros t ET. destruct (node_head v J) as (c & t' & EN & Hc). rewrite EN in ET. cbn [app] in ET. injection ET as -> _. unfold vhead in Hc. lia.
    - apply (NC (w2 ++ ntext v ++ r0)) with (v := v) (r := r0); [|exact J|exact C|rewrite skip_spaces_ws by exact LE2; apply skip_spaces_nsp, NS].
      rewrite E0. replace ((w1 ++ 44 :: w2) ++ ntext v ++ r0) with (w1 ++ 44 :: w2 ++ ntext v ++ r0) by (appn; reflexivity). rewrite skip_spaces_ws by exact LE1. reflexivity. }
  destruct (skip_spaces b) as [|c b1] eqn:SB.
  { apply HERE; [discriminate| |discriminate]. intros b2 <- _ v r0 J _ E0. destruct (node_head v J) as (c & t' & EN & Hc). rewrite EN in E0. discriminate E0. }
  destruct (c =? 93) eqn:C; [discriminate|]. assert (N93 : forall t, c :: b1 <> 93 :: t) by (intros t [= -> _]; discriminate C).
  assert (W1 := Ws). apply wf_cons in W1 as [_ W1]. cbn [length] in Ls.
  destruct (c =? 44) eqn:C2; rewrite ?C2 in E.
  - apply Z.eqb_eq in C2. subst c. destruct (skip_read b1 W1) as (w2 & Ww2 & Eb1 & Ws1 & Ls1). pose proof (parse_takes _ Ws1) as PT.
    destruct (parseValue (skip_spaces b1)) as [v r2|r2 e2] eqn:PV.
    + destruct PT as (_ & Wr & Lr & Eb2 & a & J). destruct (jvalue_nd v a J) as (nd & Jn & <-). destruct (IH r2 r e Wr ltac:(lia) E) as (b3 & X1 & X2 & X3).
      exists b3. split; [|auto]. rewrite Eb, Eb1, Eb2. replace (w ++ 44 :: w2 ++ ntext nd ++ r2) with ((w ++ 44 :: w2) ++ ntext nd ++ r2) by (appn; reflexivity).
      apply ex_more; [right; exists w, w2; auto|exact Jn|exact X1].
    + apply HERE; [exact N93|intros b2 <- H; elim (H b1); reflexivity|]. intros t [= <-]. eapply parse_no_value, PV.
  - pose proof (parse_takes _ Ws) as PT. destruct (parseValue (c :: b1)) as [v r2|r2 e2] eqn:PV.
    + destruct PT as (_ & Wr & Lr & Eb2 & a & J). destruct (jvalue_nd v a J) as (nd & Jn & <-). cbn [length] in Lr. destruct (IH r2 r e Wr ltac:(lia) E) as (b3 & X1 & X2 & X3).
      exists b3. split; [|auto]. rewrite Eb, Eb2. apply ex_more; [left; exact Ww|exact Jn|exact X1].
    + apply HERE; [exact N93|intros b2 <- _; eapply parse_no_value, PV|]. intros t [= -> _]. discriminate C2.
Qed.
Section Array.
Context {A : Type} (D : bytes -> A -> dres A) (T : bytes -> bytes -> A -> A -> Prop) (L : bytes -> A -> A -> Prop) (z : A) (N : nat).
Hypothesis HT : forall b x r y, wf b -> nsp b -> (length b < N)%nat -> D b x = DR r None y -> T b r x y /\ wf r /\ (length r < length b)%nat.
Hypothesis HL : forall b x, wf b -> nsp b -> (length b < N)%nat -> d_err (D b x) <> None -> L b x (d_val (D b x)).

Definition array_ends (first : bool) (b : bytes) (todo : list A) (res : list A) : Prop :=
  (exists ys w b1 y, (length ys < length todo)%nat /\ elems_read T z first b todo ys (w ++ b1) /\ lead (first && none ys) w /\ nsp b1 /\
     L b1 (nth (length ys) todo z) y /\ res = ys ++ y :: skipn (S (length ys)) todo) \/
  (exists ys b1, (length ys < length todo)%nat /\ elems_read T z first b todo ys b1 /\ first && none ys = false /\
     (forall w r, ws w -> b1 <> w ++ 44 :: r) /\ (forall w r, ws w -> b1 <> w ++ 93 :: r) /\ res = ys ++ skipn (length ys) todo) \/
  (exists ys b0 b1, length ys = length todo /\ elems_read T z first b todo ys b0 /\ extras_read b0 b1 /\
     (forall w r, ws w -> b1 <> w ++ 93 :: r) /\ (forall w v r, ws w \/ lead false w -> jnode v -> apart v r -> b1 <> w ++ ntext v ++ r) /\ res = ys).

Lemma arr_loop_left todo : forall first b d0, wf b -> (length b < N)%nat -> d_err (arr_loop D first b d0 todo) <> None ->
  exists res, d_val (arr_loop D first b d0 todo) = d0 ++ res /\ array_ends first b todo res.
Proof.
  induction todo as [|x todo IH]; intros first b d0 W LN HE; cbn [arr_loop] in *.
  - destruct (array_skip (S (length b)) b) as [r [e|]] eqn:ES; [|elim HE; reflexivity]. destruct (skip_left (S (length b)) b r e W ltac:(lia) ES) as (b1 & X1 & X2 & X3).
    exists []. split; [rewrite app_nil_r; reflexivity|]. right. right. exists [], b, b1. split; [reflexivity|]. split; [constructor|]. auto.
  - cbv zeta in *. destruct (skip_read b W) as (w & Ww & Eb & Ws & Ls). destruct (skip_spaces_split b) as (_ & _ & _ & NS). set (sb := skip_spaces b) in *.
    assert (EL : forall w b2, b = w ++ b2 -> lead first w -> wf b2 -> nsp b2 -> (length b2 <= length b)%nat ->
      let res := match d_err (D b2 x) with None => arr_loop D false (d_rest (D b2 x)) (d0 ++ [d_val (D b2 x)]) todo | Some e => DR (d_rest (D b2 x)) (Some e) (d0 ++ d_val (D b2 x) :: todo) end in
      d_err res <> None -> exists rs, d_val res = d0 ++ rs /\ array_ends first b (x :: todo) rs).
    { clear HE. intros w2 b2 E2 LE W2 N2 L2. cbv zeta. destruct (D b2 x) as [r [e|] y] eqn:ED; cbn [d_err d_rest d_val]; intros HE.
      - exists (y :: todo). split; [reflexivity|]. left. exists [], w2, b2, y. split; [cbn; lia|]. split; [rewrite E2; constructor|]. rewrite andb_true_r. split; [exact LE|]. split; [exact N2|].
        split; [|reflexivity]. pose proof (HL b2 x W2 N2 ltac:(lia)) as H. rewrite ED in H. apply H. discriminate.
      - destruct (HT b2 x r y W2 N2 ltac:(lia) ED) as (TT & Wr & Lr).
        destruct (IH false r (d0 ++ [y]) Wr ltac:(lia) HE) as (rs & EV & H). exists (y :: rs). split; [rewrite EV; appn; reflexivity|].
        assert (READ : forall ys b', elems_read T z false r todo ys b' -> elems_read T z first b (x :: todo) (y :: ys) b').
        { intros ys b' ER. rewrite E2. apply (er_more T z first w2 b2 r); [exact LE|exact TT|exact ER]. }
        destruct H as [(ys & w3 & b3 & y3 & H1 & H2 & H3 & H4 & H5 & ->)|[(ys & b3 & H1 & H2 & H3 & H4 & H5 & ->)|(ys & b0 & b3 & H1 & H2 & H3 & H4 & H5 & ->)]].
        + left. exists (y :: ys), w3, b3, y3. split; [cbn; lia|]. split; [apply READ, H2|]. cbn [none]. rewrite andb_false_r. auto.
        + right. left. exists (y :: ys), b3. split; [cbn; lia|]. split; [apply READ, H2|]. cbn [none]. rewrite andb_false_r. auto 10.
        + right. right. exists (y :: ys), b0, b3. split; [cbn; lia|]. split; [apply READ, H2|]. auto. }
    destruct first; [apply (EL w sb Eb Ww Ws NS Ls HE)|].
    assert (NOW : (forall t, sb <> 44 :: t) -> (forall t, sb <> 93 :: t) -> array_ends false b (x :: todo) (x :: todo)).
    { intros N44 N93. right. left. exists [], b. split; [cbn; lia|]. split; [constructor|]. split; [reflexivity|]. split; [apply no_lead; [exact N44|reflexivity]|]. split; [apply no_lead; [exact N93|reflexivity]|reflexivity]. }
    destruct sb as [|c b1] eqn:SB; [exists (x :: todo); split; [reflexivity|apply NOW; discriminate]|]. destruct (c =? 44) eqn:C.
    + apply Z.eqb_eq in C. subst c. apply wf_cons in Ws as [_ Ws]. cbn [length] in Ls.
      destruct (skip_read b1 Ws) as (w2 & Ww2 & Eb1 & Ws1 & Ls1). destruct (skip_spaces_split b1) as (_ & _ & _ & NS1).
      apply (EL (w ++ 44 :: w2) (skip_spaces b1)); [rewrite Eb, Eb1 at 1; appn; reflexivity|exists w, w2; auto|exact Ws1|exact NS1|lia|exact HE].
    + destruct (c =? 93) eqn:C2; [elim HE; reflexivity|]. exists (x :: todo). split; [reflexivity|].
      apply NOW; [intros t [= -> _]; discriminate C|intros t [= -> _]; discriminate C2].
Qed.
Lemma decode_array_left s x : wf (91 :: s) -> s <> [] -> (length s < N)%nat ->
  d_err (decode_array D (91 :: s) x) <> None -> array_left T L z s x (d_val (decode_array D (91 :: s) x)).
Proof.
  intros WI NS LS. unfold decode_array. change (has_null_prefix (91 :: s)) with false. cbv iota.
  replace (Nat.ltb (length (91 :: s)) 2) with false by (symmetry; apply Nat.ltb_ge; destruct s; [congruence|cbn [length]; lia]).
  change (91 =? cLBRACK) with true. cbv iota. apply wf_cons in WI as [_ W]. intros HE.
  destruct (arr_loop_left x true s [] W LS HE) as (res & -> & [(ys & w3 & b3 & y3 & H1 & H2 & H3 & H4 & H5 & ->)|[(ys & b3 & H1 & H2 & H3 & H4 & H5 & ->)|(ys & b0 & b3 & H1 & H2 & H3 & H4 & H5 & ->)]]); cbn [app andb] in *.
  - eapply al_elem; try eassumption. apply nsp_unspaced, H4.
  - eapply al_sep; try eassumption. intros ->. discriminate H3.
  - eapply al_extra; eassumption.
Qed.
End Array.

(** * Keys *)
Lemma obj_key_nsp {K} (deck : bytes -> dres K) first b b' k : obj_key deck first b = inr (b', k) -> nsp b'.
Proof.
  unfold obj_key. cbv zeta.
  assert (H : forall b0, (if has_null_prefix b0 then inl (b0, ESyntax) else match d_err (deck b0) with
           | Some e => inl (key_error (d_rest (deck b0)) e)
           | None => match skip_spaces (d_rest (deck b0)) with
                     | [] => inl (skip_spaces (d_rest (deck b0)), ESyntax)
                     | c :: b1 => if c =? 58 then inr (skip_spaces b1, d_val (deck b0)) else inl (skip_spaces (d_rest (deck b0)), ESyntax)
                     end end) = inr (b', k) -> nsp b').
  { intros b0. destruct (has_null_prefix b0); [discriminate|]. destruct (d_err (deck b0)); [discriminate|]. destruct (skip_spaces (d_rest (deck b0))) as [|c b1]; [discriminate|].
    destruct (c =? 58); [|discriminate]. intros [= <- _]. destruct (skip_spaces_split b1) as (_ & _ & _ & NS). exact NS. }
  destruct first; [apply H|]. destruct b as [|c b1]; [discriminate|]. destruct (c =? 44); [apply H|discriminate].
Qed.
(** A key that was read. *)
Lemma obj_key_inr {K} (deck : bytes -> dres K) keym first b b' k : wf b -> key_takes deck -> (forall lit, string_lit lit -> key_meets deck keym lit) ->
  obj_key deck first (skip_spaces b) = inr (b', k) ->
  wf b' /\ (length b' < length b)%nat /\ nsp b' /\
  exists w lit w2 w3, lead first w /\ string_lit lit /\ ws w2 /\ ws w3 /\ b = w ++ lit ++ w2 ++ 58 :: w3 ++ b' /\ keym lit k.
Proof.
  intros W HK KM E. destruct (skip_read b W) as (w & Ww & Eb & Ws & Ls). pose proof (obj_key_read deck first (skip_spaces b) HK Ws) as OK. rewrite E in OK.
  pose proof (obj_key_nsp _ _ _ _ _ E) as NS. destruct OK as (W2 & L2 & b1 & E1 & (w1 & lit & w2 & w3 & H1 & SL & H3 & H4 & E2)).
  split; [exact W2|]. split; [lia|]. split; [exact NS|].
  set (u := if first then [] else w ++ [44]).
  assert (SW : sepw first u) by (destruct first; [left; auto|right; split; [reflexivity|exists w; auto]]).
  assert (EB : skip_spaces (u ++ w1 ++ lit ++ w2 ++ 58 :: w3 ++ b') = skip_spaces b).
  { rewrite <- E2. unfold u. destruct first; cbn [app] in E1 |- *.
    - rewrite <- E1. destruct (skip_spaces_split b) as (_ & _ & _ & NB). apply skip_spaces_nsp, NB.
    - rewrite <- app_assoc. cbn [app]. rewrite skip_spaces_ws by exact Ww. rewrite <- E1. destruct (skip_spaces_split b) as (_ & _ & _ & NB). apply skip_spaces_nsp, NB. }
  exists (if first then w ++ w1 else w ++ 44 :: w1), lit, w2, w3. split.
  { destruct first; cbn [lead]; [apply ws_app; assumption|]. exists w, w1. auto. }
  split; [exact SL|]. split; [exact H3|]. split; [exact H4|]. split.
  { rewrite Eb, E1, E2. destruct first; appn; reflexivity. }
  destruct (KM lit SL (w2 ++ 58 :: w3 ++ b')) as [(k1 & K1 & K2 & _)|(r1 & e & k1 & K1 & _)].
  - destruct (obj_key_ok deck first u w1 lit w2 w3 b' k1 SW H1 SL H3 H4 NS K1) as [_ C2]. rewrite EB, E in C2. injection C2 as <-. exact K2.
  - destruct (obj_key_fail deck first u w1 lit (w2 ++ 58 :: w3 ++ b') r1 e k1 SW H1 SL K1) as [_ C2]. rewrite EB, E in C2. discriminate C2.
Qed.
(** A key that is there. *)
Lemma obj_key_lead {K} (deck : bytes -> dres K) first w lit w2 w3 s k : lead first w -> string_lit lit -> ws w2 -> ws w3 -> nsp s ->
  deck (lit ++ w2 ++ 58 :: w3 ++ s) = DR (w2 ++ 58 :: w3 ++ s) None k ->
  obj_key deck first (skip_spaces (w ++ lit ++ w2 ++ 58 :: w3 ++ s)) = inr (s, k).
Proof.
  intros LE SL W2 W3 NS KD. destruct (lead_sepw first w LE) as (u & w1 & SW & W1 & ->).
  destruct (obj_key_ok deck first u w1 lit w2 w3 s k SW W1 SL W2 W3 NS KD) as [_ C2]. rewrite <- app_assoc. exact C2.
Qed.

(** * Maps *)
Section Map.
Context {K A : Type} (eqb : K -> K -> bool) (deck : bytes -> dres K) (D : bytes -> A -> dres A) (R : node -> A -> A -> Prop)
  (T : bytes -> bytes -> A -> A -> Prop) (z : A) (keym : bytes -> K -> Prop) (inp : bytes) (N : nat).
Hypothesis WI : wf inp.
Hypothesis HT : forall b r y, wf b -> nsp b -> (length b < N)%nat -> D b z = DR r None y -> T b r z y /\ wf r /\ (length r < length b)%nat.
Hypothesis HM : forall nd, jnode nd -> (length (ntext nd) < N)%nat -> meets D R nd z.
Hypothesis HK : key_takes deck.
Hypothesis KM : forall lit, string_lit lit -> key_meets deck keym lit.

Lemma stuck_key first b r e : wf b -> (length b < N)%nat -> (match skip_spaces b with c :: _ => c =? 125 | [] => false end) = false ->
  (obj_key deck first (skip_spaces b) = inl (r, e) \/
   exists b2 k, obj_key deck first (skip_spaces b) = inr (b2, k) /\ d_err (D b2 z) <> None) -> stuck R z keym first b.
Proof.
  intros W LN C H. split.
  - apply no_lead; [|reflexivity]. intros t E. rewrite E in C. discriminate C.
  - intros w lit w2 w3 v r0 k y LE SL W2 W3 KY J CU -> RV. destruct (node_start v J) as (S1 & _ & S3 & _).
    assert (NS := nsp_app _ r0 S1 S3). destruct (KM lit SL (w2 ++ 58 :: w3 ++ ntext v ++ r0)) as [(k1 & K1 & K2 & K3)|(r1 & e1 & k1 & K1 & _ & K3)]; [|exact (K3 _ KY)].
    pose proof (obj_key_lead deck first w lit w2 w3 (ntext v ++ r0) k1 LE SL W2 W3 NS K1) as C2. rewrite C2 in H.
    destruct H as [H|(b2 & k2 & H & HE)]; [discriminate|]. injection H as <- <-.
    assert (LV : (length (ntext v) < N)%nat) by (rewrite !app_length in LN; cbn [length] in LN; rewrite !app_length in LN; lia).
    destruct (HM v J LV r0 (apart_stops _ _ CU)) as [(r1 & y1 & E1 & _)|(r1 & e1 & y1 & E1 & _ & E3)]; [rewrite E1 in HE; elim HE; reflexivity|exact (E3 _ RV)].
Qed.
Lemma map_loop_left fresh k : forall first b m, wf b -> (length b < k)%nat -> (length b < N)%nat ->
  d_err (map_loop eqb deck D z inp fresh k first b m) <> None ->
  exists kvs b1, entries_read T z keym first b kvs b1 /\ stuck R z keym (first && none kvs) b1 /\
    d_val (map_loop eqb deck D z inp fresh k first b m) = if fresh then None else Some (add_all eqb kvs m).
Proof.
  induction k as [|k IH]; intros first b m W LK LN HE; [lia|]. cbn [map_loop] in *. cbv zeta in *.
  destruct (match skip_spaces b with c :: _ => c =? 125 | [] => false end) eqn:C; [elim HE; reflexivity|].
  destruct (obj_key deck first (skip_spaces b)) as [[r e]|[b2 key]] eqn:OK.
  - exists [], b. split; [constructor|]. split; [rewrite andb_true_r; apply (stuck_key first b r e W LN C); auto|reflexivity].
  - destruct (obj_key_inr deck keym first b b2 key W HK KM OK) as (W2 & L2 & N2 & w & lit & w2 & w3 & LE & SL & H3 & H4 & EB & KY).
    destruct (D b2 z) as [r [e|] y] eqn:ED; cbn [d_err d_rest d_val] in *.
    + exists [], b. split; [constructor|]. split; [|rewrite elem_err_val; reflexivity]. rewrite andb_true_r. apply (stuck_key first b [] ESyntax W LN C). right. exists b2, key. split; [exact OK|rewrite ED; discriminate].
    + destruct (HT b2 r y W2 N2 ltac:(lia) ED) as (TT & Wr & Lr). destruct (IH false r (map_set eqb key y m) Wr ltac:(lia) ltac:(lia) HE) as (kvs & b1 & H5 & H6 & H7).
      exists ((key, y) :: kvs), b1. split; [rewrite EB; econstructor; eassumption|]. split; [rewrite andb_false_r; exact H6|]. exact H7.
Qed.
Lemma decode_map_left s x : inp = 123 :: s -> s <> [] -> (length s < N)%nat ->
  d_err (decode_map eqb deck D z (123 :: s) x) <> None -> map_left R T z keym eqb s x (d_val (decode_map eqb deck D z (123 :: s) x)).
Proof.
  intros EI NS LS. unfold decode_map. change (has_null_prefix (123 :: s)) with false. cbv iota.
  replace (Nat.ltb (length (123 :: s)) 2) with false by (symmetry; apply Nat.ltb_ge; destruct s; [congruence|cbn [length]; lia]).
  rewrite Z.eqb_refl, <- EI. assert (W : wf s) by (rewrite EI in WI; apply wf_cons in WI; apply WI). intros HE.
  destruct (map_loop_left _ (S (length inp)) true s _ W ltac:(rewrite EI; cbn [length]; lia) LS HE) as (kvs & b1 & H1 & H2 & H3). rewrite H3.
  cbn [andb] in H2. pose proof (ml R T z keym eqb s x kvs b1 H1 H2) as H. destruct x; exact H.
Qed.
End Map.

(** * Structs *)
Section Struct.
Context {A : Type} (look : bytes -> option (bytes -> A -> dres A)) (dis : bool) (M : bytes -> bytes -> bytes -> A -> A -> Prop) (inp : bytes) (N : nat).
Hypothesis WI : wf inp.
Hypothesis HT : forall k D b x r y, look k = Some D -> wf b -> nsp b -> (length b < N)%nat -> D b x = DR r None y ->
  M k b r x y /\ wf r /\ (length r < length b)%nat.
Hypothesis HU : forall k b x v r, look k = None -> dis = false -> wf b -> parseValue b = POk v r -> M k b r x x.

Lemma deck_name_meets lit : string_lit lit -> key_meets deck_name (fun lit k => str_means lit k) lit.
Proof.
  intros SL r. left. exists (str_text lit). unfold deck_name. destruct (string_lit_unquote lit r SL) as [i ->]. split; [reflexivity|].
  split; [apply str_text_means, SL|]. intros k' K'. apply str_means_text; assumption.
Qed.
Definition no_key (first : bool) (b : bytes) : Prop :=
  (forall w r, ws w -> b <> w ++ 125 :: r) /\
  (forall w lit w2 r, lead first w -> string_lit lit -> ws w2 -> b <> w ++ lit ++ w2 ++ 58 :: r).
Definition struct_ends first b x (z : A) : Prop :=
  exists y last b0, fields_read M first b x y last b0 /\
  ((no_key last b0 /\ z = y) \/
   exists w lit k w2 w3 b1, b0 = w ++ lit ++ w2 ++ 58 :: w3 ++ b1 /\ lead last w /\ string_lit lit /\ str_means lit k /\ ws w2 /\ ws w3 /\
     wf b1 /\ nsp b1 /\ (length b1 < length b)%nat /\
     match look k with
     | None => (dis = true \/ exists r e, parseValue b1 = PErr r e) /\ z = y
     | Some D => d_err (D b1 y) <> None /\ z = d_val (D b1 y)
     end).
Lemma struct_loop_left k : forall first b x, wf b -> (length b < k)%nat -> (length b < N)%nat ->
  d_err (struct_loop look dis inp k first b x) <> None -> struct_ends first b x (d_val (struct_loop look dis inp k first b x)).
Proof.
  induction k as [|k IH]; intros first b x W LK LN HE; [lia|]. cbn [struct_loop] in *. cbv zeta in *.
  change (fun b0 : bytes => match parse_string_unquote b0 [] with QOk s q1 _ => DR q1 None s | QErr q2 e => DR q2 (Some e) [] | QPanic => DR b0 (Some EPanicked) [] | QFuel => DR b0 (Some EFuel) [] end) with deck_name in *.
  destruct (match skip_spaces b with c :: _ => c =? 125 | [] => false end) eqn:C; [elim HE; reflexivity|].
  destruct (obj_key deck_name first (skip_spaces b)) as [[r e]|[b2 key]] eqn:OK.
  - exists x, first, b. split; [constructor|]. left. split; [|reflexivity]. split.
    + apply no_lead; [|reflexivity]. intros t E. rewrite E in C. discriminate C.
    + intros w lit w2 r0 LE SL W2 EB. destruct (skip_spaces_split r0) as (w3 & W3 & E3 & N3).
      assert (KD : deck_name (lit ++ w2 ++ 58 :: w3 ++ skip_spaces r0) = DR (w2 ++ 58 :: w3 ++ skip_spaces r0) None (str_text lit)).
      { unfold deck_name. destruct (string_lit_unquote lit (w2 ++ 58 :: w3 ++ skip_spaces r0) SL) as [i ->]. reflexivity. }
      pose proof (obj_key_lead deck_name first w lit w2 w3 (skip_spaces r0) (str_text lit) LE SL W2 W3 N3 KD) as C2. rewrite <- E3, <- EB, OK in C2. discriminate C2.
  - destruct (obj_key_inr deck_name (fun lit k => str_means lit k) first b b2 key W deck_name_takes deck_name_meets OK) as (W2 & L2 & N2 & w & lit & w2 & w3 & LE & SL & H3 & H4 & EB & KY).
    assert (NEXT : forall r y, wf r -> (length r < length b2)%nat -> M key b2 r x y -> d_err (struct_loop look dis inp k false r y) <> None ->
      struct_ends first b x (d_val (struct_loop look dis inp k false r y))).
    { clear HE. intros r y Wr Lr MM HE. destruct (IH false r y Wr ltac:(lia) ltac:(lia) HE) as (z & last & b0 & F1 & F2).
      exists z, last, b0. split; [rewrite EB; econstructor; eassumption|]. destruct F2 as [F2|(u & lit' & k' & u2 & u3 & b1 & G1 & G2 & G3 & G4 & G5 & G6 & G7 & G8 & G9 & G10)]; [left; exact F2|right].
      exists u, lit', k', u2, u3, b1. repeat (split; [first [assumption|lia]|]). assumption. }
    assert (HERE : forall z, match look key with
       | None => (dis = true \/ exists r e, parseValue b2 = PErr r e) /\ z = x
       | Some D => d_err (D b2 x) <> None /\ z = d_val (D b2 x) end -> struct_ends first b x z).
    { intros z H. exists x, first, b. split; [constructor|]. right. exists w, lit, key, w2, w3, b2. repeat (split; [assumption|]). exact H. }
    destruct (look key) as [D|] eqn:LO.
    + destruct (D b2 x) as [r [e|] y] eqn:ED; cbn [d_err d_rest d_val] in *.
      * rewrite elem_err_val. apply HERE. split; [discriminate|reflexivity].
      * destruct (HT key D b2 x r y LO W2 N2 ltac:(lia) ED) as (MM & Wr & Lr). apply NEXT; assumption.
    + destruct dis eqn:DI; [apply HERE; auto|]. pose proof (parse_takes b2 W2) as PT. destruct (parseValue b2) as [v r|r e] eqn:PV.
      * destruct PT as (_ & Wr & Lr & _). apply NEXT; [exact Wr|exact Lr| |exact HE]. eapply HU; [exact LO|reflexivity|exact W2|exact PV].
      * apply HERE. split; [right; eauto|reflexivity].
Qed.
Lemma decode_struct_left s x : inp = 123 :: s -> s <> [] -> (length s < N)%nat ->
  d_err (decode_struct look dis (123 :: s) x) <> None -> struct_ends true s x (d_val (decode_struct look dis (123 :: s) x)).
Proof.
  intros EI NS LS. unfold decode_struct. change (has_null_prefix (123 :: s)) with false. cbv iota.
  replace (Nat.ltb (length (123 :: s)) 2) with false by (symmetry; apply Nat.ltb_ge; destruct s; [congruence|cbn [length]; lia]).
  rewrite Z.eqb_refl, <- EI. assert (W : wf s) by (rewrite EI in WI; apply wf_cons in WI; apply WI). intros HE.
  apply struct_loop_left; [exact W|rewrite EI; cbn [length]; lia|exact LS|exact HE].
Qed.
End Struct.

(** * What no key names *)
Section Unnamed.
Context (V : tenv) (F : dflags) (i : nat) {A : Type} (look : bytes -> option (bytes -> A -> dres A)) (dis : bool) (Q : A -> Prop) (inp : bytes) (N : nat).
Hypothesis HT : forall k D b x r y, look k = Some D -> wf b -> nsp b -> (length b < N)%nat -> D b x = DR r None y ->
  (exists s v w, member_text V F i k s v /\ ws w /\ b = s ++ w ++ r) /\ wf r /\ (length r < length b)%nat.

Lemma struct_loop_unnamed k : forall first b x, wf b -> (length b < N)%nat ->
  (forall key D c y, member_key V F i first b key -> look key = Some D -> Q y -> Q (d_val (D c y))) ->
  Q x -> Q (d_val (struct_loop look dis inp k first b x)).
Proof.
  induction k as [|k IH]; intros first b x W LN HQ QX; [exact QX|]. cbn [struct_loop]. cbv zeta.
  change (fun b0 : bytes => match parse_string_unquote b0 [] with QOk s q1 _ => DR q1 None s | QErr q2 e => DR q2 (Some e) [] | QPanic => DR b0 (Some EPanicked) [] | QFuel => DR b0 (Some EFuel) [] end) with deck_name.
  destruct (match skip_spaces b with c :: _ => c =? 125 | [] => false end) eqn:C; [exact QX|].
  destruct (obj_key deck_name first (skip_spaces b)) as [[r e]|[b2 key]] eqn:OK; [exact QX|].
  destruct (obj_key_inr deck_name (fun lit k => str_means lit k) first b b2 key W deck_name_takes (fun lit => deck_name_meets lit) OK) as (W2 & L2 & N2 & w & lit & w2 & w3 & LE & SL & H3 & H4 & EB & KY).
  assert (HERE : member_key V F i first b key) by (rewrite EB; econstructor; eassumption).
  assert (NEXT : forall r y, wf r -> (length r < length b2)%nat -> (exists s v w, member_text V F i key s v /\ ws w /\ b2 = s ++ w ++ r) -> Q y ->
    Q (d_val (struct_loop look dis inp k false r y))).
  { intros r y Wr Lr (s & v & w4 & J & W4 & E2) QY. apply IH; [exact Wr|lia| |exact QY]. intros key' D c y' MK. apply HQ. rewrite EB, E2. econstructor; eassumption. }
  destruct (look key) as [D|] eqn:LO.
  - destruct (D b2 x) as [r [e|] y] eqn:ED; cbn [d_err d_rest d_val] in *.
    + rewrite elem_err_val. pose proof (HQ key D b2 x HERE LO QX) as H. rewrite ED in H. exact H.
    + destruct (HT key D b2 x r y LO W2 N2 ltac:(lia) ED) as (VV & Wr & Lr). apply NEXT; [exact Wr|exact Lr|exact VV|].
      pose proof (HQ key D b2 x HERE LO QX) as H. rewrite ED in H. exact H.
  - destruct dis eqn:DI; [exact QX|]. pose proof (parse_takes b2 W2) as PT. destruct (parseValue b2) as [v r|r e] eqn:PV; [|exact QX].
    destruct PT as (_ & Wr & Lr & E & a & J). destruct (jvalue_node v a J) as (nd & <- & _ & JN). apply NEXT; [exact Wr|exact Lr| |exact QX].
    exists (ntext nd), nd, []. split; [left; auto|]. split; [constructor|exact E].
Qed.
End Unnamed.

(** * Types *)
Section Types.
Context (V : tenv) (F : dflags) (OK : env_ok V).
Notation dec_ty := (dec_ty V F).
Notation leaves := (leaves V F).
Notation took := (took V F).

Lemma in_err_val {A} b (x : A) : d_val (in_err b x) = x.
Proof. unfold in_err. destruct (input_error b). reflexivity. Qed.
Lemma type_error_val b x : d_val (decode_type_error b x) = x.
Proof. unfold decode_type_error. destruct (parseValue b); reflexivity. Qed.
Lemma value_took b r : nsp b -> value_read b r -> exists v w, jnode v /\ ws w /\ b = ntext v ++ w ++ r.
Proof.
  intros NS (w0 & s & a & w1 & W0 & J & W1 & E). destruct w0 as [|c w0]; [|elim (nsp_unspaced b NS w0 c _ W0 E)].
  destruct (jvalue_node s a J) as (v & <- & _ & JN). exists v, w1. auto.
Qed.

(** A number directly followed by something that looks as if it went on. *)
Definition local {A} (D : bytes -> A -> dres A) (x : A) : Prop :=
  forall s r y, number_lit s -> ~ num_stop r -> wf (s ++ r) -> D (s ++ r) x = DR r None y -> D s x = DR [] None y.
Lemma in_err_no {A} b (x y : A) r : in_err b x = DR r None y -> False.
Proof. unfold in_err. destruct (input_error b). discriminate. Qed.
Lemma local_parse s r : number_lit s -> wf (s ++ r) -> forall v, parseValue (s ++ r) = POk v r -> v = s /\ parseValue s = POk s [].
Proof.
  intros NL W v E. destruct (parseValue_sound _ _ _ W E) as [E1 _]. apply app_inv_tail in E1 as ->. split; [reflexivity|].
  rewrite <- (app_nil_r v) at 1. apply parseValue_complete with (a := JNum v); [constructor; exact NL|exact I].
Qed.
Lemma local_number s r : number_lit s -> forall v, parse_number (s ++ r) = POk v r -> v = s /\ parse_number s = POk s [].
Proof.
  intros NL v E. apply parse_number_sound in E as [E _]. apply app_inv_tail in E as ->. split; [reflexivity|].
  rewrite <- (app_nil_r v) at 1. apply parse_number_complete; [exact NL|exact I].
Qed.
Lemma d_map_inv {A B} (f : A -> B) d r o y : d_map f d = DR r o y -> exists z, d = DR r o z /\ y = f z.
Proof. destruct d as [r' o' z]. cbn. intros [= -> -> <-]. eauto. Qed.
Definition nstart (c : Z) : Prop := c = 45 \/ 48 <= c <= 57.
Lemma nstart_null c q : nstart c -> has_null_prefix (c :: q) = false.
Proof. intros H. unfold nstart in H. unfold has_null_prefix, lit_null. cbn [has_prefix]. destruct (110 =? c) eqn:Z; [zb; lia|reflexivity]. Qed.
Lemma nstart_unquote c q : nstart c -> exists r e, parse_string_unquote (c :: q) [] = QErr r e.
Proof. intros H. apply not_quote_unquote. unfold nstart in H. lia. Qed.
(** Decoders that do not take a number. *)
Definition nonum {A} (D : bytes -> A -> dres A) (x : A) : Prop := forall c q r y, nstart c -> D (c :: q) x = DR r None y -> False.
Lemma nonum_local {A} (D : bytes -> A -> dres A) x : nonum D x -> local D x.
Proof. intros H s r y NL _ _ E. destruct (number_head s NL) as (c & u & -> & Hc). elim (H c (u ++ r) r y ltac:(unfold nstart; lia) E). Qed.
Lemma bool_nonum x : nonum decode_bool x.
Proof.
  intros c q r y H. unfold nstart in H. unfold decode_bool. rewrite (nstart_null c q H). unfold has_true_prefix, has_false_prefix, lit_true, lit_false. cbn [has_prefix].
  destruct (116 =? c) eqn:Z1; [zb; lia|]. destruct (102 =? c) eqn:Z2; [zb; lia|]. apply in_err_no.
Qed.
Lemma string_nonum x : nonum decode_string x.
Proof.
  intros c q r y H. unfold decode_string. rewrite (nstart_null c q H). destruct (nstart_unquote c q H) as (r' & e & ->). unfold nstart in H.
  destruct (c =? cQUOTE) eqn:Z; [zb; lia|]. apply in_err_no.
Qed.
Lemma slice_nonum {A} (D : bytes -> A -> dres A) z x : nonum (decode_slice D z) x.
Proof.
  intros c q r y H. unfold decode_slice. rewrite (nstart_null c q H). destruct (Nat.ltb _ 2); [apply in_err_no|]. unfold nstart in H.
  destruct (c =? cLBRACK) eqn:Z; [zb; lia|]. apply in_err_no.
Qed.
Lemma map_nonum {K A} eqb (deck : bytes -> dres K) (D : bytes -> A -> dres A) z x : nonum (decode_map eqb deck D z) x.
Proof.
  intros c q r y H. unfold decode_map. rewrite (nstart_null c q H). destruct (Nat.ltb _ 2); [apply in_err_no|]. unfold nstart in H.
  destruct (c =? cLBRACE) eqn:Z; [zb; lia|]. apply in_err_no.
Qed.
Lemma struct_nonum {A} look dis (x : A) : nonum (decode_struct look dis) x.
Proof.
  intros c q r y H. unfold decode_struct. rewrite (nstart_null c q H). destruct (Nat.ltb _ 2); [apply in_err_no|]. unfold nstart in H.
  destruct (c =? cLBRACE) eqn:Z; [zb; lia|]. apply in_err_no.
Qed.
Lemma quoted_nonum {A} (prs : bytes -> option A) x : nonum (decode_quoted prs) x.
Proof.
  intros c q r y H. unfold decode_quoted. destruct (Nat.ltb _ 2); [apply in_err_no|]. unfold nstart in H.
  destruct (c =? cQUOTE) eqn:Z; [zb; lia|]. apply in_err_no.
Qed.
Lemma bytes_nonum x : nonum (decode_bytes V) x.
Proof.
  intros c q r y H. unfold decode_bytes. rewrite (nstart_null c q H). destruct (Nat.ltb _ 2); [apply in_err_no|]. unfold nstart in H.
  destruct (c =? cQUOTE) eqn:Z; [zb; lia|]. destruct (c =? cLBRACK) eqn:Z2; [zb; lia|]. apply in_err_no.
Qed.
Lemma int_local it x : local (decode_int it) x.
Proof.
  intros s r y NL NS _. unfold decode_int. destruct (has_null_prefix (s ++ r)) eqn:N.
  - destruct (number_head s NL) as (c & u & -> & Hc). cbn [app] in N. rewrite nstart_null in N by (unfold nstart; lia). discriminate.
  - fold (parse_sint it (s ++ r)). destruct (parse_sint it (s ++ r)) as [v r'|r' e] eqn:E; [|discriminate]. destruct (sint_inv it _ _ _ E) as (_ & _ & NS' & _).
    destruct (out_of_range it v); [discriminate|]. intros [= -> _]. contradiction.
Qed.
Lemma float_local pf x : local (decode_float pf) x.
Proof.
  intros s r y NL NS _. destruct (number_head s NL) as (c & u & Es & Hc). unfold decode_float.
  rewrite Es. cbn [app]. rewrite !nstart_null by (unfold nstart; lia). change (c :: u ++ r) with ((c :: u) ++ r). rewrite <- Es.
  destruct (parse_number (s ++ r)) as [v r'|] eqn:E; [|intros X; elim (in_err_no _ _ _ _ X)]. destruct (pf v) eqn:P; [|intros X; elim (in_err_no _ _ _ _ X)].
  intros [= -> <-]. destruct (local_number s r NL v E) as [-> ->]. rewrite P. reflexivity.
Qed.
Lemma number_local x : local decode_number x.
Proof.
  intros s r y NL NS _. destruct (number_head s NL) as (c & u & Es & Hc). unfold decode_number.
  rewrite Es. cbn [app]. rewrite !nstart_null by (unfold nstart; lia). change (c :: u ++ r) with ((c :: u) ++ r). rewrite <- Es.
  destruct (parse_number (s ++ r)) as [v r'|] eqn:E; [|intros X; elim (in_err_no _ _ _ _ X)].
  intros [= -> <-]. destruct (local_number s r NL v E) as [-> ->]. reflexivity.
Qed.
Lemma iface_local un pf x : local (decode_interface un pf) x.
Proof.
  intros s r y NL NS W. unfold decode_interface. destruct (parseValue (s ++ r)) as [v r'|r' e] eqn:E.
  - assert (P2 : parseValue v = POk v []).
    { destruct (parseValue_sound _ _ _ W E) as [_ [a J]]. rewrite <- (app_nil_r v) at 1. apply parseValue_complete with (a := a); [exact J|exact I]. }
    destruct (iface_split un pf (length (s ++ r)) (s ++ r) v r' x E P2) as (o & z & E3 & E4). rewrite E3. intros [= -> -> ->].
    destruct (local_parse s r NL W v E) as [-> _].
    pose proof (dec_iface_ok un pf (S (length (s ++ r))) s (JNum s) [] x ltac:(constructor; exact NL) ltac:(rewrite app_length; lia) (fun _ => I)) as E5.
    pose proof (dec_iface_ok un pf (S (length s)) s (JNum s) [] x ltac:(constructor; exact NL) ltac:(lia) (fun _ => I)) as E6.
    rewrite app_nil_r in E5, E6. rewrite E4 in E5. rewrite E6. symmetry. exact E5.
  - cbn [dec_iface]. rewrite E. discriminate.
Qed.
Lemma raw_local x : local decode_raw x.
Proof.
  intros s r y NL NS W. unfold decode_raw. destruct (parseValue (s ++ r)) as [v r'|r' e] eqn:E; [|intros X; elim (in_err_no _ _ _ _ X)].
  intros [= -> <-]. destruct (local_parse s r NL W v E) as [-> ->]. reflexivity.
Qed.
Lemma duration_local x : local (decode_duration V) x.
Proof.
  intros s r y NL NS W. destruct (number_head s NL) as (c & u & Es & Hc). unfold decode_duration. rewrite Es. cbn [app]. rewrite !nstart_null by (unfold nstart; lia).
  destruct (c =? cQUOTE) eqn:Z; [zb; lia|]. cbn [negb].
  destruct (parse_int (c :: u ++ r)) as [v r'|] eqn:E; [|intros X; elim (in_err_no _ _ _ _ X)]. intros [= -> _].
  destruct (sint_inv TInt64 _ _ _ E) as (_ & _ & NS' & _). contradiction.
Qed.
Lemma local_map {A} (D : bytes -> A -> dres A) (f : A -> mem) x : local D x -> forall s r y, number_lit s -> ~ num_stop r -> wf (s ++ r) ->
  d_map f (D (s ++ r) x) = DR r None y -> d_map f (D s x) = DR [] None y.
Proof. intros H s r y NL NS W E. apply d_map_inv in E as (z & E & ->). rewrite (H s r z NL NS W E). reflexivity. Qed.
Lemma number_rest v w : number_lit (v ++ w) -> ws w -> w = [].
Proof.
  intros NL W. destruct W as [|c w X _]; [reflexivity|]. pose proof (ColorFacts.number_chars _ NL) as NC. apply Forall_app in NC as [_ NC]. inversion NC as [|? ? Y _]; subst. lia.
Qed.
Lemma num_null s q : number_lit s -> has_null_prefix (s ++ q) = false.
Proof. intros NL. destruct (number_head s NL) as (c & u & -> & Hc). apply nstart_null. unfold nstart. lia. Qed.
Lemma num_null0 s : number_lit s -> has_null_prefix s = false.
Proof. intros NL. rewrite <- (app_nil_r s). apply num_null, NL. Qed.
Lemma type_error_no b x r y : decode_type_error b x = DR r None y -> False.
Proof. unfold decode_type_error. destruct (parseValue b); discriminate. Qed.
Lemma user_local u x : local (decode_json_user V u) x.
Proof.
  intros s r y NL NS W. unfold decode_json_user. destruct (parseValue (s ++ r)) as [v r'|r' e] eqn:E; [|discriminate]. intros H.
  assert (r' = r) as -> by (destruct (rv_null v); [congruence|destruct (v_json V u v x); congruence]). destruct (local_parse s r NL W v E) as [-> ->].
  destruct (rv_null s); [congruence|]. destruct (v_json V u s x); congruence.
Qed.
Lemma user_text_local u x : local (decode_text_user V u) x.
Proof.
  intros s r y NL NS W. unfold decode_text_user. destruct (parseValue (s ++ r)) as [v r'|r' e] eqn:E; [|discriminate]. intros H.
  assert (r' = r) as ->.
  { revert H. repeat match goal with |- context [match ?q with _ => _ end] => lazymatch q with v => fail | _ => destruct q end end; try discriminate; congruence. }
  destruct (local_parse s r NL W v E) as [-> ->].
  revert H. repeat match goal with |- context [match ?q with _ => _ end] => lazymatch q with s => fail | _ => destruct q end end; try discriminate; congruence.
Qed.
Lemma dec_local n t : flat t -> forall x, local (dec_ty n t) x.
Proof.
  induction t; cbn [flat]; intros FL x s r y NL NS W; try contradiction; rewrite !dec_ty_eq;
    try solve [destruct n as [|n']; [discriminate|]; destruct x; try discriminate; exact (nonum_local _ _ (struct_nonum _ _ _) s r y NL NS W)]; try (destruct x; try discriminate;
    try (refine (local_map _ _ _ _ s r y NL NS W);
         first [apply nonum_local, bool_nonum | apply int_local | apply float_local | apply number_local | apply nonum_local, string_nonum | apply nonum_local, bytes_nonum
               | apply duration_local | apply iface_local | apply raw_local | apply nonum_local, slice_nonum | apply nonum_local, map_nonum | apply user_local | apply user_text_local])).
  - refine (local_map _ _ _ _ s r y NL NS W). apply nonum_local. intros c q r0 y0 H. unfold decode_time. rewrite (nstart_null c q H). apply quoted_nonum, H.
  - rewrite num_null, num_null0 by exact NL. destruct v; try (intros E; elim (type_error_no _ _ _ _ E)). destruct empty; [|intros E; elim (type_error_no _ _ _ _ E)].
    intros E. apply d_map_inv in E as (z & E & ->). unfold parse_with in *. cbv zeta in *.
    assert (NSP : forall q, skip_spaces (s ++ q) = s ++ q).
    { intros q. apply skip_spaces_nsp. destruct (number_head s NL) as (c & u & -> & Hc). cbn. unfold is_space. repeat (apply orb_false_intro); apply Z.eqb_neq; lia. }
    assert (NSP0 := NSP []). rewrite app_nil_r in NSP0. rewrite NSP in E. rewrite NSP0.
    destruct (decode_interface (d_usenum F) (v_float V true) (s ++ r) JVNull) as [r1 o z1] eqn:D. cbn [d_rest d_err d_val] in E. injection E as E -> ->.
    assert (r1 = r) as ->.
    { pose proof (iface_takes (d_usenum F) (v_float V true) True (s ++ r) JVNull W) as T. unfold takes in T. rewrite D in T. cbn [d_err d_rest] in T.
      destruct T as (_ & _ & VR). destruct (VR I) as (w0 & v & a & w1 & W0 & J & W1 & E1). destruct (skip_spaces_split r1) as (w & Ww & E2 & _). rewrite E in E2.
      rewrite E2 in E1. repeat rewrite app_assoc in E1. apply app_inv_tail in E1. repeat rewrite <- app_assoc in E1.
      assert (WE : w1 ++ w = []) by (apply (number_rest (w0 ++ v)); [rewrite <- app_assoc, <- E1; exact NL|apply Forall_app; auto]).
      apply app_eq_nil in WE as [_ ->]. exact E2. }
    rewrite (iface_local _ _ _ s r z NL NS W D). reflexivity.
  - rewrite num_null, num_null0 by exact NL. refine (local_map (dec_ty n t) _ _ _ s r y NL NS W). apply IHt, FL.
  - intros E. elim (type_error_no _ _ _ _ E).
Qed.
Lemma dec_num_stop r : num_stop r \/ ~ num_stop r.
Proof. destruct r as [|c r]; [left; exact I|]. cbn. destruct (num_cont c); [right; discriminate|left; reflexivity]. Qed.
(** A decoder that meets a specification takes the value at the start of the text. *)
Lemma meets_took {A} (D : bytes -> A -> dres A) (R : node -> A -> A -> Prop) v w r x y : jnode v -> ws w -> meets D R v x -> local D x -> wf (ntext v ++ w ++ r) ->
  D (ntext v ++ w ++ r) x = DR r None y -> R v x y.
Proof.
  intros J Ww M LO W E.
  assert (C : stops v (w ++ r) \/ w = [] /\ nshape v = HNum /\ ~ num_stop r).
  { unfold stops. destruct (nshape v); auto. destruct w as [|c w].
    - cbn [app]. destruct (dec_num_stop r); auto.
    - left. change ((c :: w) ++ r) with ((c :: w) ++ r). inversion Ww as [|? ? X _]; subst. cbn. destruct X as [->|[->|[->| ->]]]; reflexivity. }
  destruct C as [C|(-> & S & C)].
  - destruct (M (w ++ r) C) as [(r1 & y1 & E1 & _ & E3 & _)|(r1 & e & y1 & E1 & _)]; rewrite E in E1; [|discriminate]. injection E1 as _ <-. exact E3.
  - cbn [app] in *. pose proof (LO (ntext v) r y (num_node_inv v J S) C W E) as E0.
    destruct (M [] (stop_any v [] I)) as [(r1 & y1 & E1 & _ & E3 & _)|(r1 & e & y1 & E1 & _)]; rewrite app_nil_r, E0 in E1; [|discriminate]. injection E1 as _ <-. exact E3.
Qed.
Lemma dec_took n t b x r y : wf b -> nsp b -> (length b < n)%nat -> dec_ty n t b x = DR r None y ->
  took t b r x y /\ wf r /\ (length r < length b)%nat.
Proof.
  intros W NS L E. pose proof (dec_ty_takes V F OK n t b x W L) as T. unfold takes in T. rewrite E in T. cbn [d_err d_rest] in T.
  destruct T as (Wr & Lr & _). split; [|auto]. destruct (dec_ty_mends V F OK n t b x W NS L r y E) as (w0 & s & w1 & v & A1 & A2 & A3 & A4 & A5 & A6).
  exists s, v, w1. split; [exact A4|]. split; [exact A2|]. split; [apply (nsp_start b w0); assumption|exact A6].
Qed.
Lemma dec_unfit n t b x : (length b < n)%nat -> d_err (dec_ty n t b x) <> None -> unfit V F t b x.
Proof.
  intros L HE v r y J C -> ST. rewrite app_length in L.
  destruct (dec_ty_meets V F OK n t v x J ltac:(lia) r (apart_stops _ _ C)) as [(r1 & y1 & E1 & _)|(r1 & e & y1 & E1 & _ & E3)]; [rewrite E1 in HE; elim HE; reflexivity|exact (E3 _ ST)].
Qed.

(** The element decoders of the special maps. *)
Lemma quoted_val {A} (p : bytes -> option A) b x : d_err (decode_quoted p b x) <> None -> d_val (decode_quoted p b x) = x.
Proof.
  unfold decode_quoted. destruct (Nat.ltb (length b) 2); [intros _; apply in_err_val|]. destruct b as [|c b]; [intros _; apply in_err_val|].
  destruct (negb (c =? cQUOTE)); [intros _; apply in_err_val|]. destruct (index_byte cQUOTE b) as [i|]; [|intros _; apply in_err_val].
  destruct (p (firstn i b)); [intros H; elim H; reflexivity|intros _; apply in_err_val].
Qed.
Lemma iface_null_left un pf n b x : d_err (dec_iface un pf n b x) <> None -> d_val (dec_iface un pf n b x) = JVNull.
Proof.
  destruct n as [|n]; [reflexivity|]. cbn [dec_iface]. destruct (parseValue b) as [v b'|r e]; [|reflexivity]. destruct v as [|c v]; [reflexivity|].
  assert (H : forall d : dres jv, let q := match d_err d with Some e => DR b' (Some e) JVNull | None => match skip_spaces (d_rest d) with [] => DR b' None (d_val d) | _ => DR b' (Some ESyntax) JVNull end end in
    d_err q <> None -> d_val q = JVNull).
  { intros [r0 [e|] y]; cbn [d_err d_rest d_val]; [reflexivity|]. destruct (skip_spaces r0); [intros H; elim H; reflexivity|reflexivity]. }
  repeat match goal with |- context [if ?q then _ else _] => match q with c =? _ => destruct q | _ || _ => destruct q | is_num_start _ => destruct q | un => destruct q end end;
    try apply H; reflexivity.
Qed.
Lemma keeps_val n t b x : keeps t -> ~ opened t b -> d_err (dec_ty n t b x) <> None -> d_val (dec_ty n t b x) = x.
Proof.
  intros K NO. rewrite dec_ty_eq. destruct t; cbn [keeps] in K; try contradiction; try (destruct n as [|n]; [intros _; reflexivity|]); destruct x; try (intros _; reflexivity); intros HE; cbn [d_map d_err d_val] in *; try (f_equal; revert HE).
  - unfold decode_bool. destruct (has_true_prefix b); [intros H; elim H; reflexivity|]. destruct (has_false_prefix b); [intros H; elim H; reflexivity|]. destruct (has_null_prefix b); [intros H; elim H; reflexivity|]. intros _; apply in_err_val.
  - unfold decode_int. destruct (has_null_prefix b); [intros H; elim H; reflexivity|]. destruct (if signed t then parse_int b else parse_uint b); [|reflexivity].
    destruct (out_of_range t v); [reflexivity|]. intros H; elim H; reflexivity.
  - unfold decode_float. destruct (has_null_prefix b); [intros H; elim H; reflexivity|]. destruct (parse_number b); [|intros _; apply in_err_val].
    destruct (v_float V wide v); [intros H; elim H; reflexivity|intros _; apply in_err_val].
  - unfold decode_number. destruct (has_null_prefix b); [intros H; elim H; reflexivity|]. destruct (parse_number b); [intros H; elim H; reflexivity|intros _; apply in_err_val].
  - unfold decode_string. destruct (has_null_prefix b); [intros H; elim H; reflexivity|]. destruct (parse_string_unquote b []); try reflexivity; [intros H; elim H; reflexivity|].
    destruct b as [|c b]; [intros _; apply in_err_val|]. destruct (c =? cQUOTE); [reflexivity|intros _; apply in_err_val].
  - unfold decode_bytes. destruct (has_null_prefix b); [intros H; elim H; reflexivity|]. destruct (Nat.ltb (length b) 2) eqn:L2; [intros _; apply in_err_val|].
    destruct b as [|c b]; [intros _; apply in_err_val|]. destruct (negb (c =? cQUOTE)).
    + destruct (c =? cLBRACK) eqn:C; [|intros _; apply in_err_val]. exfalso. apply NO. apply Z.eqb_eq in C. subst c. destruct b; [discriminate L2|exact I].
    + destruct (parse_string_unquote (c :: b) []); try reflexivity; try (intros _; apply in_err_val). destruct (v_b64 V _); [intros H; elim H; reflexivity|reflexivity].
  - unfold decode_duration. destruct (has_null_prefix b); [intros H; elim H; reflexivity|]. destruct b as [|c b]; [apply quoted_val|]. destruct (negb (c =? cQUOTE)); [|apply quoted_val].
    destruct (parse_int (c :: b)); [intros H; elim H; reflexivity|intros _; apply in_err_val].
  - unfold decode_time. destruct (has_null_prefix b); [intros H; elim H; reflexivity|apply quoted_val].
  - destruct (has_null_prefix b); [intros H; elim H; reflexivity|].
    destruct v; try (intros _; apply type_error_val). destruct empty; [|intros _; apply type_error_val]. cbn [d_map d_err d_val]. intros HE. f_equal.
    unfold parse_with in *. cbn [d_err d_val] in *. apply iface_null_left, HE.
  - unfold decode_raw. destruct (parseValue b); [intros H; elim H; reflexivity|intros _; apply in_err_val].
  - destruct (Nat.eqb (length l) n0); [|reflexivity]. cbn [d_map d_err d_val]. intros HE. f_equal. revert HE. unfold decode_array.
    destruct (has_null_prefix b); [intros H; elim H; reflexivity|]. destruct (Nat.ltb (length b) 2) eqn:L2; [intros _; apply in_err_val|].
    destruct b as [|c b]; [intros _; apply in_err_val|]. destruct (c =? cLBRACK) eqn:C; [|intros _; apply in_err_val].
    exfalso. apply NO. apply Z.eqb_eq in C. subst c. destruct b; [discriminate L2|exact I].
  - unfold decode_slice. destruct (has_null_prefix b); [intros H; elim H; reflexivity|]. destruct (Nat.ltb (length b) 2) eqn:L2; [intros _; apply in_err_val|].
    destruct b as [|c b]; [intros _; apply in_err_val|]. destruct (c =? cLBRACK) eqn:C; [|intros _; apply in_err_val]. exfalso. apply NO. apply Z.eqb_eq in C. subst c. destruct b; [discriminate L2|exact I].
  - unfold decode_map. destruct (has_null_prefix b); [intros H; elim H; reflexivity|]. destruct (Nat.ltb (length b) 2) eqn:L2; [intros _; apply in_err_val|].
    destruct b as [|c b]; [intros _; apply in_err_val|]. destruct (c =? cLBRACE) eqn:C; [|intros _; apply in_err_val]. exfalso. apply NO. apply Z.eqb_eq in C. subst c. destruct b; [discriminate L2|exact I].
  - unfold decode_map. destruct (has_null_prefix b); [intros H; elim H; reflexivity|]. destruct (Nat.ltb (length b) 2) eqn:L2; [intros _; apply in_err_val|].
    destruct b as [|c b]; [intros _; apply in_err_val|]. destruct (c =? cLBRACE) eqn:C; [|intros _; apply in_err_val]. exfalso. apply NO. apply Z.eqb_eq in C. subst c. destruct b; [discriminate L2|exact I].
  - unfold decode_map. destruct (has_null_prefix b); [intros H; elim H; reflexivity|]. destruct (Nat.ltb (length b) 2) eqn:L2; [intros _; apply in_err_val|].
    destruct b as [|c b]; [intros _; apply in_err_val|]. destruct (c =? cLBRACE) eqn:C; [|intros _; apply in_err_val]. exfalso. apply NO. apply Z.eqb_eq in C. subst c. destruct b; [discriminate L2|exact I].
  - unfold decode_struct. destruct (has_null_prefix b); [intros H; elim H; reflexivity|]. destruct (Nat.ltb (length b) 2) eqn:L2; [intros _; apply in_err_val|].
    destruct b as [|c b]; [intros _; apply in_err_val|]. destruct (c =? cLBRACE) eqn:C; [|intros _; apply in_err_val]. exfalso. apply NO. apply Z.eqb_eq in C. subst c. destruct b; [discriminate L2|exact I].
  - intros _. apply type_error_val.
Qed.

(** Acting on a field. *)
Lemma on_path_left (D : bytes -> mem -> dres mem) (L : bytes -> mem -> mem -> Prop) b p : (forall x, d_err (D b x) <> None -> L b x (d_val (D b x))) ->
  forall m, d_err (on_path V p D b m) <> None -> path_left V L p b m (d_val (on_path V p D b m)).
Proof.
  intros HD. induction p as [|st p IH]; intros m HE; [constructor; apply HD, HE|].
  destruct st as [i|i s un]; cbn [on_path] in *.
  - destruct m; try (apply pl_wrong; intros; discriminate). destruct (nth_error l i) as [x|] eqn:E.
    + destruct (nth_error_split l i E) as (l1 & l2 & -> & <-). cbn [d_map d_err d_val] in *. rewrite set_nth_app. apply pl_in, IH, HE.
    + apply pl_wrong. intros l' y [= <-]. congruence.
  - destruct m; try (apply pl_wrong; intros; discriminate). destruct (nth_error l i) as [x|] eqn:E.
    + destruct x; try (apply pl_wrong; intros l' y [= <-]; congruence). destruct (nth_error_split l i E) as (l1 & l2 & -> & <-). destruct p0 as [x|].
      * cbn [d_map d_err d_val] in *. rewrite set_nth_app. apply pl_via, IH, HE.
      * destruct un; [apply pl_unexported|]. cbn [d_map d_err d_val] in *. rewrite set_nth_app. apply pl_new, IH, HE.
    + apply pl_wrong. intros l' y [= <-]. congruence.
Qed.
Lemma unquote_no_lit b r e : parse_string_unquote b [] = QErr r e -> forall lit r0, string_lit lit -> b <> lit ++ r0.
Proof. intros E lit r0 SL ->. destruct (string_lit_unquote lit r0 SL) as [i Q]. congruence. Qed.
Lemma from_string_left (D : bytes -> mem -> dres mem) (T : bytes -> bytes -> mem -> mem -> Prop) (L : bytes -> mem -> mem -> Prop) b x : wf b ->
  (forall s r y, wf s -> D s x = DR r None y -> T s r x y) -> (forall s, wf s -> d_err (D s x) <> None -> L s x (d_val (D s x))) ->
  d_err (decode_from_string D b x) <> None -> field_left QStr T L b x (d_val (decode_from_string D b x)).
Proof.
  intros W HT HL. unfold decode_from_string. destruct (has_null_prefix b) eqn:N.
  { pose proof (null_read b N) as E. rewrite E. intros HE. apply fl_null; [discriminate|]. apply HL; [rewrite <- E; exact W|exact HE]. }
  destruct (unquote_cases b W) as [(lit & r & i & SL & Eb & Q)|(r & Q)]; rewrite Q.
  - destruct (D (str_text lit) x) as [r1 [e|] y] eqn:ED; cbn [d_err d_rest d_val].
    + intros _. rewrite Eb. eapply fl_str; [reflexivity|exact SL|apply str_text_means, SL|]. pose proof (HL (str_text lit) (str_text_wf lit SL)) as H. rewrite ED in H. apply H. discriminate.
    + destruct (skip_spaces r1) eqn:SK; [intros H; elim H; reflexivity|]. intros _. cbn [d_val]. rewrite Eb. eapply fl_str_more; [reflexivity|exact SL|apply str_text_means, SL|apply (HT _ _ _ (str_text_wf lit SL) ED)|].
      intros WS. rewrite (ws_skip_nil r1 WS) in SK. discriminate SK.
  - intros _. unfold in_err. cbn. apply fl_kept; [discriminate|]. apply (unquote_no_lit b r ESyntax Q).
Qed.
Lemma from_string_int_left pf (D : bytes -> mem -> dres mem) (T : bytes -> bytes -> mem -> mem -> Prop) (L : bytes -> mem -> mem -> Prop) b x : wf b ->
  (forall s r y, wf s -> D s x = DR r None y -> T s r x y) -> (forall s, wf s -> d_err (D s x) <> None -> L s x (d_val (D s x))) ->
  d_err (decode_from_string_int pf D b x) <> None -> field_left QInt T L b x (d_val (decode_from_string_int pf D b x)).
Proof.
  intros W HT HL. unfold decode_from_string_int. destruct (has_null_prefix b) eqn:N.
  { pose proof (null_read b N) as E. rewrite E. intros HE. apply fl_null; [discriminate|]. apply HL; [rewrite <- E; exact W|exact HE]. }
  cbv zeta. set (q := match parse_string_unquote b [] with QOk _ _ _ => _ | _ => _ end).
  assert (HQ : (forall r, b <> 34 :: 34 :: r) -> d_err q <> None -> field_left QInt T L b x (d_val q)).
  { intros NE. unfold q. destruct (unquote_cases b W) as [(lit & r & i & SL & Eb & Q)|(r & Q)]; rewrite Q.
    - assert (NL : lit <> [34; 34]) by (intros ->; exact (NE r Eb)). pose proof (strip_wf _ (str_text_wf lit SL)) as WS.
      destruct (D (strip_zeroes (str_text lit)) x) as [r1 [e|] y] eqn:ED; cbn [d_err d_rest d_val].
      + intros _. assert (LL : L (strip_zeroes (str_text lit)) x y) by (pose proof (HL _ WS) as H; rewrite ED in H; apply H; discriminate).
        replace (d_val _) with y by (destruct e; reflexivity). rewrite Eb. eapply fl_int; [reflexivity|exact SL|exact NL|apply str_text_means, SL|apply unzeroed_strip|exact LL].
      + destruct r1 as [|c r1]; [intros H; elim H; reflexivity|]. intros _. cbn [d_val]. rewrite Eb.
        eapply fl_int_more; [reflexivity|exact SL|exact NL|apply str_text_means, SL|apply unzeroed_strip|apply (HT _ _ _ WS ED)|discriminate].
    - intros _. unfold in_err. cbn. apply fl_kept; [discriminate|]. apply (unquote_no_lit b r ESyntax Q). }
  clearbody q. destruct b as [|c b1]; [apply HQ; discriminate|]. destruct (c =? cQUOTE) eqn:C; cbn [negb].
  - apply Z.eqb_eq in C. subst c. destruct b1 as [|c1 b2]; [apply HQ; discriminate|]. destruct (c1 =? cQUOTE) eqn:C1.
    + apply Z.eqb_eq in C1. subst c1. intros _. cbn [d_val]. apply fl_empty. reflexivity.
    + apply HQ. intros r [= -> _]. discriminate C1.
  - assert (NL : forall lit r, string_lit lit -> c :: b1 <> lit ++ r).
    { intros lit r (body & -> & _) [= -> _]. discriminate C. }
    intros _. replace (d_val _) with x; [apply fl_kept; [discriminate|exact NL]|].
    destruct (parse_number (c :: b1)); [|reflexivity]. destruct (existsb _ v); [|reflexivity]. destruct (pf v); reflexivity.
Qed.

Lemma kept_left n t b x : keeps t -> ~ opened t b -> (forall v, jnode v -> (length (ntext v) <= length b)%nat -> meets (dec_ty n t) (stores V F t) v x) ->
  d_err (dec_ty n t b x) <> None -> leaves t b x (d_val (dec_ty n t b x)).
Proof.
  intros K NO HM HE. rewrite keeps_val by assumption. apply le_kept; [exact K|exact NO|]. intros v r y J C -> ST.
  destruct (HM v J ltac:(rewrite app_length; lia) r (apart_stops _ _ C)) as [(r1 & y1 & E1 & _)|(r1 & e & y1 & E1 & _ & E3)]; [rewrite E1 in HE; elim HE; reflexivity|exact (E3 _ ST)].
Qed.
Lemma json_left n u b x : wf b -> d_err (dec_ty n (YJSON u) b x) <> None -> leaves (YJSON u) b x (d_val (dec_ty n (YJSON u) b x)).
Proof.
  intros W. rewrite dec_ty_eq. destruct x; try (intros _; apply le_wrong; exact (fun H => H)). cbn [d_map d_err d_val].
  unfold decode_json_user. pose proof (parse_takes b W) as PT. destruct (parseValue b) as [v r|r e] eqn:PV.
  - destruct PT as (_ & _ & _ & -> & a & J). destruct (rv_null v) eqn:RN; [intros H; elim H; reflexivity|].
    destruct (jvalue_node v a J) as (nd & <- & _ & JN). destruct (v_json V u (ntext nd) s) as [[e|] y] eqn:E; cbn [d_err d_val]; [|intros H; elim H; reflexivity].
    intros _. eapply le_json; [exact JN| |exact E]. intros S. destruct JN; try discriminate S. discriminate RN.
  - intros _. cbn [d_val]. apply le_json_text. eapply parse_no_value, PV.
Qed.
Lemma text_left n u b x : wf b -> d_err (dec_ty n (YText u) b x) <> None -> leaves (YText u) b x (d_val (dec_ty n (YText u) b x)).
Proof.
  intros W. rewrite dec_ty_eq. destruct x; try (intros _; apply le_wrong; exact (fun H => H)). cbn [d_map d_err d_val].
  unfold decode_text_user. pose proof (parse_takes b W) as PT. destruct (parseValue b) as [v r|r e] eqn:PV.
  - destruct PT as (Wv & _ & _ & -> & a & J). destruct (jvalue_node v a J) as (nd & <- & _ & JN). destruct (rv_null (ntext nd)) eqn:RN.
    { assert (ntext nd = bs "null") as ->; [|intros H; elim H; reflexivity].
      destruct JN as [| | |s0 H|s0 H|w Ww|s0 l H|w Ww|s0 l H]; cbn [ntext] in *; try reflexivity; try discriminate RN.
      - destruct (number_head s0 H) as (c & t & -> & Hc). cbn in RN. apply Z.eqb_eq in RN. lia.
      - destruct H as (body & -> & _). discriminate RN. }
    destruct (rv_string (ntext nd)) eqn:RS.
    + assert (SL : string_lit (ntext nd)).
      { destruct JN as [| | |s0 H|s0 H|w Ww|s0 l H|w Ww|s0 l H]; cbn [ntext] in *; try discriminate RS; [|exact H].
        destruct (number_head s0 H) as (c & t & -> & Hc). cbn in RS. apply Z.eqb_eq in RS. lia. }
      destruct (string_lit_unquote (ntext nd) [] SL) as [i Q]. rewrite app_nil_r in Q. rewrite Q.
      destruct (v_text V u (str_text (ntext nd)) s) as [[e|] y] eqn:E; cbn [d_err d_val]; [|intros H; elim H; reflexivity].
      intros _. eapply le_text; [exact SL|apply str_text_means, SL|exact E].
    + intros _. cbn [d_val]. apply le_text_text. intros lit r0 (body & -> & SB) EL.
      destruct (node_head nd JN) as (c & t & EN & Hc). rewrite EN in EL, RS. cbn [app] in EL. injection EL as -> _. discriminate RS.
  - intros _. cbn [d_val]. apply le_text_text. intros lit r0 SL ->. rewrite (string_parse lit r0 SL) in PV. discriminate PV.
Qed.
Lemma ptr_left n e b x : (forall y, d_err (dec_ty n e b y) <> None -> leaves e b y (d_val (dec_ty n e b y))) ->
  d_err (dec_ty n (YPtr e) b x) <> None -> leaves (YPtr e) b x (d_val (dec_ty n (YPtr e) b x)).
Proof.
  intros H. rewrite dec_ty_eq. destruct x; try (intros _; apply le_wrong; exact (fun H => H)). destruct (has_null_prefix b).
  - assert (C : (forall (A : Type) (f : mem -> A) (g : A), match p, e with Some x, YPtr _ => f x | _, _ => g end = g) \/ exists x e', p = Some x /\ e = YPtr e') by (destruct p, e; eauto).
    destruct C as [C|(x & e' & -> & ->)]; [rewrite C; intros X; elim X; reflexivity|]. cbn [d_map d_err d_val]. intros HE. apply le_ptr. apply H, HE.
  - cbn [d_map d_err d_val]. intros HE. apply le_ptr, H, HE.
Qed.
Lemma quotable_left n t : quotable t -> forall b x, wf b -> d_err (dec_ty n t b x) <> None -> leaves t b x (d_val (dec_ty n t b x)).
Proof.
  intros Q. assert (Q' := Q). revert Q'. induction t; cbn [quotable]; try contradiction; intros _ b x W HE;
    try (apply kept_left; [exact I|exact (fun H => H)|intros v J _; apply quotable_meets; assumption|exact HE]).
  - apply ptr_left; [|exact HE]. intros y HE'. assert (QT : quotable t) by (cbn [quotable] in Q; destruct t; try contradiction; exact Q). apply IHt; assumption.
  - apply json_left; assumption.
  - apply text_left; assumption.
Qed.
Lemma quotable_took n t b x r y : quotable t -> wf b -> dec_ty n t b x = DR r None y -> took t b r x y.
Proof.
  intros Q W E. pose proof (quotable_reads V F OK n t Q b x W) as R. unfold reads in R. rewrite E in R. cbn [d_err d_rest] in R. destruct R as (v & J & Eb).
  exists (ntext v), v, []. split; [constructor; exact J|]. split; [constructor|]. split; [exact Eb|]. rewrite Eb in *.
  apply (meets_took (dec_ty n t) _ v [] r x y J ltac:(constructor)); [apply quotable_meets; assumption|apply dec_local|exact W|exact E].
  clear -Q. induction t; cbn [quotable flat] in *; try contradiction; try exact I. destruct t; try contradiction; exact I.
Qed.

(** The fields of a struct. *)
Lemma field_in i k f : find_field V F (v_flds V i) k = Some f -> In f (v_flds V i).
Proof.
  unfold find_field. destruct (find _ (rev _)) as [g|] eqn:E; [intros [= <-]; apply find_some in E as [E _]; apply in_rev, E|].
  destruct (d_nocase F); [discriminate|]. intros H. apply find_some in H. apply H.
Qed.
Lemma field_takes n i f b x : In f (v_flds V i) -> wf b -> (length b < n)%nat ->
  takes (flat (jf_ty f) /\ forall i f, In f (v_flds V i) -> flat (jf_ty f)) (on_path V (jf_path f) (decode_field V f (dec_ty n (jf_ty f)))) b x.
Proof.
  intros IN W L. apply path_takes. intros y. unfold decode_field. destruct (jf_quot f) eqn:Q.
  - apply (dec_ty_takes V F OK n (jf_ty f) b y W L).
  - apply from_string_takes; [exact W|]. intros b2 W2. apply quotable_reads; [exact OK| |exact W2]. eapply (ok_quot V OK); [exact IN|congruence].
  - apply from_string_int_takes; [exact W|]. intros b2 W2. apply quotable_reads; [exact OK| |exact W2]. eapply (ok_quot V OK); [exact IN|congruence].
Qed.
Lemma field_took n i k f b x r y : find_field V F (v_flds V i) k = Some f -> wf b -> nsp b -> (length b < n)%nat ->
  on_path V (jf_path f) (decode_field V f (dec_ty n (jf_ty f))) b x = DR r None y ->
  took_member V F i k b r x y /\ wf r /\ (length r < length b)%nat.
Proof.
  intros FF W NS L E. pose proof (field_takes n i f b x (field_in i k f FF) W L) as T. unfold takes in T. rewrite E in T. cbn [d_err d_rest] in T.
  destruct T as (Wr & Lr & _). split; [|auto]. pose proof (find_field_picks V F (v_flds V i) k) as PK. rewrite FF in PK.
  assert (PM : mends (member_text V F i k) (at_path V (quoted (jf_quot f) (stores V F (jf_ty f))) (jf_path f)) (on_path V (jf_path f) (decode_field V f (dec_ty n (jf_ty f)))) b x).
  { clear E. apply path_mends. intros z. unfold decode_field. destruct (jf_quot f) eqn:Q.
    + intros r' z' E. destruct (dec_ty_mends V F OK n (jf_ty f) b z W NS L r' z' E) as (w0 & s & w1 & v & A1 & A2 & A3 & A4 & A5 & A6). exists w0, s, w1, v. repeat (split; [assumption|]).
      split; [right; eauto|]. split; [exact A5|constructor; [reflexivity|exact A6]].
    + assert (QT : quotable (jf_ty f)) by (eapply (ok_quot V OK); [eapply field_in, FF|congruence]).
      destruct (from_string_reads (dec_ty n (jf_ty f)) b z W (fun b W => quotable_reads V F OK n _ QT b z W)) as [RD CT].
      apply (strict_mends (member_text V F i k)); [intros v J; left; auto|]. apply cut_mends; [exact W|exact RD| |exact CT].
      intros v J. pose proof (field_meets V F OK n f v z J ltac:(congruence) (fun _ => QT)) as FM. unfold decode_field in FM. rewrite Q in FM. exact FM.
    + assert (QT : quotable (jf_ty f)) by (eapply (ok_quot V OK); [eapply field_in, FF|congruence]).
      destruct (from_string_int_reads (v_float V true) (dec_ty n (jf_ty f)) b z W (fun b W => quotable_reads V F OK n _ QT b z W)) as [RD CT].
      apply (strict_mends (member_text V F i k)); [intros v J; left; auto|]. apply cut_mends; [exact W|exact RD| |exact CT].
      intros v J. pose proof (field_meets V F OK n f v z J ltac:(congruence) (fun _ => QT)) as FM. unfold decode_field in FM. rewrite Q in FM. exact FM. }
  destruct (PM r y E) as (w0 & s & w1 & v & A1 & A2 & A3 & A4 & A5 & A6). exists s, v, w1. split; [exact A4|]. split; [exact A2|].
  split; [apply (nsp_start b w0); assumption|]. eapply me_field; eassumption.
Qed.

Lemma opened_dec t b : opened t b \/ ~ opened t b.
Proof.
  unfold opened. destruct t; try (right; exact (fun H => H)); destruct b as [|c [|d b]]; try (right; destruct c; exact (fun H => H)); try (right; exact (fun H => H));
    repeat match goal with |- context [match ?q with _ => _ end] => is_var q; destruct q; try (right; exact (fun H => H)); try (left; exact I) end.
Qed.

Lemma opened_bracket t b : (match t with YSlice _ | YArray _ _ | YBytes => True | _ => False end) -> opened t b -> exists s, s <> [] /\ b = 91 :: s.
Proof.
  intros HT H. destruct t; try contradiction; (destruct b as [|c [|d b]]; [contradiction|exfalso; cbn in H; repeat match type of H with context [match ?q with _ => _ end] => is_var q; destruct q; try contradiction end|]);
    exists (d :: b); (split; [discriminate|]); cbn in H; repeat match type of H with context [match ?q with _ => _ end] => is_var q; destruct q; try contradiction end; reflexivity.
Qed.
Lemma opened_brace t b : (match t with YMap _ _ | YMapSI | YMapSR | YStruct _ => True | _ => False end) -> opened t b -> exists s, s <> [] /\ b = 123 :: s.
Proof.
  intros HT H. destruct t; try contradiction; (destruct b as [|c [|d b]]; [contradiction|exfalso; cbn in H; repeat match type of H with context [match ?q with _ => _ end] => is_var q; destruct q; try contradiction end|]);
    exists (d :: b); (split; [discriminate|]); cbn in H; repeat match type of H with context [match ?q with _ => _ end] => is_var q; destruct q; try contradiction end; reflexivity.
Qed.
Lemma int8_left b x : wf b -> d_err (decode_int TUint8 b x) <> None -> leaves (YInt TUint8) b (MInt x) (MInt (d_val (decode_int TUint8 b x))).
Proof. intros W HE. exact (quotable_left 0 (YInt TUint8) I b (MInt x) W HE). Qed.
Lemma int8_took b x r y : wf b -> decode_int TUint8 b x = DR r None y ->
  took (YInt TUint8) b r (MInt x) (MInt y) /\ wf r /\ (length r < length b)%nat.
Proof.
  intros W E. split; [apply (quotable_took 0 (YInt TUint8) b (MInt x) r (MInt y) I W); rewrite dec_ty_eq, E; reflexivity|].
  pose proof (reads_takes True (decode_int TUint8) b x W (int_reads TUint8 b x W)) as T. unfold takes in T. rewrite E in T. cbn [d_err d_rest] in T. destruct T as (T1 & T2 & _). auto.
Qed.

Lemma dec_ty_left n : forall t b x, wf b -> (length b < n)%nat -> d_err (dec_ty n t b x) <> None -> leaves t b x (d_val (dec_ty n t b x)).
Proof.
  induction n as [|n IHn]; [intros; lia|]. intros t.
  assert (KEPT : forall b x, keeps t -> ~ opened t b -> (length b < S n)%nat -> d_err (dec_ty (S n) t b x) <> None -> leaves t b x (d_val (dec_ty (S n) t b x))).
  { intros b x K NO L HE. apply kept_left; [exact K|exact NO| |exact HE]. intros v J LV. apply dec_ty_meets; [exact OK|exact J|lia]. }
  induction t; intros b x W L HE;
    try (apply KEPT; [exact I|exact (fun H => H)|exact L|exact HE]).
  - (* bytes *)
    destruct (opened_dec YBytes b) as [O|O]; [|apply KEPT; [exact I|exact O|exact L|exact HE]].
    destruct (opened_bracket YBytes b I O) as (s & NS & ->). revert HE. rewrite dec_ty_eq. destruct x; try (intros _; apply le_wrong; exact (fun H => H)).
    cbn [d_map d_err d_val]. unfold decode_bytes. change (has_null_prefix (91 :: s)) with false. cbv iota.
    replace (Nat.ltb (length (91 :: s)) 2) with false by (symmetry; apply Nat.ltb_ge; destruct s; [congruence|cbn [length]; lia]).
    change (negb (91 =? cQUOTE)) with true. change (91 =? cLBRACK) with true. cbv iota. intros HE. apply le_bytes; [exact NS|].
    apply (decode_slice_left _ _ _ 0 (91 :: s) (S (length s)) W); [| |reflexivity|exact NS|lia|exact HE].
    + intros b' x' r y W' _ _ E. apply int8_took; assumption.
    + intros b' x' W' _ _ HE'. apply int8_left; assumption.
  - (* interfaces *)
    revert HE. rewrite dec_ty_eq. destruct x; try (intros _; apply le_wrong; exact (fun H => H)). cbn [d_map d_err d_val]. intros HE.
    unfold decode_interface at 1. rewrite iface_null_left by exact HE. apply le_iface. apply (dec_unfit (S n) YIface b (MIface v) L). rewrite dec_ty_eq. exact HE.
  - (* arrays *)
    destruct (opened_dec (YArray n0 t) b) as [O|O]; [|apply KEPT; [exact I|exact O|exact L|exact HE]].
    destruct (opened_bracket (YArray n0 t) b I O) as (s & NS & ->). revert HE. rewrite dec_ty_eq. destruct x; try (intros _; apply le_wrong; exact (fun H => H)).
    destruct (Nat.eqb (length l) n0) eqn:EL; [|intros _; apply le_wrong; cbn; apply Nat.eqb_neq, EL].
    cbn [d_map d_err d_val]. intros HE. cbn [length] in L. apply le_array; [exact NS|].
    assert (KT : forall b x, keeps t -> ~ opened t b -> (length b < S n)%nat -> d_err (dec_ty (S n) t b x) <> None -> leaves t b x (d_val (dec_ty (S n) t b x))).
    { intros b x K NO L' HE'. apply kept_left; [exact K|exact NO| |exact HE']. intros v J LV. apply dec_ty_meets; [exact OK|exact J|lia]. }
    apply (decode_array_left _ _ _ (zero V t) (S (length s))); [| |exact W|exact NS|lia|exact HE].
    + intros b' x' r y W' N' L' E. apply (dec_took (S n)); [exact W'|exact N'|lia|exact E].
    + intros b' x' W' _ L' HE'. apply IHt; [exact KT|exact W'|lia|exact HE'].
  - (* slices *)
    destruct (opened_dec (YSlice t) b) as [O|O]; [|apply KEPT; [exact I|exact O|exact L|exact HE]].
    destruct (opened_bracket (YSlice t) b I O) as (s & NS & ->). revert HE. rewrite dec_ty_eq. destruct x; try (intros _; apply le_wrong; exact (fun H => H)).
    cbn [d_map d_err d_val]. intros HE. cbn [length] in L. apply le_slice; [exact NS|].
    assert (KT : forall b x, keeps t -> ~ opened t b -> (length b < S n)%nat -> d_err (dec_ty (S n) t b x) <> None -> leaves t b x (d_val (dec_ty (S n) t b x))).
    { intros b x K NO L' HE'. apply kept_left; [exact K|exact NO| |exact HE']. intros v J LV. apply dec_ty_meets; [exact OK|exact J|lia]. }
    apply (decode_slice_left _ _ _ (zero V t) (91 :: s) (S (length s)) W); [| |reflexivity|exact NS|lia|exact HE].
    + intros b' x' r y W' N' L' E. apply (dec_took (S n)); [exact W'|exact N'|lia|exact E].
    + intros b' x' W' _ L' HE'. apply IHt; [exact KT|exact W'|lia|exact HE'].
  - (* maps *)
    destruct (opened_dec (YMap k t) b) as [O|O]; [|apply KEPT; [exact I|exact O|exact L|exact HE]].
    destruct (opened_brace (YMap k t) b I O) as (s & NS & ->). revert HE. rewrite dec_ty_eq. destruct x; try (intros _; apply le_wrong; exact (fun H => H)).
    cbn [d_map d_err d_val]. intros HE. cbn [length] in L. apply le_map; [exact NS|].
    apply (decode_map_left mkey_eqb (decode_key V k) _ _ _ (zero V t) _ (123 :: s) (S (length s)) W); [| | | |reflexivity|exact NS|lia|exact HE].
    + intros b' r y W' N' L' E. apply (dec_took (S n)); [exact W'|exact N'|lia|exact E].
    + intros v J LV. apply dec_ty_meets; [exact OK|exact J|lia].
    + apply key_takes_all, OK.
    + intros lit SL. apply key_means_meets; assumption.
  - (* map[string]interface{} *)
    destruct (opened_dec YMapSI b) as [O|O]; [|apply KEPT; [exact I|exact O|exact L|exact HE]].
    destruct (opened_brace YMapSI b I O) as (s & NS & ->). revert HE. rewrite dec_ty_eq. destruct x; try (intros _; apply le_wrong; exact (fun H => H)).
    cbn [d_map d_err d_val]. intros HE. cbn [length] in L. apply le_map_si; [exact O|]. apply le_map; [exact NS|].
    assert (Z : zero V YIface = MIface JVNull) by (unfold zero; destruct (v_depth V); reflexivity). rewrite Z.
    apply (decode_map_left mkey_eqb (decode_key V KYString) _ _ _ (MIface JVNull) _ (123 :: s) (S (length s)) W); [| | | |reflexivity|exact NS|lia|exact HE].
    + intros b' r y W' N' L' E. apply (dec_took (S n) YIface b' (MIface JVNull) r y W' N' ltac:(lia)). rewrite dec_ty_eq. exact E.
    + intros v J LV. pose proof (dec_ty_meets V F OK (S n) YIface v (MIface JVNull) J ltac:(lia)) as H. intros r C. specialize (H r C). rewrite dec_ty_eq in H. exact H.
    + apply key_takes_all, OK.
    + intros lit SL. apply key_means_meets; assumption.
  - (* map[string]json.RawMessage *)
    destruct (opened_dec YMapSR b) as [O|O]; [|apply KEPT; [exact I|exact O|exact L|exact HE]].
    destruct (opened_brace YMapSR b I O) as (s & NS & ->). revert HE. rewrite dec_ty_eq. destruct x; try (intros _; apply le_wrong; exact (fun H => H)).
    cbn [d_map d_err d_val]. intros HE. cbn [length] in L. apply le_map_sr; [exact O|]. apply le_map; [exact NS|].
    assert (Z : zero V YRaw = MRaw None) by (unfold zero; destruct (v_depth V); reflexivity). rewrite Z.
    apply (decode_map_left mkey_eqb (decode_key V KYString) _ _ _ (MRaw None) _ (123 :: s) (S (length s)) W); [| | | |reflexivity|exact NS|lia|exact HE].
    + intros b' r y W' N' L' E. apply (dec_took (S n) YRaw b' (MRaw None) r y W' N' ltac:(lia)). rewrite dec_ty_eq. exact E.
    + intros v J LV. pose proof (dec_ty_meets V F OK (S n) YRaw v (MRaw None) J ltac:(lia)) as H. intros r C. specialize (H r C). rewrite dec_ty_eq in H. exact H.
    + apply key_takes_all, OK.
    + intros lit SL. apply key_means_meets; assumption.
  - (* pointers *)
    assert (KT : forall b x, keeps t -> ~ opened t b -> (length b < S n)%nat -> d_err (dec_ty (S n) t b x) <> None -> leaves t b x (d_val (dec_ty (S n) t b x))).
    { intros b' x' K NO L' HE'. apply kept_left; [exact K|exact NO| |exact HE']. intros v J LV. apply dec_ty_meets; [exact OK|exact J|lia]. }
    apply ptr_left; [|exact HE]. intros y HE'. apply IHt; [exact KT|exact W|exact L|exact HE'].
  - (* structs *)
    destruct (opened_dec (YStruct i) b) as [O|O]; [|apply KEPT; [exact I|exact O|exact L|exact HE]].
    destruct (opened_brace (YStruct i) b I O) as (s & NS & ->). revert HE. rewrite dec_ty_eq. destruct x; try (intros _; apply le_wrong; exact (fun H => H)).
    set (look := fun k => match find_field V F (v_flds V i) k with Some f => Some (on_path V (jf_path f) (decode_field V f (dec_ty n (jf_ty f)))) | None => None end).
    intros HE. cbn [length] in L.
    assert (ENDS : struct_ends look (d_disallow F) (took_member V F i) true s (MList l) (d_val (decode_struct look (d_disallow F) (123 :: s) (MList l)))).
    { apply (decode_struct_left look _ _ (123 :: s) (S (length s)) W); [| |reflexivity|exact NS|lia|exact HE].
      - intros k D b x r y LO W' N' L' E. unfold look in LO. destruct (find_field V F (v_flds V i) k) as [f|] eqn:FF; [|discriminate]. injection LO as <-.
        apply (field_took n i k f); [exact FF|exact W'|exact N'|lia|exact E].
      - intros k b x v r LO DI W' PV. unfold look in LO. destruct (find_field V F (v_flds V i) k) as [f|] eqn:FF; [discriminate|].
        pose proof (parse_takes b W') as PT. rewrite PV in PT. destruct PT as (_ & _ & _ & E & a & J). destruct (jvalue_node v a J) as (nd & <- & _ & JN).
        exists (ntext nd), nd, []. split; [left; auto|]. split; [constructor|]. split; [exact E|]. apply me_unknown; [|exact DI]. rewrite <- FF. apply find_field_picks. }
    revert ENDS. generalize (d_val (decode_struct look (d_disallow F) (123 :: s) (MList l))) as z0. intros z0 ENDS.
    destruct ENDS as (y & last & b0 & FR & [[[K1 K2] ->]|(w & lit & k & w2 & w3 & b1 & -> & LE & SL & SM & W2 & W3 & W1 & N1 & L1 & H)]).
    + eapply le_struct_text; eassumption.
    + pose proof (find_field_picks V F (v_flds V i) k) as PK. unfold look in H. destruct (find_field V F (v_flds V i) k) as [f|] eqn:FF.
      * destruct H as [HE' ->]. eapply le_struct; try eassumption; [apply nsp_unspaced, N1|]. apply on_path_left; [|exact HE']. intros z. unfold decode_field.
        assert (QT : jf_quot f <> QNo -> quotable (jf_ty f)) by (intros Q; eapply (ok_quot V OK); [eapply field_in, FF|exact Q]).
        destruct (jf_quot f).
        -- intros HE2. apply fl_plain; [reflexivity|]. apply IHn; [exact W1|lia|exact HE2].
        -- apply from_string_left; [exact W1| |].
           ++ intros s' r y' W' E. apply (quotable_took n _ _ _ _ _ (QT ltac:(discriminate)) W' E).
           ++ intros s' W' HE2. apply quotable_left; [apply QT; discriminate|exact W'|exact HE2].
        -- apply from_string_int_left; [exact W1| |].
           ++ intros s' r y' W' E. apply (quotable_took n _ _ _ _ _ (QT ltac:(discriminate)) W' E).
           ++ intros s' W' HE2. apply quotable_left; [apply QT; discriminate|exact W'|exact HE2].
      * destruct H as [H ->]. eapply le_struct_other; try eassumption; [apply nsp_unspaced, N1|]. destruct H as [H|(r & e & PV)]; [left; exact H|right; eapply parse_no_value, PV].
  - apply json_left; assumption.
  - apply text_left; assumption.
Qed.

Lemma set_other {B} i (x y : B) l p : nth_error l i = Some x -> i <> p -> nth_error (set_nth i y l) p = nth_error l p.
Proof.
  intros E H. apply nth_error_split in E as (l1 & l2 & -> & <-). rewrite DecLoops.set_nth_app. revert p H. induction l1 as [|a l1 IH]; intros [|p] H; cbn [length app nth_error] in *; try reflexivity; [congruence|].
  apply IH. congruence.
Qed.
Lemma on_path_other p q D b m l : (match p with [] => True | PIn j :: _ => j = q | PVia j _ _ :: _ => j = q end -> False) -> m = MList l ->
  exists l', d_val (on_path V p D b m) = MList l' /\ nth_error l' q = nth_error l q.
Proof.
  intros H ->. destruct p as [|[j|j u b']]; [elim H; exact I| |]; cbn [on_path].
  - destruct (nth_error l j) eqn:E; [|exists l; split; reflexivity]. cbn [d_map d_val]. eexists. split; [reflexivity|]. eapply set_other; [exact E|exact H].
  - destruct (nth_error l j) as [[]|] eqn:E; try (exists l; split; reflexivity). destruct p0 as [x|]; [|destruct b'; [exists l; split; reflexivity|]];
      cbn [d_map d_val]; eexists; (split; [reflexivity|eapply set_other; [exact E|exact H]]).
Qed.
Lemma struct_unnamed n i b l p : wf b -> (length b < n)%nat -> 
  (forall s k f, b = 123 :: s -> member_key V F i true s k -> picks V F (v_flds V i) k (Some f) -> ~ lies_in p f) ->
  exists l', d_val (dec_ty n (YStruct i) b (MList l)) = MList l' /\ nth_error l' p = nth_error l p.
Proof.
  intros W L HK. destruct n as [|n]; [lia|]. rewrite dec_ty_eq. unfold decode_struct.
  assert (SAME : exists l', MList l = MList l' /\ nth_error l' p = nth_error l p) by (exists l; split; reflexivity).
  destruct (has_null_prefix b); [exact SAME|]. destruct (Nat.ltb (length b) 2); [rewrite in_err_val; exact SAME|].
  destruct b as [|c b]; [rewrite in_err_val; exact SAME|]. destruct (Z.eqb_spec c 123) as [->|]; [|rewrite in_err_val; exact SAME].
  apply (struct_loop_unnamed V F i _ _ (fun m => exists l', m = MList l' /\ nth_error l' p = nth_error l p) _ (S (length b))); [| | | |exact SAME].
  - intros k D b1 x r y LO W' N' L' E. destruct (find_field V F (v_flds V i) k) as [f|] eqn:FF; [|discriminate]. injection LO as <-. cbn [length] in L.
    destruct (field_took n i k f b1 x r y FF W' N' ltac:(lia) E) as ((s' & v & w & J & Ww & Eb & _) & H). split; [eauto 10|exact H].
  - apply wf_cons in W. apply W.
  - lia.
  - intros k D c y MK LO (l1 & -> & E1). destruct (find_field V F (v_flds V i) k) as [f|] eqn:FF; [|discriminate]. injection LO as <-.
    pose proof (find_field_picks V F (v_flds V i) k) as PK. rewrite FF in PK. rewrite <- E1. apply on_path_other; [|reflexivity].
    intros Y. exact (HK b k f eq_refl MK PK Y).
Qed.
End Types.
