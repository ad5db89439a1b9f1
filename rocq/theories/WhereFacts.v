(** The places WhereModel.v computes are those SpecWhere.v describes. *)
From Verif Require Import Bytes AsciiModel Utf8Model ParseModel IntModel StringModel EncModel DecModel
  SpecJson SpecString SpecDec ParseFacts Utf8Facts StringFacts IntFacts DecLoops DecFacts TypeModel SpecType NodeFacts TypeLoops TypeFacts TypeMain
  WhereModel SpecWhere.

(** On the text of [nd], if the decoder [D] reports a type error then [L] names
    a place that [B] allows. *)
Definition points {A} (D : bytes -> A -> dres A) (L : bytes -> A -> rep) (B : node -> A -> rep -> Prop) (nd : node) (x : A) : Prop :=
  forall r, stops nd r -> d_err (D (ntext nd ++ r) x) = Some EType -> B nd x (L (ntext nd ++ r) x).

Lemma elem_err_type {A} inp e (x : A) : d_err (elem_err inp e x) = Some EType -> (exists v r, parseValue inp = POk v r) -> e = EType.
Proof. intros H (v & r & E). unfold elem_err in H. rewrite E in H. injection H. auto. Qed.
Lemma cells_step {A} (z : A) ys q : exists q',
  (if Nat.eqb (length ys) (length (ys ++ q)) then grow z (ys ++ q) else ys ++ q) = ys ++ hd z q :: q' /\
  ((exists x0, q = x0 :: q') \/ (q = [] /\ exists m, q' = repeat z m)).
Proof.
  destruct q as [|x0 q].
  - rewrite app_nil_r, Nat.eqb_refl. unfold grow. destruct ys as [|y ys]; [exists (repeat z 9); split; [reflexivity|right; eauto]|].
    exists (repeat z (length ys)). split; [reflexivity|right; eauto].
  - exists q. replace (Nat.eqb _ _) with false by (symmetry; apply Nat.eqb_neq; rewrite app_length; cbn; lia). split; [reflexivity|left; eauto].
Qed.

Section SliceW.
Context {A : Type} (D : bytes -> A -> dres A) (L : bytes -> A -> rep) (ct : gty) (R : node -> A -> A -> Prop) (B : node -> A -> rep -> Prop) (z : A) (inp : bytes) (N : nat).
Hypothesis HM : forall nd old, jnode nd -> (length (ntext nd) <= N)%nat -> meets D R nd old.
Hypothesis HP : forall nd old, jnode nd -> (length (ntext nd) <= N)%nat -> points D L B nd old.
Hypothesis PI : exists v r, parseValue inp = POk v r.

Lemma slice_at_cong k b b' len data : skip_spaces b = skip_spaces b' -> slice_at D L ct z (S k) b len data = slice_at D L ct z (S k) b' len data.
Proof. intros E. cbn [slice_at]. rewrite E. reflexivity. Qed.
Definition elem_at (k : nat) (b : bytes) (len : nat) (d : list A) : rep :=
  let d := if Nat.eqb len (length d) then grow z d else d in
  let x := D b (nth len d z) in
  match d_err x with
  | None => slice_at D L ct z k (d_rest x) (S len) (Some (set_nth len (d_val x) d))
  | Some _ => into ct (SIdx len) (L b (nth len d z))
  end.
Lemma slice_at_step k w w1 s len data : ws w1 -> sepw (Nat.eqb len 0) w -> nsp s -> hd 0 s <> 93 -> s <> [] ->
  slice_at D L ct z (S k) (w ++ w1 ++ s) len data = elem_at k s len (contents data).
Proof.
  intros W1 SW NS H NE. cbn [slice_at]. destruct SW as [[E ->]|[E (w' & W & ->)]].
  - cbn [app]. rewrite skip_spaces_ws by exact W1. rewrite (skip_spaces_nsp s NS).
    destruct s as [|c s]; [congruence|]. cbn [hd] in H. destruct (c =? 93) eqn:Ec; [zb; lia|].
    rewrite E. reflexivity.
  - rewrite <- app_assoc. cbn [app]. rewrite skip_spaces_ws by exact W. rewrite (skip_spaces_nsp (44 :: _)) by reflexivity.
    change (44 =? 93) with false. cbv iota. rewrite E. change (44 =? 44) with true. cbv iota.
    rewrite skip_spaces_ws by exact W1. rewrite (skip_spaces_nsp s NS). reflexivity.
Qed.

Definition slice_points k b (ys q : list A) data l : Prop :=
  d_err (slice_loop D z inp k b (length ys) data) = Some EType ->
  exists l1 v l2 zs p, l = l1 ++ v :: l2 /\ onto R z l1 q zs /\ B v (nth (length l1) q z) p /\
    slice_at D L ct z k b (length ys) data = into ct (SIdx (length ys + length l1)) p.
Lemma slice_one k w w1 v x ys q data l :
  sepw (Nat.eqb (length ys) 0) w -> ws w1 -> jnode v -> num_stop x -> (length (ntext v) <= N)%nat -> contents data = ys ++ q ->
  (forall b y q', skip_spaces b = skip_spaces x -> slice_points k b (ys ++ [y]) q' (Some ((ys ++ [y]) ++ q')) l) ->
  slice_points (S k) (w ++ w1 ++ ntext v ++ x) ys q data (v :: l).
Proof.
  intros SW W1 J NX LN ED C H. destruct (node_start v J) as (Sn & Sh & Se & _).
  rewrite slice_at_step; [|exact W1|exact SW|apply nsp_app; assumption|rewrite hd_app by exact Se; exact Sh|apply app_nn, Se].
  rewrite slice_step in H; [|exact W1|exact SW|apply nsp_app; assumption|rewrite hd_app by exact Se; exact Sh|apply app_nn, Se].
  rewrite ED in *. unfold slice_elem in H. unfold elem_at. destruct (cells_step z ys q) as (q' & E & Q). rewrite E in *. clear E. cbv zeta in *.
  assert (NT : nth (length ys) (ys ++ hd z q :: q') z = hd z q) by (rewrite app_nth2, Nat.sub_diag by lia; reflexivity). rewrite NT in *.
  rewrite set_nth_app in *.
  pose proof (HP v (hd z q) J LN x (stop_any _ _ NX)) as P.
  destruct (HM v (hd z q) J LN x (stop_any _ _ NX)) as [(r1 & y & E1 & E2 & E3 & E4)|(r1 & e & y & E1 & E2 & E3)]; rewrite E1 in *; cbn [d_err d_rest d_val] in *.
  - replace (ys ++ y :: q') with ((ys ++ [y]) ++ q') in * by (rewrite <- app_assoc; reflexivity).
    replace (S (length ys)) with (length (ys ++ [y])) in * by (rewrite app_length; cbn; lia).
    destruct (C r1 y q' E2 H) as (l1 & v' & l2 & zs & p & -> & O & Bv & E5).
    exists (v :: l1), v', l2, (y :: zs), p. split; [reflexivity|].
    assert (OT : onto R z l1 (tl q) zs).
    { destruct Q as [(x0 & ->)|(-> & m & ->)]; [exact O|]. cbn [tl]. apply onto_zeros in O; exact O. }
    split; [constructor; assumption|]. split.
    + cbn [length]. destruct Q as [(x0 & ->)|(-> & m & ->)]; [exact Bv|]. cbn [nth]. rewrite nth_repeat in Bv. exact Bv.
    + rewrite E5. rewrite app_length. cbn [length]. f_equal. f_equal. lia.
  - apply elem_err_type in H; [|exact PI]. subst e. specialize (P eq_refl).
    exists [], v, l, [], (L (ntext v ++ x) (hd z q)). split; [reflexivity|]. split; [constructor|]. split.
    + cbn [length]. destruct q; exact P.
    + rewrite Nat.add_0_r. reflexivity.
Qed.
Lemma slice_elems_point s l : nelems s l -> forall k w ys q data r b, (length s <= N)%nat -> (length s < k)%nat ->
  contents data = ys ++ q -> sepw (Nat.eqb (length ys) 0) w -> skip_spaces b = skip_spaces (w ++ s ++ 93 :: r) ->
  slice_points k b ys q data l.
Proof.
  assert (cg : forall k b b' ys q data l, skip_spaces b = skip_spaces b' -> slice_points (S k) b' ys q data l -> slice_points (S k) b ys q data l).
  { intros k b b' ys q data l0 E. unfold slice_points. rewrite (slice_cong D z inp k b b' _ _ E), (slice_at_cong k b b' _ _ E). auto. }
  induction 1 as [w1 v w2 W1 J W2|w1 v w2 t l W1 J W2 NE IH]; intros k w ys q data r b LN Lk ED SW E; (destruct k as [|k]; [lia|]); apply (cg _ _ _ _ _ _ _ E);
    rewrite !app_length in LN, Lk; cbn [length] in LN, Lk; destruct (node_start v J) as (_ & _ & Se & _);
    assert (Lv : (0 < length (ntext v))%nat) by (destruct (ntext v); [congruence|cbn; lia]).
  - repeat rewrite <- app_assoc. apply slice_one; try assumption; [apply num_stop_brack, W2|lia|].
    intros b' y q' E'. destruct k as [|k]; [lia|]. apply (cg _ _ _ _ _ _ _ E'). unfold slice_points. rewrite slice_close by exact W2. discriminate.
  - repeat (rewrite <- app_assoc; cbn [app]). apply slice_one; try assumption; [apply num_stop_comma, W2|lia|].
    intros b' y q' E'. apply (IH k (w2 ++ [44])) with (r := r); [lia|lia|reflexivity| |].
    + right. split; [rewrite app_length; cbn; apply Nat.eqb_neq; lia|]. eauto.
    + rewrite E'. rewrite <- app_assoc. reflexivity.
Qed.
End SliceW.

Lemma decode_slice_points {A} (D : bytes -> A -> dres A) L ct R B z nd old : jnode nd ->
  (forall nd' x, jnode nd' -> (length (ntext nd') < length (ntext nd))%nat -> meets D R nd' x) ->
  (forall nd' x, jnode nd' -> (length (ntext nd') < length (ntext nd))%nat -> points D L B nd' x) ->
  forall r, stops nd r -> d_err (decode_slice D z (ntext nd ++ r) old) = Some EType ->
  match nshape nd with
  | HArr l => slice_fault (into ct) R B z l (backing old) (decode_slice_at D L ct z (ntext nd ++ r) old)
  | _ => decode_slice_at D L ct z (ntext nd ++ r) old = told (ntext nd ++ r) ct
  end.
Proof.
  intros J HM HP r NS H. assert (J' := J). unfold decode_slice_at.
  destruct J as [| | |s H0|s H0|w W|s l H0|w W|s l H0]; cbn [nshape];
    try (pose proof (not_open _ r 91 J' NS) as NO; cbn [nshape] in NO; specialize (NO ltac:(first [lia|left; reflexivity]));
         destruct (node_start _ J') as (_ & _ & Se & _); destruct (ntext _ ++ r) eqn:E0; [apply app_eq_nil in E0 as [E0 _]; contradiction|]; rewrite NO; reflexivity).
  - exfalso. cbn [ntext] in *. unfold decode_slice in H. revert H. change (has_null_prefix _) with false. cbv iota.
    rewrite ltb2 by (cbn [length]; rewrite app_length; cbn; lia). cbn [app]. rewrite Z.eqb_refl. rewrite <- app_assoc. cbn [app]. rewrite slice_close by exact W. discriminate.
  - cbn [ntext] in *. unfold decode_slice in H. revert H. change (has_null_prefix _) with false. cbv iota.
    rewrite ltb2 by (cbn [length]; rewrite app_length; cbn; lia). cbn [app]. rewrite Z.eqb_refl. rewrite <- app_assoc. cbn [app]. intros H.
    pose proof (node_parse _ r J' NS) as P. cbn [ntext app] in P. rewrite <- app_assoc in P. cbn [app] in P.
    destruct (slice_elems_point D L ct R B z (91 :: s ++ 93 :: r) (length s)) with (s := s) (l := l) (k := S (length (91 :: s ++ 93 :: r)))
      (w := @nil Z) (ys := @nil A) (q := backing old) (data := option_map snd old) (r := r) (b := s ++ 93 :: r) as (l1 & v & l2 & zs & p & -> & O & Bv & E).
    + intros nd' x Jn Ln. apply HM; [exact Jn|]. cbn [length]. rewrite app_length. lia.
    + intros nd' x Jn Ln. apply HP; [exact Jn|]. cbn [length]. rewrite app_length. lia.
    + eauto.
    + exact H0.
    + lia.
    + cbn [length]. rewrite app_length. lia.
    + destruct old as [[? ?]|]; reflexivity.
    + left. auto.
    + reflexivity.
    + exact H.
    + cbn [length Nat.add] in E. cbn [length]. rewrite E. econstructor; eassumption.
Qed.

(** * Arrays *)
Section ArrW.
Context {A : Type} (D : bytes -> A -> dres A) (L : bytes -> A -> rep) (ct : gty) (R : node -> A -> A -> Prop) (B : node -> A -> rep -> Prop) (N : nat).
Hypothesis HM : forall nd old, jnode nd -> (length (ntext nd) <= N)%nat -> meets D R nd old.
Hypothesis HP : forall nd old, jnode nd -> (length (ntext nd) <= N)%nat -> points D L B nd old.

Lemma arr_at_elem i w w1 v x b old todo : sepw (Nat.eqb i 0) w -> ws w1 -> jnode v ->
  skip_spaces b = skip_spaces (w ++ w1 ++ ntext v ++ x) ->
  arr_at D L ct i b (old :: todo) =
    let y := D (ntext v ++ x) old in
    match d_err y with
    | None => arr_at D L ct (S i) (d_rest y) todo
    | Some e => into ct (SIdx i) (L (ntext v ++ x) old)
    end.
Proof.
  intros SW W1 J E. cbn [arr_at]. rewrite E. destruct (node_start v J) as (Sn & Sh & Se & _).
  destruct (elem_start _ w w1 (ntext v ++ x) SW W1 (nsp_app _ _ Sn Se) (app_nn _ _ Se) (node_not_comma v x J)) as (c & t & Ec & Ex & F1 & F2).
  rewrite Ec. destruct (Nat.eqb i 0); [rewrite F2 by reflexivity; reflexivity|].
  rewrite F1 in * by reflexivity. change (44 =? 44) with true in Ex. change (44 =? cCOMMA) with true. cbv iota in *. rewrite Ex. reflexivity.
Qed.
Definition arr_points i b (d0 todo : list A) l : Prop :=
  d_err (arr_loop D (Nat.eqb i 0) b d0 todo) = Some EType ->
  exists l1 v l2 d1 ys x d2 p, l = l1 ++ v :: l2 /\ todo = d1 ++ x :: d2 /\ length d1 = length l1 /\ along R l1 d1 ys /\ B v x p /\
    arr_at D L ct i b todo = into ct (SIdx (i + length l1)) p.
Lemma arr_full s l i w b d0 r : nelems s l -> sepw (Nat.eqb i 0) w -> skip_spaces b = skip_spaces (w ++ s ++ 93 :: r) -> arr_points i b d0 [] l.
Proof.
  intros NE SW E H. exfalso. cbn [arr_loop] in H. rewrite (array_skip_elems s l NE (S (length b)) _ w b r SW) in H; [discriminate|eapply skip_elems_len; eassumption|exact E].
Qed.
Lemma arr_one i w w1 v x b d0 old todo l : sepw (Nat.eqb i 0) w -> ws w1 -> jnode v -> num_stop x -> (length (ntext v) <= N)%nat ->
  skip_spaces b = skip_spaces (w ++ w1 ++ ntext v ++ x) ->
  (forall b' d0', skip_spaces b' = skip_spaces x -> arr_points (S i) b' d0' todo l) -> arr_points i b d0 (old :: todo) (v :: l).
Proof.
  intros SW W1 J NX LN E C H. rewrite (arr_at_elem i w w1 v x b old todo SW W1 J E). rewrite (arr_elem D _ w w1 v x b d0 old todo SW W1 J E) in H. cbv zeta in *.
  pose proof (HP v old J LN x (stop_any _ _ NX)) as P.
  destruct (HM v old J LN x (stop_any _ _ NX)) as [(r1 & y & E1 & E2 & E3 & E4)|(r1 & e & y & E1 & E2 & E3)]; rewrite E1 in *; cbn [d_err d_rest d_val] in *.
  - destruct (C r1 (d0 ++ [y]) E2 H) as (l1 & v' & l2 & d1 & ys & x' & d2 & p & -> & -> & Ln & Al & Bv & E5).
    exists (v :: l1), v', l2, (old :: d1), (y :: ys), x', d2, p. split; [reflexivity|]. split; [reflexivity|]. split; [cbn; lia|]. split; [constructor; assumption|]. split; [exact Bv|].
    rewrite E5. cbn [length]. f_equal. f_equal. lia.
  - injection H as ->. exists [], v, l, [], [], old, todo, (L (ntext v ++ x) old). do 3 (split; [reflexivity|]). split; [constructor|]. split; [apply P; reflexivity|]. rewrite Nat.add_0_r. reflexivity.
Qed.
Lemma arr_point s l : nelems s l -> forall i w b d0 todo r, (length s <= N)%nat -> sepw (Nat.eqb i 0) w ->
  skip_spaces b = skip_spaces (w ++ s ++ 93 :: r) -> arr_points i b d0 todo l.
Proof.
  intros NE. pose proof NE as NE0. revert NE0.
  induction NE as [w1 v w2 W1 J W2|w1 v w2 t l W1 J W2 NE IH]; intros NE0 i w b d0 todo r LN SW E;
    (destruct todo as [|old todo]; [eapply arr_full; eassumption|]); rewrite !app_length in LN; cbn [length] in LN.
  - repeat rewrite <- app_assoc in E. apply (arr_one i w w1 v (w2 ++ 93 :: r)); try assumption; [apply num_stop_brack, W2|lia|].
    intros b' d0' E' H. exfalso. cbn [Nat.eqb] in H. rewrite (arr_end D b' r) in H; [discriminate|]. rewrite E', skip_spaces_ws by exact W2. apply skip_spaces_nsp; reflexivity.
  - repeat (rewrite <- app_assoc in E; cbn [app] in E). apply (arr_one i w w1 v (w2 ++ 44 :: t ++ 93 :: r)); try assumption; [apply num_stop_comma, W2|lia|].
    intros b' d0' E'. apply (IH NE (S i) (w2 ++ [44]) b' d0' todo r); [lia| |rewrite E', <- app_assoc; reflexivity]. right. split; [reflexivity|]. eauto.
Qed.
End ArrW.
Lemma decode_array_points {A} (D : bytes -> A -> dres A) L ct R B nd old : jnode nd ->
  (forall nd' x, jnode nd' -> (length (ntext nd') < length (ntext nd))%nat -> meets D R nd' x) ->
  (forall nd' x, jnode nd' -> (length (ntext nd') < length (ntext nd))%nat -> points D L B nd' x) ->
  (forall r x, d_err (D (93 :: r) x) <> Some EType /\ d_err (D (93 :: r) x) <> None) ->
  forall r, stops nd r -> d_err (decode_array D (ntext nd ++ r) old) = Some EType ->
  match nshape nd with
  | HArr l => array_fault (into ct) R B l old (decode_array_at D L ct (ntext nd ++ r) old)
  | _ => decode_array_at D L ct (ntext nd ++ r) old = told (ntext nd ++ r) ct
  end.
Proof.
  intros J HM HP HB r NS H. assert (J' := J). unfold decode_array_at.
  destruct J as [| | |s H0|s H0|w W|s l H0|w W|s l H0]; cbn [nshape];
    try (pose proof (not_open _ r 91 J' NS) as NO; cbn [nshape] in NO; specialize (NO ltac:(first [lia|left; reflexivity]));
         destruct (node_start _ J') as (_ & _ & Se & _); destruct (ntext _ ++ r) eqn:E0; [apply app_eq_nil in E0 as [E0 _]; contradiction|]; rewrite NO; reflexivity).
  - exfalso. cbn [ntext] in *. unfold decode_array in H. revert H. change (has_null_prefix _) with false. cbv iota.
    rewrite ltb2 by (cbn [length]; rewrite app_length; cbn; lia). cbn [app]. rewrite Z.eqb_refl. rewrite <- app_assoc. cbn [app].
    assert (EB : skip_spaces (w ++ 93 :: r) = 93 :: r) by (rewrite skip_spaces_ws by exact W; apply skip_spaces_nsp; reflexivity).
    destruct old as [|x old]; cbn [arr_loop array_skip]; rewrite EB; [discriminate|]. destruct (HB r x) as [B1 B2]. destruct (d_err (D (93 :: r) x)); [cbn [d_err]; congruence|congruence].
  - cbn [ntext] in *. unfold decode_array in H. revert H. change (has_null_prefix _) with false. cbv iota.
    rewrite ltb2 by (cbn [length]; rewrite app_length; cbn; lia). cbn [app]. rewrite Z.eqb_refl. rewrite <- app_assoc. cbn [app]. intros H.
    destruct (arr_point D L ct R B (length s)) with (s := s) (l := l) (i := O) (w := @nil Z) (b := s ++ 93 :: r) (d0 := @nil A) (todo := old) (r := r)
      as (l1 & v & l2 & d1 & ys & x & d2 & p & -> & -> & Ln & Al & Bv & E).
    + intros nd' x Jn Ln. apply HM; [exact Jn|]. cbn [length]. rewrite app_length. lia.
    + intros nd' x Jn Ln. apply HP; [exact Jn|]. cbn [length]. rewrite app_length. lia.
    + exact H0.
    + lia.
    + left. auto.
    + reflexivity.
    + exact H.
    + rewrite E. econstructor; eassumption.
Qed.

(** * Maps *)
Section MapW.
Context {K A : Type} (eqb : K -> K -> bool) (name : K -> mkey) (deck : bytes -> dres K) (D : bytes -> A -> dres A) (L : bytes -> A -> rep) (ct : gty) (z : A)
  (R : node -> A -> A -> Prop) (B : node -> A -> rep -> Prop) (keym : bytes -> K -> Prop) (inp : bytes) (fresh : bool) (N : nat).
Hypothesis HM : forall nd, jnode nd -> (length (ntext nd) <= N)%nat -> meets D R nd z.
Hypothesis HP : forall nd, jnode nd -> (length (ntext nd) <= N)%nat -> points D L B nd z.
Hypothesis HK : forall lit, string_lit lit -> key_meets deck keym lit.
Hypothesis PI : exists v r, parseValue inp = POk v r.
Notation loop := (map_loop eqb deck D z inp fresh).
Notation mat := (map_at D L ct name deck z).

Definition map_points k first b m l : Prop :=
  d_err (loop k first b m) = Some EType ->
  exists l1 lit v l2 kvs key p, l = l1 ++ (lit, v) :: l2 /\ Forall2 (entry R z keym) l1 kvs /\ keym lit key /\ B v z p /\
    mat k first b = into ct (SKey (name key)) p.
Lemma map_w_one k first w w1 lit w2 w3 v x m l rest :
  sepw first w -> ws w1 -> string_lit lit -> ws w2 -> ws w3 -> jnode v -> num_stop x -> (length (ntext v) <= N)%nat ->
  (forall b m', skip_spaces b = skip_spaces x -> map_points k false b m' l) ->
  rest = w ++ w1 ++ lit ++ w2 ++ 58 :: w3 ++ ntext v ++ x -> map_points (S k) first rest m ((lit, v) :: l).
Proof.
  intros SW W1 SL W2 W3 J NX LN C -> H. destruct (node_start v J) as (Sn & _ & Se & _).
  destruct (HK lit SL (w2 ++ 58 :: w3 ++ ntext v ++ x)) as [(key & K1 & K2 & K3)|(r1 & e & y & K1 & K2 & K3)].
  - destruct (obj_key_ok deck first w w1 lit w2 w3 (ntext v ++ x) key SW W1 SL W2 W3 (nsp_app _ _ Sn Se) K1) as [C1 C2]. unfold is_close in C1.
    cbn [map_loop] in H. cbn [map_at]. rewrite C1, C2 in *. pose proof (HP v J LN x (stop_any _ _ NX)) as P.
    destruct (HM v J LN x (stop_any _ _ NX)) as [(r1 & y & E1 & E2 & E3 & E4)|(r1 & e & y & E1 & E2 & E3)]; rewrite E1 in *; cbn [d_err d_rest d_val] in *.
    + destruct (C r1 _ E2 H) as (l1 & lit' & v' & l2 & kvs & key' & p & -> & F2 & Km & Bv & E5).
      exists ((lit, v) :: l1), lit', v', l2, ((key, y) :: kvs), key', p. split; [reflexivity|]. split; [constructor; [split; assumption|exact F2]|]. auto.
    + apply elem_err_type in H; [|exact PI]. subst e. exists [], lit, v, l, [], key, (L (ntext v ++ x) z). split; [reflexivity|]. split; [constructor|]. split; [exact K2|]. split; [apply P; reflexivity|reflexivity].
  - exfalso. destruct (obj_key_fail deck first w w1 lit _ r1 e y SW W1 SL K1) as [C1 C2]. unfold is_close in C1.
    cbn [map_loop] in H. rewrite C1, C2 in H. destruct (key_error r1 e) as [r2 e2] eqn:KE. cbn [d_err] in H. injection H as ->.
    destruct r1; [discriminate KE|]. cbn in KE. destruct e; discriminate KE.
Qed.
Lemma map_point s l : nmembers s l -> forall k first w b m r, (length s <= N)%nat -> (length s < k)%nat -> sepw first w ->
  skip_spaces b = skip_spaces (w ++ s ++ 125 :: r) -> map_points k first b m l.
Proof.
  assert (cg : forall k first b b' m l, skip_spaces b = skip_spaces b' -> map_points (S k) first b' m l -> map_points (S k) first b m l).
  { intros k first b b' m l0 E. unfold map_points. rewrite (map_cong eqb deck D z inp fresh k first b b' m E).
    replace (mat (S k) first b) with (mat (S k) first b') by (cbn [map_at]; rewrite E; reflexivity). auto. }
  induction 1 as [w1 lit w2 w3 v w4 W1 SL W2 W3 J W4|w1 lit w2 w3 v w4 t l W1 SL W2 W3 J W4 NM IH]; intros k first w b m r LN Lk SW E;
    rewrite !app_length in LN, Lk; cbn [length] in LN, Lk; rewrite !app_length in LN, Lk; cbn [length] in LN, Lk; (destruct k as [|k]; [lia|]); apply (cg _ _ _ _ _ _ E);
    destruct (node_start v J) as (_ & _ & Se & _); assert (Lv : (0 < length (ntext v))%nat) by (destruct (ntext v); [congruence|cbn; lia]).
  - eapply (map_w_one k first w w1 lit w2 w3 v (w4 ++ 125 :: r)); try eassumption; [apply num_stop_brace, W4|lia| |appn; reflexivity].
    intros b' m' E'. destruct k as [|k]; [lia|]. apply (cg _ _ _ _ _ _ E'). unfold map_points. rewrite map_close by exact W4. discriminate.
  - eapply (map_w_one k first w w1 lit w2 w3 v (w4 ++ 44 :: t ++ 125 :: r)); try eassumption; [apply num_stop_comma, W4|lia| |appn; reflexivity].
    intros b' m' E'. apply (IH k false (w4 ++ [44])) with (r := r); [lia|lia|right; split; [reflexivity|eauto]|]. rewrite E'. appn. reflexivity.
Qed.
End MapW.
Lemma decode_map_points {K A} (eqb : K -> K -> bool) name deck (D : bytes -> A -> dres A) L ct z R B keym nd old : jnode nd ->
  (forall nd', jnode nd' -> (length (ntext nd') < length (ntext nd))%nat -> meets D R nd' z) ->
  (forall nd', jnode nd' -> (length (ntext nd') < length (ntext nd))%nat -> points D L B nd' z) ->
  (forall lit, string_lit lit -> key_meets deck keym lit) ->
  forall r, stops nd r -> d_err (decode_map eqb deck D z (ntext nd ++ r) old) = Some EType ->
  match nshape nd with
  | HObj l => map_fault (into ct) R B z name keym l (decode_map_at D L ct name deck z (ntext nd ++ r))
  | _ => decode_map_at D L ct name deck z (ntext nd ++ r) = told (ntext nd ++ r) ct
  end.
Proof.
  intros J HM HP HK r NS H. assert (J' := J). unfold decode_map_at.
  destruct J as [| | |s H0|s H0|w W|s l H0|w W|s l H0]; cbn [nshape];
    try (pose proof (not_open _ r 123 J' NS) as NO; cbn [nshape] in NO; specialize (NO ltac:(first [lia|right; reflexivity]));
         destruct (node_start _ J') as (_ & _ & Se & _); destruct (ntext _ ++ r) eqn:E0; [apply app_eq_nil in E0 as [E0 _]; contradiction|]; rewrite NO; reflexivity).
  - exfalso. cbn [ntext] in *. unfold decode_map in H. revert H. change (has_null_prefix _) with false. cbv iota.
    rewrite ltb2 by (cbn [length]; rewrite app_length; cbn; lia). cbn [app]. rewrite Z.eqb_refl. rewrite <- app_assoc. cbn [app]. rewrite map_close by exact W. discriminate.
  - cbn [ntext] in *. unfold decode_map in H. revert H. change (has_null_prefix _) with false. cbv iota.
    rewrite ltb2 by (cbn [length]; rewrite app_length; cbn; lia). cbn [app]. rewrite Z.eqb_refl. rewrite <- app_assoc. cbn [app]. intros H.
    pose proof (node_parse _ r J' NS) as P. cbn [ntext app] in P. rewrite <- app_assoc in P. cbn [app] in P.
    destruct (map_point eqb name deck D L ct z R B keym (123 :: s ++ 125 :: r) (match old with None => true | _ => false end) (length s))
      with (s := s) (l := l) (k := S (length (123 :: s ++ 125 :: r))) (first := true) (w := @nil Z) (b := s ++ 125 :: r) (m := match old with None => [] | Some m => m end) (r := r)
      as (l1 & lit & v & l2 & kvs & key & p & -> & F2 & Km & Bv & E).
    + intros nd' Jn Ln. apply HM; [exact Jn|]. cbn [length]. rewrite app_length. lia.
    + intros nd' Jn Ln. apply HP; [exact Jn|]. cbn [length]. rewrite app_length. lia.
    + exact HK.
    + eauto.
    + exact H0.
    + lia.
    + cbn [length]. rewrite app_length. lia.
    + left. auto.
    + reflexivity.
    + exact H.
    + cbn [length] in *. rewrite E. econstructor; eassumption.
Qed.

(** * Structs *)
Section StructW.
Context {A : Type} (ct : gty) (look : bytes -> option ((bytes -> A -> dres A) * (bytes -> A -> rep))) (dis : bool)
  (M : bytes -> node -> A -> A -> Prop) (B : bytes -> node -> A -> rep -> Prop) (inp : bytes) (N : nat).
Notation look1 := (fun k => option_map fst (look k)).
Hypothesis HM : forall k nd x, jnode nd -> (length (ntext nd) <= N)%nat -> look_meets look1 dis M k nd x.
Hypothesis HP : forall k D L nd x, look k = Some (D, L) -> jnode nd -> (length (ntext nd) <= N)%nat -> points D L (B k) nd x.
Hypothesis PI : exists v r, parseValue inp = POk v r.
Notation loop := (struct_loop look1 dis inp).

Definition struct_points k first b m l : Prop :=
  d_err (loop k first b m) = Some EType -> struct_fault (into ct) M B l m (struct_at ct look k first b m).
Lemma struct_w_one k first w w1 lit w2 w3 v x m l rest :
  sepw first w -> ws w1 -> string_lit lit -> ws w2 -> ws w3 -> jnode v -> num_stop x -> (length (ntext v) <= N)%nat ->
  (forall b m', skip_spaces b = skip_spaces x -> struct_points k false b m' l) ->
  rest = w ++ w1 ++ lit ++ w2 ++ 58 :: w3 ++ ntext v ++ x -> struct_points (S k) first rest m ((lit, v) :: l).
Proof.
  intros SW W1 SL W2 W3 J NX LN C -> H. destruct (node_start v J) as (Sn & _ & Se & _).
  assert (K1 : deck_name (lit ++ w2 ++ 58 :: w3 ++ ntext v ++ x) = DR (w2 ++ 58 :: w3 ++ ntext v ++ x) None (str_text lit)).
  { unfold deck_name. destruct (string_lit_unquote lit (w2 ++ 58 :: w3 ++ ntext v ++ x) SL) as [i ->]. reflexivity. }
  destruct (obj_key_ok deck_name first w w1 lit w2 w3 (ntext v ++ x) (str_text lit) SW W1 SL W2 W3 (nsp_app _ _ Sn Se) K1) as [C1 C2].
  unfold is_close in C1. unfold deck_name in C2. cbn [struct_loop] in H. cbn [struct_at]. rewrite C1, C2 in *. clear C1 C2 K1.
  assert (step : forall m' p, M (str_text lit) v m m' -> struct_fault (into ct) M B l m' p -> struct_fault (into ct) M B ((lit, v) :: l) m p).
  { intros m' p Mm SF. destruct SF as [l1 lit' k' v' l2 x' y' p MR SM Bv].
    apply (stf (into ct) M B ((lit, v) :: l1) lit' k' v' l2 m y' p); [|exact SM|exact Bv]. econstructor; [apply str_text_means, SL|exact Mm|exact MR]. }
  pose proof (HM (str_text lit) v m J LN) as HL. unfold look_meets in HL. destruct (look (str_text lit)) as [[decf locf]|] eqn:EL; cbn [option_map fst] in *.
  - cbv zeta in *. pose proof (HP _ _ _ v m EL J LN x (stop_any _ _ NX)) as P.
    destruct (HL x (stop_any _ _ NX)) as [(r1 & y & E1 & E2 & E3 & E4)|(r1 & e & y & E1 & E2 & E3)]; rewrite E1 in *; cbn [d_err d_rest d_val] in *.
    + apply (step y); [exact E3|]. apply C; assumption.
    + apply elem_err_type in H; [|exact PI]. subst e. apply (stf (into ct) M B [] lit (str_text lit) v l m m); [constructor|apply str_text_means, SL|apply P; reflexivity].
  - destruct dis eqn:Ed; [discriminate H|]. rewrite <- Ed in *. rewrite (node_parse v x J (stop_any _ _ NX)) in *. apply (step m); [apply HL; auto|]. apply C; [reflexivity|exact H].
Qed.
Lemma struct_point s l : nmembers s l -> forall k first w b m r, (length s <= N)%nat -> (length s < k)%nat -> sepw first w ->
  skip_spaces b = skip_spaces (w ++ s ++ 125 :: r) -> struct_points k first b m l.
Proof.
  assert (cg : forall k first b b' m l, skip_spaces b = skip_spaces b' -> struct_points (S k) first b' m l -> struct_points (S k) first b m l).
  { intros k first b b' m l0 E. unfold struct_points. rewrite (struct_cong look1 dis inp k first b b' m E).
    replace (struct_at ct look (S k) first b m) with (struct_at ct look (S k) first b' m) by (cbn [struct_at]; rewrite E; reflexivity). auto. }
  induction 1 as [w1 lit w2 w3 v w4 W1 SL W2 W3 J W4|w1 lit w2 w3 v w4 t l W1 SL W2 W3 J W4 NM IH]; intros k first w b m r LN Lk SW E;
    rewrite !app_length in LN, Lk; cbn [length] in LN, Lk; rewrite !app_length in LN, Lk; cbn [length] in LN, Lk; (destruct k as [|k]; [lia|]); apply (cg _ _ _ _ _ _ E);
    destruct (node_start v J) as (_ & _ & Se & _); assert (Lv : (0 < length (ntext v))%nat) by (destruct (ntext v); [congruence|cbn; lia]).
  - eapply (struct_w_one k first w w1 lit w2 w3 v (w4 ++ 125 :: r)); try eassumption; [apply num_stop_brace, W4|lia| |appn; reflexivity].
    intros b' m' E'. destruct k as [|k]; [lia|]. apply (cg _ _ _ _ _ _ E'). unfold struct_points. rewrite struct_close by exact W4. discriminate.
  - eapply (struct_w_one k first w w1 lit w2 w3 v (w4 ++ 44 :: t ++ 125 :: r)); try eassumption; [apply num_stop_comma, W4|lia| |appn; reflexivity].
    intros b' m' E'. apply (IH k false (w4 ++ [44])) with (r := r); [lia|lia|right; split; [reflexivity|eauto]|]. rewrite E'. appn. reflexivity.
Qed.
End StructW.
Lemma decode_struct_points {A} (ct : gty) (look : bytes -> option ((bytes -> A -> dres A) * (bytes -> A -> rep))) dis
  (M : bytes -> node -> A -> A -> Prop) (B : bytes -> node -> A -> rep -> Prop) nd x : jnode nd ->
  (forall k nd' x, jnode nd' -> (length (ntext nd') < length (ntext nd))%nat -> look_meets (fun k => option_map fst (look k)) dis M k nd' x) ->
  (forall k D L nd' x, look k = Some (D, L) -> jnode nd' -> (length (ntext nd') < length (ntext nd))%nat -> points D L (B k) nd' x) ->
  forall r, stops nd r -> d_err (decode_struct (fun k => option_map fst (look k)) dis (ntext nd ++ r) x) = Some EType ->
  match nshape nd with
  | HObj l => struct_fault (into ct) M B l x (decode_struct_at ct look (ntext nd ++ r) x)
  | _ => decode_struct_at ct look (ntext nd ++ r) x = told (ntext nd ++ r) ct
  end.
Proof.
  intros J HM HP r NS H. assert (J' := J). unfold decode_struct_at.
  destruct J as [| | |s H0|s H0|w W|s l H0|w W|s l H0]; cbn [nshape];
    try (pose proof (not_open _ r 123 J' NS) as NO; cbn [nshape] in NO; specialize (NO ltac:(first [lia|right; reflexivity]));
         destruct (node_start _ J') as (_ & _ & Se & _); destruct (ntext _ ++ r) eqn:E0; [apply app_eq_nil in E0 as [E0 _]; contradiction|]; rewrite NO; reflexivity).
  - exfalso. cbn [ntext] in *. unfold decode_struct in H. revert H. change (has_null_prefix _) with false. cbv iota.
    rewrite ltb2 by (cbn [length]; rewrite app_length; cbn; lia). cbn [app]. rewrite Z.eqb_refl. rewrite <- app_assoc. cbn [app]. rewrite struct_close by exact W. discriminate.
  - cbn [ntext] in *. unfold decode_struct in H. revert H. change (has_null_prefix _) with false. cbv iota.
    rewrite ltb2 by (cbn [length]; rewrite app_length; cbn; lia). cbn [app]. rewrite Z.eqb_refl. rewrite <- app_assoc. cbn [app]. intros H.
    pose proof (node_parse _ r J' NS) as P. cbn [ntext app] in P. rewrite <- app_assoc in P. cbn [app] in P.
    apply (struct_point ct look dis M B (123 :: s ++ 125 :: r) (length s)) with (s := s) (w := @nil Z) (r := r).
    + intros k nd' y Jn Ln. apply HM; [exact Jn|]. cbn [length]. rewrite app_length. lia.
    + intros k D L nd' y EL Jn Ln. eapply HP; [exact EL|exact Jn|]. cbn [length]. rewrite app_length. lia.
    + eauto.
    + exact H0.
    + lia.
    + cbn [length]. rewrite app_length. lia.
    + left. auto.
    + reflexivity.
    + exact H.
Qed.

(** * From the reports of the elements to their places *)
Definition tells {A} (B : node -> A -> place -> Prop) (nd : node) (x : A) (w : rep) : Prop := exists p, B nd x p /\ reports w p.
Lemma reports_into t s w p : reports w p -> reports (into t s w) (inside t s p).
Proof. intros (H1 & H2 & H3). split; [cbn; congruence|]. split; [cbn; congruence|exact H3]. Qed.
Lemma slice_tells {A} t R (B : node -> A -> place -> Prop) z l d w : slice_fault (into t) R (tells B) z l d w ->
  exists p, slice_fault (inside t) R B z l d p /\ reports w p.
Proof. intros [l1 v l2 d' ys w' O (p & Bp & RP)]. eexists. split; [econstructor; eassumption|apply reports_into, RP]. Qed.
Lemma array_tells {A} t R (B : node -> A -> place -> Prop) l d w : array_fault (into t) R (tells B) l d w ->
  exists p, array_fault (inside t) R B l d p /\ reports w p.
Proof. intros [l1 v l2 d1 ys x d2 w' L O (p & Bp & RP)]. eexists. split; [econstructor; eassumption|apply reports_into, RP]. Qed.
Lemma map_tells {A K} t R (B : node -> A -> place -> Prop) z (name : K -> mkey) keym l w : map_fault (into t) R (tells B) z name keym l w ->
  exists p, map_fault (inside t) R B z name keym l p /\ reports w p.
Proof. intros [l1 lit v l2 kvs k w' F2 Km (p & Bp & RP)]. eexists. split; [econstructor; eassumption|apply reports_into, RP]. Qed.
Lemma struct_tells {A} t M (B : bytes -> node -> A -> place -> Prop) l x w : struct_fault (into t) M (fun k => tells (B k)) l x w ->
  exists p, struct_fault (inside t) M B l x p /\ reports w p.
Proof. intros [l1 lit k v l2 x' y w' MR SM (p & Bp & RP)]. eexists. split; [econstructor; eassumption|apply reports_into, RP]. Qed.
Lemma reports_told nd r t : (forall w rt, says t (Some (ntext nd)) w rt = (quotes w (Some (ntext nd)) /\ rt = RTy t)) ->
  reports (told (ntext nd ++ r) t) (Place [] [] (Some (ntext nd)) t).
Proof. intros H. split; [reflexivity|]. split; [reflexivity|]. cbn [pl_type pl_val r_value r_type told]. rewrite H. split; [exists r; reflexivity|reflexivity]. Qed.

(** * The decoders of single values *)
Lemma float_what_says nd r k : jnode nd -> stops nd r -> nshape nd = HNum -> float_what (ntext nd ++ r) k = WQuote (ntext nd).
Proof. intros J NS Sh. unfold float_what. rewrite (parse_number_complete _ r (num_node_inv nd J Sh) (stops_num nd r Sh NS)). reflexivity. Qed.
Lemma pos_loop_head c b : is_digit c = false -> pos_loop 0 0 (c :: b) = LInput.
Proof. intros H. cbn [pos_loop]. rewrite H. reflexivity. Qed.
Lemma uint_loop_head c b : is_digit c = false -> uint_loop 0 0 (c :: b) = LInput.
Proof. intros H. cbn [uint_loop]. rewrite H. reflexivity. Qed.
Lemma ity_what_int it s z r : int_text s z -> num_stop r -> signed it = true \/ hd 0 s <> 45 ->
  ity_what it (s ++ r) = WOver s \/ ity_what it (s ++ r) = WOver (s ++ r).
Proof.
  intros T NS H. unfold ity_what. assert (NR := num_stop_ndig r NS). destruct (signed it) eqn:Sg.
  - rewrite (parse_int_text s z r T NS). destruct (_ && _) eqn:E.
    + left. rewrite app_length, Nat.add_sub, firstn_app_len by reflexivity. reflexivity.
    + right. unfold int_what. destruct T as [ds L|ds L]; destruct (int_lit_digits ds L) as [Hne Hd]; assert (M : 0 <= dec ds) by (apply dec_from_mono; [exact Hd|lia]).
      * assert (E0 : exists c t, ds ++ r = c :: t /\ (c =? 45) = false).
        { destruct L as [|d ds' Hd']; [exists 48, r|exists d, (ds' ++ r)]; split; try reflexivity. apply Z.eqb_neq; lia. }
        destruct E0 as (c & t & E0 & E45). rewrite E0, E45, <- E0. rewrite pos_loop_spec by (auto; unfold maxI64; lia). change (dec_from 0 ds) with (dec ds).
        replace (minI64 <=? dec ds) with true in E by (symmetry; apply Z.leb_le; unfold minI64; lia). cbn [andb] in E. rewrite E. reflexivity.
      * cbn [app]. change (45 =? 45) with true. cbv iota. replace (neg_loop 0 0 (ds ++ r)) with (neg_loop (- 0) 0 (ds ++ r)) by reflexivity.
        rewrite neg_loop_spec by (auto; unfold minI64; lia). change (dec_from 0 ds) with (dec ds).
        replace (- dec ds <=? maxI64) with true in E by (symmetry; apply Z.leb_le; unfold maxI64; lia). rewrite andb_true_r in E.
        replace (dec ds <=? - minI64) with false; [reflexivity|]. symmetry. apply Z.leb_gt. apply Z.leb_gt in E. unfold minI64 in *. lia.
  - destruct H as [H|H]; [discriminate|]. destruct T as [ds L|ds L]; [|exfalso; apply H; reflexivity].
    rewrite (parse_uint_text ds r L NS). destruct (dec ds <=? maxU64) eqn:E.
    + left. rewrite app_length, Nat.add_sub, firstn_app_len by reflexivity. reflexivity.
    + right. destruct (int_lit_digits ds L) as [Hne Hd]. unfold uint_what. rewrite uint_loop_spec by (auto; unfold maxU64; lia). change (dec_from 0 ds) with (dec ds).
      rewrite E. reflexivity.
Qed.
Lemma ity_what_frac it s z c t : int_text s z -> fits64 it s z -> c = 46 \/ c = 101 \/ c = 69 ->
  (exists n, ity_what it (s ++ c :: t) = float_what (s ++ c :: t) n) \/
  exists v r, (if signed it then parse_int (s ++ c :: t) else parse_uint (s ++ c :: t)) = IOk v r.
Proof.
  intros T FI Hc. unfold ity_what. assert (NR : ndig (c :: t)) by (cbn; unfold is_digit; destruct Hc as [->|[->| ->]]; reflexivity).
  destruct (if signed it then parse_int (s ++ c :: t) else parse_uint (s ++ c :: t)) as [v r|r e]; [right; eauto|left]. unfold fits64 in FI. change (2 ^ 63) with 9223372036854775808 in FI. change (2 ^ 64) with 18446744073709551616 in FI. destruct (signed it).
  - unfold int_what. destruct T as [ds L|ds L]; destruct (int_lit_digits ds L) as [Hne Hd].
    + assert (E0 : exists a u, ds ++ c :: t = a :: u /\ (a =? 45) = false).
      { destruct L as [|d ds' Hd']; [exists 48, (c :: t)|exists d, (ds' ++ c :: t)]; split; try reflexivity. apply Z.eqb_neq; lia. }
      destruct E0 as (a & u & E0 & E45). rewrite E0, E45, <- E0. rewrite pos_loop_spec by (auto; unfold maxI64; lia). change (dec_from 0 ds) with (dec ds).
      replace (dec ds <=? maxI64) with true by (symmetry; apply Z.leb_le; unfold maxI64, minI64, maxU64; lia). eauto.
    + cbn [app]. change (45 =? 45) with true. cbv iota. replace (neg_loop 0 0 (ds ++ c :: t)) with (neg_loop (- 0) 0 (ds ++ c :: t)) by reflexivity.
      rewrite neg_loop_spec by (auto; unfold minI64; lia). change (dec_from 0 ds) with (dec ds).
      replace (dec ds <=? - minI64) with true by (symmetry; apply Z.leb_le; unfold maxI64, minI64, maxU64; lia). eauto.
  - destruct FI as [FI H]. destruct T as [ds L|ds L]; [|exfalso; apply H; reflexivity]. destruct (int_lit_digits ds L) as [Hne Hd].
    unfold uint_what. rewrite uint_loop_spec by (auto; unfold maxU64; lia). change (dec_from 0 ds) with (dec ds).
    replace (dec ds <=? maxU64) with true by (symmetry; apply Z.leb_le; unfold maxI64, minI64, maxU64; lia). eauto.
Qed.
Lemma num_node_only nd : jnode nd -> number_lit (ntext nd) -> nshape nd = HNum.
Proof.
  intros J N. destruct (number_head _ N) as (c & t & E & Hc). destruct J; try reflexivity; exfalso; cbn [ntext] in E; try (injection E; intros; lia).
  destruct H as (body & -> & _). injection E; intros; lia.
Qed.
Lemma int_text_frac s z s' z' c t : int_text s z -> int_text s' z' -> s = s' ++ c :: t -> c = 46 \/ c = 101 \/ c = 69 -> False.
Proof.
  intros T T' E Hc. assert (D : forall x, In x s -> x = 45 \/ digit x).
  { intros x I. destruct T as [ds L|ds L]; destruct (int_lit_digits ds L) as [_ D]; rewrite Forall_forall in D; [right; apply D, I|]. destruct I as [<-|I]; [left; reflexivity|right; apply D, I]. }
  destruct (D c) as [D'|D']; [rewrite E; apply in_elt|lia|unfold digit in D'; lia].
Qed.
Lemma ity_what_says it nd r : jnode nd -> stops nd r -> counts it (ity_what it (ntext nd ++ r)) (Some (ntext nd)).
Proof.
  intros J NS. assert (SH : nshape nd = HNum \/ nshape nd <> HNum) by (destruct (nshape nd); auto; right; discriminate).
  destruct (head_only nd r J NS) as (c & t & Ec & Hc). destruct SH as [Sh|Sh].
  - assert (NR := stops_num nd r Sh NS). assert (Q : forall k, float_what (ntext nd ++ r) k = WQuote (ntext nd)) by (intros k; apply float_what_says; assumption).
    assert (G : exists r0, ity_what it (ntext nd ++ r) = WQuote (ntext nd ++ r0) \/ ity_what it (ntext nd ++ r) = WOver (ntext nd ++ r0)).
    { assert (Q' : forall k, exists r0, float_what (ntext nd ++ r) k = WQuote (ntext nd ++ r0) \/ float_what (ntext nd ++ r) k = WOver (ntext nd ++ r0))
        by (intros k; exists []; left; rewrite app_nil_r; apply Q).
      unfold ity_what. fold (parse_sint it (ntext nd ++ r)). destruct (parse_sint it (ntext nd ++ r)) as [v r'|r' e] eqn:E.
      - apply sint_node in E as (_ & -> & _); [|assumption|assumption]. exists []. right. rewrite app_nil_r, app_length, Nat.add_sub, firstn_app_len by reflexivity. reflexivity.
      - destruct (signed it); [unfold int_what; rewrite Ec; destruct (c =? cMINUS); rewrite <- Ec; [destruct (neg_loop 0 0 t)|destruct (pos_loop 0 0 (ntext nd ++ r))]
                              |unfold uint_what; destruct (uint_loop 0 0 (ntext nd ++ r))];
          try apply Q'; exists r; auto. }
    destruct G as (r0 & G). exists r0. split; [exact G|]. split; [|split].
    + intros z T H. destruct G as [G|G]; [|exact G]. destruct (ity_what_int it _ z r T NR H) as [E|E]; rewrite E in G; discriminate G.
    + intros s z c0 u T FI E H. destruct (ity_what_frac it s z c0 (u ++ r) T FI H) as [(k & W)|(v & r' & P)].
      * replace (s ++ c0 :: u ++ r) with (ntext nd ++ r) in W by (rewrite E, <- app_assoc; reflexivity). rewrite W. apply Q.
      * replace (s ++ c0 :: u ++ r) with (ntext nd ++ r) in P by (rewrite E, <- app_assoc; reflexivity). fold (parse_sint it (ntext nd ++ r)) in P.
        apply sint_node in P as (_ & _ & T' & _); [|assumption|assumption]. exact (False_ind _ (int_text_frac _ _ _ _ _ _ T' T E H)).
    + intros N. elim N. apply num_node_inv; assumption.
  - assert (NL : ~ number_lit (ntext nd)) by (intros N; apply Sh, num_node_only; assumption).
    assert (W : ity_what it (ntext nd ++ r) = WQuote (ntext nd ++ r)).
    { assert (NN : c <> 45 /\ is_digit c = false) by (unfold is_digit; destruct (nshape nd); try congruence; subst c; split; reflexivity || lia).
      unfold ity_what. fold (parse_sint it (ntext nd ++ r)). destruct (parse_sint it (ntext nd ++ r)) as [v r'|r' e] eqn:E.
      - apply sint_node in E as (S & _); [contradiction|assumption|assumption].
      - destruct (signed it).
        + unfold int_what. rewrite Ec. replace (c =? cMINUS) with false by (symmetry; apply Z.eqb_neq, NN). rewrite pos_loop_head by apply NN. reflexivity.
        + unfold uint_what. rewrite Ec, uint_loop_head by apply NN. reflexivity. }
    rewrite W. exists r. split; [left; reflexivity|]. split; [|split; [|reflexivity]].
    + intros z T. elim NL. eapply int_text_number, T.
    + intros s z c0 u T FI E H. exfalso. destruct (int_text_head s z T) as (d & s' & -> & Hd). rewrite E in Ec. cbn [app] in Ec. injection Ec as <- _.
      destruct (nshape nd); try congruence; lia.
Qed.

(** * Types *)
Lemma erase_app_arr s l1 v l2 : erase (ND s (HArr (l1 ++ v :: l2))) = JArr (map erase l1 ++ erase v :: map erase l2).
Proof. cbn [erase]. rewrite map_app. reflexivity. Qed.

Section TypesW.
Context (V : tenv) (F : dflags) (OK : env_ok V).
Notation dec_ty := (dec_ty V F).
Notation stores := (stores V F).
Notation ty_at := (ty_at V F).
Notation faults := (faults V F).
Notation un := (d_usenum F).
Notation pf := (v_float V true).

Lemma dec_iface_meets n nd x : jnode nd -> (length (ntext nd) < n)%nat ->
  meets (dec_iface un pf n) (fun nd _ y => ival (num V F) (erase nd) y) nd x.
Proof.
  intros J HL r NS. rewrite (dec_iface_ok un pf n (ntext nd) (erase nd) r x (jnode_jvalue nd J) HL (stops_number nd r J NS)).
  destruct (jden un pf (erase nd)) as [w|] eqn:E.
  - left. exists r, w. split; [reflexivity|]. split; [reflexivity|]. split; [apply iface_rel; assumption|].
    intros y Y. apply iface_rel in Y; [congruence|exact J].
  - right. eexists _, _, _. split; [reflexivity|]. split; [discriminate|]. intros y Y. apply iface_rel in Y; [congruence|exact J].
Qed.
Lemma string_key_meets : forall lit, string_lit lit -> key_meets (fun b => decode_string b []) str_means lit.
Proof.
  intros lit SL r. left. exists (str_text lit). rewrite (decode_string_lit lit r [] SL). split; [reflexivity|]. split; [apply str_text_means, SL|].
  intros k' K. apply (str_means_text _ _ SL K).
Qed.
Lemma onto_ival l : forall d ys, onto (fun nd (_ : jv) y => ival (num V F) (erase nd) y) JVNull l d ys ->
  Forall (fun a => exists v, ival (num V F) a v) (map erase l).
Proof. induction l; intros d ys O; inversion O; subst; cbn [map]; constructor; eauto. Qed.
Lemma iface_points n : forall nd x, jnode nd -> (length (ntext nd) < n)%nat ->
  points (dec_iface un pf n) (iface_at un pf n) (tells (fun nd _ p => wrong (num V F) (erase nd) p)) nd x.
Proof.
  induction n as [|n IH]; intros nd x J HL r NS H; [lia|]. assert (H0 := H). cbn [dec_iface iface_at] in H |- *. rewrite (node_parse nd r J NS) in H |- *.
  destruct (head_only nd [] J (stop_any nd [] I)) as (c & t & Ec & Hc). rewrite app_nil_r in Ec.
  assert (sub : forall nd' y, jnode nd' -> (length (ntext nd') < length (ntext nd))%nat -> points (dec_iface un pf n) (iface_at un pf n) (tells (fun nd _ p => wrong (num V F) (erase nd) p)) nd' y).
  { intros nd' y J' L'. apply IH; [exact J'|lia]. }
  assert (subm : forall nd' y, jnode nd' -> (length (ntext nd') < length (ntext nd))%nat -> meets (dec_iface un pf n) (fun nd _ y => ival (num V F) (erase nd) y) nd' y).
  { intros nd' y J' L'. apply dec_iface_meets; [exact J'|lia]. }
  destruct (nshape nd) as [| | | | |l|l] eqn:Sh.
  6:{ subst c. rewrite Ec in H |- *. change (91 =? cLBRACE) with false in *. change (91 =? cLBRACK) with true in *. cbv iota in *. rewrite <- Ec in *.
      match type of H with d_err (match d_err ?X with _ => _ end) = _ => set (Y := X) in *; assert (HE : d_err Y = Some EType) by (destruct (d_err Y); [exact H|destruct (skip_spaces _); discriminate]) end.
      unfold Y in HE. cbn [d_map d_err] in HE. 
      pose proof (decode_slice_points (dec_iface un pf n) (iface_at un pf n) (YSlice YIface) _ _ JVNull nd (Some (O, repeat JVNull 10)) J subm sub [] (stop_any nd [] I)) as P.
      rewrite app_nil_r in P. specialize (P HE). rewrite Sh in P. revert P. generalize (decode_slice_at (dec_iface un pf n) (iface_at un pf n) (YSlice YIface) JVNull (ntext nd) (Some (O, repeat JVNull 10))). intros q P. apply slice_tells in P as (pl & P & RP).
      exists pl. split; [|exact RP]. rewrite (node_eta nd), Sh.
      inversion P as [l1 v l2 d ys p O Bv]; subst. rewrite erase_app_arr. rewrite <- (map_length erase l1). constructor; [|exact Bv]. eapply onto_ival, O. }
  6:{ subst c. rewrite Ec in H |- *. change (123 =? cLBRACE) with true in *. cbv iota in *. rewrite <- Ec in *.
      match type of H with d_err (match d_err ?X with _ => _ end) = _ => set (Y := X) in *; assert (HE : d_err Y = Some EType) by (destruct (d_err Y); [exact H|destruct (skip_spaces _); discriminate]) end.
      unfold Y in HE. cbn [d_map d_err] in HE. 
      pose proof (decode_map_points beqb MKStr (fun b => decode_string b []) (dec_iface un pf n) (iface_at un pf n) YMapSI JVNull _ _ str_means nd (Some [])
        J (fun nd' => subm nd' JVNull) (fun nd' => sub nd' JVNull) string_key_meets [] (stop_any nd [] I)) as P.
      rewrite app_nil_r in P. specialize (P HE). rewrite Sh in P. revert P.
      generalize (decode_map_at (dec_iface un pf n) (iface_at un pf n) YMapSI MKStr (fun b => decode_string b []) JVNull (ntext nd)). intros q P. apply map_tells in P as (pl & P & RP).
      exists pl. split; [|exact RP]. rewrite (node_eta nd), Sh.
      inversion P as [l1 lit v l2 kvs k p F2 Km Bv]; subst. cbn [erase]. rewrite map_app. cbn [map]. constructor; [|exact Km|exact Bv].
      clear -F2. induction F2 as [|[k v] [k' y] l1 kvs [_ E] _ IHF]; cbn [map]; constructor; [exists y; exact E|exact IHF]. }
  all: assert (NJ : forall v, ~ ival (num V F) (erase nd) v) by
    (intros v Y; destruct (dec_iface_meets (S n) nd x J HL r NS) as [(r1 & y & E1 & _)|(r1 & e & y & E1 & _ & E3)];
     [rewrite E1 in H0; discriminate H0|exact (E3 _ Y)]).
  all: rewrite (node_eta nd), Sh in NJ; cbn [erase] in NJ.
  1-3: exfalso; eapply NJ; constructor.
  2:{ exfalso. eapply NJ. constructor. apply str_text_means. apply str_node_inv; assumption. }
  rewrite Ec. replace (c =? cLBRACE) with false by (symmetry; apply Z.eqb_neq; lia). replace (c =? cLBRACK) with false by (symmetry; apply Z.eqb_neq; lia).
  exists (Place [] [] (Some (ntext nd)) (YFloat true)). split.
  - rewrite (node_eta nd) at 1. rewrite Sh. cbn [erase]. constructor. intros v Y. eapply NJ. constructor. exact Y.
  - rewrite <- Ec. rewrite <- (app_nil_r (ntext nd)) at 1. apply reports_told. reflexivity.
Qed.
Lemma decode_interface_points nd x : jnode nd ->
  points (decode_interface un pf) (decode_interface_at un pf) (tells (fun nd _ p => wrong (num V F) (erase nd) p)) nd x.
Proof. intros J r NS. apply iface_points; [exact J|rewrite app_length; lia|exact NS]. Qed.

Lemma bracket_no_type n t r x : (0 < n)%nat -> d_err (dec_ty n t (93 :: r) x) <> Some EType /\ d_err (dec_ty n t (93 :: r) x) <> None.
Proof.
  intros HN. split; [|destruct (bracket_rejected V F n t r x HN) as (r1 & e & y & -> & _); discriminate]. destruct n as [|n]; [lia|].
  assert (E2 : (exists c r', r = c :: r') \/ r = []) by (destruct r; eauto).
  revert x. induction t; intros x; rewrite dec_ty_eq; destruct x; try discriminate;
    try (destruct E2 as [(c & r' & ->)| ->]; discriminate).
  - rename t into it. destruct E2 as [(c & r' & ->)| ->]; destruct it; cbn; discriminate.
  - change (has_null_prefix (93 :: r)) with false. cbv iota. destruct v; try discriminate. destruct empty; discriminate.
  - destruct (Nat.eqb (length l) n0); [|discriminate]. destruct E2 as [(c & r' & ->)| ->]; discriminate.
  - change (has_null_prefix (93 :: r)) with false. cbv iota. exact (IHt _).
Qed.

Lemma leaf_says t nd r x n : jnode nd -> stops nd r -> d_err (dec_ty n t (ntext nd ++ r) x) = Some EType ->
  match t with YBytes | YIface | YArray _ _ | YSlice _ | YMap _ _ | YMapSI | YMapSR | YPtr _ | YStruct _ => False | _ => True end ->
  reports (leaf_at t (ntext nd ++ r)) (Place [] [] (Some (ntext nd)) t).
Proof.
  intros J NS HE LT. destruct t; try contradiction; try (apply reports_told; reflexivity).
  - split; [reflexivity|]. split; [reflexivity|]. split; [apply ity_what_says; assumption|reflexivity].
  - destruct (head_only nd r J NS) as (c & t & Ec & Hc). unfold leaf_at. rewrite Ec. destruct (node_start nd J) as (_ & _ & Se & _).
    destruct (ntext nd) as [|c' t'] eqn:En; [congruence|]. cbn [app] in Ec. injection Ec as -> <-. split; [destruct (negb _); reflexivity|]. split; [destruct (negb _); reflexivity|].
    destruct (Z.eqb_spec c 34) as [->|NQ]; cbn [negb].
    + split; [exists r; reflexivity|reflexivity].
    + split; [exists r; reflexivity|]. cbn [pl_val r_type told]. destruct c as [|p|p]; try reflexivity. repeat (destruct p as [p|p|]; try reflexivity). congruence.
  - unfold leaf_at. rewrite (node_parse nd r J NS). repeat split.
  - split; [|split]; [reflexivity..|exact I].
  - unfold leaf_at. rewrite (node_parse nd r J NS). destruct (head_only nd r J NS) as (c & t & Ec & Hc). destruct (node_start nd J) as (_ & _ & Se & _).
    assert (JN : nshape nd <> HNull).
    { intros Sh. rewrite dec_ty_eq in HE. destruct x; try discriminate HE. cbn [d_map d_err] in HE. unfold decode_text_user in HE. rewrite (node_parse nd r J NS) in HE.
      destruct J; try discriminate Sh. discriminate HE. }
    destruct (ntext nd) as [|c' t'] eqn:En; [congruence|]. injection Ec as -> _. unfold rv_string. destruct (Z.eqb_spec c 34) as [->|NQ].
    + repeat split.
    + split; [reflexivity|]. split; [reflexivity|]. cbn [pl_type pl_val r_value r_type says].
      assert (K : kind_of (c :: t') (kind_text (c :: t'))).
      { destruct nd as [s0 h]. cbn [ntext nshape] in *. subst s0. destruct h; try congruence.
        - inversion J. constructor.
        - inversion J. constructor.
        - unfold kind_text. destruct (Z.eqb_spec c 123); [lia|]. destruct (Z.eqb_spec c 91); [lia|]. destruct (Z.eqb_spec c 116); [lia|]. destruct (Z.eqb_spec c 102); [lia|]. constructor. exact Hc.
        - subst c. constructor.
        - subst c. constructor. }
      assert (G : RPtr (YText u) = RPtr (YText u) /\ exists k, WText (kind_text (c :: t')) = WText k /\ kind_of (c :: t') k) by eauto.
      destruct c as [|p|p]; try exact G. repeat (destruct p as [p|p|]; try exact G). exact I.
  - unfold leaf_at. rewrite (node_parse nd r J NS). repeat split.
Qed.
Lemma on_path_points p D L B nd : (forall x, points D L B nd x) ->
  forall x, points (on_path V p D) (on_path_at V p L) (fun nd x q => exists y, reach V p x y /\ B nd y q) nd x.
Proof.
  intros H. induction p as [|[i|i s u] p IH]; intros x r NS HE.
  - exists x. split; [constructor|]. exact (H x r NS HE).
  - destruct x as [| | | | | | | |l| | | |]; try discriminate HE. cbn [on_path on_path_at] in *.
    destruct (nth_error l i) as [m|] eqn:E; [|discriminate HE]. destruct (nth_error_split _ _ E) as (l1 & l2 & -> & <-).
    destruct (IH m r NS HE) as (y & R & By). exists y. split; [constructor; exact R|exact By].
  - destruct x as [| | | | | | | |l| | | |]; try discriminate HE. cbn [on_path on_path_at] in *.
    destruct (nth_error l i) as [m|] eqn:E; [|discriminate HE]. destruct (nth_error_split _ _ E) as (l1 & l2 & -> & <-).
    destruct m; try discriminate HE. destruct p0 as [m|].
    + destruct (IH m r NS HE) as (y & R & By). exists y. split; [constructor; exact R|exact By].
    + destruct u; [discriminate HE|]. destruct (IH _ r NS HE) as (y & R & By). exists y. split; [constructor; exact R|exact By].
Qed.

Lemma here_at n t nd x r w : jnode nd -> (length (ntext nd) < n)%nat -> ~ opens t nd x -> stops nd r ->
  d_err (dec_ty n t (ntext nd ++ r) x) = Some EType -> reports w (Place [] [] (Some (ntext nd)) t) -> tells (faults t) nd x w.
Proof.
  intros J HL NO NS HE RP. eexists. split; [|exact RP]. constructor; [exact NO|]. intros y Y.
  destruct (dec_ty_meets V F OK n t nd x J HL r NS) as [(r1 & z & E1 & _)|(r1 & e & z & _ & _ & E3)]; [rewrite E1 in HE; discriminate HE|exact (E3 _ Y)].
Qed.
Lemma find_field_picks_in fs k f : find_field V F fs k = Some f -> In f fs.
Proof.
  unfold find_field. destruct (find _ (rev fs)) as [g|] eqn:E; [intros [= <-]; apply find_some in E as [E _]; apply in_rev, E|].
  destruct (d_nocase F); [discriminate|]. intros H. apply find_some in H. apply H.
Qed.

Lemma decode_struct_look {A} (look look' : bytes -> option (bytes -> A -> dres A)) dis b m : (forall k, look k = look' k) ->
  decode_struct look dis b m = decode_struct look' dis b m.
Proof.
  intros E. assert (SL : forall inp k first b m, struct_loop look dis inp k first b m = struct_loop look' dis inp k first b m).
  { intros inp k. induction k as [|k IH]; intros first b0 m0; [reflexivity|]. cbn [struct_loop]. cbv zeta. destruct (match skip_spaces b0 with [] => _ | _ => _ end); [reflexivity|].
    destruct (obj_key _ _ _) as [[]|[b1 key]]; [reflexivity|]. rewrite <- E. destruct (look key) as [D|].
    - destruct (d_err (D b1 m0)); [reflexivity|apply IH].
    - destruct dis; [reflexivity|]. destruct (parseValue b1); [apply IH|reflexivity]. }
  unfold decode_struct. destruct b as [|c b1]; [reflexivity|]. rewrite SL. reflexivity.
Qed.
Lemma no_bracket nd r : jnode nd -> stops nd r -> match nshape nd with HArr _ => True | _ => exists c t, ntext nd ++ r = c :: t /\ (c =? cLBRACK) = false end.
Proof.
  intros J NS. destruct (head_only nd r J NS) as (c & t & E & Hc). destruct (nshape nd); try exact I; exists c, t; (split; [exact E|]); apply Z.eqb_neq; lia.
Qed.
Lemma shape_split nd : (exists l, nshape nd = HArr l) \/ (exists l, nshape nd = HObj l) \/ ((forall l, nshape nd <> HArr l) /\ forall l, nshape nd <> HObj l).
Proof. destruct (nshape nd); eauto; right; right; split; discriminate. Qed.

Lemma leaf_quoted n t b x : match t with YBool | YInt _ | YFloat _ | YString | YNumber | YDuration | YJSON _ | YText _ => True | _ => False end ->
  reports (ty_at n t b x) (Place [] [] None t).
Proof.
  intros Q. destruct t; try contradiction; destruct n; try (repeat split; fail);
    try (cbn [WhereModel.ty_at leaf_at]; destruct b as [|c b]; [repeat split; left; reflexivity|]; destruct (negb (c =? cQUOTE)); repeat split; [right|left]; reflexivity);
    cbn [WhereModel.ty_at leaf_at]; destruct (parseValue b); try (repeat split; fail); destruct (rv_string v); repeat split.
Qed.
Lemma ptr_says n t b x : quotable t -> d_err (dec_ty n t b x) = Some EType -> reports (ty_at n t b x) (Place [] [] None (deref t)).
Proof.
  intros Q HE. destruct t; try contradiction; try (apply leaf_quoted; exact I). rewrite dec_ty_eq in HE. destruct x; try discriminate HE.
  replace (ty_at n (YPtr t) b (MPtr p)) with (ty_at n t b (match p with Some x => x | None => zero V t end)) by (destruct n; reflexivity).
  cbn [deref]. apply leaf_quoted. destruct t; try contradiction; exact I.
Qed.
Lemma told_quoted v t : quotable t -> reports (told v (deref t)) (Place [] [] None (deref t)).
Proof. intros Q. destruct t; try contradiction; try (repeat split; left; reflexivity). cbn [deref]. destruct t; try contradiction; repeat split; left; reflexivity. Qed.
Lemma field_says n f b x : jf_quot f <> QNo -> (jf_quot f <> QNo -> quotable (jf_ty f)) ->
  d_err (decode_field V f (dec_ty n (jf_ty f)) b x) = Some EType ->
  reports (field_at f (dec_ty n (jf_ty f)) (ty_at n (jf_ty f)) b x) (Place [] [] None (deref (jf_ty f))).
Proof.
  intros NQ HQ HE. specialize (HQ NQ). unfold decode_field in HE. unfold field_at. destruct (jf_quot f); [congruence|..].
  - unfold decode_from_string in HE. destruct (has_null_prefix b); [apply ptr_says; assumption|].
    destruct (parse_string_unquote b []); try discriminate HE. cbv zeta in HE.
    destruct (d_err (dec_ty n (jf_ty f) s x)) eqn:E; [|destruct (skip_spaces _); discriminate HE]. injection HE as ->. apply ptr_says; assumption.
  - unfold decode_from_string_int in HE. destruct (has_null_prefix b); [apply ptr_says; assumption|]. cbv zeta in *.
    match goal with |- reports (match b with [] => ?q | _ => _ end) _ => set (quo := q); assert (G : d_err (match parse_string_unquote b [] with
      | QErr _ _ => in_err [] x | QPanic => DR b (Some EPanicked) x | QFuel => DR b (Some EFuel) x
      | QOk v r _ => let v := strip_zeroes v in let x := dec_ty n (jf_ty f) v x in
          match d_err x with
          | Some ESyntax => DR r (Some (match v with 45 :: _ => EType | _ => EOther end)) (d_val x)
          | Some e =>
              let e := match parse_number v with
                       | POk _ _ => e
                       | PErr _ _ => match parseValue v with POk _ _ => EOther | PErr _ _ => e end
                       end in
              DR r (Some e) (d_val x)
          | None => match d_rest x with
                    | [] => DR r None (d_val x)
                    | u => DR u (Some EType) (d_val x)
                    end
          end end) = Some EType -> reports quo (Place [] [] None (deref (jf_ty f)))) end.
    { clear HE. unfold quo. destruct (parse_string_unquote b []); try discriminate. cbv zeta. intros HE.
      destruct (d_err (dec_ty n (jf_ty f) (strip_zeroes s) x)) as [e|] eqn:E; [|apply told_quoted, HQ].
      destruct e; try (apply told_quoted, HQ); try (exfalso; cbn [d_err] in HE; destruct (parse_number _); [discriminate HE|destruct (parseValue _); discriminate HE]).
      apply ptr_says; [exact HQ|exact E]. }
    destruct b as [|c b1]; [apply G, HE|]. destruct (negb (c =? cQUOTE)).
    + destruct (parse_number (c :: b1)); [apply told_quoted, HQ|discriminate HE].
    + destruct b1 as [|c1 b1]; [apply G, HE|]. destruct (c1 =? cQUOTE); [discriminate HE|apply G, HE].
Qed.
Ltac bp := try (let r := fresh in let NS := fresh in let HE := fresh in intros r NS HE; rewrite dec_ty_eq in HE; discriminate HE).
Lemma dec_ty_points n : forall t nd x, jnode nd -> (length (ntext nd) < n)%nat -> points (dec_ty n t) (ty_at n t) (tells (faults t)) nd x.
Proof.
  induction n as [|n IHn]; intros t nd x J HL; [lia|]. revert nd x J HL.
  induction t; intros nd x J HL; try (intros r NS HE; apply (here_at (S n) _ nd _ r _ J HL); [intros []|exact NS|exact HE|eapply leaf_says; [exact J|exact NS|exact HE|exact I]]; fail).
  - (* bytes *)
    destruct x; bp. intros r NS HE. assert (HE0 := HE). rewrite dec_ty_eq in HE. cbn [d_map d_err] in HE.
    change (ty_at (S n) YBytes (ntext nd ++ r) (MBytes s)) with (decode_slice_at (decode_int TUint8) (fun b (_ : Z) => leaf_at (YInt TUint8) b) YBytes 0 (ntext nd ++ r) s).
    pose proof (no_bracket nd r J NS) as NB.
    destruct (nshape nd) as [| | | | |l|l] eqn:Sh;
      try (unfold decode_slice_at; destruct NB as (c & t & E & Ec); rewrite E, Ec, <- E; apply (here_at (S n) _ nd _ r _ J HL); [unfold opens; rewrite Sh; intros []|exact NS|exact HE0|apply reports_told; reflexivity]).
    pose proof (decode_slice_points (decode_int TUint8) (fun b (_ : Z) => leaf_at (YInt TUint8) b) YBytes (fun v x y => stores (YInt TUint8) v (MInt x) (MInt y)) (tells (fun v x => faults (YInt TUint8) v (MInt x))) 0 nd s J) as P.
    rewrite Sh in P. assert (Ed : nd = ND (ntext nd) (HArr l)) by (rewrite <- Sh; apply node_eta).
    assert (Q1 : forall nd' y, jnode nd' -> (length (ntext nd') < length (ntext nd))%nat -> meets (decode_int TUint8) (fun v x y => stores (YInt TUint8) v (MInt x) (MInt y)) nd' y).
    { intros nd' y J' L'. eapply meets_ext; [reflexivity| |apply int_meets, J']. intros z. apply uint8_rel. }
    assert (Q2 : forall nd' y, jnode nd' -> (length (ntext nd') < length (ntext nd))%nat -> points (decode_int TUint8) (fun b (_ : Z) => leaf_at (YInt TUint8) b) (tells (fun v x => faults (YInt TUint8) v (MInt x))) nd' y).
    { intros nd' y J' L' r' NS' HE'. assert (HE1 : d_err (dec_ty (S n) (YInt TUint8) (ntext nd' ++ r') (MInt y)) = Some EType) by (rewrite dec_ty_eq; exact HE').
      apply (here_at (S n) (YInt TUint8) nd' (MInt y) r' _ J' ltac:(lia)); [intros []|exact NS'|exact HE1|]. eapply leaf_says; [exact J'|exact NS'|exact HE1|exact I]. }
    assert (Q3 : d_err (decode_slice (decode_int TUint8) 0 (ntext nd ++ r) s) = Some EType).
    { rewrite <- HE. f_equal. unfold decode_bytes, decode_slice. rewrite (null_only nd r J NS), Sh. destruct (head_only nd r J NS) as (c & t & Ec & Hc). rewrite Sh in Hc. subst c. rewrite Ec.
      destruct (Nat.ltb _ 2) eqn:L; [reflexivity|]. cbn [negb Z.eqb]. reflexivity. }
    specialize (P Q1 Q2 r NS Q3). apply slice_tells in P as (pl & P & RP). exists pl. split; [|exact RP]. rewrite Ed at 1. apply fa_bytes. exact P.
  - (* interface{} *)
    destruct x; bp. intros r NS HE. rewrite dec_ty_eq in HE. destruct (decode_interface_points nd v J r NS HE) as (pl & W & RP). exists pl. split; [apply fa_iface, W|exact RP].
  - (* other interfaces *)
    destruct x; bp. intros r NS HE. assert (HE0 := HE). rewrite dec_ty_eq in HE. rewrite (null_only nd r J NS) in HE.
    assert (HH : ~ opens (YNamedIface empty) nd (MIface v) -> ty_at (S n) (YNamedIface empty) (ntext nd ++ r) (MIface v) = leaf_at (YNamedIface empty) (ntext nd ++ r) ->
      tells (faults (YNamedIface empty)) nd (MIface v) (ty_at (S n) (YNamedIface empty) (ntext nd ++ r) (MIface v))).
    { intros NO ->. apply (here_at (S n) _ nd _ r _ J HL NO NS HE0). eapply leaf_says; [exact J|exact NS|exact HE0|exact I]. }
    destruct empty; [|apply HH; [unfold opens; destruct (nshape nd); auto|reflexivity]].
    destruct v; try (apply HH; [unfold opens; destruct (nshape nd); discriminate|reflexivity]).
    assert (NN : nshape nd <> HNull) by (destruct (nshape nd); [discriminate HE|discriminate..]).
    change (ty_at (S n) (YNamedIface true) (ntext nd ++ r) (MIface JVNull)) with (decode_interface_at un pf (skip_spaces (ntext nd ++ r)) JVNull).
    destruct (node_start nd J) as (Sn & _ & Se & _).
    assert (ES : skip_spaces (ntext nd ++ r) = ntext nd ++ r) by (apply skip_spaces_nsp, nsp_app; assumption).
    rewrite ES. destruct (decode_interface_points nd JVNull J r NS) as (pl & W & RP); [|exists pl; split; [apply fa_named; [exact NN|exact W]|exact RP]].
    destruct (nshape nd); [congruence|..]; unfold parse_with in HE; cbn [d_map d_err] in HE; rewrite ES in HE; exact HE.
  - (* arrays *)
    destruct x; bp. intros r NS HE. assert (HE0 := HE). rewrite dec_ty_eq in HE. destruct (Nat.eqb (length l) n0) eqn:E; [|discriminate HE]. apply Nat.eqb_eq in E. cbn [d_map d_err] in HE.
    change (ty_at (S n) (YArray n0 t) (ntext nd ++ r) (MList l)) with (decode_array_at (dec_ty (S n) t) (ty_at (S n) t) (YArray n0 t) (ntext nd ++ r) l).
    pose proof (decode_array_points (dec_ty (S n) t) (ty_at (S n) t) (YArray n0 t) (stores t) (tells (faults t)) nd l J
      (fun nd' y J' L' => dec_ty_meets V F OK (S n) t nd' y J' ltac:(lia)) (fun nd' y J' L' => IHt nd' y J' ltac:(lia))
      (fun r y => bracket_no_type (S n) t r y ltac:(lia)) r NS HE) as P.
    destruct (nshape nd) as [| | | | |l0|l0] eqn:Sh;
      try (rewrite P; apply (here_at (S n) _ nd _ r _ J HL); [unfold opens; rewrite Sh; intros []|exact NS|exact HE0|apply reports_told; reflexivity]).
    apply array_tells in P as (pl & P & RP). exists pl. split; [|exact RP]. rewrite (node_eta nd), Sh. apply fa_array; [exact E|exact P].
  - (* slices *)
    destruct x; bp. intros r NS HE. assert (HE0 := HE). rewrite dec_ty_eq in HE. cbn [d_map d_err] in HE.
    change (ty_at (S n) (YSlice t) (ntext nd ++ r) (MSlice s)) with (decode_slice_at (dec_ty (S n) t) (ty_at (S n) t) (YSlice t) (zero V t) (ntext nd ++ r) s).
    pose proof (decode_slice_points (dec_ty (S n) t) (ty_at (S n) t) (YSlice t) (stores t) (tells (faults t)) (zero V t) nd s J
      (fun nd' y J' L' => dec_ty_meets V F OK (S n) t nd' y J' ltac:(lia)) (fun nd' y J' L' => IHt nd' y J' ltac:(lia)) r NS HE) as P.
    destruct (nshape nd) as [| | | | |l0|l0] eqn:Sh;
      try (rewrite P; apply (here_at (S n) _ nd _ r _ J HL); [unfold opens; rewrite Sh; intros []|exact NS|exact HE0|apply reports_told; reflexivity]).
    apply slice_tells in P as (pl & P & RP). exists pl. split; [|exact RP]. rewrite (node_eta nd), Sh. apply fa_slice. exact P.
  - (* maps *)
    destruct x; bp. intros r NS HE. assert (HE0 := HE). rewrite dec_ty_eq in HE. cbn [d_map d_err] in HE.
    change (ty_at (S n) (YMap k t) (ntext nd ++ r) (MMap m)) with (decode_map_at (dec_ty (S n) t) (ty_at (S n) t) (YMap k t) (fun k => k) (decode_key V k) (zero V t) (ntext nd ++ r)).
    pose proof (decode_map_points mkey_eqb (fun k => k) (decode_key V k) (dec_ty (S n) t) (ty_at (S n) t) (YMap k t) (zero V t) (stores t) (tells (faults t)) (key_means V k) nd m J
      (fun nd' J' L' => dec_ty_meets V F OK (S n) t nd' _ J' ltac:(lia)) (fun nd' J' L' => IHt nd' _ J' ltac:(lia)) (key_means_meets V OK k) r NS HE) as P.
    destruct (nshape nd) as [| | | | |l0|l0] eqn:Sh;
      try (rewrite P; apply (here_at (S n) _ nd _ r _ J HL); [unfold opens; rewrite Sh; intros []|exact NS|exact HE0|apply reports_told; reflexivity]).
    apply map_tells in P as (pl & P & RP). exists pl. split; [|exact RP]. rewrite (node_eta nd), Sh. apply fa_map. exact P.
  - (* map[string]interface{} *)
    destruct x; bp. intros r NS HE. assert (HE0 := HE). rewrite dec_ty_eq in HE. cbn [d_map d_err] in HE.
    match goal with |- tells _ _ _ ?q => change q with
     (decode_map_at (fun b x => d_map MIface (decode_interface un pf b JVNull)) (fun b (x : mem) => decode_interface_at un pf b JVNull) YMapSI (fun k => k) (decode_key V KYString) (MIface JVNull) (ntext nd ++ r)) end.
    assert (ZE : zero V YIface = MIface JVNull) by (unfold zero; destruct (v_depth V); reflexivity).
    pose proof (decode_map_points mkey_eqb (fun k => k) (decode_key V KYString) (fun b x => d_map MIface (decode_interface un pf b JVNull)) (fun b (x : mem) => decode_interface_at un pf b JVNull) YMapSI (MIface JVNull)
      (stores YIface) (tells (faults YIface)) (key_means V KYString) nd m J) as P.
    assert (HM : forall nd', jnode nd' -> (length (ntext nd') < length (ntext nd))%nat -> meets (fun b x => d_map MIface (decode_interface un pf b JVNull)) (stores YIface) nd' (MIface JVNull)).
    { intros nd' J' L. eapply meets_ext; [|reflexivity|apply (iface_meets V F n nd' (MIface JVNull) J')]. intros r' NS'. rewrite dec_ty_eq. reflexivity. }
    assert (HP : forall nd', jnode nd' -> (length (ntext nd') < length (ntext nd))%nat -> points (fun b x => d_map MIface (decode_interface un pf b JVNull)) (fun b (x : mem) => decode_interface_at un pf b JVNull) (tells (faults YIface)) nd' (MIface JVNull)).
    { intros nd' J' L r' NS' HE'. destruct (decode_interface_points nd' JVNull J' r' NS' HE') as (pl & W & RP). exists pl. split; [apply fa_iface, W|exact RP]. }
    specialize (P HM HP (key_means_meets V OK KYString) r NS HE).
    destruct (nshape nd) as [| | | | |l0|l0] eqn:Sh;
      try (rewrite P; apply (here_at (S n) _ nd _ r _ J HL); [unfold opens; rewrite Sh; intros []|exact NS|exact HE0|apply reports_told; reflexivity]).
    apply map_tells in P as (pl & P & RP). exists pl. split; [|exact RP]. rewrite (node_eta nd), Sh. apply fa_map_si. rewrite ZE. exact P.
  - (* map[string]RawMessage *)
    destruct x; bp. intros r NS HE. assert (HE0 := HE). rewrite dec_ty_eq in HE. cbn [d_map d_err] in HE.
    match goal with |- tells _ _ _ ?q => change q with
     (decode_map_at (fun b x => d_map MRaw (decode_raw b None)) (fun _ (_ : mem) => no_rep) YMapSR (fun k => k) (decode_key V KYString) (MRaw None) (ntext nd ++ r)) end.
    assert (ZE : zero V YRaw = MRaw None) by (unfold zero; destruct (v_depth V); reflexivity).
    pose proof (decode_map_points mkey_eqb (fun k => k) (decode_key V KYString) (fun b x => d_map MRaw (decode_raw b None)) (fun _ (_ : mem) => no_rep) YMapSR (MRaw None)
      (stores YRaw) (tells (faults YRaw)) (key_means V KYString) nd m J) as P.
    assert (HM : forall nd', jnode nd' -> (length (ntext nd') < length (ntext nd))%nat -> meets (fun b x => d_map MRaw (decode_raw b None)) (stores YRaw) nd' (MRaw None)).
    { intros nd' J' L. eapply meets_ext; [|reflexivity|apply (raw_meets V F n nd' (MRaw None) J')]. intros r' NS'. rewrite dec_ty_eq. reflexivity. }
    assert (HP : forall nd', jnode nd' -> (length (ntext nd') < length (ntext nd))%nat -> points (fun b x => d_map MRaw (decode_raw b None)) (fun _ (_ : mem) => no_rep) (tells (faults YRaw)) nd' (MRaw None)).
    { intros nd' J' L r' NS' HE'. exfalso. unfold decode_raw in HE'. rewrite (node_parse nd' r' J' NS') in HE'. discriminate HE'. }
    specialize (P HM HP (key_means_meets V OK KYString) r NS HE).
    destruct (nshape nd) as [| | | | |l0|l0] eqn:Sh;
      try (rewrite P; apply (here_at (S n) _ nd _ r _ J HL); [unfold opens; rewrite Sh; intros []|exact NS|exact HE0|apply reports_told; reflexivity]).
    apply map_tells in P as (pl & P & RP). exists pl. split; [|exact RP]. rewrite (node_eta nd), Sh. apply fa_map_sr. rewrite ZE. exact P.
  - (* pointers *)
    destruct x; bp. intros r NS HE. rewrite dec_ty_eq in HE. rewrite (null_only nd r J NS) in HE.
    change (ty_at (S n) (YPtr t) (ntext nd ++ r) (MPtr p)) with (ty_at (S n) t (ntext nd ++ r) (match p with Some x => x | None => zero V t end)).
    destruct (nshape nd) eqn:Sh.
    { exfalso. destruct p as [x|]; [|discriminate HE]. destruct t; try discriminate HE. cbn [d_map d_err] in HE.
      destruct (IHt nd x J HL r NS HE) as (pl & P & _). inversion P; subst; [match goal with H : ~ opens _ _ _ |- _ => apply H; exact I end|congruence]. }
    all: (destruct (IHt nd _ J HL r NS HE) as (pl & P & RP); exists pl; split; [apply fa_ptr; [rewrite Sh; discriminate|exact P]|exact RP]).
  - (* structs *)
    destruct x; bp. intros r NS HE. assert (HE0 := HE). rewrite dec_ty_eq in HE.
    set (look := fun k => match find_field V F (v_flds V i) k with
                      | Some f => Some (on_path V (jf_path f) (decode_field V f (dec_ty n (jf_ty f))),
                                        on_path_at V (jf_path f) (field_at f (dec_ty n (jf_ty f)) (ty_at n (jf_ty f))))
                      | None => None
                      end).
    change (ty_at (S n) (YStruct i) (ntext nd ++ r) (MList l)) with (decode_struct_at (YStruct i) look (ntext nd ++ r) (MList l)).
    set (look1 := fun k => match find_field V F (v_flds V i) k with
                      | Some f => Some (on_path V (jf_path f) (decode_field V f (dec_ty n (jf_ty f))))
                      | None => None
                      end) in HE.
    rewrite (decode_struct_look look1 (fun k => option_map fst (look k))) in HE by (intros k; unfold look, look1; destruct (find_field V F (v_flds V i) k); reflexivity).
    pose proof (decode_struct_points (YStruct i) look (d_disallow F) (member V F i) (fun k => tells (at_field V F i k)) nd (MList l) J) as P.
    assert (HQ : forall k f, find_field V F (v_flds V i) k = Some f -> jf_quot f <> QNo -> quotable (jf_ty f)).
    { intros k f FF Q. eapply (ok_quot V OK); [|exact Q]. eapply find_field_picks_in, FF. }
    assert (HM : forall k nd' x, jnode nd' -> (length (ntext nd') < length (ntext nd))%nat -> look_meets (fun k => option_map fst (look k)) (d_disallow F) (member V F i) k nd' x).
    { intros k nd' x J' L. unfold look_meets, look. pose proof (find_field_picks V F (v_flds V i) k) as PK.
      destruct (find_field V F (v_flds V i) k) as [f|] eqn:FF; cbn [option_map fst].
      * eapply meets_ext; [reflexivity| |apply (path_meets V _ (quoted (jf_quot f) (stores (jf_ty f)))); intros x'; apply field_meets].
        -- intros y. split; [intros Y; inversion Y as [i' k' v' x'' PK' DD|i' k' f' v' x'' y' PK' P']; subst; pose proof (picks_uniq V F _ _ _ _ PK PK'); [congruence|]|].
           ++ assert (f = f') as <- by congruence. exact P'.
           ++ intros P'. eapply me_field; eassumption.
        -- exact OK.
        -- exact J'.
        -- intros _. apply dec_ty_meets; [exact OK|exact J'|lia].
        -- apply (HQ k f FF).
      * intros y. split; [intros Y; inversion Y as [i' k' v' x'' PK' DD|i' k' f' v' x'' y' PK' P']; subst; [auto|pose proof (picks_uniq V F _ _ _ _ PK PK'); congruence]|].
        intros [D ->]. constructor; assumption. }
    assert (HP : forall k D L nd' x, look k = Some (D, L) -> jnode nd' -> (length (ntext nd') < length (ntext nd))%nat -> points D L (tells (at_field V F i k)) nd' x).
    { intros k D L nd' x EL J' L'. unfold look in EL. pose proof (find_field_picks V F (v_flds V i) k) as PK.
      destruct (find_field V F (v_flds V i) k) as [f|] eqn:FF; [|discriminate]. injection EL as <- <-.
      intros r' NS' HE'. destruct (jf_quot f) eqn:Q.
      - destruct (on_path_points (jf_path f) (decode_field V f (dec_ty n (jf_ty f))) (field_at f (dec_ty n (jf_ty f)) (ty_at n (jf_ty f))) (tells (faults (jf_ty f))) nd') with (x := x) (r := r') as (y & R & pl & B & RP); [|exact NS'|exact HE'|].
        + intros y r0 NS0 HE1. unfold decode_field in HE1. unfold field_at. rewrite Q in *. apply IHn; [exact J'|lia|exact NS0|exact HE1].
        + exists pl. split; [eapply at_plain; eassumption|exact RP].
      - destruct (on_path_points (jf_path f) (decode_field V f (dec_ty n (jf_ty f))) (field_at f (dec_ty n (jf_ty f)) (ty_at n (jf_ty f))) (fun nd y q => reports q (Place [] [] None (deref (jf_ty f))) /\ forall z, ~ quoted (jf_quot f) (stores (jf_ty f)) nd y z) nd') with (x := x) (r := r') as (y & R & RP & B); [|exact NS'|exact HE'|].
        + intros y r0 NS0 HE1. split; [apply field_says; [congruence|exact (HQ k f FF)|exact HE1]|]. intros z Z.
          destruct (field_meets V F OK n f nd' y J' ltac:(congruence) (HQ k f FF) r0 NS0) as [(r1 & z' & E1 & _)|(r1 & e & z' & E1 & _ & E3)]; [rewrite E1 in HE1; discriminate|exact (E3 z Z)].
        + eexists. split; [eapply at_quoted; try eassumption; congruence|exact RP].
      - destruct (on_path_points (jf_path f) (decode_field V f (dec_ty n (jf_ty f))) (field_at f (dec_ty n (jf_ty f)) (ty_at n (jf_ty f))) (fun nd y q => reports q (Place [] [] None (deref (jf_ty f))) /\ forall z, ~ quoted (jf_quot f) (stores (jf_ty f)) nd y z) nd') with (x := x) (r := r') as (y & R & RP & B); [|exact NS'|exact HE'|].
        + intros y r0 NS0 HE1. split; [apply field_says; [congruence|exact (HQ k f FF)|exact HE1]|]. intros z Z.
          destruct (field_meets V F OK n f nd' y J' ltac:(congruence) (HQ k f FF) r0 NS0) as [(r1 & z' & E1 & _)|(r1 & e & z' & E1 & _ & E3)]; [rewrite E1 in HE1; discriminate|exact (E3 z Z)].
        + eexists. split; [eapply at_quoted; try eassumption; congruence|exact RP]. }
    specialize (P HM HP r NS HE).
    destruct (nshape nd) as [| | | | |l0|l0] eqn:Sh;
      try (rewrite P; apply (here_at (S n) _ nd _ r _ J HL); [unfold opens; rewrite Sh; intros []|exact NS|exact HE0|apply reports_told; reflexivity]).
    apply struct_tells in P as (pl & P & RP). exists pl. split; [|exact RP]. rewrite (node_eta nd), Sh. apply fa_struct. exact P.
Qed.
End TypesW.
