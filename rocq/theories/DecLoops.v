(** The element loops of the decoders on well-formed arrays and objects. *)
From Verif Require Import Bytes AsciiModel Utf8Model ParseModel IntModel StringModel EncModel DecModel
  SpecJson SpecString ParseFacts Utf8Facts StringFacts.

Definition sepw (first : bool) (w : bytes) : Prop :=
  (first = true /\ w = []) \/ (first = false /\ exists w', ws w' /\ w = w' ++ [44]).

Lemma set_nth_app {A} (p : list A) x y q : set_nth (length p) x (p ++ y :: q) = p ++ x :: q.
Proof.
  unfold set_nth. rewrite firstn_app_len by reflexivity.
  replace (p ++ y :: q) with ((p ++ [y]) ++ q) by (rewrite <- app_assoc; reflexivity).
  rewrite skipn_app_len by (rewrite app_length; cbn; lia). reflexivity.
Qed.

(** * Slices *)
(** Backing arrays whose cells from [len] on are zero. *)
Definition cells {A} (zero : A) (p : list A) (d : list A) : Prop := exists n, d = p ++ repeat zero n.

Section Slice.
Context {A : Type} (dec : bytes -> A -> dres A) (zero : A) (input : bytes).

Definition slice_elem (k : nat) (b : bytes) (len : nat) (d : list A) : dres (sl A) :=
  let d := if Nat.eqb len (length d) then grow zero d else d in
  let x := dec b (nth len d zero) in
  match d_err x with
  | None => slice_loop dec zero input k (d_rest x) (S len) (Some (set_nth len (d_val x) d))
  | Some e => elem_err input e (Some (len, set_nth len (d_val x) d))
  end.
Definition contents (data : option (list A)) : list A := match data with None => [] | Some d => d end.

Lemma slice_step k w w1 s len data : ws w1 -> sepw (Nat.eqb len 0) w -> nsp s -> hd 0 s <> 93 -> s <> [] ->
  slice_loop dec zero input (S k) (w ++ w1 ++ s) len data = slice_elem k s len (contents data).
Proof.
  intros W1 SW N H NE. cbn [slice_loop]. destruct SW as [[E ->]|[E (w' & W & ->)]].
  - cbn [app]. rewrite skip_spaces_ws by exact W1. rewrite (skip_spaces_nsp s N).
    destruct s as [|c s]; [congruence|]. cbn [hd] in H. destruct (c =? 93) eqn:Ec; [zb; lia|].
    rewrite E. reflexivity.
  - rewrite <- app_assoc. cbn [app]. rewrite skip_spaces_ws by exact W. rewrite (skip_spaces_nsp (44 :: _)) by reflexivity.
    change (44 =? 93) with false. cbv iota. rewrite E. change (44 =? 44) with true. cbv iota.
    rewrite skip_spaces_ws by exact W1. rewrite (skip_spaces_nsp s N). reflexivity.
Qed.

Lemma slice_close k w r len data : ws w ->
  slice_loop dec zero input (S k) (w ++ 93 :: r) len data = DR r None (Some (len, contents data)).
Proof.
  intros W. cbn [slice_loop]. rewrite skip_spaces_ws by exact W. rewrite (skip_spaces_nsp (93 :: r)) by reflexivity.
  change (93 =? 93) with true. cbv iota. reflexivity.
Qed.

Lemma cells_grow p d : cells zero p d -> cells zero p (if Nat.eqb (length p) (length d) then grow zero d else d) /\
  exists q, (if Nat.eqb (length p) (length d) then grow zero d else d) = p ++ zero :: q /\ (exists n, q = repeat zero n).
Proof.
  intros [n ->]. destruct (Nat.eqb (length p) (length (p ++ repeat zero n))) eqn:E.
  - apply Nat.eqb_eq in E. rewrite app_length, repeat_length in E. assert (n = 0)%nat by lia. subst n.
    cbn [repeat]. rewrite app_nil_r. unfold grow. split; [eexists; reflexivity|].
    assert (H : exists m, (match p with [] => 10 | _ :: _ => length p end)%nat = S m).
    { destruct p; [exists 9%nat; reflexivity|exists (length p); reflexivity]. }
    destruct H as [m ->]. cbn [repeat]. eauto.
  - apply Nat.eqb_neq in E. rewrite app_length, repeat_length in E. destruct n as [|n]; [lia|].
    split; [eexists; reflexivity|]. cbn [repeat]. eauto.
Qed.

(** An element that decodes from a zero cell. *)
Lemma slice_elem_ok k b r len p d x : cells zero p d -> len = length p -> dec b zero = DR r None x ->
  exists d', cells zero (p ++ [x]) d' /\
  slice_elem k b len d = slice_loop dec zero input k r (S len) (Some d').
Proof.
  intros C -> E. unfold slice_elem. destruct (cells_grow p d C) as [_ (q & -> & m & ->)].
  rewrite nth_middle, E. cbn [d_err d_rest d_val]. rewrite set_nth_app.
  exists (p ++ x :: repeat zero m). split; [|reflexivity]. exists m. rewrite <- app_assoc. reflexivity.
Qed.
Lemma slice_elem_fail k b r e len p d x : cells zero p d -> len = length p -> dec b zero = DR r (Some e) x ->
  exists d', slice_elem k b len d = elem_err input e (Some (len, d')).
Proof.
  intros C -> E. unfold slice_elem. destruct (cells_grow p d C) as [_ (q & -> & m & ->)].
  rewrite nth_middle, E. cbn [d_err d_rest d_val]. eauto.
Qed.

Section Elems.
(** [P s x]: the text [s] of an element decodes to [x]. *)
Variable P : jast -> A -> Prop.
Variable N : nat.
Hypothesis Hdec : forall s a x r, jvalue s a -> P a x -> (length s <= N)%nat -> num_stop r -> dec (s ++ r) zero = DR r None x.

Lemma slice_elems_ok : forall s l, jelems s l -> forall k w r p data xs, (length s < k)%nat -> (length s <= N)%nat ->
  cells zero p (contents data) -> sepw (Nat.eqb (length p) 0) w -> Forall2 P l xs ->
  exists d', cells zero (p ++ xs) d' /\
    slice_loop dec zero input k (w ++ s ++ 93 :: r) (length p) data = DR r None (Some (length (p ++ xs), d')).
Proof.
  induction 1 as [w1 s v w2 W1 V W2|w1 s v w2 t l W1 V W2 T IH]; intros k w r p data xs K LN C SW F;
    inversion F as [|? x ? xs' Px F']; subst; (destruct k as [|k]; [lia|]).
  - inversion F'; subst. destruct (jvalue_head _ _ V) as (c & t & Es & Hc).
    assert (Hv : num_stop (w2 ++ 93 :: r)) by (apply num_stop_ws; [exact W2|reflexivity]).
    pose proof (Hdec s v x (w2 ++ 93 :: r) V Px) as D.
    rewrite !app_length in LN. specialize (D ltac:(lia) Hv).
    replace (w ++ (w1 ++ s ++ w2) ++ 93 :: r) with (w ++ w1 ++ (s ++ w2 ++ 93 :: r)) by (appn; reflexivity).
    rewrite slice_step; [|exact W1|exact SW|subst s; cbn; apply vhead_nsp, Hc| |subst s; discriminate].
    2:{ subst s. cbn. unfold vhead in Hc. lia. }
    destruct (slice_elem_ok k _ _ (length p) p (contents data) x C eq_refl D) as (d' & C' & ->).
    exists d'. split; [exact C'|].
    rewrite !app_length in K. subst s. cbn [length] in K. destruct k as [|k]; [lia|].
    rewrite slice_close by exact W2. rewrite app_length. cbn [length contents].
    replace (length p + 1)%nat with (S (length p)) by lia. reflexivity.
  - destruct (jvalue_head _ _ V) as (c & t' & Es & Hc).
    rewrite !app_length in K, LN. cbn [length] in K, LN.
    assert (Hv : num_stop (w2 ++ 44 :: t ++ 93 :: r)) by (apply num_stop_ws; [exact W2|reflexivity]).
    pose proof (Hdec s v x (w2 ++ 44 :: t ++ 93 :: r) V Px ltac:(lia) Hv) as D.
    replace (w ++ (w1 ++ s ++ w2 ++ 44 :: t) ++ 93 :: r) with (w ++ w1 ++ (s ++ w2 ++ 44 :: t ++ 93 :: r)) by (appn; reflexivity).
    rewrite slice_step; [|exact W1|exact SW|subst s; cbn; apply vhead_nsp, Hc| |subst s; discriminate].
    2:{ subst s. cbn. unfold vhead in Hc. lia. }
    destruct (slice_elem_ok k _ _ (length p) p (contents data) x C eq_refl D) as (d' & C' & ->).
    specialize (IH k (w2 ++ [44]) r (p ++ [x]) (Some d') xs' ltac:(lia) ltac:(lia) C').
    destruct IH as (d2 & C2 & E2).
    + right. split; [rewrite app_length; cbn; apply Nat.eqb_neq; lia|eauto].
    + exact F'.
    + exists d2. rewrite <- app_assoc in C2. split; [exact C2|].
      rewrite app_length in E2. cbn [length] in E2. replace (length p + 1)%nat with (S (length p)) in E2 by lia.
      replace (w2 ++ 44 :: t ++ 93 :: r) with ((w2 ++ [44]) ++ t ++ 93 :: r) by (appn; reflexivity).
      rewrite E2. rewrite <- app_assoc. reflexivity.
Qed.

(** The first element that fails decides the result. *)
Lemma slice_elems_fail (e : err) : forall s l, jelems s l -> forall k w r p data l1 a l2 xs, (length s < k)%nat -> (length s <= N)%nat ->
  cells zero p (contents data) -> sepw (Nat.eqb (length p) 0) w ->
  l = l1 ++ a :: l2 -> Forall2 P l1 xs ->
  (forall s' r', jvalue s' a -> (length s' <= N)%nat -> num_stop r' -> exists r'' x, dec (s' ++ r') zero = DR r'' (Some e) x) ->
  exists y, slice_loop dec zero input k (w ++ s ++ 93 :: r) (length p) data = elem_err input e y.
Proof.
  induction 1 as [w1 s v w2 W1 V W2|w1 s v w2 t l W1 V W2 T IH]; intros k w r p data l1 a l2 xs K LN C SW EL F HF;
    (destruct k as [|k]; [lia|]); rewrite !app_length in K, LN; cbn [length] in K, LN;
    destruct (jvalue_head _ _ V) as (c & t' & Es & Hc).
  - assert (Hv : num_stop (w2 ++ 93 :: r)) by (apply num_stop_ws; [exact W2|reflexivity]).
    replace (w ++ (w1 ++ s ++ w2) ++ 93 :: r) with (w ++ w1 ++ (s ++ w2 ++ 93 :: r)) by (appn; reflexivity).
    rewrite slice_step; [|exact W1|exact SW|subst s; cbn; apply vhead_nsp, Hc| |subst s; discriminate].
    2:{ subst s. cbn. unfold vhead in Hc. lia. }
    destruct l1 as [|v' l1].
    + cbn [app] in EL. assert (a = v) by congruence. subst a.
      destruct (HF s (w2 ++ 93 :: r) V ltac:(lia) Hv) as (r'' & x & D).
      destruct (slice_elem_fail k _ _ _ (length p) p (contents data) x C eq_refl D) as (d' & ->). eauto.
    + exfalso. apply (f_equal (@length _)) in EL. cbn [length app] in EL. rewrite app_length in EL. cbn [length] in EL. lia.
  - assert (Hv : num_stop (w2 ++ 44 :: t ++ 93 :: r)) by (apply num_stop_ws; [exact W2|reflexivity]).
    replace (w ++ (w1 ++ s ++ w2 ++ 44 :: t) ++ 93 :: r) with (w ++ w1 ++ (s ++ w2 ++ 44 :: t ++ 93 :: r)) by (appn; reflexivity).
    rewrite slice_step; [|exact W1|exact SW|subst s; cbn; apply vhead_nsp, Hc| |subst s; discriminate].
    2:{ subst s. cbn. unfold vhead in Hc. lia. }
    destruct l1 as [|v' l1].
    + cbn [app] in EL. assert (a = v) by congruence. subst a.
      destruct (HF s (w2 ++ 44 :: t ++ 93 :: r) V ltac:(lia) Hv) as (r'' & x & D).
      destruct (slice_elem_fail k _ _ _ (length p) p (contents data) x C eq_refl D) as (d' & ->). eauto.
    + cbn [app] in EL. inversion F as [|? x ? xs' Px F']; subst.
      assert (v' = v) by congruence. subst v'. assert (l = l1 ++ a :: l2) by congruence. subst l.
      pose proof (Hdec _ v x (w2 ++ 44 :: t ++ 93 :: r) V Px ltac:(lia) Hv) as D.
      destruct (slice_elem_ok k _ _ (length p) p (contents data) x C eq_refl D) as (d' & C' & ->).
      specialize (IH k (w2 ++ [44]) r (p ++ [x]) (Some d') l1 a l2 xs' ltac:(cbn [length] in *; lia) ltac:(lia) C').
      rewrite app_length in IH. cbn [length] in IH. replace (length p + 1)%nat with (S (length p)) in IH by lia.
      replace (w2 ++ 44 :: t ++ 93 :: r) with ((w2 ++ [44]) ++ t ++ 93 :: r) by (appn; reflexivity).
      apply IH; auto. right. split; [reflexivity|eauto].
Qed.
End Elems.
End Slice.

Lemma decode_slice_open {A} (dec : bytes -> A -> dres A) zero s r cur : s <> [] ->
  decode_slice dec zero (91 :: s ++ r) cur =
  slice_loop dec zero (91 :: s ++ r) (S (length (91 :: s ++ r))) (s ++ r) 0 (option_map snd cur).
Proof.
  intros NE. unfold decode_slice. change (has_null_prefix (91 :: s ++ r)) with false. cbv iota.
  replace (Nat.ltb (length (91 :: s ++ r)) 2) with false; [reflexivity|].
  symmetry. apply Nat.ltb_ge. destruct s; [congruence|]. cbn [app length]. lia.
Qed.

(** decodeSlice on an array literal, into memory whose spare cells are zero. *)
Lemma decode_slice_ok {A} (dec : bytes -> A -> dres A) zero (P : jast -> A -> Prop) N s l xs r cur :
  (forall s a x r, jvalue s a -> P a x -> (length s <= N)%nat -> num_stop r -> dec (s ++ r) zero = DR r None x) ->
  jvalue s (JArr l) -> (length s <= S N)%nat -> Forall2 P l xs ->
  cells zero [] (match cur with None => [] | Some (_, d) => d end) ->
  exists d', cells zero xs d' /\ decode_slice dec zero (s ++ r) cur = DR r None (Some (length xs, d')).
Proof.
  intros Hdec V LN F C. inversion V as [| | | | |w W|t l' E| |]; subst.
  - inversion F; subst. cbn [app]. rewrite decode_slice_open by (destruct w; discriminate).
    rewrite <- app_assoc. cbn [app]. rewrite slice_close by exact W.
    eexists. split; [|reflexivity]. destruct cur as [[n d]|]; exact C.
  - cbn [app]. rewrite decode_slice_open by (destruct t; discriminate).
    rewrite <- app_assoc. cbn [app].
    cbn [length] in LN. rewrite app_length in LN. cbn [length] in LN.
    pose proof (slice_elems_ok dec zero (91 :: t ++ 93 :: r) P N Hdec t l E) as X.
    specialize (X (S (length (91 :: t ++ 93 :: r))) [] r [] (option_map snd cur) xs).
    destruct X as (d' & C' & E').
    + cbn [length]. rewrite app_length. lia.
    + lia.
    + destruct cur as [[n d]|]; exact C.
    + left; auto.
    + exact F.
    + cbn [app length] in C', E'. exists d'. split; [exact C'|exact E'].
Qed.
Lemma decode_slice_fail {A} (dec : bytes -> A -> dres A) zero (P : jast -> A -> Prop) N e s l1 a l2 xs r cur :
  (forall s a x r, jvalue s a -> P a x -> (length s <= N)%nat -> num_stop r -> dec (s ++ r) zero = DR r None x) ->
  (forall s' r', jvalue s' a -> (length s' <= N)%nat -> num_stop r' -> exists r'' x, dec (s' ++ r') zero = DR r'' (Some e) x) ->
  jvalue s (JArr (l1 ++ a :: l2)) -> (length s <= S N)%nat -> Forall2 P l1 xs -> num_stop r ->
  cells zero [] (match cur with None => [] | Some (_, d) => d end) ->
  exists y, decode_slice dec zero (s ++ r) cur = DR r (Some e) y.
Proof.
  intros Hdec Hf V LN F NS C. assert (PV := parseValue_complete _ _ r V NS).
  inversion V as [| | | | |w W EW|t l' E| |]; subst.
  - destruct l1; discriminate.
  - cbn [app] in *. rewrite decode_slice_open by (destruct t; discriminate).
    rewrite <- app_assoc in PV |- *. cbn [app] in PV |- *.
    cbn [length] in LN. rewrite app_length in LN. cbn [length] in LN.
    pose proof (slice_elems_fail dec zero (91 :: t ++ 93 :: r) P N Hdec e t (l1 ++ a :: l2) E) as X.
    specialize (X (S (length (91 :: t ++ 93 :: r))) [] r [] (option_map snd cur) l1 a l2 xs).
    destruct X as (y & E').
    + cbn [length]. rewrite app_length. lia.
    + lia.
    + destruct cur as [[n d]|]; exact C.
    + left; auto.
    + reflexivity.
    + exact F.
    + exact Hf.
    + cbn [app length] in E'. exists y. cbn [length]. rewrite E'. unfold elem_err. rewrite PV. reflexivity.
Qed.

(** * Objects *)
Definition is_close (b : bytes) : bool := match b with c :: _ => c =? 125 | [] => false end.
Lemma obj_key_ok {K} (deck : bytes -> dres K) first w w1 k w2 w3 s key :
  sepw first w -> ws w1 -> string_lit k -> ws w2 -> ws w3 -> nsp s ->
  deck (k ++ w2 ++ 58 :: w3 ++ s) = DR (w2 ++ 58 :: w3 ++ s) None key ->
  let b := skip_spaces (w ++ w1 ++ k ++ w2 ++ 58 :: w3 ++ s) in
  is_close b = false /\ obj_key deck first b = inr (s, key).
Proof.
  intros SW W1 (body & Ek & SB) W2 W3 NS D b.
  assert (HK : forall b, b = k ++ w2 ++ 58 :: w3 ++ s ->
    (if has_null_prefix b then inl (b, ESyntax)
     else
      let x := deck b in
      match d_err x with
      | Some e => inl (key_error (d_rest x) e)
      | None =>
          let b := skip_spaces (d_rest x) in
          match b with
          | [] => inl (b, ESyntax)
          | c :: b1 => if c =? cCOLON then inr (skip_spaces b1, d_val x) else inl (b, ESyntax)
          end
      end) = inr (s, key)).
  { intros b' ->. replace (has_null_prefix (k ++ w2 ++ 58 :: w3 ++ s)) with false by (subst k; reflexivity).
    cbv zeta. rewrite D. cbn [d_err d_rest d_val]. rewrite skip_spaces_ws by exact W2.
    rewrite (skip_spaces_nsp (58 :: _)) by reflexivity. change (58 =? 58) with true. cbv iota.
    rewrite skip_spaces_ws by exact W3. rewrite (skip_spaces_nsp s NS). reflexivity. }
  assert (NK : nsp (k ++ w2 ++ 58 :: w3 ++ s)) by (subst k; reflexivity).
  destruct SW as [[-> ->]|[-> (w' & W & ->)]].
  - assert (Eb : b = k ++ w2 ++ 58 :: w3 ++ s).
    { unfold b. cbn [app]. rewrite skip_spaces_ws by exact W1. apply skip_spaces_nsp, NK. }
    split; [rewrite Eb; subst k; reflexivity|]. unfold obj_key. apply HK, Eb.
  - assert (Eb : b = 44 :: w1 ++ k ++ w2 ++ 58 :: w3 ++ s).
    { unfold b. rewrite <- app_assoc. cbn [app]. rewrite skip_spaces_ws by exact W. apply skip_spaces_nsp. reflexivity. }
    rewrite Eb. split; [reflexivity|]. unfold obj_key. change (44 =? 44) with true. cbv iota. apply HK.
    rewrite skip_spaces_ws by exact W1. apply skip_spaces_nsp, NK.
Qed.

Section Map.
Context {K V : Type} (eqb : K -> K -> bool) (deck : bytes -> dres K) (decv : bytes -> V -> dres V) (zero : V).
Variables (input : bytes) (fresh : bool).

Lemma map_close k first w r m : ws w ->
  map_loop eqb deck decv zero input fresh (S k) first (w ++ 125 :: r) m = DR r None (Some m).
Proof.
  intros W. cbn [map_loop]. rewrite skip_spaces_ws by exact W. rewrite (skip_spaces_nsp (125 :: r)) by reflexivity.
  change (125 =? 125) with true. reflexivity.
Qed.
Lemma map_step k first w w1 kl w2 w3 s key m :
  sepw first w -> ws w1 -> string_lit kl -> ws w2 -> ws w3 -> nsp s ->
  deck (kl ++ w2 ++ 58 :: w3 ++ s) = DR (w2 ++ 58 :: w3 ++ s) None key ->
  map_loop eqb deck decv zero input fresh (S k) first (w ++ w1 ++ kl ++ w2 ++ 58 :: w3 ++ s) m =
  let x := decv s zero in
  match d_err x with
  | None => map_loop eqb deck decv zero input fresh k false (d_rest x) (map_set eqb key (d_val x) m)
  | Some e => elem_err input e (if fresh then None else Some m)
  end.
Proof.
  intros SW W1 SK W2 W3 NS D. cbn [map_loop].
  destruct (obj_key_ok deck first w w1 kl w2 w3 s key SW W1 SK W2 W3 NS D) as [C O].
  unfold is_close in C. rewrite C, O. reflexivity.
Qed.

Section Members.
Variable Q : bytes -> K -> Prop.
Variable P : jast -> V -> Prop.
Variable N : nat.
Hypothesis Hkey : forall kl key r, string_lit kl -> Q kl key -> deck (kl ++ r) = DR r None key.
Hypothesis Hdec : forall s a x r, jvalue s a -> P a x -> (length s <= N)%nat -> num_stop r -> decv (s ++ r) zero = DR r None x.
Definition QP (la : bytes * jast) (kx : K * V) : Prop := Q (fst la) (fst kx) /\ P (snd la) (snd kx).
Definition add_all (kvs : list (K * V)) (m : list (K * V)) : list (K * V) :=
  fold_left (fun m kv => map_set eqb (fst kv) (snd kv) m) kvs m.

Lemma map_member_ok m0 la : jmember m0 la -> forall k first w r kx m, (length m0 <= N)%nat ->
  sepw first w -> QP la kx -> num_stop r ->
  exists w4, ws w4 /\ (length w4 < length m0)%nat /\
  map_loop eqb deck decv zero input fresh (S k) first (w ++ m0 ++ r) m =
  map_loop eqb deck decv zero input fresh k false (w4 ++ r) (map_set eqb (fst kx) (snd kx) m).
Proof.
  intros J k first w r [key x] m LN SW [Qk Px] NS. cbn [fst snd] in *.
  destruct J as [w1 kl w2 w3 s v w4 W1 SK W2 W3 JV W4]. cbn [fst snd] in *.
  exists w4. split; [exact W4|].
  destruct (jvalue_head _ _ JV) as (c & t & Es & Hc).
  assert (LS : (0 < length s)%nat) by (subst s; cbn; lia).
  split; [rewrite !app_length; cbn [length]; rewrite !app_length; lia|].
  replace (w ++ (w1 ++ kl ++ w2 ++ 58 :: w3 ++ s ++ w4) ++ r) with (w ++ w1 ++ kl ++ w2 ++ 58 :: w3 ++ (s ++ w4 ++ r))
    by (appn; reflexivity).
  rewrite (map_step k first w w1 kl w2 w3 (s ++ w4 ++ r) key m SW W1 SK W2 W3);
    [|subst s; cbn; apply vhead_nsp, Hc|apply Hkey; assumption].
  cbv zeta. rewrite (Hdec s v x (w4 ++ r) JV Px); [reflexivity| |apply num_stop_ws; auto].
  rewrite !app_length in LN. cbn [length] in LN. rewrite !app_length in LN. lia.
Qed.

Lemma map_members_ok : forall s l, jmembers s l -> forall k first w r m kvs, (length s < k)%nat -> (length s <= N)%nat ->
  sepw first w -> Forall2 QP l kvs ->
  map_loop eqb deck decv zero input fresh k first (w ++ s ++ 125 :: r) m = DR r None (Some (add_all kvs m)).
Proof.
  induction 1 as [m0 kv J|m0 kv t l J T IH]; intros k first w r m kvs KL LN SW F;
    inversion F as [|? kx ? kvs' HQ F']; subst; (destruct k as [|k]; [lia|]).
  - inversion F'; subst.
    destruct (map_member_ok m0 kv J k first w (125 :: r) kx m LN SW HQ) as (w4 & W4 & L4 & ->); [reflexivity|].
    destruct k as [|k]; [lia|]. rewrite map_close by exact W4. reflexivity.
  - rewrite app_length in KL, LN. cbn [length] in KL, LN.
    replace (w ++ (m0 ++ 44 :: t) ++ 125 :: r) with (w ++ m0 ++ (44 :: t ++ 125 :: r)) by (appn; reflexivity).
    destruct (map_member_ok m0 kv J k first w (44 :: t ++ 125 :: r) kx m ltac:(lia) SW HQ) as (w4 & W4 & L4 & ->); [reflexivity|].
    replace (w4 ++ 44 :: t ++ 125 :: r) with ((w4 ++ [44]) ++ t ++ 125 :: r) by (appn; reflexivity).
    rewrite (IH k false (w4 ++ [44]) r _ kvs'); [reflexivity|lia|lia| |exact F'].
    right; split; [reflexivity|eauto].
Qed.

Lemma map_members_fail (e : err) : forall s l, jmembers s l ->
  forall k first w r m l1 kl a l2 kvs, (length s < k)%nat -> (length s <= N)%nat ->
  sepw first w -> l = l1 ++ (kl, a) :: l2 -> Forall2 QP l1 kvs -> (exists key, Q kl key) ->
  (forall s' r', jvalue s' a -> (length s' <= N)%nat -> num_stop r' -> exists r'' x, decv (s' ++ r') zero = DR r'' (Some e) x) ->
  exists y, map_loop eqb deck decv zero input fresh k first (w ++ s ++ 125 :: r) m = elem_err input e y.
Proof.
  assert (one : forall m0 kl a, jmember m0 (kl, a) -> forall k first w r m, (length m0 <= N)%nat ->
    sepw first w -> num_stop r -> (exists key, Q kl key) ->
    (forall s' r', jvalue s' a -> (length s' <= N)%nat -> num_stop r' -> exists r'' x, decv (s' ++ r') zero = DR r'' (Some e) x) ->
    exists y, map_loop eqb deck decv zero input fresh (S k) first (w ++ m0 ++ r) m = elem_err input e y).
  { intros m0 kl a J k first w r m LN SW NS [key Qk] HF.
    inversion J as [w1 kl' w2 w3 s v w4 W1 SK W2 W3 JV W4 E1 [E2 E3]]; subst.
    destruct (jvalue_head _ _ JV) as (c & t & Es & Hc).
    replace (w ++ (w1 ++ kl ++ w2 ++ 58 :: w3 ++ s ++ w4) ++ r) with (w ++ w1 ++ kl ++ w2 ++ 58 :: w3 ++ (s ++ w4 ++ r))
      by (appn; reflexivity).
    rewrite (map_step k first w w1 kl w2 w3 (s ++ w4 ++ r) key m SW W1 SK W2 W3);
      [|subst s; cbn; apply vhead_nsp, Hc|apply Hkey; assumption].
    rewrite !app_length in LN. cbn [length] in LN. rewrite !app_length in LN.
    destruct (HF s (w4 ++ r) JV ltac:(lia)) as (r'' & x & ->); [apply num_stop_ws; auto|].
    cbv zeta. cbn [d_err]. eauto. }
  induction 1 as [m0 kv J|m0 kv t l J T IH]; intros k first w r m l1 kl a l2 kvs KL LN SW EL F EK HF;
    (destruct k as [|k]; [lia|]).
  - destruct l1 as [|v' l1].
    + cbn [app] in EL. assert (kv = (kl, a)) by congruence. subst kv.
      eapply one; eauto. reflexivity.
    + exfalso. apply (f_equal (@length _)) in EL. cbn [length app] in EL. rewrite app_length in EL. cbn [length] in EL. lia.
  - rewrite app_length in KL, LN. cbn [length] in KL, LN.
    replace (w ++ (m0 ++ 44 :: t) ++ 125 :: r) with (w ++ m0 ++ (44 :: t ++ 125 :: r)) by (appn; reflexivity).
    destruct l1 as [|v' l1].
    + cbn [app] in EL. assert (kv = (kl, a)) by congruence. subst kv.
      eapply one; eauto; [lia|reflexivity].
    + cbn [app] in EL. inversion F as [|? kx ? kvs' HQ F']; subst.
      assert (v' = kv) by congruence. subst v'. assert (l = l1 ++ (kl, a) :: l2) by congruence. subst l.
      destruct (map_member_ok m0 kv J k first w (44 :: t ++ 125 :: r) kx m ltac:(lia) SW HQ) as (w4 & W4 & L4 & ->); [reflexivity|].
      replace (w4 ++ 44 :: t ++ 125 :: r) with ((w4 ++ [44]) ++ t ++ 125 :: r) by (appn; reflexivity).
      eapply IH; eauto; try lia. right; split; [reflexivity|eauto].
Qed.
End Members.
End Map.

Lemma decode_map_open {K V} eqb (deck : bytes -> dres K) (decv : bytes -> V -> dres V) zero s r cur : s <> [] ->
  decode_map eqb deck decv zero (123 :: s ++ r) cur =
  map_loop eqb deck decv zero (123 :: s ++ r) (match cur with None => true | _ => false end) (S (length (123 :: s ++ r))) true
    (s ++ r) (match cur with None => [] | Some m => m end).
Proof.
  intros NE. unfold decode_map. change (has_null_prefix (123 :: s ++ r)) with false. cbv iota.
  replace (Nat.ltb (length (123 :: s ++ r)) 2) with false; [reflexivity|].
  symmetry. apply Nat.ltb_ge. destruct s; [congruence|]. cbn [app length]. lia.
Qed.

(** decodeMap on an object literal. *)
Lemma decode_map_ok {K V} eqb (deck : bytes -> dres K) (decv : bytes -> V -> dres V) zero
    (Q : bytes -> K -> Prop) (P : jast -> V -> Prop) N s l kvs r cur :
  (forall kl key r, string_lit kl -> Q kl key -> deck (kl ++ r) = DR r None key) ->
  (forall s a x r, jvalue s a -> P a x -> (length s <= N)%nat -> num_stop r -> decv (s ++ r) zero = DR r None x) ->
  jvalue s (JObj l) -> (length s <= S N)%nat -> Forall2 (QP Q P) l kvs ->
  decode_map eqb deck decv zero (s ++ r) cur =
  DR r None (Some (add_all eqb kvs (match cur with None => [] | Some m => m end))).
Proof.
  intros Hkey Hdec V0 LN F. inversion V0 as [| | | | | | |w W|t l' E]; subst.
  - inversion F; subst. cbn [app]. rewrite decode_map_open by (destruct w; discriminate).
    rewrite <- app_assoc. cbn [app]. rewrite map_close by exact W. reflexivity.
  - cbn [app]. rewrite decode_map_open by (destruct t; discriminate).
    rewrite <- app_assoc. cbn [app].
    cbn [length] in LN. rewrite app_length in LN. cbn [length] in LN.
    match goal with |- map_loop _ _ _ _ ?i ?f ?k _ ?b ?m = _ =>
      pose proof (map_members_ok eqb deck decv zero i f Q P N Hkey Hdec t l E k true [] r m kvs) as X end.
    apply X; [cbn [length]; rewrite app_length; cbn [length]; lia|lia|left; auto|exact F].
Qed.
Lemma decode_map_fail {K V} eqb (deck : bytes -> dres K) (decv : bytes -> V -> dres V) zero
    (Q : bytes -> K -> Prop) (P : jast -> V -> Prop) N e s l1 kl a l2 kvs r cur :
  (forall kl key r, string_lit kl -> Q kl key -> deck (kl ++ r) = DR r None key) ->
  (forall s a x r, jvalue s a -> P a x -> (length s <= N)%nat -> num_stop r -> decv (s ++ r) zero = DR r None x) ->
  (forall s' r', jvalue s' a -> (length s' <= N)%nat -> num_stop r' -> exists r'' x, decv (s' ++ r') zero = DR r'' (Some e) x) ->
  jvalue s (JObj (l1 ++ (kl, a) :: l2)) -> (length s <= S N)%nat -> Forall2 (QP Q P) l1 kvs -> (exists key, Q kl key) ->
  num_stop r ->
  exists y, decode_map eqb deck decv zero (s ++ r) cur = DR r (Some e) y.
Proof.
  intros Hkey Hdec HF V0 LN F EQ NS. assert (PV := parseValue_complete _ _ r V0 NS).
  inversion V0 as [| | | | | | |w W EW|t l' E]; subst.
  - destruct l1; discriminate.
  - cbn [app] in *. rewrite decode_map_open by (destruct t; discriminate).
    rewrite <- app_assoc in PV |- *. cbn [app] in PV |- *.
    cbn [length] in LN. rewrite app_length in LN. cbn [length] in LN.
    match goal with |- exists y, map_loop _ _ _ _ ?i ?f ?k _ ?b ?m = _ =>
      pose proof (map_members_fail eqb deck decv zero i f Q P N Hkey Hdec e t _ E k true [] r m l1 kl a l2 kvs) as X end.
    destruct X as (y & E'); [cbn [length]; rewrite app_length; cbn [length]; lia|lia|left; auto|reflexivity|exact F|exact EQ|exact HF|].
    exists y. cbn [app] in E'. rewrite E'. unfold elem_err. rewrite PV. reflexivity.
Qed.
