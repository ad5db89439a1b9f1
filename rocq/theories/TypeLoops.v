(** The element loops of the decoders against the container relations of
    SpecType.v. *)
From Verif Require Import Bytes AsciiModel Utf8Model ParseModel IntModel StringModel EncModel DecModel
  SpecJson SpecString SpecDec ParseFacts Utf8Facts StringFacts DecLoops DecFacts TypeModel SpecType NodeFacts.

(** On the text of [nd] the decoder [D] either does what [R] says, and R leaves
    it no choice, or reports an error, and R does not relate the target to
    anything. *)
Definition meets {A} (D : bytes -> A -> dres A) (R : node -> A -> A -> Prop) (nd : node) (old : A) : Prop :=
  forall r, stops nd r ->
  (exists r1 y, D (ntext nd ++ r) old = DR r1 None y /\ skip_spaces r1 = skip_spaces r /\ R nd old y /\ forall y', R nd old y' -> y' = y) \/
  (exists r1 e y, D (ntext nd ++ r) old = DR r1 (Some e) y /\ e <> EFuel /\ forall y', ~ R nd old y').

Lemma node_start nd : jnode nd -> nsp (ntext nd) /\ hd 0 (ntext nd) <> 93 /\ ntext nd <> [] /\ hd 0 (ntext nd) <> 125.
Proof.
  intros J. destruct (node_head nd J) as (c & t & -> & Hc). cbn [nsp hd]. split; [apply vhead_nsp, Hc|].
  unfold vhead in Hc. split; [lia|]. split; [discriminate|lia].
Qed.
Lemma nsp_app s r : nsp s -> s <> [] -> nsp (s ++ r).
Proof. destruct s; [congruence|]. cbn. auto. Qed.
Lemma hd_app (s r : bytes) : s <> [] -> hd 0 (s ++ r) = hd 0 s.
Proof. destruct s; [congruence|]. reflexivity. Qed.
Lemma app_nn (s r : bytes) : s <> [] -> s ++ r <> [].
Proof. destruct s; [congruence|]. discriminate. Qed.
Lemma num_stop_comma w r : ws w -> num_stop (w ++ 44 :: r).
Proof. intros W. apply num_stop_ws; [exact W|reflexivity]. Qed.
Lemma num_stop_brack w r : ws w -> num_stop (w ++ 93 :: r).
Proof. intros W. apply num_stop_ws; [exact W|reflexivity]. Qed.
Lemma num_stop_brace w r : ws w -> num_stop (w ++ 125 :: r).
Proof. intros W. apply num_stop_ws; [exact W|reflexivity]. Qed.

Section Slice.
Context {A : Type} (D : bytes -> A -> dres A) (R : node -> A -> A -> Prop) (z : A) (inp : bytes) (N : nat).
Hypothesis HM : forall nd old, jnode nd -> (length (ntext nd) <= N)%nat -> meets D R nd old.

Lemma onto_zeros l m : forall ys, onto R z l (repeat z m) ys <-> onto R z l [] ys.
Proof.
  revert m. induction l as [|v l IH]; intros m ys; split; intros H; inversion H as [|? ? ? y ys' H1 H2]; subst; constructor;
    try (destruct m; cbn [hd repeat] in *; assumption).
  - cbn [tl]. destruct m; [assumption|]. cbn [repeat tl] in *. apply IH in H2. exact H2.
  - destruct m; [assumption|]. cbn [repeat tl]. apply IH. assumption.
Qed.
Lemma onto_len l : forall d ys, onto R z l d ys -> length ys = length l.
Proof. induction l; intros d ys H; inversion H; subst; cbn; [reflexivity|]. f_equal. eapply IHl; eassumption. Qed.

Lemma slice_cong k b b' len data : skip_spaces b = skip_spaces b' ->
  slice_loop D z inp (S k) b len data = slice_loop D z inp (S k) b' len data.
Proof. intros E. cbn [slice_loop]. rewrite E. reflexivity. Qed.

Lemma grows_ge c n c' : grows c n c' -> (n <= c' /\ c <= c')%nat.
Proof. induction 1; [lia|]. destruct c; lia. Qed.
Lemma grows_fun c n c1 : grows c n c1 -> forall c2, grows c n c2 -> c1 = c2.
Proof. induction 1; intros c2 G; inversion G; subst; try lia. apply IHgrows. assumption. Qed.

Lemma slice_elem_eq k b ys q : exists q',
  slice_elem D z inp k b (length ys) (ys ++ q) =
    (let x := D b (hd z q) in
     match d_err x with
     | None => slice_loop D z inp k (d_rest x) (S (length ys)) (Some ((ys ++ [d_val x]) ++ q'))
     | Some e => elem_err inp e (Some (length ys, ys ++ d_val x :: q'))
     end) /\
  ((exists x0, q = x0 :: q') \/
   (q = [] /\ exists m, q' = repeat z m /\ forall n c, (length ys < n)%nat -> grows (length ys + 1 + m) n c -> grows (length ys) n c)).
Proof.
  unfold slice_elem. destruct q as [|x0 q].
  - rewrite app_nil_r, Nat.eqb_refl.
    assert (G : exists m, grow z ys = ys ++ z :: repeat z m /\ (length ys + 1 + m = match length ys with O => 10 | _ => length ys + length ys end)%nat).
    { unfold grow. destruct ys as [|y ys]; [exists 9%nat; split; reflexivity|]. exists (length ys). split; [reflexivity|]. cbn [length]. lia. }
    destruct G as (m & G & Em). rewrite G. exists (repeat z m). split.
    + rewrite app_nth2, Nat.sub_diag by lia. cbn [nth hd]. rewrite set_nth_app. rewrite <- app_assoc. reflexivity.
    + right. split; [reflexivity|]. exists m. split; [reflexivity|]. intros n c Hn Gr. rewrite Em in Gr. apply grows_more; assumption.
  - replace (Nat.eqb (length ys) (length (ys ++ x0 :: q))) with false
      by (symmetry; apply Nat.eqb_neq; rewrite app_length; cbn; lia).
    exists q. split; [|left; eauto]. rewrite app_nth2, Nat.sub_diag by lia. cbn [nth hd]. rewrite set_nth_app. rewrite <- app_assoc. reflexivity.
Qed.

Definition after (ys zs q : list A) (c : nat) : list A :=
  ys ++ zs ++ skipn (length zs) q ++ repeat z (c - max (length ys + length zs) (length ys + length q)).

Lemma after_step ys y zs q q' c n : n = length zs ->
  ((exists x0, q = x0 :: q') \/ (q = [] /\ exists m, q' = repeat z m)) ->
  grows (length (ys ++ [y]) + length q') (length (ys ++ [y]) + n) c ->
  after (ys ++ [y]) zs q' c = after ys (y :: zs) q c.
Proof.
  intros En H G. subst n. unfold after. rewrite <- app_assoc. cbn [app]. f_equal. f_equal. f_equal.
  rewrite app_length in *. cbn [length] in *. apply grows_ge in G. destruct H as [(x0 & ->)|(-> & m & ->)].
  - cbn [skipn length]. f_equal. f_equal. lia.
  - cbn [skipn length app]. rewrite repeat_length in *.
    assert (E : skipn (length zs) (repeat z m) = repeat z (m - length zs)).
    { clear. revert m. induction (length zs) as [|n IH]; intros m; [rewrite Nat.sub_0_r; reflexivity|]. destruct m; [reflexivity|]. cbn. apply IH. }
    rewrite E, <- List.repeat_app. f_equal. lia.
Qed.

Lemma slice_elems_meet s l : nelems s l -> forall k w ys q data r, (length s <= N)%nat -> (length s < k)%nat ->
  contents data = ys ++ q -> sepw (Nat.eqb (length ys) 0) w ->
  (exists zs c, slice_loop D z inp k (w ++ s ++ 93 :: r) (length ys) data =
        DR r None (Some ((length ys + length zs)%nat, after ys zs q c)) /\
      length zs = length l /\
      onto R z l q zs /\ (forall zs', onto R z l q zs' -> zs' = zs) /\ grows (length ys + length q) (length ys + length zs) c) \/
  (exists e x, slice_loop D z inp k (w ++ s ++ 93 :: r) (length ys) data = elem_err inp e x /\ e <> EFuel /\ forall zs, ~ onto R z l q zs).
Proof.
  induction 1 as [w1 v w2 W1 J W2|w1 v w2 t l W1 J W2 NE IH]; intros k w ys q data r LN Lk ED SW.
  - destruct k as [|k]; [lia|]. rewrite app_length in LN, Lk. rewrite app_length in LN, Lk.
    destruct (node_start v J) as (Sn & Sh & Se & _).
    assert (Lv : (0 < length (ntext v))%nat) by (destruct (ntext v); [congruence|cbn; lia]).
    repeat rewrite <- app_assoc. rewrite slice_step; [|exact W1|exact SW|apply nsp_app; assumption|rewrite hd_app by exact Se; exact Sh|apply app_nn, Se].
    rewrite ED. destruct (slice_elem_eq k (ntext v ++ w2 ++ 93 :: r) ys q) as (q' & E & Q). rewrite E. clear E. cbv zeta.
    destruct (HM v (hd z q) J ltac:(lia) (w2 ++ 93 :: r) (stop_any _ _ (num_stop_brack w2 r W2))) as [(r1 & y & E1 & E2 & E3 & E4)|(r1 & e & y & E1 & E2 & E3)];
      rewrite E1; cbn [d_err d_rest d_val].
    + left. destruct k as [|k]; [lia|]. rewrite (slice_cong k r1 (w2 ++ 93 :: r)) by exact E2. rewrite slice_close by exact W2.
      assert (C : exists c, grows (length ys + length q) (length ys + 1) c /\ (ys ++ [y]) ++ q' = after ys [y] q c).
      { destruct Q as [(x0 & ->)|(-> & m & -> & G)].
        - exists (length ys + S (length q'))%nat. split; [cbn [length]; constructor; lia|]. unfold after. cbn [length skipn].
          replace (_ - _)%nat with 0%nat by lia. cbn [repeat]. rewrite app_nil_r, <- app_assoc. reflexivity.
        - exists (length ys + 1 + m)%nat. split; [cbn [length]; rewrite Nat.add_0_r; apply G; [lia|constructor; lia]|].
          unfold after. cbn [length skipn app]. replace (_ - _)%nat with m by lia. rewrite <- app_assoc. reflexivity. }
      destruct C as (c & G & Ec). exists [y], c. cbn [contents length]. rewrite Ec. split; [f_equal; f_equal; f_equal; lia|].
      split; [reflexivity|]. split; [constructor; [exact E3|constructor]|].
      split; [|exact G]. intros zs' H. inversion H as [|? ? ? ? ? H1 H2]; subst. inversion H2; subst. f_equal. apply E4, H1.
    + right. eexists _, _. split; [reflexivity|]. split; [exact E2|]. intros zs H. inversion H as [|? ? ? ? ? H1 H2]; subst. exact (E3 _ H1).
  - destruct k as [|k]; [lia|]. rewrite !app_length in LN, Lk. cbn [length] in LN, Lk.
    destruct (node_start v J) as (Sn & Sh & Se & _).
    assert (Lv : (0 < length (ntext v))%nat) by (destruct (ntext v); [congruence|cbn; lia]).
    repeat (rewrite <- app_assoc; cbn [app]). rewrite slice_step; [|exact W1|exact SW|apply nsp_app; assumption|rewrite hd_app by exact Se; exact Sh|apply app_nn, Se].
    rewrite ED. destruct (slice_elem_eq k (ntext v ++ w2 ++ 44 :: t ++ 93 :: r) ys q) as (q' & E & Q). rewrite E. clear E. cbv zeta.
    destruct (HM v (hd z q) J ltac:(lia) (w2 ++ 44 :: t ++ 93 :: r) (stop_any _ _ (num_stop_comma w2 _ W2))) as [(r1 & y & E1 & E2 & E3 & E4)|(r1 & e & y & E1 & E2 & E3)];
      rewrite E1; cbn [d_err d_rest d_val].
    + destruct k as [|k]; [lia|]. rewrite (slice_cong k r1 (w2 ++ 44 :: t ++ 93 :: r)) by exact E2.
      replace (w2 ++ 44 :: t ++ 93 :: r) with ((w2 ++ [44]) ++ t ++ 93 :: r) by (rewrite <- app_assoc; reflexivity).
      replace (S (length ys)) with (length (ys ++ [y])) by (rewrite app_length; cbn; lia).
      assert (OT : forall zs, onto R z l (tl q) zs <-> onto R z l q' zs).
      { intros zs. destruct Q as [(x0 & ->)|(-> & m & -> & _)]; [reflexivity|]. cbn [tl]. symmetry. apply onto_zeros. }
      destruct (IH (S k) (w2 ++ [44]) (ys ++ [y]) q' (Some ((ys ++ [y]) ++ q')) r ltac:(lia) ltac:(lia) eq_refl) as [(zs & c & F1 & F2 & F3 & F4 & F5)|(e & x & F1 & F2 & F3)].
      { right. split; [rewrite app_length; cbn; apply Nat.eqb_neq; lia|]. exists w2. split; [exact W2|reflexivity]. }
      * left. exists (y :: zs), c. rewrite F1. rewrite (after_step ys y zs q q' c (length zs) eq_refl);
          [|destruct Q as [Q|(-> & m & -> & _)]; [left; exact Q|right; eauto]|exact F5].
        split; [rewrite app_length; cbn [length]; f_equal; f_equal; f_equal; lia|].
        split; [cbn [length]; congruence|].
        split; [constructor; [exact E3|apply OT, F3]|].
        split.
        { intros zs' H. inversion H as [|? ? ? y' ys' H1 H2]; subst. f_equal; [apply E4, H1|]. apply F4, OT, H2. }
        { rewrite app_length in F5. cbn [length] in *. destruct Q as [(x0 & ->)|(-> & m & -> & G)].
          - cbn [length]. replace (length ys + S (length q'))%nat with (length ys + 1 + length q')%nat by lia.
            replace (length ys + S (length zs))%nat with (length ys + 1 + length zs)%nat by lia. exact F5.
          - rewrite repeat_length in F5. cbn [length]. rewrite Nat.add_0_r. replace (length ys + S (length zs))%nat with (length ys + 1 + length zs)%nat by lia.
            apply G; [lia|exact F5]. }
      * right. exists e, x. split; [exact F1|]. split; [exact F2|]. intros zs H. inversion H as [|? ? ? ? ? H1 H2]; subst. apply (F3 ys0), OT, H2.
    + right. eexists _, _. split; [reflexivity|]. split; [exact E2|]. intros zs H. inversion H as [|? ? ? ? ? H1 H2]; subst. exact (E3 _ H1).
Qed.
End Slice.

Lemma null_only nd r : jnode nd -> stops nd r -> has_null_prefix (ntext nd ++ r) = match nshape nd with HNull => true | _ => false end.
Proof.
  intros J N. destruct J as [| | |s H|s H|w W|s l H|w W|s l H]; cbn [ntext nshape]; try reflexivity.
  - apply has_prefix_iff. exists r. reflexivity.
  - destruct (number_head s H) as (c & t & -> & Hc). unfold has_null_prefix, lit_null. cbn [app has_prefix].
    destruct (110 =? c) eqn:E; [zb; lia|]. reflexivity.
  - destruct H as (body & -> & _). reflexivity.
Qed.
Lemma ltb2 (s : bytes) r : (2 <= length s)%nat -> Nat.ltb (length (s ++ r)) 2 = false.
Proof. intros H. apply Nat.ltb_ge. rewrite app_length. lia. Qed.

(** A value of another kind than the container expects. *)
Lemma not_open nd r c : jnode nd -> stops nd r -> (match nshape nd with HArr _ => c <> 91 | HObj _ => c <> 123 | _ => c = 91 \/ c = 123 end) ->
  match ntext nd ++ r with x :: _ => (x =? c) = false | [] => True end.
Proof.
  intros J N H. assert (X : exists x t, ntext nd = x :: t /\ x <> c).
  { destruct J as [| | |s H0|s H0|w W|s l H0|w W|s l H0]; cbn [ntext nshape] in *.
    - exists 110, [117; 108; 108]. split; [reflexivity|lia].
    - exists 116, [114; 117; 101]. split; [reflexivity|lia].
    - exists 102, [97; 108; 115; 101]. split; [reflexivity|lia].
    - destruct (number_head s H0) as (d & t & -> & Hd). eexists _, _; split; [reflexivity|lia].
    - destruct H0 as (body & -> & _). eexists _, _; split; [reflexivity|lia].
    - eexists _, _; split; [reflexivity|lia].
    - eexists _, _; split; [reflexivity|lia].
    - eexists _, _; split; [reflexivity|lia].
    - eexists _, _; split; [reflexivity|lia]. }
  destruct X as (x & t & -> & Hx). cbn [app]. apply Z.eqb_neq, Hx.
Qed.

Lemma type_err_meets {A} (D : bytes -> A -> dres A) (R : node -> A -> A -> Prop) nd old :
  jnode nd -> (forall r, stops nd r -> D (ntext nd ++ r) old = in_err (ntext nd ++ r) old) -> (forall y, ~ R nd old y) -> meets D R nd old.
Proof.
  intros J H NR r NS. right. rewrite (H r NS), (node_in_err nd r old J NS). eexists _, _, _. split; [reflexivity|]. split; [discriminate|exact NR].
Qed.

Lemma decode_slice_meets {A} (D : bytes -> A -> dres A) R z nd old : jnode nd ->
  (forall nd' x, jnode nd' -> (length (ntext nd') < length (ntext nd))%nat -> meets D R nd' x) ->
  meets (decode_slice D z) (slice_rel R z) nd old.
Proof.
  intros J HM. assert (J' := J).
  destruct J as [| | |s H|s H|w W|s l H|w W|s l H];
    try (apply type_err_meets; [exact J'| |intros y Y; inversion Y]; intros r NS; unfold decode_slice;
         rewrite (null_only _ r J' NS); cbn [nshape]; pose proof (not_open _ r 91 J' NS) as NO; cbn [nshape] in NO;
         specialize (NO ltac:(first [lia|left; reflexivity])); cbv iota; destruct (Nat.ltb _ 2); [reflexivity|];
         destruct (ntext _ ++ r); [reflexivity|]; rewrite NO; reflexivity).
  - intros r NS. left. exists r, None. unfold decode_slice. rewrite (null_only _ r J' NS). cbn [nshape ntext]. split; [reflexivity|]. split; [reflexivity|]. split; [constructor|]. intros y Y. inversion Y. reflexivity.
  - intros r NS. left. cbn [ntext] in *. unfold decode_slice. change (has_null_prefix _) with false at 1.
    rewrite ltb2 by (cbn [length]; rewrite app_length; cbn; lia). cbv iota. cbn [app]. rewrite Z.eqb_refl.
    rewrite <- app_assoc. cbn [app]. rewrite slice_close by exact W.
    assert (B : contents (option_map snd old) = backing old) by (destruct old as [[? ?]|]; reflexivity). rewrite B.
    exists r, (Some (O, backing old)). split; [reflexivity|]. split; [reflexivity|]. split.
    + pose proof (sr_arr R z (91 :: w ++ [93]) [] old [] (length (backing old)) (onto_nil R z _) (grows_fit _ _ (Nat.le_0_l _))) as X.
      cbn [length skipn app] in X. rewrite Nat.max_0_l, Nat.sub_diag in X. cbn [repeat] in X. rewrite app_nil_r in X. exact X.
    + intros y Y. inversion Y as [|? ? ? ys c O G]; subst. inversion O; subst. inversion G; subst; [|cbn in *; lia].
      cbn [length skipn app]. rewrite Nat.max_0_l, Nat.sub_diag. cbn [repeat]. rewrite app_nil_r. reflexivity.
  - intros r NS. cbn [ntext] in *. unfold decode_slice. change (has_null_prefix _) with false at 1 2.
    rewrite ltb2 by (cbn [length]; rewrite app_length; cbn; lia). cbv iota. cbn [app]. rewrite Z.eqb_refl.
    rewrite <- app_assoc. cbn [app].
    assert (B : contents (option_map snd old) = [] ++ backing old) by (destruct old as [[? ?]|]; reflexivity).
    destruct (slice_elems_meet D R z (91 :: s ++ 93 :: r) (length s)) with (s := s) (l := l) (k := S (length (91 :: s ++ 93 :: r)))
      (w := @nil Z) (ys := @nil A) (q := backing old) (data := option_map snd old) (r := r) as [(zs & c & F1 & F2 & F3 & F4 & F5)|(e & x & F1 & F2 & F3)].
    + intros nd' x Jn Ln. apply HM; [exact Jn|]. cbn [length]. rewrite app_length. lia.
    + exact H.
    + lia.
    + cbn [length]. rewrite app_length. lia.
    + exact B.
    + left. auto.
    + left. cbn [app length] in F1. cbn [length]. rewrite F1. cbn [Nat.add] in *. rewrite F2 in *. eexists r, _. split; [reflexivity|]. split; [reflexivity|]. split.
      * unfold after. cbn [app length Nat.add]. rewrite F2. apply sr_arr; assumption.
      * intros y Y. inversion Y as [|? ? ? ys c' O G]; subst. unfold after. cbn [app length Nat.add]. rewrite (F4 _ O), F2. f_equal. f_equal. f_equal.
        cbn [length] in F5. rewrite (grows_fun _ _ _ F5 _ G). reflexivity.
    + right. cbn [app length] in F1. cbn [length]. rewrite F1. unfold elem_err.
      pose proof (node_parse (ND (91 :: s ++ [93]) (HArr l)) r J' NS) as P. cbn [ntext app] in P. rewrite <- app_assoc in P. cbn [app] in P. rewrite P.
      eexists r, e, _. split; [reflexivity|]. split; [exact F2|]. intros y Y. inversion Y; subst. eapply F3; eassumption.
Qed.

(** * Arrays *)
Lemma nelems_start s l : nelems s l -> exists w s', s = w ++ s' /\ ws w /\ nsp s' /\ s' <> [] /\ (length l <= length s')%nat.
Proof.
  induction 1 as [w1 v w2 W1 J W2|w1 v w2 t l W1 J W2 NE IH]; destruct (node_start v J) as (Sn & _ & Se & _);
    assert (Lv : (0 < length (ntext v))%nat) by (destruct (ntext v); [congruence|cbn; lia]).
  - exists w1, (ntext v ++ w2). split; [reflexivity|]. split; [exact W1|]. split; [apply nsp_app; assumption|]. split; [apply app_nn, Se|].
    rewrite app_length. cbn [length]. lia.
  - destruct IH as (w & s' & -> & _ & _ & _ & L). exists w1, (ntext v ++ w2 ++ 44 :: w ++ s'). split; [reflexivity|]. split; [exact W1|].
    split; [apply nsp_app; assumption|]. split; [apply app_nn, Se|]. rewrite !app_length. cbn [length]. rewrite !app_length. lia.
Qed.
Lemma sep_start first w s r l : sepw first w -> nelems s l -> exists c t, skip_spaces (w ++ s ++ r) = c :: t /\ c <> 93 /\ (c = 44 -> first = false).
Proof.
  intros SW NE. destruct SW as [[-> ->]|[-> (w' & W & ->)]].
  - inversion NE as [w1 v w2 W1 J W2|w1 v w2 t l' W1 J W2 NE']; subst; destruct (node_head v J) as (c & t0 & E & Hc);
      rewrite E; cbn [app]; rewrite <- app_assoc, skip_spaces_ws by exact W1; cbn [app]; rewrite skip_spaces_nsp by (cbn; apply vhead_nsp, Hc);
      eexists _, _; (split; [reflexivity|]); unfold vhead in Hc; lia.
  - rewrite <- app_assoc. cbn [app]. rewrite skip_spaces_ws by exact W. rewrite skip_spaces_nsp by reflexivity.
    eexists _, _; split; [reflexivity|]. split; [lia|reflexivity].
Qed.
Lemma elem_start first w w1 x : sepw first w -> ws w1 -> nsp x -> x <> [] -> hd 0 x <> 44 ->
  exists c t, skip_spaces (w ++ w1 ++ x) = c :: t /\ (if c =? 44 then skip_spaces t else c :: t) = x /\ (first = false -> c = 44) /\ (first = true -> c :: t = x).
Proof.
  intros SW W1 NX XE XC. destruct SW as [[-> ->]|[-> (w' & W & ->)]].
  - cbn [app]. rewrite skip_spaces_ws by exact W1. rewrite skip_spaces_nsp by exact NX. destruct x as [|c t]; [congruence|]. cbn [hd] in XC.
    exists c, t. split; [reflexivity|]. replace (c =? 44) with false by (symmetry; apply Z.eqb_neq, XC). split; [reflexivity|]. split; [discriminate|reflexivity].
  - exists 44, (w1 ++ x). split; [rewrite <- app_assoc; cbn [app]; rewrite skip_spaces_ws by exact W; apply skip_spaces_nsp; reflexivity|].
    split; [|split; [reflexivity|discriminate]]. change (44 =? 44) with true. cbv iota. rewrite skip_spaces_ws by exact W1. apply skip_spaces_nsp, NX.
Qed.
Lemma node_not_comma nd r : jnode nd -> hd 0 (ntext nd ++ r) <> 44.
Proof. intros J. destruct (node_head nd J) as (c & t & -> & Hc). cbn [app hd]. unfold vhead in Hc. lia. Qed.

Lemma array_skip_elems s l : nelems s l -> forall k first w b r, sepw first w -> (length l < k)%nat ->
  skip_spaces b = skip_spaces (w ++ s ++ 93 :: r) -> array_skip k b = (r, None).
Proof.
  assert (close : forall k w b r, ws w -> (0 < k)%nat -> skip_spaces b = skip_spaces (w ++ 93 :: r) -> array_skip k b = (r, None)).
  { intros k w b r W Hk E. destruct k as [|k]; [lia|]. cbn [array_skip]. rewrite E, skip_spaces_ws by exact W. rewrite skip_spaces_nsp by reflexivity. reflexivity. }
  assert (one : forall k first w w1 v x b, sepw first w -> ws w1 -> jnode v -> num_stop x -> 
     skip_spaces b = skip_spaces (w ++ w1 ++ ntext v ++ x) -> array_skip (S k) b = array_skip k x).
  { intros k first w w1 v x b SW W1 J NX E. cbn [array_skip]. rewrite E. destruct (node_start v J) as (Sn & Sh & Se & _).
    destruct (elem_start first w w1 (ntext v ++ x) SW W1 (nsp_app _ _ Sn Se) (app_nn _ _ Se) (node_not_comma v x J)) as (c & t & Ec & Ex & F1 & F2).
    rewrite Ec.
    replace (c =? 93) with false.
    - rewrite Ex. rewrite (node_parse v x J (stop_any _ _ NX)). reflexivity.
    - symmetry. apply Z.eqb_neq. destruct first; [|rewrite F1 by reflexivity; lia].
      specialize (F2 eq_refl). intros ->. rewrite <- (hd_app (ntext v) x Se), <- F2 in Sh. cbn in Sh. lia. }
  induction 1 as [w1 v w2 W1 J W2|w1 v w2 t l W1 J W2 NE IH]; intros k first w b r SW Lk E; (destruct k as [|k]; [lia|]).
  - repeat rewrite <- app_assoc in E. rewrite (one k first w w1 v (w2 ++ 93 :: r) b SW W1 J (num_stop_brack _ _ W2) E).
    cbn [length] in Lk. apply (close k w2 _ r W2); [lia|reflexivity].
  - repeat (rewrite <- app_assoc in E; cbn [app] in E). rewrite (one k first w w1 v (w2 ++ 44 :: t ++ 93 :: r) b SW W1 J (num_stop_comma _ _ W2) E).
    cbn [length] in Lk. apply (IH k false (w2 ++ [44])); [|lia|rewrite <- app_assoc; reflexivity]. right. split; [reflexivity|]. eauto.
Qed.

Lemma skip_elems_len first w s l r b : sepw first w -> nelems s l -> skip_spaces b = skip_spaces (w ++ s ++ 93 :: r) -> (length l < S (length b))%nat.
Proof.
  intros SW NE E. apply (f_equal (@length Z)) in E. pose proof (skip_spaces_le b) as L.
  destruct (nelems_start s l NE) as (w1 & s' & -> & W1 & N1 & E1 & L1).
  assert (length s' <= length (skip_spaces (w ++ (w1 ++ s') ++ 93%Z :: r)))%nat; [|lia].
  destruct SW as [[-> ->]|[-> (w' & W & ->)]].
  - cbn [app]. rewrite <- app_assoc. rewrite skip_spaces_ws by exact W1. rewrite skip_spaces_nsp by (apply nsp_app; assumption). rewrite app_length. lia.
  - repeat (rewrite <- app_assoc; cbn [app]). rewrite skip_spaces_ws by exact W. rewrite skip_spaces_nsp by reflexivity. cbn [length]. rewrite !app_length. lia.
Qed.

Section Arr.
Context {A : Type} (D : bytes -> A -> dres A) (R : node -> A -> A -> Prop) (N : nat).
Hypothesis HM : forall nd old, jnode nd -> (length (ntext nd) <= N)%nat -> meets D R nd old.

Lemma arr_end b r done todo : skip_spaces b = 93 :: r -> arr_loop D false b done todo = DR r None (done ++ todo).
Proof.
  intros E. destruct todo as [|x todo]; cbn [arr_loop array_skip]; rewrite E; [rewrite app_nil_r|]; reflexivity.
Qed.
Lemma arr_elem first w w1 v x b d0 old todo : sepw first w -> ws w1 -> jnode v ->
  skip_spaces b = skip_spaces (w ++ w1 ++ ntext v ++ x) ->
  arr_loop D first b d0 (old :: todo) =
    let y := D (ntext v ++ x) old in
    match d_err y with
    | None => arr_loop D false (d_rest y) (d0 ++ [d_val y]) todo
    | Some e => DR (d_rest y) (Some e) (d0 ++ d_val y :: todo)
    end.
Proof.
  intros SW W1 J E. cbn [arr_loop]. rewrite E. destruct (node_start v J) as (Sn & Sh & Se & _).
  destruct (elem_start first w w1 (ntext v ++ x) SW W1 (nsp_app _ _ Sn Se) (app_nn _ _ Se) (node_not_comma v x J)) as (c & t & Ec & Ex & F1 & F2).
  rewrite Ec. destruct first; [rewrite F2 by reflexivity; reflexivity|].
  rewrite F1 in * by reflexivity. change (44 =? 44) with true in Ex. change (44 =? cCOMMA) with true. cbv iota in *. rewrite Ex. reflexivity.
Qed.
Lemma arr_meet s l : nelems s l -> forall first w b d0 todo r, (length s <= N)%nat -> sepw first w ->
  skip_spaces b = skip_spaces (w ++ s ++ 93 :: r) ->
  (exists ys, arr_loop D first b d0 todo = DR r None (d0 ++ ys) /\ along R l todo ys /\ forall ys', along R l todo ys' -> ys' = ys) \/
  (exists r1 e x, arr_loop D first b d0 todo = DR r1 (Some e) x /\ e <> EFuel /\ forall ys, ~ along R l todo ys).
Proof.
  assert (full : forall s l first w b d0 r, nelems s l -> sepw first w -> skip_spaces b = skip_spaces (w ++ s ++ 93 :: r) ->
    exists ys, arr_loop D first b d0 [] = DR r None (d0 ++ ys) /\ along R l [] ys /\ forall ys', along R l [] ys' -> ys' = ys).
  { intros s0 l0 first w b d0 r NE SW E. exists []. cbn [arr_loop]. rewrite (array_skip_elems s0 l0 NE (S (length b)) first w b r SW); [|eapply skip_elems_len; eassumption|exact E].
    rewrite app_nil_r. split; [reflexivity|]. split; [constructor|]. intros ys' H. inversion H; reflexivity. }
  intros NE. pose proof NE as NE0. revert NE0.
  induction NE as [w1 v w2 W1 J W2|w1 v w2 t l W1 J W2 NE IH]; intros NE0 first w b d0 todo r LN SW E;
    (destruct todo as [|old todo]; [left; eapply full; eassumption|]); rewrite !app_length in LN; cbn [length] in LN.
  - repeat rewrite <- app_assoc in E. rewrite (arr_elem first w w1 v (w2 ++ 93 :: r) b d0 old todo SW W1 J E). cbv zeta.
    destruct (HM v old J ltac:(lia) (w2 ++ 93 :: r) (stop_any _ _ (num_stop_brack _ _ W2))) as [(r1 & y & E1 & E2 & E3 & E4)|(r1 & e & y & E1 & E2 & E3)];
      rewrite E1; cbn [d_err d_rest d_val].
    + left. exists (y :: todo). rewrite (arr_end r1 r); [|rewrite E2, skip_spaces_ws by exact W2; apply skip_spaces_nsp; reflexivity].
      rewrite <- app_assoc. split; [reflexivity|]. split; [constructor; [exact E3|constructor]|].
      intros ys' H. inversion H as [| |? ? ? ? ? ? H1 H2]; subst. f_equal; [apply E4, H1|]. inversion H2; reflexivity.
    + right. eexists _, _, _. split; [reflexivity|]. split; [exact E2|]. intros ys H. inversion H as [| |? ? ? ? ? ? H1 H2]; subst. exact (E3 _ H1).
  - repeat (rewrite <- app_assoc in E; cbn [app] in E). rewrite (arr_elem first w w1 v (w2 ++ 44 :: t ++ 93 :: r) b d0 old todo SW W1 J E). cbv zeta.
    destruct (HM v old J ltac:(lia) (w2 ++ 44 :: t ++ 93 :: r) (stop_any _ _ (num_stop_comma _ _ W2))) as [(r1 & y & E1 & E2 & E3 & E4)|(r1 & e & y & E1 & E2 & E3)];
      rewrite E1; cbn [d_err d_rest d_val].
    + destruct (IH NE false (w2 ++ [44]) r1 (d0 ++ [y]) todo r ltac:(lia)) as [(ys & F1 & F2 & F3)|(r2 & e & x & F1 & F2 & F3)].
      * right. split; [reflexivity|]. eauto.
      * rewrite E2. rewrite <- app_assoc. reflexivity.
      * left. exists (y :: ys). rewrite F1, <- app_assoc. split; [reflexivity|]. split; [constructor; assumption|].
        intros ys' H. inversion H as [| |? ? ? ? ? ? H1 H2]; subst. f_equal; [apply E4, H1|apply F3, H2].
      * right. exists r2, e, x. split; [exact F1|]. split; [exact F2|]. intros ys H. inversion H as [| |? ? ? ? ? ? H1 H2]; subst. exact (F3 _ H2).
    + right. eexists _, _, _. split; [reflexivity|]. split; [exact E2|]. intros ys H. inversion H as [| |? ? ? ? ? ? H1 H2]; subst. exact (E3 _ H1).
Qed.
End Arr.

(** The decoder of the element type must reject a closing bracket. *)
Lemma decode_array_meets {A} (D : bytes -> A -> dres A) R nd old : jnode nd ->
  (forall nd' x, jnode nd' -> (length (ntext nd') < length (ntext nd))%nat -> meets D R nd' x) ->
  (forall r x, exists r1 e y, D (93 :: r) x = DR r1 (Some e) y /\ e <> EFuel) ->
  meets (decode_array D) (array_rel R) nd old.
Proof.
  intros J HM HB. assert (J' := J).
  destruct J as [| | |s H|s H|w W|s l H|w W|s l H];
    try (apply type_err_meets; [exact J'| |intros y Y; inversion Y]; intros r NS; unfold decode_array;
         rewrite (null_only _ r J' NS); cbn [nshape]; pose proof (not_open _ r 91 J' NS) as NO; cbn [nshape] in NO;
         specialize (NO ltac:(first [lia|left; reflexivity])); cbv iota; destruct (Nat.ltb _ 2); [reflexivity|];
         destruct (ntext _ ++ r); [reflexivity|]; rewrite NO; reflexivity).
  - intros r NS. left. exists r, old. unfold decode_array. rewrite (null_only _ r J' NS). cbn [nshape ntext]. split; [reflexivity|]. split; [reflexivity|]. split; [constructor|]. intros y Y. inversion Y. reflexivity.
  - intros r NS. cbn [ntext] in *. unfold decode_array. change (has_null_prefix _) with false at 1 2.
    rewrite ltb2 by (cbn [length]; rewrite app_length; cbn; lia). cbv iota. cbn [app]. rewrite Z.eqb_refl.
    rewrite <- app_assoc. cbn [app]. assert (EB : skip_spaces (w ++ 93 :: r) = 93 :: r) by (rewrite skip_spaces_ws by exact W; apply skip_spaces_nsp; reflexivity).
    destruct old as [|x old].
    + left. exists r, []. cbn [arr_loop array_skip]. rewrite EB. split; [reflexivity|]. split; [reflexivity|]. split; [constructor; [reflexivity|constructor]|].
      intros y Y. inversion Y as [|? ? ? ? _ Al]; subst. inversion Al; reflexivity.
    + right. cbn [arr_loop]. rewrite EB. destruct (HB r x) as (r1 & e & y & -> & NE). cbn [d_err d_rest d_val].
      eexists _, _, _. split; [reflexivity|]. split; [exact NE|]. intros y' Y. inversion Y as [|? ? ? ? Z _]; subst. specialize (Z eq_refl). discriminate.
  - intros r NS. cbn [ntext] in *. unfold decode_array. change (has_null_prefix _) with false at 1 2.
    rewrite ltb2 by (cbn [length]; rewrite app_length; cbn; lia). cbv iota. cbn [app]. rewrite Z.eqb_refl.
    rewrite <- app_assoc. cbn [app].
    assert (NL : l <> []) by (inversion H; discriminate).
    destruct (arr_meet D R (length s)) with (s := s) (l := l) (first := true) (w := @nil Z) (b := s ++ 93 :: r) (d0 := @nil A) (todo := old) (r := r)
      as [(ys & F1 & F2 & F3)|(r1 & e & x & F1 & F2 & F3)].
    + intros nd' x Jn Ln. apply HM; [exact Jn|]. cbn [length]. rewrite app_length. lia.
    + exact H.
    + lia.
    + left. auto.
    + reflexivity.
    + left. exists r, ys. rewrite F1. split; [reflexivity|]. split; [reflexivity|]. split; [constructor; [congruence|exact F2]|].
      intros y Y. inversion Y; subst. apply F3. assumption.
    + right. exists r1, e, x. rewrite F1. split; [reflexivity|]. split; [exact F2|]. intros y Y. inversion Y; subst. eapply F3. eassumption.
Qed.

(** * Maps *)
Definition key_meets {K} (deck : bytes -> dres K) (keym : bytes -> K -> Prop) (lit : bytes) : Prop :=
  forall r, (exists k, deck (lit ++ r) = DR r None k /\ keym lit k /\ forall k', keym lit k' -> k' = k) \/
            (exists r1 e k, deck (lit ++ r) = DR r1 (Some e) k /\ e <> EFuel /\ forall k', ~ keym lit k').

Lemma obj_key_fail {K} (deck : bytes -> dres K) first w w1 k s r1 e x :
  sepw first w -> ws w1 -> string_lit k -> deck (k ++ s) = DR r1 (Some e) x ->
  let b := skip_spaces (w ++ w1 ++ k ++ s) in
  is_close b = false /\ obj_key deck first b = inl (key_error r1 e).
Proof.
  intros SW W1 (body & Ek & SB) D b.
  assert (NK : nsp (k ++ s)) by (subst k; reflexivity).
  assert (HN : has_null_prefix (k ++ s) = false) by (subst k; reflexivity).
  destruct SW as [[-> ->]|[-> (w' & W & ->)]].
  - assert (Eb : b = k ++ s).
    { unfold b. cbn [app]. rewrite skip_spaces_ws by exact W1. apply skip_spaces_nsp, NK. }
    split; [rewrite Eb; subst k; reflexivity|]. unfold obj_key. rewrite Eb, HN, D. reflexivity.
  - assert (Eb : b = 44 :: w1 ++ k ++ s).
    { unfold b. rewrite <- app_assoc. cbn [app]. rewrite skip_spaces_ws by exact W. apply skip_spaces_nsp. reflexivity. }
    rewrite Eb. split; [reflexivity|]. unfold obj_key. change (44 =? 44) with true. cbv iota.
    rewrite skip_spaces_ws by exact W1. rewrite skip_spaces_nsp by exact NK. rewrite HN, D. reflexivity.
Qed.
Lemma key_error_e r e : e <> EFuel -> snd (key_error r e) <> EFuel.
Proof. intros H. destruct r; [discriminate|]. cbn. destruct e; try discriminate. congruence. Qed.

Section MapMeet.
Context {K A : Type} (eqb : K -> K -> bool) (deck : bytes -> dres K) (D : bytes -> A -> dres A) (z : A)
  (R : node -> A -> A -> Prop) (keym : bytes -> K -> Prop) (inp : bytes) (fresh : bool) (N : nat).
Hypothesis HM : forall nd, jnode nd -> (length (ntext nd) <= N)%nat -> meets D R nd z.
Hypothesis HK : forall lit, string_lit lit -> key_meets deck keym lit.

Notation loop := (map_loop eqb deck D z inp fresh).
Lemma map_cong k first b b' m : skip_spaces b = skip_spaces b' -> loop (S k) first b m = loop (S k) first b' m.
Proof. intros E. cbn [map_loop]. rewrite E. reflexivity. Qed.

Definition map_good k first b m l r : Prop :=
  (exists kvs, loop k first b m = DR r None (Some (add_all eqb kvs m)) /\ Forall2 (entry R z keym) l kvs /\
     forall kvs', Forall2 (entry R z keym) l kvs' -> kvs' = kvs) \/
  (exists e y, (loop k first b m = elem_err inp e y \/ exists r1, loop k first b m = DR r1 (Some e) y) /\ e <> EFuel /\
     forall kvs, ~ Forall2 (entry R z keym) l kvs).

Lemma map_one k first w w1 lit w2 w3 v x m l r rest :
  sepw first w -> ws w1 -> string_lit lit -> ws w2 -> ws w3 -> jnode v -> num_stop x -> (length (ntext v) <= N)%nat ->
  (forall b m', skip_spaces b = skip_spaces x -> map_good k false b m' l r) ->
  rest = w ++ w1 ++ lit ++ w2 ++ 58 :: w3 ++ ntext v ++ x ->
  map_good (S k) first rest m ((lit, v) :: l) r.
Proof.
  intros SW W1 SL W2 W3 J NX LN C ->. destruct (node_start v J) as (Sn & _ & Se & _).
  destruct (HK lit SL (w2 ++ 58 :: w3 ++ ntext v ++ x)) as [(key & K1 & K2 & K3)|(r1 & e & y & K1 & K2 & K3)].
  - pose proof (map_step eqb deck D z inp fresh k first w w1 lit w2 w3 (ntext v ++ x) key m SW W1 SL W2 W3 (nsp_app _ _ Sn Se) K1) as E.
    unfold map_good. rewrite E. clear E. cbv zeta.
    destruct (HM v J LN x (stop_any _ _ NX)) as [(r1 & y & E1 & E2 & E3 & E4)|(r1 & e & y & E1 & E2 & E3)]; rewrite E1; cbn [d_err d_rest d_val].
    + destruct (C r1 (map_set eqb key y m) E2) as [(kvs & F1 & F2 & F3)|(e & y' & F1 & F2 & F3)].
      * left. exists ((key, y) :: kvs). split; [exact F1|]. split; [constructor; [split; assumption|exact F2]|].
        intros kvs' H. inversion H as [|? [k' y'] ? ? [H1 H2] H3]; subst. cbn [fst snd] in *. f_equal; [f_equal; [apply K3, H1|apply E4, H2]|apply F3, H3].
      * right. exists e, y'. split; [exact F1|]. split; [exact F2|]. intros kvs H. inversion H; subst. eapply F3; eassumption.
    + right. exists e. eexists. split; [left; reflexivity|]. split; [exact E2|]. intros kvs H. inversion H as [|? [k' y'] ? ? [H1 H2] H3]; subst. eapply E3, H2.
  - destruct (obj_key_fail deck first w w1 lit _ r1 e y SW W1 SL K1) as [C1 C2]. right.
    destruct (key_error r1 e) as [r2 e2] eqn:KE. exists e2. eexists. split.
    + right. exists r2. cbn [map_loop]. unfold is_close in C1. rewrite C1, C2. reflexivity.
    + split; [change e2 with (snd (r2, e2)); rewrite <- KE; apply key_error_e, K2|].
      intros kvs H. inversion H as [|? [k' y'] ? ? [H1 H2] H3]; subst. eapply K3, H1.
Qed.
Lemma map_meet s l : nmembers s l -> forall k first w b m r, (length s <= N)%nat -> (length s < k)%nat -> sepw first w ->
  skip_spaces b = skip_spaces (w ++ s ++ 125 :: r) -> map_good k first b m l r.
Proof.
  assert (cg : forall k first b b' m l r, skip_spaces b = skip_spaces b' -> map_good (S k) first b' m l r -> map_good (S k) first b m l r).
  { intros k first b b' m l0 r E. unfold map_good. rewrite (map_cong k first b b' m E). auto. }
  induction 1 as [w1 lit w2 w3 v w4 W1 SL W2 W3 J W4|w1 lit w2 w3 v w4 t l W1 SL W2 W3 J W4 NM IH]; intros k first w b m r LN Lk SW E.
  - rewrite !app_length in LN, Lk. cbn [length] in LN, Lk. rewrite !app_length in LN, Lk. destruct k as [|k]; [lia|]. apply (cg _ _ _ _ _ _ _ E).
    destruct (node_start v J) as (_ & _ & Se & _). assert (Lv : (0 < length (ntext v))%nat) by (destruct (ntext v); [congruence|cbn; lia]).
    eapply (map_one k first w w1 lit w2 w3 v (w4 ++ 125 :: r)); try eassumption; [apply num_stop_brace, W4|lia| |appn; reflexivity].
    intros b' m' E'. destruct k as [|k]; [lia|]. apply (cg _ _ _ _ _ _ _ E'). left. exists []. rewrite map_close by exact W4. split; [reflexivity|].
    split; [constructor|]. intros kvs' H. inversion H; reflexivity.
  - rewrite !app_length in LN, Lk. cbn [length] in LN, Lk. rewrite !app_length in LN, Lk. cbn [length] in LN, Lk. destruct k as [|k]; [lia|]. apply (cg _ _ _ _ _ _ _ E).
    destruct (node_start v J) as (_ & _ & Se & _). assert (Lv : (0 < length (ntext v))%nat) by (destruct (ntext v); [congruence|cbn; lia]).
    eapply (map_one k first w w1 lit w2 w3 v (w4 ++ 44 :: t ++ 125 :: r)); try eassumption; [apply num_stop_comma, W4|lia| |appn; reflexivity].
    intros b' m' E'. apply (IH k false (w4 ++ [44])); [lia|lia|right; split; [reflexivity|eauto]|]. rewrite E'. appn. reflexivity.
Qed.
End MapMeet.

Lemma decode_map_meets {K A} (eqb : K -> K -> bool) deck (D : bytes -> A -> dres A) z R keym nd old : jnode nd ->
  (forall nd', jnode nd' -> (length (ntext nd') < length (ntext nd))%nat -> meets D R nd' z) ->
  (forall lit, string_lit lit -> key_meets deck keym lit) ->
  meets (decode_map eqb deck D z) (map_rel R z keym eqb) nd old.
Proof.
  intros J HM HK. assert (J' := J).
  destruct J as [| | |s H|s H|w W|s l H|w W|s l H];
    try (apply type_err_meets; [exact J'| |intros y Y; inversion Y]; intros r NS; unfold decode_map;
         rewrite (null_only _ r J' NS); cbn [nshape]; pose proof (not_open _ r 123 J' NS) as NO; cbn [nshape] in NO;
         specialize (NO ltac:(first [lia|right; reflexivity])); cbv iota; destruct (Nat.ltb _ 2); [reflexivity|];
         destruct (ntext _ ++ r); [reflexivity|]; rewrite NO; reflexivity).
  - intros r NS. left. exists r, None. unfold decode_map. rewrite (null_only _ r J' NS). cbn [nshape ntext]. split; [reflexivity|]. split; [reflexivity|]. split; [constructor|]. intros y Y. inversion Y. reflexivity.
  - intros r NS. left. cbn [ntext app] in *. rewrite <- app_assoc. cbn [app]. unfold decode_map. change (has_null_prefix _) with false at 1. cbv iota.
    replace (Nat.ltb _ 2) with false by (symmetry; apply Nat.ltb_ge; cbn [length]; rewrite app_length; cbn; lia). rewrite Z.eqb_refl.
    rewrite map_close by exact W.
    exists r, (Some (entries old)). split; [destruct old; reflexivity|]. split; [reflexivity|].
    split; [apply (mr_obj R z keym eqb (123 :: w ++ [125]) [] old []); constructor|].
    intros y Y. inversion Y as [|? ? ? kvs F]; subst. inversion F; reflexivity.
  - intros r NS. cbn [ntext app] in *. rewrite <- app_assoc. cbn [app]. unfold decode_map. change (has_null_prefix _) with false at 1 2. cbv iota.
    replace (Nat.ltb _ 2) with false by (symmetry; apply Nat.ltb_ge; cbn [length]; rewrite app_length; cbn; lia). rewrite Z.eqb_refl.
    match goal with |- context [map_loop _ _ _ _ ?i ?f ?kk _ ?bb ?mm] =>
      destruct (map_meet eqb deck D z R keym i f (length s)) with (s := s) (l := l) (k := kk) (first := true) (w := @nil Z) (b := bb) (m := mm) (r := r)
      as [(kvs & F1 & F2 & F3)|(e & y & F1 & F2 & F3)] end.
    + intros nd' Jn Ln. apply HM; [exact Jn|]. cbn [length]. rewrite app_length. lia.
    + exact HK.
    + exact H.
    + lia.
    + cbn [length]. rewrite app_length. lia.
    + left. auto.
    + reflexivity.
    + left. rewrite F1. exists r. eexists. split; [reflexivity|]. split; [reflexivity|]. split; [apply (mr_obj R z keym eqb _ l old kvs F2)|].
      intros y Y. inversion Y as [|? ? ? kvs' F]; subst. rewrite (F3 _ F). reflexivity.
    + right. assert (NR : forall y', ~ map_rel R z keym eqb (ND (123 :: s ++ [125]) (HObj l)) old y') by (intros y' Y; inversion Y; subst; eapply F3; eassumption).
      destruct F1 as [F1|(r1 & F1)]; rewrite F1.
      * unfold elem_err. pose proof (node_parse (ND (123 :: s ++ [125]) (HObj l)) r J' NS) as P. cbn [ntext app] in P. rewrite <- app_assoc in P. cbn [app] in P. rewrite P.
        exists r, e, y. auto.
      * exists r1, e, y. auto.
Qed.

(** * Structs *)
Section StructMeet.
Context {A : Type} (look : bytes -> option (bytes -> A -> dres A)) (dis : bool) (M : bytes -> node -> A -> A -> Prop) (inp : bytes) (N : nat).
Definition look_meets (k : bytes) (nd : node) (x : A) : Prop :=
  match look k with
  | Some D => meets D (M k) nd x
  | None => forall y, M k nd x y <-> dis = false /\ y = x
  end.
Hypothesis HM : forall k nd x, jnode nd -> (length (ntext nd) <= N)%nat -> look_meets k nd x.

Definition deck_name b : dres bytes :=
  match parse_string_unquote b [] with
  | QOk s r _ => DR r None s
  | QErr r e => DR r (Some e) []
  | QPanic => DR b (Some EPanicked) []
  | QFuel => DR b (Some EFuel) []
  end.
Notation loop := (struct_loop look dis inp).
Lemma struct_cong k first b b' m : skip_spaces b = skip_spaces b' -> loop (S k) first b m = loop (S k) first b' m.
Proof. intros E. cbn [struct_loop]. rewrite E. reflexivity. Qed.
Lemma struct_close k first w r m : ws w -> loop (S k) first (w ++ 125 :: r) m = DR r None m.
Proof.
  intros W. cbn [struct_loop]. rewrite skip_spaces_ws by exact W. rewrite (skip_spaces_nsp (125 :: r)) by reflexivity. reflexivity.
Qed.

Definition struct_good k first b m l r : Prop :=
  (exists y, loop k first b m = DR r None y /\ members_rel M l m y /\ forall y', members_rel M l m y' -> y' = y) \/
  (exists e y, (loop k first b m = elem_err inp e y \/ exists r1, loop k first b m = DR r1 (Some e) y) /\ e <> EFuel /\ forall y, ~ members_rel M l m y).

Lemma struct_one k first w w1 lit w2 w3 v x m l r rest :
  sepw first w -> ws w1 -> string_lit lit -> ws w2 -> ws w3 -> jnode v -> num_stop x -> (length (ntext v) <= N)%nat ->
  (forall b m', skip_spaces b = skip_spaces x -> struct_good k false b m' l r) ->
  rest = w ++ w1 ++ lit ++ w2 ++ 58 :: w3 ++ ntext v ++ x ->
  struct_good (S k) first rest m ((lit, v) :: l) r.
Proof.
  intros SW W1 SL W2 W3 J NX LN C ->. destruct (node_start v J) as (Sn & _ & Se & _).
  assert (K1 : deck_name (lit ++ w2 ++ 58 :: w3 ++ ntext v ++ x) = DR (w2 ++ 58 :: w3 ++ ntext v ++ x) None (str_text lit)).
  { unfold deck_name. destruct (string_lit_unquote lit (w2 ++ 58 :: w3 ++ ntext v ++ x) SL) as [i ->]. reflexivity. }
  destruct (obj_key_ok deck_name first w w1 lit w2 w3 (ntext v ++ x) (str_text lit) SW W1 SL W2 W3 (nsp_app _ _ Sn Se) K1) as [C1 C2].
  assert (L : loop (S k) first (w ++ w1 ++ lit ++ w2 ++ 58 :: w3 ++ ntext v ++ x) m =
    match look (str_text lit) with
          | None =>
              if dis then DR (ntext v ++ x) (Some EOther) m
              else match parseValue (ntext v ++ x) with
                   | PErr r e => DR r (Some e) m
                   | POk _ r => loop k false r m
                   end
          | Some decf =>
              let x := decf (ntext v ++ x) m in
              match d_err x with
              | None => loop k false (d_rest x) (d_val x)
              | Some e => elem_err inp e (d_val x)
              end
          end).
  { cbn [struct_loop]. unfold is_close in C1. rewrite C1. unfold deck_name in C2. rewrite C2. reflexivity. }
  unfold struct_good. rewrite L. clear L C1 C2 K1.
  assert (INV : forall y, members_rel M ((lit, v) :: l) m y <-> exists m', M (str_text lit) v m m' /\ members_rel M l m' y).
  { intros y. split.
    - intros H. inversion H as [|? k0 ? ? ? m' ? S1 S2 S3]; subst. rewrite (str_means_text _ _ SL S1) in S2. eauto.
    - intros (m' & H1 & H2). econstructor; [apply str_text_means, SL|exact H1|exact H2]. }
  pose proof (HM (str_text lit) v m J LN) as H. unfold look_meets in H. destruct (look (str_text lit)) as [decf|].
  - cbv zeta. destruct (H x (stop_any _ _ NX)) as [(r1 & y & E1 & E2 & E3 & E4)|(r1 & e & y & E1 & E2 & E3)]; rewrite E1; cbn [d_err d_rest d_val].
    + destruct (C r1 y E2) as [(y2 & F1 & F2 & F3)|(e & y' & F1 & F2 & F3)].
      * left. exists y2. split; [exact F1|]. split; [apply INV; eauto|]. intros y' Y. apply INV in Y as (m' & Y1 & Y2). rewrite (E4 _ Y1) in Y2. apply F3, Y2.
      * right. exists e, y'. split; [exact F1|]. split; [exact F2|]. intros y2 Y. apply INV in Y as (m' & Y1 & Y2). rewrite (E4 _ Y1) in Y2. exact (F3 _ Y2).
    + right. exists e, y. split; [left; reflexivity|]. split; [exact E2|]. intros y2 Y. apply INV in Y as (m' & Y1 & Y2). exact (E3 _ Y1).
  - destruct dis eqn:Ed.
    + right. exists EOther, m. split; [right; eauto|]. split; [congruence|]. intros y Y. apply INV in Y as (m' & Y1 & Y2). apply H in Y1. destruct Y1; discriminate.
    + rewrite <- Ed in *. rewrite (node_parse v x J (stop_any _ _ NX)). destruct (C x m eq_refl) as [(y2 & F1 & F2 & F3)|(e & y' & F1 & F2 & F3)].
      * left. exists y2. split; [exact F1|]. split; [apply INV; exists m; split; [apply H; auto|exact F2]|].
        intros y' Y. apply INV in Y as (m' & Y1 & Y2). apply H in Y1 as [_ ->]. apply F3, Y2.
      * right. exists e, y'. split; [exact F1|]. split; [exact F2|]. intros y2 Y. apply INV in Y as (m' & Y1 & Y2). apply H in Y1 as [_ ->]. exact (F3 _ Y2).
Qed.
Lemma struct_meet s l : nmembers s l -> forall k first w b m r, (length s <= N)%nat -> (length s < k)%nat -> sepw first w ->
  skip_spaces b = skip_spaces (w ++ s ++ 125 :: r) -> struct_good k first b m l r.
Proof.
  assert (cg : forall k first b b' m l r, skip_spaces b = skip_spaces b' -> struct_good (S k) first b' m l r -> struct_good (S k) first b m l r).
  { intros k first b b' m l0 r E. unfold struct_good. rewrite (struct_cong k first b b' m E). auto. }
  induction 1 as [w1 lit w2 w3 v w4 W1 SL W2 W3 J W4|w1 lit w2 w3 v w4 t l W1 SL W2 W3 J W4 NM IH]; intros k first w b m r LN Lk SW E.
  - rewrite !app_length in LN, Lk. cbn [length] in LN, Lk. rewrite !app_length in LN, Lk. destruct k as [|k]; [lia|]. apply (cg _ _ _ _ _ _ _ E).
    destruct (node_start v J) as (_ & _ & Se & _). assert (Lv : (0 < length (ntext v))%nat) by (destruct (ntext v); [congruence|cbn; lia]).
    eapply (struct_one k first w w1 lit w2 w3 v (w4 ++ 125 :: r)); try eassumption; [apply num_stop_brace, W4|lia| |appn; reflexivity].
    intros b' m' E'. destruct k as [|k]; [lia|]. apply (cg _ _ _ _ _ _ _ E'). left. exists m'. rewrite struct_close by exact W4. split; [reflexivity|].
    split; [constructor|]. intros kvs' H. inversion H; reflexivity.
  - rewrite !app_length in LN, Lk. cbn [length] in LN, Lk. rewrite !app_length in LN, Lk. cbn [length] in LN, Lk. destruct k as [|k]; [lia|]. apply (cg _ _ _ _ _ _ _ E).
    destruct (node_start v J) as (_ & _ & Se & _). assert (Lv : (0 < length (ntext v))%nat) by (destruct (ntext v); [congruence|cbn; lia]).
    eapply (struct_one k first w w1 lit w2 w3 v (w4 ++ 44 :: t ++ 125 :: r)); try eassumption; [apply num_stop_comma, W4|lia| |appn; reflexivity].
    intros b' m' E'. apply (IH k false (w4 ++ [44])); [lia|lia|right; split; [reflexivity|eauto]|]. rewrite E'. appn. reflexivity.
Qed.
End StructMeet.

Lemma decode_struct_meets {A} look dis (M : bytes -> node -> A -> A -> Prop) nd old : jnode nd ->
  (forall k nd' x, jnode nd' -> (length (ntext nd') < length (ntext nd))%nat -> look_meets look dis M k nd' x) ->
  meets (decode_struct look dis) (struct_rel M) nd old.
Proof.
  intros J HM. assert (J' := J).
  destruct J as [| | |s H|s H|w W|s l H|w W|s l H];
    try (apply type_err_meets; [exact J'| |intros y Y; inversion Y]; intros r NS; unfold decode_struct;
         rewrite (null_only _ r J' NS); cbn [nshape]; pose proof (not_open _ r 123 J' NS) as NO; cbn [nshape] in NO;
         specialize (NO ltac:(first [lia|right; reflexivity])); cbv iota; destruct (Nat.ltb _ 2); [reflexivity|];
         destruct (ntext _ ++ r); [reflexivity|]; rewrite NO; reflexivity).
  - intros r NS. left. exists r, old. unfold decode_struct. rewrite (null_only _ r J' NS). cbn [nshape ntext]. split; [reflexivity|]. split; [reflexivity|]. split; [constructor|]. intros y Y. inversion Y. reflexivity.
  - intros r NS. left. cbn [ntext app] in *. rewrite <- app_assoc. cbn [app]. unfold decode_struct. change (has_null_prefix _) with false at 1. cbv iota.
    replace (Nat.ltb _ 2) with false by (symmetry; apply Nat.ltb_ge; cbn [length]; rewrite app_length; cbn; lia). rewrite Z.eqb_refl.
    rewrite struct_close by exact W. exists r, old. split; [reflexivity|]. split; [reflexivity|]. split; [constructor; constructor|].
    intros y Y. inversion Y as [|? ? ? ? F]; subst. inversion F; reflexivity.
  - intros r NS. cbn [ntext app] in *. rewrite <- app_assoc. cbn [app]. unfold decode_struct. change (has_null_prefix _) with false at 1 2. cbv iota.
    replace (Nat.ltb _ 2) with false by (symmetry; apply Nat.ltb_ge; cbn [length]; rewrite app_length; cbn; lia). rewrite Z.eqb_refl.
    match goal with |- context [struct_loop _ _ ?i ?kk _ ?bb ?mm] =>
      destruct (struct_meet look dis M i (length s)) with (s := s) (l := l) (k := kk) (first := true) (w := @nil Z) (b := bb) (m := mm) (r := r)
      as [(y & F1 & F2 & F3)|(e & y & F1 & F2 & F3)] end.
    + intros k nd' x Jn Ln. apply HM; [exact Jn|]. cbn [length]. rewrite app_length. lia.
    + exact H.
    + lia.
    + cbn [length]. rewrite app_length. lia.
    + left. auto.
    + reflexivity.
    + left. rewrite F1. exists r, y. split; [reflexivity|]. split; [reflexivity|]. split; [constructor; exact F2|].
      intros y' Y. inversion Y as [|? ? ? ? F]; subst. apply F3, F.
    + right. assert (NR : forall y', ~ struct_rel M (ND (123 :: s ++ [125]) (HObj l)) old y') by (intros y' Y; inversion Y; subst; eapply F3; eassumption).
      destruct F1 as [F1|(r1 & F1)]; rewrite F1.
      * unfold elem_err. pose proof (node_parse (ND (123 :: s ++ [125]) (HObj l)) r J' NS) as P. cbn [ntext app] in P. rewrite <- app_assoc in P. cbn [app] in P. rewrite P.
        exists r, e, y. auto.
      * exists r1, e, y. auto.
Qed.
