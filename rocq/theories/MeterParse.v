(** What parseValue uses. *)
From Verif Require Import Bytes SpecJson ParseModel ParseFacts SpecMeter MeterModel MeterFacts.

Lemma opens_app a b : opens (a ++ b) = (opens a + opens b)%nat.
Proof. induction a as [|c a IH]; [reflexivity|]. cbn [app opens]. rewrite IH. lia. Qed.

Lemma bind_ext {A B} (m : M A) (f g : A -> M B) : f (fst m) = g (fst m) -> bind m f = bind m g.
Proof. unfold bind. intros ->. reflexivity. Qed.
Definition obj_k_m (n : nat) (a b : bytes) : M pres :=
  let* p := pres_m b (parse_string b) in
  match p with
  | PErr r e => ret (PErr r e)
  | POk _ b =>
      let* b := skip_spaces_m b in
      match b with
      | [] => ret (PErr [] ESyntax)
      | c :: b1 =>
          if negb (c =? cCOLON) then ret (PErr (c :: b1) ESyntax)
          else let* b := skip_spaces_m b1 in
               let* p := parse_value_m n b in
               match p with
               | PErr r e => ret (PErr r e)
               | POk _ b => object_loop_m n false a b
               end
      end
  end.
Definition arr_k_m (n : nat) (a b : bytes) : M pres :=
  let* p := parse_value_m n b in
  match p with
  | PErr r e => ret (PErr r e)
  | POk _ b => array_loop_m n false a b
  end.
Lemma object_loop_m_S n f a b : object_loop_m (S n) f a b =
  let* s := skip_spaces_m b in
  match s with
  | [] => ret (PErr [] ESyntax)
  | c :: b1 =>
      if c =? 125 then ret (close_at a (c :: b1))
      else if f then obj_k_m n a (c :: b1)
      else if negb (c =? 44) then ret (PErr (c :: b1) ESyntax)
      else let* s := skip_spaces_m b1 in
           match s with
           | [] => ret (PErr [] ESyntax)
           | c2 :: b2 => if c2 =? 125 then ret (PErr (c2 :: b2) ESyntax) else obj_k_m n a (c2 :: b2)
           end
  end.
Proof. cbn [object_loop_m]. apply bind_ext. destruct (fst (skip_spaces_m b)); reflexivity. Qed.
Lemma array_loop_m_S n f a b : array_loop_m (S n) f a b =
  let* s := skip_spaces_m b in
  match s with
  | [] => ret (PErr [] ESyntax)
  | c :: b1 =>
      if c =? 93 then ret (close_at a (c :: b1))
      else if f then arr_k_m n a (c :: b1)
      else if negb (c =? 44) then ret (PErr (c :: b1) ESyntax)
      else let* s := skip_spaces_m b1 in
           match s with
           | [] => ret (PErr [] ESyntax)
           | c2 :: b2 => if c2 =? 93 then ret (PErr (c2 :: b2) ESyntax) else arr_k_m n a (c2 :: b2)
           end
  end.
Proof. cbn [array_loop_m]. apply bind_ext. destruct (fst (skip_spaces_m b)); reflexivity. Qed.

(** A bind taken apart. *)
Lemma steps_bind {A B} (m : M A) (f : A -> M B) : steps (snd (bind m f)) = steps (snd m) + steps (snd (f (fst m))).
Proof. reflexivity. Qed.
Lemma calls_bind {A B} (m : M A) (f : A -> M B) : calls (snd (bind m f)) = Nat.max (calls (snd m)) (calls (snd (f (fst m)))).
Proof. reflexivity. Qed.

(** The bytes a call had to do with: those before the rest, or all. *)
Definition used (b : bytes) (p : pres) : Z :=
  match p with POk _ r => Z.of_nat (length b) - Z.of_nat (length r) | PErr _ _ => Z.of_nat (length b) + 1 end.

(** simplification that leaves the integers alone *)
Ltac mm := cbn [fst snd steps calls ret bind length opens map used] in *.
Definition suf (r b : bytes) : Prop := exists p, b = p ++ r.
Lemma suf_skip b : suf (skip_spaces b) b.
Proof. destruct (skip_spaces_split b) as (w & _ & E & _). exists w. exact E. Qed.
Lemma suf_trans a b c : suf a b -> suf b c -> suf a c.
Proof. intros [p ->] [q ->]. exists (q ++ p). apply app_assoc. Qed.
Lemma suf_cons c b : suf b (c :: b).
Proof. exists [c]. reflexivity. Qed.
Lemma suf_len r b : suf r b -> (length r <= length b)%nat.
Proof. intros [p ->]. rewrite app_length. lia. Qed.
Lemma suf_opens r b : suf r b -> (opens r <= opens b)%nat.
Proof. intros [p ->]. rewrite opens_app. lia. Qed.
Lemma suf_refl b : suf b b.
Proof. exists []. reflexivity. Qed.
Lemma suf_wf r b : suf r b -> wf b -> wf r.
Proof. intros [p ->] W. apply wf_app in W. tauto. Qed.

Lemma skip_steps b : steps (snd (skip_spaces_m b)) = 1 + Z.of_nat (length b) - Z.of_nat (length (skip_spaces b)).
Proof. pose proof (skip_spaces_le b). unfold skip_spaces_m, spend, tick. mm. lia. Qed.
Lemma skip_calls b : calls (snd (skip_spaces_m b)) = 0%nat.
Proof. reflexivity. Qed.
Lemma pres_calls b p : calls (snd (pres_m b p)) = 0%nat.
Proof. destruct p; reflexivity. Qed.
Lemma pres_steps b p : (forall v r, p = POk v r -> suf r b) -> steps (snd (pres_m b p)) <= 1 + used b p.
Proof. destruct p as [v r|r e]; intros H; unfold pres_m, spend, tick; mm; [|lia]. pose proof (suf_len _ _ (H v r eq_refl)). lia. Qed.
Lemma pres_steps_ok b v r : suf r b -> steps (snd (pres_m b (POk v r))) = 1 + used b (POk v r).
Proof. intros H. unfold pres_m, spend, tick. mm. apply suf_len in H. lia. Qed.

Lemma string_suf b v r : wf b -> parse_string b = POk v r -> suf r b /\ (2 <= length b - length r)%nat.
Proof.
  intros W H. apply parse_string_sound in H as [-> (body & -> & _)]; [|exact W]. split; [eexists; reflexivity|].
  rewrite app_length. cbn [length]. rewrite app_length. cbn [length]. lia.
Qed.
Lemma number_suf b v r : parse_number b = POk v r -> suf r b /\ (length r < length b)%nat.
Proof.
  intros H. apply parse_number_sound in H as [-> N]. split; [eexists; reflexivity|].
  apply number_head in N as (c & t & -> & _). rewrite app_length. cbn [length]. lia.
Qed.
Lemma lit_suf l b v r : parse_lit l b = POk v r -> suf r b.
Proof. intros H. apply parse_lit_sound in H as [-> ->]. eexists; reflexivity. Qed.
Lemma value_suf n b v r : wf b -> parse_value n b = POk v r -> suf r b /\ (length r < length b)%nat.
Proof.
  intros W H. apply parse_value_sound in H as [-> [a J]]; [|exact W]. split; [eexists; reflexivity|].
  apply jvalue_head in J as (c & t & -> & _). rewrite app_length. cbn [length]. lia.
Qed.
Lemma object_suf n f p b v r : wf b -> object_loop n f (p ++ b) b = POk v r -> suf r b /\ (length r < length b)%nat.
Proof.
  intros W H. apply (proj1 (proj2 (parse_sound_all n))) in H as (t & l & _ & -> & T); [|exact W]. split; [eexists; reflexivity|].
  inversion T; subst; repeat (rewrite ?app_length; cbn [length]); lia.
Qed.
Lemma array_suf n f p b v r : wf b -> array_loop n f (p ++ b) b = POk v r -> suf r b /\ (length r < length b)%nat.
Proof.
  intros W H. apply (proj2 (proj2 (parse_sound_all n))) in H as (t & l & _ & -> & T); [|exact W]. split; [eexists; reflexivity|].
  inversion T; subst; repeat (rewrite ?app_length; cbn [length]); lia.
Qed.

(** Upper bounds. *)
Definition within (m : M pres) (b : bytes) (k : Z) : Prop :=
  steps (snd m) <= 4 * used b (fst m) + k /\ (calls (snd m) <= 1 + opens b)%nat.

Lemma parse_use n :
  (forall b, wf b -> within (parse_value_m n b) b 0) /\
  (forall f p b, wf b -> within (object_loop_m n f (p ++ b) b) b (if f then 2 else 1)) /\
  (forall f p b, wf b -> within (array_loop_m n f (p ++ b) b) b (if f then 2 else 1)).
Proof.
  induction n as [|n (IV & IO & IA)].
  { unfold within. repeat split; intros; cbn [parse_value_m object_loop_m array_loop_m]; mm; try lia; destruct f; lia. }
  assert (EV : forall b, fst (parse_value_m n b) = parse_value n b) by apply erase_pv.
  assert (EO : forall f a b, fst (object_loop_m n f a b) = object_loop n f a b) by apply erase_pv.
  assert (EA : forall f a b, fst (array_loop_m n f a b) = array_loop n f a b) by apply erase_pv.
  assert (SK : forall b, (length (skip_spaces b) <= length b)%nat) by apply skip_spaces_le.
  assert (KO : forall p b, wf b -> within (obj_k_m n (p ++ b) b) b 0).
  { intros p b W. unfold obj_k_m, within. rewrite fst_bind, steps_bind, calls_bind, fst_pres, pres_calls.
    pose proof (pres_steps b (parse_string b)) as PS. destruct (parse_string b) as [k b2|r e] eqn:Ek.
    2:{ specialize (PS ltac:(discriminate)). mm. lia. }
    destruct (string_suf _ _ _ W Ek) as [S2 L2]. specialize (PS ltac:(intros ? ? [= _ <-]; exact S2)).
    pose proof (suf_wf _ _ S2 W) as W2. pose proof (suf_len _ _ S2) as LL2. pose proof (suf_opens _ _ S2) as O2.
    rewrite fst_bind, steps_bind, calls_bind, fst_skip, skip_steps, skip_calls. pose proof (SK b2) as LK2.
    pose proof (suf_wf _ _ (suf_skip b2) W2) as W3. pose proof (suf_opens _ _ (suf_skip b2)) as O3. pose proof (suf_skip b2) as F2.
    destruct (skip_spaces b2) as [|c2 b3]; [mm; lia|].
    destruct (negb (c2 =? cCOLON)); [mm; lia|].
    rewrite fst_bind, steps_bind, calls_bind, fst_skip, skip_steps, skip_calls. pose proof (SK b3) as LK3.
    pose proof (suf_opens _ _ (suf_skip b3)) as O4. pose proof (suf_wf _ _ (suf_skip b3) (suf_wf _ _ (suf_cons c2 b3) W3)) as W4.
    rewrite fst_bind, steps_bind, calls_bind. destruct (IV _ W4) as [SV CV]. rewrite EV in *.
    destruct (parse_value n (skip_spaces b3)) as [u b4|r e] eqn:Ev; [|mm; lia].
    destruct (value_suf _ _ _ _ W4 Ev) as [S4 L4]. pose proof (suf_opens _ _ S4) as O5.
    assert (S4' : suf b4 b). { eapply suf_trans; [exact S4|]. eapply suf_trans; [apply suf_skip|]. eapply suf_trans; [|exact S2].
      eapply suf_trans; [apply suf_cons|exact F2]. }
    destruct S4' as [q Eq]. rewrite Eq, app_assoc. pose proof (suf_wf _ _ S4 W4) as W5.
    destruct (IO false (p ++ q) b4 W5) as [SO CO]. rewrite EO in *.
    rewrite <- app_assoc, <- Eq in *.
    destruct (object_loop n false (p ++ b) b4) as [v r|r e]; mm; lia. }
  assert (KA : forall p b, wf b -> within (arr_k_m n (p ++ b) b) b 1).
  { intros p b W. unfold arr_k_m, within. rewrite fst_bind, steps_bind, calls_bind. destruct (IV _ W) as [SV CV]. rewrite EV in *.
    destruct (parse_value n b) as [u b4|r e] eqn:Ev; [|mm; lia].
    destruct (value_suf _ _ _ _ W Ev) as [S4 L4]. pose proof (suf_opens _ _ S4) as O5. pose proof (suf_wf _ _ S4 W) as W5.
    destruct S4 as [q Eq]. rewrite Eq, app_assoc.
    destruct (IA false (p ++ q) b4 W5) as [SO CO]. rewrite EA in *. rewrite <- app_assoc, <- Eq in *.
    destruct (array_loop n false (p ++ b) b4) as [v r|r e]; mm; lia. }
  split; [|split].
  - intros b W. cbn [parse_value_m]. unfold within, call. mm. destruct b as [|c b1]; [mm; lia|].
    assert (W1 : wf b1) by (apply wf_cons in W; tauto).
    destruct (c =? cLBRACE) eqn:E1.
    { destruct (Nat.ltb _ _); [mm; lia|]. destruct (IO true [c] b1 W1) as [SO CO]. cbn [app] in *. rewrite EO in *.
      zb; subst c. destruct (object_loop n true _ b1); mm; cbn [Z.eqb Pos.eqb orb]; lia. }
    destruct (c =? cLBRACK) eqn:E2.
    { destruct (Nat.ltb _ _); [mm; lia|]. destruct (IA true [c] b1 W1) as [SO CO]. cbn [app] in *. rewrite EA in *.
      zb; subst c. destruct (array_loop n true _ b1); mm; cbn [Z.eqb Pos.eqb orb]; lia. }
    assert (G : forall p, (forall v r, p = POk v r -> suf r (c :: b1) /\ (length r < length (c :: b1))%nat) ->
      1 + steps (snd (pres_m (c :: b1) p)) <= 4 * used (c :: b1) (fst (pres_m (c :: b1) p)) + 0 /\
      (S (calls (snd (pres_m (c :: b1) p))) <= 1 + opens (c :: b1))%nat).
    { intros p Hp. rewrite fst_pres, pres_calls. pose proof (pres_steps (c :: b1) p (fun v r e => proj1 (Hp v r e))) as PS.
      destruct p as [v r|r e]; [|mm; lia]. destruct (Hp v r eq_refl) as [H1 H2]. mm. lia. }
    assert (GL : forall l v r, parse_lit l (c :: b1) = POk v r -> l <> [] -> suf r (c :: b1) /\ (length r < length (c :: b1))%nat).
    { intros l v r H N. apply parse_lit_sound in H as [-> ->]. split; [eexists; reflexivity|]. rewrite app_length. destruct l; [congruence|cbn [length]; lia]. }
    destruct (c =? cQUOTE).
    { apply G. intros v r H. destruct (string_suf _ _ _ W H). split; [assumption|lia]. }
    destruct (c =? cn). { apply G. intros v r H. apply GL in H; [exact H|discriminate]. }
    destruct (c =? ct). { apply G. intros v r H. apply GL in H; [exact H|discriminate]. }
    destruct (c =? cf). { apply G. intros v r H. apply GL in H; [exact H|discriminate]. }
    destruct (is_num_start c); [|mm; lia]. apply G. apply number_suf.
  - intros f p b W. rewrite object_loop_m_S. unfold within. rewrite fst_bind, steps_bind, calls_bind, fst_skip, skip_steps, skip_calls.
    pose proof (SK b) as LK. pose proof (suf_skip b) as F1. pose proof (suf_wf _ _ F1 W) as W1. pose proof (suf_opens _ _ F1) as O1.
    destruct (skip_spaces b) as [|c b1]; [destruct f; mm; lia|].
    destruct (c =? 125).
    { destruct F1 as [q Eq]. rewrite Eq, app_assoc. unfold ret. cbn [fst snd steps calls]. rewrite close_at_app.
      rewrite app_length in *. destruct f; mm; rewrite ?app_length; cbn [length]; lia. }
    destruct f.
    { destruct F1 as [q Eq]. assert (E : p ++ b = (p ++ q) ++ c :: b1) by (rewrite Eq, app_assoc; reflexivity). rewrite E.
      destruct (KO (p ++ q) _ W1) as [SO CO]. destruct (fst (obj_k_m n ((p ++ q) ++ c :: b1) (c :: b1))); mm; lia. }
    destruct (negb (c =? 44)); [mm; lia|].
    rewrite fst_bind, steps_bind, calls_bind, fst_skip, skip_steps, skip_calls.
    pose proof (SK b1) as LK1. pose proof (suf_skip b1) as F2. pose proof (suf_wf _ _ F2 (suf_wf _ _ (suf_cons c b1) W1)) as W2.
    pose proof (suf_opens _ _ F2) as O2. destruct (skip_spaces b1) as [|c2 b2]; [mm; lia|].
    destruct (c2 =? 125); [mm; lia|].
    assert (F3 : suf (c2 :: b2) b) by (eapply suf_trans; [exact F2|eapply suf_trans; [apply suf_cons|exact F1]]).
    destruct F3 as [q Eq]. assert (E : p ++ b = (p ++ q) ++ c2 :: b2) by (rewrite Eq, app_assoc; reflexivity). rewrite E.
    destruct (KO (p ++ q) _ W2) as [SO CO]. destruct (fst (obj_k_m n ((p ++ q) ++ c2 :: b2) (c2 :: b2))); mm; lia.
  - intros f p b W. rewrite array_loop_m_S. unfold within. rewrite fst_bind, steps_bind, calls_bind, fst_skip, skip_steps, skip_calls.
    pose proof (SK b) as LK. pose proof (suf_skip b) as F1. pose proof (suf_wf _ _ F1 W) as W1. pose proof (suf_opens _ _ F1) as O1.
    destruct (skip_spaces b) as [|c b1]; [destruct f; mm; lia|].
    destruct (c =? 93).
    { destruct F1 as [q Eq]. rewrite Eq, app_assoc. unfold ret. cbn [fst snd steps calls]. rewrite close_at_app.
      rewrite app_length in *. destruct f; mm; rewrite ?app_length; cbn [length]; lia. }
    destruct f.
    { destruct F1 as [q Eq]. assert (E : p ++ b = (p ++ q) ++ c :: b1) by (rewrite Eq, app_assoc; reflexivity). rewrite E.
      destruct (KA (p ++ q) _ W1) as [SO CO]. destruct (fst (arr_k_m n ((p ++ q) ++ c :: b1) (c :: b1))); mm; lia. }
    destruct (negb (c =? 44)); [mm; lia|].
    rewrite fst_bind, steps_bind, calls_bind, fst_skip, skip_steps, skip_calls.
    pose proof (SK b1) as LK1. pose proof (suf_skip b1) as F2. pose proof (suf_wf _ _ F2 (suf_wf _ _ (suf_cons c b1) W1)) as W2.
    pose proof (suf_opens _ _ F2) as O2. destruct (skip_spaces b1) as [|c2 b2]; [mm; lia|].
    destruct (c2 =? 93); [mm; lia|].
    assert (F3 : suf (c2 :: b2) b) by (eapply suf_trans; [exact F2|eapply suf_trans; [apply suf_cons|exact F1]]).
    destruct F3 as [q Eq]. assert (E : p ++ b = (p ++ q) ++ c2 :: b2) by (rewrite Eq, app_assoc; reflexivity). rewrite E.
    destruct (KA (p ++ q) _ W2) as [SO CO]. destruct (fst (arr_k_m n ((p ++ q) ++ c2 :: b2) (c2 :: b2))); mm; lia.
Qed.
Lemma parse_value_use n b : wf b -> within (parse_value_m n b) b 0.
Proof. apply parse_use. Qed.

(** On success: the tree, the depth, and no byte is passed for nothing. *)
Lemma list_max_cons x l : list_max (x :: l) = Nat.max x (list_max l).
Proof. reflexivity. Qed.
Lemma parse_tree n :
  (forall b v r, wf b -> parse_value n b = POk v r ->
     exists a, jvalue v a /\ calls (snd (parse_value_m n b)) = S (nest a) /\ used b (POk v r) <= steps (snd (parse_value_m n b))) /\
  (forall f p b v r, wf b -> object_loop n f (p ++ b) b = POk v r ->
     exists t l, v = p ++ t /\ b = t ++ r /\ obj_tail f t l /\
       calls (snd (object_loop_m n f (p ++ b) b)) = list_max (map (fun kv => match kv with (_, v) => S (nest v) end) l) /\
       used b (POk v r) <= steps (snd (object_loop_m n f (p ++ b) b))) /\
  (forall f p b v r, wf b -> array_loop n f (p ++ b) b = POk v r ->
     exists t l, v = p ++ t /\ b = t ++ r /\ arr_tail f t l /\
       calls (snd (array_loop_m n f (p ++ b) b)) = list_max (map (fun v => S (nest v)) l) /\
       used b (POk v r) <= steps (snd (array_loop_m n f (p ++ b) b))).
Proof.
  induction n as [|n (IHv & IHo & IHa)]; [repeat split; discriminate|].
  assert (EV : forall b, fst (parse_value_m n b) = parse_value n b) by apply erase_pv.
  assert (SK : forall b, (length (skip_spaces b) <= length b)%nat) by apply skip_spaces_le.
  split; [|split].
  - intros b v r Hw. cbn [parse_value parse_value_m]. unfold call. cbn [snd steps calls]. destruct b as [|c b1]; [discriminate|].
    assert (Hw1 : wf b1) by (apply wf_cons in Hw; tauto).
    assert (SC : forall p, p = POk v r -> suf r (c :: b1) -> calls (snd (pres_m (c :: b1) p)) = 0%nat /\
        used (c :: b1) (POk v r) <= 1 + steps (snd (pres_m (c :: b1) p))).
    { intros p -> Sf. rewrite pres_calls, (pres_steps_ok _ _ _ Sf). split; [reflexivity|lia]. }
    destruct (c =? 123) eqn:E1.
    { zb; subst c. destruct (Nat.ltb _ _); [discriminate|]. intros H.
      apply (IHo true [123]) in H; [|exact Hw1]. destruct H as (t & l & -> & Eb & Ht & HC & HS). cbn [app] in *.
      exists (JObj l). split; [|split].
      - inversion Ht; subst; constructor; auto.
      - rewrite HC. reflexivity.
      - mm. lia. }
    destruct (c =? 91) eqn:E2.
    { zb; subst c. destruct (Nat.ltb _ _); [discriminate|]. intros H.
      apply (IHa true [91]) in H; [|exact Hw1]. destruct H as (t & l & -> & Eb & Ht & HC & HS). cbn [app] in *.
      exists (JArr l). split; [|split].
      - inversion Ht; subst; constructor; auto.
      - rewrite HC. reflexivity.
      - mm. lia. }
    destruct (c =? 34).
    { intros H. destruct (SC _ H (proj1 (string_suf _ _ _ Hw H))) as [C S]. apply parse_string_sound in H; [|exact Hw]. destruct H as [_ H].
      exists (JStr v). split; [apply V_str, H|]. rewrite C. auto. }
    destruct (c =? 110).
    { intros H. destruct (SC _ H (lit_suf _ _ _ _ H)) as [C S]. apply parse_lit_sound in H. destruct H as [-> _].
      eexists. split; [apply V_null|]. rewrite C. auto. }
    destruct (c =? 116).
    { intros H. destruct (SC _ H (lit_suf _ _ _ _ H)) as [C S]. apply parse_lit_sound in H. destruct H as [-> _].
      eexists. split; [apply V_true|]. rewrite C. auto. }
    destruct (c =? 102).
    { intros H. destruct (SC _ H (lit_suf _ _ _ _ H)) as [C S]. apply parse_lit_sound in H. destruct H as [-> _].
      eexists. split; [apply V_false|]. rewrite C. auto. }
    destruct (is_num_start c); [|discriminate].
    intros H. destruct (SC _ H (proj1 (number_suf _ _ _ H))) as [C S]. apply parse_number_sound in H. destruct H as [_ H].
    exists (JNum v). split; [apply V_num, H|]. rewrite C. auto.
  - intros f p b v r Hw. rewrite object_loop_S, object_loop_m_S. rewrite steps_bind, calls_bind, fst_skip, skip_steps, skip_calls.
    destruct (skip_spaces_split b) as (w & Hws & Eb & Hn). pose proof (SK b) as LK.
    assert (Hwb := wf_skip_spaces _ Hw).
    destruct (skip_spaces b) as [|c b1] eqn:Es; [discriminate|].
    destruct (c =? 125) eqn:Ec.
    { zb; subst c. rewrite Eb, app_assoc, close_at_app. intros H. injection H as <- <-.
      exists (w ++ [125]), []. rewrite <- !app_assoc. split; [reflexivity|]. split; [reflexivity|]. split; [constructor; auto|]. split; [reflexivity|].
      mm. rewrite app_length in *. mm. lia. }
    assert (HK : forall p' b', wf b' -> p ++ b = p' ++ b' -> obj_k n (p ++ b) b' = POk v r ->
       exists e l, v = p' ++ e ++ [125] /\ b' = e ++ [125] ++ r /\ jmembers e l /\
         calls (snd (obj_k_m n (p ++ b) b')) = list_max (map (fun kv => match kv with (_, v) => S (nest v) end) l) /\
         used b' (POk v r) <= steps (snd (obj_k_m n (p ++ b) b'))).
    { intros p' b' Hw' E. unfold obj_k, obj_k_m. rewrite steps_bind, calls_bind, fst_pres, pres_calls.
      destruct (parse_string b') as [k b2|] eqn:Ek; [|discriminate].
      rewrite (pres_steps_ok _ _ _ (proj1 (string_suf _ _ _ Hw' Ek))).
      apply parse_string_sound in Ek; [|exact Hw']. destruct Ek as [-> Hk].
      apply wf_app in Hw'. destruct Hw' as [_ Hw2].
      rewrite steps_bind, calls_bind, fst_skip, skip_steps, skip_calls.
      destruct (skip_spaces_split b2) as (w2 & Hws2 & Eb2 & _). assert (Hw3 := wf_skip_spaces _ Hw2). pose proof (SK b2) as LK2.
      destruct (skip_spaces b2) as [|c2 b3]; [discriminate|].
      destruct (c2 =? 58) eqn:Ec2; cbn [negb]; [|discriminate]. zb; subst c2.
      apply wf_cons in Hw3. destruct Hw3 as [_ Hw3].
      rewrite steps_bind, calls_bind, fst_skip, skip_steps, skip_calls.
      destruct (skip_spaces_split b3) as (w3 & Hws3 & Eb3 & _). assert (Hw4 := wf_skip_spaces _ Hw3). pose proof (SK b3) as LK3.
      rewrite steps_bind, calls_bind, EV.
      destruct (parse_value n (skip_spaces b3)) as [u b4|] eqn:Ev; [|discriminate].
      pose proof (proj1 (parse_value_sound _ _ _ _ Hw4 Ev)) as Eu.
      apply IHv in Ev; [|exact Hw4]. destruct Ev as (a & Ha & CV & SV). rewrite CV.
      rewrite Eu in Hw4. apply wf_app in Hw4. destruct Hw4 as [_ Hw5].
      assert (E' : p ++ b = (p' ++ k ++ w2 ++ 58 :: w3 ++ u) ++ b4).
      { rewrite E, Eb2, Eb3, Eu. repeat (rewrite <- ?app_assoc; cbn [app]). reflexivity. }
      rewrite E'.
      intros H. apply IHo in H; [|exact Hw5]. destruct H as (t & l & -> & Eb4 & Ht & CO & SO).
      destruct (obj_tail_cons [] k w2 w3 u a t l) as (e & He & Ee); auto using ws_nil.
      exists e, ((k, a) :: l). cbn [app] in Ee.
      split; [|split; [|split; [exact He|split]]].
      - rewrite <- Ee. repeat (rewrite <- ?app_assoc; cbn [app]). reflexivity.
      - rewrite (app_assoc e), <- Ee, Eb2, Eb3, Eu, Eb4. repeat (rewrite <- ?app_assoc; cbn [app]). reflexivity.
      - rewrite CO. cbn [map]. rewrite list_max_cons. lia.
      - apply (f_equal (@length Z)) in Eu, Eb2, Eb3. unfold used in *. repeat (rewrite ?app_length in *; cbn [length] in * ). lia. }
    destruct f.
    + intros H. apply (HK (p ++ w)) in H; [|exact Hwb|rewrite Eb, <- app_assoc; reflexivity].
      destruct H as (e & l & -> & E & He & HC & HS). exists ((w ++ e) ++ [125]), l.
      split; [rewrite <- !app_assoc; reflexivity|]. split; [rewrite Eb, E, <- !app_assoc; reflexivity|].
      split; [|split; [exact HC|mm; lia]].
      apply ot_first.
      clear - He Hws. inversion He; subst.
      * apply M_one. inversion H; subst. rewrite app_assoc. constructor; auto. apply ws_app; auto.
      * rewrite app_assoc. apply M_cons; auto. inversion H; subst. rewrite app_assoc. constructor; auto. apply ws_app; auto.
    + destruct (c =? 44) eqn:E44; cbn [negb]; [|discriminate]. zb; subst c.
      apply wf_cons in Hwb. destruct Hwb as [_ Hwb]. rewrite steps_bind, calls_bind, fst_skip, skip_steps, skip_calls. pose proof (SK b1) as LK1.
      destruct (skip_spaces_split b1) as (w2 & Hws2 & Eb2 & _). assert (Hw3 := wf_skip_spaces _ Hwb).
      destruct (skip_spaces b1) as [|c2 b2]; [discriminate|]. destruct (c2 =? 125); [discriminate|].
      intros H. apply (HK (p ++ w ++ 44 :: w2)) in H; [|exact Hw3|].
      2:{ rewrite Eb, Eb2. repeat (rewrite <- ?app_assoc; cbn [app]). reflexivity. }
      destruct H as (e & l & -> & E & He & HC & HS). exists (w ++ 44 :: (w2 ++ e) ++ [125]), l.
      split; [repeat (rewrite <- ?app_assoc; cbn [app]); reflexivity|].
      split; [rewrite Eb, Eb2, E; repeat (rewrite <- ?app_assoc; cbn [app]); reflexivity|].
      split; [|split; [exact HC|mm; lia]].
      apply ot_next; [exact Hws|].
      clear - He Hws2. inversion He; subst.
      * apply M_one. inversion H; subst. rewrite app_assoc. constructor; auto. apply ws_app; auto.
      * rewrite app_assoc. apply M_cons; auto. inversion H; subst. rewrite app_assoc. constructor; auto. apply ws_app; auto.
  - intros f p b v r Hw. rewrite array_loop_S, array_loop_m_S. rewrite steps_bind, calls_bind, fst_skip, skip_steps, skip_calls.
    destruct (skip_spaces_split b) as (w & Hws & Eb & Hn). pose proof (SK b) as LK.
    assert (Hwb := wf_skip_spaces _ Hw).
    destruct (skip_spaces b) as [|c b1] eqn:Es; [discriminate|].
    destruct (c =? 93) eqn:Ec.
    { zb; subst c. rewrite Eb, app_assoc, close_at_app. intros H. injection H as <- <-.
      exists (w ++ [93]), []. rewrite <- !app_assoc. split; [reflexivity|]. split; [reflexivity|]. split; [constructor; auto|]. split; [reflexivity|].
      mm. rewrite app_length in *. mm. lia. }
    assert (HK : forall p' w' b', wf b' -> ws w' -> p ++ b = p' ++ w' ++ b' -> arr_k n (p ++ b) b' = POk v r ->
       exists e l, v = p' ++ e ++ [93] /\ w' ++ b' = e ++ [93] ++ r /\ jelems e l /\
         calls (snd (arr_k_m n (p ++ b) b')) = list_max (map (fun v => S (nest v)) l) /\
         used b' (POk v r) <= steps (snd (arr_k_m n (p ++ b) b'))).
    { intros p' w' b' Hw' Hws' E. unfold arr_k, arr_k_m. rewrite steps_bind, calls_bind, EV.
      destruct (parse_value n b') as [u b2|] eqn:Ev; [|discriminate].
      pose proof (proj1 (parse_value_sound _ _ _ _ Hw' Ev)) as Eu.
      apply IHv in Ev; [|exact Hw']. destruct Ev as (a & Ha & CV & SV). rewrite CV. subst b'.
      apply wf_app in Hw'. destruct Hw' as [_ Hw2]. rewrite E.
      replace (p' ++ w' ++ u ++ b2) with ((p' ++ w' ++ u) ++ b2) by (rewrite <- !app_assoc; reflexivity).
      intros H. apply IHa in H; [|exact Hw2]. destruct H as (t & l & -> & -> & Ht & CA & SA).
      destruct (arr_tail_cons w' u a t l) as (e & He & Ee); auto.
      exists e, (a :: l). split; [|split; [|split; [exact He|split]]].
      - rewrite <- Ee, <- !app_assoc. reflexivity.
      - rewrite (app_assoc e), <- Ee, <- !app_assoc. reflexivity.
      - rewrite CA. cbn [map]. rewrite list_max_cons. lia.
      - unfold used in *. rewrite !app_length in *. lia. }
    destruct f.
    + intros H. apply (HK p w) in H; [|exact Hwb|exact Hws|rewrite Eb; reflexivity].
      destruct H as (e & l & -> & E & He & HC & HS). exists (e ++ [93]), l.
      split; [reflexivity|]. split; [rewrite Eb, E, <- !app_assoc; reflexivity|]. split; [apply at_first, He|]. split; [exact HC|mm; lia].
    + destruct (c =? 44) eqn:E44; cbn [negb]; [|discriminate]. zb; subst c.
      apply wf_cons in Hwb. destruct Hwb as [_ Hwb]. rewrite steps_bind, calls_bind, fst_skip, skip_steps, skip_calls. pose proof (SK b1) as LK1.
      destruct (skip_spaces_split b1) as (w2 & Hws2 & Eb2 & _). assert (Hw3 := wf_skip_spaces _ Hwb).
      destruct (skip_spaces b1) as [|c2 b2]; [discriminate|]. destruct (c2 =? 93); [discriminate|].
      intros H. apply (HK (p ++ w ++ [44]) w2) in H; [|exact Hw3|exact Hws2|].
      2:{ rewrite Eb, Eb2. repeat (rewrite <- ?app_assoc; cbn [app]). reflexivity. }
      destruct H as (e & l & -> & E & He & HC & HS). exists (w ++ 44 :: e ++ [93]), l.
      split; [repeat (rewrite <- ?app_assoc; cbn [app]); reflexivity|].
      split; [rewrite Eb, Eb2, E; repeat (rewrite <- ?app_assoc; cbn [app]); reflexivity|].
      split; [apply at_next; auto|]. split; [exact HC|mm; lia].
Qed.
