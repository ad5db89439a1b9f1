(** One level deeper is the same as one indent more in the prefix. *)
From Verif Require Import Bytes Utf8Model ParseModel StringModel IntModel TokenModel EncModel SpecRender EncFacts FlatFacts.
From Coq Require Import Lia.
Local Open Scope Z_scope.

Definition dsim (k : Z) (x y : eres) : Prop :=
  match x, y with
  | ER b d e, ER b' d' e' => b = b' /\ e = e' /\ d = d' + 1 /\ k <= d'
  | EPanic, EPanic => True
  | _, _ => False
  end.
Definition deep (f g : encf) : Prop := forall b d, 0 <= d -> dsim d (f b (d + 1)) (g b d).
Lemma dsim_le k k' x y : k' <= k -> dsim k x y -> dsim k' x y.
Proof. destruct x, y; cbn; try tauto. intuition lia. Qed.

(** How a token changes the number of open brackets. *)
Lemma next_depth t t' : tok_next t = Some (t', true) ->
  Z.of_nat (length (t_stack t')) = Z.of_nat (length (t_stack t)) +
    (if (t_delim t' =? 125) || (t_delim t' =? 93) then -1 else if (t_delim t' =? 123) || (t_delim t' =? 91) then 1 else 0).
Proof.
  unfold tok_next. destruct (t_err t); [discriminate|]. destruct (skip_spaces (t_json t)) as [|c s]; [discriminate|].
  destruct (scan_token (c :: s)) as [[[d v] r] e]. destruct (d =? 0) eqn:E0.
  { apply Z.eqb_eq in E0. subst d. intros H. injection H as <- _. cbn [t_stack t_delim]. cbn. lia. }
  destruct (d =? 123) eqn:E1. { apply Z.eqb_eq in E1. subst d. intros H. injection H as <-. cbn [t_stack t_delim length Z.eqb]. cbn -[Z.of_nat Z.add]. lia. }
  destruct (d =? 91) eqn:E2. { apply Z.eqb_eq in E2. subst d. intros H. injection H as <-. cbn [t_stack t_delim length Z.eqb]. cbn -[Z.of_nat Z.add]. lia. }
  destruct ((d =? 125) || (d =? 93)) eqn:E3.
  { unfold tok_pop. destruct (t_stack t) as [|[o n] st]; [discriminate|]. destruct (Bool.eqb _ o); [|discriminate]. intros H. injection H as <-. cbn [t_stack t_delim length]. rewrite E3. unfold tstate in *. lia. }
  destruct (d =? 58) eqn:E4. { intros H. injection H as <-. cbn [t_stack t_delim]. rewrite E3, E1, E2. cbn [orb]. lia. }
  destruct (t_stack t) as [|[o n] st]; [discriminate|]. intros H. injection H as <-. cbn [t_stack t_delim length]. rewrite E3, E1, E2. cbn [orb]. lia.
Qed.

Section Deep.
Variables c1 c2 : cfg.
Variables p i : bytes.
Hypothesis HH : e_html c1 = e_html c2.
Hypothesis HS : e_sort c1 = e_sort c2.
Hypothesis HT : e_trust c1 = e_trust c2.
Hypothesis HC : e_clrs c1 = e_clrs c2.
Hypothesis HD : e_stdindent c1 = e_stdindent c2.
Hypothesis H1 : e_ind c1 = Some (Indenter false p i).
Hypothesis H2 : e_ind c2 = Some (Indenter false (p ++ i) i).

Lemma deep_byte b a : in_byte c1 b a = in_byte c2 b a.
Proof. unfold in_byte. now rewrite H1, H2. Qed.
Lemma deep_indent b d : 0 <= d -> in_indent c1 b (d + 1) = in_indent c2 b d.
Proof.
  intros D. unfold in_indent. rewrite H1, H2. cbn [i_disabled i_prefix i_indent]. replace (Z.to_nat (d + 1)) with (S (Z.to_nat d)) by lia.
  cbn [repeat_app]. now rewrite app_assoc.
Qed.
Lemma push1 d : in_push c1 d = d + 1. Proof. unfold in_push. now rewrite H1. Qed.
Lemma push2 d : in_push c2 d = d + 1. Proof. unfold in_push. now rewrite H2. Qed.
Lemma pop1 d : in_pop c1 d = d - 1. Proof. unfold in_pop. now rewrite H1. Qed.
Lemma pop2 d : in_pop c2 d = d - 1. Proof. unfold in_pop. now rewrite H2. Qed.
Lemma deep_indent1 b d : 0 <= d -> in_indent c1 b d = in_indent c2 b (d - 1) \/ d = 0.
Proof. intros D. destruct (Z.eq_dec d 0); [auto|left]. replace d with (d - 1 + 1) at 1 by lia. apply deep_indent. lia. Qed.

Lemma deep_to_string f g : deep f g -> deep (encode_to_string c1 f) (encode_to_string c2 g).
Proof.
  intros H b d D. unfold encode_to_string. specialize (H b d D). rewrite HH.
  destruct (f b (d + 1)) as [b1 d1' e1|], (g b d) as [b2 d2' e2|]; cbn [dsim] in *; try tauto. destruct H as (-> & -> & -> & H). destruct e2; cbn; auto.
Qed.
Lemma deep_array_elems fs gs : Forall2 deep fs gs -> forall first, deep (array_elems c1 first fs) (array_elems c2 first gs).
Proof.
  induction 1 as [|f g fs gs H HF IH]; intros first b d D; cbn [array_elems]; [cbn; auto with zarith|].
  rewrite deep_byte, deep_indent by exact D. rewrite HC. set (x := in_indent c2 _ d).
  specialize (H x d D). destruct (f x (d + 1)) as [b1 d1' e1|], (g x d) as [b2 d2' e2|]; cbn [dsim] in H; try tauto.
  destruct H as (-> & -> & -> & H). destruct e2; [cbn; auto|]. apply (dsim_le d2'); [exact H|]. apply IH. lia.
Qed.
Lemma deep_array fs gs : Forall2 deep fs gs -> deep (encode_array c1 fs) (encode_array c2 gs).
Proof.
  intros H b d D. unfold encode_array. rewrite HC, push1, push2. destruct H as [|f g fs gs Hf H]; [cbn; auto with zarith|].
  pose proof (deep_array_elems (f :: fs) (g :: gs) (Forall2_cons _ _ Hf H) true (append_punc (e_clrs c2) b 91) (d + 1) ltac:(lia)) as X.
  destruct (array_elems c1 true _ _ _) as [b1 d1' e1|], (array_elems c2 true _ _ _) as [b2 d2' e2|]; cbn [dsim] in X; try tauto.
  destruct X as (-> & -> & -> & X). destruct e2; [cbn; auto with zarith|]. rewrite pop1, pop2, deep_byte. replace (d2' + 1 - 1) with (d2' - 1 + 1) by lia. rewrite deep_indent by lia. cbn. auto with zarith.
Qed.
Lemma deep_map_elems fs gs : Forall2 (fun p q => deep (fst p) (fst q) /\ deep (snd p) (snd q)) fs gs ->
  forall first, deep (map_elems c1 first fs) (map_elems c2 first gs).
Proof.
  induction 1 as [|[fk fv] [gk gv] fs gs [Hk Hv] HF IH]; intros first b d D; cbn [map_elems]; [cbn; auto with zarith|]. cbn [fst snd] in *.
  rewrite deep_byte, deep_indent by exact D. rewrite HC. set (x := in_indent c2 _ d).
  specialize (Hk x d D). destruct (fk x (d + 1)) as [b1 d1' e1|], (gk x d) as [b2 d2' e2|]; cbn [dsim] in Hk; try tauto.
  destruct Hk as (-> & -> & -> & Hk). destruct e2; [cbn; auto|]. rewrite deep_byte. set (y := in_byte c2 _ 32).
  specialize (Hv y d2' ltac:(lia)). destruct (fv y (d2' + 1)) as [b3 d3 e3|], (gv y d2') as [b4 d4 e4|]; cbn [dsim] in Hv; try tauto.
  destruct Hv as (-> & -> & -> & Hv). destruct e4; [cbn; auto with zarith|]. apply (dsim_le d4); [lia|]. apply IH. lia.
Qed.
Ltac maps X :=
  destruct (map_elems c1 true _ _ _) as [b1 d1' e1|], (map_elems c2 true _ _ _) as [b2 d2' e2|]; cbn [dsim] in X; try tauto;
  destruct X as (-> & -> & -> & X); try destruct e2; rewrite ?deep_byte, ?pop1, ?pop2; replace (d2' + 1 - 1) with (d2' - 1 + 1) by lia;
  rewrite ?deep_indent by lia; cbn; auto with zarith.
Lemma deep_map_ cut fs gs : Forall2 (fun p q => deep (fst p) (fst q) /\ deep (snd p) (snd q)) fs gs -> deep (encode_map c1 cut fs) (encode_map c2 cut gs).
Proof.
  intros H b d D. unfold encode_map. rewrite HC, push1, push2, deep_byte. destruct H as [|f g fs gs Hf H]; [cbn; auto with zarith|].
  pose proof (deep_map_elems (f :: fs) (g :: gs) (Forall2_cons _ _ Hf H) true (in_byte c2 (append_punc (e_clrs c2) b 123) 10) (d + 1) ltac:(lia)) as X. maps X.
Qed.
Lemma deep_map_break fs gs : Forall2 (fun p q => deep (fst p) (fst q) /\ deep (snd p) (snd q)) fs gs -> deep (encode_map_break c1 fs) (encode_map_break c2 gs).
Proof.
  intros H b d D. unfold encode_map_break. rewrite HC, push1, push2, deep_byte. destruct H as [|f g fs gs Hf H]; [cbn; auto with zarith|].
  pose proof (deep_map_elems (f :: fs) (g :: gs) (Forall2_cons _ _ Hf H) true (in_byte c2 (append_punc (e_clrs c2) b 123) 10) (d + 1) ltac:(lia)) as X. maps X.
Qed.
Lemma deep_map_swallow fs gs : Forall2 (fun p q => deep (fst p) (fst q) /\ deep (snd p) (snd q)) fs gs -> deep (encode_map_swallow c1 fs) (encode_map_swallow c2 gs).
Proof.
  intros H b d D. unfold encode_map_swallow. rewrite HC, push1, push2, deep_byte. destruct H as [|f g fs gs Hf H]; [cbn; auto with zarith|].
  pose proof (deep_map_elems (f :: fs) (g :: gs) (Forall2_cons _ _ Hf H) true (in_byte c2 (append_punc (e_clrs c2) b 123) 10) (d + 1) ltac:(lia)) as X. maps X.
Qed.
Lemma deep_struct_fields fs gs : Forall2 (fun p q => fst p = fst q /\ deep (snd p) (snd q)) fs gs -> forall n b d, 0 <= d ->
  dsim d (fst (struct_fields c1 n fs b (d + 1))) (fst (struct_fields c2 n gs b d)) /\ snd (struct_fields c1 n fs b (d + 1)) = snd (struct_fields c2 n gs b d).
Proof.
  induction 1 as [|[h f] [h' g] fs gs [E Hf] HF IH]; intros n b d D; cbn [struct_fields]; [cbn; auto with zarith|]. cbn [fst snd] in E, Hf. subst h'.
  destruct (f_omitempty h && f_empty h); [now apply IH|].
  rewrite !deep_byte, !deep_indent by exact D. rewrite HC, HH.
  set (x := if Nat.eqb n 0 then b else _). set (k := if e_html c2 then f_html h else f_json h).
  set (y := in_byte c2 _ 32).
  specialize (Hf y d D). destruct (f y (d + 1)) as [b1 d1' e1|], (g y d) as [b2 d2' e2|]; cbn [dsim] in Hf; try tauto.
  destruct Hf as (-> & -> & -> & Hf).
  assert (G : forall n b, dsim d (fst (struct_fields c1 n fs b (d2' + 1))) (fst (struct_fields c2 n gs b d2')) /\ snd (struct_fields c1 n fs b (d2' + 1)) = snd (struct_fields c2 n gs b d2')).
  { intros n' b'. destruct (IH n' b' d2' ltac:(lia)) as [A B]. split; [now apply (dsim_le d2')|exact B]. }
  destruct e2 as [[]|]; try (cbn; auto; fail); apply G.
Qed.
Lemma deep_struct fs gs : Forall2 (fun p q => fst p = fst q /\ deep (snd p) (snd q)) fs gs -> deep (encode_struct c1 fs) (encode_struct c2 gs).
Proof.
  intros H b d D. unfold encode_struct. rewrite !deep_byte. rewrite HC, push1, push2.
  replace (match gs with [] => append_punc (e_clrs c2) b 123 | _ => in_byte c2 (append_punc (e_clrs c2) b 123) 10 end)
    with (match fs with [] => append_punc (e_clrs c2) b 123 | _ => in_byte c2 (append_punc (e_clrs c2) b 123) 10 end) by (destruct H; reflexivity).
  set (x := match fs with [] => _ | _ => _ end).
  destruct (deep_struct_fields fs gs H 0 x (d + 1) ltac:(lia)) as [X Y].
  destruct (struct_fields c1 _ _ _ _) as [[b1 d1' e1|] n1], (struct_fields c2 _ _ _ _) as [[b2 d2' e2|] n2]; cbn [dsim fst snd] in X, Y; try tauto.
  destruct X as (-> & -> & -> & X). subst n2. destruct e2; [cbn; auto with zarith|]. rewrite !deep_byte, pop1, pop2. replace (d2' + 1 - 1) with (d2' - 1 + 1) by lia. rewrite deep_indent by lia. cbn. auto with zarith.
Qed.
Lemma deep_verbatim b s d : 0 <= d -> append_raw_verbatim c1 b s (d + 1) = append_raw_verbatim c2 b s d.
Proof. intros D. unfold append_raw_verbatim. rewrite deep_indent by exact D. rewrite H1, H2, HH, HD. reflexivity. Qed.
Lemma deep_prefix b d st k : 0 <= d -> raw_prefix c1 b (d + 1) st k = raw_prefix c2 b d st k.
Proof.
  intros D. destruct st as [|[o n] st]; [reflexivity|]. cbn [raw_prefix]. rewrite !deep_byte, !deep_indent by exact D. rewrite HC. reflexivity.
Qed.
Lemma deep_scalar b v k : raw_scalar c1 b v k = raw_scalar c2 b v k.
Proof. unfold raw_scalar. rewrite HC, HH. reflexivity. Qed.
Definition drsim (k : Z) (x y : rawres) : Prop :=
  match x, y with
  | RawDone b d e, RawDone b' d' e' => b = b' /\ e = e' /\ d = d' + 1 /\ k <= d'
  | RawPanic, RawPanic | RawFuel, RawFuel => True
  | _, _ => False
  end.
Lemma deep_raw_loop n : forall t st b d k, 0 <= k -> d = k + Z.of_nat (length (t_stack t)) -> drsim k (raw_loop n c1 t st b (d + 1)) (raw_loop n c2 t st b d).
Proof.
  induction n as [|n IH]; intros t st b d k K E; cbn [raw_loop]; [exact I|].
  assert (D : 0 <= d) by lia.
  destruct (tok_next t) as [[t' [|]]|] eqn:N; [|cbn; repeat split; auto; lia|exact I]. apply next_depth in N.
  rewrite !deep_byte, !HC.
  destruct (t_delim t' =? 58) eqn:E1. { apply Z.eqb_eq in E1. rewrite E1 in N. cbn -[Z.of_nat Z.add] in N. apply IH; [exact K|lia]. }
  destruct (t_delim t' =? 44) eqn:E2. { apply Z.eqb_eq in E2. rewrite E2 in N. cbn -[Z.of_nat Z.add] in N. apply IH; [exact K|lia]. }
  destruct ((t_delim t' =? 125) || (t_delim t' =? 93)).
  { rewrite pop1, pop2. replace (d + 1 - 1) with (d - 1 + 1) by lia. rewrite deep_indent by lia.
    destruct (match st with [] => false | (_, k) :: _ => negb (Nat.eqb k 0) end); (apply IH; [exact K|lia]). }
  rewrite (deep_prefix b d) by exact D. destruct (raw_prefix c2 b d st _) as [q st'].
  destruct ((t_delim t' =? 123) || (t_delim t' =? 91)); [rewrite push1, push2; apply IH; [exact K|lia]|]. rewrite deep_scalar. apply IH; [exact K|lia].
Qed.
Lemma deep_raw v : deep (encode_raw c1 v) (encode_raw c2 v).
Proof.
  intros b d D. unfold encode_raw. rewrite HC, HT. destruct v as [v|]; [|cbn; auto with zarith].
  assert (G : forall s, dsim d match append_raw_tokens c1 b s (d + 1) with
      | ER b d (Some e) => if e_trust c2 then ER (append_raw_verbatim c1 b s d) d None else ER b d (Some e)
      | r => r end (match append_raw_tokens c2 b s d with
      | ER b d (Some e) => if e_trust c2 then ER (append_raw_verbatim c2 b s d) d None else ER b d (Some e)
      | r => r end)).
  { intros s. unfold append_raw_tokens. pose proof (deep_raw_loop (S (length s)) (new_tokenizer s) [] b d d D ltac:(cbn; lia)) as X.
    destruct (raw_loop _ c1 _ _ _ _) as [b1 d1' e1| |], (raw_loop _ c2 _ _ _ _) as [b2 d2' e2| |]; cbn [drsim] in X; try tauto; try exact I.
    - destruct X as (-> & -> & -> & X). destruct e2; [|cbn; auto]. destruct (e_trust c2); [|cbn; auto]. rewrite deep_verbatim by lia. cbn [dsim]. auto.
    - destruct (e_trust c2); [|cbn; auto with zarith]. rewrite deep_verbatim by lia. cbn [dsim]. auto with zarith. }
  destruct (e_trust c2); [apply G|]. destruct (parseValue v); [apply G|]. cbn. auto with zarith.
Qed.
Lemma deep_str clr s : deep (encode_str c1 clr s) (encode_str c2 clr s).
Proof. intros b d D. unfold encode_str. rewrite HC, HH. destruct (e_clrs c2); cbn; auto with zarith. Qed.
Lemma deep_text r : deep (encode_text c1 r) (encode_text c2 r).
Proof. destruct r; [apply deep_str|]. intros b d D. cbn. auto with zarith. Qed.
Lemma deep_mkey k : deep (encode_mkey c1 k) (encode_mkey c2 k).
Proof.
  destruct k as [s|z|s [e|]|]; cbn [encode_mkey]; try apply deep_str; try apply deep_text.
  - apply deep_to_string. intros b d D. cbn. rewrite HC. auto with zarith.
  - intros b d D. cbn. rewrite HC. auto with zarith.
Qed.

Lemma enc_deep_ v : deep (enc c1 v) (enc c2 v).
Proof.
  induction v as [ | | | | | | | |l IH| |l IH| |m IH| |m IH|m|fs IH|o IH|o IH|o IH|s|r|r|v IH| ] using gval_rect'; cbn [enc];
    try (intros ? ? ?; cbn; rewrite ?HC; auto with zarith; fail).
  - intros b d D. unfold encode_float_c. rewrite HC. destruct (e_clrs c2); destruct (encode_float _ _) as [? [|]]; cbn; auto with zarith.
  - intros b d D. unfold encode_number. rewrite HC. destruct (parse_number _); [|cbn; auto with zarith]. destruct (e_clrs c2); cbn; auto with zarith.
  - apply deep_str.
  - intros b d D. unfold encode_bytes, do_encode_bytes. rewrite HC. destruct (e_clrs c2); cbn; auto with zarith.
  - intros b d D. unfold encode_time. rewrite HC. destruct (e_clrs c2); cbn; auto with zarith.
  - apply deep_array, Forall2_maps. exact IH.
  - apply deep_array, Forall2_maps. exact IH.
  - rewrite HS.
    assert (H : Forall2 (fun p q : mkey * encf => fst p = fst q /\ deep (snd p) (snd q)) (map (fun kv : mkey * gval => let (k, x) := kv in (k, enc c1 x)) m) (map (fun kv : mkey * gval => let (k, x) := kv in (k, enc c2 x)) m)).
    { apply Forall2_maps. eapply Forall_impl; [|exact IH]. intros [k x] Hx. cbn. auto. }
    apply deep_map_, Forall2_map2. cbn [fst snd].
    assert (H' : forall l l', Forall2 (fun p q : mkey * encf => fst p = fst q /\ deep (snd p) (snd q)) l l' ->
      Forall2 (fun p q : mkey * encf => deep (encode_mkey c1 (fst p)) (encode_mkey c2 (fst q)) /\ deep (snd p) (snd q)) l l').
    { intros l l' HL. eapply Forall2_imp; [|exact HL]. intros [k x] [k' x'] [E Hx]. cbn in *. subst k'. split; [apply deep_mkey|exact Hx]. }
    destruct (e_sort c2); apply H'; [|exact H]. apply sort_rel; [|exact H]. intros [] [] [E _]. cbn in *. congruence.
  - rewrite HS.
    assert (H : Forall2 (fun p q : bytes * encf => fst p = fst q /\ deep (snd p) (snd q)) (map (fun kv : bytes * gval => let (k, x) := kv in (k, enc c1 x)) m) (map (fun kv : bytes * gval => let (k, x) := kv in (k, enc c2 x)) m)).
    { apply Forall2_maps. eapply Forall_impl; [|exact IH]. intros [k x] Hx. cbn. auto. }
    assert (H' : forall l l', Forall2 (fun p q : bytes * encf => fst p = fst q /\ deep (snd p) (snd q)) l l' ->
      Forall2 (fun p q : bytes * encf => deep (encode_key c1 (fst p)) (encode_key c2 (fst q)) /\ deep (snd p) (snd q)) l l').
    { intros l l' HL. eapply Forall2_imp; [|exact HL]. intros [k x] [k' x'] [E Hx]. cbn in *. subst k'. split; [apply deep_str|exact Hx]. }
    destruct (e_sort c2); [apply deep_map_break|apply deep_map_]; apply Forall2_map2; cbn [fst snd]; apply H'; [|exact H].
    apply sort_rel; [|exact H]. intros [] [] [E _]. cbn in *. congruence.
  - rewrite HS. destruct m as [m|]; [|intros ? ? ?; cbn; rewrite HC; auto with zarith].
    assert (H' : forall l : list (bytes * option bytes), Forall (fun p => deep (encode_key c1 (fst p)) (encode_key c2 (fst p)) /\ deep (encode_raw c1 (snd p)) (encode_raw c2 (snd p))) l).
    { intros l. apply Forall_forall. intros [k x] _. split; [apply deep_str|apply deep_raw]. }
    destruct (e_sort c2); [apply deep_map_break|apply deep_map_swallow]; apply Forall2_maps; cbn [fst snd]; apply H'.
  - apply deep_struct, Forall2_maps. eapply Forall_impl; [|exact IH]. intros [k x] Hx. cbn. auto.
  - destruct o as [x|]; [exact IH|intros ? ? ?; cbn; auto with zarith].
  - destruct o as [x|]; [exact IH|intros ? ? ?; cbn; rewrite HC; auto with zarith].
  - destruct o as [x|]; [exact IH|intros ? ? ?; cbn; rewrite HC; auto with zarith].
  - apply deep_raw.
  - destruct r as [[j|e]|]; [apply deep_raw|intros ? ? ?; cbn; auto with zarith|intros ? ? ?; cbn; rewrite HC; auto with zarith].
  - destruct r as [r|]; [apply deep_text|intros ? ? ?; cbn; rewrite HC; auto with zarith].
  - apply deep_to_string, IH.
Qed.
End Deep.
