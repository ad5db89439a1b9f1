(** More facts on the encoders: the depth of the indenter, map order, nil
    embedded pointers. *)
From Coq Require Import Permutation Sorted.
From Verif Require Import Bytes Utf8Model ParseModel StringModel IntModel TokenModel EncModel SpecJson SpecString SpecTokens
  SpecRender SpecColor SpecEnc ParseFacts Utf8Facts StringFacts IntFacts TokenFacts EncFacts RawFacts EncMain.

(** * The depth *)
Section depth.
  Variable c : cfg.
  Definition keeps (fld : bool) (f : encf) : Prop := forall b d b' d' e, f b d = ER b' d' e ->
    (e = None -> d' = d) /\ (e = Some ERollback -> fld = true /\ d' = d).
  Lemma keeps_const fld g : keeps fld (fun b d => ER (g b) d None).
  Proof. intros b d b' d' e H. injection H as _ <- <-. split; [reflexivity|discriminate]. Qed.
  Lemma keeps_err fld e : e <> ERollback -> keeps fld (fun b d => ER b d (Some e)).
  Proof. intros N b d b' d' e' H. injection H as _ <- <-. split; [discriminate|congruence]. Qed.
  Lemma keeps_fld fld f : keeps false f -> keeps fld f.
  Proof. intros K b d b' d' e H. apply K in H. split; [apply H|]. intros E. destruct (proj2 H E). discriminate. Qed.
  Lemma pop_push d : in_pop c (in_push c d) = d.
  Proof. unfold in_pop, in_push. destruct (e_ind c); lia. Qed.

  Lemma array_elems_keeps fs : Forall (keeps false) fs -> forall first, keeps false (array_elems c first fs).
  Proof.
    induction 1 as [|f fs Hf H IH]; intros first b d b' d' e; cbn [array_elems].
    - intros E. injection E as _ <- <-. split; [reflexivity|discriminate].
    - match goal with |- context [f ?x d] => destruct (f x d) as [b1 d1 [e1|]|] eqn:F end; [| |discriminate].
      + intros E. injection E as _ <- <-. split; [discriminate|]. apply (Hf _ _ _ _ _ F).
      + apply Hf in F. rewrite (proj1 F eq_refl). apply IH.
  Qed.
  Lemma encode_array_keeps fs : Forall (keeps false) fs -> keeps false (encode_array c fs).
  Proof.
    intros H b d b' d' e. unfold encode_array. destruct fs as [|f fs].
    - intros E. injection E as _ <- <-. split; [reflexivity|discriminate].
    - destruct (array_elems c true (f :: fs) _ (in_push c d)) as [b1 d1 [e1|]|] eqn:F; [| |discriminate]; apply (array_elems_keeps _ H) in F; intros E; injection E as _ <- <-.
      + split; [discriminate|]. intros E. destruct (proj2 F E). discriminate.
      + rewrite (proj1 F eq_refl), pop_push. split; [reflexivity|discriminate].
  Qed.
  Lemma map_elems_keeps fs : Forall (fun p => keeps false (fst p) /\ keeps false (snd p)) fs -> forall first, keeps false (map_elems c first fs).
  Proof.
    induction 1 as [|[fk fv] fs [Hk Hv] H IH]; intros first b d b' d' e; cbn [map_elems].
    - intros E. injection E as _ <- <-. split; [reflexivity|discriminate].
    - cbn [fst snd] in *. match goal with |- context [fk ?x d] => destruct (fk x d) as [b1 d1 [e1|]|] eqn:F end; [| |discriminate].
      + intros E. injection E as _ <- <-. split; [discriminate|]. apply (Hk _ _ _ _ _ F).
      + apply Hk in F. rewrite (proj1 F eq_refl).
        match goal with |- context [fv ?x d] => destruct (fv x d) as [b2 d2 [e2|]|] eqn:G end; [| |discriminate].
        * intros E. injection E as _ <- <-. split; [discriminate|]. apply (Hv _ _ _ _ _ G).
        * apply Hv in G. rewrite (proj1 G eq_refl). apply IH.
  Qed.
  Lemma encode_map_keeps cut fs : Forall (fun p => keeps false (fst p) /\ keeps false (snd p)) fs -> keeps false (encode_map c cut fs).
  Proof.
    intros H b d b' d' e. unfold encode_map. destruct fs as [|f fs].
    - intros E. injection E as _ <- <-. split; [reflexivity|discriminate].
    - destruct (map_elems c true (f :: fs) _ (in_push c d)) as [b1 d1 [e1|]|] eqn:F; [| |discriminate]; apply (map_elems_keeps _ H) in F; intros E; injection E as _ <- <-.
      + split; [discriminate|]. intros E. destruct (proj2 F E). discriminate.
      + rewrite (proj1 F eq_refl), pop_push. split; [reflexivity|discriminate].
  Qed.
  Lemma encode_map_break_keeps fs : Forall (fun p => keeps false (fst p) /\ keeps false (snd p)) fs -> keeps false (encode_map_break c fs).
  Proof.
    intros H b d b' d' e. unfold encode_map_break. destruct fs as [|f fs].
    - intros E. injection E as _ <- <-. split; [reflexivity|discriminate].
    - destruct (map_elems c true (f :: fs) _ (in_push c d)) as [b1 d1 [e1|]|] eqn:F; [| |discriminate]; apply (map_elems_keeps _ H) in F; intros E; injection E as _ <- <-.
      + split; [discriminate|]. intros E. destruct (proj2 F E). discriminate.
      + rewrite (proj1 F eq_refl), pop_push. split; [reflexivity|discriminate].
  Qed.
  Lemma struct_fields_keeps fs : Forall (fun p => keeps true (snd p)) fs -> forall n b d b' d' e n',
    struct_fields c n fs b d = (ER b' d' e, n') -> e <> Some ERollback /\ (e = None -> d' = d).
  Proof.
    induction 1 as [|[h f] fs Hf H IH]; intros n b d b' d' e n'.
    - cbn [struct_fields]. intros E. injection E as _ <- <- _. split; [discriminate|reflexivity].
    - destruct (omitted h) eqn:O; [rewrite struct_fields_omit by exact O; apply IH|]. rewrite struct_fields_step by exact O. cbn [snd] in Hf.
      match goal with |- context [f ?x d] => destruct (f x d) as [b1 d1 [e1|]|] eqn:F end; [| |discriminate].
      + apply Hf in F. destruct e1; try (intros E; injection E as _ <- <- _; split; [congruence|discriminate]).
        rewrite (proj2 (proj2 F eq_refl)). apply IH.
      + apply Hf in F. rewrite (proj1 F eq_refl). apply IH.
  Qed.
  Lemma encode_struct_keeps fs : Forall (fun p => keeps true (snd p)) fs -> keeps false (encode_struct c fs).
  Proof.
    intros H b d b' d' e. unfold encode_struct.
    destruct (struct_fields c 0 fs _ (in_push c d)) as [[b1 d1 [e1|]|] n] eqn:F; [| |discriminate]; apply (struct_fields_keeps _ H) in F; intros E; injection E as _ <- <-.
    - split; [discriminate|]. intros E. destruct F. congruence.
    - destruct F as [_ F]. rewrite (F eq_refl), pop_push. split; [reflexivity|discriminate].
  Qed.
  Lemma encode_raw_depth s b d b' d' e : match s with None => True | Some s => raw_checked (e_trust c) s end ->
    encode_raw c s b d = ER b' d' e -> d' = d /\ e <> Some ERollback.
  Proof.
    destruct s as [s|]; [|intros _ E; injection E as _ <- <-; split; [reflexivity|discriminate]]. intros [W H]. rewrite ao_raw.
    assert (X : exists r, encode_raw c (Some s) [] d = r /\ match r with ER _ d1 e1 => d1 = d /\ e1 <> Some ERollback | EPanic => True end).
    { unfold encode_raw. destruct (e_trust c) eqn:T.
      - destruct H as [H|[a J]]; [discriminate|]. rewrite (raw_tokens_text c s a d W J). eexists. split; [reflexivity|]. split; [reflexivity|discriminate].
      - destruct (parseValue s) as [v r|r e1] eqn:E; [|eexists; split; [reflexivity|split; [reflexivity|discriminate]]].
        apply parseValue_sound in E; [|exact W]. destruct E as [E [a Ha]].
        assert (Wv : wf v) by (subst s; apply Forall_app in W; apply W).
        rewrite (raw_tokens_text c v a d Wv (jvalue_jtext v a Ha)). eexists. split; [reflexivity|]. split; [reflexivity|discriminate]. }
    destruct X as (r & -> & X). destruct r as [o d1 e1|]; cbn [pre]; [|discriminate]. intros E. injection E as _ <- <-. exact X.
  Qed.
  Lemma encode_raw_keeps s : match s with None => True | Some s => raw_checked (e_trust c) s end -> keeps false (encode_raw c s).
  Proof. intros H b d b' d' e E. apply encode_raw_depth in E; [|exact H]. destruct E as [-> E]. split; [reflexivity|congruence]. Qed.
  Lemma encode_to_string_keeps f : keeps false f -> keeps false (encode_to_string c f).
  Proof.
    intros K b d b' d' e. unfold encode_to_string. destruct (f b d) as [b1 d1 [e1|]|] eqn:F; [| |discriminate]; apply K in F; intros E; injection E as _ <- <-.
    - split; [discriminate|apply F].
    - split; [apply F; reflexivity|discriminate].
  Qed.
  Lemma encode_str_keeps clr s : keeps false (encode_str c clr s).
  Proof. unfold encode_str. destruct (e_clrs c); apply keeps_const. Qed.
  Lemma encode_mkey_keeps k : match k with KText _ e => e <> Some ERollback | _ => True end -> keeps false (encode_mkey c k).
  Proof.
    destruct k as [s|z|s [e|]|]; intros H; cbn [encode_mkey].
    - apply encode_str_keeps.
    - apply encode_to_string_keeps, keeps_const.
    - apply keeps_err. congruence.
    - apply encode_str_keeps.
    - apply keeps_const.
  Qed.
  Theorem enc_keeps v : forall fld, shaped (e_trust c) fld v -> keeps fld (enc c v).
  Proof.
    induction v as [ |b|z|f|s|s|s|t|l IH| |l IH| |m IH| |m IH|m|fs IH|o IH|o IH|o IH|s|r|r|v IH| ] using gval_rect'; intros fld S; cbn [shaped] in S; cbn [enc];
      try (apply keeps_const).
    - apply keeps_fld. intros b d b' d' e. unfold encode_float_c.
      destruct (e_clrs c); [destruct (encode_float (b ++ _) f) as [t e1] eqn:E|destruct (encode_float b f) as [t e1] eqn:E];
        (intros X; injection X as _ <- <-; split; [reflexivity|]; intros ->; destruct f; cbn [encode_float] in E; try discriminate; destruct (_ || _); discriminate).
    - apply keeps_fld. intros b d b' d' e. unfold encode_number. destruct (parse_number _) as [v r|r e1] eqn:E.
      + destruct (e_clrs c); intros X; injection X as _ <- <-; (split; [reflexivity|discriminate]).
      + apply parse_number_err in E. subst e1. intros X; injection X as _ <- <-. split; [reflexivity|discriminate].
    - apply keeps_fld, encode_str_keeps.
    - unfold encode_bytes. destruct (e_clrs c); apply keeps_const.
    - unfold encode_time. destruct (e_clrs c); apply keeps_const.
    - apply keeps_fld, encode_array_keeps. apply all_map in S. apply Forall_map. rewrite Forall_forall in *. auto.
    - apply keeps_fld, encode_array_keeps. apply all_map in S. apply Forall_map. rewrite Forall_forall in *. auto.
    - apply keeps_fld, encode_map_keeps. apply all_map in S. apply Forall_map.
      assert (X : Forall (fun e => keeps false (encode_mkey c (fst e)) /\ keeps false (snd e)) (map (fun kv : mkey * gval => let (k, x) := kv in (k, enc c x)) m)).
      { apply Forall_map. rewrite Forall_forall in *. intros [k x] Hx. specialize (S _ Hx). specialize (IH _ Hx). cbn in *. split; [apply encode_mkey_keeps, S|apply IH, S]. }
      destruct (e_sort c); [apply Forall_sort, X|exact X].
    - assert (X : Forall (fun e => keeps false (encode_key c (fst e)) /\ keeps false (snd e)) (map (fun kv : bytes * gval => let (k, x) := kv in (k, enc c x)) m)).
      { apply all_map in S. apply Forall_map. rewrite Forall_forall in *. intros [k x] Hx. specialize (S _ Hx). specialize (IH _ Hx). cbn in *. split; [apply encode_str_keeps|apply IH, S]. }
      apply keeps_fld. destruct (e_sort c); [apply encode_map_break_keeps|apply encode_map_keeps]; apply Forall_map; [apply Forall_sort|]; exact X.
    - destruct m as [m|]; [|apply keeps_const].
      assert (X : Forall (fun e => keeps false (encode_key c (fst e)) /\ keeps false (encode_raw c (snd e))) m).
      { eapply Forall_impl; [|exact S]. intros [k s] H. split; [apply encode_str_keeps|apply encode_raw_keeps, H]. }
      apply keeps_fld. destruct (e_sort c); [apply encode_map_break_keeps; apply Forall_map, Forall_sort, X|].
      intros b d b' d' e. unfold encode_map_swallow.
      set (fs := map _ m). assert (F : Forall (fun p => keeps false (fst p) /\ keeps false (snd p)) fs) by (apply Forall_map, X).
      assert (G : forall first b d b1 d1 e1, map_elems c first fs b d = ER b1 d1 e1 -> d1 = d).
      { assert (Y : Forall (fun p => (forall b d b1 d1 e1, fst p b d = ER b1 d1 e1 -> d1 = d) /\ (forall b d b1 d1 e1, snd p b d = ER b1 d1 e1 -> d1 = d)) fs).
        { subst fs. apply Forall_map. eapply Forall_impl; [|exact S]. intros [k s] H. cbn [fst snd]. split.
          - unfold encode_key, encode_str. destruct (e_clrs c); intros; congruence.
          - intros b0 d0 b1 d1 e1 E. apply encode_raw_depth in E; [apply E|exact H]. }
        clearbody fs. clear - Y. induction Y as [|[fk fv] fs [Yk Yv] Y IH]; intros first b d b1 d1 e1; cbn [map_elems]; [congruence|]. cbn [fst snd] in *.
        match goal with |- context [fk ?x d] => destruct (fk x d) as [b2 d2 [e2|]|] eqn:G end; [| |discriminate]; apply Yk in G; subst; [congruence|].
        match goal with |- context [fv ?x d] => destruct (fv x d) as [b3 d3 [e3|]|] eqn:G end; [| |discriminate]; apply Yv in G; subst; [congruence|]. apply IH. }
      clearbody fs. destruct fs as [|f0 fs]; [intros E; injection E as _ <- <-; split; [reflexivity|discriminate]|].
      destruct (map_elems c true (f0 :: fs) _ (in_push c d)) as [b1 d1 e1|] eqn:E1; [|discriminate]. apply G in E1. intros E; injection E as _ <- <-.
      rewrite E1, pop_push. split; [reflexivity|discriminate].
    - apply keeps_fld, encode_struct_keeps. apply all_map in S. apply Forall_map. rewrite Forall_forall in *. intros [h x] Hx. specialize (S _ Hx). specialize (IH _ Hx). cbn in *. apply IH, S.
    - destruct o as [x|]; cbn [enc] in *.
      + destruct S as [-> S]. apply IH, S.
      + subst fld. intros b d b' d' e E. injection E as _ <- <-. split; [discriminate|auto].
    - destruct o as [x|]; [apply keeps_fld, IH, S|apply keeps_const].
    - destruct o as [x|]; [apply keeps_fld, IH, S|apply keeps_const].
    - apply keeps_fld, encode_raw_keeps. exact S.
    - destruct r as [[s|e]|]; [apply keeps_fld, encode_raw_keeps, S|apply keeps_err, S|apply keeps_const].
    - destruct r as [[s|e]|]; [apply keeps_fld, encode_str_keeps|apply keeps_err, S|apply keeps_const].
    - apply keeps_fld, encode_to_string_keeps, IH, S.
    - apply keeps_err. discriminate.
  Qed.
End depth.

(** * Map order *)
Definition feq (f g : encf) : Prop := forall b d, f b d = g b d.
Definition feq2 (p q : encf * encf) : Prop := feq (fst p) (fst q) /\ feq (snd p) (snd q).
Lemma array_elems_ext c fs gs : Forall2 feq fs gs -> forall first, feq (array_elems c first fs) (array_elems c first gs).
Proof.
  induction 1 as [|f g fs gs Hf H IH]; intros first b d; [reflexivity|]. cbn [array_elems]. rewrite Hf. destruct (g _ d) as [b1 d1 [e1|]|]; try reflexivity. apply IH.
Qed.
Lemma encode_array_ext c fs gs : Forall2 feq fs gs -> feq (encode_array c fs) (encode_array c gs).
Proof.
  intros H b d. unfold encode_array. pose proof (array_elems_ext c _ _ H true) as E. destruct H; [reflexivity|]. rewrite E. reflexivity.
Qed.
Lemma map_elems_ext c fs gs : Forall2 feq2 fs gs -> forall first, feq (map_elems c first fs) (map_elems c first gs).
Proof.
  induction 1 as [|[fk fv] [gk gv] fs gs [Hk Hv] H IH]; intros first b d; [reflexivity|]. cbn [map_elems fst snd] in *. rewrite Hk. destruct (gk _ d) as [b1 d1 [e1|]|]; try reflexivity.
  rewrite Hv. destruct (gv _ d1) as [b2 d2 [e2|]|]; try reflexivity. apply IH.
Qed.
Lemma encode_map_ext c cut fs gs : Forall2 feq2 fs gs -> feq (encode_map c cut fs) (encode_map c cut gs).
Proof. intros H b d. unfold encode_map. pose proof (map_elems_ext c _ _ H true) as E. destruct H; [reflexivity|]. rewrite E. reflexivity. Qed.
Lemma encode_map_break_ext c fs gs : Forall2 feq2 fs gs -> feq (encode_map_break c fs) (encode_map_break c gs).
Proof. intros H b d. unfold encode_map_break. pose proof (map_elems_ext c _ _ H true) as E. destruct H; [reflexivity|]. rewrite E. reflexivity. Qed.
Lemma struct_fields_ext c fs gs : Forall2 (fun p q => fst p = fst q /\ feq (snd p) (snd q)) fs gs -> forall n b d, struct_fields c n fs b d = struct_fields c n gs b d.
Proof.
  induction 1 as [|[h f] [h' g] fs gs [Hh Hf] H IH]; intros n b d; [reflexivity|]. cbn [fst snd] in *. subst h'.
  destruct (omitted h) eqn:O; [rewrite !struct_fields_omit by exact O; apply IH|]. rewrite !struct_fields_step by exact O. rewrite Hf.
  destruct (g _ d) as [b1 d1 [[]|]|]; try reflexivity; apply IH.
Qed.
Lemma encode_struct_ext c fs gs : Forall2 (fun p q => fst p = fst q /\ feq (snd p) (snd q)) fs gs -> feq (encode_struct c fs) (encode_struct c gs).
Proof. intros H b d. unfold encode_struct. rewrite (struct_fields_ext c _ _ H). destruct H; reflexivity. Qed.
Lemma encode_to_string_ext c f g : feq f g -> feq (encode_to_string c f) (encode_to_string c g).
Proof. intros H b d. unfold encode_to_string. rewrite H. reflexivity. Qed.

Lemma sorted_unique {A} (key : A -> bytes) l l' : ascending key l -> ascending key l' -> Permutation l l' -> NoDup (map key l) -> l = l'.
Proof.
  intros S. revert l'. induction S as [|x l S IH H]; intros l' S' P N.
  - apply Permutation_nil in P. congruence.
  - destruct S' as [|y l' S' H']; [apply Permutation_sym, Permutation_nil in P; discriminate|].
    assert (K : forall z, In z l -> key z = key x -> False).
    { intros z Hz E. cbn [map] in N. inversion N as [|? ? X _]; subst. apply X. rewrite <- E. apply in_map, Hz. }
    assert (x = y).
    { assert (X : In x (y :: l')) by (eapply Permutation_in; [exact P|left; reflexivity]).
      assert (Y : In y (x :: l)) by (eapply Permutation_in; [apply Permutation_sym, P|left; reflexivity]).
      destruct X as [->|X]; [reflexivity|]. destruct Y as [->|Y]; [reflexivity|]. exfalso.
      rewrite Forall_forall in H, H'. apply (K y Y). apply ltb_total; [apply H, Y|apply H', X]. }
    subst y. f_equal. apply IH; [exact S'|eapply Permutation_cons_inv, P|]. cbn [map] in N. inversion N; assumption.
Qed.
Lemma sort_by_unique {A} (key : A -> bytes) l l' : Permutation l l' -> NoDup (map key l) -> sort_by key l = sort_by key l'.
Proof.
  intros P N. apply (sorted_unique key); try apply sort_by_sorted.
  - rewrite <- sort_by_perm, <- sort_by_perm. exact P.
  - eapply Permutation_NoDup; [|exact N]. apply Permutation_map, sort_by_perm.
Qed.
Lemma insert_by_F2 {A} (key : A -> bytes) (Q : A -> A -> Prop) x x' l l' : (forall a b, Q a b -> key a = key b) -> Q x x' -> Forall2 Q l l' ->
  Forall2 Q (insert_by key x l) (insert_by key x' l').
Proof.
  intros K Hx H. induction H as [|y y' l l' Hy H IH]; cbn [insert_by]; [constructor; [exact Hx|constructor]|].
  rewrite (K _ _ Hy), (K _ _ Hx). destruct (bytes_ltb (key y') (key x')); repeat (constructor; auto).
Qed.
Lemma sort_by_F2 {A} (key : A -> bytes) (Q : A -> A -> Prop) l l' : (forall a b, Q a b -> key a = key b) -> Forall2 Q l l' ->
  Forall2 Q (sort_by key l) (sort_by key l').
Proof. intros K H. induction H; cbn [sort_by]; [constructor|]. apply insert_by_F2; assumption. Qed.
Lemma F2_map {A B C D} (f : A -> C) (g : B -> D) (P : C -> D -> Prop) l l' : Forall2 (fun a b => P (f a) (g b)) l l' -> Forall2 P (map f l) (map g l').
Proof. induction 1; constructor; assumption. Qed.
Lemma Forall2_In_l {A B} (P Q : A -> B -> Prop) l l' : Forall2 P l l' -> Forall (fun a => forall b, P a b -> Q a b) l -> Forall2 Q l l'.
Proof. induction 1; intros F; inversion F; subst; constructor; auto. Qed.

Theorem reorder_enc c v : e_sort c = true -> forall v', reorder v v' -> feq (enc c v) (enc c v').
Proof.
  intros S. induction v as [ |b|z|f|s|s|s|t|l IH| |l IH| |m IH| |m IH|m|fs IH|o IH|o IH|o IH|s|r|r|v IH| ] using gval_rect'; intros v' H;
    inversion H; subst; try (intros ? ?; reflexivity); cbn [enc].
  - apply encode_array_ext, F2_map. eapply Forall2_In_l; [eassumption|]. exact IH.
  - apply encode_array_ext, F2_map. eapply Forall2_In_l; [eassumption|]. exact IH.
  - rewrite S. apply encode_map_ext, F2_map.
    rewrite !(sort_by_map _ _ (fun e => key_text (fst e))) by (intros [? ?]; reflexivity). apply F2_map.
    rewrite (sort_by_unique _ m m1) by assumption.
    apply (Forall2_imp (fun e e' => fst e = fst e' /\ feq (enc c (snd e)) (enc c (snd e')))).
    { intros [k x] [k' x'] [E F]. cbn [fst snd] in *. subst k'. split; [intros ? ?; reflexivity|exact F]. }
    apply sort_by_F2; [intros [? ?] [? ?] [E _]; cbn in *; congruence|].
    eapply Forall2_In_l; [eassumption|]. eapply Permutation_Forall; [eassumption|]. eapply Forall_impl; [|exact IH].
    intros [k x] F [k' x'] [E G]. cbn [fst snd] in *. split; [exact E|apply F, G].
  - rewrite S. apply encode_map_break_ext, F2_map.
    rewrite !(sort_by_map _ _ fst) by (intros [? ?]; reflexivity). apply F2_map.
    rewrite (sort_by_unique _ m m1) by assumption.
    apply (Forall2_imp (fun e e' => fst e = fst e' /\ feq (enc c (snd e)) (enc c (snd e')))).
    { intros [k x] [k' x'] [E F]. cbn [fst snd] in *. subst k'. split; [intros ? ?; reflexivity|exact F]. }
    apply sort_by_F2; [intros [? ?] [? ?] [E _]; cbn in *; congruence|].
    eapply Forall2_In_l; [eassumption|]. eapply Permutation_Forall; [eassumption|]. eapply Forall_impl; [|exact IH].
    intros [k x] F [k' x'] [E G]. cbn [fst snd] in *. split; [exact E|apply F, G].
  - rewrite S. rewrite (sort_by_unique fst m0 m') by assumption. intros ? ?; reflexivity.
  - apply encode_struct_ext, F2_map. eapply Forall2_In_l; [eassumption|]. eapply Forall_impl; [|exact IH].
    intros [h x] F [h' x'] [E G]. cbn [fst snd] in *. split; [exact E|apply F, G].
  - apply IH. assumption.
  - apply IH. assumption.
  - apply IH. assumption.
  - apply encode_to_string_ext, IH. assumption.
Qed.

(** * Nil embedded pointers *)
Lemma absent_rolls c v : absent v = true -> forall b d, enc c v b d = ER b d (Some ERollback).
Proof.
  induction v as [ |b|z|f|s|s|s|t|l IH| |l IH| |m IH| |m IH|m|fs IH|o IH|o IH|o IH|s|r|r|v IH| ] using gval_rect'; cbn [absent]; try discriminate.
  destruct o as [x|]; [|reflexivity]. intros H. exact (IH H).
Qed.
Lemma struct_lead c pre post : post <> [] -> Forall (fun hv => f_omitempty (fst hv) && f_empty (fst hv) = true \/ absent (snd hv) = true) pre ->
  feq (enc c (GStruct (pre ++ post))) (enc c (GStruct post)).
Proof.
  intros N H b d. cbn [enc]. unfold encode_struct. rewrite map_app, struct_fields_pre.
  - destruct post as [|p post]; [congruence|]. destruct (map _ pre ++ map _ (p :: post)) eqn:E; [destruct pre; discriminate|]. reflexivity.
  - apply Forall_map. eapply Forall_impl; [|exact H]. intros [h x] [O|A]; [left; exact O|right]. intros ? ?. apply absent_rolls, A.
Qed.

(** * Trusted malformed messages *)
Lemma raw_loop_error c t l t1 t2 e : steps t l t1 -> tok_next t1 = Some (t2, false) -> t_err t2 = Some e ->
  forall k st b d, exists b' d', raw_loop (length l + S k) c t st b d = RawDone b' d' (Some e).
Proof.
  intros S N E. induction S as [t|t t1 l t' H S IH]; intros k st b d; cbn [length Nat.add raw_loop].
  - rewrite N, E. eauto.
  - rewrite H. destruct (t_delim t1 =? 58); [apply IH; assumption|]. destruct (t_delim t1 =? 44); [apply IH; assumption|].
    destruct ((t_delim t1 =? 125) || (t_delim t1 =? 93)); [apply IH; assumption|].
    destruct (raw_prefix c b d st _) as [b1 st1]. destruct ((t_delim t1 =? 123) || (t_delim t1 =? 91)); apply IH; assumption.
Qed.
Lemma raw_trusted_error c s l t1 t2 e : wf s -> e_trust c = true ->
  steps (new_tokenizer s) l t1 -> tok_next t1 = Some (t2, false) -> t_err t2 = Some e ->
  forall b d, exists d', encode_raw c (Some s) b d = ER (append_raw_verbatim c b s d') d' None.
Proof.
  intros W T S N E b d. unfold encode_raw, append_raw_tokens. rewrite T.
  pose proof (steps_bounded (new_tokenizer s) _ _ W S) as B. cbn [t_json new_tokenizer] in B.
  assert (X : raw_loop (Datatypes.S (length s)) c (new_tokenizer s) [] b d = rpre b (raw_loop (Datatypes.S (length s)) c (new_tokenizer s) [] [] d)) by apply raw_loop_app.
  replace (Datatypes.S (length s)) with (length l + Datatypes.S (length s - length l))%nat in * by lia.
  destruct (raw_loop_error c _ _ _ _ _ S N E (length s - length l) [] [] d) as (b' & d' & R). rewrite X, R. cbn. rewrite firstn_len_app. eauto.
Qed.
