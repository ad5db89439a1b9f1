(** Without an active indenter the depth and the indenter do not matter. *)
From Verif Require Import Bytes Utf8Model ParseModel StringModel IntModel TokenModel EncModel SpecRender EncFacts.

Definition sim (x y : eres) : Prop :=
  match x, y with
  | ER b _ e, ER b' _ e' => b = b' /\ e = e'
  | EPanic, EPanic => True
  | _, _ => False
  end.
Definition flat (f g : encf) : Prop := forall b d1 d2, sim (f b d1) (g b d2).
(** Same settings but for the indenter, which is inactive. *)
Definition flat_cfg (c1 c2 : cfg) : Prop :=
  e_html c1 = e_html c2 /\ e_sort c1 = e_sort c2 /\ e_trust c1 = e_trust c2 /\ e_clrs c1 = e_clrs c2 /\
  active (e_ind c1) = None /\ active (e_ind c2) = None.

Lemma flat_byte c b a : active (e_ind c) = None -> in_byte c b a = b.
Proof. unfold active, in_byte. destruct (e_ind c) as [i|]; [|reflexivity]. destruct (i_disabled i); [reflexivity|discriminate]. Qed.
Lemma flat_indent c b d : active (e_ind c) = None -> in_indent c b d = b.
Proof. unfold active, in_indent. destruct (e_ind c) as [i|]; [|reflexivity]. destruct (i_disabled i); [reflexivity|discriminate]. Qed.

Section Flat.
Variables c1 c2 : cfg.
Hypothesis HH : e_html c1 = e_html c2.
Hypothesis HS : e_sort c1 = e_sort c2.
Hypothesis HT : e_trust c1 = e_trust c2.
Hypothesis HC : e_clrs c1 = e_clrs c2.
Hypothesis H1 : active (e_ind c1) = None.
Hypothesis H2 : active (e_ind c2) = None.

Lemma flat_to_string f g : flat f g -> flat (encode_to_string c1 f) (encode_to_string c2 g).
Proof.
  intros H b d1 d2. unfold encode_to_string. specialize (H b d1 d2). rewrite HH.
  destruct (f b d1) as [b1 d1' e1|], (g b d2) as [b2 d2' e2|]; cbn [sim] in *; try tauto. destruct H as [-> ->]. destruct e2; cbn; auto.
Qed.
Lemma flat_array_elems fs gs : Forall2 flat fs gs -> forall first, flat (array_elems c1 first fs) (array_elems c2 first gs).
Proof.
  induction 1 as [|f g fs gs H HF IH]; intros first b d1 d2; cbn [array_elems]; [cbn; auto|].
  rewrite !flat_byte, !flat_indent by assumption. rewrite HC. set (x := if first then b else append_punc (e_clrs c2) b 44).
  specialize (H x d1 d2). destruct (f x d1) as [b1 d1' e1|], (g x d2) as [b2 d2' e2|]; cbn [sim] in H; try tauto.
  destruct H as [-> ->]. destruct e2; [cbn; auto|apply IH].
Qed.
Lemma flat_array fs gs : Forall2 flat fs gs -> flat (encode_array c1 fs) (encode_array c2 gs).
Proof.
  intros H b d1 d2. unfold encode_array. rewrite HC. destruct H as [|f g fs gs Hf H]; [cbn; auto|].
  pose proof (flat_array_elems (f :: fs) (g :: gs) (Forall2_cons _ _ Hf H) true (append_punc (e_clrs c2) b 91) (in_push c1 d1) (in_push c2 d2)) as X.
  destruct (array_elems c1 true _ _ _) as [b1 d1' e1|], (array_elems c2 true _ _ _) as [b2 d2' e2|]; cbn [sim] in X; try tauto.
  destruct X as [-> ->]. destruct e2; [cbn; auto|]. rewrite !flat_byte, !flat_indent by assumption. cbn. auto.
Qed.
Lemma flat_map_elems fs gs : Forall2 (fun p q => flat (fst p) (fst q) /\ flat (snd p) (snd q)) fs gs ->
  forall first, flat (map_elems c1 first fs) (map_elems c2 first gs).
Proof.
  induction 1 as [|[fk fv] [gk gv] fs gs [Hk Hv] HF IH]; intros first b d1 d2; cbn [map_elems]; [cbn; auto|]. cbn [fst snd] in *.
  rewrite !flat_byte, !flat_indent by assumption. rewrite HC. set (x := if first then b else append_punc (e_clrs c2) b 44).
  specialize (Hk x d1 d2). destruct (fk x d1) as [b1 d1' e1|], (gk x d2) as [b2 d2' e2|]; cbn [sim] in Hk; try tauto.
  destruct Hk as [-> ->]. destruct e2; [cbn; auto|]. rewrite !flat_byte by assumption.
  specialize (Hv (append_punc (e_clrs c2) b2 58) d1' d2'). destruct (fv _ d1') as [b3 d3 e3|], (gv _ d2') as [b4 d4 e4|]; cbn [sim] in Hv; try tauto.
  destruct Hv as [-> ->]. destruct e4; [cbn; auto|apply IH].
Qed.
Ltac maps X :=
  destruct (map_elems c1 true _ _ _) as [b1 d1' e1|], (map_elems c2 true _ _ _) as [b2 d2' e2|]; cbn [sim] in X; try tauto;
  destruct X as [-> ->]; try destruct e2; rewrite ?flat_byte, ?flat_indent by assumption; cbn; auto.
Lemma flat_map_ cut fs gs : Forall2 (fun p q => flat (fst p) (fst q) /\ flat (snd p) (snd q)) fs gs -> flat (encode_map c1 cut fs) (encode_map c2 cut gs).
Proof.
  intros H b d1 d2. unfold encode_map. rewrite HC. destruct H as [|f g fs gs Hf H]; [cbn; auto|]. rewrite !flat_byte by assumption.
  pose proof (flat_map_elems (f :: fs) (g :: gs) (Forall2_cons _ _ Hf H) true (append_punc (e_clrs c2) b 123) (in_push c1 d1) (in_push c2 d2)) as X. maps X.
Qed.
Lemma flat_map_break fs gs : Forall2 (fun p q => flat (fst p) (fst q) /\ flat (snd p) (snd q)) fs gs -> flat (encode_map_break c1 fs) (encode_map_break c2 gs).
Proof.
  intros H b d1 d2. unfold encode_map_break. rewrite HC. destruct H as [|f g fs gs Hf H]; [cbn; auto|]. rewrite !flat_byte by assumption.
  pose proof (flat_map_elems (f :: fs) (g :: gs) (Forall2_cons _ _ Hf H) true (append_punc (e_clrs c2) b 123) (in_push c1 d1) (in_push c2 d2)) as X. maps X.
Qed.
Lemma flat_map_swallow fs gs : Forall2 (fun p q => flat (fst p) (fst q) /\ flat (snd p) (snd q)) fs gs -> flat (encode_map_swallow c1 fs) (encode_map_swallow c2 gs).
Proof.
  intros H b d1 d2. unfold encode_map_swallow. rewrite HC. destruct H as [|f g fs gs Hf H]; [cbn; auto|]. rewrite !flat_byte by assumption.
  pose proof (flat_map_elems (f :: fs) (g :: gs) (Forall2_cons _ _ Hf H) true (append_punc (e_clrs c2) b 123) (in_push c1 d1) (in_push c2 d2)) as X. maps X.
Qed.
Lemma flat_struct_fields fs gs : Forall2 (fun p q => fst p = fst q /\ flat (snd p) (snd q)) fs gs -> forall n b d1 d2,
  sim (fst (struct_fields c1 n fs b d1)) (fst (struct_fields c2 n gs b d2)) /\ snd (struct_fields c1 n fs b d1) = snd (struct_fields c2 n gs b d2).
Proof.
  induction 1 as [|[h f] [h' g] fs gs [E Hf] HF IH]; intros n b d1 d2; cbn [struct_fields]; [cbn; auto|]. cbn [fst snd] in E, Hf. subst h'.
  destruct (f_omitempty h && f_empty h); [apply IH|].
  rewrite !flat_byte, !flat_indent by assumption. rewrite HC, HH.
  set (x := if Nat.eqb n 0 then b else append_punc (e_clrs c2) b 44). set (k := if e_html c2 then f_html h else f_json h).
  set (y := append_punc (e_clrs c2) _ 58).
  specialize (Hf y d1 d2). destruct (f y d1) as [b1 d1' e1|], (g y d2) as [b2 d2' e2|]; cbn [sim] in Hf; try tauto.
  destruct Hf as [-> ->]. destruct e2 as [[]|]; try (cbn; auto; fail); apply IH.
Qed.
Lemma flat_struct fs gs : Forall2 (fun p q => fst p = fst q /\ flat (snd p) (snd q)) fs gs -> flat (encode_struct c1 fs) (encode_struct c2 gs).
Proof.
  intros H b d1 d2. unfold encode_struct. rewrite !flat_byte by assumption. rewrite HC.
  replace (match fs with [] => append_punc (e_clrs c2) b 123 | _ => append_punc (e_clrs c2) b 123 end) with (append_punc (e_clrs c2) b 123) by (destruct fs; reflexivity).
  replace (match gs with [] => append_punc (e_clrs c2) b 123 | _ => append_punc (e_clrs c2) b 123 end) with (append_punc (e_clrs c2) b 123) by (destruct gs; reflexivity).
  destruct (flat_struct_fields fs gs H 0 (append_punc (e_clrs c2) b 123) (in_push c1 d1) (in_push c2 d2)) as [X Y].
  destruct (struct_fields c1 _ _ _ _) as [[b1 d1' e1|] n1], (struct_fields c2 _ _ _ _) as [[b2 d2' e2|] n2]; cbn [sim fst snd] in X, Y; try tauto.
  destruct X as [-> ->]. subst n2. destruct e2; [cbn; auto|]. rewrite !flat_byte, !flat_indent by assumption. cbn. destruct (Nat.eqb n1 0); auto.
Qed.
Lemma flat_verbatim b s d1 d2 : append_raw_verbatim c1 b s d1 = append_raw_verbatim c2 b s d2.
Proof.
  assert (P : forall i, active i = None -> match i with Some i => i_disabled i | None => true end = true).
  { intros [i|] H; [|reflexivity]. cbn in H. destruct (i_disabled i); [reflexivity|discriminate]. }
  unfold append_raw_verbatim. rewrite (P _ H1), (P _ H2).
  rewrite HH. reflexivity.
Qed.
Lemma flat_prefix b d1 d2 st k : raw_prefix c1 b d1 st k = raw_prefix c2 b d2 st k.
Proof.
  destruct st as [|[o n] st]; [reflexivity|]. cbn [raw_prefix]. rewrite !flat_byte, !flat_indent by assumption. rewrite HC. reflexivity.
Qed.
Lemma flat_scalar b v k : raw_scalar c1 b v k = raw_scalar c2 b v k.
Proof. unfold raw_scalar. rewrite HC, HH. reflexivity. Qed.
Definition rsim (x y : rawres) : Prop :=
  match x, y with
  | RawDone b _ e, RawDone b' _ e' => b = b' /\ e = e'
  | RawPanic, RawPanic | RawFuel, RawFuel => True
  | _, _ => False
  end.
Lemma flat_raw_loop n : forall t st b d1 d2, rsim (raw_loop n c1 t st b d1) (raw_loop n c2 t st b d2).
Proof.
  induction n as [|n IH]; intros t st b d1 d2; cbn [raw_loop]; [exact I|].
  destruct (tok_next t) as [[t' [|]]|]; [|cbn; auto|exact I].
  rewrite !flat_byte, !flat_indent by assumption. rewrite !HC.
  destruct (t_delim t' =? 58); [apply IH|]. destruct (t_delim t' =? 44); [apply IH|].
  destruct ((t_delim t' =? 125) || (t_delim t' =? 93)).
  { destruct (match st with [] => false | (_, k) :: _ => negb (Nat.eqb k 0) end); apply IH. }
  rewrite (flat_prefix b d1 d2). destruct (raw_prefix c2 b d2 st _) as [p st'].
  destruct ((t_delim t' =? 123) || (t_delim t' =? 91)); [apply IH|]. rewrite flat_scalar. apply IH.
Qed.
Lemma flat_raw v : flat (encode_raw c1 v) (encode_raw c2 v).
Proof.
  intros b d1 d2. unfold encode_raw. rewrite HC, HT. destruct v as [v|]; [|cbn; auto].
  assert (G : forall s, sim match append_raw_tokens c1 b s d1 with
      | ER b d (Some e) => if e_trust c2 then ER (append_raw_verbatim c1 b s d) d None else ER b d (Some e)
      | r => r end (match append_raw_tokens c2 b s d2 with
      | ER b d (Some e) => if e_trust c2 then ER (append_raw_verbatim c2 b s d) d None else ER b d (Some e)
      | r => r end)).
  { intros s. unfold append_raw_tokens. pose proof (flat_raw_loop (S (length s)) (new_tokenizer s) [] b d1 d2) as X.
    destruct (raw_loop _ c1 _ _ _ _) as [b1 d1' e1| |], (raw_loop _ c2 _ _ _ _) as [b2 d2' e2| |]; cbn [rsim] in X; try tauto; try exact I.
    - destruct X as [-> ->]. destruct e2; [|cbn; auto]. destruct (e_trust c2); [|cbn; auto]. cbn [sim]. split; [apply flat_verbatim|reflexivity].
    - destruct (e_trust c2); [|cbn; auto]. cbn [sim]. split; [apply flat_verbatim|reflexivity]. }
  destruct (e_trust c2); [apply G|]. destruct (parseValue v); [apply G|]. cbn. auto.
Qed.
Lemma flat_str clr s : flat (encode_str c1 clr s) (encode_str c2 clr s).
Proof. intros b d1 d2. unfold encode_str. rewrite HC, HH. destruct (e_clrs c2); cbn; auto. Qed.
Lemma flat_text r : flat (encode_text c1 r) (encode_text c2 r).
Proof. destruct r; [apply flat_str|]. intros b d1 d2. cbn. auto. Qed.
Lemma flat_mkey k : flat (encode_mkey c1 k) (encode_mkey c2 k).
Proof.
  destruct k as [s|z|s [e|]|]; cbn [encode_mkey]; try apply flat_str; try apply flat_text.
  - apply flat_to_string. intros b d1 d2. cbn. rewrite HC. auto.
  - intros b d1 d2. cbn. rewrite HC. auto.
Qed.
Lemma insert_rel {A B} (ka : A -> bytes) (kb : B -> bytes) (Q : A -> B -> Prop) x y l l' :
  (forall a b, Q a b -> ka a = kb b) -> Q x y -> Forall2 Q l l' -> Forall2 Q (insert_by ka x l) (insert_by kb y l').
Proof.
  intros K Hx H. induction H as [|a b l l' Hab H IH]; cbn; [auto|]. rewrite (K _ _ Hab), (K _ _ Hx).
  destruct (bytes_ltb (kb b) (kb y)); auto.
Qed.
Lemma sort_rel {A B} (ka : A -> bytes) (kb : B -> bytes) (Q : A -> B -> Prop) l l' :
  (forall a b, Q a b -> ka a = kb b) -> Forall2 Q l l' -> Forall2 Q (sort_by ka l) (sort_by kb l').
Proof. intros K H. induction H; cbn; [constructor|]. apply insert_rel; auto. Qed.
Lemma Forall2_maps {A B C} (R : B -> C -> Prop) (f : A -> B) (g : A -> C) l : Forall (fun x => R (f x) (g x)) l -> Forall2 R (map f l) (map g l).
Proof. induction 1; constructor; auto. Qed.
Lemma Forall2_imp {A B} (P Q : A -> B -> Prop) l l' : (forall x y, P x y -> Q x y) -> Forall2 P l l' -> Forall2 Q l l'.
Proof. intros H F. induction F; constructor; auto. Qed.
Lemma Forall2_map2 {A A' B C} (R : B -> C -> Prop) (f : A -> B) (g : A' -> C) l l' : Forall2 (fun x y => R (f x) (g y)) l l' -> Forall2 R (map f l) (map g l').
Proof. induction 1; constructor; auto. Qed.

Lemma enc_flat_ v : flat (enc c1 v) (enc c2 v).
Proof.
  induction v as [ | | | | | | | |l IH| |l IH| |m IH| |m IH|m|fs IH|o IH|o IH|o IH|s|r|r|v IH| ] using gval_rect'; cbn [enc];
    try (intros ? ? ?; cbn; rewrite ?HC; auto; fail).
  - intros b d1 d2. unfold encode_float_c. rewrite HC. destruct (e_clrs c2); destruct (encode_float _ _); cbn; auto.
  - intros b d1 d2. unfold encode_number. rewrite HC. destruct (parse_number _); [|cbn; auto]. destruct (e_clrs c2); cbn; auto.
  - apply flat_str.
  - intros b d1 d2. unfold encode_bytes, do_encode_bytes. rewrite HC. destruct (e_clrs c2); cbn; auto.
  - intros b d1 d2. unfold encode_time. rewrite HC. destruct (e_clrs c2); cbn; auto.
  - apply flat_array, Forall2_maps. exact IH.
  - apply flat_array, Forall2_maps. exact IH.
  - rewrite HS.
    assert (H : Forall2 (fun p q : mkey * encf => fst p = fst q /\ flat (snd p) (snd q)) (map (fun kv : mkey * gval => let (k, x) := kv in (k, enc c1 x)) m) (map (fun kv : mkey * gval => let (k, x) := kv in (k, enc c2 x)) m)).
    { apply Forall2_maps. eapply Forall_impl; [|exact IH]. intros [k x] Hx. cbn. auto. }
    apply flat_map_, Forall2_map2. cbn [fst snd].
    assert (H' : forall l l', Forall2 (fun p q : mkey * encf => fst p = fst q /\ flat (snd p) (snd q)) l l' ->
      Forall2 (fun p q : mkey * encf => flat (encode_mkey c1 (fst p)) (encode_mkey c2 (fst q)) /\ flat (snd p) (snd q)) l l').
    { intros l l' HL. eapply Forall2_imp; [|exact HL]. intros [k x] [k' x'] [E Hx]. cbn in *. subst k'. split; [apply flat_mkey|exact Hx]. }
    destruct (e_sort c2); apply H'; [|exact H]. apply sort_rel; [|exact H]. intros [] [] [E _]. cbn in *. congruence.
  - rewrite HS.
    assert (H : Forall2 (fun p q : bytes * encf => fst p = fst q /\ flat (snd p) (snd q)) (map (fun kv : bytes * gval => let (k, x) := kv in (k, enc c1 x)) m) (map (fun kv : bytes * gval => let (k, x) := kv in (k, enc c2 x)) m)).
    { apply Forall2_maps. eapply Forall_impl; [|exact IH]. intros [k x] Hx. cbn. auto. }
    assert (H' : forall l l', Forall2 (fun p q : bytes * encf => fst p = fst q /\ flat (snd p) (snd q)) l l' ->
      Forall2 (fun p q : bytes * encf => flat (encode_key c1 (fst p)) (encode_key c2 (fst q)) /\ flat (snd p) (snd q)) l l').
    { intros l l' HL. eapply Forall2_imp; [|exact HL]. intros [k x] [k' x'] [E Hx]. cbn in *. subst k'. split; [apply flat_str|exact Hx]. }
    destruct (e_sort c2); [apply flat_map_break|apply flat_map_]; apply Forall2_map2; cbn [fst snd]; apply H'; [|exact H].
    apply sort_rel; [|exact H]. intros [] [] [E _]. cbn in *. congruence.
  - rewrite HS. destruct m as [m|]; [|intros ? ? ?; cbn; rewrite HC; auto].
    assert (H' : forall l : list (bytes * option bytes), Forall (fun p => flat (encode_key c1 (fst p)) (encode_key c2 (fst p)) /\ flat (encode_raw c1 (snd p)) (encode_raw c2 (snd p))) l).
    { intros l. apply Forall_forall. intros [k x] _. split; [apply flat_str|apply flat_raw]. }
    destruct (e_sort c2); [apply flat_map_break|apply flat_map_swallow]; apply Forall2_maps; cbn [fst snd]; apply H'.
  - apply flat_struct, Forall2_maps. eapply Forall_impl; [|exact IH]. intros [k x] Hx. cbn. auto.
  - destruct o as [x|]; [exact IH|intros ? ? ?; cbn; auto].
  - destruct o as [x|]; [exact IH|intros ? ? ?; cbn; rewrite HC; auto].
  - destruct o as [x|]; [exact IH|intros ? ? ?; cbn; rewrite HC; auto].
  - apply flat_raw.
  - destruct r as [[j|e]|]; [apply flat_raw|intros ? ? ?; cbn; auto|intros ? ? ?; cbn; rewrite HC; auto].
  - destruct r as [r|]; [apply flat_text|intros ? ? ?; cbn; rewrite HC; auto].
  - apply flat_to_string, IH.
Qed.
End Flat.
Lemma enc_flat c1 c2 v : flat_cfg c1 c2 -> flat (enc c1 v) (enc c2 v).
Proof. intros (A & B & C & D & E & F). apply enc_flat_; assumption. Qed.
