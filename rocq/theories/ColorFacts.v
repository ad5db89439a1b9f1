(** Instances of the simulation: colors do not change the outcome; removing
    color codes gives the uncolored output; what ESC bytes come from; removing
    layout gives the compact output. *)
From Coq Require Import Permutation Sorted.
From Verif Require Import Bytes Utf8Model ParseModel StringModel IntModel TokenModel EncModel SpecJson SpecString SpecTokens
  SpecRender SpecColor ParseFacts Utf8Facts StringFacts IntFacts TokenFacts EncFacts RawFacts EncMain EncRel LeafRel TextFacts.

Lemma to_string_nil c f d : encode_to_string c f [] d =
  match f [] d with ER o d' None => ER (json_string (e_html c) o) d' None | r => r end.
Proof.
  unfold encode_to_string. cbn [length]. destruct (f [] d) as [o d' [e|]|]; [reflexivity| |reflexivity].
  cbn [skipn firstn app]. rewrite do_encode_string_app, skipn_len_app. reflexivity.
Qed.

(** * Same outcome whatever the colors *)
Lemma outcome_rel c1 c2 v : e_html c1 = e_html c2 -> e_sort c1 = e_sort c2 -> e_trust c1 = e_trust c2 -> e_ind c1 = e_ind c2 ->
  leaves any wf any any any any True v -> frel (fun _ _ => True) eq (enc c1 v) (enc c2 v).
Proof.
  intros F1 F2 F3 F4.
  assert (Q : forall f1 f2, frel (fun _ _ => True) eq f1 f2 -> frel (fun _ _ => True) eq (encode_to_string c1 f1) (encode_to_string c2 f2)).
  { intros f1 f2 H d1 d2 <-. rewrite !to_string_nil. specialize (H d1 d1 eq_refl).
    destruct (f1 [] d1) as [o1 e1 [x1|]|], (f2 [] d1) as [o2 e2 [x2|]|]; cbn in *; try tauto; destruct H as (_ & _ & ?); discriminate. }
  apply leaf_rel with (okx := any); unfold any; auto.
  - intros ? ? <-. unfold in_push. rewrite F4. reflexivity.
  - intros ? ? <-. unfold in_pop. rewrite F4. reflexivity.
  - intros _ z. apply Q. intros d1 d2 <-. cbn. auto.
  - intros x _ _ [_ H]. apply Q, H.
Qed.

(** * Tokens *)
Lemma number_chars v : number_lit v -> Forall (fun c => 48 <= c <= 57 \/ c = 43 \/ c = 45 \/ c = 46 \/ c = 69 \/ c = 101) v.
Proof.
  assert (D : forall ds, Forall digit ds -> Forall (fun c => 48 <= c <= 57 \/ c = 43 \/ c = 45 \/ c = 46 \/ c = 69 \/ c = 101) ds)
    by (intros ds H; eapply Forall_impl; [|exact H]; unfold digit; cbv beta; intros; lia).
  intros [sg i f e Hs Hi Hf He]. apply Forall_app. split; [destruct Hs as [->| ->]; repeat constructor; lia|].
  apply Forall_app. split; [apply D, int_lit_digits, Hi|]. apply Forall_app. split.
  - destruct Hf as [|ds [_ H]]; constructor; [lia|auto].
  - destruct He as [|x s ds Hx Hs' [_ H]]; [constructor|]. constructor; [lia|]. apply Forall_app. split; [|auto].
    destruct Hs' as [->|[->| ->]]; repeat constructor; lia.
Qed.
Lemma lit_chars v : lit_token v -> Forall (fun c => 0x20 <= c < 256) v.
Proof.
  intros [H|[H|[->|[->| ->]]]]; try (vm_compute; repeat (apply Forall_cons; [split; [intro; discriminate|reflexivity]|]); apply Forall_nil).
  - destruct H as (b & -> & H). constructor; [lia|]. apply Forall_app. split; [|repeat constructor; lia].
    induction H as [|c s H1 H2 H3 H IH|e s H1 H IH|h1 h2 h3 h4 s H1 H2 H3 H4 H IH]; [constructor| | |].
    + constructor; assumption.
    + constructor; [lia|]. constructor; [cbn in H1; lia|assumption].
    + unfold hex_digit in *. repeat (constructor; [lia|]). assumption.
  - apply number_chars in H. eapply Forall_impl; [|exact H]. cbv beta. intros; lia.
Qed.
Lemma lit_okc v : lit_token v -> clear_text v.
Proof. intros H. apply lit_chars in H. split; (eapply Forall_impl; [|exact H]); unfold is_byte; cbv beta; intros; lia. Qed.
Lemma delim_okc v : is_delim v = true -> clear_text [v].
Proof. unfold is_delim. rewrite !orb_true_iff, !Z.eqb_eq. intros H. split; repeat constructor; unfold is_byte; lia. Qed.
Lemma lit_str html s : wf s -> lit_token (json_string html s).
Proof. intros H. apply lit_string, json_string_lit, H. Qed.
Lemma quote_okc s : clear_text s -> clear_text (quote s).
Proof. intros [W H]. unfold quote. split; constructor; unfold is_byte; try lia; apply Forall_app; (split; [assumption|repeat constructor; unfold is_byte; lia]). Qed.

(** * Removing color codes *)
Lemma strip_ansi x s : ansi x -> strip (x ++ s) = strip s.
Proof.
  unfold strip. induction 1 as [|p x Hp H IH]; [reflexivity|]. cbn [app strip_from]. change (27 =? 27) with true. cbv iota.
  rewrite <- app_assoc. cbn [app]. induction Hp as [|c p Hc Hp IHp].
  - cbn [app strip_from]. change (109 =? 109) with true. cbn [negb]. exact IH.
  - cbn [app strip_from]. destruct (c =? 109) eqn:E; [zb; lia|]. cbn [negb]. exact IHp.
Qed.
Lemma strip_text x s : esc_free x -> strip (x ++ s) = x ++ strip s.
Proof.
  unfold strip. induction 1 as [|c x Hc H IH]; [reflexivity|]. cbn [app strip_from]. destruct (c =? 27) eqn:E; [zb; lia|]. f_equal. exact IH.
Qed.
Lemma ansi_reset_ok : ansi reset.
Proof. apply (ansi_seq [91; 48] []); [repeat constructor; lia|constructor]. Qed.

Lemma concat_repeat {A} (P : A -> Prop) n s : Forall P s -> Forall P (concat (repeat s n)).
Proof. intros H. induction n; cbn; [constructor|apply Forall_app; auto]. Qed.
Lemma margin_all (P : Z -> Prop) ind d : ind_all (Forall P) ind -> Forall P (margin ind d).
Proof.
  intros H. destruct ind as [i|]; [|constructor]. destruct H as [H1 H2].
  rewrite <- (in_indent_margin (Cfg false false false None (Some i) (fun _ _ _ => None))). cbn. destruct (i_disabled i); [constructor|].
  rewrite repeat_app_spec. cbn [app]. apply Forall_app. split; [exact H1|]. apply concat_repeat, H2.
Qed.
Lemma newline_all (P : Z -> Prop) ind : P 10 -> Forall P (newline ind).
Proof. intros H. unfold newline. destruct (active ind); repeat constructor; exact H. Qed.
Lemma space_all (P : Z -> Prop) ind : P 32 -> Forall P (space ind).
Proof. intros H. unfold space. destruct (active ind); repeat constructor; exact H. Qed.

Definition strips (a b : bytes) : Prop := forall s, strip (a ++ s) = b ++ strip s.
Lemma strip_rel c k v : e_clrs c = Some k -> Forall ansi (palette k) -> ind_all esc_free (e_ind c) ->
  leaves wf (raw_checked (e_trust c)) clear_text clear_text float_ok (fun _ => False) False v ->
  frel strips eq (enc c v) (enc (no_colors c) v).
Proof.
  intros C K I.
  assert (PA : forall clr t, isclr clr -> esc_free t -> strips (paint (e_clrs c) clr t) (paint (e_clrs (no_colors c)) clr t)).
  { intros clr t Hc Ht s. rewrite C. cbn [no_colors e_clrs paint]. rewrite <- !app_assoc.
    assert (A : ansi (clr k)). { destruct (Hc k) as [<-|H]; [apply ansi_reset_ok|]. rewrite Forall_forall in K. auto. }
    rewrite strip_ansi, strip_text, strip_ansi by (assumption || apply ansi_reset_ok). reflexivity. }
  apply leaf_rel with (okx := clear_text); auto.
  - intros s. reflexivity.
  - intros a1 a2 b1 b2 H1 H2 s. rewrite <- app_assoc, H1, H2, app_assoc. reflexivity.
  - intros ? ? <-. reflexivity.
  - intros ? ? <-. reflexivity.
  - intros s. apply strip_text, newline_all. lia.
  - intros s. apply strip_text, space_all. lia.
  - intros ? d <- s. apply strip_text, margin_all, I.
  - intros clr t Hc [_ Ht]. apply PA; assumption.
  - apply delim_okc.
  - apply lit_okc. unfold lit_token; tauto.
  - apply lit_okc. unfold lit_token; tauto.
  - apply lit_okc. unfold lit_token; tauto.
  - intros z. apply lit_okc, lit_number, itoa_number.
  - intros f t F E. eapply lit_okc, lit_number, float_number; eassumption.
  - intros clr Hc. apply PA; [assumption|constructor].
  - intros s W. apply lit_okc, lit_str, W.
  - intros s W. apply lit_okc, lit_string, b64_string, W.
  - apply quote_okc.
  - intros w L. apply lit_okc, raw_token, L.
  - rewrite !null_paint. intros s. rewrite C. cbn [no_colors e_clrs paint]. rewrite <- !app_assoc.
    assert (A : forall f : colors -> bytes, In (f k) (palette k) -> ansi (f k)) by (rewrite Forall_forall in K; auto).
    assert (N : esc_free lit_null) by (apply lit_okc; unfold lit_token; tauto).
    rewrite !strip_ansi, strip_text, !strip_ansi by (apply ansi_reset_ok || exact N || (apply A; cbn; tauto)). reflexivity.
  - intros [].
  - intros x [].
  - intros s [W R]. split; [exact W|]. intros T. left. destruct R as [R|R]; [congruence|exact R].
Qed.

(** * What the output is made of *)
Definition out_pieces (c : cfg) (s : bytes) : Prop := match e_clrs c with None => esc_free s | Some k => pieces k s end.
Lemma pieces_app k a b : pieces k a -> pieces k b -> pieces k (a ++ b).
Proof.
  intros H Hb. induction H as [|x s Hx H IH|x s Hx H IH]; [exact Hb| |]; rewrite <- app_assoc.
  - apply pc_color; assumption.
  - apply pc_text; assumption.
Qed.
Lemma pieces_text k x : esc_free x -> pieces k x.
Proof. intros H. rewrite <- (app_nil_r x). apply pc_text; [exact H|constructor]. Qed.
Lemma out_text c x : esc_free x -> out_pieces c x.
Proof. intros H. unfold out_pieces. destruct (e_clrs c); [apply pieces_text, H|exact H]. Qed.
Lemma wf_app_iff a b : wf (a ++ b) <-> wf a /\ wf b.
Proof. apply Forall_app. Qed.
Lemma pieces_rel c v : match e_clrs c with None => True | Some k => Forall wf (palette k) end ->
  ind_all clear_text (e_ind c) ->
  leaves wf (raw_checked (e_trust c)) clear_text clear_text float_ok any True v ->
  frel (fun a _ => wf a /\ out_pieces c a) eq (enc c v) (enc c v).
Proof.
  intros K I.
  assert (PP : forall clr t, isclr clr -> wf t /\ out_pieces c t -> wf (paint (e_clrs c) clr t) /\ out_pieces c (paint (e_clrs c) clr t)).
  { intros clr t Hc [W Ht]. unfold out_pieces, paint in *. destruct (e_clrs c) as [k|]; [|auto].
    assert (Wr : wf reset) by (repeat constructor; unfold is_byte; lia). split.
    - rewrite !wf_app_iff. split; [|auto]. destruct (Hc k) as [<-|H]; [exact Wr|]. rewrite Forall_forall in K. auto.
    - apply pc_color; [apply Hc|]. apply pieces_app; [exact Ht|]. rewrite <- (app_nil_r reset). apply pc_color; [left; reflexivity|constructor]. }
  assert (OK : forall t, clear_text t -> wf t /\ out_pieces c t) by (intros t [W Ht]; split; [exact W|apply out_text, Ht]).
  assert (Q : forall f, frel (fun a _ => wf a /\ out_pieces c a) eq f f -> frel (fun a _ => wf a /\ out_pieces c a) eq (encode_to_string c f) (encode_to_string c f)).
  { intros f H d1 d2 <-. rewrite !to_string_nil. specialize (H d1 d1 eq_refl).
    destruct (f [] d1) as [o1 e1 [x1|]|]; cbn in *; try tauto. destruct H as ((W & H) & _ & _). split; [|auto]. apply OK, lit_okc, lit_str, W. }
  apply leaf_rel with (okx := clear_text); auto.
  - apply OK. split; constructor.
  - intros a1 _ b1 _ [W1 H1] [W2 H2]. split; [apply wf_app_iff; auto|]. unfold out_pieces in *. destruct (e_clrs c); [apply pieces_app; assumption|apply Forall_app; auto].
  - intros ? ? <-. reflexivity.
  - intros ? ? <-. reflexivity.
  - apply OK. split; apply newline_all; unfold is_byte; lia.
  - apply OK. split; apply space_all; unfold is_byte; lia.
  - intros d1 d2 <-. apply OK. split; apply margin_all; (destruct (e_ind c) as [i|]; [|exact Logic.I]); destruct I as [[A1 A2] [A3 A4]]; cbn; auto.
  - apply delim_okc.
  - apply lit_okc. unfold lit_token; tauto.
  - apply lit_okc. unfold lit_token; tauto.
  - apply lit_okc. unfold lit_token; tauto.
  - intros z. apply lit_okc, lit_number, itoa_number.
  - intros f t F E. eapply lit_okc, lit_number, float_number; eassumption.
  - intros clr Hc. apply PP; [assumption|]. apply OK. split; constructor.
  - intros s W. apply lit_okc, lit_str, W.
  - intros s W. apply lit_okc, lit_string, b64_string, W.
  - apply quote_okc.
  - intros w L. apply lit_okc, raw_token, L.
  - apply PP; [intros ?; cbn; tauto|]. rewrite null_paint. apply PP; [intros ?; cbn; tauto|]. apply OK, lit_okc. unfold lit_token; tauto.
  - intros _ z. apply Q. intros d1 d2 <-. cbn. split; [|auto]. rewrite int_paint. apply PP; [intros ?; cbn; tauto|]. apply OK, lit_okc, lit_number, itoa_number.
  - intros x _ _ [_ H]. apply Q, H.
  - intros s [W R]. split; [exact W|]. intros T. left. destruct R as [R|R]; [congruence|exact R].
Qed.

(** * Removing layout *)
Definition squeezes (a b : bytes) : Prop := forall s, squeeze (a ++ s) = b ++ squeeze s.
Lemma squeeze_ws x s : ws x -> squeeze (x ++ s) = squeeze s.
Proof.
  unfold squeeze. induction 1 as [|c x Hc H IH]; [reflexivity|]. cbn [app squeeze_from].
  assert ((c =? 32) || (c =? 9) || (c =? 10) || (c =? 13) = true) as -> by (rewrite !orb_true_iff, !Z.eqb_eq; lia). exact IH.
Qed.
Lemma squeeze_plain x s : Forall (fun c => c <> 32 /\ c <> 9 /\ c <> 10 /\ c <> 13 /\ c <> 34) x -> squeeze (x ++ s) = x ++ squeeze s.
Proof.
  unfold squeeze. induction 1 as [|c x Hc H IH]; [reflexivity|]. cbn [app squeeze_from].
  assert ((c =? 32) || (c =? 9) || (c =? 10) || (c =? 13) = false) as -> by (rewrite !orb_false_iff, !Z.eqb_neq; lia).
  destruct (c =? 34) eqn:E; [zb; lia|]. f_equal. exact IH.
Qed.
Lemma squeeze_body b : str_body b -> forall s, squeeze_from true false (b ++ s) = b ++ squeeze_from true false s.
Proof.
  assert (C : forall c s, c <> 34 -> c <> 92 -> squeeze_from true false (c :: s) = c :: squeeze_from true false s).
  { intros c s H1 H2. cbn [squeeze_from]. destruct (c =? 92) eqn:?; [zb; lia|]. destruct (c =? 34) eqn:?; [zb; lia|]. reflexivity. }
  induction 1 as [|c b H1 H2 H3 H IH|e b H1 H IH|h1 h2 h3 h4 b H1 H2 H3 H4 H IH]; intros s; [reflexivity| | |]; cbn [app].
  - rewrite C, IH by assumption. reflexivity.
  - cbn [squeeze_from]. change (92 =? 92) with true. cbv iota. rewrite IH. reflexivity.
  - unfold hex_digit in *. cbn [squeeze_from]. change (92 =? 92) with true. cbv iota.
    change (92 :: 117 :: squeeze_from true false (h1 :: h2 :: h3 :: h4 :: b ++ s) = 92 :: 117 :: h1 :: h2 :: h3 :: h4 :: b ++ squeeze_from true false s).
    rewrite !C, IH by lia. reflexivity.
Qed.
Lemma squeeze_lit v : lit_token v -> squeezes v v.
Proof.
  intros [H|[H|H]] s.
  - destruct H as (b & -> & H). unfold squeeze. cbn [app squeeze_from]. change ((34 =? 32) || (34 =? 9) || (34 =? 10) || (34 =? 13)) with false. cbv iota.
    change (34 =? 34) with true. rewrite <- !app_assoc, squeeze_body by exact H. reflexivity.
  - apply squeeze_plain. apply number_chars in H. eapply Forall_impl; [|exact H]. cbv beta. intros; lia.
  - apply squeeze_plain. destruct H as [->|[->| ->]]; vm_compute; repeat (apply Forall_cons; [repeat split; intro; discriminate|]); apply Forall_nil.
Qed.
Fixpoint flat_ok (v : gval) : Prop :=
  match v with GFloat f => float_ok f | GNumber n => num_clean n | GString s => wf s | GPtr (Some v) => flat_ok v | _ => True end.
Lemma flat_leaves s t q i v : flat v -> leaves wf s num_clean t float_ok q i v -> flat_ok v.
Proof. induction v as [ |b|z|f|n|n|n|n|l IH| |l IH| |m IH| |m IH|m|fs IH|o IH|o IH|o IH|r|r|r|v IH| ] using gval_rect'; cbn; auto; try tauto. destruct o; auto. Qed.
Lemma flat_const c v : e_clrs c = None -> flat v -> exists o e, (forall d, enc c v [] d = ER o d e) /\ (forall d, enc (no_indent c) v [] d = ER o d e) /\ (e = None -> flat_ok v -> wf o) /\ (e = None \/ o = []).
Proof.
  intros C. assert (C' : e_clrs (no_indent c) = None) by exact C.
  induction v as [ |b|z|f|n|n|n|n|l IH| |l IH| |m IH| |m IH|m|fs IH|o IH|o IH|o IH|r|r|r|v IH| ] using gval_rect'; cbn [flat]; intros F; try tauto; cbn [enc].
  - exists (if b then lit_true else lit_false), None. rewrite C, C'. split; [reflexivity|]. split; [reflexivity|]. split; [|auto]. intros _ _. destruct b; apply lit_okc; unfold lit_token; tauto.
  - exists (itoa z), None. rewrite C, C'. split; [reflexivity|]. split; [reflexivity|]. split; [|auto]. intros _ _. apply lit_okc, lit_number, itoa_number.
  - exists (fst (encode_float [] f)), (snd (encode_float [] f)). unfold encode_float_c. rewrite C, C'. destruct (encode_float [] f) as [t e] eqn:E. split; [reflexivity|]. split; [reflexivity|].
    cbn [fst snd flat_ok]. split; [intros -> Hf; eapply lit_okc, lit_number, float_number; eassumption|].
    destruct f; cbn in E; try (left; congruence); try (right; congruence). destruct (_ || _) in E; left; congruence.
  - unfold encode_number. rewrite C, C'. destruct (parse_number _) as [w r|r e] eqn:E.
    + eexists _, None. split; [reflexivity|]. split; [reflexivity|]. cbn [flat_ok app]. split; [|auto]. intros _ N. destruct n as [|x n]; [repeat constructor; unfold is_byte; lia|].
      destruct (num_clean_ok _ _ _ N E) as [?|L]; [discriminate|]. apply lit_okc, lit_number, L.
    + exists [], (Some e). split; [reflexivity|]. split; [reflexivity|]. split; [discriminate|auto].
  - eexists _, None. unfold encode_string, encode_str. rewrite C, C'. split; [reflexivity|]. split; [reflexivity|]. split; [|auto]. intros _ W. apply lit_okc, lit_str, W.
  - destruct o as [x|]; [apply IH, F|]. exists lit_null, None. rewrite C, C'. split; [reflexivity|]. split; [reflexivity|]. split; [|auto]. intros _ _. apply lit_okc. unfold lit_token; tauto.
Qed.
Lemma squeeze_rel c v : e_clrs c = None -> ind_all ws (e_ind c) ->
  leaves wf (raw_checked (e_trust c)) num_clean (Forall time_char) float_ok flat True v ->
  frel squeezes (fun _ _ => True) (enc c v) (enc (no_indent c) v).
Proof.
  intros C I.
  assert (IA : ind_all (Forall (fun c => c = 32 \/ c = 9 \/ c = 10 \/ c = 13)) (e_ind c)) by exact I.
  assert (FL : forall v, flat v -> exists o e, (forall d, enc c v [] d = ER o d e /\ enc (no_indent c) v [] d = ER o d e) /\ (e = None -> leaves wf (raw_checked (e_trust c)) num_clean (Forall time_char) float_ok flat True v -> wf o) /\ (e = None \/ o = [])).
  { intros x F. destruct (flat_const c x C F) as (o & e & H1 & H2 & H3 & H4). exists o, e. split; [auto|]. split; [|exact H4]. intros He L. apply H3; [exact He|]. eapply flat_leaves; eassumption. }
  apply leaf_rel with (okx := fun t => squeezes t t); auto.
  - intros s. reflexivity.
  - intros a1 a2 b1 b2 H1 H2 s. rewrite <- app_assoc, H1, H2, app_assoc. reflexivity.
  - intros s. apply squeeze_ws. apply (newline_all (fun c => c = 32 \/ c = 9 \/ c = 10 \/ c = 13)). lia.
  - intros s. apply squeeze_ws. apply (space_all (fun c => c = 32 \/ c = 9 \/ c = 10 \/ c = 13)). lia.
  - intros d1 d2 _ s. apply squeeze_ws, margin_all, IA.
  - intros clr t _ Ht. cbn [no_indent e_clrs]. rewrite C. exact Ht.
  - intros w Hw s. apply squeeze_plain. constructor; [|constructor]. unfold is_delim in Hw. rewrite !orb_true_iff, !Z.eqb_eq in Hw. lia.
  - apply squeeze_lit. unfold lit_token; tauto.
  - apply squeeze_lit. unfold lit_token; tauto.
  - apply squeeze_lit. unfold lit_token; tauto.
  - intros z. apply squeeze_lit, lit_number, itoa_number.
  - intros f t F E. eapply squeeze_lit, lit_number, float_number; eassumption.
  - intros clr _. cbn [no_indent e_clrs]. rewrite C. intros s. reflexivity.
  - intros s w r N E. destruct (num_clean_ok _ _ _ N E) as [->|L]; [intros ?; reflexivity|apply squeeze_lit, lit_number, L].
  - intros s W. apply squeeze_lit, lit_str, W.
  - intros s W. apply squeeze_lit, lit_string, b64_string, W.
  - intros s H. apply squeeze_lit, lit_string, time_string, H.
  - intros w L. apply squeeze_lit, raw_token, L.
  - cbn [no_indent e_clrs]. rewrite C. cbn. apply (squeeze_lit lit_null). unfold lit_token; tauto.
  - intros _ z d1 d2 _. cbn [encode_mkey]. rewrite !to_string_nil. cbn [no_indent e_clrs e_html]. rewrite C. cbn. split; [|auto].
    apply squeeze_lit, lit_str. apply lit_okc, lit_number, itoa_number.
  - intros x F Lx _ d1 d2 _. cbn [enc]. rewrite !to_string_nil. destruct (FL x F) as (o & e & E & W & N).
    destruct (E d1) as [-> _], (E d2) as [_ ->]. destruct e; cbn; [destruct N as [N| ->]; [discriminate|]; split; [intros ?; reflexivity|auto]|]. split; [|auto]. apply squeeze_lit, lit_str. auto.
  - intros s [W R]. split; [exact W|]. intros T. left. destruct R as [R|R]; [congruence|exact R].
Qed.
