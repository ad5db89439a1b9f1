(** Facts for C79 to C81: the bytes of outputs. *)
From Verif Require Import Bytes Utf8Model ParseModel StringModel IntModel TokenModel EncModel EncoderModel SpecJson SpecString SpecTokens SpecRender SpecColor SpecRaw SpecOut
  ParseFacts Utf8Facts StringFacts IntFacts TokenFacts EncFacts RawFacts EncMain EncRel LeafRel ColorFacts TextFacts RawText.

(** Conditions on the bytes of a literal. *)
Ltac conc := unfold no_control, mild_text; match goal with |- Forall _ ?x => let y := eval vm_compute in x in change x with y end; repeat (apply Forall_cons; [lia|]); apply Forall_nil.

(** * One line *)
Lemma compact_active i : compact i -> active i = None.
Proof. destruct i as [i|]; [|reflexivity]. cbn. intros ->. reflexivity. Qed.
Lemma body_control b : str_body b -> no_control b.
Proof.
  induction 1 as [|c s B1 B2 B3 SB IH|e s I SB IH|h1 h2 h3 h4 s H1 H2 H3 H4 SB IH].
  - constructor.
  - constructor; [lia|exact IH].
  - cbn [In] in I. do 2 (constructor; [lia|]). exact IH.
  - unfold hex_digit in *. do 6 (constructor; [lia|]). exact IH.
Qed.
Lemma lit_control v : lit_token v -> no_control v.
Proof.
  intros [H|[H|[->|[->| ->]]]].
  - destruct H as (b & -> & H). apply Forall_cons; [lia|]. apply Forall_app. split; [apply body_control, H|apply Forall_cons; [lia|constructor]].
  - eapply Forall_impl; [|apply number_chars, H]. cbv beta. intros; lia.
  - conc.
  - conc.
  - conc.
Qed.
(** [B]: the bytes allowed; all but control characters are. *)
Lemma line_rel (B : Z -> Prop) trust c v : (forall x, 0x20 <= x -> B x) -> (e_trust c = true -> trust = true) -> compact (e_ind c) ->
  match e_clrs c with None => True | Some k => B 27 /\ Forall (fun x => wf x /\ Forall B x) (palette k) end ->
  line_data trust v -> frel (fun a _ => wf a /\ Forall B a) eq (enc c v) (enc c v).
Proof.
  intros HB HT HI K. unfold line_data. set (ok := fun t : bytes => wf t /\ no_control t).
  assert (OK : forall t, ok t -> wf t /\ Forall B t) by (intros t [W Ht]; split; [exact W|eapply Forall_impl; [|exact Ht]; cbv beta; auto]).
  assert (Wr : wf reset) by (repeat constructor; unfold is_byte; lia).
  assert (PP : forall clr t, isclr clr -> wf t /\ Forall B t -> wf (paint (e_clrs c) clr t) /\ Forall B (paint (e_clrs c) clr t)).
  { intros clr t Hc [W Ht]. unfold paint. destruct (e_clrs c) as [k|]; [|auto]. destruct K as [K27 K].
    assert (Br : Forall B reset) by (apply Forall_cons; [exact K27|]; repeat (apply Forall_cons; [apply HB; lia|]); constructor).
    assert (X : wf (clr k) /\ Forall B (clr k)) by (destruct (Hc k) as [<-|H]; [auto|]; rewrite Forall_forall in K; auto).
    rewrite !wf_app_iff, !Forall_app. tauto. }
  assert (LT : forall x, lit_token x -> ok x) by (intros x L; split; [apply lit_okc, L|apply lit_control, L]).
  assert (Q : forall f, frel (fun a _ => wf a /\ Forall B a) eq f f -> frel (fun a _ => wf a /\ Forall B a) eq (encode_to_string c f) (encode_to_string c f)).
  { intros f H d1 d2 <-. rewrite !to_string_nil. specialize (H d1 d1 eq_refl).
    destruct (f [] d1) as [o1 e1 [x1|]|]; cbn in *; try tauto. destruct H as ((W & H) & _ & _). split; [|auto]. apply OK, LT, lit_str, W. }
  assert (N0 : wf [] /\ Forall B []) by (split; constructor).
  apply leaf_rel with (okx := ok); auto.
  - intros a1 _ b1 _ [W1 H1] [W2 H2]. rewrite wf_app_iff, Forall_app. auto.
  - intros ? ? <-. reflexivity.
  - intros ? ? <-. reflexivity.
  - unfold newline. rewrite compact_active by exact HI. exact N0.
  - unfold space. rewrite compact_active by exact HI. exact N0.
  - intros d1 d2 <-. unfold margin. rewrite compact_active by exact HI. exact N0.
  - intros x Hx. split; [apply delim_okc, Hx|]. unfold is_delim in Hx. rewrite !orb_true_iff, !Z.eqb_eq in Hx. apply Forall_cons; [lia|constructor].
  - apply LT. unfold lit_token; tauto.
  - apply LT. unfold lit_token; tauto.
  - apply LT. unfold lit_token; tauto.
  - intros z. apply LT, lit_number, itoa_number.
  - intros f t F E. eapply LT, lit_number, float_number; eassumption.
  - intros s W. apply LT, lit_str, W.
  - intros s W. apply LT, lit_string, b64_string, W.
  - intros s [W S]. split; unfold quote; (apply Forall_cons; [unfold is_byte; lia|]); apply Forall_app; (split; [assumption|apply Forall_cons; [unfold is_byte; lia|constructor]]).
  - intros w L. apply LT, raw_token, L.
  - apply PP; [intros ?; cbn; tauto|]. rewrite null_paint. apply PP; [intros ?; cbn; tauto|]. apply OK, LT. unfold lit_token; tauto.
  - intros _ z. apply Q. intros d1 d2 <-. cbn. split; [|auto]. rewrite int_paint. apply PP; [intros ?; cbn; tauto|]. apply OK, LT, lit_number, itoa_number.
  - intros x _ _ [_ H]. apply Q, H.
  - intros s [W R]. split; [exact W|]. intros T. left. destruct R as [R|R]; [specialize (HT T); congruence|exact R].
Qed.

(** * UTF-8 *)
Lemma v8_app a b : valid_utf8 a -> valid_utf8 b -> valid_utf8 (a ++ b).
Proof. intros [l A] [m B]. exists (l ++ m). apply utf8_app; assumption. Qed.
Lemma v8_ascii s : Forall (fun c => 0 <= c < 0x80) s -> valid_utf8 s.
Proof. intros H. exists s. apply utf8_ascii, H. Qed.
Lemma v8_wf s : valid_utf8 s -> wf s.
Proof. intros [l H]. eapply utf8_wf, H. Qed.
(** UTF-8 text can be cut before an ASCII character. *)
Lemma v8_cut l s : utf8 l s -> forall a c b, 0 <= c < 0x80 -> s = a ++ c :: b -> valid_utf8 a /\ valid_utf8 b.
Proof.
  induction 1 as [|r l e s U H IH]; intros a c b Hc E; [destruct a; discriminate|].
  pose proof (utf8_seq_tail _ _ U) as T.
  destruct (utf8_seq_hd _ _ U) as (c0 & t & -> & HD). cbn [tl] in T.
  assert (X : (exists a', a = (c0 :: t) ++ a' /\ s = a' ++ c :: b) \/ (exists t', c0 :: t = a ++ c :: t')).
  { clear - E. revert a E. generalize (c0 :: t) as e. induction e as [|x e IHe]; intros a E; [left; exists a; auto|].
    destruct a as [|y a]; cbn [app] in E; injection E as -> E; [right; exists e; reflexivity|].
    destruct (IHe a E) as [(a' & -> & ->)|(t' & ->)]; [left; exists a'; auto|right; exists t'; reflexivity]. }
  destruct X as [(a' & -> & Es)|(t' & Et)].
  - destruct (IH a' c b Hc Es) as [V1 V2]. split; [|exact V2]. apply v8_app; [|exact V1]. exists [r]. rewrite <- (app_nil_r (c0 :: t)). apply u8_cons; [exact U|constructor].
  - destruct a as [|y a]; cbn [app] in Et; injection Et as -> Et.
    + subst t'. assert (t = []) as ->. { destruct HD as [(_ & _ & D)|(_ & D)]; [exact D|lia]. }
      cbn [app] in E. injection E as E. subst b. split; [apply v8_ascii; constructor|exists l; exact H].
    + subst t. apply Forall_app in T. destruct T as [_ T]. apply Forall_inv in T. lia.
Qed.
Lemma v8_lit s v : valid_utf8 s -> lit_token v -> (exists x y, s = x ++ v ++ y) -> valid_utf8 v.
Proof.
  intros [l H] L (x & y & ->). destruct L as [(b & -> & _)|[L|L]].
  - destruct (v8_cut _ _ H x 34 ((b ++ [34]) ++ y)) as [_ [l2 H2]]; [lia|reflexivity|].
    destruct (v8_cut _ _ H2 b 34 y) as [H3 _]; [lia|rewrite <- app_assoc; reflexivity|].
    apply (v8_app [34]); [|apply v8_app; [exact H3|]]; apply v8_ascii; apply Forall_cons; try lia; constructor.
  - apply v8_ascii. eapply Forall_impl; [|apply number_chars, L]. cbv beta. intros; lia.
  - apply v8_ascii. destruct L as [->|[->| ->]]; conc.
Qed.
Lemma u00_ascii c : is_html c = true -> Forall (fun x => 0 <= x < 0x80) (u00 c).
Proof.
  intros H. unfold is_html in H. rewrite !orb_true_iff, !Z.eqb_eq in H. assert (c = 60 \/ c = 62 \/ c = 38) as [->|[->| ->]] by tauto;
    conc.
Qed.
(** Escaping keeps UTF-8: the characters replaced are whole ones. *)
Lemma html_seq r e s : utf8_seq r e -> 0x80 <= r -> r <> 0x2028 -> r <> 0x2029 -> html_escape (e ++ s) = e ++ html_escape s.
Proof.
  intros U Hr N1 N2.
  assert (PL : forall x t, 0x80 <= x -> x <> 0xE2 -> html_escape (x :: t) = x :: html_escape t).
  { intros x t H1 H2. apply html_escape_plain; [rewrite is_html_false; lia|exact H2]. }
  inversion U as [r0 B|a b B Hb|a b c B Hb Hc S|a b c d B Hb Hc Hd]; subst; cbn [app]; [lia| | |].
  - rewrite !PL by lia. reflexivity.
  - destruct (Z.eq_dec (0xE0 + a) 0xE2) as [Ea|Ea]; [|rewrite !PL by lia; reflexivity].
    assert (a = 2) by lia. subst a. rewrite html_escape_e2_other.
    + rewrite !PL by lia. reflexivity.
    + destruct (0x80 + b =? 0x80) eqn:X; [|reflexivity]. apply Z.eqb_eq in X. cbn [andb].
      destruct (0x80 + c =? 0xA8) eqn:Y1; [apply Z.eqb_eq in Y1; lia|]. destruct (0x80 + c =? 0xA9) eqn:Y2; [apply Z.eqb_eq in Y2; lia|]. reflexivity.
  - rewrite !PL by lia. reflexivity.
Qed.
Lemma v8_html l s : utf8 l s -> valid_utf8 (html_escape s).
Proof.
  induction 1 as [|r l e s U H [m IH]]; [exists []; constructor|].
  destruct (Z_lt_dec r 0x80) as [R|R].
  - destruct (utf8_seq_hd _ _ U) as (c0 & t & -> & [(_ & -> & ->)|(X & _)]); [|lia]. cbn [app].
    pose proof (utf8_seq_scalar _ _ U) as SC. unfold scalar in SC.
    destruct (is_html r) eqn:Eh.
    + rewrite html_escape_html by exact Eh. apply v8_app; [apply v8_ascii, u00_ascii, Eh|exists m; exact IH].
    + rewrite html_escape_plain by (assumption || lia). apply (v8_app [r]); [apply v8_ascii; apply Forall_cons; [lia|constructor]|exists m; exact IH].
  - destruct (Z.eq_dec r 0x2028) as [->|N1]; [|destruct (Z.eq_dec r 0x2029) as [->|N2]].
    + rewrite <- (encode_rune_seq _ _ U). change (html_escape (encode_rune 0x2028 ++ s)) with (bs "\u2028" ++ html_escape s).
      apply v8_app; [apply v8_ascii; conc|exists m; exact IH].
    + rewrite <- (encode_rune_seq _ _ U). change (html_escape (encode_rune 0x2029 ++ s)) with (bs "\u2029" ++ html_escape s).
      apply v8_app; [apply v8_ascii; conc|exists m; exact IH].
    + rewrite (html_seq r) by (assumption || lia). apply v8_app; [|exists m; exact IH]. exists [r]. rewrite <- (app_nil_r e). apply u8_cons; [exact U|constructor].
Qed.
Lemma rv_string_lit w : lit_token w -> rv_string w = true -> string_lit w.
Proof. intros L E. destruct L as [L|[L|[->|[->| ->]]]]; try discriminate; [exact L|]. destruct (number_head w L) as (x & t & -> & Hx). cbn in E. zb. lia. Qed.
Lemma json_string_v8 html s : wf s -> valid_utf8 (json_string html s).
Proof.
  intros W. destruct (do_encode_string_ok html s W) as (out & l & R & E). unfold json_string. rewrite (E []). cbn [app].
  destruct (enc_rel_utf8 _ _ _ _ R) as (lo & U & _). apply (v8_app [34]); [|apply v8_app; [exists lo; exact U|]]; apply v8_ascii; apply Forall_cons; try lia; constructor.
Qed.
Lemma utf8_rel c v : match e_clrs c with None => True | Some k => Forall valid_utf8 (palette k) end -> ind_all valid_utf8 (e_ind c) ->
  leaves wf (raw_utf8 (e_trust c)) valid_utf8 valid_utf8 float_ok any True v -> frel (fun a _ => valid_utf8 a) eq (enc c v) (enc c v).
Proof.
  intros K I.
  assert (Vr : valid_utf8 reset) by (apply v8_ascii; conc).
  assert (V0 : valid_utf8 []) by (exists []; constructor).
  assert (V1 : forall x, 0 <= x < 0x80 -> valid_utf8 [x]) by (intros x B; apply v8_ascii; apply Forall_cons; [exact B|constructor]).
  assert (PP : forall clr t, isclr clr -> valid_utf8 t -> valid_utf8 (paint (e_clrs c) clr t)).
  { intros clr t Hc Ht. unfold paint. destruct (e_clrs c) as [k|]; [|exact Ht].
    apply v8_app; [|apply v8_app; assumption]. destruct (Hc k) as [<-|H]; [exact Vr|]. rewrite Forall_forall in K. auto. }
  assert (NT : forall x, number_lit x -> valid_utf8 x).
  { intros x L. apply v8_ascii. eapply Forall_impl; [|apply number_chars, L]. cbv beta. intros; lia. }
  assert (Q : forall f, frel (fun a _ => valid_utf8 a) eq f f -> frel (fun a _ => valid_utf8 a) eq (encode_to_string c f) (encode_to_string c f)).
  { intros f H d1 d2 <-. rewrite !to_string_nil. specialize (H d1 d1 eq_refl).
    destruct (f [] d1) as [o1 e1 [x1|]|]; cbn in *; try tauto. destruct H as (W & _ & _). split; [|auto]. apply json_string_v8, v8_wf, W. }
  assert (CR : forall n s, valid_utf8 s -> valid_utf8 (concat (repeat s n))) by (intros n s S; induction n; cbn; [exact V0|apply v8_app; assumption]).
  assert (VN : valid_utf8 lit_null) by (apply v8_ascii; conc).
  apply leaf_rel2 with (okx := fun a _ => valid_utf8 a); auto.
  - intros a1 _ b1 _. apply v8_app.
  - intros ? ? <-. reflexivity.
  - intros ? ? <-. reflexivity.
  - unfold newline. destruct (active (e_ind c)); [apply V1; lia|exact V0].
  - unfold space. destruct (active (e_ind c)); [apply V1; lia|exact V0].
  - intros d1 d2 <-. unfold margin, active, ind_all in *. destruct (e_ind c) as [i|]; [|exact V0]. destruct (i_disabled i); [exact V0|]. destruct I. apply v8_app; auto.
  - intros x Hx. unfold is_delim in Hx. rewrite !orb_true_iff, !Z.eqb_eq in Hx. apply V1. lia.
  - apply v8_ascii; conc.
  - apply v8_ascii; conc.
  - intros z. apply NT, itoa_number.
  - intros f t F E. eapply NT, float_number; eassumption.
  - intros s W. apply json_string_v8, W.
  - intros s W. apply (v8_app [34]); [apply V1; lia|apply v8_app; [|apply V1; lia]]. apply v8_ascii.
    eapply Forall_impl; [|apply (b64_bytes (length s)); auto]. unfold b64_byte. cbv beta. intros; lia.
  - intros s S. apply (v8_app [34]); [apply V1; lia|apply v8_app; [exact S|apply V1; lia]].
  - intros s x [_ S] L IX. pose proof (v8_lit s x S L IX) as [m X]. unfold raw_string. destruct (e_html c && rv_string x); [eapply v8_html, X|exists m; exact X].
  - apply PP; [intros ?; cbn; tauto|]. rewrite null_paint. apply PP; [intros ?; cbn; tauto|exact VN].
  - intros _ z. apply Q. intros d1 d2 <-. cbn. split; [|auto]. rewrite int_paint. apply PP; [intros ?; cbn; tauto|]. apply NT, itoa_number.
  - intros x _ _ [_ H]. apply Q, H.
  - intros s [[W R] _]. split; [exact W|]. intros T. left. destruct R as [R|R]; [congruence|exact R].
Qed.

(** * EscapeHTML *)
(** Escaping a text that begins with b begins with a. *)
Definition hesc (a b : bytes) : Prop := forall s, html_escape (b ++ s) = a ++ html_escape s.
Lemma hesc_app a1 a2 b1 b2 : hesc a1 a2 -> hesc b1 b2 -> hesc (a1 ++ b1) (a2 ++ b2).
Proof. intros A B s. rewrite <- !app_assoc, A, B. reflexivity. Qed.
Lemma hesc_mild s : mild_text s -> hesc s s.
Proof. intros M t. induction M as [|c s B M IH]; [reflexivity|]. cbn [app]. rewrite html_escape_plain, IH by (rewrite ?is_html_false; lia). reflexivity. Qed.
Ltac mild := unfold mild_text; repeat (apply Forall_cons; [lia|]); apply Forall_nil.
Lemma u00_mild c : 0 <= c < 0x20 \/ is_html c = true -> mild_text (u00 c).
Proof.
  assert (HC : forall n, 0 <= n < 16 -> 0 <= hex_char n < 0x80 /\ hex_char n <> 60 /\ hex_char n <> 62 /\ hex_char n <> 38).
  { intros n B. assert (C : n = 0 \/ n = 1 \/ n = 2 \/ n = 3 \/ n = 4 \/ n = 5 \/ n = 6 \/ n = 7 \/ n = 8 \/ n = 9 \/ n = 10 \/
      n = 11 \/ n = 12 \/ n = 13 \/ n = 14 \/ n = 15) by lia.
    repeat (destruct C as [->|C]; [vm_compute; intuition discriminate|]). subst. vm_compute; intuition discriminate. }
  intros H. assert (B : 0 <= c < 256). { destruct H as [H|H]; [lia|]. unfold is_html in H. rewrite !orb_true_iff, !Z.eqb_eq in H. lia. }
  unfold u00. cbn [app]. repeat (apply Forall_cons; [try lia; apply HC|]); try apply Forall_nil.
  - split; [apply Z.div_pos; lia|apply Z.div_lt_upper_bound; lia].
  - apply Z.mod_pos_bound. lia.
Qed.
Lemma string_loop_html n : forall s, wf s -> (length s <= n)%nat -> exists o1 o2, hesc o1 o2 /\
  (forall b pend, encode_string_loop n true b pend s = Some (b ++ pend ++ o1 ++ [34])) /\
  (forall b pend, encode_string_loop n false b pend s = Some (b ++ pend ++ o2 ++ [34])).
Proof.
  induction n as [|n IH]; intros s W L.
  - destruct s; [|cbn in L; lia]. exists [], []. split; [intros s; reflexivity|]. split; reflexivity.
  - destruct s as [|c s]; [exists [], []; split; [intros s; reflexivity|split; reflexivity]|].
    assert (W' := W). apply wf_cons in W'. destruct W' as [Wc Ws]. unfold is_byte in Wc.
    assert (Ls : (length s <= n)%nat) by (cbn in L; lia).
    assert (G : forall x1 x2 t, hesc x1 x2 -> wf t -> (length t <= n)%nat ->
      (forall b pend, encode_string_loop (S n) true b pend (c :: s) = encode_string_loop n true (b ++ pend ++ x1) [] t \/ encode_string_loop (S n) true b pend (c :: s) = encode_string_loop n true b (pend ++ x1) t) ->
      (forall b pend, encode_string_loop (S n) false b pend (c :: s) = encode_string_loop n false (b ++ pend ++ x2) [] t \/ encode_string_loop (S n) false b pend (c :: s) = encode_string_loop n false b (pend ++ x2) t) ->
      exists o1 o2, hesc o1 o2 /\ (forall b pend, encode_string_loop (S n) true b pend (c :: s) = Some (b ++ pend ++ o1 ++ [34])) /\
        (forall b pend, encode_string_loop (S n) false b pend (c :: s) = Some (b ++ pend ++ o2 ++ [34]))).
    { intros x1 x2 t HX Wt Lt E1 E2. destruct (IH t Wt Lt) as (o1 & o2 & HO & H1 & H2). exists (x1 ++ o1), (x2 ++ o2).
      split; [apply hesc_app; assumption|]. split; intros b pend.
      - destruct (E1 b pend) as [-> | ->]; rewrite H1; cbn [app]; rewrite <- !app_assoc; reflexivity.
      - destruct (E2 b pend) as [-> | ->]; rewrite H2; cbn [app]; rewrite <- !app_assoc; reflexivity. }
    assert (FC : forall h, fast_char h c = (0x20 <=? c) && (c <=? 0x7f) && negb (c =? 92) && negb (c =? 34) && (negb h || negb (is_html c))).
    { intros h. unfold fast_char. destruct (0x20 <=? c), (c <=? 0x7f), (c =? 92), (c =? 34), h, (is_html c); reflexivity. }
    destruct ((0x20 <=? c) && (c <=? 0x7f) && negb (c =? 92) && negb (c =? 34)) eqn:F.
    { destruct (is_html c) eqn:Eh.
      - apply (G (u00 c) [c] s); auto.
        + intros t. cbn [app]. rewrite html_escape_html by exact Eh. reflexivity.
        + intros b pend. left. cbn [encode_string_loop]. rewrite FC, Eh. cbn [negb orb]. rewrite andb_false_r.
          assert (H : c = 60 \/ c = 62 \/ c = 38) by (unfold is_html in Eh; rewrite !orb_true_iff, !Z.eqb_eq in Eh; tauto).
          destruct H as [->|[->| ->]]; reflexivity.
        + intros b pend. right. cbn [encode_string_loop]. rewrite FC. reflexivity.
      - rewrite !andb_true_iff, !negb_true_iff, !Z.leb_le, !Z.eqb_neq in F.
        apply (G [c] [c] s); auto.
        + apply hesc_mild. apply Forall_cons; [|apply Forall_nil]. rewrite is_html_false in Eh. lia.
        + intros b pend. right. cbn [encode_string_loop]. rewrite FC, Eh. replace (0x20 <=? c) with true by (symmetry; apply Z.leb_le; lia).
          replace (c <=? 0x7f) with true by (symmetry; apply Z.leb_le; lia). replace (c =? 92) with false by (symmetry; apply Z.eqb_neq; lia).
          replace (c =? 34) with false by (symmetry; apply Z.eqb_neq; lia). reflexivity.
        + intros b pend. right. cbn [encode_string_loop]. rewrite FC, Eh. replace (0x20 <=? c) with true by (symmetry; apply Z.leb_le; lia).
          replace (c <=? 0x7f) with true by (symmetry; apply Z.leb_le; lia). replace (c =? 92) with false by (symmetry; apply Z.eqb_neq; lia).
          replace (c =? 34) with false by (symmetry; apply Z.eqb_neq; lia). reflexivity. }
    assert (FC' : forall h, fast_char h c = false) by (intros h; rewrite FC; reflexivity).
    assert (Hun : forall h b pend, encode_string_loop (S n) h b pend (c :: s) =
      if (c =? 92) || (c =? 34) then encode_string_loop n h (b ++ pend ++ [92; c]) [] s
      else if c =? 10 then encode_string_loop n h (b ++ pend ++ [92; 110]) [] s
      else if c =? 13 then encode_string_loop n h (b ++ pend ++ [92; 114]) [] s
      else if c =? 9 then encode_string_loop n h (b ++ pend ++ [92; 116]) [] s
      else if is_html c then encode_string_loop n h (b ++ pend ++ u00 c) [] s
      else if c <? 0x20 then encode_string_loop n h (b ++ pend ++ u00 c) [] s
      else
        let '(r, size) := decode_rune (c :: s) in
        if (r =? runeError) && Nat.eqb size 1 then
          encode_string_loop n h (b ++ pend ++ ufffd) [] (skipn size (c :: s))
        else if (r =? 0x2028) || (r =? 0x2029) then
          encode_string_loop n h (b ++ pend ++ u202 r) [] (skipn size (c :: s))
        else encode_string_loop n h b (pend ++ firstn size (c :: s)) (skipn size (c :: s))).
    { intros h b pend. cbn [encode_string_loop]. rewrite FC'. reflexivity. }
    clear FC FC'.
    assert (One : forall x, hesc x x -> (forall h b pend, encode_string_loop (S n) h b pend (c :: s) = encode_string_loop n h (b ++ pend ++ x) [] s) ->
      exists o1 o2, hesc o1 o2 /\ (forall b pend, encode_string_loop (S n) true b pend (c :: s) = Some (b ++ pend ++ o1 ++ [34])) /\
        (forall b pend, encode_string_loop (S n) false b pend (c :: s) = Some (b ++ pend ++ o2 ++ [34]))).
    { intros x HX E. apply (G x x s); auto. }
    destruct ((c =? 92) || (c =? 34)) eqn:E1.
    { apply (One [92; c]); [|exact Hun]. apply hesc_mild. rewrite orb_true_iff, !Z.eqb_eq in E1. mild. }
    destruct (c =? 10); [apply (One [92; 110]); [apply hesc_mild; mild|exact Hun]|].
    destruct (c =? 13); [apply (One [92; 114]); [apply hesc_mild; mild|exact Hun]|].
    destruct (c =? 9); [apply (One [92; 116]); [apply hesc_mild; mild|exact Hun]|].
    destruct (is_html c) eqn:E5.
    { apply (One (u00 c)); [apply hesc_mild, u00_mild; auto|exact Hun]. }
    destruct (c <? 0x20) eqn:E6.
    { apply (One (u00 c)); [apply hesc_mild, u00_mild; left; apply Z.ltb_lt in E6; lia|exact Hun]. }
    assert (Hc : 0x80 <= c).
    { rewrite !andb_false_iff, !negb_false_iff, !Z.leb_gt, !Z.eqb_eq in F. apply orb_false_iff in E1. rewrite !Z.eqb_neq in E1. apply Z.ltb_ge in E6. lia. }
    destruct (decode_rune_spec (c :: s) W ltac:(discriminate)) as [(r & e & t & E & U & D)|[NS D]]; rewrite D in Hun.
    + assert (Sk : skipn (length e) (c :: s) = t) by (rewrite E; apply skipn_app_len; reflexivity).
      assert (Fi : firstn (length e) (c :: s) = e) by (rewrite E; apply firstn_app_len; reflexivity).
      rewrite Sk, Fi in Hun.
      assert (Wt : wf t) by (rewrite E in W; apply wf_app in W; tauto).
      assert (Lt : (length t <= n)%nat).
      { pose proof (utf8_seq_len _ _ U). assert (X := f_equal (@length Z) E). rewrite app_length in X. cbn in X. lia. }
      assert (Hr : 0x80 <= r).
      { destruct (utf8_seq_hd _ _ U) as (c' & t' & -> & [(X1 & X2 & X3)|(X1 & X2)]); [|exact X1].
        cbn [app] in E. injection E as E _. lia. }
      replace ((r =? runeError) && Nat.eqb (length e) 1) with false in Hun.
      2:{ symmetry. apply andb_false_iff. destruct (r =? runeError) eqn:Q; [|left; reflexivity]. right. apply Z.eqb_eq in Q.
          subst r. rewrite <- (encode_rune_seq _ _ U). reflexivity. }
      destruct ((r =? 0x2028) || (r =? 0x2029)) eqn:Q.
      * apply (G (u202 r) (u202 r) t); auto. apply orb_true_iff in Q. rewrite !Z.eqb_eq in Q. apply hesc_mild. destruct Q as [-> | ->]; conc.
      * apply orb_false_iff in Q. rewrite !Z.eqb_neq in Q. apply (G e e t); auto. intros q. apply (html_seq r); try lia; tauto.
    + change (skipn 1 (c :: s)) with s in Hun. change ((runeError =? runeError) && Nat.eqb 1 1) with true in Hun.
      cbv iota in Hun. apply (One ufffd); [apply hesc_mild; mild|exact Hun].
Qed.
Lemma json_string_html s : wf s -> hesc (json_string true s) (json_string false s).
Proof.
  intros W. destruct (string_loop_html (length s) s W) as (o1 & o2 & H & E1 & E2); [lia|].
  unfold json_string, do_encode_string. rewrite E1, E2. cbn [app]. apply (hesc_app [34] [34]); [apply hesc_mild; mild|].
  apply hesc_app; [exact H|apply hesc_mild; mild].
Qed.
Lemma html_snoc34 n : forall b s, (length b <= n)%nat -> html_escape (b ++ 34 :: s) = html_escape b ++ 34 :: html_escape s.
Proof.
  induction n as [|n IH]; intros b s L; (destruct b as [|c b]; [apply html_escape_plain; [reflexivity|lia]|cbn [length] in L; try lia]). cbn [app].
  destruct (is_html c) eqn:Eh. { rewrite !html_escape_html, IH, app_assoc by (assumption || lia). reflexivity. }
  destruct (Z.eq_dec c 0xE2) as [->|N]; [|rewrite !html_escape_plain, IH by (assumption || lia); reflexivity].
  destruct (match b with a :: b :: _ => (a =? 0x80) && ((b =? 0xA8) || (b =? 0xA9)) | _ => false end) eqn:E.
  - destruct b as [|x [|y b]]; try discriminate. rewrite andb_true_iff, orb_true_iff, !Z.eqb_eq in E. destruct E as [-> E]. cbn [length] in L.
    destruct E as [-> | ->]; cbn [app]; match goal with |- html_escape (?a :: ?b :: ?c :: ?t ++ ?u) = _ =>
      change (html_escape (a :: b :: c :: t ++ u)) with (u202 (match c with 168 => 0x2028 | _ => 0x2029 end) ++ html_escape (t ++ u));
      change (html_escape (a :: b :: c :: t)) with (u202 (match c with 168 => 0x2028 | _ => 0x2029 end) ++ html_escape t) end;
      rewrite IH, <- app_assoc by lia; reflexivity.
  - rewrite (html_escape_e2_other b), html_escape_e2_other by (try exact E; destruct b as [|x [|y b]]; cbn [app]; try reflexivity; try exact E;
      destruct s; try reflexivity; destruct (x =? 128); reflexivity). rewrite IH by lia. reflexivity.
Qed.
Lemma string_lit_html v : string_lit v -> hesc (html_escape v) v.
Proof.
  intros (b & -> & _) s. change (34 :: b ++ [34]) with ([34] ++ b ++ [34]). rewrite <- !app_assoc. cbn [app].
  rewrite !(html_escape_plain 34) by (reflexivity || lia). rewrite (html_snoc34 (length b)), (html_snoc34 (length b)) by lia. cbn [app html_escape]. rewrite <- app_assoc. reflexivity.
Qed.
(** Neither setting matters to a value without strings. *)
Lemma textless_same c v b d : textless v -> enc (set_html true c) v b d = enc (set_html false c) v b d.
Proof. revert b d. induction v as [ |x|z|f|s|s|s|t|l IH| |l IH| |m IH| |m IH|m|fs IH|o IH|o IH|o IH|s|r|r|v IH| ] using gval_rect'; intros b d T; try contradiction; try reflexivity. destruct o as [v|]; [apply IH, T|reflexivity]. Qed.
Lemma mild_wf s : mild_text s -> wf s.
Proof. intros H. eapply Forall_impl; [|exact H]. unfold is_byte. cbv beta. intros; lia. Qed.
Lemma escape_rel c v : match e_clrs c with None => True | Some k => Forall mild_text (palette k) end -> ind_all mild_text (e_ind c) ->
  leaves wf (raw_checked (e_trust c)) mild_text mild_text float_ok textless True v ->
  frel (fun a b => hesc a b /\ wf b) eq (enc (set_html true c) v) (enc (set_html false c) v).
Proof.
  intros K I. set (P := fun a b => hesc a b /\ wf b).
  assert (M : forall s, mild_text s -> P s s) by (intros s S; split; [apply hesc_mild, S|apply mild_wf, S]).
  assert (Mr : mild_text reset) by conc.
  assert (M0 : P [] []) by (apply M; constructor).
  assert (PA : forall a1 a2 b1 b2, P a1 a2 -> P b1 b2 -> P (a1 ++ b1) (a2 ++ b2)).
  { intros a1 a2 b1 b2 [A1 A2] [B1 B2]. split; [apply hesc_app; assumption|apply wf_app_iff; auto]. }
  assert (PP : forall clr t1 t2, isclr clr -> P t1 t2 -> P (paint (e_clrs c) clr t1) (paint (e_clrs c) clr t2)).
  { intros clr t1 t2 Hc Ht. unfold paint. destruct (e_clrs c) as [k|]; [|exact Ht].
    apply PA; [|apply PA; [exact Ht|apply M, Mr]]. apply M. destruct (Hc k) as [<-|H]; [exact Mr|]. rewrite Forall_forall in K. auto. }
  assert (NT : forall x, number_lit x -> P x x).
  { intros x L. apply M. eapply Forall_impl; [|apply number_chars, L]. cbv beta. intros; lia. }
  assert (SS : forall s, wf s -> P (json_string true s) (json_string false s)).
  { intros s W. split; [apply json_string_html, W|apply string_lit_wf, json_string_lit, W]. }
  assert (Q : forall f g, (forall d, f [] d = g [] d) -> frel P eq f g ->
    frel P eq (encode_to_string (set_html true c) f) (encode_to_string (set_html false c) g)).
  { intros f g FG H d1 d2 <-. rewrite !to_string_nil. specialize (H d1 d1 eq_refl). rewrite FG in *.
    destruct (g [] d1) as [o1 e1 [x1|]|]; cbn in *; try tauto. destruct H as ((_ & W) & _ & _). split; [|auto]. apply SS, W. }
  assert (CR : forall n s, mild_text s -> P (concat (repeat s n)) (concat (repeat s n))) by (intros n s S; induction n; cbn; [exact M0|apply PA; auto]).
  assert (VN : P lit_null lit_null) by (apply M; conc).
  assert (V1 : forall x, 0 <= x < 0x80 -> x <> 60 -> x <> 62 -> x <> 38 -> P [x] [x]) by (intros; apply M; apply Forall_cons; [auto|constructor]).
  apply leaf_rel2 with (okx := P); auto.
  - intros ? ? <-. reflexivity.
  - intros ? ? <-. reflexivity.
  - unfold newline. cbn [set_html e_ind]. destruct (active (e_ind c)); [apply V1; lia|exact M0].
  - unfold space. cbn [set_html e_ind]. destruct (active (e_ind c)); [apply V1; lia|exact M0].
  - intros d1 d2 <-. unfold margin, active, ind_all in *. cbn [set_html e_ind]. destruct (e_ind c) as [i|]; [|exact M0]. destruct (i_disabled i); [exact M0|]. destruct I. apply PA; auto.
  - intros x Hx. unfold is_delim in Hx. rewrite !orb_true_iff, !Z.eqb_eq in Hx. apply V1; lia.
  - apply M; conc.
  - apply M; conc.
  - intros z. apply NT, itoa_number.
  - intros f t F E. eapply NT, float_number; eassumption.
  - intros s W. apply M. apply Forall_cons; [lia|]. apply Forall_app. split; [|apply Forall_cons; [lia|constructor]].
    eapply Forall_impl; [|apply (b64_bytes (length s)); auto]. unfold b64_byte. cbv beta. intros; lia.
  - intros s S. apply M. apply Forall_cons; [lia|]. apply Forall_app. split; [exact S|apply Forall_cons; [lia|constructor]].
  - intros s x [W _] L IX. cbn [set_html e_html andb raw_string].
    assert (Wx : wf x) by (destruct IX as (p & q & ->); rewrite !wf_app_iff in W; tauto).
    destruct (rv_string x) eqn:E; [split; [apply string_lit_html, rv_string_lit; assumption|exact Wx]|].
    destruct L as [(b & -> & _)|[L|[->|[->| ->]]]]; [discriminate|apply NT, L| | |]; apply M; conc.
  - apply PP; [intros ?; cbn; tauto|]. cbn [set_html e_clrs]. rewrite null_paint. apply PP; [intros ?; cbn; tauto|exact VN].
  - intros _ z. cbn [encode_mkey]. apply Q; [reflexivity|]. intros d1 d2 <-. cbn. split; [|auto]. rewrite int_paint. apply PP; [intros ?; cbn; tauto|]. apply NT, itoa_number.
  - intros x T _ [_ H]. cbn [enc]. apply Q; [intros d; apply textless_same, T|exact H].
  - intros s [W R]. split; [exact W|]. intros T. left. destruct R as [R|R]; [cbn in T; congruence|exact R].
Qed.
(** * Lines *)
Lemma split_cons l s : Forall (fun c => c <> 10) l -> split_lines (l ++ 10 :: s) = l :: split_lines s.
Proof.
  induction 1 as [|c l H Hl IH]; [reflexivity|]. cbn [app split_lines]. destruct (c =? 10) eqn:E; [apply Z.eqb_eq in E; lia|]. rewrite IH. reflexivity.
Qed.
Lemma split_all ls : Forall (Forall (fun c => c <> 10)) ls -> split_lines (concat (map (fun l => l ++ [10]) ls)) = ls ++ [[]].
Proof. induction 1 as [|l ls H Hl IH]; [reflexivity|]. cbn [map concat app]. rewrite <- app_assoc. cbn [app]. rewrite split_cons, IH by exact H. reflexivity. Qed.
