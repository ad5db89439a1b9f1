(** Facts about escaped raw messages (C19) and HTML-free output (C07). *)
From Coq Require Import Permutation Sorted.
From Verif Require Import Bytes Utf8Model ParseModel StringModel IntModel TokenModel EncModel SpecJson SpecString SpecTokens
  SpecRender SpecColor SpecRaw ParseFacts Utf8Facts StringFacts IntFacts TokenFacts EncFacts RawFacts EncMain EncRel LeafRel TextFacts ColorFacts DocFacts EncExtra.

Definition ls_next (s : bytes) : bool :=
  match s with a :: b :: _ => (a =? 0x80) && ((b =? 0xA8) || (b =? 0xA9)) | _ => false end.
(** The four ways a byte can be escaped. *)
Lemma html_escape_cases c s :
  (is_html c = true /\ html_escape (c :: s) = u00 c ++ html_escape s) \/
  (exists b s', c = 0xE2 /\ s = 0x80 :: b :: s' /\ (b = 0xA8 \/ b = 0xA9) /\ html_escape (c :: s) = u202 b ++ html_escape s') \/
  (is_html c = false /\ (c = 0xE2 -> ls_next s = false) /\ html_escape (c :: s) = c :: html_escape s).
Proof.
  destruct (is_html c) eqn:Eh; [left; split; [reflexivity|apply html_escape_html, Eh]|right].
  destruct (Z.eq_dec c 0xE2) as [->|N]; [|right; split; [reflexivity|split; [tauto|apply html_escape_plain; assumption]]].
  destruct (ls_next s) eqn:E; [left|right].
  - destruct s as [|x [|y s]]; try discriminate. cbn in E. rewrite andb_true_iff, orb_true_iff, !Z.eqb_eq in E. destruct E as [-> E].
    exists y, s. repeat split; [exact E|apply html_escape_e2_ls, E].
  - split; [reflexivity|]. split; [reflexivity|]. apply html_escape_e2_other, E.
Qed.
(** A byte of the output that is not a backslash was there before. *)
Lemma html_escape_head s x t : html_escape s = x :: t -> x <> 92 -> exists s', s = x :: s' /\ html_escape s' = t.
Proof.
  intros E N. destruct s as [|c s]; [discriminate|].
  destruct (html_escape_cases c s) as [(H & E1)|[(b & s' & -> & -> & Hb & E1)|(H & _ & E1)]]; rewrite E1 in E.
  - injection E as <- _. congruence.
  - destruct Hb as [->| ->]; injection E as <- _; congruence.
  - injection E as <- E. eauto.
Qed.
Lemma html_escape_prefix e : Forall (fun x => x <> 92) e -> forall s t, html_escape s = e ++ t -> exists s', s = e ++ s' /\ html_escape s' = t.
Proof.
  intros F. induction F as [|x e Hx He IH]; intros s t E; [exists s; auto|]. cbn [app] in E. destruct (html_escape_head _ _ _ E Hx) as (s1 & -> & E1).
  destruct (IH _ _ E1) as (s2 & -> & E2). exists s2. auto.
Qed.
Lemma utf8_seq_high r e : utf8_seq r e -> 0x80 <= r -> Forall (fun x => 0x80 <= x) e.
Proof. intros U H. inversion U; subst; repeat (apply Forall_cons; [lia|]); try apply Forall_nil. Qed.
Lemma no_seq_html c s : 0x80 <= c -> no_seq (c :: s) -> no_seq (c :: html_escape s).
Proof.
  intros B N r e t U E.
  assert (H : 0x80 <= r) by (inversion U; subst; try lia; cbn in E; injection E; lia).
  pose proof (utf8_seq_high r e U H) as F. destruct e as [|x e]; [inversion U|]. cbn [app] in E. injection E as <- E.
  inversion F; subst. destruct (html_escape_prefix e) with (s := s) (t := t) as (s' & -> & _); [|exact E|].
  - eapply Forall_impl; [|eassumption]. cbv beta. intros; lia.
  - eapply (N r (c :: e)); [exact U|reflexivity].
Qed.
Lemma hex4v_fun h r r' : hex4v h r -> hex4v h r' -> r = r'.
Proof.
  intros H H'. inversion H as [a b c d va vb vc vd A B C D]; subst. inversion H' as [? ? ? ? va' vb' vc' vd' A' B' C' D']; subst.
  assert (G : forall x u v, hex1 x u -> hex1 x v -> u = v) by (intros x u v I J; inversion I; inversion J; subst; lia).
  rewrite (G _ _ _ A A'), (G _ _ _ B B'), (G _ _ _ C C'), (G _ _ _ D D'). reflexivity.
Qed.
Lemma hex4v_len h r : hex4v h r -> length h = 4%nat.
Proof. intros H. inversion H. reflexivity. Qed.
Lemma uni_head x h t h2 t2 : 92 :: 117 :: h ++ t = x -> x = 92 :: 117 :: h2 ++ t2 -> length h = length h2 -> h = h2 /\ t = t2.
Proof.
  intros <- E L. apply (f_equal (skipn 2)) in E. cbn [skipn] in E.
  pose proof (f_equal (firstn (length h)) E) as E1. rewrite firstn_len_app in E1. rewrite L in E1. rewrite firstn_len_app in E1. subst. split; [reflexivity|].
  eapply app_inv_head, E.
Qed.
Lemma html_escape_low s h2 r2 t : hex4v h2 r2 -> low_sur r2 -> html_escape s = 92 :: 117 :: h2 ++ t -> exists t', s = 92 :: 117 :: h2 ++ t'.
Proof.
  intros Hh L E. destruct s as [|c s]; [discriminate|].
  destruct (html_escape_cases c s) as [(H & E1)|[(b & s' & -> & -> & Hb & E1)|(H & _ & E1)]]; rewrite E1 in E.
  - exfalso. assert (B : 0 <= c < 0x80) by (unfold is_html in H; rewrite !orb_true_iff, !Z.eqb_eq in H; lia).
    destruct (u00_hex c ltac:(lia)) as (h & Eu & Hc). rewrite Eu in E. cbn [app] in E.
    destruct (uni_head _ _ _ _ _ eq_refl E) as [-> _]; [rewrite (hex4v_len _ _ Hh), (hex4v_len _ _ Hc); reflexivity|].
    pose proof (hex4v_fun _ _ _ Hc Hh). unfold low_sur in L. lia.
  - exfalso. destruct (u202_byte b Hb) as (h & Eu & Hc). rewrite Eu in E. cbn [app] in E.
    destruct (uni_head _ _ _ _ _ eq_refl E) as [-> _]; [rewrite (hex4v_len _ _ Hh), (hex4v_len _ _ Hc); reflexivity|].
    pose proof (hex4v_fun _ _ _ Hc Hh). unfold low_sur in L. lia.
  - injection E as -> E. destruct (html_escape_head _ _ _ E) as (s1 & -> & E2); [lia|].
    destruct (html_escape_prefix h2) with (s := s1) (t := t) as (s2 & -> & _); [|exact E2|eauto].
    inversion Hh as [a b c d va vb vc vd A B C D]; subst. apply hex1_digit in A, B, C, D. unfold hex_digit in *.
    repeat (apply Forall_cons; [lia|]). apply Forall_nil.
Qed.

(** Escaping keeps the characters. *)
Lemma html_denotes b l : str_denotes b l -> str_denotes (html_escape b) l.
Proof.
  induction 1 as [|r e s l U B1 B2 B3 SD IH|c s l B N SD IH|e v s l SE SD IH|h r s l Hh Sc SD IH
    |h1 r1 h2 r2 s l Hh1 S1 Hh2 S2 SD IH|h r s l Hh Su NL SD IH].
  - constructor.
  - inversion U as [r0 R|a b0 R Rb|a b0 c R Rb Rc Sc|a b0 c d R Rb Rc Rd]; subst; cbn [app].
    + destruct (is_html r) eqn:Eh.
      * rewrite html_escape_html by exact Eh. destruct (u00_hex r ltac:(lia)) as (h & -> & Hh). cbn [app]. apply sd_uni; [exact Hh|left; lia|exact IH].
      * rewrite html_escape_plain by (assumption || lia). apply (sd_char r [r]); assumption.
    + rewrite !html_escape_plain by (rewrite ?is_html_false; lia). apply (sd_char _ [_; _]); assumption.
    + destruct (html_escape_cases (0xE0 + a) (0x80 + b0 :: 0x80 + c :: s)) as [(H & _)|[(b & s' & Ea & Es & Hb & E1)|(_ & _ & E1)]].
      * exfalso. unfold is_html in H. rewrite !orb_true_iff, !Z.eqb_eq in H. lia.
      * rewrite E1. assert (b0 = 0 /\ 0x80 + c = b /\ s = s') as (-> & <- & <-).
        { pose proof (f_equal (fun x => nth 0 x 0) Es) as E2. pose proof (f_equal (fun x => nth 1 x 0) Es) as E3. pose proof (f_equal (skipn 2) Es) as E4.
          cbn [nth skipn] in E2, E3, E4. repeat split; [lia|exact E3|exact E4]. }
        assert (a = 2) as -> by lia. destruct (u202_byte _ Hb) as (h & -> & Hh). cbn [app].
        replace (2 * 4096 + 0 * 64 + c) with (0x2028 + (0x80 + c - 0xA8)) by lia. apply sd_uni; [exact Hh|left; lia|exact IH].
      * rewrite E1, !html_escape_plain by (rewrite ?is_html_false; lia). apply (sd_char _ [_; _; _]); assumption.
    + rewrite !html_escape_plain by (rewrite ?is_html_false; lia). apply (sd_char _ [_; _; _; _]); assumption.
  - destruct (html_escape_cases c s) as [(H & _)|[(b & s' & -> & -> & Hb & E1)|(_ & _ & E1)]].
    + exfalso. unfold is_html in H. rewrite !orb_true_iff, !Z.eqb_eq in H. lia.
    + exfalso. apply (N (2 * 4096 + 0 * 64 + (b - 0x80)) [0xE0 + 2; 0x80 + 0; 0x80 + (b - 0x80)] s').
      * apply u8_3; try lia. left. lia.
      * replace (0x80 + (b - 0x80)) with b by lia. reflexivity.
    + rewrite E1. apply sd_bad; [exact B|apply no_seq_html; assumption|exact IH].
  - assert (Ne : is_html e = false /\ e <> 0xE2) by (rewrite is_html_false; inversion SE; lia).
    rewrite (html_escape_plain 92), (html_escape_plain e) by (tauto || reflexivity || lia). apply sd_short; assumption.
  - rewrite (html_escape_plain 92), (html_escape_plain 117), (hex_html _ _ _ Hh) by (reflexivity || lia). apply sd_uni; assumption.
  - rewrite (html_escape_plain 92), (html_escape_plain 117), (hex_html _ _ _ Hh1), (html_escape_plain 92), (html_escape_plain 117), (hex_html _ _ _ Hh2) by (reflexivity || lia).
    apply sd_pair; assumption.
  - rewrite (html_escape_plain 92), (html_escape_plain 117), (hex_html _ _ _ Hh) by (reflexivity || lia). apply sd_lone with (r := r); try assumption.
    intros h2 r2 t Hs H2 L2 E. destruct (html_escape_low _ _ _ _ H2 L2 E) as (t' & ->). eapply NL; try eassumption. reflexivity.
Qed.
Lemma raw_same_chars html t : string_lit t -> same_chars t (raw_string html t).
Proof.
  intros (b & -> & SB). destruct html; cbn [raw_string]; [|exists b, b; auto].
  exists b, (html_escape b). split; [reflexivity|]. rewrite html_escape_plain by (reflexivity || lia). rewrite (html_snoc (length b)) by lia.
  split; [reflexivity|]. intros l. apply html_denotes.
Qed.

(** The tree of an escaped raw message. *)
Fixpoint esc_ast (html : bool) (a : jast) : jast :=
  match a with
  | JStr t => JStr (raw_string html t)
  | JArr l => JArr (map (esc_ast html) l)
  | JObj l => JObj (map (fun kv => match kv with (k, x) => (raw_string html k, esc_ast html x) end) l)
  | _ => a
  end.
Lemma esc_ast_false a : esc_ast false a = a.
Proof.
  induction a as [| | |t|t|l IH|l IH] using jast_rect'; cbn [esc_ast]; try reflexivity.
  - f_equal. induction IH as [|x l Hx H IH]; [reflexivity|]. cbn [map]. rewrite Hx, IH. reflexivity.
  - f_equal. induction IH as [|[k x] l Hx H IH]; [reflexivity|]. cbn in *. rewrite Hx, IH. reflexivity.
Qed.
Lemma esc_ast_same html a : ast_ok a -> same_tree a (esc_ast html a).
Proof.
  induction a as [| | |t|t|l IH|l IH] using jast_rect'; cbn [esc_ast ast_ok]; intros H; try constructor.
  - apply raw_same_chars, H.
  - apply all_map in H. revert H. induction IH as [|x l Hx Hl IH]; intros H; cbn [map]; [constructor|]. inversion H; subst. constructor; auto.
  - apply all_map in H. revert H. induction IH as [|[k x] l Hx Hl IH]; intros H; cbn [map]; [constructor|]. inversion H as [|? ? Hk Ho]; subst. cbn in *.
    constructor; [|auto]. cbn. split; [apply raw_same_chars, Hk|apply Hx, Hk].
Qed.
Lemma tok_ast_num t : number_lit t -> tok_ast t = JNum t.
Proof.
  intros H. destruct (number_head t H) as (c & u & -> & Hc). unfold tok_ast. cbn [rv_string rv_true rv_false rv_null].
  destruct (c =? 34) eqn:?; [zb; lia|]. destruct (c =? 116) eqn:?; [zb; lia|]. destruct (c =? 102) eqn:?; [zb; lia|]. destruct (c =? 110) eqn:?; [zb; lia|]. reflexivity.
Qed.
Lemma tok_ast_str t : string_lit t -> tok_ast t = JStr t.
Proof. intros (b & -> & _). reflexivity. Qed.
Lemma dast_jdoc html ind a : ast_ok a -> forall d, dast html ind d (jdoc html a) = esc_ast html a.
Proof.
  induction a as [| | |t|t|l IH|l IH] using jast_rect'; cbn [esc_ast ast_ok jdoc dast]; intros H d; try reflexivity.
  - apply tok_ast_num, H.
  - apply tok_ast_str, raw_string_lit, H.
  - f_equal. apply all_map in H. rewrite map_map. apply map_ext_in. intros x Hx. rewrite Forall_forall in *. apply IH; auto.
  - f_equal. apply all_map in H. rewrite map_map. apply map_ext_in. intros [k x] Hx. rewrite Forall_forall in *. specialize (H _ Hx). specialize (IH _ Hx). cbn in *.
    rewrite IH by apply H. reflexivity.
Qed.

(** Native values have the document of the tree. *)
Lemma native_vdoc html sorted trust a : forall v, ast_ok a -> native html sorted a v ->
  vdoc html sorted trust v (jdoc html a) /\ clean sorted trust false v /\ colors_clean v.
Proof.
  induction a as [| | |t|t|l IH|l IH] using jast_rect'; cbn [ast_ok jdoc]; intros v H N; inversion N; subst.
  - repeat split; constructor.
  - repeat split; constructor.
  - repeat split; constructor.
  - split; [apply vd_number, H|]. cbn. unfold num_clean. tauto.
  - match goal with E : json_string _ _ = _ |- _ => rewrite <- E end. split; [constructor|]. cbn. auto.
  - apply all_map in H. cbn [clean colors_clean].
    match goal with F : Forall2 _ l ?vs0 |- _ => rename vs0 into vs; rename F into F0 end.
    assert (G : Forall2 (vdoc html sorted trust) vs (map (jdoc html) l) /\ Forall (fun v => clean sorted trust false v) vs /\ Forall (fun v => colors_clean v) vs).
    { clear N. revert H IH. induction F0 as [|x v l vs Hx F IHF]; intros H IH; [repeat split; constructor|].
      inversion H as [|? ? H1 H2]; subst; inversion IH as [|? ? I1 I2]; subst; destruct (IHF H2 I2) as (G1 & G2 & G3);
      destruct (I1 v H1 Hx) as (E1 & E2 & E3); cbn [map]; repeat split; constructor; assumption. }
    destruct G as (G1 & G2 & G3). split; [apply vd_slice, G1|]. split; apply all_map; assumption.
  - apply all_map in H. cbn [clean colors_clean].
    match goal with F : Forall2 _ l ?m0 |- _ => rename m0 into m; rename F into F0 end.
    assert (G : Forall2 (fun e x => fst x = (TKey, json_string html (fst e)) /\ vdoc html sorted trust (snd e) (snd x)) m
         (map (fun kv => match kv with (k, x) => (TKey, raw_string html k, jdoc html x) end) l) /\
       Forall (fun kv => match kv with (k, x) => wf k /\ clean sorted trust false x end) m /\ Forall (fun kv => match kv with (_, x) => colors_clean x end) m).
    { match goal with S : _ -> ascending _ _, U : NoDup _ |- _ => clear N S U end. revert H IH. induction F0 as [|[k x] [k2 v] l m Hx F IHF]; intros H IH; [repeat split; constructor|].
      inversion H as [|? ? H1 H2]; subst; inversion IH as [|? ? I1 I2]; subst. destruct (IHF H2 I2) as (G1 & G2 & G3). cbn in *.
      destruct Hx as (W & E & Nx). destruct H1 as [_ H1]. destruct (I1 v H1 Nx) as (E1 & E2 & E3). repeat split; constructor; cbn; auto. rewrite E. auto. }
    destruct G as (G1 & G2 & G3). split; [|split; apply all_map; assumption].
    eapply vd_mapsi; [|exact G1]. unfold in_order. destruct sorted; [|reflexivity]. split; [apply Permutation_refl|auto].
Qed.

Lemma native_unique html sorted trust a : forall v x, ast_ok a -> native html sorted a v -> vdoc html sorted trust v x -> x = jdoc html a.
Proof.
  induction a as [| | |t|t|l IH|l IH] using jast_rect'; cbn [ast_ok jdoc]; intros v x H N V; inversion N; subst.
  - inversion V; reflexivity.
  - inversion V; reflexivity.
  - inversion V; reflexivity.
  - inversion V; subst; [|reflexivity]. destruct (number_head [] H) as (? & ? & ? & _). discriminate.
  - inversion V. congruence.
  - apply all_map in H. match goal with F : Forall2 _ l ?vs0 |- _ => rename vs0 into vs; rename F into F0 end.
    assert (X : exists xs, x = DArr xs /\ Forall2 (vdoc html sorted trust) vs xs) by (inversion V; eauto). destruct X as (xs & -> & F1). f_equal. clear N V. revert xs F1 H IH.
    induction F0 as [|x v l vs Hx F IHF]; intros xs F1 H IH; inversion F1; subst; [reflexivity|].
    inversion H as [|? ? Ha Hb]; subst; inversion IH as [|? ? I1 I2]; subst. cbn [map]. f_equal; eauto.
  - apply all_map in H. match goal with F : Forall2 _ l ?m0 |- _ => rename m0 into m; rename F into F0 end.
    assert (X : exists m' xs, x = DObj ONormal xs /\ in_order sorted fst m m' /\
       Forall2 (fun e x => fst x = (TKey, json_string html (fst e)) /\ vdoc html sorted trust (snd e) (snd x)) m' xs) by (inversion V; eauto).
    destruct X as (m' & xs & -> & O & F1). f_equal.
    assert (m' = m) as ->.
    { unfold in_order in O. destruct sorted; [|exact O]. destruct O as [P O]. symmetry. apply (sorted_unique fst); auto. }
    match goal with S : _ -> ascending _ _, U : NoDup _ |- _ => clear N V S U O end. revert xs F1 H IH.
    induction F0 as [|[k x] [k2 v] l m Hx F IHF]; intros xs F1 H IH; inversion F1 as [|? [kt y] ? ? F2 F3]; subst; [reflexivity|].
    inversion H as [|? ? Ha Hb]; subst; inversion IH as [|? ? I1 I2]; subst. cbn in *. destruct F2 as [-> F2], Hx as (W & E & Nx). f_equal; [|auto].
    rewrite E. f_equal. eapply I1; [apply Ha|exact Nx|exact F2].
Qed.

(** * HTML characters *)
Lemma no_html_nil : no_html [].
Proof. split; [|split]; intros [|? x]; try discriminate; intros; discriminate. Qed.
Fixpoint hfree (s : bytes) : Prop :=
  match s with
  | [] => True
  | c :: t => is_html c = false /\ (c = 0xE2 -> ls_next t = false) /\ hfree t
  end.
Lemma hfree_no_html s : hfree s -> no_html s.
Proof.
  induction s as [|c s IH]; [intros; apply no_html_nil|]. intros (H1 & H2 & H3). destruct (IH H3) as (I1 & I2 & I3).
  apply is_html_false in H1. split; [|split].
  - intros [|y x] c0 z E; injection E as E0 E; [subst; lia|eapply I1, E].
  - intros [|y x] z E; injection E as E0 E; [subst; specialize (H2 eq_refl); discriminate|eapply I2, E].
  - intros [|y x] z E; injection E as E0 E; [subst; specialize (H2 eq_refl); discriminate|eapply I3, E].
Qed.
Lemma no_html_hfree s : no_html s -> hfree s.
Proof.
  induction s as [|c s IH]; [intros; exact I|]. intros (H1 & H2 & H3). cbn [hfree]. split; [|split].
  - apply is_html_false. apply (H1 [] c s eq_refl).
  - intros ->. destruct s as [|a [|b s]]; try reflexivity. cbn [ls_next]. apply not_true_iff_false. rewrite andb_true_iff, orb_true_iff, !Z.eqb_eq.
    intros [-> [->| ->]]; [apply (H2 [] s eq_refl)|apply (H3 [] s eq_refl)].
  - apply IH. split; [|split].
    + intros x c0 y E. apply (H1 (c :: x) c0 y). rewrite E. reflexivity.
    + intros x y E. apply (H2 (c :: x) y). rewrite E. reflexivity.
    + intros x y E. apply (H3 (c :: x) y). rewrite E. reflexivity.
Qed.
(** Only the last byte of the first text matters. *)
Lemma hfree_app a b : hfree a -> (a = [] \/ last a 0 < 0x80) -> hfree b -> hfree (a ++ b).
Proof.
  induction a as [|c a IH]; [auto|]. intros (H1 & H2 & H3) [L|L] Hb; [discriminate|]. cbn [app hfree]. split; [exact H1|].
  destruct a as [|x a]; [cbn in *; split; [intros; subst; lia|exact Hb]|]. split.
  - intros E. specialize (H2 E). destruct a as [|y a]; [|exact H2]. cbn in L. cbn [app ls_next]. destruct b as [|z b]; [reflexivity|].
    destruct (x =? 128) eqn:?; [zb; lia|reflexivity].
  - apply IH; [exact H3|right; exact L|exact Hb].
Qed.
Lemma piece_app a b : html_piece a -> html_piece b -> html_piece (a ++ b).
Proof.
  intros [A1 A2] [B1 B2]. split; [apply hfree_no_html, hfree_app; [apply no_html_hfree, A1|exact A2|apply no_html_hfree, B1]|].
  destruct B2 as [->|B2]; [rewrite app_nil_r; exact A2|right]. destruct b as [|x b]; [cbn in B2; rewrite app_nil_r; cbn; destruct A2 as [->|A2]; [cbn; lia|exact A2]|].
  clear A1 A2 B1. induction a as [|c a IH]; [exact B2|]. cbn [app]. destruct (a ++ x :: b) as [|y t] eqn:E; [destruct a; discriminate|exact IH].
Qed.
Lemma ascii_hfree s : Forall (fun c => c < 0x80 /\ is_html c = false) s -> hfree s.
Proof. induction 1 as [|c s [H1 H2] H IH]; [exact I|]. cbn [hfree]. split; [exact H2|split; [lia|exact IH]]. Qed.
Lemma last_all (P : Z -> Prop) s : Forall P s -> s = [] \/ P (last s 0).
Proof.
  induction 1 as [|c s Hc H IH]; [auto|]. right. destruct s as [|x s]; [exact Hc|]. destruct IH as [IH|IH]; [discriminate|exact IH].
Qed.
Lemma ascii_piece s : Forall (fun c => c < 0x80 /\ is_html c = false) s -> html_piece s.
Proof. intros H. split; [apply hfree_no_html, ascii_hfree, H|]. destruct (last_all _ _ H) as [E|[E _]]; auto. Qed.
Lemma seq_hfree r e s : utf8_seq r e -> r <> 60 -> r <> 62 -> r <> 38 -> r <> 0x2028 -> r <> 0x2029 -> hfree s -> hfree (e ++ s).
Proof.
  intros U N1 N2 N3 N4 N5 H. inversion U as [r0 R|a b R Rb|a b c R Rb Rc Sc|a b c d R Rb Rc Rd]; subst; cbn [app hfree]; rewrite !is_html_false.
  - split; [lia|]. split; [intros; subst; lia|exact H].
  - repeat split; try lia; assumption.
  - repeat split; try lia; try assumption. intros Ea. cbn [ls_next]. assert (a = 2) as -> by lia.
    apply not_true_iff_false. rewrite andb_true_iff, orb_true_iff, !Z.eqb_eq. lia.
  - repeat split; try lia; assumption.
Qed.
Lemma utf8_hfree l s : utf8 l s -> Forall (safe_char true) l -> hfree s.
Proof.
  induction 1 as [|r l e s U H IH]; intros F; [exact I|]. inversion F as [|? ? S F']; subst. unfold safe_char in S. destruct S as (S1 & S2 & S3 & S4).
  specialize (S4 eq_refl). eapply seq_hfree; try exact U; try tauto. all: apply IH, F'.
Qed.
Lemma json_string_piece s : wf s -> html_piece (json_string true s).
Proof.
  intros W. destruct (do_encode_string_ok true s W) as (out & l & R & E). unfold json_string. rewrite (E []). cbn [app].
  destruct (enc_rel_utf8 _ _ _ _ R) as (lo & U & F). change (34 :: out ++ [34]) with ([34] ++ out ++ [34]).
  split; [|right; change ([34] ++ out ++ [34]) with ((34 :: out) ++ [34]); rewrite last_last; lia].
  apply hfree_no_html. cbn [app hfree]. split; [reflexivity|]. split; [lia|].
  assert (U' : utf8 (lo ++ [34]) (out ++ [34])). { apply utf8_app; [exact U|]. apply utf8_ascii. constructor; [lia|constructor]. }
  apply (utf8_hfree _ _ U'). apply Forall_app. split; [exact F|]. constructor; [|constructor]. unfold safe_char. lia.
Qed.
Lemma u00_hfree c s : is_html c = true -> hfree s -> hfree (u00 c ++ s).
Proof.
  intros H Hs. unfold is_html in H. rewrite !orb_true_iff, !Z.eqb_eq in H.
  assert (c = 60 \/ c = 62 \/ c = 38) as [->|[->| ->]] by tauto; match goal with |- hfree (?x ++ _) => let y := eval vm_compute in x in change x with y end; cbn [app hfree]; (repeat (split; [reflexivity|split; [lia|]])); exact Hs.
Qed.
Lemma html_escape_hfree n : forall s, (length s <= n)%nat -> hfree (html_escape s).
Proof.
  induction n as [|n IH]; intros s L; (destruct s as [|c s]; [exact I|]); cbn [length] in L; [lia|].
  destruct (html_escape_cases c s) as [(H & E1)|[(b & s' & -> & -> & Hb & E1)|(H & H2 & E1)]]; rewrite E1.
  - apply u00_hfree; [exact H|apply IH; lia].
  - cbn [length] in L. destruct Hb as [->| ->]; match goal with |- hfree (?x ++ _) => let y := eval vm_compute in x in change x with y end; cbn [app hfree]; (repeat (split; [reflexivity|split; [lia|]])); apply IH; lia.
  - cbn [hfree]. split; [exact H|]. split; [|apply IH; lia]. intros E. specialize (H2 E).
    destruct (html_escape s) as [|x t] eqn:Es; [reflexivity|]. cbn [ls_next]. destruct t as [|y t]; [reflexivity|].
    apply not_true_iff_false. rewrite andb_true_iff, orb_true_iff, !Z.eqb_eq. intros [-> Hy].
    destruct (html_escape_head _ _ _ Es) as (s1 & -> & Es1); [lia|]. destruct (html_escape_head _ _ _ Es1) as (s2 & -> & _); [lia|].
    cbn [ls_next] in H2. apply not_true_iff_false in H2. apply H2. rewrite andb_true_iff, orb_true_iff, !Z.eqb_eq. auto.
Qed.
Lemma raw_string_piece t : string_lit t -> html_piece (raw_string true t).
Proof.
  intros S. split; [apply hfree_no_html, (html_escape_hfree (length t)); lia|]. right.
  destruct S as (b & -> & SB). cbn [raw_string]. rewrite html_escape_plain by (reflexivity || lia). rewrite (html_snoc (length b)) by lia.
  change (34 :: html_escape b ++ [34]) with ((34 :: html_escape b) ++ [34]). rewrite last_last. lia.
Qed.
Lemma number_piece t : number_lit t -> html_piece t.
Proof.
  intros H. apply ascii_piece. eapply Forall_impl; [|apply number_chars, H]. cbv beta. intros c Hc. rewrite is_html_false. lia.
Qed.

(** Whole outputs. *)
Lemma safe_app a b : safe_piece a -> safe_piece b -> safe_piece (a ++ b).
Proof. intros [A1 A2] [B1 B2]. split; [apply wf_app_iff; auto|apply piece_app; assumption]. Qed.
Lemma safe_ascii s : Forall (fun c => 0 <= c < 0x80 /\ is_html c = false) s -> safe_piece s.
Proof. intros H. split; [|apply ascii_piece]; (eapply Forall_impl; [|exact H]); unfold is_byte; cbv beta; intros; intuition lia. Qed.
Lemma safe_concat l : Forall safe_piece l -> safe_piece (concat l).
Proof. induction 1; cbn; [apply safe_ascii; constructor|apply safe_app; assumption]. Qed.
Lemma safe_lit v : lit_token v -> rv_string v = false -> safe_piece v.
Proof.
  intros [H|[H|[->|[->| ->]]]] R; [| |apply safe_ascii; match goal with |- Forall _ ?x => let y := eval vm_compute in x in change x with y end; repeat (apply Forall_cons; [split; [lia|reflexivity]|]); apply Forall_nil..].
  - destruct H as (b & -> & _). discriminate.
  - split; [apply lit_okc; unfold lit_token; auto|apply number_piece, H].
Qed.
Lemma html_rel c v : e_html c = true ->
  match e_clrs c with None => True | Some k => Forall safe_piece (palette k) end -> ind_all safe_piece (e_ind c) ->
  leaves wf (raw_checked (e_trust c)) safe_piece safe_piece float_ok any True v ->
  frel (fun a _ => safe_piece a) eq (enc c v) (enc c v).
Proof.
  intros Hh K I.
  assert (Sr : safe_piece reset) by (apply safe_ascii; repeat (apply Forall_cons; [split; [lia|reflexivity]|]); apply Forall_nil).
  assert (PP : forall clr t, isclr clr -> safe_piece t -> safe_piece (paint (e_clrs c) clr t)).
  { intros clr t Hc W. unfold paint. destruct (e_clrs c) as [k|]; [|exact W]. apply safe_app; [|apply safe_app; [exact W|exact Sr]].
    destruct (Hc k) as [<-|H]; [exact Sr|]. rewrite Forall_forall in K. auto. }
  assert (SS : forall s, wf s -> safe_piece (json_string true s)).
  { intros s W. split; [apply string_lit_wf, json_string_lit, W|apply json_string_piece, W]. }
  assert (Q : forall f, frel (fun a _ => safe_piece a) eq f f -> frel (fun a _ => safe_piece a) eq (encode_to_string c f) (encode_to_string c f)).
  { intros f H d1 d2 <-. rewrite !to_string_nil. specialize (H d1 d1 eq_refl).
    destruct (f [] d1) as [o1 e1 [x1|]|]; cbn in *; try tauto. destruct H as ((W & H) & _ & _). split; [|auto]. rewrite Hh. apply SS, W. }
  assert (AX : forall z, 0 <= z < 0x80 -> is_html z = false -> safe_piece [z]).
  { intros z B E. apply safe_ascii. apply Forall_cons; [auto|apply Forall_nil]. }
  apply leaf_rel with (okx := safe_piece); auto.
  - apply safe_ascii. constructor.
  - intros a1 _ b1 _. apply safe_app.
  - intros ? ? <-. reflexivity.
  - intros ? ? <-. reflexivity.
  - unfold newline. destruct (active (e_ind c)); [apply AX; [lia|reflexivity]|apply safe_ascii; constructor].
  - unfold space. destruct (active (e_ind c)); [apply AX; [lia|reflexivity]|apply safe_ascii; constructor].
  - intros d1 d2 <-. unfold margin, active, ind_all in *. destruct (e_ind c) as [i|]; [|apply safe_ascii; constructor].
    destruct (i_disabled i); [apply safe_ascii; constructor|]. destruct I as [I1 I2]. apply safe_app; [exact I1|]. apply safe_concat.
    apply Forall_forall. intros x Hx. apply repeat_spec in Hx. subst. exact I2.
  - intros z Hz. apply AX; [|rewrite is_html_false]; unfold is_delim in Hz; rewrite !orb_true_iff, !Z.eqb_eq in Hz; lia.
  - apply safe_lit; [unfold lit_token; tauto|reflexivity].
  - apply safe_lit; [unfold lit_token; tauto|reflexivity].
  - apply safe_lit; [unfold lit_token; tauto|reflexivity].
  - intros z. split; [apply lit_okc, lit_number, itoa_number|apply number_piece, itoa_number].
  - intros f t F E. pose proof (float_number f t F E) as N. split; [apply lit_okc, lit_number, N|apply number_piece, N].
  - intros clr Hc. apply PP; [exact Hc|apply safe_ascii; constructor].
  - intros s W. rewrite Hh. apply SS, W.
  - intros s W. split; [apply string_lit_wf, b64_string, W|]. apply ascii_piece. apply Forall_cons; [split; [lia|reflexivity]|].
    apply Forall_app. split; [|apply Forall_cons; [split; [lia|reflexivity]|apply Forall_nil]].
    eapply Forall_impl; [|apply (b64_bytes (length s)); auto]. unfold b64_byte. cbv beta. intros ch. rewrite is_html_false. lia.
  - intros s S. unfold quote. apply (safe_app [34]); [apply AX; [lia|reflexivity]|]. apply safe_app; [exact S|apply AX; [lia|reflexivity]].
  - intros w L. rewrite Hh. cbn [andb]. destruct (rv_string w) eqn:E; [|apply safe_lit; assumption].
    assert (S : string_lit w). { destruct L as [L|[L|[->|[->| ->]]]]; try discriminate; [exact L|]. destruct (number_head w L) as (x & t & -> & Hx). cbn in E. zb. lia. }
    split; [apply string_lit_wf, raw_string_lit, S|apply raw_string_piece, S].
  - apply PP; [intros ?; cbn; tauto|]. rewrite null_paint. apply PP; [intros ?; cbn; tauto|]. apply safe_lit; [unfold lit_token; tauto|reflexivity].
  - intros _ z. apply Q. intros d1 d2 <-. cbn. split; [|auto]. rewrite int_paint. apply PP; [intros ?; cbn; tauto|].
    split; [apply lit_okc, lit_number, itoa_number|apply number_piece, itoa_number].
  - intros x _ _ [_ H]. apply Q, H.
  - intros s [W R]. split; [exact W|]. intros T. left. destruct R as [R|R]; [congruence|exact R].
Qed.
