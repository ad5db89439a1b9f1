(** Leaf texts written by the encoder are JSON literals. *)
From Verif Require Import Bytes Utf8Model ParseModel StringModel IntModel TokenModel EncModel SpecJson SpecString SpecTokens
  SpecRender SpecColor ParseFacts Utf8Facts StringFacts IntFacts TokenFacts EncFacts RawFacts EncMain.

(** * Strings *)
Lemma json_string_lit html s : wf s -> string_lit (json_string html s).
Proof.
  intros W. destruct (do_encode_string_ok html s W) as (out & l & R & E). unfold json_string. rewrite (E []). exists out. split; [reflexivity|].
  eapply enc_rel_body, R.
Qed.
Lemma string_lit_wf s : string_lit s -> wf s.
Proof.
  intros (b & -> & H). unfold wf, is_byte. apply Forall_cons; [lia|]. apply Forall_app. split; [|apply Forall_cons; [lia|apply Forall_nil]].
  induction H as [|c s H1 H2 H3 H IH|e s H1 H IH|h1 h2 h3 h4 s H1 H2 H3 H4 H IH]; [apply Forall_nil| | |].
  - apply Forall_cons; [lia|exact IH].
  - apply Forall_cons; [lia|]. apply Forall_cons; [cbn in H1; lia|exact IH].
  - unfold hex_digit in *. repeat (apply Forall_cons; [lia|]). exact IH.
Qed.

Lemma html_snoc n : forall b, (length b <= n)%nat -> html_escape (b ++ [34]) = html_escape b ++ [34].
Proof.
  induction n as [|n IH]; intros b L; (destruct b as [|c b]; [reflexivity|cbn [length] in L; try lia]). cbn [app].
  destruct (is_html c) eqn:Eh. { rewrite !html_escape_html, IH, app_assoc by (assumption || lia). reflexivity. }
  destruct (Z.eq_dec c 0xE2) as [->|N]; [|rewrite !html_escape_plain, IH by (assumption || lia); reflexivity].
  destruct (match b with a :: b :: _ => (a =? 0x80) && ((b =? 0xA8) || (b =? 0xA9)) | _ => false end) eqn:E.
  - destruct b as [|x [|y b]]; try discriminate. rewrite andb_true_iff, orb_true_iff, !Z.eqb_eq in E. destruct E as [-> E]. cbn [app].
    rewrite !html_escape_e2_ls, IH, app_assoc by (assumption || cbn [length] in L; lia). reflexivity.
  - rewrite (html_escape_e2_other b E), html_escape_e2_other, IH by lia || (destruct b as [|x [|y b]]; cbn [app]; try reflexivity; [destruct (x =? 128); reflexivity|exact E]). reflexivity.
Qed.

(** Escaping keeps the body well formed and its meaning. *)
Lemma hex_html h r s : hex4v h r -> html_escape (h ++ s) = h ++ html_escape s.
Proof.
  intros H. inversion H as [a b c d va vb vc vd A B C D]; subst. cbn [app].
  apply hex1_digit in A, B, C, D. pose proof (hex_dull _ A) as (?&?&?&?). pose proof (hex_dull _ B) as (?&?&?&?).
  pose proof (hex_dull _ C) as (?&?&?&?). pose proof (hex_dull _ D) as (?&?&?&?).
  rewrite !html_escape_plain by assumption. reflexivity.
Qed.
Lemma u00_body c s : 0 <= c < 256 -> str_body s -> str_body (u00 c ++ s).
Proof. intros H SB. destruct (u00_hex c H) as (h & -> & Hh). cbn [app]. eapply hex4v_body; eassumption. Qed.
Lemma u202_byte b : b = 0xA8 \/ b = 0xA9 -> exists h, u202 b = 92 :: 117 :: h /\ hex4v h (0x2028 + (b - 0xA8)).
Proof.
  intros [->| ->]; [destruct (u202_hex 0x2028 ltac:(lia)) as (h & E & Hh)|destruct (u202_hex 0x2029 ltac:(lia)) as (h & E & Hh)]; exists h; split; try exact Hh; exact E.
Qed.
Lemma html_body n : forall b, str_body b -> (length b <= n)%nat -> str_body (html_escape b).
Proof.
  induction n as [|n IH]; intros b SB L. { destruct b; [constructor|cbn in L; lia]. }
  destruct SB as [|c s B1 B2 B3 SB|e s He SB|h1 h2 h3 h4 s H1 H2 H3 H4 SB]; cbn [length] in *.
  - constructor.
  - destruct (is_html c) eqn:Eh. { rewrite html_escape_html by exact Eh. apply u00_body; [lia|]. apply IH; [exact SB|lia]. }
    destruct (Z.eq_dec c 0xE2) as [->|N].
    + destruct (match s with a :: b :: _ => (a =? 0x80) && ((b =? 0xA8) || (b =? 0xA9)) | _ => false end) eqn:E.
      * destruct s as [|x [|y s]]; try discriminate. rewrite andb_true_iff, orb_true_iff, !Z.eqb_eq in E. destruct E as [-> E].
        rewrite html_escape_e2_ls by exact E. destruct (u202_byte y E) as (h & -> & Hh). cbn [app length] in *. eapply hex4v_body; [exact Hh|]. apply IH; [|lia].
        inversion SB as [|? ? ? ? ? SB1| |]; subst. inversion SB1; subst; [assumption|exfalso; lia|exfalso; lia].
      * rewrite html_escape_e2_other by exact E. apply sb_char; [lia..|]. apply IH; [exact SB|lia].
    + rewrite html_escape_plain by assumption. apply sb_char; [assumption..|]. apply IH; [exact SB|lia].
  - assert (Ne : is_html e = false /\ e <> 0xE2) by (rewrite is_html_false; cbn [In] in He; lia).
    rewrite (html_escape_plain 92), (html_escape_plain e) by (tauto || reflexivity || lia). apply sb_esc; [exact He|]. apply IH; [exact SB|lia].
  - destruct (hex4_ex _ _ _ _ H1 H2 H3 H4) as [r Hr]. rewrite (html_escape_plain 92), (html_escape_plain 117) by (reflexivity || lia).
    change (h1 :: h2 :: h3 :: h4 :: s) with ([h1; h2; h3; h4] ++ s). rewrite (hex_html _ _ _ Hr). cbn [app]. apply sb_uni; try assumption. apply IH; [exact SB|lia].
Qed.
Lemma html_string v : string_lit v -> string_lit (html_escape v).
Proof.
  intros (b & -> & SB). rewrite html_escape_plain by (reflexivity || lia). rewrite (html_snoc (length b)) by lia.
  exists (html_escape b). split; [reflexivity|]. apply (html_body (length b)); [exact SB|lia].
Qed.
Lemma raw_string_lit html v : string_lit v -> string_lit (raw_string html v).
Proof. intros H. destruct html; [apply html_string, H|exact H]. Qed.

(** * Numbers *)
Lemma itoa_number z : number_lit (itoa z).
Proof. eapply int_text_number, itoa_text. Qed.
Lemma digits_repeat0 n : Forall digit (repeat 48 n).
Proof. induction n; cbn; constructor; [unfold digit; lia|assumption]. Qed.
Lemma Forall_firstn {A} (P : A -> Prop) n l : Forall P l -> Forall P (firstn n l).
Proof. intros H. revert n. induction H; intros [|n]; cbn; constructor; auto. Qed.
Lemma Forall_skipn {A} (P : A -> Prop) n l : Forall P l -> Forall P (skipn n l).
Proof. intros H. revert n. induction H; intros [|n]; cbn; auto. Qed.
Lemma neg_sign (neg : bool) : (if neg then [45] else []) = [] \/ (if neg then [45] else []) = [45].
Proof. destruct neg; auto. Qed.
Lemma fmt_f_number neg ds dp : float_form ds -> number_lit (fmt_f neg ds dp).
Proof.
  intros (F & d & t & -> & N & _). inversion F as [|? ? Fd Ft]; subst.
  unfold fmt_f. rewrite <- (app_nil_r (if dp <? _ then _ else _)). apply number_intro; [apply neg_sign| | |constructor].
  - destruct (0 <? dp) eqn:E; [|constructor]. zb. replace (Z.to_nat dp) with (S (Z.to_nat dp - 1)) by lia. cbn [firstn app].
    apply int_pos; [unfold digit in Fd; lia|]. apply Forall_app. split; [apply Forall_firstn, Ft|apply digits_repeat0].
  - destruct (dp <? _) eqn:E; [|constructor]. zb. constructor. split.
    + intros H. apply (f_equal (@length Z)) in H. rewrite app_length, repeat_length, skipn_length in H. cbn [length] in *. lia.
    + apply Forall_app. split; [apply digits_repeat0|apply Forall_skipn; constructor; assumption].
Qed.
Lemma fmt_f_zero neg : number_lit (fmt_f neg [] 0).
Proof.
  unfold fmt_f. cbn. destruct neg; [apply (number_intro [45] [48] [] [])|apply (number_intro [] [48] [] [])]; auto; constructor.
Qed.

(** Exponents: sign and digits, without the padding zero when negative. *)
Definition exp_digits (x : Z) : bytes :=
  (if x <? 0 then 45 else 43) :: (if (0 <=? x) && (x <? 10) then [48] else []) ++ utoa (Z.abs x).
Lemma utoa_one n : 0 <= n < 10 -> utoa n = [48 + n].
Proof. intros H. assert (n = 0 \/ n = 1 \/ n = 2 \/ n = 3 \/ n = 4 \/ n = 5 \/ n = 6 \/ n = 7 \/ n = 8 \/ n = 9) as HH by lia. decompose [or] HH; subst; reflexivity. Qed.
Lemma utoa_long n : 10 <= n -> exists a b t, utoa n = a :: b :: t /\ 49 <= a <= 57 /\ digit b /\ Forall digit t.
Proof.
  intros H. destruct (utoa_spec n ltac:(lia)) as [I D]. destruct I as [|a t A T]; [vm_compute in D; lia|].
  destruct T as [|b t B T]; [|eauto 8]. unfold dec, dec_from in D. cbn [fold_left] in D. lia.
Qed.
Lemma last4 (l : bytes) : (4 <= length l)%nat -> exists p a b c e, l = p ++ [a; b; c; e].
Proof.
  intros H. exists (firstn (length l - 4) l).
  destruct (skipn (length l - 4) l) as [|a [|b [|c [|e [|f r]]]]] eqn:E; apply (f_equal (@length Z)) in E as L; rewrite skipn_length in L; cbn [length] in L; try lia.
  exists a, b, c, e. rewrite <- E. symmetry. apply firstn_skipn.
Qed.
Lemma fmt_e_clean neg ds dp : float_form ds ->
  clean_exp (fmt_e neg ds dp) = (if neg then [45] else []) ++ firstn 1 ds ++ match skipn 1 ds with [] => [] | t => 46 :: t end ++ 101 :: exp_digits (dp - 1).
Proof.
  intros _. unfold fmt_e. set (m := match skipn 1 ds with [] => [] | t => 46 :: t end). set (x := dp - 1). unfold exp_digits.
  rewrite !app_assoc. set (q := ((if neg then [45] else []) ++ firstn 1 ds) ++ m). cbv zeta.
  destruct (Z.abs x <? 10) eqn:E; zb.
  - rewrite utoa_one by lia. change (q ++ 101 :: (if x <? 0 then 45 else 43) :: [48] ++ [48 + Z.abs x]) with (q ++ [101; (if x <? 0 then 45 else 43); 48; 48 + Z.abs x]).
    rewrite clean_exp_snoc. destruct (x <? 0) eqn:E2; zb.
    + destruct (0 <=? x) eqn:E3; [zb; lia|]. reflexivity.
    + destruct (0 <=? x) eqn:E3; [|zb; lia]. destruct (x <? 10) eqn:E4; [|zb; lia]. reflexivity.
  - assert (((0 <=? x) && (x <? 10)) = false) as -> by (apply andb_false_iff; rewrite Z.leb_gt, Z.ltb_ge; lia).
    destruct (utoa_long (Z.abs x) E) as (a & b & t & -> & A & B & T). cbn [app]. set (sg := if x <? 0 then 45 else 43).
    assert (Hs : sg <> 101) by (unfold sg; destruct (x <? 0); lia). destruct t as [|y t].
    + rewrite clean_exp_snoc. destruct (a =? 48) eqn:Ea; [zb; lia|]. rewrite andb_false_r. reflexivity.
    + destruct (last4 (sg :: a :: b :: y :: t)) as (p & a1 & a2 & a3 & a4 & E4); [cbn [length]; lia|].
      change (q ++ 101 :: sg :: a :: b :: y :: t) with (q ++ [101] ++ (sg :: a :: b :: y :: t)). rewrite E4, !app_assoc, clean_exp_snoc.
      assert (Ha : a1 <> 101).
      { assert (Hin : In a1 (sg :: a :: b :: y :: t)) by (rewrite E4; apply in_or_app; right; left; reflexivity).
        destruct Hin as [<-|[<-|[<-|Hin]]]; [exact Hs|lia|unfold digit in B; lia|]. rewrite Forall_forall in T. apply T in Hin. unfold digit in Hin. lia. }
      destruct (a1 =? 101) eqn:Ea; [zb; lia|]. reflexivity.
Qed.
Lemma exp_digits_lit x : exp_lit (101 :: exp_digits x).
Proof.
  unfold exp_digits. destruct (utoa_spec (Z.abs x) ltac:(lia)) as [I _]. apply int_lit_digits in I. destruct I as [I1 I2].
  assert (D : digits1 ((if (0 <=? x) && (x <? 10) then [48] else []) ++ utoa (Z.abs x))).
  { split; [destruct (_ && _); [discriminate|exact I1]|]. apply Forall_app. split; [|exact I2]. destruct (_ && _); repeat constructor; unfold digit; lia. }
  destruct (x <? 0); [apply (exp_some 101 [45])|apply (exp_some 101 [43])]; auto.
Qed.
Lemma float_number f t : float_ok f -> encode_float [] f = (t, None) -> number_lit t.
Proof.
  destruct f as [|n|n|n ds dp]; cbn [encode_float float_ok app]; intros F E; try discriminate.
  - injection E as <-. apply fmt_f_zero.
  - destruct (_ || _); injection E as <-; [|apply fmt_f_number, F]. rewrite fmt_e_clean by exact F.
    destruct F as (F & d & u & -> & N & _). inversion F as [|? ? Fd Fu]; subst. cbn [firstn skipn].
    apply number_intro; [apply neg_sign| | |apply exp_digits_lit].
    + apply int_pos; [unfold digit in Fd; lia|constructor].
    + destruct u; constructor. split; [discriminate|assumption].
Qed.

(** * Times, bytes, tokens *)
Lemma plain_string t : Forall (fun c => 0x20 <= c < 256 /\ c <> 34 /\ c <> 92) t -> string_lit (quote t).
Proof. intros H. exists t. split; [reflexivity|]. induction H as [|c t (H1 & H2 & H3) H IH]; constructor; assumption. Qed.
Lemma time_string t : Forall time_char t -> string_lit (quote t).
Proof. intros H. apply plain_string. eapply Forall_impl; [|exact H]. unfold time_char. cbv beta. intros; lia. Qed.
Definition b64_byte (c : Z) : Prop := 48 <= c <= 57 \/ 65 <= c <= 90 \/ 97 <= c <= 122 \/ c = 43 \/ c = 47 \/ c = 61.
Lemma b64_char_byte n : 0 <= n < 64 -> b64_byte (b64_char n).
Proof.
  intros H. assert (X : forallb (fun n => let c := b64_char (Z.of_nat n) in (48 <=? c) && (c <=? 57) || (65 <=? c) && (c <=? 90) || (97 <=? c) && (c <=? 122) || (c =? 43) || (c =? 47)) (seq 0 64) = true) by (vm_compute; reflexivity).
  rewrite forallb_forall in X. specialize (X (Z.to_nat n)). rewrite in_seq in X. specialize (X ltac:(lia)). rewrite Z2Nat.id in X by lia. cbv zeta in X.
  rewrite !orb_true_iff, !andb_true_iff, !Z.leb_le, !Z.eqb_eq in X. unfold b64_byte. lia.
Qed.
Lemma b64_bytes n : forall s, (length s <= n)%nat -> wf s -> Forall b64_byte (b64 s).
Proof.
  assert (E : b64_byte 61) by (unfold b64_byte; lia).
  induction n as [|n IH]; intros s L W; destruct s as [|x [|y [|z s]]]; cbn [length] in L; try lia; cbn [b64]; try apply Forall_nil;
    repeat (let H := fresh in inversion W as [|? ? H W']; subst; clear W; rename W' into W; unfold is_byte in H);
    repeat (apply Forall_cons; [first [exact E|apply b64_char_byte; Z.to_euclidean_division_equations; lia]|]); try apply Forall_nil.
  apply IH; [lia|exact W].
Qed.
Lemma b64_string s : wf s -> string_lit (quote (b64 s)).
Proof. intros W. apply plain_string. eapply Forall_impl; [|apply (b64_bytes (length s)); auto]. unfold b64_byte. cbv beta. intros; lia. Qed.
Lemma lit_string v : string_lit v -> lit_token v. Proof. unfold lit_token. tauto. Qed.
Lemma lit_number v : number_lit v -> lit_token v. Proof. unfold lit_token. tauto. Qed.
Lemma raw_token html v : lit_token v -> lit_token (raw_string (html && rv_string v) v).
Proof.
  intros L. destruct html; cbn [andb]; [|exact L]. destruct (rv_string v) eqn:E; [|exact L].
  apply lit_string, raw_string_lit. destruct L as [L|[L|[->|[->| ->]]]]; try discriminate; [exact L|].
  destruct (number_head v L) as (x & t & -> & Hx). cbn in E. apply Z.eqb_eq in E. lia.
Qed.
Lemma num_clean_ok n v r : num_clean n -> parse_number n = POk v r -> n = [] \/ number_lit n.
Proof.
  intros [H|[H|H]] E; auto. exfalso. apply parse_number_sound in E. destruct E as (E & N). eapply H; eassumption.
Qed.
