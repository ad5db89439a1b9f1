(** Lemmas about the string encoder and decoder. *)
From Verif Require Import Bytes AsciiModel AsciiFacts Utf8Model ParseModel StringModel SpecJson SpecString ParseFacts Utf8Facts.

(** * Hexadecimal digits *)
Lemma hex_val_hex1 c v : hex_val c = Some v <-> hex1 c v.
Proof.
  split.
  - unfold hex_val. intros H.
    destruct ((48 <=? c) && (c <=? 57)) eqn:A; [bprop; injection H as <-; constructor; lia|].
    destruct ((65 <=? c) && (c <=? 70)) eqn:B; [bprop; injection H as <-; constructor; lia|].
    destruct ((97 <=? c) && (c <=? 102)) eqn:C; [bprop; injection H as <-; constructor; lia|discriminate].
  - intros H; destruct H as [c B|c B|c B]; unfold hex_val.
    + replace ((48 <=? c) && (c <=? 57)) with true; [reflexivity|].
      symmetry; apply andb_true_iff; split; apply Z.leb_le; lia.
    + replace ((48 <=? c) && (c <=? 57)) with false.
      * replace ((65 <=? c) && (c <=? 70)) with true; [reflexivity|].
        symmetry; apply andb_true_iff; split; apply Z.leb_le; lia.
      * symmetry; apply andb_false_iff; right; apply Z.leb_gt; lia.
    + replace ((48 <=? c) && (c <=? 57)) with false.
      * replace ((65 <=? c) && (c <=? 70)) with false.
        -- replace ((97 <=? c) && (c <=? 102)) with true; [reflexivity|].
           symmetry; apply andb_true_iff; split; apply Z.leb_le; lia.
        -- symmetry; apply andb_false_iff; right; apply Z.leb_gt; lia.
      * symmetry; apply andb_false_iff; right; apply Z.leb_gt; lia.
Qed.
Lemma hex1_digit c v : hex1 c v -> hex_digit c.
Proof. intros H; destruct H; unfold hex_digit; lia. Qed.
Lemma hex_digit_hex1 c : hex_digit c -> exists v, hex1 c v.
Proof. intros H. apply hex_val_iff in H. destruct H as [x H]. exists x. apply hex_val_hex1. exact H. Qed.
Lemma hex1_det c v v' : hex1 c v -> hex1 c v' -> v = v'.
Proof. rewrite <- !hex_val_hex1. congruence. Qed.
Lemma hex1_bound c v : hex1 c v -> 0 <= v < 16.
Proof. intros H; destruct H; lia. Qed.
Lemma hex4v_det h r r' : hex4v h r -> hex4v h r' -> r = r'.
Proof.
  intros H. destruct H as [a b c d va vb vc vd Ha Hb Hc Hd]. intros H'.
  inversion H' as [a' b' c' d' va' vb' vc' vd' Ha' Hb' Hc' Hd' E1 E2]; subst.
  rewrite (hex1_det _ _ _ Ha Ha'), (hex1_det _ _ _ Hb Hb'), (hex1_det _ _ _ Hc Hc'), (hex1_det _ _ _ Hd Hd').
  reflexivity.
Qed.
Lemma hex4v_len h r : hex4v h r -> length h = 4%nat.
Proof. intros H; destruct H; reflexivity. Qed.
Lemma hex4v_bound h r : hex4v h r -> 0 <= r < 65536.
Proof.
  intros H; destruct H as [a b c d va vb vc vd Ha Hb Hc Hd].
  apply hex1_bound in Ha, Hb, Hc, Hd. lia.
Qed.
Lemma hex4v_wf h r : hex4v h r -> wf h.
Proof.
  intros H; destruct H as [a b c d va vb vc vd Ha Hb Hc Hd].
  apply hex1_digit in Ha, Hb, Hc, Hd. unfold hex_digit in *.
  repeat (apply Forall_cons; [unfold is_byte; lia|]). constructor.
Qed.
Lemma hex4v_body h r s : hex4v h r -> str_body s -> str_body (92 :: 117 :: h ++ s).
Proof.
  intros H S; destruct H as [a b c d va vb vc vd Ha Hb Hc Hd]. cbn [app].
  apply sb_uni; eauto using hex1_digit.
Qed.
Lemma parse_unicode_hex4v h r s : hex4v h r -> parse_unicode (h ++ s) = Some r.
Proof.
  intros H; destruct H as [a b c d va vb vc vd Ha Hb Hc Hd]. cbn [app].
  rewrite parse_unicode_cons. apply hex_val_hex1 in Ha, Hb, Hc, Hd. rewrite Ha, Hb, Hc, Hd.
  unfold hex4. f_equal. lia.
Qed.
Lemma hex4_ex a b c d : hex_digit a -> hex_digit b -> hex_digit c -> hex_digit d -> exists r, hex4v [a; b; c; d] r.
Proof.
  intros Ha Hb Hc Hd. apply hex_digit_hex1 in Ha, Hb, Hc, Hd.
  destruct Ha, Hb, Hc, Hd. eexists. constructor; eassumption.
Qed.

(** * The denotation of a string body is unique *)
Lemma utf8_seq_hd r e : utf8_seq r e -> exists c t, e = c :: t /\ ((r < 0x80 /\ c = r /\ t = []) \/ (0x80 <= r /\ 0x80 <= c)).
Proof. intros H. destruct H; do 2 eexists; (split; [reflexivity|]); try (left; repeat split; lia); right; lia. Qed.

Lemma utf8_seq_no92 r e c t : utf8_seq r e -> r <> 92 -> e = c :: t -> c <> 92.
Proof.
  intros H N E. destruct (utf8_seq_hd _ _ H) as (c' & t' & E' & D). rewrite E in E'. injection E' as -> _. lia.
Qed.

Lemma sd_inv_char r e s l : str_denotes (e ++ s) l -> utf8_seq r e -> r <> 92 ->
  exists l2, l = r :: l2 /\ str_denotes s l2.
Proof.
  intros H U N. remember (e ++ s) as b eqn:Eb. symmetry in Eb.
  destruct H as [|r' e' s' l' U' B1 B2 B3 H'|c' s' l' B1 NS H'|e' v' s' l' SE H'|h r' s' l' Hh Hs H'
                |h1 r1 h2 r2 s' l' Hh1 Hs1 Hh2 Hs2 H'|h r' s' l' Hh Hs Hn H'].
  - exfalso. destruct e; [exact (utf8_seq_nonnil _ _ U eq_refl)|discriminate].
  - destruct (utf8_seq_prefix _ _ _ _ _ _ U U' Eb) as (-> & -> & ->). eauto.
  - exfalso. exact (NS _ _ _ U (eq_sym Eb)).
  - exfalso. destruct e as [|c t]; [exact (utf8_seq_nonnil _ _ U eq_refl)|]. injection Eb as E1 E2.
    exact (utf8_seq_no92 _ _ _ _ U N eq_refl E1).
  - exfalso. destruct e as [|c t]; [exact (utf8_seq_nonnil _ _ U eq_refl)|]. injection Eb as E1 E2.
    exact (utf8_seq_no92 _ _ _ _ U N eq_refl E1).
  - exfalso. destruct e as [|c t]; [exact (utf8_seq_nonnil _ _ U eq_refl)|]. injection Eb as E1 E2.
    exact (utf8_seq_no92 _ _ _ _ U N eq_refl E1).
  - exfalso. destruct e as [|c t]; [exact (utf8_seq_nonnil _ _ U eq_refl)|]. injection Eb as E1 E2.
    exact (utf8_seq_no92 _ _ _ _ U N eq_refl E1).
Qed.
Lemma sd_inv_bad c s l : str_denotes (c :: s) l -> 0x80 <= c -> no_seq (c :: s) ->
  exists l2, l = 0xFFFD :: l2 /\ str_denotes s l2.
Proof.
  intros H B NS. remember (c :: s) as b eqn:Eb. symmetry in Eb.
  destruct H as [|r' e' s' l' U' B1 B2 B3 H'|c' s' l' B1 NS' H'|e' v' s' l' SE H'|h r' s' l' Hh Hs H'
                |h1 r1 h2 r2 s' l' Hh1 Hs1 Hh2 Hs2 H'|h r' s' l' Hh Hs Hn H'].
  - discriminate.
  - exfalso. exact (NS _ _ _ U' eq_refl).
  - injection Eb as -> ->. eauto.
  - injection Eb as -> _. lia.
  - injection Eb as -> _. lia.
  - injection Eb as -> _. lia.
  - injection Eb as -> _. lia.
Qed.
Lemma utf8_seq_92 r e t s : utf8_seq r e -> r <> 92 -> e ++ s = 92 :: t -> False.
Proof.
  intros U N E. destruct e as [|c e]; [exact (utf8_seq_nonnil _ _ U eq_refl)|]. injection E as E1 E2.
  exact (utf8_seq_no92 _ _ _ _ U N eq_refl E1).
Qed.
Lemma sd_inv_short e v s l : str_denotes (92 :: e :: s) l -> short_esc e v ->
  exists l2, l = v :: l2 /\ str_denotes s l2.
Proof.
  intros H SE. remember (92 :: e :: s) as b eqn:Eb. symmetry in Eb.
  destruct H as [|r' e' s' l' U' B1 B2 B3 H'|c' s' l' B1 NS' H'|e' v' s' l' SE' H'|h r' s' l' Hh Hs H'
                |h1 r1 h2 r2 s' l' Hh1 Hs1 Hh2 Hs2 H'|h r' s' l' Hh Hs Hn H'].
  - discriminate.
  - exfalso. exact (utf8_seq_92 _ _ _ _ U' B3 (eq_sym Eb)).
  - injection Eb as <- _. lia.
  - injection Eb as -> ->. exists l'. split; [|assumption]. f_equal. destruct SE; inversion SE'; reflexivity.
  - injection Eb as -> _. inversion SE.
  - injection Eb as -> _. inversion SE.
  - injection Eb as -> _. inversion SE.
Qed.
Lemma app_len_inj {A} (a b c d : list A) : length a = length b -> a ++ c = b ++ d -> a = b /\ c = d.
Proof.
  revert b. induction a as [|x a IH]; intros [|y b] L E; cbn in L; try lia; [auto|].
  cbn in E. injection E as -> E. destruct (IH b) as [-> ->]; auto.
Qed.
Lemma not_sur_scalar r : scalar r -> high_sur r \/ low_sur r -> False.
Proof. unfold scalar, high_sur, low_sur. lia. Qed.
Lemma sd_inv_uni h r s l : str_denotes (92 :: 117 :: h ++ s) l -> hex4v h r ->
  (scalar r /\ exists l2, l = r :: l2 /\ str_denotes s l2) \/
  (high_sur r /\ exists h2 r2 s' l2, hex4v h2 r2 /\ low_sur r2 /\ s = 92 :: 117 :: h2 ++ s' /\
      l = 0x10000 + (r - 0xD800) * 1024 + (r2 - 0xDC00) :: l2 /\ str_denotes s' l2) \/
  ((high_sur r \/ low_sur r) /\
   (forall h2 r2 t, high_sur r -> hex4v h2 r2 -> low_sur r2 -> s <> 92 :: 117 :: h2 ++ t) /\
   exists l2, l = 0xFFFD :: l2 /\ str_denotes s l2).
Proof.
  intros H Hh0. remember (92 :: 117 :: h ++ s) as b eqn:Eb. symmetry in Eb.
  destruct H as [|r' e' s' l' U' B1 B2 B3 H'|c' s' l' B1 NS' H'|e' v' s' l' SE' H'|h' r' s' l' Hh Hs H'
                |h1 r1 h2 r2 s' l' Hh1 Hs1 Hh2 Hs2 H'|h' r' s' l' Hh Hs Hn H'].
  - discriminate.
  - exfalso. exact (utf8_seq_92 _ _ _ _ U' B3 (eq_sym Eb)).
  - injection Eb as <- _. lia.
  - injection Eb as <- _. inversion SE'.
  - injection Eb as Eb. apply app_len_inj in Eb; [|rewrite (hex4v_len _ _ Hh0), (hex4v_len _ _ Hh); reflexivity].
    destruct Eb as [-> ->]. rewrite (hex4v_det _ _ _ Hh0 Hh). left. eauto.
  - injection Eb as Eb. apply app_len_inj in Eb; [|rewrite (hex4v_len _ _ Hh0), (hex4v_len _ _ Hh1); reflexivity].
    destruct Eb as [-> ->]. rewrite (hex4v_det _ _ _ Hh0 Hh1). right. left. split; [assumption|].
    exists h2, r2, s', l'. auto.
  - injection Eb as Eb. apply app_len_inj in Eb; [|rewrite (hex4v_len _ _ Hh0), (hex4v_len _ _ Hh); reflexivity].
    destruct Eb as [-> ->]. rewrite (hex4v_det _ _ _ Hh0 Hh). right. right. eauto 6.
Qed.

Lemma str_denotes_det b l : str_denotes b l -> forall l', str_denotes b l' -> l = l'.
Proof.
  intros H. induction H as [|r' e' s' l' U' B1 B2 B3 H' IH|c' s' l' B1 NS' H' IH|e' v' s' l' SE' H' IH|h' r' s' l' Hh Hs H' IH
                |h1 r1 h2 r2 s' l' Hh1 Hs1 Hh2 Hs2 H' IH|h' r' s' l' Hh Hs Hn H' IH]; intros l2 H2.
  - inversion H2 as [|r e s l U B1 B2 B3 H' E1 E2| | | | |]; [reflexivity|]. exfalso.
    destruct e; [exact (utf8_seq_nonnil _ _ U eq_refl)|discriminate].
  - destruct (sd_inv_char _ _ _ _ H2 U' B3) as (l3 & -> & H3). f_equal. auto.
  - destruct (sd_inv_bad _ _ _ H2 B1 NS') as (l3 & -> & H3). f_equal. auto.
  - destruct (sd_inv_short _ _ _ _ H2 SE') as (l3 & -> & H3). f_equal. auto.
  - destruct (sd_inv_uni _ _ _ _ H2 Hh) as [(S1 & l3 & -> & H3)|[(S1 & _)|(S1 & _)]].
    + f_equal. auto.
    + exfalso. eapply not_sur_scalar; eauto.
    + exfalso. eapply not_sur_scalar; eauto.
  - destruct (sd_inv_uni _ _ _ _ H2 Hh1) as [(S1 & _)|[(S1 & h3 & r3 & s3 & l3 & A & B & C & D & E)|(S1 & C & _)]].
    + exfalso. eapply not_sur_scalar; eauto.
    + injection C as C. apply app_len_inj in C; [|rewrite (hex4v_len _ _ Hh2), (hex4v_len _ _ A); reflexivity].
      destruct C as [-> ->]. rewrite (hex4v_det _ _ _ Hh2 A). subst l2. f_equal. auto.
    + exfalso. exact (C _ _ _ Hs1 Hh2 Hs2 eq_refl).
  - destruct (sd_inv_uni _ _ _ _ H2 Hh) as [(S1 & _)|[(S1 & h3 & r3 & s3 & l3 & A & B & C & D & E)|(S1 & C & l3 & -> & H3)]].
    + exfalso. eapply not_sur_scalar; eauto.
    + exfalso. exact (Hn _ _ _ S1 A B C).
    + f_equal. auto.
Qed.

Lemma str_denotes_scalar b l : str_denotes b l -> Forall scalar l.
Proof.
  induction 1; constructor; auto; try (eapply utf8_seq_scalar; eassumption); unfold scalar, high_sur, low_sur in *; try lia.
  destruct H; lia.
Qed.

(** * Decoding *)
Definition str_char (c : Z) : Prop := 0x20 <= c < 256 /\ c <> 34 /\ c <> 92.

Lemma str_body_split p t : ~ In 92 p -> str_body (p ++ t) -> Forall str_char p /\ str_body t.
Proof.
  induction p as [|c p IH]; intros N H; [split; [constructor|exact H]|].
  cbn [app] in H. inversion H; subst; try (exfalso; apply N; left; reflexivity).
  destruct IH as [A B]; [intros X; apply N; right; exact X|assumption|].
  split; [constructor; [unfold str_char; auto|exact A]|exact B].
Qed.

Lemma denotes_prefix lp p t l : utf8_lossy lp p -> Forall str_char p -> ncont t ->
  str_denotes t l -> str_denotes (p ++ t) (lp ++ l).
Proof.
  intros H. induction H as [|r l' e s U H IH|c l' s NS H IH]; intros F C D; [exact D| |].
  - apply Forall_app in F. destruct F as [F1 F2]. rewrite <- app_assoc. cbn [app].
    assert (0x20 <= r /\ r <> 34 /\ r <> 92) as (A1 & A2 & A3).
    { unfold str_char in F1. destruct (utf8_seq_hd _ _ U) as (c & t' & -> & [(X1 & X2 & X3)|(X1 & X2)]).
      - inversion F1; subst. lia.
      - lia. }
    apply sd_char; auto.
  - inversion F as [|c' s' F1 F2]; subst. cbn [app]. apply sd_bad; auto.
    + apply (no_seq_high c s); [unfold str_char in F1; lia|exact NS].
    + apply (no_seq_app (c :: s)); [discriminate|exact C|exact NS].
Qed.

Lemma str_char_wf p : Forall str_char p -> wf p.
Proof. apply Forall_impl. unfold str_char, is_byte. lia. Qed.

Lemma append_coerce_text r p : append_coerce r p = r ++ utf8_text (runes p).
Proof. reflexivity. Qed.
Lemma append_rune_text r c : append_rune r c = r ++ utf8_text [c].
Proof. unfold append_rune, utf8_text. cbn [flat_map]. rewrite app_nil_r. reflexivity. Qed.
Lemma app_byte_text r c : 0 <= c < 0x80 -> r ++ [c] = r ++ utf8_text [c].
Proof.
  intros B. unfold utf8_text. cbn [flat_map]. rewrite app_nil_r. f_equal. symmetry.
  apply encode_rune_seq. constructor. exact B.
Qed.

Lemma str_body_uni_inv s2 : str_body (92 :: 117 :: s2) ->
  exists h r s3, hex4v h r /\ s2 = h ++ s3 /\ str_body s3.
Proof.
  intros H. inversion H as [|c s B1 B2 B3 H' E|e s I H' E|h1 h2 h3 h4 s H1 H2 H3 H4 H' E]; subst.
  - congruence.
  - exfalso. cbn [In] in I. lia.
  - destruct (hex4_ex h1 h2 h3 h4) as [r R]; auto. exists [h1; h2; h3; h4], r, s. auto.
Qed.

Lemma unquote_loop_ok n : forall body, str_body body -> (length body <= n)%nat ->
  exists l, str_denotes body l /\ forall r, unquote_loop n body r = UOk (r ++ utf8_text l).
Proof.
  induction n as [|n IH]; intros body SB L.
  - destruct body; [|cbn in L; lia]. exists []. split; [constructor|]. intros r. cbn. rewrite app_nil_r. reflexivity.
  - destruct body as [|c0 b0].
    { exists []. split; [constructor|]. intros r. cbn. rewrite app_nil_r. reflexivity. }
    remember (c0 :: b0) as body eqn:Eb.
    assert (Hun : forall r, unquote_loop (S n) body r =
      match index_byte 92 body with
      | None => UOk (append_coerce r body)
      | Some i =>
          let r := append_coerce r (firstn i body) in
          match skipn (S i) body with
          | [] => UPanic
          | c :: s1 =>
              if (c =? 34) || (c =? 92) || (c =? 47) then unquote_loop n s1 (r ++ [c])
              else if c =? 110 then unquote_loop n s1 (r ++ [10])
              else if c =? 114 then unquote_loop n s1 (r ++ [13])
              else if c =? 116 then unquote_loop n s1 (r ++ [9])
              else if c =? 98 then unquote_loop n s1 (r ++ [8])
              else if c =? 102 then unquote_loop n s1 (r ++ [12])
              else if c =? 117 then
                match parse_unicode s1 with
                | None => UErr
                | Some r1 =>
                    let s2 := skipn 4 s1 in
                    if is_surrogate r1 then
                      if negb (has_prefix s2 [92; 117]) then
                        unquote_loop n s2 (append_rune r runeError)
                      else
                        match parse_unicode (skipn 2 s2) with
                        | None => UErr
                        | Some r2 =>
                            let r1 := utf16_decode r1 r2 in
                            let s3 := if r1 =? runeError then s2 else skipn 6 s2 in
                            unquote_loop n s3 (append_rune r r1)
                        end
                    else unquote_loop n s2 (append_rune r r1)
                end
              else UErr
          end
      end) by (subst body; reflexivity).
    clear Eb. pose proof (str_body_wf _ SB) as W.
    destruct (index_byte 92 body) as [i|] eqn:Ei.
    2:{ exists (runes body). apply index_byte_none in Ei. split.
        - rewrite <- (app_nil_r body) at 1. rewrite <- (app_nil_r (runes body)).
          apply denotes_prefix; [apply runes_lossy; exact W| |exact I|constructor].
          rewrite <- (app_nil_r body) in SB. apply (str_body_split body []); assumption.
        - intros r. rewrite Hun. rewrite append_coerce_text. reflexivity. }
    apply index_byte_some in Ei. destruct Ei as (p & q & E & Li & Np).
    assert (Lq : (length q <= n)%nat). { rewrite E, app_length in L. cbn in L. lia. }
    rewrite E in SB. destruct (str_body_split _ _ Np SB) as [Fp SBt].
    pose proof (str_char_wf _ Fp) as Wp.
    assert (E1 : firstn i body = p) by (rewrite E; apply firstn_app_len; auto).
    assert (E2 : skipn (S i) body = q).
    { rewrite E. change (92 :: q) with ([92] ++ q). rewrite app_assoc. apply skipn_app_len. rewrite app_length. cbn. lia. }
    rewrite E1, E2 in Hun. cbv zeta in Hun. clear E1 E2.
    assert (Fin : forall t l, t = 92 :: q -> str_denotes t l ->
                  (forall r, unquote_loop (S n) body r = UOk (append_coerce r p ++ utf8_text l)) ->
                  exists l, str_denotes body l /\ forall r, unquote_loop (S n) body r = UOk (r ++ utf8_text l)).
    { intros t l Et Dt Eq. subst t. exists (runes p ++ l). split.
      - rewrite E. apply denotes_prefix; [apply runes_lossy; exact Wp|exact Fp|cbn; lia|exact Dt].
      - intros r. rewrite Eq, append_coerce_text, utf8_text_app, app_assoc. reflexivity. }
    inversion SBt as [|c s B1 B2 B3 H' Eq|e s HI H' Eq|h1 h2 h3 h4 s H1 H2 H3 H4 H' Eq]; subst q.
    + congruence.
    + cbn [length] in Lq. destruct (IH s H') as (l & D & U); [lia|].
      cbn [In] in HI.
      assert (SE : exists v, short_esc e v /\ forall r, unquote_loop (S n) body r = unquote_loop n s (append_coerce r p ++ [v])).
      { intuition subst; eexists; (split; [constructor|]); intros r; rewrite Hun; reflexivity. }
      destruct SE as (v & SE & Ev).
      apply (Fin _ (v :: l) eq_refl); [apply sd_short; assumption|].
      intros r. rewrite Ev, U, app_byte_text by (destruct SE; lia).
      rewrite <- app_assoc, <- utf8_text_app. reflexivity.
    + destruct (hex4_ex h1 h2 h3 h4) as [u Hu]; auto.
      change (h1 :: h2 :: h3 :: h4 :: s) with ([h1; h2; h3; h4] ++ s) in *.
      set (h := [h1; h2; h3; h4]) in *.
      pose proof (hex4v_bound _ _ Hu) as Bu.
      cbn [length] in Lq. rewrite app_length in Lq. change (length h) with 4%nat in Lq.
      assert (Hun2 : forall r, unquote_loop (S n) body r =
         if is_surrogate u then
            if negb (has_prefix s [92; 117]) then unquote_loop n s (append_rune (append_coerce r p) runeError)
            else match parse_unicode (skipn 2 s) with
                 | None => UErr
                 | Some r2 => let r1 := utf16_decode u r2 in
                     let s3 := if r1 =? runeError then s else skipn 6 s in
                     unquote_loop n s3 (append_rune (append_coerce r p) r1)
                 end
         else unquote_loop n s (append_rune (append_coerce r p) u)).
      { intros r. rewrite Hun. change ((117 =? 34) || (117 =? 92) || (117 =? 47)) with false.
        change (117 =? 110) with false. change (117 =? 114) with false. change (117 =? 116) with false.
        change (117 =? 98) with false. change (117 =? 102) with false. change (117 =? 117) with true. cbv iota.
        rewrite (parse_unicode_hex4v _ _ s Hu).
        replace (skipn 4 (h ++ s)) with s by reflexivity. reflexivity. }
      clear Hun.
      destruct (is_surrogate u) eqn:Su.
      2:{ destruct (IH s H') as (l & D & U); [lia|].
          apply (Fin _ (u :: l) eq_refl).
          - apply sd_uni; auto. unfold is_surrogate in Su. apply in_rng_false in Su. unfold scalar. lia.
          - intros r. rewrite Hun2, U, append_rune_text, <- app_assoc, <- utf8_text_app. reflexivity. }
      unfold is_surrogate in Su. apply in_rng_iff in Su.
      assert (Lone : (forall h2 r2 t, high_sur u -> hex4v h2 r2 -> low_sur r2 -> s <> 92 :: 117 :: h2 ++ t) ->
         (forall r, unquote_loop (S n) body r = unquote_loop n s (append_rune (append_coerce r p) runeError)) ->
         exists l, str_denotes body l /\ forall r, unquote_loop (S n) body r = UOk (r ++ utf8_text l)).
      { intros Hn Hr. destruct (IH s H') as (l & D & U); [lia|].
        apply (Fin _ (0xFFFD :: l) eq_refl).
        - eapply sd_lone; eauto. unfold high_sur, low_sur. lia.
        - intros r. rewrite Hr, U, append_rune_text, <- app_assoc, <- utf8_text_app. reflexivity. }
      destruct (has_prefix s [92; 117]) eqn:Pf.
      2:{ apply Lone.
          - intros h2' r2 t _ _ _ Es. assert (has_prefix s [92; 117] = true); [|congruence].
            apply has_prefix_iff. exists (h2' ++ t). exact Es.
          - intros r. rewrite Hun2. reflexivity. }
      apply has_prefix_iff in Pf. destruct Pf as [s2 Es]. cbn [app] in Es.
      rewrite Es in H'. destruct (str_body_uni_inv _ H') as (g & u2 & s3 & Hg & Es2 & SB3).
      rewrite Es, Es2 in Hun2. change (skipn 2 (92 :: 117 :: g ++ s3)) with (g ++ s3) in Hun2.
      rewrite (parse_unicode_hex4v _ _ s3 Hg) in Hun2. cbn [negb] in Hun2. cbv zeta in Hun2.
      pose proof (hex4v_bound _ _ Hg) as Bg.
      unfold utf16_decode in Hun2.
      destruct (in_rng 0xD800 0xDBFF u && in_rng 0xDC00 0xDFFF u2) eqn:Pr.
      * apply andb_true_iff in Pr. destruct Pr as [Pr1 Pr2]. apply in_rng_iff in Pr1, Pr2.
        destruct (IH s3 SB3) as (l & D & U).
        { rewrite Es, Es2 in Lq. cbn [length] in Lq. rewrite app_length in Lq. lia. }
        apply (Fin _ (0x10000 + (u - 0xD800) * 1024 + (u2 - 0xDC00) :: l) eq_refl).
        -- rewrite Es, Es2. apply sd_pair; auto.
        -- intros r. rewrite Hun2. replace ((u - 0xD800) * 1024 + (u2 - 0xDC00) + 0x10000 =? runeError) with false.
           2:{ symmetry. apply Z.eqb_neq. unfold runeError. lia. }
           replace (skipn 6 (92 :: 117 :: g ++ s3)) with s3.
           2:{ pose proof (hex4v_len _ _ Hg) as Lg. symmetry.
               change (92 :: 117 :: g ++ s3) with ([92; 117] ++ g ++ s3). rewrite app_assoc. apply skipn_app_len.
               rewrite app_length. cbn. lia. }
           rewrite U, append_rune_text, <- app_assoc, <- utf8_text_app.
           replace ((u - 0xD800) * 1024 + (u2 - 0xDC00) + 0x10000) with (0x10000 + (u - 0xD800) * 1024 + (u2 - 0xDC00)) by lia.
           reflexivity.
      * rewrite <- Es2, <- Es in *. change (runeError =? runeError) with true in Hun2. cbv iota in Hun2.
        apply Lone; [|intros r; apply Hun2].
        intros h2' r2 t Hh H2' Hl Ex. rewrite Es, Es2 in Ex. injection Ex as Ex.
        apply app_len_inj in Ex; [|rewrite (hex4v_len _ _ Hg), (hex4v_len _ _ H2'); reflexivity].
        destruct Ex as [-> ->]. rewrite (hex4v_det _ _ _ Hg H2') in Pr.
        unfold high_sur, low_sur in *. apply andb_false_iff in Pr. rewrite !in_rng_false in Pr. lia.
Qed.

Lemma plain_denotes body : plain body = true -> ~ In 34 body -> str_denotes body body /\ utf8_text body = body.
Proof.
  unfold plain. intros H N. apply andb_true_iff in H. destruct H as [H1 H2].
  apply negb_true_iff in H2.
  assert (N92 : ~ In 92 body). { intros X. apply existsb_in in X. congruence. }
  clear H2. induction body as [|c b IH]; [split; [constructor|reflexivity]|].
  cbn [forallb] in H1. apply andb_true_iff in H1. destruct H1 as [A B]. unfold printable in A.
  apply andb_true_iff in A. destruct A as [A1 A2]. apply Z.leb_le in A1, A2.
  destruct IH as [I1 I2]; auto; [intros X; apply N; right; exact X|intros X; apply N92; right; exact X|].
  assert (U : utf8_seq c [c]) by (constructor; lia).
  split.
  - change (c :: b) with ([c] ++ b) at 1. apply sd_char; auto.
    + intros ->. apply N. left. reflexivity.
    + intros ->. apply N92. left. reflexivity.
  - unfold utf8_text in *. cbn [flat_map]. rewrite (encode_rune_seq _ _ U), I2. reflexivity.
Qed.

Lemma str_body_no34 body : str_body body -> ~ In 92 body -> ~ In 34 body.
Proof.
  induction 1; intros N I; cbn [In] in *; try tauto.
Qed.

(** parseStringUnquote on a string literal: the UTF-8 text of the characters
    it denotes, appended to the scratch buffer if that was used. *)
Lemma parse_string_unquote_ok body l rest r : str_body body -> str_denotes body l ->
  parse_string_unquote ((34 :: body ++ [34]) ++ rest) r =
    if plain body then QOk (utf8_text l) rest false else QOk (r ++ utf8_text l) rest true.
Proof.
  intros SB D. unfold parse_string_unquote.
  rewrite (parse_string_fast_complete body rest (str_body_wf _ SB) SB).
  assert (E : firstn (length (34 :: body ++ [34]) - 2) (skipn 1 (34 :: body ++ [34])) = body).
  { cbn [length skipn]. rewrite app_length. cbn [length].
    replace (S (length body + 1) - 2)%nat with (length body) by lia. apply firstn_app_len. reflexivity. }
  rewrite E. rewrite negb_involutive. destruct (plain body) eqn:P.
  - unfold plain in P. assert (P' := P). apply andb_true_iff in P'. destruct P' as [_ P2]. apply negb_true_iff in P2.
    assert (N92 : ~ In 92 body). { intros X. apply existsb_in in X. congruence. }
    destruct (plain_denotes body P (str_body_no34 _ SB N92)) as [D2 T].
    rewrite (str_denotes_det _ _ D _ D2), T. reflexivity.
  - destruct (unquote_loop_ok (length body) body SB) as (l' & D' & U); [lia|].
    rewrite U. rewrite (str_denotes_det _ _ D _ D'). reflexivity.
Qed.
Lemma str_body_denotes body : str_body body -> exists l, str_denotes body l.
Proof. intros SB. destruct (unquote_loop_ok (length body) body SB) as (l & D & _); [lia|eauto]. Qed.

(** * Encoding *)
Inductive esc_rel (html : bool) : Z -> bytes -> Prop :=
| er_raw r e : utf8_seq r e -> 0x20 <= r -> r <> 34 -> r <> 92 -> (html = true -> is_html r = false) ->
               r <> 0x2028 -> r <> 0x2029 -> esc_rel html r e
| er_short c v : In c [34; 92; 110; 114; 116] -> short_esc c v -> esc_rel html v [92; c]
| er_u r : 0 <= r < 0x20 \/ is_html r = true -> esc_rel html r (u00 r)
| er_202 r : r = 0x2028 \/ r = 0x2029 -> esc_rel html r (u202 r).

Inductive enc_rel (html : bool) : bytes -> bytes -> list Z -> Prop :=
| en_nil : enc_rel html [] [] []
| en_seq r e x s out l : utf8_seq r e -> esc_rel html r x -> enc_rel html s out l ->
                         enc_rel html (e ++ s) (x ++ out) (r :: l)
| en_bad c s out l : no_seq (c :: s) -> enc_rel html s out l ->
                     enc_rel html (c :: s) (ufffd ++ out) (0xFFFD :: l).

Lemma seq1 c : 0 <= c < 0x80 -> utf8_seq c [c].
Proof. intros; constructor; assumption. Qed.

Lemma encode_string_loop_ok html n : forall s, wf s -> (length s <= n)%nat ->
  exists out l, enc_rel html s out l /\
    forall b pend, encode_string_loop n html b pend s = Some (b ++ pend ++ out ++ [34]).
Proof.
  induction n as [|n IH]; intros s W L.
  - destruct s; [|cbn in L; lia]. exists [], []. split; [constructor|]. reflexivity.
  - destruct s as [|c s]; [exists [], []; split; [constructor|reflexivity]|].
    assert (W' := W). apply wf_cons in W'. destruct W' as [Wc Ws]. unfold is_byte in Wc.
    assert (Ls : (length s <= n)%nat) by (cbn in L; lia).
    (* one-byte characters *)
    assert (One : forall x, 0 <= c < 0x80 -> esc_rel html c x ->
       (forall b pend, encode_string_loop (S n) html b pend (c :: s) = encode_string_loop n html (b ++ pend ++ x) [] s) ->
       exists out l, enc_rel html (c :: s) out l /\
         forall b pend, encode_string_loop (S n) html b pend (c :: s) = Some (b ++ pend ++ out ++ [34])).
    { intros x B X Eq. destruct (IH s Ws Ls) as (out & l & R & H).
      exists (x ++ out), (c :: l). split.
      - change (c :: s) with ([c] ++ s). apply en_seq; auto using seq1.
      - intros b pend. rewrite Eq, H. cbn [app]. rewrite <- !app_assoc. reflexivity. }
    assert (Hun : forall b pend, encode_string_loop (S n) html b pend (c :: s) =
      if fast_char html c then encode_string_loop n html b (pend ++ [c]) s
      else if (c =? 92) || (c =? 34) then encode_string_loop n html (b ++ pend ++ [92; c]) [] s
      else if c =? 10 then encode_string_loop n html (b ++ pend ++ [92; 110]) [] s
      else if c =? 13 then encode_string_loop n html (b ++ pend ++ [92; 114]) [] s
      else if c =? 9 then encode_string_loop n html (b ++ pend ++ [92; 116]) [] s
      else if is_html c then encode_string_loop n html (b ++ pend ++ u00 c) [] s
      else if c <? 0x20 then encode_string_loop n html (b ++ pend ++ u00 c) [] s
      else
        let '(r, size) := decode_rune (c :: s) in
        if (r =? runeError) && Nat.eqb size 1 then
          encode_string_loop n html (b ++ pend ++ ufffd) [] (skipn size (c :: s))
        else if (r =? 0x2028) || (r =? 0x2029) then
          encode_string_loop n html (b ++ pend ++ u202 r) [] (skipn size (c :: s))
        else encode_string_loop n html b (pend ++ firstn size (c :: s)) (skipn size (c :: s))) by reflexivity.
    destruct (fast_char html c) eqn:F.
    { unfold fast_char in F. apply andb_true_iff in F. destruct F as [F FH]. bprop. destruct (IH s Ws Ls) as (out & l & R & HH).
      exists ([c] ++ out), (c :: l). split.
      - change (c :: s) with ([c] ++ s). apply en_seq; [apply seq1; lia| |exact R].
        apply er_raw; try lia; [apply seq1; lia|]. intros ->. bprop. destruct FH as [X|X]; bprop; congruence.
      - intros b pend. rewrite Hun, HH. rewrite <- !app_assoc. reflexivity. }
    destruct ((c =? 92) || (c =? 34)) eqn:E1.
    { apply (One [92; c]); [bprop; destruct E1; bprop; lia| |exact Hun].
      bprop. apply er_short; [|destruct E1; bprop; subst; constructor]. destruct E1; bprop; subst; cbn; auto. }
    destruct (c =? 10) eqn:E2.
    { bprop. subst c. apply (One [92; 110]); [lia| |exact Hun]. apply er_short; [cbn; auto|constructor]. }
    destruct (c =? 13) eqn:E3.
    { bprop. subst c. apply (One [92; 114]); [lia| |exact Hun]. apply er_short; [cbn; auto|constructor]. }
    destruct (c =? 9) eqn:E4.
    { bprop. subst c. apply (One [92; 116]); [lia| |exact Hun]. apply er_short; [cbn; auto 6|constructor]. }
    destruct (is_html c) eqn:E5.
    { apply (One (u00 c)); [|apply er_u; auto|exact Hun]. unfold is_html in E5. bprop.
      destruct E5 as [E5|E5]; bprop; [destruct E5; bprop|]; lia. }
    destruct (c <? 0x20) eqn:E6.
    { bprop. apply (One (u00 c)); [lia|apply er_u; lia|exact Hun]. }
    bprop.
    assert (Hc : 0x80 <= c).
    { destruct (Z_lt_dec c 0x80); [exfalso|lia].
      assert (fast_char html c = true); [|congruence].
      unfold fast_char. rewrite E5. cbn [negb].
      replace (0x20 <=? c) with true by (symmetry; apply Z.leb_le; lia).
      replace (c <=? 0x7f) with true by (symmetry; apply Z.leb_le; lia).
      replace (c =? 92) with false by (symmetry; apply Z.eqb_neq; lia).
      replace (c =? 34) with false by (symmetry; apply Z.eqb_neq; lia). destruct html; reflexivity. }
    destruct (decode_rune_spec (c :: s) W ltac:(discriminate)) as [(r & e & t & E & U & D)|[NS D]]; rewrite D in Hun.
    + assert (Sk : skipn (length e) (c :: s) = t) by (rewrite E; apply skipn_app_len; reflexivity).
      assert (Fi : firstn (length e) (c :: s) = e) by (rewrite E; apply firstn_app_len; reflexivity).
      rewrite Sk, Fi in Hun.
      assert (Wt : wf t) by (rewrite E in W; apply wf_app in W; tauto).
      assert (Lt : (length t <= n)%nat).
      { pose proof (utf8_seq_len _ _ U). assert (X := f_equal (@length Z) E). rewrite app_length in X. cbn in X. lia. }
      assert (Hr : 0x80 <= r).
      { destruct (utf8_seq_hd _ _ U) as (c' & t' & -> & [(X1 & X2 & X3)|(X1 & X2)]); [|exact X1].
        cbn [app] in E. injection E as E _. lia. }
      destruct (IH t Wt Lt) as (out & l & R & HH).
      replace ((r =? runeError) && Nat.eqb (length e) 1) with false in Hun.
      2:{ symmetry. apply andb_false_iff. destruct (r =? runeError) eqn:Q; [|left; reflexivity]. right. bprop.
          subst r. rewrite <- (encode_rune_seq _ _ U). reflexivity. }
      destruct ((r =? 0x2028) || (r =? 0x2029)) eqn:Q.
      * exists (u202 r ++ out), (r :: l). split.
        -- rewrite E. apply en_seq; auto. apply er_202. bprop. destruct Q; bprop; auto.
        -- intros b pend. rewrite Hun, HH. cbn [app]. rewrite <- !app_assoc. reflexivity.
      * exists (e ++ out), (r :: l). bprop. split.
        -- rewrite E. apply en_seq; auto. apply er_raw; auto; try lia.
           intros _. unfold is_html. zdec. reflexivity.
        -- intros b pend. rewrite Hun, HH. rewrite <- !app_assoc. reflexivity.
    + change (skipn 1 (c :: s)) with s in Hun. change ((runeError =? runeError) && Nat.eqb 1 1) with true in Hun.
      cbv iota in Hun. destruct (IH s Ws Ls) as (out & l & R & HH).
      exists (ufffd ++ out), (0xFFFD :: l). split; [apply en_bad; auto|].
      intros b pend. rewrite Hun, HH. cbn [app]. rewrite <- !app_assoc. reflexivity.
Qed.

Lemma do_encode_string_ok html s : wf s -> exists out l, enc_rel html s out l /\
  forall b, do_encode_string html b s = b ++ 34 :: out ++ [34].
Proof.
  intros W. destruct (encode_string_loop_ok html (length s) s W) as (out & l & R & H); [lia|].
  exists out, l. split; [exact R|]. intros b. unfold do_encode_string. rewrite H. rewrite <- app_assoc. reflexivity.
Qed.

(** Facts about the escapes. *)
Lemma hex_char_hex1 n : 0 <= n < 16 -> hex1 (hex_char n) n.
Proof.
  intros B.
  assert (C : n = 0 \/ n = 1 \/ n = 2 \/ n = 3 \/ n = 4 \/ n = 5 \/ n = 6 \/ n = 7 \/ n = 8 \/ n = 9 \/ n = 10 \/
              n = 11 \/ n = 12 \/ n = 13 \/ n = 14 \/ n = 15) by lia.
  repeat (destruct C as [->|C]); try subst n; cbv [hex_char Z.to_nat bs nth];
    match goal with |- hex1 ?c ?v => first
      [ change (hex1 c (c - 48)); constructor; vm_compute; split; congruence
      | change (hex1 c (c - 97 + 10)); constructor; vm_compute; split; congruence ] end.
Qed.
Lemma u00_hex c : 0 <= c < 256 -> exists h, u00 c = 92 :: 117 :: h /\ hex4v h c.
Proof.
  intros B. exists [48; 48; hex_char (c / 16); hex_char (c mod 16)]. split; [reflexivity|].
  replace c with (0 * 4096 + 0 * 256 + c / 16 * 16 + c mod 16) at 3 by euclid.
  constructor; try (apply hex_char_hex1; euclid); change (hex1 48 (48 - 48)); constructor; lia.
Qed.
Lemma u202_hex r : r = 0x2028 \/ r = 0x2029 -> exists h, u202 r = 92 :: 117 :: h /\ hex4v h r.
Proof.
  intros B. exists [50; 48; 50; hex_char (r mod 16)]. split; [reflexivity|].
  replace r with ((50 - 48) * 4096 + (48 - 48) * 256 + (50 - 48) * 16 + r mod 16) at 2 by euclid.
  constructor; try (apply hex_char_hex1; euclid); constructor; lia.
Qed.
Lemma ufffd_hex : exists h, ufffd = 92 :: 117 :: h /\ hex4v h 0xFFFD.
Proof.
  exists [102; 102; 102; 100]. split; [reflexivity|].
  change 0xFFFD with ((102 - 97 + 10) * 4096 + (102 - 97 + 10) * 256 + (102 - 97 + 10) * 16 + (100 - 97 + 10)).
  constructor; constructor; lia.
Qed.

Lemma utf8_seq_body r e s : utf8_seq r e -> 0x20 <= r -> r <> 34 -> r <> 92 -> str_body s -> str_body (e ++ s).
Proof.
  intros U A B C H. pose proof (utf8_seq_wf _ _ U) as W.
  assert (F : Forall str_char e).
  { destruct (utf8_seq_hd _ _ U) as (c & t & -> & D). pose proof (utf8_seq_tail _ _ U) as T. cbn [tl] in T.
    inversion W as [|c' t' W1 W2]; subst. constructor.
    - unfold str_char, is_byte in *. lia.
    - rewrite Forall_forall in *. intros x I. specialize (T x I). specialize (W2 x I). unfold str_char, is_byte in *. lia. }
  clear U W. induction F as [|c e F1 F2 IH]; [exact H|]. cbn [app]. unfold str_char in F1. constructor; try lia. exact IH.
Qed.

(** The output characters are printable and, in HTML mode, not HTML-special. *)
Definition safe_char (html : bool) (r : Z) : Prop :=
  0x20 <= r /\ r <> 0x2028 /\ r <> 0x2029 /\ (html = true -> r <> 60 /\ r <> 62 /\ r <> 38).
Lemma hex_safe html c : hex_digit c -> safe_char html c.
Proof. unfold hex_digit, safe_char. lia. Qed.
Lemma is_html_false c : is_html c = false <-> c <> 60 /\ c <> 62 /\ c <> 38.
Proof. unfold is_html. rewrite !orb_false_iff, !Z.eqb_neq. tauto. Qed.
Lemma utf8_ascii l : Forall (fun c => 0 <= c < 0x80) l -> utf8 l l.
Proof.
  induction 1 as [|c l B F IH]; [constructor|]. change (c :: l) with ([c] ++ l) at 2.
  constructor; [apply seq1; exact B|exact IH].
Qed.

Lemma uni_esc_utf8 html h r : hex4v h r -> utf8 (92 :: 117 :: h) (92 :: 117 :: h) /\ Forall (safe_char html) (92 :: 117 :: h).
Proof.
  intros H; destruct H as [a b c d va vb vc vd Ha Hb Hc Hd]. apply hex1_digit in Ha, Hb, Hc, Hd. split.
  - apply utf8_ascii. unfold hex_digit in *. repeat (apply Forall_cons; [lia|]). constructor.
  - repeat apply Forall_cons; auto using hex_safe; unfold safe_char; lia.
Qed.

Lemma esc_rel_body html r x s : esc_rel html r x -> str_body s -> str_body (x ++ s).
Proof.
  intros H SB. destruct H as [r e U A B C D E F|c v I SE|r B|r B].
  - eapply utf8_seq_body; eassumption.
  - cbn [app]. apply sb_esc; [|exact SB]. cbn [In] in *. tauto.
  - destruct (u00_hex r) as (h & -> & Hh).
    { destruct B as [B|B]; [lia|]. unfold is_html in B. bprop. destruct B as [B|B]; bprop; [destruct B; bprop|]; lia. }
    cbn [app]. eapply hex4v_body; eassumption.
  - destruct (u202_hex r B) as (h & -> & Hh). cbn [app]. eapply hex4v_body; eassumption.
Qed.
Lemma esc_rel_denotes html r x s l : esc_rel html r x -> str_denotes s l -> str_denotes (x ++ s) (r :: l).
Proof.
  intros H SD. destruct H as [r e U A B C D E F|c v I SE|r B|r B].
  - apply sd_char; assumption.
  - cbn [app]. apply sd_short; assumption.
  - assert (0 <= r < 0x80).
    { destruct B as [B|B]; [lia|]. unfold is_html in B. bprop. destruct B as [B|B]; bprop; [destruct B; bprop|]; lia. }
    destruct (u00_hex r) as (h & -> & Hh); [lia|].
    cbn [app]. apply sd_uni; auto. unfold scalar. lia.
  - destruct (u202_hex r B) as (h & -> & Hh). cbn [app]. apply sd_uni; auto. unfold scalar. lia.
Qed.
Lemma esc_rel_utf8 html r x : esc_rel html r x -> exists lx, utf8 lx x /\ Forall (safe_char html) lx.
Proof.
  intros H. destruct H as [r e U A B C D E F|c v I SE|r B|r B].
  - exists [r]. split.
    + rewrite <- (app_nil_r e). constructor; [exact U|constructor].
    + constructor; [|constructor]. unfold safe_char. repeat split; auto; apply D in H; apply is_html_false in H; tauto.
  - exists [92; c]. split.
    + apply utf8_ascii. cbn [In] in I. repeat (apply Forall_cons; [lia|]). constructor.
    + cbn [In] in I. repeat (apply Forall_cons; [unfold safe_char; lia|]). constructor.
  - destruct (u00_hex r) as (h & -> & Hh).
    { destruct B as [B|B]; [lia|]. unfold is_html in B. bprop. destruct B as [B|B]; bprop; [destruct B; bprop|]; lia. }
    exists (92 :: 117 :: h). eapply uni_esc_utf8; eassumption.
  - destruct (u202_hex r B) as (h & -> & Hh). exists (92 :: 117 :: h). eapply uni_esc_utf8; eassumption.
Qed.

Lemma enc_rel_body html s out l : enc_rel html s out l -> str_body out.
Proof.
  induction 1; [constructor|eapply esc_rel_body; eassumption|].
  destruct ufffd_hex as (h & -> & Hh). cbn [app]. eapply hex4v_body; eassumption.
Qed.
Lemma enc_rel_denotes html s out l : enc_rel html s out l -> str_denotes out l.
Proof.
  induction 1; [constructor|eapply esc_rel_denotes; eassumption|].
  destruct ufffd_hex as (h & -> & Hh). cbn [app]. apply sd_uni; auto. unfold scalar. lia.
Qed.
Lemma enc_rel_lossy html s out l : enc_rel html s out l -> utf8_lossy l s.
Proof. induction 1; [constructor|apply ul_seq; assumption|apply ul_bad; assumption]. Qed.
Lemma enc_rel_utf8 html s out l : enc_rel html s out l -> exists lo, utf8 lo out /\ Forall (safe_char html) lo.
Proof.
  induction 1 as [|r e x s out l U X H IH|c s out l NS H IH].
  - exists []. split; constructor.
  - destruct IH as (lo & A & B). destruct (esc_rel_utf8 _ _ _ X) as (lx & C & D).
    exists (lx ++ lo). split; [apply utf8_app; assumption|apply Forall_app; split; assumption].
  - destruct IH as (lo & A & B). destruct ufffd_hex as (h & -> & Hh).
    destruct (uni_esc_utf8 html _ _ Hh) as [C D]. exists ((92 :: 117 :: h) ++ lo).
    split; [apply utf8_app; assumption|apply Forall_app; split; assumption].
Qed.
