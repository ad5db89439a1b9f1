(** Lemmas for C85: the text of a time. *)
From Verif Require Import Bytes SpecJson SpecNum IntModel IntFacts NumFacts FloatModel ExactFloat FloatFacts SpecRender TimeModel SpecTime TimeFacts.
From Coq Require Import Lia ZArith.
Ltac Zify.zify_post_hook ::= Z.to_euclidean_division_equations.

Lemma isd_iff c : isd c = true <-> digit c.
Proof. unfold isd, digit. rewrite andb_true_iff, !Z.leb_le. tauto. Qed.
Lemma forallb_isd s : forallb isd s = true <-> Forall digit s.
Proof. rewrite forallb_forall, Forall_forall. split; intros H x I; apply isd_iff, H, I. Qed.
Lemma get_num_app w n s r : numeral w n s -> get_num w (s ++ r) = Some (n, r).
Proof.
  intros (L & F & ->). unfold get_num. rewrite app_length.
  replace (firstn w (s ++ r)) with s by (rewrite <- L, firstn_app, firstn_all, Nat.sub_diag; cbn; rewrite app_nil_r; reflexivity).
  replace (skipn w (s ++ r)) with r by (rewrite <- L, skipn_app, skipn_all, Nat.sub_diag; reflexivity).
  rewrite (proj2 (forallb_isd s) F), (proj2 (Nat.leb_le _ _)) by lia. reflexivity.
Qed.
Lemma get_num_inv w b n r : get_num w b = Some (n, r) -> exists s, b = s ++ r /\ numeral w n s.
Proof.
  unfold get_num. destruct (Nat.leb_spec w (length b)) as [L|L]; [|discriminate].
  destruct (forallb isd (firstn w b)) eqn:E; [|discriminate]. intros H. injection H as <- <-.
  exists (firstn w b). split; [symmetry; apply firstn_skipn|]. split; [apply firstn_length_le, L|].
  split; [apply forallb_isd, E|reflexivity].
Qed.
Lemma get_char_inv c b r : get_char c b = Some r -> b = c :: r.
Proof. destruct b as [|x t]; [discriminate|]. cbn. destruct (Z.eqb_spec x c); [|discriminate]. intros H. injection H as <-. congruence. Qed.
Lemma get_char_app c r : get_char c (c :: r) = Some r.
Proof. cbn. rewrite Z.eqb_refl. reflexivity. Qed.
Lemma get_hour_app lax h s r : numeral 2 h s \/ (lax = true /\ numeral 1 h s) -> get_hour (s ++ 58 :: r) = Some (h, 58 :: r).
Proof.
  intros [N|[_ N]]; unfold get_hour; [rewrite (get_num_app _ _ _ _ N); reflexivity|].
  rewrite (get_num_app _ _ _ _ N). destruct N as (L & _ & _). destruct s as [|c [|c' s]]; try discriminate L.
  unfold get_num. cbn. rewrite andb_false_r. reflexivity.
Qed.
Lemma get_hour_inv b h r : get_hour b = Some (h, r) -> exists s, b = s ++ r /\ (numeral 2 h s \/ (true = true /\ numeral 1 h s)).
Proof.
  unfold get_hour. destruct (get_num 2 b) as [[h' r']|] eqn:E.
  - intros H. injection H as <- <-. apply get_num_inv in E as (s & -> & N). eauto.
  - intros H. apply get_num_inv in H as (s & -> & N). eauto.
Qed.
Lemma numeral_nonneg w n s : numeral w n s -> 0 <= n.
Proof. intros (_ & F & ->). rewrite dval_dec. apply dec_bounds, F. Qed.

Lemma pad_numeral w n : 0 <= n < 10 ^ Z.of_nat w -> (0 < w)%nat -> numeral w n (pad w n).
Proof.
  intros H W. destruct (utoa_spec n) as [I D]; [lia|]. apply int_lit_digits in I as [F _].
  assert (L : (length (utoa n) <= w)%nat).
  { destruct (Z.eq_dec n 0) as [->|N]; [cbn; lia|]. destruct (utoa_log n ltac:(lia)) as [[L1 _] _].
    destruct (Nat.le_gt_cases (length (utoa n)) w) as [G|G]; [exact G|exfalso].
    assert (10 ^ Z.of_nat w <= 10 ^ (Z.of_nat (length (utoa n)) - 1)) by (apply Z.pow_le_mono_r; lia). lia. }
  unfold pad. split; [rewrite app_length, repeat_length; lia|]. split.
  - apply Forall_app. split; [|exact F]. apply Forall_forall. intros x X. apply repeat_spec in X. subst x. unfold digit. lia.
  - rewrite dval_dec, dec_zeros. symmetry. exact D.
Qed.

(** the fraction *)
Lemma frac_value lax c f : c = 46 \/ (lax = true /\ c = 44) -> f <> [] -> Forall digit f ->
  secfrac lax (digits_value (firstn 9 f) * 10 ^ (9 - Z.of_nat (length (firstn 9 f)))) (c :: f).
Proof.
  intros C N F. apply sf_some; auto. change (digits_value (firstn 9 f)) with (dval (firstn 9 f)). rewrite !dval_dec.
  assert (Ed : dec f = dec (firstn 9 f ++ skipn 9 f)) by (rewrite firstn_skipn; reflexivity).
  assert (El : length f = (length (firstn 9 f) + length (skipn 9 f))%nat) by (rewrite <- app_length, firstn_skipn; reflexivity).
  rewrite (dval_dec f), Ed, El, dec_app. clear Ed El. set (a := firstn 9 f). set (b := skipn 9 f).
  assert (Fb : Forall digit b) by (unfold b; rewrite <- (firstn_skipn 9 f) in F; apply Forall_app in F; apply F).
  assert (Fa : Forall digit a) by (unfold a; rewrite <- (firstn_skipn 9 f) in F; apply Forall_app in F; apply F).
  pose proof (dec_bounds b Fb) as B. pose proof (dec_bounds a Fa) as A.
  assert (La : (length a <= 9)%nat) by (unfold a; rewrite firstn_length; lia).
  rewrite Nat2Z.inj_add, Z.pow_add_r by lia.
  assert (C2 : length b = 0%nat \/ length a = 9%nat).
  { unfold a, b. rewrite firstn_length, skipn_length. lia. }
  assert (P9 : 10 ^ (9 - Z.of_nat (length a)) * 10 ^ Z.of_nat (length a) = 10 ^ 9) by (rewrite <- Z.pow_add_r by lia; f_equal; lia).
  assert (Pp : 0 < 10 ^ (9 - Z.of_nat (length a)) /\ 0 < 10 ^ Z.of_nat (length a)) by (split; apply Z.pow_pos_nonneg; lia).
  rewrite <- P9. set (p := 10 ^ (9 - Z.of_nat (length a))) in *. set (q := 10 ^ Z.of_nat (length a)) in *.
  set (r := 10 ^ Z.of_nat (length b)) in *.
  assert (Pr : 0 < r) by (apply Z.pow_pos_nonneg; lia). fold r in B.
  assert (Pqr : 0 < q * r) by (apply Z.mul_pos_pos; lia).
  destruct C2 as [Lb|L9].
  - assert (dec b = 0) as Z0 by (destruct b; [reflexivity|discriminate]). rewrite Z0.
    replace ((dec a * r + 0) * (p * q)) with (dec a * p * (q * r)) by ring. rewrite Z.mul_add_distr_r. lia.
  - assert (p = 1) as P1 by (unfold p; rewrite L9; reflexivity). rewrite P1.
    assert (0 <= dec b * q < r * q) by (split; [apply Z.mul_nonneg_nonneg; lia|apply Z.mul_lt_mono_pos_r; lia]).
    replace ((dec a * r + dec b) * (1 * q)) with (dec a * 1 * (q * r) + dec b * q) by ring.
    rewrite (Z.mul_add_distr_r (dec a * 1) 1). lia.
Qed.
Lemma secfrac_fun lax ns ns' s : secfrac lax ns s -> secfrac lax ns' s -> ns = ns'.
Proof.
  intros H H'. inversion H as [|c ds n C N F B]; subst; inversion H' as [|c' ds' n' C' N' F' B']; subst; [reflexivity|].
  assert (0 < 10 ^ Z.of_nat (length ds)) by (apply Z.pow_pos_nonneg; lia). nia.
Qed.
Lemma spand_split b : exists d r, spand b = (d, r) /\ b = d ++ r /\ Forall digit d.
Proof.
  induction b as [|c t (d & r & E & -> & F)]; [exists [], []; auto|].
  cbn. destruct (isd c) eqn:I; [rewrite E; exists (c :: d), r; repeat split; auto; constructor; [apply isd_iff, I|exact F]|exists [], (c :: d ++ r); auto].
Qed.
Lemma get_frac_inv b ns r : get_frac b = (ns, r) -> exists fs, b = fs ++ r /\ secfrac true ns fs.
Proof.
  unfold get_frac. destruct b as [|c t]; [intros H; injection H as <- <-; exists []; split; [reflexivity|constructor]|].
  destruct ((c =? 46) || (c =? 44)) eqn:C.
  - destruct (spand_split t) as (d & r' & E & Et & F). rewrite E. destruct d as [|x d].
    + intros H; injection H as <- <-. exists []. split; [reflexivity|constructor].
    + intros H. pose proof (f_equal fst H) as H1. pose proof (f_equal snd H) as H2. cbn [fst snd] in H1, H2. subst r'.
      exists (c :: x :: d). split; [rewrite Et; reflexivity|]. rewrite <- H1. apply frac_value; [|discriminate|exact F].
      rewrite orb_true_iff, !Z.eqb_eq in C. tauto.
  - intros H; injection H as <- <-. exists []. split; [reflexivity|constructor].
Qed.
Lemma get_frac_app lax ns fs c r : secfrac lax ns fs -> isd c = false -> c <> 46 -> c <> 44 -> get_frac (fs ++ c :: r) = (ns, c :: r).
Proof.
  intros H I C1 C2. inversion H as [|c' ds n C N F B]; subst.
  - cbn. rewrite (proj2 (Z.eqb_neq c 46)), (proj2 (Z.eqb_neq c 44)) by assumption. reflexivity.
  - cbn [app get_frac]. assert (E : (c' =? 46) || (c' =? 44) = true) by (rewrite orb_true_iff, !Z.eqb_eq; tauto). rewrite E.
    rewrite spand_app by (auto; rewrite I; reflexivity). destruct ds as [|x ds]; [congruence|]. f_equal.
    eapply secfrac_fun; [|exact H]. apply frac_value; auto.
Qed.
Lemma strip_digits ds : Forall digit ds -> dval ds <> 0 -> strip0 ds <> [] /\ Forall digit (strip0 ds) /\
  (length (strip0 ds) <= length ds)%nat /\ dval ds = dval (strip0 ds) * 10 ^ (Z.of_nat (length ds) - Z.of_nat (length (strip0 ds))).
Proof.
  intros F N. destruct (strip0_split ds) as (n & E & _). rewrite !dval_dec in *.
  assert (D : dec ds = dec (strip0 ds) * 10 ^ (Z.of_nat n)).
  { rewrite E at 1. rewrite dec_app, dec_repeat0, repeat_length. lia. }
  assert (L : length ds = (length (strip0 ds) + n)%nat) by (rewrite E at 1; rewrite app_length, repeat_length; reflexivity).
  repeat split.
  - intros E0. rewrite E0 in D. apply N. rewrite D. reflexivity.
  - rewrite E in F. apply Forall_app in F. apply F.
  - lia.
  - rewrite D at 1. f_equal. f_equal. lia.
Qed.
Lemma fmt_frac_ok lax ns : 0 <= ns < 10 ^ 9 -> secfrac lax ns (fmt_frac ns).
Proof.
  intros H. unfold fmt_frac. destruct (Z.eqb_spec ns 0) as [->|N]; [constructor|].
  destruct (pad_numeral 9 ns H ltac:(lia)) as (L & F & E).
  destruct (strip_digits (pad 9 ns) F) as (S1 & S2 & S3 & S4); [congruence|].
  apply sf_some; auto. rewrite L in *.
  assert (P : dval (strip0 (pad 9 ns)) * 10 ^ 9 = ns * 10 ^ Z.of_nat (length (strip0 (pad 9 ns)))).
  { rewrite E at 2. rewrite S4. rewrite <- Z.mul_assoc, <- Z.pow_add_r by lia. f_equal. f_equal. lia. }
  rewrite P. assert (0 < 10 ^ Z.of_nat (length (strip0 (pad 9 ns)))) by (apply Z.pow_pos_nonneg; lia). lia.
Qed.

(** the offset *)
Lemma get_off_app lax off os r : time_offset lax off os -> get_off (os ++ r) = Some (off, r).
Proof.
  intros H. inversion H as [|h m hs ms N1 N2 B|h m hs ms N1 N2 B]; subst; [reflexivity| |];
    cbn [app get_off Z.eqb Pos.eqb orb]; rewrite <- app_assoc, (get_num_app _ _ _ _ N1); cbn [app]; rewrite get_char_app, (get_num_app _ _ _ _ N2);
    (assert (G : (24 <? h) || (60 <? m) = false) by (apply orb_false_iff; rewrite !Z.ltb_ge; unfold hh_mm in B; lia)); rewrite G; f_equal; f_equal; lia.
Qed.
Lemma get_off_inv b off r : get_off b = Some (off, r) -> exists os, b = os ++ r /\ time_offset true off os.
Proof.
  destruct b as [|c t]; [discriminate|]. cbn [get_off].
  destruct (Z.eqb_spec c 90) as [->|N]; [intros H; injection H as <- <-; exists [90]; split; [reflexivity|constructor]|].
  destruct ((c =? 43) || (c =? 45)) eqn:C; [|discriminate].
  destruct (get_num 2 t) as [[h r1]|] eqn:E1; [|discriminate]. apply get_num_inv in E1 as (hs & -> & N1).
  destruct (get_char 58 r1) as [r2|] eqn:E2; [|discriminate]. apply get_char_inv in E2 as ->.
  destruct (get_num 2 r2) as [[m r3]|] eqn:E3; [|discriminate]. apply get_num_inv in E3 as (ms & -> & N2).
  destruct ((24 <? h) || (60 <? m)) eqn:G; [discriminate|]. apply orb_false_iff in G. rewrite !Z.ltb_ge in G.
  intros H. pose proof (f_equal (fun o => match o with Some p => fst p | None => 0 end) H) as H1.
  pose proof (f_equal (fun o => match o with Some p => snd p | None => [] end) H) as H2. cbn [fst snd] in H1, H2. subst r3.
  exists (c :: hs ++ 58 :: ms). split; [cbn; rewrite <- app_assoc; reflexivity|].
  rewrite orb_true_iff, !Z.eqb_eq in C. destruct C as [->| ->].
  - replace off with (3600 * h + 60 * m) by (rewrite <- H1; change (43 =? 45) with false; cbv iota; lia). apply to_east; auto. right; tauto.
  - replace off with (- (3600 * h + 60 * m)) by (rewrite <- H1; change (45 =? 45) with true; cbv iota; lia). apply to_west; auto. right; tauto.
Qed.
Lemma time_offset_head lax off os : time_offset lax off os -> exists c t, os = c :: t /\ isd c = false /\ c <> 46 /\ c <> 44.
Proof. intros H. inversion H; subst; eexists _, _; repeat split; try reflexivity; lia. Qed.
Lemma fmt_off_ok k off : off = 60 * k -> -86400 < off < 86400 -> time_offset false off (fmt_off off).
Proof.
  intros E B. unfold fmt_off. destruct (Z.eqb_spec off 0) as [->|N]; [constructor|]. cbv zeta.
  replace (Z.quot off 60) with k by (rewrite E, Z.mul_comm, Z.quot_mul; lia).
  assert (N1 : numeral 2 (Z.abs k / 60) (pad 2 (Z.abs k / 60))) by (apply pad_numeral; [change (10 ^ Z.of_nat 2) with 100|]; lia).
  assert (N2 : numeral 2 (Z.abs k mod 60) (pad 2 (Z.abs k mod 60))) by (apply pad_numeral; [change (10 ^ Z.of_nat 2) with 100|]; lia).
  assert (Hm : hh_mm false (Z.abs k / 60) (Z.abs k mod 60)) by (left; lia).
  destruct (Z.ltb_spec k 0).
  - replace off with (- (3600 * (Z.abs k / 60) + 60 * (Z.abs k mod 60))) at 1 by lia. apply to_west; assumption.
  - replace off with (3600 * (Z.abs k / 60) + 60 * (Z.abs k mod 60)) at 1 by lia. apply to_east; assumption.
Qed.

(** the whole *)
Lemma parse_time_app s t : date_time true s t -> parse_time s = Some t.
Proof.
  intros H. destruct H as [ys y ms m ds d hs h mis mi ss sec fs ns os off day N1 N2 N3 D Nh Hh Nm Hm Ns Hs SF TO].
  unfold parse_time, bind. rewrite (get_num_app _ _ _ _ N1), get_char_app, (get_num_app _ _ _ _ N2), get_char_app, (get_num_app _ _ _ _ N3), get_char_app.
  rewrite (get_hour_app _ _ _ _ Nh), get_char_app, (get_num_app _ _ _ _ Nm), get_char_app, (get_num_app _ _ _ _ Ns).
  destruct (time_offset_head _ _ _ TO) as (c & t & Eo & I & C1 & C2).
  assert (EF : get_frac (fs ++ os) = (ns, os)) by (rewrite Eo; eapply get_frac_app; eassumption). rewrite EF.
  assert (EO : get_off os = Some (off, [])) by (rewrite <- (app_nil_r os); eapply get_off_app; exact TO). rewrite EO.
  pose proof (dated_spec _ _ D) as [V E]. cbn in V, E. destruct V as [V1 V2].
  assert (G : (1 <=? m) && (m <=? 12) && (h <? 24) && (mi <? 60) && (sec <? 60) && (1 <=? d) && (d <=? days_in y m) = true).
  { rewrite !andb_true_iff, !Z.leb_le, !Z.ltb_lt. rewrite days_in_mlen. tauto. }
  rewrite G, E. reflexivity.
Qed.
Lemma parse_time_inv s t : parse_time s = Some t -> date_time true s t.
Proof.
  unfold parse_time, bind.
  destruct (get_num 4 s) as [[y s1]|] eqn:E1; [|discriminate]. apply get_num_inv in E1 as (ys & -> & N1).
  destruct (get_char 45 s1) as [s2|] eqn:E2; [|discriminate]. apply get_char_inv in E2 as ->.
  destruct (get_num 2 s2) as [[m s3]|] eqn:E3; [|discriminate]. apply get_num_inv in E3 as (ms & -> & N2).
  destruct (get_char 45 s3) as [s4|] eqn:E4; [|discriminate]. apply get_char_inv in E4 as ->.
  destruct (get_num 2 s4) as [[d s5]|] eqn:E5; [|discriminate]. apply get_num_inv in E5 as (ds & -> & N3).
  destruct (get_char 84 s5) as [s6|] eqn:E6; [|discriminate]. apply get_char_inv in E6 as ->.
  destruct (get_hour s6) as [[h s7]|] eqn:E7; [|discriminate]. apply get_hour_inv in E7 as (hs & -> & Nh).
  destruct (get_char 58 s7) as [s8|] eqn:E8; [|discriminate]. apply get_char_inv in E8 as ->.
  destruct (get_num 2 s8) as [[mi s9]|] eqn:E9; [|discriminate]. apply get_num_inv in E9 as (mis & -> & Nm).
  destruct (get_char 58 s9) as [s10|] eqn:E10; [|discriminate]. apply get_char_inv in E10 as ->.
  destruct (get_num 2 s10) as [[sec s11]|] eqn:E11; [|discriminate]. apply get_num_inv in E11 as (ss & -> & Ns).
  destruct (get_frac s11) as [ns s12] eqn:E12. apply get_frac_inv in E12 as (fs & -> & SF).
  destruct (get_off s12) as [[off s13]|] eqn:E13; [|discriminate]. apply get_off_inv in E13 as (os & -> & TO).
  destruct ((1 <=? m) && (m <=? 12) && (h <? 24) && (mi <? 60) && (sec <? 60) && (1 <=? d) && (d <=? days_in y m)) eqn:G; [|discriminate].
  destruct s13; [|discriminate]. intros H.
  pose proof (f_equal (fun o => match o with Some p => p | None => t end) H) as H1. cbv beta iota in H1. rewrite <- H1.
  rewrite !andb_true_iff, !Z.leb_le, !Z.ltb_lt, days_in_mlen in G. rewrite app_nil_r.
  apply (rf true ys y ms m ds d hs h mis mi ss sec fs ns os off (day_of y m d)); try assumption; try tauto. apply dated_iff.
  pose proof (date_of_spec (day_of y m d)) as S. destruct (date_of (day_of y m d)) as [[y' m'] d'] eqn:DD. destruct S as [V E].
  apply day_of_inj; [split; tauto|exact V|congruence].
Qed.
Lemma numeral_lax lax h hs : numeral 2 h hs -> numeral 2 h hs \/ (lax = true /\ numeral 1 h hs).
Proof. auto. Qed.
Lemma strict_lax s t : rfc3339 s t -> date_time true s t.
Proof.
  intros H. destruct H as [ys y ms m ds d hs h mis mi ss sec fs ns os off day N1 N2 N3 D Nh Hh Nm Hm Ns Hs SF TO].
  apply (rf true ys y ms m ds d hs h mis mi ss sec fs ns os off day); auto.
  - destruct Nh as [Nh|[K _]]; [left; exact Nh|discriminate].
  - inversion SF as [|c ds' n [C|[K _]] N F B]; [constructor|constructor; auto|discriminate].
  - inversion TO as [|h' m' hs' ms' A1 A2 [B|[K _]]|h' m' hs' ms' A1 A2 [B|[K _]]]; try discriminate; constructor; auto; left; assumption.
Qed.
Lemma fmt_time_ok t : writable t -> rfc3339 (fmt_time t) t.
Proof.
  intros (HN & (k & HK) & HO & y & m & d & D & HY). unfold fmt_time.
  pose proof (dated_spec _ _ D) as [[V1 V2] _].
  pose proof (proj1 (dated_iff _ _) D) as E. rewrite <- E.
  set (s := g_sec t + g_off t) in *. set (r := s mod 86400).
  assert (R : 0 <= r < 86400) by (unfold r; lia).
  rewrite (proj2 (Z.ltb_ge y 0)) by lia. cbn [app]. rewrite (Z.abs_eq y) by lia.
  pose proof (mlen_pos (is_leap y) m) as ML.
  assert (T : t = GT (86400 * (s / 86400) + 3600 * (r / 3600) + 60 * (r / 60 mod 60) + r mod 60 - g_off t) (g_nsec t) (g_off t)).
  { destruct t as [a b c]. cbn [g_sec g_nsec g_off] in *. f_equal. unfold r, s. lia. }
  refine (eq_ind_r (rfc3339 _) _ T). unfold rfc3339.
  apply (rf false _ y _ m _ d _ (r / 3600) _ (r / 60 mod 60) _ (r mod 60) _ _ _ _ (s / 86400)); try (apply numeral_lax); try (apply pad_numeral; [change (10 ^ Z.of_nat 2) with 100; change (10 ^ Z.of_nat 4) with 10000; lia|lia]); try lia.
  - exact D.
  - apply fmt_frac_ok, HN.
  - eapply fmt_off_ok; eassumption.
Qed.
