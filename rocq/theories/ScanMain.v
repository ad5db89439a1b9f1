(** The scanner of encoding/json, continued: whole texts. *)
From Verif Require Import Bytes ParseModel SpecJson SpecScan ScanModel ParseFacts ScanFacts.
From Coq Require Import Lia.

(** Steps from states that may end a number. *)
Lemma frac_cons f c u : frac_lit f -> f ++ u = c :: u -> f = [].
Proof. intros [|ds D] E; [reflexivity|]. exfalso. apply (f_equal (@length Z)) in E. cbn [app length] in E. rewrite app_length in E. destruct D as [D _]. destruct ds; [congruence|cbn in E; lia]. Qed.
Lemma L_SE0 st c t : L SE0 st (c :: t) <-> if sc_digit c then L SE0 st t else after st (c :: t).
Proof.
  cbn [L]. destruct (sc_digit c) eqn:D; split.
  - intros (ds & r & E & Ds & A). destruct ds as [|x ds]; cbn [app] in E.
    + subst r. apply after_nodigit in A. apply digit_iff in D. tauto.
    + injection E as <- ->. exists ds, r. split; [reflexivity|]. split; [exact (Forall_inv_tail Ds)|exact A].
  - intros (ds & r & -> & Ds & A). exists (c :: ds), r. split; [reflexivity|]. split; [constructor; [apply digit_iff, D|exact Ds]|exact A].
  - intros (ds & r & E & Ds & A). destruct ds as [|x ds]; cbn [app] in E; [subst r; exact A|]. injection E as <- ->. apply Forall_inv in Ds. apply digit_iff in Ds. congruence.
  - intros A. exists [], (c :: t). auto.
Qed.
Lemma L_SESign st c t : L SESign st (c :: t) <-> sc_digit c = true /\ L SE0 st t.
Proof.
  cbn [L]. split.
  - intros (ds & r & E & [NE Ds] & A). destruct ds as [|x ds]; [congruence|]. cbn [app] in E. injection E as <- ->.
    split; [apply digit_iff, (Forall_inv Ds)|]. exists ds, r. split; [reflexivity|]. split; [exact (Forall_inv_tail Ds)|exact A].
  - intros (D & ds & r & -> & Ds & A). exists (c :: ds), r. split; [reflexivity|]. split; [split; [discriminate|constructor; [apply digit_iff, D|exact Ds]]|exact A].
Qed.
Lemma L_SE st c t : L SE st (c :: t) <-> if (c =? 43) || (c =? 45) then L SESign st t else L SESign st (c :: t).
Proof.
  cbn [L]. destruct ((c =? 43) || (c =? 45)) eqn:C.
  - apply orb_true_iff in C. rewrite !Z.eqb_eq in C. split.
    + intros (sg & ds & r & E & SG & [NE Ds] & A). destruct SG as [->|[->| ->]]; cbn [app] in E.
      * destruct ds as [|x ds]; [congruence|]. cbn [app] in E. injection E as <- ->. apply Forall_inv in Ds. unfold digit in Ds. lia.
      * injection E as -> ->. exists ds, r. repeat split; assumption.
      * injection E as -> ->. exists ds, r. repeat split; assumption.
    + intros (ds & r & -> & D & A). exists [c], ds, r. split; [reflexivity|]. split; [destruct C as [->| ->]; auto|auto].
  - apply orb_false_iff in C. rewrite !Z.eqb_neq in C. split.
    + intros (sg & ds & r & E & SG & D & A). destruct SG as [->|[->| ->]]; cbn [app] in E.
      * exists ds, r. auto.
      * injection E as -> _. lia.
      * injection E as -> _. lia.
    + intros (ds & r & E & D & A). exists [], ds, r. auto 6.
Qed.
Definition Lexp st s := exists e r, s = e ++ r /\ exp_lit e /\ after st r.
Lemma Lexp_cons st c t : Lexp st (c :: t) <-> if (c =? 101) || (c =? 69) then L SE st t else after st (c :: t).
Proof.
  destruct ((c =? 101) || (c =? 69)) eqn:C.
  - apply orb_true_iff in C. rewrite !Z.eqb_eq in C. split.
    + intros (e & r & E & X & A). destruct X as [|e sg ds Ee SG D]; cbn [app] in E; [subst r; apply after_nodigit in A; lia|].
      injection E as <- E. rewrite <- app_assoc in E. subst t. exists sg, ds, r. auto 6.
    + intros (sg & ds & r & -> & SG & D & A). exists (c :: sg ++ ds), r. split; [cbn [app]; rewrite <- app_assoc; reflexivity|]. split; [constructor; auto; lia|exact A].
  - apply orb_false_iff in C. rewrite !Z.eqb_neq in C. split.
    + intros (e & r & E & X & A). destruct X as [|e sg ds Ee SG D]; cbn [app] in E; [subst r; exact A|]. injection E as <- _. lia.
    + intros A. exists [], (c :: t). split; [reflexivity|]. split; [constructor|exact A].
Qed.
Lemma L_SDot0 st c t : L SDot0 st (c :: t) <-> if sc_digit c then L SDot0 st t else Lexp st (c :: t).
Proof.
  cbn [L]. destruct (sc_digit c) eqn:D; split.
  - intros (ds & e & r & E & Ds & X & A). destruct ds as [|x ds]; cbn [app] in E.
    + exfalso. apply digit_iff in D. unfold digit in D. destruct X as [|e sg ds Ee SG Dd]; cbn [app] in E; [subst r; apply after_nodigit in A; unfold digit in A; tauto|]. injection E as <- _. lia.
    + injection E as <- ->. exists ds, e, r. split; [reflexivity|]. split; [exact (Forall_inv_tail Ds)|auto].
  - intros (ds & e & r & -> & Ds & X & A). exists (c :: ds), e, r. split; [reflexivity|]. split; [constructor; [apply digit_iff, D|exact Ds]|auto].
  - intros (ds & e & r & E & Ds & X & A). destruct ds as [|x ds]; cbn [app] in E; [exists e, r; auto|]. injection E as <- ->. apply Forall_inv in Ds. apply digit_iff in Ds. congruence.
  - intros (e & r & E & X & A). exists [], e, r. auto.
Qed.
Lemma L_SDot st c t : L SDot st (c :: t) <-> sc_digit c = true /\ L SDot0 st t.
Proof.
  cbn [L]. split.
  - intros (ds & e & r & E & [NE Ds] & X & A). destruct ds as [|x ds]; [congruence|]. cbn [app] in E. injection E as <- ->.
    split; [apply digit_iff, (Forall_inv Ds)|]. exists ds, e, r. split; [reflexivity|]. split; [exact (Forall_inv_tail Ds)|auto].
  - intros (D & ds & e & r & -> & Ds & X & A). exists (c :: ds), e, r. split; [reflexivity|]. split; [split; [discriminate|constructor; [apply digit_iff, D|exact Ds]]|auto].
Qed.
Lemma L_S0 st c t : L S0 st (c :: t) <-> if c =? 46 then L SDot st t else Lexp st (c :: t).
Proof.
  cbn [L]. destruct (c =? 46) eqn:C; [apply Z.eqb_eq in C; subst c|apply Z.eqb_neq in C]; split.
  - intros (f & e & r & E & Fr & X & A). destruct Fr as [|ds D]; cbn [app] in E.
    + exfalso. destruct X as [|e sg ds Ee SG Dd]; cbn [app] in E; [subst r; apply after_nodigit in A; tauto|]. injection E as <- _. lia.
    + injection E as ->. exists ds, e, r. auto.
  - intros (ds & e & r & -> & D & X & A). exists (46 :: ds), e, r. split; [reflexivity|]. split; [constructor; exact D|auto].
  - intros (f & e & r & E & Fr & X & A). destruct Fr as [|ds D]; cbn [app] in E; [exists e, r; auto|]. injection E as -> _. congruence.
  - intros (e & r & E & X & A). exists [], e, r. split; [exact E|]. split; [constructor|auto].
Qed.
Lemma L_S1 st c t : L S1 st (c :: t) <-> if sc_digit c then L S1 st t else L S0 st (c :: t).
Proof.
  cbn [L]. destruct (sc_digit c) eqn:D; split.
  - intros (ds & f & e & r & E & Ds & Fr & X & A). destruct ds as [|x ds]; cbn [app] in E.
    + exfalso. apply digit_iff in D. unfold digit in D. destruct Fr as [|ds' D']; cbn [app] in E; [|injection E as E _; lia].
      destruct X as [|e sg ds' Ee SG Dd]; cbn [app] in E; [subst r; apply after_nodigit in A; unfold digit in A; tauto|]. injection E as <- _. lia.
    + injection E as <- ->. exists ds, f, e, r. split; [reflexivity|]. split; [exact (Forall_inv_tail Ds)|auto].
  - intros (ds & f & e & r & -> & Ds & Fr & X & A). exists (c :: ds), f, e, r. split; [reflexivity|]. split; [constructor; [apply digit_iff, D|exact Ds]|auto].
  - intros (ds & f & e & r & E & Ds & Fr & X & A). destruct ds as [|x ds]; cbn [app] in E; [exists f, e, r; auto|]. injection E as <- ->. apply Forall_inv in Ds. apply digit_iff in Ds. congruence.
  - intros (f & e & r & E & Fr & X & A). exists [], f, e, r. auto 6.
Qed.
Lemma L_SNeg st c t : L SNeg st (c :: t) <-> c = 48 /\ L S0 st t \/ 49 <= c <= 57 /\ L S1 st t.
Proof.
  cbn [L]. split.
  - intros (i & f & e & r & E & IL & Fr & X & A). destruct IL as [|d ds D Ds]; cbn [app] in E; injection E as -> ->; [left|right]; (split; [auto|]).
    + exists f, e, r. auto.
    + exists ds, f, e, r. auto 6.
  - intros [(-> & f & e & r & -> & Fr & X & A)|(C & ds & f & e & r & -> & Ds & Fr & X & A)].
    + exists [48], f, e, r. split; [reflexivity|]. split; [constructor|auto].
    + exists (c :: ds), f, e, r. split; [reflexivity|]. split; [constructor; assumption|auto].
Qed.

(** Strings. *)
Lemma body_u h1 h2 h3 h4 b : str_body (92 :: 117 :: h1 :: h2 :: h3 :: h4 :: b) <-> (hex_digit h1 /\ hex_digit h2 /\ hex_digit h3 /\ hex_digit h4) /\ str_body b.
Proof.
  split.
  - intros H. inversion H; subst; try lia; try tauto. cbn in *. intuition lia.
  - intros [(H1 & H2 & H3 & H4) B]. constructor; assumption.
Qed.
Lemma L_SInString st c t : 0 <= c < 256 -> L SInString st (c :: t) <->
  if c =? 34 then after st t else if c =? 92 then L SEsc st t else 32 <= c /\ L SInString st t.
Proof.
  intros Bc. cbn [L]. destruct (c =? 34) eqn:C; [apply Z.eqb_eq in C; subst c|apply Z.eqb_neq in C].
  - split.
    + intros (b & r & E & B & A). destruct b as [|x b]; cbn [app] in E; [injection E as ->; exact A|]. injection E as <- _. inversion B; congruence.
    + intros A. exists [], t. split; [reflexivity|]. split; [constructor|exact A].
  - destruct (c =? 92) eqn:C'; [apply Z.eqb_eq in C'; subst c|apply Z.eqb_neq in C'].
    + split.
      * intros (b & r & E & B & A). destruct b as [|x b]; cbn [app] in E; [discriminate E|]. injection E as <- ->. exists b, r. split; [reflexivity|]. split; [|auto]. intros ->. inversion B; lia.
      * intros (b & r & -> & _ & B & A). exists (92 :: b), r. auto.
    + split.
      * intros (b & r & E & B & A). destruct b as [|x b]; cbn [app] in E; [injection E as E _; congruence|]. injection E as <- ->.
        inversion B; subst; try congruence. split; [lia|]. exists b, r. auto.
      * intros (G & b & r & -> & B & A). exists (c :: b), r. split; [reflexivity|]. split; [constructor; auto; lia|exact A].
Qed.
Lemma esc_set c : existsb (Z.eqb c) [98; 102; 110; 114; 116; 92; 47; 34] = true <-> In c [34; 92; 47; 98; 102; 110; 114; 116].
Proof. cbn [existsb In]. rewrite !orb_true_iff, !Z.eqb_eq. intuition congruence. Qed.
Lemma L_SEsc st c t : L SEsc st (c :: t) <->
  if existsb (Z.eqb c) [98; 102; 110; 114; 116; 92; 47; 34] then L SInString st t else c = 117 /\ L (SU 4) st t.
Proof.
  cbn [L]. destruct (existsb _ _) eqn:C.
  - apply esc_set in C. split.
    + intros (b & r & E & NE & B & A). destruct b as [|x b]; [congruence|]. cbn [app] in E. injection E as <- ->. exists b, r. split; [reflexivity|]. split; [|exact A].
      inversion B; subst; try lia; [assumption|]. cbn in C. intuition lia.
    + intros (b & r & -> & B & A). exists (c :: b), r. split; [reflexivity|]. split; [discriminate|]. split; [constructor; assumption|exact A].
  - assert (NC : ~ In c [34; 92; 47; 98; 102; 110; 114; 116]) by (rewrite <- esc_set; congruence). split.
    + intros (b & r & E & NE & B & A). destruct b as [|x b]; [congruence|]. cbn [app] in E. injection E as <- ->.
      inversion B as [|? ? ? ? ?|? ? K|h1 h2 h3 h4 b' H1 H2 H3 H4 B']; subst; try lia; [tauto|]. split; [reflexivity|].
      exists [h1; h2; h3; h4], b', r. split; [reflexivity|]. split; [reflexivity|]. split; [repeat (constructor; [assumption|]); constructor|auto].
    + intros (-> & h & b & r & -> & Lh & H & B & A). destruct h as [|h1 [|h2 [|h3 [|h4 [|]]]]]; try discriminate.
      exists (117 :: h1 :: h2 :: h3 :: h4 :: b), r. split; [reflexivity|]. split; [discriminate|]. split; [|exact A].
      apply body_u. split; [|exact B]. rewrite !Forall_cons_iff in H. tauto.
Qed.
Lemma L_SU k st c t : (1 <= k)%nat -> L (SU k) st (c :: t) <-> sc_hex c = true /\ L (match k with Datatypes.S (Datatypes.S k') => SU (Datatypes.S k') | _ => SInString end) st t.
Proof.
  intros K. destruct k as [|k]; [lia|]. split.
  - intros (h & b & r & E & Lh & H & B & A). destruct h as [|x h]; [discriminate|]. cbn [app] in E. injection E as <- ->. split; [apply hex_iff, (Forall_inv H)|].
    cbn [length] in Lh. injection Lh as Lh. apply Forall_inv_tail in H. destruct k as [|k].
    + destruct h; [|discriminate]. exists b, r. auto.
    + exists h, b, r. auto.
  - intros (X & H). apply hex_iff in X. destruct k as [|k].
    + destruct H as (b & r & -> & B & A). exists [c], b, r. split; [reflexivity|]. split; [reflexivity|]. split; [constructor; [exact X|constructor]|auto].
    + destruct H as (h & b & r & -> & Lh & H & B & A). exists (c :: h), b, r. split; [reflexivity|]. split; [cbn; congruence|]. split; [constructor; assumption|auto].
Qed.
Lemma L_SLit x w st c t : L (SLit (x :: w)) st (c :: t) <-> c = x /\ L (match w with [] => SEndValue | _ => SLit w end) st t.
Proof.
  split.
  - intros (r & E & A). cbn [app] in E. injection E as -> ->. split; [reflexivity|]. destruct w; [exact A|exists r; auto].
  - intros (-> & H). destruct w; [exists t; auto|]. destruct H as (r & -> & A). exists r. auto.
Qed.

(** * All states *)
Lemma steps_ext s P P' r t c : (P (c :: t) <-> P' (c :: t)) -> steps s P r t c -> steps s P' r t c.
Proof. intros E [I H]. split; [exact I|]. rewrite H. exact E. Qed.
Lemma exp_steps s c t : s_err s = false -> s_end s = false -> Z.of_nat (length (s_stack s)) <= max_nesting -> steps s (Lexp (s_stack s)) (sc_exp s c) t c.
Proof.
  intros E1 E2 N. unfold sc_exp. pose proof (Lexp_cons (s_stack s) c t) as X. destruct ((c =? 101) || (c =? 69)).
  - destruct s as [q st e r]. cbn [s_stack s_end s_err s_step] in *. subst e r. state. rewrite X. tauto.
  - eapply steps_ext; [symmetry; exact X|]. apply ev_steps; assumption.
Qed.
Lemma zero_steps s c t : s_err s = false -> s_end s = false -> Z.of_nat (length (s_stack s)) <= max_nesting -> steps s (L S0 (s_stack s)) (sc_0 s c) t c.
Proof.
  intros E1 E2 N. unfold sc_0. pose proof (L_S0 (s_stack s) c t) as X. destruct (c =? 46).
  - destruct s as [q st e r]. cbn [s_stack s_end s_err s_step] in *. subst e r. state. rewrite X. tauto.
  - eapply steps_ext; [symmetry; exact X|]. apply exp_steps; assumption.
Qed.
Lemma esign_steps s c t : s_err s = false -> s_end s = false -> Z.of_nat (length (s_stack s)) <= max_nesting -> steps s (L SESign (s_stack s)) (sc_esign s c) t c.
Proof.
  intros E1 E2 N. unfold sc_esign. pose proof (L_SESign (s_stack s) c t) as X. destruct (sc_digit c).
  - destruct s as [q st e r]. cbn [s_stack s_end s_err s_step] in *. subst e r. state. rewrite X. tauto.
  - apply inv_error. rewrite X. intros [? _]. discriminate.
Qed.
Lemma step_steps s c t : inv s -> s_err s = false -> 0 <= c < 256 -> steps s (L (s_step s) (s_stack s)) (sc_step s c) t c.
Proof.
  intros [_ SH N EN] E Bc. specialize (SH E). specialize (N E). specialize (EN E).
  destruct s as [q st e r]. cbn [s_stack s_end s_err s_step] in *. subst r.
  assert (E2 : q <> SEndTop -> e = false) by (intros NE; destruct e; [exfalso; apply NE, EN; reflexivity|reflexivity]).
  unfold sc_step. cbn [s_step].
  destruct q as [| | | | | | | |k| | | | | | | | |w|]; cbn [shape] in SH; try (rewrite (E2 ltac:(discriminate)) in *; clear E2 EN).
  - (* SBeginValue *) apply (bv_steps (Scanner SBeginValue st false false)); cbn; auto.
  - (* SBeginValueOrEmpty *) destruct SH as [st' ->]. destruct (sc_space c) eqn:S.
    + state; eauto. cbn [L tl]. rewrite !begins_skips, <- !skips_one, skips_cons, S by apply valued_hard. cbn [tl].
      pose proof (skips_cons (one 93 (after st')) c t (one_hard 93 (after st') eq_refl)) as X. rewrite S in X. rewrite X. tauto.
    + destruct (c =? 93) eqn:C; [apply Z.eqb_eq in C; subst c|apply Z.eqb_neq in C].
      * eapply steps_ext; [|apply (ev_steps (Scanner SBeginValueOrEmpty (PArr :: st') false false)); auto]. cbn [s_stack L tl].
        rewrite after_arr_iff, begins_skips, <- skips_one. rewrite !skips_cons, S by (apply valued_hard || apply hard93 || (apply one_hard; reflexivity)).
        rewrite !one_cons. split; [intros [[_ K]|[K _]]; [auto|discriminate]|]. intros [K|K]; [|tauto].
        apply valued_cases in K; [|exact N]. exfalso. intuition lia.
      * eapply steps_ext; [|apply (bv_steps (Scanner SBeginValueOrEmpty (PArr :: st') false false)); cbn; auto]. cbn [s_stack L tl].
        rewrite <- skips_one, (skips_cons (one 93 _)), S, one_cons by (apply one_hard; reflexivity). tauto.
  - (* SBeginString *) apply (bk_steps (Scanner SBeginString st false false)); cbn; auto.
  - (* SBeginStringOrEmpty *) destruct SH as [st' ->]. destruct (sc_space c) eqn:S.
    + state; eauto. cbn [L tl]. rewrite !begins_key_skips, <- !skips_one, skips_cons, S by apply keyed_hard.
      pose proof (skips_cons (one 125 (after st')) c t (one_hard 125 (after st') eq_refl)) as X. rewrite S in X. rewrite X. tauto.
    + destruct (c =? 125) eqn:C; [apply Z.eqb_eq in C; subst c|apply Z.eqb_neq in C].
      * cbn [s_stack s_end s_err]. eapply steps_ext; [|apply (ev_steps (Scanner SBeginStringOrEmpty (PVal :: st') false false)); auto]. cbn [s_stack L tl].
        rewrite after_val_iff, begins_key_skips, <- skips_one. rewrite !skips_cons, S by (apply keyed_hard || apply hard125 || (apply one_hard; reflexivity)).
        rewrite !one_cons, keyed_cases. split; [intros [[_ K]|[K _]]; [auto|discriminate]|]. intros [[K _]|K]; [discriminate|tauto].
      * eapply steps_ext; [|apply (bk_steps (Scanner SBeginStringOrEmpty (PKey :: st') false false)); cbn; eauto]. cbn [s_stack L tl].
        rewrite <- skips_one, (skips_cons (one 125 _)), S, one_cons by (apply one_hard; reflexivity). tauto.
  - (* SEndValue *) apply (ev_steps (Scanner SEndValue st false false)); auto.
  - (* SEndTop *) subst st. assert (e = true) by (apply EN; reflexivity). subst e. unfold sc_end_top. destruct (sc_space c) eqn:S.
    + split; [constructor; cbn; intros; try discriminate; auto; tauto|]. unfold Lang. cbn [fst s_err s_step s_stack L].
      split; [intros [_ W]; constructor; [apply space_iff, S|exact W]|intros W; split; [reflexivity|exact (Forall_inv_tail W)]].
    + apply (inv_error (Scanner SEndTop [] true false)). cbn [L]. intros W. apply Forall_inv in W. apply space_iff in W. congruence.
  - (* SInString *) pose proof (L_SInString st c t Bc) as X. destruct (c =? 34); [state; rewrite X; cbn [L]; tauto|].
    destruct (c =? 92); [state; rewrite X; tauto|]. destruct (c <? 32) eqn:C.
    + apply Z.ltb_lt in C. apply (inv_error (Scanner SInString st false false)). rewrite X. lia.
    + apply Z.ltb_ge in C. state. rewrite X. tauto.
  - (* SEsc *) pose proof (L_SEsc st c t) as X. destruct (existsb _ _); [state; rewrite X; tauto|].
    destruct (c =? 117) eqn:C; [apply Z.eqb_eq in C; subst c; state; try lia; rewrite X; tauto|apply Z.eqb_neq in C].
    apply (inv_error (Scanner SEsc st false false)). rewrite X. tauto.
  - (* SU *) pose proof (L_SU k st c t ltac:(lia)) as X. destruct (sc_hex c) eqn:H.
    + destruct k as [|[|k]]; [lia| |]; state; try (rewrite X; tauto). lia.
    + apply (inv_error (Scanner (SU k) st false false)). rewrite X. intros [? _]. discriminate.
  - (* SNeg *) pose proof (L_SNeg st c t) as X. destruct (c =? 48) eqn:C; [apply Z.eqb_eq in C; subst c; state; rewrite X; intuition lia|apply Z.eqb_neq in C].
    destruct ((49 <=? c) && (c <=? 57)) eqn:C'.
    + apply andb_true_iff in C'. rewrite !Z.leb_le in C'. state. rewrite X. intuition lia.
    + apply andb_false_iff in C'. rewrite !Z.leb_gt in C'. apply (inv_error (Scanner SNeg st false false)). rewrite X. intuition lia.
  - (* S1 *) pose proof (L_S1 st c t) as X. destruct (sc_digit c); [state; rewrite X; tauto|].
    eapply steps_ext; [symmetry; exact X|]. apply (zero_steps (Scanner S1 st false false)); auto.
  - (* S0 *) apply (zero_steps (Scanner S0 st false false)); auto.
  - (* SDot *) pose proof (L_SDot st c t) as X. destruct (sc_digit c); [state; rewrite X; tauto|].
    apply (inv_error (Scanner SDot st false false)). rewrite X. intros [? _]. discriminate.
  - (* SDot0 *) pose proof (L_SDot0 st c t) as X. destruct (sc_digit c); [state; rewrite X; tauto|].
    eapply steps_ext; [symmetry; exact X|]. apply (exp_steps (Scanner SDot0 st false false)); auto.
  - (* SE *) pose proof (L_SE st c t) as X. destruct ((c =? 43) || (c =? 45)); [state; rewrite X; tauto|].
    eapply steps_ext; [symmetry; exact X|]. apply (esign_steps (Scanner SE st false false)); auto.
  - (* SESign *) apply (esign_steps (Scanner SESign st false false)); auto.
  - (* SE0 *) pose proof (L_SE0 st c t) as X. destruct (sc_digit c); [state; rewrite X; tauto|].
    eapply steps_ext; [symmetry; exact X|]. apply (ev_steps (Scanner SE0 st false false)); auto.
  - (* SLit *) destruct SH as [SH1 SH2]. destruct w as [|x w]; [congruence|]. pose proof (L_SLit x w st c t) as X. destruct (c =? x) eqn:C; [apply Z.eqb_eq in C; subst c|apply Z.eqb_neq in C].
    + destruct w as [|y w]; state; try (rewrite X; tauto). 1: exact (Forall_inv (Forall_inv_tail SH2)). exact (Forall_inv_tail (Forall_inv_tail SH2)).
    + apply (inv_error (Scanner (SLit (x :: w)) st false false)). rewrite X. tauto.
  - destruct SH.
Qed.

(** * Texts *)
Fixpoint sc_run (s : scanner) (src : bytes) : scanner :=
  match src with [] => s | c :: src' => sc_run (fst (sc_step s c)) src' end.
Lemma run_err s src : inv s -> s_err s = true -> sc_run s src = s.
Proof.
  revert s. induction src as [|c src IH]; intros s I E; [reflexivity|]. cbn [sc_run].
  assert (X : sc_step s c = (s, OError)) by (unfold sc_step; rewrite (i_err s I E); reflexivity). rewrite X. apply IH; assumption.
Qed.
Lemma step_lang s c t : inv s -> 0 <= c < 256 -> inv (fst (sc_step s c)) /\ (Lang (fst (sc_step s c)) t <-> Lang s (c :: t)).
Proof.
  intros I Bc. destruct (s_err s) eqn:E.
  - assert (X : sc_step s c = (s, OError)) by (unfold sc_step; rewrite (i_err s I E); reflexivity). rewrite X. cbn [fst]. split; [exact I|]. unfold Lang. rewrite E. split; intros [? _]; discriminate.
  - destruct (step_steps s c t I E Bc) as [I' H]. split; [exact I'|]. rewrite H. unfold Lang. rewrite E. tauto.
Qed.
Lemma new_inv : inv sc_new.
Proof. constructor; cbn; intros; try discriminate; auto. split; discriminate. Qed.
Lemma not_nil_value v a : jvalue v a -> v <> [].
Proof. intros J ->. apply jvalue_head in J as (c & t & E & _). discriminate. Qed.
Lemma after_nil st : after st [] <-> st = [].
Proof.
  split; [|intros ->; apply A_top; constructor]. intros H. inversion H as [|w r s W A E1 E2|w w' v a r s W W' J F A E1 E2|w r s W A E1 E2|w w' k r s W W' K A E1 E2|w w' v a r s W W' J F A E1 E2]; auto; destruct w; discriminate.
Qed.
Lemma eof_lang s : inv s -> sc_eof s = true <-> Lang s [].
Proof.
  intros I. unfold sc_eof, Lang. destruct (s_err s) eqn:E; [split; [discriminate|intros [? _]; discriminate]|].
  pose proof (i_shape s I E) as SH. pose proof (i_end s I E) as EN. clear I.
  destruct s as [q st e r]. cbn [s_stack s_end s_err s_step] in *. subst r.
  destruct e.
  - assert (q = SEndTop) by tauto. subst q. cbn. split; [intros _; split; [reflexivity|constructor]|reflexivity].
  - assert (NE : q <> SEndTop) by (intros ->; assert (false = true) by tauto; discriminate).
    cbn [orb]. assert (EV : forall q', s_end (fst (sc_end_value (Scanner q' st false false) 32)) = true <-> after st []).
    { intros q'. rewrite after_nil. unfold sc_end_value. cbn [s_stack]. destruct st; cbn; split; intros; try reflexivity; discriminate. }
    destruct q as [| | | | | | | |k| | | | | | | | |w|]; cbn [sc_step s_step]; try (exfalso; apply NE; reflexivity).
    all: try (rewrite EV; cbn [L]; tauto).
    + (* SBeginValue *) split; [discriminate|]. intros [_ (w & v & a & r & E' & W & J & _)]. symmetry in E'. apply app_eq_nil in E' as [_ E']. apply app_eq_nil in E' as [-> _]. destruct (not_nil_value _ _ J eq_refl).
    + split; [discriminate|]. intros [_ [(w & v & a & r & E' & W & J & _)|(w & r & E' & _)]].
      * symmetry in E'. apply app_eq_nil in E' as [_ E']. apply app_eq_nil in E' as [-> _]. destruct (not_nil_value _ _ J eq_refl).
      * destruct w; discriminate.
    + split; [discriminate|]. intros [_ (w & k & r & E' & W & (b & -> & _) & _)]. destruct w; discriminate.
    + split; [discriminate|]. intros [_ [(w & k & r & E' & W & (b & -> & _) & _)|(w & r & E' & _)]]; destruct w; discriminate.
    + split; [discriminate|]. intros [_ (b & r & E' & _)]. destruct b; discriminate.
    + split; [discriminate|]. intros [_ (b & r & E' & _)]. destruct b; discriminate.
    + split; [discriminate|]. intros [_ (h & b & r & E' & Lh & _)]. cbn [shape] in SH. destruct h; [cbn in Lh; lia|discriminate].
    + split; [discriminate|]. intros [_ (i & f & e & r & E' & IL & _)]. destruct IL; discriminate.
    + change (sc_digit 32) with false. cbv iota. unfold sc_0, sc_exp. cbn [Z.eqb orb]. rewrite EV. split.
      * intros A. split; [reflexivity|]. exists [], [], [], []. repeat (split; [first [constructor|reflexivity]|]). exact A.
      * intros [_ (ds & f & e & r & E' & _ & _ & _ & A)]. symmetry in E'. apply app_eq_nil in E' as [_ E']. apply app_eq_nil in E' as [_ E']. apply app_eq_nil in E' as [_ ->]. exact A.
    + unfold sc_0, sc_exp. cbn [Z.eqb orb]. rewrite EV. split.
      * intros A. split; [reflexivity|]. exists [], [], []. repeat (split; [first [constructor|reflexivity]|]). exact A.
      * intros [_ (f & e & r & E' & _ & _ & A)]. symmetry in E'. apply app_eq_nil in E' as [_ E']. apply app_eq_nil in E' as [_ ->]. exact A.
    + split; [discriminate|]. intros [_ (ds & e & r & E' & [N _] & _)]. destruct ds; [congruence|discriminate].
    + change (sc_digit 32) with false. cbv iota. unfold sc_exp. cbn [Z.eqb orb]. rewrite EV. split.
      * intros A. split; [reflexivity|]. exists [], [], []. repeat (split; [first [constructor|reflexivity]|]). exact A.
      * intros [_ (f & e & r & E' & _ & _ & A)]. symmetry in E'. apply app_eq_nil in E' as [_ E']. apply app_eq_nil in E' as [_ ->]. exact A.
    + split; [discriminate|]. intros [_ (sg & ds & r & E' & _ & [N _] & _)]. destruct sg; [|discriminate]. destruct ds; [congruence|discriminate].
    + split; [discriminate|]. intros [_ (ds & r & E' & [N _] & _)]. destruct ds; [congruence|discriminate].
    + change (sc_digit 32) with false. cbv iota. rewrite EV. split.
      * intros A. split; [reflexivity|]. exists [], []. repeat (split; [first [constructor|reflexivity]|]). exact A.
      * intros [_ (f & r & E' & _ & A)]. symmetry in E'. apply app_eq_nil in E' as [_ ->]. exact A.
    + destruct w as [|x w]; [destruct SH; congruence|]. split; [|intros [_ (r & E' & _)]; discriminate].
      destruct (32 =? x); [|discriminate]. destruct w; discriminate.
    + destruct SH.
Qed.
Lemma run_lang src : wf src -> forall s, inv s -> inv (sc_run s src) /\ (sc_eof (sc_run s src) = true <-> Lang s src).
Proof.
  induction 1 as [|c src Bc W IH]; intros s I; cbn [sc_run]; [split; [exact I|apply eof_lang, I]|].
  destruct (step_lang s c src I Bc) as [I' H]. destruct (IH _ I') as [I'' H']. split; [exact I''|]. rewrite H', H. tauto.
Qed.
(** The scanner accepts exactly the JSON texts of limited nesting. *)
Theorem scan_iff src : wf src -> sc_eof (sc_run sc_new src) = true <-> exists a, jtext src a /\ brackets a <= max_nesting.
Proof.
  intros W. destruct (run_lang src W sc_new new_inv) as [_ H]. rewrite H. unfold Lang. cbn [sc_new s_err s_step s_stack L]. split.
  - intros [_ (w & v & a & r & -> & W1 & J & F & A)]. exists a. split; [|unfold fit in F; cbn in F; lia]. exists w, v, r. apply after_nil_iff in A. auto.
  - intros (a & (w1 & s & w2 & -> & W1 & J & W2) & F). split; [reflexivity|]. exists w1, s, a, w2. repeat (split; [assumption || reflexivity|]). split; [unfold fit; cbn; lia|apply A_top, W2].
Qed.
