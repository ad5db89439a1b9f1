(** The scanner of encoding/json accepts the JSON texts that are not nested
    deeper than its limit. *)
From Verif Require Import Bytes ParseModel SpecJson SpecScan ScanModel ParseFacts.
From Coq Require Import Lia.

Definition fit (st : list pstate) (a : jast) : Prop := brackets a + Z.of_nat (length st) <= max_nesting.

(** What may follow a complete value (or key) when the brackets st are open. *)
Inductive after : list pstate -> bytes -> Prop :=
| A_top w : ws w -> after [] w
| A_arr_end w r st : ws w -> after st r -> after (PArr :: st) (w ++ 93 :: r)
| A_arr_next w w' v a r st : ws w -> ws w' -> jvalue v a -> fit (PArr :: st) a -> after (PArr :: st) r -> after (PArr :: st) (w ++ 44 :: w' ++ v ++ r)
| A_obj_end w r st : ws w -> after st r -> after (PVal :: st) (w ++ 125 :: r)
| A_obj_next w w' k r st : ws w -> ws w' -> string_lit k -> after (PKey :: st) r -> after (PVal :: st) (w ++ 44 :: w' ++ k ++ r)
| A_key w w' v a r st : ws w -> ws w' -> jvalue v a -> fit (PKey :: st) a -> after (PVal :: st) r -> after (PKey :: st) (w ++ 58 :: w' ++ v ++ r).

Definition begins (st : list pstate) (s : bytes) : Prop := exists w v a r, s = w ++ v ++ r /\ ws w /\ jvalue v a /\ fit st a /\ after st r.
Definition begins_key (st : list pstate) (s : bytes) : Prop := exists w k r, s = w ++ k ++ r /\ ws w /\ string_lit k /\ after st r.

(** What completes a text from a state. *)
Definition L (q : sstate) (st : list pstate) (s : bytes) : Prop :=
  match q with
  | SBeginValue => begins st s
  | SBeginValueOrEmpty => begins st s \/ exists w r, s = w ++ 93 :: r /\ ws w /\ after (tl st) r
  | SBeginString => begins_key st s
  | SBeginStringOrEmpty => begins_key st s \/ exists w r, s = w ++ 125 :: r /\ ws w /\ after (tl st) r
  | SEndValue => after st s
  | SEndTop => ws s
  | SInString => exists b r, s = b ++ 34 :: r /\ str_body b /\ after st r
  | SEsc => exists b r, s = b ++ 34 :: r /\ b <> [] /\ str_body (92 :: b) /\ after st r
  | SU k => exists h b r, s = h ++ b ++ 34 :: r /\ length h = k /\ Forall hex_digit h /\ str_body b /\ after st r
  | SNeg => exists i f e r, s = i ++ f ++ e ++ r /\ int_lit i /\ frac_lit f /\ exp_lit e /\ after st r
  | S1 => exists ds f e r, s = ds ++ f ++ e ++ r /\ Forall digit ds /\ frac_lit f /\ exp_lit e /\ after st r
  | S0 => exists f e r, s = f ++ e ++ r /\ frac_lit f /\ exp_lit e /\ after st r
  | SDot => exists ds e r, s = ds ++ e ++ r /\ digits1 ds /\ exp_lit e /\ after st r
  | SDot0 => exists ds e r, s = ds ++ e ++ r /\ Forall digit ds /\ exp_lit e /\ after st r
  | SE => exists sg ds r, s = sg ++ ds ++ r /\ (sg = [] \/ sg = [43] \/ sg = [45]) /\ digits1 ds /\ after st r
  | SESign => exists ds r, s = ds ++ r /\ digits1 ds /\ after st r
  | SE0 => exists ds r, s = ds ++ r /\ Forall digit ds /\ after st r
  | SLit w => exists r, s = w ++ r /\ after st r
  | SError => False
  end.
Definition shape (q : sstate) (st : list pstate) : Prop :=
  match q with
  | SBeginValueOrEmpty => exists st', st = PArr :: st'
  | SBeginStringOrEmpty | SBeginString => exists st', st = PKey :: st'
  | SBeginValue => match st with PKey :: _ => False | _ => True end
  | SEndTop => st = []
  | SU k => (1 <= k <= 4)%nat
  | SLit w => w <> [] /\ Forall (fun x => 97 <= x <= 122) w
  | SError => False
  | _ => True
  end.
Record inv (s : scanner) : Prop := Inv {
  i_err : s_err s = true -> s_step s = SError;
  i_shape : s_err s = false -> shape (s_step s) (s_stack s);
  i_len : s_err s = false -> Z.of_nat (length (s_stack s)) <= max_nesting;
  i_end : s_err s = false -> (s_end s = true <-> s_step s = SEndTop) }.
Definition Lang (s : scanner) (t : bytes) : Prop := s_err s = false /\ L (s_step s) (s_stack s) t.

Lemma space_iff c : sc_space c = true <-> c = 32 \/ c = 9 \/ c = 10 \/ c = 13.
Proof. unfold sc_space. rewrite !orb_true_iff, !Z.eqb_eq. lia. Qed.
Lemma space_no c : sc_space c = false -> c <> 32 /\ c <> 9 /\ c <> 10 /\ c <> 13.
Proof. unfold sc_space. rewrite !orb_false_iff, !Z.eqb_neq. lia. Qed.
Lemma digit_iff c : sc_digit c = true <-> digit c.
Proof. unfold sc_digit, digit. rewrite andb_true_iff, !Z.leb_le. tauto. Qed.
Lemma digit_no c : sc_digit c = false -> ~ digit c.
Proof. intros H D. apply digit_iff in D. congruence. Qed.
Lemma hex_iff c : sc_hex c = true <-> hex_digit c.
Proof. unfold sc_hex, hex_digit. rewrite !orb_true_iff, !andb_true_iff, !Z.leb_le, digit_iff. unfold digit. tauto. Qed.

Lemma brackets_pos a : 0 <= brackets a.
Proof.
  assert (M : forall l, 0 <= fold_right Z.max 0 l) by (induction l; cbn; lia).
  destruct a; cbn [brackets]; try lia; match goal with |- context [fold_right Z.max 0 ?l] => specialize (M l) end; lia.
Qed.

(** First bytes. *)
Lemma after_head st c t : after st (c :: t) -> sc_space c = true \/ c = 93 \/ c = 44 \/ c = 125 \/ c = 58.
Proof.
  assert (W : forall w x r, ws w -> w ++ x :: r = c :: t -> x = 93 \/ x = 44 \/ x = 125 \/ x = 58 -> sc_space c = true \/ c = 93 \/ c = 44 \/ c = 125 \/ c = 58).
  { intros w x r Hw E X. destruct w as [|y w]; cbn in E; injection E as E1 E2; subst; [tauto|]. left. apply space_iff. exact (Forall_inv Hw). }
  intros H. inversion H as [w K E1 E2|w r st' K _ E1 E2|w w' v a r st' K _ _ _ _ E1 E2|w r st' K _ E1 E2|w w' k r st' K _ _ _ E1 E2|w w' v a r st' K _ _ _ _ E1 E2].
  1: subst; left; apply space_iff; exact (Forall_inv K).
  all: first [apply (W _ _ _ K E2)|apply (W _ _ _ K eq_refl)]; tauto.
Qed.
Lemma after_nodigit st c t : after st (c :: t) -> ~ digit c /\ c <> 46 /\ c <> 101 /\ c <> 69 /\ c <> 43 /\ c <> 45.
Proof. intros H. apply after_head in H. rewrite space_iff in H. unfold digit. lia. Qed.
Lemma jvalue_head v a : jvalue v a -> exists c t, v = c :: t /\
  (c = 123 \/ c = 91 \/ c = 34 \/ c = 45 \/ 48 <= c <= 57 \/ c = 116 \/ c = 102 \/ c = 110).
Proof.
  destruct 1 as [| | |s N|s (b & -> & _)|w W|s l E|w W|s l E]; try (eexists _, _; split; [reflexivity|lia]).
  1-3: eexists _, _; split; [vm_compute; reflexivity|lia].
  destruct N as [sg i f e [->| ->] I _ _]; cbn [app]; [|eexists _, _; split; [reflexivity|lia]].
  destruct I; cbn [app]; eexists _, _; (split; [reflexivity|lia]).
Qed.

(** * Brackets *)
Lemma max_le l n : 0 <= n -> Forall (fun x => x <= n) l <-> fold_right Z.max 0 l <= n.
Proof.
  intros N. induction l as [|x l IH]; cbn [fold_right]; [split; [lia|constructor]|]. split.
  - intros H. inversion H; subst. apply IH in H3. lia.
  - intros H. constructor; [lia|]. apply IH. lia.
Qed.
Lemma fit_arr st l : Z.of_nat (length (PArr :: st)) <= max_nesting -> fit st (JArr l) <-> Forall (fit (PArr :: st)) l.
Proof.
  intros N. unfold fit. cbn [brackets]. cbn [length] in *. rewrite Nat2Z.inj_succ in *.
  transitivity (fold_right Z.max 0 (map brackets l) <= max_nesting - Z.succ (Z.of_nat (length st))); [lia|].
  rewrite <- max_le by lia. rewrite Forall_map. split; apply Forall_impl; intros a H; lia.
Qed.
Lemma fit_obj st l : Z.of_nat (length (PArr :: st)) <= max_nesting -> fit st (JObj l) <-> Forall (fun kv => fit (PArr :: st) (snd kv)) l.
Proof.
  intros N. unfold fit. cbn [brackets]. cbn [length] in *. rewrite Nat2Z.inj_succ in *.
  transitivity (fold_right Z.max 0 (map (fun kv : bytes * jast => match kv with (_, v) => brackets v end) l) <= max_nesting - Z.succ (Z.of_nat (length st))); [lia|].
  rewrite <- max_le by lia. rewrite Forall_map. split; apply Forall_impl; intros [k a] H; cbn [snd length] in *; rewrite ?Nat2Z.inj_succ in *; lia.
Qed.
Lemma fit_len st l : fit st (JArr l) \/ fit st (JObj []) \/ (exists m, fit st (JObj m)) -> Z.of_nat (length (PArr :: st)) <= max_nesting.
Proof.
  unfold fit. intros H. cbn [length]. rewrite Nat2Z.inj_succ.
  assert (forall a, 1 <= brackets a -> brackets a + Z.of_nat (length st) <= max_nesting -> Z.succ (Z.of_nat (length st)) <= max_nesting) by (intros; lia).
  assert (M : forall l, 0 <= fold_right Z.max 0 l) by (induction l0; cbn; lia).
  destruct H as [H|[H|[m H]]]; (eapply H0; [|exact H]); cbn [brackets]; match goal with |- context [fold_right Z.max 0 ?l] => specialize (M l) end; lia.
Qed.
Lemma after_arr st0 r : after st0 r -> forall st, st0 = PArr :: st -> exists w l tl r', ws w /\ r = w ++ tl ++ 93 :: r' /\ after st r' /\
  (tl = [] /\ l = [] \/ exists t, tl = 44 :: t /\ jelems t l) /\ Forall (fit (PArr :: st)) l.
Proof.
  induction 1 as [| w r st Hw H IH|w w' v a r st Hw Hw' J F H IH| | |]; intros st1 E; try discriminate; injection E as <-.
  - exists w, [], [], r. split; [exact Hw|]. split; [reflexivity|]. split; [exact H|]. split; [left; auto|constructor].
  - destruct (IH st eq_refl) as (w2 & l & tl & r' & W2 & -> & A & T & FA).
    exists w, (a :: l), (44 :: w' ++ v ++ w2 ++ tl), r'. split; [exact Hw|]. split; [cbn [app]; rewrite <- !app_assoc; reflexivity|]. split; [exact A|].
    split; [|constructor; assumption]. right. exists (w' ++ v ++ w2 ++ tl). split; [reflexivity|].
    destruct T as [[-> ->]|(t & -> & JE)]; [rewrite app_nil_r|]; constructor; assumption.
Qed.
Lemma begins_arr st t : Z.of_nat (length (PArr :: st)) <= max_nesting -> begins (PArr :: st) t ->
  exists s l r, t = s ++ 93 :: r /\ jelems s l /\ fit st (JArr l) /\ after st r.
Proof.
  intros N (w & v & a & r & -> & W & J & F & A). destruct (after_arr _ _ A st eq_refl) as (w2 & l & tl & r' & W2 & -> & A' & T & FA).
  exists (w ++ v ++ w2 ++ tl), (a :: l), r'. split; [rewrite <- !app_assoc; reflexivity|]. split.
  - destruct T as [[-> ->]|(u & -> & JE)]; [rewrite app_nil_r|]; constructor; assumption.
  - split; [|exact A']. apply fit_arr; [exact N|]. constructor; assumption.
Qed.
Lemma arr_begins s l : jelems s l -> forall st r, Forall (fit (PArr :: st)) l -> after st r -> begins (PArr :: st) (s ++ 93 :: r).
Proof.
  intros H. induction H as [w1 s v w2 W1 J W2|w1 s v w2 t l W1 J W2 E IH]; intros st r F A.
  - exists w1, s, v, (w2 ++ 93 :: r). rewrite <- !app_assoc. split; [reflexivity|]. split; [exact W1|]. split; [exact J|]. split; [exact (Forall_inv F)|].
    apply A_arr_end; assumption.
  - specialize (IH st r (Forall_inv_tail F) A). destruct IH as (w & v' & a & r' & E' & W & J' & F' & A').
    exists w1, s, v, (w2 ++ 44 :: w ++ v' ++ r'). rewrite <- E', <- !app_assoc. cbn [app]. split; [reflexivity|].
    split; [exact W1|]. split; [exact J|]. split; [exact (Forall_inv F)|]. rewrite E'. eapply A_arr_next; eassumption.
Qed.

(** Objects: after a member. *)
Definition mems_tail (tl : bytes) (l : list (bytes * jast)) : Prop := tl = [] /\ l = [] \/ exists t, tl = 44 :: t /\ jmembers t l.
Lemma after_obj st0 r : after st0 r -> forall st,
  (st0 = PVal :: st -> exists w l tl r', ws w /\ r = w ++ tl ++ 125 :: r' /\ after st r' /\ mems_tail tl l /\ Forall (fun kv => fit (PArr :: st) (snd kv)) l) /\
  (st0 = PKey :: st -> exists w2 w3 v a w4 l tl r', ws w2 /\ ws w3 /\ jvalue v a /\ ws w4 /\ fit (PArr :: st) a /\ r = w2 ++ 58 :: w3 ++ v ++ w4 ++ tl ++ 125 :: r' /\
     after st r' /\ mems_tail tl l /\ Forall (fun kv => fit (PArr :: st) (snd kv)) l).
Proof.
  induction 1 as [| | |w r st Hw H IH|w w' k r st Hw Hw' K H IH|w w' v a r st Hw Hw' J F H IH]; intros st1; (split; intros E; try discriminate; injection E as <-).
  - exists w, [], [], r. split; [exact Hw|]. split; [reflexivity|]. split; [exact H|]. split; [left; auto|constructor].
  - destruct (IH st) as [_ IH']. destruct (IH' eq_refl) as (w2 & w3 & v & a & w4 & l & tl & r' & W2 & W3 & J & W4 & F & -> & A & T & FA).
    assert (JM : jmember (w' ++ k ++ w2 ++ 58 :: w3 ++ v ++ w4) (k, a)) by (constructor; assumption).
    exists w, ((k, a) :: l), (44 :: (w' ++ k ++ w2 ++ 58 :: w3 ++ v ++ w4) ++ tl), r'. split; [exact Hw|].
    split; [cbn [app]; rewrite <- !app_assoc; cbn [app]; rewrite <- !app_assoc; reflexivity|]. split; [exact A|]. split; [|constructor; assumption].
    right. eexists. split; [reflexivity|]. destruct T as [[-> ->]|(t & -> & JE)]; [rewrite app_nil_r|]; constructor; assumption.
  - destruct (IH st) as [IH' _]. destruct (IH' eq_refl) as (w2 & l & tl & r' & W2 & -> & A & T & FA).
    exists w, w', v, a, w2, l, tl, r'. repeat (split; [assumption|]). split; [reflexivity|]. auto.
Qed.
Lemma begins_obj st t : Z.of_nat (length (PArr :: st)) <= max_nesting -> begins_key (PKey :: st) t ->
  exists s l r, t = s ++ 125 :: r /\ jmembers s l /\ fit st (JObj l) /\ after st r.
Proof.
  intros N (w & k & r & -> & W & K & A). destruct (after_obj _ _ A st) as [_ X].
  destruct (X eq_refl) as (w2 & w3 & v & a & w4 & l & tl & r' & W2 & W3 & J & W4 & F & -> & A' & T & FA).
  assert (JM : jmember (w ++ k ++ w2 ++ 58 :: w3 ++ v ++ w4) (k, a)) by (constructor; assumption).
  exists ((w ++ k ++ w2 ++ 58 :: w3 ++ v ++ w4) ++ tl), ((k, a) :: l), r'. split; [rewrite <- !app_assoc; cbn [app]; rewrite <- !app_assoc; reflexivity|].
  split; [destruct T as [[-> ->]|(u & -> & JE)]; [rewrite app_nil_r|]; constructor; assumption|]. split; [|exact A'].
  apply fit_obj; [exact N|]. constructor; assumption.
Qed.
Lemma obj_begins s l : jmembers s l -> forall st r, Forall (fun kv => fit (PArr :: st) (snd kv)) l -> after st r -> begins_key (PKey :: st) (s ++ 125 :: r).
Proof.
  intros H. induction H as [m kv M|m kv t l M E IH]; intros st r F A; destruct M as [w1 k w2 w3 s v w4 W1 K W2 W3 J W4].
  - exists w1, k, (w2 ++ 58 :: w3 ++ s ++ w4 ++ 125 :: r). rewrite <- !app_assoc. cbn [app]. rewrite <- !app_assoc. split; [reflexivity|]. split; [exact W1|]. split; [exact K|].
    eapply A_key; try eassumption; [exact (Forall_inv F)|]. apply A_obj_end; assumption.
  - specialize (IH st r (Forall_inv_tail F) A). destruct IH as (w & k' & r' & E' & W & K' & A').
    exists w1, k, (w2 ++ 58 :: w3 ++ s ++ w4 ++ 44 :: w ++ k' ++ r'). rewrite <- E'. rewrite <- !app_assoc. cbn [app]. rewrite <- !app_assoc. cbn [app]. split; [reflexivity|].
    split; [exact W1|]. split; [exact K|]. eapply A_key; try eassumption; [exact (Forall_inv F)|]. rewrite E'. apply A_obj_next; assumption.
Qed.

(** * One byte *)
(** White space, then Q. *)
Definition skips (Q : bytes -> Prop) (s : bytes) : Prop := exists w r, s = w ++ r /\ ws w /\ Q r.
Definition hard (Q : bytes -> Prop) : Prop := ~ Q [] /\ forall c r, Q (c :: r) -> sc_space c = false.
Lemma skips_cons Q c t : hard Q -> skips Q (c :: t) <-> if sc_space c then skips Q t else Q (c :: t).
Proof.
  intros [N H]. split.
  - intros ([|x w] & r & E & W & q); cbn [app] in E.
    + subst r. rewrite (H c t q). exact q.
    + injection E as <- ->. rewrite (proj2 (space_iff c) (Forall_inv W)). exists w, r. split; [reflexivity|]. split; [exact (Forall_inv_tail W)|exact q].
  - destruct (sc_space c) eqn:S.
    + intros (w & r & -> & W & q). exists (c :: w), r. split; [reflexivity|]. split; [constructor; [apply space_iff, S|exact W]|exact q].
    + intros q. exists [], (c :: t). split; [reflexivity|]. split; [constructor|exact q].
Qed.
Lemma skips_nil Q : hard Q -> ~ skips Q [].
Proof. intros [N _] (w & r & E & _ & q). symmetry in E. apply app_eq_nil in E as [_ ->]. exact (N q). Qed.
Lemma skips_or P Q s : skips (fun r => P r \/ Q r) s <-> skips P s \/ skips Q s.
Proof.
  split.
  - intros (w & r & E & W & [p|q]); [left|right]; exists w, r; auto.
  - intros [(w & r & E & W & p)|(w & r & E & W & p)]; exists w, r; auto.
Qed.
Definition one (x : Z) (P : bytes -> Prop) (s : bytes) : Prop := exists r, s = x :: r /\ P r.
Lemma one_cons x P c t : one x P (c :: t) <-> c = x /\ P t.
Proof. split; [intros (r & E & p); injection E as <- <-; auto|intros [-> p]; exists t; auto]. Qed.
Lemma one_hard x P : sc_space x = false -> hard (one x P).
Proof. intros S. split; [intros (r & E & _); discriminate|intros c r H; apply one_cons in H as [-> _]; exact S]. Qed.
Lemma or_hard P Q : hard P -> hard Q -> hard (fun r => P r \/ Q r).
Proof. intros [N1 H1] [N2 H2]. split; [tauto|]. intros c r [H|H]; eauto. Qed.
Definition valued (st : list pstate) (s : bytes) : Prop := exists v a r, s = v ++ r /\ jvalue v a /\ fit st a /\ after st r.
Definition keyed (st : list pstate) (s : bytes) : Prop := exists k r, s = k ++ r /\ string_lit k /\ after st r.
Lemma valued_hard st : hard (valued st).
Proof.
  split.
  - intros (v & a & r & E & J & _). apply jvalue_head in J as (c & t & -> & _). discriminate.
  - intros c r (v & a & r' & E & J & _). apply jvalue_head in J as (c' & t & -> & H). injection E as <- _.
    apply not_true_iff_false. rewrite space_iff. lia.
Qed.
Lemma keyed_hard st : hard (keyed st).
Proof.
  split.
  - intros (v & r & E & (b & -> & _) & _). discriminate.
  - intros c r (v & r' & E & (b & -> & _) & _). injection E as -> _. reflexivity.
Qed.
Lemma begins_skips st s : begins st s <-> skips (valued st) s.
Proof.
  split.
  - intros (w & v & a & r & -> & W & J & F & A). exists w, (v ++ r). split; [reflexivity|]. split; [exact W|]. exists v, a, r. auto.
  - intros (w & r0 & -> & W & v & a & r & -> & J & F & A). exists w, v, a, r. auto 6.
Qed.
Lemma begins_key_skips st s : begins_key st s <-> skips (keyed st) s.
Proof.
  split.
  - intros (w & k & r & -> & W & J & A). exists w, (k ++ r). split; [reflexivity|]. split; [exact W|]. exists k, r. auto.
  - intros (w & r0 & -> & W & k & r & -> & J & A). exists w, k, r. auto 6.
Qed.
Lemma skips_one x P s : skips (one x P) s <-> exists w r, s = w ++ x :: r /\ ws w /\ P r.
Proof.
  split.
  - intros (w & r & -> & W & r' & -> & p). exists w, r'. auto.
  - intros (w & r & -> & W & p). exists w, (x :: r). split; [reflexivity|]. split; [exact W|]. exists r. auto.
Qed.
Lemma after_arr_iff st s : after (PArr :: st) s <-> skips (fun r => one 93 (after st) r \/ one 44 (begins (PArr :: st)) r) s.
Proof.
  rewrite skips_or, !skips_one. split.
  - intros H. inversion H as [|w r st' W A E1 E2|w w' v a r st' W W' J F A E1 E2| | |]; subst; [left; eauto|right].
    exists w, (w' ++ v ++ r). split; [reflexivity|]. split; [exact W|]. exists w', v, a, r. auto 6.
  - intros [(w & r & -> & W & A)|(w & r0 & -> & W & w' & v & a & r & -> & W' & J & F & A)]; [apply A_arr_end; assumption|eapply A_arr_next; eassumption].
Qed.
Lemma after_val_iff st s : after (PVal :: st) s <-> skips (fun r => one 125 (after st) r \/ one 44 (begins_key (PKey :: st)) r) s.
Proof.
  rewrite skips_or, !skips_one. split.
  - intros H. inversion H as [| | |w r st' W A E1 E2|w w' v r st' W W' J A E1 E2|]; subst; [left; eauto|right].
    exists w, (w' ++ v ++ r). split; [reflexivity|]. split; [exact W|]. exists w', v, r. auto 6.
  - intros [(w & r & -> & W & A)|(w & r0 & -> & W & w' & v & r & -> & W' & J & A)]; [apply A_obj_end; assumption|eapply A_obj_next; eassumption].
Qed.
Lemma after_key_iff st s : after (PKey :: st) s <-> skips (one 58 (begins (PVal :: st))) s.
Proof.
  rewrite !skips_one. split.
  - intros H. inversion H as [| | | | |w w' v a r st' W W' J F A E1 E2]; subst.
    exists w, (w' ++ v ++ r). split; [reflexivity|]. split; [exact W|]. exists w', v, a, r. auto 6.
  - intros (w & r0 & -> & W & w' & v & a & r & -> & W' & J & F & A). eapply A_key; eassumption.
Qed.
Lemma after_nil_iff s : after [] s <-> ws s.
Proof. split; [intros H; inversion H; assumption|apply A_top]. Qed.
Lemma hard93 st : hard (fun r => one 93 (after st) r \/ one 44 (begins (PArr :: st)) r).
Proof. apply or_hard; apply one_hard; reflexivity. Qed.
Lemma hard125 st : hard (fun r => one 125 (after st) r \/ one 44 (begins_key (PKey :: st)) r).
Proof. apply or_hard; apply one_hard; reflexivity. Qed.
Lemma hard58 st : hard (one 58 (begins (PVal :: st))).
Proof. apply one_hard; reflexivity. Qed.

(** What a step does. *)
Definition steps (s : scanner) (P : bytes -> Prop) (r : scanner * scode) (t : bytes) (c : Z) : Prop := inv (fst r) /\ (Lang (fst r) t <-> P (c :: t)).
Lemma inv_error s o P t c : ~ P (c :: t) -> steps s P (Scanner SError (s_stack s) (s_end s) true, o) t c.
Proof. intros N. split; [constructor; cbn; congruence|]. unfold Lang. cbn. split; [intros [? _]; discriminate|tauto]. Qed.
Lemma ev_steps s c t : s_err s = false -> s_end s = false -> Z.of_nat (length (s_stack s)) <= max_nesting ->
  steps s (after (s_stack s)) (sc_end_value s c) t c.
Proof.
  intros E1 E2 N. unfold sc_end_value. destruct s as [q st e r]. cbn [s_stack s_end s_err s_step] in *. subst e r.
  destruct st as [|p st].
  - unfold sc_end_top. destruct (sc_space c) eqn:S.
    + split; [constructor; cbn; intros; try discriminate; [reflexivity|tauto]|]. unfold Lang. cbn [fst s_err s_step s_stack L]. rewrite after_nil_iff.
      split; [intros [_ W]; constructor; [apply space_iff, S|exact W]|intros W; split; [reflexivity|exact (Forall_inv_tail W)]].
    + apply (inv_error (Scanner SEndTop [] true false)). rewrite after_nil_iff. intros W. apply Forall_inv in W. apply space_iff in W. congruence.
  - assert (Len : Z.of_nat (length st) <= max_nesting) by (cbn [length] in N; lia).
    destruct (sc_space c) eqn:S.
    + split; [constructor; cbn; intros; try discriminate; [exact I|exact N|split; discriminate]|]. unfold Lang. cbn [fst sc_to s_err s_step s_stack L].
      destruct p; rewrite ?after_arr_iff, ?after_val_iff, ?after_key_iff, skips_cons, S by (apply hard93 || apply hard125 || apply hard58); tauto.
    + destruct p.
      * destruct (c =? 58) eqn:C; [apply Z.eqb_eq in C; subst c|apply Z.eqb_neq in C].
        -- split; [constructor; cbn; intros; try discriminate; [exact I|exact N|split; discriminate]|]. unfold Lang. cbn [fst sc_to s_err s_step s_stack L].
           rewrite after_key_iff, skips_cons, S, one_cons by apply hard58. tauto.
        -- apply (inv_error (Scanner q (PKey :: st) false false)). rewrite after_key_iff, skips_cons, S, one_cons by apply hard58. tauto.
      * destruct (c =? 44) eqn:C; [apply Z.eqb_eq in C; subst c|apply Z.eqb_neq in C].
        -- split; [constructor; cbn; intros; try discriminate; [exists st; reflexivity|exact N|split; discriminate]|]. unfold Lang. cbn [fst sc_to s_err s_step s_stack L].
           rewrite after_val_iff, skips_cons, S, !one_cons by apply hard125. split; [tauto|intros [[K _]|[_ K]]; [discriminate|tauto]].
        -- destruct (c =? 125) eqn:C'; [apply Z.eqb_eq in C'; subst c|apply Z.eqb_neq in C'].
           ++ split.
              ** destruct st; constructor; cbn; intros; try discriminate; auto; try tauto; split; discriminate.
              ** rewrite after_val_iff, skips_cons, S, !one_cons by apply hard125. unfold Lang. destruct st; cbn [fst sc_pop s_err s_step s_stack L].
                 --- rewrite after_nil_iff. split; [tauto|intros [[_ K]|[K _]]; [tauto|discriminate]].
                 --- split; [tauto|intros [[_ K]|[K _]]; [tauto|discriminate]].
           ++ apply (inv_error (Scanner q (PVal :: st) false false)). rewrite after_val_iff, skips_cons, S, !one_cons by apply hard125. tauto.
      * destruct (c =? 44) eqn:C; [apply Z.eqb_eq in C; subst c|apply Z.eqb_neq in C].
        -- split; [constructor; cbn; intros; try discriminate; [exact I|exact N|split; discriminate]|]. unfold Lang. cbn [fst sc_to s_err s_step s_stack L].
           rewrite after_arr_iff, skips_cons, S, !one_cons by apply hard93. split; [tauto|intros [[K _]|[_ K]]; [discriminate|tauto]].
        -- destruct (c =? 93) eqn:C'; [apply Z.eqb_eq in C'; subst c|apply Z.eqb_neq in C'].
           ++ split.
              ** destruct st; constructor; cbn; intros; try discriminate; auto; try tauto; split; discriminate.
              ** rewrite after_arr_iff, skips_cons, S, !one_cons by apply hard93. unfold Lang. destruct st; cbn [fst sc_pop s_err s_step s_stack L].
                 --- rewrite after_nil_iff. split; [tauto|intros [[_ K]|[K _]]; [tauto|discriminate]].
                 --- split; [tauto|intros [[_ K]|[K _]]; [tauto|discriminate]].
           ++ apply (inv_error (Scanner q (PArr :: st) false false)). rewrite after_arr_iff, skips_cons, S, !one_cons by apply hard93. tauto.
Qed.
Lemma fit0 st a : Z.of_nat (length st) <= max_nesting -> brackets a = 0 -> fit st a.
Proof. unfold fit. intros N ->. lia. Qed.
Definition deeper (st : list pstate) : Prop := Z.of_nat (length (PArr :: st)) <= max_nesting.
Lemma number_split c t st : (exists n r, c :: t = n ++ r /\ number_lit n /\ after st r) <->
  c = 45 /\ L SNeg st t \/ c = 48 /\ L S0 st t \/ 49 <= c <= 57 /\ L S1 st t.
Proof.
  cbn [L]. split.
  - intros (n & r & E & NL & A). destruct NL as [sg i f e SG I Fr Ex]. rewrite <- !app_assoc in E. destruct SG as [-> | ->]; cbn [app] in E.
    + right. destruct I as [|d ds D Ds]; cbn [app] in E; injection E as -> ->; [left|right]; (split; [auto|]); [exists f, e, r|exists ds, f, e, r]; auto 6.
    + left. injection E as -> ->. split; [reflexivity|]. exists i, f, e, r. auto 6.
  - intros [[-> (i & f & e & r & -> & I & Fr & Ex & A)]|[[-> (f & e & r & -> & Fr & Ex & A)]|[C (ds & f & e & r & -> & Ds & Fr & Ex & A)]]].
    + exists ([45] ++ i ++ f ++ e), r. split; [rewrite <- !app_assoc; reflexivity|]. split; [constructor; auto|exact A].
    + exists ([] ++ [48] ++ f ++ e), r. split; [rewrite <- !app_assoc; reflexivity|]. split; [constructor; auto; constructor|exact A].
    + exists ([] ++ (c :: ds) ++ f ++ e), r. split; [rewrite <- !app_assoc; reflexivity|]. split; [constructor; auto; constructor; auto|exact A].
Qed.
Lemma valued_cases st c t : Z.of_nat (length st) <= max_nesting -> valued st (c :: t) <->
  c = 123 /\ deeper st /\ L SBeginStringOrEmpty (PKey :: st) t \/ c = 91 /\ deeper st /\ L SBeginValueOrEmpty (PArr :: st) t \/
  c = 34 /\ L SInString st t \/ (c = 45 /\ L SNeg st t \/ c = 48 /\ L S0 st t \/ 49 <= c <= 57 /\ L S1 st t) \/
  c = 116 /\ L (SLit (bs "rue")) st t \/ c = 102 /\ L (SLit (bs "alse")) st t \/ c = 110 /\ L (SLit (bs "ull")) st t.
Proof.
  intros N. rewrite <- number_split. split.
  - intros (v & a & r & E & J & F & A). destruct J as [| | |s K|s (b & -> & K)|w W|s l K|w W|s l K].
    + change (bs "null") with (110 :: bs "ull") in E. injection E as -> ->. do 6 right. split; [reflexivity|]. exists r. auto.
    + change (bs "true") with (116 :: bs "rue") in E. injection E as -> ->. do 4 right. left. split; [reflexivity|]. exists r. auto.
    + change (bs "false") with (102 :: bs "alse") in E. injection E as -> ->. do 5 right. left. split; [reflexivity|]. exists r. auto.
    + do 3 right. left. exists s, r. auto.
    + cbn [app] in E. injection E as -> E. rewrite <- app_assoc in E. subst t. do 2 right. left. split; [reflexivity|]. exists b, r. auto.
    + cbn [app] in E. injection E as -> E. rewrite <- app_assoc in E. subst t. right. left. split; [reflexivity|].
      split; [apply (fit_len st []); left; exact F|]. right. exists w, r. auto.
    + cbn [app] in E. injection E as -> E. rewrite <- app_assoc in E. subst t. right. left. split; [reflexivity|].
      assert (D : deeper st) by (apply (fit_len st l); left; exact F). split; [exact D|]. left. apply arr_begins with (l := l); [exact K| |exact A].
      apply fit_arr in F; assumption.
    + cbn [app] in E. injection E as -> E. rewrite <- app_assoc in E. subst t. left. split; [reflexivity|].
      split; [apply (fit_len st []); right; left; exact F|]. right. exists w, r. auto.
    + cbn [app] in E. injection E as -> E. rewrite <- app_assoc in E. subst t. left. split; [reflexivity|].
      assert (D : deeper st) by (apply (fit_len st []); right; right; exists l; exact F). split; [exact D|]. left. apply obj_begins with (l := l); [exact K| |exact A].
      apply fit_obj in F; assumption.
  - intros [(-> & D & [B|(w & r & -> & W & A)])|[(-> & D & [B|(w & r & -> & W & A)])|[(-> & b & r & -> & K & A)|[(n & r & E & K & A)|[(-> & r & -> & A)|[(-> & r & -> & A)|(-> & r & -> & A)]]]]]].
    + apply begins_obj in B as (s & l & r & -> & M & F & A); [|exact D]. exists (123 :: s ++ [125]), (JObj l), r. split; [cbn [app]; rewrite <- app_assoc; reflexivity|].
      split; [apply V_obj, M|auto].
    + exists (123 :: w ++ [125]), (JObj []), r. split; [cbn [app]; rewrite <- app_assoc; reflexivity|]. split; [apply V_obj0, W|]. split; [apply fit_obj; [exact D|constructor]|exact A].
    + apply begins_arr in B as (s & l & r & -> & M & F & A); [|exact D]. exists (91 :: s ++ [93]), (JArr l), r. split; [cbn [app]; rewrite <- app_assoc; reflexivity|].
      split; [apply V_arr, M|auto].
    + exists (91 :: w ++ [93]), (JArr []), r. split; [cbn [app]; rewrite <- app_assoc; reflexivity|]. split; [apply V_arr0, W|]. split; [apply fit_arr; [exact D|constructor]|exact A].
    + exists (34 :: b ++ [34]), (JStr (34 :: b ++ [34])), r. split; [cbn [app]; rewrite <- app_assoc; reflexivity|].
      split; [apply V_str; exists b; auto|]. split; [apply fit0; auto|exact A].
    + exists n, (JNum n), r. split; [exact E|]. split; [apply V_num, K|]. split; [apply fit0; auto|exact A].
    + exists (bs "true"), JTrue, r. split; [reflexivity|]. split; [constructor|]. split; [apply fit0; auto|exact A].
    + exists (bs "false"), JFalse, r. split; [reflexivity|]. split; [constructor|]. split; [apply fit0; auto|exact A].
    + exists (bs "null"), JNull, r. split; [reflexivity|]. split; [constructor|]. split; [apply fit0; auto|exact A].
Qed.

Ltac state := split; [constructor; cbn; intros; try discriminate; try tauto; try (split; discriminate); auto; try (split; [discriminate|repeat (apply Forall_cons; [lia|]); constructor])|unfold Lang; cbn [fst sc_to s_err s_step s_stack]].
Lemma bv_steps s c t : s_err s = false -> s_end s = false -> Z.of_nat (length (s_stack s)) <= max_nesting ->
  match s_stack s with PKey :: _ => False | _ => True end -> s_step s = SBeginValue \/ sc_space c = false ->
  steps s (begins (s_stack s)) (sc_begin_value s c) t c.
Proof.
  intros E1 E2 N SH Q. unfold sc_begin_value. destruct s as [q st e r]. cbn [s_stack s_end s_err s_step] in *. subst e r.
  destruct (sc_space c) eqn:S.
  - destruct Q as [->|Q]; [|discriminate]. state. cbn [L]. rewrite !begins_skips, skips_cons, S by apply valued_hard. tauto.
  - assert (P : begins st (c :: t) <-> valued st (c :: t)) by (rewrite begins_skips, skips_cons, S by apply valued_hard; tauto).
    pose proof (valued_cases st c t N) as VC. rewrite <- P in VC. clear P Q.
    assert (OP : forall q p, shape q (p :: st) -> q <> SEndTop -> deeper st /\ L q (p :: st) t <-> begins st (c :: t) -> steps (Scanner q st false false) (begins st) (sc_push (Scanner q st false false) q p) t c).
    { intros q' p Sh NE H. unfold sc_push. cbn [s_stack s_end s_err s_step]. destruct (_ <=? _) eqn:D.
      - apply Z.leb_le in D. state; try (split; [discriminate|congruence]). rewrite <- H. unfold deeper. cbn [length] in *. tauto.
      - apply Z.leb_gt in D. apply (inv_error (Scanner q' (p :: st) false false)). rewrite <- H. unfold deeper. cbn [length] in *. lia. }
    destruct (c =? 123) eqn:C1; [apply Z.eqb_eq in C1; subst c|apply Z.eqb_neq in C1].
    { specialize (OP SBeginStringOrEmpty PKey (ex_intro _ st eq_refl) ltac:(discriminate)). apply OP. rewrite VC. intuition lia. }
    destruct (c =? 91) eqn:C2; [apply Z.eqb_eq in C2; subst c|apply Z.eqb_neq in C2].
    { specialize (OP SBeginValueOrEmpty PArr (ex_intro _ st eq_refl) ltac:(discriminate)). apply OP. rewrite VC. intuition lia. }
    clear OP.
    destruct (c =? 34) eqn:C3; [apply Z.eqb_eq in C3; subst c|apply Z.eqb_neq in C3].
    { state. rewrite VC. intuition lia. }
    destruct (c =? 45) eqn:C4; [apply Z.eqb_eq in C4; subst c|apply Z.eqb_neq in C4].
    { state. rewrite VC. intuition lia. }
    destruct (c =? 48) eqn:C5; [apply Z.eqb_eq in C5; subst c|apply Z.eqb_neq in C5].
    { state. rewrite VC. intuition lia. }
    destruct (c =? 116) eqn:C6; [apply Z.eqb_eq in C6; subst c|apply Z.eqb_neq in C6].
    { state. rewrite VC. intuition lia. }
    destruct (c =? 102) eqn:C7; [apply Z.eqb_eq in C7; subst c|apply Z.eqb_neq in C7].
    { state. rewrite VC. intuition lia. }
    destruct (c =? 110) eqn:C8; [apply Z.eqb_eq in C8; subst c|apply Z.eqb_neq in C8].
    { state. rewrite VC. intuition lia. }
    destruct ((49 <=? c) && (c <=? 57)) eqn:C9.
    { apply andb_true_iff in C9. rewrite !Z.leb_le in C9. state. rewrite VC. intuition lia. }
    apply andb_false_iff in C9. rewrite !Z.leb_gt in C9. apply (inv_error (Scanner q st false false)). rewrite VC. intuition lia.
Qed.
Lemma keyed_cases st c t : keyed st (c :: t) <-> c = 34 /\ L SInString st t.
Proof.
  split.
  - intros (k & r & E & (b & -> & K) & A). cbn [app] in E. injection E as -> E. rewrite <- app_assoc in E. subst t. split; [reflexivity|]. exists b, r. auto.
  - intros (-> & b & r & -> & K & A). exists (34 :: b ++ [34]), r. split; [cbn [app]; rewrite <- app_assoc; reflexivity|]. split; [exists b; auto|exact A].
Qed.
Lemma bk_steps s c t : s_err s = false -> s_end s = false -> Z.of_nat (length (s_stack s)) <= max_nesting ->
  (exists st, s_stack s = PKey :: st) -> s_step s = SBeginString \/ sc_space c = false ->
  steps s (begins_key (s_stack s)) (sc_begin_string s c) t c.
Proof.
  intros E1 E2 N SH Q. unfold sc_begin_string. destruct s as [q st e r]. cbn [s_stack s_end s_err s_step] in *. subst e r.
  destruct (sc_space c) eqn:S.
  - destruct Q as [->|Q]; [|discriminate]. state. cbn [L]. rewrite !begins_key_skips, skips_cons, S by apply keyed_hard. tauto.
  - assert (P : begins_key st (c :: t) <-> c = 34 /\ L SInString st t) by (rewrite begins_key_skips, skips_cons, S, keyed_cases by apply keyed_hard; tauto).
    destruct (c =? 34) eqn:C; [apply Z.eqb_eq in C; subst c|apply Z.eqb_neq in C].
    + state. rewrite P. tauto.
    + apply (inv_error (Scanner q st false false)). rewrite P. tauto.
Qed.
