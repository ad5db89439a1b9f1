(** Lemmas for C85: the calendar. *)
From Verif Require Import Bytes SpecJson SpecNum TimeModel SpecTime.
From Coq Require Import Lia ZArith.
Ltac Zify.zify_post_hook ::= Z.to_euclidean_division_equations.

Lemma divide_mod a b : 0 < a -> (a | b) <-> b mod a = 0.
Proof. intros H. split; [apply Znumtheory.Zdivide_mod|apply Znumtheory.Zmod_divide; lia]. Qed.
Lemma leap_spec y : is_leap y = true <-> leap_year y.
Proof.
  unfold is_leap, leap_year. rewrite !divide_mod by lia.
  rewrite andb_true_iff, orb_true_iff, negb_true_iff, !Z.eqb_eq, Z.eqb_neq. tauto.
Qed.
Lemma leap_false y : is_leap y = false <-> ~ leap_year y.
Proof. rewrite <- leap_spec. destruct (is_leap y); split; congruence. Qed.
Lemma month_length_fun y m n : month_length y m n <-> 1 <= m <= 12 /\ n = days_in y m.
Proof.
  split.
  - intros H. inversion H as [m' I|m' I|L|L]; subst.
    + cbn in I. repeat (destruct I as [<-|I]); [..|contradiction]; split; try reflexivity; lia.
    + cbn in I. repeat (destruct I as [<-|I]); [..|contradiction]; split; try reflexivity; lia.
    + split; [lia|]. unfold days_in. cbn. rewrite (proj2 (leap_spec y) L). reflexivity.
    + split; [lia|]. unfold days_in. cbn. rewrite (proj2 (leap_false y) L). reflexivity.
  - intros [H ->].
    assert (C : m = 1 \/ m = 2 \/ m = 3 \/ m = 4 \/ m = 5 \/ m = 6 \/ m = 7 \/ m = 8 \/ m = 9 \/ m = 10 \/ m = 11 \/ m = 12) by lia.
    destruct C as [->|[->|[->|[->|[->|[->|[->|[->|[->|[->|[->| ->]]]]]]]]]]]; unfold days_in; cbn -[is_leap].
    2:{ destruct (is_leap y) eqn:E; [apply ml_29, leap_spec, E|apply ml_28, leap_false, E]. }
    all: first [apply ml_31; cbn; tauto|apply ml_30; cbn; tauto].
Qed.

(** a year: days before it, counted from the year 1 *)
Definition yb (y : Z) : Z := let p := y - 1 in 365 * p + p / 4 - p / 100 + p / 400.
Definition mb (leap : bool) (m : Z) : Z := days_before m + (if leap && (2 <? m) then 1 else 0).
Lemma day_of_eq y m d : day_of y m d = yb y + mb (is_leap y) m + (d - 1) - 719162.
Proof. unfold day_of, yb, mb. cbv zeta. lia. Qed.
Definition ylen (y : Z) : Z := if is_leap y then 366 else 365.
Lemma yb_next y : yb (y + 1) = yb y + ylen y.
Proof.
  unfold yb, ylen, is_leap. cbv zeta. replace (y + 1 - 1) with y by lia.
  destruct (y mod 4 =? 0) eqn:E1, (y mod 100 =? 0) eqn:E2, (y mod 400 =? 0) eqn:E3; cbn [andb orb negb];
    rewrite ?Z.eqb_eq, ?Z.eqb_neq in *; lia.
Qed.
Lemma ylen_pos y : 365 <= ylen y <= 366.
Proof. unfold ylen. destruct (is_leap y); lia. Qed.
Lemma yb_mono y k : 0 <= k -> yb y + 365 * k <= yb (y + k).
Proof.
  revert k. apply (natlike_ind (fun k => yb y + 365 * k <= yb (y + k))).
  - replace (y + 0) with y by lia. lia.
  - intros k Hk IH. replace (y + Z.succ k) with (y + k + 1) by lia. rewrite yb_next. pose proof (ylen_pos (y + k)). lia.
Qed.
Definition months : list Z := [1; 2; 3; 4; 5; 6; 7; 8; 9; 10; 11; 12].
Lemma month_cases (P : Z -> Prop) : Forall P months -> forall m, 1 <= m <= 12 -> P m.
Proof.
  intros F m H. rewrite Forall_forall in F. apply F. unfold months. cbn. lia.
Qed.
Definition mlen (leap : bool) (m : Z) : Z :=
  if m =? 2 then (if leap then 29 else 28) else if (m =? 4) || (m =? 6) || (m =? 9) || (m =? 11) then 30 else 31.
Lemma days_in_mlen y m : days_in y m = mlen (is_leap y) m.
Proof. reflexivity. Qed.
Lemma mb_next leap m : 1 <= m <= 11 -> mb leap (m + 1) = mb leap m + mlen leap m.
Proof.
  intros H. assert (K : forall m, 1 <= m <= 12 -> m <= 11 -> mb leap (m + 1) = mb leap m + mlen leap m).
  { apply (month_cases (fun m => m <= 11 -> mb leap (m + 1) = mb leap m + mlen leap m)). unfold months. destruct leap; repeat apply Forall_cons; try apply Forall_nil; vm_compute; try reflexivity; intros E; exfalso; apply E; reflexivity. }
  apply K; lia.
Qed.
Lemma mb_last leap : mb leap 12 + mlen leap 12 = if leap then 366 else 365.
Proof. destruct leap; reflexivity. Qed.
Lemma mb_first leap : mb leap 1 = 0.
Proof. destruct leap; reflexivity. Qed.
Lemma mlen_pos leap m : 28 <= mlen leap m <= 31.
Proof. unfold mlen. destruct (m =? 2), leap, ((m =? 4) || (m =? 6) || (m =? 9) || (m =? 11)); lia. Qed.

Definition vdate (y m d : Z) : Prop := 1 <= m <= 12 /\ 1 <= d <= mlen (is_leap y) m.
Lemma valid_vdate y m d : valid_date y m d <-> vdate y m d.
Proof.
  unfold valid_date, vdate. split.
  - intros (n & L & D). apply month_length_fun in L as [L ->]. rewrite days_in_mlen in D. auto.
  - intros [M D]. exists (days_in y m). rewrite month_length_fun, days_in_mlen. auto.
Qed.
Lemma tomorrow_day y m d y' m' d' : tomorrow (y, m, d) (y', m', d') ->
  vdate y m d -> vdate y' m' d' /\ day_of y' m' d' = day_of y m d + 1.
Proof.
  intros T [M D]. rewrite !day_of_eq. inversion T as [a b c n L R|a b n L R|a]; subst.
  - apply month_length_fun in L as [_ ->]. rewrite days_in_mlen in R. unfold vdate. lia.
  - apply month_length_fun in L as [L ->]. rewrite days_in_mlen. rewrite mb_next by lia.
    pose proof (mlen_pos (is_leap y') (m + 1)). unfold vdate. lia.
  - rewrite yb_next, mb_first. pose proof (mb_last (is_leap y)) as E. change (mlen (is_leap y) 12) with 31 in E.
    pose proof (mlen_pos (is_leap (y + 1)) 1). unfold vdate, ylen. destruct (is_leap y); lia.
Qed.
Lemma tomorrow_valid a y m d : tomorrow a (y, m, d) -> let '(y', m', d') := a in vdate y' m' d'.
Proof.
  intros T. inversion T as [a' b c n L R|a' b n L R|a']; subst.
  - apply month_length_fun in L as [M ->]. rewrite days_in_mlen in R. unfold vdate. lia.
  - apply month_length_fun in L as [M ->]. rewrite days_in_mlen. pose proof (mlen_pos (is_leap y) b). unfold vdate. lia.
  - unfold vdate. change (mlen _ 12) with 31. lia.
Qed.
Lemma tomorrow_exists y m d : vdate y m d -> exists b, tomorrow (y, m, d) b.
Proof.
  intros [M D]. assert (L : month_length y m (mlen (is_leap y) m)) by (apply month_length_fun; auto).
  destruct (Z.eq_dec d (mlen (is_leap y) m)) as [->|N].
  - destruct (Z.eq_dec m 12) as [->|N']; [exists (y + 1, 1, 1); apply tm_year|].
    exists (y, m + 1, 1). apply tm_month; [exact L|lia].
  - exists (y, m, d + 1). eapply tm_day; [exact L|lia].
Qed.

(** a day of the year, from 0 *)
Lemma mb_bounds leap m d : 1 <= m <= 12 -> 1 <= d <= mlen leap m -> 0 <= mb leap m + (d - 1) < (if leap then 366 else 365).
Proof.
  intros M D. assert (K : forall m, 1 <= m <= 12 -> 0 <= mb leap m /\ mb leap m + mlen leap m <= if leap then 366 else 365).
  { apply (month_cases (fun m => 0 <= mb leap m /\ mb leap m + mlen leap m <= if leap then 366 else 365)). unfold months. destruct leap; repeat apply Forall_cons; try apply Forall_nil; split; vm_compute; intros E; discriminate E. }
  specialize (K m M). lia.
Qed.
Lemma mb_mono leap m m' : 1 <= m -> m < m' -> m' <= 12 -> mb leap m + mlen leap m <= mb leap m'.
Proof.
  intros A B C. assert (K : forall k, 0 <= k -> m + 1 + k <= 12 -> mb leap m + mlen leap m <= mb leap (m + 1 + k)).
  { apply (natlike_ind (fun k => m + 1 + k <= 12 -> mb leap m + mlen leap m <= mb leap (m + 1 + k))).
    - intros _. rewrite Z.add_0_r, mb_next by lia. lia.
    - intros k Hk IH L. replace (m + 1 + Z.succ k) with (m + 1 + k + 1) by lia. rewrite (mb_next leap (m + 1 + k)) by lia.
      pose proof (mlen_pos leap (m + 1 + k)). lia. }
  specialize (K (m' - m - 1)). replace (m + 1 + (m' - m - 1)) with m' in K by lia. apply K; lia.
Qed.
Lemma day_of_inj y m d y' m' d' : vdate y m d -> vdate y' m' d' -> day_of y m d = day_of y' m' d' -> (y, m, d) = (y', m', d').
Proof.
  intros [M D] [M' D'] E. rewrite !day_of_eq in E.
  pose proof (mb_bounds _ _ _ M D) as B. pose proof (mb_bounds _ _ _ M' D') as B'.
  assert (Y : y = y').
  { destruct (Z.lt_trichotomy y y') as [L|[L|L]]; [exfalso|exact L|exfalso].
    - pose proof (yb_mono (y + 1) (y' - (y + 1)) ltac:(lia)) as K. replace (y + 1 + (y' - (y + 1))) with y' in K by lia.
      rewrite yb_next in K. unfold ylen in K. lia.
    - pose proof (yb_mono (y' + 1) (y - (y' + 1)) ltac:(lia)) as K. replace (y' + 1 + (y - (y' + 1))) with y in K by lia.
      rewrite yb_next in K. unfold ylen in K. lia. }
  subst y'. set (l := is_leap y) in *.
  assert (ME : m = m').
  { destruct (Z.lt_trichotomy m m') as [L|[L|L]]; [exfalso|exact L|exfalso].
    - pose proof (mb_mono l m m' ltac:(lia) L ltac:(lia)). lia.
    - pose proof (mb_mono l m' m ltac:(lia) L ltac:(lia)). lia. }
  subst m'. f_equal. lia.
Qed.

Fixpoint upto (n : nat) : list Z := match n with O => [] | S k => upto k ++ [Z.of_nat k] end.
Lemma upto_in n z : 0 <= z < Z.of_nat n -> In z (upto n).
Proof.
  induction n as [|n IH]; intros H; [lia|]. cbn [upto]. apply in_or_app.
  destruct (Z.eq_dec z (Z.of_nat n)) as [->|N]; [right; left; reflexivity|left; apply IH; lia].
Qed.
Lemma month_day_spec (leap : bool) yd : 0 <= yd < (if leap then 366 else 365) ->
  let (m, d) := month_day leap yd in 1 <= m <= 12 /\ 1 <= d <= mlen leap m /\ mb leap m + (d - 1) = yd.
Proof.
  intros H.
  set (ok := fun (leap : bool) (yd : Z) => let (m, d) := month_day leap yd in (1 <=? m) && (m <=? 12) && (1 <=? d) && (d <=? mlen leap m) && (mb leap m + (d - 1) =? yd)).
  assert (K : forallb (ok leap) (upto (if leap then 366 else 365)%nat) = true) by (destruct leap; vm_compute; reflexivity).
  rewrite forallb_forall in K. specialize (K yd). unfold ok in K.
  destruct (month_day leap yd) as [m d].
  assert (I : In yd (upto (if leap then 366 else 365)%nat)) by (apply upto_in; destruct leap; lia).
  specialize (K I). rewrite !andb_true_iff, !Z.leb_le, Z.eqb_eq in K. lia.
Qed.

Lemma date_of_spec n : let '(y, m, d) := date_of n in vdate y m d /\ day_of y m d = n.
Proof.
  unfold date_of. cbv zeta. set (e := n + 719162).
  set (a := e / 146097). set (d1 := e - 146097 * a).
  set (b := d1 / 36524 - d1 / 36524 / 4). set (d2 := d1 - 36524 * b).
  set (c := d2 / 1461). set (d3 := d2 - 1461 * c).
  set (f := d3 / 365 - d3 / 365 / 4). set (d4 := d3 - 365 * f).
  set (y := 400 * a + 100 * b + 4 * c + f + 1).
  assert (H1 : 0 <= d1 < 146097) by (unfold d1, a; lia).
  assert (Hb : 0 <= b <= 3 /\ 0 <= d2 <= 36524 /\ (b < 3 -> d2 < 36524)) by (unfold d2, b; lia).
  assert (Hc : 0 <= c <= 24 /\ 0 <= d3 <= 1460 /\ (c = 24 -> b < 3 -> d3 < 1460)) by (unfold d3, c; lia).
  assert (Hf : 0 <= f <= 3 /\ 0 <= d4 <= 365 /\ (f < 3 -> d4 < 365) /\ (d4 = 365 -> d3 = 1460)) by (unfold d4, f; lia).
  assert (Hn : e = 146097 * a + 36524 * b + 1461 * c + 365 * f + d4) by (unfold d4, d3, d2, d1; lia).
  clearbody a b c f d1 d2 d3 d4.
  assert (Q : (y - 1) / 4 = 100 * a + 25 * b + c /\ (y - 1) / 100 = 4 * a + b /\ (y - 1) / 400 = a) by (unfold y; lia).
  assert (L : is_leap y = (f =? 3) && ((c <? 24) || (b =? 3))).
  { unfold is_leap. 
    assert (M4 : (y mod 4 =? 0) = (f =? 3)) by (unfold y; destruct (f =? 3) eqn:E; rewrite ?Z.eqb_eq, ?Z.eqb_neq in *; lia).
    rewrite M4. destruct (Z.eqb_spec f 3) as [F3|F3]; [|reflexivity]. cbn [andb].
    assert (M100 : (y mod 100 =? 0) = negb (c <? 24)).
    { unfold y. destruct (c <? 24) eqn:E; cbn [negb]; rewrite ?Z.eqb_eq, ?Z.eqb_neq, ?Z.ltb_lt, ?Z.ltb_ge in *; lia. }
    rewrite M100, negb_involutive. destruct (Z.ltb_spec c 24) as [C|C]; [reflexivity|]. cbn [orb].
    unfold y. destruct (Z.eqb_spec b 3); rewrite ?Z.eqb_eq, ?Z.eqb_neq; lia. }
  assert (Y : 0 <= d4 < (if is_leap y then 366 else 365)).
  { rewrite L. destruct (Z.eqb_spec f 3), (Z.ltb_spec c 24), (Z.eqb_spec b 3); cbn; lia. }
  pose proof (month_day_spec (is_leap y) d4 Y) as M. destruct (month_day (is_leap y) d4) as [m d].
  destruct M as (M1 & M2 & M3). split; [split; assumption|].
  rewrite day_of_eq. unfold yb. cbv zeta. destruct Q as (-> & -> & ->). unfold e in Hn. unfold y. unfold y in M3. lia.
Qed.

Lemma dated_spec n a : dated n a -> let '(y, m, d) := a in vdate y m d /\ day_of y m d = n.
Proof.
  induction 1 as [|n [[y m] d] [[y' m'] d'] D [V E] T|n [[y m] d] [[y' m'] d'] D [V E] T].
  - split; [split; vm_compute; intuition discriminate|reflexivity].
  - destruct (tomorrow_day _ _ _ _ _ _ T V). split; [assumption|lia].
  - pose proof (tomorrow_valid _ _ _ _ T) as V'. cbn in V'. destruct (tomorrow_day _ _ _ _ _ _ T V') as [_ E']. split; [exact V'|lia].
Qed.
Lemma date_of_tomorrow n : tomorrow (date_of n) (date_of (n + 1)).
Proof.
  pose proof (date_of_spec n) as A. pose proof (date_of_spec (n + 1)) as B.
  destruct (date_of n) as [[y m] d], (date_of (n + 1)) as [[y' m'] d']. destruct A as [V E], B as [V' E'].
  destruct (tomorrow_exists _ _ _ V) as [[[y2 m2] d2] T]. destruct (tomorrow_day _ _ _ _ _ _ T V) as [V2 E2].
  rewrite (day_of_inj _ _ _ _ _ _ V' V2) by lia. exact T.
Qed.
Lemma dated_date_of n : dated n (date_of n).
Proof.
  destruct (Z.le_ge_cases 0 n) as [H|H].
  - revert n H. apply (natlike_ind (fun n => dated n (date_of n))).
    + change (date_of 0) with (1970, 1, 1). constructor.
    + intros k Hk IH. unfold Z.succ. eapply dt_next; [exact IH|apply date_of_tomorrow].
  - replace n with (- - n) by lia. assert (Hk : 0 <= - n) by lia. revert Hk. generalize (- n). clear.
    apply (natlike_ind (fun n => dated (- n) (date_of (- n)))).
    + change (date_of (- 0)) with (1970, 1, 1). constructor.
    + intros k Hk IH. eapply dt_prev; [|apply date_of_tomorrow]. replace (- Z.succ k + 1) with (- k) by lia. exact IH.
Qed.
Lemma dated_iff n a : dated n a <-> a = date_of n.
Proof.
  split; [|intros ->; apply dated_date_of]. intros D. pose proof (dated_spec _ _ D) as A. pose proof (date_of_spec n) as B.
  destruct a as [[y m] d], (date_of n) as [[y' m'] d']. destruct A as [V E], B as [V' E']. apply day_of_inj; auto; lia.
Qed.
