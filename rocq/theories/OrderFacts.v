(** Lemmas for C64. *)
From Coq Require Import Permutation.
From Verif Require Import Bytes ParseModel IntModel StringModel EncModel DecModel SpecJson SpecString SpecDec DecLoops IntFacts DecFacts
  TypeModel TypeFacts SpecType SpecField SpecSame SpecSpell SpellFacts SpecOrder TypeMain.

(** * Maps *)
Section Maps.
Context {K A : Type} (eqb : K -> K -> bool) (eqb_eq : forall a b, eqb a b = true <-> a = b) (R : A -> A -> Prop).

Lemma set_same k v v' (m m' : list (K * A)) : R v v' -> same_map R m m' -> same_map R (map_set eqb k v m) (map_set eqb k v' m').
Proof.
  intros RV (N & N' & A1 & A2). split; [now apply map_set_nodup|]. split; [now apply map_set_nodup|]. split.
  - intros a x I. apply (map_set_in eqb eqb_eq k v m N) in I as [[-> ->]|[NE I]].
    + exists v'. split; [|exact RV]. apply (map_set_in eqb eqb_eq k v' m' N'). now left.
    + destruct (A1 _ _ I) as (x' & I' & RX). exists x'. split; [|exact RX]. apply (map_set_in eqb eqb_eq k v' m' N'). now right.
  - intros a x I. apply (map_set_in eqb eqb_eq k v' m' N') in I as [[-> ->]|[NE I]].
    + exists v. split; [|exact RV]. apply (map_set_in eqb eqb_eq k v m N). now left.
    + destruct (A2 _ _ I) as (x' & I' & RX). exists x'. split; [|exact RX]. apply (map_set_in eqb eqb_eq k v m N). now right.
Qed.
Lemma add_same (kvs kvs' : list (K * A)) : Forall2 (fun e e' => fst e = fst e' /\ R (snd e) (snd e')) kvs kvs' ->
  forall m m', same_map R m m' -> same_map R (add_all eqb kvs m) (add_all eqb kvs' m').
Proof.
  induction 1 as [|[k v] [k' v'] kvs kvs' [E RV] F IH]; intros m m' S; [exact S|]. cbn [fst snd] in *. subst k'.
  cbn [add_all fold_left fst snd]. apply IH. now apply set_same.
Qed.
Lemma last_binding (kvs : list (K * A)) k v : NoDup (map fst kvs) ->
  ((exists l1 l2, kvs = l1 ++ (k, v) :: l2 /\ ~ In k (map fst l2)) <-> In (k, v) kvs).
Proof.
  intros N. split.
  - intros (l1 & l2 & -> & _). apply in_or_app. right. now left.
  - intros I. apply in_split in I as (l1 & l2 & ->). exists l1, l2. split; [easy|].
    rewrite map_app in N. cbn [map fst] in N. apply NoDup_remove_2 in N. rewrite in_app_iff in N. tauto.
Qed.
Lemma add_perm (kvs kvs1 m : list (K * A)) : Permutation kvs kvs1 -> NoDup (map fst kvs) -> NoDup (map fst m) ->
  forall e : K * A, In e (add_all eqb kvs m) <-> In e (add_all eqb kvs1 m).
Proof.
  intros P N NM [k v]. assert (N1 : NoDup (map fst kvs1)) by (eapply Permutation_NoDup; [apply Permutation_map, P|exact N]).
  rewrite !(add_all_in eqb eqb_eq) by exact NM. rewrite !last_binding by assumption.
  assert (IK : In k (map fst kvs) <-> In k (map fst kvs1)).
  { split; intros I; eapply Permutation_in; try exact I; apply Permutation_map; [exact P|now apply Permutation_sym]. }
  assert (IE : In (k, v) kvs <-> In (k, v) kvs1).
  { split; intros I; eapply Permutation_in; try exact I; [exact P|now apply Permutation_sym]. }
  tauto.
Qed.
Lemma same_map_in (m m1 m' : list (K * A)) : NoDup (map fst m) -> (forall e, In e m <-> In e m1) -> same_map R m1 m' -> same_map R m m'.
Proof.
  intros N E (N1 & N' & A1 & A2). split; [exact N|]. split; [exact N'|]. split.
  - intros k x I. apply E in I. now apply A1.
  - intros k x I. destruct (A2 _ _ I) as (y & I' & RY). exists y. split; [now apply E|exact RY].
Qed.
(** Entries assigned in another order. *)
Lemma add_order (kvs kvs1 kvs' m m' : list (K * A)) : kvs1 = kvs \/ (Permutation kvs kvs1 /\ NoDup (map fst kvs)) ->
  Forall2 (fun e e' => fst e = fst e' /\ R (snd e) (snd e')) kvs1 kvs' -> same_map R m m' ->
  same_map R (add_all eqb kvs m) (add_all eqb kvs' m').
Proof.
  intros [->|[P N]] F S; [now apply add_same|].
  eapply same_map_in; [| |apply (add_same kvs1 kvs' F m m' S)].
  - apply add_all_nodup; [exact eqb_eq|apply S].
  - apply add_perm; [exact P|exact N|apply S].
Qed.
End Maps.

Lemma same_map_nil {K A} (R : A -> A -> Prop) : same_map R (@nil (K * A)) [].
Proof. repeat split; try constructor; intros ? ? []. Qed.
Lemma mkey_eqb_eq' a b : mkey_eqb a b = true <-> a = b.
Proof.
  destruct a, b; cbn [mkey_eqb]; try (split; [intros; discriminate|congruence]); rewrite ?beqb_eq, ?Z.eqb_eq; split; congruence.
Qed.

(** * Trees *)
Section Order.
Context (V : tenv) (F : dflags) (K : kty -> Prop) (KS : K KYString).

Inductive shuf : node -> node -> Prop :=
| sh_null s s' : shuf (ND s HNull) (ND s' HNull)
| sh_true s s' : shuf (ND s HTrue) (ND s' HTrue)
| sh_false s s' : shuf (ND s HFalse) (ND s' HFalse)
| sh_num s : shuf (ND s HNum) (ND s HNum)
| sh_str s : shuf (ND s HStr) (ND s HStr)
| sh_arr s s' l l' : Forall2 shuf l l' -> shuf (ND s (HArr l)) (ND s' (HArr l'))
| sh_obj s s' l l1 l' : l1 = l \/ (Permutation l l1 /\ ForallOrdPairs (fun m m' => ~ clash V F K (fst m) (fst m')) l) ->
    Forall2 (fun m m' => fst m = fst m' /\ shuf (snd m) (snd m')) l1 l' -> shuf (ND s (HObj l)) (ND s' (HObj l')).

Lemma fop_map {A B} (f : A -> B) (Q : B -> B -> Prop) l : ForallOrdPairs Q (map f l) -> ForallOrdPairs (fun x y => Q (f x) (f y)) l.
Proof.
  induction l as [|x l IH]; intros H; [constructor|]. cbn [map] in H. inversion H as [|y l' FA H']; subst. constructor; [|auto].
  rewrite Forall_map in FA. exact FA.
Qed.
Lemma fop_perm {A} (Q : A -> A -> Prop) l l1 : (forall x y, Q x y -> Q y x) -> Permutation l l1 -> ForallOrdPairs Q l -> ForallOrdPairs Q l1.
Proof.
  intros SY P. induction P as [|x l l1 P IH|x y l|l l1 l2 P1 IH1 P2 IH2]; intros H; auto.
  - inversion H as [|z l' FA H']; subst. constructor; [|auto]. eapply Permutation_Forall; eauto.
  - inversion H as [|z l' FA H']; subst. inversion H' as [|z l' FA' H'']; subst. inversion FA as [|z l' QY FA2]; subst.
    constructor; [|constructor; assumption]. constructor; [apply SY; exact QY|assumption].
Qed.
Lemma clash_sym a b : clash V F K a b -> clash V F K b a.
Proof. intros [(i & k & k' & f & A & B & C & D)|(kt & x & A & B & C)]; [left; exists i, k', k, f; auto|right; exists kt, x; auto]. Qed.

Lemma erase_shuf n : forall v v', (nsize v < n)%nat -> reordered V F K (erase v) (erase v') -> shuf v v'.
Proof.
  induction n as [|n IH]; intros v v' SZ H; [lia|]. destruct v as [s h], v' as [s' h'].
  destruct h as [| | | | |l|l], h' as [| | | | |l'|l']; cbn [erase] in H; inversion H as [a0 LF|l0 l0' FE|l0 l1 l0' PM FE]; subst; try constructor; try destruct LF.
  - assert (SZl : forall nd, In nd l -> (nsize nd < n)%nat) by (intros nd I; apply (nsize_arr s) in I; lia). clear SZ H.
    revert l' FE. induction l as [|v l IHl]; intros [|v' l'] FE; inversion FE; subst; constructor.
    + apply IH; [apply SZl; now left|assumption].
    + apply IHl; [intros; apply SZl; now right|assumption].
  - set (er := fun kv : bytes * node => match kv with (k, v) => (k, erase v) end) in *.
    assert (EX : exists l2, l1 = map er l2 /\ (l2 = l \/ (Permutation l l2 /\ ForallOrdPairs (fun m m' => ~ clash V F K (fst m) (fst m')) l))).
    { destruct PM as [->|[P FO]]; [exists l; auto|]. apply Permutation_sym, Permutation_map_inv in P as (l2 & -> & P).
      exists l2. split; [easy|]. right. split; [now apply Permutation_sym|]. apply fop_map in FO.
      assert (EQ : forall x, fst (er x) = fst x) by (intros [? ?]; easy).
      clear - FO EQ. induction FO; constructor; auto. eapply Forall_impl; [|exact H]. cbn beta. intros y. now rewrite !EQ. }
    destruct EX as (l2 & -> & PM2). apply (sh_obj _ _ _ l2); [exact PM2|].
    assert (SZl : forall k nd, In (k, nd) l2 -> (nsize nd < n)%nat).
    { intros k nd I. assert (I' : In (k, nd) l) by (destruct PM2 as [->|[P _]]; [exact I|eapply Permutation_in; [apply Permutation_sym, P|exact I]]).
      apply (nsize_obj s) in I'. lia. }
    clear SZ H PM PM2. revert l' FE. induction l2 as [|[k v] l2 IHl]; intros [|[k' v'] l'] FE; inversion FE as [|x y lx ly [E1 E2] FE']; subst; constructor.
    + cbn in *. subst. split; [easy|]. apply IH; [eapply SZl; now left|assumption].
    + apply IHl; [intros; eapply SZl; right; eassumption|assumption].
Qed.

Lemma distinct_keys {B} (kt : kty) (Q : node -> B -> Prop) l kvs : K kt ->
  Forall2 (fun la kv => key_means V kt (fst la) (fst kv) /\ Q (snd la) (snd kv)) l kvs ->
  ForallOrdPairs (fun m m' => ~ clash V F K (fst m) (fst m')) l -> NoDup (map fst kvs).
Proof.
  intros KT. induction 1 as [|la kv l kvs [KM _] FE IH]; intros FO; [constructor|]. inversion FO as [|x l' FA FO']; subst. cbn [map]. constructor; [|auto].
  intros I. apply in_map_iff in I as (kv' & E & I). clear - FE FA KM E I KT.
  induction FE as [|la' kv2 l kvs [KM' _] FE IH]; [destruct I|]. inversion FA as [|x l' NC FA']; subst.
  destruct I as [->|I]; [|auto]. apply NC. right. exists kt, (fst kv). split; [exact KT|]. split; [exact KM|]. now rewrite <- E.
Qed.

(** * Interface values *)
Lemma ival_shuf n : forall v v' y, (nsize v < n)%nat -> shuf v v' -> ival (num V F) (erase v) y ->
  exists y', ival (num V F) (erase v') y' /\ same_value y y'.
Proof.
  induction n as [|n IH]; intros v v' y SZ A H; [lia|].
  destruct A as [s s'|s s'|s s'|s|s|s s' l l' E|s s' l l1 l' PM E]; cbn [erase] in *.
  1-3: inversion H; subst; eexists; (split; [exact H|]); now apply ov_leaf.
  - exists y. split; [exact H|]. inversion H as [| | |s0 v NM| | |]; subst. unfold num in NM. apply ov_leaf.
    destruct (d_usenum F); [subst y; exact I|]. destruct NM as (f & _ & ->). exact I.
  - inversion H; subst. eexists. split; [exact H|]. now apply ov_leaf.
  - inversion H as [| | | | |l0 vs FV|]; subst. clear H.
    assert (SZl : forall nd, In nd l -> (nsize nd < n)%nat) by (intros nd I; apply (nsize_arr s) in I; lia). clear SZ.
    enough (G : exists vs', Forall2 (ival (num V F)) (map erase l') vs' /\ Forall2 same_value vs vs').
    { destruct G as (vs' & G1 & G2). exists (JVArr vs'). split; constructor; assumption. }
    revert vs FV. induction E as [|v v' l l' E1 E IHl]; cbn [map]; intros vs FV; inversion FV as [|x y lx ly I1 FV']; subst.
    + exists []. split; constructor.
    + destruct (IH v v' y) as (y' & I2 & S2); [apply SZl; now left|exact E1|exact I1|].
      destruct (IHl (fun nd I => SZl nd (or_intror I)) _ FV') as (vs' & G1 & G2).
      exists (y' :: vs'). split; constructor; assumption.
  - inversion H as [| | | | | |l0 kvs FV]; subst. clear H.
    set (er := fun kv : bytes * node => match kv with (k, v) => (k, erase v) end) in *.
    set (Q := fun (v : node) y => ival (num V F) (erase v) y).
    assert (FV0 : forall m ks, Forall2 (fun la kv => str_means (fst la) (fst kv) /\ ival (num V F) (snd la) (snd kv)) (map er m) ks <->
                        Forall2 (fun la kv => str_means (fst la) (fst kv) /\ Q (snd la) (snd kv)) m ks).
    { clear. intros m. induction m as [|[k v] m IH]; intros ks; split; intros H; inversion H; subst; constructor; cbn in *; auto; now apply IH. }
    apply FV0 in FV.
    assert (KV : exists kvs1, (kvs1 = kvs \/ (Permutation kvs kvs1 /\ NoDup (map fst kvs))) /\
                  Forall2 (fun la kv => str_means (fst la) (fst kv) /\ Q (snd la) (snd kv)) l1 kvs1).
    { destruct PM as [->|[P FO]]; [exists kvs; auto|].
      destruct (Permutation_Forall2 P FV) as (kvs1 & P1 & FV1). exists kvs1. split; [|exact FV1]. right. split; [exact P1|].
      assert (DK : NoDup (map fst (map (fun kv : bytes * jv => (MKStr (fst kv), snd kv)) kvs))).
      { eapply (distinct_keys KYString Q l _ KS); [|exact FO]. clear - FV. induction FV as [|la kv l kvs [A B] FV IH]; cbn [map]; constructor; auto.
        split; [constructor; exact A|exact B]. }
      rewrite map_map in DK. cbn [fst] in DK. rewrite <- (map_map fst MKStr) in DK. now apply NoDup_map_inv in DK. }
    destruct KV as (kvs1 & PK & FV1).
    assert (SZl : forall k nd, In (k, nd) l1 -> (nsize nd < n)%nat).
    { intros k nd I. assert (I' : In (k, nd) l) by (destruct PM as [->|[P _]]; [exact I|eapply Permutation_in; [apply Permutation_sym, P|exact I]]).
      apply (nsize_obj s) in I'. lia. }
    enough (G : exists kvs', Forall2 (fun la kv => str_means (fst la) (fst kv) /\ Q (snd la) (snd kv)) l' kvs' /\
                Forall2 (fun e e' => fst e = fst e' /\ same_value (snd e) (snd e')) kvs1 kvs').
    { destruct G as (kvs' & G1 & G2). exists (JVMap (add_all beqb kvs' [])). split; [constructor; now apply FV0|].
      constructor. eapply add_order; [exact beqb_eq|exact PK|exact G2|apply same_map_nil]. }
    clear - IH SZl E FV1. revert kvs1 FV1. induction E as [|[k v] [k' v'] l1 l' [E1 E2] E IHl]; intros kvs1 FV; inversion FV as [|x y lx ly [I1 I2] FV']; subst.
    + exists []. split; constructor.
    + cbn [fst snd] in *. subst k'. destruct (IH v v' (snd y)) as (y' & I3 & S2); [eapply SZl; now left|exact E2|exact I2|].
      destruct (IHl (fun k nd I => SZl k nd (or_intror I)) _ FV') as (kvs' & G1 & G2).
      exists ((fst y, y') :: kvs'). split; constructor; auto.
Qed.

(** * Struct members in another order *)
Definition upd (i : nat) (y : mem) (l : list mem) : list mem := firstn i l ++ y :: skipn (S i) l.
Definition step_rel (R : mem -> mem -> Prop) (a : pstep) (x y : mem) : Prop :=
  match a with
  | PIn _ => R x y
  | PVia _ s u => (exists x0 y0, x = MPtr (Some x0) /\ y = MPtr (Some y0) /\ R x0 y0) \/
                  (u = false /\ x = MPtr None /\ exists y0, y = MPtr (Some y0) /\ R (zero V (YStruct s)) y0)
  end.
Lemma upd_app l1 x y l2 : upd (length l1) y (l1 ++ x :: l2) = l1 ++ y :: l2.
Proof.
  unfold upd. rewrite firstn_app, Nat.sub_diag, firstn_all, firstn_O, app_nil_r. f_equal. f_equal.
  change (l1 ++ x :: l2) with (l1 ++ [x] ++ l2). rewrite app_assoc. rewrite skipn_app.
  replace (S (length l1)) with (length (l1 ++ [x])) by (rewrite app_length; cbn; lia). rewrite skipn_all, Nat.sub_diag. reflexivity.
Qed.
Lemma at_path_inv R a p v x y : at_path V R (a :: p) v x y <->
  exists l z w, x = MList l /\ nth_error l (idx a) = Some z /\ y = MList (upd (idx a) w l) /\ step_rel (at_path V R p v) a z w.
Proof.
  split.
  - intros H. inversion H as [|l1 x0 l2 p0 v0 y0 H0|l1 x0 l2 s u p0 v0 y0 H0|l1 l2 s p0 v0 y0 H0]; subst; cbn [idx].
    + exists (l1 ++ x0 :: l2), x0, y0. rewrite upd_app. repeat split; auto. rewrite nth_error_app2, Nat.sub_diag by lia. reflexivity.
    + exists (l1 ++ MPtr (Some x0) :: l2), (MPtr (Some x0)), (MPtr (Some y0)). rewrite upd_app. repeat split; auto; [rewrite nth_error_app2, Nat.sub_diag by lia; reflexivity|].
      left. eauto.
    + exists (l1 ++ MPtr None :: l2), (MPtr None), (MPtr (Some y0)). rewrite upd_app. repeat split; auto; [rewrite nth_error_app2, Nat.sub_diag by lia; reflexivity|].
      right. eauto.
  - intros (l & z & w & -> & N & -> & S). apply nth_error_split in N as (l1 & l2 & -> & L). rewrite <- L, upd_app.
    destruct a as [i|i s u]; cbn [idx] in L; subst i; cbn [step_rel] in S.
    + now constructor.
    + destruct S as [(x0 & y0 & -> & -> & S)|(-> & -> & y0 & -> & S)]; now constructor.
Qed.
Lemma nth_upd_other i j y l : i <> j -> (i < length l)%nat -> nth_error (upd i y l) j = nth_error l j.
Proof.
  intros N L. destruct (nth_error l i) as [x|] eqn:E; [|apply nth_error_None in E; lia].
  apply nth_error_split in E as (l1 & l2 & -> & <-). rewrite upd_app.
  destruct (Nat.lt_ge_cases j (length l1)) as [H|H]; [now rewrite !nth_error_app1|].
  rewrite !nth_error_app2 by lia. destruct (j - length l1)%nat eqn:D; [lia|reflexivity].
Qed.
Lemma nth_upd_same i y l : (i < length l)%nat -> nth_error (upd i y l) i = Some y.
Proof.
  intros L. destruct (nth_error l i) as [x|] eqn:E; [|apply nth_error_None in E; lia].
  apply nth_error_split in E as (l1 & l2 & -> & <-). rewrite upd_app, nth_error_app2, Nat.sub_diag by lia. reflexivity.
Qed.
Lemma upd_twice i y z l : (i < length l)%nat -> upd i z (upd i y l) = upd i z l.
Proof.
  intros L. destruct (nth_error l i) as [x|] eqn:E; [|apply nth_error_None in E; lia].
  apply nth_error_split in E as (l1 & l2 & -> & <-). now rewrite !upd_app.
Qed.
Lemma upd_length i y l : (i < length l)%nat -> length (upd i y l) = length l.
Proof.
  intros L. destruct (nth_error l i) as [x|] eqn:E; [|apply nth_error_None in E; lia].
  apply nth_error_split in E as (l1 & l2 & -> & <-). rewrite upd_app, !app_length. reflexivity.
Qed.
Lemma list_ext {A} (l l' : list A) : (forall i, nth_error l i = nth_error l' i) -> l = l'.
Proof.
  revert l'. induction l as [|x l IH]; intros [|x' l'] H; auto; try (specialize (H 0%nat); discriminate).
  f_equal; [specialize (H 0%nat); cbn in H; congruence|]. apply IH. intros i. exact (H (S i)).
Qed.
Lemma upd_comm i j y z l : i <> j -> (i < length l)%nat -> (j < length l)%nat -> upd i y (upd j z l) = upd j z (upd i y l).
Proof.
  intros N I J. apply list_ext. intros k.
  destruct (Nat.eq_dec k i) as [->|Ni].
  - rewrite nth_upd_same by (rewrite upd_length; auto). rewrite nth_upd_other by (auto; rewrite upd_length; auto). now rewrite nth_upd_same.
  - rewrite nth_upd_other by (auto; rewrite upd_length; auto). destruct (Nat.eq_dec k j) as [->|Nj].
    + rewrite nth_upd_same by auto. rewrite nth_upd_same by (rewrite upd_length; auto). easy.
    + rewrite !nth_upd_other by (auto; rewrite upd_length; auto). easy.
Qed.
Lemma nth_lt {A} (l : list A) i x : nth_error l i = Some x -> (i < length l)%nat.
Proof. intros H. apply nth_error_Some. congruence. Qed.

Lemma at_path_comm R1 R2 p q : apart p q -> forall v1 v2 x y z, at_path V R1 p v1 x y -> at_path V R2 q v2 y z ->
  exists y', at_path V R2 q v2 x y' /\ at_path V R1 p v1 y' z.
Proof.
  induction 1 as [a b p q NE|a p q AP IH]; intros v1 v2 x y z H1 H2; apply at_path_inv in H1 as (l & m & w & -> & N1 & -> & S1);
    apply at_path_inv in H2 as (l' & m' & w' & E & N2 & -> & S2); injection E as <-; pose proof (nth_lt _ _ _ N1) as L1.
  - rewrite nth_upd_other in N2 by auto. pose proof (nth_lt _ _ _ N2) as L2.
    exists (MList (upd (idx b) w' l)). split; apply at_path_inv.
    + exists l, m', w'. auto.
    + exists (upd (idx b) w' l), m, w. rewrite nth_upd_other by auto. rewrite upd_comm by auto. auto.
  - rewrite nth_upd_same in N2 by auto. injection N2 as <-. rewrite upd_twice by auto.
    destruct a as [i|i s u]; cbn [idx step_rel] in *.
    + destruct (IH _ _ _ _ _ S1 S2) as (y' & A & B). exists (MList (upd i y' l)). split; apply at_path_inv; cbn [idx step_rel].
      * exists l, m, y'. auto.
      * exists (upd i y' l), y', w'. rewrite nth_upd_same, upd_twice by auto. auto.
    + destruct S1 as [(x0 & y0 & -> & -> & S1)|(-> & -> & y0 & -> & S1)].
      * destruct S2 as [(x1 & y1 & E & -> & S2)|(_ & E & _)]; [|discriminate]. injection E as <-.
        destruct (IH _ _ _ _ _ S1 S2) as (y' & A & B). exists (MList (upd i (MPtr (Some y')) l)). split; apply at_path_inv; cbn [idx step_rel].
        -- exists l, (MPtr (Some x0)), (MPtr (Some y')). repeat split; auto. left. eauto.
        -- exists (upd i (MPtr (Some y')) l), (MPtr (Some y')), (MPtr (Some y1)). rewrite nth_upd_same, upd_twice by auto. repeat split; auto. left. eauto.
      * destruct S2 as [(x1 & y1 & E & -> & S2)|(_ & E & _)]; [|discriminate]. injection E as <-.
        destruct (IH _ _ _ _ _ S1 S2) as (y' & A & B). exists (MList (upd i (MPtr (Some y')) l)). split; apply at_path_inv; cbn [idx step_rel].
        -- exists l, (MPtr None), (MPtr (Some y')). repeat split; auto. right. eauto.
        -- exists (upd i (MPtr (Some y')) l), (MPtr (Some y')), (MPtr (Some y1)). rewrite nth_upd_same, upd_twice by auto. repeat split; auto. left. eauto.
Qed.

Context (EN : env_names V).
Lemma picks_in fs k f : picks V F fs k (Some f) -> In f fs.
Proof. intros H. inversion H as [l1 f0 l2 E _ _|l1 f0 l2 _ _ E _ _|]; subst; apply in_or_app; right; now left. Qed.
Lemma names_inj i f g : In f (v_flds V i) -> In g (v_flds V i) -> jf_name f = jf_name g -> f = g.
Proof.
  pose proof (en_names V EN i) as N. revert N. generalize (v_flds V i) as l. induction l as [|h l IH]; intros N A B E; [destruct A|].
  cbn [map] in N. inversion N as [|x y NI N']; subst. destruct A as [->|A], B as [->|B]; auto.
  - exfalso. apply NI. rewrite E. now apply in_map.
  - exfalso. apply NI. rewrite <- E. now apply in_map.
Qed.
Lemma jf_dec (f g : jfield) : jf_name f = jf_name g \/ jf_name f <> jf_name g.
Proof. destruct (beqb (jf_name f) (jf_name g)) eqn:E; [left; now apply beqb_eq|right]. intros X. apply beqb_eq in X. congruence. Qed.

Lemma member_comm i lit1 lit2 k1 k2 v1 v2 x y z : ~ clash V F K lit1 lit2 -> str_means lit1 k1 -> str_means lit2 k2 ->
  member V F i k1 v1 x y -> member V F i k2 v2 y z -> exists y', member V F i k2 v2 x y' /\ member V F i k1 v1 y' z.
Proof.
  intros NC S1 S2 M1 M2. inversion M1 as [i1 k v x1 P1 D1|i1 k f v x1 y1 P1 A1]; subst.
  { exists z. split; [exact M2|]. now apply me_unknown. }
  inversion M2 as [i2 k v x2 P2 D2|i2 k g v x2 y2 P2 A2]; subst.
  { exists x. split; [now apply me_unknown|]. exact M1. }
  assert (NE : jf_name f <> jf_name g).
  { intros E. apply (names_inj i) in E; try (eapply picks_in; eassumption). subst g. apply NC. left. exists i, k1, k2, f. auto. }
  destruct (at_path_comm _ _ _ _ (en_apart V EN i f g (picks_in _ _ _ P1) (picks_in _ _ _ P2) NE) _ _ _ _ _ A1 A2) as (y' & B1 & B2).
  exists y'. split; eapply me_field; eassumption.
Qed.
Lemma members_perm i l l1 : Permutation l l1 -> ForallOrdPairs (fun m m' => ~ clash V F K (fst m) (fst m')) l ->
  forall x y, members_rel (member V F i) l x y -> members_rel (member V F i) l1 x y.
Proof.
  induction 1 as [|[k v] l l1 P IH|[k2 v2] [k1 v1] l|l l1 l2 P1 IH1 P2 IH2]; intros FO x y M; auto.
  - inversion FO as [|z l' FA FO']; subst. inversion M; subst. econstructor; eauto.
  - inversion FO as [|z l' FA FO']; subst. inversion FA as [|z l' NC FA']; subst.
    inversion M as [|a1 b1 c1 d1 e1 f1 g1 SM1 MM1 M1]; subst. inversion M1 as [|a2 b2 c2 d2 e2 f2 g2 SM2 MM2 M2]; subst.
    cbn [fst] in NC. destruct (member_comm i _ _ _ _ _ _ _ _ _ NC SM1 SM2 MM1 MM2) as (y' & A & B).
    econstructor; [exact SM2|exact A|]. econstructor; [exact SM1|exact B|exact M2].
  - apply IH2; [|now apply IH1]. eapply fop_perm; [|exact P1|exact FO]. intros a b H C. apply H, clash_sym, C.
Qed.
End Order.
