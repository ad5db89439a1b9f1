(** Lemmas for C93: values decoded one after the other into the same place. *)
From Verif Require Import Bytes ParseModel IntModel StringModel EncModel DecModel SpecJson SpecString SpecDec DecLoops ParseFacts IntFacts DecFacts
  TypeModel SpecType SpecFit SpecField SpecSame NodeFacts TypeLoops TypeFacts TypeMain TypeSound TypeSafe PropsType SpellFacts PropsField PropsCont WhereUnique TripType Unambig SpecAgain.
From Verif Require DocFacts.
Local Open Scope nat_scope.

(** * Sequences *)
Section Chains.
Context {A : Type} (R : node -> A -> A -> Prop).
Inductive chain : list node -> A -> A -> Prop :=
| ch_nil x : chain [] x x
| ch_cons v vs x y z : R v x y -> chain vs y z -> chain (v :: vs) x z.
Context (N : node -> Prop).
Definition det : Prop := forall v x y y', N v -> R v x y -> R v x y' -> y = y'.
Definition again : Prop := forall vs x y z, Forall N vs -> chain vs x y -> chain vs y z -> z = y.
Definition keep (v : node) : Prop := forall x y, R v x y -> y = x.
Definition const (v : node) : Prop := forall x x' y y', R v x y -> R v x' y' -> y = y'.

Lemma chain_app l1 l2 x z : chain (l1 ++ l2) x z <-> exists y, chain l1 x y /\ chain l2 y z.
Proof.
  revert x. induction l1 as [|a l1 IH]; intros x; cbn [app].
  - split; [intros H; exists x; split; [constructor|exact H]|]. intros (y & H1 & H2). inversion H1; subst. exact H2.
  - split.
    + intros H. inversion H as [|v vs x0 y z0 H1 H2]; subst. apply IH in H2 as (y' & H3 & H4). exists y'. split; [econstructor; eassumption|exact H4].
    + intros (y & H1 & H2). inversion H1 as [|v vs x0 y0 z0 H3 H4]; subst. econstructor; [eassumption|]. apply IH. eauto.
Qed.
Lemma chain_det : det -> forall vs x y y', Forall N vs -> chain vs x y -> chain vs x y' -> y = y'.
Proof.
  intros D vs x y y' FN C. revert y'. induction C as [x|v vs x y z H C IH]; intros y' C'; inversion C' as [|? ? ? y1 ? H' C1]; subst; [reflexivity|].
  inversion FN as [|? ? Nv Ns]; subst. rewrite (D v x y y1 Nv H H') in *. now apply IH.
Qed.
Lemma chain_const : det -> forall vs v, Forall N vs -> In v vs -> const v -> forall x x' y y', chain vs x y -> chain vs x' y' -> y = y'.
Proof.
  intros D vs v FN IN CO x x' y y' C C'. apply in_split in IN as (l1 & l2 & ->). apply chain_app in C as (a & C1 & C2). apply chain_app in C' as (a' & C1' & C2').
  inversion C2 as [|? ? ? b ? H C3]; subst. inversion C2' as [|? ? ? b' ? H' C3']; subst. rewrite (CO _ _ _ _ H H') in *.
  apply Forall_app in FN as [_ FN]. inversion FN; subst. eapply chain_det; eassumption.
Qed.
Lemma keep_const : det -> (forall v, N v -> keep v \/ const v) -> again.
Proof.
  intros D KC vs x y z FN C C'. assert (G : Forall keep vs \/ exists v, In v vs /\ const v).
  { clear - KC FN. induction FN as [|v vs Nv FN IH]; [left; constructor|]. destruct (KC v Nv) as [K|K]; [|right; exists v; split; [now left|exact K]].
    destruct IH as [IH|(w & I & K')]; [left; now constructor|right; exists w; split; [now right|exact K']]. }
  destruct G as [K|(v & I & K)]; [|eapply chain_const; eassumption].
  clear - K C'. induction C' as [x|v vs x y z H C IH]; [reflexivity|]. inversion K as [|? ? K1 K2]; subst. rewrite (IH K2). now apply K1.
Qed.
End Chains.
Lemma chain_imp {A} (R R' : node -> A -> A -> Prop) vs x y : (forall v a b, In v vs -> R v a b -> R' v a b) -> chain R vs x y -> chain R' vs x y.
Proof.
  intros H C. induction C as [x|v vs x y z H1 C IH]; [constructor|]. econstructor; [apply H; [now left|exact H1]|]. apply IH. intros; apply H; [now right|assumption].
Qed.

(** * Elements *)
(** The values for cell i. *)
Definition cell (i : nat) (v : node) : list node := match nshape v with HArr l => firstn 1 (skipn i l) | _ => [] end.
Definition col (i : nat) (vs : list node) : list node := flat_map (cell i) vs.
Definition is_arr (v : node) : Prop := match nshape v with HArr _ => True | _ => False end.
Definition arr_of (v : node) : list node := match nshape v with HArr l => l | _ => [] end.
Lemma col_all (P Q : node -> Prop) i vs : (forall v w, P v -> In w (arr_of v) -> Q w) -> Forall P vs -> Forall Q (col i vs).
Proof.
  intros H F. unfold col. rewrite Forall_forall in *. intros w I. apply in_flat_map in I as (v & I1 & I2). apply (H v w (F v I1)). unfold cell, arr_of in *.
  destruct (nshape v) as [| | | | |l|]; try contradiction. rewrite <- (firstn_skipn i l). apply in_or_app. right. rewrite <- (firstn_skipn 1 (skipn i l)). apply in_or_app. now left.
Qed.

Section Elems.
Context {A : Type} (R : node -> A -> A -> Prop) (z0 : A) (N : node -> Prop).

Lemma onto_len l d ys : onto R z0 l d ys -> length ys = length l.
Proof. induction 1; cbn [length]; congruence. Qed.
Lemma onto_cell l d ys : onto R z0 l d ys -> forall i rest, (forall j, length l <= j -> nth (j - length l) rest z0 = nth j d z0) ->
  chain R (firstn 1 (skipn i l)) (nth i d z0) (nth i (ys ++ rest) z0).
Proof.
  induction 1 as [d|v l d y ys H O IH]; intros i rest HR.
  - rewrite skipn_nil, firstn_nil. cbn [app]. specialize (HR i (Nat.le_0_l _)). cbn [length] in HR. rewrite Nat.sub_0_r in HR. rewrite HR. constructor.
  - destruct i as [|i].
    + cbn [skipn firstn app nth]. econstructor; [|constructor]. destruct d; exact H.
    + cbn [skipn app nth]. replace (nth (S i) d z0) with (nth i (tl d) z0) by (destruct d as [|a d]; [destruct i|]; reflexivity).
      apply IH. intros j L. specialize (HR (S j) (le_n_S _ _ L)). cbn [length Nat.sub] in HR. rewrite HR. destruct d as [|a d]; [destruct j|]; reflexivity.
Qed.
Lemma nth_rep n i : nth i (repeat z0 n) z0 = z0.
Proof. revert i. induction n as [|n IH]; intros [|i]; cbn [repeat nth]; auto. Qed.
Lemma nth_skip (d : list A) n j : nth j (skipn n d) z0 = nth (n + j) d z0.
Proof. revert d. induction n as [|n IH]; intros d; [reflexivity|]. destruct d as [|a d]; [cbn [skipn Nat.add nth]; destruct j; reflexivity|]. cbn [skipn Nat.add nth]. apply IH. Qed.
Lemma slice_step v x y : is_arr v -> slice_rel R z0 v x y -> exists d, y = Some (length (arr_of v), d) /\ grows (length (backing x)) (length (arr_of v)) (length d) /\
  forall i, chain R (cell i v) (nth i (backing x) z0) (nth i d z0).
Proof.
  intros IA H. destruct H as [s x|s l x ys c O G]; [contradiction|]. cbn [arr_of cell nshape]. eexists. split; [reflexivity|].
  pose proof (onto_len _ _ _ O) as LY. pose proof (grows_ge _ _ _ G) as [G1 G2]. split.
  - rewrite !app_length, skipn_length, repeat_length, LY. replace (length l + (length (backing x) - length l + (c - Nat.max (length l) (length (backing x))))) with c by lia. exact G.
  - intros i. apply onto_cell; [exact O|]. intros j L. destruct (Nat.lt_ge_cases (j - length l) (length (skipn (length l) (backing x)))) as [B|B].
    + rewrite app_nth1 by exact B. rewrite nth_skip. f_equal. lia.
    + rewrite app_nth2 by exact B. rewrite nth_rep. rewrite skipn_length in B. symmetry. apply nth_overflow. lia.
Qed.
Lemma slice_chain vs x y : Forall is_arr vs -> chain (slice_rel R z0) vs x y ->
  (forall i, chain R (col i vs) (nth i (backing x) z0) (nth i (backing y) z0)) /\ length (backing x) <= length (backing y) /\
  (Forall (fun v => length (arr_of v) <= length (backing x)) vs -> length (backing y) = length (backing x)) /\
  Forall (fun v => length (arr_of v) <= length (backing y)) vs /\
  (vs = [] /\ y = x \/ exists d, y = Some (length (arr_of (last vs (ND [] HNull))), d)).
Proof.
  intros FA C. induction C as [x|v vs x y z H C IH].
  - split; [intros i; constructor|]. split; [lia|]. split; [reflexivity|]. split; [constructor|]. left. split; reflexivity.
  - inversion FA as [|? ? A1 A2]; subst. destruct (slice_step v x y A1 H) as (d & -> & G & S). destruct (IH A2) as (C1 & L & SM & LA & LS).
    pose proof (grows_ge _ _ _ G) as [G1 G2]. cbn [backing] in *. split.
    + intros i. cbn [col flat_map]. apply chain_app. exists (nth i d z0). split; [apply S|apply C1].
    + split; [lia|]. split.
      * intros FL. inversion FL as [|? ? F1 F2]; subst. assert (E : length d = length (backing x)) by (eapply grows_fun; [exact G|apply grows_fit; lia]).
        rewrite <- E. apply SM. rewrite E. exact F2.
      * split; [constructor; [lia|exact LA]|]. right. destruct vs as [|w vs]; [|destruct LS as [[? _]|LS]; [discriminate|exact LS]]. destruct LS as [[_ ->]|(d' & LS)]; [exists d; reflexivity|].
        inversion C; subst. exists d. reflexivity.
Qed.
Lemma slice_again (M : node -> Prop) : det (slice_rel R z0) M -> (forall v, M v -> is_arr v \/ const (slice_rel R z0) v) -> (forall v w, M v -> In w (arr_of v) -> N w) ->
  again R N -> again (slice_rel R z0) M.
Proof.
  intros D IA IN AG vs x y z FM C C'. assert (G : Forall is_arr vs \/ exists v, In v vs /\ const (slice_rel R z0) v).
  { clear - IA FM. induction FM as [|v vs Nv FN IH]; [left; constructor|]. destruct (IA v Nv) as [K|K]; [|right; exists v; split; [now left|exact K]].
    destruct IH as [IH|(w & I & K')]; [left; now constructor|right; exists w; split; [now right|exact K']]. }
  destruct G as [FA|(v & I & K)]; [|eapply chain_const; eassumption].
  destruct (slice_chain _ _ _ FA C) as (C1 & _ & _ & L1 & E1). destruct (slice_chain _ _ _ FA C') as (C2 & _ & L2 & _ & E2). specialize (L2 L1).
  destruct E2 as [[_ ->]|(d2 & ->)]; [reflexivity|]. destruct E1 as [[-> ->]|(d1 & ->)]; [now inversion C'|]. cbn [backing] in *. do 2 f_equal.
  apply (nth_ext _ _ z0 z0 L2). intros i _. apply (AG (col i vs) _ _ _ (col_all M N i vs IN FM) (C1 i) (C2 i)).
Qed.

Lemma along_len l x y : along R l x y -> length y = length x.
Proof. induction 1; cbn [length]; congruence. Qed.
Lemma along_cell l x y : along R l x y -> forall i, i < length x -> chain R (firstn 1 (skipn i l)) (nth i x z0) (nth i y z0).
Proof.
  induction 1 as [d|l|v l x d y ys H O IH]; intros i L; [rewrite skipn_nil, firstn_nil; constructor|cbn in L; lia|].
  destruct i as [|i]; [cbn [skipn firstn nth]; econstructor; [exact H|constructor]|]. cbn [skipn nth length] in *. apply IH. lia.
Qed.
Lemma array_chain vs x y : chain (array_rel R) vs x y -> length y = length x /\ forall i, i < length x -> chain R (col i vs) (nth i x z0) (nth i y z0).
Proof.
  induction 1 as [x|v vs x y z H C (L & IH)]; [split; [reflexivity|constructor]|].
  assert (S : length y = length x /\ forall i, i < length x -> chain R (cell i v) (nth i x z0) (nth i y z0)).
  { destruct H as [s x|s l x y _ AL]; [split; [reflexivity|constructor]|]. split; [eapply along_len; exact AL|]. intros i Li. cbn [cell nshape]. now apply along_cell. }
  destruct S as [L1 S1]. split; [congruence|]. intros i Li. cbn [col flat_map]. apply chain_app. exists (nth i y z0). split; [now apply S1|]. apply IH. lia.
Qed.
Lemma array_again (M : node -> Prop) : (forall v w, M v -> In w (arr_of v) -> N w) -> again R N -> again (array_rel R) M.
Proof.
  intros IN AG vs x y z FM C C'. destruct (array_chain _ _ _ C) as [L1 C1]. destruct (array_chain _ _ _ C') as [L2 C2].
  apply (nth_ext _ _ z0 z0 L2). intros i Li. apply (AG (col i vs) (nth i x z0) _ _ (col_all M N i vs IN FM)); [apply C1|apply C2]; lia.
Qed.
End Elems.

(** * Maps *)
Section Maps.
Context {K A : Type} (eqb : K -> K -> bool) (eqb_eq : forall a b, eqb a b = true <-> a = b).
Lemma eqb_same k : eqb k k = true. Proof. now apply eqb_eq. Qed.
Lemma eqb_other a b : a <> b -> eqb a b = false. Proof. intros N. destruct (eqb a b) eqn:E; [|reflexivity]. apply eqb_eq in E. contradiction. Qed.
Notation set := (@map_set K A eqb).
Lemma set_set k v v' m : set k v (set k v' m) = set k v m.
Proof.
  induction m as [|[k1 v1] m IH]; cbn [map_set]; [now rewrite eqb_same|]. destruct (eqb k1 k) eqn:E; cbn [map_set]; [now rewrite eqb_same|]. now rewrite E, IH.
Qed.
Lemma set_comm k v k2 v2 m : k <> k2 -> In k2 (map fst m) -> set k2 v2 (set k v m) = set k v (set k2 v2 m).
Proof.
  intros N. induction m as [|[k1 v1] m IH]; [intros []|]. cbn [map fst In map_set]. intros I. destruct (eqb k1 k) eqn:E.
  - apply eqb_eq in E. subst k1. cbn [map_set]. rewrite (eqb_other k k2 N). cbn [map_set]. now rewrite eqb_same.
  - cbn [map_set]. destruct (eqb k1 k2) eqn:E2; cbn [map_set].
    + now rewrite (eqb_other k2 k) by congruence.
    + rewrite E. rewrite IH; [reflexivity|]. destruct I as [->|I]; [rewrite eqb_same in E2; discriminate|exact I].
Qed.
Lemma set_keys k v m k' : In k' (map fst (set k v m)) <-> k' = k \/ In k' (map fst m).
Proof.
  induction m as [|[k1 v1] m IH]; cbn [map_set map fst In]; [intuition congruence|]. destruct (eqb k1 k) eqn:E; cbn [map fst In]; [apply eqb_eq in E; subst; intuition congruence|]. rewrite IH. tauto.
Qed.
Lemma add_keys (kvs m : list (K * A)) k' : In k' (map fst (add_all eqb kvs m)) <-> In k' (map fst kvs) \/ In k' (map fst m).
Proof.
  revert m. induction kvs as [|[k v] kvs IH]; intros m; [cbn; tauto|]. cbn [add_all fold_left fst snd map In]. change (fold_left _ kvs ?a) with (add_all eqb kvs a). rewrite IH, set_keys. intuition congruence.
Qed.
Lemma add_absorb (kvs : list (K * A)) : forall m k v, In k (map fst kvs) -> Forall (fun e => In (fst e) (map fst m)) kvs -> add_all eqb kvs (set k v m) = add_all eqb kvs m.
Proof.
  induction kvs as [|[k1 v1] kvs IH]; intros m k v I FA; [destruct I|]. cbn [add_all fold_left fst snd]. change (fold_left _ kvs ?a) with (add_all eqb kvs a).
  inversion FA as [|? ? F1 F2]; subst. cbn [fst] in F1. cbn [map fst In] in I. destruct (eqb k1 k) eqn:E; [apply eqb_eq in E; subst k1; now rewrite set_set|].
  destruct I as [->|I]; [rewrite eqb_same in E; discriminate|]. rewrite set_comm; [|intros ->; rewrite eqb_same in E; discriminate|exact F1]. apply IH; [exact I|].
  eapply Forall_impl; [|exact F2]. intros e H. apply set_keys. now right.
Qed.
Lemma add_pass (kvs : list (K * A)) : forall m k v, ~ In k (map fst kvs) -> Forall (fun e => In (fst e) (map fst m)) kvs -> add_all eqb kvs (set k v m) = set k v (add_all eqb kvs m).
Proof.
  induction kvs as [|[k1 v1] kvs IH]; intros m k v I FA; [reflexivity|]. cbn [add_all fold_left fst snd]. change (fold_left _ kvs ?a) with (add_all eqb kvs a).
  inversion FA as [|? ? F1 F2]; subst. cbn [fst] in F1. cbn [map fst In] in I. rewrite set_comm; [|intros ->; tauto|exact F1]. apply IH; [tauto|].
  eapply Forall_impl; [|exact F2]. intros e H. apply set_keys. now right.
Qed.
Lemma add_twice (kvs m : list (K * A)) : add_all eqb kvs (add_all eqb kvs m) = add_all eqb kvs m.
Proof.
  induction kvs as [|[k v] r IH] using rev_ind; [reflexivity|]. unfold add_all in *. rewrite !fold_left_app. cbn [fold_left fst snd].
  fold (add_all eqb r m) in *. set (m1 := add_all eqb r m) in *. fold (add_all eqb r m1) in IH. fold (add_all eqb r (set k v m1)).
  assert (P : Forall (fun e => In (fst e) (map fst m1)) r) by (apply Forall_forall; intros e I; apply add_keys; left; now apply in_map).
  destruct (existsb (fun e => eqb (fst e) k) r) eqn:E.
  - apply existsb_exists in E as (e & I & Q). apply eqb_eq in Q. subst k. rewrite add_absorb; [now rewrite IH|now apply in_map|exact P].
  - rewrite add_pass; [now rewrite IH, set_set| |exact P]. intros I. apply in_map_iff in I as (e & Q & I). assert (X : existsb (fun e => eqb (fst e) k) r = true) by (apply existsb_exists; exists e; split; [exact I|now apply eqb_eq]). congruence.
Qed.
Lemma add_add (kvs kvs' m : list (K * A)) : add_all eqb kvs' (add_all eqb kvs m) = add_all eqb (kvs ++ kvs') m.
Proof. unfold add_all. now rewrite fold_left_app. Qed.

Context (R : node -> A -> A -> Prop) (z0 : A) (keym : bytes -> K -> Prop) (M : node -> Prop).
Definition obj_of (v : node) : list (bytes * node) := match nshape v with HObj l => l | _ => [] end.
Lemma map_again : (forall v lit w, M v -> In (lit, w) (obj_of v) -> (forall a b, keym lit a -> keym lit b -> a = b) /\ (forall a b, R w z0 a -> R w z0 b -> a = b)) ->
  again (map_rel R z0 keym eqb) M.
Proof.
  intros HD.
  assert (EU : forall v l kvs kvs', M v -> l = obj_of v -> Forall2 (entry R z0 keym) l kvs -> Forall2 (entry R z0 keym) l kvs' -> kvs' = kvs).
  { intros v l kvs kvs' Mv E F. assert (H : forall lit w, In (lit, w) l -> In (lit, w) (obj_of v)) by (intros; congruence). clear E. revert kvs'.
    induction F as [|[lit w] [k a] l kvs [E1 E2] F IH]; intros kvs' F'; inversion F' as [|? [k' a'] ? kvs1 [E1' E2'] F1]; subst; [reflexivity|]. cbn [fst snd] in *.
    destruct (HD v lit w Mv (H lit w (or_introl eq_refl))) as [U1 U2]. rewrite (U1 _ _ E1' E1), (U2 _ _ E2' E2). f_equal. apply IH; [intros; apply H; now right|exact F1]. }
  assert (D : det (map_rel R z0 keym eqb) M).
  { intros v x y y' Mv H H'. destruct H as [s x|s l x kvs F]; inversion H' as [|? ? ? kvs' F']; subst; [reflexivity|]. now rewrite (EU _ l kvs kvs' Mv eq_refl F F'). }
  intros vs x y z FM C C'. assert (G : Forall (fun v => exists s l, v = ND s (HObj l)) vs \/ exists v, In v vs /\ const (map_rel R z0 keym eqb) v).
  { clear - C. induction C as [x|v vs x y z H C IH]; [left; constructor|]. destruct H as [s x|s l x kvs F].
    - right. exists (ND s HNull). split; [now left|]. intros a a' b b' H H'. inversion H; inversion H'; subst; congruence.
    - destruct IH as [IH|(w & I & K')]; [left; constructor; [eauto|exact IH]|right; exists w; split; [now right|exact K']]. }
  destruct G as [FA|(v & I & K0)]; [|eapply chain_const; eassumption].
  assert (S : vs = [] \/ exists kvs, forall x y, chain (map_rel R z0 keym eqb) vs x y -> y = Some (add_all eqb kvs (entries x))).
  {
    assert (G : forall vs, Forall M vs -> Forall (fun v => exists s l, v = ND s (HObj l)) vs -> forall x y, chain (map_rel R z0 keym eqb) vs x y ->
      exists kvs, forall x y, chain (map_rel R z0 keym eqb) vs x y -> entries y = add_all eqb kvs (entries x) /\ (vs = [] \/ y <> None)).
    { intros vs0 F1 F2 x0 y0 CC. revert F1 F2. induction CC as [x0|v vs0 x0 y0 z0' H CH IH]; intros F1 F2.
      - exists []. intros a b C2. inversion C2; subst. split; [reflexivity|now left].
      - inversion F1 as [|? ? M1 M2]; subst. inversion F2 as [|? ? (s & l & ->) F3]; subst. destruct (IH M2 F3) as (kvs & IH'). inversion H as [|? ? ? k0 F]; subst.
        exists (k0 ++ kvs). intros a b C2. inversion C2 as [|? ? ? c0' ? H2 C3]; subst. inversion H2 as [|? ? ? k1 F']; subst. rewrite (EU _ l k0 k1 M1 eq_refl F F') in *.
        destruct (IH' _ _ C3) as [E1 E2]. rewrite E1. cbn [entries]. rewrite add_add. split; [reflexivity|]. right. destruct E2 as [->|E2]; [inversion C3; subst; discriminate|exact E2]. }
    destruct vs as [|v vs]; [now left|right].
    destruct (G _ FM FA _ _ C) as (kvs & H). exists kvs. intros a b C1. destruct (H a b C1) as [E [E0|E0]]; [discriminate|]. destruct b; [|contradiction]. cbn [entries] in E. now rewrite E. }
  destruct S as [->|(kvs & S)]; [now inversion C'|]. rewrite (S _ _ C'), (S _ _ C). cbn [entries]. now rewrite add_twice.
Qed.
End Maps.

(** * Pointers *)
Section Pointers.
Context (V : tenv) (F : dflags).
Notation stores := (stores V F).
Definition isptr (e : gty) : bool := match e with YPtr _ => true | _ => false end.
Lemma ptr_inv e v x y : stores (YPtr e) v x y -> exists p, x = MPtr p /\
  ((nshape v = HNull /\ ((p = None \/ isptr e = false) /\ y = MPtr None \/ isptr e = true /\ exists a b, p = Some a /\ y = MPtr (Some b) /\ stores e v a b)) \/
   (nshape v <> HNull /\ exists b, y = MPtr (Some b) /\ stores e v (match p with Some a => a | None => zero V e end) b)).
Proof.
  intros H. inversion H as [t s x0 NK| | | | | | | | | | | | | | | | | | | | |e0 s x0 PE|e0 s x0 y0 H0|e0 v0 x0 y0 NN H0| | |]; subst; [contradiction NK| | |].
  - exists x0. split; [reflexivity|]. left. split; [reflexivity|]. left. split; [|reflexivity]. destruct x0; [|now left]. right. destruct e; try reflexivity. contradiction.
  - exists (Some x0). split; [reflexivity|]. left. split; [reflexivity|]. right. split; [reflexivity|]. exists x0, y0. split; [reflexivity|]. split; [reflexivity|exact H0].
  - exists x0. split; [reflexivity|]. right. split; [exact NN|]. exists y0. split; [reflexivity|exact H0].
Qed.
Lemma ptr_some_chain e vs a y : (isptr e = true \/ Forall (fun v => nshape v <> HNull) vs) -> chain (stores (YPtr e)) vs (MPtr (Some a)) y ->
  exists b, y = MPtr (Some b) /\ chain (stores e) vs a b.
Proof.
  intros H. remember (MPtr (Some a)) as x eqn:EX. intros C. revert a H EX. induction C as [x|v vs x y z H C IH]; intros a HH ->; [exists a; split; [reflexivity|constructor]|].
  assert (S : exists b, y = MPtr (Some b) /\ stores e v a b).
  { destruct (ptr_inv _ _ _ _ H) as (p & E & [[NV [[[->|IP] _]|(_ & a0 & b & -> & -> & S)]]|(NN & b & -> & S)]); [discriminate E| | |].
    - destruct HH as [HH|HH]; [congruence|]. inversion HH; subst. contradiction.
    - injection E as <-. exists b. split; [reflexivity|exact S].
    - injection E as <-. exists b. split; [reflexivity|exact S]. }
  destruct S as (b & -> & S). destruct (IH b) as (c & -> & C2); [|reflexivity|exists c; split; [reflexivity|econstructor; eassumption]].
  destruct HH as [HH|HH]; [now left|right; now inversion HH].
Qed.
(** From nil: as from a new variable, or nothing happens. *)
Lemma ptr_nil_chain e vs y : (isptr e = true \/ Forall (fun v => nshape v <> HNull) vs) -> chain (stores (YPtr e)) vs (MPtr None) y ->
  (y = MPtr None /\ Forall (fun v => nshape v = HNull) vs) \/ exists b, y = MPtr (Some b) /\ chain (stores e) vs (zero V e) b.
Proof.
  intros H. remember (MPtr None) as x eqn:EX. intros C. revert H EX. induction C as [x|v vs x y z H C IH]; intros HH ->; [left; split; [reflexivity|constructor]|].
  assert (HT : isptr e = true \/ Forall (fun v => nshape v <> HNull) vs) by (destruct HH as [HH|HH]; [now left|right; now inversion HH]).
  destruct (ptr_inv _ _ _ _ H) as (p & E & [[NV [[_ ->]|(_ & a0 & b & -> & _)]]|(NN & b & -> & S)]); [|discriminate E|].
  - destruct (IH HT eq_refl) as [[-> FN]|(b & -> & C2)]; [left; split; [reflexivity|now constructor]|right]. exists b. split; [reflexivity|].
    destruct HH as [IP|HH]; [|inversion HH; subst; contradiction]. destruct e; try discriminate IP. econstructor; [|exact C2]. destruct v as [s h]. cbn [nshape] in NV. subst h.
    replace (zero V (YPtr e)) with (MPtr None) by (unfold zero; destruct (v_depth V); reflexivity). now apply st_ptr_null.
  - injection E as <-. right. destruct (ptr_some_chain _ _ _ _ HT C) as (c & -> & C2). exists c. split; [reflexivity|]. econstructor; eassumption.
Qed.
Lemma ptr_again e N : det (stores (YPtr e)) N -> again (stores e) N -> again (stores (YPtr e)) N.
Proof.
  intros D AG vs x y z FN C C'.
  assert (G : (isptr e = true \/ Forall (fun v => nshape v <> HNull) vs) \/ exists v, In v vs /\ const (stores (YPtr e)) v).
  { destruct (isptr e) eqn:IP; [now left; left|]. clear - IP. induction vs as [|v vs IH]; [left; right; constructor|]. destruct (nshape v) eqn:NV.
    2-7: destruct IH as [[?|IH]|(w & I & K)]; [discriminate|left; right; constructor; [congruence|exact IH]|right; exists w; split; [now right|exact K]].
    right. exists v. split; [now left|]. intros a a' b b' H H'. destruct (ptr_inv _ _ _ _ H) as (p & _ & [[_ [[_ ->]|(? & _)]]|(NN & _)]); [|congruence|contradiction].
    destruct (ptr_inv _ _ _ _ H') as (p' & _ & [[_ [[_ ->]|(? & _)]]|(NN & _)]); [reflexivity|congruence|contradiction]. }
  destruct G as [G|(v & I & K)]; [|eapply chain_const; eassumption].
  assert (X : vs = [] \/ exists p, x = MPtr p).
  { inversion C as [|v ws x0 y0 z0 H C1]; subst; [now left|right]. destruct (ptr_inv _ _ _ _ H) as (p & -> & _). now exists p. }
  destruct X as [->|(p & ->)]; [now inversion C'|].
  assert (Y : (y = MPtr None /\ Forall (fun v => nshape v = HNull) vs) \/ exists a b, y = MPtr (Some b) /\ chain (stores e) vs a b).
  { destruct p as [a|]; [destruct (ptr_some_chain _ _ _ _ G C) as (b & -> & C2); right; eauto|]. destruct (ptr_nil_chain _ _ _ G C) as [Y|(b & -> & C2)]; [now left|right; eauto]. }
  destruct Y as [[-> FN0]|(a & b & -> & C2)].
  - clear - FN0 C'. remember (MPtr None) as y. induction C' as [y|v vs y y1 z H C IH]; [reflexivity|]. subst y. inversion FN0 as [|? ? NV FN1]; subst.
    destruct (ptr_inv _ _ _ _ H) as (p & E & [[_ [[_ ->]|(_ & a0 & b & -> & _)]]|(NN & _)]); [now apply IH|discriminate E|contradiction].
  - destruct (ptr_some_chain _ _ _ _ G C') as (c & -> & C3). now rewrite (AG vs a b c FN C2 C3).
Qed.
End Pointers.

(** * Paths *)
Fixpoint put (p : list pstep) (w m : mem) : mem :=
  match p, m with
  | [], _ => w
  | PIn i :: p', MList l => match nth_error l i with Some x => MList (set_nth i (put p' w x) l) | None => m end
  | PVia i _ _ :: p', MList l => match nth_error l i with Some (MPtr (Some x)) => MList (set_nth i (MPtr (Some (put p' w x))) l) | _ => m end
  | _, _ => m
  end.
Lemma nth_set {A} (l : list A) i j (x : A) : i < length l -> nth_error (set_nth i x l) j = if Nat.eqb j i then Some x else nth_error l j.
Proof.
  unfold set_nth. revert i j. induction l as [|a l IH]; intros i j L; [cbn in L; lia|]. destruct i as [|i]; [destruct j; reflexivity|]. destruct j as [|j]; [reflexivity|].
  cbn [firstn skipn app nth_error Nat.eqb]. apply IH. cbn in L. lia.
Qed.
Lemma set_len {A} (l : list A) i (x : A) : i < length l -> length (set_nth i x l) = length l.
Proof. intros L. unfold set_nth. rewrite app_length. cbn [length]. rewrite firstn_length, skipn_length. lia. Qed.
Lemma list_ext {A} (l l' : list A) : (forall j, nth_error l j = nth_error l' j) -> l = l'.
Proof.
  revert l'. induction l as [|a l IH]; intros [|b l'] H; [reflexivity|specialize (H 0); discriminate|specialize (H 0); discriminate|].
  pose proof (H 0) as H0. injection H0 as <-. f_equal. apply IH. intros j. apply (H (S j)).
Qed.
Lemma nth_lt {A} (l : list A) i x : nth_error l i = Some x -> i < length l.
Proof. intros E. apply nth_error_Some. congruence. Qed.
Lemma set_same {A} (l : list A) i x : nth_error l i = Some x -> set_nth i x l = l.
Proof. intros E. apply list_ext. intros j. rewrite nth_set by (eapply nth_lt; exact E). destruct (Nat.eqb_spec j i) as [->|]; congruence. Qed.
Lemma set_twice {A} (l : list A) i x y : i < length l -> set_nth i x (set_nth i y l) = set_nth i x l.
Proof. intros L. apply list_ext. intros j. rewrite !nth_set by (rewrite ?set_len; assumption). destruct (Nat.eqb j i); reflexivity. Qed.
Lemma set_swap {A} (l : list A) i k x y : i <> k -> i < length l -> k < length l -> set_nth i x (set_nth k y l) = set_nth k y (set_nth i x l).
Proof.
  intros N L1 L2. apply list_ext. intros j. rewrite !nth_set by (rewrite ?set_len; assumption). destruct (Nat.eqb_spec j i), (Nat.eqb_spec j k); congruence.
Qed.
Lemma put_get p : forall w m, get p m = Some w -> put p w m = m.
Proof.
  induction p as [|[i|i s u] p IH]; intros w m G; cbn [get put] in *; [congruence| |]; destruct m; try discriminate; destruct (nth_error l i) as [x|] eqn:E; try discriminate.
  - rewrite (IH _ _ G). now rewrite set_same.
  - destruct x as [| | | | | | | | | | |[x|]|]; try discriminate. rewrite (IH _ _ G). now rewrite set_same.
Qed.
Lemma put_put p : forall w w' m, put p w (put p w' m) = put p w m.
Proof.
  induction p as [|[i|i s u] p IH]; intros w w' m; cbn [put]; [reflexivity| |]; destruct m; try reflexivity; destruct (nth_error l i) as [x|] eqn:E; cbn [put]; try (rewrite E; reflexivity).
  - pose proof (nth_lt _ _ _ E) as L. rewrite nth_set by exact L. rewrite Nat.eqb_refl, IH. now rewrite set_twice.
  - pose proof (nth_lt _ _ _ E) as L. destruct x as [| | | | | | | | | | |[x|]|]; cbn [put]; try (rewrite E; reflexivity). rewrite nth_set by exact L. rewrite Nat.eqb_refl, IH. now rewrite set_twice.
Qed.
Lemma get_put p : forall w m, get p m <> None -> get p (put p w m) = Some w.
Proof.
  induction p as [|[i|i s u] p IH]; intros w m G; cbn [put get] in *; [reflexivity| |]; destruct m; try contradiction; destruct (nth_error l i) as [x|] eqn:E; try contradiction.
  - pose proof (nth_lt _ _ _ E) as L. rewrite nth_set by exact L. rewrite Nat.eqb_refl. now apply IH.
  - pose proof (nth_lt _ _ _ E) as L. destruct x as [| | | | | | | | | | |[x|]|]; try contradiction. rewrite nth_set by exact L. rewrite Nat.eqb_refl. now apply IH.
Qed.
Definition inner (a : pstep) (x : mem) : option mem := match a with PIn _ => Some x | PVia _ _ _ => match x with MPtr o => o | _ => None end end.
Definition outer (a : pstep) (y : mem) : mem := match a with PIn _ => y | PVia _ _ _ => MPtr (Some y) end.
Lemma put_eq a p w l : put (a :: p) w (MList l) =
  match nth_error l (idx a) with Some x => match inner a x with Some y => MList (set_nth (idx a) (outer a (put p w y)) l) | None => MList l end | None => MList l end.
Proof. destruct a; cbn [put inner outer idx]; destruct (nth_error l i) as [[]|]; try reflexivity; destruct p0; reflexivity. Qed.
Lemma put_comm p q : apart p q -> forall w w' m, put p w (put q w' m) = put q w' (put p w m).
Proof.
  induction 1 as [a b p q NE|a p q AP IH]; intros w w' m.
  - destruct m; try (destruct a, b; reflexivity). rewrite (put_eq b), (put_eq a p w l).
    destruct (nth_error l (idx a)) as [x|] eqn:Ea; destruct (nth_error l (idx b)) as [x'|] eqn:Eb.
    + destruct (inner b x') as [y'|] eqn:Ib; destruct (inner a x) as [y|] eqn:Ia; rewrite ?put_eq; rewrite ?nth_set by (eapply nth_lt; eassumption);
        rewrite ?(proj2 (Nat.eqb_neq _ _) NE), ?(proj2 (Nat.eqb_neq _ _) (not_eq_sym NE)), ?Ea, ?Eb, ?Ia, ?Ib; try reflexivity.
      f_equal. apply set_swap; [exact NE|eapply nth_lt; eassumption|eapply nth_lt; eassumption].
    + rewrite put_eq, Ea. destruct (inner a x) as [y|]; rewrite put_eq; [rewrite nth_set by (eapply nth_lt; eassumption); rewrite (proj2 (Nat.eqb_neq _ _) (not_eq_sym NE))|]; now rewrite Eb.
    + destruct (inner b x') as [y'|] eqn:Ib; rewrite !put_eq; rewrite ?nth_set by (eapply nth_lt; eassumption); rewrite ?(proj2 (Nat.eqb_neq _ _) NE), ?Ea, ?Eb, ?Ib; reflexivity.
    + now rewrite !put_eq, Ea, Eb.
  - destruct m; try (destruct a; reflexivity). rewrite (put_eq a q), (put_eq a p w l). destruct (nth_error l (idx a)) as [x|] eqn:E; [|now rewrite !put_eq, E].
    destruct (inner a x) as [y|] eqn:I; [|now rewrite !put_eq, E, I]. pose proof (nth_lt _ _ _ E) as L. rewrite !put_eq, !nth_set, Nat.eqb_refl by exact L.
    assert (IO : forall u, inner a (outer a u) = Some u) by (intros; destruct a; reflexivity). rewrite !IO, !set_twice by exact L. now rewrite IH.
Qed.
Section Paths.
Context (V : tenv) (R : node -> mem -> mem -> Prop).
Lemma set_app {A} (l1 : list A) x y l2 : set_nth (length l1) y (l1 ++ x :: l2) = l1 ++ y :: l2.
Proof. unfold set_nth. rewrite firstn_app, Nat.sub_diag, firstn_all, firstn_O, app_nil_r. f_equal. f_equal. rewrite skipn_app, skipn_all2 by lia. now replace (S (length l1) - length l1) with 1 by lia. Qed.
Lemma at_path_put p v x y : at_path V R p v x y -> forall x0, get p x = Some x0 -> exists z, y = put p z x /\ R v x0 z.
Proof.
  induction 1 as [v x y H|l1 x l2 p v y H IH|l1 x l2 s u p v y H IH|l1 l2 s p v y H IH]; intros x0 G; cbn [get put] in *.
  - injection G as <-. exists y. split; [reflexivity|exact H].
  - rewrite nth_app_eq in *. destruct (IH _ G) as (z & -> & S). exists z. split; [now rewrite set_app|exact S].
  - rewrite nth_app_eq in *. destruct (IH _ G) as (z & -> & S). exists z. split; [now rewrite set_app|exact S].
  - rewrite nth_app_eq in G. discriminate.
Qed.
Lemma at_path_get p v x y : at_path V R p v x y -> exists x0 z, get p y = Some z /\ R v x0 z /\ (forall x1, get p x = Some x1 -> x1 = x0).
Proof.
  induction 1 as [v x y H|l1 x l2 p v y H (x0 & z & G & S & U)|l1 x l2 s u p v y H (x0 & z & G & S & U)|l1 l2 s p v y H (x0 & z & G & S & U)]; cbn [get].
  - exists x, y. split; [reflexivity|]. split; [exact H|congruence].
  - exists x0, z. rewrite !nth_app_eq. auto.
  - exists x0, z. rewrite !nth_app_eq. auto.
  - exists x0, z. rewrite !nth_app_eq. split; [exact G|]. split; [exact S|discriminate].
Qed.
End Paths.
(** Putting back what [y] has at the paths. *)
Fixpoint restore (Q : list (list pstep)) (y z : mem) : mem :=
  match Q with
  | [] => z
  | q :: Q' => match get q y with Some w => put q w (restore Q' y z) | None => restore Q' y z end
  end.
Lemma restore_put Q y p w z : Forall (fun q => q = p \/ apart q p) Q -> (forall q, In q Q -> get q y <> None) ->
  restore Q y (put p w z) = restore Q y z \/ restore Q y (put p w z) = put p w (restore Q y z) /\ ~ In p Q.
Proof.
  intros FA PR. induction FA as [|q Q H FA IH]; [right; split; [reflexivity|intros []]|]. cbn [restore]. pose proof (PR q (or_introl eq_refl)) as P0.
  destruct (get q y) as [u|]; [|contradiction]. destruct (IH (fun q' I => PR q' (or_intror I))) as [E|[E NI]].
  - left. now rewrite E.
  - rewrite E. destruct H as [->|AP]; [left; apply put_put|]. right. split; [now apply put_comm|]. intros [->|I]; [|contradiction]. clear - AP. remember p as q eqn:EQ in AP at 2. revert EQ. induction AP as [a b p q NE|a p q AP IH]; intros EQ; [injection EQ as -> _; contradiction|]. injection EQ as EQ. auto.
Qed.
Lemma restore_same Q y z : (forall q, In q Q -> get q y = get q z) -> restore Q y z = z.
Proof.
  induction Q as [|q Q IH]; intros H; [reflexivity|]. cbn [restore]. rewrite IH by (intros; apply H; now right). rewrite (H q (or_introl eq_refl)). destruct (get q z) eqn:G; [now apply put_get|reflexivity].
Qed.

(** * Structs *)
Section Structs.
Context (V : tenv) (F : dflags) (OK : env_ok V) (EN : env_names V) (OWJ : overwrites (v_json V)) (OWT : overwrites (v_text V)).
Notation stores := (stores V F).

Lemma text_uniq n1 n2 w1 w2 : jnode n1 -> jnode n2 -> ws w1 -> ws w2 -> ntext n1 ++ w1 = ntext n2 ++ w2 -> ntext n1 = ntext n2.
Proof.
  intros J1 J2 W1 W2 E. pose proof (parseValue_complete _ _ w1 (jnode_jvalue n1 J1)) as P1. pose proof (parseValue_complete _ _ w2 (jnode_jvalue n2 J2)) as P2.
  assert (S : forall w, ws w -> num_stop w) by (intros w W; rewrite <- (app_nil_r w); apply num_stop_ws; [exact W|exact I]).
  specialize (P1 (S _ W1)). specialize (P2 (S _ W2)). rewrite E in P1. congruence.
Qed.
(** Types under ",string" depend on the text of the value only. *)
Lemma quotable_text t n1 n2 x y : quotable t -> jnode n1 -> jnode n2 -> ntext n1 = ntext n2 -> stores t n1 x y -> stores t n2 x y.
Proof.
  intros QT J1 J2 ET S. pose proof (jnode_jvalue _ J1) as V1. pose proof (jnode_jvalue _ J2) as V2. rewrite ET in V1. pose proof (jvalue_unique _ _ _ V1 V2) as EE. clear V1 V2.
  destruct n1 as [s h1], n2 as [s2 h2]. cbn [ntext] in ET. subst s2.
  assert (SH : h1 = h2 \/ (h1 <> HNull /\ h2 <> HNull /\ (forall s x y t, stores t (ND s h1) x y -> quotable t -> match t with YJSON _ | YPtr _ => True | _ => False end))).
  { destruct h1, h2; cbn [erase] in EE; try discriminate EE; try (left; reflexivity); right; (split; [discriminate|]); (split; [discriminate|]); intros s0 x0 y0 t0 H Q; inversion H; subst; try contradiction; exact I. }
  destruct SH as [->|(N1 & N2 & SH)]; [exact S|]. specialize (SH s) as SH0.
  revert x y QT S. induction t; intros x y QT S; try (destruct (SH0 _ _ _ S QT)).
  - destruct (ptr_inv V F _ _ _ _ S) as (p & -> & [[NV _]|(_ & b & -> & S1)]); [contradiction|]. apply st_ptr; [exact N2|]. apply IHt; [|exact S1]. cbn [quotable] in QT. destruct t; auto; contradiction.
  - inversion S as [? ? ? ? ? E0|  | | | | | | | | | | | | | | | | | | | | | | | |u0 v x0 y0 NN H0|]; subst; [contradiction N1; reflexivity|]. apply st_json; [exact N2|exact H0].
Qed.
Definition inn (q : quot) (v n : node) : Prop :=
  (nshape v = HNull /\ n = v) \/ (exists s, v = ND s HStr /\ jnode n /\ ((q = QStr /\ exists w, str_means s (ntext n ++ w) /\ ws w) \/ (q = QInt /\ exists t, str_means s t /\ unzeroed t (ntext n)))).
Lemma inn_uniq q v n n' : inn q v n -> inn q v n' -> n = n' \/ (jnode n /\ jnode n' /\ ntext n = ntext n').
Proof.
  intros [[NV ->]|(s & -> & J & H)] [[NV' ->]|(s' & E & J' & H')]; [now left|rewrite E in NV; discriminate NV|discriminate NV'|]. injection E as <-. right. split; [exact J|]. split; [exact J'|].
  destruct H as [[-> (w & SM & W)]|[-> (t & SM & U)]], H' as [[Q (w' & SM' & W')]|[Q (t' & SM' & U')]]; try discriminate.
  - exact (text_uniq n n' w w' J J' W W' (str_means_det _ _ _ SM SM')).
  - pose proof (str_means_det _ _ _ SM SM'). subst t'. now rewrite (strip_unzeroed _ _ U), (strip_unzeroed _ _ U').
Qed.
Lemma quoted_inn q t v x y : q <> QNo -> quoted q (stores t) v x y -> exists n, inn q v n /\ stores t n x y.
Proof.
  intros NQ H. inversion H; subst; [contradiction| | |]; eexists; (split; [|eassumption]); [left; split; reflexivity| |]; right; eexists; (split; [reflexivity|]); (split; [assumption|]); [left|right]; eauto 6.
Qed.
Lemma quoted_again q t N : (q <> QNo -> quotable t /\ again (stores t) jnode) -> (q = QNo -> again (stores t) N) -> (forall v, N v -> jnode v) -> again (quoted q (stores t)) N.
Proof.
  intros HQ HN NJ vs x y z FN C C'. assert (DQ : q = QNo \/ q <> QNo) by (destruct q; [left|right|right]; congruence). destruct DQ as [->|NQ].
  - apply (HN eq_refl vs x y z FN); eapply chain_imp; [|exact C| |exact C']; intros v a b _ H; inversion H; congruence.
  - destruct (HQ NQ) as [QT AG]. clear HQ HN.
    assert (G : forall x y, chain (quoted q (stores t)) vs x y -> exists ns, Forall2 (inn q) vs ns /\ Forall jnode ns /\ chain (stores t) ns x y).
    { clear - FN NJ NQ. intros x y C. induction C as [x|v vs x y z H C IH]; [exists []; repeat constructor|]. inversion FN as [|? ? N1 N2]; subst.
      destruct (IH N2) as (ns & I1 & I2 & I3). destruct (quoted_inn q t _ _ _ NQ H) as (n & I & S). exists (n :: ns). split; [now constructor|]. split; [constructor; [|exact I2]|econstructor; eassumption].
      destruct I as [[_ ->]|(s & _ & J & _)]; auto. }
    destruct (G _ _ C) as (ns & I1 & I2 & I3). destruct (G _ _ C') as (ns' & K1 & K2 & K3). apply (AG ns x y z I2 I3).
    clear - I1 I2 K1 K2 K3 QT. revert ns I1 I2. induction K1 as [|v n' vs ns' H K1 IH] in y, z, K2, K3 |- *; intros ns I1 I2; inversion I1 as [|? n ? ns0 H' I3]; subst; [exact K3|].
    inversion K2 as [|? ? J1 J2]; subst. inversion K3 as [|? ? ? y1 ? S C]; subst. inversion I2; subst. econstructor; [|eapply IH; eassumption].
    destruct (inn_uniq _ _ _ _ H H') as [->|(A1 & A2 & A3)]; [exact S|]. eapply quotable_text; [exact QT|exact A1|exact A2|exact A3|exact S].
Qed.

(** * Values without parts *)
Definition leaf (t : gty) : Prop :=
  match t with
  | YBool | YInt _ | YFloat _ | YNumber | YString | YDuration | YTime | YIface | YRaw | YJSON _ | YText _ | YUnsupported => True
  | _ => False
  end.
Lemma det_stores t (N : node -> Prop) : (forall v, N v -> jnode v) -> det (stores t) N.
Proof. intros NJ v x y y' Nv H H'. symmetry. eapply stores_det; [exact OK|exact (NJ v Nv)|exact H|exact H']. Qed.
Lemma leaf_pass t v x y x' y' : leaf t -> stores t v x y -> stores t v x' y' -> (nshape v = HNull -> ~ null_keeps t) -> stores t v x' y.
Proof.
  intros L H H' K. inversion H; subst; try contradiction; try (now destruct (K eq_refl)); inversion H'; subst; try contradiction; try (now destruct (K eq_refl)); try (constructor; assumption);
    try (econstructor; eassumption); try (apply st_json; [assumption|eapply OWJ; eassumption]); try (match goal with E : ?a ++ [_] = ?b ++ [_] |- _ => apply app_inv_tail in E; subst; constructor; assumption end);
    try (match goal with E : v_text V _ _ _ = (None, ?z) |- stores _ _ _ (MUser ?z) => eapply st_text; [|eapply OWT; exact E]; eassumption end).
Qed.
Lemma leaf_again t (N : node -> Prop) : leaf t -> (forall v, N v -> jnode v) -> again (stores t) N.
Proof.
  intros L NJ. apply keep_const; [now apply det_stores|]. intros v Nv.
  assert (D : (nshape v = HNull /\ null_keeps t) \/ (nshape v = HNull -> ~ null_keeps t)).
  { destruct (nshape v); try (right; discriminate). destruct t; cbn [null_keeps]; try (left; split; [reflexivity|exact I]); right; intros _ []. }
  destruct D as [[NV NK]|K].
  - left. intros x y H. destruct v as [s h]. cbn [nshape] in NV. subst h. inversion H; subst; try contradiction; try congruence; try (cbn [nshape] in *; congruence).
  - right. intros x x' y y' H H'. symmetry. eapply stores_det; [exact OK|exact (NJ v Nv)|exact (leaf_pass t v x y x' y' L H H' K)|exact H'].
Qed.
Lemma again_mono {A} (R : node -> A -> A -> Prop) (N N' : node -> Prop) : (forall v, N' v -> N v) -> again R N -> again R N'.
Proof. intros H AG vs x y z FN. apply AG. eapply Forall_impl; [exact H|exact FN]. Qed.
Lemma wrap_again {A B} (W : A -> B) (R : node -> B -> B -> Prop) (R' : node -> A -> A -> Prop) (N : node -> Prop) : (forall a b, W a = W b -> a = b) ->
  (forall v x y, N v -> R v x y -> exists a b, x = W a /\ y = W b /\ R' v a b) -> again R' N -> again R N.
Proof.
  intros WI H AG vs x y z FN C C'.
  assert (G : forall vs x y, Forall N vs -> chain R vs x y -> forall a, x = W a -> exists b, y = W b /\ chain R' vs a b).
  { clear - WI H. intros vs x y FN C. induction C as [x|v vs x y z S C IH]; intros a ->; [exists a; split; [reflexivity|constructor]|]. inversion FN as [|? ? N1 N2]; subst.
    destruct (H _ _ _ N1 S) as (a' & b & E1 & -> & S'). apply WI in E1. subst a'. destruct (IH N2 b eq_refl) as (c & -> & C'). exists c. split; [reflexivity|econstructor; eassumption]. }
  assert (X : vs = [] \/ exists a, x = W a).
  { inversion C as [|v ws x0 y0 z0 S C1]; subst; [now left|right]. inversion FN; subst. destruct (H _ _ _ ltac:(eassumption) S) as (a & b & -> & _). now exists a. }
  destruct X as [->|(a & ->)]; [now inversion C'|]. destruct (G _ _ _ FN C a eq_refl) as (b & -> & C1). destruct (G _ _ _ FN C' b eq_refl) as (c & -> & C2). now rewrite (AG vs a b c FN C1 C2).
Qed.
Lemma quotable_again t : quotable t -> again (stores t) jnode.
Proof.
  induction t; intros QT; try contradiction; try (apply leaf_again; [exact I|auto]). apply ptr_again; [apply det_stores; auto|]. apply IHt. cbn [quotable] in QT. destruct t; auto; contradiction.
Qed.

(** * The members of objects *)
Section Fields.
Variable i : nat.
Inductive mrel : list (bytes * node) -> mem -> mem -> Prop :=
| mr_nil x : mrel [] x x
| mr_cons k v L x y z : member V F i k v x y -> mrel L y z -> mrel ((k, v) :: L) x z.
Definition of (f : jfield) (e : bytes * node) : bool := match find_field V F (v_flds V i) (fst e) with Some g => beqb (jf_name g) (jf_name f) | None => false end.
Definition fcol (f : jfield) (L : list (bytes * node)) : list node := map snd (filter (of f) L).
Notation path_of f := (jf_path f).
Notation Rf f := (quoted (jf_quot f) (stores (jf_ty f))).
Lemma member_inv k v x y : member V F i k v x y -> (find_field V F (v_flds V i) k = None /\ y = x) \/
  exists f, find_field V F (v_flds V i) k = Some f /\ In f (v_flds V i) /\ at_path V (Rf f) (path_of f) v x y.
Proof.
  intros H. pose proof (find_field_picks V F (v_flds V i) k) as FP. inversion H as [? ? ? ? P D|? ? f ? ? ? P AP]; subst; rewrite (picks_uniq V F _ _ _ _ FP P) in *; [left; auto|].
  right. exists f. split; [reflexivity|]. split; [eapply picks_in; exact P|exact AP].
Qed.
Lemma same_field f g : In f (v_flds V i) -> In g (v_flds V i) -> jf_name f = jf_name g -> f = g.
Proof.
  pose proof (en_names V EN i) as ND. induction (v_flds V i) as [|a l IH]; [intros []|]. cbn [map] in ND. inversion ND as [|? ? NI ND']; subst.
  intros [->|I1] [->|I2] E; [reflexivity| | |now apply IH]; exfalso; apply NI; [rewrite E|rewrite <- E]; now apply in_map.
Qed.
Lemma member_other f k v x y u : In f (v_flds V i) -> member V F i k v x y -> of f (k, v) = false -> get (path_of f) x = Some u -> get (path_of f) y = Some u.
Proof.
  intros INf M O G. destruct (member_inv _ _ _ _ M) as [[_ ->]|(g & E & INg & AP)]; [exact G|]. unfold of in O. cbn [fst] in O. rewrite E in O.
  eapply at_path_apart; [exact AP| |exact G]. apply (en_apart V EN i); [exact INg|exact INf|]. intros Q. rewrite Q, (proj2 (beqb_eq _ _) eq_refl) in O. discriminate.
Qed.
Lemma member_this f k v x y : In f (v_flds V i) -> member V F i k v x y -> of f (k, v) = true -> at_path V (Rf f) (path_of f) v x y.
Proof.
  intros INf M O. unfold of in O. cbn [fst] in O. destruct (member_inv _ _ _ _ M) as [[E _]|(g & E & INg & AP)]; rewrite E in O; [discriminate|]. apply beqb_eq in O. now rewrite <- (same_field g f INg INf O).
Qed.
Lemma mrel_proj f L x y : In f (v_flds V i) -> mrel L x y ->
  (fcol f L = [] /\ (forall u, get (path_of f) x = Some u -> get (path_of f) y = Some u)) \/
  exists x0 z, get (path_of f) y = Some z /\ chain (Rf f) (fcol f L) x0 z /\ (forall x1, get (path_of f) x = Some x1 -> x1 = x0).
Proof.
  intros INf C. induction C as [x|k v L x y z M C IH]; [left; split; [reflexivity|auto]|]. unfold fcol in *. cbn [filter]. destruct (of f (k, v)) eqn:O; cbn [map snd].
  - right. destruct (at_path_get V _ _ _ _ _ (member_this f k v x y INf M O)) as (x0 & w & G & S & U). destruct IH as [[E IH]|(x1 & z1 & G1 & C1 & U1)].
    + exists x0, w. rewrite E. split; [now apply IH|]. split; [econstructor; [exact S|constructor]|exact U].
    + exists x0, z1. split; [exact G1|]. rewrite <- (U1 _ G) in C1. split; [econstructor; eassumption|exact U].
  - destruct IH as [[E IH]|(x1 & z1 & G1 & C1 & U1)].
    + left. split; [exact E|]. intros u G. eapply IH, member_other; eassumption.
    + right. exists x1, z1. split; [exact G1|]. split; [exact C1|]. intros u G. eapply U1, member_other; eassumption.
Qed.
Lemma mrel_again L x y z (N : node -> Prop) : Forall (fun e => N (snd e)) L -> (forall f, In f (v_flds V i) -> again (Rf f) N) -> mrel L x y -> mrel L y z -> z = y.
Proof.
  intros FN AG C C'. set (here := fun f => negb (Nat.eqb (length (fcol f L)) 0)). set (Q := map jf_path (filter here (v_flds V i))).
  assert (QI : forall q, In q Q -> exists f, q = path_of f /\ In f (v_flds V i) /\ fcol f L <> []).
  { intros q I. apply in_map_iff in I as (f & <- & I). apply filter_In in I as [I1 I2]. exists f. split; [reflexivity|]. split; [exact I1|]. intros E. unfold here in I2. rewrite E in I2. discriminate. }
  assert (FC : forall f, Forall N (fcol f L)).
  { intros f. apply Forall_forall. intros v I. apply in_map_iff in I as (e & <- & I). apply filter_In in I as [I _]. rewrite Forall_forall in FN. now apply FN. }
  assert (PY : forall q, In q Q -> get q y <> None).
  { intros q I. destruct (QI q I) as (f & -> & I1 & NE). destruct (mrel_proj f L x y I1 C) as [[E _]|(x0 & w & G & _)]; [contradiction|]. congruence. }
  assert (EQ : forall q, In q Q -> get q y = get q z).
  { intros q I. destruct (QI q I) as (f & -> & I1 & NE). destruct (mrel_proj f L x y I1 C) as [[E _]|(x0 & w & G & C1 & _)]; [contradiction|].
    destruct (mrel_proj f L y z I1 C') as [[E _]|(x1 & w' & G' & C2 & U)]; [contradiction|]. rewrite <- (U _ G) in C2. rewrite G, G'. f_equal. symmetry. exact (AG f I1 _ _ _ _ (FC f) C1 C2). }
  assert (RE : restore Q y z = restore Q y y).
  { assert (LQ : forall k v f, In (k, v) L -> find_field V F (v_flds V i) k = Some f -> In f (v_flds V i) -> In (path_of f) Q).
    { intros k v f I E I1. apply in_map, filter_In. split; [exact I1|]. unfold here. destruct (fcol f L) eqn:FE; [|reflexivity]. exfalso.
      assert (X : In v (fcol f L)) by (apply (in_map snd (filter (of f) L) (k, v)), filter_In; split; [exact I|unfold of; cbn [fst]; rewrite E; apply (proj2 (beqb_eq _ _) eq_refl)]). rewrite FE in X. exact X. }
    clear EQ C. assert (SUB : forall e, In e L -> In e L) by auto. revert SUB.
    assert (G : forall L0 a b, mrel L0 a b -> (forall e, In e L0 -> In e L) -> (forall q, In q Q -> get q a <> None) -> restore Q y b = restore Q y a).
    { clear C'. intros L0 a b C. induction C as [a|k v L0 a b c M C IH]; intros SUB PA; [reflexivity|].
      assert (PB : forall q, In q Q -> get q b <> None).
      { intros q I. destruct (QI q I) as (f & -> & I1 & _). destruct (of f (k, v)) eqn:O.
        - destruct (at_path_get V _ _ _ _ _ (member_this f k v a b I1 M O)) as (x0 & w & G & _). congruence.
        - specialize (PA _ I). destruct (get (path_of f) a) as [u|] eqn:G; [|contradiction]. rewrite (member_other f k v a b u I1 M O G). discriminate. }
      rewrite IH; [|intros e I; apply SUB; now right|exact PB].
      destruct (member_inv _ _ _ _ M) as [[_ ->]|(g & E & INg & AP)]; [reflexivity|]. pose proof (LQ k v g (SUB _ (or_introl eq_refl)) E INg) as IQ.
      pose proof (PA _ IQ) as PG. destruct (get (path_of g) a) as [u|] eqn:G; [|contradiction]. destruct (at_path_put V _ _ _ _ _ AP u G) as (w & -> & _).
      destruct (restore_put Q y (path_of g) w a) as [RP|[_ NI]]; [|exact PY|exact RP|contradiction].
      apply Forall_forall. intros q I. destruct (QI q I) as (f & -> & I1 & _). destruct (beqb (jf_name f) (jf_name g)) eqn:BE.
      - apply beqb_eq in BE. left. now rewrite (same_field f g I1 INg BE).
      - right. apply (en_apart V EN i); [exact I1|exact INg|]. intros QE. rewrite QE, (proj2 (beqb_eq _ _) eq_refl) in BE. discriminate. }
    intros SUB. apply (G L y z C' SUB PY). }
  rewrite (restore_same Q y y) in RE by reflexivity. rewrite (restore_same Q y z EQ) in RE. exact RE.
Qed.
Definition resolved (v : node) : list (bytes * node) := map (fun lw => (str_text (fst lw), snd lw)) (obj_of v).
Lemma mrel_app L1 L2 x y z : mrel L1 x y -> mrel L2 y z -> mrel (L1 ++ L2) x z.
Proof. intros H H2. induction H; [exact H2|]. cbn [app]. econstructor; eauto. Qed.
Lemma struct_mrel vs x y : Forall jnode vs -> chain (stores (YStruct i)) vs x y -> mrel (flat_map resolved vs) x y.
Proof.
  intros FJ C. induction C as [x|v vs x y z H C IH]; [constructor|]. inversion FJ as [|? ? J1 J2]; subst. cbn [flat_map]. eapply mrel_app; [|apply IH, J2]. clear IH C.
  inversion H as [? ? ? NK| | | | | | | | | | | | | | | | | | | | | | | |i' v' x' y' H1| |]; subst; [contradiction|]. destruct H1 as [s x0|s l x0 y MR]; [constructor|].
  unfold resolved. cbn [obj_of nshape]. apply obj_small in J1. clear H FJ. revert J1. induction MR as [x0|lit k v l x0 y0 z0 SM M MR IH]; intros FO; [constructor|]. inversion FO as [|? ? (SL & _) FO']; subst.
  cbn [map fst snd] in *. rewrite <- (str_means_text lit k SL SM). econstructor; [exact M|]. now apply IH.
Qed.
End Fields.

Definition within (n : nat) (v : node) : Prop := jnode v /\ nsize v < n.
Lemma within_arr n v w : within n v -> In w (arr_of v) -> within n w.
Proof.
  destruct v as [s h]. intros [J B] I. unfold arr_of in I. cbn [nshape] in I. destruct h; try contradiction. pose proof (arr_small s l J) as FA. rewrite Forall_forall in FA. split; [apply FA, I|]. apply (nsize_arr s) in I. lia.
Qed.
Lemma within_obj n v lit w : within (S n) v -> In (lit, w) (obj_of v) -> string_lit lit /\ within n w.
Proof.
  destruct v as [s h]. intros [J B] I. unfold obj_of in I. cbn [nshape] in I. destruct h; try contradiction. pose proof (obj_small s l J) as FA. rewrite Forall_forall in FA. destruct (FA _ I) as (SL & J' & _).
  split; [exact SL|]. split; [exact J'|]. apply (nsize_obj s) in I. lia.
Qed.
Lemma map_ty_again k e n : again (stores (YMap k e)) (within (S n)).
Proof.
  apply (wrap_again MMap _ (map_rel (stores e) (zero V e) (key_means V k) mkey_eqb)); [congruence| |].
  - intros v x y _ H. inversion H; subst; [contradiction|]. eexists _, _. split; [reflexivity|]. split; [reflexivity|assumption].
  - apply map_again; [apply PropsCont.mkey_eqb_eq|]. intros v lit w Wv I. destruct (within_obj n v lit w Wv I) as [SL [J _]]. split; intros a b H H'.
    + eapply key_means_det; eassumption.
    + symmetry. exact (stores_det V F OK _ _ _ _ _ J H H').
Qed.
Definition u8_rel (v : node) (x y : Z) : Prop := stores (YInt TUint8) v (MInt x) (MInt y).
Lemma bytes_inv v x y : stores YBytes v x y -> exists a b, x = MBytes a /\ y = MBytes b /\
  ((exists s t u, v = ND s HStr /\ str_means s t /\ v_b64 V t = Some u /\ b = Some (length u, u)) \/ slice_rel u8_rel 0%Z v a b).
Proof. intros H. inversion H; subst; [contradiction| |]; eexists _, _; (split; [reflexivity|]); (split; [reflexivity|]); [left; eauto 8|right; assumption]. Qed.
Lemma bytes_again n : again (stores YBytes) (within n).
Proof.
  apply (wrap_again MBytes _ (fun v x y => stores YBytes v (MBytes x) (MBytes y))); [congruence| |].
  - intros v x y _ H. destruct (bytes_inv _ _ _ H) as (a & b & -> & -> & _). exists a, b. auto.
  - intros vs x y z FW C C'.
    assert (D : det (fun v x y => stores YBytes v (MBytes x) (MBytes y)) (within n)) by (intros v a b b' [J _] H H'; pose proof (stores_det V F OK _ _ _ _ _ J H H'); congruence).
    assert (G : Forall is_arr vs \/ exists v, In v vs /\ const (fun v x y => stores YBytes v (MBytes x) (MBytes y)) v).
    { clear. induction vs as [|v vs IH]; [left; constructor|].
      assert (S : is_arr v \/ const (fun v x y => stores YBytes v (MBytes x) (MBytes y)) v).
      { assert (S : is_arr v \/ ~ is_arr v) by (unfold is_arr; destruct (nshape v); [right|right|right|right|right|left; exact I|right]; intros []).
        destruct S as [S|S]; [now left|right]. intros a a' b b' H H'.
        destruct (bytes_inv _ _ _ H) as (a1 & b1 & E1 & E2 & X). destruct (bytes_inv _ _ _ H') as (a1' & b1' & E1' & E2' & X'). injection E1 as <-. injection E2 as <-. injection E1' as <-. injection E2' as <-.
        destruct X as [(s & t & u & -> & M & B & ->)|X], X' as [(s' & t' & u' & E & M' & B' & ->)|X'].
        - injection E as <-. rewrite (str_means_det _ _ _ M M') in B. congruence.
        - inversion X'.
        - subst v. inversion X.
        - inversion X; subst; [|destruct S; exact I]. inversion X'; subst. reflexivity. }
      destruct S as [S|S]; [|right; exists v; split; [now left|exact S]]. destruct IH as [IH|(w & I & K)]; [left; now constructor|right; exists w; split; [now right|exact K]]. }
    destruct G as [FA|(v & I & K)]; [|exact (eq_sym (chain_const _ _ D vs v FW I K _ _ _ _ C C'))].
    assert (AR : forall a b, chain (fun v x y => stores YBytes v (MBytes x) (MBytes y)) vs a b -> chain (slice_rel u8_rel 0%Z) vs a b).
    { intros a b. apply chain_imp. intros v a0 b0 I H. destruct (bytes_inv _ _ _ H) as (a1 & b1 & E1 & E2 & X). injection E1 as <-. injection E2 as <-.
      destruct X as [(s & t & u & -> & _)|X]; [|exact X]. rewrite Forall_forall in FA. destruct (FA _ I). }
    refine (slice_again u8_rel 0%Z (within n) (fun v => within n v /\ is_arr v) _ _ _ _ vs x y z _ (AR _ _ C) (AR _ _ C')).
    + intros v a b b' [[J _] _] H H'. apply (st_bytes_arr V F) in H. apply (st_bytes_arr V F) in H'. pose proof (stores_det V F OK _ _ _ _ _ J H H'). congruence.
    + intros v [_ IA]. now left.
    + intros v w [Wv _] I. eapply within_arr; eassumption.
    + intros ws a b c FN C1 C2. assert (UP : forall a b, chain u8_rel ws a b -> chain (stores (YInt TUint8)) ws (MInt a) (MInt b)) by (clear; intros a b C; induction C; econstructor; eassumption).
      pose proof (leaf_again (YInt TUint8) (within n) I (fun v H => proj1 H) ws _ _ _ FN (UP _ _ C1) (UP _ _ C2)). congruence.
    + rewrite Forall_forall in *. intros v I. split; [now apply FW|now apply FA].
Qed.

Lemma again_all n : forall t, no_named t -> (forall i f, In f (v_flds V i) -> no_named (jf_ty f)) -> again (stores t) (within n).
Proof.
  induction n as [|n IHn]; intros t NT NE; [intros vs x y z FN C C'; destruct vs; [inversion C'; subst; reflexivity|inversion FN as [|? ? [_ B]]; lia]|].
  induction t as [| | | | | | | | | | |k e IHe|e IHe|k e IHe| | |e IHe|i| | |]; try contradiction; try (apply leaf_again; [exact I|intros v [J _]; exact J]).
  - apply bytes_again.
  - apply (wrap_again MList _ (array_rel (stores e))); [congruence| |].
    + intros v x y _ H. inversion H; subst; [contradiction|]. eexists _, _. split; [reflexivity|]. split; [reflexivity|assumption].
    + eapply array_again; [exact (MBool false)|apply within_arr|now apply IHe].
  - apply (wrap_again MSlice _ (slice_rel (stores e) (zero V e))); [congruence| |].
    + intros v x y _ H. inversion H; subst; [contradiction|]. eexists _, _. split; [reflexivity|]. split; [reflexivity|assumption].
    + eapply slice_again; [| |apply within_arr|now apply IHe].
      * intros v x y y' [J _] H H'. apply st_slice in H. apply st_slice in H'. pose proof (stores_det V F OK _ _ _ _ _ J H H') as E. congruence.
      * intros v _. destruct v as [s h]. destruct h; [|right|right|right|right|left; exact I|right]; [right| | | | |]; intros a a' b b' H H'; inversion H; inversion H'; subst; congruence.
  - apply map_ty_again.
  - apply (wrap_again (fun x => x) _ (stores (YMap KYString YIface))); [auto| |apply map_ty_again]. intros v x y _ H. inversion H; subst; [contradiction|]. eauto.
  - apply (wrap_again (fun x => x) _ (stores (YMap KYString YRaw))); [auto| |apply map_ty_again]. intros v x y _ H. inversion H; subst; [contradiction|]. eauto.
  - apply ptr_again; [apply det_stores; intros v [J _]; exact J|now apply IHe].
  - intros vs x y z FN C C'. assert (FJ : Forall jnode vs) by (eapply Forall_impl; [|exact FN]; intros v [J _]; exact J).
    apply (mrel_again i (flat_map (resolved) vs) x y z (within n)); [| |now apply struct_mrel|now apply struct_mrel].
    + apply Forall_forall. intros [k w] I. apply in_flat_map in I as (v & I1 & I2). rewrite Forall_forall in FN. apply in_map_iff in I2 as ([lit w'] & E & I2). injection E as <- <-. exact (proj2 (within_obj n v lit w' (FN v I1) I2)).
    + intros f INf. apply quoted_again.
      * intros NQ. pose proof (ok_quot V OK i f INf NQ) as QT. split; [exact QT|]. now apply quotable_again.
      * intros _. apply IHn; [now apply NE in INf|exact NE].
      * intros v [J _]. exact J.
Qed.

(** * A value that was accepted is accepted again *)
Context (ET : env_typed V) (EX : all_exported V).
Notation fits := (fits V).
Lemma node_wf v : jnode v -> wf (ntext v).
Proof. intros J. exact (proj1 DocFacts.jvalue_wf _ _ (jnode_jvalue v J)). Qed.
Lemma stores_fits t v x y : jnode v -> fits t x -> stores t v x y -> fits t y.
Proof.
  intros J FX H. apply (C42_accepts_iff V F t [] v [] x y OK ltac:(constructor) J ltac:(constructor)) in H. cbn [app] in H. rewrite app_nil_r in H.
  destruct (C43_memory_safe V F t (ntext v) x OK ET (node_wf v J) FX) as [G _]. now rewrite H in G.
Qed.
Lemma quoted_fits q t v x y : jnode v -> fits t x -> quoted q (stores t) v x y -> fits t y.
Proof.
  intros J FX H. inversion H; subst; try (eapply stores_fits; [|exact FX|eassumption]; assumption).
Qed.
Lemma grows_any k : forall c n, n - c <= k -> exists c', grows c n c'.
Proof.
  induction k as [|k IH]; intros c n L; [exists c; apply grows_fit; lia|]. destruct (Nat.le_gt_cases n c) as [B|B]; [exists c; now apply grows_fit|].
  destruct (IH (match c with 0 => 10 | _ => c + c end) n) as (c' & G); [destruct c; lia|]. exists c'. now apply grows_more.
Qed.
Section Acc.
Context {A : Type} (R : node -> A -> A -> Prop) (D : A -> Prop) (z0 : A).
Definition acc (v : node) : Prop := forall x y, D x -> R v x y -> forall x', D x' -> exists y', R v x' y'.
Lemma onto_acc l d ys : D z0 -> Forall acc l -> Forall D d -> onto R z0 l d ys -> forall d', Forall D d' -> exists ys', onto R z0 l d' ys'.
Proof.
  intros DZ FA FD O. revert FA FD. induction O as [d|v l d y ys H O IH]; intros FA FD d' FD'; [exists []; constructor|]. inversion FA as [|? ? A1 A2]; subst.
  assert (DH : forall d, Forall D d -> D (hd z0 d) /\ Forall D (tl d)) by (intros d0 H0; destruct H0; cbn; auto).
  destruct (A1 _ _ (proj1 (DH d FD)) H _ (proj1 (DH d' FD'))) as (y' & H'). destruct (IH A2 (proj2 (DH d FD)) (tl d') (proj2 (DH d' FD'))) as (ys' & O'). exists (y' :: ys'). now constructor.
Qed.
Lemma slice_acc s l x y x' : D z0 -> Forall acc l -> Forall D (backing x) -> Forall D (backing x') -> slice_rel R z0 (ND s (HArr l)) x y -> exists y', slice_rel R z0 (ND s (HArr l)) x' y'.
Proof.
  intros DZ FA FD FD' H. inversion H as [|? ? ? ys c O G]; subst. destruct (onto_acc l _ ys DZ FA FD O _ FD') as (ys' & O').
  destruct (grows_any _ (length (backing x')) (length l) (le_n _)) as (c' & G'). eexists. econstructor; eassumption.
Qed.
Lemma along_acc l x y : Forall acc l -> Forall D x -> along R l x y -> forall x', length x' = length x -> Forall D x' -> exists y', along R l x' y'.
Proof.
  intros FA FD H. revert FA FD. induction H as [d|l|v l x d y ys H O IH]; intros FA FD x' L FD'.
  - exists x'. constructor.
  - destruct x'; [|discriminate]. exists []. constructor.
  - destruct x' as [|a' d']; [discriminate|]. cbn [length] in L. injection L as L. inversion FA as [|? ? A1 A2]; subst. inversion FD as [|? ? D1 D2]; subst. inversion FD' as [|? ? D1' D2']; subst.
    destruct (A1 _ _ D1 H _ D1') as (y' & H'). destruct (IH A2 D2 d' L D2') as (ys' & O'). exists (y' :: ys'). now constructor.
Qed.
End Acc.
Lemma split_nth {A} (l : list A) k x : nth_error l k = Some x -> exists l1 l2, l = l1 ++ x :: l2 /\ length l1 = k.
Proof. apply nth_error_split. Qed.
Lemma path_acc R t p u : leads V t p u -> forall v x x' y, fits t x -> fits t x' -> (forall k s, ~ In (PVia k s true) p) -> at_path V R p v x y -> acc R (fits u) v -> exists y', at_path V R p v x' y'.
Proof.
  induction 1 as [t|i k u0 p t E L IH|i k j un p t E L IH]; intros v x x' y FX FX' NU AP AC.
  - inversion AP as [? ? ? H| | |]; subst. destruct (AC _ _ FX H _ FX') as (y' & H'). exists y'. now constructor.
  - inversion AP as [|l1 a l2 p0 v0 b AP0| |]; subst. inversion FX as [| | | | | | | | | | | | | | | | | | | |? ? FL| | |]; subst. inversion FX' as [| | | | | | | | | | | | | | | | | | | |? l' FL'| | |]; subst.
    destruct (nth_fit V _ _ _ _ FL E) as (a0 & Ea & Fa). rewrite nth_app_eq in Ea. injection Ea as <-. destruct (nth_fit V _ _ _ _ FL' E) as (a' & Ea' & Fa').
    destruct (split_nth _ _ _ Ea') as (m1 & m2 & -> & LM). destruct (IH v a a' b Fa Fa') as (b' & AP'); [intros k s I; apply (NU k s); now right|exact AP0|exact AC|].
    exists (MList (m1 ++ b' :: m2)). rewrite <- LM. now constructor.
  - assert (un = false) as -> by (destruct un; [destruct (NU k j); now left|reflexivity]).
    assert (NU' : forall k s, ~ In (PVia k s true) p) by (intros k0 s I; apply (NU k0 s); now right).
    inversion FX' as [| | | | | | | | | | | | | | | | | | | |? l' FL'| | |]; subst. destruct (nth_fit V _ _ _ _ FL' E) as (a' & Ea' & Fa'). 
    assert (G : exists a b, fits (YStruct j) a /\ at_path V R p v a b).
    { inversion AP as [| |l1 a l2 s0 u0 p0 v0 b AP0|l1 l2 s0 p0 v0 b AP0]; subst.
      - inversion FX as [| | | | | | | | | | | | | | | | | | | |? ? FL| | |]; subst. destruct (nth_fit V _ _ _ _ FL E) as (a0 & Ea & Fa). rewrite nth_app_eq in Ea. injection Ea as <-. inversion Fa; subst. eauto.
      - exists (zero V (YStruct j)), b. split; [now apply zero_fits|exact AP0]. }
    destruct G as (a & b & Fa & AP0). destruct (split_nth _ _ _ Ea') as (m1 & m2 & -> & LM). inversion Fa' as [| | | | | | | | | | | | | | | | | |? |? a0 Fa0| | | |]; subst.
    + destruct (IH v a (zero V (YStruct j)) b Fa (zero_fits V ET _) NU' AP0 AC) as (b' & AP'). eexists. apply ap_new. exact AP'.
    + destruct (IH v a a0 b Fa Fa0 NU' AP0 AC) as (b' & AP'). eexists. apply ap_via. exact AP'.
Qed.
Lemma path_fits R t p u : leads V t p u -> forall v x y, fits t x -> at_path V R p v x y -> (forall a b, fits u a -> R v a b -> fits u b) -> fits t y.
Proof.
  induction 1 as [t|i k u0 p t E L IH|i k j un p t E L IH]; intros v x y FX AP PR.
  - inversion AP; subst. eauto.
  - inversion AP as [|l1 a l2 p0 v0 b AP0| |]; subst. inversion FX as [| | | | | | | | | | | | | | | | | | | |? ? FL| | |]; subst.
    destruct (nth_fit V _ _ _ _ FL E) as (a0 & Ea & Fa). rewrite nth_app_eq in Ea. injection Ea as <-. constructor. rewrite <- (set_app l1 a b l2). eapply set_nth_fit; [exact FL|exact E|]. eapply IH; eassumption.
  - inversion AP as [| |l1 a l2 s0 u0 p0 v0 b AP0|l1 l2 s0 p0 v0 b AP0]; subst; inversion FX as [| | | | | | | | | | | | | | | | | | | |? ? FL| | |]; subst; constructor.
    + destruct (nth_fit V _ _ _ _ FL E) as (a0 & Ea & Fa). rewrite nth_app_eq in Ea. injection Ea as <-. inversion Fa; subst.
      rewrite <- (set_app l1 (MPtr (Some a)) (MPtr (Some b)) l2). eapply set_nth_fit; [exact FL|exact E|]. constructor. eapply IH; eassumption.
    + rewrite <- (set_app l1 (MPtr None) (MPtr (Some b)) l2). eapply set_nth_fit; [exact FL|exact E|]. constructor. eapply IH; [apply zero_fits; exact ET|exact AP0|exact PR].
Qed.
Lemma unsupported_never v x y : ~ stores YUnsupported v x y.
Proof. intros H. inversion H; subst. contradiction. Qed.
Lemma null_acc t s : jnode (ND s HNull) -> acc (stores t) (fits t) (ND s HNull).
Proof.
  intros J x y FX H x' FX'. assert (NU : t <> YUnsupported) by (intros ->; now apply unsupported_never in H).
  assert (s = bs "null") as -> by (inversion J; reflexivity). eexists. now apply stores_null.
Qed.
Lemma leaf_acc t v : match t with YBytes | YNamedIface _ | YArray _ _ | YSlice _ | YMap _ _ | YMapSI | YMapSR | YPtr _ | YStruct _ => False | _ => True end ->
  jnode v -> acc (stores t) (fits t) v.
Proof.
  intros LF J. destruct v as [s h]. destruct h; try (now apply null_acc).
  all: intros x y FX H x' FX'; inversion H; subst; try contradiction; inversion FX'; subst; eexists; try (econstructor; eassumption).
  all: econstructor; try eassumption; (eapply OWJ || eapply OWT); eassumption.
Qed.
Lemma ptr_acc e v : jnode v -> acc (stores e) (fits e) v -> acc (stores (YPtr e)) (fits (YPtr e)) v.
Proof.
  intros J AC. destruct v as [s h]. destruct h; try (now apply null_acc).
  all: intros x y FX H x' FX'; inversion H as [| | | | | | | | | | | | | | | | | | | | | | | e0 v0 x0 y0 NN S| | |]; subst; try contradiction.
  all: assert (FE : fits e (match x0 with Some x => x | None => zero V e end)) by (inversion FX; subst; [now apply zero_fits|assumption]).
  all: assert (FE' : exists o, x' = MPtr o /\ fits e (match o with Some x => x | None => zero V e end)) by (inversion FX'; subst; eexists; (split; [reflexivity|]); [now apply zero_fits|assumption]).
  all: destruct FE' as (o & -> & FE'); destruct (AC _ _ FE S _ FE') as (b & S'); eexists; apply st_ptr; [exact NN|exact S'].
Qed.
Lemma quotable_acc t v : quotable t -> jnode v -> acc (stores t) (fits t) v.
Proof.
  revert v. induction t; intros v QT J; try contradiction; try (now apply leaf_acc). apply ptr_acc; [exact J|]. apply IHt; [|exact J]. cbn [quotable] in QT. destruct t; auto; contradiction.
Qed.
Lemma quoted_acc q t v : (q <> QNo -> quotable t) -> jnode v -> acc (stores t) (fits t) v -> acc (quoted q (stores t)) (fits t) v.
Proof.
  intros QT J AC x y FX H x' FX'. inversion H as [v0 x0 y0 Q S|s x0 y0 Q S|s v0 w x0 y0 Q SM W J' S|s t0 v0 x0 y0 Q SM NE UZ J' S]; subst.
  - destruct (AC _ _ FX S _ FX') as (b & S'). exists b. now apply qu_no.
  - destruct (AC _ _ FX S _ FX') as (b & S'). exists b. now apply qu_null.
  - destruct (quotable_acc t v0 (QT ltac:(discriminate)) J' _ _ FX S _ FX') as (b & S'). exists b. eapply qu_str; eauto.
  - destruct (quotable_acc t v0 (QT ltac:(discriminate)) J' _ _ FX S _ FX') as (b & S'). exists b. eapply qu_int; eauto.
Qed.
Lemma map_acc k e v : acc (stores (YMap k e)) (fits (YMap k e)) v.
Proof.
  intros x y FX H x' FX'. inversion H as [? ? ? NK| | | | | | | | | | | | | | | | | | k0 e0 v0 x0 y0 M| | | | | | | |]; subst; [contradiction|].
  assert (exists m, x' = MMap m) as (m & ->) by (inversion FX'; eauto). inversion M; subst; eexists; apply st_map; [apply mr_null|apply mr_obj; eassumption].
Qed.
Lemma bytes_acc v : acc (stores YBytes) (fits YBytes) v.
Proof.
  intros x y FX H x' FX'. destruct (bytes_inv _ _ _ H) as (a & b & -> & -> & X). assert (exists c, x' = MBytes c) as (c & ->) by (inversion FX'; eauto).
  destruct X as [(s & t & u & -> & M & B & ->)|X]; [eexists; eapply st_bytes; eassumption|].
  inversion X as [|s l ? ys cc O G]; subst; [eexists; apply st_bytes_arr; constructor|].
  assert (G' := fun H1 H2 H3 => slice_acc u8_rel (fun _ => True) 0%Z s l a _ c I H1 H2 H3 X). destruct G' as (b' & X'); [| | |eexists; eapply st_bytes_arr, X'].
  - apply Forall_forall. intros w _ p q _ S p' _. unfold u8_rel in *. inversion S; subst; eexists; econstructor; eauto; exact I.
  - now apply Forall_forall.
  - now apply Forall_forall.
Qed.
Lemma accept_all n : forall t, no_named t -> (forall i f, In f (v_flds V i) -> no_named (jf_ty f)) -> forall v, within n v -> acc (stores t) (fits t) v.
Proof.
  induction n as [|n IHn]; intros t NT NE; [intros v [_ B]; lia|].
  induction t as [| | | | | | | | | | |k e IHe|e IHe|k e IHe| | |e IHe|i| | |]; intros v Wv; try contradiction; try (apply leaf_acc; [exact I|exact (proj1 Wv)]).
  - apply bytes_acc.
  - intros x y FX H x' FX'. inversion H as [? ? ? NK| | | | | | | | | | | | | | | | n0 e0 v0 l0 y0 LN AR| | | | | | | | | |]; subst; [contradiction|].
    inversion FX; subst. inversion FX' as [| | | | | | | | | | |n1 e1 l1 LN1 FL1| | | | | | | | | | | |]; subst. inversion AR as [|s l ? ? EM AL]; subst; [eexists; apply st_array; [assumption|constructor]|].
    destruct (along_acc (stores e) (fits e) l l0 y0) with (x' := l1) as (y' & AL'); try assumption.
    + apply Forall_forall. intros w I. apply IHe; [exact NT|]. eapply within_arr; [exact Wv|exact I].
    + exists (MList y'). apply st_array; [assumption|]. constructor; [|exact AL']. intros E. specialize (EM E). subst l0. destruct l1; [reflexivity|discriminate].
  - intros x y FX H x' FX'. inversion H as [? ? ? NK| | | | | | | | | | | | | | | | | e0 v0 l0 y0 SR| | | | | | | | |]; subst; [contradiction|].
    assert (BK : forall m, fits (YSlice e) (MSlice m) -> Forall (fits e) (backing m)) by (intros m Fm; inversion Fm; subst; cbn; auto).
    assert (exists c, x' = MSlice c) as (c & ->) by (inversion FX'; eauto). inversion SR as [|s l ? ys cc O G]; subst; [eexists; apply st_slice; constructor|].
    assert (G' := fun H1 H2 H3 => slice_acc (stores e) (fits e) (zero V e) s l _ _ c (zero_fits V ET e) H1 H2 H3 SR). destruct G' as (b' & X'); [| | |eexists; eapply st_slice, X'].
    + apply Forall_forall. intros w I. apply IHe; [exact NT|]. eapply within_arr; [exact Wv|exact I].
    + now apply BK.
    + now apply BK.
  - apply map_acc.
  - intros x y FX H x' FX'. assert (S : stores (YMap KYString YIface) v x y) by (inversion H; subst; [contradiction|assumption]).
    assert (F1 : fits (YMap KYString YIface) x) by (inversion FX; subst; assumption). assert (F2 : fits (YMap KYString YIface) x') by (inversion FX'; subst; assumption).
    destruct (map_acc KYString YIface v x y F1 S x' F2) as (b & S'). exists b. now apply st_map_si.
  - intros x y FX H x' FX'. assert (S : stores (YMap KYString YRaw) v x y) by (inversion H; subst; [contradiction|assumption]).
    assert (F1 : fits (YMap KYString YRaw) x) by (inversion FX; subst; assumption). assert (F2 : fits (YMap KYString YRaw) x') by (inversion FX'; subst; assumption).
    destruct (map_acc KYString YRaw v x y F1 S x' F2) as (b & S'). exists b. now apply st_map_sr.
  - apply ptr_acc; [exact (proj1 Wv)|now apply IHe].
  - intros x y FX H x' FX'. inversion H as [? ? ? NK| | | | | | | | | | | | | | | | | | | | | | | | i' v' l0 y' H1| |]; subst; [contradiction|]. assert (exists c, x' = MList c) as (c & ->) by (inversion FX'; eauto).
    assert (G : exists y', struct_rel (member V F i) v (MList c) y'); [|destruct G as (y' & G); exists y'; now apply st_struct].
    inversion H1 as [s ?|s l ? ? MR]; subst; [eexists; constructor|].
    assert (FW : forall lit w, In (lit, w) l -> within n w) by (intros lit w I; exact (proj2 (within_obj n _ lit w Wv I))).
    assert (G : exists y', members_rel (member V F i) l (MList c) y'); [|destruct G as (y' & G); exists y'; now constructor].
    clear H H1 Wv. revert FX FX' FW. generalize (MList c) as x'. revert MR. generalize (MList l0) as x. intros x MR.
    induction MR as [x|lit k w l x y0 z SM M MR IH]; intros x' FX FX' FW; [eexists; constructor|].
    assert (Ww : within n w) by (eapply FW; now left).
    assert (ST : fits (YStruct i) y0 /\ exists y', member V F i k w x' y' /\ fits (YStruct i) y').
    { inversion M as [? ? ? ? PK DD|? ? f ? ? ? PK AP]; subst; [split; [exact FX|exists x'; split; [now constructor|exact FX']]|].
      pose proof (picks_in V F _ _ _ PK) as INf. pose proof (et_path V ET i f INf) as LD.
      assert (PF : forall a b, fits (jf_ty f) a -> quoted (jf_quot f) (stores (jf_ty f)) w a b -> fits (jf_ty f) b) by (intros a b Fa Q; eapply quoted_fits; [exact (proj1 Ww)|exact Fa|exact Q]).
      split; [exact (path_fits _ _ _ _ LD _ _ _ FX AP PF)|].
      destruct (path_acc (quoted (jf_quot f) (stores (jf_ty f))) _ _ _ LD w x x' y0 FX FX') as (y' & AP'); [intros k0 s0; now apply (EX i f)|exact AP| |].
      - apply quoted_acc; [intros NQ; exact (ok_quot V OK i f INf NQ)|exact (proj1 Ww)|]. apply IHn; [now apply (NE i)|exact NE|exact Ww].
      - exists y'. split; [eapply me_field; eassumption|]. exact (path_fits _ _ _ _ LD _ _ _ FX' AP' PF). }
    destruct ST as (FY & y' & M' & FY'). destruct (IH y' FY FY') as (z' & MR'); [intros lit0 w0 I0; eapply FW; right; exact I0|]. exists z'. econstructor; eassumption.
Qed.
End Structs.
