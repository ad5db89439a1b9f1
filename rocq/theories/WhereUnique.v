(** The place SpecWhere.v describes is unique, and where there is one the value
    cannot be stored. *)
From Verif Require Import Bytes SpecJson SpecString SpecDec IntModel EncModel DecModel DecLoops DecFacts TypeModel SpecType NodeFacts TypeLoops TypeFacts TypeMain
  WhereModel SpecWhere WhereFacts.

(** [B] blames at most one place of [v], and only if [v] is not stored. *)
Definition one_place {A P} (R : A -> Prop) (B : P -> Prop) : Prop :=
  forall p, B p -> (forall y, ~ R y) /\ forall q, B q -> q = p.

Lemma nelems_small s l : nelems s l -> Forall (fun v => jnode v /\ (length (ntext v) <= length s)%nat) l.
Proof.
  induction 1 as [w1 v w2 W1 J W2|w1 v w2 t l W1 J W2 N IH].
  - repeat constructor; [exact J|rewrite !app_length; lia].
  - constructor; [split; [exact J|rewrite !app_length; lia]|]. eapply Forall_impl; [|exact IH]. intros a [Ja La]. split; [exact Ja|]. rewrite !app_length. cbn [length]. lia.
Qed.
Lemma nmembers_small s l : nmembers s l -> Forall (fun kv => string_lit (fst kv) /\ jnode (snd kv) /\ (length (ntext (snd kv)) <= length s)%nat) l.
Proof.
  induction 1 as [w1 k w2 w3 v w4 W1 SL W2 W3 J W4|w1 k w2 w3 v w4 t l W1 SL W2 W3 J W4 N IH].
  - repeat constructor; [exact SL|exact J|cbn [snd]; rewrite !app_length; cbn [length]; rewrite !app_length; lia].
  - constructor; [split; [exact SL|split; [exact J|cbn [snd]; rewrite !app_length; cbn [length]; rewrite !app_length; lia]]|].
    eapply Forall_impl; [|exact IH]. intros a (Sa & Ja & La). split; [exact Sa|]. split; [exact Ja|]. rewrite !app_length. cbn [length]. rewrite !app_length. cbn [length]. lia.
Qed.
Lemma arr_small s l : jnode (ND s (HArr l)) -> Forall (fun v => jnode v /\ (length (ntext v) < length s)%nat) l.
Proof.
  inversion 1; subst; [constructor|]. eapply Forall_impl; [|eapply nelems_small; eassumption]. intros a [Ja La]. split; [exact Ja|]. cbn [length]. rewrite app_length. cbn [length]. lia.
Qed.
Lemma obj_small s l : jnode (ND s (HObj l)) -> Forall (fun kv => string_lit (fst kv) /\ jnode (snd kv) /\ (length (ntext (snd kv)) < length s)%nat) l.
Proof.
  inversion 1; subst; [constructor|]. eapply Forall_impl; [|eapply nmembers_small; eassumption]. intros a (Sa & Ja & La). split; [exact Sa|]. split; [exact Ja|]. cbn [length]. rewrite app_length. cbn [length]. lia.
Qed.

Section Containers.
Context {A P : Type} (into : seg -> P -> P) (INJ : forall i j p q, into (SIdx i) p = into (SIdx j) q -> i = j /\ p = q)
  (R : node -> A -> A -> Prop) (B : node -> A -> P -> Prop) (zero : A).

Lemma slice_fault_cons v l d p : slice_fault into R B zero (v :: l) d p ->
  (exists q, p = into (SIdx 0) q /\ B v (hd zero d) q) \/
  (exists i q y, p = into (SIdx (S i)) q /\ R v (hd zero d) y /\ slice_fault into R B zero l (tl d) (into (SIdx i) q)).
Proof.
  intros H. remember (v :: l) as vl. destruct H as [l1 v0 l2 d ys p O Bv]. destruct l1 as [|v1 l1]; cbn [app] in Heqvl; injection Heqvl as E1 E2; subst.
  - left. exists p. split; [reflexivity|]. destruct d; exact Bv.
  - right. inversion O; subst. exists (length l1), p, y. split; [reflexivity|]. split; [assumption|]. apply (sf into R B zero l1 v0 l2 (tl d) ys0); [assumption|].
    cbn [length nth] in Bv. destruct d; cbn [tl nth] in *; [destruct (length l1); exact Bv|exact Bv].
Qed.
Lemma slice_one l : Forall (fun v => forall x, one_place (R v x) (B v x)) l ->
  forall d, one_place (onto R zero l d) (slice_fault into R B zero l d).
Proof.
  induction 1 as [|v l H Hl IH]; intros d p HP.
  { inversion HP as [l1 ? ? ? ? ? ? ? E]. destruct l1; discriminate. }
  destruct (slice_fault_cons _ _ _ _ HP) as [(q & -> & Bq)|(i & q & y & -> & Rv & Sq)].
  - destruct (H _ _ Bq) as [NR U]. split.
    + intros ys O. inversion O; subst. eapply NR; eassumption.
    + intros q' HQ. destruct (slice_fault_cons _ _ _ _ HQ) as [(q1 & -> & B1)|(i & q1 & y & -> & Rv & Sq)]; [rewrite (U _ B1); reflexivity|destruct (NR _ Rv)].
  - destruct (IH _ _ Sq) as [NR U]. split.
    + intros ys O. inversion O; subst. eapply NR; eassumption.
    + intros q' HQ. destruct (slice_fault_cons _ _ _ _ HQ) as [(q1 & -> & B1)|(i1 & q1 & y1 & -> & Rv1 & Sq1)]; [destruct (proj1 (H _ _ B1) _ Rv)|].
      destruct (INJ _ _ _ _ (U _ Sq1)) as [-> ->]. reflexivity.
Qed.

Lemma array_fault_cons v l d p : array_fault into R B (v :: l) d p -> exists x d', d = x :: d' /\
  ((exists q, p = into (SIdx 0) q /\ B v x q) \/
   (exists i q y, p = into (SIdx (S i)) q /\ R v x y /\ array_fault into R B l d' (into (SIdx i) q))).
Proof.
  intros H. remember (v :: l) as vl. destruct H as [l1 v0 l2 d1 ys x d2 p E O Bv]. destruct l1 as [|v1 l1]; cbn [app] in Heqvl; injection Heqvl as E1 E2; subst.
  - destruct d1; [|discriminate]. exists x, d2. split; [reflexivity|]. left. eauto.
  - destruct d1 as [|x1 d1]; [discriminate|]. injection E as E. exists x1, (d1 ++ x :: d2). split; [reflexivity|]. right. inversion O; subst.
    exists (length l1), p, y. split; [reflexivity|]. split; [assumption|]. eapply af; eassumption.
Qed.
Lemma array_one l : Forall (fun v => forall x, one_place (R v x) (B v x)) l ->
  forall d, one_place (along R l d) (array_fault into R B l d).
Proof.
  induction 1 as [|v l H Hl IH]; intros d p HP.
  { inversion HP as [l1 ? ? ? ? ? ? ? ? ? ? E]. destruct l1; discriminate. }
  destruct (array_fault_cons _ _ _ _ HP) as (x & d' & -> & [(q & -> & Bq)|(i & q & y & -> & Rv & Sq)]).
  - destruct (H _ _ Bq) as [NR U]. split.
    + intros ys O. inversion O; subst. eapply NR; eassumption.
    + intros q' HQ. destruct (array_fault_cons _ _ _ _ HQ) as (x' & d1 & [= <- <-] & [(q1 & -> & B1)|(i & q1 & y & -> & Rv & Sq)]); [rewrite (U _ B1); reflexivity|destruct (NR _ Rv)].
  - destruct (IH _ _ Sq) as [NR U]. split.
    + intros ys O. inversion O; subst. eapply NR; eassumption.
    + intros q' HQ. destruct (array_fault_cons _ _ _ _ HQ) as (x' & d1 & [= <- <-] & [(q1 & -> & B1)|(i1 & q1 & y1 & -> & Rv1 & Sq1)]); [destruct (proj1 (H _ _ B1) _ Rv)|].
      destruct (INJ _ _ _ _ (U _ Sq1)) as [-> ->]. reflexivity.
Qed.

Context {K : Type} (name : K -> mkey) (keym : bytes -> K -> Prop).
Lemma map_fault_cons lit v l p : map_fault into R B zero name keym ((lit, v) :: l) p ->
  (exists k q, p = into (SKey (name k)) q /\ keym lit k /\ B v zero q) \/
  (exists k y, keym lit k /\ R v zero y /\ map_fault into R B zero name keym l p).
Proof.
  intros H. remember ((lit, v) :: l) as vl. destruct H as [l1 lit0 v0 l2 kvs k p O Km Bv]. destruct l1 as [|[lit1 v1] l1]; cbn [app] in Heqvl; injection Heqvl as E1 E2 E3; subst.
  - left. eauto.
  - right. inversion O as [|? kv ? kvs' F1 F2]; subst. destruct kv as [k1 y1], F1 as [F1 F3]. cbn [fst snd] in *. exists k1, y1. split; [exact F1|]. split; [exact F3|]. econstructor; eassumption.
Qed.
Lemma map_one l : Forall (fun kv => (forall k k', keym (fst kv) k -> keym (fst kv) k' -> k' = k) /\ one_place (R (snd kv) zero) (B (snd kv) zero)) l ->
  one_place (Forall2 (entry R zero keym) l) (map_fault into R B zero name keym l).
Proof.
  induction 1 as [|[lit v] l [HK H] Hl IH]; intros p HP.
  { inversion HP as [l1 ? ? ? ? ? ? ? ? ? E]. destruct l1; discriminate. }
  cbn [fst snd] in *.
  destruct (map_fault_cons _ _ _ _ HP) as [(k & q & -> & Km & Bq)|(k & y & Km & Rv & Sq)].
  - destruct (H _ Bq) as [NR U]. split.
    + intros ys O. inversion O as [|? ? ? ? [_ E]]; subst. eapply NR, E.
    + intros q' HQ. destruct (map_fault_cons _ _ _ _ HQ) as [(k1 & q1 & -> & Km1 & B1)|(k1 & y & Km1 & Rv & Sq)]; [rewrite (U _ B1), (HK _ _ Km Km1); reflexivity|destruct (NR _ Rv)].
  - destruct (IH _ Sq) as [NR U]. split.
    + intros ys O. inversion O; subst. eapply NR; eassumption.
    + intros q' HQ. destruct (map_fault_cons _ _ _ _ HQ) as [(k1 & q1 & -> & Km1 & B1)|(k1 & y1 & Km1 & Rv1 & Sq1)]; [destruct (proj1 (H _ B1) _ Rv)|].
      exact (U _ Sq1).
Qed.
End Containers.

Section Structs.
Context {A P : Type} (into : seg -> P -> P) (M : bytes -> node -> A -> A -> Prop) (B : bytes -> node -> A -> P -> Prop).
Lemma struct_fault_cons lit v l x p : struct_fault into M B ((lit, v) :: l) x p -> exists k, str_means lit k /\
  ((exists q, p = into (SName k) q /\ B k v x q) \/ (exists y, M k v x y /\ struct_fault into M B l y p)).
Proof.
  intros H. remember ((lit, v) :: l) as vl. destruct H as [l1 lit0 k v0 l2 x y p O Km Bv]. destruct l1 as [|[lit1 v1] l1]; cbn [app] in Heqvl; injection Heqvl as E1 E2 E3; subst.
  - exists k. split; [exact Km|]. left. inversion O; subst. eauto.
  - inversion O as [|? k1 ? ? ? y1 ? S1 M1 R1]; subst. exists k1. split; [exact S1|]. right. exists y1. split; [exact M1|]. econstructor; eassumption.
Qed.
Lemma struct_one l : Forall (fun kv => forall k x, (forall y y', M k (snd kv) x y -> M k (snd kv) x y' -> y' = y) /\ one_place (M k (snd kv) x) (B k (snd kv) x)) l ->
  forall x, one_place (members_rel M l x) (struct_fault into M B l x).
Proof.
  induction 1 as [|[lit v] l H Hl IH]; intros x p HP.
  { inversion HP as [l1 ? ? ? ? ? ? ? ? ? ? E]. destruct l1; discriminate. }
  cbn [snd] in *. destruct (struct_fault_cons _ _ _ _ _ HP) as (k & Km & C). destruct (H k x) as [HD HO].
  destruct C as [(q & -> & Bq)|(y & My & Sq)].
  - destruct (HO _ Bq) as [NR U]. split.
    + intros z O. inversion O as [|? k1 ? ? ? y1 ? S1 M1 R1]; subst. rewrite (str_means_det _ _ _ S1 Km) in M1. eapply NR, M1.
    + intros q' HQ. destruct (struct_fault_cons _ _ _ _ _ HQ) as (k1 & K1 & C). rewrite (str_means_det _ _ _ K1 Km) in *. destruct C as [(q1 & -> & B1)|(y & My & Sq)]; [rewrite (U _ B1); reflexivity|destruct (NR _ My)].
  - destruct (IH _ _ Sq) as [NR U]. split.
    + intros z O. inversion O as [|? k1 ? ? ? y1 ? S1 M1 R1]; subst. rewrite (str_means_det _ _ _ S1 Km) in M1. rewrite (HD _ _ My M1) in R1. eapply NR, R1.
    + intros q' HQ. destruct (struct_fault_cons _ _ _ _ _ HQ) as (k1 & K1 & C). rewrite (str_means_det _ _ _ K1 Km) in *. destruct C as [(q1 & -> & B1)|(y1 & My1 & Sq1)]; [destruct (proj1 (HO _ B1) _ My)|].
      rewrite (HD _ _ My My1) in Sq1. exact (U _ Sq1).
Qed.
End Structs.

(** * interface{} *)
Lemma inside_inj t s s' p q : inside t s p = inside t s' q -> s = s' /\ p = q.
Proof. destruct p, q. intros [= -> -> -> -> ->]. auto. Qed.
Lemma inside_idx t i j p q : inside t (SIdx i) p = inside t (SIdx j) q -> i = j /\ p = q.
Proof. intros H. apply inside_inj in H as [[= ->] ->]. auto. Qed.

Section Iface.
Context (num : bytes -> jv -> Prop).
Lemma wrong_arr_cons a l p : wrong num (JArr (a :: l)) p ->
  (exists q, p = inside (YSlice YIface) (SIdx 0) q /\ wrong num a q) \/
  (exists i q v, p = inside (YSlice YIface) (SIdx (S i)) q /\ ival num a v /\ wrong num (JArr l) (inside (YSlice YIface) (SIdx i) q)).
Proof.
  intros H. remember (JArr (a :: l)) as vl. destruct H as [s0 N0|l1 a0 l2 p F W|]; try discriminate. injection Heqvl as E. destruct l1 as [|a1 l1]; cbn [app] in E; injection E as E1 E2; subst.
  - left. eauto.
  - right. inversion F as [|? ? [v Hv] F2]; subst. exists (length l1), p, v. split; [reflexivity|]. split; [exact Hv|]. constructor; assumption.
Qed.
Lemma wrong_obj_cons lit a l p : wrong num (JObj ((lit, a) :: l)) p ->
  (exists k q, p = inside YMapSI (SKey (MKStr k)) q /\ str_means lit k /\ wrong num a q) \/
  (exists v, ival num a v /\ wrong num (JObj l) p).
Proof.
  intros H. remember (JObj ((lit, a) :: l)) as vl. destruct H as [s0 N0| |l1 lit0 k a0 l2 p F SM W]; try discriminate. injection Heqvl as E. destruct l1 as [|[lit1 a1] l1]; cbn [app] in E; injection E as E1 E2 E3; subst.
  - left. eauto.
  - right. inversion F as [|? ? [v Hv] F2]; subst. exists v. split; [exact Hv|]. constructor; assumption.
Qed.
Lemma wrong_one a : one_place (ival num a) (wrong num a).
Proof.
  induction a as [| | |s|s|l IH|l IH] using jast_ind'; try (intros p H; inversion H; fail).
  - intros p H. inversion H; subst. split; [intros y Y; inversion Y; subst; eapply H1; eassumption|]. intros q Q. inversion Q; subst. reflexivity.
  - enough (X : one_place (Forall2 (ival num) l) (wrong num (JArr l))).
    { intros p H. destruct (X p H) as [X1 X2]. split; [|exact X2]. intros y Y. inversion Y; subst. eapply X1; eassumption. }
    induction IH as [|a l H Hl IH]; intros p HP.
    { inversion HP as [|l1 ? ? ? ? ? E|]. destruct l1; discriminate. }
    destruct (wrong_arr_cons _ _ _ HP) as [(q & -> & Bq)|(i & q & v & -> & Rv & Sq)].
    + destruct (H _ Bq) as [NR U]. split.
      * intros ys O. inversion O; subst. eapply NR; eassumption.
      * intros q' HQ. destruct (wrong_arr_cons _ _ _ HQ) as [(q1 & -> & B1)|(i & q1 & y & -> & Rv & Sq)]; [rewrite (U _ B1); reflexivity|destruct (NR _ Rv)].
    + destruct (IH _ Sq) as [NR U]. split.
      * intros ys O. inversion O; subst. eapply NR; eassumption.
      * intros q' HQ. destruct (wrong_arr_cons _ _ _ HQ) as [(q1 & -> & B1)|(i1 & q1 & y1 & -> & Rv1 & Sq1)]; [destruct (proj1 (H _ B1) _ Rv)|].
        destruct (inside_inj _ _ _ _ _ (U _ Sq1)) as [E ->]. injection E as ->. reflexivity.
  - enough (X : one_place (Forall2 (fun la kv => str_means (fst la) (fst kv) /\ ival num (snd la) (snd kv)) l) (wrong num (JObj l))).
    { intros p H. destruct (X p H) as [X1 X2]. split; [|exact X2]. intros y Y. inversion Y; subst. eapply X1; eassumption. }
    induction IH as [|[lit a] l H Hl IH]; intros p HP.
    { inversion HP as [| |l1 ? ? ? ? ? ? ? ? E]. destruct l1; discriminate. }
    cbn [snd] in H. destruct (wrong_obj_cons _ _ _ _ HP) as [(k & q & -> & SM & Bq)|(v & Rv & Sq)].
    + destruct (H _ Bq) as [NR U]. split.
      * intros ys O. inversion O as [|? ? ? ? [_ E]]; subst. eapply NR, E.
      * intros q' HQ. destruct (wrong_obj_cons _ _ _ _ HQ) as [(k1 & q1 & -> & SM1 & B1)|(y & Rv & Sq)]; [rewrite (U _ B1), (str_means_det _ _ _ SM1 SM); reflexivity|destruct (NR _ Rv)].
    + destruct (IH _ Sq) as [NR U]. split.
      * intros ys O. inversion O; subst. eapply NR; eassumption.
      * intros q' HQ. destruct (wrong_obj_cons _ _ _ _ HQ) as [(k1 & q1 & -> & SM1 & B1)|(y1 & Rv1 & Sq1)]; [destruct (proj1 (H _ B1) _ Rv)|exact (U _ Sq1)].
Qed.
End Iface.

Section TypesU.
Context (V : tenv) (F : dflags) (OK : env_ok V).
Notation stores := (SpecType.stores V F).
Notation faults := (SpecWhere.faults V F).

Lemma cut_uniq {A} (a a' : list A) x x' b b' : length a = length a' -> a ++ x :: b = a' ++ x' :: b' -> x = x'.
Proof.
  revert a'. induction a as [|c a IH]; intros [|c' a'] L E; try discriminate L; cbn [app] in E; injection E as E1 E2; [exact E1|]. injection L as L. eapply IH; eassumption.
Qed.
Lemma reach_uniq p x y : reach V p x y -> forall y', reach V p x y' -> y' = y.
Proof.
  induction 1 as [x|l1 x l2 p y H IH|l1 x l2 s u p y H IH|l1 l2 s p y H IH]; intros y' R; inversion R; subst; try reflexivity;
    match goal with E : ?a ++ _ :: _ = ?b ++ _ :: _, L : length ?a = length ?b |- _ => pose proof (cut_uniq _ _ _ _ _ _ L E) as X end;
    try discriminate X; try (injection X as ->); subst; auto.
Qed.
Lemma at_path_reach R p v x y : at_path V R p v x y -> exists x0 y0, reach V p x x0 /\ R v x0 y0.
Proof.
  induction 1 as [v x y H|l1 x l2 p v y H (x0 & y0 & E1 & E2)|l1 x l2 s u p v y H (x0 & y0 & E1 & E2)|l1 l2 s p v y H (x0 & y0 & E1 & E2)].
  - exists x, y. split; [constructor|exact H].
  - exists x0, y0. split; [constructor; exact E1|exact E2].
  - exists x0, y0. split; [constructor; exact E1|exact E2].
  - exists x0, y0. split; [constructor; exact E1|exact E2].
Qed.
Lemma meets_det {A} (D : bytes -> A -> dres A) R nd x y y' : meets D R nd x -> R nd x y -> R nd x y' -> y' = y.
Proof.
  intros H S1 S2. destruct (H [] (stop_any nd [] I)) as [(r1 & z & _ & _ & _ & U)|(r1 & e & z & _ & _ & N)]; [|destruct (N _ S1)].
  rewrite (U _ S1), (U _ S2). reflexivity.
Qed.
Lemma stores_det t nd x y y' : jnode nd -> stores t nd x y -> stores t nd x y' -> y' = y.
Proof. intros J. eapply meets_det, (dec_ty_meets V F OK (S (length (ntext nd))) t nd x J). lia. Qed.
Lemma picks_in fs k f : picks V F fs k (Some f) -> In f fs.
Proof. intros PK. pose proof (picks_uniq V F _ _ _ _ PK (find_field_picks V F fs k)) as E. eapply find_field_picks_in. symmetry. exact E. Qed.
Lemma member_det i k nd x y y' : jnode nd -> member V F i k nd x y -> member V F i k nd x y' -> y' = y.
Proof.
  intros J S1 S2. inversion S1 as [? ? ? ? PK1 D1|? ? f ? ? ? PK1 A1]; subst; inversion S2 as [? ? ? ? PK2 D2|? ? f2 ? ? ? PK2 A2]; subst;
    pose proof (picks_uniq V F _ _ _ _ PK1 PK2) as E; try discriminate E; [reflexivity|]. injection E as <-.
  revert A1 A2. eapply meets_det. apply path_meets. intros x0. apply field_meets; [exact OK|exact J| |].
  - intros _. apply (dec_ty_meets V F OK (S (length (ntext nd)))); [exact J|lia].
  - intros Q. eapply (ok_quot V OK); [|exact Q]. eapply picks_in, PK1.
Qed.

Lemma field_one i k nd x : (forall t x, one_place (stores t nd x) (faults t nd x)) -> one_place (member V F i k nd x) (at_field V F i k nd x).
Proof.
  intros H p HP. destruct HP as [i k f nd x y p PK Q RE FA|i k f nd x y PK Q RE NS].
  - destruct (H _ _ _ FA) as [NR U]. split.
    + intros z Z. inversion Z as [? ? ? ? PK1 D1|? ? f1 ? ? ? PK1 A1]; subst; pose proof (picks_uniq V F _ _ _ _ PK PK1) as E; [discriminate E|]. injection E as <-.
      destruct (at_path_reach _ _ _ _ _ A1) as (x0 & y0 & R1 & Q1). rewrite (reach_uniq _ _ _ RE _ R1) in Q1. inversion Q1; subst; [|congruence..]. eapply NR; eassumption.
    + intros q HQ. inversion HQ as [? ? f1 ? ? y1 ? PK1 Q1 R1 F1|? ? f1 ? ? y1 PK1 Q1 R1 F1]; subst; pose proof (picks_uniq V F _ _ _ _ PK PK1) as E; injection E as <-; [|congruence].
      rewrite (reach_uniq _ _ _ RE _ R1) in F1. exact (U _ F1).
  - split.
    + intros z Z. inversion Z as [? ? ? ? PK1 D1|? ? f1 ? ? ? PK1 A1]; subst; pose proof (picks_uniq V F _ _ _ _ PK PK1) as E; [discriminate E|]. injection E as <-.
      destruct (at_path_reach _ _ _ _ _ A1) as (x0 & y0 & R1 & Q1). rewrite (reach_uniq _ _ _ RE _ R1) in Q1. exact (NS _ Q1).
    + intros q HQ. inversion HQ as [? ? f1 ? ? y1 ? PK1 Q1 R1 F1|? ? f1 ? ? y1 PK1 Q1 R1 F1]; subst; pose proof (picks_uniq V F _ _ _ _ PK PK1) as E; injection E as <-; [congruence|reflexivity].
Qed.

Ltac leaf0 p HP q HQ := intros p HP; inversion HP; subst; (split; [assumption|]); intros q HQ; inversion HQ; subst; reflexivity.
Tactic Notation "leaf" := let p := fresh "p" in let HP := fresh "HP" in let q := fresh "q" in let HQ := fresh "HQ" in leaf0 p HP q HQ.
Ltac nopen := match goal with H : ~ opens _ _ _ |- _ => exfalso; apply H; first [exact I|reflexivity] end.
Ltac sv Y := inversion Y; subst; try match goal with H : null_keeps _ |- _ => destruct H end.
Lemma map_kind_one ct k e s l : jnode (ND s (HObj l)) -> (forall nd x, jnode nd -> (length (ntext nd) < length s)%nat -> one_place (stores e nd x) (faults e nd x)) ->
  one_place (Forall2 (entry (stores e) (zero V e) (key_means V k)) l) (map_fault (inside ct) (stores e) (faults e) (zero V e) (fun k => k) (key_means V k) l).
Proof.
  intros J H. pose proof (obj_small s l J) as SM. apply map_one. eapply Forall_impl; [|exact SM]. intros [lit v] (SL & Jv & Lv). cbn [fst snd] in *. split; [|apply H; assumption].
  intros a b Ka Kb. destruct (key_means_meets V OK k lit SL []) as [(z & _ & _ & U)|(r1 & e1 & z & _ & _ & N)]; [rewrite (U _ Ka), (U _ Kb); reflexivity|destruct (N _ Ka)].
Qed.
Lemma faults_one n : forall t nd x, jnode nd -> (length (ntext nd) < n)%nat -> one_place (stores t nd x) (faults t nd x).
Proof.
  induction n as [|n IHn]; intros t nd x J HL; [lia|]. revert nd x J HL.
  assert (IF : forall nd x, one_place (stores YIface nd x) (faults YIface nd x)).
  { intros nd x p HP. inversion HP as [? ? ? NO NS| | | | | | |? v ? W| | |]; subst; [nopen|].
    destruct (wrong_one _ _ _ W) as [X1 X2]. split.
    - intros y Y. sv Y. eapply X1; eassumption.
    - intros q HQ. inversion HQ as [? ? ? NO NS| | | | | | |? v' ? W'| | |]; subst; [nopen|apply X2, W']. }
  induction t; intros nd x J HL; try (leaf; fail).
  - (* bytes *)
    intros p HP. inversion HP as [? ? ? NO NS| |s l d ? SF| | | | | | | |]; subst.
    { split; [exact NS|]. intros q HQ. inversion HQ; subst; [reflexivity|nopen]. }
    assert (X : forall d, one_place (onto (fun v x y => stores (YInt TUint8) v (MInt x) (MInt y)) 0 l d) (slice_fault (inside YBytes) (fun v x y => stores (YInt TUint8) v (MInt x) (MInt y)) (fun v x => faults (YInt TUint8) v (MInt x)) 0 l d)).
    { apply slice_one; [apply inside_idx|]. eapply Forall_impl; [|exact (arr_small s l J)]. intros v [Jv Lv] z q HQ. inversion HQ; subst. split; [auto|]. intros q' HQ'. inversion HQ'; subst. reflexivity. }
    destruct (X _ _ SF) as [X1 X2]. split.
    + intros y Y. inversion Y; subst. match goal with M : slice_rel _ _ _ _ _ |- _ => inversion M; subst; eapply X1; eassumption end.
    + intros q HQ. inversion HQ; subst; [nopen|]. apply X2. assumption.
  - apply IF.
  - (* other interfaces *)
    intros p HP. inversion HP as [? ? ? NO NS| | | | | | | |? ? NN W| |]; subst.
    + split; [exact NS|]. intros q HQ. inversion HQ as [| | | | | | | |? ? NN W| |]; subst; [reflexivity|nopen].
    + destruct (wrong_one _ _ _ W) as [X1 X2]. split.
      * intros y Y. sv Y; [apply NN; reflexivity|eapply X1; eassumption].
      * intros q HQ. inversion HQ as [? ? ? NO NS| | | | | | | |? ? NN' W'| |]; subst; [nopen|apply X2, W'].
  - (* arrays *)
    intros p HP. inversion HP as [? ? ? NO NS| | |? ? s l d0 ? LE SF| | | | | | |]; subst.
    { split; [exact NS|]. intros q HQ. inversion HQ; subst; [reflexivity|nopen]. }
    assert (X : forall d, one_place (along (stores t) l d) (array_fault (inside (YArray (length d0) t)) (stores t) (faults t) l d)).
    { apply array_one; [apply inside_idx|]. eapply Forall_impl; [|exact (arr_small s l J)]. intros v [Jv Lv] z. apply IHt; [exact Jv|cbn [ntext] in HL; lia]. }
    destruct (X _ _ SF) as [X1 X2]. split.
    + intros y Y. sv Y. match goal with M : array_rel _ _ _ _ |- _ => inversion M; subst; eapply X1; eassumption end.
    + intros q HQ. inversion HQ; subst; [nopen|]. apply X2. assumption.
  - (* slices *)
    intros p HP. inversion HP as [? ? ? NO NS|? s l d ? SF| | | | | | | | |]; subst.
    { split; [exact NS|]. intros q HQ. inversion HQ; subst; [reflexivity|nopen]. }
    assert (X : forall d, one_place (onto (stores t) (zero V t) l d) (slice_fault (inside (YSlice t)) (stores t) (faults t) (zero V t) l d)).
    { apply slice_one; [apply inside_idx|]. eapply Forall_impl; [|exact (arr_small s l J)]. intros v [Jv Lv] z. apply IHt; [exact Jv|cbn [ntext] in HL; lia]. }
    destruct (X _ _ SF) as [X1 X2]. split.
    + intros y Y. sv Y. match goal with M : slice_rel _ _ _ _ _ |- _ => inversion M; subst; eapply X1; eassumption end.
    + intros q HQ. inversion HQ; subst; [nopen|]. apply X2. assumption.
  - (* maps *)
    intros p HP. inversion HP; subst; [|match goal with M : map_fault _ _ _ _ _ _ _ _ |- _ => rename M into SF end].
    { split; [assumption|]. intros q HQ. inversion HQ; subst; [reflexivity|nopen]. }
    destruct (map_kind_one (YMap k t) k t _ _ J ltac:(intros nd' x' J' L'; apply IHt; [exact J'|cbn [ntext] in HL; lia]) _ SF) as [X1 X2]. split.
    + intros y Y. sv Y; try match goal with M : stores (YMap _ _) _ _ _ |- _ => inversion M; subst end; match goal with M : map_rel _ _ _ _ _ _ _ |- _ => inversion M; subst; eapply X1; eassumption end.
    + intros q HQ. inversion HQ; subst; [nopen|]. apply X2. assumption.
  - (* map[string]interface{} *)
    intros p HP. inversion HP; subst; [|match goal with M : map_fault _ _ _ _ _ _ _ _ |- _ => rename M into SF end].
    { split; [assumption|]. intros q HQ. inversion HQ; subst; [reflexivity|nopen]. }
    destruct (map_kind_one (YMapSI) KYString YIface _ _ J ltac:(intros; apply IF) _ SF) as [X1 X2]. split.
    + intros y Y. sv Y; try match goal with M : stores (YMap _ _) _ _ _ |- _ => inversion M; subst end; match goal with M : map_rel _ _ _ _ _ _ _ |- _ => inversion M; subst; eapply X1; eassumption end.
    + intros q HQ. inversion HQ; subst; [nopen|]. apply X2. assumption.
  - (* map[string]RawMessage *)
    intros p HP. inversion HP; subst; [|match goal with M : map_fault _ _ _ _ _ _ _ _ |- _ => rename M into SF end].
    { split; [assumption|]. intros q HQ. inversion HQ; subst; [reflexivity|nopen]. }
    destruct (map_kind_one (YMapSR) KYString YRaw _ _ J ltac:(intros; leaf) _ SF) as [X1 X2]. split.
    + intros y Y. sv Y; try match goal with M : stores (YMap _ _) _ _ _ |- _ => inversion M; subst end; match goal with M : map_rel _ _ _ _ _ _ _ |- _ => inversion M; subst; eapply X1; eassumption end.
    + intros q HQ. inversion HQ; subst; [nopen|]. apply X2. assumption.
  - (* pointers *)
    intros p HP. inversion HP as [? ? ? NO NS| | | | | | | | |? ? d ? NN FA|]; subst; [nopen|].
    destruct (IHt _ _ J HL _ FA) as [X1 X2]. split.
    + intros y Y. sv Y; try (apply NN; reflexivity). eapply X1; eassumption.
    + intros q HQ. inversion HQ; subst; [nopen|]. apply X2. assumption.
  - (* structs *)
    intros p HP. inversion HP as [? ? ? NO NS| | | | | | | | | |? s l d ? SF]; subst.
    { split; [exact NS|]. intros q HQ. inversion HQ; subst; [reflexivity|nopen]. }
    assert (X : forall d, one_place (members_rel (member V F i) l d) (struct_fault (inside (YStruct i)) (member V F i) (at_field V F i) l d)).
    { apply struct_one. eapply Forall_impl; [|exact (obj_small s l J)]. intros [lit v] (SL & Jv & Lv) k z. cbn [snd] in *. split; [intros y y'; apply member_det, Jv|].
      apply field_one. intros t' x'. apply IHn; [exact Jv|cbn [ntext] in HL; lia]. }
    destruct (X _ _ SF) as [X1 X2]. split.
    + intros y Y. sv Y. match goal with M : struct_rel _ _ _ _ |- _ => inversion M; subst; eapply X1; eassumption end.
    + intros q HQ. inversion HQ; subst; [nopen|]. apply X2. assumption.
Qed.
End TypesU.
