(** Theorems about objects that act member by member: C95. *)
From Verif Require Import Bytes ParseModel IntModel StringModel EncModel DecModel SpecJson SpecString SpecDec DecLoops ParseFacts IntFacts DecFacts ExactFloat
  TypeModel SpecType SpecFit SpecSame SpecSpell SpecAgain SpecMerge NodeFacts TypeLoops TypeFacts TypeMain TypeSound TypeSafe PropsDec PropsType PropsCont WhereUnique AgainFacts PropsTrip PropsAgain.

Section Merge.
Context (V : tenv) (F : dflags).
Notation stores := (stores V F).
Lemma members_app {A} (M : bytes -> node -> A -> A -> Prop) l1 l2 x z : members_rel M (l1 ++ l2) x z <-> exists y, members_rel M l1 x y /\ members_rel M l2 y z.
Proof.
  revert x. induction l1 as [|[lit v] l1 IH]; intros x; cbn [app].
  - split; [intros H; exists x; split; [constructor|exact H]|]. intros (y & H1 & H2). now inversion H1; subst.
  - split.
    + intros H. inversion H as [|? k ? ? ? y ? SM M1 MR]; subst. apply IH in MR as (w & H1 & H2). exists w. split; [econstructor; eassumption|exact H2].
    + intros (w & H1 & H2). inversion H1 as [|? k ? ? ? y ? SM M1 MR]; subst. econstructor; [exact SM|exact M1|]. apply IH. eauto.
Qed.
Lemma struct_stays i l x y : env_names V -> (exists m, x = MList m) -> members_rel (member V F i) l x y -> exists m, y = MList m.
Proof.
  intros EN X M. induction M as [x|lit k v l x y z SM M MR IH]; [exact X|]. apply IH. inversion M as [? ? ? ? PK DD|? ? f ? ? ? PK AP]; subst; [exact X|].
  pose proof (en_inside V EN i f (picks_in V F _ _ _ PK)) as NE. inversion AP; subst; eauto. congruence.
Qed.
Lemma map_obj k e s l x z : stores (YMap k e) (ND s (HObj l)) (MMap x) z <-> exists kvs, Forall2 (entry (stores e) (zero V e) (key_means V k)) l kvs /\ z = MMap (Some (add_all mkey_eqb kvs (entries x))).
Proof.
  split.
  - intros H. inversion H as [| | | | | | | | | | | | | | | | | |? ? ? ? ? M| | | | | | | |]; subst. inversion M; subst. eauto.
  - intros (kvs & E & ->). apply st_map. now constructor.
Qed.
Lemma merge_nodes t : env_names V -> merges t -> forall s s1 s2 l1 l2 x z,
  stores t (ND s (HObj (l1 ++ l2))) x z <-> exists y, stores t (ND s1 (HObj l1)) x y /\ stores t (ND s2 (HObj l2)) y z.
Proof.
  intros EN. assert (MP : forall k e s s1 s2 l1 l2 x z, stores (YMap k e) (ND s (HObj (l1 ++ l2))) x z <-> exists y, stores (YMap k e) (ND s1 (HObj l1)) x y /\ stores (YMap k e) (ND s2 (HObj l2)) y z).
  { intros k e s s1 s2 l1 l2 x z. split.
    - intros H. assert (exists m, x = MMap m) as (m & ->) by (inversion H; eauto). apply map_obj in H as (kvs & E & ->).
      apply Forall2_app_inv_l in E as (k1 & k2 & E1 & E2 & ->). exists (MMap (Some (add_all mkey_eqb k1 (entries m)))). split; apply map_obj; [eauto|]. exists k2. split; [exact E2|]. cbn [entries]. now rewrite add_add.
    - intros (y & H1 & H2). assert (exists m, x = MMap m) as (m & ->) by (inversion H1; eauto). apply map_obj in H1 as (k1 & E1 & ->). apply map_obj in H2 as (k2 & E2 & ->).
      apply map_obj. exists (k1 ++ k2). split; [now apply Forall2_app|]. cbn [entries]. now rewrite add_add. }
  induction t as [| | | | | | | | | | |k e IHe|e IHe|k e IHe| | |e IHe|i| | |]; intros MT s s1 s2 l1 l2 x z; try contradiction.
  - apply MP.
  - split.
    + intros H. assert (S : stores (YMap KYString YIface) (ND s (HObj (l1 ++ l2))) x z) by (inversion H; subst; assumption). apply (MP _ _ _ s1 s2) in S as (y & H1 & H2). exists y. split; now apply st_map_si.
    + intros (y & H1 & H2). apply st_map_si. apply (MP _ _ s s1 s2). exists y. split; [inversion H1; subst; assumption|inversion H2; subst; assumption].
  - split.
    + intros H. assert (S : stores (YMap KYString YRaw) (ND s (HObj (l1 ++ l2))) x z) by (inversion H; subst; assumption). apply (MP _ _ _ s1 s2) in S as (y & H1 & H2). exists y. split; now apply st_map_sr.
    + intros (y & H1 & H2). apply st_map_sr. apply (MP _ _ s s1 s2). exists y. split; [inversion H1; subst; assumption|inversion H2; subst; assumption].
  - split.
    + intros H. inversion H as [| | | | | | | | | | | | | | | | | | | | | | |e0 v0 x0 y0 NN S| | |]; subst. apply (IHe MT s s1 s2) in S as (y & H1 & H2). exists (MPtr (Some y)). split; (apply st_ptr; [discriminate|assumption]).
    + intros (y & H1 & H2). inversion H1 as [| | | | | | | | | | | | | | | | | | | | | | |e0 v0 x0 y0 NN S1| | |]; subst. inversion H2 as [| | | | | | | | | | | | | | | | | | | | | | |e0 v0 x1 y1 NN' S2| | |]; subst.
      apply st_ptr; [discriminate|]. apply (IHe MT s s1 s2). eauto.
  - split.
    + intros H. inversion H as [| | | | | | | | | | | | | | | | | | | | | | | |i' v' l0 y' H1| |]; subst. inversion H1 as [|? ? ? ? MR]; subst. apply members_app in MR as (y & M1 & M2).
      assert (LY : exists ly, y = MList ly) by (eapply struct_stays; [exact EN| |exact M1]; eauto). destruct LY as (ly & ->).
      exists (MList ly). split; apply st_struct; now constructor.
    + intros (y & H1 & H2). inversion H1 as [| | | | | | | | | | | | | | | | | | | | | | | |i' v' l0 y' S1| |]; subst. inversion H2 as [| | | | | | | | | | | | | | | | | | | | | | | |i'' v'' l1' y'' S2| |]; subst.
      inversion S1; subst. inversion S2; subst. apply st_struct. constructor. apply members_app. eauto.
Qed.

(** * C95: an object does what its members do one after the other *)
Lemma nmembers_app m1 l1 m2 l2 : nmembers m1 l1 -> nmembers m2 l2 -> nmembers (m1 ++ 44 :: m2) (l1 ++ l2).
Proof.
  intros H H2. induction H as [w1 k w2 w3 v w4|w1 k w2 w3 v w4 t l W1 SL W2 W3 J W4 N IH]; cbn [app].
  - repeat (rewrite <- app_assoc; cbn [app]). now constructor.
  - repeat (rewrite <- app_assoc; cbn [app]). now constructor.
Qed.
Theorem C95_split t m1 a1 m2 a2 x z : env_ok V -> env_names V -> merges t -> jmembers m1 a1 -> jmembers m2 a2 ->
  unmarshal V F t (braced (m1 ++ 44 :: m2)) x = (None, z) <-> exists y, unmarshal V F t (braced m1) x = (None, y) /\ unmarshal V F t (braced m2) y = (None, z).
Proof.
  intros OK EN MT J1 J2. destruct (proj1 (proj2 (proj2 jvalue_node_all)) _ _ J1) as (l1 & _ & N1). destruct (proj1 (proj2 (proj2 jvalue_node_all)) _ _ J2) as (l2 & _ & N2).
  assert (U : forall m l x y, nmembers m l -> unmarshal V F t (braced m) x = (None, y) <-> stores t (ND (braced m) (HObj l)) x y).
  { intros m l x0 y0 N. rewrite <- (C42_accepts_iff V F t [] (ND (braced m) (HObj l)) [] x0 y0 OK ltac:(constructor) (N_obj _ _ N) ltac:(constructor)). cbn [app ntext]. now rewrite app_nil_r. }
  rewrite (U _ _ _ _ (nmembers_app _ _ _ _ N1 N2)), (merge_nodes t EN MT _ (braced m1) (braced m2)). split; intros (y & H1 & H2); exists y; (split; [apply (U _ _ _ _ N1)|apply (U _ _ _ _ N2)]); assumption.
Qed.
Lemma commas_members ms : Forall (fun m => exists kv, jmember m kv) ms -> ms <> [] -> exists l, jmembers (commas ms) l.
Proof.
  intros FM NE. induction FM as [|m ms (kv & J) FM IH]; [congruence|]. destruct ms as [|m2 ms]; [exists [kv]; now apply M_one|].
  destruct (IH ltac:(discriminate)) as (l & JM). exists (kv :: l). change (commas (m :: m2 :: ms)) with (m ++ 44 :: commas (m2 :: ms)). now apply M_cons.
Qed.
Theorem C95_one_by_one t ms x z : env_ok V -> env_names V -> merges t -> Forall (fun m => exists kv, jmember m kv) ms -> ms <> [] ->
  unmarshal V F t (braced (commas ms)) x = (None, z) <-> replay V F t (map braced ms) x = Some z.
Proof.
  intros OK EN MT FM NE.
  assert (R1 : forall b texts x z, replay V F t (b :: texts) x = Some z <-> exists y, unmarshal V F t b x = (None, y) /\ replay V F t texts y = Some z).
  { intros b texts x0 z0. cbn [replay]. split.
    - destruct (unmarshal V F t b x0) as [[e|] y] eqn:E; [discriminate|]. eauto.
    - intros (y & E & R). now rewrite E. }
  revert x. induction FM as [|m ms (kv & J) FM IH]; [congruence|]. intros x. cbn [map]. rewrite R1. destruct ms as [|m2 ms].
  - cbn [commas map replay]. split; [intros H; eauto|]. intros (y & H & [= <-]). exact H.
  - assert (JM : exists l, jmembers (commas (m2 :: ms)) l) by (apply commas_members; [exact FM|discriminate]).
    destruct JM as (l & JM). change (commas (m :: m2 :: ms)) with (m ++ 44 :: commas (m2 :: ms)). rewrite (C95_split t m [kv] (commas (m2 :: ms)) l x z OK EN MT (M_one _ _ J) JM).
    split; intros (y & H1 & H2); exists y; (split; [exact H1|]); now apply IH.
Qed.
End Merge.

(** Interfaces and raw messages are replaced by the last text. *)
Theorem C95_replaced_refuted : exists m1 a1 m2 a2 x y z z', jmembers m1 a1 /\ jmembers m2 a2 /\
  unmarshal ex_env ex_flags YIface (braced (m1 ++ 44 :: m2)) x = (None, z) /\ unmarshal ex_env ex_flags YIface (braced m1) x = (None, y) /\
  unmarshal ex_env ex_flags YIface (braced m2) y = (None, z') /\ z <> z'.
Proof.
  assert (J : forall c, 97 <= c < 123 -> jmembers (34 :: c :: bs """:true") [([34; c; 34], JTrue)]).
  { intros c B. apply M_one. change (34 :: c :: bs """:true") with ([] ++ [34; c; 34] ++ [] ++ 58 :: [] ++ bs "true" ++ []). apply M_intro; try constructor. exists [c]. split; [reflexivity|]. apply sb_char; [lia|lia|lia|constructor]. }
  exists (bs """a"":true"), [([34; 97; 34], JTrue)], (bs """b"":true"), [([34; 98; 34], JTrue)], (MIface JVNull). eexists _, _, _. split; [apply (J 97); lia|]. split; [apply (J 98); lia|].
  split; [vm_compute; reflexivity|]. split; [vm_compute; reflexivity|]. split; [vm_compute; reflexivity|]. vm_compute. discriminate.
Qed.

(** * A case *)
Example C95_case : env_ok ex_env /\ env_names ex_env /\ merges (YPtr (YStruct 0)) /\
  (forall c, 97 <= c < 123 -> exists kv, jmember (34 :: c :: bs """:true") kv) /\
  unmarshal ex_env ex_flags (YPtr (YStruct 0)) (bs "{""a"":7,""kids"":[{""a"":1}],""tags"":{""1"":2},""kids"":[{""name"":""n""},null]}") (MPtr None) =
  (None, match replay ex_env ex_flags (YPtr (YStruct 0)) (map braced [bs """a"":7"; bs """kids"":[{""a"":1}]"; bs """tags"":{""1"":2}"; bs """kids"":[{""name"":""n""},null]"]) (MPtr None) with Some z => z | None => MPtr None end).
Proof.
  split; [exact ex_env_ok|]. split; [exact ex_names|]. split; [exact I|]. split; [|vm_compute; reflexivity].
  intros c B. exists ([34; c; 34], JTrue). change (34 :: c :: bs """:true") with ([] ++ [34; c; 34] ++ [] ++ 58 :: [] ++ bs "true" ++ []). apply M_intro; try constructor.
  exists [c]. split; [reflexivity|]. apply sb_char; [lia|lia|lia|constructor].
Qed.
Print Assumptions C95_split.
Print Assumptions C95_one_by_one.
Print Assumptions C95_replaced_refuted.
