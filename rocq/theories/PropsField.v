(** Theorems about how the members of an object reach the fields of a struct:
    C44 to C47. *)
From Verif Require Import Bytes AsciiModel ParseModel IntModel StringModel EncModel DecModel SpecJson SpecString SpecDec ParseFacts IntFacts DecFacts
  TypeModel SpecType SpecFit SpecField NodeFacts TypeLoops TypeFacts TypeMain TypeSound TypeSafe PropsAscii PropsType.

(** * C44: members without a field *)
Section Unknown.
Context (V : tenv) (F : dflags).

(** No field has this name, not even up to case. *)
Definition unknown (i : nat) (k : bytes) : Prop := picks V F (v_flds V i) k None.

Lemma members_app (M : bytes -> node -> mem -> mem -> Prop) l1 l2 x z :
  members_rel M (l1 ++ l2) x z <-> exists y, members_rel M l1 x y /\ members_rel M l2 y z.
Proof.
  revert x. induction l1 as [|a l1 IH]; intros x; cbn [app].
  - split; [intros H; exists x; split; [constructor|exact H]|]. intros (y & H1 & H2). inversion H1; subst. exact H2.
  - split.
    + intros H. inversion H as [|lit k v l' x0 y z0 H1 H2 H3]; subst. apply IH in H3 as (y' & H4 & H5). exists y'. split; [econstructor; eassumption|exact H5].
    + intros (y & H1 & H2). inversion H1 as [|lit k v l' x0 y0 z0 H3 H4 H5]; subst. econstructor; [eassumption|eassumption|]. apply IH. eauto.
Qed.
Lemma member_unknown i k v x y : unknown i k -> member V F i k v x y -> d_disallow F = false /\ y = x.
Proof.
  intros U H. inversion H as [? ? ? ? _ D|? ? f ? ? ? P _]; subst; [auto|]. exfalso. pose proof (picks_uniq V F _ _ _ _ U P). discriminate.
Qed.
Lemma stores_obj i s l x y : stores V F (YStruct i) (ND s (HObj l)) x y <-> (exists fs, x = MList fs) /\ members_rel (member V F i) l x y.
Proof.
  split.
  - intros H. inversion H as [| | | | | | | | | | | | | | | | | | | | | | | |i' v' x' y' H1| |]; subst; cbn [null_keeps] in *; try contradiction. inversion H1; subst. eauto.
  - intros [(fs & ->) H]. apply st_struct, str_obj, H.
Qed.
End Unknown.

(** Without DisallowUnknownFields a member whose key names no field makes no
    difference, whatever its value. *)
Theorem C44_unknown_ignored V F i s s' l1 lit k v l2 x y w1 w2 : env_ok V -> d_disallow F = false ->
  jnode (ND s (HObj (l1 ++ (lit, v) :: l2))) -> jnode (ND s' (HObj (l1 ++ l2))) -> ws w1 -> ws w2 ->
  str_means lit k -> unknown V F i k ->
  (unmarshal V F (YStruct i) (w1 ++ s ++ w2) x = (None, y) <-> unmarshal V F (YStruct i) s' x = (None, y)).
Proof.
  intros OK D J J' W1 W2 SM U.
  rewrite (C42_accepts_iff V F (YStruct i) w1 (ND s (HObj (l1 ++ (lit, v) :: l2))) w2 x y OK W1 J W2).
  pose proof (C42_accepts_iff V F (YStruct i) [] (ND s' (HObj (l1 ++ l2))) [] x y OK ltac:(constructor) J' ltac:(constructor)) as H.
  cbn [app ntext] in H. rewrite app_nil_r in H. rewrite H. rewrite !stores_obj, !members_app.
  split; intros [E (z & H1 & H2)]; (split; [exact E|]); exists z; (split; [exact H1|]).
  - inversion H2 as [|? k' ? ? ? y' ? SM' M R]; subst. rewrite (str_means_det _ _ _ SM SM') in U. apply (member_unknown V F i k' v z y' U) in M as [_ ->]. exact R.
  - econstructor; [exact SM|apply me_unknown; [exact U|exact D]|exact H2].
Qed.
(** With it such a member makes Unmarshal fail. *)
Theorem C44_unknown_rejected V F i s l1 lit k v l2 x w1 w2 : env_ok V -> d_disallow F = true ->
  jnode (ND s (HObj (l1 ++ (lit, v) :: l2))) -> ws w1 -> ws w2 -> str_means lit k -> unknown V F i k ->
  fst (unmarshal V F (YStruct i) (w1 ++ s ++ w2) x) <> None.
Proof.
  intros OK D J W1 W2 SM U E. destruct (unmarshal V F (YStruct i) (w1 ++ s ++ w2) x) as [o y] eqn:EU. cbn [fst] in E. subst o.
  apply (C42_accepts_iff V F (YStruct i) w1 (ND s (HObj (l1 ++ (lit, v) :: l2))) w2 x y OK W1 J W2) in EU.
  rewrite stores_obj, members_app in EU. destruct EU as [_ (z & _ & H2)]. inversion H2 as [|? k' ? ? ? y' ? SM' M R]; subst.
  rewrite (str_means_det _ _ _ SM SM') in U. apply (member_unknown V F i k' v z y' U) in M as [D' _]. congruence.
Qed.
Example C44_example : unknown ex_env ex_flags 0 (bs "zz") /\ ~ unknown ex_env ex_flags 0 (bs "NAME") /\
  unmarshal ex_env ex_flags (YStruct 1) (bs "{""zz"":[{}],""ok"":true}") (MList [MBool false; MIface JVNull]) = (None, MList [MBool true; MIface JVNull]) /\
  fst (unmarshal ex_env (DFlags false true false) (YStruct 1) (bs "{""zz"":[{}],""ok"":true}") (MList [MBool false; MIface JVNull])) <> None.
Proof.
  pose proof (find_field_picks ex_env ex_flags (ex_flds 0) (bs "zz")) as P1. pose proof (find_field_picks ex_env ex_flags (ex_flds 0) (bs "NAME")) as P2.
  vm_compute in P1. split; [exact P1|]. split; [intros P3|split; [vm_compute; reflexivity|vm_compute; discriminate]].
  pose proof (picks_uniq _ _ _ _ _ _ P2 P3) as E. vm_compute in E. discriminate.
Qed.
Print Assumptions C44_unknown_ignored.
Print Assumptions C44_unknown_rejected.

(** * C45: null *)
Lemma fits_shape V t x : fits V t x -> shape_of t x.
Proof. destruct 1; cbn; auto. Qed.
Lemma stores_null V F t x : t <> YUnsupported -> fits V t x -> stores V F t (ND (bs "null") HNull) x (on_null t x).
Proof.
  revert x. induction t; intros x NU FX; try congruence; try (apply st_null; [exact I|eapply fits_shape, FX]); try (inversion FX; subst; cbn [on_null]).
  - apply st_bytes_arr. constructor.
  - apply st_iface. constructor.
  - apply st_named_null.
  - apply st_raw.
  - apply st_array; [reflexivity|constructor].
  - apply st_slice. constructor.
  - apply st_slice. constructor.
  - apply st_map. constructor.
  - apply st_map. constructor.
  - apply st_map_si, st_map. constructor.
  - apply st_map_sr, st_map. constructor.
  - apply st_ptr_null. exact I.
  - assert (C : (exists e, t = YPtr e) \/ (match t with YPtr _ => False | _ => True end)) by (destruct t; eauto).
    destruct C as [(e & ->)|C]; [apply st_ptr_ptr, IHt; [discriminate|assumption]|]. destruct t; try contradiction; apply st_ptr_null; exact I.
  - apply st_struct. constructor.
Qed.
(** null never fails on a supported type, and does what [on_null] says: it sets
    pointers, slices, maps and interfaces to nil and leaves all else alone. *)
Theorem C45_null V F t w1 w2 x : env_ok V -> t <> YUnsupported -> fits V t x -> ws w1 -> ws w2 ->
  unmarshal V F t (w1 ++ bs "null" ++ w2) x = (None, on_null t x).
Proof.
  intros OK NU FX W1 W2. apply (C42_accepts_iff V F t w1 (ND (bs "null") HNull) w2 x _ OK W1 N_null W2). apply stores_null; assumption.
Qed.
Example C45_example : fits ex_env (YPtr (YPtr YBool)) (MPtr (Some (MPtr (Some (MBool true))))) /\
  on_null (YPtr (YPtr YBool)) (MPtr (Some (MPtr (Some (MBool true))))) = MPtr (Some (MPtr None)) /\
  unmarshal ex_env ex_flags (YStruct 0) (bs " null ") ex_result = (None, ex_result).
Proof. split; [repeat constructor|]. split; [reflexivity|vm_compute; reflexivity]. Qed.
Print Assumptions C45_null.

(** * C46: names match without regard to case *)
Definition ascii_lower (s : bytes) : bytes := map lower_ascii s.
Lemma lower_letter a b : same_letter a b <-> lower_ascii a = lower_ascii b.
Proof. unfold same_letter, lower_ascii. destruct ((65 <=? a) && (a <=? 90)) eqn:A, ((65 <=? b) && (b <=? 90)) eqn:B; zb; split; intros; lia. Qed.
Lemma lower_name a b : same_name a b <-> ascii_lower a = ascii_lower b.
Proof.
  unfold same_name, ascii_lower. split.
  - induction 1 as [|x y a b H _ IH]; [reflexivity|]. cbn [map]. apply lower_letter in H. congruence.
  - revert b. induction a as [|x a IH]; intros [|y b]; try discriminate; [constructor|]. cbn [map]. intros [= H1 H2]. constructor; [apply lower_letter, H1|apply IH, H2].
Qed.
Lemma ascii_to_lower V k : ascii k -> append_to_lower V k = ascii_lower k.
Proof.
  intros A. unfold append_to_lower. assert (wf k) by (apply Forall_forall; intros c C; unfold ascii in A; rewrite Forall_forall in A; specialize (A c C); unfold is_byte; lia).
  replace (ascii_valid k) with true; [reflexivity|]. symmetry. apply C02_ascii_valid_exact; [assumption|]. eapply Forall_impl; [|exact A]. intros a Ha. cbn in *. lia.
Qed.
(** strings.ToLower on ASCII names. *)
Definition lowers (V : tenv) : Prop := forall s, ascii s -> v_lower V s = ascii_lower s.
(** The field a key selects among fields with ASCII names that differ by more
    than case. *)
Theorem C46_selects V F fs k : lowers V -> Forall (fun f => ascii (jf_name f)) fs -> ascii k ->
  ForallOrdPairs (fun f g => ~ same_name (jf_name f) (jf_name g)) fs ->
  forall f, picks V F fs k (Some f) <-> In f fs /\ if d_nocase F then jf_name f = k else same_name (jf_name f) k.
Proof.
  intros LW AN AK PW f. rewrite Forall_forall in AN.
  assert (FN : forall g, In g fs -> folded_name V g k <-> same_name (jf_name g) k).
  { intros g G. unfold folded_name. rewrite (LW _ (AN g G)), (ascii_to_lower V k AK). symmetry. apply lower_name. }
  assert (UN : forall g h, In g fs -> In h fs -> same_name (jf_name g) (jf_name h) -> g = h).
  { intros g h G H S. assert (S' : same_name (jf_name h) (jf_name g)) by (apply lower_name; apply lower_name in S; congruence).
    clear -PW G H S S'. induction PW as [|a l A PW IH]; [contradiction|]. rewrite Forall_forall in A.
    destruct G as [<-|G], H as [<-|H]; try reflexivity; [destruct (A h H S)|destruct (A g G S')|auto]. }
  assert (RF : forall a, same_name a a) by (intros a; apply lower_name; reflexivity).
  split.
  - intros P. inversion P as [l1 f' l2 E N L|l1 f' l2 N0 NC E N L|]; subst f'.
    + split; [rewrite E; apply in_elt|]. unfold exact_name in N. destruct (d_nocase F); [exact N|]. rewrite N. apply RF.
    + rewrite NC. assert (IN : In f fs) by (rewrite E; apply in_elt). split; [exact IN|]. apply FN; assumption.
  - intros [IN S]. assert (SN : same_name (jf_name f) k) by (destruct (d_nocase F); [rewrite S; apply RF|exact S]).
    assert (AL : forall g, In g fs -> same_name (jf_name g) k -> g = f).
    { intros g G SG. apply UN; [exact G|exact IN|]. apply lower_name. apply lower_name in SG, SN. congruence. }
    pose proof (find_field_picks V F fs k) as P. destruct P as [l1 g l2 E N L|l1 g l2 N0 NC E N L|N0 N1].
    + assert (g = f) as -> by (apply AL; [rewrite E; apply in_elt|unfold exact_name in N; rewrite N; apply RF]). eapply pk_exact; eassumption.
    + assert (G : In g fs) by (rewrite E; apply in_elt). assert (g = f) as -> by (apply AL; [exact G|apply FN; assumption]). eapply pk_fold; eassumption.
    + exfalso. rewrite Forall_forall in N0. destruct (d_nocase F) eqn:NC; [exact (N0 f IN S)|].
      specialize (N1 eq_refl). rewrite Forall_forall in N1. apply (N1 f IN). apply FN; assumption.
Qed.
(** So the case of the keys of an object makes no difference. *)
Theorem C46_case_irrelevant V F i s s' l l' x y : env_ok V -> lowers V -> d_nocase F = false ->
  Forall (fun f => ascii (jf_name f)) (v_flds V i) -> ForallOrdPairs (fun f g => ~ same_name (jf_name f) (jf_name g)) (v_flds V i) ->
  jnode (ND s (HObj l)) -> jnode (ND s' (HObj l')) ->
  Forall2 (fun a b => snd a = snd b /\ exists k k', str_means (fst a) k /\ str_means (fst b) k' /\ ascii k /\ ascii k' /\ same_name k k') l l' ->
  (unmarshal V F (YStruct i) s x = (None, y) <-> unmarshal V F (YStruct i) s' x = (None, y)).
Proof.
  intros OK LW NC AN PW J J' FL.
  pose proof (C42_accepts_iff V F (YStruct i) [] (ND s (HObj l)) [] x y OK ltac:(constructor) J ltac:(constructor)) as H1.
  pose proof (C42_accepts_iff V F (YStruct i) [] (ND s' (HObj l')) [] x y OK ltac:(constructor) J' ltac:(constructor)) as H2.
  cbn [app ntext] in H1, H2. rewrite app_nil_r in H1, H2. rewrite H1, H2, !stores_obj. clear H1 H2 J J'.
  assert (MB : forall k k' v m z, ascii k -> ascii k' -> same_name k k' -> member V F i k v m z -> member V F i k' v m z).
  { intros k k' v m z A A' SN H. assert (PI : forall f, picks V F (v_flds V i) k (Some f) <-> picks V F (v_flds V i) k' (Some f)).
    { intros f. rewrite !C46_selects by assumption. rewrite NC, !lower_name. apply lower_name in SN. rewrite SN. tauto. }
    inversion H as [? ? ? ? P D|? ? f ? ? ? P AP]; subst.
    - apply me_unknown; [|exact D]. pose proof (find_field_picks V F (v_flds V i) k') as P'. destruct (find_field V F (v_flds V i) k') as [f|]; [|exact P'].
      apply PI in P'. pose proof (picks_uniq V F _ _ _ _ P P'). discriminate.
    - eapply me_field; [apply PI, P|exact AP]. }
  assert (MR : forall z, members_rel (member V F i) l x z <-> members_rel (member V F i) l' x z).
  { clear -FL MB. revert x. induction FL as [|[la va] [lb vb] l l' (E & k & k' & S & S' & A & A' & SN) FL IH]; intros x z; cbn [fst snd] in *; [split; intros H; inversion H; constructor|].
    subst vb. split; intros H; inversion H as [|? k0 ? ? ? u ? SM M R]; subst.
    - rewrite <- (str_means_det _ _ _ S SM) in M. econstructor; [exact S'|eapply MB; [| | |exact M]; assumption|apply IH, R].
    - rewrite <- (str_means_det _ _ _ S' SM) in M. econstructor; [exact S|eapply MB; [exact A'|exact A| |exact M]|apply IH, R]. apply lower_name. apply lower_name in SN. congruence. }
  rewrite MR. tauto.
Qed.
Lemma ex_lowers : lowers ex_env.
Proof. intros s _. reflexivity. Qed.
Lemma ex_names i : Forall (fun f => ascii (jf_name f)) (v_flds ex_env i) /\ ForallOrdPairs (fun f g => ~ same_name (jf_name f) (jf_name g)) (v_flds ex_env i).
Proof.
  destruct i as [|[|[|i]]]; cbn [v_flds ex_env ex_flds]; (split; [repeat constructor; unfold ascii; cbn; lia|]).
  all: repeat (apply FOP_cons; [repeat (apply Forall_cons; [rewrite lower_name; vm_compute; discriminate|]); apply Forall_nil|]); apply FOP_nil.
Qed.
Example C46_example :
  unmarshal ex_env ex_flags (YStruct 1) (bs "{""Ok"":true}") (MList [MBool false; MIface JVNull]) = (None, MList [MBool true; MIface JVNull]) /\
  unmarshal ex_env (DFlags false false true) (YStruct 1) (bs "{""Ok"":true}") (MList [MBool false; MIface JVNull]) = (None, MList [MBool false; MIface JVNull]).
Proof. split; vm_compute; reflexivity. Qed.
(** It does make a difference outside ASCII: the field É (U+00C9), whose lower
    case form is é, is not found under the key é, as the key is folded to É.
    (strings.ToLower is exact here, and so is unicode.SimpleFold.) *)
Definition fold_env : tenv := TEnv (fun _ => [YBool]) 1 (fun _ => [JField [195; 137] [PIn 0] YBool QNo]) (fun _ _ => None) (fun _ => None) (fun _ => None) (fun _ => None)
  (fun _ s _ => (None, s)) (fun _ s _ => (None, s)) (fun s => if beqb s [195; 137] then [195; 169] else s) (fun c => if c =? 233 then 201 else if c =? 201 then 233 else c).
Theorem C46_non_ascii_refuted :
  v_lower fold_env [195; 137] = [195; 169] /\ v_fold fold_env 233 = 201 /\ v_fold fold_env 201 = 233 /\
  unmarshal fold_env ex_flags (YStruct 0) (bs "{""" ++ [195; 169] ++ bs """:true}") (MList [MBool false]) = (None, MList [MBool false]) /\
  unmarshal fold_env ex_flags (YStruct 0) (bs "{""" ++ [195; 137] ++ bs """:true}") (MList [MBool false]) = (None, MList [MBool true]).
Proof. repeat split; vm_compute; reflexivity. Qed.
Print Assumptions C46_selects.
Print Assumptions C46_case_irrelevant.
Print Assumptions C46_non_ascii_refuted.

(** * C47: fields that are not mentioned stay as they are *)
Lemma nth_app_ne {A} (l1 : list A) x y l2 j : j <> length l1 -> nth_error (l1 ++ x :: l2) j = nth_error (l1 ++ y :: l2) j.
Proof.
  revert j. induction l1 as [|a l1 IH]; intros [|j] H; cbn [app nth_error length] in *; [congruence|reflexivity|reflexivity|]. apply IH. congruence.
Qed.
Lemma nth_app_eq {A} (l1 : list A) x l2 : nth_error (l1 ++ x :: l2) (length l1) = Some x.
Proof. induction l1; [reflexivity|exact IHl1]. Qed.
Lemma at_path_apart V R p v x y : at_path V R p v x y -> forall q z, apart p q -> get q x = Some z -> get q y = Some z.
Proof.
  induction 1 as [v x y H|l1 x l2 p v y H IH|l1 x l2 s u p v y H IH|l1 l2 s p v y H IH]; intros q z AP G; inversion AP as [a b p' q' NE|a p' q' AP']; subst.
  - cbn [idx] in NE. destruct b as [j|j s u]; cbn [get idx] in *; rewrite (nth_app_ne l1 y x) by congruence; exact G.
  - cbn [get] in *. rewrite nth_app_eq in *. eapply IH; eassumption.
  - cbn [idx] in NE. destruct b as [j|j s' u']; cbn [get idx] in *; rewrite (nth_app_ne l1 _ (MPtr (Some x))) by congruence; exact G.
  - cbn [get] in *. rewrite nth_app_eq in *. eapply IH; eassumption.
  - cbn [idx] in NE. destruct b as [j|j s' u']; cbn [get idx] in *; rewrite (nth_app_ne l1 _ (MPtr None)) by congruence; exact G.
  - cbn [get] in *. rewrite nth_app_eq in G. discriminate.
Qed.
(** A field keeps its content unless a member of the object selects a field that
    overlaps it. *)
Theorem C47_unmentioned_kept V F i s l w1 w2 x y p z : env_ok V -> jnode (ND s (HObj l)) -> ws w1 -> ws w2 ->
  unmarshal V F (YStruct i) (w1 ++ s ++ w2) x = (None, y) ->
  (forall lit v k f, In (lit, v) l -> str_means lit k -> picks V F (v_flds V i) k (Some f) -> apart (jf_path f) p) ->
  get p x = Some z -> get p y = Some z.
Proof.
  intros OK J W1 W2 E NO G. apply (C42_accepts_iff V F (YStruct i) w1 (ND s (HObj l)) w2 x y OK W1 J W2) in E.
  apply stores_obj in E as [_ MR]. clear J W1 W2. induction MR as [x|lit k v l x y z' SM M MR IH]; [exact G|].
  apply IH; [intros; eapply NO; [right; eassumption|eassumption|eassumption]|].
  inversion M as [| ? ? f ? ? ? P AP]; subst; [exact G|]. eapply at_path_apart; [exact AP| |exact G]. eapply NO; [left; reflexivity|exact SM|exact P].
Qed.
(** null, the other value a struct accepts, changes nothing (C45). *)
Example C47_example : apart (jf_path (nth 2 (ex_flds 0) (JField [] [] YBool QNo))) [PVia 2 1 false; PIn 1] /\
  get [PVia 2 1 false; PIn 1] ex_result = Some (MIface (JVArr [JVFloat (FFin false [49] 1); JVMap []])) /\
  get [PVia 2 1 false; PIn 1] (snd (unmarshal ex_env ex_flags (YStruct 0) (bs "{""ok"":false}") ex_result)) = Some (MIface (JVArr [JVFloat (FFin false [49] 1); JVMap []])) /\
  get [PVia 2 1 false; PIn 0] (snd (unmarshal ex_env ex_flags (YStruct 0) (bs "{""ok"":false}") ex_result)) = Some (MBool false).
Proof. split; [apply apart_next, apart_here; cbn; lia|]. repeat split; vm_compute; reflexivity. Qed.
Print Assumptions C47_unmentioned_kept.
