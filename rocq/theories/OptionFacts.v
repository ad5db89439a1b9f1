(** Lemmas for C98: the loops of the encoders do not look at the flags. *)
From Coq Require Import Permutation Sorted.
From Verif Require Import Bytes Utf8Model ParseModel StringModel IntModel TokenModel EncModel SpecJson SpecString SpecTokens
  SpecRender SpecColor SpecEnc SpecOption ParseFacts EncFacts RawFacts EncMain EncExtra.

Lemma F2_diag {A B} (P : B -> B -> Prop) (f g : A -> B) l : Forall (fun x => P (f x) (g x)) l -> Forall2 P (map f l) (map g l).
Proof. induction 1; constructor; assumption. Qed.
Lemma swallow_ext c fs gs : Forall2 feq2 fs gs -> feq (encode_map_swallow c fs) (encode_map_swallow c gs).
Proof. intros H b d. unfold encode_map_swallow. pose proof (map_elems_ext c _ _ H true) as E. destruct H; [reflexivity|]. rewrite E. reflexivity. Qed.

Section Lay.
Context (html : bool) (clrs : option colors) (ind : option indenter) (std : bytes -> bytes -> bytes -> option bytes).
Notation K s t := (Cfg html s t clrs ind std).
Lemma array_elems_cfg s t s' t' fs : forall first b d, array_elems (K s t) first fs b d = array_elems (K s' t') first fs b d.
Proof.
  induction fs as [|f fs IH]; intros first b d; [reflexivity|]. cbn [array_elems].
  match goal with |- match f ?x d with _ => _ end = match f ?y d with _ => _ end => change y with x; destruct (f x d) as [b1 d1 [e|]|] end; try reflexivity. apply IH.
Qed.
Lemma encode_array_cfg s t s' t' fs b d : encode_array (K s t) fs b d = encode_array (K s' t') fs b d.
Proof. unfold encode_array. destruct fs as [|f fs]; [reflexivity|]. rewrite (array_elems_cfg s t s' t'). reflexivity. Qed.
Lemma map_elems_cfg s t s' t' fs : forall first b d, map_elems (K s t) first fs b d = map_elems (K s' t') first fs b d.
Proof.
  induction fs as [|[f g] fs IH]; intros first b d; [reflexivity|]. cbn [map_elems].
  match goal with |- match f ?x d with _ => _ end = match f ?y d with _ => _ end => change y with x; destruct (f x d) as [b1 d1 [e|]|] end; try reflexivity.
  match goal with |- match g ?x _ with _ => _ end = match g ?y _ with _ => _ end => change y with x; destruct (g x d1) as [b2 d2 [e|]|] end; try reflexivity. apply IH.
Qed.
Lemma encode_map_cfg s t s' t' cut fs b d : encode_map (K s t) cut fs b d = encode_map (K s' t') cut fs b d.
Proof. unfold encode_map. destruct fs as [|f fs]; [reflexivity|]. rewrite (map_elems_cfg s t s' t'). reflexivity. Qed.
Lemma encode_map_break_cfg s t s' t' fs b d : encode_map_break (K s t) fs b d = encode_map_break (K s' t') fs b d.
Proof. unfold encode_map_break. destruct fs as [|f fs]; [reflexivity|]. rewrite (map_elems_cfg s t s' t'). reflexivity. Qed.
Lemma encode_map_swallow_cfg s t s' t' fs b d : encode_map_swallow (K s t) fs b d = encode_map_swallow (K s' t') fs b d.
Proof. unfold encode_map_swallow. destruct fs as [|f fs]; [reflexivity|]. rewrite (map_elems_cfg s t s' t'). reflexivity. Qed.
Lemma struct_fields_cfg s t s' t' fs : forall n b d, struct_fields (K s t) n fs b d = struct_fields (K s' t') n fs b d.
Proof.
  induction fs as [|[h f] fs IH]; intros n b d; [reflexivity|].
  destruct (omitted h) eqn:O; [rewrite !struct_fields_omit by exact O; apply IH|]. rewrite !struct_fields_step by exact O.
  change (fieldb (K s' t') n b d h) with (fieldb (K s t) n b d h). destruct (f _ d) as [b1 d1 [[]|]|]; try reflexivity; apply IH.
Qed.
Lemma encode_struct_cfg s t s' t' fs b d : encode_struct (K s t) fs b d = encode_struct (K s' t') fs b d.
Proof. unfold encode_struct. rewrite (struct_fields_cfg s t s' t'). reflexivity. Qed.
Lemma raw_loop_cfg s t s' t' n : forall k st b d, raw_loop n (K s t) k st b d = raw_loop n (K s' t') k st b d.
Proof.
  induction n as [|n IH]; intros k st b d; [reflexivity|]. cbn [raw_loop]. destruct (tok_next k) as [[k' [|]]|]; try reflexivity.
  destruct (_ =? 58); [apply IH|]. destruct (_ =? 44); [apply IH|]. destruct (_ || _); [apply IH|].
  change (raw_prefix (K s' t')) with (raw_prefix (K s t)). destruct (raw_prefix _ _ _ _ _) as [b1 st1]. destruct (_ || _); apply IH.
Qed.
Lemma encode_raw_sort s s' t r b d : encode_raw (K s t) r b d = encode_raw (K s' t) r b d.
Proof. unfold encode_raw, append_raw_tokens. destruct r as [r|]; [|reflexivity]. cbn [e_trust]. destruct t; [|destruct (parseValue r); [|reflexivity]]; [rewrite (raw_loop_cfg s true s' true)|rewrite (raw_loop_cfg s false s' false)]; reflexivity. Qed.
Lemma encode_raw_trust s t t' r : (forall x, r = Some x -> wf x /\ exists a, jvalue x a) -> forall b d, encode_raw (K s t) r b d = encode_raw (K s t') r b d.
Proof.
  intros H b d. destruct r as [x|]; [|reflexivity]. destruct (H x eq_refl) as (W & a & J).
  assert (T : forall u, raw_text u x a) by (intros [|]; [apply jvalue_jtext, J|exact J]).
  change (encode_raw (K s t) (Some x)) with (enc (K s t) (GRaw (Some x))). change (encode_raw (K s t') (Some x)) with (enc (K s t') (GRaw (Some x))).
  rewrite (enc_app_only (K s t) _ b d), (enc_app_only (K s t') _ b d). cbn [enc]. rewrite (encode_raw_good (K s t) x a d W (T t)), (encode_raw_good (K s t') x a d W (T t')). reflexivity.
Qed.

(** * Values on which the flags make no difference *)
Lemma enc_flags (Q : gval -> Prop) s s' t t' :
  (forall v w, Q v -> part w v -> Q w) -> (forall r, Q (GRaw r) -> feq (encode_raw (K s t) r) (encode_raw (K s' t') r)) ->
  (forall v, Q v -> s = s' \/ match v with GMap (Some _) | GMapSI (Some _) | GMapSR (Some _) => False | _ => True end) ->
  forall v, Q v -> feq (enc (K s t) v) (enc (K s' t') v).
Proof.
  intros QP QR QM v. induction v as [ |b|z|f|x|x|x|x|l IH| |l IH| |m IH| |m IH|m|fs IH|o IH|o IH|o IH|x|r|r|v IH| ] using gval_rect'; intros H b0 d0; cbn [enc]; try reflexivity.
  - rewrite (encode_array_cfg s t s' t'). apply encode_array_ext, F2_diag. rewrite Forall_forall in *. intros x I. apply (IH x I), (QP _ x H). eapply pt_array; [exact I|constructor].
  - rewrite (encode_array_cfg s t s' t'). apply encode_array_ext, F2_diag. rewrite Forall_forall in *. intros x I. apply (IH x I), (QP _ x H). eapply pt_slice; [exact I|constructor].
  - destruct (QM _ H) as [<-|[]]. rewrite (encode_map_cfg s t s t'). apply encode_map_ext.
    assert (X : Forall (fun e : mkey * gval => feq (enc (K s t) (snd e)) (enc (K s t') (snd e))) m).
    { rewrite Forall_forall in *. intros [k x] I. cbn [snd]. apply (IH _ I), (QP _ x H). eapply pt_map; [exact I|constructor]. }
    cbn [e_sort]. destruct s; [rewrite !(sort_by_map _ _ (fun e => key_text (fst e))) by (intros [? ?]; reflexivity); apply (Forall_sort _ (fun e => key_text (fst e))) in X|];
      rewrite !map_map; apply F2_diag; (eapply Forall_impl; [|exact X]); intros [k x] F; (split; [intros ? ?; reflexivity|exact F]).
  - destruct (QM _ H) as [<-|[]].
    assert (X : Forall (fun e : bytes * gval => feq (enc (K s t) (snd e)) (enc (K s t') (snd e))) m).
    { rewrite Forall_forall in *. intros [k x] I. cbn [snd]. apply (IH _ I), (QP _ x H). eapply pt_mapsi; [exact I|constructor]. }
    cbn [e_sort]. destruct s.
    + rewrite (encode_map_break_cfg true t true t'). apply encode_map_break_ext. rewrite !(sort_by_map _ _ fst) by (intros [? ?]; reflexivity). apply (Forall_sort _ fst) in X.
      rewrite !map_map; apply F2_diag; (eapply Forall_impl; [|exact X]); intros [k x] F; (split; [intros ? ?; reflexivity|exact F]).
    + rewrite (encode_map_cfg false t false t'). apply encode_map_ext.
      rewrite !map_map; apply F2_diag; (eapply Forall_impl; [|exact X]); intros [k x] F; (split; [intros ? ?; reflexivity|exact F]).
  - destruct m as [m|]; [|reflexivity]. destruct (QM _ H) as [<-|[]].
    assert (X : Forall (fun e : bytes * option bytes => feq (encode_raw (K s t) (snd e)) (encode_raw (K s t') (snd e))) m).
    { rewrite Forall_forall in *. intros [k x] I. cbn [snd]. apply QR, (QP _ _ H). eapply pt_mapsr; exact I. }
    cbn [e_sort]. destruct s.
    + rewrite (encode_map_break_cfg true t true t'). apply encode_map_break_ext. apply (Forall_sort _ fst) in X.
      apply F2_diag; (eapply Forall_impl; [|exact X]); intros [k x] F; (split; [intros ? ?; reflexivity|exact F]).
    + rewrite (encode_map_swallow_cfg false t false t'). apply swallow_ext.
      apply F2_diag; (eapply Forall_impl; [|exact X]); intros [k x] F; (split; [intros ? ?; reflexivity|exact F]).
  - rewrite (encode_struct_cfg s t s' t'). apply encode_struct_ext, F2_diag. rewrite Forall_forall in *. intros [h x] I. split; [reflexivity|]. cbn [snd]. apply (IH _ I), (QP _ x H). eapply pt_struct; [exact I|constructor].
  - destruct o as [x|]; [|reflexivity]. apply IH, (QP _ x H). constructor; constructor.
  - destruct o as [x|]; [|reflexivity]. apply IH, (QP _ x H). constructor; constructor.
  - destruct o as [x|]; [|reflexivity]. apply IH, (QP _ x H). constructor; constructor.
  - apply QR, H.
  - destruct r as [[r|e]|]; try reflexivity. apply QR, (QP _ _ H). constructor.

  - change (encode_to_string (K s' t')) with (encode_to_string (K s t)). apply encode_to_string_ext, IH, (QP _ v H). constructor; constructor.
Qed.
End Lay.
Lemma part_trans w u v : part w u -> part u v -> part w v.
Proof. intros H P. induction P; try (econstructor; eauto; fail); inversion H; subst; econstructor; eassumption. Qed.

(** * Encoders that succeed where others do *)
Definition okf (f g : encf) : Prop := forall b d o d', f b d = ER o d' None -> g b d = ER o d' None.
Definition okf2 (p q : encf * encf) : Prop := okf (fst p) (fst q) /\ okf (snd p) (snd q).
Definition rbf (f g : encf) : Prop := okf f g /\ forall b d o d', f b d = ER o d' (Some ERollback) -> g b d = ER o d' (Some ERollback).
Lemma array_elems_ok c fs gs : Forall2 okf fs gs -> forall first, okf (array_elems c first fs) (array_elems c first gs).
Proof.
  induction 1 as [|f g fs gs Hf H IH]; intros first b d o d'; [auto|]. cbn [array_elems]. match goal with |- context [f ?x d] => destruct (f x d) as [b1 d1 [e1|]|] eqn:E end; try discriminate.
  rewrite (Hf _ _ _ _ E). apply IH.
Qed.
Lemma encode_array_ok c fs gs : Forall2 okf fs gs -> okf (encode_array c fs) (encode_array c gs).
Proof.
  intros H b d o d'. unfold encode_array. pose proof (array_elems_ok c _ _ H true) as E. destruct H; [auto|].
  match goal with |- context [array_elems c true (x :: l) ?x1 ?d1] => destruct (array_elems c true (x :: l) x1 d1) as [b2 d2 [e2|]|] eqn:A end; try discriminate. rewrite (E _ _ _ _ A). auto.
Qed.
Lemma map_elems_ok c fs gs : Forall2 okf2 fs gs -> forall first, okf (map_elems c first fs) (map_elems c first gs).
Proof.
  induction 1 as [|[fk fv] [gk gv] fs gs [Hk Hv] H IH]; intros first b d o d'; [auto|]. cbn [map_elems fst snd] in *.
  match goal with |- context [fk ?x d] => destruct (fk x d) as [b1 d1 [e1|]|] eqn:E end; try discriminate. rewrite (Hk _ _ _ _ E).
  match goal with |- context [fv ?x d1] => destruct (fv x d1) as [b2 d2 [e2|]|] eqn:E2 end; try discriminate. rewrite (Hv _ _ _ _ E2). apply IH.
Qed.
Lemma encode_map_ok c cut fs gs : Forall2 okf2 fs gs -> okf (encode_map c cut fs) (encode_map c cut gs).
Proof.
  intros H b d o d'. unfold encode_map. pose proof (map_elems_ok c _ _ H true) as E. destruct H; [auto|].
  match goal with |- context [map_elems c true (x :: l) ?x1 ?d1] => destruct (map_elems c true (x :: l) x1 d1) as [b2 d2 [e2|]|] eqn:A end; try discriminate. rewrite (E _ _ _ _ A). auto.
Qed.
Lemma break_map_ok c fs gs : Forall2 okf2 fs gs -> okf (encode_map_break c fs) (encode_map c false gs).
Proof.
  intros H b d o d'. unfold encode_map, encode_map_break. pose proof (map_elems_ok c _ _ H true) as E. destruct H; [auto|].
  match goal with |- context [map_elems c true (x :: l) ?x1 ?d1] => destruct (map_elems c true (x :: l) x1 d1) as [b2 d2 [e2|]|] eqn:A end; try discriminate. rewrite (E _ _ _ _ A). auto.
Qed.
Lemma break_swallow_ok c fs gs : Forall2 okf2 fs gs -> okf (encode_map_break c fs) (encode_map_swallow c gs).
Proof.
  intros H b d o d'. unfold encode_map_swallow, encode_map_break. pose proof (map_elems_ok c _ _ H true) as E. destruct H; [auto|].
  match goal with |- context [map_elems c true (x :: l) ?x1 ?d1] => destruct (map_elems c true (x :: l) x1 d1) as [b2 d2 [e2|]|] eqn:A end; try discriminate. rewrite (E _ _ _ _ A). auto.
Qed.
Lemma struct_fields_ok c fs gs : Forall2 (fun p q => fst p = fst q /\ rbf (snd p) (snd q)) fs gs ->
  forall n b d o d' n', struct_fields c n fs b d = (ER o d' None, n') -> struct_fields c n gs b d = (ER o d' None, n').
Proof.
  induction 1 as [|[h f] [h' g] fs gs [Hh [Hf Hr]] H IH]; intros n b d o d' n'; [auto|]. cbn [fst snd] in *. subst h'.
  destruct (omitted h) eqn:O; [rewrite !struct_fields_omit by exact O; apply IH|]. rewrite !struct_fields_step by exact O.
  match goal with |- context [f ?x d] => destruct (f x d) as [b1 d1 [e|]|] eqn:E end; [| |discriminate].
  - destruct e; try discriminate. rewrite (Hr _ _ _ _ E). apply IH.
  - rewrite (Hf _ _ _ _ E). apply IH.
Qed.
Lemma encode_struct_ok c fs gs : Forall2 (fun p q => fst p = fst q /\ rbf (snd p) (snd q)) fs gs -> okf (encode_struct c fs) (encode_struct c gs).
Proof.
  intros H b d o d'. unfold encode_struct. pose proof (struct_fields_ok c _ _ H) as E. 
  replace (match gs with [] => append_punc (e_clrs c) b 123 | _ => in_byte c (append_punc (e_clrs c) b 123) 10 end) with
    (match fs with [] => append_punc (e_clrs c) b 123 | _ => in_byte c (append_punc (e_clrs c) b 123) 10 end) by (destruct H; reflexivity).
  destruct (struct_fields c 0 fs _ _) as [[b1 d1 [e1|]|] n] eqn:A; try discriminate. rewrite (E _ _ _ _ _ _ A). auto.
Qed.
Lemma encode_to_string_ok c f g : okf f g -> okf (encode_to_string c f) (encode_to_string c g).
Proof. intros H b d o d'. unfold encode_to_string. destruct (f b d) as [b1 d1 [e1|]|] eqn:E; try discriminate. rewrite (H _ _ _ _ E). auto. Qed.

Lemma F2_exists {A B} (P : A -> B -> Prop) l : Forall (fun x => exists y, P x y) l -> exists l', Forall2 P l l'.
Proof. induction 1 as [|x l [y H] _ [l' IH]]; [exists []; constructor|]. exists (y :: l'). constructor; assumption. Qed.
Lemma F2_split {A B} (P Q : A -> B -> Prop) l l' : Forall2 (fun x y => P x y /\ Q x y) l l' -> Forall2 P l l' /\ Forall2 Q l l'.
Proof. induction 1 as [|x y l l' [HP HQ] _ [IP IQ]]; split; constructor; assumption. Qed.

Section Sort.
Context (html trust : bool) (clrs : option colors) (ind : option indenter) (std : bytes -> bytes -> bytes -> option bytes).
Notation S := (Cfg html true trust clrs ind std).
Notation U := (Cfg html false trust clrs ind std).
Lemma sort_ok v : forall fld, shaped trust fld v -> exists v', rearranged v v' /\ rbf (enc S v) (enc U v').
Proof.
  assert (TOOK : forall v v', shaped trust false v -> rearranged v v' -> okf (enc S v) (enc U v') -> exists v', rearranged v v' /\ rbf (enc S v) (enc U v')).
  { intros w w' SH RA OK. exists w'. split; [exact RA|]. split; [exact OK|]. intros b d o d' E. exfalso. apply (enc_keeps S _ false SH) in E. destruct (proj2 E eq_refl). discriminate. }
  assert (SAME : forall v, (forall b d, enc U v b d = enc S v b d) -> exists v', rearranged v v' /\ rbf (enc S v) (enc U v')).
  { intros w H. exists w. split; [constructor|]. split; intros ? ? ? ?; rewrite H; auto. }
  induction v as [ |b|z|f|x|x|x|x|l IH| |l IH| |m IH| |m IH|m|fs IH|o IH|o IH|o IH|x|r|r|v IH| ] using gval_rect'; intros fld SH; try (apply SAME; intros; reflexivity).
  - assert (X : exists l', Forall2 (fun x y => rearranged x y /\ okf (enc S x) (enc U y)) l l').
    { apply F2_exists. cbn [shaped] in SH. apply all_map in SH. rewrite Forall_forall in *. intros x I. destruct (IH x I false (SH x I)) as (y & R & [O _]). eauto. }
    destruct X as (l' & X). apply F2_split in X as [X1 X2]. apply (TOOK _ (GArray l')); [exact SH|now constructor|]. intros b d o d' E. cbn [enc] in *.
    rewrite (encode_array_cfg html clrs ind std false trust true trust). revert E. apply encode_array_ok, F2_map, X2.
  - assert (X : exists l', Forall2 (fun x y => rearranged x y /\ okf (enc S x) (enc U y)) l l').
    { apply F2_exists. cbn [shaped] in SH. apply all_map in SH. rewrite Forall_forall in *. intros x I. destruct (IH x I false (SH x I)) as (y & R & [O _]). eauto. }
    destruct X as (l' & X). apply F2_split in X as [X1 X2]. apply (TOOK _ (GSlice (Some l'))); [exact SH|now constructor|]. intros b d o d' E. cbn [enc] in *.
    rewrite (encode_array_cfg html clrs ind std false trust true trust). revert E. apply encode_array_ok, F2_map, X2.
  - assert (X : exists m', Forall2 (fun x y => (fst x = fst y /\ rearranged (snd x) (snd y)) /\ fst x = fst y /\ okf (enc S (snd x)) (enc U (snd y))) (sort_by (fun e => key_text (fst e)) m) m').
    { apply F2_exists, Forall_sort. cbn [shaped] in SH. apply all_map in SH. rewrite Forall_forall in *. intros [k x] I. destruct (IH _ I false (proj2 (SH _ I))) as (y & R & [O _]). exists (k, y). auto. }
    destruct X as (m' & X). apply F2_split in X as [X1 X2]. apply (TOOK _ (GMap (Some m'))); [exact SH|exact (ra_map _ _ _ (sort_by_perm _ m) X1)|]. intros b d o d' E. cbn [enc e_sort] in *.
    rewrite (encode_map_cfg html clrs ind std false trust true trust). revert E. apply encode_map_ok, F2_map. rewrite (sort_by_map _ _ (fun e => key_text (fst e))) by (intros [? ?]; reflexivity).
    apply F2_map. eapply Forall2_imp; [|exact X2]. intros [k x] [k' x'] [E O]. cbn [fst snd] in *. subst k'. split; [intros ? ? ? ?; auto|exact O].
  - assert (X : exists m', Forall2 (fun x y => (fst x = fst y /\ rearranged (snd x) (snd y)) /\ fst x = fst y /\ okf (enc S (snd x)) (enc U (snd y))) (sort_by fst m) m').
    { apply F2_exists, Forall_sort. cbn [shaped] in SH. apply all_map in SH. rewrite Forall_forall in *. intros [k x] I. destruct (IH _ I false (SH _ I)) as (y & R & [O _]). exists (k, y). auto. }
    destruct X as (m' & X). apply F2_split in X as [X1 X2]. apply (TOOK _ (GMapSI (Some m'))); [exact SH|exact (ra_mapsi _ _ _ (sort_by_perm _ m) X1)|]. intros b d o d' E. cbn [enc e_sort] in *.
    rewrite (encode_map_cfg html clrs ind std false trust true trust). revert E. apply break_map_ok, F2_map. rewrite (sort_by_map _ _ fst) by (intros [? ?]; reflexivity).
    apply F2_map. eapply Forall2_imp; [|exact X2]. intros [k x] [k' x'] [E O]. cbn [fst snd] in *. subst k'. split; [intros ? ? ? ?; auto|exact O].
  - destruct m as [m|]; [|apply SAME; intros; reflexivity]. apply (TOOK _ (GMapSR (Some (sort_by fst m)))); [exact SH|exact (ra_mapsr _ _ (sort_by_perm _ m))|]. intros b d o d' E. cbn [enc e_sort] in *.
    rewrite (encode_map_swallow_cfg html clrs ind std false trust true trust). revert E. apply break_swallow_ok, F2_diag, Forall_forall. intros [k x] _. split; [intros ? ? ? ?; auto|]. cbn [snd]. intros ? ? ? ?. rewrite (encode_raw_sort html clrs ind std true false). auto.
  - assert (X : exists fs', Forall2 (fun x y => (fst x = fst y /\ rearranged (snd x) (snd y)) /\ fst x = fst y /\ rbf (enc S (snd x)) (enc U (snd y))) fs fs').
    { apply F2_exists. cbn [shaped] in SH. apply all_map in SH. rewrite Forall_forall in *. intros [h x] I. destruct (IH _ I true (SH _ I)) as (y & R & O). exists (h, y). auto. }
    destruct X as (fs' & X). apply F2_split in X as [X1 X2]. apply (TOOK _ (GStruct fs')); [exact SH|now constructor|]. intros b d o d' E. cbn [enc] in *.
    rewrite (encode_struct_cfg html clrs ind std false trust true trust). revert E. apply encode_struct_ok, F2_map. eapply Forall2_imp; [|exact X2]. intros [k x] [k' x'] [E O]. exact (conj E O).
  - destruct o as [x|]; [|apply SAME; intros; reflexivity]. destruct SH as [_ SH]. destruct (IH true SH) as (y & R & O). exists (GEmbPtr (Some y)). split; [now constructor|exact O].
  - destruct o as [x|]; [|apply SAME; intros; reflexivity]. destruct (IH false SH) as (y & R & O). exists (GPtr (Some y)). split; [now constructor|exact O].
  - destruct o as [x|]; [|apply SAME; intros; reflexivity]. destruct (IH false SH) as (y & R & O). exists (GIface (Some y)). split; [now constructor|exact O].
  - apply SAME. intros b d. cbn [enc]. apply encode_raw_sort.
  - apply SAME. intros b d. cbn [enc]. destruct r as [[r|e]|]; try reflexivity. apply encode_raw_sort.
  - destruct (IH false SH) as (y & R & O & _). apply (TOOK _ (GQuoted y)); [exact SH|now constructor|]. cbn [enc].
    change (encode_to_string U) with (encode_to_string S). apply encode_to_string_ok, O.
Qed.
End Sort.
