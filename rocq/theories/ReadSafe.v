(** Encoding from memory whose variables refer to each other in any way reads cells
    of the kind the types say, and no others. *)
From Verif Require Import Bytes IntModel StringModel EncModel DecModel TypeModel SpecFit AddrModel SpecAddr AddrFacts ViewModel TripClean ReadModel ReadFacts SpecVars VarsFacts AddrSafe.

(** [ok r]: nothing of the wrong kind was read. *)
Definition ok {A} (r : mres A) : Prop := r <> MWild.
Lemma bind_ok {A B} (r : mres A) (f : A -> mres B) : ok r -> (forall x, r = MOk x -> ok (f x)) -> ok (mbind r f).
Proof. intros H HF. destruct r; [apply HF, eq_refl|destruct (H eq_refl)|discriminate]. Qed.
Lemma map_ok {A B} (f : A -> B) (r : mres A) : ok r -> ok (mmap f r).
Proof. intros H. apply bind_ok; [exact H|]. discriminate. Qed.
Lemma all_ok {A} (l : list (mres A)) : (forall r, In r l -> ok r) -> ok (mall l).
Proof. induction l as [|r l IH]; intros H; [discriminate|]. cbn. apply bind_ok; [apply H; left; reflexivity|]. intros x _. apply map_ok, IH. intros; apply H; right; assumption. Qed.
Lemma elems_safe {A} (get : Z -> mres A) sz p n : (forall i, (i < n)%nat -> ok (get (p + Z.of_nat i * sz))) -> ok (r_elems get sz p n).
Proof. intros H. apply all_ok. intros r IN. apply in_map_iff in IN as (i & <- & IN). apply in_seq in IN. apply H. lia. Qed.
Lemma elems_ext {A} (get get' : Z -> mres A) sz p n : (forall i, (i < n)%nat -> get (p + Z.of_nat i * sz) = get' (p + Z.of_nat i * sz)) -> r_elems get sz p n = r_elems get' sz p n.
Proof. intros H. unfold r_elems. f_equal. apply map_ext_in. intros i IN. apply in_seq in IN. apply H. lia. Qed.

Section Safe.
Context (V : tenv) (W : menv) (L : layout) (xv : nat -> jfield -> st -> Z -> bool) (LO : lay_ok V L) (ET : env_typed V).
Notation size := (l_size L).
Notation typed := (typed V L).
Notation good := (good V L).
Notation within := (within V L).
Notation m_view := (m_view V W L xv).
Notation view := (view V W).

Section Mem.
Context (h : st) (T : vars) (G : good h T).
Lemma slice_at t e a : slice_elem t = Some e -> T a (KVar t) ->
  exists d len cap, rd_slice (hp h a) = Some (d, len, cap) /\ (len <= cap)%nat /\ match d with Some p => typed T (YArray cap e) p | None => cap = O end.
Proof.
  intros SE TA. destruct (proj1 G _ _ TA) as [_ C]. destruct t; try discriminate; cbn in C; destruct C as (e' & d & len & cap & E & H); cbn in SE; rewrite SE in E; injection E as <-; eauto.
Qed.
Lemma map_at t k e a : map_elem t = Some (k, e) -> T a (KVar t) ->
  exists q, rd_map (hp h a) = Some q /\ forall m, q = Some m -> exists l, T m (KMap k e) /\ rd_obj (hp h m) = Some l /\ forall key s, In (key, s) l -> key_fits k key /\ typed T e s.
Proof.
  intros ME TA. destruct (proj1 G _ _ TA) as [_ C]. destruct t; try discriminate; cbn in C; destruct C as (k' & e' & q & E & RD & H); cbn in ME; rewrite ME in E; injection E as <- <-;
    (exists q; split; [exact RD|]; intros m ->; specialize (H m eq_refl); destruct (proj1 G _ _ H) as [_ (l & RO & _ & HL)]; eauto).
Qed.
Lemma leaf_at t a : leafy t = true -> T a (KVar t) -> exists m, rd_leaf V t (hp h a) = Some m /\ fits V t m.
Proof. intros LF TA. destruct (proj1 G _ _ TA) as [_ C]. destruct t; try discriminate; exact C. Qed.
Lemma ptr_at e a : T a (KVar (YPtr e)) -> exists p, rd_ptr (hp h a) = Some p /\ forall v, p = Some v -> typed T e v.
Proof. intros TA. exact (proj2 (proj1 G _ _ TA)). Qed.

Lemma slice_safe {A} (get : Z -> mres A) t e a : slice_elem t = Some e -> T a (KVar t) -> (forall x, typed T e x -> ok (get x)) -> ok (r_slice h get (stride L e) a).
Proof.
  intros SE TA HG. destruct (slice_at t e a SE TA) as (d & len & cap & RD & LE & TD). unfold r_slice. rewrite RD. cbn [of_opt mbind]. rewrite (stride_size V L LO). destruct d as [p|].
  - apply map_ok, elems_safe. intros i LT. apply HG. eapply typed_elem; [exact LO|exact TD|lia].
  - subst cap. destruct len; [discriminate|lia].
Qed.
Lemma map_safe {K A} (key : mkey -> option K) (get : Z -> mres A) t k e a : map_elem t = Some (k, e) -> T a (KVar t) -> (forall x, key_fits k x -> key x <> None) ->
  (forall x, typed T e x -> ok (get x)) -> ok (r_map h key get a).
Proof.
  intros ME TA HK HG. destruct (map_at t k e a ME TA) as (q & RD & HQ). unfold r_map. rewrite RD. cbn [of_opt mbind]. destruct q as [q|]; [|discriminate].
  destruct (HQ q eq_refl) as (l & _ & RO & HL). rewrite RO. cbn [of_opt mbind]. apply map_ok, all_ok. intros r IN. apply in_map_iff in IN as ([kx s] & <- & IN). destruct (HL _ _ IN) as [KF TS]. cbn [fst snd].
  apply bind_ok; [specialize (HK kx KF); destruct (key kx); [discriminate|congruence]|]. intros x _. apply map_ok, HG, TS.
Qed.
Lemma view_key_fits k x : key_fits k x -> view_key W k x <> None.
Proof. destruct k, x; cbn; try contradiction; discriminate. Qed.
Lemma leaf_safe n t a : leafy t = true -> typed T t a -> ok (m_view h n t a).
Proof.
  intros LF TA. assert (TK : T a (KVar t)) by (apply (typed_one V L); [destruct t; try discriminate; exact I|exact TA]). destruct (leaf_at t a LF TK) as (m & RD & FM).
  rewrite (m_view_eq V W L xv). unfold r_cell. rewrite RD. destruct t; try discriminate; inversion FM; subst; discriminate.
Qed.
Lemma empty_safe t a : typed T t a -> exists e, r_empty V W h t a = Some e.
Proof.
  intros TA. assert (TK : one t -> T a (KVar t)) by (intros O; apply (typed_one V L); [exact O|exact TA]).
  destruct t; cbn [r_empty]; try (eexists; reflexivity); try (match type of TA with SpecVars.typed _ _ _ ?t _ => destruct (leaf_at t a eq_refl (TK I)) as (m & RD & _) end; rewrite RD; eexists; reflexivity).
  - destruct (slice_at YBytes _ a eq_refl (TK I)) as (d & len & cap & RD & _). rewrite RD. eexists; reflexivity.
  - destruct (slice_at (YSlice _) _ a eq_refl (TK I)) as (d & len & cap & RD & _). rewrite RD. eexists; reflexivity.
  - destruct (map_at (YMap _ _) _ _ a eq_refl (TK I)) as (q & RD & HQ). rewrite RD. destruct q as [q|]; [|eexists; reflexivity]. destruct (HQ q eq_refl) as (l & _ & RO & _). rewrite RO. eexists; reflexivity.
  - destruct (map_at YMapSI _ _ a eq_refl (TK I)) as (q & RD & HQ). rewrite RD. destruct q as [q|]; [|eexists; reflexivity]. destruct (HQ q eq_refl) as (l & _ & RO & _). rewrite RO. eexists; reflexivity.
  - destruct (map_at YMapSR _ _ a eq_refl (TK I)) as (q & RD & HQ). rewrite RD. destruct q as [q|]; [|eexists; reflexivity]. destruct (HQ q eq_refl) as (l & _ & RO & _). rewrite RO. eexists; reflexivity.
  - destruct (ptr_at _ a (TK I)) as (p & RD & _). rewrite RD. eexists; reflexivity.
Qed.
Lemma path_safe t p u get : leads V t p u -> (forall a, typed T u a -> ok (get a)) -> forall i a, (p = [] \/ t = YStruct i) -> typed T t a ->
  let '(o, g) := r_field V L h p i get in ok (g (a + o)) /\ (direct p = true -> typed T u (a + o)).
Proof.
  intros LD HG. induction LD as [t|i0 k u p t NU LD IH|i0 k j un p t NU LD IH]; intros i a TI TA.
  - cbn. rewrite Z.add_0_r. auto.
  - assert (i0 = i) by (destruct TI as [X|X]; [discriminate|congruence]). subst i0. cbn [r_field]. rewrite NU. pose proof (typed_field V L LO T i a k u TA NU) as TF.
    set (j := match u with YStruct j => j | _ => O end). specialize (IH HG j (a + l_off L i k)). destruct (r_field V L h p j get) as [o g]. rewrite Z.add_assoc. apply IH; [|exact TF]. inversion LD; subst; auto.
  - assert (i0 = i) by (destruct TI as [X|X]; [discriminate|congruence]). subst i0. cbn [r_field]. pose proof (typed_field V L LO T i a k _ TA NU) as TF.
    apply (typed_one V L) in TF; [|exact I]. destruct (ptr_at _ _ TF) as (q & RD & TQ). specialize (IH HG j). destruct (r_field V L h p j get) as [o g]. split; [|discriminate].
    unfold r_emb. rewrite RD. cbn [of_opt mbind]. destruct q as [v|]; [|discriminate]. apply map_ok. apply (IH v (or_intror eq_refl) (TQ v eq_refl)).
Qed.
Theorem view_safe : forall n t a, typed T t a -> ok (m_view h n t a).
Proof.
  induction n as [n IHn] using lt_wf_ind. induction t; intros a TA; try (apply leaf_safe; [reflexivity|exact TA]);
    (assert (TK : one _ -> T a (KVar _)) by (intros O; apply (typed_one V L); [exact O|exact TA])); rewrite (m_view_eq V W L xv).
  - apply map_ok, (slice_safe _ YBytes); [reflexivity|apply TK; exact I|]. intros x TX. apply (typed_one V L) in TX; [|exact I]. destruct (leaf_at (YInt TUint8) x eq_refl TX) as (m & RD & FM).
    unfold r_cell. rewrite RD. inversion FM; subst. discriminate.
  - apply map_ok, elems_safe. intros i LT. rewrite (stride_size V L LO). apply IHt. eapply typed_elem; eassumption.
  - apply map_ok, (slice_safe _ (YSlice t)); [reflexivity|apply TK; exact I|exact IHt].
  - apply map_ok, (map_safe _ _ (YMap k t) k t); [reflexivity|apply TK; exact I|apply view_key_fits|exact IHt].
  - apply map_ok, (map_safe _ _ YMapSI KYString YIface); [reflexivity|apply TK; exact I|intros []; cbn; try contradiction; discriminate|].
    intros x TX. apply (typed_one V L) in TX; [|exact I]. destruct (leaf_at YIface x eq_refl TX) as (m & RD & FM). unfold r_cell. rewrite RD. inversion FM; subst. discriminate.
  - apply map_ok, (map_safe _ _ YMapSR KYString YRaw); [reflexivity|apply TK; exact I|intros []; cbn; try contradiction; discriminate|].
    intros x TX. apply (typed_one V L) in TX; [|exact I]. destruct (leaf_at YRaw x eq_refl TX) as (m & RD & FM). unfold r_cell. rewrite RD. inversion FM; subst. discriminate.
  - destruct (ptr_at _ a (TK I)) as (p & RD & TP). rewrite RD. cbn [of_opt mbind]. destruct p as [v|]; [|discriminate]. apply map_ok, IHt, TP, eq_refl.
  - destruct n as [|n]; [discriminate|]. apply map_ok, all_ok. intros r IN. apply in_map_iff in IN as (f & <- & IN).
    pose proof (path_safe _ _ _ (fun a => mmap (view_quot (jf_quot f)) (m_view h n (jf_ty f) a)) (et_path V ET i f IN)) as PS. specialize (fun H => PS H i a (or_intror eq_refl) TA).
    destruct (r_field V L h (jf_path f) i _) as [o g]. destruct PS as [P1 P2]; [intros a' TA'; apply map_ok, IHn; [lia|exact TA']|].
    apply bind_ok; [destruct (direct (jf_path f)); [|discriminate]; destruct (empty_safe _ _ (P2 eq_refl)) as (e & ->); discriminate|]. intros e _. apply map_ok, P1.
Qed.

(** ** Only what can be reached from the type is read *)
Context (h' : st) (XV : forall i f a, xv i f h' a = xv i f h a).
(** [alike t]: what can be reached from a variable of type t, other than padding, is the same in h'. *)
Definition alike (t : gty) : Prop := forall x k, T x k -> within t k -> k <> KPad -> hp h' x = hp h x.
Lemma alike_sub t e : alike t -> (forall k, within e k -> within t k) -> alike e.
Proof. intros H S x k TX WK. apply (H x k TX), S, WK. Qed.
Lemma alike_at t a : alike t -> one t -> T a (KVar t) -> hp h' a = hp h a.
Proof. intros H O TA. apply (H a _ TA); [apply within_self, O|discriminate]. Qed.
Lemma slice_same {A} (get get' : Z -> mres A) t e a : slice_elem t = Some e -> T a (KVar t) -> hp h' a = hp h a -> (forall x, typed T e x -> get' x = get x) ->
  r_slice h' get' (stride L e) a = r_slice h get (stride L e) a.
Proof.
  intros SE TA HA HG. destruct (slice_at t e a SE TA) as (d & len & cap & RD & LE & TD). unfold r_slice. rewrite HA, RD. cbn [of_opt mbind]. rewrite (stride_size V L LO). destruct d as [p|]; [|reflexivity].
  unfold mmap. erewrite elems_ext; [reflexivity|]. intros i LT. apply HG. eapply typed_elem; [exact LO|exact TD|lia].
Qed.
Lemma map_same {K A} (key : mkey -> option K) (get get' : Z -> mres A) t k e a : map_elem t = Some (k, e) -> T a (KVar t) -> alike t -> (forall x, typed T e x -> get' x = get x) ->
  r_map h' key get' a = r_map h key get a.
Proof.
  intros ME TA AL HG. assert (O : one t) by (destruct t; try discriminate; exact I). destruct (map_at t k e a ME TA) as (q & RD & HQ). unfold r_map. rewrite (alike_at t a AL O TA), RD. cbn [of_opt mbind]. destruct q as [q|]; [|reflexivity].
  destruct (HQ q eq_refl) as (l & TQ & RO & HL). rewrite (AL q _ TQ), RO by (first [discriminate | eapply within_map; exact ME]). cbn [of_opt mbind]. unfold mmap. f_equal. f_equal. apply map_ext_in. intros [kx s] IN. cbn [fst snd].
  destruct (key kx); [|reflexivity]. cbn [of_opt mbind]. rewrite (HG s); [reflexivity|]. apply (HL _ _ IN).
Qed.
Lemma leaf_same n t a : leafy t = true -> typed T t a -> alike t -> m_view h' n t a = m_view h n t a.
Proof.
  intros LF TA AL. assert (O : one t) by (destruct t; try discriminate; exact I). apply (typed_one V L) in TA; [|exact O].
  rewrite !(m_view_eq V W L xv). unfold r_cell. rewrite (alike_at t a AL O TA). destruct t; try discriminate; reflexivity.
Qed.
Lemma empty_same t a : typed T t a -> alike t -> r_empty V W h' t a = r_empty V W h t a.
Proof.
  intros TA AL. assert (TK : one t -> T a (KVar t)) by (intros O; apply (typed_one V L); [exact O|exact TA]). assert (AT : one t -> hp h' a = hp h a) by (intros O; apply (alike_at t); auto).
  destruct t; cbn [r_empty]; try reflexivity; try (rewrite (AT I)); try reflexivity.
  - destruct (map_at (YMap _ _) _ _ a eq_refl (TK I)) as (q & -> & HQ). destruct q as [q|]; [|reflexivity]. destruct (HQ q eq_refl) as (l & TQ & _). rewrite (AL q _ TQ); [reflexivity|eapply within_map; reflexivity|discriminate].
  - destruct (map_at YMapSI _ _ a eq_refl (TK I)) as (q & -> & HQ). destruct q as [q|]; [|reflexivity]. destruct (HQ q eq_refl) as (l & TQ & _). rewrite (AL q _ TQ); [reflexivity|eapply within_map; reflexivity|discriminate].
  - destruct (map_at YMapSR _ _ a eq_refl (TK I)) as (q & -> & HQ). destruct q as [q|]; [|reflexivity]. destruct (HQ q eq_refl) as (l & TQ & _). rewrite (AL q _ TQ); [reflexivity|eapply within_map; reflexivity|discriminate].
Qed.
Lemma path_same t p u get get' : leads V t p u -> (forall a, typed T u a -> get' a = get a) -> forall i a, (p = [] \/ t = YStruct i) -> typed T t a -> alike t ->
  let '(o, g) := r_field V L h p i get in let '(o', g') := r_field V L h' p i get' in o' = o /\ g' (a + o) = g (a + o) /\ (direct p = true -> typed T u (a + o)).
Proof.
  intros LD HG. induction LD as [t|i0 k u p t NU LD IH|i0 k j un p t NU LD IH]; intros i a TI TA AL.
  - cbn. rewrite Z.add_0_r. auto.
  - assert (i0 = i) by (destruct TI as [X|X]; [discriminate|congruence]). subst i0. cbn [r_field]. rewrite NU. pose proof (typed_field V L LO T i a k u TA NU) as TF.
    set (j := match u with YStruct j => j | _ => O end). specialize (IH HG j (a + l_off L i k)). destruct (r_field V L h p j get) as [o g], (r_field V L h' p j get') as [o' g']. rewrite Z.add_assoc.
    destruct IH as (-> & E & TD); [inversion LD; subst; auto|exact TF|eapply alike_sub; [exact AL|intros kk; eapply within_field, NU]|]. auto.
  - assert (i0 = i) by (destruct TI as [X|X]; [discriminate|congruence]). subst i0. cbn [r_field]. pose proof (typed_field V L LO T i a k _ TA NU) as TF.
    assert (AP : alike (YPtr (YStruct j))) by (eapply alike_sub; [exact AL|intros kk; eapply within_field, NU]).
    apply (typed_one V L) in TF; [|exact I]. destruct (ptr_at _ _ TF) as (q & RD & TQ). specialize (IH HG j). destruct (r_field V L h p j get) as [o g], (r_field V L h' p j get') as [o' g']. split; [reflexivity|]. split; [|discriminate].
    unfold r_emb. rewrite (alike_at _ _ AP I TF), RD. cbn [of_opt mbind]. destruct q as [v|]; [|reflexivity].
    destruct (IH v (or_intror eq_refl) (TQ v eq_refl)) as (-> & E & _); [eapply alike_sub; [exact AP|intros kk; apply within_ptr]|]. unfold mmap. rewrite E. reflexivity.
Qed.
Theorem view_same : forall n t a, typed T t a -> alike t -> m_view h' n t a = m_view h n t a.
Proof.
  induction n as [n IHn] using lt_wf_ind. induction t; intros a TA AL; try (apply leaf_same; [reflexivity|exact TA|exact AL]);
    (assert (TK : one _ -> T a (KVar _)) by (intros O; apply (typed_one V L); [exact O|exact TA])); rewrite !(m_view_eq V W L xv); unfold mmap.
  - erewrite (slice_same _ _ YBytes); [reflexivity|reflexivity|apply TK; exact I|apply (alike_at _ _ AL I (TK I))|]. intros x TX. apply (typed_one V L) in TX; [|exact I].
    unfold r_cell. rewrite (AL x _ TX); [reflexivity| |discriminate]. eapply within_slice; [reflexivity|]. apply within_self. exact I.
  - erewrite elems_ext; [reflexivity|]. intros i LT. rewrite (stride_size V L LO). apply IHt; [eapply typed_elem; eassumption|]. eapply alike_sub; [exact AL|]. intros kk. apply within_elem. lia.
  - erewrite (slice_same _ _ (YSlice t)); [reflexivity|reflexivity|apply TK; exact I|apply (alike_at _ _ AL I (TK I))|]. intros x TX. apply IHt; [exact TX|]. eapply alike_sub; [exact AL|]. intros kk. apply within_slice. reflexivity.
  - erewrite (map_same _ _ _ (YMap k t)); [reflexivity|reflexivity|apply TK; exact I|exact AL|]. intros x TX. apply IHt; [exact TX|]. eapply alike_sub; [exact AL|]. intros kk. eapply within_val. reflexivity.
  - erewrite (map_same _ _ _ YMapSI); [reflexivity|reflexivity|apply TK; exact I|exact AL|]. intros x TX. apply (typed_one V L) in TX; [|exact I]. unfold r_cell. rewrite (AL x _ TX); [reflexivity| |discriminate]. eapply within_val; [reflexivity|]. apply within_self. exact I.
  - erewrite (map_same _ _ _ YMapSR); [reflexivity|reflexivity|apply TK; exact I|exact AL|]. intros x TX. apply (typed_one V L) in TX; [|exact I]. unfold r_cell. rewrite (AL x _ TX); [reflexivity| |discriminate]. eapply within_val; [reflexivity|]. apply within_self. exact I.
  - rewrite (alike_at _ _ AL I (TK I)). destruct (ptr_at _ a (TK I)) as (p & RD & TP). rewrite RD. cbn [of_opt mbind]. destruct p as [v|]; [|reflexivity]. rewrite IHt; [reflexivity|apply TP, eq_refl|]. eapply alike_sub; [exact AL|]. intros kk. apply within_ptr.
  - destruct n as [|n]; [reflexivity|]. f_equal. f_equal. apply map_ext_in. intros f IN. pose proof (et_path V ET i f IN) as LD.
    pose proof (path_same _ _ _ (fun a => mbind (m_view h n (jf_ty f) a) (fun x => MOk (view_quot (jf_quot f) x))) (fun a => mbind (m_view h' n (jf_ty f) a) (fun x => MOk (view_quot (jf_quot f) x))) LD) as PS.
    assert (AF : alike (jf_ty f)) by (eapply alike_sub; [exact AL|intros kk; apply (leads_within V L _ _ _ LD)]).
    specialize (fun H => PS H i a (or_intror eq_refl) TA AL). destruct (r_field V L h (jf_path f) i _) as [o g], (r_field V L h' (jf_path f) i _) as [o' g'].
    destruct PS as (-> & E & TD); [intros a' TA'; rewrite IHn; [reflexivity|lia|exact TA'|exact AF]|]. rewrite E, XV. destruct (direct (jf_path f)); [|reflexivity]. rewrite (empty_same _ _ (TD eq_refl) AF). reflexivity.
Qed.
End Mem.
End Safe.
