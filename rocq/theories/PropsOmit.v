(** C56: which fields of a struct are written. *)
From Verif Require Import Bytes StringModel IntModel EncModel DecModel SpecJson SpecString SpecRender SpecColor SpecTrip DocFacts EncMain PropsEnc TypeModel SpecFit SpecField ViewModel SpecSame TypeMain TypeSound ViewFacts TripClean TripType PropsType PropsTrip WordModel SpecOmit.
Local Open Scope Z_scope.

Lemma is_empty_value V W t m : fits V t m -> is_empty W t m = true <-> empty_value (fun s => o_empty W s = true) t m.
Proof.
  intros F. destruct F; cbn [is_empty]; split; intros HE; try discriminate;
    try (inversion HE; subst; reflexivity);
    try (inversion HE; subst; assumption).
  - destruct x; [discriminate|constructor].
  - apply Z.eqb_eq in HE. subst. constructor.
  - destruct f; try discriminate. constructor.
  - destruct s; [constructor|discriminate].
  - destruct s; [constructor|discriminate].
  - destruct s as [[[|n] d]|]; try discriminate; constructor.
  - apply Z.eqb_eq in HE. subst. constructor.
  - destruct v; try discriminate. constructor.
  - destruct v; try discriminate. constructor.
  - destruct r as [[|? ?]|]; try discriminate; constructor.
  - destruct n; [|discriminate]. destruct l; [constructor|discriminate].
  - constructor.
  - destruct len; [constructor|discriminate].
  - constructor.
  - destruct m; [constructor|discriminate].
  - constructor. destruct m as [[|? ?]|]; try discriminate; auto.
  - inversion HE as [| | | | | | | | | | | | | | |? [-> | ->]| | | | | |]; reflexivity.
  - constructor. destruct m as [[|? ?]|]; try discriminate; auto.
  - inversion HE as [| | | | | | | | | | | | | | | |? [-> | ->]| | | | |]; reflexivity.
  - constructor.
  - constructor. exact HE.
  - constructor. exact HE.
Qed.
Lemma test_get p q m : direct p = true -> test_path p q m = true <-> exists x, get p m = Some x /\ q x = true.
Proof.
  revert m. induction p as [|a p IH]; intros m D.
  - cbn [test_path]. split; [intros H; exists m; split; [destruct m; reflexivity|exact H]|]. intros (x & E & H). destruct m; injection E as <-; exact H.
  - destruct a as [k|]; [|discriminate]. cbn [test_path]. destruct m; cbn [get]; try (split; [discriminate|intros (? & E & _); discriminate]).
    destruct (nth_error l k) as [y|]; [apply IH, D|split; [discriminate|intros (? & E & _); discriminate]].
Qed.
Lemma picks_filter {A B} (P : A -> Prop) (q : B -> bool) (R : A -> B -> Prop) (f : A -> bytes) (g : B -> bytes) l l' :
  Forall2 R l l' -> (forall a b, In a l -> R a b -> (q b = true <-> P a) /\ g b = f a) ->
  exists k, picks P l k /\ map g (filter q l') = map f k.
Proof.
  induction 1 as [|a b l l' H1 H IH]; intros HR; [exists []; split; [constructor|reflexivity]|].
  destruct IH as (k & K1 & K2); [intros; apply HR; [right|]; assumption|]. destruct (HR a b (or_introl eq_refl) H1) as [E G]. cbn [filter].
  destruct (q b) eqn:Q.
  - exists (a :: k). split; [constructor; [apply E; reflexivity|exact K1]|]. cbn [map]. rewrite G, K2. reflexivity.
  - exists k. split; [apply pk_drop; [intros X; apply E in X; discriminate|exact K1]|exact K2].
Qed.

(** C56: the object written for a struct has exactly the wanted fields, in the
    order of the struct.  Missing: fields with omitempty behind an embedded
    pointer (see below); a dangling comma may follow a nil embedded pointer
    ([clean], C33). *)
Theorem C56_members_partial V W c n i m g out d : env_typed V -> fits V (YStruct i) m -> view V W n (YStruct i) m = Some g ->
  (forall f, In f (v_flds V i) -> o_omit W i f = true -> direct (jf_path f) = true) ->
  clean (e_sort c) (e_trust c) false g -> e_clrs c = None -> ind_all ws (e_ind c) -> enc c g [] 0 = ER out d None ->
  exists fs l, picks (wanted (o_omit W i) (fun s => o_empty W s = true) m) (v_flds V i) fs /\
    jvalue out (JObj l) /\ map fst l = map (fun f => json_string (e_html c) (jf_name f)) fs.
Proof.
  intros ET F E DR C HC HI EN. destruct (C33_encode_spec_partial c g [] 0 C (or_introl HC)) as [(x & VD & EX)|(_ & o & d' & e & EX)]; rewrite EN in EX; [|discriminate].
  injection EX as -> _. rewrite HC. cbn [app]. inversion F as [| | | | | | | | | | | | | | | | | | | |? l FL| | |]; subst.
  apply view_struct in E as (n' & fs & -> & -> & FV).
  assert (X : exists k, picks (wanted (o_omit W i) (fun s => o_empty W s = true) (MList l)) (v_flds V i) k /\
    map (fun e => json_string (e_html c) (f_name (fst e))) (filter emitted fs) = map (fun f => json_string (e_html c) (jf_name f)) k).
  { apply (picks_filter _ _ _ (fun f => json_string (e_html c) (jf_name f)) _ _ _ FV). intros f hv IN H. destruct (field_cases V W _ _ _ _ _ H) as [EM _].
    destruct H as [-> _]. split; [|reflexivity]. rewrite EM. unfold left_out, wanted. destruct (get (jf_path f) (MList l)) as [y|] eqn:G.
    - assert (FY : fits V (jf_ty f) y) by (eapply get_fits; [apply (et_path V ET), IN|exact F|exact G]). split.
      + intros [N _]. exists y. split; [reflexivity|]. intros [O EV]. apply N. split; [exact O|]. unfold field_empty. rewrite (DR f IN O). apply test_get; [apply DR; assumption|].
        exists y. split; [exact G|]. apply (is_empty_value V W); assumption.
      + intros (z & [= <-] & N). split; [|discriminate]. intros [O T]. apply N. split; [exact O|]. unfold field_empty in T. rewrite (DR f IN O) in T.
        apply test_get in T as (z & G' & T); [|apply DR; assumption]. rewrite G in G'. injection G' as <-. apply (is_empty_value V W); assumption.
    - split; [intros [_ []]; reflexivity|intros (y & [=] & _)]. }
  destruct X as (k & PK & EQ).
  assert (ND : exists q xs, x = DObj q xs /\ map (fun e => snd (fst e)) xs = map (fun e => json_string (e_html c) (f_name (fst e))) (filter emitted fs)).
  { inversion VD; subst.
    - exists ONoFields, []. split; reflexivity.
    - match goal with H : Forall2 _ _ ?xs |- _ => exists OAllOmitted, xs; rename H into FX end. split; [reflexivity|]. clear - FX. induction FX as [|e y l l' [H _] FX IH]; [reflexivity|]. cbn [map]. rewrite H, IH. reflexivity. }
  destruct ND as (q & xs & -> & EQ2).
  pose proof (render_jvalue (e_html c) (e_ind c) HI _ (vdoc_ok _ _ _ _ _ _ C VD) 0) as J. cbn [dast] in J.
  eexists k, _. split; [exact PK|]. split; [exact J|]. rewrite <- EQ, <- EQ2, map_map. apply map_ext. intros [[? ?] ?]. reflexivity.
Qed.
Print Assumptions C56_members_partial.
(** A case: every field that is not behind the embedded pointer is omitempty. *)
Definition om_menv : menv := MEnv (fun _ s => inl (Some s)) (fun _ s => inl s) (fun i f => direct (jf_path f)) (fun s => match s with [] => true | _ => false end) (fun _ _ _ => false).
Definition om_value : mem :=
  MList [MInt 0; MStr []; MPtr (Some (MList [MBool false; MIface JVNull])); MSlice (Some (0%nat, [MPtr None])); MPtr None;
         MList [MTime (bs "0001-01-01T00:00:00Z"); MBytes (Some (2%nat, [1; 2; 9])); MMap (Some [])]].
Definition om_cfg : cfg := Cfg true true false None None (fun _ _ _ => None).
Example C56_case : env_typed ex_env /\ fits ex_env (YStruct 0) om_value /\ exists g,
  view ex_env om_menv 3 (YStruct 0) om_value = Some g /\
  (forall f, In f (v_flds ex_env 0) -> o_omit om_menv 0 f = true -> direct (jf_path f) = true) /\
  clean true false false g /\
  enc om_cfg g [] 0 = ER (bs "{""ok"":false,""any"":null,""at"":""0001-01-01T00:00:00Z"",""data"":""AQI=""}") 0 None.
Proof.
  split; [apply ex_env_typed|]. split.
  { repeat first [apply Forall_nil | apply Forall_cons | apply Forall2_nil | apply Forall2_cons | constructor; cbn; unfold u8, key_fits; try lia]. }
  eexists. split; [vm_compute; reflexivity|]. split; [intros f _ H; exact H|]. split; [|vm_compute; reflexivity].
  cbn [clean all map fold_right f_name]. split.
  - eexists [], _. split; [reflexivity|]. split; [reflexivity|]. repeat (constructor; [cbn; auto|]). constructor.
  - unfold wf, is_byte, time_char. repeat split; repeat (apply Forall_cons; [lia|]); try apply Forall_nil; try exact I.
Qed.

(** The tests themselves, on memory: right for the fields in the struct itself,
    except interfaces. *)
Theorem C56_test_partial : forall k h s off, k <> TInterface -> (field_test k h s (FHere off) = true <-> zero_at k h (field_at h s (FHere off))).
Proof. intros k h s off NI. unfold field_test. cbn [field_at]. destruct k; cbn [empty_test zero_at]; try congruence; apply Z.eqb_eq. Qed.
(** An interface holding a nil pointer counts as empty, although it is not nil;
    a nil interface does, too. *)
Theorem C56_interface_refuted :
  (exists h a, ~ zero_at TInterface h a /\ empty_test TInterface h a = true) /\
  (forall h a, zero_at TInterface h a -> empty_test TInterface h a = true).
Proof.
  split.
  - exists (fun a => if a =? 0 then 5 else 0), 0. split; [intros [H _]; discriminate|reflexivity].
  - intros h a [_ H]. cbn. rewrite H. reflexivity.
Qed.
(** A field behind an embedded pointer: the test reads the pointer.  So for
    every kind there is memory in which it takes a zero for a value, and
    for every kind but pointers and 64-bit numbers memory in which it takes a
    value for empty; a non-nil pointer itself is never taken for 0. *)
Theorem C56_behind_pointer_refuted :
  (forall k, exists h s off sub, h (s + off) <> 0 /\ field_test k h s (FBehind off sub) = false /\ zero_at k h (field_at h s (FBehind off sub))) /\
  (forall k, k = T8 \/ k = T16 \/ k = T32 \/ k = TLen \/ k = TInterface ->
     exists h s off sub, h (s + off) <> 0 /\ field_test k h s (FBehind off sub) = true /\ ~ zero_at k h (field_at h s (FBehind off sub))).
Proof.
  split.
  - intros k. exists (fun a => if a <? 10 then 101 else 0), 0, 0, 0. split; [discriminate|]. destruct k; vm_compute; auto.
  - intros k K. exists (fun a => if a =? 0 then 2 ^ 32 else if a =? 1 then 0 else 77), 0, 0, 0. split; [discriminate|].
    destruct K as [-> |[-> |[-> |[-> | ->]]]]; (split; [vm_compute; reflexivity|vm_compute]); try discriminate. intros [H _]. discriminate.
Qed.
Print Assumptions C56_test_partial.
Print Assumptions C56_interface_refuted.
Print Assumptions C56_behind_pointer_refuted.
