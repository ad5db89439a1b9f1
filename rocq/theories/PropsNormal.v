(** C89: equal values are written as equal bytes, and what was written is
    written again the same after reading it. *)
From Verif Require Import Bytes ParseModel IntModel StringModel EncModel DecModel EncoderModel SpecJson SpecString SpecEnc SpecColor SpecTokens SpecRender SpecDec SpecTrip SpecRaw ParseFacts Utf8Facts IntFacts
  StringFacts EncFacts RawFacts EncMain TextFacts DocFacts DecFacts TripFacts PropsDec PropsEnc
  TypeModel SpecType SpecFit SpecField NodeFacts TypeLoops TypeFacts TypeMain TypeSound TypeSafe ExactFloat PropsType ViewModel SpecSame ViewFacts TripClean TripType ViewTotal PropsTrip
  B64Model FloatModel SpecFloat TimeModel SpecTime DurModel PropsB64 PropsFloat PropsTime PropsDur SpecStd StdFacts PropsStd SpecNormal NormalFacts.
Local Open Scope Z_scope.

(** Whatever the type and the text, Unmarshal stores no key of a map twice. *)
Theorem C89_distinct_keys : forall V F t b a x y, env_ok V -> jtext b a -> solid x -> unmarshal V F t b x = (None, y) -> solid y.
Proof.
  intros V F t b a x y OK J S U. destruct (C42_every_text b a J) as (w1 & nd & w2 & -> & W1 & JN & W2 & _).
  apply (C42_accepts_iff V F t w1 nd w2 x y OK W1 JN W2) in U. eapply stores_solid; eassumption.
Qed.

Lemma again_bytes V W F c t m m' n n' g g' b d : env_names V -> omit_direct V W ->
  trip V W F t m -> again V W (e_html c) t m m' -> solid m' -> e_sort c = true -> e_clrs c = None ->
  view V W n t m = Some g -> view V W n' t m' = Some g' -> enc c g b d = enc c g' b d /\ exists out, enc c g b d = ER out d None.
Proof.
  intros NM RE T S SO HS HC E E'. pose proof (trip_same V W F _ RE t m T m' S SO) as T'.
  pose proof (view_clean V W F NM (e_sort c) (e_trust c) n t m g E T) as C. pose proof (view_clean V W F NM (e_sort c) (e_trust c) n' t m' g' E' T') as C'.
  destruct (C33_encode_spec_partial c g b d C (or_introl HC)) as [(x & VD & EN)|(N & _)].
  2:{ exfalso. destruct (view_doc V W F (e_html c) (e_sort c) (e_trust c) n t m g E T) as (x & VD). exact (N x VD). }
  destruct (C33_encode_spec_partial c g' b d C' (or_introl HC)) as [(x' & VD' & EN')|(N & _)].
  2:{ exfalso. destruct (view_doc V W F (e_html c) (e_sort c) (e_trust c) n' t m' g' E' T') as (x' & VD'). exact (N x' VD'). }
  rewrite HS in VD, VD'. rewrite (doc_same V W F (e_html c) RE (e_trust c) t m T m' S T' n n' g g' x x' E E' VD VD') in *.
  split; [rewrite EN, EN'; reflexivity|eexists; exact EN].
Qed.
(** The bytes depend on the content alone: not on the order in which a map is
    iterated, nor on capacities.  For types without json.RawMessage. *)
Theorem C89_equal_bytes_partial : forall V W F c t m m' n n' g g' b d, env_names V -> raw_free t -> raw_free_env V -> omit_direct V W ->
  trip V W F t m -> same V t m m' -> solid m' -> e_sort c = true -> e_clrs c = None ->
  view V W n t m = Some g -> view V W n' t m' = Some g' -> enc c g b d = enc c g' b d /\ exists out, enc c g b d = ER out d None.
Proof.
  intros V W F c t m m' n n' g g' b d NM RF RE OD T S SO HS HC E E'. eapply again_bytes; try eassumption. apply same_again; assumption.
Qed.
(** Marshal, Unmarshal, Marshal: the second output is the first, for every type. *)
Theorem C89_normal_form_partial : forall V W F c t m n g, env_ok V -> env_typed V -> env_names V -> omit_direct V W -> fits V t m -> trip V W F t m ->
  e_sort c = true -> e_clrs c = None -> ind_all ws (e_ind c) -> view V W n t m = Some g ->
  exists out m' n' g', enc c g [] 0 = ER out 0 None /\ unmarshal V F t out (zero V t) = (None, m') /\ view V W n' t m' = Some g' /\ enc c g' [] 0 = ER out 0 None.
Proof.
  intros V W F c t m n g OK ET NM RE FM T HS HC HI E.
  destruct (trip_again V W F c t m n g OK ET NM FM T HC HI E) as (out & m' & EN & U & S).
  pose proof (view_clean V W F NM (e_sort c) (e_trust c) n t m g E T) as C.
  assert (X : exists a, jtext out a).
  { destruct (C33_encode_spec_partial c g [] 0 C (or_introl HC)) as [(x & VD & EN')|(N & _)].
    2:{ exfalso. destruct (view_doc V W F (e_html c) (e_sort c) (e_trust c) n t m g E T) as (x & VD). exact (N x VD). }
    rewrite EN in EN'. injection EN' as ->. rewrite HC. cbn [app]. eexists. apply jvalue_jtext. apply (render_jvalue (e_html c) (e_ind c) HI x (vdoc_ok _ _ _ _ _ _ C VD) 0). }
  destruct X as (a & J). assert (WB : wf out).
  { destruct J as (w1 & s & w2 & -> & W1 & JV & W2). apply Forall_app. split; [apply ws_wf, W1|]. apply Forall_app. split; [eapply (proj1 jvalue_wf), JV|apply ws_wf, W2]. }
  assert (FM' : fits V t m').
  { pose proof (proj1 (C43_memory_safe V F t out (zero V t) OK ET WB (C43_zero_fits V t ET))) as X. rewrite U in X. exact X. }
  destruct (C50_view_exists V W t m' ET NM FM') as (n' & g' & E'). exists out, m', n', g'. split; [exact EN|]. split; [exact U|]. split; [exact E'|].
  rewrite <- EN. symmetry. eapply again_bytes; try eassumption. eapply C89_distinct_keys; [exact OK|exact J|apply zero_solid|exact U].
Qed.
Theorem C89_marshal_partial : forall V W F ind t m n g, env_ok V -> env_typed V -> env_names V -> omit_direct V W -> fits V t m -> trip V W F t m ->
  view V W n t m = Some g ->
  exists out m' n' g', marshal ind g = Some (out, None) /\ unmarshal V F t out (zero V t) = (None, m') /\ view V W n' t m' = Some g' /\ marshal ind g' = Some (out, None).
Proof.
  intros V W F ind t m n g OK ET NM RE FM T E.
  destruct (C89_normal_form_partial V W F (marshal_cfg ind) t m n g OK ET NM RE FM T eq_refl eq_refl I E) as (out & m' & n' & g' & A & B & C & D).
  exists out, m', n', g'. unfold marshal. rewrite A, D. auto.
Qed.
(** What any number of calls of Unmarshal left in a variable: Marshal's output
    for it is a normal form. *)
Theorem C89_filled_partial : forall V W F ind t m, env_ok V -> env_typed V -> env_names V -> std_env V W -> std_lib V -> std_ty t ->
  omit_direct V W -> filled V F t m ->
  exists n g out m' n' g', view V W n t m = Some g /\ marshal ind g = Some (out, None) /\ unmarshal V F t out (zero V t) = (None, m') /\ view V W n' t m' = Some g' /\ marshal ind g' = Some (out, None).
Proof.
  intros V W F ind t m OK ET NM SE SL ST RE H. destruct (filled_deep V W F t m OK ET NM SE SL ST H) as [D FM]. destruct SL as (FL & TL & BL & DL).
  destruct (C50_view_exists V W t m ET NM FM) as (n & g & E). exists n, g.
  destruct (C89_marshal_partial V W F ind t m n g OK ET NM RE FM (deep_trip V W F SE BL t m D) E) as (out & m' & n' & g' & A). exists out, m', n', g'. tauto.
Qed.

(** * A case
      type Rec struct { M map[string]int8 `json:"m"`; K map[int8]*Rec `json:"k,omitempty"`; S []string `json:"s"`; Any interface{} `json:"any"` } *)
Definition nf_decl (i : nat) : list gty :=
  match i with 0%nat => [YMap KYString (YInt TInt8); YMap (KYInt TInt8) (YPtr (YStruct 0)); YSlice YString; YIface] | _ => [] end.
Definition nf_flds (i : nat) : list jfield :=
  match i with
  | 0%nat => [JField (bs "m") [PIn 0] (YMap KYString (YInt TInt8)) QNo; JField (bs "k") [PIn 1] (YMap (KYInt TInt8) (YPtr (YStruct 0))) QNo;
            JField (bs "s") [PIn 2] (YSlice YString) QNo; JField (bs "any") [PIn 3] YIface QNo]
  | _ => []
  end.
Definition nf_env : tenv := lib_env nf_decl 1 nf_flds.
Definition nf_menv : menv := MEnv (fun _ s => inl (Some s)) (fun _ s => inl s) (fun i f => beqb (jf_name f) (bs "k")) (fun s => match s with [] => true | _ => false end) (fun _ _ _ => false).
Ltac nf_fields := intros [|i] f; cbn [v_flds nf_env lib_env nf_flds In]; intros H; repeat destruct H as [<-|H]; try contradiction.
Lemma nf_ok : env_ok nf_env.
Proof. apply lib_env_ok. nf_fields; cbn; try congruence; auto. Qed.
Lemma nf_typed : env_typed nf_env.
Proof.
  apply lib_env_typed.
  - nf_fields; cbn [jf_path jf_ty]; repeat first [apply ld_here | eapply ld_in; [reflexivity|]].
  - exists (fun _ => 0%nat). split; [|intros; lia].
    intros [|i] u j; cbn [nf_decl In]; intros H; repeat destruct H as [<-|H]; try contradiction; cbn [holds In]; intros J; contradiction.
Qed.
Lemma nf_names : env_names nf_env.
Proof.
  constructor.
  - intros [|i]; cbn [v_flds nf_env lib_env nf_flds map jf_name]; repeat constructor; cbn [In]; intros H; repeat destruct H as [H|H]; try discriminate; contradiction.
  - nf_fields; cbn [jf_name]; apply ascii_utf8; vm_compute; repeat constructor; discriminate.
  - nf_fields; discriminate.
  - intros [|i] f g; cbn [v_flds nf_env lib_env nf_flds In]; intros H H'; repeat destruct H as [<-|H]; try contradiction; repeat destruct H' as [<-|H']; try contradiction; cbn [jf_name jf_path]; intros NE; try congruence;
      repeat first [apply apart_here; cbn; congruence | apply apart_next].
Qed.
Lemma nf_free : raw_free_env nf_env.
Proof. nf_fields; exact I. Qed.
Lemma nf_direct : omit_direct nf_env nf_menv.
Proof. nf_fields; reflexivity. Qed.
Definition nf_kid : mem := MList [MMap None; MMap None; MSlice None; MIface JVNull].
Definition nf_one : mem :=
  MList [MMap (Some [(MKStr (bs "b"), MInt 1); (MKStr (bs "a"), MInt 2)]); MMap (Some [(MKInt 7, MPtr (Some nf_kid)); (MKInt (-7), MPtr None)]);
         MSlice (Some (1%nat, [MStr (bs "x"); MStr (bs "old")])); MIface (JVMap [(bs "z", JVNull); (bs "y", JVBool true)])].
Definition nf_two : mem :=
  MList [MMap (Some [(MKStr (bs "a"), MInt 2); (MKStr (bs "b"), MInt 1)]); MMap (Some [(MKInt (-7), MPtr None); (MKInt 7, MPtr (Some nf_kid))]);
         MSlice (Some (1%nat, [MStr (bs "x")])); MIface (JVMap [(bs "y", JVBool true); (bs "z", JVNull)])].
Ltac nf_each := match goal with H : In _ _ |- _ => cbn [v_flds nf_env lib_env nf_flds In] in H; repeat destruct H as [<-|H]; try contradiction end.
Ltac nf_struct t :=
  apply tr_struct; [exists [], (v_flds nf_env 0%nat); split; [reflexivity|]; split; [constructor|]; repeat (constructor; [first [right; vm_compute; discriminate | left; vm_compute; split; reflexivity]|]); constructor
    | intros f y H G; nf_each; vm_compute in G; injection G as <-; (split; [|repeat constructor]); cbn [jf_ty]; t
    | intros f H Q; nf_each; cbn in Q; congruence
    | intros f H [O E]; nf_each; vm_compute in O; try discriminate; (split; [reflexivity|]); vm_compute in E |- *; first [reflexivity | discriminate]].
Lemma nf_kid_trip : trip nf_env nf_menv ex_flags (YStruct 0) nf_kid.
Proof.
  unfold nf_kid. nf_struct ltac:(first [apply tr_map0 | apply tr_slice0 | apply tr_iface; split; [constructor|]; intros ? X; inversion X]).
Qed.
Lemma nf_utf8 s : Forall (fun c => 0 <= c < 128) s -> valid_utf8 s.
Proof. apply ascii_utf8. Qed.
Lemma nf_trip : trip nf_env nf_menv ex_flags (YStruct 0) nf_one.
Proof.
  assert (U : forall c, 0 <= c <= 127 -> valid_utf8 [c]) by (intros c C; apply nf_utf8; repeat constructor; lia).
  assert (T1 : trip nf_env nf_menv ex_flags (YMap KYString (YInt TInt8)) (MMap (Some [(MKStr (bs "b"), MInt 1); (MKStr (bs "a"), MInt 2)]))).
  { apply tr_map; [repeat constructor; cbn [In]; intros H; repeat destruct H as [H|H]; try discriminate; contradiction|].
    constructor; [split; [apply (U 98); lia|apply tr_int; cbn; lia]|]. constructor; [split; [apply (U 97); lia|apply tr_int; cbn; lia]|]. constructor. }
  assert (T2 : trip nf_env nf_menv ex_flags (YMap (KYInt TInt8) (YPtr (YStruct 0))) (MMap (Some [(MKInt 7, MPtr (Some nf_kid)); (MKInt (-7), MPtr None)]))).
  { apply tr_map; [repeat constructor; cbn [In]; intros H; repeat destruct H as [H|H]; try discriminate; contradiction|].
    constructor; [split; [cbn; lia|apply tr_ptr; [apply nf_kid_trip|intros []]]|]. constructor; [split; [cbn; lia|apply tr_ptr0]|]. constructor. }
  assert (T3 : trip nf_env nf_menv ex_flags (YSlice YString) (MSlice (Some (1%nat, [MStr (bs "x"); MStr (bs "old")])))).
  { apply tr_slice; [cbn; lia|]. constructor; [|constructor]. apply tr_string, (U 120). lia. }
  assert (T4 : trip nf_env nf_menv ex_flags YIface (MIface (JVMap [(bs "z", JVNull); (bs "y", JVBool true)]))).
  { apply tr_iface. split.
    - cbn [tree map]. apply gt_map; [repeat constructor; cbn [In map fst]; intros H; repeat destruct H as [H|H]; try discriminate; contradiction|].
      constructor; [cbn [fst snd]; split; [reflexivity|]; split; [apply (U 122); lia|constructor]|]. constructor; [cbn [fst snd]; split; [reflexivity|]; split; [apply (U 121); lia|constructor]|]. constructor.
    - intros f X. inversion X as [| |? k v IN FX]; subst. cbn [In] in IN. repeat destruct IN as [IN|IN]; try contradiction; injection IN as <- <-; inversion FX. }
  unfold nf_one. nf_struct ltac:(first [exact T1 | exact T2 | exact T3 | exact T4]).
Qed.
Lemma nf_same : same nf_env (YStruct 0) nf_one nf_two.
Proof.
  assert (KS : same nf_env (YStruct 0) nf_kid nf_kid).
  { apply sm_struct; intros f; intros; nf_each; try (match goal with G : get _ _ = _ |- _ => vm_compute in G; first [discriminate | injection G as <-] end); (eexists; split; [reflexivity|]); cbn [jf_ty];
      first [apply sm_map0 | apply sm_slice0 | apply sm_iface, same_leaf; exact I]. }
  apply sm_struct; intros f; intros; nf_each; match goal with G : get _ _ = _ |- _ => vm_compute in G; first [discriminate | injection G as <-] end; (eexists; split; [reflexivity|]); cbn [jf_ty].
  - apply sm_map; intros a z IN; cbn [In] in IN; repeat destruct IN as [IN|IN]; try contradiction; injection IN as <- <-; (eexists; split; [|apply sm_leaf; exact I]); cbn [In]; auto.
  - apply sm_map; intros a z IN; cbn [In] in IN; repeat destruct IN as [IN|IN]; try contradiction; injection IN as <- <-; (eexists; split; [cbn [In]; first [left; reflexivity | right; left; reflexivity]|]); first [apply sm_ptr0 | apply sm_ptr; exact KS].
  - apply sm_slice; [cbn; lia|]. constructor; [apply sm_leaf; exact I|constructor].
  - apply sm_iface, same_map; intros a z IN; cbn [In] in IN; repeat destruct IN as [IN|IN]; try contradiction; injection IN as <- <-; (eexists; split; [|apply same_leaf; exact I]); cbn [In]; auto.
Qed.
Ltac solid_tac := repeat first [ progress cbn [snd] | apply so_list | apply so_slice | apply so_map | apply so_ptr | apply so_iface | apply js_map | apply js_arr | apply Forall_nil | apply Forall_cons
  | (apply so_leaf; exact I) | (apply js_leaf; exact I) | (repeat constructor; cbn [In map fst]; intros X; repeat destruct X as [X|X]; try discriminate; contradiction) ].
Lemma nf_solid : solid nf_two.
Proof. unfold nf_two, nf_kid. solid_tac. Qed.
Definition nf_cfg : cfg := marshal_cfg (fun _ _ _ => None).
Example C89_case : nf_one <> nf_two /\ exists g g', view nf_env nf_menv 3 (YStruct 0) nf_one = Some g /\ view nf_env nf_menv 3 (YStruct 0) nf_two = Some g' /\ g <> g' /\
  enc nf_cfg g [] 0 = enc nf_cfg g' [] 0 /\ enc nf_cfg g [] 0 = ER (bs "{""m"":{""a"":2,""b"":1},""k"":{""-7"":null,""7"":{""m"":null,""s"":null,""any"":null}},""s"":[""x""],""any"":{""y"":true,""z"":null}}") 0 None.
Proof.
  split; [discriminate|]. assert (X : exists g g', view nf_env nf_menv 3 (YStruct 0) nf_one = Some g /\ view nf_env nf_menv 3 (YStruct 0) nf_two = Some g' /\ g <> g' /\
    enc nf_cfg g [] 0 = ER (bs "{""m"":{""a"":2,""b"":1},""k"":{""-7"":null,""7"":{""m"":null,""s"":null,""any"":null}},""s"":[""x""],""any"":{""y"":true,""z"":null}}") 0 None).
  { eexists _, _. split; [vm_compute; reflexivity|]. split; [vm_compute; reflexivity|]. split; [discriminate|]. vm_compute. reflexivity. }
  destruct X as (g & g' & E & E' & N & O). exists g, g'. split; [exact E|]. split; [exact E'|]. split; [exact N|]. split; [|exact O].
  exact (proj1 (C89_equal_bytes_partial nf_env nf_menv ex_flags nf_cfg (YStruct 0) nf_one nf_two 3 3 g g' [] 0 nf_names I nf_free nf_direct nf_trip nf_same nf_solid eq_refl eq_refl E E')).
Qed.
Lemma nf_fits : fits nf_env (YStruct 0) nf_one.
Proof.
  assert (K : fits nf_env (YStruct 0) nf_kid) by (apply ft_struct; repeat (constructor; [constructor|]); constructor).
  apply ft_struct. constructor; [apply ft_map; repeat (constructor; [split; [exact I|apply ft_int; cbn; lia]|]); constructor|].
  constructor; [apply ft_map; constructor; [split; [cbn; lia|apply ft_ptr, K]|]; constructor; [split; [cbn; lia|apply ft_ptr_nil]|]; constructor|].
  constructor; [apply ft_slice; [cbn; lia|repeat constructor]|]. constructor; [apply ft_iface|constructor].
Qed.
Example C89_case_again : exists n g out m' n' g', view nf_env nf_menv n (YStruct 0) nf_one = Some g /\ marshal (fun _ _ _ => None) g = Some (out, None) /\
  unmarshal nf_env ex_flags (YStruct 0) out (zero nf_env (YStruct 0)) = (None, m') /\ m' <> nf_one /\ view nf_env nf_menv n' (YStruct 0) m' = Some g' /\ marshal (fun _ _ _ => None) g' = Some (out, None).
Proof. exists 3%nat. eexists _, _, _, 3%nat, _. split; [vm_compute; reflexivity|]. split; [vm_compute; reflexivity|]. split; [vm_compute; reflexivity|]. split; [discriminate|]. split; [vm_compute; reflexivity|]. vm_compute. reflexivity. Qed.
Example C89_case_hyps : env_ok nf_env /\ env_typed nf_env /\ env_names nf_env /\ raw_free (YStruct 0) /\ raw_free_env nf_env /\ omit_direct nf_env nf_menv /\ fits nf_env (YStruct 0) nf_one /\ trip nf_env nf_menv ex_flags (YStruct 0) nf_one.
Proof. exact (conj nf_ok (conj nf_typed (conj nf_names (conj I (conj nf_free (conj nf_direct (conj nf_fits nf_trip))))))). Qed.

(** Messages: a map[string]json.RawMessage with a message that is escaped and a
    nil one; neither comes back as it was, but both are written again the same. *)
Definition nf_raw : mem := MMap (Some [(MKStr (bs "b"), MRaw (Some (bs """<"""))); (MKStr (bs "a"), MRaw None)]).
Lemma nf_raw_trip : trip nf_env nf_menv ex_flags YMapSR nf_raw /\ fits nf_env YMapSR nf_raw.
Proof.
  assert (U : forall c, 0 <= c <= 127 -> valid_utf8 [c]) by (intros c C; apply nf_utf8; repeat constructor; lia). split.
  - apply tr_map_sr, tr_map; [repeat constructor; cbn [In]; intros H; repeat destruct H as [H|H]; try discriminate; contradiction|].
    constructor; [split; [apply (U 98); lia|]|]. { apply (tr_raw _ _ _ _ (JStr (34 :: [60] ++ [34]))). apply V_str, plain_string. repeat constructor; lia. }
    constructor; [split; [apply (U 97); lia|apply tr_raw0]|]. constructor.
  - apply ft_map_sr, ft_map. constructor; [split; [exact I|apply ft_raw]|]. constructor; [split; [exact I|apply ft_raw]|]. constructor.
Qed.
Example C89_case_raw : exists g out m' g', view nf_env nf_menv 0 YMapSR nf_raw = Some g /\ marshal (fun _ _ _ => None) g = Some (out, None) /\
  unmarshal nf_env ex_flags YMapSR out (zero nf_env YMapSR) = (None, m') /\ view nf_env nf_menv 0 YMapSR m' = Some g' /\ g' <> g /\ marshal (fun _ _ _ => None) g' = Some (out, None).
Proof. eexists _, _, _, _. split; [vm_compute; reflexivity|]. split; [vm_compute; reflexivity|]. split; [vm_compute; reflexivity|]. split; [vm_compute; reflexivity|]. split; [discriminate|]. vm_compute. reflexivity. Qed.

(** * What does not hold *)
(** Without SortMapKeys the order of iteration shows. *)
Theorem C89_unsorted_refuted : exists g g' o o', same nf_env (YStruct 0) nf_one nf_two /\ view nf_env nf_menv 3 (YStruct 0) nf_one = Some g /\ view nf_env nf_menv 3 (YStruct 0) nf_two = Some g' /\
  enc (Cfg true false false None None (fun _ _ _ => None)) g [] 0 = ER o 0 None /\ enc (Cfg true false false None None (fun _ _ _ => None)) g' [] 0 = ER o' 0 None /\ o <> o'.
Proof. eexists _, _, _, _. split; [apply nf_same|]. split; [vm_compute; reflexivity|]. split; [vm_compute; reflexivity|]. split; [vm_compute; reflexivity|]. split; [vm_compute; reflexivity|]. discriminate. Qed.
(** Raw messages with the same meaning may be different texts. *)
Theorem C89_raw_refuted : exists g g' o o', same nf_env YRaw (MRaw (Some (bs """A"""))) (MRaw (Some (34 :: 92 :: bs "u0041" ++ [34]))) /\
  view nf_env nf_menv 0 YRaw (MRaw (Some (bs """A"""))) = Some g /\ view nf_env nf_menv 0 YRaw (MRaw (Some (34 :: 92 :: bs "u0041" ++ [34]))) = Some g' /\
  enc nf_cfg g [] 0 = ER o 0 None /\ enc nf_cfg g' [] 0 = ER o' 0 None /\ o <> o'.
Proof.
  eexists _, _, _, _. split; [|split; [vm_compute; reflexivity|]; split; [vm_compute; reflexivity|]; split; [vm_compute; reflexivity|]; split; [vm_compute; reflexivity|discriminate]].
  assert (H0 : hex1 48 0) by (exact (hex1_d 48 ltac:(lia))). assert (H1 : hex1 49 1) by (exact (hex1_d 49 ltac:(lia))). assert (H4 : hex1 52 4) by (exact (hex1_d 52 ltac:(lia))).
  apply sm_raw. exists (JStr (34 :: [65] ++ [34])), (JStr (34 :: (92 :: bs "u0041") ++ [34])). split; [|split].
  - apply V_str. apply plain_string. repeat constructor; lia.
  - apply V_str. exists (92 :: bs "u0041"). split; [reflexivity|]. apply (sb_uni 48 48 52 49 []); [| | | |constructor]; unfold hex_digit; lia.
  - apply st_str. exists [65], (92 :: bs "u0041"). split; [reflexivity|]. split; [reflexivity|]. intros l D.
    assert (D' : str_denotes [65] [65]) by (apply (sd_char 65 [65] [] []); [apply u8_1; lia|lia|lia|lia|constructor]). rewrite (str_denotes_det _ _ D _ D').
    apply (sd_uni (bs "0041") 65 [] []); [apply (hex4v_intro 48 48 52 49 0 0 4 1); assumption|left; lia|constructor].
Qed.
Print Assumptions C89_distinct_keys.
Print Assumptions C89_equal_bytes_partial.
Print Assumptions C89_normal_form_partial.
Print Assumptions C89_marshal_partial.
Print Assumptions C89_filled_partial.
Print Assumptions C89_unsorted_refuted.
Print Assumptions C89_raw_refuted.
