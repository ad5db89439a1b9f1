(** C50: typed values survive encoding and decoding. *)
From Verif Require Import Bytes ParseModel IntModel StringModel EncModel DecModel SpecJson SpecString SpecEnc SpecColor SpecTokens SpecRender SpecDec SpecTrip SpecRaw ParseFacts Utf8Facts IntFacts
  EncFacts EncMain TextFacts DocFacts DecFacts TripFacts PropsDec PropsEnc
  TypeModel SpecType SpecFit SpecField NodeFacts TypeFacts TypeMain TypeSound TypeSafe ExactFloat PropsType ViewModel SpecSame ViewFacts TripClean TripType ViewTotal.

(** What a variable of type t holding m looks like to the encoder: there is
    exactly one such value. *)
Theorem C50_view_exists V W t m : env_typed V -> env_names V -> fits V t m -> exists n g, view V W n t m = Some g.
Proof. intros ET NM FM. exists (msize m). apply (view_total V W ET NM (msize m) t m FM (le_n _)). Qed.
Theorem C50_view_unique V W t m n n' g g' : view V W n t m = Some g -> view V W n' t m = Some g' -> g = g'.
Proof. apply view_unique. Qed.

(** The value decoded is one that is written again the same (C89). *)
Lemma trip_again V W F c t m n g : env_ok V -> env_typed V -> env_names V -> fits V t m -> trip V W F t m ->
  e_clrs c = None -> ind_all ws (e_ind c) -> view V W n t m = Some g ->
  exists out m', enc c g [] 0 = ER out 0 None /\ unmarshal V F t out (zero V t) = (None, m') /\ again V W (e_html c) t m m'.
Proof.
  intros OK ET NM FM T HC HI E. pose proof (view_clean V W F NM (e_sort c) (e_trust c) n t m g E T) as C.
  destruct (C33_encode_spec_partial c g [] 0 C (or_introl HC)) as [(x & VD & EN)|(N & _)].
  2:{ exfalso. destruct (view_doc V W F (e_html c) (e_sort c) (e_trust c) n t m g E T) as (x & VD). exact (N x VD). }
  rewrite HC in EN. cbn [app] in EN.
  pose proof (render_jvalue (e_html c) (e_ind c) HI x (vdoc_ok _ _ _ _ _ _ C VD) 0) as J. apply jvalue_node in J as (nd & E1 & E2 & JN).
  destruct (view_trip V W F OK ET NM (e_html c) (e_sort c) (e_trust c) (e_ind c) HI n t m g E FM T 0 x VD nd JN E2) as (m' & S1 & S2).
  eexists _, m'. split; [exact EN|]. split; [|exact S2]. rewrite <- E1.
  pose proof (proj2 (C42_accepts_iff V F t [] nd [] (zero V t) m' OK (Forall_nil _) JN (Forall_nil _)) S1) as U. cbn [app] in U. rewrite app_nil_r in U. exact U.
Qed.
(** Encoding a value of any type that JSON can carry and decoding the output
    into a fresh variable of that type gives the same value, whatever the
    encoder's options. *)
Theorem C50_typed_round_trip_partial V W F c t m n g : env_ok V -> env_typed V -> env_names V -> fits V t m -> trip V W F t m ->
  e_clrs c = None -> ind_all ws (e_ind c) -> view V W n t m = Some g ->
  exists out m', enc c g [] 0 = ER out 0 None /\ unmarshal V F t out (zero V t) = (None, m') /\ same V t m m'.
Proof.
  intros OK ET NM FM T HC HI E. destruct (trip_again V W F c t m n g OK ET NM FM T HC HI E) as (out & m' & A & B & C). exists out, m'. split; [exact A|]. split; [exact B|]. exact (again_same V W _ _ _ _ C).
Qed.
(** Marshal and Unmarshal. *)
Theorem C50_marshal_partial V W F ind t m n g : env_ok V -> env_typed V -> env_names V -> fits V t m -> trip V W F t m -> view V W n t m = Some g ->
  exists out m', marshal ind g = Some (out, None) /\ unmarshal V F t out (zero V t) = (None, m') /\ same V t m m'.
Proof.
  intros OK ET NM FM T E. destruct (C50_typed_round_trip_partial V W F (marshal_cfg ind) t m n g OK ET NM FM T eq_refl I E) as (out & m' & A & B & C).
  exists out, m'. unfold marshal. rewrite A. auto.
Qed.

(** * A case: the environment of PropsType.v *)
Definition ex_menv : menv := MEnv (fun _ s => inl (Some s)) (fun _ s => inl s) (fun i f => beqb (jf_name f) (bs "big")) (fun s => match s with [] => true | _ => false end) (fun _ _ _ => false).
Lemma ex_names : env_names ex_env.
Proof.
  constructor.
  - intros [|[|[|i]]]; cbn [v_flds ex_env ex_flds map jf_name]; repeat constructor; cbn [In]; intros H; repeat destruct H as [H|H]; try discriminate; contradiction.
  - intros [|[|[|i]]] f; cbn [v_flds ex_env ex_flds In]; intros H; repeat destruct H as [<-|H]; try contradiction; cbn [jf_name]; apply ascii_utf8; vm_compute; repeat constructor; discriminate.
  - intros [|[|[|i]]] f; cbn [v_flds ex_env ex_flds In]; intros H; repeat destruct H as [<-|H]; try contradiction; discriminate.
  - intros [|[|[|i]]] f g; cbn [v_flds ex_env ex_flds In]; intros H H'; repeat destruct H as [<-|H]; try contradiction; repeat destruct H' as [<-|H']; try contradiction; cbn [jf_name jf_path]; intros NE; try congruence;
      repeat first [apply apart_here; cbn; congruence | apply apart_next].
Qed.
Definition ex_value : mem :=
  MList [MInt 7; MStr (bs "xA"); MPtr (Some (MList [MBool true; MIface (JVArr [JVFloat (FFin false [49] 1); JVMap []])]));
         MSlice (Some (2%nat, [MPtr (Some (MList [MInt (-1); MStr []; MPtr (Some (MList [MBool false; MIface JVNull])); MSlice None; MPtr None;
                                                  MList [MTime (bs "0001-01-01T00:00:00Z"); MBytes None; MMap None]])); MPtr None]));
         MPtr (Some (MInt 42)); MList [MTime (bs "0001-01-01T00:00:00Z"); MBytes (Some (2%nat, [1; 2; 9])); MMap (Some [(MKInt 5, MRaw (Some (bs "[ ]")))])]].

Ltac gets := vm_compute; try reflexivity; try discriminate.
Lemma ex_trip : trip ex_env ex_menv ex_flags (YStruct 0) ex_value.
Proof.
  assert (TR : trip ex_env ex_menv ex_flags YTime (MTime (bs "0001-01-01T00:00:00Z"))) by (apply tr_time; [apply Forall_forall; intros c C; cbn in C; repeat destruct C as [<-|C]; try contradiction; unfold time_char; lia|reflexivity]).
  assert (IF : trip ex_env ex_menv ex_flags YIface (MIface JVNull)).
  { constructor. split; [constructor|]. intros f H. inversion H. }
  assert (U : forall s, ex_plain s = true -> forallb (fun c => c <? 128) s = true -> trip ex_env ex_menv ex_flags YString (MStr s)).
  { intros s H1 H2. constructor. apply ascii_utf8. apply Forall_forall. intros c C. unfold ex_plain in H1. rewrite forallb_forall in H1, H2. specialize (H1 c C). specialize (H2 c C). zb. lia. }
  assert (FN : finite (FFin false [49] 1)).
  { split; [repeat constructor; discriminate|]. exists 49, []. repeat split; discriminate. }
  assert (QK : forall f, In f (v_flds ex_env 0) -> jf_quot f <> QNo -> quot_ok (jf_ty f)).
  { cbn [v_flds ex_env ex_flds In]. intros f H; repeat destruct H as [<-|H]; try contradiction; cbn; intros; exact I. }
  assert (KID : trip ex_env ex_menv ex_flags (YStruct 0) (MList [MInt (-1); MStr []; MPtr (Some (MList [MBool false; MIface JVNull])); MSlice None; MPtr None;
                                                  MList [MTime (bs "0001-01-01T00:00:00Z"); MBytes None; MMap None]])).
  { apply tr_struct; [| |exact QK|].
    - exists [], (v_flds ex_env 0). split; [reflexivity|]. split; [constructor|]. cbn [v_flds ex_env ex_flds]. repeat (constructor; [right; gets|]). constructor.
    - cbn [v_flds ex_env ex_flds In]. intros f x H G; repeat destruct H as [<-|H]; try contradiction; cbn in G; injection G as <-; cbn [jf_ty jf_path];
        (split; [|repeat constructor]); try (apply U; reflexivity); try exact TR; try exact IF; try (constructor; vm_compute; split; discriminate); try constructor.
    - cbn [v_flds ex_env ex_flds In]. intros f H [L _]; repeat destruct H as [<-|H]; try contradiction; vm_compute in L; try discriminate. split; vm_compute; reflexivity. }
  apply tr_struct; [| |exact QK|].
  - exists [], (v_flds ex_env 0). split; [reflexivity|]. split; [constructor|]. cbn [v_flds ex_env ex_flds]. repeat (constructor; [right; gets|]). constructor.
  - cbn [v_flds ex_env ex_flds In]. intros f x H G; repeat destruct H as [<-|H]; try contradiction; cbn in G; injection G as <-; cbn [jf_ty jf_path];
      (split; [|repeat constructor]); try (apply U; reflexivity); try exact TR; try exact IF; try (constructor; vm_compute; split; discriminate); try (constructor; fail).
    + constructor. split.
      * cbn [tree map]. apply (gt_slice [GFloat (FFin false [49] 1); GMapSI (Some [])]). constructor; [|constructor; [|constructor]].
        -- constructor. exact FN.
        -- constructor; constructor.
      * intros f H. inversion H as [|? v IN H'|]; subst. destruct IN as [<-|[<-|[]]]; [|inversion H' as [| |? ? ? IN]; destruct IN]. inversion H'; subst. apply exact_parses, FN.
    + constructor; [cbn; lia|]. cbn [firstn]. constructor; [|constructor; [constructor|constructor]]. constructor; [exact KID|exact (fun H => H)].
    + constructor; [constructor; vm_compute; split; discriminate|exact (fun H => H)].
    + constructor; [cbn; lia|cbn; repeat constructor; unfold is_byte; lia|reflexivity].
    + constructor; [repeat constructor; intros []|]. constructor; [|constructor]. split; [vm_compute; split; discriminate|]. cbn [snd]. apply (tr_raw _ _ _ _ (JArr [])).
      apply (V_arr0 [32]). repeat constructor.
  - cbn [v_flds ex_env ex_flds In]. intros f H [_ L]; repeat destruct H as [<-|H]; try contradiction; vm_compute in L; discriminate.
Qed.

Example C50_case : env_ok ex_env /\ env_typed ex_env /\ env_names ex_env /\ fits ex_env (YStruct 0) ex_value /\ trip ex_env ex_menv ex_flags (YStruct 0) ex_value.
Proof.
  split; [apply ex_env_ok|]. split; [apply ex_env_typed|]. split; [apply ex_names|]. split; [|apply ex_trip]. unfold ex_value.
  repeat first [apply Forall_nil | apply Forall_cons | apply Forall2_nil | apply Forall2_cons | constructor; cbn; unfold u8, key_fits; try lia].
Qed.
Example C50_case_output : exists g m', view ex_env ex_menv 3 (YStruct 0) ex_value = Some g /\
  enc (Cfg true true false None None (fun _ _ _ => None)) g [] 0 =
    ER (bs "{""a"":7,""name"":""xA"",""ok"":true,""any"":[1,{}],""kids"":[{""a"":-1,""name"":"""",""ok"":false,""any"":null,""kids"":null,""at"":""0001-01-01T00:00:00Z"",""data"":null,""tags"":null},null],""big"":""42"",""at"":""0001-01-01T00:00:00Z"",""data"":""AQI="",""tags"":{""5"":[]}}") 0 None /\
  unmarshal ex_env ex_flags (YStruct 0) (bs "{""a"":7,""name"":""xA"",""ok"":true,""any"":[1,{}],""kids"":[{""a"":-1,""name"":"""",""ok"":false,""any"":null,""kids"":null,""at"":""0001-01-01T00:00:00Z"",""data"":null,""tags"":null},null],""big"":""42"",""at"":""0001-01-01T00:00:00Z"",""data"":""AQI="",""tags"":{""5"":[]}}")
    (zero ex_env (YStruct 0)) = (None, m').
Proof. eexists _, _. split; [vm_compute; reflexivity|]. split; [vm_compute; reflexivity|]. vm_compute. reflexivity. Qed.

(** * Values JSON cannot carry
      type A struct { L []bool `json:"l,omitempty"` }
      type B struct { *inner }
      type inner struct { X bool `json:"x"` } *)
Definition rf_env : tenv := TEnv (fun i => match i with 0%nat => [YSlice YBool] | 1%nat => [YPtr (YStruct 2)] | 2%nat => [YBool] | _ => [] end) 2
  (fun i => match i with
            | 0%nat => [JField (bs "l") [PIn 0] (YSlice YBool) QNo]
            | 1%nat => [JField (bs "x") [PVia 0 2 true; PIn 0] YBool QNo]
            | 2%nat => [JField (bs "x") [PIn 0] YBool QNo]
            | _ => []
            end) (fun _ => exact)
  (fun _ => None) (fun _ => None) (fun _ => None) (fun _ s _ => (None, s)) (fun _ s _ => (None, s)) (map lower_ascii) (fun c => c).
Definition rf_menv : menv := MEnv (fun _ s => inl (Some s)) (fun _ s => inl s) (fun i f => beqb (jf_name f) (bs "l")) (fun s => match s with [] => true | _ => false end) (fun _ _ _ => false).
Lemma rf_ok : env_ok rf_env /\ env_typed rf_env /\ env_names rf_env.
Proof.
  split; [|split].
  - constructor; cbn [v_dur v_time v_json v_text v_flds rf_env]; try discriminate. intros [|[|[|i]]] f; cbn [In]; intros H; repeat destruct H as [<-|H]; try contradiction; cbn; congruence.
  - constructor; cbn [v_dur v_b64 v_json v_text rf_env]; try discriminate.
    + intros [|[|[|i]]] f; cbn [v_flds rf_env In]; intros H; repeat destruct H as [<-|H]; try contradiction; cbn [jf_path jf_ty];
        repeat first [apply ld_here | eapply ld_in; [reflexivity|] | eapply ld_via; [reflexivity|]].
    + exists (fun i => match i with 1 => 1 | _ => 0 end)%nat. split; [|intros [|[|i]]; cbn; lia].
      intros [|[|[|i]]] u j; cbn [v_decl rf_env In]; intros H; repeat destruct H as [<-|H]; try contradiction; cbn [holds In]; intros J; try contradiction.
  - constructor.
    + intros [|[|[|i]]]; cbn [v_flds rf_env map jf_name]; repeat constructor; intros [].
    + intros [|[|[|i]]] f; cbn [v_flds rf_env In]; intros H; repeat destruct H as [<-|H]; try contradiction; cbn [jf_name]; apply ascii_utf8; vm_compute; repeat constructor; discriminate.
    + intros [|[|[|i]]] f; cbn [v_flds rf_env In]; intros H; repeat destruct H as [<-|H]; try contradiction; discriminate.
    + intros [|[|[|i]]] f g; cbn [v_flds rf_env In]; intros H H'; repeat destruct H as [<-|H]; try contradiction; repeat destruct H' as [<-|H']; try contradiction; congruence.
Qed.
(** A value that is encoded and decoded without errors, but not to the same value. *)
Definition changed (t : gty) (m : mem) : Prop :=
  fits rf_env t m /\ exists g out m', view rf_env rf_menv 3 t m = Some g /\ marshal (fun _ _ _ => None) g = Some (out, None) /\
    unmarshal rf_env ex_flags t out (zero rf_env t) = (None, m') /\ ~ same rf_env t m m'.
(** A pointer to something written as null comes back nil. *)
Theorem C50_ptr_null_refuted : changed (YPtr (YSlice YBool)) (MPtr (Some (MSlice None))).
Proof.
  split; [repeat constructor|]. eexists _, _, _. split; [vm_compute; reflexivity|]. split; [vm_compute; reflexivity|]. split; [vm_compute; reflexivity|]. intros H. inversion H; subst; contradiction.
Qed.
(** An empty slice that is left out comes back nil. *)
Theorem C50_omitempty_refuted : changed (YStruct 0) (MList [MSlice (Some (0%nat, []))]).
Proof.
  split; [repeat (constructor; cbn); lia|]. eexists _, _, _. split; [vm_compute; reflexivity|]. split; [vm_compute; reflexivity|]. split; [vm_compute; reflexivity|]. intros H. inversion H as [| | | | | | | | | | | | | | |? ? ? A B]; subst; try contradiction.
  destruct (A _ _ (or_introl eq_refl) eq_refl) as (x' & G & S). vm_compute in G. injection G as <-. inversion S; subst; contradiction.
Qed.
(** A string that is not UTF-8 comes back with U+FFFD in it. *)
Theorem C50_utf8_refuted : changed YString (MStr [97; 255]).
Proof.
  split; [repeat constructor|]. eexists _, _, _. split; [vm_compute; reflexivity|]. split; [vm_compute; reflexivity|]. split; [vm_compute; reflexivity|]. intros H. inversion H.
Qed.
(** Fields promoted through an unexported embedded pointer are written, but not
    read back: Unmarshal returns an error. *)
Theorem C50_unexported_refuted : let t := YStruct 1 in let m := MList [MPtr (Some (MList [MBool true]))] in
  fits rf_env t m /\ exists g out e m', view rf_env rf_menv 3 t m = Some g /\ marshal (fun _ _ _ => None) g = Some (out, None) /\
    unmarshal rf_env ex_flags t out (zero rf_env t) = (Some e, m').
Proof.
  split; [repeat (constructor; cbn)|]. eexists _, _, _, _. split; [vm_compute; reflexivity|]. split; [vm_compute; reflexivity|]. vm_compute. reflexivity.
Qed.
Print Assumptions C50_typed_round_trip_partial.
Print Assumptions C50_marshal_partial.
Print Assumptions C50_view_exists.
Print Assumptions C50_view_unique.
Print Assumptions C50_ptr_null_refuted.
Print Assumptions C50_omitempty_refuted.
Print Assumptions C50_utf8_refuted.
Print Assumptions C50_unexported_refuted.
