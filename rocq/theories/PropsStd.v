(** C88: what Unmarshal stored survives Marshal and Unmarshal. *)
From Verif Require Import Bytes ParseModel IntModel StringModel EncModel DecModel SpecJson SpecString SpecEnc SpecColor SpecTokens SpecRender SpecDec SpecTrip SpecRaw ParseFacts Utf8Facts IntFacts
  EncFacts EncMain TextFacts DocFacts DecFacts TripFacts PropsDec PropsEnc
  TypeModel SpecType SpecFit SpecField NodeFacts TypeLoops TypeFacts TypeMain TypeSound TypeSafe ExactFloat PropsType ViewModel SpecSame ViewFacts TripClean TripType ViewTotal PropsTrip
  B64Model FloatModel SpecFloat TimeModel SpecTime DurModel PropsB64 PropsFloat PropsTime PropsDur SpecStd StdFacts.
Local Open Scope Z_scope.

(** The functions of the standard library that the package calls: ParseFloat,
    Time.UnmarshalText, base64.StdEncoding and ParseDuration. *)
Definition std_lib (V : tenv) : Prop := ieee V /\ go_time_lib V /\ (forall s, v_b64 V s = b64_decode s) /\ go_dur_lib V.

Lemma filled_deep V W F t m : env_ok V -> env_typed V -> env_names V -> std_env V W -> std_lib V -> std_ty t ->
  filled V F t m -> deep V W F t m /\ fits V t m.
Proof.
  intros OK ET NM SE (FL & TL & BL & DL) S H. induction H as [|x b a y H [IH IF] J C U].
  - split; [apply zero_deep; assumption|apply C43_zero_fits, ET].
  - assert (WB : wf b).
    { destruct J as (w1 & s & w2 & -> & W1 & JV & W2). apply Forall_app. split; [apply ws_wf, W1|]. apply Forall_app. split; [eapply (proj1 jvalue_wf), JV|apply ws_wf, W2]. }
    split.
    + destruct J as (w1 & s & w2 & -> & W1 & JV & W2). apply jvalue_node in JV as (nd & <- & <- & JN).
      apply (C42_accepts_iff V F t w1 nd w2 x y OK W1 JN W2) in U. eapply (stores_deep V W F OK ET NM SE FL TL BL); [exact S|apply Nat.lt_succ_diag_r|exact JN|exact C|exact U|exact IH].
    + pose proof (proj1 (C43_memory_safe V F t b x OK ET WB IF)) as X. rewrite U in X. exact X.
Qed.

(** Any encoder without colors writes it, and Unmarshal reads it back. *)
Theorem C88_again_partial : forall V W F c t m, env_ok V -> env_typed V -> env_names V -> std_env V W -> std_lib V -> std_ty t ->
  filled V F t m -> e_clrs c = None -> ind_all ws (e_ind c) ->
  exists n g out m', view V W n t m = Some g /\ enc c g [] 0 = ER out 0 None /\ unmarshal V F t out (zero V t) = (None, m') /\ same V t m m'.
Proof.
  intros V W F c t m OK ET NM SE SL S H HC HI. destruct (filled_deep V W F t m OK ET NM SE SL S H) as [D FM]. destruct SL as (FL & TL & BL & DL).
  destruct (C50_view_exists V W t m ET NM FM) as (n & g & E). exists n, g.
  destruct (C50_typed_round_trip_partial V W F c t m n g OK ET NM FM (deep_trip V W F SE BL t m D) HC HI E) as (out & m' & A). exists out, m'. tauto.
Qed.
(** Marshal. *)
Theorem C88_marshal_partial : forall V W F ind t m, env_ok V -> env_typed V -> env_names V -> std_env V W -> std_lib V -> std_ty t ->
  filled V F t m ->
  exists n g out m', view V W n t m = Some g /\ marshal ind g = Some (out, None) /\ unmarshal V F t out (zero V t) = (None, m') /\ same V t m m'.
Proof.
  intros V W F ind t m OK ET NM SE SL S H. destruct (C88_again_partial V W F (marshal_cfg ind) t m OK ET NM SE SL S H eq_refl I) as (n & g & out & m' & A & B & C).
  exists n, g, out, m'. unfold marshal. rewrite B. auto.
Qed.

(** * A case
      type Rec struct { A int8 `json:"a"`; Name string `json:"name,omitempty"`; Kids []*Rec `json:"kids"`; Big *int64 `json:"big,string"`;
                        Stamp; Any interface{} `json:"any"`; Wait time.Duration `json:"wait"`; F float32 `json:"f"` }
      type Stamp struct { At time.Time `json:"at"`; Data []byte `json:"data"`; Tags map[int8]json.RawMessage `json:"tags"` } *)
Definition sd_decl (i : nat) : list gty :=
  match i with
  | 0%nat => [YInt TInt8; YString; YSlice (YPtr (YStruct 0)); YPtr (YInt TInt64); YStruct 1; YIface; YDuration; YFloat false]
  | 1%nat => [YTime; YBytes; YMap (KYInt TInt8) YRaw]
  | _ => []
  end.
Definition sd_flds (i : nat) : list jfield :=
  match i with
  | 0%nat => [JField (bs "a") [PIn 0] (YInt TInt8) QNo; JField (bs "name") [PIn 1] YString QNo;
            JField (bs "kids") [PIn 2] (YSlice (YPtr (YStruct 0))) QNo; JField (bs "big") [PIn 3] (YPtr (YInt TInt64)) QInt;
            JField (bs "at") [PIn 4; PIn 0] YTime QNo; JField (bs "data") [PIn 4; PIn 1] YBytes QNo; JField (bs "tags") [PIn 4; PIn 2] (YMap (KYInt TInt8) YRaw) QNo;
            JField (bs "any") [PIn 5] YIface QNo; JField (bs "wait") [PIn 6] YDuration QNo; JField (bs "f") [PIn 7] (YFloat false) QNo]
  | 1%nat => [JField (bs "at") [PIn 0] YTime QNo; JField (bs "data") [PIn 1] YBytes QNo; JField (bs "tags") [PIn 2] (YMap (KYInt TInt8) YRaw) QNo]
  | _ => []
  end.
(** Any declarations, with the functions of the library. *)
Definition lib_env (decl : nat -> list gty) (depth : nat) (flds : nat -> list jfield) : tenv :=
  TEnv decl depth flds (fun wide => parse_float (if wide : bool then binary64 else binary32)) (fun s => option_map fmt_time (parse_time s)) parse_dur b64_decode
    (fun _ s _ => (None, s)) (fun _ s _ => (None, s)) (map lower_ascii) (fun c => c).
Lemma lib_std decl depth flds : std_lib (lib_env decl depth flds).
Proof. repeat split. Qed.
Lemma lib_env_ok decl depth flds : (forall i f, In f (flds i) -> jf_quot f <> QNo -> quotable (jf_ty f)) -> env_ok (lib_env decl depth flds).
Proof.
  intros Q. constructor; [|apply C85_contract; intros s; reflexivity|discriminate|discriminate|exact Q].
  intros t z H. apply (C87_contract (lib_env decl depth flds) (fun s => eq_refl) t z H).
Qed.
Lemma lib_env_typed decl depth flds : (forall i f, In f (flds i) -> leads (lib_env decl depth flds) (YStruct i) (jf_path f) (jf_ty f)) ->
  (exists rk : nat -> nat, (forall i u j, In u (decl i) -> In j (holds u) -> (rk j < rk i)%nat) /\ (forall i, (rk i < depth)%nat)) -> env_typed (lib_env decl depth flds).
Proof.
  intros L R. constructor; [exact L|exact R| | |discriminate|discriminate].
  - intros t z H. apply (C87_contract (lib_env decl depth flds) (fun s => eq_refl) t z H).
  - intros t v H. apply (proj1 C82_library t v H).
Qed.
Definition sd_env : tenv := lib_env sd_decl 2 sd_flds.
Definition sd_menv : menv := MEnv (fun _ s => inl (Some s)) (fun _ s => inl s) (fun i f => beqb (jf_name f) (bs "name")) (fun s => match s with [] => true | _ => false end) (fun _ _ _ => false).
Ltac sd_fields := intros [|[|i]] f; cbn [v_flds sd_env lib_env sd_flds In]; intros H; repeat destruct H as [<-|H]; try contradiction.
Lemma sd_ok : env_ok sd_env.
Proof. apply lib_env_ok. sd_fields; cbn; try congruence; auto. Qed.
Lemma sd_typed : env_typed sd_env.
Proof.
  apply lib_env_typed.
  - sd_fields; cbn [jf_path jf_ty]; repeat first [apply ld_here | eapply ld_in; [reflexivity|]].
  - exists (fun i => match i with O => 1 | _ => 0 end)%nat. split; [|intros [|i]; cbn; lia].
    intros [|[|i]] u j; cbn [sd_decl In]; intros H; repeat destruct H as [<-|H]; try contradiction; cbn [holds In]; intros J; try contradiction.
    destruct J as [<-|[]]. lia.
Qed.
Lemma sd_names : env_names sd_env.
Proof.
  constructor.
  - intros [|[|i]]; cbn [v_flds sd_env lib_env sd_flds map jf_name]; repeat constructor; cbn [In]; intros H; repeat destruct H as [H|H]; try discriminate; contradiction.
  - sd_fields; cbn [jf_name]; apply ascii_utf8; vm_compute; repeat constructor; discriminate.
  - sd_fields; discriminate.
  - intros [|[|i]] f g; cbn [v_flds sd_env lib_env sd_flds In]; intros H H'; repeat destruct H as [<-|H]; try contradiction; repeat destruct H' as [<-|H']; try contradiction; cbn [jf_name jf_path]; intros NE; try congruence;
      repeat first [apply apart_here; cbn; congruence | apply apart_next].
Qed.
Lemma sd_std : std_env sd_env sd_menv.
Proof. sd_fields; (split; [reflexivity|]); (split; [cbn; tauto|]); vm_compute; try discriminate; intros; exact I. Qed.
Definition sd_text : bytes := bs "{""a"":7,""NAME"":""xA"",""kids"":[{""a"":-1},null,{""wait"":""1.5s""}],""big"":""0042"",""at"":""2024-02-29T23:59:59.5-05:00"",""data"":[1,2],""tags"":{""5"":[ ]},""any"":[0.1,{""k"":null}],""f"":1e-3,""zz"":0,""kids"":[{},{""name"":""y""}]}".
Definition sd_result : mem :=
  MList [MInt 7; MStr (bs "xA");
         MSlice (Some (2%nat, [MPtr (Some (MList [MInt (-1); MStr []; MSlice None; MPtr None; MList [MTime (bs "0001-01-01T00:00:00Z"); MBytes None; MMap None]; MIface JVNull; MInt 0; MFloat (FZero false)]));
                               MPtr (Some (MList [MInt 0; MStr (bs "y"); MSlice None; MPtr None; MList [MTime (bs "0001-01-01T00:00:00Z"); MBytes None; MMap None]; MIface JVNull; MInt 0; MFloat (FZero false)]));
                               MPtr (Some (MList [MInt 0; MStr []; MSlice None; MPtr None; MList [MTime (bs "0001-01-01T00:00:00Z"); MBytes None; MMap None]; MIface JVNull; MInt 1500000000; MFloat (FZero false)]))]
                              ++ repeat (MPtr None) 7));
         MPtr (Some (MInt 42)); MList [MTime (bs "2024-02-29T23:59:59.5-05:00"); MBytes (Some (2%nat, [1; 2; 0; 0; 0; 0; 0; 0; 0; 0])); MMap (Some [(MKInt 5, MRaw (Some (bs "[ ]")))])];
         MIface (JVArr [JVFloat (FFin false [49] 0); JVMap [(bs "k", JVNull)]]); MInt 0; MFloat (FFin false [49] (-2))].
Example C88_case_reads : unmarshal sd_env ex_flags (YStruct 0) sd_text (zero sd_env (YStruct 0)) = (None, sd_result).
Proof. vm_compute. reflexivity. Qed.
(** The same with a text whose tree is at hand. *)
Definition sd_short : bytes := bs "{""at"":""2024-02-29T23:59:59.5-05:00"",""kids"":[{""a"":-1}]}".
Definition sd_tree : jast := JObj [(bs """at""", JStr (bs """2024-02-29T23:59:59.5-05:00""")); (bs """kids""", JArr [JObj [(bs """a""", JNum (bs "-1"))]])].
Lemma sd_jtext : jtext sd_short sd_tree.
Proof.
  assert (P : forall t, ex_plain t = true -> string_lit (34 :: t ++ [34])).
  { intros t H. apply plain_string. apply Forall_forall. intros c C. unfold ex_plain in H. rewrite forallb_forall in H. specialize (H c C). zb. lia. }
  assert (N : ws []) by constructor. exists [], sd_short, []. split; [reflexivity|]. split; [exact N|]. split; [|exact N].
  apply (V_obj (bs """at"":""2024-02-29T23:59:59.5-05:00"",""kids"":[{""a"":-1}]")).
  apply (M_cons (bs """at"":""2024-02-29T23:59:59.5-05:00""") (bs """at""", JStr (bs """2024-02-29T23:59:59.5-05:00""")) (bs """kids"":[{""a"":-1}]")).
  - refine (M_intro [] (bs """at""") [] [] (bs """2024-02-29T23:59:59.5-05:00""") _ [] N _ N N (V_str _ _) N); [apply (P (bs "at"))|apply (P (bs "2024-02-29T23:59:59.5-05:00"))]; reflexivity.
  - apply (M_one (bs """kids"":[{""a"":-1}]")). refine (M_intro [] (bs """kids""") [] [] (bs "[{""a"":-1}]") _ [] N _ N N _ N); [apply (P (bs "kids")); reflexivity|].
    apply (V_arr (bs "{""a"":-1}")). refine (E_one [] (bs "{""a"":-1}") _ [] N _ N). apply (V_obj (bs """a"":-1")). apply (M_one (bs """a"":-1")).
    refine (M_intro [] (bs """a""") [] [] (bs "-1") _ [] N _ N N (V_num _ _) N); [apply (P (bs "a")); reflexivity|].
    apply (number_intro [45] [49] [] []); [right; reflexivity|constructor; [lia|constructor]|constructor|constructor].
Qed.
Lemma sd_times : times_writable sd_tree.
Proof.
  intros s t SI. unfold sd_tree in SI. inversion SI as [| |? k a IN SA]; subst. destruct IN as [E|[E|[]]]; inversion E; subst k a; clear E.
  - assert (E : s ++ [34] = bs "2024-02-29T23:59:59.5-05:00" ++ [34]) by (inversion SA as [E| |]; exact E).
    apply app_inj_tail in E as [-> _].
    intros D. apply C85_reads in D. vm_compute in D. injection D as <-. split; [cbn; lia|]. split; [exists (-300); reflexivity|]. split; [cbn; lia|].
    exists 2024, 2, 29. split; [|lia]. apply C85_calendar. vm_compute. reflexivity.
  - inversion SA as [|? a IN SB|]; subst. destruct IN as [<-|[]]. inversion SB as [| |? k2 a IN SC]; subst. destruct IN as [E|[]]. inversion E; subst k2 a. inversion SC.
Qed.
Example C88_case : env_ok sd_env /\ env_typed sd_env /\ env_names sd_env /\ std_env sd_env sd_menv /\ std_lib sd_env /\ std_ty (YStruct 0) /\
  exists m, unmarshal sd_env ex_flags (YStruct 0) sd_short (zero sd_env (YStruct 0)) = (None, m) /\ filled sd_env ex_flags (YStruct 0) m /\ m <> zero sd_env (YStruct 0).
Proof.
  split; [apply sd_ok|]. split; [apply sd_typed|]. split; [apply sd_names|]. split; [apply sd_std|]. split; [apply lib_std|]. split; [exact I|].
  assert (U : exists m, unmarshal sd_env ex_flags (YStruct 0) sd_short (zero sd_env (YStruct 0)) = (None, m) /\ m <> zero sd_env (YStruct 0)) by (eexists; split; [vm_compute; reflexivity|vm_compute; discriminate]).
  destruct U as (m & U & N). exists m. split; [exact U|]. split; [|exact N]. eapply fi_more; [apply fi_zero|apply sd_jtext|apply sd_times|exact U].
Qed.
Example C88_case_output : exists n g out m', view sd_env sd_menv n (YStruct 0) sd_result = Some g /\ marshal (fun _ _ _ => None) g = Some (out, None) /\
  unmarshal sd_env ex_flags (YStruct 0) out (zero sd_env (YStruct 0)) = (None, m') /\
  out = bs "{""a"":7,""name"":""xA"",""kids"":[{""a"":-1,""kids"":null,""big"":""null"",""at"":""0001-01-01T00:00:00Z"",""data"":null,""tags"":null,""any"":null,""wait"":0,""f"":0},{""a"":0,""name"":""y"",""kids"":null,""big"":""null"",""at"":""0001-01-01T00:00:00Z"",""data"":null,""tags"":null,""any"":null,""wait"":0,""f"":0}],""big"":""42"",""at"":""2024-02-29T23:59:59.5-05:00"",""data"":""AQI="",""tags"":{""5"":[]},""any"":[0.1,{""k"":null}],""wait"":0,""f"":0.001}".
Proof. exists 4%nat. eexists _, _, _. split; [vm_compute; reflexivity|]. split; [vm_compute; reflexivity|]. split; vm_compute; reflexivity. Qed.

(** * What does not hold
      type A struct { N json.Number `json:"n"` }
      type B struct { L []bool `json:"l,omitempty"` }
      type C struct { P **int64 `json:"p"` }
      type D struct { P *[]bool `json:"p"` } *)
Definition sr_decl (i : nat) : list gty :=
  match i with 0%nat => [YNumber] | 1%nat => [YSlice YBool] | 2%nat => [YPtr (YPtr (YInt TInt64))] | 3%nat => [YPtr (YSlice YBool)] | _ => [] end.
Definition sr_flds (i : nat) : list jfield :=
  match i with
  | 0%nat => [JField (bs "n") [PIn 0] YNumber QNo] | 1%nat => [JField (bs "l") [PIn 0] (YSlice YBool) QNo]
  | 2%nat => [JField (bs "p") [PIn 0] (YPtr (YPtr (YInt TInt64))) QNo] | 3%nat => [JField (bs "p") [PIn 0] (YPtr (YSlice YBool)) QNo] | _ => []
  end.
Definition sr_env : tenv := lib_env sr_decl 1 sr_flds.
Definition sr_menv : menv := MEnv (fun _ s => inl (Some s)) (fun _ s => inl s) (fun i f => beqb (jf_name f) (bs "l")) (fun s => match s with [] => true | _ => false end) (fun _ _ _ => false).
(** Unmarshal of a text (with error e, if any) leaves a value that Marshal writes,
    but that is not read back from there. *)
Definition lost (t : gty) (b : bytes) (e : option err) : Prop :=
  exists m g out m', unmarshal sr_env ex_flags t b (zero sr_env t) = (e, m) /\ view sr_env sr_menv 3 t m = Some g /\ marshal (fun _ _ _ => None) g = Some (out, None) /\
    snd (unmarshal sr_env ex_flags t out (zero sr_env t)) = m' /\ ~ same sr_env t m m'.
Ltac lose := eexists _, _, _, _; (split; [vm_compute; reflexivity|]); (split; [vm_compute; reflexivity|]); (split; [vm_compute; reflexivity|]); (split; [vm_compute; reflexivity|]); intros H.
Ltac lose_field := inversion H as [| | | | | | | | | | | | | | |? ? ? A B]; subst; try contradiction;
  destruct (A _ _ (or_introl eq_refl) eq_refl) as (x' & G & S); vm_compute in G; injection G as <-; inversion S; subst; try contradiction.
(** A time with an offset of more than a day cannot be read again. *)
Theorem C88_offset_refuted : lost YTime (bs """2020-01-01T00:00:00+24:60""") None.
Proof. lose. inversion H. Qed.
(** An absent json.Number is written as 0. *)
Theorem C88_number_refuted : lost (YStruct 0) (bs "{}") None.
Proof. lose. lose_field. Qed.
(** An empty slice with omitempty is left out, and comes back nil. *)
Theorem C88_omitempty_refuted : lost (YStruct 1) (bs "{""l"":[]}") None.
Proof. lose. lose_field. Qed.
(** A pointer to a nil pointer comes back nil. *)
Theorem C88_pointers_refuted : lost (YStruct 2) (bs "{""p"":1,""p"":null}") None.
Proof. lose. lose_field. Qed.
(** A failed call may leave a pointer to a nil slice. *)
Theorem C88_failed_refuted : exists e, lost (YStruct 3) (bs "{""p"":0}") (Some e).
Proof. eexists. lose. lose_field. Qed.
Print Assumptions C88_again_partial.
Print Assumptions C88_marshal_partial.
Print Assumptions C88_offset_refuted.
Print Assumptions C88_number_refuted.
Print Assumptions C88_omitempty_refuted.
Print Assumptions C88_pointers_refuted.
Print Assumptions C88_failed_refuted.
