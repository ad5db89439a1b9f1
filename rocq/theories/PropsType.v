(** Theorems about decoding into typed values (TypeModel.v): C41, C42, C43. *)
From Verif Require Import Bytes ParseModel IntModel StringModel EncModel DecModel SpecJson SpecString SpecDec ParseFacts IntFacts DecFacts
  TypeModel SpecType SpecFit NodeFacts TypeLoops TypeFacts TypeMain TypeSound TypeSafe ExactFloat PropsDec.

(** * The environment of the examples:
      type Node struct { A int8 `json:"a"`; Name string `json:"name"`; *Info; Kids []*Node `json:"kids"`;
                         Big *int64 `json:"big,string"`; Stamp }
      type Info struct { Ok bool `json:"ok"`; Any interface{} `json:"any"` }
      type Stamp struct { At time.Time `json:"at"`; Data []byte `json:"data"`; Tags map[int8]json.RawMessage `json:"tags"` } *)
Definition ex_decl (i : nat) : list gty :=
  match i with
  | 0%nat => [YInt TInt8; YString; YPtr (YStruct 1); YSlice (YPtr (YStruct 0)); YPtr (YInt TInt64); YStruct 2]
  | 1%nat => [YBool; YIface]
  | 2%nat => [YTime; YBytes; YMap (KYInt TInt8) YRaw]
  | _ => []
  end.
Definition ex_flds (i : nat) : list jfield :=
  match i with
  | 0%nat => [JField (bs "a") [PIn 0] (YInt TInt8) QNo; JField (bs "name") [PIn 1] YString QNo;
            JField (bs "ok") [PVia 2 1 false; PIn 0] YBool QNo; JField (bs "any") [PVia 2 1 false; PIn 1] YIface QNo;
            JField (bs "kids") [PIn 3] (YSlice (YPtr (YStruct 0))) QNo; JField (bs "big") [PIn 4] (YPtr (YInt TInt64)) QInt;
            JField (bs "at") [PIn 5; PIn 0] YTime QNo; JField (bs "data") [PIn 5; PIn 1] YBytes QNo;
            JField (bs "tags") [PIn 5; PIn 2] (YMap (KYInt TInt8) YRaw) QNo]
  | 1%nat => [JField (bs "ok") [PIn 0] YBool QNo; JField (bs "any") [PIn 1] YIface QNo]
  | 2%nat => [JField (bs "at") [PIn 0] YTime QNo; JField (bs "data") [PIn 1] YBytes QNo; JField (bs "tags") [PIn 2] (YMap (KYInt TInt8) YRaw) QNo]
  | _ => []
  end.
Definition ex_plain (t : bytes) : bool := forallb (fun c => (32 <=? c) && (c <? 256) && negb (c =? 34) && negb (c =? 92)) t.
Definition ex_env : tenv := TEnv ex_decl 2 ex_flds (fun _ => exact)
  (fun t => if ex_plain t && Nat.eqb (length t) 20 then Some t else None)
  (fun t => if beqb t (bs "1s") then Some 1000000000 else None)
  (fun t => if beqb t (bs "AQI=") then Some [1; 2] else None)
  (fun _ s _ => (None, s)) (fun _ s _ => (None, s)) (map lower_ascii) (fun c => if c =? 233 then 201 else if c =? 201 then 233 else c).
Definition ex_flags : dflags := DFlags false false false.
Lemma ex_env_ok : env_ok ex_env.
Proof.
  assert (PL : forall t, ex_plain t = true -> plain_text t).
  { intros t H. apply Forall_forall. intros c C. unfold ex_plain in H. rewrite forallb_forall in H. specialize (H c C). zb. lia. }
  constructor; cbn [v_dur v_time v_json v_text v_flds ex_env].
  - intros t z. destruct (beqb t (bs "1s")) eqn:E; [|discriminate]. intros _. apply beqb_eq in E. subst t. apply PL. reflexivity.
  - intros t z. destruct (ex_plain t) eqn:E; [|discriminate]. intros _. apply PL, E.
  - intros. discriminate.
  - intros. discriminate.
  - intros [|[|[|i]]] f; cbn [ex_flds In]; intros H; repeat destruct H as [<-|H]; try contradiction; cbn; try congruence; auto.
Qed.
Lemma ex_env_typed : env_typed ex_env.
Proof.
  constructor; cbn [v_dur v_b64 v_json v_text ex_env].
  - intros [|[|[|i]]] f; cbn [v_flds ex_env ex_flds In]; intros H; repeat destruct H as [<-|H]; try contradiction; cbn [jf_path jf_ty];
      repeat first [apply ld_here | eapply ld_in; [reflexivity|] | eapply ld_via; [reflexivity|]].
  - exists (fun i => match i with O => 1 | _ => 0 end)%nat. split; [|intros [|i]; cbn; lia].
    intros [|[|[|i]]] u j; cbn [v_decl ex_env ex_decl In]; intros H; repeat destruct H as [<-|H]; try contradiction; cbn [holds In]; intros J; try contradiction.
    destruct J as [<-|[]]. lia.
  - intros t z. destruct (beqb t (bs "1s")); [intros [= <-]; cbn; lia|discriminate].
  - intros t v. destruct (beqb t (bs "AQI=")); [intros [= <-]; repeat constructor; unfold u8; lia|discriminate].
  - discriminate.
  - discriminate.
Qed.
Definition ex_text : bytes := bs "{""a"": 7, ""NAME"": ""xA"", ""ok"":true, ""any"":[1,{}], ""kids"":[{""a"":-1},null], ""big"":""0042"", ""tags"":{""5"":[ ]}, ""data"":[1,2], ""zz"":0}".
Definition ex_zero : mem := zero ex_env (YStruct 0).
Definition ex_result : mem :=
  MList [MInt 7; MStr (bs "xA"); MPtr (Some (MList [MBool true; MIface (JVArr [JVFloat (FFin false [49] 1); JVMap []])]));
         MSlice (Some (2%nat, MPtr (Some (MList [MInt (-1); MStr []; MPtr None; MSlice None; MPtr None; MList [MTime (bs "0001-01-01T00:00:00Z"); MBytes None; MMap None]]))
                              :: repeat (MPtr None) 9));
         MPtr (Some (MInt 42)); MList [MTime (bs "0001-01-01T00:00:00Z"); MBytes (Some (2%nat, [1; 2; 0; 0; 0; 0; 0; 0; 0; 0])); MMap (Some [(MKInt 5, MRaw (Some (bs "[ ]")))])]].
Example ex_unmarshal : unmarshal ex_env ex_flags (YStruct 0) ex_text ex_zero = (None, ex_result).
Proof. vm_compute. reflexivity. Qed.

(** * C41: success means JSON *)
Lemma parse_cases V F t b x : env_ok V -> wf b ->
  match d_err (parse V F t b x) with
  | None => wf (d_rest (parse V F t b x)) /\ (no_arrays V t -> value_read b (d_rest (parse V F t b x)))
  | Some e => e <> EFuel
  end.
Proof.
  intros OK W. unfold parse, parse_with, decode. cbv zeta. destruct (skip_read b W) as (w & Ww & Eb & Ws & Ls).
  pose proof (dec_ty_takes V F OK (S (length (skip_spaces b))) t (skip_spaces b) x Ws ltac:(lia)) as T. unfold takes in T.
  destruct (dec_ty V F (S (length (skip_spaces b))) t (skip_spaces b) x) as [r [e|] y]; cbn [d_err d_rest] in *; [exact T|].
  destruct T as (Wr & _ & VR). split; [apply wf_skip_spaces, Wr|]. intros NA. destruct (VR NA) as (w0 & s & a & w1 & W0 & J & W1 & E).
  destruct (skip_read r Wr) as (w2 & Ww2 & Er & _ & _).
  exists (w ++ w0), s, a, (w1 ++ w2). split; [apply ws_app; assumption|]. split; [exact J|]. split; [apply ws_app; assumption|]. rewrite Eb, E, Er at 1. appn. reflexivity.
Qed.
(** Unmarshal into a type without fixed-size arrays succeeds only on JSON texts;
    Parse succeeds only if the input starts with a JSON value, and returns what
    follows it. *)
Theorem C41_unmarshal_partial V F t b x y : env_ok V -> no_arrays V t -> wf b ->
  unmarshal V F t b x = (None, y) -> exists a, jtext b a.
Proof.
  intros OK NA W E. unfold unmarshal, unmarshal_with in E. fold (parse V F t b x) in E. pose proof (parse_cases V F t b x OK W) as P.
  destruct (parse V F t b x) as [[|c r] o z]; cbn [d_rest d_err d_val] in *; [|discriminate]. injection E as -> ->.
  destruct P as [_ P]. destruct (P NA) as (w0 & s & a & w1 & W0 & J & W1 & ->). exists a, w0, s, w1. rewrite app_nil_r. auto.
Qed.
Theorem C41_parse_partial V F t b x : env_ok V -> no_arrays V t -> wf b -> d_err (parse V F t b x) = None ->
  exists w1 s a w2, b = w1 ++ s ++ w2 ++ d_rest (parse V F t b x) /\ ws w1 /\ jvalue s a /\ ws w2.
Proof.
  intros OK NA W E. pose proof (parse_cases V F t b x OK W) as P. rewrite E in P. destruct P as [_ P].
  destruct (P NA) as (w0 & s & a & w1 & W0 & J & W1 & EQ). exists w0, s, a, w1. auto.
Qed.
Example C41_example : env_ok ex_env /\ no_arrays ex_env (YStruct 0) /\ wf ex_text /\ fst (unmarshal ex_env ex_flags (YStruct 0) ex_text ex_zero) = None.
Proof.
  split; [apply ex_env_ok|]. split.
  - split; [exact I|]. intros [|[|[|i]]] f; cbn [v_flds ex_env ex_flds In]; intros H; repeat destruct H as [<-|H]; try contradiction; exact I.
  - split; [|vm_compute; reflexivity]. repeat constructor; unfold is_byte; cbn; lia.
Qed.
(** Fixed-size arrays: commas between surplus elements may be missing, or stand
    before the first. *)
Theorem C41_arrays_refuted :
  unmarshal ex_env ex_flags (YArray 0 YBool) (bs "[1 2]") (MList []) = (None, MList []) /\
  unmarshal ex_env ex_flags (YArray 0 YBool) (bs "[,1]") (MList []) = (None, MList []) /\
  Valid (bs "[1 2]") = false /\ Valid (bs "[,1]") = false /\ wf (bs "[1 2]") /\ wf (bs "[,1]").
Proof. repeat split; try (vm_compute; reflexivity); repeat constructor; unfold is_byte; cbn; lia. Qed.
Print Assumptions C41_unmarshal_partial.
Print Assumptions C41_parse_partial.
Print Assumptions C41_arrays_refuted.

(** * C42: what is stored *)
Lemma unmarshal_cases V F t w1 nd w2 x : env_ok V -> ws w1 -> jnode nd -> ws w2 ->
  (exists y, unmarshal V F t (w1 ++ ntext nd ++ w2) x = (None, y) /\ stores V F t nd x y /\ forall y', stores V F t nd x y' -> y' = y) \/
  (exists e y, unmarshal V F t (w1 ++ ntext nd ++ w2) x = (Some e, y) /\ forall y', ~ stores V F t nd x y').
Proof.
  intros OK W1 J W2. unfold unmarshal, unmarshal_with, parse_with, decode. rewrite skip_spaces_ws by exact W1.
  destruct (node_start nd J) as (NS & _ & NN & _).
  cbv zeta.
  rewrite (skip_spaces_nsp (ntext nd ++ w2)) by (destruct (ntext nd); [congruence|exact NS]).
  destruct (dec_ty_meets V F OK (S (length (ntext nd ++ w2))) t nd x J ltac:(rewrite app_length; lia) w2 (stop_any _ _ (ws_num_stop w2 W2))) as [(r1 & y & E & SP & R & U)|(r1 & e & y & E & NE & U)]; rewrite E; cbn [d_rest d_err d_val].
  - left. exists y. rewrite SP, (ws_skip_nil _ W2). auto.
  - right. destruct (skip_spaces r1); eauto.
Qed.
(** On a JSON text Unmarshal stores what the specification [stores] says, and
    fails if it allows nothing. *)
Theorem C42_typed_decoding V F t w1 nd w2 x : env_ok V -> ws w1 -> jnode nd -> ws w2 ->
  match unmarshal V F t (w1 ++ ntext nd ++ w2) x with
  | (None, y) => stores V F t nd x y
  | (Some _, _) => forall y, ~ stores V F t nd x y
  end.
Proof.
  intros OK W1 J W2. destruct (unmarshal_cases V F t w1 nd w2 x OK W1 J W2) as [(y & -> & R & _)|(e & y & -> & U)]; assumption.
Qed.
Theorem C42_accepts_iff V F t w1 nd w2 x y : env_ok V -> ws w1 -> jnode nd -> ws w2 ->
  (unmarshal V F t (w1 ++ ntext nd ++ w2) x = (None, y) <-> stores V F t nd x y).
Proof.
  intros OK W1 J W2. destruct (unmarshal_cases V F t w1 nd w2 x OK W1 J W2) as [(z & -> & R & U)|(e & z & -> & U)].
  - split; [intros [= <-]; exact R|]. intros H. rewrite (U _ H). reflexivity.
  - split; [discriminate|]. intros H. destruct (U _ H).
Qed.
(** Every JSON text is of the form the two theorems are about, and what an
    interface{} is set to is what its part of the text denotes (SpecDec.v). *)
Theorem C42_every_text data a : jtext data a -> exists w1 nd w2, data = w1 ++ ntext nd ++ w2 /\ ws w1 /\ jnode nd /\ ws w2 /\ erase nd = a.
Proof.
  intros (w1 & s & w2 & -> & W1 & J & W2). destruct (jvalue_node s a J) as (nd & <- & E & JN). exists w1, nd, w2. auto.
Qed.
Theorem C42_interface V F nd x y : jnode nd -> stores V F YIface nd (MIface x) (MIface y) -> denotes (num V F) (erase nd) y.
Proof.
  intros J H. assert (IV : ival (num V F) (erase nd) y) by (inversion H; subst; cbn [null_keeps] in *; try contradiction; assumption).
  assert (L := proj1 jvalue_lits _ _ (jnode_jvalue nd J)). apply (ival_jden V F _ L) in IV.
  eapply denotes_ext; [|apply (jden_denotes (d_usenum F) (v_float V true) (erase nd) L y IV)].
  intros s z. unfold num_spec, numv, num. destruct (d_usenum F); [congruence|]. destruct (v_float V true s) as [f|]; [intros [= <-]; eauto|discriminate].
Qed.
Example C42_example : exists w1 nd w2, ws w1 /\ jnode nd /\ ws w2 /\ w1 ++ ntext nd ++ w2 = ex_text /\ stores ex_env ex_flags (YStruct 0) nd ex_zero ex_result.
Proof.
  destruct C41_example as (OK & NA & W & S). destruct (C41_unmarshal_partial _ _ _ _ _ _ OK NA W ex_unmarshal) as (a & J).
  destruct (C42_every_text _ _ J) as (w1 & nd & w2 & E & W1 & JN & W2 & _). exists w1, nd, w2. repeat (split; [solve [assumption|congruence]|]).
  apply (C42_accepts_iff ex_env ex_flags (YStruct 0) w1 nd w2 ex_zero ex_result OK W1 JN W2). rewrite <- E. exact ex_unmarshal.
Qed.
Print Assumptions C42_typed_decoding.
Print Assumptions C42_accepts_iff.
Print Assumptions C42_every_text.
Print Assumptions C42_interface.

(** * C43: memory stays well typed *)
Theorem C43_memory_safe V F t b x : env_ok V -> env_typed V -> wf b -> fits V t x ->
  fits V t (snd (unmarshal V F t b x)) /\ fst (unmarshal V F t b x) <> Some EPanicked /\ fst (unmarshal V F t b x) <> Some EFuel.
Proof.
  intros OK ET W FX. pose proof (parse_cases V F t b x OK W) as P.
  destruct (dec_ty_safe V F OK ET (S (length (skip_spaces b))) t (skip_spaces b) x (wf_skip_spaces b W) ltac:(lia) FX) as [S1 S2].
  unfold unmarshal, unmarshal_with. fold (parse V F t b x). cbn [fst snd]. split; [exact S1|]. split.
  - destruct (d_rest (parse V F t b x)); [exact S2|discriminate].
  - destruct (d_rest (parse V F t b x)); [|discriminate]. destruct (d_err (parse V F t b x)); [congruence|discriminate].
Qed.
Theorem C43_zero_fits V t : env_typed V -> fits V t (zero V t).
Proof. intros ET. apply zero_fits, ET. Qed.
Example C43_example : env_ok ex_env /\ env_typed ex_env /\ fits ex_env (YStruct 0) ex_zero /\ fits ex_env (YStruct 0) ex_result /\
  ~ fits ex_env (YStruct 0) (MList [MInt 128; MStr []; MPtr None; MSlice None; MPtr None; MList [MTime []; MBytes None; MMap None]]).
Proof.
  assert (Z := C43_zero_fits ex_env (YStruct 0) ex_env_typed). split; [apply ex_env_ok|]. split; [apply ex_env_typed|]. split; [exact Z|]. split.
  - pose proof (proj1 (C43_memory_safe ex_env ex_flags (YStruct 0) ex_text ex_zero ex_env_ok ex_env_typed (proj1 (proj2 (proj2 C41_example))) Z)) as H.
    rewrite ex_unmarshal in H. exact H.
  - intros H. inversion H as [| | | | | | | | | | | | | | | | | | | |i l FL| | |]; subst. inversion FL as [|? ? ? ? F1 _]; subst. inversion F1; subst. cbn in *. lia.
Qed.
Print Assumptions C43_memory_safe.
Print Assumptions C43_zero_fits.
