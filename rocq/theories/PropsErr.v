(** Which errors Unmarshal returns: C58. *)
From Verif Require Import Bytes ParseModel IntModel StringModel EncModel DecModel SpecJson SpecString SpecDec ParseFacts IntFacts DecFacts
  TypeModel SpecType SpecFit SpecErr NodeFacts TypeLoops TypeFacts TypeMain TypeSound TypeSafe ErrFacts ExactFloat PropsType.

(** A text that is not JSON is reported as a SyntaxError. *)
Theorem C58_malformed_partial V F t b x : env_ok V -> env_typed V -> wf b -> fits V t x -> no_arrays V t -> plain_target F t ->
  (forall a, ~ jtext b a) -> fst (unmarshal V F t b x) = Some ESyntax.
Proof.
  intros OK ET W FX NA PT NJ. destruct (unmarshal V F t b x) as [[e|] y] eqn:E.
  2:{ destruct (C41_unmarshal_partial V F t b x y OK NA W E) as [a J]. contradiction (NJ a J). }
  cbn [fst]. pose proof (dec_ty_clean V F (S (length (skip_spaces b))) t (skip_spaces b) x PT (wf_skip_spaces b W)) as C.
  pose proof (C43_memory_safe V F t b x OK ET W FX) as (_ & NP & NF). rewrite E in NP, NF. cbn [fst] in NP, NF.
  unfold unmarshal, unmarshal_with, parse_with, decode in E. cbv zeta in E. unfold clean in C.
  destruct (dec_ty V F (S (length (skip_spaces b))) t (skip_spaces b) x) as [r o z]. cbn [d_rest d_err d_val] in *.
  destruct (skip_spaces r) eqn:R; [|injection E as <- _; reflexivity]. injection E as -> _. destruct C as [->|[[->| ->]|C]]; try congruence. exfalso.
  destruct C as (w0 & s & a & w1 & W0 & J & W1 & Eb). destruct (skip_read b W) as (w & Ww & Ew & _). destruct (skip_spaces_split r) as (w2 & W2 & Er & _).
  rewrite R, app_nil_r in Er. subst r. apply (NJ a). exists (w ++ w0), s, (w1 ++ w2). split; [rewrite Ew, Eb; appn; reflexivity|].
  split; [apply ws_app; assumption|]. split; [exact J|]. apply ws_app; assumption.
Qed.
(** A text that is JSON is not reported as a SyntaxError. *)
Theorem C58_wellformed_partial V F t b a x : env_ok V -> env_typed V -> mild_env V -> d_disallow F = false -> wf b -> fits V t x ->
  mild t -> not_integer t -> jtext b a -> fst (unmarshal V F t b x) <> Some ESyntax.
Proof.
  intros OK ET ME DA W FX MT NI (w1 & s & w2 & Eb & W1 & J & W2). destruct (jvalue_node s a J) as (nd & En & _ & Jn).
  assert (SB : skip_spaces b = ntext nd ++ w2).
  { rewrite Eb, En, skip_spaces_ws by exact W1. apply skip_spaces_nsp. rewrite <- En. destruct (node_start nd Jn) as (Sn & _ & Se & _). apply nsp_app; assumption. }
  assert (NS : num_stop w2). { rewrite <- (app_nil_r w2). apply num_stop_ws; [exact W2|exact I]. }
  pose proof (dec_ty_quiet V F OK ME (S (length (skip_spaces b))) t nd x MT Jn ltac:(rewrite SB, app_length; lia) w2 (stop_any _ _ NS)) as q.
  destruct (dec_ty_safe V F OK ET (S (length (skip_spaces b))) t (skip_spaces b) x (wf_skip_spaces b W) ltac:(lia) FX) as [_ S2].
  rewrite <- SB in q. unfold unmarshal, unmarshal_with, parse_with, decode. cbv zeta. cbn [fst d_rest d_err].
  assert (SW : skip_spaces w2 = []) by (rewrite <- (app_nil_r w2), skip_spaces_ws by exact W2; reflexivity). rewrite SW in q.
  destruct (dec_ty V F (S (length (skip_spaces b))) t (skip_spaces b) x) as [r [e|] z]; cbn [d_rest d_err d_val] in *.
  - destruct q as [q1 q2]. destruct (q2 (conj NI DA)) as [->|R]; [congruence|]. rewrite R. congruence.
  - rewrite q. discriminate.
Qed.

(** * Examples:
      type Node struct { A int8 `json:"a"`; Name string `json:"name"`; *Info; Kids []*Node `json:"kids"`; Big *int64 `json:"big,string"` }
      type Info struct { Ok bool `json:"ok"`; Any map[string]interface{} `json:"any"` }
      type Quoted struct { B bool `json:"b,string"` }
    and a type whose UnmarshalText always fails. *)
Definition er_decl (i : nat) : list gty :=
  match i with
  | 0%nat => [YInt TInt8; YString; YPtr (YStruct 1); YSlice (YPtr (YStruct 0)); YPtr (YInt TInt64)]
  | 1%nat => [YBool; YMap KYString YIface]
  | 2%nat => [YBool]
  | _ => []
  end.
Definition er_flds (i : nat) : list jfield :=
  match i with
  | 0%nat => [JField (bs "a") [PIn 0] (YInt TInt8) QNo; JField (bs "name") [PIn 1] YString QNo;
            JField (bs "ok") [PVia 2 1 false; PIn 0] YBool QNo; JField (bs "any") [PVia 2 1 false; PIn 1] (YMap KYString YIface) QNo;
            JField (bs "kids") [PIn 3] (YSlice (YPtr (YStruct 0))) QNo; JField (bs "big") [PIn 4] (YPtr (YInt TInt64)) QInt]
  | 1%nat => [JField (bs "ok") [PIn 0] YBool QNo; JField (bs "any") [PIn 1] (YMap KYString YIface) QNo]
  | _ => []
  end.
Definition er_quoted (i : nat) : list jfield := match i with 2%nat => [JField (bs "b") [PIn 0] YBool QStr] | _ => [] end.
Definition er_env_of (flds : nat -> list jfield) : tenv := TEnv er_decl 2 flds (fun _ => exact) (fun _ => None) (fun _ => None) (fun _ => None)
  (fun _ s _ => (None, s)) (fun _ s _ => (Some EOther, s)) (map lower_ascii) (fun c => c).
Definition er_env : tenv := er_env_of er_flds.
Lemma er_env_ok : env_ok er_env.
Proof.
  constructor; cbn [v_dur v_time v_json v_text v_flds er_env er_env_of]; try (intros; discriminate); [intros u s x e y [= <- _]; discriminate|].
  intros [|[|i]] f; cbn [er_flds In]; intros H; repeat destruct H as [<-|H]; try contradiction; cbn; try congruence; auto.
Qed.
Lemma er_env_typed : env_typed er_env.
Proof.
  constructor; cbn [v_dur v_b64 v_json v_text er_env er_env_of]; try (intros; discriminate).
  - intros [|[|i]] f; cbn [v_flds er_env er_env_of er_flds In]; intros H; repeat destruct H as [<-|H]; try contradiction; cbn [jf_path jf_ty];
      repeat first [apply ld_here | eapply ld_in; [reflexivity|] | eapply ld_via; [reflexivity|]].
  - exists (fun i => match i with O => 1 | _ => 0 end)%nat. split; [|intros [|i]; cbn; lia].
    intros [|[|[|i]]] u j; cbn [v_decl er_env er_env_of er_decl In]; intros H; repeat destruct H as [<-|H]; try contradiction; cbn [holds In]; intros J; contradiction.
Qed.
Lemma er_mild : mild_env er_env.
Proof.
  constructor; cbn [v_json v_text er_env er_env_of]; try (intros; discriminate).
  intros [|[|i]] f; cbn [v_flds er_env er_env_of er_flds In]; intros H; repeat destruct H as [<-|H]; try contradiction; split; cbn; try exact I; discriminate.
Qed.
Definition er_zero : mem := zero er_env (YStruct 0).
Definition er_good : bytes := bs "{""a"":1, ""kids"":[null,{""name"":7}]}".
Definition er_bad : bytes := bs "{""a"":1, ""kids"":[null,{""name"":7}]".
Lemma er_fits : fits er_env (YStruct 0) er_zero.
Proof. apply C43_zero_fits, er_env_typed. Qed.
(** The hypotheses of both theorems hold for Node; a text that is not JSON, and
    one that is but holds a number where a string is wanted. *)
Example C58_example : env_ok er_env /\ env_typed er_env /\ mild_env er_env /\ fits er_env (YStruct 0) er_zero /\
  no_arrays er_env (YStruct 0) /\ plain_target ex_flags (YStruct 0) /\ mild (YStruct 0) /\ not_integer (YStruct 0) /\
  wf er_bad /\ Valid er_bad = false /\ fst (unmarshal er_env ex_flags (YStruct 0) er_bad er_zero) = Some ESyntax /\
  wf er_good /\ Valid er_good = true /\ fst (unmarshal er_env ex_flags (YStruct 0) er_good er_zero) = Some EType.
Proof.
  split; [apply er_env_ok|]. split; [apply er_env_typed|]. split; [apply er_mild|]. split; [apply er_fits|]. split.
  { split; [exact I|]. intros [|[|i]] f; cbn [v_flds er_env er_env_of er_flds In]; intros H; repeat destruct H as [<-|H]; try contradiction; exact I. }
  do 3 (split; [solve [exact I|reflexivity]|]).
  split; [repeat constructor; unfold is_byte; cbn; lia|]. split; [vm_compute; reflexivity|]. split; [vm_compute; reflexivity|].
  split; [repeat constructor; unfold is_byte; cbn; lia|]. split; vm_compute; reflexivity.
Qed.
(** SyntaxError for JSON texts: an integer out of the 64-bit range, an empty array
    for a Go array, a key that is not of the map's integer key type, and a value
    without quotes for a field with the option ",string". *)
Theorem C58_wellformed_refuted :
  Valid (bs "9223372036854775808") = true /\ fst (unmarshal er_env ex_flags (YInt TInt64) (bs "9223372036854775808") (MInt 0)) = Some ESyntax /\
  Valid (bs "[]") = true /\ fst (unmarshal er_env ex_flags (YArray 2 YBool) (bs "[]") (MList [MBool true; MBool true])) = Some ESyntax /\
  Valid (bs "{""x"":1}") = true /\ fst (unmarshal er_env ex_flags (YMap (KYInt TInt8) YIface) (bs "{""x"":1}") (MMap None)) = Some ESyntax /\
  Valid (bs "{""300"":1}") = true /\ fst (unmarshal er_env ex_flags (YMap (KYInt TInt8) YIface) (bs "{""300"":1}") (MMap None)) = Some ESyntax /\
  Valid (bs "{""b"":1}") = true /\ fst (unmarshal (er_env_of er_quoted) ex_flags (YStruct 2) (bs "{""b"":1}") (MList [MBool true])) = Some ESyntax.
Proof. repeat split; vm_compute; reflexivity. Qed.
(** Other errors for texts that are not JSON. *)
Theorem C58_malformed_refuted :
  Valid (bs "1.") = false /\ fst (unmarshal er_env ex_flags (YInt TInt64) (bs "1.") (MInt 0)) = Some EType /\
  Valid (bs "[true,""a""") = false /\ fst (unmarshal er_env ex_flags (YArray 2 YBool) (bs "[true,""a""") (MList [MBool true; MBool true])) = Some EType /\
  Valid (bs "{""x"" ") = false /\ fst (unmarshal er_env ex_flags (YMap (KYText 0) YIface) (bs "{""x"" ") (MMap None)) = Some EOther /\
  Valid (bs "{""x"":") = false /\ fst (unmarshal er_env (DFlags false true false) (YStruct 0) (bs "{""x"":") er_zero) = Some EOther.
Proof. repeat split; vm_compute; reflexivity. Qed.
Print Assumptions C58_malformed_partial.
Print Assumptions C58_wellformed_partial.
Print Assumptions C58_wellformed_refuted.
Print Assumptions C58_malformed_refuted.
