(** Theorems about decoding into a variable that holds something: C93, C94. *)
From Verif Require Import Bytes ParseModel IntModel StringModel EncModel DecModel SpecJson SpecString SpecDec ParseFacts IntFacts DecFacts ExactFloat
  TypeModel SpecType SpecFit SpecField SpecSame SpecSpell SpecAgain NodeFacts TypeLoops TypeFacts TypeMain TypeSound TypeSafe PropsDec PropsType PropsField PropsCont SpellFacts AgainFacts PropsTrip PropsParse.

Section Texts.
Context (V : tenv) (F : dflags).
Lemma to_node t b a : env_ok V -> jtext b a -> exists nd, jnode nd /\ forall x y, unmarshal V F t b x = (None, y) <-> stores V F t nd x y.
Proof.
  intros OK J. destruct (C42_every_text b a J) as (w1 & nd & w2 & -> & W1 & JN & W2 & _). exists nd. split; [exact JN|].
  intros x0 y0. now apply C42_accepts_iff.
Qed.

(** * C94: whether a text is accepted does not depend on the variable *)
Theorem C94_accepted_partial t b a x x' : env_ok V -> env_typed V -> all_exported V -> overwrites (v_json V) -> overwrites (v_text V) -> everywhere no_named V t ->
  jtext b a -> fits V t x -> fits V t x' ->
  (fst (unmarshal V F t b x) = None <-> fst (unmarshal V F t b x') = None).
Proof.
  intros OK ET EX OJ OT [NT NE] J.
  assert (G : forall x x', fits V t x -> fits V t x' -> fst (unmarshal V F t b x) = None -> fst (unmarshal V F t b x') = None).
  { clear x x'. intros x x' FX FX' H. destruct (to_node t b a OK J) as (nd & JN & TN). destruct (unmarshal V F t b x) as [o y] eqn:U. cbn [fst] in H. subst o. apply TN in U.
    destruct (accept_all V F OK OJ OT ET EX (S (nsize nd)) t NT NE nd ltac:(split; [exact JN|lia]) x y FX U x' FX') as (y' & S). apply TN in S. now rewrite S. }
  intros FX FX'. split; apply G; assumption.
Qed.

(** * C93: decoding the same texts again changes nothing *)
Theorem C93_replay_partial t texts x y : env_ok V -> env_typed V -> env_names V -> all_exported V -> overwrites (v_json V) -> overwrites (v_text V) -> everywhere no_named V t ->
  Forall (fun b => exists a, jtext b a) texts -> fits V t x -> replay V F t texts x = Some y -> replay V F t texts y = Some y.
Proof.
  intros OK ET EN EX OJ OT NN FJ FX R.
  assert (G : exists nds, Forall jnode nds /\ forall x y, replay V F t texts x = Some y <-> chain (stores V F t) nds x y).
  { clear R. induction FJ as [|b texts (a & J) FJ IH]; [exists []; split; [constructor|]; intros x0 y0; cbn; split; [intros [= <-]; constructor|intros C; now inversion C]|].
    destruct IH as (nds & FN & E). destruct (to_node t b a OK J) as (nd & JN & TN). exists (nd :: nds). split; [now constructor|]. intros x0 y0. cbn [replay]. split.
    - destruct (unmarshal V F t b x0) as [[e|] z] eqn:U; [discriminate|]. intros H. econstructor; [apply TN, U|now apply E].
    - intros C. inversion C as [|? ? ? z ? S C']; subst. apply TN in S. rewrite S. now apply E. }
  destruct G as (nds & FN & E). destruct NN as [NT NE].
  assert (SZ : exists n, Forall (within n) nds).
  { clear E. induction FN as [|nd nds JN FN (n & IH)]; [exists 0%nat; constructor|]. exists (Nat.max n (S (nsize nd))). constructor; [split; [exact JN|lia]|].
    eapply Forall_impl; [|exact IH]. intros v [Jv B]. split; [exact Jv|lia]. }
  destruct SZ as (n & FW). apply E in R.
  assert (FY : forall nds x y, Forall (within n) nds -> fits V t x -> chain (stores V F t) nds x y -> fits V t y).
  { clear -OK ET. intros nds x y FW FX C. induction C as [|v vs x y z S C IH]; [exact FX|]. inversion FW as [|? ? [Jv _] FW']; subst. apply IH; [exact FW'|]. eapply stores_fits; eassumption. }
  assert (AC : exists z, chain (stores V F t) nds y z).
  { pose proof (FY nds x y FW FX R) as Fy. clear E FJ FN. revert FW FX Fy. revert R. generalize y at 2 3. intros y' R. revert y'. induction R as [x|v vs x y z S R IH]; intros y' FW FX Fy; [eexists; constructor|].
    inversion FW as [|? ? Wv FW']; subst. destruct (accept_all V F OK OJ OT ET EX n t NT NE v Wv x y FX S y' Fy) as (z' & S').
    destruct (IH z' FW') as (w & C); [exact (stores_fits V F OK ET t v x y (proj1 Wv) FX S)|exact (stores_fits V F OK ET t v y' z' (proj1 Wv) Fy S')|]. exists w. econstructor; eassumption. }
  destruct AC as (z & C). rewrite (again_all V F OK EN OJ OT n t NT NE nds x y z FW R C) in C. now apply E.
Qed.
Theorem C93_again_partial t b a x y : env_ok V -> env_typed V -> env_names V -> all_exported V -> overwrites (v_json V) -> overwrites (v_text V) -> everywhere no_named V t ->
  jtext b a -> fits V t x -> unmarshal V F t b x = (None, y) -> unmarshal V F t b y = (None, y).
Proof.
  intros OK ET EN EX OJ OT NN J FX U.
  assert (R : replay V F t [b] y = Some y).
  { apply (C93_replay_partial t [b] x y); try assumption; [constructor; [now exists a|constructor]|]. cbn [replay]. now rewrite U. }
  cbn [replay] in R. destruct (unmarshal V F t b y) as [[e|] z]; [discriminate|]. congruence.
Qed.
(** Types without arrays accept nothing but JSON. *)
Theorem C93_bytes_partial t b x y : env_ok V -> env_typed V -> env_names V -> all_exported V -> overwrites (v_json V) -> overwrites (v_text V) -> everywhere no_named V t ->
  no_arrays V t -> wf b -> fits V t x -> unmarshal V F t b x = (None, y) -> unmarshal V F t b y = (None, y).
Proof.
  intros OK ET EN EX OJ OT NN NA W FX U. destruct (C41_unmarshal_partial V F t b x y OK NA W U) as (a & J). now apply (C93_again_partial t b a x).
Qed.
End Texts.

(** * What is excluded *)
Lemma ex_exported : all_exported ex_env.
Proof.
  intros [|[|[|i]]] f k s; cbn [v_flds ex_env ex_flds In]; intros H; repeat destruct H as [<-|H]; try contradiction; cbn [jf_path In]; intros J; repeat destruct J as [J|J]; try discriminate; contradiction.
Qed.
Lemma is_wf b : forallb (fun c => (0 <=? c) && (c <? 256)) b = true -> wf b.
Proof. intros W. apply Forall_forall. intros c I. rewrite forallb_forall in W. specialize (W c I). unfold is_byte. zb. lia. Qed.
Lemma is_text b : forallb (fun c => (0 <=? c) && (c <? 256)) b = true -> Valid b = true -> exists a, jtext b a.
Proof. intros W H. apply C01_valid_iff_grammar; [now apply is_wf|exact H]. Qed.
Lemma ex_overwrites : overwrites (fun _ s _ => (None, s)).
Proof. intros u s x y H x'. exact H. Qed.
(** An interface type with a name takes a value only while it is nil. *)
Theorem C93_named_interface_refuted : exists V F b x y, env_ok V /\ env_typed V /\ env_names V /\ all_exported V /\ overwrites (v_json V) /\ overwrites (v_text V) /\
  (exists a, jtext b a) /\ fits V (YNamedIface true) x /\ unmarshal V F (YNamedIface true) b x = (None, y) /\ fst (unmarshal V F (YNamedIface true) b y) <> None.
Proof.
  exists ex_env, ex_flags, (bs "true"), (MIface JVNull), (MIface (JVBool true)).
  split; [exact ex_env_ok|]. split; [exact ex_env_typed|]. split; [exact ex_names|]. split; [exact ex_exported|]. split; [exact ex_overwrites|]. split; [exact ex_overwrites|].
  split; [apply is_text; vm_compute; reflexivity|]. split; [constructor|]. split; vm_compute; [reflexivity|discriminate].
Qed.
(** An embedded pointer to an unexported struct is not allocated. *)
Theorem C94_unexported_refuted : exists V F b x x', env_ok V /\ env_typed V /\ env_names V /\ overwrites (v_json V) /\ overwrites (v_text V) /\ everywhere no_named V (YStruct 1) /\
  (exists a, jtext b a) /\ fits V (YStruct 1) x /\ fits V (YStruct 1) x' /\ fst (unmarshal V F (YStruct 1) b x) = None /\ fst (unmarshal V F (YStruct 1) b x') <> None.
Proof.
  exists rf_env, ex_flags, (bs "{""x"":true}"), (MList [MPtr (Some (MList [MBool false]))]), (MList [MPtr None]).
  destruct rf_ok as (R1 & R2 & R3). split; [exact R1|]. split; [exact R2|]. split; [exact R3|]. split; [intros u s x y H x'; exact H|]. split; [intros u s x y H x'; exact H|].
  split; [split; [exact I|]; intros [|[|[|i]]] f; cbn [v_flds rf_env In]; intros H; repeat destruct H as [<-|H]; try contradiction; exact I|].
  split; [apply is_text; vm_compute; reflexivity|]. split; [repeat constructor|]. split; [repeat constructor|]. split; vm_compute; [reflexivity|discriminate].
Qed.
(** Nor is it restored once a null has dropped it:
      type P struct { B *B `json:"b"` }
      type B struct { *inner }
      type inner struct { X bool `json:"x"` } *)
Definition dr_env : tenv := TEnv (fun i => match i with 0%nat => [YPtr (YStruct 1)] | 1%nat => [YPtr (YStruct 2)] | 2%nat => [YBool] | _ => [] end) 2
  (fun i => match i with
            | 0%nat => [JField (bs "b") [PIn 0] (YPtr (YStruct 1)) QNo]
            | 1%nat => [JField (bs "x") [PVia 0 2 true; PIn 0] YBool QNo]
            | 2%nat => [JField (bs "x") [PIn 0] YBool QNo]
            | _ => []
            end) (fun _ => exact)
  (fun _ => None) (fun _ => None) (fun _ => None) (fun _ s _ => (None, s)) (fun _ s _ => (None, s)) (map lower_ascii) (fun c => c).
Lemma dr_ok : env_ok dr_env /\ env_typed dr_env /\ env_names dr_env.
Proof.
  split; [|split].
  - constructor; cbn [v_dur v_time v_json v_text v_flds dr_env]; try discriminate. intros [|[|[|i]]] f; cbn [In]; intros H; repeat destruct H as [<-|H]; try contradiction; cbn; congruence.
  - constructor; cbn [v_dur v_b64 v_json v_text dr_env]; try discriminate.
    + intros [|[|[|i]]] f; cbn [v_flds dr_env In]; intros H; repeat destruct H as [<-|H]; try contradiction; cbn [jf_path jf_ty];
        repeat first [apply ld_here | eapply ld_in; [reflexivity|] | eapply ld_via; [reflexivity|]].
    + exists (fun i => match i with 1 => 1 | _ => 0 end)%nat. split; [|intros [|[|i]]; cbn; lia].
      intros [|[|[|i]]] u j; cbn [v_decl dr_env In]; intros H; repeat destruct H as [<-|H]; try contradiction; cbn [holds In]; intros J; try contradiction.
  - constructor.
    + intros [|[|[|i]]]; cbn [v_flds dr_env map jf_name]; repeat constructor; intros [].
    + intros [|[|[|i]]] f; cbn [v_flds dr_env In]; intros H; repeat destruct H as [<-|H]; try contradiction; cbn [jf_name]; apply TripType.ascii_utf8; vm_compute; repeat constructor; discriminate.
    + intros [|[|[|i]]] f; cbn [v_flds dr_env In]; intros H; repeat destruct H as [<-|H]; try contradiction; discriminate.
    + intros [|[|[|i]]] f g; cbn [v_flds dr_env In]; intros H H'; repeat destruct H as [<-|H]; try contradiction; repeat destruct H' as [<-|H']; try contradiction; congruence.
Qed.
Theorem C93_unexported_refuted : exists V F b x y, env_ok V /\ env_typed V /\ env_names V /\ overwrites (v_json V) /\ overwrites (v_text V) /\ everywhere no_named V (YStruct 0) /\
  (exists a, jtext b a) /\ fits V (YStruct 0) x /\ unmarshal V F (YStruct 0) b x = (None, y) /\ fst (unmarshal V F (YStruct 0) b y) <> None.
Proof.
  exists dr_env, ex_flags, (bs "{""b"":{""x"":true},""b"":null}"), (MList [MPtr (Some (MList [MPtr (Some (MList [MBool false]))]))]), (MList [MPtr None]).
  destruct dr_ok as (R1 & R2 & R3). split; [exact R1|]. split; [exact R2|]. split; [exact R3|]. split; [intros u s x y H x'; exact H|]. split; [intros u s x y H x'; exact H|].
  split; [split; [exact I|]; intros [|[|[|i]]] f; cbn [v_flds dr_env In]; intros H; repeat destruct H as [<-|H]; try contradiction; exact I|].
  split; [apply is_text; vm_compute; reflexivity|]. split; [repeat constructor|]. split; vm_compute; [reflexivity|discriminate].
Qed.
(** A type's own UnmarshalJSON may add to what is there. *)
Definition add_env : tenv := TEnv (v_decl rf_env) 2 (v_flds rf_env) (fun _ => exact) (fun _ => None) (fun _ => None) (fun _ => None) (fun _ s x => (None, x ++ s)) (fun _ s x => (None, x ++ s)) (map lower_ascii) (fun c => c).
Theorem C93_methods_refuted : exists b x y z, env_names add_env /\ (exists a, jtext b a) /\ fits add_env (YJSON 0) x /\
  unmarshal add_env ex_flags (YJSON 0) b x = (None, y) /\ unmarshal add_env ex_flags (YJSON 0) b y = (None, z) /\ z <> y.
Proof.
  exists (bs "1"), (MUser []), (MUser (bs "1")), (MUser (bs "11")). split; [destruct rf_ok as (_ & _ & R); destruct R; constructor; assumption|].
  split; [apply is_text; vm_compute; reflexivity|]. split; [constructor|]. split; [vm_compute; reflexivity|]. split; [vm_compute; reflexivity|]. vm_compute. discriminate.
Qed.

(** * A case: a text with repeated members, decoded three times *)
Definition ag_text : bytes := bs "{""kids"":[{""a"":1},{""a"":2,""name"":""x""}], ""ok"":true, ""kids"":[{""name"":""y""}], ""tags"":{""5"":1,""5"":2}, ""OK"":false, ""big"":null, ""big"":""7"", ""data"":[1], ""data"":[]}".
Definition ag_result : mem := snd (unmarshal ex_env ex_flags (YStruct 0) ag_text ex_zero).
Example C93_case : env_ok ex_env /\ env_typed ex_env /\ env_names ex_env /\ all_exported ex_env /\ overwrites (v_json ex_env) /\ overwrites (v_text ex_env) /\ everywhere no_named ex_env (YStruct 0) /\
  (exists a, jtext ag_text a) /\ fits ex_env (YStruct 0) ex_zero /\
  unmarshal ex_env ex_flags (YStruct 0) ag_text ex_zero = (None, ag_result) /\ ag_result <> ex_zero /\
  unmarshal ex_env ex_flags (YStruct 0) ag_text ag_result = (None, ag_result) /\
  replay ex_env ex_flags (YStruct 0) [ag_text; ex_text] ex_zero = replay ex_env ex_flags (YStruct 0) [ag_text; ex_text; ag_text; ex_text] ex_zero.
Proof.
  split; [exact ex_env_ok|]. split; [exact ex_env_typed|]. split; [exact ex_names|]. split; [exact ex_exported|]. split; [exact ex_overwrites|]. split; [exact ex_overwrites|].
  split; [split; [exact I|]; intros [|[|[|i]]] f; cbn [v_flds ex_env ex_flds In]; intros H; repeat destruct H as [<-|H]; try contradiction; exact I|].
  split; [apply is_text; vm_compute; reflexivity|]. split; [apply zero_fits, ex_env_typed|]. split; [vm_compute; reflexivity|]. split; [vm_compute; discriminate|]. split; vm_compute; reflexivity.
Qed.
Example C94_case : fits ex_env (YStruct 0) ex_zero /\ fits ex_env (YStruct 0) ag_result /\ (exists a, jtext ex_text a) /\
  fst (unmarshal ex_env ex_flags (YStruct 0) ex_text ex_zero) = None /\ fst (unmarshal ex_env ex_flags (YStruct 0) ex_text ag_result) = None /\
  snd (unmarshal ex_env ex_flags (YStruct 0) ex_text ag_result) <> ex_result.
Proof.
  assert (Z : fits ex_env (YStruct 0) ex_zero) by apply zero_fits, ex_env_typed. split; [exact Z|].
  split; [apply (C43_memory_safe ex_env ex_flags (YStruct 0) ag_text ex_zero ex_env_ok ex_env_typed); [|exact Z]; apply is_wf; vm_compute; reflexivity|].
  split; [apply is_text; vm_compute; reflexivity|]. split; [vm_compute; reflexivity|]. split; [vm_compute; reflexivity|vm_compute; discriminate].
Qed.
Print Assumptions C94_accepted_partial.
Print Assumptions C93_replay_partial.
Print Assumptions C93_again_partial.
Print Assumptions C93_bytes_partial.
Print Assumptions C93_named_interface_refuted.
Print Assumptions C94_unexported_refuted.
Print Assumptions C93_unexported_refuted.
Print Assumptions C93_methods_refuted.
