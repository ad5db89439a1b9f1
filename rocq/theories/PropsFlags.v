(** Theorems about the flags of Parse and the options of a Decoder: C96. *)
From Verif Require Import Bytes ParseModel IntModel StringModel EncModel DecModel SpecJson SpecString SpecDec ParseFacts IntFacts DecFacts ExactFloat
  TypeModel SpecType SpecFit SpecSpell SpecFlags NodeFacts TypeLoops TypeFacts TypeMain TypeSound TypeSafe PropsDec PropsType SpellFacts FlagFacts PropsTrip PropsAgain.

Section Flags.
Context (V : tenv).
Lemma flags_go F F' (K : bytes -> Prop) t b a x y : env_ok V -> (d_disallow F = false -> d_disallow F' = false) ->
  (forall lit k i o, K lit -> str_means lit k -> picks V F (v_flds V i) k o -> picks V F' (v_flds V i) k o) ->
  d_usenum F = d_usenum F' \/ everywhere no_iface V t -> jtext b a -> Forall K (keys_in a) -> unmarshal V F t b x = (None, y) -> unmarshal V F' t b x = (None, y).
Proof.
  intros OK DD PK US J FK U. destruct (C42_every_text b a J) as (w1 & nd & w2 & -> & W1 & JN & W2 & <-). apply C42_accepts_iff in U; try assumption. apply C42_accepts_iff; try assumption.
  eapply (stores_into V F F' OK K DD PK); [| |split; [|exact FK]; apply Nat.lt_succ_diag_r|exact U].
  - intros i f INf. destruct US as [US|[_ US]]; [now left|right; exact (US i f INf)].
  - destruct US as [US|[US _]]; [now left|now right].
Qed.

(** Parse of a text that is one value: nothing remains. *)
Lemma parse_all F t b x y : unmarshal V F t b x = (None, y) <-> parse V F t b x = DR [] None y.
Proof.
  unfold unmarshal, unmarshal_with, parse. destruct (parse_with (decode V F t) b x) as [r e z]. cbn [d_rest d_err d_val].
  destruct r; split; intros H; try discriminate; congruence.
Qed.
(** * C96: every option changes only what it is about *)
(** UseNumber: nothing for types without interfaces. *)
Theorem C96_use_number u u' d n t b a x y : env_ok V -> everywhere no_iface V t -> jtext b a ->
  parse V (DFlags u d n) t b x = DR [] None y <-> parse V (DFlags u' d n) t b x = DR [] None y.
Proof.
  intros OK NI J. rewrite <- !parse_all. split; apply (flags_go _ _ (fun _ => True) t b a x y OK); auto; try (now apply Forall_forall);
    (intros lit k i o _ _ P; inversion P; subst; [eapply pk_exact|eapply pk_fold|eapply pk_none]; eauto).
Qed.
(** DisallowUnknownFields: it only refuses texts. *)
Theorem C96_disallow u d n t b a x y : env_ok V -> jtext b a ->
  parse V (DFlags u d n) t b x = DR [] None y -> parse V (DFlags u false n) t b x = DR [] None y.
Proof.
  intros OK J. rewrite <- !parse_all. apply (flags_go _ _ (fun _ => True) t b a x y OK); auto; [|now apply Forall_forall].
  intros lit k i o _ _ P; inversion P; subst; [eapply pk_exact|eapply pk_fold|eapply pk_none]; eauto.
Qed.
(** DontMatchCaseInsensitiveStructFields: nothing, unless a key is the name of a
    field but for case. *)
Theorem C96_case u d n n' t b a x y : env_ok V -> jtext b a -> Forall (cased V) (keys_in a) ->
  parse V (DFlags u d n) t b x = DR [] None y <-> parse V (DFlags u d n') t b x = DR [] None y.
Proof.
  intros OK J FC. enough (G : forall n n', parse V (DFlags u d n) t b x = DR [] None y -> parse V (DFlags u d n') t b x = DR [] None y) by (split; apply G).
  clear n n'. intros n n'. rewrite <- !parse_all. apply (flags_go _ _ (cased V) t b a x y OK); auto. intros lit k i o C SM P.
  inversion P as [l1 f l2 E EX FO|l1 f l2 NX NC E FD FO|NX NF]; subst.
  - eapply pk_exact; eauto.
  - exfalso. destruct (C k i SM) as [(g & Ig & Eg)|N]; [rewrite Forall_forall in NX; now apply (NX g Ig)|]. apply (N f); [rewrite E; apply in_or_app; right; now left|exact FD].
  - apply pk_none; [exact NX|]. intros _. apply Forall_forall. intros g Ig. destruct (C k i SM) as [(g' & Ig' & Eg)|N]; [rewrite Forall_forall in NX; destruct (NX g' Ig' Eg)|exact (N g Ig)].
Qed.
End Flags.

(** * Cases, and each option at work where it is about something *)
Definition fl_text : bytes := bs "{""l"":null}".
Lemma fl_lit : string_lit (bs """l""").
Proof. exists (bs "l"). split; [reflexivity|]. change (str_body [108]). apply sb_char; [lia|lia|lia|constructor]. Qed.
Lemma fl_json : jtext fl_text (JObj [(bs """l""", JNull)]).
Proof.
  exists [], fl_text, []. split; [reflexivity|]. split; [constructor|]. split; [|constructor]. change fl_text with (123 :: ([] ++ bs """l""" ++ [] ++ 58 :: [] ++ bs "null" ++ []) ++ [125]).
  constructor. apply M_one, M_intro; try constructor. exact fl_lit.
Qed.
Lemma fl_cased : cased rf_env (bs """l""").
Proof.
  intros k i SM. assert (k = bs "l") as -> by (rewrite (str_means_text _ _ fl_lit SM); vm_compute; reflexivity).
  destruct i as [|[|[|i]]]; [left|right|right|right].
  - eexists. split; [now left|reflexivity].
  - intros f [<-|[]]. vm_compute. discriminate.
  - intros f [<-|[]]. vm_compute. discriminate.
  - intros f [].
Qed.
Example C96_holds : env_ok rf_env /\ everywhere no_iface rf_env (YStruct 0) /\ jtext fl_text (JObj [(bs """l""", JNull)]) /\ Forall (cased rf_env) (keys_in (JObj [(bs """l""", JNull)])) /\
  forall u d n, parse rf_env (DFlags u d n) (YStruct 0) fl_text (MList [MSlice (Some (1%nat, [MBool true]))]) = DR [] None (MList [MSlice None]).
Proof.
  split; [apply rf_ok|]. split; [split; [exact I|]; intros [|[|[|i]]] f; cbn [v_flds rf_env In]; intros H; repeat destruct H as [<-|H]; try contradiction; exact I|].
  split; [exact fl_json|]. split; [constructor; [exact fl_cased|constructor]|]. intros [|] [|] [|]; vm_compute; reflexivity.
Qed.
Theorem C96_options_matter : exists x,
  d_val (parse ex_env (DFlags true false false) YIface (bs "1.50") (MIface JVNull)) <> d_val (parse ex_env (DFlags false false false) YIface (bs "1.50") (MIface JVNull)) /\
  d_err (parse rf_env (DFlags false true false) (YStruct 0) (bs "{""z"":1}") x) <> None /\ d_err (parse rf_env (DFlags false false false) (YStruct 0) (bs "{""z"":1}") x) = None /\
  d_val (parse rf_env (DFlags false false false) (YStruct 0) (bs "{""L"":null}") x) <> d_val (parse rf_env (DFlags false false true) (YStruct 0) (bs "{""L"":null}") x).
Proof. exists (MList [MSlice (Some (1%nat, [MBool true]))]). split; [vm_compute; discriminate|]. split; [vm_compute; discriminate|]. split; [vm_compute; reflexivity|vm_compute; discriminate]. Qed.
Print Assumptions C96_use_number.
Print Assumptions C96_disallow.
Print Assumptions C96_case.
Print Assumptions C96_options_matter.
