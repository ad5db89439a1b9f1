(** C73, C74: how deep the recursion goes and how many steps reading takes.
    MeterModel.v has the decoders with a meter; [steps] counts bytes looked at,
    [calls] is the depth of the recursion. *)
From Verif Require Import Bytes SpecJson SpecString SpecDec AsciiModel Utf8Model ParseModel IntModel StringModel EncModel DecModel TypeModel
  ParseFacts IntFacts StringFacts DecFacts SpecType NodeFacts TypeFacts TypeMain SpecFit TypeSafe Unambig SpecMeter MeterModel MeterFacts
  MeterParse MeterDec MeterLoop MeterRest MeterType MeterDeep MeterDepth MeterLinear MeterLow MeterErr PropsParse PropsType PropsErr.

(** The meter changes nothing: the results are those of Unmarshal and Valid. *)
Theorem C73_same V F t b x : fst (unmarshal_m V F t b x) = unmarshal V F t b x /\ fst (Valid_m b) = Valid b.
Proof. split; [apply erase_unmarshal|apply erase_valid]. Qed.

(** * C73: depth *)

(** Full statement: there is a limit that the recursion does not exceed, whatever
    the input.  It is false, for every target type and every content of the
    target: reading L opening brackets takes a recursion of L calls, whatever
    follows them; so also on [[[...]]], which is JSON (RFC 8259, section 9: "An
    implementation may set limits on the maximum depth of nesting"). *)
Theorem C73_limit_refuted V F t x : env_typed V -> fits V t x ->
  forall L r, (L <= calls (snd (unmarshal_m V F t (repeat 91%Z L ++ r) x)))%nat /\ (L <= calls (snd (Valid_m (repeat 91%Z L ++ r))))%nat.
Proof.
  intros ET FX L r. destruct L as [|L]; [split; lia|]. split.
  - change (deep (S L) (unmarshal_m V F t (repeat 91%Z (S L) ++ r) x)). unfold unmarshal_m, unmarshal_with_m, parse_with_m.
    apply deep_bind, deep_then. rewrite fst_skip, skip_opens. apply deep_bind. unfold decode_m. apply ty_deep; [exact ET|lia|exact FX].
  - change (deep (S L) (Valid_m (repeat 91%Z (S L) ++ r))). unfold Valid_m. apply deep_then. rewrite fst_skip, skip_opens. apply deep_bind, pv_deep.
Qed.
(** The text is JSON, and Valid and Unmarshal into an interface{} accept it. *)
Lemma tower_text n : exists a, jtext (tower (S n)) a.
Proof. exists (tower_tree n), [], (tower (S n)), []. rewrite app_nil_r. repeat split; [constructor|apply tower_value|constructor]. Qed.
Theorem C73_tower_refuted V F t x : env_typed V -> fits V t x ->
  forall L, (exists a, jtext (tower (S L)) a) /\ Valid (tower (S L)) = true /\ (S L <= calls (snd (unmarshal_m V F t (tower (S L)) x)))%nat.
Proof.
  intros ET FX L. split; [apply tower_text|]. split; [apply jtext_wf_Valid; [apply tower_wf|apply tower_text]|].
  apply (C73_limit_refuted V F t x ET FX (S L) (repeat 93 (S L))).
Qed.

(** What holds: the depth is at most proportional to the length of the input,
    also through types that contain themselves. [K] bounds the layers of the
    types of the fields of the structs. *)
Theorem C73_depth_partial V F K t b x : env_ok V -> plain_fields V K -> wf b ->
  (calls (snd (unmarshal_m V F t b x)) <= layers t + (K + 4) * length b + 3)%nat.
Proof. intros OK PF W. destruct (unmarshal_use V F OK K PF t b x W) as [[_ H] _]. exact H. Qed.
(** Valid, and skipping a value, go one call deeper for each level of nesting:
    exactly on JSON, and never deeper than the opening brackets and braces of the
    input. *)
Theorem C73_valid_partial b : wf b ->
  (calls (snd (Valid_m b)) <= 1 + opens b)%nat /\ (forall a, jtext b a -> calls (snd (Valid_m b)) = S (nest a)).
Proof.
  intros W. unfold Valid_m. rewrite !calls_bind, skip_calls, fst_skip. cbn [Nat.max]. split.
  - pose proof (suf_skip b) as SF. pose proof (suf_wf _ _ SF W) as W1. destruct (parse_value_use (parse_fuel (skip_spaces b)) _ W1) as [_ H].
    assert (O : (opens (skip_spaces b) <= opens b)%nat) by (apply suf_opens, SF). fold (parseValue_m (skip_spaces b)) in H.
    destruct (fst (parseValue_m (skip_spaces b))); rewrite ?calls_bind, ?skip_calls; cbn [ret snd calls]; lia.
  - intros a (w1 & s & w2 & -> & A1 & J & A2). assert (S1 : skip_spaces (w1 ++ s ++ w2) = s ++ w2).
    { rewrite skip_spaces_ws by exact A1. apply skip_spaces_nsp. destruct (jvalue_head s a J) as (c & t & -> & Hc). cbn. apply vhead_nsp, Hc. }
    rewrite S1. assert (W2 : wf (s ++ w2)) by (apply Forall_app in W; tauto).
    assert (P : parseValue (s ++ w2) = POk s w2).
    { apply (parseValue_complete' s a); [exact J|]. intros _. rewrite <- (app_nil_r w2). apply num_stop_ws; [exact A2|exact I]. }
    destruct (parse_tree (parse_fuel (s ++ w2))) as [T _]. destruct (T (s ++ w2) s w2 W2 P) as (a' & J' & C & _).
    rewrite <- (jvalue_unique s a a' J J') in C. fold (parseValue_m (s ++ w2)) in C. rewrite C, erase_parseValue, P, calls_bind, skip_calls. cbn [ret snd calls]. lia.
Qed.

(** * C74: time *)

(** Full statement: reading takes time proportional to the length of the input.
    It is false: an interface{} reads [[[...]]], 2n bytes, in at least n*n steps,
    since decodeInterface parses each value before the parts of it. *)
Theorem C74_quadratic V F n : Z.of_nat (S n) * Z.of_nat (S n) <= steps (snd (unmarshal_m V F YIface (tower (S n)) (MIface JVNull))).
Proof.
  unfold unmarshal_m, unmarshal_with_m, parse_with_m. rewrite !steps_bind, fst_skip. assert (S1 : skip_spaces (tower (S n)) = tower (S n)) by reflexivity. rewrite S1.
  unfold decode_m. rewrite dec_ty_m_eq. unfold call. cbn [snd steps]. unfold md_map at 1. rewrite steps_bind. unfold decode_interface_m.
  pose proof (tower_time (d_usenum F) (v_float V true) n (S (length (tower (S n)))) [] JVNull (Forall_nil _)) as T. rewrite app_nil_r in T.
  specialize (T ltac:(rewrite tower_length; lia)). cbn [ret snd steps].
  pose proof (nn_skip (tower (S n))) as N1. match goal with |- context [steps (snd (skip_spaces_m (d_rest ?d)))] => pose proof (nn_skip (d_rest d)) as N2 end.
  unfold nn in *. lia.
Qed.
Theorem C74_linear_refuted V F : ~ exists c, forall b, wf b -> steps (snd (unmarshal_m V F YIface b (MIface JVNull))) <= c * (Z.of_nat (length b) + 1).
Proof.
  intros [c H]. set (n := Z.to_nat (3 * Z.abs c)). specialize (H (tower (S n)) (tower_wf _)). pose proof (C74_quadratic V F n) as Q. rewrite tower_length in H.
  assert (N : Z.of_nat n = 3 * Z.abs c) by (subst n; lia). nia.
Qed.

(** What holds: the number of steps is at most proportional to the length of the
    input times the depth of the recursion, hence to its square. *)
Theorem C74_depth_partial V F t b x : env_ok V -> (exists K, plain_fields V K) -> wf b ->
  steps (snd (unmarshal_m V F t b x)) <= 205 * (Z.of_nat (length b) + 1) * Z.of_nat (calls (snd (unmarshal_m V F t b x))).
Proof.
  intros OK [K PF] W. apply (unmarshal_use V F OK K PF t b x W).
Qed.
Theorem C74_square_partial V F K t b x : env_ok V -> plain_fields V K -> wf b ->
  steps (snd (unmarshal_m V F t b x)) <= 205 * (Z.of_nat (length b) + 1) * Z.of_nat (layers t + (K + 4) * length b + 3).
Proof.
  intros OK PF W. destruct (unmarshal_use V F OK K PF t b x W) as [[_ H1] H2]. unfold most, len in *. eapply Z.le_trans; [exact H2|]. apply Z.mul_le_mono_nonneg_l; lia.
Qed.
(** Linear time where no interface is involved: into a type made of the concrete
    ones, as often as it contains itself through structs, and when the text is
    accepted.  (An error is found again in each list, map and struct around it:
    decode.go:630-643 parses the whole of it again.) *)
Theorem C74_concrete_partial V F K (S : nat -> Prop) t b x : env_ok V -> plain_fields V K -> concrete_structs V S -> concrete S t -> wf b ->
  fst (unmarshal V F t b x) = None ->
  steps (snd (unmarshal_m V F t b x)) <= (120 + Z.of_nat (Nat.max K (layers t))) * (Z.of_nat (length b) + 1).
Proof.
  intros OK PF CS CT W E. rewrite <- erase_unmarshal in E.
  exact (unmarshal_pays V F OK K PF S CS (Nat.max K (layers t)) ltac:(lia) t b x CT ltac:(lia) W E).
Qed.
(** Valid takes linear time. *)
Theorem C74_valid_partial b : wf b -> steps (snd (Valid_m b)) <= 5 * Z.of_nat (length b) + 7.
Proof.
  intros W. unfold Valid_m. rewrite !steps_bind, fst_skip, skip_steps. pose proof (suf_skip b) as SF. pose proof (suf_wf _ _ SF W) as W1. pose proof (suf_len _ _ SF) as L1.
  set (b1 := skip_spaces b) in *. clearbody b1. pose proof (pv_steps b1 W1) as H. rewrite erase_parseValue. destruct (parseValue b1) as [v r|r e] eqn:P.
  - rewrite used_len in H. destruct (pv_suf b1 v r W1 P) as [_ L2]. rewrite steps_bind, skip_steps. pose proof (skip_spaces_le r). cbn [ret snd steps]. unfold len in *. lia.
  - rewrite used_len in H. cbn [ret snd steps]. unfold len in *. lia.
Qed.

(** The condition that the text is accepted cannot be dropped: {"k":{"k":...true...}},
    n deep, is JSON; read into a struct with a pointer to itself it is refused
    (a bool where a struct is wanted), in at least n*n steps. *)
Lemma ladder_text n : exists a, jtext (ladder n) a.
Proof. exists (ladder_tree n), [], (ladder n), []. rewrite app_nil_r. repeat split; [constructor|apply ladder_value|constructor]. Qed.
Theorem C74_error_refuted F : (forall n, (exists a, jtext (ladder n) a) /\ length (ladder n) = (6 * n + 4)%nat /\
    fst (unmarshal lad_env F (YPtr (YStruct 0)) (ladder n) (MPtr None)) = Some EType /\
    Z.of_nat n * Z.of_nat n <= steps (snd (unmarshal_m lad_env F (YPtr (YStruct 0)) (ladder n) (MPtr None)))) /\
  ~ exists c, forall b, wf b -> steps (snd (unmarshal_m lad_env F (YPtr (YStruct 0)) b (MPtr None))) <= c * (Z.of_nat (length b) + 1).
Proof.
  split; [intros n; split; [apply ladder_text|split; [apply ladder_length|apply ladder_unmarshal]]|].
  intros [c H]. set (n := Z.to_nat (12 * Z.abs c + 1)). specialize (H (ladder n) (ladder_wf _)). pose proof (proj2 (ladder_unmarshal F n)) as Q. rewrite ladder_length in H.
  assert (N : Z.of_nat n = 12 * Z.abs c + 1) by (subst n; lia). nia.
Qed.
(** The meter does not run slow: a text that is accepted has been read to its
    end, and this shows in the number of steps. *)
Theorem C74_reads V F t b x : env_ok V -> wf b ->
  (fst (unmarshal V F t b x) = None -> Z.of_nat (length b) <= 5 * steps (snd (unmarshal_m V F t b x))) /\
  (Valid b = true -> Z.of_nat (length b) <= steps (snd (Valid_m b))).
Proof.
  intros OK W. split; [intros E; rewrite <- erase_unmarshal in E; exact (unmarshal_low V F OK t b x W E)|].
  unfold Valid, Valid_m. rewrite !steps_bind, fst_skip, skip_steps, erase_parseValue. pose proof (suf_skip b) as SF. pose proof (suf_wf _ _ SF W) as W1. pose proof (suf_len _ _ SF) as L1.
  set (b1 := skip_spaces b) in *. clearbody b1. destruct (parseValue b1) as [v r|r e] eqn:P; [|discriminate].
  destruct (parse_tree (parse_fuel b1)) as [T _]. destruct (T b1 v r W1 P) as (a & _ & _ & S1). fold (parseValue_m b1) in S1. rewrite used_len in S1.
  rewrite steps_bind, skip_steps. destruct (skip_spaces r) eqn:R; [|discriminate]. intros _. cbn [ret snd steps]. unfold len in *. cbn [length]. lia.
Qed.

(** * Examples *)

(** Node of PropsErr.v contains itself: all hypotheses hold for it. *)
Lemma er_plain : plain_fields er_env 3.
Proof. intros [|[|i]] f; cbn [v_flds er_env er_env_of er_flds In]; intros H; repeat destruct H as [<-|H]; try contradiction; cbn; lia. Qed.
(** Node without the embedded struct, hence without interfaces. *)
Definition me_flds (i : nat) : list jfield :=
  match i with
  | 0%nat => [JField (bs "a") [PIn 0] (YInt TInt8) QNo; JField (bs "name") [PIn 1] YString QNo;
            JField (bs "kids") [PIn 3] (YSlice (YPtr (YStruct 0))) QNo; JField (bs "big") [PIn 4] (YPtr (YInt TInt64)) QInt]
  | _ => []
  end.
Definition me_env : tenv := er_env_of me_flds.
Lemma me_env_ok : env_ok me_env.
Proof.
  constructor; cbn [v_dur v_time v_json v_text v_flds me_env er_env_of]; try (intros; discriminate); [intros u s x e y [= <- _]; discriminate|].
  intros [|i] f; cbn [me_flds In]; intros H; repeat destruct H as [<-|H]; try contradiction; cbn; try congruence; auto.
Qed.
Lemma me_plain : plain_fields me_env 2.
Proof. intros [|i] f; cbn [v_flds me_env er_env_of me_flds In]; intros H; repeat destruct H as [<-|H]; try contradiction; cbn; lia. Qed.
Lemma me_concrete : concrete_structs me_env (fun i => i = 0%nat).
Proof. intros i f ->; cbn [v_flds me_env er_env_of me_flds In]; intros H; repeat destruct H as [<-|H]; try contradiction; cbn; auto. Qed.
Definition er_text : bytes := bs "{""a"":1, ""kids"":[null,{""kids"":[{""name"":""x""}]}]}".
Example C73_example : env_ok er_env /\ env_typed er_env /\ plain_fields er_env 3 /\ fits er_env (YStruct 0) er_zero /\ wf er_text /\
  (exists a, jtext er_text a) /\ calls (snd (unmarshal_m er_env ex_flags (YStruct 0) er_text er_zero)) = 8%nat /\ calls (snd (Valid_m er_text)) = 6%nat.
Proof.
  split; [apply er_env_ok|]. split; [apply er_env_typed|]. split; [apply er_plain|]. split; [apply er_fits|]. assert (W : wf er_text) by (repeat constructor; unfold is_byte; cbn; lia).
  split; [exact W|]. split; [apply (proj1 (C01_valid_iff_grammar er_text W)); reflexivity|]. split; vm_compute; reflexivity.
Qed.
Example C74_example : env_ok me_env /\ plain_fields me_env 2 /\ concrete_structs me_env (fun i => i = 0%nat) /\ concrete (fun i => i = 0%nat) (YStruct 0) /\
  fst (unmarshal me_env ex_flags (YStruct 0) er_text er_zero) = None /\
  steps (snd (unmarshal_m me_env ex_flags (YStruct 0) er_text er_zero)) = 91 /\
  (** twice as deep: four times the steps *)
  steps (snd (unmarshal_m er_env ex_flags YIface (tower 20) (MIface JVNull))) = 692 /\
  steps (snd (unmarshal_m er_env ex_flags YIface (tower 40) (MIface JVNull))) = 2582.
Proof. split; [apply me_env_ok|]. split; [apply me_plain|]. split; [apply me_concrete|]. split; [reflexivity|]. vm_compute. repeat split. Qed.
(** The type of C74_error_refuted has no interface in it and is read in linear
    time when the text is accepted. *)
Lemma lad_env_ok : env_ok lad_env.
Proof.
  constructor; cbn [v_dur v_time v_json v_text v_flds lad_env]; try (intros; discriminate).
  intros i f; cbn [In]; intros H; repeat destruct H as [<-|H]; try contradiction; cbn; try congruence; auto.
Qed.
Definition lad_good : bytes := bs "{""k"":{""k"":null}}".
Example C74_error_example : env_ok lad_env /\ plain_fields lad_env 1 /\ concrete_structs lad_env (fun i => i = 0%nat) /\
  concrete (fun i => i = 0%nat) (YPtr (YStruct 0)) /\ wf lad_good /\ fst (unmarshal lad_env ex_flags (YPtr (YStruct 0)) lad_good (MPtr None)) = None /\
  Valid lad_good = true /\ steps (snd (unmarshal_m lad_env ex_flags (YPtr (YStruct 0)) lad_good (MPtr None))) = 31.
Proof.
  split; [apply lad_env_ok|]. split; [intros i f; cbn [v_flds lad_env In]; intros H; repeat destruct H as [<-|H]; try contradiction; cbn; lia|].
  split; [intros i f ->; cbn [v_flds lad_env In]; intros H; repeat destruct H as [<-|H]; try contradiction; cbn; auto|].
  split; [reflexivity|]. split; [repeat constructor; unfold is_byte; cbn; lia|]. vm_compute. repeat split.
Qed.

Print Assumptions C73_same.
Print Assumptions C73_limit_refuted.
Print Assumptions C73_tower_refuted.
Print Assumptions C73_depth_partial.
Print Assumptions C73_valid_partial.
Print Assumptions C74_quadratic.
Print Assumptions C74_linear_refuted.
Print Assumptions C74_depth_partial.
Print Assumptions C74_square_partial.
Print Assumptions C74_concrete_partial.
Print Assumptions C74_valid_partial.
Print Assumptions C74_error_refuted.
Print Assumptions C74_reads.
