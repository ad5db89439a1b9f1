(** C87: durations written as text are read as what they denote. *)
From Coq Require Import QArith Qabs Qpower Lqa.
From Verif Require Import Bytes ParseModel IntModel StringModel EncModel DecModel TypeModel ViewModel SpecJson SpecNum SpecString SpecRender SpecDec SpecType SpecTrip SpecFit SpecSame
  ParseFacts IntFacts NumFacts TextFacts DocFacts EncFacts TripFacts DecFacts NodeFacts TypeLoops TypeFacts TypeMain PropsColor PropsType PropsTrip FloatModel FloatFacts TimeModel SpecTime TimeFacts TimeText
  DurModel SpecDur DurFloat DurFacts.
From Coq Require Import Lia.
Local Open Scope Z_scope.

(** The library's ParseDuration. *)
Definition go_dur_lib (V : tenv) : Prop := forall s, v_dur V s = parse_dur s.
Definition int64 (z : Z) : Prop := - 2 ^ 63 <= z < 2 ^ 63.

(** What is read is a duration as documented (or a zero without a unit), and
    its value is the sum of its parts, each of them exact unless it is finer
    than a nanosecond. *)
Theorem C87_reads : forall s z, parse_dur s = Some z ->
  int64 z /\
  exists neg sg, signs neg sg /\
    ((s = sg ++ [48] /\ z = 0) \/
     exists ps vs, s = sg ++ parts_text ps /\ ps <> [] /\ Forall part_ok ps /\ Forall2 near ps vs /\ (sum vs < 2 ^ 64 -> z = if neg then - sum vs else sum vs)).
Proof.
  intros s z H. destruct (parse_inv s z H) as (neg & sg & SG & [[-> ->]|(ps & NE & F & ->)]).
  - split; [unfold int64; lia|]. exists neg, sg. auto.
  - rewrite (parse_parts neg sg ps SG NE F) in H. destruct (run 0 (map part_ns ps)) as [d|] eqn:R; [|discriminate].
    apply run_inv in R as [B E]; [|lia]. rewrite Z.add_0_l in E.
    assert (S0 : 0 <= sum (map part_ns ps)) by (pose proof (parts_ns_nonneg ps F) as G; clear - G; unfold sum; induction G; cbn; lia).
    assert (I : int64 z).
    { unfold int64. destruct neg; [injection H as <-; lia|]. destruct (Z.ltb_spec (2 ^ 63 - 1) d); [discriminate|]. injection H as <-. lia. }
    split; [exact I|]. exists neg, sg. split; [exact SG|]. right. exists ps, (map part_ns ps). split; [reflexivity|]. split; [exact NE|]. split; [exact F|]. split; [apply parts_near, F|].
    intros L. rewrite Z.mod_small in E by lia. rewrite <- E. destruct neg; [congruence|]. destruct (_ <? _); congruence.
Qed.
(** Every text of that form is read, exactly, if its parts are no finer than a
    nanosecond and the sum is in the range. *)
Theorem C87_exact : forall neg sg ps d, signs neg sg -> ps <> [] -> Forall part_ok ps -> Forall whole ps -> (inject_Z d == parts_value ps)%Q ->
  int64 (if neg then - d else d) -> parse_dur (sg ++ parts_text ps) = Some (if neg then - d else d).
Proof.
  intros neg sg ps d SG NE F W V I. pose proof (parts_exact ps _ (parts_near ps F) W) as E. rewrite <- V in E. apply (proj1 (inject_Z_injective _ _)) in E.
  rewrite (parse_parts neg sg ps SG NE F). unfold int64 in I.
  rewrite run_ok; [|apply parts_ns_nonneg, F|lia|rewrite E; destruct neg; lia]. rewrite Z.add_0_l, E. destruct neg; [reflexivity|]. rewrite (proj2 (Z.ltb_ge _ _)) by lia. reflexivity.
Qed.
(** One that is out of the range is an error (below 2^64 ns, that is 584 years). *)
Theorem C87_range : forall neg sg ps d, signs neg sg -> ps <> [] -> Forall part_ok ps -> Forall whole ps -> (inject_Z d == parts_value ps)%Q ->
  ~ int64 (if neg then - d else d) -> d < 2 ^ 64 -> parse_dur (sg ++ parts_text ps) = None.
Proof.
  intros neg sg ps d SG NE F W V I L. pose proof (parts_exact ps _ (parts_near ps F) W) as E. rewrite <- V in E. apply (proj1 (inject_Z_injective _ _)) in E.
  rewrite (parse_parts neg sg ps SG NE F). unfold int64 in I.
  assert (S0 : 0 <= sum (map part_ns ps)) by (pose proof (parts_ns_nonneg ps F) as G; clear - G; unfold sum; induction G; cbn; lia).
  destruct (run 0 (map part_ns ps)) as [z|] eqn:R; [|reflexivity]. apply run_inv in R as [B EZ]; [|lia]. rewrite Z.add_0_l, Z.mod_small in EZ by lia.
  destruct neg; [lia|]. rewrite (proj2 (Z.ltb_lt _ _)) by lia. reflexivity.
Qed.
(** Finer fractions: what is read is at most 1.01 ns per part from what is
    denoted. *)
Theorem C87_close : forall neg sg ps, signs neg sg -> ps <> [] -> Forall part_ok ps ->
  let n := inject_Z (Z.of_nat (length ps)) in
  (parts_value ps + (101 # 100) * n < inject_Z (2 ^ 63))%Q ->
  exists d, parse_dur (sg ++ parts_text ps) = Some (if neg then - d else d) /\ (Qabs (inject_Z d - parts_value ps) <= (101 # 100) * n)%Q.
Proof.
  intros neg sg ps SG NE F n L. pose proof (parts_close ps _ (parts_near ps F)) as C. fold n in C. unfold count in C. fold n in C. exists (sum (map part_ns ps)). split; [|exact C].
  assert (B : sum (map part_ns ps) < 2 ^ 63).
  { rewrite Zlt_Qlt. apply Qabs_Qle_condition in C. lra. }
  rewrite (parse_parts neg sg ps SG NE F). rewrite run_ok; [|apply parts_ns_nonneg, F|lia|lia]. rewrite Z.add_0_l. destruct neg; [reflexivity|]. rewrite (proj2 (Z.ltb_ge _ _)) by lia. reflexivity.
Qed.
Theorem C87_zero : forall neg sg, signs neg sg -> parse_dur (sg ++ [48]) = Some 0.
Proof. intros neg sg []; reflexivity. Qed.

(** * What String writes is read back *)
Lemma int_part a name unit : 0 <= a -> unit_name name unit ->
  exists p, part_text p = utoa a ++ name /\ part_ok p /\ whole p /\ (part_value p == inject_Z (a * unit))%Q.
Proof.
  intros A U. destruct (utoa_spec a A) as [I D]. apply int_lit_digits in I as [NE F]. exists (Part (utoa a) false [] name unit).
  unfold part_text, part_ok, whole, part_value. cbn [p_int p_point p_frac p_name p_unit app length]. rewrite app_nil_r. split; [reflexivity|]. split; [|split].
  - split; [|split; [constructor|split; [|split; [auto|exact U]]]]; assumption.
  - exists unit. cbn. lia.
  - rewrite dval_dec, D. unfold q10. cbn. ring.
Qed.
Lemma frac_part prec a r name : (0 < prec)%nat -> 0 <= a -> 0 <= r < 10 ^ Z.of_nat prec -> unit_name name (10 ^ Z.of_nat prec) ->
  exists p, part_text p = utoa a ++ frac_of prec r ++ name /\ part_ok p /\ whole p /\ (part_value p == inject_Z (a * 10 ^ Z.of_nat prec + r))%Q.
Proof.
  intros P A R U. unfold frac_of. destruct (Z.eqb_spec r 0) as [->|N].
  - destruct (int_part a name _ A U) as (p & T & O & W & V). exists p. rewrite Z.add_0_r. auto.
  - destruct (utoa_spec a A) as [I D]. apply int_lit_digits in I as [NE F]. destruct (pad_numeral prec r R P) as (L & F2 & E).
    destruct (strip_digits (pad prec r) F2) as (S1 & S2 & S3 & S4); [congruence|]. rewrite <- E, L in S4. rewrite L in S3. set (f := strip0 (pad prec r)) in *. clearbody f.
    assert (PW : 10 ^ Z.of_nat prec = 10 ^ (Z.of_nat prec - Z.of_nat (length f)) * 10 ^ Z.of_nat (length f)) by (rewrite <- Z.pow_add_r by lia; f_equal; lia).
    exists (Part (utoa a) true f name (10 ^ Z.of_nat prec)). unfold part_text, part_ok, whole, part_value. cbn [p_int p_point p_frac p_name p_unit]. split; [reflexivity|]. split; [|split].
    + split; [exact F|]. split; [exact S2|]. split; [|split; [discriminate|exact U]]. intros X. apply app_eq_nil in X as [X _]. congruence.
    + eauto.
    + rewrite dval_dec, dec_app, D. rewrite dval_dec in S4. rewrite S4.
      assert (X : a * 10 ^ Z.of_nat prec + dec f * 10 ^ (Z.of_nat prec - Z.of_nat (length f)) = (a * 10 ^ Z.of_nat (length f) + dec f) * 10 ^ (Z.of_nat prec - Z.of_nat (length f))) by (rewrite PW at 1; ring).
      rewrite X. rewrite PW. unfold q10. change (10 # 1)%Q with (inject_Z 10). set (c := a * 10 ^ Z.of_nat (length f) + dec f). set (q := 10 ^ (Z.of_nat prec - Z.of_nat (length f))).
      rewrite !inject_Z_mult, Zpower_Qpower by lia. rewrite Qpower_opp. field. apply Qnot_eq_sym, Qlt_not_eq, pw_pos. lia.
Qed.
Lemma string_parts u : 0 <= u -> exists ps, dur_string_abs u = parts_text ps /\ ps <> [] /\ Forall part_ok ps /\ Forall whole ps /\ (parts_value ps == inject_Z u)%Q.
Proof.
  intros U. unfold dur_string_abs.
  assert (ONE : forall p t z, part_text p = t /\ part_ok p /\ whole p /\ (part_value p == inject_Z z)%Q -> z = u ->
    exists ps, t = parts_text ps /\ ps <> [] /\ Forall part_ok ps /\ Forall whole ps /\ (parts_value ps == inject_Z u)%Q).
  { intros p t z (<- & O & W & V) <-. exists [p]. split; [unfold parts_text; cbn; rewrite app_nil_r; reflexivity|]. split; [discriminate|]. split; [repeat constructor; apply O|]. split; [repeat constructor; exact W|].
    unfold parts_value. cbn [map fold_right]. rewrite V. ring. }
  destruct (Z.eqb_spec u 0) as [->|NZ].
  { destruct (int_part 0 (bs "s") _ ltac:(lia) un_s) as (p & H). apply (ONE p _ _ H). reflexivity. }
  destruct (Z.ltb_spec u (10 ^ 3)) as [L1|L1].
  { destruct (int_part u (bs "ns") _ U un_ns) as (p & H). apply (ONE p _ _ H). lia. }
  destruct (Z.ltb_spec u (10 ^ 6)) as [L2|L2].
  { destruct (frac_part 3 (u / 10 ^ 3) (u mod 10 ^ 3) [194; 181; 115] ltac:(lia) ltac:(apply Z.div_pos; lia) ltac:(apply Z.mod_pos_bound; lia) un_us_micro) as (p & H).
    apply (ONE p _ _ H). change (Z.of_nat 3) with 3. pose proof (Z.div_mod u (10 ^ 3) ltac:(lia)). lia. }
  destruct (Z.ltb_spec u (10 ^ 9)) as [L3|L3].
  { destruct (frac_part 6 (u / 10 ^ 6) (u mod 10 ^ 6) (bs "ms") ltac:(lia) ltac:(apply Z.div_pos; lia) ltac:(apply Z.mod_pos_bound; lia) un_ms) as (p & H).
    apply (ONE p _ _ H). change (Z.of_nat 6) with 6. pose proof (Z.div_mod u (10 ^ 6) ltac:(lia)). lia. }
  clear ONE. cbv zeta. set (s := u / 10 ^ 9). pose proof (Z.div_mod u (10 ^ 9) ltac:(lia)) as DU. fold s in DU.
  assert (S0 : 1 <= s) by (apply Z.div_le_lower_bound; lia).
  destruct (frac_part 9 (s mod 60) (u mod 10 ^ 9) (bs "s") ltac:(lia) ltac:(apply Z.mod_pos_bound; lia) ltac:(apply Z.mod_pos_bound; lia) un_s) as (ps & TS & OS & WS & VS).
  destruct (int_part (s / 60 mod 60) (bs "m") _ ltac:(apply Z.mod_pos_bound; lia) un_m) as (pm & TM & OM & WM & VM).
  destruct (int_part (s / 3600) (bs "h") _ ltac:(apply Z.div_pos; lia) un_h) as (ph & TH & OH & WH & VH).
  change (Z.of_nat 9) with 9 in VS. pose proof (Z.div_mod s 60 ltac:(lia)) as D1. pose proof (Z.div_mod (s / 60) 60 ltac:(lia)) as D2. rewrite Z.div_div in D2 by lia. change (60 * 60) with 3600 in D2.
  rewrite <- TS, <- TM, <- TH.
  destruct (Z.leb_spec 3600 s) as [H1|H1].
  - rewrite (proj2 (Z.leb_le 60 s)) by lia. exists [ph; pm; ps]. split; [unfold parts_text; cbn [map concat]; rewrite app_nil_r, ?app_assoc; reflexivity|]. split; [discriminate|].
    split; [repeat (constructor; [assumption|]); constructor|]. split; [repeat (constructor; [assumption|]); constructor|].
    unfold parts_value. cbn [map fold_right]. rewrite VS, VM, VH, Qplus_0_r, <- !inject_Z_plus. apply inject_Z_injective. lia.
  - assert (Z0 : s / 3600 = 0) by (apply Z.div_small; lia).
    destruct (Z.leb_spec 60 s) as [H2|H2].
    + exists [pm; ps]. split; [unfold parts_text; cbn [map concat app]; rewrite app_nil_r, ?app_assoc; reflexivity|]. split; [discriminate|].
      split; [repeat (constructor; [assumption|]); constructor|]. split; [repeat (constructor; [assumption|]); constructor|].
      unfold parts_value. cbn [map fold_right]. rewrite VS, VM, Qplus_0_r, <- !inject_Z_plus. apply inject_Z_injective. lia.
    + assert (Z1 : s / 60 = 0) by (apply Z.div_small; lia).
      exists [ps]. split; [unfold parts_text; cbn [map concat app]; rewrite app_nil_r; reflexivity|]. split; [discriminate|].
      split; [repeat (constructor; [assumption|]); constructor|]. split; [repeat (constructor; [assumption|]); constructor|].
      unfold parts_value. cbn [map fold_right]. rewrite VS, Qplus_0_r. apply inject_Z_injective. lia.
Qed.
Theorem C87_string : forall d, int64 d -> parse_dur (dur_string d) = Some d.
Proof.
  intros d I. unfold dur_string. destruct (string_parts (Z.abs d) ltac:(lia)) as (ps & -> & NE & O & W & V). symmetry in V. destruct (Z.ltb_spec d 0) as [L|L].
  - rewrite (C87_exact true [45] ps (Z.abs d) sg_minus NE O W V); [f_equal; lia|]. replace (- Z.abs d) with d by lia. exact I.
  - rewrite (C87_exact false [] ps (Z.abs d) sg_none NE O W V); [f_equal; lia|]. replace (Z.abs d) with d by lia. exact I.
Qed.
Theorem C87_distinct : forall d d', int64 d -> int64 d' -> dur_string d = dur_string d' -> d = d'.
Proof. intros d d' H H' E. apply C87_string in H. apply C87_string in H'. congruence. Qed.

(** * Through JSON *)
Lemma parts_chars (P : Z -> Prop) ps : (forall c, 48 <= c <= 57 -> P c) -> P 46 -> P 0xC2 -> P 0xB5 -> P 0xCE -> P 0xBC -> P 104 -> P 109 -> P 110 -> P 115 -> P 117 ->
  Forall part_ok ps -> Forall P (parts_text ps).
Proof.
  intros PD P1 P2 P3 P4 P5 P6 P7 P8 P9 P10 F. induction F as [|p ps Fp F IH]; [constructor|]. change (parts_text (p :: ps)) with (part_text p ++ parts_text ps).
  apply Forall_app. split; [|exact IH]. destruct Fp as (F1 & F2 & _ & _ & U).
  assert (DG : forall l, Forall digit l -> Forall P l) by (intros l; apply Forall_impl; exact PD).
  unfold part_text. apply Forall_app. split; [apply DG, F1|]. apply Forall_app. split; [destruct (p_point p); [constructor; [exact P1|apply DG, F2]|constructor]|].
  destruct U; repeat (constructor; [assumption|]); constructor.
Qed.
(** What the decoding model asks of ParseDuration (env_ok, et_dur) follows. *)
Theorem C87_contract : forall V, go_dur_lib V -> forall s z, v_dur V s = Some z -> plain_text s /\ ity_lo TInt64 <= z <= ity_hi TInt64.
Proof.
  intros V L s z E. rewrite L in E. destruct (C87_reads s z E) as (I & neg & sg & SG & H). split; [|unfold int64 in I; cbn; lia].
  assert (S : plain_text sg) by (destruct SG; repeat constructor; lia).
  destruct H as [[-> _]|(ps & vs & -> & _ & F & _)]; (apply Forall_app; split; [exact S|]); [repeat constructor; lia|]. apply parts_chars; try exact F; intros; lia.
Qed.
(** Unmarshal of a string into a time.Duration. *)
Theorem C87_unmarshal : forall V F w1 s w2 x y, env_ok V -> go_dur_lib V -> ws w1 -> ws w2 -> jnode (ND (34 :: s ++ [34]) HStr) ->
  (unmarshal V F YDuration (w1 ++ (34 :: s ++ [34]) ++ w2) (MInt x) = (None, y) <-> exists z, parse_dur s = Some z /\ y = MInt z).
Proof.
  intros V F w1 s w2 x y OK L W1 W2 J.
  pose proof (C42_accepts_iff V F YDuration w1 (ND (34 :: s ++ [34]) HStr) w2 (MInt x) y OK W1 J W2) as A. cbn [ntext] in A.
  rewrite A. clear A. split.
  - intros H. inversion H; subst.
    all: try discriminate.
    match goal with E : _ ++ [34] = _ ++ [34] |- _ => apply app_inj_tail in E as [-> _] end.
    match goal with E : v_dur V _ = Some _ |- _ => rewrite L in E; eauto end.
  - intros (z & D & ->). apply st_dur_str. rewrite L. exact D.
Qed.
Lemma plain_node s : plain_text s -> jnode (ND (34 :: s ++ [34]) HStr).
Proof. intros P. apply N_str, plain_string, P. Qed.
(** The text that String writes, as a JSON string, into a variable. *)
Theorem C87_unmarshal_string : forall V F w1 d w2 x, env_ok V -> go_dur_lib V -> ws w1 -> ws w2 -> int64 d ->
  unmarshal V F YDuration (w1 ++ (34 :: dur_string d ++ [34]) ++ w2) (MInt x) = (None, MInt d).
Proof.
  intros V F w1 d w2 x OK L W1 W2 I. assert (P := C87_string d I).
  apply (C87_unmarshal V F w1 (dur_string d) w2 x (MInt d) OK L W1 W2); [|eauto]. apply plain_node. rewrite <- L in P. apply (C87_contract V L _ _ P).
Qed.

(** * What does not hold *)

(** A sum of 2^64 ns is read as none. *)
Theorem C87_wrap_refuted : exists ps z, Forall part_ok ps /\ Forall whole ps /\ (parts_value ps == inject_Z (2 ^ 64))%Q /\ parse_dur (parts_text ps) = Some z /\ z = 0.
Proof.
  pose (p := Part (bs "9223372036854775808") false [] (bs "ns") 1). assert (O : part_ok p).
  { split; [vm_compute; repeat constructor; discriminate|]. split; [constructor|]. split; [discriminate|]. split; [reflexivity|constructor]. }
  exists [p; p], 0. split; [constructor; [exact O|constructor; [exact O|constructor]]|]. split; [repeat constructor; exists 1; reflexivity|]. split; [vm_compute; reflexivity|]. split; [vm_compute; reflexivity|reflexivity].
Qed.
(** Zeros at the end of a fraction change what is read. *)
Theorem C87_zeros_refuted : exists ps ps' d, Forall part_ok ps /\ Forall part_ok ps' /\ parts_text ps = bs "0.28274h" /\ parts_text ps' = bs "0.28274000000000h" /\
  (parts_value ps == inject_Z d)%Q /\ (parts_value ps' == inject_Z d)%Q /\ parse_dur (parts_text ps) = Some d /\ parse_dur (parts_text ps') = Some (d - 1).
Proof.
  exists [Part (bs "0") true (bs "28274") (bs "h") (3600 * 10 ^ 9)], [Part (bs "0") true (bs "28274000000000") (bs "h") (3600 * 10 ^ 9)], 1017864000000.
  assert (O : forall f, Forall digit f -> Forall part_ok [Part (bs "0") true f (bs "h") (3600 * 10 ^ 9)]).
  { intros f F. constructor; [|constructor]. split; [repeat constructor; discriminate|]. split; [exact F|]. split; [discriminate|]. split; [discriminate|constructor]. }
  split; [apply O; vm_compute; repeat constructor; discriminate|]. split; [apply O; vm_compute; repeat constructor; discriminate|].
  vm_compute. auto 10.
Qed.
(** Fractions are not cut off to nanoseconds either: this one is less than
    1200000000000 ns. *)
Theorem C87_floor_refuted : exists ps d, Forall part_ok ps /\ (parts_value ps < inject_Z d)%Q /\ parse_dur (parts_text ps) = Some d.
Proof.
  exists [Part [] true (bs "3333333333333333333") (bs "h") (3600 * 10 ^ 9)], 1200000000000.
  split; [|split; vm_compute; reflexivity]. constructor; [|constructor]. split; [constructor|]. split; [vm_compute; repeat constructor; discriminate|]. split; [discriminate|]. split; [discriminate|constructor].
Qed.

(** * Cases *)
Definition du_env : tenv := TEnv ex_decl 2 ex_flds (v_float ex_env) (v_time ex_env) parse_dur (v_b64 ex_env) (v_json ex_env) (v_text ex_env) (v_lower ex_env) (v_fold ex_env).
Lemma du_lib : go_dur_lib du_env.
Proof. intros s. reflexivity. Qed.
Lemma du_env_ok : env_ok du_env.
Proof. destruct ex_env_ok as [A B C D E]. constructor; [intros t z H; apply (C87_contract du_env du_lib t z H)|exact B|exact C|exact D|exact E]. Qed.
Example C87_case : map dur_string [0; 1; -999; 1500; 2000000; 999999999; 1000000000; 5400000000000; -3723500000000; 2 ^ 63 - 1; - 2 ^ 63]
  = [bs "0s"; bs "1ns"; bs "-999ns"; 49 :: 46 :: 53 :: [0xC2; 0xB5; 115]; bs "2ms"; bs "999.999999ms"; bs "1s"; bs "1h30m0s"; bs "-1h2m3.5s"; bs "2562047h47m16.854775807s"; bs "-2562047h47m16.854775808s"].
Proof. vm_compute. reflexivity. Qed.
Example C87_reads_case : map (fun s => parse_dur (bs s))
  ["1h30m"%string; "1.5h"%string; "0.1s"%string; "-1.000000001s"%string; "0"%string; "-0"%string; "+5ms"%string; ".5s"%string; "1.s"%string; "1s1s"%string;
   "1"%string; ".s"%string; ""%string; "-"%string; "1d"%string; "1 s"%string; "1e3s"%string; "1S"%string; "--1s"%string; "9223372036854775807ns"%string; "9223372036854775808ns"%string; "-9223372036854775808ns"%string; "2562048h"%string]
  = [Some 5400000000000; Some 5400000000000; Some 100000000; Some (-1000000001); Some 0; Some 0; Some 5000000; Some 500000000; Some 1000000000; Some 2000000000;
     None; None; None; None; None; None; None; None; None; Some 9223372036854775807; None; Some (-9223372036854775808); None].
Proof. vm_compute. reflexivity. Qed.
Definition du_parts : list part := [Part (bs "1") false [] (bs "h") (3600 * 10 ^ 9); Part (bs "0") true (bs "5") (bs "m") (60 * 10 ^ 9)].
Lemma du_parts_ok : Forall part_ok du_parts /\ Forall whole du_parts.
Proof.
  split.
  - constructor; [|constructor; [|constructor]]; (split; [vm_compute; repeat constructor; discriminate|]); (split; [vm_compute; repeat constructor; discriminate|]); (split; [discriminate|]);
      (split; [first [discriminate|reflexivity]|constructor]).
  - constructor; [exists (3600 * 10 ^ 9); reflexivity|]. constructor; [exists (6 * 10 ^ 9); reflexivity|constructor].
Qed.
Example C87_exact_case : parse_dur (bs "-1h0.5m") = Some (-3630000000000).
Proof.
  change (parse_dur ([45] ++ parts_text du_parts) = Some (- 3630000000000)). apply (C87_exact true [45] du_parts 3630000000000 sg_minus); try apply du_parts_ok; [discriminate|vm_compute; reflexivity|unfold int64; lia].
Qed.
Example C87_close_case : exists d, parse_dur (bs "1h0.5m") = Some d /\ (Qabs (inject_Z d - parts_value du_parts) <= (101 # 100) * 2)%Q.
Proof. apply (C87_close false [] du_parts sg_none); [discriminate|apply du_parts_ok|vm_compute; reflexivity]. Qed.
Example C87_unmarshal_case : unmarshal du_env ex_flags YDuration (bs " ""1h30m"" ") (MInt 7) = (None, MInt 5400000000000).
Proof. vm_compute. reflexivity. Qed.
Example C87_unmarshal_string_case : unmarshal du_env ex_flags YDuration (bs """-1h2m3.5s""") (MInt 7) = (None, MInt (-3723500000000)).
Proof.
  change (bs """-1h2m3.5s""") with ([] ++ (34 :: dur_string (-3723500000000) ++ [34]) ++ []).
  apply C87_unmarshal_string; [apply du_env_ok|apply du_lib|constructor|constructor|unfold int64; lia].
Qed.

Print Assumptions C87_reads.
Print Assumptions C87_exact.
Print Assumptions C87_range.
Print Assumptions C87_close.
Print Assumptions C87_zero.
Print Assumptions C87_string.
Print Assumptions C87_distinct.
Print Assumptions C87_contract.
Print Assumptions C87_unmarshal.
Print Assumptions C87_unmarshal_string.
Print Assumptions C87_wrap_refuted.
Print Assumptions C87_zeros_refuted.
Print Assumptions C87_floor_refuted.
