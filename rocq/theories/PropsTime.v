(** C85: times are written in RFC 3339 and read back. *)
From Verif Require Import Bytes ParseModel IntModel StringModel EncModel DecModel TypeModel ViewModel SpecJson SpecNum SpecString SpecRender SpecDec SpecType SpecTrip SpecSame
  ParseFacts IntFacts NumFacts TextFacts DocFacts EncFacts TripFacts DecFacts NodeFacts TypeLoops TypeFacts TypeMain PropsColor PropsType PropsTrip TimeModel SpecTime TimeFacts TimeText.
From Coq Require Import Lia.

(** A Time is kept in memory as the text that is written for it; the library's
    Parse followed by that text. *)
Definition go_time_lib (V : tenv) : Prop := forall s, v_time V s = option_map fmt_time (parse_time s).

(** Dates are those of the calendar: every day has one. *)
Theorem C85_calendar : forall n a, dated n a <-> a = date_of n.
Proof. exact dated_iff. Qed.
(** What is written for a time is an RFC 3339 text that denotes this time. *)
Theorem C85_written : forall t, writable t -> rfc3339 (fmt_time t) t.
Proof. exact fmt_time_ok. Qed.
(** What is read: exactly the texts of RFC 3339 (without leap seconds), and
    those with an hour of one digit, a decimal comma, or an offset of up to 24
    hours and 60 minutes. *)
Theorem C85_reads : forall s t, parse_time s = Some t <-> date_time true s t.
Proof. intros s t. split; [apply parse_time_inv|apply parse_time_app]. Qed.
Theorem C85_rfc : forall s t, rfc3339 s t -> parse_time s = Some t.
Proof. intros s t H. apply C85_reads, strict_lax, H. Qed.
Theorem C85_round_trip : forall t, writable t -> parse_time (fmt_time t) = Some t.
Proof. intros t H. apply C85_rfc, C85_written, H. Qed.
(** Times that differ are written differently. *)
Theorem C85_distinct : forall t t', writable t -> writable t' -> fmt_time t = fmt_time t' -> t = t'.
Proof. intros t t' H H' E. apply C85_round_trip in H. apply C85_round_trip in H'. congruence. Qed.

(** Every RFC 3339 text denotes a time that can be written again. *)
Lemma frac_range lax ns fs : secfrac lax ns fs -> 0 <= ns < 10 ^ 9.
Proof.
  intros H. inversion H as [|c ds n C N F B]; subst; [lia|]. rewrite dval_dec in B. pose proof (dec_bounds ds F) as D.
  set (p := 10 ^ Z.of_nat (length ds)) in *. assert (0 < p) by (apply Z.pow_pos_nonneg; lia). nia.
Qed.
Theorem C85_rewritten : forall s t, rfc3339 s t -> writable t /\ rfc3339 (fmt_time t) t.
Proof.
  intros s t H. assert (W : writable t); [|split; [exact W|apply C85_written, W]].
  destruct H as [ys y ms m ds d hs h mis mi ss sec fs ns os off day N1 N2 N3 D Nh Hh Nm Hm Ns Hs SF TO].
  assert (NN : forall w n s, numeral w n s -> 0 <= n) by apply numeral_nonneg.
  assert (Ph : 0 <= h) by (destruct Nh as [K|[_ K]]; apply NN in K; exact K).
  pose proof (NN _ _ _ Nm). pose proof (NN _ _ _ Ns). pose proof (NN _ _ _ N1).
  split; [eapply frac_range; exact SF|]. cbn [g_sec g_nsec g_off]. split; [|split].
  - inversion TO as [|h' m' hs' ms' A1 A2 B|h' m' hs' ms' A1 A2 B]; [exists 0; lia|exists (60 * h' + m'); lia|exists (- (60 * h' + m')); lia].
  - inversion TO as [|h' m' hs' ms' A1 A2 [B|[K _]]|h' m' hs' ms' A1 A2 [B|[K _]]]; try discriminate; try lia;
      apply NN in A1; apply NN in A2; lia.
  - replace ((86400 * day + 3600 * h + 60 * mi + sec - off + off) / 86400) with day by (apply Z.div_unique with (r := 3600 * h + 60 * mi + sec); lia).
    exists y, m, d. split; [exact D|]. destruct N1 as (L & F & ->). rewrite dval_dec in *. pose proof (dec_bounds ys F) as B.
    rewrite L in B. change (10 ^ Z.of_nat 4) with 10000 in B. lia.
Qed.

(** * Through JSON *)

(** Unmarshal of a string into a time.Time. *)
Theorem C85_unmarshal : forall V F w1 s w2 x y, env_ok V -> go_time_lib V -> ws w1 -> ws w2 -> jnode (ND (34 :: s ++ [34]) HStr) ->
  (unmarshal V F YTime (w1 ++ (34 :: s ++ [34]) ++ w2) (MTime x) = (None, y) <-> exists t, date_time true s t /\ y = MTime (fmt_time t)).
Proof.
  intros V F w1 s w2 x y OK L W1 W2 J.
  pose proof (C42_accepts_iff V F YTime w1 (ND (34 :: s ++ [34]) HStr) w2 (MTime x) y OK W1 J W2) as A. cbn [ntext] in A.
  rewrite A. clear A. split.
  - intros H. inversion H; subst.
    all: try discriminate.
    match goal with E : _ ++ [34] = _ ++ [34] |- _ => apply app_inj_tail in E as [-> _] end.
    match goal with E : v_time V _ = Some _ |- _ => rewrite L in E; destruct (parse_time s) as [t|] eqn:P; [|discriminate]; injection E as <- end.
    exists t. split; [apply C85_reads, P|reflexivity].
  - intros (t & D & ->). apply st_time. rewrite L, (proj2 (C85_reads s t) D). reflexivity.
Qed.
Lemma date_time_chars (P : Z -> Prop) lax s t : (forall c, 48 <= c <= 57 -> P c) -> P 43 -> P 45 -> P 46 -> P 58 -> P 84 -> P 90 -> (lax = true -> P 44) ->
  date_time lax s t -> Forall P s.
Proof.
  intros PD P43 P45 P46 P58 P84 P90 P44 H.
  destruct H as [ys y ms m ds d hs h mis mi ss sec fs ns os off day N1 N2 N3 D Nh Hh Nm Hm Ns Hs SF TO].
  assert (DG : forall l, Forall digit l -> Forall P l) by (intros l; apply Forall_impl; exact PD).
  assert (NU : forall w n l, numeral w n l -> Forall P l) by (intros w n l (_ & F & _); apply DG, F).
  assert (Hh' : Forall P hs) by (destruct Nh as [K|[_ K]]; eapply NU, K).
  assert (FR : Forall P fs).
  { inversion SF as [|c l n [C|[K C]] N F B]; [constructor|constructor; [subst c; exact P46|apply DG, F]|constructor; [subst c; apply P44, K|apply DG, F]]. }
  assert (OF : Forall P os).
  { inversion TO as [|h' m' hs' ms' A1 A2 B|h' m' hs' ms' A1 A2 B].
    - constructor; [assumption|constructor].
    - constructor; [assumption|]. apply Forall_app. split; [eapply NU, A1|]. constructor; [assumption|eapply NU, A2].
    - constructor; [assumption|]. apply Forall_app. split; [eapply NU, A1|]. constructor; [assumption|eapply NU, A2]. }
  repeat (apply Forall_app; split; [first [assumption|eapply NU; eassumption]|]; try (apply Forall_cons; [assumption|])); assumption.
Qed.
Lemma rfc_chars s t : rfc3339 s t -> Forall time_char s.
Proof. apply date_time_chars; unfold time_char; try lia. Qed.
(** A text with an escape in it is never a time: what the decoding model asks
    of package time (env_ok) follows. *)
Theorem C85_contract : forall V, go_time_lib V -> forall s z, v_time V s = Some z -> plain_text s.
Proof.
  intros V L s z E. rewrite L in E. destruct (parse_time s) as [t|] eqn:P; [|discriminate]. apply C85_reads in P.
  revert P. apply date_time_chars; intros; lia.
Qed.
(** A time that can be written is one of the values that survive Marshal and
    Unmarshal inside values of any type (C50). *)
Theorem C85_typed : forall V W F t, go_time_lib V -> writable t -> trip V W F YTime (MTime (fmt_time t)).
Proof.
  intros V W F t L H. apply tr_time; [eapply rfc_chars, C85_written, H|]. rewrite L, C85_round_trip by exact H. reflexivity.
Qed.
(** On its own. *)
Theorem C85_variable : forall V F c t x, env_ok V -> go_time_lib V -> writable t -> e_clrs c = None ->
  exists out, enc c (GTime (fmt_time t)) [] 0 = ER out 0 None /\ unmarshal V F YTime out (MTime x) = (None, MTime (fmt_time t)).
Proof.
  intros V F c t x OK L H HC. exists (34 :: fmt_time t ++ [34]). split.
  - cbn [enc]. unfold encode_time. rewrite HC. reflexivity.
  - assert (J : jnode (ND (34 :: fmt_time t ++ [34]) HStr)) by (apply N_str, time_string, rfc_chars with (t := t), C85_written, H).
    pose proof (proj2 (C85_unmarshal V F [] (fmt_time t) [] x (MTime (fmt_time t)) OK L (Forall_nil _) (Forall_nil _) J)) as U.
    cbn [app] in U. rewrite app_nil_r in U. apply U. exists t. split; [|reflexivity]. apply strict_lax, C85_written, H.
Qed.

(** * What does not hold *)

(** A time of the year 10000 is written (package time's own MarshalJSON refuses
    it); what is written cannot be read. *)
Theorem C85_year_refuted : exists t, 0 <= g_nsec t < 10 ^ 9 /\ g_off t = 0 /\ fmt_time t = bs "10000-01-01T00:00:00Z" /\ parse_time (fmt_time t) = None.
Proof. exists (GT (86400 * day_of 10000 1 1) 0 0). vm_compute. repeat split; discriminate. Qed.
(** The seconds of an offset are not written: a time of Amsterdam before 1937
    is read back as another moment, 32 seconds later. *)
Theorem C85_offset_refuted : exists t t', 0 <= g_nsec t < 10 ^ 9 /\ g_off t = 1172 /\ fmt_time t = bs "1936-01-01T12:00:00+00:19" /\
  parse_time (fmt_time t) = Some t' /\ g_sec t' = g_sec t + 32.
Proof.
  exists (GT (86400 * day_of 1936 1 1 + 43200 - 1172) 0 1172), (GT (86400 * day_of 1936 1 1 + 43200 - 1140) 0 1140).
  vm_compute. repeat split; discriminate.
Qed.
(** Texts that RFC 3339 excludes are read. *)
Lemma rfc_colon s t : rfc3339 s t -> nth_error s 13 = Some 58.
Proof.
  intros H. destruct H as [ys y ms m ds d hs h mis mi ss sec fs ns os off day N1 N2 N3 D Nh Hh Nm Hm Ns Hs SF TO].
  destruct N1 as (L1 & _), N2 as (L2 & _), N3 as (L3 & _). destruct Nh as [(L4 & _)|[K _]]; [|discriminate].
  destruct ys as [|? [|? [|? [|? [|]]]]]; try discriminate L1. destruct ms as [|? [|? [|]]]; try discriminate L2.
  destruct ds as [|? [|? [|]]]; try discriminate L3. destruct hs as [|? [|? [|]]]; try discriminate L4. reflexivity.
Qed.
Theorem C85_rfc_refuted : exists s t, parse_time s = Some t /\ forall t', ~ rfc3339 s t'.
Proof.
  exists (bs "2020-01-01T1:00:00Z"). eexists. split; [vm_compute; reflexivity|]. intros t' H. apply rfc_colon in H. discriminate H.
Qed.
(** An offset of 24 hours and 60 minutes is read, and then written as one of 25
    hours, which is not. *)
Theorem C85_reread_refuted : exists s t, parse_time s = Some t /\ fmt_time t = bs "2020-01-01T00:00:00+25:00" /\ parse_time (fmt_time t) = None.
Proof. exists (bs "2020-01-01T00:00:00+24:60"). eexists. split; [vm_compute; reflexivity|]. vm_compute. auto. Qed.

(** * Cases *)
Definition tm_env : tenv := TEnv ex_decl 2 ex_flds (v_float ex_env) (fun s => option_map fmt_time (parse_time s)) (v_dur ex_env) (v_b64 ex_env) (v_json ex_env) (v_text ex_env) (v_lower ex_env) (v_fold ex_env).
Lemma tm_lib : go_time_lib tm_env.
Proof. intros s. reflexivity. Qed.
Lemma tm_env_ok : env_ok tm_env.
Proof. destruct ex_env_ok as [A B C D E]. constructor; [exact A|apply C85_contract, tm_lib|exact C|exact D|exact E]. Qed.
Definition tm_new_york : gtime := GT (86400 * day_of 2024 2 29 + 86399 + 18000) 123456000 (-18000).
Example C85_case : fmt_time tm_new_york = bs "2024-02-29T23:59:59.123456-05:00" /\ writable tm_new_york.
Proof.
  split; [vm_compute; reflexivity|]. split; [vm_compute; split; congruence|]. split; [exists (-300); reflexivity|]. split; [vm_compute; split; reflexivity|].
  exists 2024, 2, 29. split; [|lia]. apply C85_calendar. vm_compute. reflexivity.
Qed.
(** The day after 28 February; a day that does not exist; a leap second; the
    first moment of the year 0. *)
Example C85_days : map (fun s => option_map fmt_time (parse_time (bs s)))
  ["2023-02-28T00:00:00Z"%string; "2023-02-29T00:00:00Z"%string; "2024-02-29T00:00:00Z"%string; "1900-02-29T00:00:00Z"%string; "2000-02-29T00:00:00Z"%string;
   "2016-12-31T23:59:60Z"%string; "0000-01-01T00:00:00Z"%string; "2020-01-01T24:00:00Z"%string; "2020-01-01T00:00:00,50+01:00"%string; "2020-01-01t00:00:00Z"%string]
  = [Some (bs "2023-02-28T00:00:00Z"); None; Some (bs "2024-02-29T00:00:00Z"); None; Some (bs "2000-02-29T00:00:00Z");
     None; Some (bs "0000-01-01T00:00:00Z"); None; Some (bs "2020-01-01T00:00:00.5+01:00"); None].
Proof. vm_compute. reflexivity. Qed.
Example C85_unmarshal_case : unmarshal tm_env ex_flags YTime (bs " ""2024-02-29T23:59:59.123456-05:00"" ") (MTime []) = (None, MTime (fmt_time tm_new_york)).
Proof. vm_compute. reflexivity. Qed.
Example C85_variable_case : exists out, enc plain_cfg (GTime (fmt_time tm_new_york)) [] 0 = ER out 0 None /\ unmarshal tm_env ex_flags YTime out (MTime []) = (None, MTime (fmt_time tm_new_york)).
Proof. apply C85_variable; [apply tm_env_ok|apply tm_lib|apply C85_case|reflexivity]. Qed.

Print Assumptions C85_calendar.
Print Assumptions C85_written.
Print Assumptions C85_reads.
Print Assumptions C85_rfc.
Print Assumptions C85_round_trip.
Print Assumptions C85_distinct.
Print Assumptions C85_rewritten.
Print Assumptions C85_unmarshal.
Print Assumptions C85_contract.
Print Assumptions C85_typed.
Print Assumptions C85_variable.
Print Assumptions C85_year_refuted.
Print Assumptions C85_offset_refuted.
Print Assumptions C85_rfc_refuted.
Print Assumptions C85_reread_refuted.
