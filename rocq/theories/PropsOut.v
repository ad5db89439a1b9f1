(** C79, C80, C81: an output is one line, is UTF-8, and what EscapeHTML changes. *)
From Verif Require Import Bytes Utf8Model ParseModel IntModel EncModel EncoderModel SpecJson SpecString SpecRender SpecColor SpecEncoder SpecOut
  ParseFacts Utf8Facts StringFacts EncFacts RawFacts EncMain EncRel ColorFacts OutFacts PropsColor PropsEnc PropsEncoder.

(** C79: without indentation, what Append writes, also when it fails, contains
    no line break, when the colors contain none; strings may be anything.
    (Numbers are only checked at the front, and trusted messages not at all:
    see the refutation.) *)
Theorem C79_one_line_partial : forall c v b d o d' e, compact (e_ind c) ->
  match e_clrs c with None => True | Some k => Forall (fun x => wf x /\ one_line x) (palette k) end ->
  line_data (e_trust c) v -> enc c v b d = ER o d' e -> exists out, o = b ++ out /\ one_line out.
Proof.
  intros c v b d o d' e I K L E.
  assert (X : frel (fun a _ => wf a /\ one_line a) eq (enc c v) (enc c v)).
  { apply (line_rel (fun x => x <> 10 /\ x <> 13) (e_trust c)); auto; [intros; lia|]. destruct (e_clrs c); [split; [lia|exact K]|exact Logic.I]. }
  specialize (X d d eq_refl). rewrite (enc_app_only c v b d) in E. destruct (enc c v [] d) as [o1 d1 e1|]; cbn in *; [|discriminate].
  injection E as <- <- <-. exists o1. split; [reflexivity|apply X].
Qed.
Print Assumptions C79_one_line_partial.

(** C79: without colors there is no control character at all. *)
Theorem C79_no_control_partial : forall c v b d o d' e, compact (e_ind c) -> e_clrs c = None ->
  line_data (e_trust c) v -> enc c v b d = ER o d' e -> exists out, o = b ++ out /\ no_control out.
Proof.
  intros c v b d o d' e I K L E.
  assert (X : frel (fun a _ => wf a /\ no_control a) eq (enc c v) (enc c v)).
  { apply (line_rel (fun x => 0x20 <= x) (e_trust c)); auto. rewrite K. exact Logic.I. }
  specialize (X d d eq_refl). rewrite (enc_app_only c v b d) in E. destruct (enc c v [] d) as [o1 d1 e1|]; cbn in *; [|discriminate].
  injection E as <- <- <-. exists o1. split; [reflexivity|apply X].
Qed.
Print Assumptions C79_no_control_partial.

Lemma line_settings std trust ops : Forall (line_op trust) ops ->
  compact (e_ind (settings std ops)) /\ (e_trust (settings std ops) = true -> trust = true) /\
  match e_clrs (settings std ops) with None => True | Some k => Forall (fun x => wf x /\ one_line x) (palette k) end.
Proof.
  induction ops as [|o ops IH] using rev_ind; intros H; [cbn; repeat split; discriminate|].
  apply Forall_app in H. destruct H as [H Ho]. apply Forall_inv in Ho. destruct (IH H) as (A & B & C). rewrite settings_snoc.
  destruct o as [k|p i|on|on|on|v]; cbn [line_op e_ind e_trust e_clrs] in *; auto.
  destruct Ho as [-> ->]. repeat split; auto.
Qed.
(** C79: whatever calls are made of a compact Encoder and whatever its Writes
    return, the lines of all it has written are the values written, one each,
    in order. *)
Theorem C79_lines_partial : forall std trust ops results rs e w, Forall (line_op trust) ops ->
  run std ops new_encoder (start results) = Some (rs, e, w) ->
  exists ls, w_log w = map (fun l => l ++ [10]) ls /\ Forall one_line ls /\ split_lines (concat (w_log w)) = ls ++ [[]].
Proof.
  intros std trust ops results rs e w H R.
  assert (X : exists ls, w_log w = map (fun l => l ++ [10]) ls /\ Forall one_line ls).
  { revert rs e w R. induction ops as [|o ops IH] using rev_ind; intros rs e w R; [injection R as <- <- <-; exists []; auto|].
    apply run_snoc in R. destruct R as (rs1 & r & e1 & w1 & R & S & _). apply Forall_app in H. destruct H as [H Ho]. apply Forall_inv in Ho.
    destruct (IH H _ _ _ R) as (ls & L & F).
    destruct o as [k|p i|on|on|on|v]; try (injection S as <- <- <-; eauto; fail).
    pose proof (C25_all_or_nothing_partial _ _ _ _ _ _ v R) as T. rewrite S in T. destruct (line_settings std trust ops H) as (A & B & C).
    destruct r as [x|]; [destruct T as [-> _]; eauto|]. destruct T as (o & d' & E & ->).
    exists (ls ++ [o]). rewrite map_app, L. split; [reflexivity|]. apply Forall_app. split; [exact F|]. apply Forall_cons; [|constructor].
    assert (X : frel (fun a _ => wf a /\ one_line a) eq (enc (settings std ops) v) (enc (settings std ops) v)).
    { apply (line_rel (fun x => x <> 10 /\ x <> 13) trust); auto; [intros; lia|]. destruct (e_clrs (settings std ops)); [split; [lia|exact C]|exact Logic.I]. }
    specialize (X (en_depth e1) (en_depth e1) eq_refl). rewrite E in X. cbn in X. apply X. }
  destruct X as (ls & L & F). exists ls. split; [exact L|]. split; [exact F|]. rewrite L. apply split_all.
  eapply Forall_impl; [|exact F]. intros l Hl. eapply Forall_impl; [|exact Hl]. cbv beta. tauto.
Qed.
Print Assumptions C79_lines_partial.
(** The full statement fails for a Number with text after the number and for
    a malformed trusted message. *)
Theorem C79_one_line_refuted :
  (exists s o d, enc plain_cfg (GNumber s) [] 0 = ER o d None /\ In 10 o) /\
  (exists s o d, enc (Cfg true true true None None std0) (GRaw (Some s)) [] 0 = ER o d None /\ In 10 o).
Proof.
  split.
  - exists [49; 10; 50], [49; 10; 50], 0. split; [vm_compute; reflexivity|cbn; tauto].
  - exists [34; 10; 34], [34; 10; 34], 0. split; [vm_compute; reflexivity|cbn; tauto].
Qed.
Print Assumptions C79_one_line_refuted.
Definition line_demo : gval :=
  GStruct [(FH (bs "name") false false, GString [10; 13; 255; 60]);
           (FH (bs "nums") false false, GSlice (Some [GInt (-7); GFloat (FFin false (bs "25") 1); GNumber (bs "1e9")]));
           (FH (bs "raw") false false, GRaw (Some (91 :: 10 :: bs "1 ]")));
           (FH (bs "q") false false, GQuoted (GString [10]))].
Lemma line_demo_data : line_data false line_demo.
Proof.
  cbn [line_data leaves line_demo all map fold_right f_name raw_opt].
  repeat match goal with
  | |- _ /\ _ => split
  | |- True => exact I
  | |- wf _ => chars
  | |- any _ => exact I
  | |- no_control _ => conc
  | |- false = false \/ _ => left; reflexivity
  | |- raw_checked _ _ => split; [chars|left; reflexivity]
  end.
  split; [chars|]. exists 50, [53]. split; [reflexivity|]. split; [lia|]. vm_compute. discriminate.
Qed.
Example C79_case : line_data false line_demo /\ Forall (line_op false) [OSetColors (Some default_colors); OEncode line_demo; OSetColors None; OEncode line_demo] /\
  exists rs e w, run std0 [OSetColors (Some default_colors); OEncode line_demo; OSetColors None; OEncode line_demo] new_encoder (start []) = Some (rs, e, w) /\
    length (split_lines (concat (w_log w))) = 3%nat /\
    nth 1 (split_lines (concat (w_log w))) [] = bs "{""name"":""\n\r\ufffd\u003c"",""nums"":[-7,2.5,1e9],""raw"":[1],""q"":""\""\\n\""""}".
Proof.
  split; [apply line_demo_data|]. split.
  - apply Forall_cons; [|apply Forall_cons; [apply line_demo_data|apply Forall_cons; [exact I|apply Forall_cons; [apply line_demo_data|constructor]]]].
    cbn [line_op]. unfold palette. repeat (apply Forall_cons; [split; [chars|unfold one_line; conc]|]). apply Forall_nil.
  - eexists _, _, _. split; [vm_compute; reflexivity|]. split; vm_compute; reflexivity.
Qed.

(** C80: what Append writes, also when it fails, is UTF-8, whatever bytes the
    strings, keys and texts hold, when the colors, the indentation, Numbers,
    times and raw messages are (the last two are not checked: see the
    refutation). *)
Theorem C80_utf8_partial : forall c v b d o d' e,
  match e_clrs c with None => True | Some k => Forall valid_utf8 (palette k) end -> ind_all valid_utf8 (e_ind c) ->
  leaves wf (raw_utf8 (e_trust c)) valid_utf8 valid_utf8 float_ok any True v ->
  enc c v b d = ER o d' e -> exists out, o = b ++ out /\ valid_utf8 out.
Proof.
  intros c v b d o d' e K I L E. pose proof (utf8_rel c v K I L d d eq_refl) as X. rewrite (enc_app_only c v b d) in E.
  destruct (enc c v [] d) as [o1 d1 e1|]; cbn in *; [|discriminate]. injection E as <- <- <-. exists o1. split; [reflexivity|apply X].
Qed.
Print Assumptions C80_utf8_partial.
Lemma ff_not_utf8 a b : Forall (fun c => 0 <= c < 0x80) a -> ~ valid_utf8 (a ++ 255 :: b).
Proof.
  intros A [l U]. revert l U. induction A as [|c a H A IH]; intros l U.
  - inversion U as [|r l' e s S U' E1 E2]. pose proof (f_equal (hd 0) E2) as X. inversion S; subst; cbn [app hd] in X; lia.
  - inversion U as [|r l' e s S U' E1 E2]. destruct (utf8_seq_hd _ _ S) as (c0 & t & -> & HD). cbn [app] in E2. injection E2 as -> E2.
    destruct HD as [(_ & _ & ->)|(_ & X)]; [|lia]. cbn [app] in E2. subst s. eapply IH, U'.
Qed.
Theorem C80_utf8_refuted :
  (exists s o d, enc plain_cfg (GNumber s) [] 0 = ER o d None /\ ~ valid_utf8 o) /\
  (exists s o d, enc plain_cfg (GRaw (Some s)) [] 0 = ER o d None /\ ~ valid_utf8 o).
Proof.
  split.
  - exists [49; 255], [49; 255], 0. split; [vm_compute; reflexivity|]. apply (ff_not_utf8 [49] []). conc.
  - exists [34; 255; 34], [34; 255; 34], 0. split; [vm_compute; reflexivity|]. apply (ff_not_utf8 [34] [34]). conc.
Qed.
Print Assumptions C80_utf8_refuted.
Lemma ascii8 s : forallb (fun c => (0 <=? c) && (c <? 128)) s = true -> valid_utf8 s.
Proof. intros H. apply v8_ascii. rewrite forallb_forall in H. apply Forall_forall. intros c Hc. specialize (H c Hc). rewrite andb_true_iff, Z.leb_le, Z.ltb_lt in H. lia. Qed.
Example C80_case : leaves wf (raw_utf8 false) valid_utf8 valid_utf8 float_ok any True line_demo /\ Forall valid_utf8 (palette default_colors) /\
  exists o d, enc (color_cfg default_colors) line_demo [] 0 = ER o d None.
Proof.
  split; [|split; [|eexists _, _; vm_compute; reflexivity]].
  - cbn [leaves line_demo all map fold_right f_name raw_opt].
    repeat match goal with
    | |- _ /\ _ => split
    | |- True => exact I
    | |- wf _ => chars
    | |- any _ => exact I
    | |- valid_utf8 _ => apply ascii8; reflexivity
    | |- raw_utf8 _ _ => split; [split; [chars|left; reflexivity]|apply ascii8; reflexivity]
    end.
    split; [chars|]. exists 50, [53]. split; [reflexivity|]. split; [lia|]. vm_compute. discriminate.
  - unfold palette. repeat (apply Forall_cons; [apply ascii8; reflexivity|]). apply Forall_nil.
Qed.

(** C81: what is written with EscapeHTML is what is written without it, with
    '<', '>', '&', U+2028 and U+2029 replaced by their escapes; the error and
    the indentation depth are the same.  Not so for strings under the
    ",string" option (see the refutation). *)
Theorem C81_escape_partial : forall c v b d,
  match e_clrs c with None => True | Some k => Forall mild_text (palette k) end -> ind_all mild_text (e_ind c) ->
  leaves wf (raw_checked (e_trust c)) mild_text mild_text float_ok textless True v ->
  match enc (set_html false c) v b d with
  | ER o d' e => exists out, o = b ++ out /\ enc (set_html true c) v b d = ER (b ++ html_escape out) d' e
  | EPanic => enc (set_html true c) v b d = EPanic
  end.
Proof.
  intros c v b d K I L. pose proof (escape_rel c v K I L d d eq_refl) as X.
  rewrite (enc_app_only (set_html false c) v b d), (enc_app_only (set_html true c) v b d).
  destruct (enc (set_html true c) v [] d) as [o1 d1 e1|], (enc (set_html false c) v [] d) as [o2 d2 e2|]; cbn in *; try contradiction; [|reflexivity].
  destruct X as ((X & _) & -> & ->). exists o2. split; [reflexivity|]. specialize (X []). rewrite !app_nil_r in X. rewrite X. reflexivity.
Qed.
Print Assumptions C81_escape_partial.
Theorem C81_escape_refuted :
  (exists o o' d, enc (set_html false plain_cfg) (GQuoted (GString (bs "<"))) [] 0 = ER o d None /\
    enc (set_html true plain_cfg) (GQuoted (GString (bs "<"))) [] 0 = ER o' d None /\ o' <> html_escape o) /\
  (exists o d, enc (set_html false plain_cfg) (GNumber (bs "1<")) [] 0 = ER o d None /\
    enc (set_html true plain_cfg) (GNumber (bs "1<")) [] 0 = ER o d None /\ o <> html_escape o).
Proof.
  split; [eexists _, _, _|eexists _, _]; (split; [vm_compute; reflexivity|]); (split; [vm_compute; reflexivity|]); vm_compute; discriminate.
Qed.
Print Assumptions C81_escape_refuted.
Definition esc_demo : gval :=
  GMap (Some [(KString (bs "<k>"), GQuoted (GInt 5)); (KInt 2, GRaw (Some (bs "[""a&b""]"))); (KString [226; 128; 168], GString (226 :: 128 :: 168 :: bs "&"))]).
Example C81_case : leaves wf (raw_checked false) mild_text mild_text float_ok textless True esc_demo /\ Forall mild_text (palette default_colors) /\
  enc (set_html false plain_cfg) esc_demo [] 0 = ER (bs "{""2"":[""a&b""],""<k>"":""5"",""\u2028"":""\u2028&""}") 0 None.
Proof.
  split; [|split; [|vm_compute; reflexivity]].
  - cbn [leaves esc_demo all map fold_right f_name raw_opt key_leaf textless].
    repeat match goal with
    | |- _ /\ _ => split
    | |- True => exact I
    | |- wf _ => chars
    | |- raw_checked _ _ => split; [chars|left; reflexivity]
    end.
  - unfold palette. repeat (apply Forall_cons; [conc|]). apply Forall_nil.
Qed.
