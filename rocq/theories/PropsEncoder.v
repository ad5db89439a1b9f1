(** C25, C26, C38: the Encoder over histories of calls. *)
From Verif Require Import Bytes ParseModel IntModel EncModel EncoderModel SpecJson SpecRender SpecColor SpecEnc SpecEncoder ParseFacts EncFacts EncMain EncExtra FlatFacts RawFacts
  PropsParse PropsColor PropsEnc.

Lemma set_flag_same on fl f : f = fEscapeHTML \/ f = fSortMapKeys \/ f = fTrustRawMessage -> has_flag (set_flag on fl f) f = on.
Proof.
  intros F. unfold has_flag, set_flag. destruct on.
  - destruct F as [-> | [-> | ->] ];
      (destruct (Z.land (Z.lor fl _) _ =? 0) eqn:E; [|reflexivity]; apply Z.eqb_eq in E).
    + apply (f_equal (fun x => Z.testbit x 0)) in E. rewrite Z.land_spec, Z.lor_spec, Z.bits_0 in E. cbn in E. rewrite orb_true_r in E. discriminate.
    + apply (f_equal (fun x => Z.testbit x 1)) in E. rewrite Z.land_spec, Z.lor_spec, Z.bits_0 in E. cbn in E. rewrite orb_true_r in E. discriminate.
    + apply (f_equal (fun x => Z.testbit x 2)) in E. rewrite Z.land_spec, Z.lor_spec, Z.bits_0 in E. cbn in E. rewrite orb_true_r in E. discriminate.
  - rewrite <- Z.land_assoc. replace (Z.land (Z.lnot f) f) with 0 by (destruct F as [-> | [-> | ->] ]; reflexivity). rewrite Z.land_0_r. reflexivity.
Qed.
Lemma set_flag_other on fl f g : Z.land f g = 0 -> has_flag (set_flag on fl f) g = has_flag fl g.
Proof.
  intros F. unfold has_flag, set_flag. do 2 f_equal. destruct on.
  - rewrite Z.land_lor_distr_l, F, Z.lor_0_r. reflexivity.
  - rewrite <- Z.land_assoc. f_equal. apply Z.bits_inj'. intros n _. apply (f_equal (fun x => Z.testbit x n)) in F.
    rewrite Z.land_spec, Z.bits_0 in F. rewrite Z.land_spec. destruct (Z.testbit g n) eqn:G; [|apply andb_false_r].
    destruct (n <? 0) eqn:N; [apply Z.ltb_lt in N; rewrite Z.testbit_neg_r in G by lia; discriminate|apply Z.ltb_ge in N].
    rewrite Z.lnot_spec by lia. rewrite andb_true_r in *. rewrite F. reflexivity.
Qed.

Lemma run_app std a : forall b e w,
  run std (a ++ b) e w = match run std a e w with
    | None => None
    | Some (rs, e, w) => match run std b e w with None => None | Some (rs2, e, w) => Some (rs ++ rs2, e, w) end end.
Proof.
  induction a as [|o a IH]; intros b e w; cbn [run app].
  - destruct (run std b e w) as [[[rs e'] w']|]; reflexivity.
  - destruct (step std o e w) as [[[r e'] w']|]; [|reflexivity]. rewrite IH.
    destruct (run std a e' w') as [[[rs e''] w'']|]; [|reflexivity]. destruct (run std b e'' w'') as [[[rs2 e3] w3]|]; reflexivity.
Qed.
Lemma run_snoc std ops o e w rs e' w' : run std (ops ++ [o]) e w = Some (rs, e', w') ->
  exists rs1 r e1 w1, run std ops e w = Some (rs1, e1, w1) /\ step std o e1 w1 = Some (r, e', w') /\ rs = rs1 ++ [r].
Proof.
  rewrite run_app. destruct (run std ops e w) as [[[rs1 e1] w1]|]; [|discriminate]. cbn [run].
  destruct (step std o e1 w1) as [[[r e2] w2]|] eqn:S; [|discriminate]. intros E. injection E as <- <- <-. exists rs1, r, e1, w1. auto.
Qed.
Lemma settings_snoc std ops o : settings std (ops ++ [o]) =
  match o with
  | OSetColors k => Cfg (e_html (settings std ops)) (e_sort (settings std ops)) (e_trust (settings std ops)) k (e_ind (settings std ops)) (e_stdindent (settings std ops))
  | OSetIndent p i => Cfg (e_html (settings std ops)) (e_sort (settings std ops)) (e_trust (settings std ops)) (e_clrs (settings std ops)) (Some (new_indenter p i)) (e_stdindent (settings std ops))
  | OSetEscapeHTML on => Cfg on (e_sort (settings std ops)) (e_trust (settings std ops)) (e_clrs (settings std ops)) (e_ind (settings std ops)) (e_stdindent (settings std ops))
  | OSetSortMapKeys on => Cfg (e_html (settings std ops)) on (e_trust (settings std ops)) (e_clrs (settings std ops)) (e_ind (settings std ops)) (e_stdindent (settings std ops))
  | OSetTrustRawMessage on => Cfg (e_html (settings std ops)) (e_sort (settings std ops)) on (e_clrs (settings std ops)) (e_ind (settings std ops)) (e_stdindent (settings std ops))
  | OEncode _ => settings std ops
  end.
Proof. unfold settings. rewrite fold_left_app. destruct o; reflexivity. Qed.

Lemma encode_fields std v e w r e' w' : step std (OEncode v) e w = Some (r, e', w') ->
  en_flags e' = en_flags e /\ en_clrs e' = en_clrs e /\ en_ind e' = en_ind e.
Proof.
  cbn [step]. unfold encode_op. destruct (en_err e); [intros E; injection E as <- <- <-; auto|].
  destruct (enc _ v [] _) as [o d [x|]|]; [intros E; injection E as <- <- <-; auto| |discriminate].
  destruct (write w (o ++ [10])). intros E. injection E as <- <- <-. auto.
Qed.
(** The flags, colors and indenter of the encoder are the settings in force. *)
Lemma run_cfg std ops : forall results rs e w, run std ops new_encoder (start results) = Some (rs, e, w) -> cfg_of std e = settings std ops.
Proof.
  induction ops as [|o ops IH] using rev_ind; intros results rs e w E; [injection E as <- <- <-; reflexivity|].
  apply run_snoc in E. destruct E as (rs1 & r & e1 & w1 & R & S & _). specialize (IH _ _ _ _ R). rewrite settings_snoc, <- IH.
  destruct o as [k|p i|on|on|on|v].
  6: { apply encode_fields in S. destruct S as (A & B & C). unfold cfg_of. rewrite A, B, C. reflexivity. }
  all: injection S as <- <- <-; unfold cfg_of; cbn [en_flags en_clrs en_ind e_html e_sort e_trust e_clrs e_ind e_stdindent]; auto;
    rewrite set_flag_same by auto; rewrite !set_flag_other by reflexivity; reflexivity.
Qed.
(** The writes made, the results still to come, and the sticky error. *)
Lemma run_writes std ops : forall results rs e w, run std ops new_encoder (start results) = Some (rs, e, w) ->
  w_results w = skipn (length (w_log w)) results /\
  en_err e = first_failure (firstn (length (w_log w)) results) /\
  first_failure (firstn (length (w_log w) - 1) results) = None.
Proof.
  induction ops as [|o ops IH] using rev_ind; intros results rs e w E; [injection E as <- <- <-; auto|].
  apply run_snoc in E. destruct E as (rs1 & r & e1 & w1 & R & S & _). specialize (IH _ _ _ _ R). destruct IH as (A & B & C).
  destruct o as [k|p i|on|on|on|v].
  6: { cbn [step] in S. unfold encode_op in S. destruct (en_err e1) eqn:K; [injection S as <- <- <-; rewrite K; auto|].
       destruct (enc _ v [] _) as [o d [x|]|]; [injection S as <- <- <-; cbn; auto| |discriminate].
       symmetry in B. unfold write in S. destruct (w_results w1) as [|x l] eqn:RW; injection S as <- <- <-; cbn [w_results w_log en_err]; rewrite app_length; cbn [length].
       - assert (L : (length results <= length (w_log w1))%nat) by (apply (f_equal (@length _)) in A; rewrite skipn_length in A; cbn in A; lia).
         rewrite skipn_all2 by lia. split; [reflexivity|]. rewrite firstn_all2 in * by lia. rewrite firstn_all2 by lia. auto.
       - replace (length (w_log w1) + 1 - 1)%nat with (length (w_log w1)) by lia.
         assert (Q : results = firstn (length (w_log w1)) results ++ x :: l) by (rewrite A; symmetry; apply firstn_skipn).
         assert (N : length (firstn (length (w_log w1)) results) = length (w_log w1)).
         { apply firstn_length_le. destruct (le_lt_dec (length (w_log w1)) (length results)); [auto|]. rewrite skipn_all2 in A by lia. discriminate. }
         set (h := firstn (length (w_log w1)) results) in *. clearbody h. rewrite Q. rewrite <- N.
         assert (P1 : forall k, firstn (length h + k) (h ++ x :: l) = h ++ firstn k (x :: l)) by (intros k; apply firstn_app_2).
         rewrite P1. cbn [firstn].
         split; [clear; induction h as [|y h IH]; [reflexivity|exact IH]|]. split; [|exact B].
         clear - B. induction h as [|[y|] h IH]; cbn in *; [destruct x; reflexivity|discriminate|auto]. }
  all: injection S as <- <- <-; cbn; auto.
Qed.

(** C25: in every reachable state of an Encoder, Encode(v) either returns nil
    and makes one Write, of the encoding of v under the settings in force and
    a newline; or returns an error and writes nothing; or encoding v panics.
    (The depth the indenter has is the subject of C26.) *)
Theorem C25_all_or_nothing_partial : forall std ops results rs e w v,
  run std ops new_encoder (start results) = Some (rs, e, w) ->
  match step std (OEncode v) e w with
  | Some (None, _, w') => exists o d', enc (settings std ops) v [] (en_depth e) = ER o d' None /\ w_log w' = w_log w ++ [o ++ [10]]
  | Some (Some x, _, w') => w_log w' = w_log w /\
      (first_failure (firstn (length (w_log w)) results) = Some x \/ exists o d', enc (settings std ops) v [] (en_depth e) = ER o d' (Some x))
  | None => enc (settings std ops) v [] (en_depth e) = EPanic
  end.
Proof.
  intros std ops results rs e w v R. pose proof (run_cfg _ _ _ _ _ _ R) as C. destruct (run_writes _ _ _ _ _ _ R) as (_ & B & _).
  cbn [step]. unfold encode_op. rewrite <- B, C. destruct (en_err e); [auto|].
  destruct (enc _ v [] _) as [o d [x|]|]; eauto. unfold write. destruct (w_results w); cbn; eauto.
Qed.
Print Assumptions C25_all_or_nothing_partial.

(** C25: once a Write has failed, no later call writes, and each later Encode
    returns that error.  Before that all writes succeeded. *)
Theorem C25_sticky_partial : forall std results ops rs e w x,
  run std ops new_encoder (start results) = Some (rs, e, w) ->
  first_failure (firstn (length (w_log w)) results) = Some x ->
  first_failure (firstn (length (w_log w) - 1) results) = None /\
  forall ops2, exists rs2 e2 w2, run std ops2 e w = Some (rs2, e2, w2) /\ w_log w2 = w_log w /\
    Forall2 (fun o r => match o with OEncode _ => r = Some x | _ => r = None end) ops2 rs2.
Proof.
  intros std results ops rs e w x R F. destruct (run_writes _ _ _ _ _ _ R) as (_ & B & C). split; [exact C|]. rewrite F in B. clear - B.
  intros ops2. revert e B. induction ops2 as [|o ops2 IH]; intros e B; cbn [run]; [eauto 8|].
  assert (S : exists e', step std o e w = Some (match o with OEncode _ => Some x | _ => None end, e', w) /\ en_err e' = Some x).
  { destruct o; cbn [step]; eauto. unfold encode_op. rewrite B. eauto. }
  destruct S as (e' & -> & B'). destruct (IH e' B') as (rs2 & e2 & w2 & -> & L & H). eexists _, _, _. split; [reflexivity|]. split; [exact L|].
  constructor; [destruct o; reflexivity|exact H].
Qed.
Print Assumptions C25_sticky_partial.

(** C25: every Write, without colors and with whitespace indentation, is of a
    JSON value and a newline, when the values are clean. *)
Theorem C25_lines_partial : forall std ops results rs e w v e' w',
  run std ops new_encoder (start results) = Some (rs, e, w) ->
  e_clrs (settings std ops) = None -> ind_all ws (e_ind (settings std ops)) ->
  clean (e_sort (settings std ops)) (e_trust (settings std ops)) false v ->
  step std (OEncode v) e w = Some (None, e', w') ->
  exists o a, w_log w' = w_log w ++ [o ++ [10]] /\ jvalue o a.
Proof.
  intros std ops results rs e w v e' w' R K I C S. pose proof (C25_all_or_nothing_partial std ops results rs e w v R) as H. rewrite S in H.
  destruct H as (o & d' & E & H). destruct (C10_valid_json_partial _ v [] _ o d' K I C E) as (out & a & -> & J & _). cbn [app] in *. eauto.
Qed.
Print Assumptions C25_lines_partial.

(** The full statement fails: the Encode whose Write fails returns nil. *)
Theorem C25_failed_write_refuted : exists std results ops v rs e w e' w' x,
  run std ops new_encoder (start results) = Some (rs, e, w) /\
  step std (OEncode v) e w = Some (None, e', w') /\ results = [Some x] /\ w_log w' = [bs "null" ++ [10]].
Proof.
  exists std0, [Some EOther], [], GNil. eexists _, _, _, _, _, _. split; [reflexivity|]. split; [vm_compute; reflexivity|]. split; reflexivity.
Qed.
Print Assumptions C25_failed_write_refuted.

Example C25_case : exists e w, run std0 [OSetEscapeHTML false; OEncode (GString (bs "<")); OSetIndent [] (bs "  "); OEncode GUnsupported; OEncode (GArray [GInt 1]); OEncode GNil]
    new_encoder (start [None; Some EOther]) = Some ([None; None; None; Some EUnsupportedType; None; Some EOther], e, w) /\
  w_log w = [bs """<""" ++ [10]; bs "[" ++ [10] ++ bs "  1" ++ [10] ++ bs "]" ++ [10]].
Proof. eexists _, _. split; vm_compute; reflexivity. Qed.

(** C26: if since the encoder was made, or its indentation last set, every
    Encode has returned nil, of values Go types can give, Encode(v) does what
    Append does with the settings in force and a fresh indenter. *)
Definition as_fresh (std : bytes -> bytes -> bytes -> option bytes) (ops : list op) (v : gval) (e : encoder) (w : world) : Prop :=
  match step std (OEncode v) e w with
  | Some (None, _, w') => exists o d', enc (settings std ops) v [] 0 = ER o d' None /\ w_log w' = w_log w ++ [o ++ [10]]
  | Some (Some x, _, w') => w_log w' = w_log w /\ exists o d', enc (settings std ops) v [] 0 = ER o d' (Some x)
  | None => enc (settings std ops) v [] 0 = EPanic
  end.
Definition went_well (o : op) (r : option err) : Prop :=
  match o with OEncode v => r = None /\ shaped true false v /\ shaped false false v | _ => True end.

Lemma depth_kept std : forall mid e w rs e' w', run std mid e w = Some (rs, e', w') -> Forall2 went_well mid rs -> en_depth e = 0 -> en_depth e' = 0.
Proof.
  induction mid as [|o mid IH]; intros e w rs e' w' R G D; cbn [run] in R; [injection R as <- <- <-; exact D|].
  destruct (step std o e w) as [[[r e1] w1]|] eqn:S; [|discriminate].
  destruct (run std mid e1 w1) as [[[rs1 e2] w2]|] eqn:R1; [|discriminate]. injection R as <- <- <-.
  inversion G as [|? ? ? ? G1 G2 Q1 Q2]; subst. eapply IH; [exact R1|exact G2|].
  destruct o as [k|p i|on|on|on|v]; try (injection S as <- <- <-; auto).
  destruct G1 as (-> & S1 & S2). cbn [step] in S. unfold encode_op in S. destruct (en_err e); [discriminate|].
  destruct (enc _ v [] _) as [o d [x|]|] eqn:E; [discriminate| |discriminate].
  destruct (write w (o ++ [10])). injection S as <- <-. cbn [en_depth].
  assert (SH : shaped (e_trust (cfg_of std e)) false v) by (destruct (e_trust (cfg_of std e)); assumption).
  rewrite (C17_depth_restored_partial _ _ _ _ _ _ SH E). exact D.
Qed.
Theorem C26_history_irrelevant_partial : forall std pre mid results rs1 rs2 e w v,
  run std (pre ++ mid) new_encoder (start results) = Some (rs1 ++ rs2, e, w) -> length rs1 = length pre ->
  (pre = [] \/ exists pre' p i, pre = pre' ++ [OSetIndent p i]) -> Forall2 went_well mid rs2 ->
  first_failure (firstn (length (w_log w)) results) = None ->
  as_fresh std (pre ++ mid) v e w.
Proof.
  intros std pre mid results rs1 rs2 e w v R L P G F.
  assert (D : en_depth e = 0).
  { rewrite run_app in R. destruct (run std pre new_encoder (start results)) as [[[rs1' e1] w1]|] eqn:R1; [|discriminate].
    destruct (run std mid e1 w1) as [[[rs2' e2] w2]|] eqn:R2; [|discriminate]. injection R as Q <- <-.
    assert (L1 : length rs1' = length pre).
    { clear - R1. revert R1. generalize new_encoder (start results) rs1' e1 w1. induction pre as [|o pre IH]; intros e0 w0 rs e w R; cbn [run] in R; [injection R as <- <- <-; reflexivity|].
      destruct (step std o e0 w0) as [[[r e2] w2]|]; [|discriminate]. destruct (run std pre e2 w2) as [[[rs3 e3] w3]|] eqn:R3; [|discriminate]. injection R as <- <- <-. cbn. f_equal. eapply IH, R3. }
    assert (rs2' = rs2).
    { clear - Q L L1. revert rs1 Q L. assert (K : length rs1' = length pre) by exact L1. clear L1. revert K. generalize (length pre). induction rs1' as [|x rs1' IH]; intros n K [|y rs1] Q L; cbn in *; subst; try discriminate; auto.
      injection Q as _ Q. injection L as L. eapply IH; eauto. }
    subst rs2'. eapply depth_kept; [exact R2|exact G|].
    destruct P as [->|(pre' & p & i & ->)]; [injection R1 as <- <- <-; reflexivity|]. apply run_snoc in R1. destruct R1 as (? & ? & ? & ? & _ & S & _). injection S as <- <- <-. reflexivity. }
  unfold as_fresh. pose proof (C25_all_or_nothing_partial std _ _ _ _ _ v R) as H. rewrite D in H.
  destruct (step std (OEncode v) e w) as [[[[x|] e'] w']|]; auto. destruct H as (H & [H1|H1]); [congruence|auto].
Qed.
Print Assumptions C26_history_irrelevant_partial.

(** C26: without indentation, this holds whatever the history. *)
Theorem C26_no_indent_partial : forall std ops results rs e w v,
  run std ops new_encoder (start results) = Some (rs, e, w) ->
  active (e_ind (settings std ops)) = None ->
  first_failure (firstn (length (w_log w)) results) = None ->
  as_fresh std ops v e w.
Proof.
  intros std ops results rs e w v R A F. unfold as_fresh. pose proof (C25_all_or_nothing_partial std _ _ _ _ _ v R) as H.
  assert (Q : flat_cfg (settings std ops) (settings std ops)) by (repeat split; assumption).
  apply (enc_flat _ _ v) in Q. specialize (Q [] (en_depth e) 0). unfold sim in Q.
  destruct (step std (OEncode v) e w) as [[[[x|] e'] w']|].
  - destruct H as (H & [H1|(o & d' & E)]); [congruence|]. split; [exact H|]. rewrite E in Q.
    destruct (enc (settings std ops) v [] 0) as [o2 d2 e2|]; [|tauto]. destruct Q as [<- <-]. eauto.
  - destruct H as (o & d' & E & H). rewrite E in Q.
    destruct (enc (settings std ops) v [] 0) as [o2 d2 e2|]; [|tauto]. destruct Q as [<- <-]. eauto.
  - rewrite H in Q. destruct (enc (settings std ops) v [] 0); tauto.
Qed.
Print Assumptions C26_no_indent_partial.

(** The full statement fails: after an Encode fails inside an array, the same
    value is indented differently under the same settings. *)
Theorem C26_depth_leak_refuted : exists ops o v rs1 rs2 e1 w1 e2 w2,
  run std0 ops new_encoder (start []) = Some (rs1, e1, w1) /\ run std0 (ops ++ [o]) new_encoder (start []) = Some (rs2, e2, w2) /\
  settings std0 ops = settings std0 (ops ++ [o]) /\ w_log w1 = w_log w2 /\
  match step std0 (OEncode v) e1 w1, step std0 (OEncode v) e2 w2 with
  | Some (None, _, w1'), Some (None, _, w2') => w_log w1' <> w_log w2'
  | _, _ => False end.
Proof.
  exists [OSetIndent [] (bs "  ")], (OEncode (GArray [GUnsupported])), (GArray [GInt 1]). eexists _, _, _, _, _, _.
  split; [reflexivity|]. split; [vm_compute; reflexivity|]. split; [reflexivity|]. split; [reflexivity|]. vm_compute. discriminate.
Qed.
Print Assumptions C26_depth_leak_refuted.

Example C26_case : exists rs e w, run std0 ([OEncode GUnsupported; OSetIndent [] (bs "  ")] ++ [OEncode demo; OSetEscapeHTML false; OEncode demo]) new_encoder (start [])
    = Some ([Some EUnsupportedType; None] ++ rs, e, w) /\
  Forall2 went_well [OEncode demo; OSetEscapeHTML false; OEncode demo] rs /\ w_log w <> [] /\ first_failure (firstn (length (w_log w)) []) = None.
Proof.
  assert (S : forall t, shaped t false demo).
  { intros t. cbn. repeat split; [chars|]. destruct t; [right|left; reflexivity]. destruct demo_raw as [a J]. exists a. apply jvalue_jtext, J. }
  eexists _, _, _. split; [vm_compute; reflexivity|]. split; [|split; [discriminate|reflexivity]].
  repeat (constructor; [cbn [went_well]; auto|]). constructor.
Qed.
Example C26_no_indent_case : exists rs e w, run std0 [OEncode (GArray [GUnsupported]); OSetIndent [] []; OEncode (GArray [GUnsupported])] new_encoder (start []) = Some (rs, e, w) /\
  active (e_ind (settings std0 [OEncode (GArray [GUnsupported]); OSetIndent [] []; OEncode (GArray [GUnsupported])])) = None.
Proof. eexists _, _, _. split; vm_compute; reflexivity. Qed.

(** C38: an indenter with empty prefix and indent is the same as none, for
    every value, starting buffer and flags: same bytes, same error. *)
Theorem C38_empty_indenter : forall c v b d1 d2,
  match enc (Cfg (e_html c) (e_sort c) (e_trust c) (e_clrs c) (Some (new_indenter [] [])) (e_stdindent c)) v b d1, enc (no_indent c) v b d2 with
  | ER o1 _ e1, ER o2 _ e2 => o1 = o2 /\ e1 = e2
  | EPanic, EPanic => True
  | _, _ => False
  end.
Proof. intros c v b d1 d2. apply enc_flat. repeat split. Qed.
Print Assumptions C38_empty_indenter.
Example C38_case : exists o, enc (Cfg true true false None (Some (new_indenter [] [])) std0) demo [] 3 = ER o 3 None /\ enc plain_cfg demo [] 0 = ER o 0 None /\
  enc ind_cfg demo [] 0 <> ER o 0 None.
Proof. eexists. split; [vm_compute; reflexivity|]. split; [vm_compute; reflexivity|]. vm_compute. discriminate. Qed.
