(** C12, C13, C15, C16 (first half), C32: colors and layout against plain
    output.  [enc c v b d] is Append(b, v, flags, clrs, indentr) with the
    indenter at depth d. *)
From Verif Require Import Bytes ParseModel StringModel TokenModel EncModel SpecJson SpecTokens SpecRender SpecColor ParseFacts EncRel TextFacts ColorFacts.

(** C32: colors change neither success nor the error, for every value. *)
Theorem C32_colors_keep_outcome : forall c v d, leaves any wf any any any any True v ->
  match enc c v [] d, enc (no_colors c) v [] d with
  | ER _ d1 e1, ER _ d2 e2 => d1 = d2 /\ e1 = e2
  | EPanic, EPanic => True
  | _, _ => False
  end.
Proof.
  intros c v d L. pose proof (outcome_rel c (no_colors c) v eq_refl eq_refl eq_refl eq_refl L d d eq_refl) as H.
  unfold srel in H. destruct (enc c v [] d), (enc (no_colors c) v [] d); tauto.
Qed.
Print Assumptions C32_colors_keep_outcome.

(** C12: removing the color sequences from colorized output gives exactly the
    uncolored output (and the same error and depth), when the colors are
    escape sequences and the data, except strings, raw messages and bytes,
    have no ESC; no ",string" option, no integer map keys (see below). *)
Theorem C12_strip_partial : forall c k v d,
  e_clrs c = Some k -> Forall ansi (palette k) -> ind_all esc_free (e_ind c) ->
  leaves wf (raw_checked (e_trust c)) clear_text clear_text float_ok (fun _ => False) False v ->
  enc (no_colors c) v [] d =
  match enc c v [] d with ER o d' e => ER (strip o) d' e | EPanic => EPanic end.
Proof.
  intros c k v d C K I L. pose proof (strip_rel c k v C K I L d d eq_refl) as H. unfold srel in H.
  destruct (enc c v [] d) as [o1 d1 e1|], (enc (no_colors c) v [] d) as [o2 d2 e2|]; try tauto.
  destruct H as (H & -> & ->). specialize (H []). rewrite !app_nil_r in H. rewrite H. reflexivity.
Qed.
Print Assumptions C12_strip_partial.

(** The full statement fails: under the ",string" option, and for integer map
    keys, the color codes are escaped into the JSON string. *)
Definition std0 : bytes -> bytes -> bytes -> option bytes := fun _ _ _ => None.
Definition plain_cfg : cfg := Cfg true true false None None std0.
Definition color_cfg (k : colors) : cfg := Cfg true true false (Some k) None std0.
Theorem C12_strip_refuted :
  (exists v, v = GStruct [(FH (bs "N") false false, GQuoted (GInt 5))] /\
    match enc (color_cfg default_colors) v [] 0, enc plain_cfg v [] 0 with
    | ER o _ None, ER p _ None => strip o <> p | _, _ => False end) /\
  (exists v, v = GMap (Some [(KInt 5, GBool true)]) /\
    match enc (color_cfg default_colors) v [] 0, enc plain_cfg v [] 0 with
    | ER o _ None, ER p _ None => strip o <> p | _, _ => False end).
Proof. split; (eexists; split; [reflexivity|]; vm_compute; discriminate). Qed.
Print Assumptions C12_strip_refuted.

(** A value with every kind of leaf, used to show the hypotheses can be met. *)
Definition demo : gval :=
  GStruct [(FH (bs "name") false false, GString (bs "a<b"));
           (FH (bs "empty") true true, GInt 0);
           (FH (bs "nums") false false, GSlice (Some [GInt (-7); GFloat (FFin false (bs "25") 1); GNumber (bs "1e9")]));
           (FH (bs "m") false false, GMapSI (Some [(bs "z", GIface (Some (GBool false))); (bs "a", GBytes (Some [255; 1]))]));
           (FH (bs "raw") false false, GRaw (Some (bs "[1,{""k"":null}]")));
           (FH (bs "t") false false, GTime (bs "2026-01-02T03:04:05Z"))].
Lemma jvalue_parse s v : parseValue s = POk v [] -> wf s -> exists a, jvalue s a.
Proof.
  intros E W. destruct (ParseFacts.parseValue_sound s v [] W E) as (-> & H). rewrite app_nil_r. exact H.
Qed.
Lemma demo_raw : exists a, jvalue (bs "[1,{""k"":null}]") a.
Proof. eapply jvalue_parse; [vm_compute; reflexivity|]. apply Forall_forall. intros x Hx. vm_compute in Hx. unfold is_byte. intuition lia. Qed.
Ltac chars := vm_compute; repeat (apply Forall_cons; [first [split; [intro; discriminate|reflexivity]|split; intro; discriminate|intro; discriminate]|]); apply Forall_nil.
Lemma demo_leaves trust : leaves wf (raw_checked trust) clear_text clear_text float_ok (fun _ => False) False demo.
Proof.
  cbn [leaves demo all map fold_right f_name raw_opt].
  repeat match goal with
  | |- _ /\ _ => split
  | |- True => exact I
  | |- wf _ => chars
  | |- clear_text _ => split; chars
  end.
  - split; [chars|]. exists 50, [53]. split; [reflexivity|]. split; [lia|]. vm_compute. discriminate.
  - split; [chars|]. right. destruct demo_raw as [a J]. exists a. apply RawFacts.jvalue_jtext, J.
Qed.
Lemma default_ansi : Forall ansi (palette default_colors).
Proof.
  assert (A : forall p, forallb (fun c => negb (c =? 109)) p = true -> ansi (27 :: p ++ [109])).
  { intros p H. apply ansi_seq; [|constructor]. apply Forall_forall. intros c Hc. rewrite forallb_forall in H. apply H in Hc. rewrite negb_true_iff in Hc. zb. exact Hc. }
  unfold palette, default_colors. cbn.
  repeat (apply Forall_cons; [first [apply ansi_nil|apply (A [91; 50])|apply (A [91; 49])|apply (A [91; 51; 54])|apply (A [91; 51; 50])|apply (A [91; 51; 52; 59; 49])|apply (A [91; 51; 50; 59; 50])]; reflexivity|]). apply Forall_nil.
Qed.
Example C12_case : exists o d,
  enc (color_cfg default_colors) demo [] 0 = ER o d None /\ In 27 o /\
  strip o = bs "{""name"":""a\u003cb"",""nums"":[-7,2.5,1e9],""m"":{""a"":""/wE="",""z"":false},""raw"":[1,{""k"":null}],""t"":""2026-01-02T03:04:05Z""}" /\
  Forall ansi (palette default_colors) /\
  leaves wf (raw_checked false) clear_text clear_text float_ok (fun _ => False) False demo.
Proof.
  eexists _, _. split; [vm_compute; reflexivity|]. split; [vm_compute; tauto|]. split; [vm_compute; reflexivity|].
  split; [apply default_ansi|apply demo_leaves].
Qed.

(** C13: a zero Colors is not the same as nil: every token is followed by a
    reset code. *)
Definition zero_colors : colors := Colors [] [] [] [] [] [] [] [] [] [] [] [] [].
Theorem C13_zero_colors_refuted : exists v o d, enc (color_cfg zero_colors) v [] 0 = ER o d None /\
  enc plain_cfg v [] 0 <> ER o d None.
Proof. exists (GInt 1). eexists _, _. split; [vm_compute; reflexivity|]. vm_compute. discriminate. Qed.
Print Assumptions C13_zero_colors_refuted.
(** What holds: the bytes added are whole escape sequences, which show nothing. *)
Theorem C13_zero_colors_partial : forall c v d,
  e_clrs c = Some zero_colors -> ind_all esc_free (e_ind c) ->
  leaves wf (raw_checked (e_trust c)) clear_text clear_text float_ok (fun _ => False) False v ->
  enc (no_colors c) v [] d =
  match enc c v [] d with ER o d' e => ER (strip o) d' e | EPanic => EPanic end.
Proof. intros c v d C I L. apply (C12_strip_partial c zero_colors); try assumption. repeat constructor. Qed.
Print Assumptions C13_zero_colors_partial.
Example C13_case : exists o d, enc (color_cfg zero_colors) demo [] 0 = ER o d None /\
  enc (no_colors (color_cfg zero_colors)) demo [] 0 = ER (strip o) d None /\ length o <> length (strip o) /\
  leaves wf (raw_checked false) clear_text clear_text float_ok (fun _ => False) False demo.
Proof.
  eexists _, _. split; [vm_compute; reflexivity|]. split; [vm_compute; reflexivity|]. split; [vm_compute; discriminate|apply demo_leaves].
Qed.

(** C15: every ESC in the output is part of a configured color or a reset
    code, whatever the strings, keys, bytes and raw messages contain, for every
    outcome; without colors there is no ESC at all.  Numbers and times must be
    free of ESC (see below), raw messages checked or valid. *)
Theorem C15_no_injection_partial : forall c v d,
  match e_clrs c with None => True | Some k => Forall wf (palette k) end ->
  ind_all clear_text (e_ind c) ->
  leaves wf (raw_checked (e_trust c)) clear_text clear_text float_ok any True v ->
  match enc c v [] d with
  | ER o _ _ => match e_clrs c with None => esc_free o | Some k => pieces k o end
  | EPanic => True
  end.
Proof.
  intros c v d K I L. pose proof (pieces_rel c v K I L d d eq_refl) as H. unfold srel in H.
  destruct (enc c v [] d) as [o d' e|]; [|exact Logic.I]. apply H.
Qed.
Print Assumptions C15_no_injection_partial.
Example C15_case : exists o d,
  let v := GMap (Some [(KInt 3, GString (27 :: bs "[31m")); (KText (27 :: bs "[0m") None, GQuoted (GString [27]))]) in
  enc (color_cfg default_colors) v [] 0 = ER o d None /\ o <> [] /\
  leaves wf (raw_checked false) clear_text clear_text float_ok any True v /\ Forall wf (palette default_colors).
Proof.
  eexists _, _. cbv zeta. split; [vm_compute; reflexivity|]. split; [discriminate|]. split.
  - cbn. unfold any. repeat match goal with |- _ /\ _ => split | |- True => exact I | |- wf _ => chars end.
  - unfold palette, default_colors. cbn. repeat (apply Forall_cons; [chars|]). apply Forall_nil.
Qed.
(** The full statement fails: a Number is checked only up to its first
    non-number byte, and a trusted raw message is not checked. *)
Theorem C15_no_injection_refuted :
  (exists n o d, enc plain_cfg (GNumber n) [] 0 = ER o d None /\ In 27 o) /\
  (exists s o d, enc (Cfg true true true None None std0) (GRaw (Some s)) [] 0 = ER o d None /\ In 27 o).
Proof.
  split.
  - exists (49 :: 27 :: bs "[31m"). eexists _, _. split; [vm_compute; reflexivity|]. vm_compute. tauto.
  - exists (27 :: bs "[31m"). eexists _, _. split; [vm_compute; reflexivity|]. vm_compute. tauto.
Qed.
Print Assumptions C15_no_injection_refuted.

(** C16, first half: removing the whitespace outside strings from indented
    output gives the compact output, with the same error, at any depth. *)
Theorem C16_squeeze_partial : forall c v d d0, e_clrs c = None -> ind_all ws (e_ind c) ->
  leaves wf (raw_checked (e_trust c)) num_clean (Forall time_char) float_ok flat True v ->
  match enc c v [] d, enc (no_indent c) v [] d0 with
  | ER o _ e, ER p _ e' => squeeze o = p /\ e = e'
  | EPanic, EPanic => True
  | _, _ => False
  end.
Proof.
  intros c v d d0 C I L. pose proof (squeeze_rel c v C I L d d0 Logic.I) as H. unfold srel in H.
  destruct (enc c v [] d) as [o1 d1 e1|], (enc (no_indent c) v [] d0) as [o2 d2 e2|]; try tauto.
  destruct H as (H & _ & ->). specialize (H []). rewrite !app_nil_r in H. auto.
Qed.
Print Assumptions C16_squeeze_partial.
Definition ind_cfg : cfg := Cfg true true false None (Some (new_indenter [] [32; 32])) std0.
Example C16_squeeze_case : exists o, enc ind_cfg demo [] 0 = ER o 0 None /\ squeeze o <> o /\ ind_all ws (e_ind ind_cfg) /\
  leaves wf (raw_checked false) num_clean (Forall time_char) float_ok flat True demo.
Proof.
  eexists. split; [vm_compute; reflexivity|]. split; [vm_compute; discriminate|]. split.
  - split; [constructor|]. repeat constructor; auto.
  - cbn [leaves demo all map fold_right f_name raw_opt].
    repeat match goal with
    | |- _ /\ _ => split
    | |- True => exact I
    | |- wf _ => chars
    end.
    + split; [chars|]. exists 50, [53]. split; [reflexivity|]. split; [lia|]. vm_compute. discriminate.
    + right. left. apply (number_intro [] [49] [] [101; 57]); [left; reflexivity|constructor; [lia|constructor]|constructor|].
      apply (exp_some 101 [] [57]); [left; reflexivity|left; reflexivity|]. split; [discriminate|chars].
    + split; [chars|]. left. reflexivity.
    + apply Forall_forall. intros x Hx. vm_compute in Hx. unfold time_char. intuition lia.
Qed.
(** It fails when the ",string" option meets a type with MarshalJSON: the
    layout ends up inside the string. *)
Theorem C16_squeeze_refuted : exists v o p d, enc ind_cfg v [] 0 = ER o d None /\ enc (no_indent ind_cfg) v [] 0 = ER p d None /\ squeeze o <> p.
Proof.
  exists (GQuoted (GMarshaler (Some (inl (Some (bs "[1]")))))). eexists _, _, _.
  split; [vm_compute; reflexivity|]. split; [vm_compute; reflexivity|]. vm_compute. discriminate.
Qed.
Print Assumptions C16_squeeze_refuted.
