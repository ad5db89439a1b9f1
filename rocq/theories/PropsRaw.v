(** C19 and C07 (whole outputs): raw messages, and HTML characters. *)
From Coq Require Import Permutation Sorted.
From Verif Require Import Bytes Utf8Model ParseModel StringModel IntModel TokenModel EncModel SpecJson SpecString SpecTokens
  SpecRender SpecColor SpecRaw ParseFacts TokenFacts EncFacts RawFacts EncMain EncRel TextFacts ColorFacts DocFacts RawText Unambig
  PropsParse PropsTokens PropsColor PropsEnc.

(** C19, first half: without colors and with whitespace indentation a valid
    raw message is always written, as one JSON value with the same tokens in
    the same order; with EscapeHTML its strings may be spelled differently but
    denote the same characters. *)
Theorem C19_tokens_kept : forall c s a b d, wf s -> raw_text (e_trust c) s a -> e_clrs c = None -> ind_all ws (e_ind c) ->
  exists out a', enc c (GRaw (Some s)) b d = ER (b ++ out) d None /\ jvalue out a' /\
    same_tree a a' /\ (e_html c = false -> a' = a).
Proof.
  intros c s a b d W H K I. pose proof (raw_text_ok _ _ _ H) as A.
  exists (R c d (jdoc (e_html c) a)), (esc_ast (e_html c) a).
  assert (E : enc c (GRaw (Some s)) [] d = ER (R c d (jdoc (e_html c) a)) d None).
  { change (enc c (GRaw (Some s)) [] d) with (encode_raw c (Some s) [] d). rewrite (encode_raw_good c s a d W H), raw_R_jdoc by (left; exact K). reflexivity. }
  split; [rewrite (enc_app_only c _ b d), E; reflexivity|]. split; [|split].
  - rewrite <- (dast_jdoc (e_html c) (e_ind c) a A d). unfold R. rewrite K. apply render_jvalue; [exact I|apply jdoc_ok, A].
  - apply esc_ast_same, A.
  - intros ->. apply esc_ast_false.
Qed.
Print Assumptions C19_tokens_kept.

(** C19, second half: it is laid out and colored exactly as the native value
    with the same tree; with colors only if no array contains an empty object. *)
Theorem C19_like_native_partial : forall c s a v b d, wf s -> raw_text (e_trust c) s a ->
  native (e_html c) (e_sort c) a v -> (e_clrs c = None \/ no_empty_in_array a) ->
  exists out, enc c (GRaw (Some s)) b d = ER (b ++ out) d None /\ enc c v b d = ER (b ++ out) d None.
Proof.
  intros c s a v b d W H N K. pose proof (raw_text_ok _ _ _ H) as A.
  destruct (native_vdoc (e_html c) (e_sort c) (e_trust c) a v A N) as (V & C & CC).
  exists (R c d (jdoc (e_html c) a)). split.
  - rewrite (enc_app_only c _ b d). change (enc c (GRaw (Some s)) [] d) with (encode_raw c (Some s) [] d).
    rewrite (encode_raw_good c s a d W H), raw_R_jdoc by exact K. reflexivity.
  - rewrite (enc_app_only c _ b d). pose proof (verdict_vok (e_html c) (e_sort c) (e_trust c) v C (enc_verdict (e_html c) (e_sort c) (e_trust c) v false C)) as X.
    assert (F : flags (e_html c) (e_sort c) (e_trust c) c) by (repeat split).
    destruct X as [(x & Vx & G)|(Nx & _)]; [|exfalso; eapply Nx, V].
    rewrite (G c F (or_intror CC) d). cbn [rpre]. rewrite (native_unique _ _ _ _ _ _ A N Vx). reflexivity.
Qed.
Print Assumptions C19_like_native_partial.
Lemma bare_string s : str_body s -> string_lit (34 :: s ++ [34]).
Proof. intros H. exists s. auto. Qed.
Definition raw_demo : bytes := bs "[""x"", {""k"" :true}]".
Definition raw_demo_tree : jast := JArr [JStr (bs """x"""); JObj [(bs """k""", JTrue)]].
Definition raw_demo_native : gval := GSlice (Some [GString (bs "x"); GMapSI (Some [(bs "k", GBool true)])]).
Lemma raw_demo_text : jvalue raw_demo raw_demo_tree.
Proof.
  apply (V_arr (bs """x"", {""k"" :true}")). apply (E_cons [] (bs """x""") _ [] (bs " {""k"" :true}")); [constructor| |constructor|].
  - apply V_str, (bare_string [120]). apply sb_char; [lia..|constructor].
  - apply (E_one [32] (bs "{""k"" :true}") _ []); [apply Forall_cons; [lia|constructor]| |constructor].
    apply (V_obj (bs """k"" :true")). apply M_one. apply (M_intro [] (bs """k""") [32] [] (bs "true") JTrue []); try (constructor; fail).
    + apply (bare_string [107]). apply sb_char; [lia..|constructor].
    + apply Forall_cons; [lia|constructor].
Qed.
Example C19_case : exists a v, wf raw_demo /\ raw_text false raw_demo a /\ native true true a v /\ no_empty_in_array a /\
  enc plain_cfg (GRaw (Some raw_demo)) [] 0 = ER (bs "[""x"",{""k"":true}]") 0 None.
Proof.
  exists raw_demo_tree, raw_demo_native. split; [chars|]. split; [exact raw_demo_text|]. split; [|split; [cbn; intuition discriminate|vm_compute; reflexivity]].
  apply nv_arr. apply Forall2_cons; [|apply Forall2_cons; [|apply Forall2_nil]].
  - apply nv_str; [chars|reflexivity].
  - apply nv_obj; [cbn; constructor; [cbn; tauto|constructor]|intros _; repeat constructor|].
    apply Forall2_cons; [|apply Forall2_nil]. cbn [fst snd]. split; [chars|]. split; [reflexivity|apply nv_true].
Qed.

(** With colors the claim fails: after an empty object inside an array the
    next element of a raw message is colored as a key. *)
Theorem C19_like_native_refuted : exists s a v o o', wf s /\ raw_text false s a /\ native true true a v /\
  enc (color_cfg default_colors) (GRaw (Some s)) [] 0 = ER o 0 None /\
  enc (color_cfg default_colors) v [] 0 = ER o' 0 None /\ o <> o'.
Proof.
  exists (bs "[{},true]"), (JArr [JObj []; JTrue]), (GSlice (Some [GMapSI (Some []); GBool true])). eexists _, _.
  split; [chars|]. split.
  - apply (V_arr (bs "{},true")). apply (E_cons [] (bs "{}") _ [] (bs "true")); try constructor; [apply (V_obj0 []); constructor|].
    apply (E_one [] (bs "true") _ []); constructor.
  - split; [apply nv_arr; repeat (apply Forall2_cons || apply Forall2_nil); [apply nv_obj; [constructor|intros _; constructor|constructor]|constructor]|].
    split; [vm_compute; reflexivity|]. split; [vm_compute; reflexivity|]. vm_compute. discriminate.
Qed.
Print Assumptions C19_like_native_refuted.

(** C07: with EscapeHTML, output contains no '<', '>' or '&' and no U+2028 or
    U+2029, if the configured colors and indentation contain none, Numbers
    contain none (see the refutation), and trusted raw messages are valid. *)
Theorem C07_output_html_free_partial : forall c v b d o d' e, e_html c = true ->
  match e_clrs c with None => True | Some k => Forall safe_piece (palette k) end -> ind_all safe_piece (e_ind c) ->
  leaves wf (raw_checked (e_trust c)) safe_piece safe_piece float_ok any True v ->
  enc c v b d = ER o d' e -> exists out, o = b ++ out /\ no_html out.
Proof.
  intros c v b d o d' e H K I L E. pose proof (html_rel c v H K I L d d eq_refl) as X. rewrite (enc_app_only c v b d) in E.
  destruct (enc c v [] d) as [o1 d1 e1|]; cbn in *; [|discriminate]. injection E as <- <- <-. exists o1. split; [reflexivity|apply X].
Qed.
Print Assumptions C07_output_html_free_partial.
Theorem C07_output_html_free_refuted :
  (exists o d, enc plain_cfg (GNumber (bs "1<")) [] 0 = ER o d None /\ ~ no_html o) /\
  (exists o d, enc (Cfg true true true None None std0) (GRaw (Some (bs "<"))) [] 0 = ER o d None /\ ~ no_html o).
Proof.
  split; eexists _, _; (split; [vm_compute; reflexivity|]); intros (H & _).
  - destruct (H [49] 60 [] eq_refl). congruence.
  - destruct (H [] 60 [] eq_refl). congruence.
Qed.
Print Assumptions C07_output_html_free_refuted.
Example C07_case : e_html (color_cfg default_colors) = true /\ Forall safe_piece (palette default_colors) /\
  leaves wf (raw_checked false) safe_piece safe_piece float_ok any True demo /\
  enc plain_cfg (GSlice (Some [GString (bs "<&>"); GRaw (Some (bs """<&>"""))])) [] 0 = ER (bs "[""\u003c\u0026\u003e"",""\u003c\u0026\u003e""]") 0 None.
Proof.
  assert (A : forall s, forallb (fun c => (0 <=? c) && (c <? 128) && negb (is_html c)) s = true -> safe_piece s).
  { intros s H. apply safe_ascii. rewrite forallb_forall in H. apply Forall_forall. intros c Hc. specialize (H c Hc).
    rewrite !andb_true_iff, Z.leb_le, Z.ltb_lt, negb_true_iff in H. tauto. }
  split; [reflexivity|]. split; [|split; [|vm_compute; reflexivity]].
  - cbn [palette]. repeat (apply Forall_cons; [apply A; vm_compute; reflexivity|]). apply Forall_nil.
  - cbn [leaves demo all map fold_right f_name raw_opt].
    repeat match goal with
    | |- _ /\ _ => split
    | |- True => exact I
    | |- wf _ => chars
    | |- safe_piece _ => apply A; vm_compute; reflexivity
    | |- any _ => exact I
    end.
    + split; [chars|]. exists 50, [53]. split; [reflexivity|]. split; [lia|]. vm_compute. discriminate.
    + split; [chars|left; reflexivity].
Qed.
