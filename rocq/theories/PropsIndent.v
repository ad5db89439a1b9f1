(** C54: MarshalIndent. *)
From Verif Require Import Bytes Utf8Model ParseModel StringModel IntModel TokenModel EncModel IndentModel SpecJson SpecString SpecTokens
  SpecRender SpecColor SpecScan SpecEnc ParseFacts IntFacts TokenFacts EncFacts RawFacts EncMain TextFacts ColorFacts DocFacts EncExtra
  PropsParse PropsColor PropsEnc PropsLeaf.
Local Open Scope Z_scope.

(** The standard library's Indent on JSON texts with at most 10000 brackets open
    at once: the layout of [std_indent] (SpecColor.v).  PropsScan.v proves that
    the modelled library function does this (go_indents). *)
Definition indents (std : bytes -> bytes -> bytes -> option bytes) : Prop :=
  forall prefix indent s a, jvalue s a -> brackets a <= 10000 -> std prefix indent s = Some (std_indent prefix indent s).

(** A document with the same compact text whose indented text is the standard
    one. *)
Fixpoint norm (html : bool) (x : doc) : doc :=
  match x with
  | DTok k t => DTok k t
  | DQuote y => DTok TStr (json_string html (render html None None 0 y))
  | DArr l => DArr (map (norm html) l)
  | DObj q l => DObj (match l with [] => ONormal | _ => q end) (map (fun e => match e with (k, t, y) => (k, t, norm html y) end) l)
  end.
Lemma norm_text html x : forall d, render html None None d (norm html x) = render html None None d x.
Proof.
  induction x as [k t|x IH|l IH|q l IH] using doc_rect'; intros d; cbn [norm]; [reflexivity| | |].
  - cbn [render paint]. now rewrite (render_no_ind html None 0 d).
  - destruct l as [|y l]; [reflexivity|]. rewrite !render_arr. change (map (norm html) (y :: l)) with (norm html y :: map (norm html) l) at 1.
    cbv iota. f_equal. f_equal. unfold elems_text. apply f_equal. change (norm html y :: map (norm html) l) with (map (norm html) (y :: l)).
    rewrite map_map. apply map_ext_Forall. eapply Forall_impl; [|exact IH]. intros z Hz. now rewrite Hz.
  - destruct l as [|y l]; [destruct q; reflexivity|]. rewrite !render_obj. cbv beta iota.
    set (g := fun e : tkind * bytes * doc => match e with (k, t, z) => (k, t, norm html z) end).
    change (map g (y :: l)) with (g y :: map g l) at 1.
    cbv iota. f_equal. f_equal. unfold members_text. apply f_equal.
    rewrite map_map. apply map_ext_Forall. eapply Forall_impl; [|exact IH]. intros [[k t] z] Hz. cbn [snd] in Hz. unfold g. now rewrite Hz.
Qed.
Lemma norm_ok html x : doc_ok x -> doc_ok (norm html x).
Proof.
  induction x as [k t|x IH|l IH|q l IH] using doc_rect'; cbn [norm doc_ok]; intros H; [exact H| | |].
  - left. apply json_string_lit. eapply (proj1 jvalue_wf). eapply (render_jvalue html None I). exact H.
  - apply all_map in H. rewrite map_map. apply all_map. rewrite Forall_forall in *. auto.
  - apply all_map in H. rewrite map_map. apply all_map. rewrite Forall_forall in *. intros [[k t] y] Hy. specialize (H _ Hy). specialize (IH _ Hy). cbn in *. tauto.
Qed.
Lemma norm_std html x : doc_std (norm html x).
Proof.
  induction x as [k t|x IH|l IH|q l IH] using doc_rect'; cbn [norm doc_std]; try exact I.
  - rewrite map_map. apply all_map. rewrite Forall_forall in *. auto.
  - split; [destruct l; [reflexivity|discriminate]|]. rewrite map_map. apply all_map. rewrite Forall_forall in *.
    intros [[k t] y] Hy. exact (IH _ Hy).
Qed.
Lemma norm_ast html ind x : doc_ok x -> forall d d', dast html ind d (norm html x) = dast html None d' x.
Proof.
  induction x as [k t|x IH|l IH|q l IH] using doc_rect'; cbn [doc_ok]; intros O d d'; cbn [norm dast]; [reflexivity| | |].
  - rewrite (render_no_ind html None 0 d').
    assert (S : string_lit (json_string html (render html None None d' x))) by (apply json_string_lit; eapply (proj1 jvalue_wf), (render_jvalue html None I), O).
    destruct S as (b & -> & _). reflexivity.
  - f_equal. rewrite map_map. apply map_ext_Forall. apply all_map in O. rewrite Forall_forall in *. intros z Hz. apply IH; auto.
  - f_equal. rewrite map_map. apply map_ext_Forall. apply all_map in O. rewrite Forall_forall in *. intros [[k t] z] Hz.
    specialize (IH _ Hz). specialize (O _ Hz). cbn in IH, O. f_equal. apply IH, O.
Qed.

(** C54: MarshalIndent fails exactly when Marshal does, with its error and no
    bytes; otherwise, if no more than 10000 brackets are open at once in the text
    of Marshal, it returns this text in the layout of the standard Indent, which
    is JSON with the same tree. *)
Theorem C54_marshal_indent_partial : forall std v prefix indent, indents std -> clean true false false v ->
  (exists p a, marshal std v = Some (p, None) /\ jvalue p a /\
     (brackets a <= 10000 -> marshal_indent std v prefix indent = Some (std_indent prefix indent p, None)) /\
     (ws prefix -> ws indent -> jvalue (std_indent prefix indent p) a)) \/
  (exists e, marshal std v = Some ([], Some e) /\ marshal_indent std v prefix indent = Some ([], Some e)).
Proof.
  intros std v prefix indent ST C. unfold marshal_indent, marshal.
  destruct (C33_encode_spec_partial (marshal_cfg std) v [] 0 C (or_introl eq_refl)) as [(x & V & H)|(_ & o & d & e & H)].
  - left. rewrite H. assert (OK : doc_ok x) by (eapply vdoc_ok; [exact C|exact V]).
    exists (render true None None 0 x), (dast true None 0 x).
    assert (J : jvalue (render true None None 0 x) (dast true None 0 x)) by (apply render_jvalue; [exact I|exact OK]).
    split; [reflexivity|]. split; [exact J|]. split.
    + intros B. cbv beta iota. match goal with |- context [std prefix indent ?t] => change t with (render true None None 0 x) end. rewrite (ST prefix indent _ _ J B). reflexivity.
    + intros WP WI. rewrite <- (norm_text true x 0), std_indent_render; [|now apply norm_ok|apply norm_std].
      rewrite <- (norm_ast true (Some (Indenter false prefix indent)) x OK 0 0). apply render_jvalue; [split; assumption|now apply norm_ok].
  - right. exists e. rewrite H. split; reflexivity.
Qed.
Print Assumptions C54_marshal_indent_partial.

(** MarshalIndent and an Append (or Encode) with an Indenter agree on values
    whose structs all write a field and whose text has at most 10000 brackets open
    at once, unless prefix and indent are both empty. *)
Theorem C54_like_append_partial : forall std v prefix indent o, indents std -> clean true false false v -> std_layout v ->
  prefix ++ indent <> [] -> (forall p a, marshal std v = Some (p, None) -> jvalue p a -> brackets a <= 10000) ->
  (marshal_indent std v prefix indent = Some (o, None) <->
   enc (Cfg true true false None (Some (new_indenter prefix indent)) std) v [] 0 = ER o 0 None).
Proof.
  intros std v prefix indent o ST C L NE B.
  set (c := Cfg true true false None (Some (new_indenter prefix indent)) std).
  assert (I : e_ind c = Some (Indenter false prefix indent)) by (unfold c, new_indenter; cbn; destruct prefix, indent; [exfalso; apply NE; reflexivity|reflexivity..]).
  destruct (C54_marshal_indent_partial std v prefix indent ST C) as [(p & a & M & J & MI & _)|(e & M & MI)].
  - specialize (MI (B p a M J)). assert (E : exists d, enc (no_indent c) v [] 0 = ER p d None).
    { unfold marshal in M. change (no_indent c) with (marshal_cfg std). destruct (enc (marshal_cfg std) v [] 0) as [b d [e|]|]; inversion M; subst; eauto. }
    destruct E as [d E]. pose proof (C16_std_indent_partial c v prefix indent p 0 d eq_refl I C L E) as X.
    rewrite MI, X. split; intros H; inversion H; reflexivity.
  - rewrite MI. split; [discriminate|]. intros E. exfalso.
    destruct (C33_encode_spec_partial c v [] 0 C (or_introl eq_refl)) as [(x & V & H)|(_ & o' & d & e' & H)]; [|congruence].
    destruct (C33_encode_spec_partial (marshal_cfg std) v [] 0 C (or_introl eq_refl)) as [(x' & V' & H')|(NV & _)].
    + unfold marshal in M. rewrite H' in M. discriminate.
    + apply (NV x). exact V.
Qed.
Print Assumptions C54_like_append_partial.
(** A struct that writes no field is laid out differently; and with an empty
    prefix and an empty indent MarshalIndent still breaks lines, an Indenter
    does not. *)
Theorem C54_like_append_refuted : exists std, indents std /\
  (exists v o p, clean true false false v /\ marshal_indent std v [] [32; 32] = Some (o, None) /\
     enc (Cfg true true false None (Some (new_indenter [] [32; 32])) std) v [] 0 = ER p 0 None /\ o <> p) /\
  (exists v o p, clean true false false v /\ std_layout v /\ marshal_indent std v [] [] = Some (o, None) /\
     enc (Cfg true true false None (Some (new_indenter [] [])) std) v [] 0 = ER p 0 None /\ o <> p).
Proof.
  exists (fun p i s => Some (std_indent p i s)). split; [intros ? ? ? ? ? ?; reflexivity|]. split.
  - exists (GStruct [(FH (bs "A") true true, GInt 0)]). eexists _, _. split.
    + cbn. split; [|repeat split; chars]. exists [], [(FH (bs "A") true true, GInt 0)]. repeat split. constructor; [cbn; auto|constructor].
    + split; [vm_compute; reflexivity|]. split; [vm_compute; reflexivity|]. vm_compute. discriminate.
  - exists demo. eexists _, _. split; [apply demo_clean|]. split; [cbn; repeat split; discriminate|].
    split; [vm_compute; reflexivity|]. split; [vm_compute; reflexivity|]. vm_compute. discriminate.
Qed.
Print Assumptions C54_like_append_refuted.
(** With an indent that is not white space the output is not JSON; the code
    passes such strings on to the standard Indent. *)
Example C54_case : exists std o, indents std /\ clean true false false demo /\ std_layout demo /\ ws [9] /\
  marshal_indent std demo [] [9] = Some (o, None) /\ (100 < length o)%nat /\ In 10 o /\
  marshal_indent std (GSlice (Some [GInt 1; GFloat FNaN])) [] [9] = Some ([], Some EUnsupportedValue).
Proof.
  exists (fun p i s => Some (std_indent p i s)). eexists. split; [intros ? ? ? ? ? ?; reflexivity|]. split; [apply demo_clean|].
  split; [cbn; repeat split; discriminate|]. split; [constructor; [auto|constructor]|]. split; [vm_compute; reflexivity|].
  split; [vm_compute; lia|]. split; [vm_compute; tauto|vm_compute; reflexivity].
Qed.
(** For every value, also those of which Marshal writes malformed text (C10): with
    an Indent that rejects what is not JSON, success means that the text of
    Marshal is JSON and that the result is its layout. *)
Definition strict (std : bytes -> bytes -> bytes -> option bytes) : Prop :=
  forall prefix indent s t, wf s -> std prefix indent s = Some t -> Valid s = true.
Theorem C54_success_is_json std v prefix indent o : strict std -> marshal_indent std v prefix indent = Some (o, None) ->
  exists p, marshal std v = Some (p, None) /\ (wf p -> Valid p = true) /\ std prefix indent p = Some o.
Proof.
  intros ST. unfold marshal_indent. destruct (marshal std v) as [[p [e|]]|]; try discriminate.
  destruct (std prefix indent p) as [t|] eqn:E; [|discriminate]. intros X. injection X as <-. exists p. eauto 6.
Qed.
(** So MarshalIndent can fail where Marshal does not, and then returns the
    malformed text beside the error. *)
Definition checked_indent (p i s : bytes) : option bytes := if Valid s then Some (std_indent p i s) else None.
Lemma checked_indents : indents checked_indent.
Proof.
  intros p i s a J _. unfold checked_indent. replace (Valid s) with true; [reflexivity|]. symmetry. apply C01_valid_iff_grammar; [eapply (proj1 jvalue_wf), J|]. exists a. apply jvalue_jtext, J.
Qed.
Lemma checked_strict : strict checked_indent.
Proof. intros p i s t _. unfold checked_indent. destruct (Valid s); [reflexivity|discriminate]. Qed.
Theorem C54_error_with_bytes_refuted : exists v b, b <> [] /\ marshal checked_indent v = Some (b, None) /\
  forall prefix indent, marshal_indent checked_indent v prefix indent = Some (b, Some ESyntax).
Proof. exists (GNumber (bs "12abc")). eexists. split; [|split; [vm_compute; reflexivity|intros; vm_compute; reflexivity]]. discriminate. Qed.
Example C54_success_ex : strict checked_indent /\ exists o, marshal_indent checked_indent demo [] [9] = Some (o, None).
Proof. split; [exact checked_strict|]. eexists. vm_compute. reflexivity. Qed.
Print Assumptions C54_success_is_json.
Print Assumptions C54_error_with_bytes_refuted.
