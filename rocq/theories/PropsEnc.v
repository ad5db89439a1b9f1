(** C10, C14, C16 (second half), C17, C18, C20, C29, C31, C33: the output of
    the encoders.  [enc c v b d] is Append(b, v, flags, clrs, indentr) with the
    indenter at depth d. *)
From Coq Require Import Permutation Sorted.
From Verif Require Import Bytes Utf8Model ParseModel StringModel IntModel TokenModel EncModel SpecJson SpecString SpecTokens
  SpecRender SpecColor SpecEnc ParseFacts TokenFacts EncFacts RawFacts EncMain DocFacts EncExtra Unambig PropsParse PropsTokens PropsColor.

(** C33: for every clean value Append either prints exactly the document of
    the value with the reference printer of SpecRender.v, leaving the depth as
    it was, or the value has no document and Append returns an error. *)
Theorem C33_encode_spec_partial : forall c v b d,
  clean (e_sort c) (e_trust c) false v -> (e_clrs c = None \/ colors_clean v) ->
  (exists x, vdoc (e_html c) (e_sort c) (e_trust c) v x /\
     enc c v b d = ER (b ++ render (e_html c) (e_clrs c) (e_ind c) d x) d None) \/
  ((forall x, ~ vdoc (e_html c) (e_sort c) (e_trust c) v x) /\
     exists o d' e, enc c v b d = ER (b ++ o) d' (Some e)).
Proof.
  intros c v b d C K. pose proof (verdict_vok (e_html c) (e_sort c) (e_trust c) v C (enc_verdict (e_html c) (e_sort c) (e_trust c) v false C)) as V.
  assert (F : flags (e_html c) (e_sort c) (e_trust c) c) by (repeat split).
  rewrite (enc_app_only c v b d). destruct V as [(x & V & G)|(N & B)].
  - left. exists x. split; [exact V|]. rewrite (G c F K d). reflexivity.
  - right. split; [exact N|]. destruct (B c F K d) as (o & d' & e & E & _). rewrite E. cbn. eauto.
Qed.
Print Assumptions C33_encode_spec_partial.
Lemma demo_time : Forall time_char (bs "2026-01-02T03:04:05Z").
Proof. apply Forall_forall. intros x Hx. vm_compute in Hx. unfold time_char. intuition lia. Qed.
Lemma num_1e9 : number_lit (bs "1e9").
Proof.
  apply (number_intro [] [49] [] [101; 57]); [left; reflexivity|constructor; [lia|constructor]|constructor|].
  apply (exp_some 101 [] [57]); [left; reflexivity|left; reflexivity|]. split; [discriminate|chars].
Qed.
Lemma demo_clean sorted : clean sorted false false demo.
Proof.
  cbn [clean demo all map fold_right f_name]. split.
  - exists [], (match demo with GStruct fs => fs | _ => [] end). split; [reflexivity|]. split; [reflexivity|].
    cbn [demo]. repeat (apply Forall_cons; [cbn; auto|]). apply Forall_nil.
  - repeat match goal with
    | |- _ /\ _ => split
    | |- True => exact I
    | |- wf _ => chars
    end.
    + split; [chars|]. exists 50, [53]. split; [reflexivity|]. split; [lia|]. vm_compute. discriminate.
    + right. left. apply num_1e9.
    + split; [chars|]. left. destruct demo_raw as [a J]. exists a. exact J.
    + apply demo_time.
Qed.
Example C33_case : exists o, enc plain_cfg demo [] 0 = ER o 0 None /\ clean true false false demo.
Proof. eexists. split; [vm_compute; reflexivity|apply demo_clean]. Qed.
Example C33_fail_case : exists o d e, enc plain_cfg (GSlice (Some [GInt 1; GFloat FNaN])) [] 0 = ER o d (Some e) /\
  clean true false false (GSlice (Some [GInt 1; GFloat FNaN])).
Proof. eexists _, _, _. split; [vm_compute; reflexivity|cbn; auto]. Qed.

(** C10: without colors and with whitespace indentation, successful output of
    a clean value is one JSON value, of the tree of its document. *)
Theorem C10_valid_json_partial : forall c v b d o d', e_clrs c = None -> ind_all ws (e_ind c) ->
  clean (e_sort c) (e_trust c) false v -> enc c v b d = ER o d' None ->
  exists out a, o = b ++ out /\ jvalue out a /\ Valid out = true.
Proof.
  intros c v b d o d' C I L E. destruct (C33_encode_spec_partial c v b d L (or_introl C)) as [(x & V & H)|(_ & o' & d1 & e & H)]; [|congruence].
  rewrite H in E. injection E as <- <-. rewrite C. pose proof (render_jvalue (e_html c) (e_ind c) I x (vdoc_ok _ _ _ _ _ _ L V) d) as J.
  eexists _, _. split; [reflexivity|]. split; [exact J|]. 
  apply C01_valid_iff_grammar; [eapply (proj1 jvalue_wf), J|]. eexists. apply jvalue_jtext, J.
Qed.
Print Assumptions C10_valid_json_partial.
Example C10_case : exists o, enc ind_cfg demo [] 0 = ER o 0 None /\ Valid o = true /\ clean true false false demo /\ ind_all ws (e_ind ind_cfg).
Proof.
  eexists. split; [vm_compute; reflexivity|]. split; [vm_compute; reflexivity|]. split; [apply demo_clean|]. split; [constructor|]. repeat constructor; auto.
Qed.
(** The full statement fails: a Number is checked only at its front, a nil
    embedded pointer after a written field leaves a comma, an unsorted
    map[string]RawMessage drops the error, a nil TextMarshaler key is null. *)
Definition unsorted_cfg : cfg := Cfg true false false None None std0.
Theorem C10_valid_json_refuted :
  (exists o, enc plain_cfg (GNumber (bs "12abc")) [] 0 = ER o 0 None /\ Valid o = false) /\
  (exists o, enc plain_cfg (GStruct [(FH (bs "A") false false, GInt 1); (FH (bs "B") false false, GEmbPtr None)]) [] 0 = ER o 0 None /\ Valid o = false) /\
  (exists o, enc unsorted_cfg (GMapSR (Some [(bs "k", Some (bs "x"))])) [] 0 = ER o 0 None /\ Valid o = false) /\
  (exists o, enc plain_cfg (GMap (Some [(KNil, GInt 1)])) [] 0 = ER o 0 None /\ Valid o = false).
Proof. split; [|split; [|split]]; (eexists; split; [vm_compute; reflexivity|vm_compute; reflexivity]). Qed.
Print Assumptions C10_valid_json_refuted.

(** C14: with colors, the output is the reference printer's: every token its
    color, the text, the reset; punctuation by its own field or Punc. *)
Theorem C14_token_colors_partial : forall c k v b d o d', e_clrs c = Some k ->
  clean (e_sort c) (e_trust c) false v -> colors_clean v -> enc c v b d = ER o d' None ->
  exists x, vdoc (e_html c) (e_sort c) (e_trust c) v x /\ o = b ++ render (e_html c) (Some k) (e_ind c) d x.
Proof.
  intros c k v b d o d' K C CC E. destruct (C33_encode_spec_partial c v b d C (or_intror CC)) as [(x & V & H)|(_ & o' & d1 & e & H)]; [|congruence].
  exists x. split; [exact V|]. rewrite H, K in E. congruence.
Qed.
Print Assumptions C14_token_colors_partial.
Lemma demo_colors : colors_clean demo.
Proof.
  cbn [colors_clean demo all map fold_right raw_colors]. repeat split. intros a J.
  assert (P : exists a', jvalue (bs "[1,{""k"":null}]") a' /\ no_empty_in_array a').
  { exists (JArr [JNum (bs "1"); JObj [(bs """k""", JNull)]]). split; [|cbn; intuition discriminate].
    apply (V_arr (bs "1,{""k"":null}")). apply (E_cons [] (bs "1") _ [] (bs "{""k"":null}")); try constructor.
    - apply (number_intro [] (bs "1") [] []); [auto| |constructor|constructor]. apply (int_pos 49 []); [lia|constructor].
    - apply (E_one [] (bs "{""k"":null}") _ []); [constructor| |constructor].
      apply (V_obj (bs """k"":null")). apply M_one. apply (M_intro [] (bs """k""") [] [] (bs "null") _ []); try constructor.
      exists (bs "k"). split; [reflexivity|]. apply (sb_char 107); [lia|lia|lia|constructor]. }
  destruct P as (a' & J' & N). rewrite (jtext_unique _ a a' J (jvalue_jtext _ _ J')). exact N.
Qed.
Example C14_case : exists o, enc (color_cfg default_colors) demo [] 0 = ER o 0 None /\ clean true false false demo /\ colors_clean demo.
Proof. eexists. split; [vm_compute; reflexivity|]. split; [apply demo_clean|apply demo_colors]. Qed.
(** The full statement fails: a nil []byte gets two colors and two resets, and
    an array element after an empty object in a raw message the key color. *)
Theorem C14_token_colors_refuted :
  (exists o, enc (color_cfg default_colors) (GBytes None) [] 0 = ER o 0 None /\
     o = c_bytes default_colors ++ (c_null default_colors ++ bs "null" ++ reset) ++ reset) /\
  (exists o, enc (color_cfg default_colors) (GRaw (Some (bs "[{},1]"))) [] 0 = ER o 0 None /\
     exists x y, o = x ++ (c_key default_colors ++ bs "1" ++ reset) ++ y).
Proof.
  split.
  - eexists. split; [vm_compute; reflexivity|]. reflexivity.
  - eexists. split; [vm_compute; reflexivity|].
    exists (lbrack (Some default_colors) ++ lbrace (Some default_colors) ++ rbrace (Some default_colors) ++ comma (Some default_colors)), (rbrack (Some default_colors)).
    reflexivity.
Qed.
Print Assumptions C14_token_colors_refuted.

(** C16, second half: indented output is the standard library's Indent of the
    compact output. *)
Theorem C16_std_indent_partial : forall c v prefix indent p d0 d1,
  e_clrs c = None -> e_ind c = Some (Indenter false prefix indent) ->
  clean (e_sort c) (e_trust c) false v -> std_layout v ->
  enc (no_indent c) v [] d0 = ER p d1 None ->
  enc c v [] 0 = ER (std_indent prefix indent p) 0 None.
Proof.
  intros c v prefix indent p d0 d1 C I L S E.
  pose proof (verdict_vok (e_html c) (e_sort c) (e_trust c) v L (enc_verdict (e_html c) (e_sort c) (e_trust c) v false L)) as V.
  destruct V as [(x & V & G)|(N & B)].
  - rewrite (G (no_indent c)) in E by (try (repeat split); left; exact C). injection E as <- <-.
    rewrite (G c) by (try (repeat split); left; exact C). f_equal. unfold R. cbn [no_indent e_html e_clrs e_ind]. rewrite C, I.
    rewrite (render_no_ind _ _ d0 0), std_indent_render; [reflexivity|eapply vdoc_ok; eassumption|eapply vdoc_std; eassumption].
  - destruct (B (no_indent c) ltac:(repeat split) (or_introl C) d0) as (o & d' & e & E' & _). congruence.
Qed.
Print Assumptions C16_std_indent_partial.
Example C16_std_indent_case : exists p, enc (no_indent ind_cfg) demo [] 0 = ER p 0 None /\
  std_indent [] [32; 32] p <> p /\ enc ind_cfg demo [] 0 = ER (std_indent [] [32; 32] p) 0 None /\
  clean true false false demo /\ std_layout demo.
Proof.
  eexists. split; [vm_compute; reflexivity|]. split; [vm_compute; discriminate|]. split; [vm_compute; reflexivity|]. split; [apply demo_clean|].
  cbn. repeat split. discriminate.
Qed.
(** It fails for a struct that writes no field: "{", newline, "}" instead of
    "{}". *)
Theorem C16_std_indent_refuted : exists v o p, clean true false false v /\
  enc ind_cfg v [] 0 = ER o 0 None /\ enc (no_indent ind_cfg) v [] 0 = ER p 0 None /\ o <> std_indent [] [32; 32] p.
Proof.
  exists (GStruct [(FH (bs "A") true true, GInt 0)]). eexists _, _. split.
  - cbn. split; [|repeat split; chars]. exists [], [(FH (bs "A") true true, GInt 0)]. repeat split. constructor; [cbn; auto|constructor].
  - split; [vm_compute; reflexivity|]. split; [vm_compute; reflexivity|]. vm_compute. discriminate.
Qed.
Print Assumptions C16_std_indent_refuted.

(** C17: a successful Append leaves the depth of the indenter as it was, for
    every value Go types can give (trusted raw messages being valid). *)
Theorem C17_depth_restored_partial : forall c v b d o d', shaped (e_trust c) false v ->
  enc c v b d = ER o d' None -> d' = d.
Proof. intros c v b d o d' S E. apply (enc_keeps c v false S) in E. apply (proj1 E). reflexivity. Qed.
Print Assumptions C17_depth_restored_partial.
Example C17_case : exists o, enc ind_cfg demo [] 0 = ER o 0 None /\ shaped false false demo.
Proof. eexists. split; [vm_compute; reflexivity|]. cbn. repeat split. - chars. - left. reflexivity. Qed.
(** It is not restored when Append fails inside an array, or when a trusted
    message is cut short; the next output is indented too much. *)
Theorem C17_depth_restored_refuted :
  (exists v o e, enc ind_cfg v [] 0 = ER o 1 (Some e) /\
     enc ind_cfg (GArray [GInt 1]) [] 1 <> enc ind_cfg (GArray [GInt 1]) [] 0) /\
  (exists s o, enc (Cfg false true true None (e_ind ind_cfg) std0) (GRaw (Some s)) [] 0 = ER o 1 None).
Proof.
  split.
  - exists (GArray [GUnsupported]). eexists _, _. split; [vm_compute; reflexivity|]. vm_compute. discriminate.
  - exists (bs "[1"). eexists. vm_compute. reflexivity.
Qed.
Print Assumptions C17_depth_restored_refuted.

(** C18: with SortMapKeys the result of Append (output, depth and error) is
    the same for every iteration order of the maps in the value. *)
Theorem C18_order_irrelevant : forall c v v' b d, e_sort c = true -> reorder v v' -> enc c v b d = enc c v' b d.
Proof. intros c v v' b d S H. apply reorder_enc; assumption. Qed.
Print Assumptions C18_order_irrelevant.
(** C18: and the members of every kind of map are written in ascending order
    of the keys (as the map's elements are clean values, this holds at every
    level). *)
Theorem C18_keys_ascending : forall c (m : list (mkey * gval)) b d o d', e_sort c = true -> e_clrs c = None \/ colors_clean (GMap (Some m)) ->
  clean true (e_trust c) false (GMap (Some m)) -> enc c (GMap (Some m)) b d = ER o d' None ->
  exists m' xs, Permutation m m' /\ StronglySorted (fun x y => bytes_ltb (key_text (fst y)) (key_text (fst x)) = false) m' /\
    map (fun x => snd (fst x)) xs = map (fun e => json_string (e_html c) (key_text (fst e))) m' /\
    o = b ++ render (e_html c) (e_clrs c) (e_ind c) d (DObj ONormal xs).
Proof.
  intros c m b d o d' S K C E. rewrite <- S in C. destruct (C33_encode_spec_partial c _ b d C K) as [(x & V & H)|(_ & o' & d1 & e & H)]; [|congruence].
  rewrite H in E. injection E as <- <-. rewrite S in V.
  assert (X : exists m' xs, x = DObj ONormal xs /\ in_order true (fun e => key_text (fst e)) m m' /\
    Forall2 (fun e x => kdoc (e_html c) (fst e) (fst (fst x)) (snd (fst x))) m' xs).
  { inversion V; subst. eexists _, _. split; [reflexivity|]. split; [eassumption|]. eapply Forall2_imp; [|eassumption]. cbv beta. intros a y [Y _]. exact Y. }
  destruct X as (m' & xs & -> & [P A] & F). exists m', xs. split; [exact P|]. split; [exact A|]. split; [|reflexivity].
  clear - F. induction F as [|e x m' xs Hk F IH]; [reflexivity|]. cbn [map]. rewrite IH. f_equal. destruct Hk; reflexivity.
Qed.
Print Assumptions C18_keys_ascending.
Theorem C18_keys_ascending_mapsi : forall c (m : list (bytes * gval)) b d o d', e_sort c = true -> e_clrs c = None \/ colors_clean (GMapSI (Some m)) ->
  clean true (e_trust c) false (GMapSI (Some m)) -> enc c (GMapSI (Some m)) b d = ER o d' None ->
  exists m' xs, Permutation m m' /\ StronglySorted (fun x y => bytes_ltb (fst y) (fst x) = false) m' /\
    map (fun x => snd (fst x)) xs = map (fun e => json_string (e_html c) (fst e)) m' /\
    o = b ++ render (e_html c) (e_clrs c) (e_ind c) d (DObj ONormal xs).
Proof.
  intros c m b d o d' S K C E. rewrite <- S in C. destruct (C33_encode_spec_partial c _ b d C K) as [(x & V & H)|(_ & o' & d1 & e & H)]; [|congruence].
  rewrite H in E. injection E as <- <-. rewrite S in V.
  assert (X : exists m' xs, x = DObj ONormal xs /\ in_order true fst m m' /\
    Forall2 (fun e x => fst x = (TKey, json_string (e_html c) (fst e))) m' xs).
  { inversion V; subst. eexists _, _. split; [reflexivity|]. split; [eassumption|]. eapply Forall2_imp; [|eassumption]. cbv beta. intros a y [Y _]. exact Y. }
  destruct X as (m' & xs & -> & [P A] & F). exists m', xs. split; [exact P|]. split; [exact A|]. split; [|reflexivity].
  clear - F. induction F as [|e x m' xs Hk F IH]; [reflexivity|]. cbn [map]. rewrite IH, Hk. reflexivity.
Qed.
Print Assumptions C18_keys_ascending_mapsi.
Theorem C18_keys_ascending_mapsr : forall c (m : list (bytes * option bytes)) b d o d', e_sort c = true -> e_clrs c = None \/ colors_clean (GMapSR (Some m)) ->
  clean true (e_trust c) false (GMapSR (Some m)) -> enc c (GMapSR (Some m)) b d = ER o d' None ->
  exists m' xs, Permutation m m' /\ StronglySorted (fun x y => bytes_ltb (fst y) (fst x) = false) m' /\
    map (fun x => snd (fst x)) xs = map (fun e => json_string (e_html c) (fst e)) m' /\
    o = b ++ render (e_html c) (e_clrs c) (e_ind c) d (DObj ONormal xs).
Proof.
  intros c m b d o d' S K C E. rewrite <- S in C. destruct (C33_encode_spec_partial c _ b d C K) as [(x & V & H)|(_ & o' & d1 & e & H)]; [|congruence].
  rewrite H in E. injection E as <- <-. rewrite S in V.
  assert (X : exists m' xs, x = DObj ONormal xs /\ in_order true fst m m' /\
    Forall2 (fun e x => fst x = (TKey, json_string (e_html c) (fst e))) m' xs).
  { inversion V; subst. eexists _, _. split; [reflexivity|]. split; [eassumption|]. eapply Forall2_imp; [|eassumption]. cbv beta. intros a y [Y _]. exact Y. }
  destruct X as (m' & xs & -> & [P A] & F). exists m', xs. split; [exact P|]. split; [exact A|]. split; [|reflexivity].
  clear - F. induction F as [|e x m' xs Hk F IH]; [reflexivity|]. cbn [map]. rewrite IH, Hk. reflexivity.
Qed.
Print Assumptions C18_keys_ascending_mapsr.
Example C18_case : exists o,
  let v := GMapSI (Some [(bs "b", GInt 1); (bs "a", GMap (Some [(KInt 2, GNil); (KInt 10, GNil)]))]) in
  let v' := GMapSI (Some [(bs "a", GMap (Some [(KInt 10, GNil); (KInt 2, GNil)])); (bs "b", GInt 1)]) in
  reorder v v' /\ v <> v' /\ clean true false false v /\ enc plain_cfg v [] 0 = ER o 0 None /\ o = bs "{""a"":{""10"":null,""2"":null},""b"":1}".
Proof.
  eexists. cbv zeta. split.
  - eapply ro_mapsi.
    + cbn. constructor; [cbn; intuition discriminate|]. constructor; [cbn; tauto|constructor].
    + apply perm_swap.
    + constructor; [split; [reflexivity|]|constructor; [split; [reflexivity|apply ro_refl]|constructor]]. cbn [snd].
      eapply ro_map; [vm_compute; constructor; [cbn; intuition discriminate|constructor; [cbn; tauto|constructor]]|apply perm_swap|].
      constructor; [split; [reflexivity|apply ro_refl]|]. constructor; [split; [reflexivity|apply ro_refl]|constructor].
  - split; [discriminate|]. split; [cbn; repeat split; chars|]. split; vm_compute; reflexivity.
Qed.

(** C20, without trust: success means that the message begins with a JSON
    value, which is what is written; the message is rejected only if it does
    not begin with a JSON value that ends there. *)
Definition goes_on (r : bytes) : Prop := match r with [] => False | c :: _ => num_cont c = true end.
Theorem C20_untrusted_partial : forall c s b d, wf s -> e_trust c = false ->
  (exists v r a, s = v ++ r /\ jvalue v a /\ enc c (GRaw (Some s)) b d = enc c (GRaw (Some v)) b d /\
     exists o, enc c (GRaw (Some s)) b d = ER o d None) \/
  ((forall v r a, s = v ++ r -> jvalue v a -> goes_on r) /\ enc c (GRaw (Some s)) b d = ER b d (Some EUnsupportedValue)).
Proof.
  intros c s b d W T. cbn [enc]. destruct (parseValue s) as [v r|r e] eqn:P.
  - left. pose proof (parseValue_sound s v r W P) as [E [a J]]. exists v, r, a. split; [exact E|]. split; [exact J|].
    pose proof (parseValue_complete v a [] J I) as P'. rewrite app_nil_r in P'.
    assert (Wv : wf v) by (subst s; apply Forall_app in W; apply W). split.
    + unfold encode_raw. rewrite T, P, P'. reflexivity.
    + rewrite ao_raw. unfold encode_raw. rewrite T, P. rewrite (raw_tokens_text c v a d Wv (jvalue_jtext v a J)). cbn. eauto.
  - right. split.
    + intros v r' a E J. subst s. destruct r' as [|x r']; [|cbn; destruct (num_cont x) eqn:X; [reflexivity|]];
        (rewrite (parseValue_complete v a _ J) in P; [discriminate|]); [exact I|exact X].
    + unfold encode_raw. rewrite T, P. reflexivity.
Qed.
Print Assumptions C20_untrusted_partial.
(** C20, with trust: a message on which the Tokenizer reports an error is
    written as it is (no HTML escaping, no indentation). *)
Theorem C20_trusted_partial : forall c s l e b d, wf s -> e_trust c = true -> e_html c = false ->
  match e_ind c with None => True | Some i => i_disabled i = true end ->
  token_run s l (Some e) -> exists d', enc c (GRaw (Some s)) b d = ER (b ++ s) d' None.
Proof.
  intros c s l e b d W T H I (t1 & t2 & S & N & E). cbn [enc].
  destruct (raw_trusted_error c s l t1 t2 e W T S N E b d) as (d' & X). exists d'. rewrite X. f_equal.
  unfold append_raw_verbatim. rewrite H. destruct (e_ind c) as [i|]; [rewrite I|]; reflexivity.
Qed.
Print Assumptions C20_trusted_partial.
Definition trust_cfg : cfg := Cfg false true true None None std0.
Example C20_trusted_case : exists l e, token_run (bs "{""a"":tru}") l (Some e) /\
  enc trust_cfg (GRaw (Some (bs "{""a"":tru}"))) [] 0 = ER (bs "{""a"":tru}") 0 None.
Proof.
  eexists _, _. split; [|vm_compute; reflexivity].
  eexists _, _. split; [do 3 (econstructor; [vm_compute; reflexivity|]); constructor|].
  split; [vm_compute; reflexivity|reflexivity].
Qed.
Example C20_untrusted_case :
  enc plain_cfg (GRaw (Some (bs "[1,]"))) [] 0 = ER [] 0 (Some EUnsupportedValue) /\
  enc plain_cfg (GRaw (Some (bs "[1]"))) [] 0 = ER (bs "[1]") 0 None.
Proof. split; vm_compute; reflexivity. Qed.
(** The full statement fails: bytes after the value are dropped without trust,
    and with trust a mismatched bracket ends the output. *)
Theorem C20_refuted :
  (exists s o, Valid s = false /\ enc plain_cfg (GRaw (Some s)) [] 0 = ER o 0 None) /\
  (exists s o, Valid s = false /\ enc trust_cfg (GRaw (Some s)) [] 0 = ER o 0 None /\ o <> s) /\
  (exists s, enc trust_cfg (GRaw (Some s)) [] 0 = EPanic).
Proof.
  split; [|split].
  - exists (bs "1 2"). eexists. split; vm_compute; reflexivity.
  - exists (bs "[1}"). eexists. split; [vm_compute; reflexivity|]. split; [vm_compute; reflexivity|discriminate].
  - exists (bs ","). vm_compute. reflexivity.
Qed.
Print Assumptions C20_refuted.

(** C29: Append(b, x) keeps b and adds what Append(nil, x) gives, with the same
    outcome, for every value and configuration. *)
Theorem C29_append_extends : forall c v b d, enc c v b d =
  match enc c v [] d with ER o d' e => ER (b ++ o) d' e | EPanic => EPanic end.
Proof. intros c v b d. rewrite (enc_app_only c v b d). reflexivity. Qed.
Print Assumptions C29_append_extends.
(** Also when b ends like an exponent the encoder would clean up. *)
Example C29_case : enc plain_cfg (GInt 9) (bs "e-0") 0 = ER (bs "e-09") 0 None /\
  enc plain_cfg (GFloat (FFin false (bs "1") (-8))) (bs "1e-0") 0 = ER (bs "1e-01e-9") 0 None.
Proof. split; vm_compute; reflexivity. Qed.

(** C31: fields of nil embedded pointers are left out, as long as they come
    before every field that is written. *)
Theorem C31_nil_embedded_partial : forall c pre post b d, post <> [] ->
  Forall (fun hv => f_omitempty (fst hv) && f_empty (fst hv) = true \/ absent (snd hv) = true) pre ->
  enc c (GStruct (pre ++ post)) b d = enc c (GStruct post) b d.
Proof. intros c pre post b d N H. apply struct_lead; assumption. Qed.
Print Assumptions C31_nil_embedded_partial.
Example C31_case : enc plain_cfg (GStruct ([(FH (bs "A") false false, GEmbPtr None); (FH (bs "B") false false, GEmbPtr (Some (GEmbPtr None)))] ++
  [(FH (bs "C") false false, GInt 1)])) [] 0 = ER (bs "{""C"":1}") 0 None.
Proof. vm_compute. reflexivity. Qed.
(** It fails after a written field: the comma stays. *)
Theorem C31_nil_embedded_refuted : exists fs, filter emitted fs = [(FH (bs "A") false false, GInt 1)] /\
  enc plain_cfg (GStruct fs) [] 0 = ER (bs "{""A"":1,}") 0 None /\
  enc plain_cfg (GStruct (filter emitted fs)) [] 0 = ER (bs "{""A"":1}") 0 None.
Proof.
  exists [(FH (bs "A") false false, GInt 1); (FH (bs "B") false false, GEmbPtr None)]. repeat split; vm_compute; reflexivity.
Qed.
Print Assumptions C31_nil_embedded_refuted.
