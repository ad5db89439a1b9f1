(** C30, C39, C40: color detection, the jc command, fatih colors. *)
From Verif Require Import Bytes ParseModel IntModel EncModel DecModel EncoderModel JcModel SpecJson SpecString SpecRender SpecColor SpecEnc SpecNum SpecDec SpecTrip SpecJc
  ParseFacts TokenFacts TextFacts EncRel EncFacts EncMain RawFacts TripFacts ExactFloat ColorFacts DecFacts PropsParse PropsColor PropsEnc PropsDec.
Local Open Scope Z_scope.

Lemma is_empty_spec s : is_empty s = true <-> s = [].
Proof. destruct s; cbn; split; congruence. Qed.
Lemma is_empty_false s : is_empty s = false <-> s <> [].
Proof. destruct s; cbn; split; congruence. Qed.
Lemma bytes_eqb_spec a b : bytes_eqb a b = true <-> a = b.
Proof. unfold bytes_eqb. destruct (list_eq_dec Z.eq_dec a b); split; congruence. Qed.

(** C30: IsColorTerminal is true exactly when colors are wanted. *)
Theorem C30_detection : forall e w, is_color_terminal e w = true <-> wants_color e (w = WFile true).
Proof.
  intros e w. unfold is_color_terminal, wants_color.
  destruct (is_empty (e (bs "NO_COLOR"))) eqn:N; cbn [negb]; [apply is_empty_spec in N|apply is_empty_false in N; intuition congruence].
  destruct (is_empty (e (bs "FORCE_COLOR"))) eqn:F; cbn [negb]; [apply is_empty_spec in F|apply is_empty_false in F; intuition congruence].
  destruct (bytes_eqb (e (bs "TERM")) (bs "dumb")) eqn:D; [apply bytes_eqb_spec in D; intuition congruence|].
  assert (D' : e (bs "TERM") <> bs "dumb") by (intros X; apply bytes_eqb_spec in X; congruence).
  destruct w as [|[|]|]; cbn [negb]; intuition congruence.
Qed.
Print Assumptions C30_detection.
(** C30 on Windows: the terminal is a console that processes escape sequences
    or can be made to; and then this is the mode it is left in, no bit of the
    mode being cleared. *)
Theorem C30_detection_windows : forall e w,
  fst (is_color_terminal_win e w) = true <->
  wants_color e (exists mode ok, w = WWFile (Some mode) ok /\ ((Z.testbit mode 0 = true /\ Z.testbit mode 2 = true) \/ ok = true)).
Proof.
  intros e w. unfold is_color_terminal_win, wants_color.
  destruct (is_empty (e (bs "NO_COLOR"))) eqn:N; cbn [negb fst]; [apply is_empty_spec in N|apply is_empty_false in N; intuition congruence].
  destruct (is_empty (e (bs "FORCE_COLOR"))) eqn:F; cbn [negb fst]; [apply is_empty_spec in F|apply is_empty_false in F; intuition congruence].
  destruct (bytes_eqb (e (bs "TERM")) (bs "dumb")) eqn:D; [apply bytes_eqb_spec in D; cbn [fst]; intuition congruence|].
  assert (D' : e (bs "TERM") <> bs "dumb") by (intros X; apply bytes_eqb_spec in X; congruence).
  assert (X : forall (b : bool) (P : Prop), (b = true <-> P) -> (b = true <-> e (bs "NO_COLOR") = [] /\ (e (bs "FORCE_COLOR") <> [] \/ e (bs "TERM") <> bs "dumb" /\ P))) by (intros; intuition congruence).
  apply X. clear X. destruct w as [|[mode|] ok|]; cbn [fst]; try (split; [discriminate|intros (m & k & Q & _); discriminate]).
  change (Z.lor enable_processed_output enable_virtual_terminal_processing) with 5.
  assert (Q : Z.land mode 5 = 5 <-> Z.testbit mode 0 = true /\ Z.testbit mode 2 = true).
  { split.
    - intros Q. split.
      + apply (f_equal (fun x => Z.testbit x 0)) in Q. rewrite Z.land_spec in Q. cbn [Z.testbit Z.odd] in *. apply andb_prop in Q. tauto.
      + apply (f_equal (fun x => Z.testbit x 2)) in Q. rewrite Z.land_spec in Q. change (Z.testbit 5 2) with true in Q. apply andb_prop in Q. tauto.
    - intros [A B]. apply Z.bits_inj'. intros n Hn. rewrite Z.land_spec.
      destruct (Z.eq_dec n 0) as [->|]; [rewrite A; reflexivity|]. destruct (Z.eq_dec n 2) as [->|]; [rewrite B; reflexivity|].
      replace (Z.testbit 5 n) with false; [apply andb_false_r|]. symmetry.
      destruct (Z.eq_dec n 1) as [->|]; [reflexivity|]. apply Z.bits_above_log2; [lia|]. change (Z.log2 5) with 2. lia. }
  destruct (Z.land mode 5 =? 5) eqn:L.
  - apply Z.eqb_eq, Q in L. cbn [fst]. split; [intros _; eauto 8|reflexivity].
  - assert (L' : ~ (Z.testbit mode 0 = true /\ Z.testbit mode 2 = true)) by (intros Y; apply Q, Z.eqb_eq in Y; congruence).
    destruct ok; cbn [fst]; (split; [intros; try discriminate; eauto 8|]); [reflexivity|intros (m & k & E & [Y|Y])]; inversion E; subst; tauto.
Qed.
Print Assumptions C30_detection_windows.
Theorem C30_windows_mode : forall e w m', snd (is_color_terminal_win e w) = Some m' ->
  exists mode, w = WWFile (Some mode) true /\ forall n, 0 <= n -> Z.testbit m' n = (Z.testbit mode n || (n =? 0) || (n =? 2))%bool.
Proof.
  intros e w m'. unfold is_color_terminal_win. repeat (match goal with |- context [if ?b then _ else _] => destruct b end; cbn [snd]; try discriminate).
  destruct w as [|[mode|] ok|]; cbn [snd]; try discriminate.
  change (Z.lor enable_processed_output enable_virtual_terminal_processing) with 5.
  destruct (Z.land mode 5 =? 5); [discriminate|]. destruct ok; [|discriminate]. cbn [snd]. intros E. injection E as <-. exists mode. split; [reflexivity|].
  intros n Hn. rewrite Z.lor_spec. rewrite <- orb_assoc. f_equal.
  destruct (Z.eq_dec n 0) as [->|]; [reflexivity|]. destruct (Z.eq_dec n 1) as [->|]; [reflexivity|]. destruct (Z.eq_dec n 2) as [->|]; [reflexivity|].
  rewrite Z.bits_above_log2; [|lia|change (Z.log2 5) with 2; lia]. destruct (n =? 0) eqn:A; [apply Z.eqb_eq in A; lia|]. destruct (n =? 2) eqn:B; [apply Z.eqb_eq in B; lia|reflexivity].
Qed.
Print Assumptions C30_windows_mode.
Definition env_of (l : list (bytes * bytes)) : env := fun k => match find (fun e => bytes_eqb (fst e) k) l with Some e => snd e | None => [] end.
Example C30_case :
  is_color_terminal (env_of []) (WFile true) = true /\ is_color_terminal (env_of []) (WFile false) = false /\
  is_color_terminal (env_of [(bs "TERM", bs "dumb")]) (WFile true) = false /\
  is_color_terminal (env_of [(bs "TERM", bs "dumb"); (bs "FORCE_COLOR", bs "1")]) WOther = true /\
  is_color_terminal (env_of [(bs "NO_COLOR", bs "1"); (bs "FORCE_COLOR", bs "1")]) (WFile true) = false /\
  is_color_terminal_win (env_of []) (WWFile (Some 1) true) = (true, Some 5) /\ is_color_terminal_win (env_of []) (WWFile (Some 1) false) = (false, None).
Proof. repeat split; vm_compute; reflexivity. Qed.

(** Decoded values are trees the encoder gives back. *)
Lemma jv_ind' (P : jv -> Prop) : P JVNull -> (forall b, P (JVBool b)) -> (forall f, P (JVFloat f)) -> (forall s, P (JVNumber s)) -> (forall s, P (JVString s)) ->
  (forall l, Forall P l -> P (JVArr l)) -> (forall m, Forall (fun e => P (snd e)) m -> P (JVMap m)) -> forall v, P v.
Proof.
  intros H1 H2 H3 H4 H5 H6 H7. fix IH 1. intros [|b|f|s|s|l|m]; [exact H1|apply H2|apply H3|apply H4|apply H5| |].
  - apply H6. induction l as [|x l IHl]; constructor; [apply IH|exact IHl].
  - apply H7. induction m as [|[k v] m IHm]; constructor; [apply IH|exact IHm].
Qed.
Lemma last_member_in l k a : last_member l k a -> exists lit, In (lit, a) l /\ valid_utf8 k.
Proof.
  intros (l1 & lit & l2 & -> & (body & cs & _ & _ & U) & _). exists lit. split; [apply in_or_app; right; left; reflexivity|]. exists cs. exact U.
Qed.
Lemma denotes_tree pf : forall v a, denotes (as_float pf) a v -> floats_good pf a ->
  go_tree (gv v) v /\ forall f, float_in f v -> parses pf f.
Proof.
  induction v as [|b|f|s|s|l IH|m IH] using jv_ind'; intros a D G; cbn [gv].
  - split; [constructor|intros f H; inversion H].
  - split; [constructor|intros f H; inversion H].
  - inversion D as [| | |s v (f' & E & Q) E1 E2| | |]; subst. injection Q as <-. destruct (G s (ni_num s)) as (f2 & E' & F & P).
    assert (f2 = f) by congruence. subst. split; [constructor; exact F|]. intros f0 H. inversion H; subst. exact P.
  - inversion D as [| | |s0 v (f' & E & Q) E1 E2| | |]; subst. discriminate.
  - inversion D as [| | |s0 v (f' & E & Q) E1 E2|lit t (body & cs & _ & _ & U) E1 E2| |]; subst; [discriminate|].
    split; [constructor; exists cs; exact U|intros f H; inversion H].
  - inversion D as [| | |s0 v (f' & E & Q) E1 E2| |la vs F E1 E2|]; subst; [discriminate|].
    assert (X : Forall (fun v => go_tree (gv v) v /\ forall f, float_in f v -> parses pf f) l).
    { assert (G' : Forall (floats_good pf) la) by (apply Forall_forall; intros x Hx s Hs; apply G; eapply ni_arr; eassumption).
      clear D G. revert la F G'. induction IH as [|v l Hv IH IHl]; intros la F G'; [constructor|].
      inversion F as [|x ? la' ? Dx F']; subst. inversion G'; subst. constructor; [eapply Hv; eassumption|eapply IHl; eassumption]. }
    split.
    + rewrite (map_ext _ (fun x => iface_of (gv x))) by (intros x; destruct (gv x); reflexivity).
      rewrite <- (map_map gv iface_of). constructor. clear - X. induction X as [|v l [H _] X IH]; constructor; assumption.
    + intros f H. inversion H as [|? v Hi Hf|]; subst. eapply Forall_forall in X; [|exact Hi]. apply X, Hf.
  - inversion D as [| | |s0 v (f' & E & Q) E1 E2| | |lo m0 N A B E1 E2]; subst; [discriminate|].
    assert (X : Forall (fun e => valid_utf8 (fst e) /\ go_tree (gv (snd e)) (snd e) /\ forall f, float_in f (snd e) -> parses pf f) m).
    { apply Forall_forall. intros [k v] Hi. cbn [fst snd]. destruct (A k v Hi) as (a & L & Da). destruct (last_member_in _ _ _ L) as (lit & Hl & U).
      split; [exact U|]. eapply Forall_forall in IH; [|exact Hi]. eapply IH; [exact Da|]. intros s Hs. apply G. eapply ni_obj; eassumption. }
    split.
    + constructor.
      * rewrite map_map. rewrite (map_ext _ fst); [exact N|]. intros [k v]. reflexivity.
      * clear - X. induction X as [|[k v] m (U & T & _) X IH]; cbn [map]; constructor; [auto|exact IH].
    + intros f H. inversion H as [| |? k v Hi Hf]; subst. eapply Forall_forall in X; [|exact Hi]. apply X, Hf.
Qed.

Lemma jsn_enc c v b d : enc c (jsn_gval v) b d = enc c (gv v) b d.
Proof. unfold jsn_gval. cbn [enc]. destruct (gv v); reflexivity. Qed.

Lemma tree_leaves trust un g v : go_tree_of un g v -> leaves wf (raw_checked trust) clear_text clear_text float_ok (fun _ => False) False g.
Proof.
  induction 1 as [un|un b|f F|n NL|un s V|un xs vs F|un m m' N F] using go_tree_ind'; cbn [leaves]; auto.
  - destruct f; cbn [finite] in F; cbn; auto.
  - split; (eapply Forall_impl; [|exact (number_chars n NL)]); intros c Hc; cbn in Hc; [unfold is_byte; lia|lia].
  - apply valid_utf8_wf, V.
  - rewrite map_map. apply all_map. apply Forall_forall. intros x Hx.
    induction F as [|g v xs vs [T IH] F IHF]; [destruct Hx|]. destruct Hx as [->|Hx]; [|auto].
    destruct x; cbn [iface_of leaves] in *; auto.
  - apply all_map. apply Forall_forall. intros [k x] Hx.
    clear N. induction F as [|e e' m m' (_ & U & _ & C) F IHF]; [destruct Hx|]. destruct Hx as [->|Hx]; [|auto].
    cbn [fst snd] in *. split; [apply valid_utf8_wf, U|exact C].
Qed.
Lemma tree_colors un g v : go_tree_of un g v -> colors_clean g.
Proof.
  induction 1 as [un|un b|f F|n NL|un s V|un xs vs F|un m m' N F] using go_tree_ind'; cbn [colors_clean]; auto.
  - rewrite map_map. apply all_map. apply Forall_forall. intros x Hx.
    induction F as [|g v xs vs [T IH] F IHF]; [destruct Hx|]. destruct Hx as [->|Hx]; [|auto].
    destruct x; cbn [iface_of colors_clean] in *; auto.
  - apply all_map. apply Forall_forall. intros [k x] Hx.
    clear N. induction F as [|e e' m m' (_ & U & _ & C) F IHF]; [destruct Hx|]. destruct Hx as [->|Hx]; [|auto].
    cbn [fst snd] in *. exact C.
Qed.

Definition jc_colors (f : jc_flags) (o : jc_os) : bool :=
  j_color f && is_color_terminal (os_env o) (WFile (if negb (is_empty (j_out f)) then os_file_term o else os_stdout_term o)).
Lemma jc_colors_spec f o : jc_colors f o = true <-> j_color f = true /\ wants_color (os_env o) (jc_terminal f o).
Proof.
  unfold jc_colors. rewrite andb_true_iff, C30_detection. unfold jc_terminal, wants_color.
  destruct (is_empty (j_out f)) eqn:J; cbn [negb]; [apply is_empty_spec in J|apply is_empty_false in J].
  - assert (X : WFile (os_stdout_term o) = WFile true <-> j_out f = [] /\ os_stdout_term o = true \/ j_out f <> [] /\ os_file_term o = true)
      by (split; [intros X; injection X; auto|intros [[_ ->]|[Y _]]; [reflexivity|contradiction]]). rewrite X. tauto.
  - assert (X : WFile (os_file_term o) = WFile true <-> j_out f = [] /\ os_stdout_term o = true \/ j_out f <> [] /\ os_file_term o = true)
      by (split; [intros X; injection X; auto|intros [[Y _]|[_ ->]]; [contradiction|reflexivity]]). rewrite X. tauto.
Qed.
Definition jc_cfg (std : bytes -> bytes -> bytes -> option bytes) (f : jc_flags) (clr : bool) : cfg :=
  Cfg true true false (if clr then Some default_colors else None) (if j_pretty f then Some (new_indenter [] (bs "  ")) else None) std.
Lemma jc_input_ready f o input : jc_ready f o input -> jc_input f o = inl input /\ (if negb (is_empty (j_out f)) then os_create o else None) = None.
Proof.
  intros [I O]. unfold jc_input. split.
  - destruct I as [[I E]|(I & A & B & C)]; [apply is_empty_false in I|apply is_empty_spec in I]; rewrite I; cbn [negb]; [exact E|rewrite A, B; exact C].
  - destruct O as [O|O]; [rewrite O; reflexivity|]. destruct (negb _); auto.
Qed.
Lemma jc_runs pf std f o input v out : jc_ready f o input -> unmarshal_with (decode_interface false pf) input JVNull = (None, v) ->
  enc (jc_cfg std f (jc_colors f o)) (gv v) [] 0 = ER out 0 None ->
  jr_err (do_main pf std f o) = None /\ jc_written (do_main pf std f o) = [out ++ [10]] /\
  (j_out f = [] -> jr_file (do_main pf std f o) = []) /\ (j_out f <> [] -> jr_stdout (do_main pf std f o) = []).
Proof.
  intros R U E. destruct (jc_input_ready _ _ _ R) as [I O]. unfold do_main. rewrite I, U, O.
  fold (jc_colors f o).
  assert (X : exists e, run std ((if jc_colors f o then [OSetColors (Some default_colors)] else []) ++
      (if j_pretty f then [OSetIndent [] (bs "  ")] else []) ++ [OEncode (jsn_gval v)]) new_encoder (World [os_write o] []) =
      Some ((if jc_colors f o then [None] else []) ++ (if j_pretty f then [None] else []) ++ [None], e, World [] [out ++ [10]])).
  { destruct (jc_colors f o), (j_pretty f) eqn:JP; cbn [app run step]; unfold encode_op, new_encoder; cbn [en_err en_depth en_flags en_clrs en_ind];
      unfold jc_cfg in E; rewrite JP in E; rewrite jsn_enc; unfold cfg_of; cbn [en_flags en_clrs en_ind];
      change (has_flag (Z.lor fEscapeHTML fSortMapKeys) fEscapeHTML) with true; change (has_flag (Z.lor fEscapeHTML fSortMapKeys) fSortMapKeys) with true;
      change (has_flag (Z.lor fEscapeHTML fSortMapKeys) fTrustRawMessage) with false; rewrite E; cbn [write w_results]; eauto. }
  destruct X as (e & X). rewrite X. cbn [jr_err jr_stdout jr_file w_log jc_written].
  split; [destruct (jc_colors f o), (j_pretty f); reflexivity|].
  destruct (is_empty (j_out f)) eqn:J; cbn [negb]; [apply is_empty_spec in J|apply is_empty_false in J]; repeat split; auto; try congruence.
Qed.

Lemma jvalue_esc : (forall s a, jvalue s a -> esc_free s) /\ (forall s l, jelems s l -> esc_free s) /\ (forall s l, jmembers s l -> esc_free s) /\ (forall s m, jmember s m -> esc_free s).
Proof.
  assert (B : forall s, lit_token s -> esc_free s) by (intros s H; apply lit_okc, H).
  assert (W : forall s, ws s -> esc_free s) by (intros s H; eapply Forall_impl; [|exact H]; cbn; intros; lia).
  assert (C : forall c, c <> 27 -> esc_free [c]) by (intros c H; repeat constructor; exact H).
  assert (A : forall a b, esc_free (a ++ b) <-> esc_free a /\ esc_free b) by (intros; apply Forall_app).
  apply json_mutind; intros; repeat match goal with
    | |- esc_free (?a ++ ?b) => apply A; split
    | |- esc_free (?c :: ?s) => change (esc_free ([c] ++ s)); apply A; split; [apply C; lia|]
    end; try apply Forall_nil; auto; try (apply B; unfold lit_token; auto 8).
Qed.

Lemma default_ansi : Forall ansi (palette default_colors).
Proof.
  unfold palette, default_colors. cbn [c_null c_bool c_number c_string c_key c_bytes c_time c_punc c_brackets c_braces c_comma c_colon c_textm].
  assert (N : forall p, Forall (fun c => c <> 109) p -> ansi (27 :: p ++ [109])) by (intros p H; apply (ansi_seq p []); [exact H|constructor]).
  apply Forall_cons; [apply (N [91; 50]); repeat constructor; discriminate|].
  apply Forall_cons; [apply (N [91; 49]); repeat constructor; discriminate|].
  apply Forall_cons; [apply (N [91; 51; 54]); repeat constructor; discriminate|].
  apply Forall_cons; [apply (N [91; 51; 50]); repeat constructor; discriminate|].
  apply Forall_cons; [apply (N [91; 51; 52; 59; 49]); repeat constructor; discriminate|].
  apply Forall_cons; [apply (N [91; 50]); repeat constructor; discriminate|].
  apply Forall_cons; [apply (N [91; 51; 50; 59; 50]); repeat constructor; discriminate|].
  do 5 (apply Forall_cons; [constructor|]).
  apply Forall_cons; [apply (N [91; 51; 50]); repeat constructor; discriminate|]. constructor.
Qed.

(** C39: on JSON input (whose numbers are in range) jc succeeds with one write
    to where it should; what it writes, without its color sequences, is a JSON
    value and a newline, and decodes to the value of the input. *)
Theorem C39_jc_preserves : forall pf std f o input a,
  jc_ready f o input -> jtext input a -> floats_good pf a ->
  exists line out b v v',
    jr_err (do_main pf std f o) = None /\
    jr_stdout (do_main pf std f o) = (if is_empty (j_out f) then [line] else []) /\
    jr_file (do_main pf std f o) = (if is_empty (j_out f) then [] else [line]) /\
    strip line = out ++ [10] /\ jvalue out b /\
    (~ (j_color f = true /\ wants_color (os_env o) (jc_terminal f o)) -> line = out ++ [10]) /\
    unmarshal_with (decode_interface false pf) input JVNull = (None, v) /\
    unmarshal_with (decode_interface false pf) out JVNull = (None, v') /\ jv_same v v'.
Proof.
  intros pf std f o input a R J G.
  destruct (C03_unmarshal_interface pf input a JVNull J) as (v & U & D). { intros s Hs. destruct (G s Hs) as (x & -> & _). discriminate. }
  destruct (denotes_tree pf v a D G) as [T P].
  assert (IW : ind_all ws (e_ind (jc_cfg std f false))).
  { unfold jc_cfg. cbn [e_ind]. destruct (j_pretty f); [|exact I]. cbn. split; [constructor|]. repeat constructor; auto. }
  destruct (C11_round_trip_partial pf (jc_cfg std f false) (gv v) v JVNull T P eq_refl IW) as (out & v' & E & U' & S).
  assert (JV : exists b, jvalue out b).
  { destruct (C10_valid_json_partial (jc_cfg std f false) (gv v) [] 0 out 0 eq_refl IW (tree_clean _ _ _ _ _ T) E) as (o2 & b & -> & JV & _). eauto. }
  destruct JV as (b & JV).
  assert (NE : strip (out ++ [10]) = out ++ [10]).
  { rewrite strip_text by (eapply (proj1 jvalue_esc), JV). reflexivity. }
  assert (L : exists line, enc (jc_cfg std f (jc_colors f o)) (gv v) [] 0 = ER line 0 None /\ strip (line ++ [10]) = out ++ [10] /\ (jc_colors f o = false -> line = out)).
  { destruct (jc_colors f o); [|eauto].
    assert (IE : ind_all esc_free (e_ind (jc_cfg std f true))).
    { unfold jc_cfg. cbn [e_ind]. destruct (j_pretty f); [|exact I]. cbn. split; [constructor|]. repeat constructor; discriminate. }
    pose proof (strip_rel (jc_cfg std f true) default_colors (gv v) eq_refl default_ansi IE (tree_leaves _ _ _ _ T) 0 0 eq_refl) as X.
    change (no_colors (jc_cfg std f true)) with (jc_cfg std f false) in X. rewrite E in X. unfold srel in X.
    destruct (enc (jc_cfg std f true) (gv v) [] 0) as [line d e|]; [|contradiction]. destruct X as (X & -> & ->). exists line. split; [reflexivity|]. split; [exact (X [10])|discriminate]. }
  destruct L as (line & EL & SL & PL). destruct (jc_runs pf std f o input v line R U EL) as (A1 & A2 & A3 & A4).
  exists (line ++ [10]), out, b, v, v'. split; [exact A1|]. unfold jc_written in A2.
  assert (X : jr_stdout (do_main pf std f o) = (if is_empty (j_out f) then [line ++ [10]] else []) /\ jr_file (do_main pf std f o) = (if is_empty (j_out f) then [] else [line ++ [10]])).
  { destruct (is_empty (j_out f)) eqn:Q; [apply is_empty_spec in Q; rewrite (A3 Q), app_nil_r in A2; rewrite (A3 Q), A2; auto|].
    apply is_empty_false in Q. rewrite (A4 Q) in A2. cbn [app] in A2. rewrite (A4 Q), A2. auto. }
  destruct X as [X1 X2]. split; [exact X1|]. split; [exact X2|]. split; [exact SL|]. split; [exact JV|]. split; [|auto].
  intros N. rewrite PL; [reflexivity|]. destruct (jc_colors f o) eqn:Q; [|reflexivity]. apply jc_colors_spec in Q. contradiction.
Qed.
Print Assumptions C39_jc_preserves.

(** ... with decimal floats that are parsed without rounding, for any JSON. *)
Lemma spand_digits s : Forall digit (fst (spand s)).
Proof. induction s as [|c s IH]; cbn [spand]; [constructor|]. destruct (isd c) eqn:D; [|constructor]. destruct (spand s). cbn [fst] in *. constructor; [|exact IH]. unfold isd in D. apply andb_prop in D. unfold digit. lia. Qed.
Lemma exact_total s : exists f, exact s = Some f /\ finite f /\ parses exact f.
Proof.
  unfold exact. destruct (x_sign s) as [neg s1]. pose proof (spand_digits s1) as H1. destruct (spand s1) as [i r]. cbn [fst] in H1.
  assert (H2 : Forall digit (fst (x_frac r))).
  { unfold x_frac. destruct r as [|c r]; [constructor|]. destruct (Z.eq_dec c 46) as [->|N]; [apply spand_digits|].
    destruct c as [|p|p]; try constructor. do 6 (destruct p as [p|p|]; try apply Forall_nil); try contradiction; apply spand_digits. }
  destruct (x_frac r) as [fr r2]. cbn [fst] in H2. eexists. split; [reflexivity|].
  assert (F : finite (norm neg (i ++ fr) (x_exp r2 - Z.of_nat (length fr)))).
  { unfold norm. destruct (drop0 (i ++ fr)) as [|c m] eqn:D; [exact I|]. cbn [finite]. rewrite <- D. apply norm_form; [apply Forall_app; auto|congruence]. }
  split; [exact F|apply exact_parses, F].
Qed.
Theorem C39_jc_preserves_exact : forall std f o input a,
  jc_ready f o input -> jtext input a ->
  exists line out v v', jr_err (do_main exact std f o) = None /\ jc_written (do_main exact std f o) = [line] /\ strip line = out ++ [10] /\
    unmarshal_with (decode_interface false exact) input JVNull = (None, v) /\
    unmarshal_with (decode_interface false exact) out JVNull = (None, v') /\ jv_same v v'.
Proof.
  intros std f o input a R J. destruct (C39_jc_preserves exact std f o input a R J) as (line & out & b & v & v' & A1 & A2 & A3 & A4 & _ & _ & A5).
  { intros s _. apply exact_total. }
  exists line, out, v, v'. split; [exact A1|]. split; [|auto]. unfold jc_written. rewrite A2, A3. destruct (is_empty (j_out f)); reflexivity.
Qed.
Print Assumptions C39_jc_preserves_exact.

(** C39: on anything that is not JSON, or has a number out of range, jc fails
    and writes nothing. *)
Theorem C39_jc_rejects : forall pf std f o input, wf input -> jc_ready f o input ->
  (forall a, ~ jtext input a) \/ (exists a s, jtext input a /\ number_in s a /\ pf s = None) ->
  jr_err (do_main pf std f o) <> None /\ jc_written (do_main pf std f o) = [].
Proof.
  intros pf std f o input W R H. destruct (jc_input_ready _ _ _ R) as [I O]. unfold do_main. rewrite I.
  destruct (C03_errors pf input JVNull W) as [E1 E2].
  assert (X : fst (unmarshal_with (decode_interface false pf) input JVNull) <> None).
  { destruct H as [H|(a & s & J & N & P)]; [rewrite (E1 H); discriminate|rewrite (E2 a s J N P); discriminate]. }
  destruct (unmarshal_with (decode_interface false pf) input JVNull) as [[e|] v]; cbn [fst] in X; [|congruence]. cbn. split; [discriminate|reflexivity].
Qed.
Print Assumptions C39_jc_rejects.

(** C30: unless -c is on and colors are wanted, jc writes no escape. *)
Theorem C30_jc_plain : forall pf std f o input a,
  jc_ready f o input -> jtext input a -> floats_good pf a ->
  ~ (j_color f = true /\ wants_color (os_env o) (jc_terminal f o)) ->
  Forall esc_free (jc_written (do_main pf std f o)).
Proof.
  intros pf std f o input a R J G N. destruct (C39_jc_preserves pf std f o input a R J G) as (line & out & b & v & v' & A1 & A2 & A3 & A4 & JV & PL & _).
  unfold jc_written. rewrite A2, A3, (PL N).
  assert (X : esc_free (out ++ [10])) by (apply Forall_app; split; [eapply (proj1 jvalue_esc), JV|repeat constructor; discriminate]).
  destruct (is_empty (j_out f)); cbn [app]; constructor; auto.
Qed.
Print Assumptions C30_jc_plain.
(** C30: jc never colors a file that is not a terminal, if FORCE_COLOR is not
    set. *)
Theorem C30_jc_file_partial : forall pf std f o input a,
  jc_ready f o input -> jtext input a -> floats_good pf a ->
  j_out f <> [] -> os_file_term o = false -> os_env o (bs "FORCE_COLOR") = [] ->
  Forall esc_free (jr_file (do_main pf std f o)).
Proof.
  intros pf std f o input a R J G O T F. pose proof (C30_jc_plain pf std f o input a R J G) as H. unfold jc_written in H.
  assert (N : ~ (j_color f = true /\ wants_color (os_env o) (jc_terminal f o))).
  { intros [_ [_ [X|[_ [[X _]|[_ X]]]]]]; congruence. }
  apply H, Forall_app in N. apply N.
Qed.
Print Assumptions C30_jc_file_partial.
(** The full statement fails: with FORCE_COLOR it colors the file. *)
Definition os0 (e : env) : jc_os := JcOS e (inl (bs "[1, 2.50]")) None true (inl []) None false true None.
Theorem C30_jc_file_refuted : exists f o line, j_out f = bs "out.json" /\ os_file_term o = false /\
  jr_file (do_main exact std0 f o) = [line] /\ ~ esc_free line.
Proof.
  exists (JcFlags false true (bs "in.json") (bs "out.json")), (os0 (env_of [(bs "FORCE_COLOR", bs "1")])). eexists.
  split; [reflexivity|]. split; [reflexivity|]. split; [vm_compute; reflexivity|]. intros H. inversion H as [|? ? _ H1]; subst. inversion H1 as [|? ? H2 _]; subst. congruence.
Qed.
Print Assumptions C30_jc_file_refuted.
(** jc exits with success when its output could not be written. *)
Theorem C39_jc_write_error_refuted : exists f o e, os_write o = Some e /\ jr_err (do_main exact std0 f o) = None.
Proof.
  exists (JcFlags true true (bs "in.json") []), (JcOS (env_of []) (inl (bs "1")) None true (inl []) None false true (Some EOther)), EOther. split; reflexivity.
Qed.
Print Assumptions C39_jc_write_error_refuted.
Example C39_case : exists a, jc_ready (JcFlags true false (bs "in.json") []) (os0 (env_of [])) (bs "[1, 2.50]") /\ jtext (bs "[1, 2.50]") a /\
  jr_stdout (do_main exact std0 (JcFlags true false (bs "in.json") []) (os0 (env_of []))) = [bs "[" ++ [10] ++ bs "  1," ++ [10] ++ bs "  2.5" ++ [10] ++ bs "]" ++ [10]] /\
  jr_err (do_main exact std0 (JcFlags true false (bs "in.json") []) (JcOS (env_of []) (inl (bs "[1")) None true (inl []) None false true None)) = Some ESyntax.
Proof.
  assert (W : wf (bs "[1, 2.50]")) by (vm_compute; repeat (apply Forall_cons; [split; [discriminate|reflexivity]|]); apply Forall_nil).
  assert (J : exists a, jtext (bs "[1, 2.50]") a) by (apply C01_valid_iff_grammar; [exact W|vm_compute; reflexivity]).
  destruct J as (a & J). exists a. split; [|split; [exact J|split; vm_compute; reflexivity]]. split; [left; split; [discriminate|reflexivity]|left; reflexivity].
Qed.

(** C40: ToCoreColor gives the bytes Sprint puts before the text; none for nil. *)
Lemma index_byte_app pre post c : ~ In c pre -> index_byte (pre ++ c :: post) c = Some (length pre).
Proof.
  induction pre as [|x pre IH]; intros N; cbn [app index_byte length]; [rewrite Z.eqb_refl; reflexivity|].
  destruct (x =? c) eqn:E; [apply Z.eqb_eq in E; exfalso; apply N; left; exact E|]. rewrite IH; [reflexivity|]. intros H. apply N. right. exact H.
Qed.
Theorem C40_to_core_color : forall pre post, ~ In 32 pre -> to_core_color (Some (pre ++ [32] ++ post)) = pre.
Proof.
  intros pre post N. unfold to_core_color. cbn [app]. rewrite (index_byte_app pre post 32 N). destruct pre as [|x pre]; [reflexivity|].
  cbn [length]. change (S (length pre)) with (length (x :: pre)). rewrite firstn_app, firstn_all, Nat.sub_diag, app_nil_r. reflexivity.
Qed.
Print Assumptions C40_to_core_color.
(** C40: for a color made of attributes this is the escape sequence that sets
    them, so colors converted from fatih/color can be removed from the output
    again (C12), whatever the attributes. *)
Lemma itoa_chars z : Forall (fun c => c <> 32 /\ c <> 109 /\ c <> 27) (itoa z).
Proof. eapply Forall_impl; [|apply number_chars, itoa_number]. cbv beta. intros; lia. Qed.
Lemma join_chars l : Forall (fun c => c <> 32 /\ c <> 109 /\ c <> 27) (join_semi l).
Proof.
  induction l as [|x [|y l] IH]; cbn [join_semi]; [constructor|apply itoa_chars|].
  apply Forall_app. split; [apply itoa_chars|]. apply Forall_app. split; [|exact IH]. constructor; [lia|constructor].
Qed.
Theorem C40_attributes : forall attrs rst,
  to_core_color (Some (sprint_space attrs rst)) = [27; 91] ++ join_semi attrs ++ [109] /\ ansi (to_core_color (Some (sprint_space attrs rst))).
Proof.
  intros attrs rst.
  assert (E : to_core_color (Some (sprint_space attrs rst)) = [27; 91] ++ join_semi attrs ++ [109]).
  { unfold sprint_space. replace ([27; 91] ++ join_semi attrs ++ [109] ++ [32] ++ rst) with (([27; 91] ++ join_semi attrs ++ [109]) ++ [32] ++ rst) by (rewrite <- !app_assoc; reflexivity).
    apply C40_to_core_color. rewrite !in_app_iff. cbn [In]. intros H. pose proof (join_chars attrs) as J. rewrite Forall_forall in J. destruct H as [H|[H|H]]; [lia| |lia].
    apply J in H. lia. }
  split; [exact E|]. rewrite E. change ([27; 91] ++ join_semi attrs ++ [109]) with (27 :: (91 :: join_semi attrs) ++ 109 :: []).
  apply ansi_seq; [|constructor]. constructor; [discriminate|]. eapply Forall_impl; [|apply join_chars]. cbv beta. tauto.
Qed.
Print Assumptions C40_attributes.
(** C40: ToCoreColors keeps each color in its place: the tokens of every kind
    get the escape sequence of their own field, and all punctuation that of
    Punc; nil gives no colors at all. *)
Theorem C40_to_core_colors : forall c k, to_core_colors c = Some k ->
  exists f, c = Some f /\
  c_null k = to_core_color (fc_null f) /\ c_bool k = to_core_color (fc_bool f) /\ c_number k = to_core_color (fc_number f) /\
  c_string k = to_core_color (fc_string f) /\ c_key k = to_core_color (fc_key f) /\ c_bytes k = to_core_color (fc_bytes f) /\
  c_time k = to_core_color (fc_datetime f) /\ c_textm k = to_core_color (fc_textm f) /\
  forall v, punc_color k v = to_core_color (fc_punc f).
Proof.
  intros [f|] k E; [|discriminate]. injection E as <-. exists f. repeat (split; [reflexivity|]).
  intros v. unfold punc_color. cbn [c_brackets c_braces c_comma c_colon c_punc].
  destruct ((v =? 91) || (v =? 93)), ((v =? 123) || (v =? 125)), (v =? 44), (v =? 58); reflexivity.
Qed.
Print Assumptions C40_to_core_colors.
Theorem C40_nil_plain : to_core_colors None = None /\ to_core_color None = [].
Proof. split; reflexivity. Qed.
Print Assumptions C40_nil_plain.
(** C40: the default colors are those of jsoncolor.DefaultColors, but for
    booleans, which are yellow and not bold, and punctuation, which is bold. *)
Theorem C40_defaults : forall rst, to_core_colors (Some (f_default rst)) =
  Some (Colors (c_null default_colors) [27; 91; 51; 51; 109] (c_number default_colors) (c_string default_colors) (c_key default_colors)
    (c_bytes default_colors) (c_time default_colors) [27; 91; 49; 109] [] [] [] [] (c_textm default_colors)).
Proof.
  intros rst. unfold f_default, to_core_colors. cbn [fc_null fc_bool fc_number fc_string fc_key fc_bytes fc_datetime fc_punc fc_textm].
  rewrite !(proj1 (C40_attributes _ rst)). vm_compute. reflexivity.
Qed.
Print Assumptions C40_defaults.
Example C40_case : to_core_color (Some (sprint_space [34; 1] (bs "x y"))) = [27; 91; 51; 52; 59; 49; 109].
Proof. vm_compute. reflexivity. Qed.
