(** C78: decoding and encoding again is a canonical form. *)
From Verif Require Import Bytes ParseModel IntModel EncModel DecModel EncoderModel JcModel SpecJson SpecString SpecRender SpecColor SpecEnc SpecNum SpecDec SpecTrip SpecJc SpecCanon
  ParseFacts TokenFacts TextFacts EncRel EncFacts EncMain RawFacts TripFacts ExactFloat ColorFacts DecFacts PropsParse PropsColor PropsEnc PropsDec PropsJc CanonFacts.
Local Open Scope Z_scope.

Lemma canon_denotes pf b x cur v : jtext b x -> unmarshal_with (decode_interface false pf) b cur = (None, v) -> denotes (as_float pf) x v.
Proof.
  intros J U. unfold unmarshal_with in U. rewrite (parse_iface false pf _ _ cur J) in U.
  destruct (jden false pf x) as [w|] eqn:E; [|discriminate]. injection U as <-. eapply denotes_ext; [|apply (jden_denotes false pf x (jtext_lits _ _ J) w E)].
  intros s y. unfold num_spec, numv, as_float. destruct (pf s) as [f|]; [intros H; injection H as <-; eauto|discriminate].
Qed.
Lemma canon_first pf input a : jtext input a -> floats_good pf a ->
  exists v, unmarshal_with (decode_interface false pf) input JVNull = (None, v) /\ go_tree (gv v) v /\ forall f, float_in f v -> parses pf f.
Proof.
  intros J G. destruct (C03_unmarshal_interface pf input a JVNull J) as (v & U & D). { intros s Hs. destruct (G s Hs) as (x & -> & _). discriminate. }
  exists v. split; [exact U|]. exact (denotes_tree pf v a D G).
Qed.
Lemma canon_again pf c v : e_sort c = true -> e_clrs c = None -> ind_all ws (e_ind c) -> go_tree (gv v) v -> (forall f, float_in f v -> parses pf f) ->
  exists out b v', enc c (gv v) [] 0 = ER out 0 None /\ jvalue out b /\
    unmarshal_with (decode_interface false pf) out JVNull = (None, v') /\ jv_same v v' /\ go_tree (gv v') v' /\ enc c (gv v') [] 0 = ER out 0 None.
Proof.
  intros HS HC HI T P. destruct (C11_round_trip_partial pf c (gv v) v JVNull T P HC HI) as (out & v' & E & U' & S).
  destruct (C10_valid_json_partial c (gv v) [] 0 out 0 HC HI (tree_clean _ _ _ _ _ T) E) as (o2 & b & Q & JV & _). cbn [app] in Q. subst o2.
  exists out, b, v'. assert (T' : go_tree (gv v') v').
  { eapply denotes_same_tree; [eapply canon_denotes; [eapply jvalue_jtext, JV|exact U']|exact T|exact S]. }
  split; [exact E|]. split; [exact JV|]. split; [exact U'|]. split; [exact S|]. split; [exact T'|].
  rewrite <- (same_enc c _ (gv v) v (gv v') v' [] 0 HS T T' S). exact E.
Qed.

(** Any JSON text can be reformatted, and reformatting the result gives it
    back, byte for byte. *)
Theorem C78_idempotent : forall pf c input a,
  jtext input a -> floats_good pf a -> e_sort c = true -> e_clrs c = None -> ind_all ws (e_ind c) ->
  exists out, reformats pf c input out /\ reformats pf c out out.
Proof.
  intros pf c input a J G HS HC HI. destruct (canon_first pf input a J G) as (v & U & T & P).
  destruct (canon_again pf c v HS HC HI T P) as (out & b & v' & E & _ & U' & _ & _ & E'). exists out. split; eexists; eauto.
Qed.
Print Assumptions C78_idempotent.

(** Two texts have the same form exactly when they have the same value. *)
Theorem C78_canonical : forall pf c i1 a1 i2 a2 o1 o2,
  jtext i1 a1 -> floats_good pf a1 -> jtext i2 a2 -> floats_good pf a2 -> e_sort c = true -> e_clrs c = None -> ind_all ws (e_ind c) ->
  reformats pf c i1 o1 -> reformats pf c i2 o2 ->
  (o1 = o2 <-> exists v1 v2, unmarshal_with (decode_interface false pf) i1 JVNull = (None, v1) /\
     unmarshal_with (decode_interface false pf) i2 JVNull = (None, v2) /\ jv_same v1 v2).
Proof.
  intros pf c i1 a1 i2 a2 o1 o2 J1 G1 J2 G2 HS HC HI (v1 & U1 & E1) (v2 & U2 & E2).
  destruct (canon_first pf i1 a1 J1 G1) as (w1 & U1' & T1 & P1). destruct (canon_first pf i2 a2 J2 G2) as (w2 & U2' & T2 & P2).
  rewrite U1 in U1'. injection U1' as <-. rewrite U2 in U2'. injection U2' as <-. split.
  - intros <-. exists v1, v2. split; [exact U1|]. split; [exact U2|].
    destruct (canon_again pf c v1 HS HC HI T1 P1) as (q1 & b1 & v1' & F1 & _ & Y1 & S1 & _). destruct (canon_again pf c v2 HS HC HI T2 P2) as (q2 & b2 & v2' & F2 & _ & Y2 & S2 & _).
    rewrite E1 in F1. rewrite E2 in F2. injection F1 as <-. injection F2 as <-. rewrite Y1 in Y2. injection Y2 as <-.
    eapply same_trans; [exact S1|apply same_sym, S2].
  - intros (w1 & w2 & W1 & W2 & S). rewrite U1 in W1. rewrite U2 in W2. injection W1 as <-. injection W2 as <-.
    rewrite (same_enc c _ _ _ _ _ [] 0 HS T1 T2 S), E2 in E1. injection E1 as <-. reflexivity.
Qed.
Print Assumptions C78_canonical.

(** Colors do not disturb that: equal values are colored equally. *)
Theorem C78_colors : forall pf c i1 a1 i2 a2 v1 v2,
  jtext i1 a1 -> floats_good pf a1 -> jtext i2 a2 -> floats_good pf a2 -> e_sort c = true ->
  unmarshal_with (decode_interface false pf) i1 JVNull = (None, v1) -> unmarshal_with (decode_interface false pf) i2 JVNull = (None, v2) ->
  jv_same v1 v2 -> enc c (gv v1) [] 0 = enc c (gv v2) [] 0.
Proof.
  intros pf c i1 a1 i2 a2 v1 v2 J1 G1 J2 G2 HS U1 U2 S.
  destruct (canon_first pf i1 a1 J1 G1) as (w1 & U1' & T1 & _). destruct (canon_first pf i2 a2 J2 G2) as (w2 & U2' & T2 & _).
  rewrite U1 in U1'. injection U1' as <-. rewrite U2 in U2'. injection U2' as <-. exact (same_enc c _ _ _ _ _ [] 0 HS T1 T2 S).
Qed.
Print Assumptions C78_colors.

(** Running jc on what jc wrote, with the same layout, writes it again;
    wherever the two runs read from and write to. *)
Theorem C78_jc : forall pf std f o input a, jc_ready f o input -> jtext input a -> floats_good pf a ->
  ~ (j_color f = true /\ wants_color (os_env o) (jc_terminal f o)) ->
  exists line, jr_err (do_main pf std f o) = None /\ jc_written (do_main pf std f o) = [line] /\
    forall f' o', jc_ready f' o' line -> j_pretty f' = j_pretty f -> ~ (j_color f' = true /\ wants_color (os_env o') (jc_terminal f' o')) ->
      jr_err (do_main pf std f' o') = None /\ jc_written (do_main pf std f' o') = [line].
Proof.
  intros pf std f o input a R J G N. destruct (canon_first pf input a J G) as (v & U & T & P).
  assert (HI : ind_all ws (e_ind (jc_cfg std f false))).
  { unfold jc_cfg. cbn [e_ind]. destruct (j_pretty f); [|exact I]. cbn. split; [constructor|]. repeat constructor; auto. }
  destruct (canon_again pf (jc_cfg std f false) v eq_refl eq_refl HI T P) as (out & b & v' & E & JV & U' & S & T' & E').
  assert (C : jc_colors f o = false) by (destruct (jc_colors f o) eqn:Q; [apply jc_colors_spec in Q; contradiction|reflexivity]).
  exists (out ++ [10]). pose proof E as E0. rewrite <- C in E0. destruct (jc_runs pf std f o input v out R U E0) as (A1 & A2 & _). split; [exact A1|]. split; [exact A2|].
  intros f' o' R' JP N'.
  assert (C' : jc_colors f' o' = false) by (destruct (jc_colors f' o') eqn:Q; [apply jc_colors_spec in Q; contradiction|reflexivity]).
  assert (JT : jtext (out ++ [10]) b).
  { exists [], out, [10]. split; [reflexivity|]. split; [constructor|]. split; [exact JV|]. apply Forall_cons; [lia|constructor]. }
  assert (U2 : unmarshal_with (decode_interface false pf) (out ++ [10]) JVNull = (None, v')).
  { revert U'. unfold unmarshal_with. rewrite (parse_iface false pf _ _ JVNull JT), (parse_iface false pf _ _ JVNull (jvalue_jtext _ _ JV)). auto. }
  assert (E2 : enc (jc_cfg std f' (jc_colors f' o')) (gv v') [] 0 = ER out 0 None).
  { rewrite C'. unfold jc_cfg in *. rewrite JP. exact E'. }
  destruct (jc_runs pf std f' o' (out ++ [10]) v' out R' U2 E2) as (B1 & B2 & _). auto.
Qed.
Print Assumptions C78_jc.

(** With SetSortMapKeys(false) the form is not canonical. *)
Theorem C78_unsorted_refuted : exists c i1 i2 o1 o2 v1 v2, e_sort c = false /\ e_clrs c = None /\ e_ind c = None /\
  reformats exact c i1 o1 /\ reformats exact c i2 o2 /\ o1 <> o2 /\
  unmarshal_with (decode_interface false exact) i1 JVNull = (None, v1) /\ unmarshal_with (decode_interface false exact) i2 JVNull = (None, v2) /\ jv_same v1 v2.
Proof.
  exists (Cfg true false false None None std0), (bs "{""a"":true,""b"":null}"), (bs "{""b"":null,""a"":true}"), (bs "{""a"":true,""b"":null}"), (bs "{""b"":null,""a"":true}"),
    (JVMap [(bs "a", JVBool true); (bs "b", JVNull)]), (JVMap [(bs "b", JVNull); (bs "a", JVBool true)]).
  split; [reflexivity|]. split; [reflexivity|]. split; [reflexivity|].
  split; [exists (JVMap [(bs "a", JVBool true); (bs "b", JVNull)]); split; vm_compute; reflexivity|].
  split; [exists (JVMap [(bs "b", JVNull); (bs "a", JVBool true)]); split; vm_compute; reflexivity|].
  split; [discriminate|]. split; [vm_compute; reflexivity|]. split; [vm_compute; reflexivity|].
  apply same_map; intros k v [H|[H|[]]]; injection H as <- <-; eexists; (split; [first [left; reflexivity|right; left; reflexivity]|apply same_refl]).
Qed.
Print Assumptions C78_unsorted_refuted.

(** Members in another order, another spelling of strings and numbers, a
    duplicate name and other layout: the same form. *)
Example C78_case :
  reformats exact (marshal_cfg std0) (bs " { ""b"" : [1.50e1, ""\u003f\/""], ""a"":0, ""a"":null }") (bs "{""a"":null,""b"":[15,""?/""]}") /\
  reformats exact (marshal_cfg std0) (bs "{""a"":null,""b"":[15,""?/""]}") (bs "{""a"":null,""b"":[15,""?/""]}").
Proof.
  set (v := JVArr [JVFloat (FFin false (bs "15") 2); JVString (bs "?/")]).
  split; [exists (JVMap [(bs "b", v); (bs "a", JVNull)])|exists (JVMap [(bs "a", JVNull); (bs "b", v)])]; split; vm_compute; reflexivity.
Qed.
Example C78_jc_case : exists a, jtext (bs "{""b"":1,""a"":[]}") a /\ floats_good exact a /\
  jc_ready (JcFlags true false (bs "in.json") []) (os0 (env_of [])) (bs "[1, 2.50]").
Proof.
  assert (W : wf (bs "{""b"":1,""a"":[]}")) by chars.
  assert (J : exists a, jtext (bs "{""b"":1,""a"":[]}") a) by (apply C01_valid_iff_grammar; [exact W|vm_compute; reflexivity]).
  destruct J as (a & J). exists a. split; [exact J|]. split; [intros s _; apply exact_total|]. split; [left; split; [discriminate|reflexivity]|left; reflexivity].
Qed.
