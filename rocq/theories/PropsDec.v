(** C03, C11: decoding into interface{} and the round trip through it. *)
From Coq Require Import QArith Permutation.
From Verif Require Import Bytes Utf8Model ParseModel StringModel IntModel TokenModel EncModel DecModel SpecJson SpecString SpecTokens
  SpecRender SpecColor SpecEnc SpecNum SpecDec SpecTrip ParseFacts Utf8Facts StringFacts IntFacts TokenFacts EncFacts RawFacts EncMain TextFacts DocFacts
  RawText NumFacts DecLoops DecFacts TripFacts Unambig ExactFloat PropsParse PropsColor PropsEnc PropsLeaf.
Local Open Scope Z_scope.

(** Parse and Unmarshal of a JSON text into interface{}. *)
Lemma parse_iface usenum pf data a cur : jtext data a ->
  parse_with (decode_interface usenum pf) data cur =
  match jden usenum pf a with Some v => DR [] None v | None => DR [] (Some EType) JVNull end.
Proof.
  intros (w1 & s & w2 & -> & W1 & J & W2). unfold parse_with. rewrite skip_spaces_ws by exact W1.
  destruct (jvalue_head s a J) as (c & t & E & V).
  rewrite (skip_spaces_nsp (s ++ w2)) by (subst s; cbn [app nsp]; apply vhead_nsp, V).
  rewrite (decode_interface_ok usenum pf s a w2 cur J) by (intros _; rewrite <- (app_nil_r w2); apply num_stop_ws; [exact W2|exact I]).
  destruct (jden usenum pf a); cbn [d_rest d_err d_val]; rewrite (skip_spaces_all w2 W2); reflexivity.
Qed.
Lemma jtext_lits data a : jtext data a -> lits_ok a.
Proof. intros (w1 & s & w2 & _ & _ & J & _). exact (proj1 jvalue_lits s a J). Qed.

Lemma denotes_ext (P Q : bytes -> jv -> Prop) : (forall s v, P s v -> Q s v) -> forall a v, denotes P a v -> denotes Q a v.
Proof.
  intros PQ a. induction a as [| | |s|s|l IH|l IH] using jast_ind'; intros v D; inversion D as [ | | |? ? H|? ? H|? vs F|? m N A B]; subst; try (constructor; auto; fail).
  - constructor. clear D. revert vs F. induction IH as [|x l Hx IH IHl]; intros vs F; inversion F; subst; constructor; auto.
  - constructor; [exact N| |].
    + intros k v Hk. destruct (A k v Hk) as (x & L & Dx). exists x. split; [exact L|].
      destruct (last_member_in l k x L) as [lit Hin]. rewrite Forall_forall in IH. exact (IH (lit, x) Hin v Dx).
    + intros k x L. destruct (B k x L) as (v & Hk & Dx). exists v. split; [exact Hk|].
      destruct (last_member_in l k x L) as [lit Hin]. rewrite Forall_forall in IH. exact (IH (lit, x) Hin v Dx).
Qed.

(** C03: Unmarshal of a JSON text into an interface{} whose numbers ParseFloat
    accepts succeeds, whatever the interface held, with the value the text
    denotes. *)
Theorem C03_unmarshal_interface : forall pf data a cur, jtext data a -> (forall s, number_in s a -> pf s <> None) ->
  exists v, unmarshal_with (decode_interface false pf) data cur = (None, v) /\ denotes (as_float pf) a v.
Proof.
  intros pf data a cur J NI. unfold unmarshal_with. rewrite (parse_iface false pf data a cur J).
  destruct (jden_total false pf a) as (v & E).
  { intros s H. unfold numv. specialize (NI s H). destruct (pf s); [discriminate|congruence]. }
  rewrite E. exists v. split; [reflexivity|].
  eapply denotes_ext; [|apply (jden_denotes false pf a (jtext_lits _ _ J) v E)].
  intros s x. unfold num_spec, numv, as_float. destruct (pf s) as [f|]; [intros H; injection H as <-; eauto|discriminate].
Qed.
Print Assumptions C03_unmarshal_interface.

(** C03: with UseNumber every JSON text is accepted and every number is kept as
    it is written. *)
Theorem C03_use_number : forall pf data a cur, jtext data a ->
  exists v, unmarshal_with (decode_interface true pf) data cur = (None, v) /\ denotes as_number a v.
Proof.
  intros pf data a cur J. unfold unmarshal_with. rewrite (parse_iface true pf data a cur J).
  destruct (jden_total true pf a) as (v & E); [discriminate|].
  rewrite E. exists v. split; [reflexivity|].
  eapply denotes_ext; [|apply (jden_denotes true pf a (jtext_lits _ _ J) v E)].
  intros s x. unfold num_spec, numv, as_number. congruence.
Qed.
Print Assumptions C03_use_number.

(** C03: a text denotes at most one value (up to the order of map entries). *)
Theorem C03_denotation_unique : forall pf data a a' v v',
  jtext data a -> jtext data a' -> denotes (as_float pf) a v -> denotes (as_float pf) a' v' -> jv_same v v'.
Proof.
  intros pf data a a' v v' J J' D D'. rewrite <- (jtext_unique data a a' J J') in D'.
  eapply (denotes_unique (as_float pf)); [..|exact D|exact D'].
  - intros s x (f & _ & ->). exact I.
  - intros s x y (f & E & ->) (f' & E' & ->). congruence.
Qed.
Print Assumptions C03_denotation_unique.

(** C03: the errors.  Data that is not JSON gives a SyntaxError, a number that
    ParseFloat rejects an UnmarshalTypeError. *)
Theorem C03_errors : forall pf data cur, wf data ->
  ((forall a, ~ jtext data a) -> fst (unmarshal_with (decode_interface false pf) data cur) = Some ESyntax) /\
  (forall a s, jtext data a -> number_in s a -> pf s = None ->
     unmarshal_with (decode_interface false pf) data cur = (Some EType, JVNull)).
Proof.
  intros pf data cur W. split.
  - intros NJ. unfold unmarshal_with. cbn [fst]. destruct (d_rest (parse_with (decode_interface false pf) data cur)) as [|c r] eqn:ER; [|reflexivity].
    unfold parse_with in *. cbn [d_rest d_err] in *.
    destruct (skip_spaces_split data) as (w & Hw & Ed & Hn).
    unfold decode_interface in *. cbn [dec_iface] in *.
    destruct (parseValue (skip_spaces data)) as [v r|r e] eqn:EP.
    + exfalso. destruct (parseValue_sound _ v r (wf_skip_spaces _ W) EP) as (E1 & a & Ja).
      assert (ER' : skip_spaces r = []).
      { pose proof Ja as Jh. apply jvalue_head in Jh. destruct Jh as (c & t & -> & _).
        repeat match type of ER with context [if ?b then _ else _] => destruct b end; cbn [d_rest] in ER;
          repeat match type of ER with context [match ?x with Some _ => _ | None => _ end] => destruct x; cbn [d_rest] in ER
                                     | context [match ?x with [] => _ | _ :: _ => _ end] => destruct x; cbn [d_rest] in ER end; try exact ER. }
      destruct (skip_spaces_split r) as (w2 & Hw2 & E2 & _). rewrite ER', app_nil_r in E2.
      apply (NJ a). exists w, v, w2. split; [rewrite Ed, E1, E2; reflexivity|auto].
    + cbn [d_err]. f_equal. eapply parseValue_err; [|exact EP]. apply wf_skip_spaces, W.
  - intros a s J NI PN. unfold unmarshal_with. rewrite (parse_iface false pf data a cur J).
    rewrite (jden_none false pf a s NI); [reflexivity|]. unfold numv. rewrite PN. reflexivity.
Qed.
Print Assumptions C03_errors.

(** C03: success means that the data is JSON (numbers accepted). *)
Theorem C03_accepts_iff : forall pf data cur, wf data ->
  ((exists v, unmarshal_with (decode_interface false pf) data cur = (None, v)) <->
   exists a, jtext data a /\ forall s, number_in s a -> pf s <> None).
Proof.
  intros pf data cur W. split.
  - intros (v & E). destruct (C03_errors pf data cur W) as [H1 H2].
    destruct (Valid data) eqn:V.
    + apply jtext_wf_Valid in V; [|exact W]. destruct V as [a J]. exists a. split; [exact J|].
      intros s NI PN. rewrite (H2 a s J NI PN) in E. discriminate.
    + exfalso. rewrite E in H1. cbn [fst] in H1. assert (X : None = Some ESyntax); [apply H1|discriminate X].
      intros a J. assert (Valid data = true) by (apply jtext_wf_Valid; eauto). congruence.
  - intros (a & J & N). destruct (C03_unmarshal_interface pf data a cur J N) as (v & E & _). eauto.
Qed.
Print Assumptions C03_accepts_iff.

(** C11: a tree of nil, booleans, finite floats, UTF-8 strings, slices and maps
    with distinct keys is unchanged by encoding (any flags, any whitespace
    indentation, no colors) and decoding into interface{}, provided that
    ParseFloat returns each float of the tree for a literal denoting its
    shortest decimal. *)
Lemma tree_clean sorted trust un g v : go_tree_of un g v -> clean sorted trust false g.
Proof.
  induction 1 as [un|un b|f F|n NL|un s V|un xs vs F|un m m' N F] using go_tree_ind'; cbn [clean]; auto.
  - destruct f; cbn [finite] in F; auto.
  - right. left. exact NL.
  - apply valid_utf8_wf, V.
  - rewrite map_map. apply all_map. apply Forall_forall. intros x Hx.
    induction F as [|g v xs vs [T IH] F IHF]; [destruct Hx|]. destruct Hx as [->|Hx]; [|auto].
    destruct x; cbn [iface_of clean] in *; auto.
  - apply all_map. apply Forall_forall. intros [k x] Hx. cbn [fst snd].
    clear N. induction F as [|e e' m m' (_ & U & _ & C) F IHF]; [destruct Hx|]. destruct Hx as [->|Hx]; [|auto].
    cbn [fst snd] in *. split; [apply valid_utf8_wf, U|exact C].
Qed.
Lemma tree_has_doc html sorted trust un g v : go_tree_of un g v -> exists x, vdoc html sorted trust g x.
Proof.
  induction 1 as [un|un b|f F|n NL|un s V|un xs vs F|un m m' N F] using go_tree_ind'.
  - eexists. constructor.
  - destruct b; eexists; constructor.
  - destruct f as [| |neg|neg ds dp]; cbn [finite] in F; try contradiction.
    + eexists. apply vd_float. reflexivity.
    + destruct (encode_float [] (FFin neg ds dp)) as [t e] eqn:E. assert (e = None) as ->.
      { cbn [encode_float] in E. destruct ((dp <? -5) || (21 <? dp)); congruence. }
      eexists. apply vd_float. exact E.
  - eexists. apply vd_number, NL.
  - eexists. constructor.
  - assert (X : exists ys, Forall2 (vdoc html sorted trust) (map iface_of xs) ys).
    { induction F as [|g v xs vs [T (y & Hy)] F (ys & IH)]; [exists []; constructor|]. exists (y :: ys). constructor; [|exact IH].
      destruct g; cbn [iface_of]; try (apply vd_iface, Hy). inversion Hy. apply vd_iface0. }
    destruct X as (ys & X). eexists. apply vd_slice. exact X.
  - set (m0 := order sorted fst m). assert (P : Permutation m m0) by apply order_perm.
    assert (X : exists ys, Forall2 (fun e x => fst x = (TKey, json_string html (fst e)) /\ vdoc html sorted trust (snd e) (snd x)) m0 ys).
    { apply Forall2_ex. apply Forall_forall. intros e He. apply (Permutation_in _ (Permutation_sym P)) in He.
      clear N P m0. induction F as [|e1 e' m m' (_ & _ & _ & y & Hy) F IH]; [destruct He|]. destruct He as [->|He]; [|auto].
      exists ((TKey, json_string html (fst e)), y). split; [reflexivity|exact Hy]. }
    destruct X as (ys & X). eexists. eapply vd_mapsi; [apply order_in_order|exact X].
Qed.

Lemma round_trip un pf c g v cur :
  go_tree_of un g v -> (forall f, float_in f v -> parses pf f) -> e_clrs c = None -> ind_all ws (e_ind c) ->
  exists out v', enc c g [] 0 = ER out 0 None /\
    unmarshal_with (decode_interface un pf) out cur = (None, v') /\ jv_same v v'.
Proof.
  intros T HP HC HI. pose proof (tree_clean (e_sort c) (e_trust c) un g v T) as C.
  destruct (C33_encode_spec_partial c g [] 0 C (or_introl HC)) as [(x & V & E)|(N & _)].
  2:{ exfalso. destruct (tree_has_doc (e_html c) (e_sort c) (e_trust c) un g v T) as (x & V). exact (N x V). }
  rewrite HC in E. cbn [app] in E.
  pose proof (render_jvalue (e_html c) (e_ind c) HI x (vdoc_ok _ _ _ _ _ _ C V) 0) as J.
  destruct (tree_trip un pf g v T HP (e_html c) (e_sort c) (e_trust c) (e_ind c) 0 x V) as (v' & D & Sm).
  eexists _, v'. split; [exact E|]. split; [|exact Sm].
  unfold unmarshal_with. rewrite (parse_iface un pf _ _ cur (jvalue_jtext _ _ J)), D. reflexivity.
Qed.
Theorem C11_round_trip_partial : forall pf c g v cur,
  go_tree g v -> (forall f, float_in f v -> parses pf f) -> e_clrs c = None -> ind_all ws (e_ind c) ->
  exists out v', enc c g [] 0 = ER out 0 None /\
    unmarshal_with (decode_interface false pf) out cur = (None, v') /\ jv_same v v'.
Proof. intros pf c g v cur. apply round_trip. Qed.
Print Assumptions C11_round_trip_partial.

(** C11 for Marshal. *)
Theorem C11_marshal_partial : forall pf ind g v cur,
  go_tree g v -> (forall f, float_in f v -> parses pf f) ->
  exists out v', marshal ind g = Some (out, None) /\
    unmarshal_with (decode_interface false pf) out cur = (None, v') /\ jv_same v v'.
Proof.
  intros pf ind g v cur T HP. destruct (C11_round_trip_partial pf (marshal_cfg ind) g v cur T HP eq_refl I) as (out & v' & E & U & Sm).
  exists out, v'. unfold marshal. rewrite E. auto.
Qed.
Print Assumptions C11_marshal_partial.

(** The contract on ParseFloat can be met for every tree at once: a parser that
    reads decimals exactly meets it. *)
Lemma tree_floats_finite un g v : go_tree_of un g v -> forall f, float_in f v -> finite f.
Proof.
  induction 1 as [un|un b|f F|n NL|un s V|un xs vs F|un m m' N F] using go_tree_ind'; intros f0 H; inversion H as [|l x Hx Hf|l k x Hx Hf]; subst; auto.
  - clear H. induction F as [|g v xs vs [_ IH] F IHF]; [destruct Hx|]. destruct Hx as [->|Hx]; auto.
  - clear H N. induction F as [|e e' m m' (_ & _ & _ & IH) F IHF]; [destruct Hx|]. destruct Hx as [->|Hx]; auto.
Qed.
Theorem C11_exact_floats_partial : forall c g v cur, go_tree g v -> e_clrs c = None -> ind_all ws (e_ind c) ->
  exists out v', enc c g [] 0 = ER out 0 None /\
    unmarshal_with (decode_interface false exact) out cur = (None, v') /\ jv_same v v'.
Proof.
  intros c g v cur T. apply C11_round_trip_partial; [exact T|]. intros f Hf. apply exact_parses. eapply tree_floats_finite; eassumption.
Qed.
Print Assumptions C11_exact_floats_partial.

(** What round trips exclude: a string that is not UTF-8 changes. *)
Theorem C11_invalid_utf8_refuted : exists s out s', wf s /\
  enc (marshal_cfg std0) (GString s) [] 0 = ER out 0 None /\
  unmarshal_with (decode_interface false exact) out JVNull = (None, JVString s') /\ s <> s'.
Proof.
  exists [255], (bs """\ufffd"""), [239; 191; 189]. split; [repeat constructor; unfold is_byte; lia|]. split; [vm_compute; reflexivity|].
  split; [vm_compute; reflexivity|discriminate].
Qed.
Print Assumptions C11_invalid_utf8_refuted.
(** ... and a nil slice comes back as nil. *)
Theorem C11_nil_slice_becomes_nil_refuted : exists out,
  enc (marshal_cfg std0) (GSlice None) [] 0 = ER out 0 None /\
  unmarshal_with (decode_interface false exact) out JVNull = (None, JVNull).
Proof. exists (bs "null"). split; vm_compute; reflexivity. Qed.
Print Assumptions C11_nil_slice_becomes_nil_refuted.

Example C03_example :
  unmarshal_with (decode_interface false exact) (bs " {""a"":[1,true],""\u0061"":[null,-2.50e3,""x\n""]} ") (JVBool true)
  = (None, JVMap [(bs "a", JVArr [JVNull; JVFloat (FFin true (bs "25") 4); JVString [120; 10]])]).
Proof. vm_compute. reflexivity. Qed.
Example C03_example_number :
  unmarshal_with (decode_interface true (fun _ => None)) (bs "[1e999]") JVNull = (None, JVArr [JVNumber (bs "1e999")]).
Proof. vm_compute. reflexivity. Qed.
Definition trip_demo : gval := GMapSI (Some [(bs "k", GSlice (Some [GIface None; GIface (Some (GFloat (FFin true (bs "15") 1)))]));
  (bs "<", GString (bs "a""b"))]).
Example trip_demo_tree : go_tree trip_demo
  (JVMap [(bs "k", JVArr [JVNull; JVFloat (FFin true (bs "15") 1)]); (bs "<", JVString (bs "a""b"))]).
Proof.
  assert (A : forall l, forallb (fun c => (0 <=? c) && (c <? 128)) l = true -> valid_utf8 l).
  { intros l H. exists l. induction l as [|c l IH]; [constructor|]. cbn in H. apply andb_true_iff in H. destruct H as [Hc H].
    apply andb_true_iff in Hc. change (c :: l) with ([c] ++ l) at 2. constructor; [|exact (IH H)]. constructor; lia. }
  apply gt_map.
  - apply NoDup_cons; [cbn; intros [H|[]]; discriminate H|apply NoDup_cons; [intros []|apply NoDup_nil]].
  - apply Forall2_cons; [split; [reflexivity|split; [apply A; reflexivity|]]|apply Forall2_cons; [split; [reflexivity|split; [apply A; reflexivity|]]|apply Forall2_nil]].
    + apply (gt_slice [GNil; GFloat (FFin true (bs "15") 1)] [JVNull; JVFloat (FFin true (bs "15") 1)]).
      apply Forall2_cons; [apply gt_nil|apply Forall2_cons; [apply gt_float|apply Forall2_nil]].
      split; [change (bs "15") with [49; 53]; apply Forall_cons; [unfold digit; lia|apply Forall_cons; [unfold digit; lia|apply Forall_nil]]|]. exists 49, [53]. repeat split; discriminate.
    + apply gt_string, A. reflexivity.
Qed.
