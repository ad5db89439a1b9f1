(** C90: with UseNumber, numbers keep every digit through interface{}. *)
From Verif Require Import Bytes ParseModel IntModel EncModel DecModel EncoderModel JcModel SpecJson SpecString SpecRender SpecColor SpecEnc SpecNum SpecDec SpecTrip SpecCanon
  ParseFacts TokenFacts TextFacts EncRel EncFacts EncMain RawFacts TripFacts ColorFacts DecFacts PropsParse PropsColor PropsEnc PropsDec PropsJc CanonFacts PropsFloat FloatModel SpecFloat SpecNumber Unambig.
Local Open Scope Z_scope.

Lemma number_tree : forall v a, denotes as_number a v -> (forall n, number_in n a -> number_lit n) ->
  go_tree_of true (gv v) v /\ forall f, ~ float_in f v.
Proof.
  induction v as [|b|f|s|s|l IH|m IH] using jv_ind'; intros a D G; cbn [gv].
  - split; [constructor|intros f H; inversion H].
  - split; [constructor|intros f H; inversion H].
  - inversion D as [| | |s0 v Q E1 E2| | |]; subst. unfold as_number in Q. discriminate.
  - inversion D as [| | |s0 v Q E1 E2| | |]; subst. unfold as_number in Q. injection Q as ->. split; [constructor; apply G; constructor|intros f H; inversion H].
  - inversion D as [| | |s0 v Q E1 E2|lit t (body & cs & _ & _ & U) E1 E2| |]; subst; [discriminate|].
    split; [constructor; exists cs; exact U|intros f H; inversion H].
  - inversion D as [| | |s0 v Q E1 E2| |la vs F E1 E2|]; subst; [discriminate|].
    assert (X : Forall (fun v => go_tree_of true (gv v) v /\ forall f, ~ float_in f v) l).
    { assert (G' : Forall (fun a => forall n, number_in n a -> number_lit n) la) by (apply Forall_forall; intros x Hx s Hs; apply G; eapply ni_arr; eassumption).
      clear D G. revert la F G'. induction IH as [|v l Hv IH IHl]; intros la F G'; [constructor|].
      inversion F as [|x ? la' ? Dx F']; subst. inversion G'; subst. constructor; [eapply Hv; eassumption|eapply IHl; eassumption]. }
    split.
    + rewrite (map_ext _ (fun x => iface_of (gv x))) by (intros x; destruct (gv x); reflexivity).
      rewrite <- (map_map gv iface_of). constructor. clear - X. induction X as [|v l [H _] X IH]; constructor; assumption.
    + intros f H. inversion H as [|? v Hi Hf|]; subst. eapply Forall_forall in X; [|exact Hi]. apply (proj2 X f), Hf.
  - inversion D as [| | |s0 v Q E1 E2| | |lo m0 N A B E1 E2]; subst; [discriminate|].
    assert (X : Forall (fun e => valid_utf8 (fst e) /\ go_tree_of true (gv (snd e)) (snd e) /\ forall f, ~ float_in f (snd e)) m).
    { apply Forall_forall. intros [k v] Hi. cbn [fst snd]. destruct (A k v Hi) as (a & L & Da). destruct (PropsJc.last_member_in _ _ _ L) as (lit & Hl & U).
      split; [exact U|]. eapply Forall_forall in IH; [|exact Hi]. eapply IH; [exact Da|]. intros s Hs. apply G. eapply ni_obj; eassumption. }
    split.
    + constructor.
      * rewrite map_map. rewrite (map_ext _ fst); [exact N|]. intros [k v]. reflexivity.
      * clear - X. induction X as [|[k v] m (U & T & _) X IH]; cbn [map]; constructor; [auto|exact IH].
    + intros f H. inversion H as [| |? k v Hi Hf]; subst. eapply Forall_forall in X; [|exact Hi]. apply (proj2 (proj2 X) f), Hf.
Qed.
Lemma text_numbers b a : jtext b a -> forall n, number_in n a -> number_lit n.
Proof. intros (w1 & s & w2 & _ & _ & J & _). exact (proj1 number_in_lit s a J). Qed.
Lemma number_denotes pf b a cur v : jtext b a -> unmarshal_with (decode_interface true pf) b cur = (None, v) -> denotes as_number a v.
Proof. intros J U. destruct (C03_use_number pf b a cur J) as (w & U' & D). rewrite U in U'. injection U' as ->. exact D. Qed.

Lemma number_again pf c b a v : e_clrs c = None -> ind_all ws (e_ind c) -> jtext b a -> denotes as_number a v ->
  exists out a' v', enc c (gv v) [] 0 = ER out 0 None /\ jvalue out a' /\ unmarshal_with (decode_interface true pf) out JVNull = (None, v') /\
    denotes as_number a' v' /\ jv_same v v' /\ go_tree_of true (gv v) v /\ go_tree_of true (gv v') v'.
Proof.
  intros HC HI J D. destruct (number_tree v a D (text_numbers b a J)) as [T NF].
  destruct (round_trip true pf c (gv v) v JVNull T) as (out & v' & E & U & S); [intros f H; destruct (NF f H)|exact HC|exact HI|].
  destruct (C10_valid_json_partial c (gv v) [] 0 out 0 HC HI (tree_clean _ _ _ _ _ T) E) as (o2 & a' & Q & JV & _). cbn [app] in Q. subst o2.
  assert (D' : denotes as_number a' v') by (eapply number_denotes; [eapply jvalue_jtext, JV|exact U]).
  exists out, a', v'. split; [exact E|]. split; [exact JV|]. split; [exact U|]. split; [exact D'|]. split; [exact S|]. split; [exact T|].
  apply (number_tree v' a' D'). eapply text_numbers, jvalue_jtext, JV.
Qed.

(** Every JSON text is read with UseNumber and written again, by any encoder
    without colors; the text written has the same value, with every number
    spelled as it was. *)
Theorem C90_exact : forall pf c input a, jtext input a -> e_clrs c = None -> ind_all ws (e_ind c) ->
  exists v out b, unmarshal_with (decode_interface true pf) input JVNull = (None, v) /\ enc c (gv v) [] 0 = ER out 0 None /\
    jtext out b /\ exists v', denotes as_number a v /\ denotes as_number b v' /\ jv_same v v'.
Proof.
  intros pf c input a J HC HI. destruct (C03_use_number pf input a JVNull J) as (v & U & D).
  destruct (number_again pf c input a v HC HI J D) as (out & b & v' & E & JV & _ & D' & S & _). exists v, out, b.
  split; [exact U|]. split; [exact E|]. split; [eapply jvalue_jtext, JV|]. exists v'. auto.
Qed.
Print Assumptions C90_exact.

(** No number is lost, added or changed: the literals of the output are those
    of the input that are not in a member that a later one replaces. *)
Lemma denotes_numbers : forall v a, denotes as_number a v -> forall n, live n a <-> number_of n v.
Proof.
  induction v as [|b|f|s|s|l IH|m IH] using jv_ind'; intros a D n.
  - inversion D; subst; [|unfold as_number in *; discriminate]. split; intros H; inversion H.
  - inversion D; subst; try (unfold as_number in *; discriminate); (split; intros H; inversion H).
  - inversion D; subst. unfold as_number in *. discriminate.
  - inversion D as [| | |s0 v Q E1 E2| | |]; subst. unfold as_number in Q. injection Q as ->. split; intros H; inversion H; constructor.
  - inversion D as [| | |s0 v Q E1 E2|lit t Q E1 E2| |]; subst; [discriminate|]. split; intros H; inversion H.
  - inversion D as [| | |s0 v Q E1 E2| |la vs F E1 E2|]; subst; [discriminate|]. rewrite Forall_forall in IH. split; intros H.
    + inversion H as [|? x Hi Hx|]; subst. destruct (f2_in_l _ _ _ _ F Hi) as (y & Hy & Dy). eapply no_arr; [exact Hy|]. apply (IH y Hy x Dy), Hx.
    + inversion H as [|? y Hi Hy|]; subst. destruct (f2_in_r _ _ _ _ F Hi) as (x & Hx & Dx). eapply lv_arr; [exact Hx|]. apply (IH y Hi x Dx), Hy.
  - inversion D as [| | |s0 v Q E1 E2| | |lo m0 N A B E1 E2]; subst; [discriminate|]. rewrite Forall_forall in IH. split; intros H.
    + inversion H as [| |? k x L Hx]; subst. destruct (B k x L) as (v & Hv & Dx). eapply no_map; [exact Hv|]. apply (IH (k, v) Hv x Dx), Hx.
    + inversion H as [| |? k v Hi Hv]; subst. destruct (A k v Hi) as (x & L & Dx). eapply lv_obj; [exact L|]. apply (IH (k, v) Hi x Dx), Hv.
Qed.
Lemma same_numbers n : forall v' v, jv_same v v' -> number_of n v' -> number_of n v.
Proof.
  induction v' as [|b|f0|s|s|l IH|m IH] using jv_ind'; intros v S H; try (inversion S; subst; exact H).
  - inversion S as [? L|l0 ? SL|]; subst; [exact H|]. inversion H as [|? x IN FX|]; subst. destruct (f2_in_r _ _ _ _ SL IN) as (y & IY & Sy). rewrite Forall_forall in IH. eapply no_arr; [exact IY|]. exact (IH x IN y Sy FX).
  - inversion S as [? L| |m0 ? SA SB]; subst; [exact H|]. inversion H as [| |? k x IN FX]; subst. destruct (SB _ _ IN) as (y & IY & Sy). rewrite Forall_forall in IH. eapply no_map; [exact IY|]. exact (IH _ IN y Sy FX).
Qed.
Theorem C90_numbers : forall pf c input a out b, jtext input a -> e_clrs c = None -> ind_all ws (e_ind c) ->
  renumbers pf c input out -> jtext out b -> forall n, live n a <-> live n b.
Proof.
  intros pf c input a out b J HC HI (v & U & E) J' n. pose proof (number_denotes pf input a JVNull v J U) as D.
  destruct (number_again pf c input a v HC HI J D) as (out' & b' & v' & E' & JV & _ & D' & S & _). rewrite E in E'. injection E' as <-.
  rewrite (jtext_unique out b b' J' (jvalue_jtext _ _ JV)). rewrite (denotes_numbers v a D n), (denotes_numbers v' b' D' n).
  split; apply same_numbers; [apply same_sym, S|exact S].
Qed.
Print Assumptions C90_numbers.

(** Reformatting the result changes nothing more, ... *)
Theorem C90_idempotent : forall pf c input a, jtext input a -> e_sort c = true -> e_clrs c = None -> ind_all ws (e_ind c) ->
  exists out, renumbers pf c input out /\ renumbers pf c out out.
Proof.
  intros pf c input a J HS HC HI. destruct (C03_use_number pf input a JVNull J) as (v & U & D).
  destruct (number_again pf c input a v HC HI J D) as (out & b & v' & E & JV & U' & _ & S & T & T'). exists out. split; [exists v; auto|].
  exists v'. split; [exact U'|]. rewrite <- (same_enc c true (gv v) v (gv v') v' [] 0 HS T T' S). exact E.
Qed.
Print Assumptions C90_idempotent.
(** ... and two texts have the same form exactly when they have the same value,
    numbers being told apart by their spelling. *)
Theorem C90_canonical : forall pf c i1 a1 i2 a2 o1 o2, jtext i1 a1 -> jtext i2 a2 -> e_sort c = true -> e_clrs c = None -> ind_all ws (e_ind c) ->
  renumbers pf c i1 o1 -> renumbers pf c i2 o2 ->
  (o1 = o2 <-> exists v1 v2, denotes as_number a1 v1 /\ denotes as_number a2 v2 /\ jv_same v1 v2).
Proof.
  intros pf c i1 a1 i2 a2 o1 o2 J1 J2 HS HC HI (v1 & U1 & E1) (v2 & U2 & E2).
  pose proof (number_denotes pf i1 a1 JVNull v1 J1 U1) as D1. pose proof (number_denotes pf i2 a2 JVNull v2 J2 U2) as D2.
  destruct (number_again pf c i1 a1 v1 HC HI J1 D1) as (q1 & b1 & v1' & F1 & _ & Y1 & _ & S1 & T1 & _).
  destruct (number_again pf c i2 a2 v2 HC HI J2 D2) as (q2 & b2 & v2' & F2 & _ & Y2 & _ & S2 & T2 & _).
  rewrite E1 in F1. rewrite E2 in F2. injection F1 as <-. injection F2 as <-. split.
  - intros <-. exists v1, v2. split; [exact D1|]. split; [exact D2|]. rewrite Y1 in Y2. injection Y2 as <-.
    eapply same_trans; [exact S1|apply same_sym, S2].
  - intros (w1 & w2 & W1 & W2 & S).
    assert (N1 : forall s x, as_number s x -> match x with JVArr _ | JVMap _ => False | _ => True end) by (intros s x ->; exact I).
    assert (N2 : forall s x y, as_number s x -> as_number s y -> x = y) by (intros s x y -> ->; reflexivity).
    assert (Q : jv_same v1 v2).
    { eapply same_trans; [eapply (denotes_unique as_number N1 N2); [exact D1|exact W1]|]. eapply same_trans; [exact S|]. eapply (denotes_unique as_number N1 N2); [exact W2|exact D2]. }
    rewrite (same_enc c _ _ _ _ _ [] 0 HS T1 T2 Q), E2 in E1. injection E1 as <-. reflexivity.
Qed.
Print Assumptions C90_canonical.

(** Without UseNumber two different integers can be written as the same text,
    and neither as it was. *)
Theorem C90_floats_refuted : exists i1 i2 out, number_lit i1 /\ number_lit i2 /\ i1 <> i2 /\ out <> i1 /\ out <> i2 /\
  reformats (parse_float binary64) (marshal_cfg std0) i1 out /\ reformats (parse_float binary64) (marshal_cfg std0) i2 out.
Proof.
  exists (bs "12345678901234567890"), (bs "12345678901234567891"), (bs "12345678901234567000").
  assert (L : forall d, digit d -> number_lit (bs "1234567890123456789" ++ [d])).
  { intros d Hd. rewrite <- (app_nil_r (bs "1234567890123456789" ++ [d])). apply (number_intro [] (bs "1234567890123456789" ++ [d]) [] []); [auto| |constructor|constructor].
    apply (int_pos 49 (bs "234567890123456789" ++ [d])); [lia|]. apply Forall_app. split; [|constructor; [exact Hd|constructor]].
    apply Forall_forall. intros c C. cbn in C. unfold digit. repeat destruct C as [<-|C]; first [lia|contradiction]. }
  split; [apply (L 48); unfold digit; lia|]. split; [apply (L 49); unfold digit; lia|]. split; [discriminate|]. split; [discriminate|]. split; [discriminate|].
  assert (X : forall i v, unmarshal_with (decode_interface false (parse_float binary64)) i JVNull = (None, v) -> enc (marshal_cfg std0) (gv v) [] 0 = ER (bs "12345678901234567000") 0 None ->
    reformats (parse_float binary64) (marshal_cfg std0) i (bs "12345678901234567000")) by (intros i v A B; exists v; auto).
  split; apply (X _ (JVFloat (FFin false (bs "12345678901234567") 20))); vm_compute; reflexivity.
Qed.
Print Assumptions C90_floats_refuted.
(** Digits that no float64 has, an exponent out of range, a replaced member. *)
Example C90_case : renumbers (parse_float binary64) (marshal_cfg std0) (bs "{""b"": [12345678901234567890, 1e999, -0.10], ""a"": 7, ""a"": 1.0}")
    (bs "{""a"":1.0,""b"":[12345678901234567890,1e999,-0.10]}") /\
  exists a, jtext (bs "{""b"": [12345678901234567890, 1e999, -0.10], ""a"": 7, ""a"": 1.0}") a.
Proof.
  split; [exists (JVMap [(bs "b", JVArr [JVNumber (bs "12345678901234567890"); JVNumber (bs "1e999"); JVNumber (bs "-0.10")]); (bs "a", JVNumber (bs "1.0"))]); split; vm_compute; reflexivity|]. apply C01_valid_iff_grammar; [chars|vm_compute; reflexivity].
Qed.
