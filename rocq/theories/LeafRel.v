(** The simulation of EncRel.v from a relation on painted tokens. *)
From Coq Require Import Permutation Sorted.
From Verif Require Import Bytes Utf8Model ParseModel StringModel IntModel TokenModel EncModel SpecJson SpecString SpecTokens
  SpecRender SpecColor ParseFacts Utf8Facts StringFacts IntFacts TokenFacts EncFacts RawFacts EncMain EncRel.

Definition isclr (clr : colors -> bytes) : Prop := forall k, In (clr k) (reset :: palette k).

Section leafrel2.
  Variables c1 c2 : cfg.
  Hypothesis Fsort : e_sort c1 = e_sort c2.
  Hypothesis Ftrust : e_trust c1 = e_trust c2.
  Variable P : bytes -> bytes -> Prop.
  Hypothesis P_nil : P [] [].
  Hypothesis P_app : forall a1 a2 b1 b2, P a1 a2 -> P b1 b2 -> P (a1 ++ b1) (a2 ++ b2).
  Variable D : Z -> Z -> Prop.
  Hypothesis D_push : forall d1 d2, D d1 d2 -> D (in_push c1 d1) (in_push c2 d2).
  Hypothesis D_pop : forall d1 d2, D d1 d2 -> D (in_pop c1 d1) (in_pop c2 d2).
  Hypothesis P_nl : P (newline (e_ind c1)) (newline (e_ind c2)).
  Hypothesis P_sp : P (space (e_ind c1)) (space (e_ind c2)).
  Hypothesis P_margin : forall d1 d2, D d1 d2 -> P (margin (e_ind c1) d1) (margin (e_ind c2) d2).
  Variables okt oks okn oktime : bytes -> Prop.
  Variable okf : fl -> Prop.
  Variable okq : gval -> Prop.
  Variable okint : Prop.

  Variable okx : bytes -> bytes -> Prop.   (* the texts of a token *)
  Hypothesis P_paint : forall clr t1 t2, isclr clr -> okx t1 t2 -> P (paint (e_clrs c1) clr t1) (paint (e_clrs c2) clr t2).
  Hypothesis X_delim : forall v, is_delim v = true -> okx [v] [v].
  Hypothesis X_null : okx lit_null lit_null.
  Hypothesis X_true : okx lit_true lit_true.
  Hypothesis X_false : okx lit_false lit_false.
  Hypothesis X_int : forall z, okx (itoa z) (itoa z).
  Hypothesis X_float : forall f t, okf f -> encode_float [] f = (t, None) -> okx t t.
  Hypothesis P_err : forall clr, isclr clr -> P (paint (e_clrs c1) clr []) (paint (e_clrs c2) clr []).
  Hypothesis X_number : forall s v r, okn s -> parse_number s = POk v r -> okx s s.
  Hypothesis X_str : forall s, okt s -> okx (json_string (e_html c1) s) (json_string (e_html c2) s).
  Hypothesis X_b64 : forall s, wf s -> okx (quote (b64 s)) (quote (b64 s)).
  Hypothesis X_time : forall s, oktime s -> okx (quote s) (quote s).
  Hypothesis X_lit : forall s v, oks s -> lit_token v -> (exists x y, s = x ++ v ++ y) ->
    okx (raw_string (e_html c1 && rv_string v) v) (raw_string (e_html c2 && rv_string v) v).
  Hypothesis P_nilbytes : P (paint (e_clrs c1) c_bytes (append_null (e_clrs c1) [])) (paint (e_clrs c2) c_bytes (append_null (e_clrs c2) [])).
  Hypothesis L_keyint : okint -> forall z, frel P D (encode_mkey c1 (KInt z)) (encode_mkey c2 (KInt z)).
  Hypothesis L_quoted : forall v, okq v -> leaves okt oks okn oktime okf okq okint v -> crel P D (enc c1 v) (enc c2 v) -> frel P D (enc c1 (GQuoted v)) (enc c2 (GQuoted v)).
  Hypothesis X_raw : forall s, oks s -> wf s /\ (e_trust c1 = true -> (exists a, jtext s a) \/
     forall d1 d2, D d1 d2 -> P (append_raw_verbatim c1 [] s d1) (append_raw_verbatim c2 [] s d2)).

  Ltac pal := intros ?; cbn; tauto.
  Lemma null_paint cl : append_null cl [] = paint cl c_null lit_null.
  Proof. destruct cl; cbn; rewrite <- ?app_assoc; reflexivity. Qed.
  Lemma bool_paint cl x : append_bool cl [] x = paint cl c_bool (if x then lit_true else lit_false).
  Proof. destruct cl, x; cbn; rewrite <- ?app_assoc; reflexivity. Qed.
  Lemma int_paint cl x : append_int cl [] x = paint cl c_number (itoa x).
  Proof. destruct cl; cbn; rewrite <- ?app_assoc; reflexivity. Qed.
  Definition punc_of (v : Z) (k : colors) : bytes := punc_color k v.
  Lemma punc_paint cl v : append_punc cl [] v = paint cl (punc_of v) [v].
  Proof. destruct cl; cbn; rewrite <- ?app_assoc; reflexivity. Qed.
  Lemma punc_isclr v : isclr (punc_of v).
  Proof.
    intros k. unfold punc_of, punc_color.
    assert (G : forall x, In x (reset :: palette k) -> In (match x with [] => c_punc k | _ => x end) (reset :: palette k)).
    { intros [|a x] H; [cbn; tauto|exact H]. }
    destruct ((v =? 91) || (v =? 93)); [apply (G (c_brackets k)); cbn; tauto|].
    destruct ((v =? 123) || (v =? 125)); [apply (G (c_braces k)); cbn; tauto|].
    destruct (v =? 44); [apply (G (c_comma k)); cbn; tauto|].
    destruct (v =? 58); [apply (G (c_colon k)); cbn; tauto|]. cbn. tauto.
  Qed.
  Lemma P_punc' v : is_delim v = true -> P (append_punc (e_clrs c1) [] v) (append_punc (e_clrs c2) [] v).
  Proof. intros H. rewrite !punc_paint. apply P_paint; [apply punc_isclr|apply X_delim, H]. Qed.

  Definition scalar_clr (v : bytes) (isKey : bool) (k : colors) : bytes :=
    if isKey then c_key k
    else if rv_string v then c_string k
    else if rv_number v then c_number k
    else if rv_true v || rv_false v then c_bool k
    else if rv_null v then c_null k
    else [].
  Lemma scalar_paint c v k : lit_token v -> raw_scalar c [] v k = paint (e_clrs c) (scalar_clr v k) (raw_string (e_html c && rv_string v) v).
  Proof.
    intros L. unfold raw_scalar, raw_string.
    assert (H : rv_string v = true -> append_compact_escape_html [] v = html_escape v).
    { intros Rv. apply compact_string. destruct L as [L|[L|[->|[->| ->]]]]; try discriminate; [exact L|].
      destruct (number_head v L) as (x & t & -> & Hx). cbn in Rv. apply Z.eqb_eq in Rv. lia. }
    destruct (e_clrs c) as [k0|]; cbn [paint].
    - fold (scalar_clr v k k0). destruct (e_html c); cbn [andb]; [destruct (rv_string v) eqn:E|].
      + rewrite ach_app, H by reflexivity. cbn [app]. rewrite <- app_assoc. reflexivity.
      + rewrite <- app_assoc. reflexivity.
      + rewrite <- app_assoc. reflexivity.
    - destruct (e_html c); cbn [andb]; [destruct (rv_string v) eqn:E; [apply H; reflexivity|reflexivity]|reflexivity].
  Qed.
  Lemma scalar_isclr v k : lit_token v -> isclr (scalar_clr v k).
  Proof.
    intros L k0. unfold scalar_clr. destruct k; [cbn; tauto|]. destruct (rv_string v) eqn:E1; [cbn; tauto|].
    destruct (rv_number v) eqn:E2; [cbn; tauto|]. destruct (rv_true v || rv_false v) eqn:E3; [cbn; tauto|].
    destruct (rv_null v) eqn:E4; [cbn; tauto|]. exfalso. destruct L as [L|[L|[->|[->| ->]]]]; try discriminate.
    - destruct L as (b & -> & _). discriminate.
    - destruct (number_head v L) as (x & t & -> & Hx). cbn in E2. unfold is_num_start, is_digit in E2.
      apply orb_false_iff in E2. destruct E2 as [E2 E5]. apply andb_false_iff in E5. zb. lia.
  Qed.

  Theorem leaf_rel2 v : leaves okt oks okn oktime okf okq okint v -> frel P D (enc c1 v) (enc c2 v).
  Proof.
    apply (enc_rel c1 c2 Fsort P P_nil P_app D D_push D_pop P_nl P_sp P_margin P_punc').
    - rewrite !null_paint. apply P_paint; [pal|exact X_null].
    - intros x. rewrite !bool_paint. apply P_paint; [pal|destruct x; assumption].
    - intros x. rewrite !int_paint. apply P_paint; [pal|apply X_int].
    - intros f Hf d1 d2 Hd. unfold encode_float_c.
      assert (G : forall c d, match e_clrs c with None => let '(b, e) := encode_float [] f in ER b d e
           | Some k => let '(b, e) := encode_float ([] ++ c_number k) f in ER (b ++ ansi_reset) d e end =
         ER (paint (e_clrs c) c_number (fst (encode_float [] f))) d (snd (encode_float [] f))).
      { intros c d. unfold paint. destruct (e_clrs c) as [k|]; [rewrite encode_float_app; cbn [app]; rewrite <- app_assoc; reflexivity|].
        destruct (encode_float [] f); reflexivity. }
      rewrite !G. cbn. split; [|auto]. destruct (encode_float [] f) as [t [e|]] eqn:E; cbn [fst].
      + assert (t = []) as -> by (unfold encode_float in E; destruct f; try congruence; destruct (_ || _); congruence). apply P_err. pal.
      + apply P_paint; [pal|]. eapply X_float; eassumption.
    - intros s Hs d1 d2 Hd.
      assert (G : forall c d, encode_number c s [] d = match parse_number (match s with [] => [48] | _ => s end) with
         | PErr _ e => ER [] d (Some e) | POk _ _ => ER (paint (e_clrs c) c_number (match s with [] => [48] | _ => s end)) d None end).
      { intros c d. unfold encode_number, paint. destruct (parse_number _); [|reflexivity]. destruct (e_clrs c); cbn [app]; rewrite <- ?app_assoc; reflexivity. }
      rewrite !G. destruct (parse_number _) eqn:E; cbn; [|auto]. split; [|auto]. apply P_paint; [pal|].
      destruct s as [|x s]; [apply (X_int 0)|eapply X_number; eassumption].
    - intros k s Hk Hs. destruct k; try (apply P_paint; [pal|apply X_str, Hs]).
    - intros s Hs d1 d2 Hd. unfold encode_bytes.
      assert (G : forall c d, match e_clrs c with None => ER (do_encode_bytes c s []) d None
          | Some k => ER (do_encode_bytes c s ([] ++ c_bytes k) ++ ansi_reset) d None end =
          ER (paint (e_clrs c) c_bytes (match s with None => append_null (e_clrs c) [] | Some v => quote (b64 v) end)) d None).
      { intros c d. unfold paint, do_encode_bytes, quote. destruct (e_clrs c) as [k|] eqn:E, s as [s0|]; try reflexivity.
        - cbn [app]. rewrite <- app_assoc. reflexivity.
        - cbn [app]. rewrite append_null_app, <- app_assoc. reflexivity. }
      rewrite !G. cbn. split; [|auto]. destruct s as [s|]; [|exact P_nilbytes]. apply P_paint; [pal|apply X_b64, Hs].
    - intros s Hs d1 d2 Hd.
      assert (G : forall c d, encode_time c s [] d = ER (paint (e_clrs c) c_time (quote s)) d None).
      { intros c d. unfold encode_time, paint, quote. destruct (e_clrs c); cbn [app]; rewrite <- ?app_assoc; cbn [app]; rewrite <- ?app_assoc; reflexivity. }
      rewrite !G. cbn. split; [|auto]. apply P_paint; [pal|apply X_time, Hs].
    - exact L_keyint.
    - exact L_quoted.
    - intros s Hs. destruct (X_raw s Hs) as [W HV].
      apply (encode_raw_rel c1 c2 Ftrust P P_nil P_app D D_push D_pop P_nl P_sp P_margin P_punc' s); [|reflexivity|exact W|exact HV].
      intros v0 k L HX. rewrite !scalar_paint by exact L. apply P_paint; [apply scalar_isclr, L|apply (X_lit s); assumption].
  Qed.
End leafrel2.

(** The same with equal texts. *)
Section leafrel.
  Variables c1 c2 : cfg.
  Hypothesis Fhtml : e_html c1 = e_html c2.
  Hypothesis Fsort : e_sort c1 = e_sort c2.
  Hypothesis Ftrust : e_trust c1 = e_trust c2.
  Variable P : bytes -> bytes -> Prop.
  Hypothesis P_nil : P [] [].
  Hypothesis P_app : forall a1 a2 b1 b2, P a1 a2 -> P b1 b2 -> P (a1 ++ b1) (a2 ++ b2).
  Variable D : Z -> Z -> Prop.
  Hypothesis D_push : forall d1 d2, D d1 d2 -> D (in_push c1 d1) (in_push c2 d2).
  Hypothesis D_pop : forall d1 d2, D d1 d2 -> D (in_pop c1 d1) (in_pop c2 d2).
  Hypothesis P_nl : P (newline (e_ind c1)) (newline (e_ind c2)).
  Hypothesis P_sp : P (space (e_ind c1)) (space (e_ind c2)).
  Hypothesis P_margin : forall d1 d2, D d1 d2 -> P (margin (e_ind c1) d1) (margin (e_ind c2) d2).
  Variables okt oks okn oktime : bytes -> Prop.
  Variable okf : fl -> Prop.
  Variable okq : gval -> Prop.
  Variable okint : Prop.

  Variable okx : bytes -> Prop.            (* token texts *)
  Hypothesis P_paint : forall clr t, isclr clr -> okx t -> P (paint (e_clrs c1) clr t) (paint (e_clrs c2) clr t).
  Hypothesis X_delim : forall v, is_delim v = true -> okx [v].
  Hypothesis X_null : okx lit_null.
  Hypothesis X_true : okx lit_true.
  Hypothesis X_false : okx lit_false.
  Hypothesis X_int : forall z, okx (itoa z).
  Hypothesis X_float : forall f t, okf f -> encode_float [] f = (t, None) -> okx t.
  Hypothesis P_err : forall clr, isclr clr -> P (paint (e_clrs c1) clr []) (paint (e_clrs c2) clr []).
  Hypothesis X_number : forall s v r, okn s -> parse_number s = POk v r -> okx s.
  Hypothesis X_str : forall s, okt s -> okx (json_string (e_html c1) s).
  Hypothesis X_b64 : forall s, wf s -> okx (quote (b64 s)).
  Hypothesis X_time : forall s, oktime s -> okx (quote s).
  Hypothesis X_lit : forall v, lit_token v -> okx (raw_string (e_html c1 && rv_string v) v).
  Hypothesis P_nilbytes : P (paint (e_clrs c1) c_bytes (append_null (e_clrs c1) [])) (paint (e_clrs c2) c_bytes (append_null (e_clrs c2) [])).
  Hypothesis L_keyint : okint -> forall z, frel P D (encode_mkey c1 (KInt z)) (encode_mkey c2 (KInt z)).
  Hypothesis L_quoted : forall v, okq v -> leaves okt oks okn oktime okf okq okint v -> crel P D (enc c1 v) (enc c2 v) -> frel P D (enc c1 (GQuoted v)) (enc c2 (GQuoted v)).
  Hypothesis X_raw : forall s, oks s -> wf s /\ (e_trust c1 = true -> (exists a, jtext s a) \/
     forall d1 d2, D d1 d2 -> P (append_raw_verbatim c1 [] s d1) (append_raw_verbatim c2 [] s d2)).

  Theorem leaf_rel v : leaves okt oks okn oktime okf okq okint v -> frel P D (enc c1 v) (enc c2 v).
  Proof.
    apply leaf_rel2 with (okx := fun a b => a = b /\ okx a); auto.
    - intros clr t1 t2 Hc [<- Ht]. auto.
    - intros f t F E. split; [reflexivity|eapply X_float; eassumption].
    - intros s x r Hs E. split; [reflexivity|eapply X_number; eassumption].
    - intros s Hs. rewrite <- Fhtml. auto.
    - intros s x _ L _. rewrite <- Fhtml. auto.
  Qed.
End leafrel.
