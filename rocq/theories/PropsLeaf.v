(** C34, C35, C36: floats, byte strings and Marshal. *)
From Coq Require Import QArith Qabs.
From Verif Require Import Bytes Utf8Model ParseModel StringModel IntModel TokenModel EncModel SpecJson SpecString SpecTokens
  SpecRender SpecColor SpecEnc SpecNum ParseFacts IntFacts TokenFacts EncFacts RawFacts EncMain TextFacts ColorFacts DocFacts EncExtra NumFacts
  PropsParse PropsColor PropsEnc.
Local Open Scope Z_scope.

(** C34: a finite float, whose shortest decimal form (strconv's contract) is
    0.DIGITS * 10^dp, is written as a JSON number that denotes exactly that
    decimal, in exponent form exactly when its magnitude is below 1e-6 or at
    least 1e21. *)
Theorem C34_float_value : forall c neg ds dp b d, float_form ds ->
  exists t q, enc c (GFloat (FFin neg ds dp)) b d = ER (b ++ paint (e_clrs c) c_number t) d None /\
    num_val t q /\ (q == q10 ((if neg then -1 else 1) * dval ds) (dp - Z.of_nat (length ds)))%Q /\
    (In 101 t <-> (Qabs q < q10 1 (-6) \/ q10 1 21 <= Qabs q)%Q).
Proof.
  intros c neg ds dp b d F.
  assert (X : exists t q, encode_float [] (FFin neg ds dp) = (t, None) /\ num_val t q /\
     (q == q10 (sg neg * dec ds) (dp - Z.of_nat (length ds)))%Q /\ (In 101 t <-> dp < -5 \/ 21 < dp)).
  { cbn [encode_float app]. destruct ((dp <? -5) || (21 <? dp)) eqn:E.
    - destruct (fmt_e_val neg ds dp F) as (q & V & Q). exists (clean_exp (fmt_e neg ds dp)), q. split; [reflexivity|]. split; [exact V|]. split; [exact Q|].
      split; [intros _; rewrite orb_true_iff, !Z.ltb_lt in E; exact E|intros _]. rewrite fmt_e_clean by exact F.
      rewrite !in_app_iff. right. right. right. left. reflexivity.
    - destruct (fmt_f_val neg ds dp F) as (q & V & Q). exists (fmt_f neg ds dp), q. split; [reflexivity|]. split; [exact V|]. split; [exact Q|].
      rewrite orb_false_iff, !Z.ltb_ge in E. split; [|lia]. intros H. exfalso. eapply fmt_f_no_e; [apply F|exact H]. }
  destruct X as (t & q & E & V & Q & X). exists t, q. split; [|split; [exact V|split; [exact Q|]]].
  - rewrite (enc_app_only c _ b d). change (enc c (GFloat (FFin neg ds dp)) [] d) with (encode_float_c c (FFin neg ds dp) [] d). unfold encode_float_c, paint.
    destruct (e_clrs c) as [k|]; [rewrite encode_float_app|]; rewrite E; cbn [rpre]; rewrite <- ?app_assoc; reflexivity.
  - rewrite X. assert (A : (Qabs q == q10 (dec ds) (dp - Z.of_nat (length ds)))%Q).
    { assert (P : (0 <= q10 (dec ds) (dp - Z.of_nat (length ds)))%Q).
      { apply Qle_trans with (q10 0 (dp - Z.of_nat (length ds))); [unfold q10; rewrite Qmult_0_l; apply Qle_refl|apply q10_le, dec_bounds, F]. }
      rewrite Q. destruct neg; cbn [sg].
      - assert (N : (q10 (-1 * dec ds) (dp - Z.of_nat (length ds)) == - q10 (dec ds) (dp - Z.of_nat (length ds)))%Q).
        { unfold q10. rewrite inject_Z_mult. ring. }
        rewrite N, Qabs_opp, Qabs_pos by exact P. reflexivity.
      - rewrite Z.mul_1_l, Qabs_pos by exact P. reflexivity. }
    rewrite A. pose proof (float_lower ds dp F) as Lo. pose proof (float_upper ds dp F) as Up. split.
    + intros [H|H]; [left|right].
      * eapply Qlt_le_trans; [exact Up|]. apply q10_one_le. lia.
      * eapply Qle_trans; [|exact Lo]. apply q10_one_le. lia.
    + intros [H|H].
      * left. destruct (Z_lt_ge_dec dp (-5)) as [|G]; [assumption|exfalso]. apply (Qlt_not_le _ _ H). eapply Qle_trans; [|exact Lo]. apply q10_one_le. lia.
      * right. destruct (Z_lt_ge_dec 21 dp) as [|G]; [assumption|exfalso]. apply (Qle_not_lt _ _ H). eapply Qlt_le_trans; [exact Up|]. apply q10_one_le. lia.
Qed.
Print Assumptions C34_float_value.
(** Zero and minus zero, and the values with no JSON form. *)
Theorem C34_float_special : forall c neg b d,
  (exists t q, enc c (GFloat (FZero neg)) b d = ER (b ++ paint (e_clrs c) c_number t) d None /\ num_val t q /\ (q == 0)%Q) /\
  (forall f, f = FNaN \/ f = FInf neg -> exists o, enc c (GFloat f) b d = ER (b ++ o) d (Some EUnsupportedValue)).
Proof.
  intros c neg b d. split.
  - exists (sgt neg ++ [48]). eexists. split; [|split; [apply (nval neg [48] [] [] [] 0); constructor|]].
    + change (enc c (GFloat (FZero neg)) b d) with (encode_float_c c (FZero neg) b d). unfold encode_float_c, paint.
      destruct (e_clrs c) as [k|], neg; cbn; rewrite <- ?app_assoc; reflexivity.
    + destruct neg; reflexivity.
  - intros f Hf. change (enc c (GFloat f) b d) with (encode_float_c c f b d). unfold encode_float_c.
    destruct (e_clrs c) as [k|]; destruct Hf as [->| ->]; cbn; rewrite <- ?app_assoc; eexists; try reflexivity; rewrite <- (app_nil_r b) at 1; reflexivity.
Qed.
Print Assumptions C34_float_special.
Example C34_case : float_form (bs "12345") /\ float_form (bs "1") /\
  enc plain_cfg (GSlice (Some [GFloat (FFin true (bs "12345") 2); GFloat (FFin false (bs "1") 22); GFloat (FFin false (bs "15") (-6))])) [] 0 =
    ER (bs "[-12.345,1e+21,1.5e-7]") 0 None.
Proof.
  split; [split; [chars|]; exists 49, (bs "2345"); split; [reflexivity|]; split; [lia|vm_compute; discriminate]|].
  split; [split; [chars|]; exists 49, []; split; [reflexivity|]; split; [lia|vm_compute; discriminate]|]. vm_compute. reflexivity.
Qed.

(** C35: a byte string is written as its base64 text, from which no other
    byte string is read. *)
Theorem C35_bytes_base64 : forall c s b d, wf s ->
  exists t, enc c (GBytes (Some s)) b d = ER (b ++ paint (e_clrs c) c_bytes (34 :: t ++ [34])) d None /\
    base64 t s /\ forall s', base64 t s' -> s' = s.
Proof.
  intros c s b d W. exists (b64 s). assert (B : base64 (b64 s) s) by (apply (b64_base64 (length s)); auto). split; [|split; [exact B|]].
  - change (enc c (GBytes (Some s)) b d) with (encode_bytes c (Some s) b d). unfold encode_bytes, do_encode_bytes, paint.
    destruct (e_clrs c); [rewrite <- !app_assoc|]; reflexivity.
  - intros s' H. symmetry. eapply base64_fun; eassumption.
Qed.
Print Assumptions C35_bytes_base64.
Example C35_case : wf [255; 0; 128; 62] /\ enc plain_cfg (GBytes (Some [255; 0; 128; 62])) [] 0 = ER (bs """/wCAPg==""") 0 None.
Proof. split; [chars|]. vm_compute. reflexivity. Qed.

(** C36: Marshal of a clean value returns either a complete JSON value and no
    error, or an error and no bytes; the bytes are those of Append with
    EscapeHTML and SortMapKeys. *)
Theorem C36_marshal_partial : forall ind v, clean true false false v ->
  (exists out a, marshal ind v = Some (out, None) /\ jvalue out a /\
     forall b, enc (marshal_cfg ind) v b 0 = ER (b ++ out) 0 None) \/
  (exists e, marshal ind v = Some ([], Some e) /\ forall b, exists o d, enc (marshal_cfg ind) v b 0 = ER o d (Some e)).
Proof.
  intros ind v C. unfold marshal.
  destruct (C33_encode_spec_partial (marshal_cfg ind) v [] 0 C (or_introl eq_refl)) as [(x & V & H)|(_ & o & d & e & H)].
  - left. rewrite H. exists (render true None None 0 x), (dast true None 0 x). split; [reflexivity|]. split.
    + apply render_jvalue; [exact I|]. eapply vdoc_ok; [exact C|exact V].
    + intros b. rewrite (enc_app_only (marshal_cfg ind) v b 0), H. reflexivity.
  - right. exists e. rewrite H. split; [reflexivity|]. intros b. rewrite (enc_app_only (marshal_cfg ind) v b 0), H. cbn. eauto.
Qed.
Print Assumptions C36_marshal_partial.
Example C36_case : clean true false false demo /\ (exists out, marshal std0 demo = Some (out, None) /\ (10 < length out)%nat) /\
  marshal std0 (GSlice (Some [GInt 1; GFloat FNaN])) = Some ([], Some EUnsupportedValue).
Proof. split; [apply demo_clean|]. split; [eexists; split; [vm_compute; reflexivity|vm_compute; lia]|vm_compute; reflexivity]. Qed.
