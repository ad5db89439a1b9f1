(** C82: byte slices come back from their base64 text. *)
From Verif Require Import Bytes ParseModel StringModel IntModel EncModel DecModel TypeModel B64Model SpecJson SpecString SpecNum SpecDec SpecType SpecB64
  ParseFacts AsciiFacts StringFacts NumFacts EncFacts DecFacts TypeFacts PropsParse PropsColor PropsType SpecFit SpecRender TextFacts TripType ExactFloat.

Lemma b64_val_sextet c n : b64_val c = Some n <-> sextet c n.
Proof.
  unfold b64_val, sextet.
  destruct (65 <=? c) eqn:A1, (c <=? 90) eqn:A2, (97 <=? c) eqn:A3, (c <=? 122) eqn:A4, (48 <=? c) eqn:A5, (c <=? 57) eqn:A6, (c =? 43) eqn:A7, (c =? 47) eqn:A8; cbn [andb];
    rewrite ?Z.leb_le, ?Z.leb_gt, ?Z.eqb_eq, ?Z.eqb_neq in *; split; intros H; try (injection H as <-); try discriminate; try lia;
    f_equal; lia.
Qed.
Lemma sextet_61 n : ~ sextet 61 n.
Proof. unfold sextet. lia. Qed.
Lemma val_none c : b64_val c = None -> forall n, ~ sextet c n.
Proof. intros E n H. apply b64_val_sextet in H. congruence. Qed.
Ltac novalue := exfalso; match goal with X : sextet ?q ?u, E : b64_val ?q = None |- _ => exact (val_none q E u X) end.
Lemma groups_read n : forall s, (length s <= n)%nat -> forall v, b64_groups s = Some v <-> base64_read s v.
Proof.
  induction n as [|n IH]; intros s L v; (destruct s as [|a [|b [|c [|d t]]]];
    [cbn [b64_groups]; split; [intros [= <-]; constructor|intros H; inversion H; reflexivity]|..]);
    try (cbn [b64_groups]; split; [discriminate|intros H; inversion H]; fail); [cbn [length] in L; lia|].
  cbn [b64_groups]. destruct (b64_val a) as [m|] eqn:Ea; [|split; [discriminate|]; intros H; inversion H; subst; try congruence; novalue].
  destruct (b64_val b) as [k|] eqn:Eb; [|split; [discriminate|]; intros H; inversion H; subst; try congruence; novalue].
  apply b64_val_sextet in Ea, Eb. pose proof (sextet_range _ _ Ea) as Ra. pose proof (sextet_range _ _ Eb) as Rb.
  destruct (Z.eqb_spec c 61) as [->|Nc].
  { destruct (Z.eqb_spec d 61) as [->|Nd].
    - destruct t as [|e t].
      + split.
        * intros [= <-]. eapply br_one; try eassumption; unfold is_byte; Z.to_euclidean_division_equations; lia.
        * intros H. inversion H; subst; try (exfalso; eapply sextet_61; eassumption).
          repeat match goal with X : sextet ?q ?u, Y : sextet ?q ?w |- _ => rewrite (sextet_fun q u w X Y) in *; clear X end.
          do 2 f_equal. Z.to_euclidean_division_equations; lia.
      + split; [discriminate|]. intros H. inversion H; subst. exfalso; eapply sextet_61; eassumption.
    - split; [discriminate|]. intros H. inversion H; subst; try congruence; exfalso; eapply sextet_61; eassumption. }
  destruct (b64_val c) as [o|] eqn:Ec; [|split; [discriminate|]; intros H; inversion H; subst; try congruence; novalue].
  apply b64_val_sextet in Ec. pose proof (sextet_range _ _ Ec) as Rc.
  destruct (Z.eqb_spec d 61) as [->|Nd].
  { destruct t as [|e t].
    - split.
      + intros [= <-]. eapply br_two; try eassumption; unfold is_byte; Z.to_euclidean_division_equations; lia.
      + intros H. inversion H; subst; try congruence; try (exfalso; eapply sextet_61; eassumption).
        repeat match goal with X : sextet ?q ?u, Y : sextet ?q ?w |- _ => rewrite (sextet_fun q u w X Y) in *; clear X end.
        f_equal. f_equal; [|f_equal]; unfold is_byte in *; Z.to_euclidean_division_equations; lia.
    - split; [discriminate|]. intros H. inversion H; subst. exfalso; eapply sextet_61; eassumption. }
  destruct (b64_val d) as [p|] eqn:Ed; [|split; [discriminate|]; intros H; inversion H; subst; try congruence; novalue].
  apply b64_val_sextet in Ed. pose proof (sextet_range _ _ Ed) as Rd. cbn [length] in L.
  cbv zeta. set (w := ((m * 64 + k) * 64 + o) * 64 + p). assert (Ew : w = m * 262144 + k * 4096 + o * 64 + p) by (subst w; lia). clearbody w.
  destruct (b64_groups t) as [r|] eqn:Et.
  - split.
    + intros [= <-]. eapply (br_more a b c d _ _ _ m k o p); try eassumption; try (unfold is_byte; Z.to_euclidean_division_equations; lia). apply IH; [lia|exact Et].
    + intros H. inversion H; subst; try congruence.
      repeat match goal with X : sextet ?q ?u, Y : sextet ?q ?w |- _ => rewrite (sextet_fun q u w X Y) in *; clear X end.
      match goal with X : base64_read t ?s |- _ => apply IH in X; [|lia]; rewrite X in Et; injection Et as <- end.
      unfold is_byte in *. f_equal. f_equal; [|f_equal; [|f_equal]]; Z.to_euclidean_division_equations; lia.
  - split; [discriminate|]. intros H. inversion H; subst; try congruence.
    match goal with X : base64_read t ?s |- _ => apply IH in X; [congruence|lia] end.
Qed.
Lemma filter_unbroken s : unbroken s (filter (fun c => negb ((c =? 10) || (c =? 13))) s).
Proof.
  induction s as [|c s IH]; [constructor|]. cbn [filter]. destruct ((c =? 10) || (c =? 13)) eqn:E; cbn [negb].
  - apply orb_true_iff in E. rewrite !Z.eqb_eq in E. apply ub_break; assumption.
  - apply orb_false_iff in E. rewrite !Z.eqb_neq in E. apply ub_keep; tauto.
Qed.
Lemma unbroken_fun s t : unbroken s t -> forall t', unbroken s t' -> t = t'.
Proof. induction 1 as [|c s t B H IH|c s t N1 N2 H IH]; intros t' H'; inversion H'; subst; auto; try lia; f_equal; auto. Qed.
Lemma decode_read s t v : unbroken s t -> (b64_decode s = Some v <-> base64_read t v).
Proof. intros U. rewrite <- (unbroken_fun _ _ (filter_unbroken s) _ U). apply (groups_read (length (filter (fun c => negb ((c =? 10) || (c =? 13))) s))). lia. Qed.
Lemma read_strict s v : base64 s v -> base64_read s v.
Proof. induction 1; [constructor|eapply br_one|eapply br_two|eapply br_more]; try eassumption; lia. Qed.
Lemma base64_unbroken s v : base64 s v -> unbroken s s.
Proof.
  assert (N : forall c n, sextet c n -> c <> 10 /\ c <> 13) by (unfold sextet; intros; lia).
  induction 1; repeat match goal with X : sextet _ _ |- _ => apply N in X end; repeat (apply ub_keep; [tauto || lia|tauto || lia|]); try constructor; assumption.
Qed.
Lemma b64_round s : wf s -> b64_decode (b64 s) = Some s.
Proof.
  intros W. pose proof (b64_base64 (length s) s (le_n _) W) as B. apply (decode_read _ _ s (base64_unbroken _ _ B)), read_strict, B.
Qed.

(** C82: Unmarshal of a JSON string into a []byte succeeds exactly when the
    text of the string, line breaks aside, is base64, and then stores the bytes;
    otherwise the error is that of the base64 package and the target is as
    before. *)
Theorem C82_decode : forall V F w1 s w2 t u cur, v_b64 V = b64_decode -> ws w1 -> string_lit s -> str_means s t -> ws w2 -> unbroken t u ->
  match unmarshal V F YBytes (w1 ++ s ++ w2) (MBytes cur) with
  | (None, y) => exists v, y = MBytes (Some (length v, v)) /\ base64_read u v
  | (Some e, y) => e = EBase64 /\ y = MBytes cur /\ forall v, ~ base64_read u v
  end.
Proof.
  intros V F w1 s w2 t u cur EV W1 SL SM W2 UB. rewrite (str_means_text _ _ SL SM) in UB. clear t SM.
  destruct (string_lit_unquote s w2 SL) as [i Q].
  assert (SK : skip_spaces (w1 ++ s ++ w2) = s ++ w2).
  { rewrite skip_spaces_ws by exact W1. destruct SL as (b & -> & _). reflexivity. }
  assert (SW : skip_spaces w2 = []) by (apply skip_spaces_all, W2).
  assert (DB : decode_bytes V (s ++ w2) cur = match v_b64 V (str_text s) with None => DR w2 (Some EBase64) cur | Some x => DR w2 None (Some (length x, x)) end).
  { unfold decode_bytes. rewrite Q. destruct SL as (b & -> & _). cbn [app has_null_prefix length]. rewrite !app_length. cbn [length].
    destruct (Nat.ltb_spec (S (length b + 1 + length w2)) 2) as [L|L]; [lia|]. reflexivity. }
  unfold unmarshal, unmarshal_with, parse_with. rewrite SK. unfold decode. cbn [dec_ty]. rewrite DB, EV.
  destruct (b64_decode (str_text s)) as [v|] eqn:D; cbn [d_map d_rest d_err d_val]; rewrite SW.
  - exists v. split; [reflexivity|]. apply (decode_read _ _ v UB), D.
  - split; [reflexivity|split; [reflexivity|]]. intros v R. apply (decode_read _ _ v UB) in R. congruence.
Qed.

(** Every byte slice comes back from what the encoder writes for it, with any
    options but colours; so does nil. *)
Theorem C82_round_trip : forall V F c s cur d, v_b64 V = b64_decode -> wf s -> e_clrs c = None ->
  exists out, enc c (GBytes (Some s)) [] d = ER out d None /\ unmarshal V F YBytes out (MBytes cur) = (None, MBytes (Some (length s, s))).
Proof.
  intros V F c s cur d EV W HC. exists (quote (b64 s)). split.
  { cbn [enc]. unfold encode_bytes. rewrite HC. reflexivity. }
  pose proof (b64_base64 (length s) s (le_n _) W) as B.
  pose proof (C82_decode V F [] (quote (b64 s)) [] (b64 s) (b64 s) cur EV (Forall_nil _) (b64_string s W) (b64_means s W) (Forall_nil _) (base64_unbroken _ _ B)) as H.
  cbn [app] in H. rewrite app_nil_r in H. destruct (unmarshal V F YBytes (quote (b64 s)) (MBytes cur)) as [[e|] y].
  - destruct H as (_ & _ & N). destruct (N s (read_strict _ _ B)).
  - destruct H as (v & -> & R). apply (decode_read _ _ v (base64_unbroken _ _ B)) in R. rewrite b64_round in R by exact W. injection R as ->. reflexivity.
Qed.
Theorem C82_nil : forall V F c cur d, e_clrs c = None ->
  exists out, enc c (GBytes None) [] d = ER out d None /\ unmarshal V F YBytes out (MBytes cur) = (None, MBytes None).
Proof. intros V F c cur d HC. exists (bs "null"). split; [cbn [enc]; unfold encode_bytes, do_encode_bytes; rewrite HC; reflexivity|reflexivity]. Qed.
(** What the other theorems ask of the library's base64 decoder. *)
Lemma read_bytes t v : base64_read t v -> Forall u8 v.
Proof. induction 1; repeat (apply Forall_cons; [unfold is_byte, u8 in *; lia|]); try apply Forall_nil; assumption. Qed.
Theorem C82_library : (forall t v, b64_decode t = Some v -> Forall u8 v) /\ (forall s, wf s -> b64_decode (b64 s) = Some s).
Proof.
  split; [|exact b64_round]. intros t v H. apply (decode_read _ _ v (filter_unbroken t)) in H. exact (read_bytes _ _ H).
Qed.
(** Without line breaks, the texts that a strict reader would take are those
    that are written for some bytes: decoding and encoding gives the text back. *)
Theorem C82_text_back : forall t v, base64 t v -> b64_decode t = Some v /\ b64 v = t.
Proof.
  intros t v B. split; [apply (decode_read _ _ v (base64_unbroken _ _ B)), read_strict, B|].
  assert (N : forall c n n', sextet c n -> n' = n -> b64_char n' = c).
  { intros c n n' H ->. pose proof (sextet_range _ _ H) as R. apply b64_char_sextet in R. unfold sextet in *. lia. }
  induction B; cbn [b64]; [reflexivity|..];
    repeat match goal with X : sextet _ ?n |- _ => lazymatch goal with R : 0 <= n < 64 |- _ => fail | _ => pose proof (sextet_range _ _ X) end end; unfold is_byte in *.
  - rewrite (N a m), (N b n) by (assumption || (Z.to_euclidean_division_equations; lia)). reflexivity.
  - rewrite (N a m), (N b n), (N c o) by (assumption || (Z.to_euclidean_division_equations; lia)). reflexivity.
  - rewrite (N a m), (N b n), (N c o), (N d p), IHB by (assumption || (Z.to_euclidean_division_equations; lia)). reflexivity.
Qed.

(** The full claim -- only the text that the encoder writes is accepted -- is
    false: StdEncoding is not strict, and it skips line breaks. *)
Theorem C82_strict_refuted : ~ (forall t v, b64_decode t = Some v -> base64 t v).
Proof.
  intros H. specialize (H (bs "AR==") [1] eq_refl). pose proof (C82_text_back _ _ H) as [_ E]. vm_compute in E. discriminate E.
Qed.

(** * A case *)
Definition b64_env : tenv :=
  TEnv ex_decl 2 ex_flds (fun _ => exact) (fun _ => None) (fun _ => None) b64_decode (fun _ s _ => (None, s)) (fun _ s _ => (None, s)) (fun t => t) (fun c => c).
Example C82_case :
  unmarshal b64_env ex_flags YBytes (bs " ""A\u0051\nID\/w=="" ") (MBytes None) = (None, MBytes (Some (4%nat, [1; 2; 3; 255])))
  /\ unmarshal b64_env ex_flags YBytes (bs """AQ=""") (MBytes (Some (1%nat, [9]))) = (Some EBase64, MBytes (Some (1%nat, [9])))
  /\ enc plain_cfg (GBytes (Some [1; 2; 3; 255])) [] 0 = ER (bs """AQID/w==""") 0 None
  /\ (exists t, str_means (bs """A\u0051\nID\/w==""") t /\ unbroken t (bs "AQID/w==") /\ base64_read (bs "AQID/w==") [1; 2; 3; 255]).
Proof.
  split; [vm_compute; reflexivity|]. split; [vm_compute; reflexivity|]. split; [vm_compute; reflexivity|].
  exists (str_text (bs """A\u0051\nID\/w==""")). split; [|split].
  - apply str_text_means. exists (bs "A\u0051\nID\/w=="). split; [reflexivity|]. match goal with |- str_body ?x => let y := eval vm_compute in x in change x with y end.
    repeat first [apply sb_uni; [unfold hex_digit; lia..|] | apply sb_esc; [cbn; tauto|] | apply sb_char; [lia..|]]. apply sb_nil.
  - change (bs "AQID/w==") with (filter (fun c => negb ((c =? 10) || (c =? 13))) (str_text (bs """A\u0051\nID\/w=="""))). apply filter_unbroken.
  - apply (groups_read 8); [cbn; lia|reflexivity].
Qed.
Print Assumptions C82_decode.
Print Assumptions C82_round_trip.
Print Assumptions C82_nil.
Print Assumptions C82_library.
Print Assumptions C82_text_back.
Print Assumptions C82_strict_refuted.
