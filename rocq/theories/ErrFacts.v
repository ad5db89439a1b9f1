(** Which errors the typed decoders report on texts that are not JSON, and on
    texts that are. *)
From Verif Require Import Bytes AsciiModel Utf8Model ParseModel IntModel StringModel EncModel DecModel
  SpecJson SpecString SpecDec ParseFacts Utf8Facts StringFacts IntFacts DecLoops DecFacts TypeModel SpecType SpecErr NodeFacts TypeLoops TypeFacts TypeMain TypeSound.

(** * Malformed texts *)
Definition model_only (e : err) : Prop := e = EPanicked \/ e = EFuel.
Definition blames (b : bytes) (r : bytes) (e : err) : Prop :=
  e = ESyntax \/ model_only e \/ value_read b r.
Definition clean {A} (b : bytes) (d : dres A) : Prop :=
  match d_err d with Some e => blames b (d_rest d) e | None => True end.

Lemma value_read_value v a r : jvalue v a -> value_read (v ++ r) r.
Proof. intros J. exists [], v, a, []. split; [constructor|]. split; [exact J|]. split; [constructor|reflexivity]. Qed.
Lemma in_err_clean {A} b (x : A) : wf b -> clean b (in_err b x).
Proof.
  intros W. unfold clean, in_err, input_error. destruct b as [|c b0] eqn:Eb; [left; reflexivity|]. rewrite <- Eb in *. clear Eb.
  pose proof (parse_takes b W) as P. destruct (parseValue b) as [v r|r e]; cbn [d_err d_rest]; [|left; exact P].
  destruct P as (_ & Wr & _ & -> & a & J). right; right. destruct (skip_read r Wr) as (w & Ww & Er & _).
  exists [], v, a, w. split; [constructor|]. split; [exact J|]. split; [exact Ww|]. rewrite Er at 1. reflexivity.
Qed.
Lemma elem_err_clean {A} b e (x : A) : wf b -> clean b (elem_err b e x).
Proof.
  intros W. unfold clean, elem_err. pose proof (parse_takes b W) as P. destruct (parseValue b) as [v r|r e2]; cbn [d_err d_rest]; [|left; exact P].
  destruct P as (_ & _ & _ & -> & a & J). right; right. eapply value_read_value, J.
Qed.
Lemma syntax_clean {A} b r (x : A) : clean b (DR r (Some ESyntax) x).
Proof. left. reflexivity. Qed.
Lemma panic_clean {A} b r (x : A) : clean b (DR r (Some EPanicked) x).
Proof. right; left; left. reflexivity. Qed.
Lemma fuel_clean {A} b r (x : A) : clean b (DR r (Some EFuel) x).
Proof. right; left; right. reflexivity. Qed.
Lemma ok_clean {A} b r (x : A) : clean b (DR r None x).
Proof. exact I. Qed.
Lemma d_map_clean {A B} (f : A -> B) b d : clean b d -> clean b (d_map f d).
Proof. exact (fun H => H). Qed.
#[local] Hint Resolve in_err_clean elem_err_clean syntax_clean panic_clean fuel_clean ok_clean : core.

Lemma slice_loop_clean {A} (D : bytes -> A -> dres A) z inp k : wf inp -> forall b len data, clean inp (slice_loop D z inp k b len data).
Proof.
  intros W. induction k as [|k IH]; intros b len data; [apply fuel_clean|]. cbn [slice_loop]. cbv zeta.
  destruct (match skip_spaces b with c :: _ => c =? 93 | [] => false end); [auto|].
  destruct (Nat.eqb len 0).
  - match goal with |- context [match d_err ?x with _ => _ end] => destruct (d_err x) end; auto.
  - destruct (skip_spaces b) as [|c b1]; [auto|]. destruct (c =? 44); [|auto].
    match goal with |- context [match d_err ?x with _ => _ end] => destruct (d_err x) end; auto.
Qed.
Lemma decode_slice_clean {A} (D : bytes -> A -> dres A) z b x : wf b -> clean b (decode_slice D z b x).
Proof.
  intros W. unfold decode_slice. destruct (has_null_prefix b); [auto|]. destruct (Nat.ltb (length b) 2); [auto|]. destruct b as [|c b1]; [auto|].
  destruct (c =? 91); [|auto]. apply slice_loop_clean, W.
Qed.
Lemma parse_err b r e : parseValue b = PErr r e -> e = ESyntax \/ model_only e.
Proof. intros E. destruct (proj1 (parse_syn _) b r e E) as [->| ->]; [left|right; right]; reflexivity. Qed.
Lemma in_err_any {A} b (x : A) : match d_err (in_err b x) with Some e => e = ESyntax \/ e = EType \/ model_only e | None => False end.
Proof.
  unfold in_err, input_error. destruct b as [|c b]; [left; reflexivity|]. destruct (parseValue (c :: b)) as [v r|r e] eqn:E; cbn [d_err]; [auto|].
  apply parse_err in E as [->|E]; auto.
Qed.
Lemma unquote_err b r e : parse_string_unquote b [] = QErr r e -> e = ESyntax \/ model_only e.
Proof.
  unfold parse_string_unquote. destruct (parse_string_fast b) as [v r0 esc|r0 e0] eqn:E.
  - destruct (negb esc); [discriminate|]. destruct (unquote_loop _ _ _); try discriminate. intros [= <- <-]. auto.
  - intros [= <- <-]. assert (P : parse_string b = PErr r0 e0) by (unfold parse_string; rewrite E; reflexivity).
    destruct (parse_string_syn b r0 e0 P) as [->| ->]; [left|right; right]; reflexivity.
Qed.
(** A key decoder that only reports syntax errors once objectKeyError has seen
    them. *)
Definition key_clean {K} (deck : bytes -> dres K) : Prop :=
  forall b, match d_err (deck b) with Some e => e = ESyntax \/ e = EType \/ model_only e | None => True end.
Lemma obj_key_clean {K} (deck : bytes -> dres K) first b : key_clean deck ->
  match obj_key deck first b with inl (_, e) => e = ESyntax \/ model_only e | inr _ => True end.
Proof.
  intros HK. unfold obj_key.
  assert (K1 : forall b, match (if has_null_prefix b then inl (b, ESyntax)
    else let x := deck b in match d_err x with
      | Some e => inl (key_error (d_rest x) e)
      | None => let b := skip_spaces (d_rest x) in match b with [] => inl (b, ESyntax)
          | c :: b1 => if c =? cCOLON then inr (skip_spaces b1, d_val x) else inl (b, ESyntax) end end) with
      inl (_, e) => e = ESyntax \/ model_only e | inr _ => True end).
  { clear b. intros b. destruct (has_null_prefix b); [left; reflexivity|]. cbv zeta. pose proof (HK b) as H. destruct (d_err (deck b)) as [e|].
    - unfold key_error. destruct (d_rest (deck b)); [left; reflexivity|]. destruct H as [->|[->|H]]; [left; reflexivity|left; reflexivity|].
      destruct H as [->| ->]; right; [left|right]; reflexivity.
    - destruct (skip_spaces (d_rest (deck b))) as [|c b1]; [left; reflexivity|]. destruct (c =? cCOLON); [exact I|left; reflexivity]. }
  destruct first; [apply K1|]. destruct b as [|c b1]; [left; reflexivity|].
  destruct (c =? cCOMMA); [apply K1|left; reflexivity].
Qed.
Lemma map_loop_clean {K A} eqb (deck : bytes -> dres K) (D : bytes -> A -> dres A) z inp fresh k : wf inp -> key_clean deck ->
  forall first b m, clean inp (map_loop eqb deck D z inp fresh k first b m).
Proof.
  intros WI HK. induction k as [|k IH]; intros first b m; [apply fuel_clean|]. cbn [map_loop]. cbv zeta.
  destruct (match skip_spaces b with c :: _ => c =? cRBRACE | [] => false end); [auto|].
  pose proof (obj_key_clean deck first (skip_spaces b) HK) as H.
  destruct (obj_key deck first (skip_spaces b)) as [[r e]|[r key]].
  - destruct H as [->|H]; [auto|]. right; left. exact H.
  - destruct (d_err (D r z)); auto.
Qed.
Lemma decode_map_clean {K A} eqb (deck : bytes -> dres K) (D : bytes -> A -> dres A) z b x : wf b -> key_clean deck ->
  clean b (decode_map eqb deck D z b x).
Proof.
  intros W HK. unfold decode_map. destruct (has_null_prefix b); [auto|]. destruct (Nat.ltb (length b) 2); [auto|]. destruct b as [|c b1]; [auto|].
  destruct (c =? cLBRACE); [|auto]. apply map_loop_clean; assumption.
Qed.
Lemma deck_name_clean : key_clean deck_name.
Proof.
  intros b. unfold deck_name. destruct (parse_string_unquote b []) as [s r i|r e| |] eqn:Q; cbn [d_err]; [exact I| | |].
  - apply unquote_err in Q as [->|Q]; auto.
  - right; right; left; reflexivity.
  - right; right; right; reflexivity.
Qed.
Lemma decode_string_any b x : match d_err (decode_string b x) with Some e => e = ESyntax \/ e = EType \/ model_only e | None => True end.
Proof.
  unfold decode_string. destruct (has_null_prefix b); [exact I|]. pose proof (in_err_any b x) as IE.
  destruct (parse_string_unquote b []) as [s r i|r e| |] eqn:Q; cbn [d_err]; [exact I| | |].
  - destruct b as [|c b1]; [auto|]. destruct (c =? cQUOTE); [|destruct (d_err (in_err (c :: b1) x)); auto]. cbn [d_err]. apply unquote_err in Q as [->|Q]; auto.
  - right; right; left; reflexivity.
  - right; right; right; reflexivity.
Qed.
Lemma decode_int_any it b x : match d_err (decode_int it b x) with Some e => e = ESyntax \/ e = EType \/ model_only e | None => True end.
Proof.
  unfold decode_int. destruct (has_null_prefix b); [exact I|]. fold (parse_sint it b). destruct (parse_sint it b) as [v r|r e] eqn:E.
  - destruct (out_of_range it v); cbn [d_err]; auto.
  - cbn [d_err]. apply sint_err in E as [->|[->| ->]]; auto. pose proof (in_err_any b x) as IE. unfold in_err in IE. destruct (input_error b); exact IE.
Qed.
Lemma string_key_clean V : key_clean (decode_key V KYString).
Proof. intros b. cbn [decode_key]. exact (decode_string_any b []). Qed.
Lemma int_key_clean V it : key_clean (decode_key V (KYInt it)).
Proof.
  intros b. cbn [decode_key]. change (d_err (d_map MKInt ?d)) with (d_err d). unfold decode_from_string. destruct (has_null_prefix b); [apply decode_int_any|].
  destruct (parse_string_unquote b []) as [s r i|r e| |] eqn:Q; cbn [d_map d_err].
  - pose proof (decode_int_any it s 0) as H. cbv zeta. destruct (d_err (decode_int it s 0)); [exact H|]. destruct (skip_spaces _); cbn [d_err]; auto.
  - left; reflexivity.
  - right; right; left; reflexivity.
  - right; right; right; reflexivity.
Qed.
Lemma struct_loop_clean {A} (look : bytes -> option (bytes -> A -> dres A)) inp k : wf inp ->
  forall first b m, clean inp (struct_loop look false inp k first b m).
Proof.
  intros WI. induction k as [|k IH]; intros first b m; [apply fuel_clean|]. cbn [struct_loop]. cbv zeta.
  destruct (match skip_spaces b with c :: _ => c =? cRBRACE | [] => false end); [auto|].
  pose proof (obj_key_clean deck_name first (skip_spaces b) deck_name_clean) as H. unfold deck_name in H.
  match goal with |- context [obj_key ?d first (skip_spaces b)] => destruct (obj_key d first (skip_spaces b)) as [[r e]|[r key]] end.
  - destruct H as [->|H]; [auto|]. right; left. exact H.
  - destruct (look key) as [D|] eqn:EL; [destruct (d_err (D r m)); auto|].
    destruct (parseValue r) as [v r2|r2 e] eqn:E; [apply IH|]. apply parse_err in E as [->|E]; [auto|]. right; left; exact E.
Qed.
Lemma decode_struct_clean {A} look b (x : A) : wf b -> clean b (decode_struct look false b x).
Proof.
  intros W. unfold decode_struct. destruct (has_null_prefix b); [auto|]. destruct (Nat.ltb (length b) 2); [auto|]. destruct b as [|c b1]; [auto|].
  destruct (c =? cLBRACE); [|auto]. apply struct_loop_clean; assumption.
Qed.
Lemma decode_string_clean b x : wf b -> clean b (decode_string b x).
Proof.
  intros W. unfold decode_string. destruct (has_null_prefix b); [auto|]. destruct (unquote_cases b W) as [(lit & r & i & SL & E & Q)|(r & Q)]; rewrite Q; [auto|].
  destruct b as [|c b1]; [auto|]. destruct (c =? cQUOTE); auto.
Qed.
Lemma parse_clean {A} b (f : bytes -> bytes -> dres A) cur : wf b -> (forall v r, parseValue b = POk v r -> clean b (f v r)) ->
  clean b (match parseValue b with POk v r => f v r | PErr r e => DR r (Some e) cur end).
Proof. intros W H. pose proof (parse_takes b W) as P. destruct (parseValue b) as [v r|r e]; [apply H; reflexivity|]. subst e. auto. Qed.
Lemma read_clean {A} b v r o (x : A) : wf b -> parseValue b = POk v r -> clean b (DR r o x).
Proof.
  intros W E. destruct o as [e|]; [|auto]. unfold clean. cbn [d_err d_rest]. pose proof (parse_takes b W) as P. rewrite E in P. destruct P as (_ & _ & _ & -> & a & J).
  right; right. eapply value_read_value, J.
Qed.
Lemma iface_clean un pf b x : wf b -> clean b (decode_interface un pf b x).
Proof.
  intros W. pose proof (parse_takes b W) as PT. unfold decode_interface. destruct (parseValue b) as [v r|r e] eqn:E.
  - destruct PT as (_ & _ & _ & _ & a & J). pose proof (parseValue_complete v a [] J I) as P2. rewrite app_nil_r in P2.
    destruct (iface_split un pf (length b) b v r x E P2) as (o & y & E3 & _). rewrite E3. eapply read_clean; eassumption.
  - subst e. cbn [dec_iface]. rewrite E. auto.
Qed.
Lemma text_user_clean V u b x : wf b -> clean b (decode_text_user V u b x).
Proof.
  intros W. unfold decode_text_user. apply parse_clean; [exact W|]. intros v r E. destruct (rv_null v); [destruct (parse_null v); eapply read_clean; eassumption|].
  destruct (rv_string v); [|eapply read_clean; eassumption]. destruct (parse_string_unquote v []) as [s r2 i|r2 e| |]; auto; [|eapply read_clean; eassumption].
  destruct (v_text V u s x). eapply read_clean; eassumption.
Qed.

Section Types.
Context (V : tenv) (F : dflags).
Notation dec_ty := (dec_ty V F).

Lemma quoted_clean {A} (prs : bytes -> option A) b x : wf b -> clean b (decode_quoted prs b x).
Proof.
  intros W. unfold decode_quoted. destruct (Nat.ltb (length b) 2); [auto|]. destruct b as [|c b1] eqn:E; [auto|]. rewrite <- E in *.
  destruct (negb (c =? cQUOTE)); [auto|]. destruct (index_byte cQUOTE b1); [|auto]. destruct (prs _); auto.
Qed.
Lemma dec_ty_clean n t b x : plain_target F t -> wf b -> clean b (dec_ty n t b x).
Proof.
  revert x. induction t; intros x P W; rewrite dec_ty_eq; cbn [plain_target] in P; try contradiction; destruct x; try (apply panic_clean); try (destruct n; [apply fuel_clean|apply panic_clean]).
  - unfold decode_bool. apply d_map_clean. repeat match goal with |- context [if ?c then _ else _] => destruct c end; auto.
  - apply d_map_clean. unfold decode_float. destruct (has_null_prefix b); [auto|]. destruct (parse_number b); [destruct (v_float V _ _)|]; auto.
  - apply d_map_clean. unfold decode_number. destruct (has_null_prefix b); [auto|]. destruct (parse_number b); auto.
  - apply d_map_clean, decode_string_clean, W.
  - apply d_map_clean. unfold decode_bytes. destruct (has_null_prefix b); [auto|]. destruct (Nat.ltb (length b) 2); [auto|]. destruct b as [|c b1] eqn:E; [auto|]. rewrite <- E in *.
    destruct (negb (c =? cQUOTE)); [destruct (c =? cLBRACK); [apply decode_slice_clean, W|auto]|].
    destruct (unquote_cases b W) as [(lit & r & i & SL & E2 & Q)|(r & Q)]; rewrite Q; [|auto]. destruct (v_b64 V _); [auto|].
    right; right. cbn [d_rest]. rewrite E2. exact (value_read_value lit (JStr lit) r (V_str lit SL)).
  - apply d_map_clean. unfold decode_duration. destruct (has_null_prefix b); [auto|]. destruct b as [|c b1] eqn:E; [apply quoted_clean, W|]. rewrite <- E in *.
    destruct (negb (c =? cQUOTE)); [destruct (parse_int b); auto|apply quoted_clean, W].
  - apply d_map_clean. unfold decode_time. destruct (has_null_prefix b); [auto|]. apply quoted_clean, W.
  - apply d_map_clean, iface_clean, W.
  - destruct (has_null_prefix b); [auto|].
    assert (TE : clean b (decode_type_error b (MIface v))).
    { unfold decode_type_error. apply parse_clean; [exact W|]. intros v0 r E. eapply read_clean; eassumption. }
    destruct v; try exact TE. destruct empty; [|exact TE]. apply d_map_clean. unfold parse_with.
    pose proof (iface_clean (d_usenum F) (v_float V true) (skip_spaces b) JVNull (wf_skip_spaces b W)) as H.
    clear TE. unfold clean in *. cbn [d_err d_rest]. destruct (decode_interface (d_usenum F) (v_float V true) (skip_spaces b) JVNull) as [rr o y]. cbn [d_err d_rest] in *. destruct o as [e|]; [|exact I]. destruct H as [H|[H|H]]; [left; exact H|right; left; exact H|right; right].
    destruct H as (w0 & s & a & w1 & W0 & J & W1 & E). destruct (skip_read b W) as (w & Ww & Eb & _).
    destruct (skip_spaces_split rr) as (w2 & Ww2 & Er & _).
    exists (w ++ w0), s, a, (w1 ++ w2). split; [apply ws_app; assumption|]. split; [exact J|]. split; [apply ws_app; assumption|].
    rewrite Eb, E. rewrite Er at 1. appn. reflexivity.
  - apply d_map_clean. unfold decode_raw. destruct (parseValue b); auto.
  - apply d_map_clean, decode_slice_clean, W.
  - apply d_map_clean, decode_map_clean; [exact W|]. destruct k; [apply string_key_clean|apply int_key_clean|contradiction].
  - apply d_map_clean, decode_map_clean; [exact W|apply string_key_clean].
  - apply d_map_clean, decode_map_clean; [exact W|apply string_key_clean].
  - destruct (has_null_prefix b); [destruct p; [destruct t; auto; apply d_map_clean, IHt; assumption|auto]|]. apply d_map_clean, IHt; assumption.
  - destruct n; [apply fuel_clean|]. rewrite P. apply decode_struct_clean, W.
  - apply d_map_clean. unfold decode_json_user. apply parse_clean; [exact W|]. intros v r E. destruct (rv_null v); [auto|]. destruct (v_json V u v s). eapply read_clean; eassumption.
  - apply d_map_clean, text_user_clean, W.
  - unfold decode_type_error. apply parse_clean; [exact W|]. intros v r E. eapply read_clean; eassumption.
Qed.
End Types.

(** * Texts that are JSON *)
(** On the text of [nd] the decoder reports no syntax error; if [top], whatever
    it reports, it has read the whole value. *)
Definition quiet {A} (top : Prop) (D : bytes -> A -> dres A) (nd : node) (x : A) : Prop :=
  forall r, stops nd r ->
  match d_err (D (ntext nd ++ r) x) with
  | None => skip_spaces (d_rest (D (ntext nd ++ r) x)) = skip_spaces r
  | Some e => e <> ESyntax /\ (top -> e = EPanicked \/ skip_spaces (d_rest (D (ntext nd ++ r) x)) = skip_spaces r)
  end.
Lemma quiet_weaken {A} (P Q : Prop) (D : bytes -> A -> dres A) nd x : (Q -> P) -> quiet P D nd x -> quiet Q D nd x.
Proof. intros H q r NS. specialize (q r NS). destruct (d_err _); [|exact q]. destruct q. auto. Qed.
Lemma err_quiet {A} top (D : bytes -> A -> dres A) nd x : jnode nd ->
  (forall r, stops nd r -> D (ntext nd ++ r) x = in_err (ntext nd ++ r) x) -> quiet top D nd x.
Proof.
  intros J H r NS. rewrite (H r NS), (node_in_err nd r x J NS). cbn [d_err d_rest]. split; [discriminate|]. intros _. right. apply skip_spaces_idem.
Qed.

Section SliceQ.
Context {A : Type} (D : bytes -> A -> dres A) (z : A) (inp : bytes) (N : nat).
Hypothesis HQ : forall nd old, jnode nd -> (length (ntext nd) <= N)%nat -> quiet False D nd old.
Definition ends_well {B} (d : dres B) (inp r : bytes) : Prop :=
  match d_err d with
  | None => d_rest d = r
  | Some e => exists e' x, e' <> ESyntax /\ d = elem_err inp e' x
  end.
Lemma slice_elems_quiet s l : nelems s l -> forall k w len data r, (length s <= N)%nat -> (length s < k)%nat -> sepw (Nat.eqb len 0) w ->
  ends_well (slice_loop D z inp k (w ++ s ++ 93 :: r) len data) inp r.
Proof.
  assert (ST : forall k v x len d r, jnode v -> num_stop x -> (length (ntext v) <= N)%nat ->
    (forall b' data, skip_spaces b' = skip_spaces x -> ends_well (slice_loop D z inp k b' (S len) data) inp r) ->
    ends_well (slice_elem D z inp k (ntext v ++ x) len d) inp r).
  { intros k v x len d r J NX LN C. unfold slice_elem. cbv zeta. set (dd := if Nat.eqb len (length d) then grow z d else d).
    pose proof (HQ v (nth len dd z) J LN x (stop_any _ _ NX)) as q. destruct (d_err (D (ntext v ++ x) (nth len dd z))) as [e|]; [|apply C, q].
    unfold ends_well. destruct (elem_err inp e _) as [r1 [e1|] y] eqn:E; cbn [d_err d_rest].
    - exists e. eexists. split; [apply q|]. symmetry. exact E.
    - unfold elem_err in E. destruct (parseValue inp); discriminate. }
  induction 1 as [w1 v w2 W1 J W2|w1 v w2 t l W1 J W2 NE IH]; intros k w len data r LN Lk SW; (destruct k as [|k]; [lia|]);
    rewrite !app_length in LN, Lk; cbn [length] in LN, Lk; destruct (node_start v J) as (Sn & Sh & Se & _);
    assert (Lv : (0 < length (ntext v))%nat) by (destruct (ntext v); [congruence|cbn; lia]); repeat (rewrite <- app_assoc; cbn [app]);
    (rewrite slice_step; [|exact W1|exact SW|apply nsp_app; assumption|rewrite hd_app by exact Se; exact Sh|apply app_nn, Se]).
  - apply ST; [exact J|apply num_stop_brack, W2|lia|]. intros b' data' E. destruct k as [|k]; [lia|].
    rewrite (slice_cong D z inp k b' (w2 ++ 93 :: r)) by exact E. rewrite slice_close by exact W2. reflexivity.
  - apply ST; [exact J|apply num_stop_comma, W2|lia|]. intros b' data' E. destruct k as [|k]; [lia|].
    rewrite (slice_cong D z inp k b' ((w2 ++ [44]) ++ t ++ 93 :: r)) by (rewrite E; appn; reflexivity).
    apply IH; [lia|lia|]. right. split; [reflexivity|]. eauto.
Qed.
End SliceQ.
Lemma ends_quiet {B} (d : dres B) nd r : jnode nd -> stops nd r -> ends_well d (ntext nd ++ r) r ->
  match d_err d with None => skip_spaces (d_rest d) = skip_spaces r | Some e => e <> ESyntax /\ (True -> e = EPanicked \/ skip_spaces (d_rest d) = skip_spaces r) end.
Proof.
  intros J NS H. unfold ends_well in H. destruct (d_err d) as [e|] eqn:E; [|rewrite H; reflexivity].
  destruct H as (e' & x & NE & ->). unfold elem_err in *. rewrite (node_parse nd r J NS) in *. cbn [d_err d_rest] in *. injection E as <-. auto.
Qed.
Lemma decode_slice_quiet {A} (D : bytes -> A -> dres A) z nd x : jnode nd ->
  (forall nd' x, jnode nd' -> (length (ntext nd') < length (ntext nd))%nat -> quiet False D nd' x) -> quiet True (decode_slice D z) nd x.
Proof.
  intros J HQ. assert (J' := J).
  destruct J as [| | |s H|s H|w W|s l H|w W|s l H];
    try (apply err_quiet; [exact J'|]; intros r NS; unfold decode_slice;
         rewrite (null_only _ r J' NS); cbn [nshape]; pose proof (not_open _ r 91 J' NS) as NO; cbn [nshape] in NO;
         specialize (NO ltac:(first [lia|left; reflexivity])); cbv iota; destruct (Nat.ltb _ 2); [reflexivity|];
         destruct (ntext _ ++ r); [reflexivity|]; rewrite NO; reflexivity).
  - intros r NS. unfold decode_slice. rewrite (null_only _ r J' NS). reflexivity.
  - intros r NS. cbn [ntext] in *. unfold decode_slice. change (has_null_prefix _) with false.
    rewrite ltb2 by (cbn [length]; rewrite app_length; cbn; lia). cbv iota. cbn [app]. rewrite Z.eqb_refl.
    rewrite <- app_assoc. cbn [app]. rewrite slice_close by exact W. reflexivity.
  - intros r NS. apply (ends_quiet _ _ r J' NS). cbn [ntext] in *. unfold decode_slice. change (has_null_prefix _) with false.
    rewrite ltb2 by (cbn [length]; rewrite app_length; cbn; lia). cbv iota. cbn [app]. rewrite Z.eqb_refl.
    rewrite <- app_assoc. cbn [app].
    apply (slice_elems_quiet D z _ (length s)) with (w := []) (l := l); [|exact H|lia|cbn [length]; rewrite app_length; lia|left; auto].
    intros nd' y Jn Ln. apply HQ; [exact Jn|]. cbn [length]. rewrite app_length. lia.
Qed.

Section MapQ.
Context {K A : Type} (eqb : K -> K -> bool) (deck : bytes -> dres K) (D : bytes -> A -> dres A) (z : A) (inp : bytes) (fresh : bool) (N : nat).
Hypothesis HQ : forall nd, jnode nd -> (length (ntext nd) <= N)%nat -> quiet False D nd z.
Hypothesis HK : forall lit r, string_lit lit -> exists k, deck (lit ++ r) = DR r None k.
Notation loop := (map_loop eqb deck D z inp fresh).
Lemma map_one_quiet k first w w1 lit w2 w3 v x m r rest :
  sepw first w -> ws w1 -> string_lit lit -> ws w2 -> ws w3 -> jnode v -> num_stop x -> (length (ntext v) <= N)%nat ->
  (forall b m', skip_spaces b = skip_spaces x -> ends_well (loop k false b m') inp r) ->
  rest = w ++ w1 ++ lit ++ w2 ++ 58 :: w3 ++ ntext v ++ x -> ends_well (loop (S k) first rest m) inp r.
Proof.
  intros SW W1 SL W2 W3 J NX LN C ->. destruct (node_start v J) as (Sn & _ & Se & _).
  destruct (HK lit (w2 ++ 58 :: w3 ++ ntext v ++ x) SL) as (key & K1).
  rewrite (map_step eqb deck D z inp fresh k first w w1 lit w2 w3 (ntext v ++ x) key m SW W1 SL W2 W3 (nsp_app _ _ Sn Se) K1). cbv zeta.
  pose proof (HQ v J LN x (stop_any _ _ NX)) as q. destruct (d_err (D (ntext v ++ x) z)) as [e|]; [|apply C, q].
  unfold ends_well. destruct (elem_err inp e _) as [r1 [e1|] y] eqn:E; cbn [d_err d_rest].
  - exists e. eexists. split; [apply q|]. symmetry. exact E.
  - unfold elem_err in E. destruct (parseValue inp); discriminate.
Qed.
Lemma map_quiet s l : nmembers s l -> forall k first w b m r, (length s <= N)%nat -> (length s < k)%nat -> sepw first w ->
  skip_spaces b = skip_spaces (w ++ s ++ 125 :: r) -> ends_well (loop k first b m) inp r.
Proof.
  assert (cg : forall k first b b' m r, skip_spaces b = skip_spaces b' -> ends_well (loop (S k) first b' m) inp r -> ends_well (loop (S k) first b m) inp r).
  { intros k first b b' m r E. rewrite (map_cong eqb deck D z inp fresh k first b b' m E). auto. }
  induction 1 as [w1 lit w2 w3 v w4 W1 SL W2 W3 J W4|w1 lit w2 w3 v w4 t l W1 SL W2 W3 J W4 NM IH]; intros k first w b m r LN Lk SW E;
    rewrite !app_length in LN, Lk; cbn [length] in LN, Lk; rewrite !app_length in LN, Lk; cbn [length] in LN, Lk; (destruct k as [|k]; [lia|]); apply (cg _ _ _ _ _ _ E);
    destruct (node_start v J) as (_ & _ & Se & _); assert (Lv : (0 < length (ntext v))%nat) by (destruct (ntext v); [congruence|cbn; lia]).
  - eapply (map_one_quiet k first w w1 lit w2 w3 v (w4 ++ 125 :: r)); try eassumption; [apply num_stop_brace, W4|lia| |appn; reflexivity].
    intros b' m' E'. destruct k as [|k]; [lia|]. apply (cg _ _ _ _ _ _ E'). rewrite map_close by exact W4. reflexivity.
  - eapply (map_one_quiet k first w w1 lit w2 w3 v (w4 ++ 44 :: t ++ 125 :: r)); try eassumption; [apply num_stop_comma, W4|lia| |appn; reflexivity].
    intros b' m' E'. apply (IH k false (w4 ++ [44])); [lia|lia|right; split; [reflexivity|eauto]|]. rewrite E'. appn. reflexivity.
Qed.
End MapQ.
Lemma decode_map_quiet {K A} (eqb : K -> K -> bool) deck (D : bytes -> A -> dres A) z nd x : jnode nd ->
  (forall nd', jnode nd' -> (length (ntext nd') < length (ntext nd))%nat -> quiet False D nd' z) ->
  (forall lit r, string_lit lit -> exists k, deck (lit ++ r) = DR r None k) -> quiet True (decode_map eqb deck D z) nd x.
Proof.
  intros J HQ HK. assert (J' := J).
  destruct J as [| | |s H|s H|w W|s l H|w W|s l H];
    try (apply err_quiet; [exact J'|]; intros r NS; unfold decode_map;
         rewrite (null_only _ r J' NS); cbn [nshape]; pose proof (not_open _ r 123 J' NS) as NO; cbn [nshape] in NO;
         specialize (NO ltac:(first [lia|right; reflexivity])); cbv iota; destruct (Nat.ltb _ 2); [reflexivity|];
         destruct (ntext _ ++ r); [reflexivity|]; rewrite NO; reflexivity).
  - intros r NS. unfold decode_map. rewrite (null_only _ r J' NS). reflexivity.
  - intros r NS. cbn [ntext] in *. unfold decode_map. change (has_null_prefix _) with false.
    rewrite ltb2 by (cbn [length]; rewrite app_length; cbn; lia). cbv iota. cbn [app]. rewrite Z.eqb_refl.
    rewrite <- app_assoc. cbn [app]. rewrite map_close by exact W. reflexivity.
  - intros r NS. apply (ends_quiet _ _ r J' NS). cbn [ntext] in *. unfold decode_map. change (has_null_prefix _) with false.
    rewrite ltb2 by (cbn [length]; rewrite app_length; cbn; lia). cbv iota. cbn [app]. rewrite Z.eqb_refl.
    rewrite <- app_assoc. cbn [app].
    apply (map_quiet eqb deck D z _ _ (length s)) with (w := []) (s := s) (l := l); [|exact HK|exact H|lia|cbn [length]; rewrite app_length; lia|left; auto|reflexivity].
    intros nd' Jn Ln. apply HQ; [exact Jn|]. cbn [length]. rewrite app_length. lia.
Qed.

Section StructQ.
Context {A : Type} (look : bytes -> option (bytes -> A -> dres A)) (inp : bytes) (N : nat).
Hypothesis HQ : forall k D nd x, look k = Some D -> jnode nd -> (length (ntext nd) <= N)%nat -> quiet False D nd x.
Notation loop := (struct_loop look false inp).
Lemma struct_one_quiet k first w w1 lit w2 w3 v x m r rest :
  sepw first w -> ws w1 -> string_lit lit -> ws w2 -> ws w3 -> jnode v -> num_stop x -> (length (ntext v) <= N)%nat ->
  (forall b m', skip_spaces b = skip_spaces x -> ends_well (loop k false b m') inp r) ->
  rest = w ++ w1 ++ lit ++ w2 ++ 58 :: w3 ++ ntext v ++ x -> ends_well (loop (S k) first rest m) inp r.
Proof.
  intros SW W1 SL W2 W3 J NX LN C ->. destruct (node_start v J) as (Sn & _ & Se & _).
  assert (K1 : deck_name (lit ++ w2 ++ 58 :: w3 ++ ntext v ++ x) = DR (w2 ++ 58 :: w3 ++ ntext v ++ x) None (str_text lit)).
  { unfold deck_name. destruct (string_lit_unquote lit (w2 ++ 58 :: w3 ++ ntext v ++ x) SL) as [i ->]. reflexivity. }
  destruct (obj_key_ok deck_name first w w1 lit w2 w3 (ntext v ++ x) (str_text lit) SW W1 SL W2 W3 (nsp_app _ _ Sn Se) K1) as [C1 C2].
  cbn [struct_loop]. unfold is_close in C1. rewrite C1. unfold deck_name in C2. rewrite C2. clear C1 C2 K1.
  destruct (look (str_text lit)) as [decf|] eqn:EL.
  - cbv zeta. pose proof (HQ _ _ v m EL J LN x (stop_any _ _ NX)) as q. destruct (d_err (decf (ntext v ++ x) m)) as [e|]; [|apply C, q].
    unfold ends_well. destruct (elem_err inp e _) as [r1 [e1|] y] eqn:E; cbn [d_err d_rest].
    + exists e. eexists. split; [apply q|]. symmetry. exact E.
    + unfold elem_err in E. destruct (parseValue inp); discriminate.
  - rewrite (node_parse v x J (stop_any _ _ NX)). apply C. reflexivity.
Qed.
Lemma struct_quiet s l : nmembers s l -> forall k first w b m r, (length s <= N)%nat -> (length s < k)%nat -> sepw first w ->
  skip_spaces b = skip_spaces (w ++ s ++ 125 :: r) -> ends_well (loop k first b m) inp r.
Proof.
  assert (cg : forall k first b b' m r, skip_spaces b = skip_spaces b' -> ends_well (loop (S k) first b' m) inp r -> ends_well (loop (S k) first b m) inp r).
  { intros k first b b' m r E. rewrite (struct_cong look false inp k first b b' m E). auto. }
  induction 1 as [w1 lit w2 w3 v w4 W1 SL W2 W3 J W4|w1 lit w2 w3 v w4 t l W1 SL W2 W3 J W4 NM IH]; intros k first w b m r LN Lk SW E;
    rewrite !app_length in LN, Lk; cbn [length] in LN, Lk; rewrite !app_length in LN, Lk; cbn [length] in LN, Lk; (destruct k as [|k]; [lia|]); apply (cg _ _ _ _ _ _ E);
    destruct (node_start v J) as (_ & _ & Se & _); assert (Lv : (0 < length (ntext v))%nat) by (destruct (ntext v); [congruence|cbn; lia]).
  - eapply (struct_one_quiet k first w w1 lit w2 w3 v (w4 ++ 125 :: r)); try eassumption; [apply num_stop_brace, W4|lia| |appn; reflexivity].
    intros b' m' E'. destruct k as [|k]; [lia|]. apply (cg _ _ _ _ _ _ E'). rewrite struct_close by exact W4. reflexivity.
  - eapply (struct_one_quiet k first w w1 lit w2 w3 v (w4 ++ 44 :: t ++ 125 :: r)); try eassumption; [apply num_stop_comma, W4|lia| |appn; reflexivity].
    intros b' m' E'. apply (IH k false (w4 ++ [44])); [lia|lia|right; split; [reflexivity|eauto]|]. rewrite E'. appn. reflexivity.
Qed.
End StructQ.
Lemma decode_struct_quiet {A} (look : bytes -> option (bytes -> A -> dres A)) nd x : jnode nd ->
  (forall k D nd' x, look k = Some D -> jnode nd' -> (length (ntext nd') < length (ntext nd))%nat -> quiet False D nd' x) ->
  quiet True (decode_struct look false) nd x.
Proof.
  intros J HQ. assert (J' := J).
  destruct J as [| | |s H|s H|w W|s l H|w W|s l H];
    try (apply err_quiet; [exact J'|]; intros r NS; unfold decode_struct;
         rewrite (null_only _ r J' NS); cbn [nshape]; pose proof (not_open _ r 123 J' NS) as NO; cbn [nshape] in NO;
         specialize (NO ltac:(first [lia|right; reflexivity])); cbv iota; destruct (Nat.ltb _ 2); [reflexivity|];
         destruct (ntext _ ++ r); [reflexivity|]; rewrite NO; reflexivity).
  - intros r NS. unfold decode_struct. rewrite (null_only _ r J' NS). reflexivity.
  - intros r NS. cbn [ntext] in *. unfold decode_struct. change (has_null_prefix _) with false.
    rewrite ltb2 by (cbn [length]; rewrite app_length; cbn; lia). cbv iota. cbn [app]. rewrite Z.eqb_refl.
    rewrite <- app_assoc. cbn [app]. rewrite struct_close by exact W. reflexivity.
  - intros r NS. apply (ends_quiet _ _ r J' NS). cbn [ntext] in *. unfold decode_struct. change (has_null_prefix _) with false.
    rewrite ltb2 by (cbn [length]; rewrite app_length; cbn; lia). cbv iota. cbn [app]. rewrite Z.eqb_refl.
    rewrite <- app_assoc. cbn [app].
    apply (struct_quiet look _ (length s)) with (w := []) (s := s) (l := l); [|exact H|lia|cbn [length]; rewrite app_length; lia|left; auto|reflexivity].
    intros k D nd' y EL Jn Ln. eapply HQ; [exact EL|exact Jn|]. cbn [length]. rewrite app_length. lia.
Qed.

(** Under DisallowUnknownFields a struct behaves the same as without until a
    member is unknown. *)
Lemma struct_loop_dis {A} (look : bytes -> option (bytes -> A -> dres A)) inp k : forall first b x,
  d_err (struct_loop look true inp k first b x) = Some EOther \/ struct_loop look true inp k first b x = struct_loop look false inp k first b x.
Proof.
  induction k as [|k IH]; intros first b x; [right; reflexivity|]. cbn [struct_loop]. cbv zeta.
  destruct (match skip_spaces b with c :: _ => c =? cRBRACE | [] => false end); [right; reflexivity|].
  destruct (obj_key _ first (skip_spaces b)) as [[r e]|[b' key]]; [right; reflexivity|].
  destruct (look key) as [D|]; [|left; reflexivity]. destruct (d_err (D b' x)); [right; reflexivity|]. apply IH.
Qed.
Lemma struct_quiet_dis {A} (look : bytes -> option (bytes -> A -> dres A)) nd x : quiet True (decode_struct look false) nd x -> quiet False (decode_struct look true) nd x.
Proof.
  intros q r NS. specialize (q r NS).
  assert (X : d_err (decode_struct look true (ntext nd ++ r) x) = Some EOther \/ decode_struct look true (ntext nd ++ r) x = decode_struct look false (ntext nd ++ r) x).
  { unfold decode_struct. destruct (has_null_prefix _); [right; reflexivity|]. destruct (Nat.ltb _ 2); [right; reflexivity|]. destruct (ntext nd ++ r) as [|c b1]; [right; reflexivity|].
    destruct (c =? cLBRACE); [apply struct_loop_dis|right; reflexivity]. }
  destruct X as [X|X]; rewrite X; [split; [discriminate|contradiction]|]. destruct (d_err _); [|exact q]. split; [apply q|contradiction].
Qed.

(** * Types, on JSON *)
Lemma meets_quiet {A} (top : Prop) (D : bytes -> A -> dres A) R nd x : meets D R nd x ->
  (forall r r1 e y, stops nd r -> D (ntext nd ++ r) x = DR r1 (Some e) y -> e <> ESyntax /\ (top -> e = EPanicked \/ skip_spaces r1 = skip_spaces r)) ->
  quiet top D nd x.
Proof.
  intros M H r NS. specialize (H r). destruct (M r NS) as [(r1 & y & E & E2 & _)|(r1 & e & y & E & _)]; rewrite E in *; cbn [d_err d_rest].
  - exact E2.
  - eapply H; [exact NS|reflexivity].
Qed.
Lemma map_quiet_eq {A B} top (D : bytes -> A -> dres A) (D' : bytes -> B -> dres B) (f : A -> B) nd x y :
  (forall b, D' b y = d_map f (D b x)) -> quiet top D nd x -> quiet top D' nd y.
Proof. intros E q r NS. rewrite E. exact (q r NS). Qed.
Lemma in_err_only {A} nd r r1 e (x y : A) (top : Prop) : jnode nd -> stops nd r -> in_err (ntext nd ++ r) x = DR r1 (Some e) y ->
  e <> ESyntax /\ (top -> e = EPanicked \/ skip_spaces r1 = skip_spaces r).
Proof. intros J NS. rewrite (node_in_err nd r x J NS). intros [= <- <- <-]. split; [discriminate|]. intros _. right. apply skip_spaces_idem. Qed.
Lemma number_no_zero s r : number_lit s -> num_stop r -> leading_zero (s ++ r) = false /\ (forall t, s = 45 :: t -> t <> [] /\ leading_zero (t ++ r) = false).
Proof.
  intros H NS. destruct H as [sg int fr ex SG IL FR EX].
  assert (ND : ndig (fr ++ ex ++ r)).
  { destruct FR as [|ds DS]; [|reflexivity]. cbn [app]. destruct EX as [|c ? ? Hc]; [apply num_stop_ndig, NS|]. cbn. destruct Hc as [->| ->]; reflexivity. }
  destruct SG as [->| ->]; cbn [app].
  - split; [rewrite <- app_assoc, <- app_assoc; apply int_lit_no_leading_zero; assumption|].
    intros t E. exfalso. destruct IL; discriminate E || (injection E; intros; subst; lia).
  - split; [cbn; destruct ((int ++ fr ++ ex) ++ r); reflexivity|]. intros t [= <-]. split.
    + destruct IL; discriminate.
    + rewrite <- app_assoc, <- app_assoc; apply int_lit_no_leading_zero; assumption.
Qed.
Lemma int_quiet it nd x : jnode nd -> quiet False (decode_int it) nd x.
Proof.
  intros J. eapply meets_quiet; [apply int_meets, J|]. intros r r1 e y NS. unfold decode_int. destruct (has_null_prefix (ntext nd ++ r)); [discriminate|].
  fold (parse_sint it (ntext nd ++ r)). destruct (parse_sint it (ntext nd ++ r)) as [v r'|r' e'] eqn:E.
  - destruct (out_of_range it v); [|discriminate]. intros [= <- <- <-]. split; [discriminate|contradiction].
  - intros [= <- <- <-]. split; [|contradiction].
    assert (LZ : leading_zero (ntext nd ++ r) = false /\ forall t, ntext nd ++ r = 45 :: t -> t <> [] /\ leading_zero t = false).
    { destruct (nshape nd) eqn:S.
      4:{ destruct (number_no_zero _ r (num_node_inv nd J S) (stops_num nd r S NS)) as [L1 L2]. split; [exact L1|]. intros t Et.
          destruct (node_start nd J) as (_ & _ & Se & _). destruct (ntext nd) as [|c s] eqn:En; [congruence|]. cbn [app] in Et. injection Et as -> <-.
          destruct (L2 s eq_refl) as [H1 H2]. split; [apply app_nn, H1|exact H2]. }
      all: destruct (head_only nd r J NS) as (c & t & Ec & Hc); rewrite S in Hc; rewrite Ec; (split;
        [cbn [leading_zero]; destruct t; [reflexivity|]; destruct (c =? 48) eqn:C; [apply Z.eqb_eq in C; lia|reflexivity]|intros t0 [= -> ->]; lia]). }
    destruct LZ as [L1 L2].
    assert (IE : forall (l : lres) (f : Z -> nat -> ires), (forall v c r e, f v c = IErr r e -> e = EType) ->
      match l with LInput => let '(r, e) := input_error (ntext nd ++ r) in IErr r e | LOverflow => IErr (ntext nd ++ r) EType | LOk v c => f v c end = IErr r' e' -> e' <> ESyntax).
    { intros l f Hf. pose proof (node_input_error nd r J NS) as NI. destruct l; [intros H; apply Hf in H; subst; discriminate| |intros [= _ <-]; discriminate].
      destruct (input_error (ntext nd ++ r)) as [r2 e2]. cbn [snd] in NI. subst e2. intros [= _ <-]. discriminate. }
    unfold parse_sint in E. destruct (signed it).
    + unfold parse_int in E. destruct (ntext nd ++ r) as [|c b1] eqn:Eb; [destruct (head_only nd r J NS) as (? & ? & Ec & _); congruence|].
      destruct (c =? 45) eqn:C.
      * apply Z.eqb_eq in C. subst c. destruct (L2 b1 eq_refl) as [H1 H2]. destruct b1 as [|c2 b2] eqn:E2; [congruence|]. rewrite H2 in E.
        revert E. apply (IE _ (fun v c => int_finish _ v (Datatypes.S c))). intros. eapply int_finish_err; eassumption.
      * rewrite L1 in E. revert E. apply (IE _ (fun v c => int_finish _ v c)). intros. eapply int_finish_err; eassumption.
    + unfold parse_uint in E. destruct (ntext nd ++ r) as [|c b1] eqn:Eb; [destruct (head_only nd r J NS) as (? & ? & Ec & _); congruence|].
      rewrite L1 in E. revert E. apply (IE _ (fun v c => int_finish _ v c)). intros. eapply int_finish_err; eassumption.
Qed.

Section TypesQ.
Context (V : tenv) (F : dflags) (OK : env_ok V) (ME : mild_env V).
Notation dec_ty := (dec_ty V F).

Lemma find_field_in fs k f : find_field V F fs k = Some f -> In f fs.
Proof.
  unfold find_field. destruct (find _ (rev fs)) as [g|] eqn:E; [intros [= <-]; apply find_some in E as [E _]; apply in_rev, E|].
  destruct (d_nocase F); [discriminate|]. intros H. apply find_some in H. apply H.
Qed.
Lemma string_key_ok lit r : string_lit lit -> exists k, decode_key V KYString (lit ++ r) = DR r None k.
Proof. intros SL. cbn [decode_key]. rewrite (decode_string_lit lit r [] SL). eexists. reflexivity. Qed.
Lemma bad_quiet top (D : bytes -> mem -> dres mem) nd x : (forall b, D b x = bad b x) -> quiet top D nd x.
Proof. intros E r NS. rewrite E. cbn [bad d_err]. split; [discriminate|]. auto. Qed.
Lemma iface_quiet top un pf nd x : jnode nd -> quiet top (decode_interface un pf) nd x.
Proof.
  intros J r NS. rewrite (decode_interface_ok _ _ (ntext nd) (erase nd) r x (jnode_jvalue nd J) (stops_number nd r J NS)).
  destruct (jden un pf (erase nd)); cbn [d_err d_rest]; [reflexivity|]. split; [discriminate|]. auto.
Qed.
Lemma raw_quiet top nd x : jnode nd -> quiet top decode_raw nd x.
Proof. intros J r NS. unfold decode_raw. rewrite (node_parse nd r J NS). reflexivity. Qed.
Lemma quoted_quiet {A} (prs : bytes -> option A) nd r x r1 e y (top : Prop) : jnode nd -> stops nd r -> decode_quoted prs (ntext nd ++ r) x = DR r1 (Some e) y ->
  e <> ESyntax /\ (top -> e = EPanicked \/ skip_spaces r1 = skip_spaces r).
Proof.
  intros J NS. unfold decode_quoted. pose proof (in_err_only nd r r1 e x y top J NS) as H.
  destruct (Nat.ltb _ 2); [exact H|]. destruct (ntext nd ++ r) as [|c b1]; [exact H|]. destruct (negb (c =? cQUOTE)); [exact H|].
  destruct (index_byte cQUOTE b1); [|exact H]. destruct (prs _); [discriminate|exact H].
Qed.
Lemma bytes_quiet top nd x : jnode nd -> quiet top (decode_bytes V) nd x.
Proof.
  intros J r NS. pose proof (decode_slice_quiet (decode_int TUint8) 0 nd x J (fun nd' y J' _ => int_quiet TUint8 nd' y J') r NS) as SQ.
  assert (IE : let d := in_err (ntext nd ++ r) x in match d_err d with None => skip_spaces (d_rest d) = skip_spaces r | Some e => e <> ESyntax /\ (top -> e = EPanicked \/ skip_spaces (d_rest d) = skip_spaces r) end).
  { cbv zeta. rewrite (node_in_err nd r x J NS). cbn [d_err d_rest]. split; [discriminate|]. intros _. right. apply skip_spaces_idem. }
  cbv zeta in IE. unfold decode_bytes. destruct (has_null_prefix (ntext nd ++ r)) eqn:N.
  { rewrite (null_only nd r J NS) in N. destruct (nshape nd) eqn:S; try discriminate. rewrite (skip4_null nd r J S). reflexivity. }
  destruct (Nat.ltb _ 2); [exact IE|]. destruct (head_only nd r J NS) as (c & t & Ec & Hc). rewrite Ec in *. destruct (c =? cQUOTE) eqn:Q; cbn [negb].
  - apply Z.eqb_eq in Q. assert (S : nshape nd = HStr) by (destruct (nshape nd); try lia; reflexivity).
    destruct (string_lit_unquote (ntext nd) r (str_node_inv nd J S)) as [i E]. rewrite Ec in E. rewrite E.
    destruct (v_b64 V _); cbn [d_err d_rest]; [reflexivity|]. split; [discriminate|]. auto.
  - destruct (c =? cLBRACK); [|exact IE]. destruct (d_err _); [|exact SQ]. destruct SQ as [S1 S2]. split; [exact S1|]. intros _. apply S2, I.
Qed.
Lemma on_path_quiet p D nd : (forall x, quiet False D nd x) -> forall x, quiet False (on_path V p D) nd x.
Proof.
  intros H. induction p as [|[i|i s u] p IH]; intros x; [exact (H x)| |].
  - destruct x as [| | | | | | | |l| | | |]; try (apply bad_quiet; reflexivity). intros r NS. cbn [on_path]. destruct (nth_error l i); [|cbn; split; [discriminate|auto]].
    exact (IH m r NS).
  - destruct x as [| | | | | | | |l| | | |]; try (apply bad_quiet; reflexivity). intros r NS. cbn [on_path].
    destruct (nth_error l i) as [m|]; [|cbn; split; [discriminate|auto]]. destruct m; try (cbn; split; [discriminate|auto]).
    destruct p0; [exact (IH _ r NS)|]. destruct u; [cbn; split; [discriminate|contradiction]|]. exact (IH _ r NS).
Qed.
Lemma from_string_int_quiet pf (D : bytes -> mem -> dres mem) nd x : jnode nd -> (forall x, quiet False D nd x) -> quiet False (decode_from_string_int pf D) nd x.
Proof.
  intros J H r NS. unfold decode_from_string_int. destruct (has_null_prefix (ntext nd ++ r)) eqn:N; [apply H, NS|].
  destruct (head_only nd r J NS) as (c & t & Ec & Hc). cbv zeta.
  destruct (c =? cQUOTE) eqn:Q.
  - apply Z.eqb_eq in Q. assert (S : nshape nd = HStr) by (destruct (nshape nd); try lia; reflexivity).
    destruct (string_lit_unquote (ntext nd) r (str_node_inv nd J S)) as [i E]. rewrite Ec in *. rewrite E. subst c. change (negb (cQUOTE =? cQUOTE)) with false. cbv iota.
    set (X := match d_err (D (strip_zeroes (str_text (ntext nd))) x) with Some _ => _ | None => _ end).
    assert (HX : match d_err X with None => skip_spaces (d_rest X) = skip_spaces r | Some e => e <> ESyntax /\ (False -> e = EPanicked \/ skip_spaces (d_rest X) = skip_spaces r) end).
    { unfold X. clear X. destruct (d_err (D (strip_zeroes (str_text (ntext nd))) x)) as [e|].
      - destruct e; cbn [d_err]; try (split; [|contradiction]; destruct (parse_number _); [|destruct (parseValue _)]; discriminate).
        split; [|contradiction]. destruct (strip_zeroes _) as [|d v]; [discriminate|]. repeat (destruct d as [|d|d]; try discriminate).
      - destruct (d_rest _); cbn [d_err d_rest]; [reflexivity|]. split; [discriminate|contradiction]. }
    destruct t as [|c1 t]; [exact HX|]. destruct (c1 =? cQUOTE); [cbn; split; [discriminate|contradiction]|exact HX].
  - rewrite Ec. rewrite Q. cbn [negb]. destruct (parse_number (c :: t)); [destruct (existsb _ _); [destruct (pf v)|]|]; cbn [d_err]; (split; [discriminate|contradiction]).
Qed.
Lemma user_quiet top nd x : jnode nd -> (forall u, quiet top (decode_json_user V u) nd x) /\ (forall u, quiet top (decode_text_user V u) nd x).
Proof.
  intros J. split; intros u r NS.
  - unfold decode_json_user. rewrite (node_parse nd r J NS). destruct (rv_null (ntext nd)); [reflexivity|].
    pose proof (mi_json V ME u (ntext nd) x) as H. destruct (v_json V u (ntext nd) x) as [[e|] y]; cbn [d_err d_rest fst] in *; [|reflexivity]. split; [congruence|auto].
  - unfold decode_text_user. rewrite (node_parse nd r J NS). destruct (head_only nd [] J (stop_any nd [] I)) as (c & t & Ec & Hc). rewrite app_nil_r in Ec.
    destruct (rv_null (ntext nd)) eqn:RN.
    { assert (S : nshape nd = HNull) by (rewrite Ec in RN; cbn [rv_null] in RN; apply Z.eqb_eq in RN; destruct (nshape nd); try lia; reflexivity).
      assert (P : parse_null (ntext nd) = POk (ntext nd) []) by (destruct J; try discriminate S; reflexivity). rewrite P. reflexivity. }
    destruct (rv_string (ntext nd)) eqn:RS; [|cbn; split; [discriminate|auto]].
    assert (S : nshape nd = HStr) by (rewrite Ec in RS; cbn [rv_string] in RS; apply Z.eqb_eq in RS; destruct (nshape nd); try lia; reflexivity).
    destruct (string_lit_unquote (ntext nd) [] (str_node_inv nd J S)) as [i E]. rewrite app_nil_r in E. rewrite E.
    pose proof (mi_text V ME u (str_text (ntext nd)) x) as H. destruct (v_text V u (str_text (ntext nd)) x) as [[e|] y]; cbn [d_err d_rest fst] in *; [|reflexivity]. split; [congruence|auto].
Qed.

Ltac bq := try (apply bad_quiet; intros; rewrite dec_ty_eq; reflexivity).
Lemma dec_ty_quiet n : forall t nd x, mild t -> jnode nd -> (length (ntext nd) < n)%nat -> quiet (not_integer t /\ d_disallow F = false) (dec_ty n t) nd x.
Proof.
  induction n as [|n IHn]; intros t nd x MT J HL; [lia|]. revert nd x MT J HL.
  induction t; intros nd x MT J HL; cbn [mild] in MT; try contradiction; cbn [not_integer].
  - destruct x; bq. eapply meets_quiet; [apply (dec_ty_meets V F OK (S n) YBool nd _ J HL)|]. intros r r1 e y NS. rewrite dec_ty_eq. unfold decode_bool.
    repeat match goal with |- context [if ?c then _ else _] => destruct c end; try discriminate. rewrite (node_in_err nd r x J NS).
    intros [= <- <- <-]. split; [discriminate|]. intros _. right. apply skip_spaces_idem.
  - destruct x; bq. eapply map_quiet_eq; [intros b; rewrite dec_ty_eq; reflexivity|]. eapply quiet_weaken; [|apply int_quiet, J]. intros [H _]. exact H.
  - destruct x; bq. eapply meets_quiet; [apply (dec_ty_meets V F OK (S n) (YFloat wide) nd _ J HL)|]. intros r r1 e y NS. rewrite dec_ty_eq. unfold decode_float.
    destruct (has_null_prefix _); [discriminate|]. destruct (parse_number _); [destruct (v_float V wide v); [discriminate|]|]; rewrite (node_in_err nd r f J NS);
      (intros [= <- <- <-]; split; [discriminate|]; intros _; right; apply skip_spaces_idem).
  - destruct x; bq. eapply meets_quiet; [apply (dec_ty_meets V F OK (S n) YNumber nd _ J HL)|]. intros r r1 e y NS. rewrite dec_ty_eq. unfold decode_number.
    destruct (has_null_prefix _); [discriminate|]. destruct (parse_number _); [discriminate|]; rewrite (node_in_err nd r s J NS);
      (intros [= <- <- <-]; split; [discriminate|]; intros _; right; apply skip_spaces_idem).
  - destruct x; bq. eapply meets_quiet; [apply (dec_ty_meets V F OK (S n) YString nd _ J HL)|]. intros r r1 e y NS. rewrite dec_ty_eq. unfold decode_string.
    destruct (has_null_prefix _); [discriminate|]. destruct (head_only nd r J NS) as (c & t & Ec & Hc). destruct (Z.eq_dec c 34) as [->|NQ].
    + assert (S : nshape nd = HStr) by (destruct (nshape nd); try lia; reflexivity).
      destruct (string_lit_unquote (ntext nd) r (str_node_inv nd J S)) as [i E]. rewrite E. discriminate.
    + rewrite Ec. destruct (not_quote_unquote c t NQ) as (r0 & e0 & ->). replace (c =? cQUOTE) with false by (symmetry; apply Z.eqb_neq, NQ). rewrite <- Ec, (node_in_err nd r s J NS).
      intros [= <- <- <-]; split; [discriminate|]; intros _; right; apply skip_spaces_idem.
  - destruct x; bq. eapply map_quiet_eq; [intros b; rewrite dec_ty_eq; reflexivity|]. apply bytes_quiet, J.
  - destruct x; bq. eapply meets_quiet; [apply (dec_ty_meets V F OK (S n) YDuration nd _ J HL)|]. intros r r1 e y NS. rewrite dec_ty_eq. unfold decode_duration.
    destruct (has_null_prefix _); [discriminate|]. destruct (ntext nd ++ r) as [|c t] eqn:Ec; [destruct (head_only nd r J NS) as (? & ? & ? & _); congruence|].
    destruct (negb (c =? cQUOTE)); rewrite <- Ec.
    + destruct (parse_int _); [discriminate|]. rewrite (node_in_err nd r z J NS). intros [= <- <- <-]; split; [discriminate|]; intros _; right; apply skip_spaces_idem.
    + destruct (decode_quoted (v_dur V) (ntext nd ++ r) z) as [r2 [e2|] y2] eqn:E2; [|discriminate]. intros [= <- <- <-]. eapply quoted_quiet; eassumption.
  - destruct x; bq. eapply meets_quiet; [apply (dec_ty_meets V F OK (S n) YTime nd _ J HL)|]. intros r r1 e y NS. rewrite dec_ty_eq. unfold decode_time.
    destruct (has_null_prefix _); [discriminate|].
    destruct (decode_quoted (v_time V) (ntext nd ++ r) t) as [r2 [e2|] y2] eqn:E2; [|discriminate]. intros [= <- <- <-]. eapply quoted_quiet; eassumption.
  - destruct x; bq. eapply map_quiet_eq; [intros b; rewrite dec_ty_eq; reflexivity|]. apply iface_quiet, J.
  - destruct x; bq. intros r NS. rewrite dec_ty_eq. destruct (has_null_prefix (ntext nd ++ r)) eqn:N.
    { rewrite (null_only nd r J NS) in N. destruct (nshape nd) eqn:S; try discriminate. rewrite (skip4_null nd r J S). reflexivity. }
    assert (TE : forall m, let d := decode_type_error (ntext nd ++ r) m in match d_err d with None => skip_spaces (d_rest d) = skip_spaces r | Some e => e <> ESyntax /\ (True /\ d_disallow F = false -> e = EPanicked \/ skip_spaces (d_rest d) = skip_spaces r) end).
    { intros m. cbv zeta. rewrite (type_error_node nd r m J NS). cbn. split; [discriminate|auto]. }
    destruct v; try apply TE. destruct empty; [|apply TE]. cbn [d_map d_err d_rest]. unfold parse_with. destruct (node_start nd J) as (Sn & _ & Se & _). rewrite (skip_spaces_nsp (ntext nd ++ r)) by (apply nsp_app; assumption).
    pose proof (iface_quiet (True /\ d_disallow F = false) (d_usenum F) (v_float V true) nd JVNull J r NS) as q. cbn [d_err d_rest]. destruct (d_err _); rewrite skip_spaces_idem; exact q.
  - destruct x; bq. eapply map_quiet_eq; [intros b; rewrite dec_ty_eq; reflexivity|]. apply raw_quiet, J.
  - destruct x; bq. eapply map_quiet_eq; [intros b; rewrite dec_ty_eq; reflexivity|]. apply (quiet_weaken True); [intros _; exact I|]. apply decode_slice_quiet; [exact J|].
    intros nd' y J' L'. eapply quiet_weaken; [|apply IHt; [exact MT|exact J'|lia]]. intros [].
  - destruct k; try contradiction. destruct x; bq. eapply map_quiet_eq; [intros b; rewrite dec_ty_eq; reflexivity|]. apply (quiet_weaken True); [intros _; exact I|]. apply decode_map_quiet; [exact J| |apply string_key_ok].
    intros nd' J' L'. eapply quiet_weaken; [|apply IHt; [exact MT|exact J'|lia]]. intros [].
  - destruct x; bq. eapply map_quiet_eq; [intros b; rewrite dec_ty_eq; reflexivity|]. apply (quiet_weaken True); [intros _; exact I|]. apply decode_map_quiet; [exact J| |apply string_key_ok].
    intros nd' J' L'. eapply map_quiet_eq; [intros b; reflexivity|]. apply (iface_quiet False _ _ nd' JVNull J').
  - destruct x; bq. eapply map_quiet_eq; [intros b; rewrite dec_ty_eq; reflexivity|]. apply (quiet_weaken True); [intros _; exact I|]. apply decode_map_quiet; [exact J| |apply string_key_ok].
    intros nd' J' L'. eapply map_quiet_eq; [intros b; reflexivity|]. apply (raw_quiet False nd' None J').
  - destruct x; bq. intros r NS. rewrite dec_ty_eq. destruct (has_null_prefix (ntext nd ++ r)) eqn:N.
    { rewrite (null_only nd r J NS) in N. destruct (nshape nd) eqn:S; try discriminate.
      assert (X : skip_spaces (skipn 4 (ntext nd ++ r)) = skip_spaces r) by (rewrite (skip4_null nd r J S); reflexivity).
      destruct p as [x|]; [|exact X]. destruct t; try exact X. apply (IHt nd x MT J HL r NS). }
    apply (IHt nd _ MT J HL r NS).
  - destruct x; bq.
    assert (SQ : quiet True (decode_struct (fun k => match find_field V F (v_flds V i) k with
        | Some f => Some (on_path V (jf_path f) (decode_field V f (dec_ty n (jf_ty f)))) | None => None end) false) nd (MList l)).
    { apply decode_struct_quiet; [exact J|]. intros k D nd' y EL J' L'. destruct (find_field V F (v_flds V i) k) as [f|] eqn:EF; [|discriminate]. injection EL as <-.
      destruct (mi_field V ME i f (find_field_in _ _ _ EF)) as [MF QF]. apply on_path_quiet. intros z.
      assert (DQ : forall z, quiet False (dec_ty n (jf_ty f)) nd' z).
      { intros z'. eapply quiet_weaken; [|apply IHn; [exact MF|exact J'|lia]]. contradiction. }
      unfold decode_field. destruct (jf_quot f); [apply DQ|congruence|]. apply from_string_int_quiet; [exact J'|exact DQ]. }
    intros r NS. rewrite dec_ty_eq. destruct (d_disallow F).
    + pose proof (struct_quiet_dis _ _ _ SQ r NS) as q. destruct (d_err _); [|exact q]. split; [apply q|intros [_ E]; discriminate].
    + pose proof (SQ r NS) as q. destruct (d_err _); [|exact q]. split; [apply q|intros _; apply q; exact I].
  - destruct x; bq. eapply map_quiet_eq; [intros b; rewrite dec_ty_eq; reflexivity|]. apply user_quiet, J.
  - destruct x; bq. eapply map_quiet_eq; [intros b; rewrite dec_ty_eq; reflexivity|]. apply user_quiet, J.
  - destruct x; bq. intros r NS. rewrite dec_ty_eq. rewrite (type_error_node nd r _ J NS). cbn. split; [discriminate|auto].
Qed.
End TypesQ.
