(** A property of all strings that the decoders store holds of the whole
    decoded value. *)
From Verif Require Import Bytes AsciiModel Utf8Model ParseModel IntModel StringModel EncModel DecModel TypeModel AliasModel SpecAlias TypeFacts AliasFacts.

(** The decoders that store no string, number or message. *)
Inductive leaf_dec (V : tenv) : forall A, (bytes -> A -> dres A) -> Prop :=
| ld_bool : leaf_dec V _ decode_bool
| ld_int t : leaf_dec V _ (decode_int t)
| ld_float pf : leaf_dec V _ (decode_float pf)
| ld_bytes : leaf_dec V _ (decode_bytes V)
| ld_duration : leaf_dec V _ (decode_duration V)
| ld_time : leaf_dec V _ (decode_time V)
| ld_json u : leaf_dec V _ (decode_json_user V u)
| ld_text u : leaf_dec V _ (decode_text_user V u)
| ld_key t : leaf_dec V _ (decode_from_string (decode_int t)).

Section Keep.
Context (V : tenv) (F : dflags) (C : cflags) (P : astr -> Prop) (G : option nat -> bytes -> Prop).
Hypothesis H_own : forall s, P (AS s None).
Hypothesis H_none : forall at_ b s, G at_ b -> (exists r, parse_string_unquote b [] = QOk s r true) -> G None s.
Hypothesis H_strip : forall at_ b s, G at_ b -> (exists r i, parse_string_unquote b [] = QOk s r i) -> G None (strip_zeroes s).
Hypothesis H_skip : forall at_ b, G at_ b -> G at_ (skip_spaces b).
Hypothesis H_tail : forall at_ c b, G at_ (c :: b) -> G at_ b.
Hypothesis H_null : forall at_ b, G at_ b -> has_null_prefix b = true -> G at_ (skipn 4 b).
Hypothesis H_value : forall at_ b v r, G at_ b -> parseValue b = POk v r -> G at_ r /\ G (stop_at at_ (length r)) v /\ P (share (k_raw C) at_ (length r) v).
Hypothesis H_number : forall at_ b v r, G at_ b -> parse_number b = POk v r -> G at_ r /\ P (share (k_number C) at_ (length r) v).
Hypothesis H_string : forall at_ b s r i, G at_ b -> parse_string_unquote b [] = QOk s r i ->
  G at_ r /\ (i = false -> G (stop_at at_ (S (length r))) s /\ P (share (k_string C) at_ (S (length r)) s)).
Hypothesis H_leaf : forall A D at_ b x, leaf_dec V A D -> G at_ b -> d_err (D b x) = None -> G at_ (d_rest (D b x)).

Definition kept {A} (Q : A -> Prop) (at_ : option nat) (d : dres A) : Prop := Q (d_val d) /\ (d_err d = None -> G at_ (d_rest d)).
Lemma kept_err {A} (Q : A -> Prop) at_ r e x : Q x -> kept Q at_ (DR r (Some e) x).
Proof. intros H. split; [exact H|discriminate]. Qed.
Lemma kept_in_err {A} (Q : A -> Prop) at_ b x : Q x -> kept Q at_ (in_err b x).
Proof. intros H. unfold in_err. destruct (input_error b). apply kept_err, H. Qed.
Lemma kept_elem_err {A} (Q : A -> Prop) at_ i e x : Q x -> kept Q at_ (elem_err i e x).
Proof. intros H. unfold elem_err. destruct (parseValue i); apply kept_err, H. Qed.
Lemma kept_map {A B} (Q : A -> Prop) (R : B -> Prop) f at_ d : kept Q at_ d -> (forall x, Q x -> R (f x)) -> kept R at_ (d_map f d).
Proof. intros [H1 H2] H. split; [apply H, H1|exact H2]. Qed.
Lemma kept_leaf {A B} (Q : B -> Prop) (D : bytes -> A -> dres A) (f : A -> B) at_ b x : leaf_dec V A D -> G at_ b -> (forall y, Q (f y)) -> kept Q at_ (d_map f (D b x)).
Proof. intros L HG HQ. split; [apply HQ|]. cbn [d_map d_err d_rest]. apply H_leaf; assumption. Qed.

Definition all_sl {A} (Q : A -> Prop) (s : sl A) : Prop := match s with None => True | Some (_, d) => Forall Q d end.
Definition all_kv {K A} (QK : K -> Prop) (Q : A -> Prop) (m : list (K * A)) : Prop := Forall (fun kv => QK (fst kv) /\ Q (snd kv)) m.
Definition all_map {K A} (QK : K -> Prop) (Q : A -> Prop) (m : option (list (K * A))) : Prop := match m with None => True | Some m => all_kv QK Q m end.
Lemma forall_set_nth {A} (Q : A -> Prop) i x l : Forall Q l -> Q x -> Forall Q (set_nth i x l).
Proof.
  intros H HX. unfold set_nth. rewrite <- (firstn_skipn i l) in H. apply Forall_app in H as [H1 H2]. apply Forall_app. split; [exact H1|]. constructor; [exact HX|].
  rewrite <- (firstn_skipn (S i) l) in *. rewrite Forall_forall in *. intros y Y.
  assert (Z : In y (skipn i l)). { clear - Y. revert i Y. induction l as [|a l IH]; intros i Y; [destruct i; exact Y|]. destruct i; [right; exact Y|cbn [skipn] in *; apply IH, Y]. }
  rewrite firstn_skipn in H2. auto.
Qed.
Lemma forall_grow {A} (Q : A -> Prop) z d : Forall Q d -> Q z -> Forall Q (grow z d).
Proof. intros H HZ. unfold grow. apply Forall_app. split; [exact H|]. apply Forall_forall. intros y Y. apply repeat_spec in Y. subst. exact HZ. Qed.
Lemma forall_nth {A} (Q : A -> Prop) i d z : Forall Q d -> Q z -> Q (nth i d z).
Proof. intros H HZ. revert i. induction H; intros [|i]; cbn; auto. Qed.

Section Loops.
Context {A : Type} (Q : A -> Prop) (D : bytes -> A -> dres A) (at_ : option nat).
Hypothesis HD : forall b x, G at_ b -> Q x -> kept Q at_ (D b x).
Lemma slice_loop_kept z inp k : Q z -> forall b len data, G at_ b -> match data with None => True | Some d => Forall Q d end -> kept (all_sl Q) at_ (slice_loop D z inp k b len data).
Proof.
  intros HZ. induction k as [|k IH]; intros b len data HG HA; cbn [slice_loop]; cbv zeta.
  - apply kept_err. destruct data; assumption.
  - assert (GS := H_skip _ _ HG). assert (NOW : all_sl Q (match data with Some d => Some (len, d) | None => None end)) by (destruct data; assumption).
    assert (DD : Forall Q (match data with Some d => d | None => [] end)) by (destruct data; [assumption|constructor]).
    set (d := match data with Some d => d | None => [] end) in *. clearbody d.
    destruct (match skip_spaces b with c :: _ => c =? cRBRACK | [] => false end) eqn:E.
    { split; [exact DD|]. intros _. cbn [d_rest]. destruct (skip_spaces b); [discriminate|]. eapply H_tail, GS. }
    assert (X : forall b2, G at_ b2 -> kept (all_sl Q) at_ (
       let d := if Nat.eqb len (length d) then grow z d else d in
       match d_err (D b2 (nth len d z)) with
       | None => slice_loop D z inp k (d_rest (D b2 (nth len d z))) (S len) (Some (set_nth len (d_val (D b2 (nth len d z))) d))
       | Some e => elem_err inp e (Some (len, set_nth len (d_val (D b2 (nth len d z))) d))
       end)).
    { intros b2 G2. cbv zeta. assert (DG : Forall Q (if Nat.eqb len (length d) then grow z d else d)) by (destruct (Nat.eqb len (length d)); [apply forall_grow; assumption|assumption]).
      set (d2 := if Nat.eqb len (length d) then grow z d else d) in *. destruct (HD b2 (nth len d2 z) G2 (forall_nth _ _ _ _ DG HZ)) as [K1 K2].
      assert (S2 : Forall Q (set_nth len (d_val (D b2 (nth len d2 z))) d2)) by (apply forall_set_nth; assumption).
      destruct (d_err (D b2 (nth len d2 z))) as [e|]; [apply kept_elem_err; exact S2|]. apply IH; auto. }
    destruct (Nat.eqb len 0); [apply X, GS|]. destruct (skip_spaces b) as [|c b1] eqn:SB; [apply kept_err, NOW|].
    destruct (c =? cCOMMA); [apply X, H_skip; eapply H_tail, GS|apply kept_err, NOW].
Qed.
Lemma decode_slice_kept z b s : G at_ b -> Q z -> all_sl Q s -> kept (all_sl Q) at_ (decode_slice D z b s).
Proof.
  intros HG HZ HS. unfold decode_slice. destruct (has_null_prefix b) eqn:N; [split; [exact I|intros _; apply H_null; assumption]|].
  destruct (Nat.ltb (length b) 2); [apply kept_in_err, HS|]. destruct b as [|c b1]; [apply kept_in_err, HS|]. destruct (c =? cLBRACK); [|apply kept_in_err, HS].
  apply slice_loop_kept; [exact HZ|eapply H_tail, HG|]. destruct s as [[n d]|]; [exact HS|exact I].
Qed.
Lemma array_skip_kept k : forall b, G at_ b -> snd (array_skip k b) = None -> G at_ (fst (array_skip k b)).
Proof.
  induction k as [|k IH]; intros b HG; cbn [array_skip]; [discriminate|]. apply H_skip in HG. destruct (skip_spaces b) as [|c b1]; [discriminate|].
  destruct (c =? cRBRACK); [intros _; eapply H_tail, HG|].
  assert (G2 : G at_ (if c =? cCOMMA then skip_spaces b1 else c :: b1)) by (destruct (c =? cCOMMA); [apply H_skip; eapply H_tail, HG|exact HG]).
  cbv zeta. destruct (parseValue _) as [v r|r e] eqn:E; [|discriminate]. apply IH. eapply H_value; eassumption.
Qed.
Lemma arr_loop_kept todo : forall first b done, G at_ b -> Forall Q done -> Forall Q todo -> kept (Forall Q) at_ (arr_loop D first b done todo).
Proof.
  induction todo as [|x todo IH]; intros first b done HG HDN HT; cbn [arr_loop].
  - pose proof (array_skip_kept (S (length b)) b HG) as AS. destruct (array_skip _ _) as [r e]. split; [exact HDN|]. intros E. cbn in *. subst e. apply AS. reflexivity.
  - cbv zeta. inversion HT as [|? ? HX HT']; subst. apply H_skip in HG.
    assert (X : forall b2, G at_ b2 -> kept (Forall Q) at_ (match d_err (D b2 x) with None => arr_loop D false (d_rest (D b2 x)) (done ++ [d_val (D b2 x)]) todo | Some e => DR (d_rest (D b2 x)) (Some e) (done ++ d_val (D b2 x) :: todo) end)).
    { intros b2 G2. destruct (HD b2 x G2 HX) as [K1 K2]. destruct (d_err (D b2 x)).
      - apply kept_err. apply Forall_app. auto.
      - apply IH; auto. apply Forall_app. auto. }
    assert (ALL : Forall Q (done ++ x :: todo)) by (apply Forall_app; auto).
    destruct first; [apply X, HG|]. destruct (skip_spaces b) as [|c b1]; [apply kept_err, ALL|].
    destruct (c =? cCOMMA); [apply X, H_skip; eapply H_tail, HG|]. destruct (c =? cRBRACK); [|apply kept_err, ALL]. split; [exact ALL|]. intros _. eapply H_tail, HG.
Qed.
Lemma decode_array_kept b l : G at_ b -> Forall Q l -> kept (Forall Q) at_ (decode_array D b l).
Proof.
  intros HG HL. unfold decode_array. destruct (has_null_prefix b) eqn:N; [split; [exact HL|intros _; apply H_null; assumption]|].
  destruct (Nat.ltb (length b) 2); [apply kept_in_err, HL|]. destruct b as [|c b1]; [apply kept_in_err, HL|]. destruct (c =? cLBRACK); [|apply kept_in_err, HL].
  apply arr_loop_kept; [eapply H_tail, HG|constructor|exact HL].
Qed.

Context {K : Type} (QK : K -> Prop) (eqb : K -> K -> bool) (deck : bytes -> dres K).
Hypothesis HK : forall b, G at_ b -> kept QK at_ (deck b).
Lemma obj_key_kept first b r k : G at_ b -> obj_key deck first b = inr (r, k) -> G at_ r /\ QK k.
Proof.
  intros HG. unfold obj_key. cbv zeta.
  assert (X : forall b2, G at_ b2 -> (if has_null_prefix b2 then inl (b2, ESyntax) else
     match d_err (deck b2) with
     | Some e => inl (key_error (d_rest (deck b2)) e)
     | None => match skip_spaces (d_rest (deck b2)) with
               | [] => inl (skip_spaces (d_rest (deck b2)), ESyntax)
               | c :: b1 => if c =? cCOLON then inr (skip_spaces b1, d_val (deck b2)) else inl (skip_spaces (d_rest (deck b2)), ESyntax)
               end
     end) = inr (r, k) -> G at_ r /\ QK k).
  { intros b2 G2. destruct (has_null_prefix b2); [discriminate|]. destruct (HK b2 G2) as [K1 K2]. destruct (d_err (deck b2)); [discriminate|].
    specialize (K2 eq_refl). apply H_skip in K2. destruct (skip_spaces (d_rest (deck b2))) as [|c b1]; [discriminate|]. destruct (c =? cCOLON); [|discriminate].
    intros [= <- <-]. split; [apply H_skip; eapply H_tail, K2|exact K1]. }
  destruct first; [apply X, HG|]. destruct b as [|c b1]; [discriminate|]. destruct (c =? cCOMMA); [apply X, H_skip; eapply H_tail, HG|discriminate].
Qed.
Lemma map_set_kept k v m : all_kv QK Q m -> QK k -> Q v -> all_kv QK Q (map_set eqb k v m).
Proof. intros H HKK HV. unfold all_kv in *. induction H as [|[k' v'] m [H1 H2] H IH]; cbn [map_set]; [constructor; [auto|constructor]|]. destruct (eqb k' k); constructor; auto. Qed.
Lemma map_loop_kept z inp fresh n : Q z -> forall first b m, G at_ b -> all_kv QK Q m -> kept (all_map QK Q) at_ (map_loop eqb deck D z inp fresh n first b m).
Proof.
  intros HZ. induction n as [|n IH]; intros first b m HG HM; cbn [map_loop]; cbv zeta.
  - apply kept_err. destruct fresh; [exact I|exact HM].
  - apply H_skip in HG. assert (NOW : all_map QK Q (if fresh then None else Some m)) by (destruct fresh; [exact I|exact HM]).
    destruct (match skip_spaces b with c :: _ => c =? cRBRACE | [] => false end) eqn:E.
    { split; [exact HM|]. intros _. cbn [d_rest]. destruct (skip_spaces b); [discriminate|]. eapply H_tail, HG. }
    destruct (obj_key deck first (skip_spaces b)) as [[r e]|[b2 key]] eqn:OK; [apply kept_err, NOW|]. destruct (obj_key_kept _ _ _ _ HG OK) as [G2 KK].
    destruct (HD b2 z G2 HZ) as [K1 K2]. destruct (d_err (D b2 z)); [apply kept_elem_err, NOW|]. apply IH; [auto|]. apply map_set_kept; assumption.
Qed.
Lemma decode_map_kept z b m : G at_ b -> Q z -> all_map QK Q m -> kept (all_map QK Q) at_ (decode_map eqb deck D z b m).
Proof.
  intros HG HZ HM. unfold decode_map. destruct (has_null_prefix b) eqn:N; [split; [exact I|intros _; apply H_null; assumption]|].
  destruct (Nat.ltb (length b) 2); [apply kept_in_err, HM|]. destruct b as [|c b1]; [apply kept_in_err, HM|]. destruct (c =? cLBRACE); [|apply kept_in_err, HM].
  apply map_loop_kept; [exact HZ|eapply H_tail, HG|]. destruct m; [exact HM|constructor].
Qed.
End Loops.

Section StructLoop.
Context {A : Type} (Q : A -> Prop) (look : bytes -> option (bytes -> A -> dres A)) (at_ : option nat).
Hypothesis HL : forall k D b x, look k = Some D -> G at_ b -> Q x -> kept Q at_ (D b x).
Lemma deck_kept b : G at_ b -> kept (fun _ : bytes => True) at_ (match parse_string_unquote b [] with QOk s r _ => DR r None s | QErr r e => DR r (Some e) [] | QPanic => DR b (Some EPanicked) [] | QFuel => DR b (Some EFuel) [] end).
Proof. intros HG. split; [exact I|]. destruct (parse_string_unquote b []) as [s r i| | |] eqn:E; try discriminate. intros _. eapply H_string; eassumption. Qed.
Lemma struct_loop_kept dis inp n : forall first b x, G at_ b -> Q x -> kept Q at_ (struct_loop look dis inp n first b x).
Proof.
  induction n as [|n IH]; intros first b x HG HX; cbn [struct_loop]; [apply kept_err, HX|]. cbv zeta. apply H_skip in HG.
  destruct (match skip_spaces b with c :: _ => c =? cRBRACE | [] => false end) eqn:E.
  { split; [exact HX|]. intros _. cbn [d_rest]. destruct (skip_spaces b); [discriminate|]. eapply H_tail, HG. }
  match goal with |- context [obj_key ?dk first (skip_spaces b)] => destruct (obj_key dk first (skip_spaces b)) as [[r e]|[b2 key]] eqn:OK; [apply kept_err, HX|];
    destruct (obj_key_kept at_ (fun _ => True) dk deck_kept _ _ _ _ HG OK) as [G2 _] end.
  destruct (look key) as [D|] eqn:LK.
  - destruct (HL _ _ b2 x LK G2 HX) as [K1 K2]. destruct (d_err (D b2 x)); [apply kept_elem_err, K1|apply IH; auto].
  - destruct dis; [apply kept_err, HX|]. destruct (parseValue b2) as [v r|r e] eqn:PV; [|apply kept_err, HX]. apply IH; [|exact HX]. eapply H_value; eassumption.
Qed.
Lemma decode_struct_kept dis b x : G at_ b -> Q x -> kept Q at_ (decode_struct look dis b x).
Proof.
  intros HG HX. unfold decode_struct. destruct (has_null_prefix b) eqn:N; [split; [exact HX|intros _; apply H_null; assumption]|].
  destruct (Nat.ltb (length b) 2); [apply kept_in_err, HX|]. destruct b as [|c b1]; [apply kept_in_err, HX|]. destruct (c =? cLBRACE); [|apply kept_in_err, HX].
  apply struct_loop_kept; [eapply H_tail, HG|exact HX].
Qed.
End StructLoop.

(** * Leaves *)
Lemma a_number_kept at_ b x : G at_ b -> P x -> kept P at_ (a_number C at_ b x).
Proof.
  intros HG HX. unfold a_number. destruct (has_null_prefix b) eqn:N; [split; [exact HX|intros _; apply H_null; assumption]|].
  destruct (parse_number b) as [v r|] eqn:E; [|apply kept_in_err, HX]. destruct (H_number _ _ _ _ HG E). split; auto.
Qed.
Lemma a_string_kept at_ b x : G at_ b -> P x -> kept P at_ (a_string C at_ b x).
Proof.
  intros HG HX. unfold a_string. destruct (has_null_prefix b) eqn:N; [split; [exact HX|intros _; apply H_null; assumption]|].
  destruct (parse_string_unquote b []) as [s r i|r e| |] eqn:E; try (apply kept_err, HX).
  - destruct (H_string _ _ _ _ _ HG E) as [H1 H2]. split; [|auto]. cbn [d_val]. destruct i; [apply H_own|apply H2; reflexivity].
  - destruct b as [|c b1]; [apply kept_in_err, HX|]. destruct (c =? cQUOTE); [apply kept_err, HX|apply kept_in_err, HX].
Qed.
Definition p_raw (r : option astr) : Prop := match r with None => True | Some s => P s end.
Lemma a_raw_kept at_ b x : G at_ b -> p_raw x -> kept p_raw at_ (a_raw C at_ b x).
Proof.
  intros HG HX. unfold a_raw. destruct (parseValue b) as [v r|] eqn:E; [|apply kept_in_err, HX]. destruct (H_value _ _ _ _ HG E) as (H1 & _ & H2). split; auto.
Qed.
Lemma forall_firstn {A} (Q : A -> Prop) n l : Forall Q l -> Forall Q (firstn n l).
Proof. intros H. rewrite <- (firstn_skipn n l) in H. apply Forall_app in H. apply H. Qed.
Lemma a_iface_kept n : forall at_ b x, G at_ b -> kept (every_jv P) at_ (a_iface_f V F C n at_ b x).
Proof.
  assert (Z : every_jv P AVNull) by constructor.
  induction n as [|n IH]; intros at_ b x HG; [apply kept_err, Z|]. cbn [a_iface_f]. destruct (parseValue b) as [v b'|r e] eqn:PV; [|apply kept_err, Z]. cbv zeta.
  destruct (H_value _ _ _ _ HG PV) as (G1 & G2 & _). set (at2 := stop_at at_ (length b')) in *.
  assert (D : forall (y : dres ajv) at3, kept (every_jv P) at3 y ->
    kept (every_jv P) at_ (match d_err y with Some e => DR b' (Some e) AVNull | None => match skip_spaces (d_rest y) with [] => DR b' None (d_val y) | _ => DR b' (Some ESyntax) AVNull end end)).
  { intros y at3 [K1 _]. destruct (d_err y); [apply kept_err, Z|]. destruct (skip_spaces (d_rest y)); [split; [exact K1|intros _; exact G1]|apply kept_err, Z]. }
  destruct v as [|c v]; [apply kept_err, Z|].
  destruct (c =? cLBRACE).
  { eapply D, kept_map; [eapply (decode_map_kept (every_jv P) _ at2 (fun b x H _ => IH at2 b x H) P); [|exact G2|exact Z|constructor]|].
    - intros b2 B2. apply a_string_kept; [exact B2|apply H_own].
    - intros [m|] HM; constructor; [exact HM|constructor]. }
  destruct (c =? cLBRACK).
  { eapply D, kept_map; [eapply (decode_slice_kept (every_jv P) _ at2 (fun b x H _ => IH at2 b x H)); [exact G2|exact Z|]|].
    - cbn [all_sl]. apply Forall_forall. intros y Y. apply repeat_spec in Y. subst. exact Z.
    - intros [[k d]|] HM; constructor; [apply forall_firstn, HM|constructor]. }
  destruct (c =? cQUOTE); [eapply D, (kept_map P); [apply a_string_kept; [exact G2|apply H_own]|intros y Y; constructor; exact Y]|].
  destruct (c =? cn).
  { apply (D _ at2). unfold decode_null. destruct (has_null_prefix (c :: v)) eqn:N; [split; [exact Z|intros _; apply H_null; assumption]|apply kept_in_err, Z]. }
  destruct ((c =? ct) || (c =? cf)); [apply (D _ at2); apply kept_leaf; [constructor|exact G2|constructor]|].
  destruct (is_num_start c); [|apply kept_err, Z].
  destruct (d_usenum F).
  - eapply D, (kept_map P); [apply a_number_kept; [exact G2|apply H_own]|intros y Y; constructor; exact Y].
  - apply (D _ at2). apply kept_leaf; [constructor|exact G2|constructor].
Qed.
Lemma a_zero_every t : every P (a_zero V t).
Proof.
  unfold a_zero. revert t. induction (v_depth V) as [|n IHn]; intros t; induction t; cbn [a_zero_f]; try (constructor; fail); try (constructor; apply H_own); try (constructor; constructor).
  - constructor. apply Forall_forall. intros y Y. apply repeat_spec in Y. subst. exact IHt.
  - constructor. apply Forall_forall. intros y Y. apply repeat_spec in Y. subst. exact IHt.
  - constructor. apply Forall_forall. intros y Y. apply in_map_iff in Y as (u & <- & _). apply IHn.
Qed.
Lemma from_string_kept {A} (Q : A -> Prop) at_ dec b x : (forall at_ b, G at_ b -> kept Q at_ (dec at_ b x)) -> G at_ b -> Q x -> kept Q at_ (a_from_string at_ dec b x).
Proof.
  intros H HG HX. unfold a_from_string. destruct (has_null_prefix b); [apply H, HG|].
  destruct (parse_string_unquote b []) as [v r i| | |] eqn:E; try (apply kept_err, HX). cbv zeta. destruct (H_string _ _ _ _ _ HG E) as [G1 G2].
  assert (G3 : G (if i then None else stop_at at_ (S (length r))) v) by (destruct i; [eapply H_none; [exact HG|exists r; exact E]|apply G2; reflexivity]).
  destruct (H _ _ G3) as [K1 K2]. destruct (d_err _); [apply kept_err, K1|]. destruct (skip_spaces _); [split; [exact K1|intros _; exact G1]|apply kept_err, K1].
Qed.
Lemma from_string_int_kept {A} (Q : A -> Prop) at_ pf dec b x : (forall at_ b, G at_ b -> kept Q at_ (dec at_ b x)) -> G at_ b -> Q x -> kept Q at_ (a_from_string_int at_ pf dec b x).
Proof.
  intros H HG HX. unfold a_from_string_int. destruct (has_null_prefix b); [apply H, HG|]. cbv zeta.
  set (q := match parse_string_unquote b [] with QOk v r isNew => _ | _ => _ end).
  assert (KQ : kept Q at_ q).
  { unfold q. destruct (parse_string_unquote b []) as [v r i| | |] eqn:E; try (apply kept_err, HX). destruct (H_string _ _ _ _ _ HG E) as [G1 G2].
    assert (G3 : G (if i || has_leading_zeroes v then None else stop_at at_ (S (length r))) (strip_zeroes v)).
    { destruct i; [eapply H_strip; [exact HG|eauto]|]. cbn [orb]. destruct (has_leading_zeroes v) eqn:Z; [eapply H_strip; [exact HG|eauto]|]. unfold strip_zeroes. rewrite Z. apply G2. reflexivity. }
    destruct (H _ _ G3) as [K1 K2]. destruct (d_err _) as [[]|]; try (apply kept_err, K1). destruct (d_rest _); [split; [exact K1|intros _; exact G1]|apply kept_err, K1]. }
  clearbody q. destruct b as [|c b1]; [exact KQ|]. destruct (negb (c =? cQUOTE)).
  - destruct (parse_number (c :: b1)) as [v r|]; [|apply kept_err, HX]. destruct (existsb _ v); [destruct (pf v)|]; apply kept_err, HX.
  - destruct b1 as [|c1 b2]; [exact KQ|]. destruct (c1 =? cQUOTE); [apply kept_err, HX|exact KQ].
Qed.
Lemma on_path_kept at_ D p : (forall b x, G at_ b -> every P x -> kept (every P) at_ (D b x)) -> forall b x, G at_ b -> every P x -> kept (every P) at_ (a_on_path V p D b x).
Proof.
  intros HD. induction p as [|a p IH]; intros b x HG HX; [apply HD; assumption|]. cbn [a_on_path]. destruct a as [i|i s un].
  - destruct x as [| | | | | | | |l| | | |]; try (apply kept_err, HX). inversion HX as [| | | | | | | | |? HL| | | | | | |]; subst.
    destruct (nth_error l i) as [y|] eqn:N; [|apply kept_err, HX]. eapply kept_map; [apply IH; [exact HG|]|].
    + rewrite Forall_forall in HL. eapply HL, nth_error_In, N.
    + intros z HZ. constructor. apply forall_set_nth; assumption.
  - destruct x as [| | | | | | | |l| | | |]; try (apply kept_err, HX). inversion HX as [| | | | | | | | |? HL| | | | | | |]; subst.
    destruct (nth_error l i) as [y|] eqn:N; [|apply kept_err, HX]. assert (HY : every P y) by (rewrite Forall_forall in HL; eapply HL, nth_error_In, N).
    destruct y as [| | | | | | | | | | |q|]; try (apply kept_err, HX). destruct q as [y|].
    + inversion HY; subst. eapply kept_map; [apply IH; [exact HG|eassumption]|]. intros z HZ. constructor. apply forall_set_nth; [assumption|constructor; assumption].
    + destruct un; [apply kept_err, HX|]. eapply kept_map; [apply IH; [exact HG|apply a_zero_every]|]. intros z HZ. constructor. apply forall_set_nth; [assumption|constructor; assumption].
Qed.
Lemma a_key_kept at_ k b : G at_ b -> kept (every_key P) at_ (a_key V C at_ k b).
Proof.
  intros HG. destruct k; cbn [a_key].
  - eapply (kept_map P); [apply a_string_kept; [exact HG|apply H_own]|intros y Y; exact Y].
  - apply kept_leaf; [constructor|exact HG|intros; exact I].
  - apply kept_leaf; [constructor|exact HG|intros; exact I].
Qed.
Lemma type_error_kept at_ b x : every P x -> kept (every P) at_ (a_type_error b x).
Proof. intros HX. unfold a_type_error. destruct (parseValue b); apply kept_err, HX. Qed.

Theorem a_dec_kept n : forall t at_ b x, G at_ b -> every P x -> kept (every P) at_ (a_dec V F C n t at_ b x).
Proof.
  induction n as [n IHn] using lt_wf_ind. induction t; intros at_ b x HG HX; rewrite a_dec_eq; (try (destruct n as [|n]; [apply kept_err, HX|])); destruct x; try (apply kept_err, HX);
    try (apply kept_leaf; [constructor|exact HG|constructor]; fail); inversion HX; subst.
  - eapply (kept_map P); [apply a_number_kept; assumption|intros y Y; constructor; exact Y].
  - eapply (kept_map P); [apply a_string_kept; assumption|intros y Y; constructor; exact Y].
  - eapply kept_map; [apply a_iface_kept; exact HG|intros y Y; constructor; exact Y].
  - destruct (has_null_prefix b) eqn:N; [split; [constructor; constructor|intros _; apply H_null; assumption]|]. destruct v; try (apply type_error_kept, HX).
    destruct empty; [|apply type_error_kept, HX]. eapply (kept_map (every_jv P)); [|intros y Y; constructor; exact Y].
    unfold parse_with. cbv zeta. destruct (a_iface_kept (S (length (skip_spaces b))) at_ (skip_spaces b) AVNull (H_skip _ _ HG)) as [K1 K2]. split; [exact K1|]. cbn [d_err d_rest]. intros E. apply H_skip, K2, E.
  - eapply (kept_map p_raw); [apply a_raw_kept; [exact HG|exact I]|intros [y|] Y; constructor; exact Y].
  - eapply (kept_map p_raw); [apply a_raw_kept; [exact HG|assumption]|intros [y|] Y; constructor; exact Y].
  - destruct (Nat.eqb (length l) n0); [|apply kept_err, HX]. eapply (kept_map (Forall (every P))); [apply (decode_array_kept (every P) _ at_ (IHt at_)); assumption|intros y Y; constructor; exact Y].
  - eapply (kept_map (all_sl (every P))); [apply (decode_slice_kept (every P) _ at_ (IHt at_)); [exact HG|apply a_zero_every|exact I]|intros [[k y]|] Y; constructor; exact Y].
  - eapply (kept_map (all_sl (every P))); [apply (decode_slice_kept (every P) _ at_ (IHt at_)); [exact HG|apply a_zero_every|assumption]|intros [[k y]|] Y; constructor; exact Y].
  - eapply (kept_map (all_map (every_key P) (every P))); [apply (decode_map_kept (every P) _ at_ (IHt at_)); [apply a_key_kept|exact HG|apply a_zero_every|exact I]|intros [y|] Y; constructor; exact Y].
  - eapply (kept_map (all_map (every_key P) (every P))); [apply (decode_map_kept (every P) _ at_ (IHt at_)); [apply a_key_kept|exact HG|apply a_zero_every|assumption]|intros [y|] Y; constructor; exact Y].
  - eapply (kept_map (all_map (every_key P) (every P))); [apply (decode_map_kept (every P) _ at_); [|apply (a_key_kept at_ KYString)|exact HG|constructor; constructor|exact I]|intros [y|] Y; constructor; exact Y].
    intros b2 x2 B2 _. eapply kept_map; [apply a_iface_kept; exact B2|intros y Y; constructor; exact Y].
  - eapply (kept_map (all_map (every_key P) (every P))); [apply (decode_map_kept (every P) _ at_); [|apply (a_key_kept at_ KYString)|exact HG|constructor; constructor|assumption]|intros [y|] Y; constructor; exact Y].
    intros b2 x2 B2 _. eapply kept_map; [apply a_iface_kept; exact B2|intros y Y; constructor; exact Y].
  - eapply (kept_map (all_map (every_key P) (every P))); [apply (decode_map_kept (every P) _ at_); [|apply (a_key_kept at_ KYString)|exact HG|constructor; constructor|exact I]|intros [y|] Y; constructor; exact Y].
    intros b2 x2 B2 _. eapply (kept_map p_raw); [apply a_raw_kept; [exact B2|exact I]|intros [y|] Y; constructor; exact Y].
  - eapply (kept_map (all_map (every_key P) (every P))); [apply (decode_map_kept (every P) _ at_); [|apply (a_key_kept at_ KYString)|exact HG|constructor; constructor|assumption]|intros [y|] Y; constructor; exact Y].
    intros b2 x2 B2 _. eapply (kept_map p_raw); [apply a_raw_kept; [exact B2|exact I]|intros [y|] Y; constructor; exact Y].
  - destruct (has_null_prefix b) eqn:N; [split; [constructor|intros _; apply H_null; assumption]|].
    eapply kept_map; [apply IHt; [exact HG|apply a_zero_every]|intros y Y; constructor; exact Y].
  - destruct (has_null_prefix b) eqn:N.
    + destruct t; try (split; [constructor|intros _; apply H_null; assumption]). eapply kept_map; [apply IHt; [exact HG|assumption]|intros y Y; constructor; exact Y].
    + eapply kept_map; [apply IHt; [exact HG|assumption]|intros y Y; constructor; exact Y].
  - apply decode_struct_kept; [|exact HG|exact HX]. intros k D b2 x2 LK B2 X2. destruct (find_field V F (v_flds V i) k) as [f|]; [|discriminate]. injection LK as <-.
    apply on_path_kept; [|exact B2|exact X2]. intros b3 x3 B3 X3. unfold a_field. destruct (jf_quot f).
    + apply IHn; [lia|exact B3|exact X3].
    + apply from_string_kept; [|exact B3|exact X3]. intros. apply IHn; [lia|assumption|exact X3].
    + apply from_string_int_kept; [|exact B3|exact X3]. intros. apply IHn; [lia|assumption|exact X3].
  - apply type_error_kept, HX.
Qed.
End Keep.
