(** What decoding into a type uses: steps against bytes and depth. *)
From Verif Require Import Bytes SpecJson SpecString SpecDec AsciiModel Utf8Model ParseModel IntModel StringModel EncModel DecModel TypeModel
  ParseFacts IntFacts StringFacts DecFacts SpecType NodeFacts TypeFacts SpecMeter MeterModel MeterFacts MeterParse MeterDec MeterLoop TypeMain MeterRest.

(** structs *)
Section Struct.
Context {A : Type} (lm : bytes -> option (bytes -> A -> M (dres A))) (R : Z) (K : nat).
Hypothesis DM : forall k d, lm k = Some d -> forall b x, wf b -> rated R K b (d b x).
Hypothesis R8 : 8 <= R.
Lemma struct_key_lean b : wf b -> lean 8 b (let* q := unquote_m b in
        match q with
        | QOk s r _ => let* _ := spend b r in ret (DR r None s)
        | QErr r e => ret (DR r (Some e) [])
        | QPanic => ret (DR b (Some EPanicked) [])
        | QFuel => ret (DR b (Some EFuel) [])
        end).
Proof.
  intros W. unfold lean. ms. destruct (unq_steps b W) as [(lit & r & i & SL & E & -> & ->)|(r & -> & ->)].
  - assert (L : (2 <= length lit)%nat). { destruct SL as (body & -> & _). cbn [length]. rewrite app_length. cbn [length]. lia. }
    ms. rewrite spend_steps. rr. unfold shorter. cbn [d_err d_rest]. subst b. rewrite app_length. unfold len. rewrite app_length. split.
    + intros _. split; [eexists; reflexivity|lia].
    + lia.
  - rr. split; [discriminate|]. unfold len. lia.
Qed.
Lemma struct_loop_use dis input : wf input -> forall k f b x, wf b -> looped R K input b (struct_loop_m lm dis input k f b x).
Proof.
  intros WI. induction k as [|k IH]; intros f b x W; cbn [struct_loop_m].
  { split; [discriminate|]. intros _. rr. unfold len. nia. }
  unfold looped. ms. mc. rewrite skip_steps. pose proof (skip_spaces_le b) as SL. pose proof (suf_skip b) as SF. pose proof (suf_wf _ _ SF W) as W1.
  set (b1 := skip_spaces b) in *. clearbody b1. destruct (match b1 with c :: _ => c =? cRBRACE | [] => false end) eqn:EC.
  { destruct b1 as [|c t]; [discriminate|]. cbn [tl]. rr. unfold shorter. cbn [d_err d_rest]. cbn [length] in *.
    split; [intros _; split; [|lia]|intros _; unfold len; nia]. eapply suf_trans; [apply suf_cons|exact SF]. }
  match goal with |- context [obj_key_m ?d f b1] => assert (KO : key_ok R b1 (obj_key_m d f b1)) end.
  { apply obj_key_use; [exact R8| |exact W1]. intros b0 W0. apply (lean_mono 8); [apply struct_key_lean, W0|exact R8]. }
  ms. mc. match goal with |- context [obj_key_m ?d f b1] => set (o := obj_key_m d f b1) in * end. clearbody o. unfold key_ok in KO.
  destruct (fst o) as [[r e]|[b2 key]].
  { split; [discriminate|]. intros _. rr. unfold len in *. nia. }
  destruct KO as (S2 & L2 & H2). pose proof (suf_wf _ _ S2 W1) as W2. destruct (lm key) as [d|] eqn:EK.
  - ms. mc. destruct (DM key d EK b2 x W2) as [S H]. set (y := fst (d b2 x)) in *. clearbody y.
    destruct (d_err y) as [e|] eqn:E.
    + match goal with |- context [elem_err_m input e ?v] => destruct (elem_err_fst input e v) as (r & e' & EF); pose proof (elem_err_steps input e v WI) as ES end.
      rewrite EF. split; [discriminate|]. intros C. unfold usd, extra in *. cbn [d_err]. rewrite E in H. specialize (H ltac:(lia)). unfold len in *. nia.
    + destruct (S E) as [S3 L3]. destruct (IH false (d_rest y) (d_val y) (suf_wf _ _ S3 W2)) as [S4 H4].
      set (l := struct_loop_m lm dis input k false (d_rest y) (d_val y)) in *. clearbody l. split.
      * intros E2. destruct (S4 E2) as [S5 L5]. split; [|lia]. eapply suf_trans; [exact S5|]. eapply suf_trans; [exact S3|].
        eapply suf_trans; [exact S2|exact SF].
      * intros C. specialize (H ltac:(lia)). specialize (H4 ltac:(lia)). unfold usd in *. rewrite E in H. unfold len in *.
        destruct (d_err (fst l)); nia.
  - destruct dis; [split; [discriminate|]; intros _; rr; unfold len in *; nia|]. ms. mc.
    pose proof (pv_steps b2 W2) as PS. destruct (parseValue b2) as [v r|r e] eqn:E; rewrite used_len in PS.
    + apply pv_suf in E as [S3 L3]; [|exact W2]. destruct (IH false r x (suf_wf _ _ S3 W2)) as [S4 H4].
      set (l := struct_loop_m lm false input k false r x) in *. clearbody l. split.
      * intros E2. destruct (S4 E2) as [S5 L5]. split; [|lia]. eapply suf_trans; [exact S5|]. eapply suf_trans; [exact S3|].
        eapply suf_trans; [exact S2|exact SF].
      * intros C. specialize (H4 ltac:(lia)). unfold usd in *. unfold len in *. destruct (d_err (fst l)); nia.
    + split; [discriminate|]. intros _. rr. unfold len in *. nia.
Qed.
Lemma struct_use dis b x : wf b -> rated (R + 8) K b (decode_struct_m lm dis b x).
Proof.
  intros W. unfold decode_struct_m. destruct (has_null_prefix b) eqn:N; [apply null_rated; assumption|].
  destruct (Nat.ltb _ _); [apply in_err_rated; assumption|]. destruct b as [|c b1] eqn:E; [apply in_err_rated; assumption|].
  destruct (c =? cLBRACE); [|apply in_err_rated; assumption]. rewrite <- E in *. eapply looped_rated; [exact R8|exact E|].
  apply struct_loop_use; [exact W|]. rewrite E in W. apply wf_cons in W. tauto.
Qed.
End Struct.

(** In proportion to bytes times depth. *)
Definition frug {A} (b : bytes) (m : M (dres A)) : Prop :=
  shorter b (fst m) /\ (1 <= calls (snd m))%nat /\ steps (snd m) + 1 <= 200 * usd b (fst m) * Z.of_nat (calls (snd m)).
Definition rate (K : nat) : Z := Z.max 100 (200 * Z.of_nat K).
Lemma rate100 K : 100 <= rate K.
Proof. unfold rate. lia. Qed.
Lemma frug_rated {A} K b (m : M (dres A)) : frug b m -> rated (rate K) K b m.
Proof.
  intros (S & C & H). split; [exact S|]. intros L. pose proof (usd_pos _ _ S).
  assert (200 * usd b (fst m) * Z.of_nat (calls (snd m)) <= 200 * usd b (fst m) * Z.of_nat K) by (apply Z.mul_le_mono_nonneg_l; lia).
  assert (200 * Z.of_nat K * usd b (fst m) <= rate K * usd b (fst m)) by (apply Z.mul_le_mono_nonneg_r; unfold rate; lia). lia.
Qed.
Lemma frug_map {A B} (f : A -> B) b m : frug b m -> frug b (md_map f m).
Proof.
  intros (S & C & H). split; [exact S|]. destruct m as [[r e v] [s c]]. unfold md_map, bind, ret, usd in *. cbn [d_map d_err d_rest fst snd steps calls] in *.
  rewrite Nat.max_0_r, Z.add_0_r. split; assumption.
Qed.
Lemma call_frug {A} b (m : M (dres A)) c : rated (rate (calls (snd m)) + c) (calls (snd m)) b m -> c <= 98 -> frug b (call m).
Proof.
  intros [S H] L. specialize (H (le_n _)). split; [exact S|]. unfold call. cbn [fst snd calls steps]. split; [lia|].
  pose proof (usd_pos _ _ S). rewrite Nat2Z.inj_succ.
  assert ((rate (calls (snd m)) + c) * usd b (fst m) <= (200 * Z.of_nat (calls (snd m)) + 199) * usd b (fst m))
    by (apply Z.mul_le_mono_nonneg_r; unfold rate; lia). lia.
Qed.
Lemma lean_frug {A} b (m : M (dres A)) c : lean c b m -> c <= 190 -> frug b (call m).
Proof. intros L H. apply (call_frug _ _ 90); [|lia]. apply (lean_rated c); [exact L|]. pose proof (rate100 (calls (snd m))). lia. Qed.
Lemma frug_call {A} b (m : M (dres A)) : frug b m -> frug b (call m).
Proof. intros F. apply (call_frug _ _ 0); [|lia]. rewrite Z.add_0_r. apply frug_rated, F. Qed.

(** interface{} *)
Lemma pv_calls b : (1 <= calls (snd (parseValue_m b)))%nat.
Proof.
  unfold parseValue_m, parse_fuel. replace (2 * length b + 2)%nat with (S (2 * length b + 1)) by lia.
  cbn [parse_value_m]. unfold call. cbn [snd calls]. lia.
Qed.
Lemma done_rated R K b v b' (m : M (dres jv)) : wf b -> 0 <= R -> parseValue b = POk v b' -> rated R K v m ->
  rated (R + 12) K b (let* p := parseValue_m b in
    let* x := m in
          match d_err x with
          | Some e => ret (DR b' (Some e) JVNull)
          | None => let* s := skip_spaces_m (d_rest x) in
                    match s with
                    | [] => ret (DR b' None (d_val x))
                    | _ => ret (DR b' (Some ESyntax) JVNull)
                    end
          end).
Proof.
  intros W R0 P [S H]. pose proof (pv_steps b W) as PS. rewrite P, used_len in PS.
  pose proof (parse_value_sound _ _ _ _ W P) as [Eb _]. destruct (pv_suf _ _ _ W P) as [S1 L1].
  assert (LV : len b = len v + len b') by (rewrite Eb; unfold len; rewrite app_length; lia).
  unfold rated. ms. mc.
  assert (G : forall (d : dres jv) (s : Z), (d_err d = None -> d_rest d = b') -> ((calls (snd m) <= K)%nat ->
       s <= 4 * (len v) + R * (len v + match d_err d with None => 0 | Some _ => 1 end) + 3 + 2 * len v) ->
    shorter b d /\ ((calls (snd m) <= K)%nat -> s + 1 <= (R + 12) * usd b d)).
  { intros d s E1 E2. split.
    - intros E. rewrite (E1 E). auto.
    - intros C. specialize (E2 C). unfold usd. destruct (d_err d); [|rewrite (E1 eq_refl)]; unfold len in *; nia. }
  destruct (d_err (fst m)) as [e|] eqn:E.
  - match goal with |- shorter b (fst ?d) /\ (_ -> ?s + 1 <= _) => destruct (G (fst d) s) as [G1 G2] end.
    + discriminate.
    + intros C. specialize (H C). unfold usd in H. rewrite E in H. rr. unfold len in *. lia.
    + split; [exact G1|]. intros C. apply G2. cbn [ret snd calls] in C. lia.
  - destruct (S E) as [S2 L2]. ms. mc. rewrite skip_steps. pose proof (skip_spaces_le (d_rest (fst m))) as SL.
    match goal with |- shorter b (fst ?d) /\ (_ -> ?s + 1 <= _) => destruct (G (fst d) s) as [G1 G2] end.
    + destruct (skip_spaces (d_rest (fst m))); [reflexivity|discriminate].
    + intros C. specialize (H C). unfold usd in H. rewrite E in H.
      assert (R * (len v - len (d_rest (fst m))) <= R * len v) by (apply Z.mul_le_mono_nonneg_l; unfold len; lia).
      destruct (skip_spaces (d_rest (fst m))); rr; unfold len in *; cbn [length] in *; nia.
    + split; [exact G1|]. intros C. apply G2. lia.
Qed.
Lemma iface_frug un pf n : (forall K b x, wf b -> rated (rate K) K b (dec_iface_m un pf n b x)) ->
  forall b x, wf b -> frug b (dec_iface_m un pf (S n) b x).
Proof.
  intros IH b x W. cbn [dec_iface_m]. set (m0 := bind _ _). set (k0 := calls (snd m0)). pose proof (rate100 k0) as R100.
  assert (G : rated (rate k0 + 90) k0 b m0); [|subst k0; apply (call_frug _ _ 90); [exact G|lia]]. clearbody k0.
  pose proof (pv_steps b W) as PS. destruct (parseValue b) as [v b'|r e] eqn:P; rewrite used_len in PS.
  2:{ subst m0. unfold rated. ms. rewrite P. rr. split; [discriminate|]. intros _. unfold len in *. nia. }
  pose proof (parse_value_sound _ _ _ _ W P) as [Eb _].
  assert (Wv : wf v) by (rewrite Eb in W; apply wf_app in W; tauto).
  assert (LV : len b = len v + len b') by (rewrite Eb; unfold len; rewrite app_length; lia).
  assert (E0 : forall f : pres -> M (dres jv), (let* p := parseValue_m b in f p) = (let* p := parseValue_m b in f (POk v b'))).
  { intros f. apply bind_ext. rewrite erase_parseValue, P. reflexivity. }
  subst m0. rewrite E0. clear E0. cbv zeta.
  assert (D : forall m, rated (rate k0 + 8) k0 v m -> rated (rate k0 + 90) k0 b (let* p := parseValue_m b in
    let* x := m in
          match d_err x with
          | Some e => ret (DR b' (Some e) JVNull)
          | None => let* s := skip_spaces_m (d_rest x) in
                    match s with
                    | [] => ret (DR b' None (d_val x))
                    | _ => ret (DR b' (Some ESyntax) JVNull)
                    end
          end)).
  { intros m H. eapply rated_mono; [eapply done_rated; [exact W| |exact P|exact H]|]; lia. }
  assert (Z0 : forall e, rated (rate k0 + 90) k0 b (let* p := parseValue_m b in ret (DR b' (Some e) JVNull))).
  { intros e. unfold rated. ms. rr. split; [discriminate|]. intros _. unfold len in *. nia. }
  assert (L8 : forall (m : M (dres jv)), lean 8 v m -> rated (rate k0 + 8) k0 v m) by (intros m H; apply (lean_rated 8); [exact H|lia]).
  destruct v as [|c v]; [apply Z0|]. set (w := c :: v) in *.
  destruct (c =? cLBRACE).
  { apply D, rated_map, dmap_use; [intros; apply IH; assumption|lia| |exact Wv]. intros b0 W0. apply (lean_mono 8); [apply string_lean, W0|lia]. }
  destruct (c =? cLBRACK). { apply D, rated_map, slice_use; [intros; apply IH; assumption|lia|exact Wv]. }
  destruct (c =? cQUOTE). { apply D, L8, lean_map, string_lean, Wv. }
  destruct (c =? cn). { apply D, L8. apply (lean_mono 6); [apply null_m_lean, Wv|lia]. }
  destruct (_ || _)%bool. { apply D, L8, lean_map. apply (lean_mono 6); [apply bool_lean, Wv|lia]. }
  destruct (is_num_start c); [|apply Z0]. destruct un; apply D, L8, lean_map; [apply number_lean, Wv|apply float_lean, Wv].
Qed.
Lemma iface_rated un pf n : forall K b x, wf b -> rated (rate K) K b (dec_iface_m un pf n b x).
Proof.
  induction n as [|n IH]; intros K b x W; [|apply frug_rated, iface_frug; assumption].
  split; [discriminate|]. intros _. cbn [dec_iface_m]. rr. pose proof (rate100 K). unfold len. nia.
Qed.
Lemma interface_frug un pf b x : wf b -> frug b (decode_interface_m un pf b x).
Proof. intros W. apply iface_frug; [|exact W]. intros; apply iface_rated; assumption. Qed.

(** strings that hold values *)
Lemma from_string_lean {A} (dm : bytes -> A -> M (dres A)) b x : (forall v, wf v -> lean 14 v (dm v x)) -> wf b -> lean 100 b (decode_from_string_m dm b x).
Proof.
  intros H W. unfold decode_from_string_m. destruct (has_null_prefix b); [apply (lean_mono 14); [apply H, W|lia]|].
  unfold lean. ms. destruct (unq_steps b W) as [(lit & r & i & SL & E & -> & ->)|(r & -> & ->)].
  2:{ destruct (in_err_fst [] x) as (r' & e' & ->). pose proof (in_err_steps [] x (Forall_nil _)). rr. split; [discriminate|]. unfold len in *. cbn [length] in *. lia. }
  assert (L : (2 <= length lit)%nat). { destruct SL as (body & -> & _). cbn [length]. rewrite app_length. cbn [length]. lia. }
  pose proof (text_len lit SL) as TL. destruct (H _ (str_text_wf lit SL)) as [S G]. ms. set (d := dm (str_text lit) x) in *. clearbody d.
  assert (LB : len b = len lit + len r) by (rewrite E; unfold len; rewrite app_length; lia).
  assert (GO : forall (y : dres A) s, (d_err y = None -> d_rest y = r) -> s + 1 <= 100 * len lit -> shorter b y /\ s + 1 <= 100 * usd b y).
  { intros y s E1 E2. split.
    - intros E3. rewrite (E1 E3). split; [exists lit; exact E|]. rewrite E, app_length. lia.
    - unfold usd. destruct (d_err y); [unfold len in *; lia|]. rewrite (E1 eq_refl). lia. }
  unfold usd in G. destruct (d_err (fst d)) as [e|] eqn:ED.
  - apply GO; [discriminate|]. rr. unfold len in *. lia.
  - ms. rewrite skip_steps. pose proof (skip_spaces_le (d_rest (fst d))). destruct (S ED) as [_ L2]. apply GO.
    + destruct (skip_spaces (d_rest (fst d))); [reflexivity|discriminate].
    + destruct (skip_spaces (d_rest (fst d))); rr; unfold len in *; cbn [length] in *; lia.
Qed.
Lemma drop_len v : (length (drop_zeroes v) <= length v)%nat.
Proof. induction v as [|c v IH]; [cbn; lia|]. cbn [drop_zeroes]. repeat match goal with |- context [match ?x with _ => _ end] => destruct x end; cbn [length] in *; lia. Qed.
Lemma strip_len v : (length (strip_zeroes v) <= length v)%nat.
Proof.
  unfold strip_zeroes. destruct (has_leading_zeroes v); [|lia]. destruct v as [|c v]; [lia|]. pose proof (drop_len v). pose proof (drop_len (c :: v)).
  destruct (_ || _)%bool; cbn [length] in *; lia.
Qed.
Lemma from_int_lean {A} pf (dm : bytes -> A -> M (dres A)) b x : (forall v, wf v -> lean 14 v (dm v x)) -> wf b -> lean 100 b (decode_from_string_int_m pf dm b x).
Proof.
  intros H W. unfold decode_from_string_int_m. destruct (has_null_prefix b); [apply (lean_mono 14); [apply H, W|lia]|].
  cbv zeta. match goal with |- context [match b with [] => ?q | _ => _ end] => assert (Q : lean 100 b q); [|set (quoted := q) in *] end.
  - unfold lean. ms. destruct (unq_steps b W) as [(lit & r & i & SL & E & -> & ->)|(r & -> & ->)].
    2:{ destruct (in_err_fst [] x) as (r' & e' & ->). pose proof (in_err_steps [] x (Forall_nil _)). rr. split; [discriminate|]. unfold len in *. cbn [length] in *. lia. }
    assert (L : (2 <= length lit)%nat). { destruct SL as (body & -> & _). cbn [length]. rewrite app_length. cbn [length]. lia. }
    pose proof (text_len lit SL) as TL. pose proof (strip_len (str_text lit)) as ST. pose proof (strip_wf _ (str_text_wf lit SL)) as WS.
    set (v := strip_zeroes (str_text lit)) in *. destruct (H v WS) as [S G]. ms. rewrite spend_steps. set (d := dm v x) in *. clearbody d.
    assert (LB : len b = len lit + len r) by (rewrite E; unfold len; rewrite app_length; lia).
    assert (GO : forall (y : dres A) s, (d_err y = None -> d_rest y = r) -> s + 1 <= 100 * len lit -> shorter b y /\ s + 1 <= 100 * usd b y).
    { intros y s E1 E2. split.
      - intros E3. rewrite (E1 E3). split; [exists lit; exact E|]. rewrite E, app_length. lia.
      - unfold usd. destruct (d_err y); [unfold len in *; lia|]. rewrite (E1 eq_refl). lia. }
    unfold usd in G. destruct (d_err (fst d)) as [e|] eqn:ED.
    + pose proof (num_steps v) as NS. pose proof (pv_steps v WS) as PS. rewrite used_len in NS, PS.
      assert (NP : steps (snd (pres_m v (parse_number v))) <= 2 + len v) by (destruct (parse_number v); unfold len in *; lia).
      assert (PP : steps (snd (parseValue_m v)) <= 4 + 4 * len v) by (destruct (parseValue v); unfold len in *; lia).
      assert (T : forall e, let m := (let* p := pres_m v (parse_number v) in
              let* e := match p with
                        | POk _ _ => ret e
                        | PErr _ _ => let* w := parseValue_m v in
                                      ret (match w with POk _ _ => EOther | PErr _ _ => e end)
                        end in
              ret (DR r (Some e) (d_val (fst d)))) in d_err (fst m) <> None /\ steps (snd m) <= 6 + 5 * len v).
      { intros e0 m. subst m. ms. destruct (parse_number v); ms; rr; (split; [discriminate|unfold len in *; lia]). }
      destruct e; try (match goal with |- context [fst ?m] => match m with context [pres_m] => match m with bind _ _ =>
         match goal with |- context [ret (DR r (Some ?e0) _)] => idtac end end end end).
      all: try (apply GO; [discriminate|rr; unfold len in *; cbn [length] in *; lia]).
      all: match goal with |- context [fst (let* p := _ in let* e := match p with POk _ _ => ret ?e0 | _ => _ end in _)] => destruct (T e0) as [T1 T2]; cbv zeta in T1, T2 end.
      all: (apply GO; [intros X; elim (T1 X)|unfold len in *; cbn [length] in *; lia]).
    + destruct (S ED) as [_ L2]. apply GO.
      * destruct (d_rest (fst d)); [reflexivity|discriminate].
      * destruct (d_rest (fst d)); rr; unfold len in *; cbn [length] in *; lia.
  - clearbody quoted. destruct b as [|c b1]; [exact Q|]. destruct (negb (c =? cQUOTE)).
    + unfold lean. ms. pose proof (num_steps (c :: b1)) as NS. destruct (parse_number (c :: b1)) as [v r|r e] eqn:EN; rewrite used_len in NS.
      * ms. rewrite spend_steps. destruct (existsb _ v); [destruct (pf v)|]; rr; (split; [discriminate|]); unfold len in *; cbn [length] in *; lia.
      * rr. split; [discriminate|]. unfold len in *; cbn [length] in *; lia.
    + destruct b1 as [|c1 b1]; [exact Q|]. destruct (c1 =? cQUOTE); [|exact Q].
      split; [discriminate|]. rr. unfold len in *; cbn [length] in *; lia.
Qed.

Section Typed.
Context (V : tenv) (F : dflags) (OK : env_ok V).

Lemma bad_lean b (x : mem) : lean 12 b (ret (bad b x)).
Proof. split; [discriminate|]. rewrite ret_steps. unfold bad. rr. unfold len. lia. Qed.
Lemma bytes_lean b x : wf b -> lean 16 b (decode_bytes_m V b x).
Proof.
  intros W. unfold decode_bytes_m. assert (IE : lean 16 b (in_err_m b x)) by (apply (lean_mono 6); [apply in_err_lean, W|lia]).
  destruct (has_null_prefix b) eqn:N.
  { destruct (null_rated 8 0 ltac:(lia) b (None : sl Z) N) as [S H]. split; [exact S|]. rewrite ret_steps in *. cbn [fst ret] in *. rewrite null_usd by exact N. lia. }
  destruct (Nat.ltb _ _); [exact IE|]. destruct b as [|c b1] eqn:EB; [exact IE|]. rewrite <- EB in *. destruct (negb (c =? cQUOTE)).
  - destruct (c =? cLBRACK); [|exact IE]. pose proof (slice_use (decode_int_m TUint8) 8 (calls (snd (decode_slice_m (decode_int_m TUint8) 0 b x)))) as SU.
    destruct (SU (fun b0 x0 W0 => lean_rated 6 8 _ _ _ (int_lean TUint8 b0 x0 W0) ltac:(lia)) ltac:(lia) 0 b x W) as [S H].
    split; [exact S|]. apply H. reflexivity.
  - unfold lean. ms. destruct (unq_steps b W) as [(lit & r & i & SL & E & -> & ->)|(r & -> & ->)].
    + assert (L : (2 <= length lit)%nat). { destruct SL as (body & -> & _). cbn [length]. rewrite app_length. cbn [length]. lia. }
      ms. rewrite spend_steps. unfold shorter. destruct (v_b64 V (str_text lit)); rr.
      * split; [intros _; split; [exists lit; exact E|]|]; rewrite E, ?app_length; unfold len; rewrite ?app_length; lia.
      * split; [discriminate|]. rewrite E, app_length. unfold len. rewrite app_length. lia.
    + split; [apply IE|]. destruct IE as [_ IE]. rewrite in_err_usd in *. pose proof (in_err_steps b x W). unfold len in *. lia.
Qed.
Lemma key_lean k b : wf b -> lean 100 b (decode_key_m V k b).
Proof.
  intros W. destruct k; cbn [decode_key_m]; apply lean_map.
  - apply (lean_mono 8); [apply string_lean, W|lia].
  - apply from_string_lean; [|exact W]. intros v Wv. apply (lean_mono 6); [apply int_lean, Wv|lia].
  - apply (lean_mono 12); [apply text_lean; assumption|lia].
Qed.
Definition fair {A} (b : bytes) (m : M (dres A)) : Prop := forall K, rated (rate K) K b m.
Lemma frug_fair {A} b (m : M (dres A)) : frug b m -> fair b m.
Proof. intros H K. apply frug_rated, H. Qed.
Lemma lean_fair {A} b (m : M (dres A)) : lean 100 b m -> fair b m.
Proof. intros H K. apply (lean_rated 100); [exact H|apply rate100]. Qed.
Lemma fair_call {A} b (m : M (dres A)) : fair b m -> frug b (call m).
Proof. intros H. apply (call_frug _ _ 0); [|lia]. rewrite Z.add_0_r. apply H. Qed.
Lemma fair_map {A B} (f : A -> B) b m : fair b m -> fair b (md_map f m).
Proof. intros H K. apply rated_map, H. Qed.
Lemma bad_fair b (x : mem) : fair b (ret (bad b x)).
Proof. apply lean_fair, (lean_mono 12); [apply bad_lean|lia]. Qed.
Lemma path_fair p dm : (forall b x, wf b -> fair b (dm b x)) -> forall b x, wf b -> fair b (on_path_m V p dm b x).
Proof.
  intros E. induction p as [|[i|i s un] p IH]; intros b x W; cbn [on_path_m]; [apply E, W| |].
  - destruct x; try apply bad_fair. destruct (nth_error l i); [|apply bad_fair]. apply fair_map, IH, W.
  - apply frug_fair, fair_call. destruct x; try apply bad_fair. destruct (nth_error l i) as [m|]; [|apply bad_fair]. destruct m; try apply bad_fair.
    destruct p0; [apply fair_map, IH, W|]. destruct un; [|apply fair_map, IH, W].
    apply lean_fair. split; [discriminate|]. rr. unfold len. lia.
Qed.
Lemma call_lean {A} c b (m : M (dres A)) : lean c b m -> lean (c + 1) b (call m).
Proof. intros [S H]. split; [exact S|]. pose proof (usd_pos _ _ S). unfold call. cbn [fst snd steps]. lia. Qed.
Lemma quotable_flat n t : quotable t -> match t with YPtr _ => False | _ => True end -> forall b x, wf b -> lean 13 b (dec_ty_m V F n t b x).
Proof.
  intros Q NP b x W. destruct t; cbn [quotable] in Q; try contradiction; destruct n; cbn [dec_ty_m]; apply (call_lean 12); destruct x; try apply bad_lean; apply lean_map.
  1,2: apply (lean_mono 6); [apply bool_lean, W|lia].
  1,2: apply (lean_mono 6); [apply int_lean, W|lia].
  1,2: apply (lean_mono 8); [apply float_lean, W|lia].
  1,2: apply (lean_mono 8); [apply number_lean, W|lia].
  1,2: apply (lean_mono 8); [apply string_lean, W|lia].
  1,2: apply duration_lean; assumption.
  1,2: apply json_lean; assumption.
  1,2: apply text_lean; assumption.
Qed.
Lemma quotable_lean n t : quotable t -> forall b x, wf b -> lean 14 b (dec_ty_m V F n t b x).
Proof.
  intros Q b x W. destruct t as [| | | | | | | | | | | | | | | |e| | | |];
    try (apply (lean_mono 13); [apply quotable_flat; [exact Q|exact I|exact W]|lia]).
  cbn [quotable] in Q. assert (Qe : quotable e /\ match e with YPtr _ => False | _ => True end) by (destruct e; try contradiction; auto). destruct Qe as [Qe NP].
  assert (H : lean 13 b match x with
      | MPtr p =>
          if has_null_prefix b then
            match p, e with
            | Some x, YPtr _ => md_map (fun y => MPtr (Some y)) (dec_ty_m V F n e b x)
            | _, _ => ret (DR (skipn 4 b) None (MPtr None))
            end
          else md_map (fun y => MPtr (Some y)) (dec_ty_m V F n e b (match p with Some x => x | None => zero V e end))
      | _ => ret (bad b x)
      end).
  { destruct x; try (apply (lean_mono 12); [apply bad_lean|lia]). destruct (has_null_prefix b) eqn:N.
    - assert (Z0 : lean 13 b (ret (DR (skipn 4 b) None (MPtr None)))).
      { split; [|rewrite ret_steps; cbn [fst ret]; rewrite null_usd; [lia|exact N]]. apply null_read in N. intros _. cbn [fst ret d_rest].
        split; [exists (bs "null"); exact N|]. rewrite N at 2. rewrite app_length. cbn. lia. }
      destruct p; [|exact Z0]. destruct e; try exact Z0. contradiction.
    - apply lean_map, quotable_flat; assumption. }
  destruct n; cbn [dec_ty_m]; apply (call_lean 13); exact H.
Qed.
Lemma field_fair i f n : In f (v_flds V i) -> (forall b x, wf b -> fair b (dec_ty_m V F n (jf_ty f) b x)) ->
  forall b x, wf b -> fair b (decode_field_m V f (dec_ty_m V F n (jf_ty f)) b x).
Proof.
  intros IN H b x W. unfold decode_field_m. pose proof (ok_quot V OK i f IN) as Q. destruct (jf_quot f); [apply H, W| |].
  - apply lean_fair, from_string_lean; [|exact W]. intros v Wv. apply quotable_lean; [apply Q; discriminate|exact Wv].
  - apply lean_fair, from_int_lean; [|exact W]. intros v Wv. apply quotable_lean; [apply Q; discriminate|exact Wv].
Qed.
Lemma parse_with_frug {A} (dm : bytes -> A -> M (dres A)) b x : (forall b x, wf b -> frug b (dm b x)) ->
  (forall b x, kept b (fst (dm b x))) -> wf b -> frug b (call (parse_with_m dm b x)).
Proof.
  intros H KP W. apply (call_frug _ _ 8); [|lia]. set (k0 := calls (snd (parse_with_m dm b x))). pose proof (rate100 k0) as R1. clearbody k0.
  unfold parse_with_m, rated. ms. mc. rewrite !skip_steps. rr. pose proof (skip_spaces_le b) as SL. pose proof (suf_skip b) as SF.
  destruct (frug_rated k0 _ _ (H (skip_spaces b) x (suf_wf _ _ SF W))) as [S G]. pose proof (KP (skip_spaces b) x) as KB. unfold kept in KB.
  set (d := dm (skip_spaces b) x) in *. clearbody d.
  pose proof (skip_spaces_le (d_rest (fst d))) as SL2. pose proof (suf_skip (d_rest (fst d))) as SF2. unfold shorter in *. cbn [d_err d_rest].
  split.
  - intros E. destruct (S E) as [S1 L1]. split; [eapply suf_trans; [exact SF2|eapply suf_trans; [exact S1|exact SF]]|lia].
  - intros C. specialize (G ltac:(lia)). unfold usd in G. destruct (d_err (fst d)) eqn:E; [unfold len in *; nia|].
    destruct (S eq_refl) as [S1 L1]; unfold len in *; nia.
Qed.
Lemma find_field_in fs k f : find_field V F fs k = Some f -> In f fs.
Proof.
  unfold find_field. destruct (find _ (rev fs)) as [g|] eqn:E.
  - intros [= ->]. apply find_some in E as [E _]. apply in_rev, E.
  - destruct (d_nocase F); [discriminate|]. intros E2. apply find_some in E2 as [E2 _]. exact E2.
Qed.
Lemma dec_ty_m_eq n t b cur : dec_ty_m V F n t b cur =
  call
  match t with
  | YBool => match cur with MBool x => md_map MBool (decode_bool_m b x) | _ => ret (bad b cur) end
  | YInt it => match cur with MInt x => md_map MInt (decode_int_m it b x) | _ => ret (bad b cur) end
  | YFloat w => match cur with MFloat x => md_map MFloat (decode_float_m (v_float V w) b x) | _ => ret (bad b cur) end
  | YNumber => match cur with MStr x => md_map MStr (decode_number_m b x) | _ => ret (bad b cur) end
  | YString => match cur with MStr x => md_map MStr (decode_string_m b x) | _ => ret (bad b cur) end
  | YBytes => match cur with MBytes x => md_map MBytes (decode_bytes_m V b x) | _ => ret (bad b cur) end
  | YDuration => match cur with MInt x => md_map MInt (decode_duration_m V b x) | _ => ret (bad b cur) end
  | YTime => match cur with MTime x => md_map MTime (decode_time_m V b x) | _ => ret (bad b cur) end
  | YIface =>
      match cur with
      | MIface x => md_map MIface (decode_interface_m (d_usenum F) (v_float V true) b x)
      | _ => ret (bad b cur)
      end
  | YNamedIface empty =>
      match cur with
      | MIface x =>
          if has_null_prefix b then ret (DR (skipn 4 b) None (MIface JVNull))
          else match x with
               | JVNull => if empty
                           then md_map MIface (parse_with_m (decode_interface_m (d_usenum F) (v_float V true)) b JVNull)
                           else decode_type_error_m b cur
               | _ => decode_type_error_m b cur
               end
      | _ => ret (bad b cur)
      end
  | YRaw => match cur with MRaw x => md_map MRaw (decode_raw_m b x) | _ => ret (bad b cur) end
  | YArray k e =>
      match cur with
      | MList l => if Nat.eqb (length l) k then md_map MList (decode_array_m (dec_ty_m V F n e) b l) else ret (bad b cur)
      | _ => ret (bad b cur)
      end
  | YSlice e =>
      match cur with MSlice s => md_map MSlice (decode_slice_m (dec_ty_m V F n e) (zero V e) b s) | _ => ret (bad b cur) end
  | YMap k e =>
      match cur with
      | MMap m => md_map MMap (decode_map_m mkey_eqb (decode_key_m V k) (dec_ty_m V F n e) (zero V e) b m)
      | _ => ret (bad b cur)
      end
  | YMapSI =>
      match cur with
      | MMap m => md_map MMap (decode_map_m mkey_eqb (decode_key_m V KYString)
                                (fun b x => md_map MIface (decode_interface_m (d_usenum F) (v_float V true) b JVNull))
                                (MIface JVNull) b m)
      | _ => ret (bad b cur)
      end
  | YMapSR =>
      match cur with
      | MMap m => md_map MMap (decode_map_m mkey_eqb (decode_key_m V KYString)
                                (fun b x => md_map MRaw (decode_raw_m b None)) (MRaw None) b m)
      | _ => ret (bad b cur)
      end
  | YPtr e =>
      match cur with
      | MPtr p =>
          if has_null_prefix b then
            match p, e with
            | Some x, YPtr _ => md_map (fun y => MPtr (Some y)) (dec_ty_m V F n e b x)
            | _, _ => ret (DR (skipn 4 b) None (MPtr None))
            end
          else md_map (fun y => MPtr (Some y)) (dec_ty_m V F n e b (match p with Some x => x | None => zero V e end))
      | _ => ret (bad b cur)
      end
  | YStruct i =>
      match n with
      | O => ret (DR b (Some EFuel) cur)
      | S n' =>
          match cur with
          | MList _ =>
              decode_struct_m
                (fun k => match find_field V F (v_flds V i) k with
                          | Some f => Some (on_path_m V (jf_path f) (decode_field_m V f (dec_ty_m V F n' (jf_ty f))))
                          | None => None
                          end) (d_disallow F) b cur
          | _ => ret (bad b cur)
          end
      end
  | YJSON u => match cur with MUser s => md_map MUser (decode_json_user_m V u b s) | _ => ret (bad b cur) end
  | YText u => match cur with MUser s => md_map MUser (decode_text_user_m V u b s) | _ => ret (bad b cur) end
  | YUnsupported => match cur with MUser _ => decode_type_error_m b cur | _ => ret (bad b cur) end
  end.
Proof. destruct n, t; reflexivity. Qed.
Ltac lm c := apply (lean_mono c); [|lia].
Lemma ty_frug_step n : (match n with O => True | S n' => forall t b x, wf b -> frug b (dec_ty_m V F n' t b x) end) ->
  forall t b x, wf b -> frug b (dec_ty_m V F n t b x).
Proof.
  intros ST. induction t; intros b x W; rewrite dec_ty_m_eq;
    assert (BAD : forall x, frug b (call (ret (bad b x)))) by (intros; apply (lean_frug _ _ 12); [apply bad_lean|lia]).
  all: try (destruct x; try apply BAD; apply (lean_frug _ _ 16); [apply lean_map|lia];
    first [lm 6; apply bool_lean, W | lm 6; apply int_lean, W | lm 8; apply float_lean, W | lm 8; apply number_lean, W | lm 8; apply string_lean, W
      | apply bytes_lean, W | lm 12; apply duration_lean; assumption | lm 8; apply time_lean; assumption
      | lm 12; apply raw_lean, W | lm 12; apply json_lean; assumption | lm 12; apply text_lean; assumption]; fail).
  all: assert (NUL : forall x : mem, has_null_prefix b = true -> frug b (call (ret (DR (skipn 4 b) None x)))).
  all: try (intros y N; apply (call_frug _ _ 8); [|lia]; apply null_rated; [pose proof (rate100 (calls (snd (ret (DR (skipn 4 b) None y))))); lia|exact N]).
  all: assert (TE : forall x, frug b (call (decode_type_error_m b x))) by (intros; apply (lean_frug _ _ 12); [apply type_error_lean, W|lia]).
  all: assert (R8 : forall K, 8 <= rate K) by (intros; pose proof (rate100 K); lia).
  all: assert (KL : forall k K b0, wf b0 -> lean (rate K) b0 (decode_key_m V k b0))
         by (intros k0 K b0 W0; apply (lean_mono 100); [apply key_lean, W0|apply rate100]).
  - destruct x; try apply BAD. apply frug_call, frug_map, interface_frug, W.
  - destruct x; try apply BAD. destruct (has_null_prefix b) eqn:N; [apply NUL; reflexivity|]. destruct v; try apply TE. destruct empty; [|apply TE].
    assert (E : forall m : M (dres jv), frug b (call m) -> frug b (call (md_map MIface m))).
    { intros m H. destruct H as (S & C & H). split; [exact S|]. destruct m as [[r e v] [s c]]. unfold call, md_map, bind, ret, usd in *.
      cbn [d_map d_err d_rest fst snd steps calls] in *. rewrite Nat.max_0_r, Z.add_0_r. split; assumption. }
    apply E, parse_with_frug; [intros; apply interface_frug; assumption| |exact W].
    intros b0 x0. rewrite erase_interface. apply iface_le.
  - destruct x; try apply BAD. destruct (Nat.eqb _ _); [|apply BAD]. apply (call_frug _ _ 8); [|lia]. apply rated_map.
    set (K := calls _). apply array_use; [|apply R8|exact W]. intros b0 x0 W0. apply frug_rated, IHt, W0.
  - destruct x; try apply BAD. apply (call_frug _ _ 8); [|lia]. apply rated_map.
    set (K := calls _). apply slice_use; [|apply R8|exact W]. intros b0 x0 W0. apply frug_rated, IHt, W0.
  - destruct x; try apply BAD. apply (call_frug _ _ 8); [|lia]. apply rated_map.
    set (K := calls _). apply dmap_use; [|apply R8|intros; apply KL; assumption|exact W]. intros b0 x0 W0. apply frug_rated, IHt, W0.
  - destruct x; try apply BAD. apply (call_frug _ _ 8); [|lia]. apply rated_map.
    set (K := calls _). apply dmap_use; [|apply R8|intros; apply KL; assumption|exact W]. intros b0 x0 W0. apply rated_map, frug_rated, interface_frug, W0.
  - destruct x; try apply BAD. apply (call_frug _ _ 8); [|lia]. apply rated_map.
    set (K := calls _). apply dmap_use; [|apply R8|intros; apply KL; assumption|exact W]. intros b0 x0 W0. apply rated_map.
    apply (lean_rated 12); [apply raw_lean, W0|pose proof (rate100 K); lia].
  - destruct x; try apply BAD. destruct (has_null_prefix b) eqn:N; [|apply frug_call, frug_map, IHt, W].
    destruct p; [|apply NUL; reflexivity]. destruct t; try (apply NUL; reflexivity). apply frug_call, frug_map, IHt, W.
  - destruct n as [|n].
    { apply (lean_frug _ _ 12); [|lia]. split; [discriminate|]. rr. unfold len. lia. }
    destruct x; try apply BAD. apply (call_frug _ _ 8); [|lia]. set (K := calls _). apply struct_use; [|apply R8|exact W].
    intros k d E b0 x0 W0. destruct (find_field V F (v_flds V i) k) as [f|] eqn:FF; [|discriminate]. injection E as <-.
    apply path_fair; [|exact W0]. intros b1 x1 W1. apply (field_fair i); [eapply find_field_in, FF| |exact W1].
    intros b2 x2 W2. apply frug_fair, ST, W2.
  - destruct x; try apply BAD; apply TE.
Qed.
Lemma ty_frug n : forall t b x, wf b -> frug b (dec_ty_m V F n t b x).
Proof. induction n as [|n IH]; apply ty_frug_step; [exact I|exact IH]. Qed.
End Typed.
