(** Every byte of an accepted text is paid for: the meter does not count too
    little. *)
From Verif Require Import Bytes SpecJson SpecString SpecDec AsciiModel Utf8Model ParseModel IntModel StringModel EncModel DecModel TypeModel
  ParseFacts IntFacts StringFacts DecFacts SpecType NodeFacts TypeFacts TypeMain SpecMeter MeterModel MeterFacts MeterParse MeterDec MeterLoop MeterRest MeterType
  MeterDeep MeterDepth.

(** At most five bytes for each step, and for [k] more. *)
Definition full {A} (k : Z) (b : bytes) (m : M (dres A)) : Prop :=
  d_err (fst m) = None -> len b - len (d_rest (fst m)) <= 5 * (steps (snd m) + k).
Lemma full_bind {A B} k b b' j (m : M A) (f : A -> M (dres B)) :
  len b - len b' <= 5 * (steps (snd m) + j) -> full (k - j) b' (f (fst m)) -> full k b (let* x := m in f x).
Proof. intros H1 H2. unfold full in *. rewrite fst_bind, steps_bind. intros E. specialize (H2 E). lia. Qed.
Lemma full_drop {A B} k b (m : M A) (f : A -> M (dres B)) : nn m -> full k b (f (fst m)) -> full k b (let* x := m in f x).
Proof. intros H1 H2. unfold full, nn in *. rewrite fst_bind, steps_bind. intros E. specialize (H2 E). lia. Qed.
Lemma full_err {A} k b (m : M (dres A)) e : d_err (fst m) = Some e -> full k b m.
Proof. intros E X. congruence. Qed.
Lemma full_map {A B} (f : A -> B) k b m : full k b m -> full k b (md_map f m).
Proof. intros H E. specialize (H E). unfold md_map. rewrite steps_bind. cbn [ret snd steps fst]. cbn [d_map bind fst ret d_rest] in *. lia. Qed.
Lemma full_call {A} k b (m : M (dres A)) : full (k + 1) b m -> full k b (call m).
Proof. intros H E. specialize (H E). unfold call in *. cbn [fst snd steps] in *. lia. Qed.
Lemma full_mono {A} k k' b (m : M (dres A)) : full k b m -> k <= k' -> full k' b m.
Proof. intros H L E. specialize (H E). lia. Qed.
Lemma full_ret {A} k b r e (x : A) : len b - len r <= 5 * k -> full k b (ret (DR r e x)).
Proof. intros H _. cbn [ret fst snd steps d_rest]. lia. Qed.
Lemma full_in_err {A} k b b0 (x : A) : full k b0 (in_err_m b x).
Proof. destruct (in_err_fst b x) as (r & e & E). eapply full_err. rewrite E. reflexivity. Qed.
Lemma full_elem_err {A} k b b0 e (x : A) : full k b0 (elem_err_m b e x).
Proof. destruct (elem_err_fst b e x) as (r & e' & E). eapply full_err. rewrite E. reflexivity. Qed.
Lemma full_skipn {A} n k b e (x : A) : Z.of_nat n <= 5 * k -> full k b (ret (DR (skipn n b) e x)).
Proof. intros H. apply full_ret. unfold len. rewrite skipn_length. lia. Qed.
Lemma skip_low b : len b - len (skip_spaces b) <= 5 * (steps (snd (skip_spaces_m b)) - 1).
Proof. rewrite skip_steps. pose proof (skip_spaces_le b). unfold len. lia. Qed.
Lemma skip_low' c b : len (c :: b) - len (skip_spaces b) <= 5 * (steps (snd (skip_spaces_m b)) + 0).
Proof. pose proof (skip_low b). unfold len in *. cbn [length]. lia. Qed.
Lemma spend_low b r : len b - len r <= 5 * (steps (snd (spend b r)) - 1).
Proof. rewrite spend_steps. unfold len. lia. Qed.
Lemma pres_low b v r : len b - len r <= 5 * (steps (snd (pres_m b (POk v r))) - 1).
Proof. unfold pres_m. rewrite steps_bind. cbn [ret snd steps]. pose proof (spend_low b r). lia. Qed.
Lemma unq_low b s r e : parse_string_unquote b [] = QOk s r e -> len b - len r <= 5 * (steps (snd (unquote_m b)) - 1).
Proof. unfold unquote_m. intros ->. rewrite steps_bind. cbn [ret snd steps]. pose proof (spend_low b r). lia. Qed.
Lemma pv_low b v r : wf b -> parseValue b = POk v r -> len b - len r <= 5 * (steps (snd (parseValue_m b)) + 0).
Proof.
  intros W P. destruct (parse_tree (parse_fuel b)) as [T _]. destruct (T b v r W P) as (a & _ & _ & H). fold (parseValue_m b) in H. rewrite used_len in H.
  pose proof (nn_pv b) as N. unfold nn in N. lia.
Qed.
Ltac fe := first [eapply full_err; reflexivity | apply full_in_err | apply full_elem_err].
Lemma finish_low b v c x r : fst (int_finish_m b v c) = IOk x r -> len b - len r <= 5 * (steps (snd (int_finish_m b v c)) - 1).
Proof.
  unfold int_finish_m. rewrite fst_bind, steps_bind. pose proof (spend_low b (skipn c b)) as L. destruct (skipn c b) as [|d t] eqn:E.
  - cbn [ret fst snd steps]. intros [= _ <-]. lia.
  - destruct (_ || _ || _).
    + rewrite fst_bind, fst_pres. intros H. exfalso. revert H. destruct (parse_number b); intros H; discriminate H.
    + cbn [ret fst snd steps]. intros [= _ <-]. lia.
Qed.
Lemma ie_low b x r : fst (let* y := input_error_m b in ret (IErr (fst y) (snd y))) = IOk x r -> False.
Proof. rewrite fst_bind. intros H. discriminate H. Qed.
Lemma pint_low b x r : fst (parse_int_m b) = IOk x r -> len b - len r <= 5 * (steps (snd (parse_int_m b)) - 1).
Proof.
  unfold parse_int_m. destruct b as [|c b1]; [discriminate|]. destruct (c =? cMINUS).
  - destruct b1 as [|c1 b2] eqn:E; [discriminate|]. rewrite <- E. destruct (leading_zero b1); [discriminate|].
    destruct (neg_loop 0 0 b1); first [apply finish_low | intros H; exfalso; revert H; first [apply ie_low | rewrite fst_bind; intros H; discriminate H]].
  - destruct (leading_zero (c :: b1)); [discriminate|].
    destruct (pos_loop 0 0 (c :: b1)); first [apply finish_low | intros H; exfalso; revert H; first [apply ie_low | rewrite fst_bind; intros H; discriminate H]].
Qed.
Lemma puint_low b x r : fst (parse_uint_m b) = IOk x r -> len b - len r <= 5 * (steps (snd (parse_uint_m b)) - 1).
Proof.
  unfold parse_uint_m. destruct b as [|c b1]; [discriminate|]. destruct (leading_zero (c :: b1)); [discriminate|].
    destruct (uint_loop 0 0 (c :: b1)); first [apply finish_low | intros H; exfalso; revert H; first [apply ie_low | rewrite fst_bind; intros H; discriminate H]].
Qed.
Lemma int_full t b x : full 1 b (decode_int_m t b x).
Proof.
  unfold decode_int_m. destruct (has_null_prefix b); [apply full_skipn; lia|].
  assert (H : forall v r, fst (if signed t then parse_int_m b else parse_uint_m b) = IOk v r ->
    len b - len r <= 5 * (steps (snd (if signed t then parse_int_m b else parse_uint_m b)) - 1)) by (destruct (signed t); [apply pint_low|apply puint_low]).
  set (m := if signed t then _ else _) in *. clearbody m. destruct (fst m) as [v r|r e] eqn:E.
  - eapply full_bind; [eapply H; reflexivity|]. rewrite E. destruct (out_of_range t v); [fe|]. apply full_ret. unfold len. lia.
  - unfold full. rewrite fst_bind, E. discriminate.
Qed.
Lemma null_full {A} b (x : A) : full 1 b (decode_null_m b x).
Proof. unfold decode_null_m. destruct (has_null_prefix b); [apply full_skipn; lia|fe]. Qed.
Lemma bool_full b x : full 1 b (decode_bool_m b x).
Proof.
  unfold decode_bool_m. destruct (has_true_prefix b); [apply full_skipn; lia|]. destruct (has_false_prefix b); [apply full_skipn; lia|].
  destruct (has_null_prefix b); [apply full_skipn; lia|fe].
Qed.
Lemma float_full pf b x : full 1 b (decode_float_m pf b x).
Proof.
  unfold decode_float_m. destruct (has_null_prefix b); [apply full_skipn; lia|]. destruct (parse_number b) as [v r|r e] eqn:P.
  - eapply full_bind; [apply pres_low|]. rewrite fst_pres. apply full_drop; [apply nn_spend|]. destruct (pf v); [apply full_ret; unfold len; lia|fe].
  - apply full_drop; [apply nn_pres|]. rewrite fst_pres. fe.
Qed.
Lemma number_full b x : full 1 b (decode_number_m b x).
Proof.
  unfold decode_number_m. destruct (has_null_prefix b); [apply full_skipn; lia|]. destruct (parse_number b) as [v r|r e] eqn:P.
  - eapply full_bind; [apply pres_low|]. rewrite fst_pres. apply full_ret; unfold len; lia.
  - apply full_drop; [apply nn_pres|]. rewrite fst_pres. fe.
Qed.
Lemma string_full b x : full 1 b (decode_string_m b x).
Proof.
  unfold decode_string_m. destruct (has_null_prefix b); [apply full_skipn; lia|]. destruct (parse_string_unquote b []) as [s r e|r e| |] eqn:P.
  - eapply full_bind; [eapply unq_low, P|]. rewrite fst_unquote, P. apply full_ret; unfold len; lia.
  - apply full_drop; [apply nn_unq|]. rewrite fst_unquote, P. destruct b as [|c b1]; [fe|]. destruct (c =? cQUOTE); fe.
  - apply full_drop; [apply nn_unq|]. rewrite fst_unquote, P. fe.
  - apply full_drop; [apply nn_unq|]. rewrite fst_unquote, P. fe.
Qed.
Lemma raw_full b x : wf b -> full 0 b (decode_raw_m b x).
Proof.
  intros W. unfold decode_raw_m. destruct (parseValue b) as [v r|r e] eqn:P.
  - eapply full_bind; [eapply pv_low; eassumption|]. rewrite erase_parseValue, P. apply full_drop; [apply nn_spend|]. apply full_ret. unfold len. lia.
  - apply full_drop; [apply nn_pv|]. rewrite erase_parseValue, P. fe.
Qed.
Section Loops.
Context {A : Type} (dm : bytes -> A -> M (dres A)).
Hypothesis EL : forall b x, wf b -> full 1 b (dm b x).
Hypothesis SH : forall b x, wf b -> shorter b (fst (dm b x)).
Lemma slice_loop_full z input k : forall b n d, wf b -> full 0 b (slice_loop_m dm z input k b n d).
Proof.
  induction k as [|k IH]; intros b n d W; cbn [slice_loop_m]; cbv zeta; [fe|].
  eapply full_bind; [apply (skip_low b)|]. rewrite fst_skip. pose proof (suf_skip b) as SF. pose proof (suf_wf _ _ SF W) as W1. set (b1 := skip_spaces b) in *. clearbody b1.
  assert (E1 : forall b0 d n, wf b0 -> full 1 b0 (let* x := dm b0 (nth n d z) in
        match d_err x with
        | None => slice_loop_m dm z input k (d_rest x) (S n) (Some (set_nth n (d_val x) d))
        | Some e => elem_err_m input e (Some (n, set_nth n (d_val x) d))
        end)).
  { intros b0 d0 n0 W0. pose proof (EL b0 (nth n0 d0 z) W0) as P. pose proof (SH b0 (nth n0 d0 z) W0) as S. unfold full in P.
    destruct (d_err (fst (dm b0 (nth n0 d0 z)))) as [e|] eqn:ED.
    - unfold full. rewrite fst_bind, ED. intros X. exfalso. revert X. destruct (elem_err_fst input e (Some (n0, set_nth n0 (d_val (fst (dm b0 (nth n0 d0 z)))) d0))) as (r & e' & E). rewrite E. discriminate.
    - eapply full_bind; [apply P; reflexivity|]. rewrite ED. destruct (S ED) as [S1 _]. eapply full_mono; [apply IH|lia]. eapply suf_wf; eassumption. }
  destruct (match b1 with c :: _ => c =? cRBRACK | [] => false end) eqn:EC.
  { destruct b1; [discriminate|]. apply full_ret. cbn [tl]. unfold len. cbn [length]. lia. }
  destruct (Nat.eqb n 0); [eapply full_mono; [apply E1, W1|lia]|]. destruct b1 as [|c b1]; [fe|].
  destruct (c =? cCOMMA); [|fe]. eapply full_bind; [apply skip_low'|]. rewrite fst_skip. apply wf_cons in W1 as [_ W1].
  eapply full_mono; [apply E1; eapply suf_wf; [apply suf_skip|exact W1]|lia].
Qed.
Lemma slice_full z b x : wf b -> full 1 b (decode_slice_m dm z b x).
Proof.
  intros W. unfold decode_slice_m. destruct (has_null_prefix b) eqn:N; [apply full_skipn; lia|]. destruct (Nat.ltb _ _); [fe|].
  destruct b as [|c b1]; [fe|]. destruct (c =? cLBRACK); [|fe]. apply wf_cons in W as [_ W].
  pose proof (slice_loop_full z (c :: b1) (S (length (c :: b1))) b1 0 (option_map snd x) W) as P. intros E. specialize (P E). unfold len in *. cbn [length] in *. lia.
Qed.
Lemma array_skip_low k : forall b, wf b -> snd (fst (array_skip_m k b)) = None -> len b - len (fst (fst (array_skip_m k b))) <= 5 * steps (snd (array_skip_m k b)).
Proof.
  induction k as [|k IH]; intros b W; cbn [array_skip_m]; [discriminate|]. rewrite !fst_bind, !steps_bind, fst_skip. pose proof (skip_low b) as SL.
  pose proof (suf_wf _ _ (suf_skip b) W) as W1. set (b1 := skip_spaces b) in *. clearbody b1. destruct b1 as [|c b2]; [discriminate|].
  destruct (c =? cRBRACK); [cbn [ret fst snd steps]; intros _; unfold len in *; cbn [length] in *; lia|].
  assert (G : forall b3, wf b3 -> len (c :: b2) - len b3 <= 5 * steps (snd (if c =? cCOMMA then skip_spaces_m b2 else ret (c :: b2))) ->
    snd (fst (let* p := parseValue_m b3 in match p with PErr r e => ret (r, Some e) | POk _ r => array_skip_m k r end)) = None ->
    len b - len (fst (fst (let* p := parseValue_m b3 in match p with PErr r e => ret (r, Some e) | POk _ r => array_skip_m k r end))) <=
    5 * (steps (snd (skip_spaces_m b)) + (steps (snd (if c =? cCOMMA then skip_spaces_m b2 else ret (c :: b2))) +
      steps (snd (let* p := parseValue_m b3 in match p with PErr r e => ret (r, Some e) | POk _ r => array_skip_m k r end))))).
  { intros b3 W3 L3. rewrite !fst_bind, !steps_bind, erase_parseValue. revert L3. generalize (steps (snd (if c =? cCOMMA then skip_spaces_m b2 else ret (c :: b2)))). intros s L3.
    destruct (parseValue b3) as [v r|r e] eqn:P; [|intros H; discriminate H]. pose proof (pv_low b3 v r W3 P) as PL. destruct (pv_suf b3 v r W3 P) as [S4 _].
    intros E. specialize (IH r (suf_wf _ _ S4 W3) E). lia. }
  rewrite !fst_bind, !steps_bind. destruct (c =? cCOMMA).
  - rewrite !fst_skip. apply wf_cons in W1 as [_ W1]. apply (G (skip_spaces b2)); [apply (suf_wf _ _ (suf_skip b2) W1)|]. pose proof (skip_low' c b2). lia.
  - apply (G (c :: b2)); [exact W1|]. cbn [ret snd steps]. lia.
Qed.
Lemma arr_loop_full todo : forall f b done, wf b -> full 0 b (arr_loop_m dm f b done todo).
Proof.
  induction todo as [|x todo IH]; intros f b done W; cbn [arr_loop_m].
  { unfold full. rewrite fst_bind, steps_bind. cbn [ret fst snd steps d_err d_rest]. intros E. pose proof (array_skip_low (S (length b)) b W E). lia. }
  eapply full_bind; [apply skip_low|]. rewrite fst_skip. pose proof (suf_skip b) as SF. pose proof (suf_wf _ _ SF W) as W1. set (b1 := skip_spaces b) in *. clearbody b1. cbv zeta.
  assert (E1 : forall b0, wf b0 -> full 1 b0 (let* y := dm b0 x in
      match d_err y with
      | None => arr_loop_m dm false (d_rest y) (done ++ [d_val y]) todo
      | Some e => ret (DR (d_rest y) (Some e) (done ++ d_val y :: todo))
      end)).
  { intros b0 W0. pose proof (EL b0 x W0) as P. pose proof (SH b0 x W0) as S. unfold full in P.
    destruct (d_err (fst (dm b0 x))) as [e|] eqn:ED.
    - unfold full. rewrite fst_bind, ED. discriminate.
    - eapply full_bind; [apply P; reflexivity|]. rewrite ED. destruct (S ED) as [S1 _]. eapply full_mono; [apply IH|lia]. eapply suf_wf; eassumption. }
  destruct f; [eapply full_mono; [apply E1, W1|lia]|]. destruct b1 as [|c b1]; [fe|]. apply wf_cons in W1 as [_ W1].
  destruct (c =? cCOMMA).
  - eapply full_bind; [apply skip_low'|]. rewrite fst_skip. eapply full_mono; [apply E1; eapply suf_wf; [apply suf_skip|exact W1]|lia].
  - destruct (c =? cRBRACK); [|fe]. apply full_ret. unfold len. cbn [length]. lia.
Qed.
Lemma array_full b x : wf b -> full 1 b (decode_array_m dm b x).
Proof.
  intros W. unfold decode_array_m. destruct (has_null_prefix b) eqn:N; [apply full_skipn; lia|]. destruct (Nat.ltb _ _); [fe|].
  destruct b as [|c b1]; [fe|]. destruct (c =? cLBRACK); [|fe]. apply wf_cons in W as [_ W].
  pose proof (arr_loop_full x true b1 [] W) as P. intros E. specialize (P E). unfold len in *. cbn [length] in *. lia.
Qed.
End Loops.
(** keys *)
Lemma obj_key_low {K} (deck : bytes -> M (dres K)) f b b2 k : (forall b, wf b -> lean 100 b (deck b)) -> (forall b, wf b -> has_null_prefix b = false -> full 0 b (deck b)) -> wf b ->
  fst (obj_key_m deck f b) = inr (b2, k) -> len b - len b2 <= 5 * steps (snd (obj_key_m deck f b)).
Proof.
  intros DL DK W. unfold obj_key_m. cbv zeta.
  assert (H : forall b0, wf b0 -> forall m, m = (if has_null_prefix b0 then ret (inl (b0, ESyntax))
    else
      let* x := deck b0 in
      match d_err x with
      | Some e => ret (inl (key_error (d_rest x) e))
      | None =>
          let* b := skip_spaces_m (d_rest x) in
          match b with
          | [] => ret (inl (b, ESyntax))
          | c :: b1 => if c =? cCOLON then let* b2 := skip_spaces_m b1 in ret (inr (b2, d_val x))
                       else ret (inl (b, ESyntax))
          end
      end) -> fst m = inr (b2, k) -> len b0 - len b2 <= 5 * steps (snd m)).
  { intros b0 W0 m ->. destruct (has_null_prefix b0) eqn:N; [discriminate|]. rewrite fst_bind, steps_bind. specialize (DK b0 W0 N). unfold full in DK.
    destruct (d_err (fst (deck b0))) eqn:E; [discriminate|]. specialize (DK eq_refl).
    rewrite fst_bind, steps_bind, fst_skip. pose proof (skip_low (d_rest (fst (deck b0)))) as S1. set (b1 := skip_spaces _) in *. clearbody b1. destruct b1 as [|c b1]; [discriminate|].
    destruct (c =? cCOLON); [|discriminate]. rewrite fst_bind, steps_bind, fst_skip. cbn [ret fst snd steps]. intros [= <- _]. pose proof (skip_low' c b1). lia. }
  destruct f; [apply (H b W _ eq_refl)|]. destruct b as [|c b1]; [discriminate|]. destruct (c =? cCOMMA); [|discriminate].
  rewrite fst_bind, steps_bind, fst_skip. apply wf_cons in W as [_ W]. intros E. pose proof (H _ (suf_wf _ _ (suf_skip b1) W) _ eq_refl E) as L. pose proof (skip_low' c b1).
  unfold len in *. lia.
Qed.
Lemma nnull_string b x : has_null_prefix b = false -> full 0 b (decode_string_m b x).
Proof.
  intros N. unfold decode_string_m. rewrite N. destruct (parse_string_unquote b []) as [s r e|r e| |] eqn:P.
  - eapply full_bind; [eapply unq_low, P|]. rewrite fst_unquote, P. apply full_ret; unfold len; lia.
  - apply full_drop; [apply nn_unq|]. rewrite fst_unquote, P. destruct b as [|c b1]; [fe|]. destruct (c =? cQUOTE); fe.
  - apply full_drop; [apply nn_unq|]. rewrite fst_unquote, P. fe.
  - apply full_drop; [apply nn_unq|]. rewrite fst_unquote, P. fe.
Qed.
Section Maps.
Context {A K : Type} (dm : bytes -> A -> M (dres A)) (deck : bytes -> M (dres K)).
Hypothesis EL : forall b x, wf b -> full 0 b (dm b x).
Hypothesis SH : forall b x, wf b -> shorter b (fst (dm b x)).
Hypothesis DL : forall b, wf b -> lean 100 b (deck b).
Hypothesis DK : forall b, wf b -> has_null_prefix b = false -> full 0 b (deck b).
Lemma map_loop_full eqb z input fr : forall k f b m, wf b -> full 0 b (map_loop_m eqb deck dm z input fr k f b m).
Proof.
  induction k as [|k IH]; intros f b m W; cbn [map_loop_m]; cbv zeta; [fe|].
  eapply full_bind; [apply skip_low|]. rewrite fst_skip. pose proof (suf_skip b) as SF. pose proof (suf_wf _ _ SF W) as W1. set (b1 := skip_spaces b) in *. clearbody b1.
  destruct (match b1 with c :: _ => c =? cRBRACE | [] => false end) eqn:EC.
  { destruct b1; [discriminate|]. apply full_ret. cbn [tl]. unfold len. cbn [length]. lia. }
  pose proof (obj_key_use 100 ltac:(lia) deck DL f b1 W1) as KO. unfold key_ok in KO.
  destruct (fst (obj_key_m deck f b1)) as [[r e]|[b2 key]] eqn:EK; [unfold full; rewrite fst_bind, EK; discriminate|].
  destruct KO as (S2 & L2 & H2). pose proof (suf_wf _ _ S2 W1) as W2. pose proof (obj_key_low deck f b1 b2 key DL DK W1 EK) as KL. eapply (full_bind _ _ b2 0); [lia|]. rewrite EK.
  pose proof (EL b2 z W2) as P. pose proof (SH b2 z W2) as S. unfold full in P. destruct (d_err (fst (dm b2 z))) as [e|] eqn:ED.
  - unfold full. rewrite fst_bind, ED. unfold elem_err_m. rewrite fst_bind. destruct (fst (parseValue_m input)); discriminate.
  - eapply full_bind; [apply P; reflexivity|]. rewrite ED. destruct (S ED) as [S1 _]. eapply full_mono; [apply IH; eapply suf_wf; eassumption|lia].
Qed.
Lemma dmap_full eqb z b x : wf b -> full 1 b (decode_map_m eqb deck dm z b x).
Proof.
  intros W. unfold decode_map_m. destruct (has_null_prefix b) eqn:N; [apply full_skipn; lia|]. destruct (Nat.ltb _ _); [fe|].
  destruct b as [|c b1]; [fe|]. destruct (c =? cLBRACE); [|fe]. apply wf_cons in W as [_ W].
  match goal with |- full _ _ (map_loop_m _ _ _ _ ?i ?fr ?k ?f _ ?m) => pose proof (map_loop_full eqb z i fr k f b1 m W) as P end.
  intros E. specialize (P E). unfold len in *. cbn [length] in *. lia.
Qed.
End Maps.
Lemma sdeck_full b : full 0 b (sdeck b).
Proof.
  unfold sdeck. destruct (parse_string_unquote b []) as [s r e|r e| |] eqn:P.
  - eapply full_bind; [eapply unq_low, P|]. rewrite fst_unquote, P. apply full_drop; [apply nn_spend|]. apply full_ret; unfold len; lia.
  - apply full_drop; [apply nn_unq|]. rewrite fst_unquote, P. fe.
  - apply full_drop; [apply nn_unq|]. rewrite fst_unquote, P. fe.
  - apply full_drop; [apply nn_unq|]. rewrite fst_unquote, P. fe.
Qed.
Section Struct.
Context {A : Type} (lm : bytes -> option (bytes -> A -> M (dres A))).
Hypothesis EL : forall k d, lm k = Some d -> forall b x, wf b -> full 0 b (d b x).
Hypothesis SH : forall k d, lm k = Some d -> forall b x, wf b -> shorter b (fst (d b x)).
Lemma struct_loop_full dis input : forall k f b x, wf b -> full 0 b (struct_loop_m lm dis input k f b x).
Proof.
  induction k as [|k IH]; intros f b x W; cbn [struct_loop_m]; cbv zeta; [fe|].
  eapply full_bind; [apply skip_low|]. rewrite fst_skip. pose proof (suf_skip b) as SF. pose proof (suf_wf _ _ SF W) as W1. set (b1 := skip_spaces b) in *. clearbody b1.
  destruct (match b1 with c :: _ => c =? cRBRACE | [] => false end) eqn:EC.
  { destruct b1; [discriminate|]. apply full_ret. cbn [tl]. unfold len. cbn [length]. lia. }
  fold sdeck. assert (SL : forall b, wf b -> lean 100 b (sdeck b)) by (intros b0 W0; apply (lean_mono 8); [apply struct_key_lean, W0|lia]).
  pose proof (obj_key_use 100 ltac:(lia) sdeck SL f b1 W1) as KO. unfold key_ok in KO.
  destruct (fst (obj_key_m sdeck f b1)) as [[r e]|[b2 key]] eqn:EK; [unfold full; rewrite fst_bind, EK; discriminate|].
  destruct KO as (S2 & L2 & H2). pose proof (suf_wf _ _ S2 W1) as W2.
  pose proof (obj_key_low sdeck f b1 b2 key SL (fun b0 _ _ => sdeck_full b0) W1 EK) as KL. eapply (full_bind _ _ b2 0); [lia|]. rewrite EK.
  destruct (lm key) as [d|] eqn:LM.
  - pose proof (EL key d LM b2 x W2) as P. pose proof (SH key d LM b2 x W2) as S. unfold full in P. destruct (d_err (fst (d b2 x))) as [e|] eqn:ED.
    + unfold full. rewrite fst_bind, ED. unfold elem_err_m. rewrite fst_bind. destruct (fst (parseValue_m input)); discriminate.
    + eapply full_bind; [apply P; reflexivity|]. rewrite ED. destruct (S ED) as [S1 _]. eapply full_mono; [apply IH; eapply suf_wf; eassumption|lia].
  - destruct dis; [fe|].
    destruct (parseValue b2) as [v r|r e] eqn:P; [|unfold full; rewrite fst_bind, erase_parseValue, P; discriminate].
    destruct (pv_suf b2 v r W2 P) as [S3 L3]. eapply full_bind; [eapply pv_low; eassumption|]. rewrite erase_parseValue, P.
    eapply full_mono; [apply IH; eapply suf_wf; eassumption|lia].
Qed.
Lemma struct_full dis b x : wf b -> full 1 b (decode_struct_m lm dis b x).
Proof.
  intros W. unfold decode_struct_m. destruct (has_null_prefix b) eqn:N; [apply full_skipn; lia|]. destruct (Nat.ltb _ _); [fe|].
  destruct b as [|c b1]; [fe|]. destruct (c =? cLBRACE); [|fe]. apply wf_cons in W as [_ W].
  pose proof (struct_loop_full dis (c :: b1) (S (length (c :: b1))) true b1 x W) as P.
  intros E. specialize (P E). unfold len in *. cbn [length] in *. lia.
Qed.
End Struct.
(** Steps are never negative. *)
Lemma nn_finish b v c : nn (int_finish_m b v c).
Proof. unfold int_finish_m. nnt. apply nn_pres. Qed.
Lemma nn_ie b : nn (input_error_m b).
Proof. unfold input_error_m. nnt; [apply nn_pv|apply nn_skip]. Qed.
Lemma nn_int t b x : nn (decode_int_m t b x).
Proof. unfold decode_int_m, parse_int_m, parse_uint_m. nnt; first [apply nn_ie|apply nn_finish]. Qed.
Lemma nn_array_skip k : forall b, nn (array_skip_m k b).
Proof. induction k as [|k IH]; intros b; cbn [array_skip_m]; nnt; first [apply nn_skip|apply nn_pv|apply IH]. Qed.
Lemma nn_array {A} (dm : bytes -> A -> M (dres A)) b l : (forall b x, nn (dm b x)) -> nn (decode_array_m dm b l).
Proof.
  intros H. assert (L : forall todo f b done, nn (arr_loop_m dm f b done todo)).
  { induction todo as [|x todo IH]; intros f b0 done; cbn [arr_loop_m]; cbv zeta; nnt; first [apply nn_array_skip | apply nn_skip | apply H | apply IH]. }
  unfold decode_array_m. nnt; first [apply nn_in_err | apply L].
Qed.
Lemma nn_sdeck b : nn (sdeck b).
Proof. unfold sdeck. nnt. apply nn_unq. Qed.
Lemma nn_struct {A} (lm : bytes -> option (bytes -> A -> M (dres A))) dis b x : (forall k d, lm k = Some d -> forall b x, nn (d b x)) -> nn (decode_struct_m lm dis b x).
Proof.
  intros H. assert (L : forall i k f b x, nn (struct_loop_m lm dis i k f b x)).
  { intros i. induction k as [|k IH]; intros f b0 x0; cbn [struct_loop_m]; cbv zeta; [apply nn_ret|]. fold sdeck.
    apply nn_bind; [apply nn_skip|]. intros b1. destruct (match b1 with [] => _ | _ => _ end); [apply nn_ret|]. apply nn_bind; [apply nn_obj_key, nn_sdeck|].
    intros [[r e]|[b2 key]]; [apply nn_ret|]. destruct (lm key) as [d|] eqn:LM.
    - apply nn_bind; [eapply H, LM|]. intros y. destruct (d_err y); [apply nn_elem_err|apply IH].
    - nnt; [apply nn_pv|apply IH]. }
  unfold decode_struct_m. nnt; first [apply nn_in_err | apply L].
Qed.
Section Typed.
Context (V : tenv) (F : dflags) (OK : env_ok V).
Lemma nn_parse_with {A} (dm : bytes -> A -> M (dres A)) b x : (forall b x, nn (dm b x)) -> nn (parse_with_m dm b x).
Proof. intros H. unfold parse_with_m. nnt; first [apply nn_skip | apply H]. Qed.
Lemma nn_from_string {A} (dm : bytes -> A -> M (dres A)) b x : (forall b x, nn (dm b x)) -> nn (decode_from_string_m dm b x).
Proof. intros H. unfold decode_from_string_m. nnt; first [apply nn_skip | apply H | apply nn_unq | apply nn_in_err]. Qed.
Lemma nn_from_int {A} pf (dm : bytes -> A -> M (dres A)) b x : (forall b x, nn (dm b x)) -> nn (decode_from_string_int_m pf dm b x).
Proof. intros H. unfold decode_from_string_int_m. cbv zeta. nnt; first [apply nn_skip | apply H | apply nn_unq | apply nn_in_err | apply nn_pres | apply nn_pv]. Qed.
Lemma nn_text_user u b x : nn (decode_text_user_m V u b x).
Proof. unfold decode_text_user_m. nnt; first [apply nn_pv | apply nn_unq]. Qed.
Lemma nn_key k b : nn (decode_key_m V k b).
Proof. destruct k; apply nn_map; [apply nn_string|apply nn_from_string; intros; apply nn_int|apply nn_text_user]. Qed.
Lemma nn_path p dm : (forall b x, nn (dm b x)) -> forall b x, nn (on_path_m V p dm b x).
Proof.
  intros H. induction p as [|[i|i s un] p IH]; intros b x; cbn [on_path_m]; [apply H| |]; nnt; apply nn_map, IH.
Qed.
Lemma nn_quoted {A} (p : bytes -> option A) b x : nn (decode_quoted_m p b x).
Proof. unfold decode_quoted_m. nnt; apply nn_in_err. Qed.
Lemma nn_duration b x : nn (decode_duration_m V b x).
Proof. unfold decode_duration_m, parse_int_m. nnt; first [apply nn_quoted | apply nn_in_err | apply nn_ie | apply nn_finish]. Qed.
Lemma nn_raw b x : nn (decode_raw_m b x).
Proof. unfold decode_raw_m. nnt; first [apply nn_pv | apply nn_in_err]. Qed.
Lemma nn_type_error b x : nn (decode_type_error_m b x).
Proof. unfold decode_type_error_m. nnt. apply nn_pv. Qed.
Lemma nn_ty_step n : (match n with O => True | Datatypes.S n' => forall t b x, nn (dec_ty_m V F n' t b x) end) -> forall t b x, nn (dec_ty_m V F n t b x).
Proof.
  intros SN. induction t; intros b x; rewrite dec_ty_m_eq; apply nn_call; try (destruct x; try apply nn_ret; apply nn_map).
  - unfold decode_bool_m. nnt. apply nn_in_err.
  - apply nn_int.
  - unfold decode_float_m. nnt; try apply nn_in_err. apply nn_pres.
  - unfold decode_number_m. nnt; try apply nn_in_err. apply nn_pres.
  - apply nn_string.
  - unfold decode_bytes_m. nnt; first [apply nn_in_err | apply nn_unq | apply nn_slice; intros; apply nn_int].
  - apply nn_duration.
  - unfold decode_time_m. nnt. apply nn_quoted.
  - apply nn_iface.
  - destruct x; try apply nn_ret. nnt; try apply nn_type_error. apply nn_map, nn_parse_with. intros; apply nn_iface.
  - apply nn_raw.
  - destruct x; try apply nn_ret. nnt. apply nn_map, nn_array, IHt.
  - apply nn_slice, IHt.
  - apply nn_dmap; [intros; apply nn_key|exact IHt].
  - apply nn_dmap; [intros; apply nn_key|]. intros; apply nn_map, nn_iface.
  - apply nn_dmap; [intros; apply nn_key|]. intros; apply nn_map, nn_raw.
  - destruct x; try apply nn_ret. nnt; apply nn_map, IHt.
  - destruct n; [apply nn_ret|]. destruct x; try apply nn_ret. apply nn_struct. intros k d. destruct (find_field _ _ _ _) as [f|]; [|discriminate]. intros [= <-].
    apply nn_path. intros. unfold decode_field_m. destruct (jf_quot f); [apply SN|apply nn_from_string; intros; apply SN|apply nn_from_int; intros; apply SN].
  - unfold decode_json_user_m. nnt. apply nn_pv.
  - apply nn_text_user.
  - destruct x; try apply nn_ret. apply nn_type_error.
Qed.
Lemma nn_ty n : forall t b x, nn (dec_ty_m V F n t b x).
Proof. induction n as [|n IH]; apply nn_ty_step; [exact I|exact IH]. Qed.

Lemma quoted_full {A} (p : bytes -> option A) b x : full 1 b (decode_quoted_m p b x).
Proof.
  unfold decode_quoted_m. destruct (Nat.ltb _ _); [fe|]. destruct b as [|c b1]; [fe|]. destruct (negb _); [fe|]. destruct (index_byte cQUOTE b1) as [i|].
  - eapply full_bind; [apply spend_low|]. destruct (p (firstn i b1)); [apply full_ret; lia|fe].
  - apply full_drop; [apply nn_spend|fe].
Qed.
Lemma duration_full b x : full 1 b (decode_duration_m V b x).
Proof.
  unfold decode_duration_m. destruct (has_null_prefix b); [apply full_skipn; lia|]. destruct b as [|c b1] eqn:E; [apply quoted_full|]. rewrite <- E. destruct (negb _); [|apply quoted_full].
  destruct (fst (parse_int_m b)) as [v r|r e] eqn:P.
  - eapply full_bind; [eapply pint_low, P|]. rewrite P. apply full_ret. lia.
  - unfold full. rewrite fst_bind, P. intros X. exfalso. revert X. destruct (in_err_fst b x) as (r' & e' & ->). discriminate.
Qed.
Lemma time_full b x : full 1 b (decode_time_m V b x).
Proof. unfold decode_time_m. destruct (has_null_prefix b); [apply full_skipn; lia|apply quoted_full]. Qed.
Lemma json_full u b x : wf b -> full 0 b (decode_json_user_m V u b x).
Proof.
  intros W. unfold decode_json_user_m. destruct (parseValue b) as [v r|r e] eqn:P; [|unfold full; rewrite fst_bind, erase_parseValue, P; discriminate].
  eapply full_bind; [eapply pv_low; eassumption|]. rewrite erase_parseValue, P. destruct (rv_null v); [apply full_ret; lia|]. apply full_drop; [apply nn_spend|].
  destruct (v_json V u v x). apply full_ret. lia.
Qed.
Lemma text_full u b x : wf b -> full 0 b (decode_text_user_m V u b x).
Proof.
  intros W. unfold decode_text_user_m. destruct (parseValue b) as [v r|r e] eqn:P; [|unfold full; rewrite fst_bind, erase_parseValue, P; discriminate].
  eapply full_bind; [eapply pv_low; eassumption|]. rewrite erase_parseValue, P. destruct (rv_null v); [destruct (parse_null v); [apply full_ret; lia|fe]|].
  destruct (rv_string v); [|fe]. apply full_drop; [apply nn_unq|]. destruct (fst (unquote_m v)); try fe. apply full_drop; [apply nn_spend|].
  destruct (v_text V u s x). apply full_ret. lia.
Qed.
Lemma iface_full un pf n b x : wf b -> full 0 b (dec_iface_m un pf n b x).
Proof.
  intros W. destruct n as [|n]; [fe|]. cbn [dec_iface_m]. cbv zeta. apply full_call.
  destruct (parseValue b) as [v r|r e] eqn:P; [|unfold full; rewrite fst_bind, erase_parseValue, P; discriminate].
  eapply full_bind; [eapply pv_low; eassumption|]. rewrite erase_parseValue, P. destruct v as [|c v]; [fe|].
  assert (D : forall (m : M (dres jv)), nn m -> full (0 + 1 - 0) r (let* x := m in
          match d_err x with
          | Some e => ret (DR r (Some e) JVNull)
          | None => let* s := skip_spaces_m (d_rest x) in
                    match s with
                    | [] => ret (DR r None (d_val x))
                    | _ => ret (DR r (Some ESyntax) JVNull)
                    end
          end)).
  { intros m Hm. apply full_drop; [exact Hm|]. destruct (d_err (fst m)); [fe|]. apply full_drop; [apply nn_skip|]. destruct (fst _); apply full_ret; lia. }
  repeat match goal with |- full _ _ (if ?c then _ else _) => destruct c end; try fe; apply D; try apply nn_map.
  - apply nn_dmap; [intros; apply nn_string|apply nn_iface].
  - apply nn_slice, nn_iface.
  - apply nn_string.
  - unfold decode_null_m. nnt. apply nn_in_err.
  - unfold decode_bool_m. nnt. apply nn_in_err.
  - unfold decode_number_m. nnt; try apply nn_in_err. apply nn_pres.
  - unfold decode_float_m. nnt; try apply nn_in_err. apply nn_pres.
Qed.
Lemma from_string_full {A} (dm : bytes -> A -> M (dres A)) b x : (forall b x, nn (dm b x)) -> (has_null_prefix b = true -> full 0 b (dm b x)) -> full 0 b (decode_from_string_m dm b x).
Proof.
  intros N H. unfold decode_from_string_m. destruct (has_null_prefix b); [apply H; reflexivity|]. destruct (parse_string_unquote b []) as [s r e|r e| |] eqn:P.
  2-4: apply full_drop; [apply nn_unq|]; rewrite fst_unquote, P; fe.
  eapply full_bind; [eapply unq_low, P|]. rewrite fst_unquote, P. apply full_drop; [apply N|]. destruct (d_err _); [fe|]. apply full_drop; [apply nn_skip|].
  destruct (fst _); apply full_ret; lia.
Qed.
Lemma from_int_full {A} pf (dm : bytes -> A -> M (dres A)) b x : (forall b x, nn (dm b x)) -> (has_null_prefix b = true -> full 0 b (dm b x)) -> full 0 b (decode_from_string_int_m pf dm b x).
Proof.
  intros N H. unfold decode_from_string_int_m. destruct (has_null_prefix b); [apply H; reflexivity|]. cbv zeta.
  match goal with |- full _ _ (match b with [] => ?q | _ :: _ => _ end) => assert (Q : full 0 b q); [|set (qq := q) in *; clearbody qq] end.
  { destruct (parse_string_unquote b []) as [s r e|r e| |] eqn:P.
    2-4: apply full_drop; [apply nn_unq|]; rewrite fst_unquote, P; fe.
    eapply full_bind; [eapply unq_low, P|]. rewrite fst_unquote, P. apply full_drop; [apply nn_spend|]. apply full_drop; [apply N|].
    set (y := fst (dm _ x)). clearbody y. destruct (d_err y) as [e0|].
    - assert (G : full (0 - -1) r (let* p := pres_m (strip_zeroes s) (parse_number (strip_zeroes s)) in
              let* e := match p with
                        | POk _ _ => ret e0
                        | PErr _ _ => let* w := parseValue_m (strip_zeroes s) in
                                      ret (match w with POk _ _ => EOther | PErr _ _ => e0 end)
                        end in
              ret (DR r (Some e) (d_val y)))) by (unfold full; rewrite !fst_bind; discriminate).
      destruct e0; first [exact G | fe].
    - destruct (d_rest y); [apply full_ret; lia|fe]. }
  destruct b as [|c b1]; [exact Q|]. destruct (negb _).
  - unfold full. rewrite fst_bind, fst_pres. destruct (parse_number (c :: b1)); [|discriminate]. rewrite fst_bind.
    destruct (existsb _ _); [destruct (pf _)|]; discriminate.
  - destruct b1 as [|c1 b2]; [exact Q|]. destruct (c1 =? cQUOTE); [fe|exact Q].
Qed.
Lemma key_full k b : wf b -> has_null_prefix b = false -> full 0 b (decode_key_m V k b).
Proof.
  intros W N. destruct k; apply full_map; [apply nnull_string, N|apply from_string_full; [intros; apply nn_int|congruence]|apply text_full, W].
Qed.
Lemma path_full p dm : (forall b x, wf b -> full 0 b (dm b x)) -> forall b x, wf b -> full 0 b (on_path_m V p dm b x).
Proof.
  intros H. induction p as [|[i|i s un] p IH]; intros b x W; cbn [on_path_m]; [apply H, W| |].
  - destruct x; try fe. destruct (nth_error l i); [|fe]. apply full_map, IH, W.
  - apply full_call. destruct x; try fe. destruct (nth_error l i) as [m|]; [|fe]. destruct m; try fe. destruct p0; [|destruct un; [fe|]]; (eapply full_mono; [apply full_map, IH, W|lia]).
Qed.
Lemma ty_full_step n : (match n with O => True | Datatypes.S n' => forall t b x, wf b -> full 0 b (dec_ty_m V F n' t b x) end) ->
  forall t b x, wf b -> full 0 b (dec_ty_m V F n t b x).
Proof.
  intros SN. induction t; intros b x W; rewrite dec_ty_m_eq; apply full_call; try (destruct x; try fe; apply full_map); cbn [Z.add].
  - apply bool_full.
  - apply int_full.
  - apply float_full.
  - apply number_full.
  - apply string_full.
  - unfold decode_bytes_m. destruct (has_null_prefix b); [apply full_skipn; lia|]. destruct (Nat.ltb _ _); [fe|]. destruct b as [|c b1] eqn:E; [fe|]. rewrite <- E in *.
    destruct (negb _).
    + destruct (c =? cLBRACK); [|fe]. apply slice_full; [intros; apply int_full|intros; apply (int_lean TUint8); assumption|exact W].
    + destruct (parse_string_unquote b []) as [v r e|r e| |] eqn:P.
      2-4: apply full_drop; [apply nn_unq|]; rewrite fst_unquote, P; fe.
      eapply full_bind; [eapply unq_low, P|]. rewrite fst_unquote, P. apply full_drop; [apply nn_spend|]. destruct (v_b64 V v); [apply full_ret; lia|fe].
  - apply duration_full.
  - apply time_full.
  - eapply full_mono; [apply iface_full, W|lia].
  - destruct x; try fe. destruct (has_null_prefix b); [apply full_skipn; lia|]. destruct v; try fe. destruct empty; [|fe]. apply full_map. unfold parse_with_m.
    eapply full_bind; [apply skip_low|]. rewrite fst_skip. pose proof (suf_wf _ _ (suf_skip b) W) as W1. unfold full. rewrite !fst_bind, !steps_bind, !fst_skip. cbn [ret fst snd steps d_err d_rest].
    intros E. pose proof (iface_full (d_usenum F) (v_float V true) (Datatypes.S (length (skip_spaces b))) (skip_spaces b) JVNull W1 E) as I1.
    unfold decode_interface_m in *. match goal with |- context [skip_spaces_m (d_rest ?d)] => pose proof (skip_low (d_rest d)) end. lia.
  - eapply full_mono; [apply raw_full, W|lia].
  - destruct x; try fe. destruct (Nat.eqb _ _); [|fe]. apply full_map, array_full; [intros; eapply full_mono; [apply IHt; assumption|lia]|intros; apply ty_shorter; assumption|exact W].
  - apply slice_full; [intros; eapply full_mono; [apply IHt; assumption|lia]|intros; apply ty_shorter; assumption|exact W].
  - apply dmap_full; [exact IHt|intros; apply ty_shorter; assumption|intros; apply key_lean; assumption|apply key_full|exact W].
  - apply dmap_full; [|intros b0 x0 W0; exact (iface_shorter (d_usenum F) (v_float V true) _ b0 JVNull W0)|intros; apply (key_lean V OK KYString); assumption|apply (key_full KYString)|exact W].
    intros; apply full_map, iface_full; assumption.
  - apply dmap_full; [|intros b0 x0 W0; exact (proj1 (raw_lean b0 None W0))|intros; apply (key_lean V OK KYString); assumption|apply (key_full KYString)|exact W].
    intros; apply full_map, raw_full; assumption.
  - destruct x; try fe. destruct (has_null_prefix b).
    + destruct p; [|apply full_skipn; lia]. destruct t; try (apply full_skipn; lia). eapply full_mono; [apply full_map, IHt, W|lia].
    + eapply full_mono; [apply full_map, IHt, W|lia].
  - destruct n as [|n]; [fe|]. destruct x; try fe. apply struct_full; [| |exact W].
    + intros k d E b0 x0 W0. destruct (find_field V F (v_flds V i) k) as [f|] eqn:FF; [|discriminate]. injection E as <-.
      apply path_full; [|exact W0]. intros b2 x2 W2. unfold decode_field_m. destruct (jf_quot f); [apply SN, W2| |].
      * apply from_string_full; [apply nn_ty|intros _; apply SN, W2].
      * apply from_int_full; [apply nn_ty|intros _; apply SN, W2].
    + intros k d E b0 x0 W0. destruct (find_field V F (v_flds V i) k) as [f|] eqn:FF; [|discriminate]. injection E as <-. apply find_field_in in FF.
      apply (field_shorter V F OK i); assumption.
  - eapply full_mono; [apply json_full, W|lia].
  - eapply full_mono; [apply text_full, W|lia].
Qed.
Lemma ty_full n : forall t b x, wf b -> full 0 b (dec_ty_m V F n t b x).
Proof. induction n as [|n IH]; apply ty_full_step; [exact I|exact IH]. Qed.
(** Unmarshal *)
Lemma unmarshal_low t b x : wf b -> fst (fst (unmarshal_m V F t b x)) = None -> len b <= 5 * steps (snd (unmarshal_m V F t b x)).
Proof.
  intros W. unfold unmarshal_m, unmarshal_with_m, parse_with_m. rewrite !steps_bind, !fst_bind, !fst_skip. cbn [ret fst snd steps d_err d_rest].
  pose proof (skip_low b) as S1. pose proof (suf_wf _ _ (suf_skip b) W) as W1. set (b1 := skip_spaces b) in *. clearbody b1.
  unfold decode_m. pose proof (ty_full (Datatypes.S (length b1)) t b1 x W1) as P. set (m := dec_ty_m V F _ t b1 x) in *. clearbody m. intros E.
  pose proof (skip_low (d_rest (fst m))) as S2. destruct (skip_spaces (d_rest (fst m))) as [|c r]; [|discriminate]. specialize (P E). change (len []) with 0 in S2. lia.
Qed.
End Typed.
