(** What the decoders of arrays, objects and whole types use. *)
From Verif Require Import Bytes SpecJson SpecString SpecDec AsciiModel Utf8Model ParseModel IntModel StringModel EncModel DecModel TypeModel
  ParseFacts IntFacts StringFacts DecFacts SpecType NodeFacts TypeFacts SpecMeter MeterModel MeterFacts MeterParse MeterDec.

Ltac mc := repeat first [rewrite calls_bind | rewrite skip_calls | rewrite pres_calls]; ms.
Ltac mk := repeat first [rewrite calls_bind in * | rewrite skip_calls in * | rewrite pres_calls in * ].
(** A decoder of elements that takes at most [R] steps for each byte if it does not go deeper than [K]. *)
Definition rated {A} (R : Z) (K : nat) (b : bytes) (m : M (dres A)) : Prop :=
  shorter b (fst m) /\ ((calls (snd m) <= K)%nat -> steps (snd m) + 1 <= R * usd b (fst m)).
Lemma lean_rated {A} c R K b (m : M (dres A)) : lean c b m -> c <= R -> rated R K b m.
Proof. intros L H. apply (lean_mono c R) in L as [S L]; [|exact H]. split; auto. Qed.
Lemma rated_map {A B} (f : A -> B) R K b m : rated R K b m -> rated R K b (md_map f m).
Proof.
  intros [S H]. split; [exact S|]. unfold md_map. mc. ms. intros C. unfold usd in *. cbn. cbn in H. specialize (H ltac:(cbn in C; lia)). lia.
Qed.
Lemma rated_mono {A} R R' K b (m : M (dres A)) : rated R K b m -> R <= R' -> rated R' K b m.
Proof. intros [S H] L. split; [exact S|]. intros C. specialize (H C). pose proof (usd_pos _ _ S). nia. Qed.

Definition extra {A} (input : bytes) (d : dres A) : Z := match d_err d with None => 0 | Some _ => 5 * len input + 5 end.
(** A loop. *)
Definition looped {A} (R : Z) (K : nat) (input b : bytes) (m : M (dres A)) : Prop :=
  shorter b (fst m) /\ ((calls (snd m) <= K)%nat -> steps (snd m) <= R * usd b (fst m) + extra input (fst m)).

Lemma elem_err_steps {A} b e (x : A) : wf b -> steps (snd (elem_err_m b e x)) <= 4 * len b + 4.
Proof.
  intros W. unfold elem_err_m. ms. pose proof (pv_steps b W) as H. rewrite used_len in H.
  destruct (parseValue b); rewrite ret_steps; unfold len in *; lia.
Qed.
Lemma elem_err_fst {A} b e (x : A) : exists r e', fst (elem_err_m b e x) = DR r (Some e') x.
Proof. unfold elem_err_m. ms. destruct (parseValue b); eexists _, _; reflexivity. Qed.

Ltac rr := unfold usd, extra in *; cbn [ret fst snd steps calls d_err d_rest] in *.
Section Loops.
Context {A : Type} (dm : bytes -> A -> M (dres A)) (R : Z) (K : nat).
Hypothesis DM : forall b x, wf b -> rated R K b (dm b x).
Hypothesis R8 : 8 <= R.

Lemma slice_loop_use z input k : forall b n d, wf b -> wf input -> looped R K input b (slice_loop_m dm z input k b n d).
Proof.
  induction k as [|k IH]; intros b n d W WI; cbn [slice_loop_m].
  { split; [discriminate|]. intros _. rr. unfold len. nia. }
  assert (EL : forall b0 d n, wf b0 -> let m := (let* x := dm b0 (nth n d z) in
        match d_err x with
        | None => slice_loop_m dm z input k (d_rest x) (S n) (Some (set_nth n (d_val x) d))
        | Some e => elem_err_m input e (Some (n, set_nth n (d_val x) d))
        end) in shorter b0 (fst m) /\ ((calls (snd m) <= K)%nat -> steps (snd m) + 1 <= R * usd b0 (fst m) + extra input (fst m))).
  { intros b0 d0 n0 W0 m. subst m. ms. mc. destruct (DM b0 (nth n0 d0 z) W0) as [S H]. set (x := fst (dm b0 (nth n0 d0 z))) in *. clearbody x.
    destruct (d_err x) as [e|] eqn:E.
    - destruct (elem_err_fst input e (Some (n0, set_nth n0 (d_val x) d0))) as (r & e' & EF). pose proof (elem_err_steps input e (Some (n0, set_nth n0 (d_val x) d0)) WI) as ES.
      rewrite EF. unfold shorter. cbn [d_err]. split; [discriminate|]. intros C. unfold usd, extra in *. cbn [d_err]. rewrite E in H.
      specialize (H ltac:(lia)). unfold len in *. lia.
    - destruct (S E) as [S1 L1]. destruct (IH (d_rest x) (Datatypes.S n0) (Some (set_nth n0 (d_val x) d0)) (suf_wf _ _ S1 W0) WI) as [S2 H2].
      set (y := slice_loop_m dm z input k (d_rest x) (Datatypes.S n0) (Some (set_nth n0 (d_val x) d0))) in *. clearbody y. unfold sl in *. split.
      + intros E2. destruct (S2 E2) as [S3 L3]. split; [eapply suf_trans; eassumption|lia].
      + intros C. specialize (H ltac:(lia)). specialize (H2 ltac:(lia)). unfold usd in *. rewrite E in H.
        destruct (d_err (fst y)); nia. }
  ms. mc. unfold looped. ms. mc. rewrite skip_steps. pose proof (skip_spaces_le b) as SL. pose proof (suf_skip b) as SF. pose proof (suf_wf _ _ SF W) as W1.
  set (b1 := skip_spaces b) in *. clearbody b1.
  assert (GO : forall b0 m, suf b0 b1 -> shorter b0 (fst m) /\ ((calls (snd m) <= K)%nat -> steps (snd m) + 1 <= R * usd b0 (fst m) + extra input (fst m)) ->
     shorter b (fst m) /\ ((calls (snd m) <= K)%nat -> 1 + Z.of_nat (length b) - Z.of_nat (length b1) + steps (snd m) <=
       R * (usd b (fst (m : M (dres (option (nat * list A))))) - (len b1 - len b0)) + extra input (fst m))).
  { intros b0 m S0 [SH H]. split.
    - intros E. destruct (SH E) as [X Y]. pose proof (suf_len _ _ S0). split; [|lia].
      eapply suf_trans; [exact X|]. eapply suf_trans; [exact S0|exact SF].
    - intros C. specialize (H C). unfold usd in *. unfold len in *. destruct (d_err (fst m)); nia. }
  unfold sl in *. destruct (match b1 with c :: _ => c =? cRBRACK | [] => false end) eqn:EC.
  { destruct b1 as [|c t]; [discriminate|]. cbn [tl ret fst snd steps]. unfold shorter, usd, extra. cbn [d_err d_rest]. cbn [length] in *.
    split; [intros _; split; [|lia]|intros _; unfold len; nia].
    eapply suf_trans; [apply suf_cons|exact SF]. }
  match goal with |- context [if Nat.eqb n 0 then ?a else _] => set (first := a) end.
  destruct (Nat.eqb n 0).
  { specialize (GO b1 first (suf_refl _)). destruct GO as [G1 G2]; [subst first; apply EL, W1|]. clearbody first. split; [exact G1|]. intros C. specialize (G2 ltac:(lia)). lia. }
  clear first. destruct b1 as [|c t]; [split; [discriminate|]; intros _; rr; unfold len; nia|].
  destruct (c =? cCOMMA).
  - rewrite fst_bind, steps_bind, calls_bind, fst_skip, skip_calls, skip_steps. pose proof (suf_skip t) as SF2. pose proof (suf_wf _ _ SF2 (suf_wf _ _ (suf_cons c t) W1)) as W2.
    pose proof (skip_spaces_le t) as SL2.
    match goal with |- context [shorter b (fst ?m)] => specialize (GO (skip_spaces t) m); set (mm := m) in * end.
    destruct GO as [G1 G2]; [eapply suf_trans; [exact SF2|apply suf_cons]|subst mm; apply EL, W2|]. split; [exact G1|].
    intros C. specialize (G2 ltac:(lia)). unfold len in *. cbn [length] in *. nia.
  - split; [discriminate|]. intros _; rr; unfold len; cbn [length]; nia.
Qed.
Lemma in_err_shorter {B} b0 b (x : B) : shorter b0 (fst (in_err_m b x)).
Proof. destruct (in_err_fst b x) as (r & e & E). rewrite E. discriminate. Qed.
Lemma in_err_rated {B} b (x : B) : wf b -> rated (R + 8) K b (in_err_m b x).
Proof. intros W. apply (lean_rated 6); [apply in_err_lean, W|lia]. Qed.
Lemma null_rated {B} b (x : B) : has_null_prefix b = true -> rated (R + 8) K b (ret (DR (skipn 4 b) None x)).
Proof.
  intros N. split.
  - intros _. cbn. apply null_read in N. split; [exists (bs "null"); exact N|]. rewrite N at 2. rewrite app_length. cbn. lia.
  - intros _. rewrite ret_steps. cbn [fst ret]. rewrite (null_usd b x N). lia.
Qed.
Lemma looped_rated {B} b c b1 (m : M (dres B)) : b = c :: b1 -> looped R K b b1 m -> rated (R + 8) K b m.
Proof.
  intros -> [S H]. split.
  - intros E. destruct (S E) as [X Y]. split; [eapply suf_trans; [exact X|apply suf_cons]|cbn [length]; lia].
  - intros C. specialize (H C). unfold usd, extra, shorter in *. unfold len in *. cbn [length] in *. destruct (d_err (fst m)) as [e|]; [nia|].
    destruct (S eq_refl) as [_ Y]. nia.
Qed.
Lemma slice_use z b x : wf b -> rated (R + 8) K b (decode_slice_m dm z b x).
Proof.
  intros W. unfold decode_slice_m. destruct (has_null_prefix b) eqn:N; [apply null_rated, N|].
  destruct (Nat.ltb _ _); [apply in_err_rated, W|]. destruct b as [|c b1] eqn:E; [apply in_err_rated, W|].
  destruct (c =? cLBRACK); [|apply in_err_rated, W]. rewrite <- E in *. eapply looped_rated; [exact E|]. apply slice_loop_use; [|exact W].
  rewrite E in W. apply wf_cons in W. tauto.
Qed.

Definition skip_ok (b : bytes) (m : M (bytes * option err)) : Prop :=
  match snd (fst m) with
  | None => suf (fst (fst m)) b /\ (length (fst (fst m)) < length b)%nat /\ steps (snd m) <= 8 * (len b - len (fst (fst m)))
  | Some _ => steps (snd m) <= 8 * (len b + 1)
  end.
Lemma array_skip_use k : forall b, wf b -> skip_ok b (array_skip_m k b).
Proof.
  induction k as [|k IH]; intros b W; cbn [array_skip_m]; [unfold skip_ok; cbn [ret fst snd steps]; unfold len; lia|].
  unfold skip_ok. ms. rewrite skip_steps. pose proof (skip_spaces_le b) as SL. pose proof (suf_skip b) as SF. pose proof (suf_wf _ _ SF W) as W1.
  destruct (skip_spaces b) as [|c t]; [cbn [ret fst snd steps]; unfold len; lia|]. cbn [length] in SL.
  destruct (c =? cRBRACK).
  { cbn [ret fst snd steps]. split; [eapply suf_trans; [apply suf_cons|exact SF]|]. unfold len; cbn [length]. lia. }
  ms. match goal with |- context [parseValue (fst ?e)] =>
    assert (B2 : suf (fst e) (c :: t) /\ steps (snd e) <= 1 + len (c :: t) - len (fst e)); [|set (q := e) in *] end.
  { destruct (c =? cCOMMA).
    - rewrite fst_skip, skip_steps. pose proof (skip_spaces_le t). split; [eapply suf_trans; [apply suf_skip|apply suf_cons]|]. unfold len. cbn [length]. lia.
    - cbn [ret fst snd steps]. split; [apply suf_refl|]. lia. }
  destruct B2 as [S2 C2]. clearbody q. set (b2 := fst q) in *. set (c2 := steps (snd q)) in *. clearbody b2 c2.
  pose proof (suf_wf _ _ S2 W1) as W2. pose proof (suf_len _ _ S2) as L2. pose proof (pv_steps b2 W2) as PS.
  destruct (parseValue b2) as [v r|r e] eqn:E; rewrite used_len in PS.
  - apply pv_suf in E as [S3 L3]; [|exact W2]. specialize (IH r (suf_wf _ _ S3 W2)). unfold skip_ok in IH.
    destruct (snd (fst (array_skip_m k r))); [unfold len in *; cbn [length] in *; nia|]. destruct IH as (S4 & L4 & H4).
    split; [|unfold len in *; cbn [length] in *; nia].
    eapply suf_trans; [exact S4|]. eapply suf_trans; [exact S3|]. eapply suf_trans; [exact S2|exact SF].
  - cbn [ret fst snd steps]. unfold len in *; cbn [length] in *; lia.
Qed.
Lemma arr_loop_use input todo : forall f b done, wf b -> looped R K input b (arr_loop_m dm f b done todo).
Proof.
  induction todo as [|x todo IH]; intros f b done W; cbn [arr_loop_m].
  { unfold looped. ms. pose proof (array_skip_use (S (length b)) b W) as H. unfold skip_ok in H. cbn [ret fst snd steps].
    unfold shorter, usd, extra. cbn [d_err d_rest]. destruct (snd (fst (array_skip_m (S (length b)) b))).
    - split; [discriminate|]. intros _. unfold len in *. nia.
    - destruct H as (S & L & H). split; [auto|]. intros _. unfold len in *. nia. }
  assert (EL : forall b0 done, wf b0 -> let m := (let* y := dm b0 x in
      match d_err y with
      | None => arr_loop_m dm false (d_rest y) (done ++ [d_val y]) todo
      | Some e => ret (DR (d_rest y) (Some e) (done ++ d_val y :: todo))
      end) in shorter b0 (fst m) /\ ((calls (snd m) <= K)%nat -> steps (snd m) + 1 <= R * usd b0 (fst m) + extra input (fst m))).
  { intros b0 d0 W0 m. subst m. ms. mc. destruct (DM b0 x W0) as [S H]. set (y := fst (dm b0 x)) in *. clearbody y.
    destruct (d_err y) as [e|] eqn:E.
    - cbn [ret fst snd steps calls]. split; [discriminate|]. intros C. unfold usd, extra in *. cbn [d_err]. rewrite E in H.
      specialize (H ltac:(lia)). unfold len in *. lia.
    - destruct (S E) as [S1 L1]. destruct (IH false (d_rest y) (d0 ++ [d_val y]) (suf_wf _ _ S1 W0)) as [S2 H2].
      set (l := arr_loop_m dm false (d_rest y) (d0 ++ [d_val y]) todo) in *. clearbody l. split.
      + intros E2. destruct (S2 E2) as [S3 L3]. split; [eapply suf_trans; eassumption|lia].
      + intros C. specialize (H ltac:(lia)). specialize (H2 ltac:(lia)). unfold usd in *. rewrite E in H.
        destruct (d_err (fst l)); nia. }
  unfold looped. ms. mc. rewrite skip_steps. pose proof (skip_spaces_le b) as SL. pose proof (suf_skip b) as SF. pose proof (suf_wf _ _ SF W) as W1.
  set (b1 := skip_spaces b) in *. clearbody b1.
  assert (GO : forall b0 m, suf b0 b1 -> shorter b0 (fst m) /\ ((calls (snd m) <= K)%nat -> steps (snd m) + 1 <= R * usd b0 (fst m) + extra input (fst m)) ->
     shorter b (fst m) /\ ((calls (snd m) <= K)%nat -> 1 + Z.of_nat (length b) - Z.of_nat (length b1) + steps (snd m) <=
       R * (usd b (fst (m : M (dres (list A)))) - (len b1 - len b0)) + extra input (fst m))).
  { intros b0 m S0 [SH H]. split.
    - intros E. destruct (SH E) as [X Y]. pose proof (suf_len _ _ S0). split; [|lia].
      eapply suf_trans; [exact X|]. eapply suf_trans; [exact S0|exact SF].
    - intros C. specialize (H C). unfold usd in *. unfold len in *. destruct (d_err (fst m)); nia. }
  cbv zeta.
  destruct f.
  { match goal with |- context [shorter b (fst ?m)] => destruct (GO b1 m (suf_refl _) (EL b1 done W1)) as [G1 G2] end.
    split; [exact G1|]. intros C. specialize (G2 ltac:(lia)). lia. }
  destruct b1 as [|c t]; [split; [discriminate|]; intros _; rr; unfold len; nia|].
  destruct (c =? cCOMMA).
  - rewrite fst_bind, steps_bind, calls_bind, fst_skip, skip_calls, skip_steps. pose proof (suf_skip t) as SF2. pose proof (suf_wf _ _ SF2 (suf_wf _ _ (suf_cons c t) W1)) as W2.
    pose proof (skip_spaces_le t) as SL2.
    match goal with |- context [shorter b (fst ?m)] => destruct (GO (skip_spaces t) m (suf_trans _ _ _ SF2 (suf_cons _ _)) (EL _ done W2)) as [G1 G2] end.
    split; [exact G1|]. intros C. specialize (G2 ltac:(lia)). unfold len in *. cbn [length] in *. nia.
  - destruct (c =? cRBRACK).
    + cbn [ret fst snd steps length] in *. unfold shorter, usd, extra. cbn [d_err d_rest].
      split; [intros _; split; [|lia]|intros _; unfold len; nia]. eapply suf_trans; [apply suf_cons|exact SF].
    + split; [discriminate|]. intros _; rr; unfold len; cbn [length]; nia.
Qed.
Lemma array_use b x : wf b -> rated (R + 8) K b (decode_array_m dm b x).
Proof.
  intros W. unfold decode_array_m. destruct (has_null_prefix b) eqn:N; [apply null_rated, N|].
  destruct (Nat.ltb _ _); [apply in_err_rated, W|]. destruct b as [|c b1] eqn:E; [apply in_err_rated, W|].
  destruct (c =? cLBRACK); [|apply in_err_rated, W]. rewrite <- E in *. eapply looped_rated; [exact E|]. apply arr_loop_use.
  rewrite E in W. apply wf_cons in W. tauto.
Qed.

(** keys *)
Definition key_ok {K1} (b : bytes) (m : M ((bytes * err) + (bytes * K1))) : Prop :=
  match fst m with
  | inl _ => steps (snd m) + 1 <= R * (len b + 1)
  | inr (r, _) => suf r b /\ (length r < length b)%nat /\ steps (snd m) + 1 <= R * (len b - len r)
  end.
Lemma obj_key_use {K1} (deck : bytes -> M (dres K1)) : (forall b, wf b -> lean R b (deck b)) ->
  forall f b, wf b -> key_ok b (obj_key_m deck f b).
Proof.
  intros DK f b W. unfold obj_key_m.
  assert (KEY : forall b0, wf b0 -> key_ok b0 (if has_null_prefix b0 then ret (inl (b0, ESyntax))
    else let* x := deck b0 in
      match d_err x with
      | Some e => ret (inl (key_error (d_rest x) e))
      | None => let* b := skip_spaces_m (d_rest x) in
          match b with
          | [] => ret (inl (b, ESyntax))
          | c :: b1 => if c =? cCOLON then let* b2 := skip_spaces_m b1 in ret (inr (b2, d_val x)) else ret (inl (b, ESyntax))
          end
      end)).
  { intros b0 W0. destruct (has_null_prefix b0); [unfold key_ok; cbn [ret fst snd steps]; unfold len; nia|].
    unfold key_ok. ms. destruct (DK b0 W0) as [S H]. set (x := fst (deck b0)) in *. clearbody x. unfold usd in H. destruct (d_err x) as [e|] eqn:E.
    - cbn [ret fst snd steps]. unfold len in *. nia.
    - destruct (S E) as [S1 L1]. ms. rewrite skip_steps. pose proof (skip_spaces_le (d_rest x)) as SL. pose proof (suf_skip (d_rest x)) as SF.
      destruct (skip_spaces (d_rest x)) as [|c b1]; [cbn [ret fst snd steps length]; unfold len in *; nia|]. cbn [length] in *.
      destruct (c =? cCOLON); [|cbn [ret fst snd steps]; unfold len in *; nia]. ms. rewrite skip_steps. pose proof (skip_spaces_le b1) as SL1.
      cbn [ret fst snd steps]. split; [|unfold len in *; nia].
      eapply suf_trans; [apply suf_skip|]. eapply suf_trans; [apply suf_cons|]. eapply suf_trans; [exact SF|exact S1]. }
  cbv zeta. destruct f; [apply KEY, W|]. destruct b as [|c b1]; [unfold key_ok; cbn [ret fst snd steps]; unfold len; nia|].
  destruct (c =? cCOMMA); [|unfold key_ok; cbn [ret fst snd steps]; unfold len; cbn [length]; nia].
  pose proof (suf_skip b1) as SF. pose proof (skip_spaces_le b1) as SL. apply wf_cons in W as [_ W].
  specialize (KEY _ (suf_wf _ _ SF W)). unfold key_ok in *. ms. rewrite skip_steps.
  match goal with |- context [match fst ?m with _ => _ end] => set (mm := m) in * end.
  destruct (fst mm) as [[r e]|[r k]]; unfold len in *; cbn [length]; [nia|].
  destruct KEY as (S & L & H). split; [|nia]. eapply suf_trans; [exact S|]. eapply suf_trans; [exact SF|apply suf_cons].
Qed.
Lemma map_loop_use {K1} eqb (deck : bytes -> M (dres K1)) z input fr : (forall b, wf b -> lean R b (deck b)) -> wf input ->
  forall k f b m, wf b -> looped R K input b (map_loop_m eqb deck dm z input fr k f b m).
Proof.
  intros DK WI. induction k as [|k IH]; intros f b m W; cbn [map_loop_m].
  { split; [discriminate|]. intros _. rr. unfold len. nia. }
  unfold looped. ms. mc. rewrite skip_steps. pose proof (skip_spaces_le b) as SL. pose proof (suf_skip b) as SF. pose proof (suf_wf _ _ SF W) as W1.
  set (b1 := skip_spaces b) in *. clearbody b1. destruct (match b1 with c :: _ => c =? cRBRACE | [] => false end) eqn:EC.
  { destruct b1 as [|c t]; [discriminate|]. cbn [tl ret fst snd steps]. unfold shorter, usd, extra. cbn [d_err d_rest]. cbn [length] in *.
    split; [intros _; split; [|lia]|intros _; unfold len; nia]. eapply suf_trans; [apply suf_cons|exact SF]. }
  ms. mc. pose proof (obj_key_use deck DK f b1 W1) as KO. unfold key_ok in KO. set (o := obj_key_m deck f b1) in *. clearbody o.
  destruct (fst o) as [[r e]|[b2 key]].
  { split; [discriminate|]. intros _. rr. unfold len in *. nia. }
  destruct KO as (S2 & L2 & H2). pose proof (suf_wf _ _ S2 W1) as W2. ms. mc. destruct (DM b2 z W2) as [S H]. set (x := fst (dm b2 z)) in *. clearbody x.
  destruct (d_err x) as [e|] eqn:E.
  - match goal with |- context [elem_err_m input e ?v] => destruct (elem_err_fst input e v) as (r & e' & EF); pose proof (elem_err_steps input e v WI) as ES end.
    rewrite EF. split; [discriminate|]. intros C. unfold usd, extra in *. cbn [d_err]. rewrite E in H. specialize (H ltac:(lia)). unfold len in *. nia.
  - destruct (S E) as [S3 L3]. destruct (IH false (d_rest x) (map_set eqb key (d_val x) m) (suf_wf _ _ S3 W2)) as [S4 H4].
    set (y := map_loop_m eqb deck dm z input fr k false (d_rest x) (map_set eqb key (d_val x) m)) in *. clearbody y. split.
    + intros E2. destruct (S4 E2) as [S5 L5]. split; [|lia]. eapply suf_trans; [exact S5|]. eapply suf_trans; [exact S3|].
      eapply suf_trans; [exact S2|exact SF].
    + intros C. specialize (H ltac:(lia)). specialize (H4 ltac:(lia)). unfold usd in *. rewrite E in H. unfold len in *.
      destruct (d_err (fst y)); nia.
Qed.
Lemma dmap_use {K1} eqb (deck : bytes -> M (dres K1)) z b x : (forall b, wf b -> lean R b (deck b)) -> wf b ->
  rated (R + 8) K b (decode_map_m eqb deck dm z b x).
Proof.
  intros DK W. unfold decode_map_m. destruct (has_null_prefix b) eqn:N; [apply null_rated, N|].
  destruct (Nat.ltb _ _); [apply in_err_rated, W|]. destruct b as [|c b1] eqn:E; [apply in_err_rated, W|].
  destruct (c =? cLBRACE); [|apply in_err_rated, W]. rewrite <- E in *. eapply looped_rated; [exact E|].
  apply map_loop_use; [exact DK|exact W|]. rewrite E in W. apply wf_cons in W. tauto.
Qed.
End Loops.
