(** Types without interfaces: what decoding uses when it succeeds. *)
From Verif Require Import Bytes SpecJson SpecString SpecDec AsciiModel Utf8Model ParseModel IntModel StringModel EncModel DecModel TypeModel
  ParseFacts IntFacts StringFacts DecFacts SpecType NodeFacts TypeFacts TypeMain SpecMeter MeterModel MeterFacts MeterParse MeterDec MeterLoop MeterRest MeterType MeterDepth.

(** At most [R] steps for each byte and [k] more, if there is no error. *)
Definition pays {A} (R k : Z) (b : bytes) (m : M (dres A)) : Prop :=
  d_err (fst m) = None -> steps (snd m) <= R * (len b - len (d_rest (fst m))) + k.
Lemma pays_bind {A B} R k b b' j (m : M A) (f : A -> M (dres B)) :
  steps (snd m) <= R * (len b - len b') + j -> pays R (k - j) b' (f (fst m)) -> pays R k b (let* x := m in f x).
Proof. intros H1 H2. unfold pays in *. rewrite fst_bind, steps_bind. intros E. specialize (H2 E). lia. Qed.
Lemma pays_err {A} R k b (m : M (dres A)) e : d_err (fst m) = Some e -> pays R k b m.
Proof. intros E X. congruence. Qed.
Lemma pays_map {A B} (f : A -> B) R k b m : pays R k b m -> pays R k b (md_map f m).
Proof. intros H E. specialize (H E). unfold md_map. rewrite steps_bind. cbn [ret snd steps fst]. cbn [d_map bind fst ret d_rest] in *. lia. Qed.
Lemma pays_call {A} R k b (m : M (dres A)) : pays R (k - 1) b m -> pays R k b (call m).
Proof. intros H E. specialize (H E). unfold call in *. cbn [fst snd steps] in *. lia. Qed.
Lemma pays_mono {A} R k k' b (m : M (dres A)) : pays R k b m -> k <= k' -> pays R k' b m.
Proof. intros H L E. specialize (H E). lia. Qed.
Lemma in_err_pays {A} R k b b0 (x : A) : pays R k b0 (in_err_m b x).
Proof. destruct (in_err_fst b x) as (r & e & E). eapply pays_err. rewrite E. reflexivity. Qed.
Lemma elem_err_pays {A} R k b b0 e (x : A) : pays R k b0 (elem_err_m b e x).
Proof. destruct (elem_err_fst b e x) as (r & e' & E). eapply pays_err. rewrite E. reflexivity. Qed.
Lemma null_pays {A} R k b (x : A) : 0 <= 4 * R + k -> has_null_prefix b = true -> pays R k b (ret (DR (skipn 4 b) None x)).
Proof.
  intros H N _. cbn [ret fst snd steps d_rest]. apply null_read in N. rewrite N at 1. unfold len. rewrite app_length. change (length (bs "null")) with 4%nat. lia.
Qed.
Lemma lean_pays {A} c R k b (m : M (dres A)) : lean c b m -> 0 <= c -> c <= R -> c - R - 1 <= k -> pays R k b m.
Proof. intros [S H] C0 C L E. unfold usd in H. rewrite E in H. destruct (S E) as [_ X]. unfold len in *. nia. Qed.

Section Loops.
Context {A : Type} (dm : bytes -> A -> M (dres A)) (R : Z).
Hypothesis EL : forall b x, wf b -> pays R (-1) b (dm b x).
Hypothesis SH : forall b x, wf b -> shorter b (fst (dm b x)).
Hypothesis R8 : 8 <= R.
Lemma skip_pay b : steps (snd (skip_spaces_m b)) <= R * (len b - len (skip_spaces b)) + 1.
Proof. rewrite skip_steps. pose proof (skip_spaces_le b). unfold len. nia. Qed.
Lemma skip_pay' c b : steps (snd (skip_spaces_m b)) <= R * (len (c :: b) - len (skip_spaces b)) + (1 - R).
Proof. pose proof (skip_pay b). unfold len in *. cbn [length]. lia. Qed.
Lemma slice_loop_pays z input k : forall b n d, wf b -> pays R 0 b (slice_loop_m dm z input k b n d).
Proof.
  induction k as [|k IH]; intros b n d W; cbn [slice_loop_m]; cbv zeta; [eapply pays_err; reflexivity|].
  eapply pays_bind; [apply skip_pay|]. rewrite fst_skip. pose proof (suf_skip b) as SF. pose proof (suf_wf _ _ SF W) as W1. set (b1 := skip_spaces b) in *. clearbody b1.
  assert (E1 : forall b0 d n, wf b0 -> pays R (-1) b0 (let* x := dm b0 (nth n d z) in
        match d_err x with
        | None => slice_loop_m dm z input k (d_rest x) (S n) (Some (set_nth n (d_val x) d))
        | Some e => elem_err_m input e (Some (n, set_nth n (d_val x) d))
        end)).
  { intros b0 d0 n0 W0. pose proof (EL b0 (nth n0 d0 z) W0) as P. pose proof (SH b0 (nth n0 d0 z) W0) as S. unfold pays in P.
    destruct (d_err (fst (dm b0 (nth n0 d0 z)))) as [e|] eqn:ED.
    - intros X. exfalso. revert X. rewrite fst_bind, ED. destruct (elem_err_fst input e (Some (n0, set_nth n0 (d_val (fst (dm b0 (nth n0 d0 z)))) d0))) as (r & e' & E). rewrite E. discriminate.
    - eapply pays_bind; [apply P; reflexivity|]. rewrite ED. destruct (S ED) as [S1 _]. apply IH. eapply suf_wf; eassumption. }
  destruct (match b1 with c :: _ => c =? cRBRACK | [] => false end) eqn:EC.
  { destruct b1; [discriminate|]. intros _. cbn [ret fst snd steps d_rest tl]. unfold len. cbn [length]. lia. }
  destruct (Nat.eqb n 0); [apply E1, W1|]. destruct b1 as [|c b1]; [eapply pays_err; reflexivity|].
  destruct (c =? cCOMMA); [|eapply pays_err; reflexivity]. eapply pays_bind; [apply skip_pay'|]. rewrite fst_skip. apply wf_cons in W1 as [_ W1].
  eapply pays_mono; [apply E1; eapply suf_wf; [apply suf_skip|exact W1]|lia].
Qed.
Lemma slice_pays z b x : wf b -> pays R (- R) b (decode_slice_m dm z b x).
Proof.
  intros W. unfold decode_slice_m. destruct (has_null_prefix b) eqn:N; [apply null_pays; [lia|exact N]|]. destruct (Nat.ltb _ _); [apply in_err_pays|].
  destruct b as [|c b1]; [apply in_err_pays|]. destruct (c =? cLBRACK); [|apply in_err_pays]. apply wf_cons in W as [_ W].
  pose proof (slice_loop_pays z (c :: b1) (S (length (c :: b1))) b1 0 (option_map snd x) W) as P. intros E. specialize (P E). unfold len in *. cbn [length] in *. lia.
Qed.
Lemma arr_loop_pays todo : forall f b done, wf b -> pays R 0 b (arr_loop_m dm f b done todo).
Proof.
  induction todo as [|x todo IH]; intros f b done W; cbn [arr_loop_m].
  { intros E. pose proof (array_skip_use (S (length b)) b W) as H. unfold skip_ok in H. rewrite fst_bind, steps_bind in *. cbn [ret fst snd steps d_err d_rest] in *.
    rewrite E in H. destruct H as (_ & L & H). unfold len in *. nia. }
  eapply pays_bind; [apply skip_pay|]. rewrite fst_skip. pose proof (suf_skip b) as SF. pose proof (suf_wf _ _ SF W) as W1. set (b1 := skip_spaces b) in *. clearbody b1. cbv zeta.
  assert (E1 : forall b0, wf b0 -> pays R (-1) b0 (let* y := dm b0 x in
      match d_err y with
      | None => arr_loop_m dm false (d_rest y) (done ++ [d_val y]) todo
      | Some e => ret (DR (d_rest y) (Some e) (done ++ d_val y :: todo))
      end)).
  { intros b0 W0. pose proof (EL b0 x W0) as P. pose proof (SH b0 x W0) as S. unfold pays in P.
    destruct (d_err (fst (dm b0 x))) as [e|] eqn:ED.
    - intros X. exfalso. revert X. rewrite fst_bind, ED. discriminate.
    - eapply pays_bind; [apply P; reflexivity|]. rewrite ED. destruct (S ED) as [S1 _]. apply IH. eapply suf_wf; eassumption. }
  destruct f; [apply E1, W1|]. destruct b1 as [|c b1]; [eapply pays_err; reflexivity|]. apply wf_cons in W1 as [_ W1].
  destruct (c =? cCOMMA).
  - eapply pays_bind; [apply skip_pay'|]. rewrite fst_skip. eapply pays_mono; [apply E1; eapply suf_wf; [apply suf_skip|exact W1]|lia].
  - destruct (c =? cRBRACK); [|eapply pays_err; reflexivity]. intros _. cbn [ret fst snd steps d_rest]. unfold len. cbn [length]. lia.
Qed.
Lemma array_pays b x : wf b -> pays R (- R) b (decode_array_m dm b x).
Proof.
  intros W. unfold decode_array_m. destruct (has_null_prefix b) eqn:N; [apply null_pays; [lia|exact N]|]. destruct (Nat.ltb _ _); [apply in_err_pays|].
  destruct b as [|c b1]; [apply in_err_pays|]. destruct (c =? cLBRACK); [|apply in_err_pays]. apply wf_cons in W as [_ W].
  pose proof (arr_loop_pays x true b1 [] W) as P. intros E. specialize (P E). unfold len in *. cbn [length] in *. lia.
Qed.
Lemma map_loop_pays {K1} eqb (deck : bytes -> M (dres K1)) z input fr : (forall b, wf b -> lean R b (deck b)) ->
  forall k f b m, wf b -> pays R 0 b (map_loop_m eqb deck dm z input fr k f b m).
Proof.
  intros DK. induction k as [|k IH]; intros f b m W; cbn [map_loop_m]; cbv zeta; [eapply pays_err; reflexivity|].
  eapply pays_bind; [apply skip_pay|]. rewrite fst_skip. pose proof (suf_skip b) as SF. pose proof (suf_wf _ _ SF W) as W1. set (b1 := skip_spaces b) in *. clearbody b1.
  destruct (match b1 with c :: _ => c =? cRBRACE | [] => false end) eqn:EC.
  { destruct b1; [discriminate|]. intros _. cbn [ret fst snd steps d_rest tl]. unfold len. cbn [length]. lia. }
  pose proof (obj_key_use R R8 deck DK f b1 W1) as KO. unfold key_ok in KO.
  destruct (fst (obj_key_m deck f b1)) as [[r e]|[b2 key]] eqn:EK.
  { intros X. exfalso. revert X. rewrite fst_bind, EK. discriminate. }
  destruct KO as (S2 & L2 & H2). pose proof (suf_wf _ _ S2 W1) as W2. eapply (pays_bind _ _ _ b2 (-1)); [lia|]. rewrite EK.
  pose proof (EL b2 z W2) as P. pose proof (SH b2 z W2) as S. unfold pays in P. destruct (d_err (fst (dm b2 z))) as [e|] eqn:ED.
  - intros X. exfalso. revert X. rewrite fst_bind, ED. unfold elem_err_m. rewrite fst_bind. destruct (fst (parseValue_m input)); discriminate.
  - eapply pays_bind; [apply P; reflexivity|]. rewrite ED. destruct (S ED) as [S1 _]. eapply pays_mono; [apply IH; eapply suf_wf; eassumption|lia].
Qed.
Lemma dmap_pays {K1} eqb (deck : bytes -> M (dres K1)) z b x : (forall b, wf b -> lean R b (deck b)) -> wf b -> pays R (- R) b (decode_map_m eqb deck dm z b x).
Proof.
  intros DK W. unfold decode_map_m. destruct (has_null_prefix b) eqn:N; [apply null_pays; [lia|exact N]|]. destruct (Nat.ltb _ _); [apply in_err_pays|].
  destruct b as [|c b1]; [apply in_err_pays|]. destruct (c =? cLBRACE); [|apply in_err_pays]. apply wf_cons in W as [_ W].
  match goal with |- pays _ _ _ (map_loop_m _ _ _ _ ?i ?fr ?k ?f _ ?m) => pose proof (map_loop_pays eqb deck z i fr DK k f b1 m W) as P end.
  intros E. specialize (P E). unfold len in *. cbn [length] in *. lia.
Qed.
End Loops.

Section Struct.
Context {A : Type} (lm : bytes -> option (bytes -> A -> M (dres A))) (R : Z).
Hypothesis EL : forall k d, lm k = Some d -> forall b x, wf b -> pays R (-1) b (d b x).
Hypothesis SH : forall k d, lm k = Some d -> forall b x, wf b -> shorter b (fst (d b x)).
Hypothesis R8 : 8 <= R.
Lemma struct_loop_pays dis input : forall k f b x, wf b -> pays R 0 b (struct_loop_m lm dis input k f b x).
Proof.
  induction k as [|k IH]; intros f b x W; cbn [struct_loop_m]; cbv zeta; [eapply pays_err; reflexivity|].
  eapply pays_bind; [apply skip_pay; exact R8|]. rewrite fst_skip. pose proof (suf_skip b) as SF. pose proof (suf_wf _ _ SF W) as W1. set (b1 := skip_spaces b) in *. clearbody b1.
  destruct (match b1 with c :: _ => c =? cRBRACE | [] => false end) eqn:EC.
  { destruct b1; [discriminate|]. intros _. cbn [ret fst snd steps d_rest tl]. unfold len. cbn [length]. lia. }
  fold sdeck. pose proof (obj_key_use R R8 sdeck (fun b W => lean_mono 8 R b _ (struct_key_lean b W) R8) f b1 W1) as KO. unfold key_ok in KO.
  destruct (fst (obj_key_m sdeck f b1)) as [[r e]|[b2 key]] eqn:EK.
  { intros X. exfalso. revert X. rewrite fst_bind, EK. discriminate. }
  destruct KO as (S2 & L2 & H2). pose proof (suf_wf _ _ S2 W1) as W2. eapply (pays_bind _ _ _ b2 (-1)); [lia|]. rewrite EK.
  destruct (lm key) as [d|] eqn:LM.
  - pose proof (EL key d LM b2 x W2) as P. pose proof (SH key d LM b2 x W2) as S. unfold pays in P. destruct (d_err (fst (d b2 x))) as [e|] eqn:ED.
    + intros X. exfalso. revert X. rewrite fst_bind, ED. unfold elem_err_m. rewrite fst_bind. destruct (fst (parseValue_m input)); discriminate.
    + eapply pays_bind; [apply P; reflexivity|]. rewrite ED. destruct (S ED) as [S1 _]. eapply pays_mono; [apply IH; eapply suf_wf; eassumption|lia].
  - destruct dis; [eapply pays_err; reflexivity|]. pose proof (pv_steps b2 W2) as PS.
    destruct (parseValue b2) as [v r|r e] eqn:P; [|intros X; exfalso; revert X; rewrite fst_bind, erase_parseValue, P; discriminate].
    destruct (pv_suf b2 v r W2 P) as [S3 L3]. rewrite used_len in PS. eapply (pays_bind _ _ _ r 0); [unfold len in *; nia|]. rewrite erase_parseValue, P.
    eapply pays_mono; [apply IH; eapply suf_wf; eassumption|lia].
Qed.
Lemma struct_pays dis b x : wf b -> pays R (- R) b (decode_struct_m lm dis b x).
Proof.
  intros W. unfold decode_struct_m. destruct (has_null_prefix b) eqn:N; [apply null_pays; [lia|exact N]|]. destruct (Nat.ltb _ _); [apply in_err_pays|].
  destruct b as [|c b1]; [apply in_err_pays|]. destruct (c =? cLBRACE); [|apply in_err_pays]. apply wf_cons in W as [_ W].
  pose proof (struct_loop_pays dis (c :: b1) (S (length (c :: b1))) true b1 x W) as P.
  intros E. specialize (P E). unfold len in *. cbn [length] in *. lia.
Qed.
End Struct.

Section Typed.
Context (V : tenv) (F : dflags) (OK : env_ok V) (K : nat) (PF : plain_fields V K) (ST : nat -> Prop) (CS : concrete_structs V ST) (M : nat) (KM : (K <= M)%nat).
Notation R := (120 + Z.of_nat M).
Lemma path_pays p dm k : (forall b x, wf b -> pays R k b (dm b x)) -> forall b x, wf b -> pays R (k + Z.of_nat (pointers p)) b (on_path_m V p dm b x).
Proof.
  intros H. induction p as [|[i|i s un] p IH]; intros b x W; cbn [on_path_m pointers]; [eapply pays_mono; [apply H, W|lia]| |].
  - destruct x; try (eapply pays_err; reflexivity). destruct (nth_error l i); [|eapply pays_err; reflexivity]. apply pays_map, IH, W.
  - apply pays_call. destruct x; try (eapply pays_err; reflexivity). destruct (nth_error l i) as [m|]; [|eapply pays_err; reflexivity]. destruct m; try (eapply pays_err; reflexivity).
    destruct p0; [eapply pays_mono; [apply pays_map, IH, W|lia]|]. destruct un; [eapply pays_err; reflexivity|]. eapply pays_mono; [apply pays_map, IH, W|lia].
Qed.
Ltac lm c := apply (lean_mono c); [|lia].
Lemma ty_pays_step n : (match n with O => True | Datatypes.S n' => forall t b x, concrete ST t -> (layers t <= M)%nat -> wf b ->
    pays R (Z.of_nat (layers t) - Z.of_nat M - 1) b (dec_ty_m V F n' t b x) end) ->
  forall t b x, concrete ST t -> (layers t <= M)%nat -> wf b -> pays R (Z.of_nat (layers t) - Z.of_nat M - 1) b (dec_ty_m V F n t b x).
Proof.
  intros SN. induction t; intros b x CT LM W; rewrite dec_ty_m_eq; cbn [concrete layers] in *; try contradiction;
    (assert (BAD : forall x k, pays R k b (call (ret (bad b x)))) by (intros; eapply pays_err; reflexivity)).
  all: try (destruct x; try apply BAD; apply pays_call, pays_map, (lean_pays 16); [|lia|lia|lia];
    first [lm 6; apply bool_lean, W | lm 6; apply int_lean, W | lm 8; apply float_lean, W | lm 8; apply number_lean, W | lm 8; apply string_lean, W
      | apply bytes_lean, W | lm 12; apply duration_lean; assumption | lm 8; apply time_lean; assumption
      | lm 12; apply raw_lean, W | lm 12; apply json_lean; assumption | lm 12; apply text_lean; assumption]; fail).
  - destruct x; try apply BAD. destruct (Nat.eqb _ _); [|apply BAD]. apply pays_call, pays_map. eapply pays_mono; [apply array_pays|].
    + intros b0 x0 W0. eapply pays_mono; [apply IHt; [exact CT|lia|exact W0]|lia].
    + intros; apply ty_shorter; assumption.
    + lia.
    + exact W.
    + lia.
  - destruct x; try apply BAD. apply pays_call, pays_map. eapply pays_mono; [apply slice_pays|].
    + intros b0 x0 W0. eapply pays_mono; [apply IHt; [exact CT|lia|exact W0]|lia].
    + intros; apply ty_shorter; assumption.
    + lia.
    + exact W.
    + lia.
  - destruct x; try apply BAD. apply pays_call, pays_map. eapply pays_mono; [apply dmap_pays|].
    + intros b0 x0 W0. eapply pays_mono; [apply IHt; [exact CT|lia|exact W0]|lia].
    + intros; apply ty_shorter; assumption.
    + lia.
    + intros b0 W0. lm 100. apply key_lean; assumption.
    + exact W.
    + lia.
  - destruct x; try apply BAD. apply pays_call, pays_map. eapply pays_mono; [apply dmap_pays|].
    + intros b0 x0 W0. apply pays_map, (lean_pays 12); [apply raw_lean, W0|lia|lia|lia].
    + intros b0 x0 W0. exact (proj1 (raw_lean b0 None W0)).
    + lia.
    + intros b0 W0. lm 100. apply (key_lean V OK KYString); assumption.
    + exact W.
    + lia.
  - destruct x; try apply BAD. apply pays_call. destruct (has_null_prefix b) eqn:N.
    + assert (NP : forall k, - 120 <= k + 1 + Z.of_nat M -> pays R k b (ret (DR (skipn 4 b) None (MPtr None)))) by (intros; apply null_pays; [lia|exact N]).
      destruct p; [|apply NP; lia]. destruct t; try (apply NP; lia). eapply pays_mono; [apply pays_map, IHt; [exact CT|lia|exact W]|lia].
    + eapply pays_mono; [apply pays_map, IHt; [exact CT|lia|exact W]|lia].
  - destruct n as [|n]; [eapply pays_err; reflexivity|]. destruct x; try apply BAD. apply pays_call. eapply pays_mono; [apply struct_pays|].
    + intros k d E b0 x0 W0. destruct (find_field V F (v_flds V i) k) as [f|] eqn:FF; [|discriminate]. injection E as <-. apply find_field_in in FF.
      pose proof (PF i f FF) as PK. eapply pays_mono; [apply (path_pays _ _ (Z.of_nat (layers (jf_ty f)) - Z.of_nat M - 1)); [|exact W0]|lia].
      intros b2 x2 W2. unfold decode_field_m. pose proof (ok_quot V OK i f FF) as Q. destruct (jf_quot f).
      * apply SN; [eapply CS; eassumption|lia|exact W2].
      * apply (lean_pays 100); [|lia|lia|lia]. apply from_string_lean; [|exact W2]. intros v Wv. apply quotable_lean; [exact OK|apply Q; discriminate|exact Wv].
      * apply (lean_pays 100); [|lia|lia|lia]. apply from_int_lean; [|exact W2]. intros v Wv. apply quotable_lean; [exact OK|apply Q; discriminate|exact Wv].
    + intros k d E b0 x0 W0. destruct (find_field V F (v_flds V i) k) as [f|] eqn:FF; [|discriminate]. injection E as <-. apply find_field_in in FF.
      apply (field_shorter V F OK i); assumption.
    + lia.
    + exact W.
    + lia.
  - destruct x; try apply BAD; intros X; exfalso; revert X; unfold call; cbn [fst]; unfold decode_type_error_m;
    rewrite fst_bind; destruct (fst (parseValue_m b)); discriminate.
Qed.
Lemma ty_pays n : forall t b x, concrete ST t -> (layers t <= M)%nat -> wf b -> pays R (Z.of_nat (layers t) - Z.of_nat M - 1) b (dec_ty_m V F n t b x).
Proof. induction n as [|n IH]; apply ty_pays_step; [exact I|exact IH]. Qed.
Lemma unmarshal_pays t b x : concrete ST t -> (layers t <= M)%nat -> wf b -> fst (fst (unmarshal_m V F t b x)) = None ->
  steps (snd (unmarshal_m V F t b x)) <= R * (len b + 1).
Proof.
  intros CT LM W. unfold unmarshal_m, unmarshal_with_m, parse_with_m. rewrite !steps_bind, !skip_steps, !fst_bind, !fst_skip.
  cbn [ret fst snd steps d_err d_rest]. pose proof (suf_skip b) as SF. pose proof (suf_wf _ _ SF W) as W1. pose proof (suf_len _ _ SF) as L1. set (b1 := skip_spaces b) in *. clearbody b1.
  unfold decode_m. set (n := Datatypes.S (length b1)). clearbody n. pose proof (ty_pays n t b1 x CT LM W1) as P. pose proof (ty_shorter V F OK n t b1 x W1) as SH.
  set (m := dec_ty_m V F n t b1 x) in *. clearbody m. unfold pays, shorter in *. intros E.
  assert (E1 : d_err (fst m) = None). { destruct (skip_spaces (d_rest (fst m))); [|discriminate]. destruct (d_err (fst m)); [discriminate|reflexivity]. }
  specialize (P E1). destruct (SH E1) as [_ L2]. pose proof (skip_spaces_le (d_rest (fst m))). unfold len in *. nia.
Qed.
End Typed.
