(** How deep the decoders go at most, and what rest they return. *)
From Verif Require Import Bytes SpecJson SpecString SpecDec AsciiModel Utf8Model ParseModel IntModel StringModel EncModel DecModel TypeModel
  ParseFacts IntFacts StringFacts DecFacts SpecType NodeFacts TypeFacts TypeMain SpecMeter MeterModel MeterFacts MeterParse MeterDec MeterLoop MeterRest MeterType.

Definition low {A} (N : nat) (m : M A) : Prop := (calls (snd m) <= N)%nat.
(** [N]: the depth; [k]: the length of the rest. *)
Definition cap {A} (N k : nat) (m : M (dres A)) : Prop := low N m /\ (length (d_rest (fst m)) <= k)%nat.

Lemma low_bind {A B} N (m : M A) (f : A -> M B) : low N m -> low N (f (fst m)) -> low N (let* x := m in f x).
Proof. unfold low. rewrite calls_bind. lia. Qed.
Lemma low_ret {A} N (a : A) : low N (ret a).
Proof. unfold low. cbn. lia. Qed.
Lemma low_skip N b : low N (skip_spaces_m b).
Proof. unfold low. rewrite skip_calls. lia. Qed.
Lemma low_spend N b r : low N (spend b r).
Proof. unfold low. cbn. lia. Qed.
Lemma low_pres N b p : low N (pres_m b p).
Proof. unfold low. rewrite pres_calls. lia. Qed.
Lemma low_unq N b : low N (unquote_m b).
Proof. unfold low, unquote_m. destruct (parse_string_unquote b []); cbn; lia. Qed.
Lemma low_mono {A} N N' (m : M A) : low N m -> (N <= N')%nat -> low N' m.
Proof. unfold low. lia. Qed.
Lemma opens_le b : (opens b <= length b)%nat.
Proof. induction b as [|c b IH]; [cbn; lia|]. cbn [opens length]. destruct (_ || _)%bool; lia. Qed.
Lemma low_pv N b : wf b -> (1 + length b <= N)%nat -> low N (parseValue_m b).
Proof. intros W L. destruct (parse_value_use (parse_fuel b) b W) as [_ H]. pose proof (opens_le b). unfold low, parseValue_m. lia. Qed.
Ltac lowt := repeat lazymatch goal with
  | |- low _ (ret _) => apply low_ret
  | |- low _ (spend _ _) => apply low_spend
  | |- low _ (skip_spaces_m _) => apply low_skip
  | |- low _ (pres_m _ _) => apply low_pres
  | |- low _ (unquote_m _) => apply low_unq
  | |- low _ (parseValue_m _) => apply low_pv; [try assumption|try assumption]
  | |- low _ (bind _ _) => apply low_bind
  | |- low _ (match ?x with _ => _ end) => destruct x
  end.
Lemma low_ie N b : wf b -> (1 + length b <= N)%nat -> low N (input_error_m b).
Proof. intros W L. unfold input_error_m. lowt. Qed.
Lemma low_in_err {A} N b (x : A) : wf b -> (1 + length b <= N)%nat -> low N (in_err_m b x).
Proof. intros W L. unfold in_err_m. lowt. apply low_ie; assumption. Qed.
Lemma low_elem_err {A} N b e (x : A) : wf b -> (1 + length b <= N)%nat -> low N (elem_err_m b e x).
Proof. intros W L. unfold elem_err_m. lowt. Qed.

Lemma cap_bind {A B} N k (m : M A) (f : A -> M (dres B)) : low N m -> cap N k (f (fst m)) -> cap N k (let* x := m in f x).
Proof. intros L [H1 H2]. split; [apply low_bind; assumption|]. rewrite fst_bind. exact H2. Qed.
Lemma cap_ret {A} N k (d : dres A) : (length (d_rest d) <= k)%nat -> cap N k (ret d).
Proof. intros H. split; [apply low_ret|exact H]. Qed.
Lemma cap_map {A B} (f : A -> B) N k m : cap N k m -> cap N k (md_map f m).
Proof. intros [H1 H2]. split; [apply low_bind; [exact H1|apply low_ret]|exact H2]. Qed.
Lemma cap_mono {A} N N' k k' (m : M (dres A)) : cap N k m -> (N <= N')%nat -> (k <= k')%nat -> cap N' k' m.
Proof. unfold cap, low. lia. Qed.
Lemma cap_call {A} N k (m : M (dres A)) : cap N k m -> cap (S N) k (call m).
Proof. unfold cap, low, call. cbn [fst snd calls]. lia. Qed.
Lemma cap_in_err {A} N k b (x : A) : wf b -> (1 + length b <= N)%nat -> (length b <= k)%nat -> cap N k (in_err_m b x).
Proof. intros W L K. split; [apply low_in_err; assumption|]. rewrite erase_in_err. pose proof (in_err_le b x). lia. Qed.
Lemma cap_elem_err {A} N k b e (x : A) : wf b -> (1 + length b <= N)%nat -> (length b <= k)%nat -> cap N k (elem_err_m b e x).
Proof. intros W L K. split; [apply low_elem_err; assumption|]. rewrite erase_elem_err. pose proof (elem_err_le b e x). lia. Qed.

Section Loops.
Context {A : Type} (dm : bytes -> A -> M (dres A)) (N L : nat) (input : bytes).
Hypothesis LO : forall b x, wf b -> (length b <= L)%nat -> cap N (4 * length b) (dm b x).
Hypothesis SH : forall b x, wf b -> shorter b (fst (dm b x)).
Hypothesis WI : wf input.
Hypothesis HI : (length input <= S L)%nat.
Hypothesis HN : (2 + L <= N)%nat.
Notation k4 := (4 * length input)%nat.

Lemma slice_loop_cap z k : forall b n d, wf b -> (length b <= L)%nat -> (length b <= length input)%nat -> cap N k4 (slice_loop_m dm z input k b n d).
Proof.
  induction k as [|k IH]; intros b n d W HL HB; cbn [slice_loop_m]; cbv zeta; [apply cap_ret; cbn [d_rest]; lia|].
  apply cap_bind; [apply low_skip|]. rewrite fst_skip. pose proof (suf_skip b) as SF. pose proof (suf_wf _ _ SF W) as W1. pose proof (suf_len _ _ SF) as L1.
  set (b1 := skip_spaces b) in *. clearbody b1.
  assert (EL : forall b0 d n, wf b0 -> (length b0 <= length b)%nat -> cap N k4 (let* x := dm b0 (nth n d z) in
        match d_err x with
        | None => slice_loop_m dm z input k (d_rest x) (S n) (Some (set_nth n (d_val x) d))
        | Some e => elem_err_m input e (Some (n, set_nth n (d_val x) d))
        end)).
  { intros b0 d0 n0 W0 L0. destruct (LO b0 (nth n0 d0 z) W0 ltac:(lia)) as [C _]. apply cap_bind; [exact C|].
    pose proof (SH b0 (nth n0 d0 z) W0) as S. destruct (fst (dm b0 (nth n0 d0 z))) as [r [e|] v]; cbn [d_err d_rest d_val] in *.
    - apply cap_elem_err; [exact WI|lia|lia].
    - destruct (S eq_refl) as [S1 L2]. cbn [d_rest] in *. apply IH; [eapply suf_wf; eassumption|lia|lia]. }
  destruct (match b1 with c :: _ => c =? cRBRACK | [] => false end).
  { apply cap_ret. cbn [d_rest]. destruct b1; cbn [tl length] in *; lia. }
  destruct (Nat.eqb n 0); [apply EL; [exact W1|lia]|]. destruct b1 as [|c b1]; [apply cap_ret; cbn; lia|].
  destruct (c =? cCOMMA); [|apply cap_ret; cbn [d_rest]; lia]. apply cap_bind; [apply low_skip|]. rewrite fst_skip. cbn [length] in *.
  pose proof (suf_skip b1) as SF2. pose proof (suf_len _ _ SF2). apply wf_cons in W1 as [_ W1]. apply EL; [eapply suf_wf; eassumption|lia].
Qed.
Lemma slice_cap z x : cap N k4 (decode_slice_m dm z input x).
Proof.
  pose proof (slice_loop_cap z (S (length input))) as SL. unfold decode_slice_m. destruct (has_null_prefix input); [apply cap_ret; cbn [d_rest]; rewrite skipn_length; lia|].
  destruct (Nat.ltb _ _); [apply cap_in_err; [exact WI|lia|lia]|]. destruct input as [|c b1] eqn:E; [apply cap_in_err; [exact WI|cbn [length] in *; lia|lia]|].
  destruct (c =? cLBRACK); [|apply cap_in_err; [exact WI|cbn [length] in *; lia|lia]].
  apply SL; [apply wf_cons in WI; tauto|cbn [length] in HI; lia|cbn [length]; lia].
Qed.

Definition skl (k : nat) (m : M (bytes * option err)) : Prop := low N m /\ (length (fst (fst m)) <= k)%nat.
Lemma skl_bind {B} k (m : M B) f : low N m -> skl k (f (fst m)) -> skl k (let* x := m in f x).
Proof. intros H [H1 H2]. split; [apply low_bind; assumption|]. rewrite fst_bind. exact H2. Qed.
Lemma skl_ret k x : (length (fst x) <= k)%nat -> skl k (ret x).
Proof. intros H. split; [apply low_ret|exact H]. Qed.
Lemma array_skip_low k : forall b, wf b -> (length b <= L)%nat -> skl (length b) (array_skip_m k b).
Proof.
  induction k as [|k IH]; intros b W HL; cbn [array_skip_m]; [apply skl_ret; cbn; lia|].
  pose proof (suf_skip b) as SF. pose proof (suf_wf _ _ SF W) as W1. pose proof (suf_len _ _ SF) as L1.
  apply skl_bind; [apply low_skip|]. rewrite fst_skip. set (b1 := skip_spaces b) in *. clearbody b1. destruct b1 as [|c b1]; [apply skl_ret; cbn; lia|].
  cbn [length] in *. destruct (c =? cRBRACK); [apply skl_ret; cbn; lia|].
  assert (GO : forall b2, wf b2 -> (length b2 <= length b)%nat -> skl (length b) (let* p := parseValue_m b2 in
          match p with
          | PErr r e => ret (r, Some e)
          | POk _ r => array_skip_m k r
          end)).
  { intros b2 X2 X3. apply skl_bind; [apply low_pv; [exact X2|lia]|].
    rewrite erase_parseValue. pose proof (parseValue_le b2) as PL. destruct (parseValue b2) as [v r|r e] eqn:P; cbn [prest] in PL; [|apply skl_ret; cbn [fst]; lia].
    destruct (pv_suf b2 v r X2 P) as [S3 L3]. destruct (IH r (suf_wf _ _ S3 X2) ltac:(lia)) as [I1 I2]. split; [exact I1|lia]. }
  destruct (c =? cCOMMA).
  - apply skl_bind; [apply low_skip|]. rewrite fst_skip. pose proof (suf_skip b1) as S2. pose proof (suf_len _ _ S2). apply wf_cons in W1 as [_ W1].
    apply GO; [eapply suf_wf; eassumption|lia].
  - apply skl_bind; [apply low_ret|]. apply GO; [exact W1|cbn [fst ret length]; lia].
Qed.
Lemma arr_loop_cap todo : forall f b done, wf b -> (length b <= L)%nat -> cap N (4 * length b) (arr_loop_m dm f b done todo).
Proof.
  induction todo as [|x todo IH]; intros f b done W HL; cbn [arr_loop_m].
  { destruct (array_skip_low (S (length b)) b W HL) as [H1 H2]. apply cap_bind; [exact H1|]. apply cap_ret. cbn [d_rest]. lia. }
  apply cap_bind; [apply low_skip|]. rewrite fst_skip. pose proof (suf_skip b) as SF. pose proof (suf_wf _ _ SF W) as W1. pose proof (suf_len _ _ SF) as L1.
  set (b1 := skip_spaces b) in *. clearbody b1. cbv zeta.
  assert (EL : forall b0, wf b0 -> (length b0 <= length b)%nat -> cap N (4 * length b) (let* y := dm b0 x in
      match d_err y with
      | None => arr_loop_m dm false (d_rest y) (done ++ [d_val y]) todo
      | Some e => ret (DR (d_rest y) (Some e) (done ++ d_val y :: todo))
      end)).
  { intros b0 W0 L0. destruct (LO b0 x W0 ltac:(lia)) as [C R]. apply cap_bind; [exact C|].
    pose proof (SH b0 x W0) as S. destruct (fst (dm b0 x)) as [r [e|] v]; cbn [d_err d_rest d_val] in *.
    - apply cap_ret. cbn [d_rest]. lia.
    - destruct (S eq_refl) as [S1 L2]. cbn [d_rest] in *. eapply cap_mono; [apply IH; [eapply suf_wf; eassumption|lia]|lia|lia]. }
  destruct f; [apply EL; [exact W1|lia]|]. destruct b1 as [|c b1]; [apply cap_ret; cbn; lia|]. cbn [length] in *.
  destruct (c =? cCOMMA).
  - apply cap_bind; [apply low_skip|]. rewrite fst_skip. pose proof (suf_skip b1) as SF2. pose proof (suf_len _ _ SF2). apply wf_cons in W1 as [_ W1].
    apply EL; [eapply suf_wf; eassumption|lia].
  - destruct (c =? cRBRACK); apply cap_ret; cbn [d_rest length]; lia.
Qed.
Lemma array_cap x : cap N k4 (decode_array_m dm input x).
Proof.
  pose proof arr_loop_cap as SL. unfold decode_array_m. destruct (has_null_prefix input); [apply cap_ret; cbn [d_rest]; rewrite skipn_length; lia|].
  destruct (Nat.ltb _ _); [apply cap_in_err; [exact WI|lia|lia]|]. destruct input as [|c b1] eqn:E; [apply cap_in_err; [exact WI|cbn [length] in *; lia|lia]|].
  destruct (c =? cLBRACK); [|apply cap_in_err; [exact WI|cbn [length] in *; lia|lia]].
  cbn [length] in *. eapply cap_mono; [apply SL; [apply wf_cons in WI; tauto|lia]|lia|lia].
Qed.

Lemma obj_key_low {K1} (deck : bytes -> M (dres K1)) f b : wf b -> (length b <= L)%nat ->
  (forall b, wf b -> (length b <= L)%nat -> cap N (length b) (deck b)) -> (forall b, wf b -> shorter b (fst (deck b))) ->
  low N (obj_key_m deck f b) /\ match fst (obj_key_m deck f b) with
    | inl (r, _) => (length r <= length b)%nat | inr (r, _) => wf r /\ (length r <= length b)%nat end.
Proof.
  intros W HL KL KS. unfold obj_key_m. cbv zeta.
  assert (KEY : forall b0, wf b0 -> (length b0 <= length b)%nat -> 
     let m := if has_null_prefix b0 then ret (inl (b0, ESyntax)) else
      let* x := deck b0 in
      match d_err x with
      | Some e => ret (inl (key_error (d_rest x) e))
      | None =>
          let* b := skip_spaces_m (d_rest x) in
          match b with
          | [] => ret (inl (b, ESyntax))
          | c :: b1 => if c =? cCOLON then let* b2 := skip_spaces_m b1 in ret (inr (b2, d_val x))
                       else ret (inl (b, ESyntax))
          end
      end in low N m /\ match fst m with
    | inl (r, _) => (length r <= length b)%nat | inr (r, _) => wf r /\ (length r <= length b)%nat end).
  { intros b0 W0 L0 m. subst m. destruct (has_null_prefix b0); [split; [apply low_ret|cbn; lia]|].
    destruct (KL b0 W0 ltac:(lia)) as [C R]. pose proof (KS b0 W0) as S. rewrite fst_bind.
    match goal with |- _ /\ match fst ?m with _ => _ end => set (q := m); cut (low N q /\ match fst q with
      | inl (r, _) => (length r <= length b)%nat | inr (r, _) => wf r /\ (length r <= length b)%nat end) end.
    { intros [H1 H2]. split; [apply low_bind; [exact C|exact H1]|exact H2]. }
    subst q. destruct (fst (deck b0)) as [r [e|] v]; cbn [d_err d_rest d_val] in *.
    - split; [apply low_ret|]. unfold key_error. destruct r; cbn [fst ret length] in *; lia.
    - destruct (S eq_refl) as [S1 L2]. cbn [d_rest] in *. pose proof (suf_skip r) as S3. pose proof (suf_len _ _ S3). pose proof (suf_wf _ _ S1 W0) as W1.
      pose proof (suf_wf _ _ S3 W1) as W2. rewrite fst_bind, fst_skip. split.
      { lowt. }
      set (b1 := skip_spaces r) in *. clearbody b1. destruct b1 as [|c b1]; [cbn; lia|]. destruct (c =? cCOLON); [|cbn [fst ret length] in *; lia].
      rewrite fst_bind, fst_skip. cbn [fst ret]. pose proof (suf_skip b1) as S4. pose proof (suf_len _ _ S4). apply wf_cons in W2 as [_ W2].
      split; [eapply suf_wf; eassumption|cbn [length] in *; lia]. }
  destruct f; [apply KEY; [exact W|lia]|]. destruct b as [|c b1]; [split; [apply low_ret|cbn; lia]|].
  destruct (c =? cCOMMA); [|split; [apply low_ret|cbn [fst ret length]; lia]].
  pose proof (suf_skip b1) as S4. pose proof (suf_len _ _ S4). apply wf_cons in W as [_ W].
  destruct (KEY (skip_spaces b1) (suf_wf _ _ S4 W) ltac:(cbn [length]; lia)) as [H1 H2]. rewrite fst_bind, fst_skip. split; [|exact H2].
  apply low_bind; [apply low_skip|]. rewrite fst_skip. exact H1.
Qed.
Lemma map_loop_cap {K1} eqb (deck : bytes -> M (dres K1)) z fr :
  (forall b, wf b -> (length b <= L)%nat -> cap N (length b) (deck b)) -> (forall b, wf b -> shorter b (fst (deck b))) ->
  forall k f b m, wf b -> (length b <= L)%nat -> (length b <= length input)%nat -> cap N k4 (map_loop_m eqb deck dm z input fr k f b m).
Proof.
  intros KL KS. induction k as [|k IH]; intros f b m W HL HB; cbn [map_loop_m]; cbv zeta; [apply cap_ret; cbn [d_rest]; lia|].
  apply cap_bind; [apply low_skip|]. rewrite fst_skip. pose proof (suf_skip b) as SF. pose proof (suf_wf _ _ SF W) as W1. pose proof (suf_len _ _ SF) as L1.
  set (b1 := skip_spaces b) in *. clearbody b1.
  destruct (match b1 with c :: _ => c =? cRBRACE | [] => false end).
  { apply cap_ret. cbn [d_rest]. destruct b1; cbn [tl length] in *; lia. }
  destruct (obj_key_low deck f b1 W1 ltac:(lia) KL KS) as [K2 K3]. apply cap_bind; [exact K2|].
  destruct (fst (obj_key_m deck f b1)) as [[r e]|[b2 key]]; [apply cap_ret; cbn [d_rest]; lia|]. destruct K3 as [W2 L2].
  destruct (LO b2 z W2 ltac:(lia)) as [C R]. apply cap_bind; [exact C|].
  pose proof (SH b2 z W2) as S. destruct (fst (dm b2 z)) as [r [e|] v]; cbn [d_err d_rest d_val] in *.
  - apply cap_elem_err; [exact WI|lia|lia].
  - destruct (S eq_refl) as [S1 L3]. cbn [d_rest] in *. apply IH; [eapply suf_wf; eassumption|lia|lia].
Qed.
Lemma dmap_cap {K1} eqb (deck : bytes -> M (dres K1)) z x :
  (forall b, wf b -> (length b <= L)%nat -> cap N (length b) (deck b)) -> (forall b, wf b -> shorter b (fst (deck b))) ->
  cap N k4 (decode_map_m eqb deck dm z input x).
Proof.
  intros KL KS. pose proof (fun fr => map_loop_cap eqb deck z fr KL KS (S (length input))) as SL. unfold decode_map_m. destruct (has_null_prefix input); [apply cap_ret; cbn [d_rest]; rewrite skipn_length; lia|].
  destruct (Nat.ltb _ _); [apply cap_in_err; [exact WI|lia|lia]|]. destruct input as [|c b1] eqn:E; [apply cap_in_err; [exact WI|cbn [length] in *; lia|lia]|].
  destruct (c =? cLBRACE); [|apply cap_in_err; [exact WI|cbn [length] in *; lia|lia]].
  apply SL; [apply wf_cons in WI; tauto|cbn [length] in HI; lia|cbn [length]; lia].
Qed.
End Loops.

(** structs *)
Section Struct.
Context {A : Type} (lm : bytes -> option (bytes -> A -> M (dres A))) (N L : nat) (input : bytes).
Hypothesis LO : forall k d, lm k = Some d -> forall b x, wf b -> (length b <= L)%nat -> cap N (4 * length b) (d b x).
Hypothesis SH : forall k d, lm k = Some d -> forall b x, wf b -> shorter b (fst (d b x)).
Hypothesis WI : wf input.
Hypothesis HI : (length input <= S L)%nat.
Hypothesis HN : (2 + L <= N)%nat.
Notation k4 := (4 * length input)%nat.
Definition sdeck (b : bytes) : M (dres bytes) :=
  let* q := unquote_m b in
  match q with
  | QOk s r _ => let* _ := spend b r in ret (DR r None s)
  | QErr r e => ret (DR r (Some e) [])
  | QPanic => ret (DR b (Some EPanicked) [])
  | QFuel => ret (DR b (Some EFuel) [])
  end.
Lemma sdeck_cap b : wf b -> (length b <= L)%nat -> cap N (length b) (sdeck b).
Proof.
  intros W HL. unfold sdeck. apply cap_bind; [apply low_unq|]. rewrite fst_unquote. pose proof (unquote_le b) as H.
  destruct (parse_string_unquote b []); cbn [qrest] in H; lazymatch goal with |- cap _ _ (ret _) => idtac | _ => apply cap_bind; [apply low_spend|] end; apply cap_ret; exact H.
Qed.
Lemma sdeck_shorter b : wf b -> shorter b (fst (sdeck b)).
Proof. intros W. apply (struct_key_lean b W). Qed.
Lemma struct_loop_cap dis k : forall f b x, wf b -> (length b <= L)%nat -> (length b <= length input)%nat -> cap N k4 (struct_loop_m lm dis input k f b x).
Proof.
  induction k as [|k IH]; intros f b x W HL HB; cbn [struct_loop_m]; cbv zeta; [apply cap_ret; cbn [d_rest]; lia|].
  apply cap_bind; [apply low_skip|]. rewrite fst_skip. pose proof (suf_skip b) as SF. pose proof (suf_wf _ _ SF W) as W1. pose proof (suf_len _ _ SF) as L1.
  set (b1 := skip_spaces b) in *. clearbody b1.
  destruct (match b1 with c :: _ => c =? cRBRACE | [] => false end).
  { apply cap_ret. cbn [d_rest]. destruct b1; cbn [tl length] in *; lia. }
  fold sdeck. destruct (obj_key_low N L input HI HN sdeck f b1 W1 ltac:(lia) sdeck_cap sdeck_shorter) as [K2 K3]. apply cap_bind; [exact K2|].
  destruct (fst (obj_key_m sdeck f b1)) as [[r e]|[b2 key]]; [apply cap_ret; cbn [d_rest]; lia|]. destruct K3 as [W2 L2].
  destruct (lm key) as [d|] eqn:LM.
  - destruct (LO key d LM b2 x W2 ltac:(lia)) as [C R]. apply cap_bind; [exact C|].
    pose proof (SH key d LM b2 x W2) as S. destruct (fst (d b2 x)) as [r [e|] v]; cbn [d_err d_rest d_val] in *.
    + apply cap_elem_err; [exact WI|lia|lia].
    + destruct (S eq_refl) as [S1 L3]. cbn [d_rest] in *. apply IH; [eapply suf_wf; eassumption|lia|lia].
  - destruct dis; [apply cap_ret; cbn [d_rest]; lia|]. apply cap_bind; [apply low_pv; [exact W2|lia]|]. rewrite erase_parseValue.
    pose proof (parseValue_le b2) as PL. destruct (parseValue b2) as [v r|r e] eqn:P; cbn [prest] in PL; [|apply cap_ret; cbn [d_rest]; lia].
    destruct (pv_suf b2 v r W2 P) as [S3 L3]. apply IH; [eapply suf_wf; eassumption|lia|lia].
Qed.
Lemma struct_cap dis x : cap N k4 (decode_struct_m lm dis input x).
Proof.
  pose proof (struct_loop_cap dis (S (length input))) as SL. unfold decode_struct_m. destruct (has_null_prefix input); [apply cap_ret; cbn [d_rest]; rewrite skipn_length; lia|].
  destruct (Nat.ltb _ _); [apply cap_in_err; [exact WI|lia|lia]|]. destruct input as [|c b1] eqn:E; [apply cap_in_err; [exact WI|cbn [length] in *; lia|lia]|].
  destruct (c =? cLBRACE); [|apply cap_in_err; [exact WI|cbn [length] in *; lia|lia]].
  apply SL; [apply wf_cons in WI; tauto|cbn [length] in HI; lia|cbn [length]; lia].
Qed.
End Struct.

(** leaves: no deeper than parseValue, and the rest is not longer *)
Definition leaf {A} (b : bytes) (m : M (dres A)) : Prop := cap (1 + length b) (length b) m.
Lemma leaf_of {A} b (m : M (dres A)) d : fst m = d -> kept b d -> low (1 + length b) m -> leaf b m.
Proof. intros E K H. split; [exact H|]. rewrite E. exact K. Qed.
Lemma leaf_map {A B} (f : A -> B) b m : leaf b m -> leaf b (md_map f m).
Proof. apply cap_map. Qed.
Ltac lf := lowt; repeat first [apply low_in_err; [assumption|lia] | apply low_ie; [assumption|lia] | apply low_pv; [assumption|lia]]; lowt; try assumption; try lia.
Lemma low_finish N b v c : low N (int_finish_m b v c).
Proof. unfold int_finish_m. lowt. Qed.
Lemma low_pint b : wf b -> low (1 + length b) (parse_int_m b).
Proof.
  intros W. unfold parse_int_m. destruct b as [|c b]; [lf|]. destruct (c =? cMINUS).
  - destruct b; [lf|]. destruct (leading_zero _); [lf|]. destruct (neg_loop _ _ _); [apply low_finish| |lf]. apply low_bind; [apply low_ie; [exact W|lia]|lf].
  - destruct (leading_zero _); [lf|]. destruct (pos_loop _ _ _); [apply low_finish| |lf]. apply low_bind; [apply low_ie; [exact W|lia]|lf].
Qed.
Lemma low_puint b : wf b -> low (1 + length b) (parse_uint_m b).
Proof.
  intros W. unfold parse_uint_m. destruct b as [|c b]; [lf|].
  destruct (leading_zero _); [lf|]. destruct (uint_loop _ _ _); [apply low_finish| |lf]. apply low_bind; [apply low_ie; [exact W|lia]|lf].
Qed.
Lemma int_leaf t b x : wf b -> leaf b (decode_int_m t b x).
Proof.
  intros W. eapply leaf_of; [apply erase_int|apply int_kept|]. unfold decode_int_m. destruct (has_null_prefix b); [lf|].
  apply low_bind; [destruct (signed t); [apply low_pint|apply low_puint]; exact W|]. lf.
Qed.
Lemma bool_leaf b x : wf b -> leaf b (decode_bool_m b x).
Proof. intros W. eapply leaf_of; [apply erase_bool|apply bool_kept|]. unfold decode_bool_m. lf. Qed.
Lemma float_leaf pf b x : wf b -> leaf b (decode_float_m pf b x).
Proof. intros W. eapply leaf_of; [apply erase_float|apply float_kept|]. unfold decode_float_m. lf. Qed.
Lemma number_leaf b x : wf b -> leaf b (decode_number_m b x).
Proof. intros W. eapply leaf_of; [apply erase_number|apply number_kept|]. unfold decode_number_m. lf. Qed.
Lemma string_leaf b x : wf b -> leaf b (decode_string_m b x).
Proof.
  intros W. eapply leaf_of; [apply erase_string|apply string_kept|]. unfold decode_string_m. destruct (has_null_prefix b); [lf|]. apply low_bind; [lf|].
  assert (H : low (1 + length b) (in_err_m b x)) by (apply low_in_err; [exact W|lia]).
  destruct (fst (unquote_m b)); lf.
Qed.
Lemma raw_leaf b x : wf b -> leaf b (decode_raw_m b x).
Proof. intros W. eapply leaf_of; [apply erase_raw|apply raw_kept|]. unfold decode_raw_m. lf. Qed.
Lemma type_error_leaf b x : wf b -> leaf b (decode_type_error_m b x).
Proof. intros W. eapply leaf_of; [apply erase_type_error|apply type_error_kept|]. unfold decode_type_error_m. lf. Qed.
Lemma low_quoted {A} (p : bytes -> option A) b x : wf b -> low (1 + length b) (decode_quoted_m p b x).
Proof.
  intros W. unfold decode_quoted_m. assert (H : low (1 + length b) (in_err_m b x)) by (apply low_in_err; [exact W|lia]).
  destruct (Nat.ltb _ _); [exact H|]. destruct b as [|c b1]; [exact H|]. destruct (negb _); [exact H|]. destruct (index_byte _ _); [|apply low_bind; [lf|exact H]].
  apply low_bind; [lf|]. destruct (p _); [lf|exact H].
Qed.
Section Leaves.
Context (V : tenv).
Lemma duration_leaf b x : wf b -> leaf b (decode_duration_m V b x).
Proof.
  intros W. eapply leaf_of; [apply erase_duration|apply duration_kept|]. unfold decode_duration_m. destruct (has_null_prefix b); [lf|].
  assert (H : low (1 + length b) (in_err_m b x)) by (apply low_in_err; [exact W|lia]).
  destruct b as [|c b1]; [apply low_quoted, W|]. destruct (negb _); [|apply low_quoted, W]. apply low_bind; [apply low_pint, W|].
  destruct (fst _); [lf|exact H].
Qed.
Lemma time_leaf b x : wf b -> leaf b (decode_time_m V b x).
Proof. intros W. eapply leaf_of; [apply erase_time|apply time_kept|]. unfold decode_time_m. destruct (has_null_prefix b); [lf|apply low_quoted, W]. Qed.
Lemma json_leaf u b x : wf b -> leaf b (decode_json_user_m V u b x).
Proof. intros W. eapply leaf_of; [apply erase_json_user|apply json_kept|]. unfold decode_json_user_m. lf. Qed.
Lemma text_leaf u b x : wf b -> leaf b (decode_text_user_m V u b x).
Proof. intros W. eapply leaf_of; [apply erase_text_user|apply text_kept|]. unfold decode_text_user_m. lf. Qed.
End Leaves.

(** decodeInterface *)
Lemma iface_shorter un pf n b x : wf b -> shorter b (fst (dec_iface_m un pf n b x)).
Proof. intros W. apply (iface_rated un pf n 0 b x W). Qed.
Lemma string_shorter b x : wf b -> shorter b (fst (decode_string_m b x)).
Proof. intros W. apply (string_lean b x W). Qed.
Lemma done_low N b' (m : M (dres jv)) : low N m -> low N (let* x := m in
          match d_err x with
          | Some e => ret (DR b' (Some e) JVNull)
          | None => let* s := skip_spaces_m (d_rest x) in
                    match s with
                    | [] => ret (DR b' None (d_val x))
                    | _ => ret (DR b' (Some ESyntax) JVNull)
                    end
          end).
Proof. intros H. apply low_bind; [exact H|]. lowt. Qed.
Lemma iface_low un pf n : forall b x, wf b -> low (2 + length b) (dec_iface_m un pf n b x).
Proof.
  induction n as [|n IH]; intros b x W; [apply low_ret|]. cbn [dec_iface_m]. cbv zeta.
  match goal with |- low _ (call ?m) => cut (low (1 + length b) m); [unfold low, call; cbn [snd calls]; lia|] end.
  apply low_bind; [apply low_pv; [exact W|lia]|]. rewrite erase_parseValue. destruct (parseValue b) as [v b'|r e] eqn:P; [|apply low_ret].
  assert (LV : wf v /\ (length v <= length b)%nat).
  { destruct (parseValue_sound b v b' W P) as (E & _). rewrite E in W. apply Forall_app in W as [W1 W2]. split; [exact W1|]. rewrite E, app_length. lia. }
  destruct LV as [WV LV]. destruct v as [|c v]; [apply low_ret|].
  assert (EL : forall b x, wf b -> (length b <= length v)%nat -> cap (2 + length v) (4 * length b) (dec_iface_m un pf n b x)).
  { intros b0 x0 W0 L0. split; [eapply low_mono; [apply IH, W0|lia]|]. rewrite erase_iface. pose proof (iface_le un pf n b0 x0). lia. }
  cbn [length] in LV.
  repeat match goal with |- low _ (if ?c then _ else _) => destruct c end; try apply low_ret; apply done_low; try (apply low_bind; [|apply low_ret]).
  - eapply low_mono; [apply (dmap_cap _ (2 + length v) (length v) (c :: v)); [exact EL|intros; apply iface_shorter; assumption|exact WV|cbn [length]; lia|lia| |]|lia].
    + intros b0 W0 L0. eapply cap_mono; [apply string_leaf, W0|lia|lia].
    + intros b0 W0. apply string_shorter, W0.
  - eapply low_mono; [apply (slice_cap _ (2 + length v) (length v) (c :: v)); [exact EL|intros; apply iface_shorter; assumption|exact WV|cbn [length]; lia|lia]|lia].
  - eapply low_mono; [apply string_leaf, WV|cbn [length]; lia].
  - unfold decode_null_m. destruct (has_null_prefix _); [apply low_ret|apply low_in_err; [exact WV|cbn [length]; lia]].
  - eapply low_mono; [apply bool_leaf, WV|cbn [length]; lia].
  - eapply low_mono; [apply number_leaf, WV|cbn [length]; lia].
  - eapply low_mono; [apply float_leaf, WV|cbn [length]; lia].
Qed.
Lemma interface_cap un pf b x : wf b -> cap (2 + length b) (length b) (decode_interface_m un pf b x).
Proof. intros W. split; [apply iface_low, W|]. rewrite erase_interface. apply iface_le. Qed.

(** values in strings *)
Lemma unquote_text b : wf b -> (exists lit r i, string_lit lit /\ b = lit ++ r /\ parse_string_unquote b [] = QOk (str_text lit) r i) \/
  (exists r, parse_string_unquote b [] = QErr r ESyntax).
Proof. intros W. destruct (unq_steps b W) as [(lit & r & i & SL & E & H & _)|(r & H & _)]; [left|right]; eauto 8. Qed.
Lemma from_string_cap {A} (dm : bytes -> A -> M (dres A)) j b x : (forall v, wf v -> cap (j + length v) (length v) (dm v x)) -> wf b ->
  cap (j + 4 * length b) (length b) (decode_from_string_m dm b x).
Proof.
  intros H W. unfold decode_from_string_m. destruct (has_null_prefix b); [eapply cap_mono; [apply H, W|lia|lia]|].
  apply cap_bind; [apply low_unq|]. rewrite fst_unquote. destruct (unquote_text b W) as [(lit & r & i & SL & E & ->)|(r & ->)].
  2:{ apply cap_ret. cbn. lia. }
  pose proof (text_len lit SL) as TL. assert (LB : length b = (length lit + length r)%nat) by (rewrite E, app_length; reflexivity).
  destruct (H _ (str_text_wf lit SL)) as [H1 H2]. apply cap_bind; [eapply low_mono; [exact H1|lia]|].
  destruct (d_err (fst (dm (str_text lit) x))); [apply cap_ret; cbn [d_rest]; lia|].
  apply cap_bind; [apply low_skip|]. destruct (fst (skip_spaces_m _)); apply cap_ret; cbn [d_rest]; lia.
Qed.
Lemma from_int_cap {A} pf (dm : bytes -> A -> M (dres A)) j b x : (1 <= j)%nat -> (forall v, wf v -> cap (j + length v) (length v) (dm v x)) -> wf b ->
  cap (j + 4 * length b) (4 * length b) (decode_from_string_int_m pf dm b x).
Proof.
  intros J H W. unfold decode_from_string_int_m. destruct (has_null_prefix b); [eapply cap_mono; [apply H, W|lia|lia]|].
  cbv zeta. match goal with |- context [match b with [] => ?q | _ => _ end] => assert (Q : cap (j + 4 * length b) (4 * length b) q); [|set (quoted := q) in *] end.
  - apply cap_bind; [apply low_unq|]. rewrite fst_unquote. destruct (unquote_text b W) as [(lit & r & i & SL & E & ->)|(r & ->)].
    2:{ apply cap_ret. cbn. lia. }
    pose proof (text_len lit SL) as TL. assert (LB : length b = (length lit + length r)%nat) by (rewrite E, app_length; reflexivity).
    pose proof (strip_len (str_text lit)) as ST. pose proof (strip_wf _ (str_text_wf lit SL)) as WS. set (v := strip_zeroes (str_text lit)) in *. clearbody v.
    apply cap_bind; [apply low_spend|]. destruct (H v WS) as [H1 H2]. apply cap_bind; [eapply low_mono; [exact H1|lia]|].
    destruct (fst (dm v x)) as [u e y]; cbn [d_err d_rest d_val] in *. destruct e as [e|].
    + assert (LP : low (j + 4 * length b) (parseValue_m v)) by (apply low_pv; [exact WS|lia]).
      assert (T : forall e, cap (j + 4 * length b) (4 * length b) (let* p := pres_m v (parse_number v) in
              let* e := match p with
                        | POk _ _ => ret e
                        | PErr _ _ => let* w := parseValue_m v in
                                      ret (match w with POk _ _ => EOther | PErr _ _ => e end)
                        end in
              ret (DR r (Some e) y))).
      { intros e0. apply cap_bind; [apply low_pres|]. apply cap_bind; [|apply cap_ret; cbn [d_rest]; lia]. destruct (fst _); [apply low_ret|].
        apply low_bind; [exact LP|apply low_ret]. }
      destruct e; try apply T. apply cap_ret. cbn [d_rest]. lia.
    + destruct u; apply cap_ret; cbn [d_rest length] in *; lia.
  - clearbody quoted. destruct b as [|c b1]; [exact Q|]. destruct (negb (c =? cQUOTE)).
    + apply cap_bind; [apply low_pres|]. rewrite fst_pres. pose proof (number_le (c :: b1)) as NL. destruct (parse_number (c :: b1)) as [v r|r e]; cbn [prest] in NL.
      * apply cap_bind; [apply low_spend|]. destruct (existsb _ v); [destruct (pf v)|]; apply cap_ret; cbn [d_rest]; lia.
      * apply cap_ret. cbn [d_rest]. lia.
    + destruct b1 as [|c1 b1]; [exact Q|]. destruct (c1 =? cQUOTE); [|exact Q]. apply cap_ret. cbn [d_rest]. lia.
Qed.
Lemma parse_cap {A} (dm : bytes -> A -> M (dres A)) N b x : (forall b, wf b -> shorter b (fst (dm b x))) -> wf b ->
  (forall b0, wf b0 -> (length b0 <= length b)%nat -> cap N (4 * length b) (dm b0 x)) -> cap N (4 * length b) (parse_with_m dm b x).
Proof.
  intros S W H. unfold parse_with_m. apply cap_bind; [apply low_skip|]. rewrite fst_skip. pose proof (suf_skip b) as SF. pose proof (suf_len _ _ SF).
  destruct (H (skip_spaces b) (suf_wf _ _ SF W) ltac:(lia)) as [H1 H2]. apply cap_bind; [exact H1|]. apply cap_bind; [apply low_skip|].
  apply cap_ret. cbn [d_rest]. rewrite fst_skip. pose proof (suf_len _ _ (suf_skip (d_rest (fst (dm (skip_spaces b) x))))). lia.
Qed.

Section Typed.
Context (V : tenv) (F : dflags) (OK : env_ok V) (K : nat) (PF : plain_fields V K).
Lemma bad_cap N b (x : mem) : cap N (length b) (ret (bad b x)).
Proof. apply cap_ret. cbn. lia. Qed.
Lemma bytes_cap b x : wf b -> cap (2 + length b) (4 * length b) (decode_bytes_m V b x).
Proof.
  intros W. unfold decode_bytes_m. destruct (has_null_prefix b); [apply cap_ret; cbn [d_rest]; rewrite skipn_length; lia|].
  assert (IE : cap (2 + length b) (4 * length b) (in_err_m b x)) by (apply cap_in_err; [exact W|lia|lia]).
  assert (UL := unquote_le b).
  destruct (Nat.ltb _ _); [exact IE|]. destruct b as [|c b1] eqn:E; [exact IE|]. destruct (negb _).
  - destruct (c =? cLBRACK); [|exact IE]. apply (slice_cap _ _ (length (c :: b1))); [|intros; apply (int_lean TUint8); assumption|exact W|lia|lia].
    intros b0 x0 W0 L0. eapply cap_mono; [apply int_leaf, W0|lia|lia].
  - apply cap_bind; [apply low_unq|]. rewrite fst_unquote. destruct (parse_string_unquote (c :: b1) []); cbn [qrest] in UL; [|exact IE| |]; try (apply cap_ret; cbn [d_rest]; lia).
    apply cap_bind; [apply low_spend|]. destruct (v_b64 V s); apply cap_ret; cbn [d_rest]; lia.
Qed.
Lemma key_cap k b : wf b -> cap (1 + 4 * length b) (length b) (decode_key_m V k b).
Proof.
  intros W. destruct k; cbn [decode_key_m]; apply cap_map.
  - eapply cap_mono; [apply string_leaf, W|lia|lia].
  - apply from_string_cap; [|exact W]. intros v Wv. apply int_leaf, Wv.
  - eapply cap_mono; [apply text_leaf, W|lia|lia].
Qed.
Lemma quotable_cap n t : quotable t -> forall b x, wf b -> cap (3 + length b) (length b) (dec_ty_m V F n t b x).
Proof.
  intros Q. assert (FL : forall t, quotable t -> match t with YPtr _ => False | _ => True end -> forall b x, wf b -> cap (2 + length b) (length b) (dec_ty_m V F n t b x)).
  { intros u Qu NP b x W. rewrite dec_ty_m_eq. destruct u; cbn [quotable] in Qu; try contradiction; apply (cap_call (1 + length b)); destruct x; try apply bad_cap; apply cap_map.
    - apply bool_leaf, W.
    - apply int_leaf, W.
    - apply float_leaf, W.
    - apply number_leaf, W.
    - apply string_leaf, W.
    - apply duration_leaf, W.
    - apply json_leaf, W.
    - apply text_leaf, W. }
  intros b x W. destruct t as [| | | | | | | | | | | | | | | |e| | | |]; try (eapply cap_mono; [apply FL; [exact Q|exact I|exact W]|lia|lia]).
  cbn [quotable] in Q. assert (Qe : quotable e /\ match e with YPtr _ => False | _ => True end) by (destruct e; try contradiction; auto). destruct Qe as [Qe NP].
  rewrite dec_ty_m_eq. apply (cap_call (2 + length b)). destruct x; try apply bad_cap. destruct (has_null_prefix b).
  - assert (Z0 : cap (2 + length b) (length b) (ret (DR (skipn 4 b) None (MPtr None)))) by (apply cap_ret; cbn [d_rest]; rewrite skipn_length; lia).
    destruct p; [|exact Z0]. destruct e; try exact Z0. contradiction.
  - apply cap_map, FL; assumption.
Qed.
Lemma path_cap p dm N k : (forall b x, wf b -> (length b <= k)%nat -> cap N (4 * length b) (dm b x)) ->
  forall b x, wf b -> (length b <= k)%nat -> cap (pointers p + N) (4 * length b) (on_path_m V p dm b x).
Proof.
  intros H. induction p as [|[i|i s un] p IH]; intros b x W L; cbn [on_path_m pointers]; [apply H; assumption| |].
  - assert (B : forall x, cap (pointers p + N) (4 * length b) (ret (bad b x))) by (intros; apply (cap_mono (pointers p + N) _ (length b)); [apply bad_cap|lia|lia]).
    destruct x; try apply B. destruct (nth_error l i); [|apply B]. apply cap_map, IH; assumption.
  - apply (cap_call (pointers p + N)).
    assert (B : forall x, cap (pointers p + N) (4 * length b) (ret (bad b x))) by (intros; apply (cap_mono (pointers p + N) _ (length b)); [apply bad_cap|lia|lia]).
    destruct x; try apply B. destruct (nth_error l i) as [m|]; [|apply B]. destruct m; try apply B.
    destruct p0; [apply cap_map, IH; assumption|]. destruct un; [|apply cap_map, IH; assumption]. apply cap_ret. cbn. lia.
Qed.
Definition most (t : gty) (k : nat) : nat := layers t + (K + 4) * k + 3.
Lemma ty_shorter n t b x : wf b -> shorter b (fst (dec_ty_m V F n t b x)).
Proof. intros W. apply (ty_frug V F OK n t b x W). Qed.
Lemma field_shorter i f n b x : In f (v_flds V i) -> wf b -> shorter b (fst (on_path_m V (jf_path f) (decode_field_m V f (dec_ty_m V F n (jf_ty f))) b x)).
Proof.
  intros IN W. match goal with |- shorter b (fst ?m) => cut (fair b m); [intros X; exact (proj1 (X 0%nat))|] end.
  apply path_fair; [|exact W]. intros b1 x1 W1. apply (field_fair V F OK i); [exact IN| |exact W1].
  intros b2 x2 W2. apply frug_fair, ty_frug; assumption.
Qed.
Lemma ty_cap_step n : (match n with O => True | S n' => forall t b x, wf b -> cap (most t (length b)) (4 * length b) (dec_ty_m V F n' t b x) end) ->
  forall t b x, wf b -> cap (most t (length b)) (4 * length b) (dec_ty_m V F n t b x).
Proof.
  intros ST. induction t; intros b x W; rewrite dec_ty_m_eq;
    (assert (LF : forall m : M (dres mem), leaf b m -> forall j, cap (j + (K + 4) * length b + 3) (4 * length b) (call m)) by
      (intros m Hm j; eapply cap_mono; [apply cap_call, Hm|nia|lia]));
    (assert (BAD : forall x j, cap (j + (K + 4) * length b + 3) (4 * length b) (call (ret (bad b x)))) by (intros; apply LF, bad_cap));
    (assert (NUL : forall x j, cap (j + (K + 4) * length b + 3) (4 * length b) (call (ret (DR (skipn 4 b) None x)))) by (intros; apply LF; apply cap_ret; cbn [d_rest]; rewrite skipn_length; lia));
    unfold most in *; cbn [layers] in *.
  all: try (destruct x; try apply BAD; apply LF, leaf_map;
    first [apply bool_leaf, W | apply int_leaf, W | apply float_leaf, W | apply number_leaf, W | apply string_leaf, W | apply duration_leaf, W | apply time_leaf, W
      | apply raw_leaf, W | apply json_leaf, W | apply text_leaf, W]; fail).
  - destruct x; try apply BAD. apply (cap_mono (S (2 + length b)) _ (4 * length b)); [|nia|lia]. apply cap_call, cap_map, bytes_cap, W.
  - destruct x; try apply BAD. apply (cap_mono (S (2 + length b)) _ (length b)); [|nia|lia]. apply cap_call, cap_map, interface_cap, W.
  - destruct x; try apply BAD. destruct (has_null_prefix b); [apply NUL|].
    destruct v; try (apply LF, type_error_leaf, W). destruct empty; [|apply LF, type_error_leaf, W].
    apply (cap_mono (S (2 + length b)) _ (4 * length b)); [|nia|lia]. apply cap_call, cap_map, parse_cap; [|exact W|].
    + intros b0 W0. apply iface_shorter, W0.
    + intros b0 W0 L0. eapply cap_mono; [apply interface_cap, W0|lia|lia].
  - destruct x; try apply (BAD _ (S _)). destruct (Nat.eqb _ _); [|apply (BAD _ (S _))]. apply (cap_call (layers t + (K + 4) * length b + 3)), cap_map, (array_cap _ _ (length b)); [| |exact W|lia|nia].
    + intros b0 x0 W0 L0. eapply cap_mono; [apply IHt, W0|nia|lia].
    + intros; apply ty_shorter; assumption.
  - destruct x; try apply (BAD _ (S _)). apply (cap_call (layers t + (K + 4) * length b + 3)), cap_map, (slice_cap _ _ (length b)); [| |exact W|lia|nia].
    + intros b0 x0 W0 L0. eapply cap_mono; [apply IHt, W0|nia|lia].
    + intros; apply ty_shorter; assumption.
  - destruct x; try apply (BAD _ (S _)). apply (cap_call (layers t + (K + 4) * length b + 3)), cap_map, (dmap_cap _ _ (length b)); [| |exact W|lia|nia| |].
    + intros b0 x0 W0 L0. eapply cap_mono; [apply IHt, W0|nia|lia].
    + intros; apply ty_shorter; assumption.
    + intros b0 W0 L0. eapply cap_mono; [apply key_cap, W0|nia|lia].
    + intros b0 W0. apply (key_lean V OK), W0.
  - destruct x; try apply BAD. apply (cap_mono (S (2 + (K + 4) * length b)) _ (4 * length b)); [|lia|lia]. apply cap_call, cap_map, (dmap_cap _ _ (length b)); [| |exact W|lia|nia| |].
    + intros b0 x0 W0 L0. apply cap_map. eapply cap_mono; [apply interface_cap, W0|nia|lia].
    + intros b0 x0 W0. exact (iface_shorter (d_usenum F) (v_float V true) _ b0 JVNull W0).
    + intros b0 W0 L0. eapply cap_mono; [apply key_cap, W0|nia|lia].
    + intros b0 W0. apply (key_lean V OK KYString), W0.
  - destruct x; try apply BAD. apply (cap_mono (S (2 + (K + 4) * length b)) _ (4 * length b)); [|lia|lia]. apply cap_call, cap_map, (dmap_cap _ _ (length b)); [| |exact W|lia|nia| |].
    + intros b0 x0 W0 L0. apply cap_map. eapply cap_mono; [apply raw_leaf, W0|nia|lia].
    + intros b0 x0 W0. exact (proj1 (raw_lean b0 None W0)).
    + intros b0 W0 L0. eapply cap_mono; [apply key_cap, W0|nia|lia].
    + intros b0 W0. apply (key_lean V OK KYString), W0.
  - destruct x; try apply (BAD _ (S _)). destruct (has_null_prefix b).
    + destruct p; [|apply (NUL _ (S _))]. destruct t; try apply (NUL _ (S _)). apply (cap_call (layers (YPtr t) + (K + 4) * length b + 3)), cap_map, IHt, W.
    + apply (cap_call (layers t + (K + 4) * length b + 3)), cap_map, IHt, W.
  - destruct n as [|n]; [apply LF; apply cap_ret; cbn [d_rest]; lia|].
    destruct x; try apply BAD. destruct b as [|c b1].
    { apply LF. apply cap_in_err; [exact W|lia|lia]. }
    apply (cap_mono (S (2 + (K + 4) * length (c :: b1))) _ (4 * length (c :: b1))); [|lia|lia]. apply cap_call, (struct_cap _ _ (length b1)); [| |exact W|cbn [length]; lia|cbn [length]; nia].
    + intros k d E b0 x0 W0 L0. destruct (find_field V F (v_flds V i) k) as [f|] eqn:FF; [|discriminate]. injection E as <-. apply find_field_in in FF.
      pose proof (PF i f FF) as PK. apply (cap_mono (pointers (jf_path f) + (layers (jf_ty f) + (K + 4) * length b1 + 3)) _ (4 * length b0)); [|cbn [length]; nia|lia].
      apply (path_cap _ _ _ (length b1)); [|exact W0|exact L0]. intros b2 x2 W2 L2. unfold decode_field_m. pose proof (ok_quot V OK i f FF) as Q.
      destruct (jf_quot f); [eapply cap_mono; [apply ST, W2|nia|lia]| |].
      * eapply cap_mono; [apply (from_string_cap _ 3); [|exact W2]|nia|lia]. intros v Wv. apply quotable_cap; [apply Q; discriminate|exact Wv].
      * eapply cap_mono; [apply (from_int_cap _ _ 3); [lia| |exact W2]|nia|lia]. intros v Wv. apply quotable_cap; [apply Q; discriminate|exact Wv].
    + intros k d E b0 x0 W0. destruct (find_field V F (v_flds V i) k) as [f|] eqn:FF; [|discriminate]. injection E as <-. apply find_field_in in FF.
      apply (field_shorter i); assumption.
  - destruct x; try apply BAD; apply LF, type_error_leaf, W.
Qed.
Lemma ty_cap n : forall t b x, wf b -> cap (most t (length b)) (4 * length b) (dec_ty_m V F n t b x).
Proof. induction n as [|n IH]; apply ty_cap_step; [exact I|exact IH]. Qed.
(** Depth and time of Unmarshal. *)
Lemma unmarshal_use t b x : wf b ->
  (1 <= calls (snd (unmarshal_m V F t b x)) <= most t (length b))%nat /\
  steps (snd (unmarshal_m V F t b x)) <= 205 * (len b + 1) * Z.of_nat (calls (snd (unmarshal_m V F t b x))).
Proof.
  intros W. unfold unmarshal_m, unmarshal_with_m, parse_with_m. rewrite !calls_bind, !steps_bind, !skip_calls, !skip_steps, !fst_bind, !fst_skip.
  cbn [ret fst snd steps calls]. pose proof (suf_skip b) as SF. pose proof (suf_wf _ _ SF W) as W1. pose proof (suf_len _ _ SF) as L1. set (b1 := skip_spaces b) in *. clearbody b1.
  unfold decode_m. set (n := S (length b1)). clearbody n. destruct (ty_cap n t b1 x W1) as [C R]. destruct (ty_frug V F OK n t b1 x W1) as (SH & C1 & H).
  pose proof (skip_spaces_le (d_rest (fst (dec_ty_m V F n t b1 x)))) as L2. set (m := dec_ty_m V F n t b1 x) in *. clearbody m. unfold low, most in *.
  assert (U : usd b1 (fst m) <= len b + 1) by (unfold usd, len; destruct (d_err (fst m)); lia). assert (U0 := usd_pos _ _ SH).
  unfold most. unfold len in *. split; [nia|]. set (q := Z.of_nat (Nat.max _ _)). assert (Q : q = Z.of_nat (calls (snd m))) by (subst q; lia). rewrite Q. clear q Q.
  assert (200 * usd b1 (fst m) * Z.of_nat (calls (snd m)) <= 200 * (Z.of_nat (length b) + 1) * Z.of_nat (calls (snd m))) by nia. nia.
Qed.
End Typed.
