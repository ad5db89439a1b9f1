(** C41 for all types: what Unmarshal and Parse accept, fixed-size arrays
    included, and that it is decoded like the JSON it is read as. *)
From Verif Require Import Bytes ParseModel IntModel StringModel EncModel DecModel SpecJson SpecString SpecDec ParseFacts IntFacts DecLoops DecFacts
  TypeModel SpecType SpecLoose NodeFacts TypeLoops TypeFacts TypeMain TypeSound LooseFacts PropsDec PropsType.

Lemma parse_mends V F t b x r y : env_ok V -> wf b -> parse V F t b x = DR r None y ->
  exists w1 s w2 v, b = w1 ++ s ++ w2 ++ r /\ ws w1 /\ ws w2 /\ spells V F t s v /\ jnode v /\ stores V F t v x y.
Proof.
  intros OK W E. unfold parse, parse_with, decode in E. cbv zeta in E. destruct (skip_read b W) as (w & Ww & Eb & Ws & Ls).
  pose proof (dec_ty_mends V F OK (S (length (skip_spaces b))) t (skip_spaces b) x Ws (skip_nsp b) ltac:(lia)) as M.
  destruct (dec_ty V F (S (length (skip_spaces b))) t (skip_spaces b) x) as [r0 o y0] eqn:ED. cbn [d_rest d_err d_val] in E. injection E as <- -> ->.
  destruct (M r0 y ED) as (w0 & s & w1 & v & A1 & A2 & A3 & A4 & A5 & A6).
  assert (Wr : wf r0) by (rewrite A3 in Ws; apply wf_app in Ws as [_ Ws]; apply wf_app in Ws as [_ Ws]; apply wf_app in Ws as [_ Ws]; exact Ws).
  destruct (skip_read r0 Wr) as (w2 & Ww2 & Er & _ & _). exists (w ++ w0), s, (w1 ++ w2), v. split; [rewrite Eb, A3, Er at 1; appn; reflexivity|].
  split; [auto using ws_app|]. split; [auto using ws_app|]. auto.
Qed.

(** Whatever the type: the input of a successful Unmarshal is, but for white
    space, a spelling (SpecLoose.v) of a JSON value; the target is changed as
    SpecType.v says for that value; and Unmarshal of the value's proper text
    does the same. *)
Theorem C41_spelled V F t b x y : env_ok V -> wf b -> unmarshal V F t b x = (None, y) ->
  exists w1 s w2 v, b = w1 ++ s ++ w2 /\ ws w1 /\ ws w2 /\ spells V F t s v /\ jnode v /\ stores V F t v x y /\ unmarshal V F t (ntext v) x = (None, y).
Proof.
  intros OK W E. unfold unmarshal, unmarshal_with in E. cbv zeta in E. fold (parse V F t b x) in E.
  destruct (parse V F t b x) as [[|c r] o z] eqn:EP; cbn [d_rest d_err d_val] in *; [|discriminate]. injection E as -> ->.
  destruct (parse_mends V F t b x [] y OK W EP) as (w1 & s & w2 & v & A1 & A2 & A3 & A4 & A5 & A6). exists w1, s, w2, v.
  rewrite app_nil_r in A1. repeat (split; [assumption|]).
  pose proof (proj2 (C42_accepts_iff V F t [] v [] x y OK (Forall_nil _) A5 (Forall_nil _)) A6) as U. cbn [app] in U. rewrite app_nil_r in U. exact U.
Qed.
Theorem C41_spelled_parse V F t b x r y : env_ok V -> wf b -> parse V F t b x = DR r None y ->
  exists w1 s w2 v, b = w1 ++ s ++ w2 ++ r /\ ws w1 /\ ws w2 /\ spells V F t s v /\ jnode v /\ stores V F t v x y /\ unmarshal V F t (ntext v) x = (None, y).
Proof.
  intros OK W EP. destruct (parse_mends V F t b x r y OK W EP) as (w1 & s & w2 & v & A1 & A2 & A3 & A4 & A5 & A6). exists w1, s, w2, v.
  repeat (split; [assumption|]).
  pose proof (proj2 (C42_accepts_iff V F t [] v [] x y OK (Forall_nil _) A5 (Forall_nil _)) A6) as U. cbn [app] in U. rewrite app_nil_r in U. exact U.
Qed.

(** What the spellings are: nothing but JSON where no fixed-size array is
    decoded, and nothing but properly separated elements in an array with room
    for them. *)
Lemma selems_json (S : bytes -> node -> Prop) N t l : (forall s v, (length s <= N)%nat -> S s v -> jvalue s (erase v)) -> selems S t l -> (length t <= N)%nat -> jelems t (map erase l).
Proof.
  intros HS. induction 1 as [w1 s v w2 W1 H W2|w1 s v w2 t l W1 H W2 SE IH]; intros L; repeat (rewrite ?app_length in L; cbn [length] in L); cbn [map].
  - apply E_one; [exact W1|apply HS; [lia|exact H]|exact W2].
  - apply E_cons; [exact W1|apply HS; [lia|exact H]|exact W2|apply IH; lia].
Qed.
Lemma smembers_json (S : bytes -> bytes -> node -> Prop) N t l : (forall k s v, (length s <= N)%nat -> S k s v -> jvalue s (erase v)) -> smembers S t l -> (length t <= N)%nat ->
  jmembers t (map (fun kv => match kv with (k, v) => (k, erase v) end) l).
Proof.
  intros HS. induction 1 as [w1 k w2 w3 s v w4 W1 SL W2 W3 H W4|w1 k w2 w3 s v w4 t l W1 SL W2 W3 H W4 SE IH]; intros L; repeat (rewrite ?app_length in L; cbn [length] in L); cbn [map].
  - apply M_one, M_intro; try assumption. apply (HS k); [lia|exact H].
  - replace (w1 ++ k ++ w2 ++ 58 :: w3 ++ s ++ w4 ++ 44 :: t) with ((w1 ++ k ++ w2 ++ 58 :: w3 ++ s ++ w4) ++ 44 :: t) by (appn; reflexivity).
    apply M_cons; [apply M_intro; try assumption; apply (HS k); [lia|exact H]|apply IH; lia].
Qed.
Theorem C41_strict V F t s v : no_arrays V t -> spells V F t s v -> jvalue s (erase v).
Proof.
  intros [FT FF]. remember (length s) as n eqn:En. revert t FT s v En. induction n as [n IH] using lt_wf_ind.
  assert (IH' : forall t s v m, flat t -> (m < n)%nat -> (length s <= m)%nat -> spells V F t s v -> jvalue s (erase v)).
  { intros t s v m FT L1 L2 H. apply (IH (length s) ltac:(lia) t FT s v eq_refl H). }
  intros t FT s v En H. revert FT En. induction H as [t v J|k e s l u RM J|e s l u SE J|k e s l u SM J|i s l u SM J|e s v H IHt]; intros FT En.
  - apply jnode_jvalue, J.
  - destruct FT.
  - cbn [erase]. cbn [length] in En. rewrite app_length in En. cbn [length] in En. apply V_arr, (selems_json (spells V F e) (length s)); [|exact SE|lia].
    intros s' v' L' H'. apply (IH' e s' v' (length s)); [exact FT|lia|exact L'|exact H'].
  - cbn [erase]. cbn [length] in En. rewrite app_length in En. cbn [length] in En. apply V_obj, (smembers_json (fun _ => spells V F e) (length s)); [|exact SM|lia].
    intros k' s' v' L' H'. apply (IH' e s' v' (length s)); [exact FT|lia|exact L'|exact H'].
  - cbn [erase]. cbn [length] in En. rewrite app_length in En. cbn [length] in En. apply V_obj, (smembers_json (spells_member V F i) (length s)); [|exact SM|lia].
    intros k' s' v' L' H'. destruct H' as [i k' v' J'|i k' key f s' v' K PK Q H']; [apply jnode_jvalue, J'|].
    apply (IH' (jf_ty f) s' v' (length s)); [|lia|exact L'|exact H'].
    assert (IN : In f (v_flds V i)) by (inversion PK as [l1 f' l2 E _ _|l1 f' l2 _ _ E _ _|]; rewrite E; apply in_or_app; right; left; reflexivity).
    exact (FF i f IN).
  - exact (IHt FT En).
Qed.
Theorem C41_enough_room (S : bytes -> node -> Prop) k s l : room S k true s l -> (0 < length l <= k)%nat -> selems S s l.
Proof.
  assert (T : forall k s l w1 s0 v, ws w1 -> S s0 v -> room S k false s l -> (length l <= k)%nat -> selems S (w1 ++ s0 ++ s) (v :: l)).
  { clear. induction k as [|k IH]; intros s l w1 s0 v W1 H RM L.
    - destruct l; [|cbn in L; lia]. inversion RM; subst. constructor; assumption.
    - inversion RM as [k' f' w W E|k' w2 s2 v2 t l2 W2 H2 RM2|k' w2 w3 s2 v2 t l2 W2 W3 H2 RM2|first w2 v2 t l2 W2 J2 RM2|first w2 w3 v2 t l2 W2 W3 J2 RM2]; subst.
      + constructor; assumption.
      + cbn [length] in L. apply se_cons; try assumption. apply IH; try assumption. lia. }
  intros RM L. inversion RM as [k' f' w W E|k' w2 s2 v2 t l2 W2 H2 RM2|k' w2 w3 s2 v2 t l2 W2 W3 H2 RM2|first w2 v2 t l2 W2 J2 RM2|first w2 w3 v2 t l2 W2 W3 J2 RM2]; subst; cbn [length] in L; try lia.
  apply (T k' t l2 w2 s2 v2); try assumption. lia.
Qed.

(** The malformed text [1 2] is accepted by [0]bool and [1]int8 as [1,2] is. *)
Example C41_spelled_example : exists w1 s w2 v y, bs " [1 2,null]" = w1 ++ s ++ w2 /\ ws w1 /\ ws w2 /\ spells ex_env ex_flags (YArray 1 (YInt TInt8)) s v /\ jnode v /\
  unmarshal ex_env ex_flags (YArray 1 (YInt TInt8)) (bs " [1 2,null]") (MList [MInt 7]) = (None, y) /\ unmarshal ex_env ex_flags (YArray 1 (YInt TInt8)) (ntext v) (MList [MInt 7]) = (None, y) /\
  y = MList [MInt 1] /\ Valid (bs " [1 2,null]") = false.
Proof.
  assert (U : unmarshal ex_env ex_flags (YArray 1 (YInt TInt8)) (bs " [1 2,null]") (MList [MInt 7]) = (None, MList [MInt 1])) by (vm_compute; reflexivity).
  assert (W : wf (bs " [1 2,null]")) by (repeat constructor; unfold is_byte; cbn; lia).
  destruct (C41_spelled _ _ _ _ _ _ ex_env_ok W U) as (w1 & s & w2 & v & A1 & A2 & A3 & A4 & A5 & A6 & A7).
  exists w1, s, w2, v, (MList [MInt 1]). repeat (split; [assumption|]). split; [reflexivity|vm_compute; reflexivity].
Qed.
Example C41_room_example : room strict 1 true (bs "1 2") [ND (bs "1") HNum; ND (bs "2") HNum] /\ ~ exists a, jvalue (bs "[1 2]") a.
Proof.
  assert (N : forall c, 49 <= c <= 57 -> number_lit [c]) by (intros c H; apply (number_intro [] [c] [] []); [left; reflexivity|constructor; [lia|constructor]|constructor|constructor]).
  split.
  - apply (ro_first strict 0 [] (bs "1") (ND (bs "1") HNum) (bs " 2")); [constructor|reflexivity|].
    apply (ro_extra strict false (bs " ") (ND (bs "2") HNum) [] []); [apply Forall_cons; [left; reflexivity|apply Forall_nil]|apply (N_num [50]), N; lia|]. apply ro_end; [constructor|discriminate].
  - intros (a & J). pose proof (parseValue_complete (bs "[1 2]") a [] J I) as P. vm_compute in P. discriminate.
Qed.
Print Assumptions C41_spelled.
Print Assumptions C41_spelled_parse.
Print Assumptions C41_strict.
Print Assumptions C41_enough_room.
