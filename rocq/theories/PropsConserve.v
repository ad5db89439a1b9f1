(** C24, C37: the Decoder loses and invents no input, whatever the reader. *)
From Verif Require Import Bytes AsciiModel Utf8Model ParseModel IntModel StreamModel SpecJson SpecStream SpecConserve AsciiFacts ParseFacts StreamFacts PropsStream.

Lemma read_chunks_keeps l : forall n fin, let '(b, _, l') := read_chunks n l fin in concat (map fst l) = b ++ concat (map fst l').
Proof.
  induction l as [|[ch e] l IH]; intros [|n] fin; cbn [read_chunks]; try reflexivity.
  destruct (Nat.ltb (length ch) (S n)).
  - destruct e as [e|]; [reflexivity|]. specialize (IH (S n - length ch)%nat fin). destruct (read_chunks _ l fin) as [[b e2] l2].
    cbn [map fst concat]. rewrite IH, app_assoc. reflexivity.
  - destruct (Nat.eqb _ _); [reflexivity|]. cbn [map fst concat]. rewrite app_assoc, firstn_skipn. reflexivity.
Qed.
Definition hold (d : decoder) : bytes := dc_remain d ++ unread (dc_reader d).
Lemma hold_fill d : exists w, ws w /\ hold d = w ++ hold (fill d) /\
  dc_offset d <= dc_offset (fill d) <= dc_offset d + Z.of_nat (length w) /\ (buffered (fill d) <> [] -> dc_offset (fill d) = dc_offset d + Z.of_nat (length w)).
Proof.
  unfold fill, hold, read_full. cbv zeta. match goal with |- context [read_chunks ?n ?l ?f] => pose proof (read_chunks_keeps l n f) as K; destruct (read_chunks n l f) as [[b e] l'] end.
  cbn [r_chunks r_final]. pose proof (skip_n (dc_remain d ++ b)) as SN. destruct (skip_spaces_split (dc_remain d ++ b)) as (w & W & E & _).
  unfold skip_spaces in E, SN. destruct (skip_spaces_n (dc_remain d ++ b)) as [rem n]. cbn [fst snd] in *. exists w. split; [exact W|].
  cbn [dc_remain dc_reader dc_offset]. unfold unread in *. rewrite K. cbn [r_chunks buffered dc_remain].
  rewrite app_assoc, E, <- app_assoc. split; [reflexivity|].
  destruct rem as [|x rem]; [subst n; split; [lia|congruence]|].
  assert (n = length w) as -> by (rewrite SN, E, app_length; lia). split; [lia|reflexivity].
Qed.
Lemma hold_try d v d' : wf (dc_remain d) -> try_value d = RValue v d' -> exists a w, jvalue v a /\ ws w /\ hold d = v ++ w ++ hold d' /\
  dc_offset d + Z.of_nat (length v) <= dc_offset d' <= dc_offset d + Z.of_nat (length v) + Z.of_nat (length w) /\
  (buffered d' <> [] -> dc_offset d' = dc_offset d + Z.of_nat (length v) + Z.of_nat (length w)).
Proof.
  intros WF E. unfold try_value in E. destruct (dc_remain d) as [|c t] eqn:ER; [destruct (dc_err d); discriminate|].
  destruct (parseValue (c :: t)) as [v0 r|[|x r] e] eqn:EP; [|destruct (dc_err d); discriminate|discriminate].
  destruct (parseValue_sound _ _ _ WF EP) as (EB & a & J).
  pose proof (skip_n r) as SN. destruct (skip_spaces_split r) as (w & W & EW & _). unfold skip_spaces in EW, SN.
  destruct (skip_spaces_n r) as [rem n]. cbn [fst snd] in *. injection E as <- <-. exists a, w. split; [exact J|]. split; [exact W|].
  unfold hold. rewrite ER, EB. cbn [dc_remain dc_reader dc_offset buffered]. rewrite EW, <- !app_assoc. split; [reflexivity|].
  destruct rem as [|y rem]; [subst n; split; [lia|congruence]|].
  assert (n = length w) as -> by (rewrite SN, EW, app_length; lia). split; [lia|lia].
Qed.

Lemma wf_suffix p q : wf (p ++ q) -> wf q.
Proof. intros H. apply Forall_app in H. apply H. Qed.
(** One call: white space, then perhaps a value and white space, are taken. *)
Lemma hold_read k : forall d x d', wf (hold d) -> read_value k d = (x, d') ->
  match x with
  | inl v => exists w a w', ws w /\ jvalue v a /\ ws w' /\ hold d = w ++ v ++ w' ++ hold d' /\
      dc_offset d + Z.of_nat (length v) <= dc_offset d' <= dc_offset d + Z.of_nat (length w) + Z.of_nat (length v) + Z.of_nat (length w')
  | inr _ => exists w, ws w /\ hold d = w ++ hold d' /\ dc_offset d <= dc_offset d' <= dc_offset d + Z.of_nat (length w)
  end.
Proof.
  induction k as [|k IH]; intros d x d' WF E; cbn [read_value] in E.
  - injection E as <- <-. exists []. split; [constructor|]. split; [reflexivity|cbn; lia].
  - destruct (try_value d) as [v d1|e d1|] eqn:T.
    + injection E as <- <-. destruct (hold_try d v d1) as (a & w & J & W & H & O & _); [apply Forall_app in WF; apply WF|exact T|].
      exists [], a, w. split; [constructor|]. split; [exact J|]. split; [exact W|]. split; [exact H|]. cbn [length]. lia.
    + apply try_err in T as ->. injection E as <- <-. exists []. split; [constructor|]. split; [reflexivity|cbn; lia].
    + destruct (hold_fill d) as (w0 & W0 & H0 & O0 & _). apply IH in E; [|rewrite H0 in WF; eapply wf_suffix, WF]. destruct x as [v|e].
      * destruct E as (w & a & w' & W & J & W' & H & O). exists (w0 ++ w), a, w'. split; [apply Forall_app; auto|]. split; [exact J|]. split; [exact W'|].
        split; [rewrite H0, H, <- app_assoc; reflexivity|]. rewrite app_length. lia.
      * destruct E as (w & W & H & O). exists (w0 ++ w). split; [apply Forall_app; auto|]. split; [rewrite H0, H, <- app_assoc; reflexivity|]. rewrite app_length. lia.
Qed.
Lemma cut_ws w s vs r : ws w -> cut s vs r -> cut (w ++ s) vs r.
Proof.
  intros W C. destruct C as [w0 r W0|w0 v a s vs r W0 J C]; rewrite app_assoc.
  - apply cut_end, Forall_app. auto.
  - eapply cut_value; [apply Forall_app; auto|exact J|exact C].
Qed.
Lemma cut_tail s vs w r : ws w -> cut s vs (w ++ r) -> cut s vs r.
Proof.
  intros W C. remember (w ++ r) as t eqn:E. revert E. induction C as [w0 r0 W0|w0 v a s vs r0 W0 J C IH]; intros ->.
  - rewrite app_assoc. apply cut_end, Forall_app. auto.
  - eapply cut_value; eauto.
Qed.
Lemma hold_reads k : forall d, wf (hold d) -> cut (hold d) (got (reads k d)) (hold (after k d)) /\
  dc_offset d + Z.of_nat (length (concat (got (reads k d)))) <= dc_offset (after k d) <= dc_offset d + Z.of_nat (length (hold d)) - Z.of_nat (length (hold (after k d))).
Proof.
  induction k as [|k IH]; intros d WF; cbn [reads after].
  - split; [apply (cut_end []); constructor|cbn; lia].
  - destruct (readValue d) as [x d'] eqn:E. cbn [snd got flat_map fst]. fold (got (reads k d')). pose proof (hold_read _ d x d' WF E) as H. destruct x as [v|e].
    + destruct H as (w & a & w' & W & J & W' & H & O). rewrite H in *.
      destruct (IH d') as [C B]; [do 3 apply wf_suffix in WF; exact WF|]. cbn [app concat]. split.
      * eapply cut_value; [exact W|exact J|]. apply cut_ws; assumption.
      * rewrite !app_length in *. lia.
    + destruct H as (w & W & H & O). rewrite H in *. destruct (IH d') as [C B]; [apply wf_suffix in WF; exact WF|]. cbn [app]. split; [apply cut_ws; assumption|].
      rewrite app_length in *. lia.
Qed.

(** C37: whatever the reader delivers, in whatever pieces and with whatever
    errors in between, and however many calls of Decode were made: the bytes of
    the stream are the values returned, in order, white space around them, and
    then what Buffered returns and what the reader still holds. *)
Theorem C37_conserved : forall r k, wf (unread r) -> cut (unread r) (got (reads k (new_decoder r))) (left_over (after k (new_decoder r))).
Proof. intros r k W. exact (proj1 (hold_reads k (new_decoder r) W)). Qed.
Print Assumptions C37_conserved.

(** C24: InputOffset lies between the total length of the values returned and
    the place in the stream where what is left begins, for every reader. *)
Theorem C24_bounds : forall r k, wf (unread r) ->
  let d := after k (new_decoder r) in
  Z.of_nat (length (concat (got (reads k (new_decoder r))))) <= input_offset d <= Z.of_nat (length (unread r)) - Z.of_nat (length (left_over d)).
Proof. intros r k W. pose proof (proj2 (hold_reads k (new_decoder r) W)) as H. cbn [new_decoder dc_offset] in H. change (hold (new_decoder r)) with (unread r) in H. exact H. Qed.
Print Assumptions C24_bounds.

(** The reader breaks off in the middle and goes on later; the
    error is dropped (C23), nothing is lost. *)
Example C37_case :
  let r := Reader [(bs " [1", None); (bs ",2] tr", Some EReader); (bs "ue", None); (bs "  3", Some EOF); (bs "x", None)] EOF in
  got (reads 3 (new_decoder r)) = [bs "[1,2]"; bs "true"; bs "3"] /\ left_over (after 3 (new_decoder r)) = bs "x" /\ wf (unread r).
Proof. vm_compute. split; [reflexivity|]. split; [reflexivity|]. repeat constructor; discriminate. Qed.
