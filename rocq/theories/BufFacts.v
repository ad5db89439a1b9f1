(** The buffers of BufModel.v: dec.remain is a part of the current one. *)
From Verif Require Import Bytes AsciiModel ParseModel IntModel DecModel SpecJson ParseFacts
  StreamModel TypeModel AliasModel BufModel SpecAlias AliasMain.

Definition reader_ok (r : reader) : Prop := Forall (fun c => wf (fst c)) (r_chunks r).
Definition buf_ok (s : bdec) : Prop :=
  (exists p q, b_buf s = p ++ dc_remain (b_dec s) ++ q /\ (length p + length (dc_remain (b_dec s)) = b_len s)%nat) /\
  dc_cap (b_dec s) = Z.of_nat (length (b_buf s)) /\ wf (dc_remain (b_dec s)) /\ reader_ok (dc_reader (b_dec s)).
Lemma new_ok r : reader_ok r -> buf_ok (b_new r).
Proof. intros H. split; [exists [], []; split; reflexivity|]. split; [reflexivity|]. split; [constructor|exact H]. Qed.

Lemma read_chunks_ok final l : Forall (fun c => wf (fst c)) l -> forall n, let '(b, _, l') := read_chunks n l final in (length b <= n)%nat /\ wf b /\ Forall (fun c => wf (fst c)) l'.
Proof.
  induction 1 as [|[ch e] l H HL IH]; intros n; (destruct n as [|n]; [split; [cbn; lia|]; split; [constructor|]; auto|]); cbn [read_chunks].
  - split; [cbn; lia|]. split; constructor.
  - cbn [fst] in H. destruct (Nat.ltb_spec (length ch) (S n)) as [L|L].
    + destruct e as [e|]; [split; [lia|]; split; assumption|]. specialize (IH (S n - length ch)%nat). destruct (read_chunks _ _ _) as [[b e2] l2].
      destruct IH as (I1 & I2 & I3). split; [rewrite app_length; lia|]. split; [apply wf_app; split; assumption|exact I3].
    + destruct (Nat.eqb_spec (length ch) (S n)) as [L2|L2].
      * split; [lia|]. split; assumption.
      * split; [rewrite firstn_length; lia|]. split; [apply wf_firstn, H|]. constructor; [apply wf_skipn, H|exact HL].
Qed.
Lemma read_full_ok n r : reader_ok r -> let '(b, _, r') := read_full n r in (length b <= n)%nat /\ wf b /\ reader_ok r'.
Proof.
  intros H. unfold read_full. pose proof (read_chunks_ok (r_final r) _ H n) as R. destruct (read_chunks _ _ _) as [[b e] l]. exact R.
Qed.
Lemma skip_n_suffix b : exists w, b = w ++ fst (skip_spaces_n b).
Proof. destruct (skip_spaces_split b) as (w & _ & E & _). exists w. exact E. Qed.
Lemma write_length off x buf : (off + length x <= length buf)%nat -> length (write_at off x buf) = length buf.
Proof. intros H. unfold write_at. rewrite !app_length, firstn_length, skipn_length. lia. Qed.
Lemma write_front x buf : (length x <= length buf)%nat -> exists q, write_at 0 x buf = x ++ q.
Proof. intros _. unfold write_at. cbn [firstn app]. eauto. Qed.
Lemma fill_ok s : buf_ok s -> buf_ok (b_fill s).
Proof.
  intros ((p & q & EB & EL) & EC & W & R). unfold b_fill. set (rem := dc_remain (b_dec s)) in *. set (cap0 := dc_cap (b_dec s)) in *.
  unfold fill. fold rem. fold cap0.
  set (cap1 := if cap0 =? 0 then minBufferSize else cap0) in *. set (grown := cap1 - Z.of_nat (length rem) <? minReadSize) in *.
  set (cap2 := if grown then 2 * cap1 else cap1) in *. set (buf1 := if cap0 =? 0 then repeat 0 (Z.to_nat minBufferSize) else write_at 0 rem (b_buf s)).
  assert (LR : (length rem <= length (b_buf s))%nat) by (rewrite EB, !app_length; lia).
  assert (L1 : cap1 = Z.of_nat (length buf1) /\ firstn (length rem) buf1 = rem /\ (length rem <= length buf1)%nat).
  { unfold cap1, buf1. destruct (Z.eqb_spec cap0 0) as [Z0|Z0].
    - assert (length rem = 0)%nat by lia. destruct rem; [|discriminate]. rewrite repeat_length. split; [reflexivity|]. split; [reflexivity|cbn; lia].
    - rewrite write_length by lia. split; [lia|]. split; [unfold write_at; cbn [firstn app]; apply firstn_app_len; reflexivity|lia]. }
  destruct L1 as (L1 & F1 & G1). clearbody buf1.
  set (buf2 := if grown then write_at 0 (firstn (length rem) buf1) (repeat 0 (Z.to_nat cap2)) else buf1).
  assert (L2 : cap2 = Z.of_nat (length buf2) /\ firstn (length rem) buf2 = rem /\ (length rem <= length buf2)%nat).
  { unfold buf2, cap2. destruct grown; [|auto]. rewrite F1. assert (LR2 : (length rem <= length (repeat 0%Z (Z.to_nat (2 * cap1))))%nat) by (rewrite repeat_length; lia).
    rewrite write_length by exact LR2. rewrite repeat_length. split; [lia|]. split; [unfold write_at; cbn [firstn app]; apply firstn_app_len; reflexivity|lia]. }
  destruct L2 as (L2 & F2 & G2). clearbody buf2 cap2. pose proof (read_full_ok (Z.to_nat (cap2 - Z.of_nat (length rem))) _ R) as RF.
  destruct (read_full _ _) as [[b e] r]. destruct RF as (B1 & B2 & B3).
  destruct (skip_n_suffix (rem ++ b)) as (w & EW). destruct (skip_spaces_n (rem ++ b)) as [rem' n]. cbn [fst] in EW.
  unfold buf_ok. cbn [b_dec b_buf b_len dc_remain dc_cap dc_reader]. split; [|split; [|split; [|exact B3]]].
  - unfold write_at. rewrite F2. exists w, (skipn (length rem + length b) buf2). split.
    + rewrite !app_assoc. f_equal. rewrite <- EW. reflexivity.
    + apply (f_equal (@length Z)) in EW. rewrite !app_length in EW. lia.
  - rewrite write_length; lia.
  - assert (W2 : wf (rem ++ b)) by (apply wf_app; auto). rewrite EW in W2. apply wf_app in W2. apply W2.
Qed.
(** A value that was read: where it is, and what is left *)
Lemma try_ok s v d' : buf_ok s -> try_value (b_dec s) = RValue v d' ->
  here (b_buf s) (Some (b_len s - length (dc_remain (b_dec s)) + length v)%nat) v /\ buf_ok (BDec d' (b_old s) (b_buf s) (b_len s)).
Proof.
  intros ((p & q & EB & EL) & EC & W & R) E. unfold try_value in E. set (rem := dc_remain (b_dec s)) in *.
  destruct rem as [|c rem'] eqn:ER; [destruct (dc_err (b_dec s)); discriminate|]. rewrite <- ER in *. clearbody rem.
  destruct (parseValue rem) as [v0 r|[|c0 r0] e0] eqn:PV; [|destruct (dc_err (b_dec s)); discriminate|discriminate].
  destruct (skip_n_suffix r) as (w & EW). destruct (skip_spaces_n r) as [rem2 n]. cbn [fst] in EW. injection E as <- <-.
  apply parseValue_sound in PV as [PV _]; [|exact W]. rewrite PV in W. apply wf_app in W as [W1 W2]. split.
  - split; [exact W1|]. intros e [= <-]. exists p, (r ++ q). split; [rewrite EB, PV, <- app_assoc; reflexivity|]. rewrite PV in *. rewrite app_length in *. lia.
  - unfold buf_ok. cbn [b_dec b_buf b_len dc_remain dc_cap dc_reader]. split; [|split; [exact EC|split; [|exact R]]].
    + exists (p ++ v0 ++ w), q. split; [rewrite EB, PV, EW, <- !app_assoc; reflexivity|]. rewrite PV, EW in EL. rewrite !app_length in *. lia.
    + rewrite EW in W2. apply wf_app in W2. apply W2.
Qed.
Lemma try_err s e d' : try_value (b_dec s) = RError e d' -> d' = b_dec s.
Proof.
  unfold try_value. destruct (dc_remain (b_dec s)); [destruct (dc_err (b_dec s)); [intros [= _ <-]; reflexivity|discriminate]|].
  destruct (parseValue _) as [v r|[|] e0]; [destruct (skip_spaces_n r); discriminate|destruct (dc_err (b_dec s)); [intros [= _ <-]; reflexivity|discriminate]|intros [= _ <-]; reflexivity].
Qed.
Lemma b_fill_dec s : b_dec (b_fill s) = fill (b_dec s).
Proof. unfold b_fill. cbv zeta. destruct (read_full _ _) as [[b e] r]. reflexivity. Qed.
Lemma read_ok k : forall s, buf_ok s ->
  (exists v stop s', b_read_value k s = (inl (v, stop), s') /\ read_value k (b_dec s) = (inl v, b_dec s') /\ here (b_buf s') (Some stop) v /\ buf_ok s') \/
  (exists e s', b_read_value k s = (inr e, s') /\ read_value k (b_dec s) = (inr e, b_dec s') /\ buf_ok s').
Proof.
  induction k as [|k IH]; intros s OK; cbn [b_read_value read_value]; [right; eauto 8|].
  destruct (try_value (b_dec s)) as [v d'|e d'|] eqn:E.
  - destruct (try_ok s v d' OK E). left. eexists _, _, _. split; [reflexivity|]. split; [reflexivity|]. split; assumption.
  - right. eexists _, _. split; [reflexivity|]. split; [reflexivity|]. apply try_err in E. subst d'. destruct s. exact OK.
  - rewrite <- b_fill_dec. apply IH, fill_ok, OK.
Qed.
(** The reads alone, whatever the content of the buffers *)
Lemma read_erase k : forall s, exists s' x, b_read_value k s = (x, s') /\ read_value k (b_dec s) = (match x with inl vs => inl (fst vs) | inr e => inr e end, b_dec s').
Proof.
  induction k as [|k IH]; intros s; cbn [b_read_value read_value]; [eexists _, _; split; reflexivity|].
  destruct (try_value (b_dec s)) as [v d'|e d'|] eqn:E; [eexists _, _; split; reflexivity|eexists _, _; split; reflexivity|]. rewrite <- b_fill_dec. apply IH.
Qed.

Section Dec.
Context (V : tenv) (F : dflags) (C : cflags).
Lemma decode_erase t s cur : let '(e, y, s') := b_decode V F C t s cur in (e, value y, b_dec s') = decode_next (decode V F t) (b_dec s) (value cur).
Proof.
  unfold b_decode, decode_next, readValue. destruct (read_erase (length (unread (dc_reader (b_dec s))) + 3) s) as (s' & x & -> & ->). destruct x as [[v stop]|e]; [|reflexivity].
  cbn [fst]. fold (parse V F t v (value cur)). rewrite <- (parse_value_same V F C t stop). reflexivity.
Qed.
Lemma decode_ok t s cur : buf_ok s -> buf_ok (snd (b_decode V F C t s cur)).
Proof.
  intros OK. unfold b_decode. destruct (read_ok (length (unread (dc_reader (b_dec s))) + 3) s OK) as [(v & stop & s' & -> & _ & _ & H)|(e & s' & -> & _ & H)]; exact H.
Qed.
Lemma decodes_ok l : forall s, buf_ok s -> buf_ok (b_decodes V F C l s).
Proof. induction l as [|[t cur] l IH]; intros s OK; [exact OK|]. cbn [b_decodes]. apply IH, decode_ok, OK. Qed.
End Dec.
Lemma buffer_now s : buffer (length (b_old s)) s = b_buf s.
Proof. unfold buffer. rewrite app_nth2, Nat.sub_diag by lia. reflexivity. Qed.
