(** Theorems about what decoded values share with the input: C57. *)
From Verif Require Import Bytes AsciiModel Utf8Model ParseModel IntModel StringModel EncModel DecModel
  StreamModel TypeModel AliasModel BufModel SpecAlias TypeFacts AliasFacts AliasKeep AliasMain BufFacts PropsType.

(** C57: without the DontCopy flags the decoded value never changes afterwards:
    whatever bytes [now] the caller later stores in the memory of the input, the
    value is the one that was decoded. *)
Theorem C57_independent V F C t b x now : copies C -> owned x ->
  (fst (a_unmarshal V F C t b x), look now (snd (a_unmarshal V F C t b x))) = unmarshal V F t b (value x).
Proof.
  intros HC HX. rewrite <- (unmarshal_value_same V F C t b x). f_equal. unfold look, value. apply walk_ext with (P := fun a => a_place a = None).
  - intros a A. unfold read. rewrite A. reflexivity.
  - unfold a_unmarshal, unmarshal_with, parse_with, a_decode. cbv zeta. cbn [d_err d_rest d_val].
    pose proof (dec_owned V F C (S (length (skip_spaces b))) t (Some (length b)) (skip_spaces b) x HC HX) as H.
    destruct (a_dec _ _ _ _ _ _ _ _) as [r [e|] y]; cbn [d_err d_rest d_val] in *; [exact H|]. destruct (skip_spaces r); exact H.
Qed.
Print Assumptions C57_independent.
(** C57: the flags do not change what is decoded: while the input is as it was,
    the value is the same with any flags. *)
Theorem C57_same_value V F C t b x : env_ok V -> wf b -> owned x ->
  (fst (a_unmarshal V F C t b x), look b (snd (a_unmarshal V F C t b x))) = unmarshal V F t b (value x).
Proof.
  intros OK W HX. rewrite <- (unmarshal_value_same V F C t b x). f_equal. unfold look, value. apply walk_ext with (P := fun a => read b a = a_text a).
  - intros a A. exact A.
  - assert (HX2 : every (fun a => read b a = a_text a) x).
    { clear - HX. revert x HX. unfold owned. assert (RD : forall a, a_place a = None -> read b a = a_text a) by (intros a A; unfold read; rewrite A; reflexivity).
      assert (JV : forall v, every_jv (fun a => a_place a = None) v -> every_jv (fun a => read b a = a_text a) v).
      { fix go 2. intros v H. destruct H; constructor; auto.
        - induction H; constructor; auto.
        - induction H as [|[k v] m [H1 H2] _ IH]; constructor; auto. }
      fix go 2. intros x H. destruct H; constructor; auto.
      - induction H; constructor; auto.
      - induction H; constructor; auto.
      - induction H as [|[k v] m [H1 H2] _ IH]; constructor; auto. split; [|apply go, H2]. destruct k; cbn in *; auto. }
    unfold a_unmarshal, unmarshal_with, parse_with, a_decode. cbv zeta. cbn [d_err d_rest d_val].
    assert (HB : here b (Some (length b)) (skip_spaces b)).
    { destruct (ParseFacts.skip_spaces_split b) as (w & _ & E & _). apply (here_tail _ _ w). rewrite <- E. split; [exact W|]. intros e [= <-]. exists [], []. rewrite app_nil_r. split; reflexivity. }
    pose proof (dec_same V F C b (S (length (skip_spaces b))) t (Some (length b)) (skip_spaces b) x OK HB HX2) as H.
    destruct (a_dec _ _ _ _ _ _ _ _) as [r [e|] y]; cbn [d_err d_rest d_val] in *; [exact H|]. destruct (skip_spaces r); exact H.
Qed.
Print Assumptions C57_same_value.

Definition no_flags : cflags := CFlags false false false.
(** ZeroCopy: json.go:103-105 *)
Definition zero_copy : cflags := CFlags true true true.
Definition ex_azero : amem := a_zero ex_env (YStruct 0).
Lemma a_zero_owned V t : owned (a_zero V t).
Proof. apply a_zero_every. reflexivity. Qed.
Lemma owned_ex : owned ex_azero.
Proof. apply a_zero_owned. Qed.
Example C57_example : copies no_flags /\ owned ex_azero /\ value ex_azero = ex_zero /\ env_ok ex_env /\ wf ex_text /\
  look (map (fun c => if (97 <=? c) && (c <=? 122) then 122 else c) ex_text) (snd (a_unmarshal ex_env ex_flags no_flags (YStruct 0) ex_text ex_azero)) = ex_result /\
  look ex_text (snd (a_unmarshal ex_env ex_flags zero_copy (YStruct 0) ex_text ex_azero)) = ex_result /\
  (exists y, snd (a_unmarshal ex_env ex_flags zero_copy (YStruct 0) ex_text ex_azero) = y /\ ~ owned y).
Proof.
  split; [repeat split|]. split; [apply owned_ex|]. split; [reflexivity|]. split; [apply ex_env_ok|]. split; [apply C41_example|].
  split; [vm_compute; reflexivity|]. split; [vm_compute; reflexivity|]. eexists. split; [reflexivity|].
  intros H. assert (E := walk_ext (fun a => a_place a = None) (read (repeat 120 (length ex_text))) a_text). specialize (E ltac:(intros a A; unfold read; rewrite A; reflexivity) _ H). vm_compute in E. discriminate.
Qed.

(** With DontCopyString, DontCopyNumber or DontCopyRawMessage the value can change
    with the input: a string, a number and a message (here of a map's keys and
    values) follow what is stored there later. *)
Theorem C57_shared_refuted :
  ~ (forall V F C t b x now, env_ok V -> wf b -> wf now -> length now = length b -> owned x -> look now (snd (a_unmarshal V F C t b x)) = look b (snd (a_unmarshal V F C t b x))).
Proof.
  intros H. specialize (H ex_env ex_flags (CFlags true false false) YString (bs """ab""") (AStr (AS [] None)) (bs """xy""") ex_env_ok).
  assert (E : look (bs """xy""") (snd (a_unmarshal ex_env ex_flags (CFlags true false false) YString (bs """ab""") (AStr (AS [] None)))) = look (bs """ab""") (snd (a_unmarshal ex_env ex_flags (CFlags true false false) YString (bs """ab""") (AStr (AS [] None))))).
  { apply H; [repeat constructor; unfold is_byte; lia|repeat constructor; unfold is_byte; lia|reflexivity|constructor; reflexivity]. }
  vm_compute in E. discriminate.
Qed.
Print Assumptions C57_shared_refuted.
(** the same for a Number, a RawMessage and the keys of a map *)
Example C57_shared_number : look (bs "99") (snd (a_unmarshal ex_env ex_flags (CFlags false true false) YNumber (bs "12") (AStr (AS [] None)))) = MStr (bs "99").
Proof. vm_compute. reflexivity. Qed.
Example C57_shared_message : look (bs "[3]") (snd (a_unmarshal ex_env ex_flags (CFlags false false true) YRaw (bs "[1]") (ARaw None))) = MRaw (Some (bs "[3]")).
Proof. vm_compute. reflexivity. Qed.
Example C57_shared_key : look (bs "{""b"":1}") (snd (a_unmarshal ex_env ex_flags (CFlags true false false) YMapSI (bs "{""a"":1}") (AMap None))) = MMap (Some [(MKStr (bs "b"), MIface (JVFloat (FFin false [49] 1)))]).
Proof. vm_compute. reflexivity. Qed.
(** a string with escapes is always a copy *)
Example C57_escaped_copied : look (bs """xxxx""") (snd (a_unmarshal ex_env ex_flags zero_copy YString (bs """a\tb""") (AStr (AS [] None)))) = MStr [97; 9; 98].
Proof. vm_compute. reflexivity. Qed.

(** C57, for a Decoder: the value that one Decode has stored does not change with
    the calls of Decode that follow, although they overwrite the buffer; the
    value is that of StreamModel.v, which has no buffers. *)
Theorem C57_stream V F C t r before cur after : copies C -> owned cur ->
  let s := b_decodes V F C before (b_new r) in
  let '(e, y, s1) := b_decode V F C t s cur in
  let s2 := b_decodes V F C after s1 in
  (e, look (buffer (length (b_old s1)) s2) y, b_dec s1) = decode_next (decode V F t) (b_dec s) (value cur).
Proof.
  intros HC HX s. pose proof (decode_erase V F C t s cur) as E. assert (OY : owned (snd (fst (b_decode V F C t s cur)))).
  { unfold b_decode. destruct (b_read_value _ _) as [[[v stop]|e] s']; [|exact HX]. cbn [fst snd]. unfold a_parse, parse_with, a_decode. cbv zeta. cbn [d_val]. apply dec_owned; assumption. }
  destruct (b_decode V F C t s cur) as [[e y] s1]. cbn [fst snd] in OY. cbv zeta. rewrite <- E. f_equal. f_equal. unfold look, value.
  apply walk_ext with (P := fun a => a_place a = None); [|exact OY]. intros a A. unfold read. rewrite A. reflexivity.
Qed.
Print Assumptions C57_stream.
(** With any flags, the value is right until the next call of Decode. *)
Theorem C57_stream_now V F C t r before cur : env_ok V -> Forall (fun c => wf (fst c)) (r_chunks r) -> owned cur ->
  let s := b_decodes V F C before (b_new r) in
  let '(e, y, s1) := b_decode V F C t s cur in
  (e, look (buffer (length (b_old s1)) s1) y, b_dec s1) = decode_next (decode V F t) (b_dec s) (value cur).
Proof.
  intros OK HR HX s. pose proof (decode_erase V F C t s cur) as E. assert (BO : buf_ok s) by (apply decodes_ok, new_ok, HR).
  assert (OY : every (fun a => read (b_buf (snd (b_decode V F C t s cur))) a = a_text a) (snd (fst (b_decode V F C t s cur)))).
  { assert (HX2 : forall buf, every (fun a => read buf a = a_text a) cur).
    { intros buf. clear - HX. revert cur HX. unfold owned. assert (RD : forall a, a_place a = None -> read buf a = a_text a) by (intros a A; unfold read; rewrite A; reflexivity).
      assert (JV : forall v, every_jv (fun a => a_place a = None) v -> every_jv (fun a => read buf a = a_text a) v).
      { fix go 2. intros v H. destruct H; constructor; auto.
        - induction H; constructor; auto.
        - induction H as [|[k v] m [H1 H2] _ IH]; constructor; auto. }
      fix go 2. intros x H. destruct H; constructor; auto.
      - induction H; constructor; auto.
      - induction H; constructor; auto.
      - induction H as [|[k v] m [H1 H2] _ IH]; constructor; auto. split; [|apply go, H2]. destruct k; cbn in *; auto. }
    unfold b_decode. destruct (read_ok (length (unread (dc_reader (b_dec s))) + 3) s BO) as [(v & stop & s' & -> & _ & HB & _)|(e & s' & -> & _)]; cbn [fst snd]; [|apply HX2].
    unfold a_parse, parse_with, a_decode. cbv zeta. cbn [d_val]. apply dec_same; [exact OK| |apply HX2].
    destruct (ParseFacts.skip_spaces_split v) as (w & _ & EV & _). apply (here_tail _ _ w). rewrite <- EV. exact HB. }
  destruct (b_decode V F C t s cur) as [[e y] s1]. cbn [fst snd] in OY. rewrite <- E. f_equal. f_equal. unfold look, value. rewrite buffer_now.
  apply walk_ext with (P := fun a => read (b_buf s1) a = a_text a); [|exact OY]. intros a A. exact A.
Qed.
Print Assumptions C57_stream_now.

(** A stream that is longer than the buffer: *)
Definition ex_gap : bytes := repeat 32 (Z.to_nat 32762).
Definition ex_stream : bytes := bs """aaaa""" ++ ex_gap ++ bs """bbbb""".
Definition ex_reader : reader := Reader [(ex_stream, None)] EOF.
Lemma ex_reader_wf : Forall (fun c : bytes * option err => wf (fst c)) (r_chunks ex_reader).
Proof.
  constructor; [|constructor]. apply ParseFacts.wf_app. split; [repeat constructor; unfold is_byte; lia|]. apply ParseFacts.wf_app. split; [|repeat constructor; unfold is_byte; lia].
  unfold ex_gap. generalize (Z.to_nat 32762). intros n. apply Forall_forall. intros c HC. apply repeat_spec in HC. subst. unfold is_byte. lia.
Qed.
Definition str0 : amem := AStr (AS [] None).
Example C57_stream_example :
  let '(e, y, s1) := b_decode ex_env ex_flags no_flags YString (b_new ex_reader) str0 in
  let s2 := b_decodes ex_env ex_flags no_flags [(YString, str0)] s1 in
  e = None /\ look (buffer (length (b_old s1)) s2) y = MStr (bs "aaaa") /\ beqb (b_buf s1) (b_buf s2) = false.
Proof. vm_compute. repeat split; reflexivity. Qed.
(** With ZeroCopy the second Decode changes what the first one returned. *)
Theorem C57_zero_copy_stream_refuted :
  ~ (forall V F C t r before cur after, env_ok V -> Forall (fun c => wf (fst c)) (r_chunks r) -> owned cur ->
  let s := b_decodes V F C before (b_new r) in
  let '(e, y, s1) := b_decode V F C t s cur in
  let s2 := b_decodes V F C after s1 in
  look (buffer (length (b_old s1)) s2) y = look (buffer (length (b_old s1)) s1) y).
Proof.
  intros H. specialize (H ex_env ex_flags zero_copy YString ex_reader [] str0 [(YString, str0)] ex_env_ok).
  specialize (H ex_reader_wf ltac:(constructor; reflexivity)). cbv zeta in H.
  destruct (b_decode ex_env ex_flags zero_copy YString (b_decodes ex_env ex_flags zero_copy [] (b_new ex_reader)) str0) as [[e y] s1] eqn:E.
  assert (X : match b_decode ex_env ex_flags zero_copy YString (b_decodes ex_env ex_flags zero_copy [] (b_new ex_reader)) str0 with
     (_, y, s1) => look (buffer (length (b_old s1)) (b_decodes ex_env ex_flags zero_copy [(YString, str0)] s1)) y = MStr (bs "bbbb") /\ look (buffer (length (b_old s1)) s1) y = MStr (bs "aaaa") end)
    by (vm_compute; split; reflexivity).
  rewrite E in X. destruct X as [X1 X2]. rewrite X1, X2 in H. discriminate.
Qed.
Print Assumptions C57_zero_copy_stream_refuted.
