(** C23, C24, C37: the Decoder on streams. *)
From Verif Require Import Bytes AsciiModel ParseModel IntModel DecModel StreamModel SpecJson SpecDec SpecStream ParseFacts DecFacts PropsDec StreamFacts.

(** C23: what successive calls return, the bytes Buffered returns and the
    InputOffset after each call depend only on the bytes the reader delivers and
    on its final error, not on how it cuts them. *)
Theorem C23_chunking_independent : forall r1 r2 s e k, wf s -> delivers r1 s e -> delivers r2 s e ->
  reads k (new_decoder r1) = reads k (new_decoder r2).
Proof.
  intros r1 r2 s e k W D1 D2. apply reads_same; [|apply (new_same r1 r2 s e); auto].
  split; [constructor|]. cbn. destruct D1 as (_ & -> & _). exact W.
Qed.
Print Assumptions C23_chunking_independent.

(** C23: no call loops forever or runs out of the model's fuel. *)
Theorem C23_terminates : forall r s e k, wf s -> delivers r s e -> e <> EFuel ->
  Forall (fun x => fst x <> inr EFuel) (reads k (new_decoder r)).
Proof. intros r s e k W D N. apply (reads_nofuel k _ s e N). apply new_at; assumption. Qed.
Print Assumptions C23_terminates.

(** C23: the values of the stream are returned in order, whatever the chunks;
    then the reader's final error, forever.  Partial: a stream longer than the
    first buffer must consist of splittable values, see the refutations. *)
Theorem C23_values_partial : forall r s vs e k, wf s -> delivers r s e -> stream s vs [] -> readable s vs ->
  map fst (reads (length vs + k) (new_decoder r)) = map (fun va => inl (fst va)) vs ++ repeat (inr (end_error e)) k.
Proof.
  intros r s vs e k W D S K. destruct (stream_go s vs [] S (new_decoder r) e (new_at r s e W D)) as (d' & A & _ & _ & R & _).
  { destruct K as [K|K]; [right; eapply wholly_new; eassumption|left; exact K]. }
  rewrite R. f_equal. apply (end_reads k d' []); auto.
Qed.
Print Assumptions C23_values_partial.

(** C23: values followed by something that does not start with a JSON value:
    the values, then an error, always the same. *)
Theorem C23_malformed_partial : forall r s vs c tl e k, wf s -> delivers r s e -> stream s vs (c :: tl) -> readable s vs ->
  ~ ws [c] -> (forall v a t, c :: tl = v ++ t -> ~ jvalue v a) ->
  exists x, (x = ESyntax \/ x = EUnexpectedEOF /\ end_error e = EOF \/ x = e /\ end_error e <> EOF) /\
  map fst (reads (length vs + k) (new_decoder r)) = map (fun va => inl (fst va)) vs ++ repeat (inr x) k.
Proof.
  intros r s vs c tl e k W D S K NW NV. destruct (stream_go s vs (c :: tl) S (new_decoder r) e (new_at r s e W D)) as (d' & A & WH & _ & R & _).
  { destruct K as [K|K]; [right; eapply wholly_new; eassumption|left; exact K]. }
  assert (NS : nsp (c :: tl)).
  { cbn. destruct (is_space c) eqn:EC; [|reflexivity]. destruct NW. apply Forall_cons; [apply is_space_iff, EC|apply Forall_nil]. }
  pose proof (stream_wf_tl s vs (c :: tl) S W) as WT.
  destruct (bad_reads k d' (c :: tl) (c :: tl) e A (skip_spaces_nsp _ NS) ltac:(discriminate)) as (x & HX & RX).
  { intros p q E PN v t EP. rewrite E in WT. apply wf_app in WT as [WP _]. apply parseValue_sound in EP; [|exact WP]. destruct EP as (-> & a & J).
    rewrite <- app_assoc in E. exact (NV v a _ E J). }
  exists x. split; [|rewrite R, RX; reflexivity]. destruct HX as [->|[-> _]]; [|auto]. right. unfold last_error.
  destruct e; cbn; auto; right; split; auto; discriminate.
Qed.
Print Assumptions C23_malformed_partial.

(** C23: a stream that ends in the middle of a value: the values before it, then
    io.ErrUnexpectedEOF, forever. *)
Theorem C23_truncated_partial : forall r s vs p q a k, wf s -> delivers r s EOF -> stream s vs p -> readable s vs ->
  jvalue (p ++ q) a -> p <> [] -> q <> [] -> splittable a ->
  map fst (reads (length vs + k) (new_decoder r)) = map (fun va => inl (fst va)) vs ++ repeat (inr EUnexpectedEOF) k.
Proof.
  intros r s vs p q a k W D S K V PN QN [Kn Kr]. destruct (stream_go s vs p S (new_decoder r) EOF (new_at r s EOF W D)) as (d' & A & WH & _ & R & _).
  { destruct K as [K|K]; [right; eapply wholly_new; eassumption|left; exact K]. }
  assert (NS : nsp p).
  { destruct (jvalue_head _ _ V) as (c & t & E & Hc). destruct p as [|c' p]; [congruence|]. injection E as -> _. cbn. apply vhead_nsp, Hc. }
  pose proof (stream_wf_tl s vs p S W) as WP.
  assert (I : forall p1 p2, p = p1 ++ p2 -> inc (parseValue p1)).
  { intros p1 p2 E. assert (W1 : wf p1) by (rewrite E in WP; apply wf_app in WP; apply WP).
    destruct (proj1 inc_all _ a V Kr p1 (p2 ++ q) (2 * length (p ++ q) + 1 + 2 * length p1)%nat) as [I|(IN & _)].
    - rewrite E, <- app_assoc. reflexivity.
    - intros Z. apply app_eq_nil in Z as [_ Z]. contradiction.
    - lia.
    - rewrite parse_value_fuel in I; [exact I|exact W1|lia].
    - destruct IN as (x & IN). destruct (Kn x IN). }
  destruct (bad_reads k d' p p EOF A (skip_spaces_nsp _ NS) PN) as (x & HX & RX).
  { intros p1 p2 E _ v t EP. destruct (I p1 p2 E) as [e EI]. congruence. }
  rewrite R, RX. destruct HX as [->|(_ & p1 & p2 & E & _ & N)]; [reflexivity|]. elim N. eapply I, E.
Qed.
Print Assumptions C23_truncated_partial.

(** C23: Decode into targets of any type: each call parses exactly one value of
    the stream into its target; an error in one value does not disturb the
    others. *)
Theorem C23_decode_partial : forall A (dec : bytes -> A -> dres A) curs r s vs e, wf s -> delivers r s e -> stream s vs [] -> readable s vs ->
  length curs = length vs ->
  decodes dec curs (new_decoder r) = map (fun vc => let x := parse_with dec (fst (fst vc)) (snd vc) in (d_err x, d_val x)) (combine vs curs).
Proof.
  intros B dec curs r s vs e W D S K L. destruct (stream_go s vs [] S (new_decoder r) e (new_at r s e W D)) as (d' & _ & _ & _ & _ & H).
  { destruct K as [K|K]; [right; eapply wholly_new; eassumption|left; exact K]. }
  rewrite <- (app_nil_r curs). rewrite (H B dec curs [] L). cbn [decodes]. rewrite !app_nil_r. reflexivity.
Qed.
Print Assumptions C23_decode_partial.

(** C23: into interface{}: the successive Decodes give the values that the
    values of the stream denote. *)
Theorem C23_decode_interface_partial : forall pf curs r s vs e, wf s -> delivers r s e -> stream s vs [] -> readable s vs -> length curs = length vs ->
  (forall v a n, In (v, a) vs -> number_in n a -> pf n <> None) ->
  Forall2 (fun va x => fst x = None /\ denotes (as_float pf) (snd va) (snd x)) vs (decodes (decode_interface false pf) curs (new_decoder r)).
Proof.
  intros pf curs r s vs e W D S K L NI. rewrite (C23_decode_partial _ _ curs r s vs e W D S K L).
  assert (JV : Forall (fun va => jvalue (fst va) (snd va)) vs) by (clear -S; induction S; constructor; auto).
  clear S K D. revert curs L NI. induction JV as [|[v a] vs V JV IH]; intros curs L NI; [constructor|].
  destruct curs as [|cur curs]; [discriminate|]. injection L as L. cbn [combine map]. constructor; [|apply IH; [exact L|intros; eapply NI; [right|]; eassumption]].
  cbn [fst snd] in *. assert (J : jtext v a).
  { exists [], v, []. rewrite app_nil_r. repeat split; auto; constructor. }
  destruct (C03_unmarshal_interface pf v a cur J) as (x & E & DN); [intros n; apply (NI v a n); left; reflexivity|].
  unfold unmarshal_with in E. cbv zeta in *. set (y := parse_with (decode_interface false pf) v cur) in *.
  clearbody y. injection E as E1 E2. rewrite E2. split; [|exact DN]. destruct (d_rest y); [exact E1|discriminate].
Qed.
Print Assumptions C23_decode_interface_partial.

(** C24: as long as a value (or anything else that is not whitespace) follows in
    a stream that fits in the first buffer, InputOffset is the number of bytes of
    the stream before it, and Buffered is what follows. *)
Theorem C24_offset_partial : forall r s vs c tl e, wf s -> delivers r s e -> stream s vs (c :: tl) -> vs <> [] -> ~ ws [c] ->
  Z.of_nat (length s) <= minBufferSize ->
  let d := after (length vs) (new_decoder r) in
  input_offset d = Z.of_nat (length s) - Z.of_nat (length (c :: tl)) /\ buffered d = c :: tl.
Proof.
  intros r s vs c tl e W D S NE NW L.
  assert (NS : nsp (c :: tl)).
  { cbn. destruct (is_space c) eqn:EC; [|reflexivity]. destruct NW. apply Forall_cons; [apply is_space_iff, EC|apply Forall_nil]. }
  destruct (stream_off s vs (c :: tl) S ltac:(discriminate) NS (new_decoder r) e (new_at r s e W D)) as (O & _ & R & _); [eapply wholly_new; eassumption|exact NE|].
  cbv zeta. unfold input_offset, buffered. split; [|exact R]. rewrite O. unfold phi. cbn [dc_offset dc_remain new_decoder dc_reader].
  destruct D as (_ & -> & _). cbn [length]. lia.
Qed.
Print Assumptions C24_offset_partial.

(** C24: after the last value InputOffset is the end of that value: the
    whitespace that follows is not counted. *)
Theorem C24_last_value_partial : forall r s vs v a w e, wf s -> delivers r s e -> stream s vs (v ++ w) -> jvalue v a -> ws w ->
  Z.of_nat (length s) <= minBufferSize ->
  let d := after (length vs + 1) (new_decoder r) in
  input_offset d = Z.of_nat (length s) - Z.of_nat (length w) /\ buffered d = [].
Proof.
  intros r s vs v a w e W D S V WW L. cbv zeta. rewrite after_app. set (d0 := after (length vs) (new_decoder r)).
  assert (X : at_ d0 (v ++ w) e /\ wholly d0 /\ phi d0 = Z.of_nat (length s)).
  { pose proof (new_at r s e W D) as A. pose proof (wholly_new r s e D L) as WH.
    assert (P0 : phi (new_decoder r) = Z.of_nat (length s)) by (unfold phi; destruct D as (_ & U & _); cbn; rewrite U; lia).
    destruct (jvalue_head _ _ V) as (c & t & Ev & Hc). destruct vs as [|va vs].
    - subst d0. cbn [length after]. inversion S as [w0 tl0 W0 E0|]; subst. split; [|auto]. eapply at_cong; [exact A|]. apply skip_spaces_ws, W0.
    - destruct (stream_off s _ (v ++ w) S) with (d := new_decoder r) (fin := e) as (O & P & R & U & A'); auto; try discriminate; [rewrite Ev; discriminate|rewrite Ev; cbn; apply vhead_nsp, Hc|].
      split; [exact A'|]. split; [left; exact U|]. rewrite <- P0. exact P. }
  destruct X as (A & WH & P). assert (NE : number_lit v -> num_end w).
  { intros _. destruct WW as [|c w Hc]; [exact I|]. cbn. destruct Hc as [->|[->|[->| ->]]]; lia. }
  destruct (readValue_value d0 [] v a w e A ltac:(constructor) V NE (or_intror WH)) as (d1 & E1 & A1 & W1).
  assert (Y := step_exact _ d0 [] v a w e _ A ltac:(constructor) V NE WH E1 ltac:(discriminate)). cbn [snd] in Y.
  cbn [after]. rewrite E1. cbn [snd]. rewrite (skip_spaces_all w WW) in Y. unfold input_offset, buffered. split; [lia|].
  rewrite (at_remain _ _ _ A1 (W1 WH)). apply skip_spaces_all, WW.
Qed.
Print Assumptions C24_last_value_partial.

(** C24: in any case InputOffset is at least the total length of the values
    read, and at most the position of what follows. *)
Theorem C24_bounds_partial : forall r s vs tl e, wf s -> delivers r s e -> stream s vs tl -> readable s vs ->
  let d := after (length vs) (new_decoder r) in
  Z.of_nat (length (concat (map fst vs))) <= input_offset d <= Z.of_nat (length s) - Z.of_nat (length (buffered d ++ unread (dc_reader d))).
Proof.
  intros r s vs tl e W D S K. pose proof (new_at r s e W D) as A.
  destruct (stream_bounds s vs tl S (new_decoder r) e A) as [B1 B2].
  { destruct K as [K|K]; [right; eapply wholly_new; eassumption|left; exact K]. }
  cbv zeta. unfold input_offset, buffered. unfold phi in B2 at 2. destruct D as (_ & U & _). cbn [new_decoder dc_offset dc_remain dc_reader length] in *. rewrite U in B2.
  unfold phi in B2. rewrite app_length. lia.
Qed.
Print Assumptions C24_bounds_partial.

(** C37: nothing is lost: after the values, what Buffered returns followed by
    what the reader still delivers is the rest of the stream, up to whitespace
    at its front. *)
Theorem C37_buffered_partial : forall r s vs tl e, wf s -> delivers r s e -> stream s vs tl -> readable s vs ->
  let d := after (length vs) (new_decoder r) in
  exists w1 w2 t, ws w1 /\ ws w2 /\ buffered d ++ unread (dc_reader d) = w1 ++ t /\ tl = w2 ++ t.
Proof.
  intros r s vs tl e W D S K. destruct (stream_go s vs tl S (new_decoder r) e (new_at r s e W D)) as (d' & A & _ & E & _).
  { destruct K as [K|K]; [right; eapply wholly_new; eassumption|left; exact K]. }
  cbv zeta. rewrite <- E. destruct A as [_ _ _ _ _ _ P]. unfold buffered.
  destruct (skip_spaces_split (dc_remain d' ++ unread (dc_reader d'))) as (w1 & W1 & E1 & _).
  destruct (skip_spaces_split tl) as (w2 & W2 & E2 & _). rewrite P in E1. exists w1, w2, (skip_spaces tl). auto.
Qed.
Print Assumptions C37_buffered_partial.

(** Refutations. *)
Definition plain_reader (s : bytes) : reader := Reader [(s, None)] EOF.
Lemma plain_delivers s : delivers (plain_reader s) s EOF.
Proof. repeat split; [repeat constructor|]. cbn. apply app_nil_r. Qed.
Definition results (k : nat) (r : reader) : list (bytes + err) := map fst (reads k (new_decoder r)).

Lemma num12 : number_lit (bs "12").
Proof.
  change (bs "12") with ([] ++ bs "12" ++ [] ++ []). apply number_intro; [auto| |constructor|constructor].
  change (bs "12") with (49 :: [50]). apply int_pos; [lia|]. apply Forall_cons; [unfold digit; lia|apply Forall_nil].
Qed.
(** C23: a number that the end of the first buffer cuts is read as two. *)
Theorem C23_number_boundary_refuted : exists s, stream s [(bs "12", JNum (bs "12"))] [] /\
  results 2 (plain_reader s) = [inl (bs "1"); inl (bs "2")].
Proof.
  exists (repeat 32 (Z.to_nat 32767) ++ bs "12" ++ []). split; [|vm_compute; reflexivity].
  apply st_value.
  - apply Forall_forall. intros x H. apply repeat_spec in H. auto.
  - constructor. exact num12.
  - intros _. exact I.
  - apply (st_end [] []). apply Forall_nil.
Qed.
Print Assumptions C23_number_boundary_refuted.

(** C23: a \u escape after an escaped quote, cut by the end of the first buffer,
    makes a valid string a syntax error. *)
Theorem C23_string_boundary_refuted : exists s, Valid s = true /\ results 1 (plain_reader s) = [inr ESyntax].
Proof. exists (repeat 32 (Z.to_nat 32762) ++ [34; 92; 34; 92; 117; 48; 48; 52; 49; 34]). vm_compute. auto. Qed.
Print Assumptions C23_string_boundary_refuted.

(** C23: an error that a reader returns together with data, and not again, is
    lost: the stream is cut or goes on as if nothing had happened. *)
Theorem C23_error_with_data_refuted :
  results 3 (Reader [(bs "1 ", Some EReader); (bs "2", None)] EOF) = [inl (bs "1"); inl (bs "2"); inr EOF].
Proof. vm_compute. reflexivity. Qed.
Print Assumptions C23_error_with_data_refuted.

(** C24: trailing whitespace is not counted. *)
Theorem C24_trailing_whitespace_refuted :
  map (fun x => snd (snd x)) (reads 3 (new_decoder (plain_reader [49; 32; 50; 32; 10]))) = [2; 3; 3].
Proof. vm_compute. reflexivity. Qed.
Print Assumptions C24_trailing_whitespace_refuted.

(** C24: nor is whitespace that fills the first buffer. *)
Theorem C24_leading_whitespace_refuted : exists s,
  reads 1 (new_decoder (plain_reader (s ++ bs "true false"))) = [(inl (bs "true"), (bs "false", 5))] /\ length s = Z.to_nat minBufferSize.
Proof. exists (repeat 32 (Z.to_nat 32768)). split; [vm_compute; reflexivity|apply repeat_length]. Qed.
Print Assumptions C24_leading_whitespace_refuted.

(** Examples. *)
Definition ex_text : bytes := bs " {""a"":[1]} ""x"" 12 ".
Example ex_stream : stream ex_text
  [(bs "{""a"":[1]}", JObj [(bs """a""", JArr [JNum (bs "1")])]); (bs """x""", JStr (bs """x""")); (bs "12", JNum (bs "12"))] [].
Proof.
  assert (W : ws [32]) by (apply Forall_cons; [auto|apply Forall_nil]).
  assert (N0 : ws []) by constructor.
  change ex_text with ([32] ++ bs "{""a"":[1]}" ++ ([32] ++ bs """x""" ++ ([32] ++ bs "12" ++ ([32] ++ [])))).
  assert (S : forall c, 32 <= c < 256 -> c <> 34 -> c <> 92 -> string_lit [34; c; 34]).
  { intros c H1 H2 H3. exists [c]. split; [reflexivity|]. apply sb_char; [exact H1|exact H2|exact H3|apply sb_nil]. }
  assert (I1 : number_lit (bs "1")).
  { change (bs "1") with ([] ++ bs "1" ++ [] ++ []). apply number_intro; [auto| |constructor|constructor].
    change (bs "1") with (49 :: []). apply int_pos; [lia|apply Forall_nil]. }
  apply st_value; [exact W| | |apply st_value; [exact W| | |apply st_value; [exact W| | |apply st_end; exact W]]].
  - change (bs "{""a"":[1]}") with (123 :: ([] ++ bs """a""" ++ [] ++ 58 :: [] ++ (91 :: ([] ++ bs "1" ++ []) ++ [93]) ++ []) ++ [125]).
    apply V_obj, M_one, M_intro; auto; [apply (S 97); lia|]. apply V_arr, E_one; auto. apply V_num. exact I1.
  - intros _. cbn. lia.
  - apply V_str, (S 120); lia.
  - intros _. cbn. lia.
  - apply V_num. exact num12.
  - intros _. cbn. lia.
Qed.
Example ex_delivers : delivers (Reader [(bs " {""a", None); ([], None); (bs """:[1]} ""x", None); (bs """ 12 ", Some EOF)] EOF) ex_text EOF.
Proof. repeat split. repeat constructor. Qed.
Example ex_results : results 5 (Reader [(bs " {""a", None); ([], None); (bs """:[1]} ""x", None); (bs """ 12 ", Some EOF)] EOF)
  = [inl (bs "{""a"":[1]}"); inl (bs """x"""); inl (bs "12"); inr EOF; inr EOF].
Proof. vm_compute. reflexivity. Qed.
Example ex_truncated : results 3 (plain_reader (bs "true [1,{""a"": ")) = [inl (bs "true"); inr EUnexpectedEOF; inr EUnexpectedEOF].
Proof. vm_compute. reflexivity. Qed.
Example ex_malformed : results 3 (plain_reader (bs "true [1 2]")) = [inl (bs "true"); inr ESyntax; inr ESyntax].
Proof. vm_compute. reflexivity. Qed.
(** A value larger than the first buffer: the lengths of the results. *)
Example ex_large : map (fun x => match x with inl b => Z.of_nat (length b) | inr _ => -1 end)
  (results 3 (plain_reader (34 :: repeat 97 (Z.to_nat 40001) ++ [34; 32; 91; 93]))) = [40003; 2; -1].
Proof. vm_compute. reflexivity. Qed.
