(** The two uses of AliasKeep.v: nothing is shared without the flags; what is
    shared has the bytes of the input. *)
From Verif Require Import Bytes AsciiModel Utf8Model ParseModel IntModel StringModel EncModel DecModel SpecJson SpecString SpecDec ParseFacts Utf8Facts StringFacts DecFacts
  StreamModel TypeModel SpecType NodeFacts AliasModel BufModel SpecAlias TypeFacts TypeSound AliasFacts AliasKeep.

(** * Values whose strings are read alike *)
Lemma walk_jv_ext (P : astr -> Prop) f g : (forall a, P a -> f a = g a) -> forall v, every_jv P v -> walk_jv f v = walk_jv g v.
Proof.
  intros H. fix go 2. intros v E. destruct E; cbn [walk_jv]; try reflexivity; try (f_equal; apply H; assumption).
  - f_equal. induction H0; cbn [map]; [reflexivity|]. f_equal; [apply go; assumption|assumption].
  - f_equal. induction H0 as [|[k x] m [H1 H2] _ IH]; cbn [map]; [reflexivity|]. f_equal; [|exact IH]. f_equal; [apply H, H1|apply go, H2].
Qed.
Lemma walk_ext (P : astr -> Prop) f g : (forall a, P a -> f a = g a) -> forall m, every P m -> walk f m = walk g m.
Proof.
  intros H. fix go 2. intros m E. destruct E; cbn [walk option_map]; try reflexivity; try (f_equal; apply H; assumption).
  - f_equal. f_equal. apply H. assumption.
  - f_equal. eapply walk_jv_ext; eassumption.
  - f_equal. induction H0; cbn [map]; [reflexivity|]. f_equal; [apply go; assumption|assumption].
  - do 3 f_equal. induction H0; cbn [map]; [reflexivity|]. f_equal; [apply go; assumption|assumption].
  - do 2 f_equal. induction H0 as [|[k x] m [H1 H2] _ IH]; cbn [map]; [reflexivity|]. f_equal; [|exact IH]. f_equal; [|apply go, H2].
    destruct k; cbn [walk_key]; try reflexivity. f_equal. apply H, H1.
  - do 2 f_equal. apply go, E.
Qed.

Section Main.
Context (V : tenv) (F : dflags) (C : cflags).

(** * Without the flags *)
Lemma dec_owned n t at_ b x : copies C -> owned x -> owned (d_val (a_dec V F C n t at_ b x)).
Proof.
  intros (H1 & H2 & H3) HX. unfold owned in *.
  apply (a_dec_kept V F C (fun a => a_place a = None) (fun _ _ => True)); auto; intros; unfold share; rewrite ?H1, ?H2, ?H3; auto.
Qed.

(** * With any flags, while the input is as it was *)
Definition here (buf : bytes) (at_ : option nat) (b : bytes) : Prop :=
  wf b /\ forall e, at_ = Some e -> exists p q, buf = p ++ b ++ q /\ (length p + length b = e)%nat.
Lemma here_tail buf at_ p r : here buf at_ (p ++ r) -> here buf at_ r.
Proof.
  intros [W H]. apply wf_app in W as [_ W]. split; [exact W|]. intros e E. destruct (H e E) as (p1 & q & -> & L). exists (p1 ++ p), q.
  rewrite <- !app_assoc. split; [reflexivity|]. rewrite !app_length in *. lia.
Qed.
Lemma here_part buf at_ p v r : here buf at_ (p ++ v ++ r) -> here buf (stop_at at_ (length r)) v.
Proof.
  intros [W H]. apply wf_app in W as [_ W]. apply wf_app in W as [W _]. split; [exact W|]. intros e E. destruct at_ as [e0|]; [|discriminate]. cbn in E. injection E as <-.
  destruct (H e0 eq_refl) as (p1 & q & -> & L). exists (p1 ++ p), (r ++ q). rewrite <- !app_assoc. split; [reflexivity|]. rewrite !app_length in *. lia.
Qed.
Lemma here_share buf on at_ p v r : here buf at_ (p ++ v ++ r) -> read buf (share on at_ (length r) v) = v.
Proof.
  intros [_ H]. unfold read, share. cbn [a_place a_text]. destruct on; [|reflexivity]. destruct at_ as [e|]; [|reflexivity]. cbn [option_map].
  destruct (H e eq_refl) as (p1 & q & -> & L). rewrite !app_length in L.
  replace (p1 ++ (p ++ v ++ r) ++ q) with ((p1 ++ p) ++ v ++ r ++ q) by (rewrite <- !app_assoc; reflexivity).
  rewrite skipn_app_len by (rewrite app_length; lia). apply firstn_app_len. reflexivity.
Qed.
Lemma unquote_inv b s r i : wf b -> parse_string_unquote b [] = QOk s r i -> wf s /\ exists lit, b = lit ++ r /\ (i = false -> lit = 34 :: s ++ [34]).
Proof.
  intros W E. destruct (unquote_cases b W) as [(lit & r0 & i0 & SL & -> & Q)|(r0 & Q)]; rewrite Q in E; [|discriminate].
  injection E as <- <- <-. split; [apply str_text_wf, SL|]. exists lit. split; [reflexivity|]. intros ->.
  unfold parse_string_unquote in Q. destruct (parse_string_fast (lit ++ r0)) as [v r' esc|] eqn:PF; [|discriminate].
  destruct (parse_string_fast_sound _ _ _ _ W PF) as (body & EV & EB & _ & _).
  destruct esc; cbn [negb] in Q; [destruct (unquote_loop _ _ _); discriminate|]. injection Q as Q1 Q2. subst r'.
  apply app_inv_tail in EB. subst lit. rewrite <- Q1. subst v. cbn [skipn length]. rewrite app_length. cbn [length].
  replace (S (length body + 1) - 2)%nat with (length body) by lia. rewrite firstn_app_len by reflexivity. reflexivity.
Qed.
Lemma wf_drop v : wf v -> wf (drop_zeroes v).
Proof.
  induction v as [|c v IH]; intros W; [exact W|]. cbn [drop_zeroes]. destruct v as [|d v]; [exact W|]. destruct ((c =? 48) && is_digit d); [|exact W]. apply IH. apply wf_cons in W. apply W.
Qed.
Lemma wf_strip v : wf v -> wf (strip_zeroes v).
Proof.
  intros W. unfold strip_zeroes. destruct (has_leading_zeroes v); [|exact W]. destruct v as [|c v]; [exact W|]. destruct ((c =? 45) || (c =? 43)); [|apply wf_drop, W].
  apply wf_cons in W as [W1 W2]. apply wf_cons. split; [exact W1|apply wf_drop, W2].
Qed.
Lemma reads_suffix {A} (D : bytes -> A -> dres A) b x : reads D b x -> d_err (D b x) = None -> exists p, b = p ++ d_rest (D b x).
Proof. unfold reads. intros H E. rewrite E in H. destruct H as (nd & _ & H). eauto. Qed.
Lemma leaf_suffix A D b x : env_ok V -> leaf_dec V A D -> wf b -> d_err (D b x) = None -> exists p, b = p ++ d_rest (D b x).
Proof.
  intros OK L W E. destruct L.
  - apply reads_suffix; [apply bool_reads|]; assumption.
  - apply reads_suffix; [apply int_reads|]; assumption.
  - apply reads_suffix; [apply float_reads|]; assumption.
  - pose proof (bytes_takes V True b x W) as T. unfold takes in T. rewrite E in T. destruct T as (_ & _ & T). destruct (T I) as (w0 & s & a & w1 & _ & _ & _ & EB).
    exists (w0 ++ s ++ w1). rewrite <- !app_assoc. exact EB.
  - apply reads_suffix; [apply duration_reads|]; assumption.
  - apply reads_suffix; [apply time_reads|]; assumption.
  - apply reads_suffix; [apply json_reads|]; assumption.
  - apply reads_suffix; [apply text_reads|]; assumption.
  - unfold decode_from_string in *. destruct (has_null_prefix b); [apply reads_suffix; [apply int_reads|]; assumption|].
    destruct (parse_string_unquote b []) as [s r i| | |] eqn:Q; try discriminate. destruct (unquote_inv _ _ _ _ W Q) as (_ & lit & EB & _). exists lit. rewrite EB at 1. f_equal.
    revert E. cbv zeta. destruct (decode_int t s x) as [u [e|] y]; cbn [d_err d_rest d_val]; [discriminate|]. destruct (skip_spaces u); [reflexivity|discriminate].
Qed.
Lemma dec_same buf n t at_ b x : env_ok V -> here buf at_ b -> every (fun a => read buf a = a_text a) x -> every (fun a => read buf a = a_text a) (d_val (a_dec V F C n t at_ b x)).
Proof.
  intros OK HB HX. apply (a_dec_kept V F C (fun a => read buf a = a_text a) (here buf)); try assumption; clear t n at_ b x HB HX.
  - reflexivity.
  - intros at_ b s [W _] (r & Q). destruct (unquote_inv _ _ _ _ W Q) as (WS & _). split; [exact WS|discriminate].
  - intros at_ b s [W _] (r & i & Q). destruct (unquote_inv _ _ _ _ W Q) as (WS & _). split; [apply wf_strip, WS|discriminate].
  - intros at_ b H. destruct (skip_spaces_split b) as (w & _ & E & _). rewrite E in H. eapply here_tail, H.
  - intros at_ c b H. apply (here_tail _ _ [c]), H.
  - intros at_ b H N. rewrite (null_read b N) in H. eapply here_tail, H.
  - intros at_ b v r H PV. destruct (parseValue_sound b v r (proj1 H) PV) as [-> _]. split; [eapply here_tail, H|]. split; [apply (here_part buf at_ [] v r), H|].
    apply (here_share buf _ at_ [] v r H).
  - intros at_ b v r H PN. destruct (parse_number_sound b v r PN) as [-> _]. split; [eapply here_tail, H|]. apply (here_share buf _ at_ [] v r H).
  - intros at_ b s r i H Q. destruct (unquote_inv _ _ _ _ (proj1 H) Q) as (WS & lit & -> & L). split; [eapply here_tail, H|]. intros ->. specialize (L eq_refl). subst lit.
    assert (H' : here buf at_ ([34] ++ s ++ 34 :: r)) by (cbn [app] in H |- *; rewrite <- app_assoc in H; exact H).
    change (S (length r)) with (length (34 :: r)). split; [eapply here_part, H'|]. eapply here_share, H'.
  - intros A D at_ b x L H E. destruct (leaf_suffix A D b x OK L (proj1 H) E) as (p & EB). rewrite EB in H. eapply here_tail, H.
Qed.

(** * Unmarshal and Parse *)
Lemma parse_value_same t stop b x : d_map value (a_parse V F C t stop b x) = parse V F t b (value x).
Proof.
  unfold a_parse, parse, parse_with, a_decode, decode, value. cbv zeta. rewrite <- (a_dec_value V F C _ t (Some stop)). reflexivity.
Qed.
Lemma unmarshal_value_same t b x : (fst (a_unmarshal V F C t b x), value (snd (a_unmarshal V F C t b x))) = unmarshal V F t b (value x).
Proof.
  unfold a_unmarshal, unmarshal, unmarshal_with. fold (a_parse V F C t (length b) b x). fold (parse V F t b (value x)). rewrite <- (parse_value_same t (length b)).
  destruct (a_parse V F C t (length b) b x) as [r [e|] y]; cbn [d_map d_err d_rest d_val]; [reflexivity|]. destruct r; reflexivity.
Qed.
End Main.
