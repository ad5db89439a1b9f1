(** Lemmas relating the Go UTF-8 contract (Utf8Model.v) to the specification
    of UTF-8 (SpecString.v). *)
From Verif Require Import Bytes Utf8Model ParseModel SpecJson SpecString ParseFacts.

Ltac euclid := Z.to_euclidean_division_equations; lia.

Lemma utf8_seq_scalar r e : utf8_seq r e -> scalar r.
Proof. intros H; inversion H; subst; unfold scalar in *; lia. Qed.
Lemma utf8_seq_len r e : utf8_seq r e -> (1 <= length e)%nat.
Proof. intros H; inversion H; subst; cbn [length]; lia. Qed.
Lemma utf8_seq_nonnil r e : utf8_seq r e -> e <> [].
Proof. intros H; inversion H; subst; discriminate. Qed.
Lemma utf8_seq_wf r e : utf8_seq r e -> wf e.
Proof.
  intros H; inversion H; subst; unfold scalar in *; repeat (apply Forall_cons; [unfold is_byte; lia|]); constructor.
Qed.

Ltac ifb := match goal with
  | |- context [if ?b then _ else _] => let E := fresh in destruct b eqn:E
  end.
Ltac bprop := repeat match goal with
  | H : (_ && _)%bool = true |- _ => apply andb_true_iff in H; destruct H
  | H : (_ && _)%bool = false |- _ => apply andb_false_iff in H
  | H : (_ || _)%bool = false |- _ => apply orb_false_iff in H; destruct H
  | H : (_ || _)%bool = true |- _ => apply orb_true_iff in H
  | H : negb _ = true |- _ => apply negb_true_iff in H
  | H : negb _ = false |- _ => apply negb_false_iff in H
  | H : (_ <? _) = true |- _ => apply Z.ltb_lt in H
  | H : (_ <? _) = false |- _ => apply Z.ltb_ge in H
  | H : (_ <=? _) = true |- _ => apply Z.leb_le in H
  | H : (_ <=? _) = false |- _ => apply Z.leb_gt in H
  | H : (_ =? _) = true |- _ => apply Z.eqb_eq in H
  | H : (_ =? _) = false |- _ => apply Z.eqb_neq in H
  | H : in_rng _ _ _ = true |- _ => unfold in_rng in H
  | H : in_rng _ _ _ = false |- _ => unfold in_rng in H
  | H : is_cont _ = true |- _ => unfold is_cont in H
  | H : is_cont _ = false |- _ => unfold is_cont in H
  end.

Lemma in_rng_iff lo hi c : in_rng lo hi c = true <-> lo <= c <= hi.
Proof. unfold in_rng. rewrite andb_true_iff, !Z.leb_le. lia. Qed.
Lemma in_rng_false lo hi c : in_rng lo hi c = false <-> ~ (lo <= c <= hi).
Proof. rewrite <- in_rng_iff. destruct (in_rng lo hi c); split; intros; try tauto; congruence. Qed.

(** Deciding one comparison with lia. *)
Ltac zdec := repeat match goal with
  | |- context [?a <? ?b] =>
      first [ replace (a <? b) with true by (symmetry; apply Z.ltb_lt; lia)
            | replace (a <? b) with false by (symmetry; apply Z.ltb_ge; lia) ]
  | |- context [?a =? ?b] =>
      first [ replace (a =? b) with true by (symmetry; apply Z.eqb_eq; lia)
            | replace (a =? b) with false by (symmetry; apply Z.eqb_neq; lia) ]
  | |- context [in_rng ?a ?b ?c] =>
      first [ replace (in_rng a b c) with true by (symmetry; apply in_rng_iff; lia)
            | replace (in_rng a b c) with false by (symmetry; apply in_rng_false; lia) ]
  end.

Lemma decode_rune_seq r e t : utf8_seq r e -> decode_rune (e ++ t) = (r, length e).
Proof.
  intros H; inversion H; subst; cbn [app decode_rune length].
  - zdec. reflexivity.
  - zdec. unfold is_cont. zdec. f_equal. lia.
  - unfold scalar in *. zdec. unfold is_cont.
    destruct (Z.eq_dec a 0); [subst a; zdec; cbn [andb]; f_equal; lia|].
    destruct (Z.eq_dec a 13); [subst a; zdec; cbn [andb]; f_equal; lia|].
    zdec. cbn [andb]. f_equal; lia.
  - zdec. unfold is_cont.
    destruct (Z.eq_dec a 0); [subst a; zdec; cbn [andb]; f_equal; lia|].
    destruct (Z.eq_dec a 4); [subst a; zdec; cbn [andb]; f_equal; lia|].
    zdec. cbn [andb]. f_equal; lia.
Qed.

Lemma encode_rune_seq r e : utf8_seq r e -> encode_rune r = e.
Proof.
  intros H. pose proof (utf8_seq_scalar _ _ H) as S0. unfold encode_rune, scalar in *.
  assert (E : (r <? 0) || (0x10FFFF <? r) || in_rng 0xD800 0xDFFF r = false).
  { zdec. reflexivity. }
  rewrite E. inversion H; subst; zdec; try reflexivity.
  - f_equal; [|f_equal]; euclid.
  - f_equal; [|f_equal; [|f_equal]]; euclid.
  - f_equal; [|f_equal; [|f_equal; [|f_equal]]]; euclid.
Qed.

Lemma encode_rune_utf8 r : scalar r -> utf8_seq r (encode_rune r).
Proof.
  intros S0. unfold encode_rune, scalar in *.
  assert (E : (r <? 0) || (0x10FFFF <? r) || in_rng 0xD800 0xDFFF r = false).
  { zdec. reflexivity. }
  rewrite E.
  destruct (r <? 0x80) eqn:A; bprop; [constructor; lia|].
  destruct (r <? 0x800) eqn:B; bprop.
  { pose proof (u8_2 (r / 64) (r mod 64)) as U.
    assert (r / 64 * 64 + r mod 64 = r) as X by euclid. rewrite X in U. apply U; euclid. }
  destruct (r <? 0x10000) eqn:C; bprop.
  { pose proof (u8_3 (r / 4096) ((r / 64) mod 64) (r mod 64)) as U.
    assert (r / 4096 * 4096 + (r / 64) mod 64 * 64 + r mod 64 = r) as X by euclid. rewrite X in U.
    apply U; [lia|euclid|euclid|unfold scalar; lia]. }
  pose proof (u8_4 (r / 262144) ((r / 4096) mod 64) ((r / 64) mod 64) (r mod 64)) as U.
  assert (r / 262144 * 262144 + (r / 4096) mod 64 * 4096 + (r / 64) mod 64 * 64 + r mod 64 = r) as X by euclid.
  rewrite X in U. apply U; [lia|euclid|euclid|euclid].
Qed.

Lemma encode_rune_bad r : ~ scalar r -> encode_rune r = encode_rune runeError.
Proof.
  intros N. unfold encode_rune.
  assert (E : (r <? 0) || (0x10FFFF <? r) || in_rng 0xD800 0xDFFF r = true).
  { unfold scalar in N. destruct (r <? 0) eqn:A; [reflexivity|]. destruct (0x10FFFF <? r) eqn:B; [reflexivity|].
    bprop. cbn [orb]. apply in_rng_iff. lia. }
  rewrite E. reflexivity.
Qed.

Lemma utf8_seq_det r e e' : utf8_seq r e -> utf8_seq r e' -> e = e'.
Proof. intros A B. apply encode_rune_seq in A. apply encode_rune_seq in B. congruence. Qed.
Lemma utf8_seq_prefix r e t r' e' t' : utf8_seq r e -> utf8_seq r' e' -> e ++ t = e' ++ t' -> r = r' /\ e = e' /\ t = t'.
Proof.
  intros A B E. pose proof (decode_rune_seq _ _ t A) as DA. pose proof (decode_rune_seq _ _ t' B) as DB.
  rewrite E in DA. rewrite DA in DB. injection DB as R L. subst r'.
  pose proof (utf8_seq_det _ _ _ A B). subst e'. split; [reflexivity|]. split; [reflexivity|].
  apply app_inv_head in E. exact E.
Qed.


(** The three-byte encoding of U+FFFD decodes to (runeError, 3), so width 1
    with runeError means that there is no sequence. *)
Lemma decode_rune_err_no_seq s : decode_rune s = (runeError, 1%nat) -> no_seq s.
Proof.
  intros D r e t U E. subst s. rewrite (decode_rune_seq _ _ t U) in D. injection D as R L. subst r.
  inversion U; subst; cbn [length] in L; try lia; unfold runeError in *; try lia.
Qed.

(** DecodeRune finds the UTF-8 sequence, or says there is none. *)
Lemma decode_rune_spec s : wf s -> s <> [] ->
  (exists r e t, s = e ++ t /\ utf8_seq r e /\ decode_rune s = (r, length e)) \/
  (no_seq s /\ decode_rune s = (runeError, 1%nat)).
Proof.
  intros W N.
  assert (K : (exists r e t, s = e ++ t /\ utf8_seq r e) \/ decode_rune s = (runeError, 1%nat)).
  { destruct s as [|b0 s1]; [congruence|]. apply wf_cons in W. destruct W as [W0 W1]. unfold is_byte in W0.
    cbn [decode_rune]. ifb.
    { left. bprop. exists b0, [b0], s1. split; [reflexivity|]. constructor. lia. }
    ifb.
    { destruct s1 as [|b1 s2]; [right; reflexivity|]. ifb; [|right; reflexivity].
      left. bprop. exists ((b0 - 0xC0) * 64 + (b1 - 0x80)), [b0; b1], s2. split; [reflexivity|].
      pose proof (u8_2 (b0 - 0xC0) (b1 - 0x80)) as U.
      replace (0xC0 + (b0 - 0xC0)) with b0 in U by lia. replace (0x80 + (b1 - 0x80)) with b1 in U by lia.
      apply U; lia. }
    ifb.
    { destruct s1 as [|b1 [|b2 s3]]; try (right; reflexivity). ifb; [|right; reflexivity].
      left. exists ((b0 - 0xE0) * 4096 + (b1 - 0x80) * 64 + (b2 - 0x80)), [b0; b1; b2], s3. split; [reflexivity|].
      pose proof (u8_3 (b0 - 0xE0) (b1 - 0x80) (b2 - 0x80)) as U.
      replace (0xE0 + (b0 - 0xE0)) with b0 in U by lia. replace (0x80 + (b1 - 0x80)) with b1 in U by lia.
      replace (0x80 + (b2 - 0x80)) with b2 in U by lia.
      destruct (b0 =? 0xE0) eqn:Q1; destruct (b0 =? 0xED) eqn:Q2; bprop; apply U; unfold scalar; lia. }
    ifb; [|right; reflexivity].
    destruct s1 as [|b1 [|b2 [|b3 s4]]]; try (right; reflexivity). ifb; [|right; reflexivity].
    left. exists ((b0 - 0xF0) * 262144 + (b1 - 0x80) * 4096 + (b2 - 0x80) * 64 + (b3 - 0x80)), [b0; b1; b2; b3], s4.
    split; [reflexivity|].
    pose proof (u8_4 (b0 - 0xF0) (b1 - 0x80) (b2 - 0x80) (b3 - 0x80)) as U.
    replace (0xF0 + (b0 - 0xF0)) with b0 in U by lia. replace (0x80 + (b1 - 0x80)) with b1 in U by lia.
    replace (0x80 + (b2 - 0x80)) with b2 in U by lia. replace (0x80 + (b3 - 0x80)) with b3 in U by lia.
    destruct (b0 =? 0xF0) eqn:Q1; destruct (b0 =? 0xF4) eqn:Q2; bprop; apply U; lia. }
  destruct K as [(r & e & t & E & U)|K].
  - left. exists r, e, t. split; [exact E|]. split; [exact U|]. rewrite E. apply decode_rune_seq. exact U.
  - right. split; [apply decode_rune_err_no_seq; exact K|exact K].
Qed.

(** A byte string cut before a byte that is not a continuation byte. *)
Definition ncont (t : bytes) : Prop := match t with c :: _ => c < 0x80 | [] => True end.

Lemma utf8_seq_tail r e : utf8_seq r e -> Forall (fun x => 0x80 <= x) (tl e).
Proof. intros H; destruct H; cbn [tl]; repeat (apply Forall_cons; [lia|]); apply Forall_nil. Qed.

Lemma no_seq_app p t : p <> [] -> ncont t -> no_seq p -> no_seq (p ++ t).
Proof.
  intros N C H r e t' U E.
  destruct e as [|c e']; [apply (utf8_seq_nonnil _ _ U); reflexivity|].
  destruct p as [|c' p']; [congruence|]. cbn [app] in E. injection E as E1 E2. subst c'.
  pose proof (utf8_seq_tail _ _ U) as F. cbn [tl] in F.
  (* e' is a prefix of p' *)
  assert (exists q, p' = e' ++ q) as [q Q].
  { clear - F C E2. revert p' E2. induction F as [|x e' Hx F IH]; intros p' E2; [exists p'; reflexivity|].
    destruct p' as [|y p']; cbn [app] in E2.
    - destruct t as [|z t]; [discriminate|]. injection E2 as -> _. cbn in C. lia.
    - injection E2 as -> E2. destruct (IH _ E2) as [q ->]. exists q. reflexivity. }
  subst p'. apply (H r (c :: e') q U). reflexivity.
Qed.
Lemma no_seq_app_inv p t : no_seq (p ++ t) -> no_seq p.
Proof. intros H r e t' U E. apply (H r e (t' ++ t) U). rewrite E, app_assoc. reflexivity. Qed.
Lemma no_seq_high c s : 0 <= c -> no_seq (c :: s) -> 0x80 <= c.
Proof.
  intros P H. destruct (Z_lt_dec c 0x80); [|lia]. exfalso.
  apply (H c [c] s); [constructor; lia|reflexivity].
Qed.
Lemma seq_or_not s : wf s -> s <> [] -> (exists r e t, s = e ++ t /\ utf8_seq r e) \/ no_seq s.
Proof. intros W N. destruct (decode_rune_spec s W N) as [(r & e & t & A & B & _)|[A _]]; [left; eauto|right; exact A]. Qed.

(** [runes] computes the lossy characters. *)
Lemma runes_f_lossy n s : wf s -> (length s <= n)%nat -> utf8_lossy (runes_f n s) s.
Proof.
  revert s. induction n as [|n IH]; intros s W L.
  - destruct s; [constructor|cbn in L; lia].
  - destruct s as [|c s']; [constructor|]. cbn [runes_f].
    destruct (decode_rune_spec (c :: s') W ltac:(discriminate)) as [(r & e & t & E & U & D)|[NS D]]; rewrite D.
    + rewrite E. rewrite skipn_app_len by reflexivity. apply ul_seq; [exact U|].
      apply IH. { rewrite E in W. apply wf_app in W. tauto. }
      pose proof (utf8_seq_len _ _ U). rewrite E, app_length in L. lia.
    + cbn [skipn]. apply ul_bad; [exact NS|]. apply IH; [apply wf_cons in W; tauto|cbn in L; lia].
Qed.
Lemma runes_lossy s : wf s -> utf8_lossy (runes s) s.
Proof. intros W. apply runes_f_lossy; [exact W|]. unfold runes. lia. Qed.

Lemma utf8_lossy_det l s l' : utf8_lossy l s -> utf8_lossy l' s -> l = l'.
Proof.
  intros H. revert l'. induction H as [|r l e s U H IH|c l s NS H IH]; intros l' H'.
  - inversion H' as [|r' l2 e' s' U' H2 Q1 Q2|]; subst; [reflexivity|].
    exfalso. apply (utf8_seq_nonnil _ _ U'). destruct e'; [reflexivity|discriminate].
  - inversion H' as [Q1 Q2|r' l2 e' s' U' H2 Q1 Q2|c' l2 s' NS' H2 Q1 Q2]; subst.
    + exfalso. destruct e; [apply (utf8_seq_nonnil _ _ U); reflexivity|discriminate].
    + destruct (utf8_seq_prefix _ _ _ _ _ _ U' U Q2) as (-> & -> & ->). f_equal. apply IH. exact H2.
    + exfalso. exact (NS' _ _ _ U Q2).
  - inversion H' as [Q1 Q2|r' l2 e' s' U' H2 Q1 Q2|c' l2 s' NS' H2 Q1 Q2]; subst.
    + exfalso. exact (NS _ _ _ U' (eq_sym Q2)).
    + f_equal. apply IH. exact H2.
Qed.

Lemma utf8_lossy_of_utf8 l s : utf8 l s -> utf8_lossy l s.
Proof. induction 1; [constructor|apply ul_seq; assumption]. Qed.
Lemma utf8_lossy_scalar l s : utf8_lossy l s -> Forall scalar l.
Proof.
  induction 1; constructor; try assumption; [eapply utf8_seq_scalar; eassumption|].
  unfold scalar. lia.
Qed.

(** The UTF-8 text of a list of characters. *)
Definition utf8_text (l : list Z) : bytes := flat_map encode_rune l.
Lemma utf8_text_utf8 l : Forall scalar l -> utf8 l (utf8_text l).
Proof.
  induction 1 as [|r l S0 F IH]; [constructor|]. unfold utf8_text. cbn [flat_map].
  constructor; [apply encode_rune_utf8; exact S0|exact IH].
Qed.
Lemma utf8_is_text l s : utf8 l s -> s = utf8_text l.
Proof.
  induction 1 as [|r l e s U H IH]; [reflexivity|]. unfold utf8_text. cbn [flat_map].
  rewrite (encode_rune_seq _ _ U). f_equal. exact IH.
Qed.
Lemma runes_utf8 l s : wf s -> utf8 l s -> runes s = l.
Proof. intros W U. eapply utf8_lossy_det; [apply runes_lossy; exact W|apply utf8_lossy_of_utf8; exact U]. Qed.
Lemma utf8_app l1 s1 l2 s2 : utf8 l1 s1 -> utf8 l2 s2 -> utf8 (l1 ++ l2) (s1 ++ s2).
Proof.
  induction 1 as [|r l e s U H IH]; intros H2; [exact H2|]. cbn [app]. rewrite <- app_assoc.
  constructor; [exact U|apply IH; exact H2].
Qed.
Lemma utf8_wf l s : utf8 l s -> wf s.
Proof. induction 1; [constructor|]. apply wf_app. split; [eapply utf8_seq_wf; eassumption|assumption]. Qed.
Lemma utf8_text_app a b : utf8_text (a ++ b) = utf8_text a ++ utf8_text b.
Proof. apply flat_map_app. Qed.
