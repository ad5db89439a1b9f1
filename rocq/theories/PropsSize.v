(** C91: how much an Encoder writes. *)
From Coq Require Import Permutation.
From Verif Require Import Bytes Utf8Model ParseModel StringModel IntModel TokenModel EncModel SpecJson SpecTokens
  SpecRender SpecSize ParseFacts IntFacts TokenFacts EncFacts SizeFacts.
Local Open Scope nat_scope.

Lemma pairs_perm l l' : Permutation l l' -> pairs l = pairs l'.
Proof. unfold pairs, sum. induction 1; cbn [map fold_right] in *; lia. Qed.
Lemma sorted_grows {K} c (g : K * encf -> encf * encf) (key : K * encf -> bytes) es ns :
  Forall2 (fun e n => grows2 c (g e) n) es ns ->
  exists ns', pairs ns' = pairs ns /\ Forall2 (grows2 c) (map g (sort_by key es)) ns'.
Proof.
  intros F. destruct (Permutation_Forall2 (sort_by_perm key es) F) as (ns' & P & F'). exists ns'. split; [symmetry; apply pairs_perm, P|].
  clear - F'. induction F'; constructor; assumption.
Qed.

Lemma enc_grows c : e_trust c = false \/ active (e_ind c) = None -> forall v, messages_ok v -> grows c (enc c v) (units v).
Proof.
  intros NT v. induction v as [ |b|z|f|s|s|s|t|l IH| |l IH| |m IH| |m IH|m|fs IH|o IH|o IH|o IH|s|r|r|v IH| ] using gval_rect'; intros M; cbn [enc].
  - apply grows_null. cbn. lia.
  - apply grows_bool.
  - apply grows_int.
  - apply grows_float.
  - apply grows_number.
  - apply grows_str. cbn. tauto.
  - apply grows_bytes.
  - apply grows_time.
  - cbn [units]. rewrite <- (map_map units (fun n => 1 + n)). apply array_grows. cbn [messages_ok] in M. clear - IH M.
    induction IH as [|x l H F IH]; cbn [map] in *; constructor; cbn [map all fold_right] in M; [apply H, M|apply IH, M].
  - apply grows_null. cbn. lia.
  - cbn [units]. rewrite <- (map_map units (fun n => 1 + n)). apply array_grows. cbn [messages_ok] in M. clear - IH M.
    induction IH as [|x l H F IH]; cbn [map] in *; constructor; cbn [map all fold_right] in M; [apply H, M|apply IH, M].
  - apply grows_null. cbn. lia.
  - cbn zeta. cbn [units messages_ok] in *.
    set (es := map _ m). set (ns := map (fun kv : mkey * gval => (key_units (fst kv), units (snd kv))) m).
    assert (E : sum (map (fun kv : mkey * gval => let (k, x) := kv in 2 + key_units k + units x) m) = pairs ns).
    { unfold ns, pairs. rewrite map_map. f_equal. apply map_ext. intros [k x]. reflexivity. }
    rewrite E. clear E.
    assert (F : Forall2 (fun e n => grows2 c (encode_mkey c (fst e), snd e) n) es ns).
    { subst es ns. clear - IH M. induction IH as [|[k x] m H F IH]; cbn [map] in *; constructor; cbn [map all fold_right fst snd] in *.
      - split; [apply grows_mkey|apply H, M].
      - apply IH, M. }
    destruct (e_sort c).
    + destruct (sorted_grows c (fun e => (encode_mkey c (fst e), snd e)) (fun e => key_text (fst e)) es ns F) as (ns' & <- & F'). apply map_grows, F'.
    + apply map_grows. clear - F. induction F; cbn [map]; constructor; assumption.
  - apply grows_null. cbn. lia.
  - cbn zeta. cbn [units messages_ok] in *.
    set (es := map _ m). set (ns := map (fun kv : bytes * gval => (text (fst kv), units (snd kv))) m).
    assert (E : sum (map (fun kv : bytes * gval => let (k, x) := kv in 2 + text k + units x) m) = pairs ns).
    { unfold ns, pairs. rewrite map_map. f_equal. apply map_ext. intros [k x]. reflexivity. }
    rewrite E. clear E.
    assert (F : Forall2 (fun e n => grows2 c (encode_key c (fst e), snd e) n) es ns).
    { subst es ns. clear - IH M. induction IH as [|[k x] m H F IH]; cbn [map] in *; constructor; cbn [map all fold_right fst snd] in *.
      - split; [apply grows_str; cbn; tauto|apply H, M].
      - apply IH, M. }
    destruct (e_sort c).
    + destruct (sorted_grows c (fun e => (encode_key c (fst e), snd e)) fst es ns F) as (ns' & <- & F'). apply map_break_grows, F'.
    + apply map_grows. clear - F. induction F; cbn [map]; constructor; assumption.
  - destruct m as [m|]; [|apply grows_null; cbn; lia]. cbn [units messages_ok] in *.
    set (ns := map (fun kv : bytes * option bytes => (text (fst kv), message (snd kv))) m).
    assert (E : sum (map (fun kv : bytes * option bytes => let (k, x) := kv in 2 + text k + message x) m) = pairs ns).
    { unfold ns, pairs. rewrite map_map. f_equal. apply map_ext. intros [k x]. reflexivity. }
    rewrite E. clear E.
    assert (F : Forall2 (fun e n => grows2 c (encode_key c (fst e), encode_raw c (snd e)) n) m ns).
    { subst ns. clear - M NT. induction M as [|[k x] m H F IH]; cbn [map] in *; constructor; cbn [fst snd] in *; [|exact IH].
      split; [apply grows_str; cbn; tauto|apply raw_grows; assumption]. }
    destruct (e_sort c).
    + destruct (Permutation_Forall2 (sort_by_perm fst m) F) as (ns' & P & F'). rewrite (pairs_perm _ _ P).
      apply map_break_grows. clear - F'. induction F'; cbn [map]; constructor; assumption.
    + apply map_swallow_grows. clear - F. induction F; cbn [map]; constructor; assumption.
  - cbn [units messages_ok] in *.
    set (ns := map (fun hx : fhead * gval => (fst hx, units (snd hx))) fs).
    assert (E : sum (map (fun hx : fhead * gval => let (h, x) := hx in 2 + text (f_name h) + units x) fs) = fields ns).
    { unfold ns, fields. rewrite map_map. f_equal. apply map_ext. intros [k x]. reflexivity. }
    rewrite E. clear E. apply struct_grows. subst ns. clear - IH M.
    induction IH as [|[k x] m H F IH]; cbn [map] in *; constructor; cbn [map all fold_right fst snd] in *.
    + split; [reflexivity|apply H, M].
    + apply IH, M.
  - destruct o as [x|]; [apply IH, M|apply grows_err].
  - destruct o as [x|]; [apply IH, M|apply grows_null; cbn; lia].
  - destruct o as [x|]; [apply IH, M|apply grows_null; cbn; lia].
  - apply raw_grows; [exact NT|exact M].
  - destruct r as [[j|e]|]; [|apply grows_err|apply grows_null; cbn; lia]. apply raw_grows; [exact NT|exact M].
  - destruct r as [[j|e]|]; [|apply grows_err|apply grows_null; cbn; lia]. apply grows_str. cbn. tauto.
  - apply grows_to_string, IH, M.
  - apply grows_err.
Qed.

(** C91: without indentation the bytes written for a value, also before an
    error, are at most proportional to its size: six for every unit, and the
    bytes of one color. *)
Theorem C91_linear : forall c v b d b' d' e,
  active (e_ind c) = None -> messages_ok v -> enc c v b d = ER b' d' e ->
  length b' <= length b + units v * (6 + tint (e_clrs c)).
Proof.
  intros c v b d b' d' e A M H. destruct (enc_grows c (or_intror A) v M b d b' d' e H) as [L _].
  unfold rate in L. assert (layout (e_ind c) (Z.to_nat d + units v) = 0) as Z0.
  { unfold active in A. unfold layout. destruct (e_ind c) as [i|]; [|reflexivity]. destruct (i_disabled i); [reflexivity|discriminate]. }
  rewrite Z0, Nat.add_0_r in L. exact L.
Qed.
Print Assumptions C91_linear.

(** C91: with indentation, at most proportional to its size times its size:
    every unit may start a line, whose indentation is at most as deep as the
    value has units. *)
Theorem C91_indented : forall c i v b d b' d' e,
  e_ind c = Some i -> i_disabled i = false -> e_trust c = false -> messages_ok v -> enc c v b d = ER b' d' e ->
  length b' <= length b + units v * (6 + tint (e_clrs c) + (length (i_prefix i) + (Z.to_nat d + units v) * length (i_indent i))).
Proof.
  intros c i v b d b' d' e A N T M H. destruct (enc_grows c (or_introl T) v M b d b' d' e H) as [L _].
  unfold rate, layout in L. rewrite A, N in L. exact L.
Qed.
Print Assumptions C91_indented.

(** Strings: six bytes for a byte, and the quotation marks; no more, and no
    less in the worst case. *)
Theorem C91_string : forall ind s out, marshal ind (GString s) = Some (out, None) -> length out <= 6 * length s + 2.
Proof.
  intros ind s out. unfold marshal, marshal_cfg. cbn [enc encode_string encode_str e_clrs]. intros H. injection H as <-.
  pose proof (string_len true [] s) as L. cbn [length] in L. cbn [e_html]. lia.
Qed.
Print Assumptions C91_string.
Theorem C91_string_worst : forall ind n, exists out,
  marshal ind (GString (repeat 1%Z n)) = Some (out, None) /\ length out = 6 * n + 2.
Proof.
  intros ind n. unfold marshal, marshal_cfg. cbn [enc encode_string encode_str e_clrs e_html]. eexists. split; [reflexivity|].
  unfold do_encode_string. rewrite repeat_length.
  assert (H : forall n b, exists r, encode_string_loop n true b [] (repeat 1%Z n) = Some r /\ length r = length b + 6 * n + 1).
  { clear n. induction n as [|n IH]; intros b.
    - exists (b ++ [34%Z]). split; [reflexivity|]. rewrite app_length. cbn. lia.
    - destruct (IH (b ++ [] ++ u00 1)) as (r & E & L). exists r. split; [exact E|]. rewrite L, !app_length. cbn [length u00]. lia. }
  destruct (H n ([] ++ [34%Z])) as (r & -> & L). rewrite L. cbn. lia.
Qed.
Print Assumptions C91_string_worst.

(** With indentation no constant factor suffices: [[...]] with a bracket on
    each line. *)
Fixpoint nest (n : nat) : gval := match n with O => GSlice (Some []) | S n => GSlice (Some [nest n]) end.
Lemma nest_len c n : e_clrs c = None -> e_ind c = Some (new_indenter [] [32%Z]) -> forall b d, (0 <= d)%Z ->
  exists b', enc c (nest n) b d = ER b' d None /\ 2 * length b + 2 * n * Z.to_nat d + n * n <= 2 * length b'.
Proof.
  intros Cl In. induction n as [|n IH]; intros b d D; cbn [nest].
  - eexists. split; [reflexivity|]. rewrite Cl. cbn [append_punc]. rewrite !app_length. cbn [length]. lia.
  - cbn [enc map]. unfold encode_array. cbv zeta. cbn [array_elems]. unfold in_push, in_pop, in_byte, in_indent. rewrite Cl, In. cbn [new_indenter i_disabled i_prefix i_indent append_punc].
    rewrite !repeat_app_spec.
    match goal with |- context [enc c (nest n) ?x _] => destruct (IH x (d + 1)%Z ltac:(lia)) as (b1 & E & L); set (bb := x) in * end.
    rewrite E. replace (d + 1 - 1)%Z with d by lia. eexists. split; [reflexivity|].
    assert (LB : length bb = length b + 2 + (Z.to_nat d + 1)).
    { subst bb. rewrite !app_length. cbn [length]. replace (Z.to_nat (d + 1)) with (Z.to_nat d + 1) by lia.
      assert (X : forall k, length (concat (repeat [32%Z] k)) = k) by (induction k; cbn; auto). rewrite X. lia. }
    rewrite repeat_app_spec, !app_length. replace (Z.to_nat (d + 1)) with (Z.to_nat d + 1) in L by lia. cbn [length]. set (D' := Z.to_nat d) in *.
    replace (2 * S n * D') with (2 * n * D' + 2 * D') by lia. replace (S n * S n) with (n * n + 2 * n + 1) by lia.
    replace (2 * n * (D' + 1)) with (2 * n * D' + 2 * n) in L by lia. lia.
Qed.
Lemma nest_units n : units (nest n) = 3 * n + 2.
Proof. induction n as [|n IH]; [reflexivity|]. cbn [nest units map sum fold_right]. lia. Qed.
Theorem C91_linear_refuted : forall k, exists v b' d',
  enc (Cfg false false false None (Some (new_indenter [] [32%Z])) (fun _ _ _ => None)) v [] 0%Z = ER b' d' None /\
  k * units v < length b'.
Proof.
  intros k. set (n := 6 * k + 6). destruct (nest_len (Cfg false false false None (Some (new_indenter [] [32%Z])) (fun _ _ _ => None)) n eq_refl eq_refl [] 0%Z ltac:(lia)) as (b' & E & L).
  exists (nest n), b', 0%Z. split; [exact E|]. rewrite nest_units. cbn [length] in L. subst n. nia.
Qed.
Print Assumptions C91_linear_refuted.

(** The hypotheses are met by a colored value with a string, a number, a map
    and a raw message. *)
Example C91_case : exists v b', messages_ok v /\
  enc (Cfg true true false (Some default_colors) None (fun _ _ _ => None)) v [] 0%Z = ER b' 0%Z None /\
  20 < length b' /\ length b' <= units v * (6 + tint (Some default_colors)).
Proof.
  exists (GSlice (Some [GString (bs "a<b"); GInt (-7)%Z; GMapSI (Some [(bs "k", GRaw (Some (bs "[1, true]")))])])).
  eexists. split; [cbn; repeat split; repeat constructor; lia|]. split; [vm_compute; reflexivity|]. split; apply Nat.leb_le; vm_compute; reflexivity.
Qed.
