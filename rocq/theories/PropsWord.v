(** C55: the encoders are given the memory of the value. *)
From Verif Require Import Bytes WordModel SpecWord.
Local Open Scope Z_scope.

Lemma inlined_direct t : inlined t = true -> direct t.
Proof.
  revert t. fix IH 1. intros t. destruct t as [| | | | |fs|n e|n]; cbn; intros H; try discriminate; try constructor.
  destruct fs as [|f [|g fs]]; try discriminate. constructor. apply IH, H.
Qed.
Lemma direct_inlined t : usual t -> direct t -> inlined t = true.
Proof.
  intros U D. induction D; cbn in *; try reflexivity; try contradiction.
  apply IHD. apply U.
Qed.

Lemma call_right inl h l t data ws : (inl = true <-> direct t) -> represents h t data ws -> apart_from l t data ws -> finds (call inl h l data) ws.
Proof.
  intros E R A i w N. destruct inl; cbn.
  - destruct R as [[D ->]|[ND _]]; [|exfalso; apply ND, E; reflexivity].
    destruct i as [|i]; [|destruct i; discriminate]. injection N as <-. unfold set_word. rewrite Z.add_0_r, Z.eqb_refl. reflexivity.
  - destruct R as [[D ->]|[ND R]]; [apply E in D; discriminate|]. apply R, N.
Qed.
Lemma call_wrong inl h t data ws : ~ (inl = true <-> direct t) -> (direct t -> h data <> data) -> ws <> [] ->
  represents h t data ws -> (forall w ws', ws = w :: ws' -> ~ direct t -> w <> data) -> forall l, ~ finds (call inl h l data) ws.
Proof.
  intros E DD NE R AD l F. destruct ws as [|w ws]; [congruence|]. specialize (F 0%nat w eq_refl). unfold call in F. rewrite Z.add_0_r in F.
  destruct R as [[D W]|[ND R]].
  - injection W as -> ->. destruct inl; cbn in F; [apply E; split; auto|]. apply (DD D), F.
  - destruct inl; cbn in F.
    + unfold set_word in F. rewrite Z.eqb_refl in F. exact (AD w ws eq_refl ND (eq_sym F)).
    + apply E. split; [discriminate|]. intros D. contradiction.
Qed.

(** C55: whatever the memory, the encoder of a value passed to Append (or held
    by an interface, or by a map) is called with the address of its words. *)
Theorem C55_value_found_partial : forall t h l data ws, usual t ->
  represents h t data ws -> apart_from l t data ws ->
  finds (append_call t h l data) ws /\ finds (map_value_call t h l data) ws.
Proof.
  intros t h l data ws U R A. assert (E : inlined t = true <-> direct t) by (split; [apply inlined_direct|now apply direct_inlined]).
  split; now apply (call_right _ _ _ t).
Qed.
Print Assumptions C55_value_found_partial.
(** For which types this holds, exactly: those that are inlined if and only if
    they are stored in the word. *)
Theorem C55_exactly : forall t, ((forall h l data ws, represents h t data ws -> apart_from l t data ws -> finds (append_call t h l data) ws) <->
  (direct t -> inlined t = true)).
Proof.
  intros t. split.
  - intros H D. destruct (inlined t) eqn:I; [reflexivity|exfalso].
    assert (X : finds (append_call t (fun a => a + 1) 0 7) [7]) by (apply H; [left; auto|intros ND; contradiction]).
    specialize (X 0%nat 7 eq_refl). unfold append_call, call in X. rewrite I in X. cbn in X. discriminate.
  - intros H h l data ws R A. unfold append_call. apply (call_right _ _ _ t); auto. split; [apply inlined_direct|exact H].
Qed.
Print Assumptions C55_exactly.
(** An array of one pointer is stored in the word but not inlined: the memory
    the pointer points to is taken for the array.  Likewise the key of a
    map[*T]V whose *T has MarshalText. *)
Theorem C55_value_found_refuted :
  (exists h l data ws, represents h (RArray 1 RPtr) data ws /\ apart_from l (RArray 1 RPtr) data ws /\
     ~ finds (append_call (RArray 1 RPtr) h l data) ws /\ ~ finds (map_value_call (RArray 1 RPtr) h l data) ws) /\
  (exists h l data ws, represents h RPtr data ws /\ apart_from l RPtr data ws /\ ~ finds (map_key_call RPtr h l data) ws).
Proof.
  assert (D : direct (RArray 1 RPtr)) by repeat constructor.
  split.
  - exists (fun a => a + 1), 0, 7, [7]. split; [left; auto|]. split; [intros ND; contradiction|].
    split; intros F; specialize (F 0%nat 7 eq_refl); discriminate.
  - exists (fun a => a + 1), 0, 7, [7]. split; [left; split; [constructor|reflexivity]|]. split; [intros ND; exfalso; apply ND; constructor|].
    intros F; specialize (F 0%nat 7 eq_refl); discriminate.
Qed.
Print Assumptions C55_value_found_refuted.
(** Keys are found if their type is not stored in the word (strings, integers,
    structs of several words). *)
Theorem C55_key_found_partial : forall t h l data ws, ~ direct t -> represents h t data ws -> finds (map_key_call t h l data) ws.
Proof.
  intros t h l data ws ND [[D _]|[_ R]]; [contradiction|]. intros i w N. apply R, N.
Qed.
Print Assumptions C55_key_found_partial.
(** struct{ P *T } is stored in the word, struct{ P *T; N int } is not. *)
Example C55_case : usual (RStruct [RPtr]) /\ usual (RStruct [RPtr; RWords 1]) /\ direct (RStruct [RPtr]) /\ ~ direct (RStruct [RPtr; RWords 1]) /\
  represents (fun a => a + 1) (RStruct [RPtr]) 7 [7] /\ represents (fun a => a + 1) (RStruct [RPtr; RWords 1]) 7 [8; 9] /\
  finds (append_call (RStruct [RPtr]) (fun a => a + 1) 100 7) [7] /\ finds (append_call (RStruct [RPtr; RWords 1]) (fun a => a + 1) 100 7) [8; 9].
Proof.
  assert (N : ~ direct (RStruct [RPtr; RWords 1])) by (intros D; inversion D).
  assert (D : direct (RStruct [RPtr])) by repeat constructor.
  assert (R : represents (fun a => a + 1) (RStruct [RPtr; RWords 1]) 7 [8; 9]).
  { right. split; [exact N|]. intros [|[|i]] w H; cbn in H; [injection H as <-; reflexivity..|destruct i; discriminate]. }
  repeat split; auto; try (left; auto).
  - apply C55_value_found_partial; [cbn; tauto|left; auto|intros ND; contradiction].
  - apply C55_value_found_partial; [cbn; tauto|exact R|]. intros _ i H. cbn in H. lia.
Qed.
