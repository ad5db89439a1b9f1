(** The encoder prints the document of the value, or fails exactly when the
    value has none. *)
From Coq Require Import Permutation Sorted.
From Verif Require Import Bytes Utf8Model ParseModel StringModel IntModel TokenModel EncModel SpecJson SpecString SpecTokens
  SpecRender ParseFacts Utf8Facts StringFacts IntFacts TokenFacts EncFacts RawFacts.

Definition good (c : cfg) (f : encf) (x : doc) : Prop := forall d, f [] d = ER (R c d x) d None.
Definition bad (f : encf) : Prop := forall d, exists b d' e, f [] d = ER b d' (Some e) /\ e <> ERollback.
Definition isbad (r : eres) : Prop := exists b d' e, r = ER b d' (Some e) /\ e <> ERollback.
Lemma isbad_pre b r : isbad r -> isbad (pre b r).
Proof. intros (b0 & d & e & -> & H). exists (b ++ b0), d, e. auto. Qed.
Lemma isbad_app f b d : app_only f -> bad f -> isbad (f b d).
Proof. intros A B. rewrite A. apply isbad_pre, B. Qed.
Lemma good_app c f x b d : app_only f -> good c f x -> f b d = ER (b ++ R c d x) d None.
Proof. intros A G. rewrite A, G. reflexivity. Qed.

(** * Arrays *)
Lemma array_elems_good c d fs xs : Forall2 (fun f x => app_only f /\ good c f x) fs xs -> forall first b,
  array_elems c first fs b (in_push c d) =
  ER (b ++ (if first then [] else match xs with [] => [] | _ => comma (e_clrs c) end) ++
      elems_text (e_html c) (e_clrs c) (e_ind c) d xs) (in_push c d) None.
Proof.
  induction 1 as [|f x fs xs [A G] H IH]; intros first b; cbn [array_elems].
  - destruct first; cbn; rewrite app_nil_r; reflexivity.
  - rewrite (good_app c f x _ _ A G), IH, R_push. f_equal.
    rewrite in_indent_app, in_byte_app, in_indent_margin, in_byte_nl, margin_push.
    unfold elems_text. cbn [map]. rewrite join_cons. unfold line, R.
    destruct first; [|rewrite (append_punc_app (e_clrs c) b), punc_44]; destruct xs; cbn [map app]; rewrite ?app_nil_r; repeat (rewrite <- app_assoc); reflexivity.
Qed.
Lemma encode_array_good c fs xs : Forall2 (fun f x => app_only f /\ good c f x) fs xs -> good c (encode_array c fs) (DArr xs).
Proof.
  intros H d. unfold encode_array, R. rewrite render_arr, punc_91. destruct H as [|f x fs xs H1 H].
  - rewrite append_punc_app, punc_93. reflexivity.
  - rewrite (array_elems_good c d (f :: fs) (x :: xs)) by (constructor; assumption). rewrite pop_push.
    f_equal. rewrite append_punc_app, in_indent_app, in_byte_app, punc_93, in_byte_nl, in_indent_margin.
    unfold line. cbn [app]. rewrite <- !app_assoc. reflexivity.
Qed.
Lemma array_elems_bad c fs : Forall (fun f => app_only f /\ ((exists x, good c f x) \/ bad f)) fs -> Exists bad fs ->
  forall first b d, isbad (array_elems c first fs b d).
Proof.
  induction 1 as [|f fs [A G] H IH]; intros X first b d; [inversion X|]. cbn [array_elems].
  set (b' := in_indent _ _ _). destruct G as [[x G]|B].
  - rewrite (good_app c f x _ _ A G). apply Exists_cons in X. destruct X as [B|X]; [|apply IH, X].
    exfalso. destruct (B d) as (? & ? & ? & E & _). rewrite (G d) in E. discriminate.
  - destruct (isbad_app f b' d A B) as (b0 & d0 & e & E & NE). rewrite E. exists b0, d0, e. auto.
Qed.
Lemma encode_array_bad c fs : Forall (fun f => app_only f /\ ((exists x, good c f x) \/ bad f)) fs -> Exists bad fs -> bad (encode_array c fs).
Proof.
  intros H X d. unfold encode_array. destruct fs as [|f fs]; [inversion X|].
  destruct (array_elems_bad c _ H X true (append_punc (e_clrs c) [] 91) (in_push c d)) as (b0 & d0 & e & E & NE). rewrite E.
  eauto.
Qed.

(** * Maps *)
Definition key_good (c : cfg) (f : encf) (k : tkind) (t : bytes) : Prop :=
  forall d, f [] d = ER (paint (e_clrs c) (kind_color k) t) d None.
Definition entry_good (c : cfg) (p : encf * encf) (x : tkind * bytes * doc) : Prop :=
  (app_only (fst p) /\ app_only (snd p)) /\ key_good c (fst p) (fst (fst x)) (snd (fst x)) /\ good c (snd p) (snd x).
Lemma map_elems_good c d ps xs : Forall2 (entry_good c) ps xs -> forall first b,
  map_elems c first ps (b ++ if first then newline (e_ind c) else []) (in_push c d) =
  ER (b ++ match xs with [] => if first then newline (e_ind c) else [] | _ => (if first then [] else comma (e_clrs c)) end ++
      members_text (e_html c) (e_clrs c) (e_ind c) d xs) (in_push c d) None.
Proof.
  induction 1 as [|[fk fv] [[k t] x] ps xs [[A1 A2] [K G]] H IH]; intros first b; cbn [map_elems].
  - unfold members_text. cbn. rewrite app_nil_r. reflexivity.
  - cbn [fst snd] in *. rewrite A1, (K (in_push c d)). cbn [pre].
    rewrite (good_app c fv x _ _ A2 G).
    pose proof (IH false) as IH'. cbv iota in IH'.
    match goal with |- map_elems c false ps ?b0 _ = _ => specialize (IH' b0) end. rewrite app_nil_r in IH'. rewrite IH', R_push. clear IH IH'. f_equal.
    rewrite in_byte_app, append_punc_app, in_indent_app, in_byte_sp, in_indent_margin, margin_push, punc_58.
    unfold members_text. cbn [map]. rewrite join_cons. unfold line, R.
    destruct first.
    + destruct xs; cbn [map app]; rewrite ?app_nil_r; repeat (rewrite <- app_assoc); reflexivity.
    + rewrite app_nil_r, in_byte_app, append_punc_app, punc_44, in_byte_nl. destruct xs; cbn [map app]; rewrite ?app_nil_r; repeat (rewrite <- app_assoc); reflexivity.
Qed.
Lemma map_elems_first c d ps p xs x : Forall2 (entry_good c) (p :: ps) (x :: xs) -> forall b,
  map_elems c true (p :: ps) (in_byte c b 10) (in_push c d) =
  ER (b ++ members_text (e_html c) (e_clrs c) (e_ind c) d (x :: xs)) (in_push c d) None.
Proof.
  intros H b. rewrite in_byte_app, in_byte_nl. rewrite (map_elems_good c d _ _ H true b). reflexivity.
Qed.
Lemma map_close c b d xs x q : append_punc (e_clrs c) (in_indent c (in_byte c (b ++ lbrace (e_clrs c) ++ members_text (e_html c) (e_clrs c) (e_ind c) d (x :: xs)) 10) d) 125 =
  b ++ render (e_html c) (e_clrs c) (e_ind c) d (DObj q (x :: xs)).
Proof.
  rewrite render_obj, append_punc_app, in_indent_app, in_byte_app, punc_125, in_byte_nl, in_indent_margin. unfold line.
  repeat (rewrite <- app_assoc). reflexivity.
Qed.
Lemma encode_map_good c cut ps xs q : Forall2 (entry_good c) ps xs -> q = ONormal -> good c (encode_map c cut ps) (DObj q xs).
Proof.
  intros H -> d. unfold encode_map, R. rewrite punc_123. destruct ps as [|p ps], xs as [|x xs]; try solve [inversion H].
  - rewrite render_obj, append_punc_app, punc_125. reflexivity.
  - rewrite (map_elems_first c d ps p xs x H), pop_push. f_equal. apply (map_close c [] d xs x ONormal).
Qed.
Lemma encode_map_break_good c ps xs : Forall2 (entry_good c) ps xs -> good c (encode_map_break c ps) (DObj ONormal xs).
Proof.
  intros H d. unfold encode_map_break, R. rewrite punc_123. destruct ps as [|p ps], xs as [|x xs]; try solve [inversion H].
  - rewrite render_obj, append_punc_app, punc_125. reflexivity.
  - rewrite (map_elems_first c d ps p xs x H), pop_push. f_equal. apply (map_close c [] d xs x ONormal).
Qed.
Lemma encode_map_swallow_good c ps xs : Forall2 (entry_good c) ps xs -> good c (encode_map_swallow c ps) (DObj ONormal xs).
Proof.
  intros H d. unfold encode_map_swallow, R. rewrite punc_123. destruct ps as [|p ps], xs as [|x xs]; try solve [inversion H].
  - rewrite render_obj, append_punc_app, punc_125. reflexivity.
  - rewrite (map_elems_first c d ps p xs x H), pop_push. f_equal. apply (map_close c [] d xs x ONormal).
Qed.
Definition entry_ok (c : cfg) (p : encf * encf) : Prop :=
  (app_only (fst p) /\ app_only (snd p)) /\ ((exists k t, key_good c (fst p) k t) \/ bad (fst p)) /\ ((exists x, good c (snd p) x) \/ bad (snd p)).
Definition entry_bad (p : encf * encf) : Prop := bad (fst p) \/ bad (snd p).
Lemma map_elems_bad c ps : Forall (entry_ok c) ps -> Exists entry_bad ps ->
  forall first b d, isbad (map_elems c first ps b d).
Proof.
  induction 1 as [|[fk fv] ps [[A1 A2] [K G]] H IH]; intros X first b d; [inversion X|]. cbn [map_elems].
  set (b' := in_indent _ _ _). cbn [fst snd] in *. destruct K as [(k & t & K)|B].
  - rewrite (A1 b'), (K d). cbn [pre]. set (b2 := in_byte _ _ _). destruct G as [[x G]|B].
    + rewrite (good_app c fv x _ _ A2 G). apply Exists_cons in X. destruct X as [B|X]; [|apply IH, X].
      exfalso. destruct B as [B|B]; destruct (B d) as (? & ? & ? & E & _); cbn [fst snd] in E; [rewrite (K d) in E|rewrite (G d) in E]; discriminate.
    + destruct (isbad_app fv b2 d A2 B) as (b0 & d0 & e & E & NE). rewrite E. exists b0, d0, e. auto.
  - destruct (isbad_app fk b' d A1 B) as (b0 & d0 & e & E & NE). rewrite E. exists b0, d0, e. auto.
Qed.
Lemma encode_map_bad c cut ps : Forall (entry_ok c) ps -> Exists entry_bad ps -> bad (encode_map c cut ps).
Proof.
  intros H X d. unfold encode_map. destruct ps as [|p ps]; [inversion X|]. set (b' := in_byte _ _ _).
  destruct (map_elems_bad c _ H X true b' (in_push c d)) as (b0 & d0 & e & E & NE). rewrite E. eauto.
Qed.
Lemma encode_map_break_bad c ps : Forall (entry_ok c) ps -> Exists entry_bad ps -> bad (encode_map_break c ps).
Proof.
  intros H X d. unfold encode_map_break. destruct ps as [|p ps]; [inversion X|]. set (b' := in_byte _ _ _).
  destruct (map_elems_bad c _ H X true b' (in_push c d)) as (b0 & d0 & e & E & NE). rewrite E. eauto.
Qed.

(** * Structs *)
Definition omitted (h : fhead) : bool := f_omitempty h && f_empty h.
Inductive fields (c : cfg) : list (fhead * encf) -> list (tkind * bytes * doc) -> Prop :=
| fs_nil : fields c [] []
| fs_omit h f l xs : omitted h = true -> fields c l xs -> fields c ((h, f) :: l) xs
| fs_emit h f l x xs : omitted h = false -> app_only f -> good c f x -> fields c l xs ->
    fields c ((h, f) :: l) ((TKey, json_string (e_html c) (f_name h), x) :: xs).
Definition rolls (f : encf) : Prop := forall b d, f b d = ER b d (Some ERollback).

Lemma key_html c h : (if e_html c then f_html h else f_json h) = json_string (e_html c) (f_name h).
Proof. destruct (e_html c); reflexivity. Qed.
Definition fieldb (c : cfg) (n : nat) (b : bytes) (d : Z) (h : fhead) : bytes :=
  in_byte c (append_punc (e_clrs c) match e_clrs c with
                 | None => in_indent c (if Nat.eqb n 0 then b else in_byte c (append_punc (e_clrs c) b 44) 10) d ++ json_string (e_html c) (f_name h)
                 | Some cl => ((in_indent c (if Nat.eqb n 0 then b else in_byte c (append_punc (e_clrs c) b 44) 10) d ++ c_key cl) ++ json_string (e_html c) (f_name h)) ++ ansi_reset
                 end 58) 32.
Lemma fieldb_eq c n b d h : fieldb c n b d h =
  b ++ (if Nat.eqb n 0 then [] else comma (e_clrs c) ++ newline (e_ind c)) ++ margin (e_ind c) d ++
  paint (e_clrs c) (kind_color TKey) (json_string (e_html c) (f_name h)) ++ colon (e_clrs c) ++ space (e_ind c).
Proof.
  unfold fieldb. rewrite in_byte_app, append_punc_app, punc_58, in_byte_sp, in_indent_app, in_indent_margin.
  set (j := json_string _ _).
  destruct (Nat.eqb n 0); [|rewrite (in_byte_app c (append_punc _ b 44)), (append_punc_app (e_clrs c) b), punc_44, in_byte_nl]; unfold paint;
    (destruct (e_clrs c); cbn [app]; repeat (rewrite <- app_assoc); reflexivity).
Qed.

Lemma struct_fields_step c n h f fs b d : omitted h = false -> struct_fields c n ((h, f) :: fs) b d =
  match f (fieldb c n b d h) d with
  | ER b d None => struct_fields c (S n) fs b d
  | ER b' d (Some ERollback) => struct_fields c n fs (firstn (length (if Nat.eqb n 0 then b else in_byte c (append_punc (e_clrs c) b 44) 10)) b') d
  | r => (r, n)
  end.
Proof.
  intros O. cbn [struct_fields]. unfold omitted in O. rewrite O, key_html. reflexivity.
Qed.
Lemma struct_fields_omit c n h f fs b d : omitted h = true -> struct_fields c n ((h, f) :: fs) b d = struct_fields c n fs b d.
Proof. intros O. cbn [struct_fields]. unfold omitted in O. rewrite O. reflexivity. Qed.

Lemma struct_fields_good c d fs xs : fields c fs xs -> forall n b,
  struct_fields c n fs (b ++ if Nat.eqb n 0 then newline (e_ind c) else []) (in_push c d) =
  (ER (b ++ match xs with [] => if Nat.eqb n 0 then newline (e_ind c) else [] | _ => (if Nat.eqb n 0 then [] else comma (e_clrs c)) end ++
      members_text (e_html c) (e_clrs c) (e_ind c) d xs) (in_push c d) None, (n + length xs)%nat).
Proof.
  induction 1 as [|h f l xs O H IH|h f l x xs O A G H IH]; intros n b.
  - cbn [struct_fields]. unfold members_text. cbn. rewrite app_nil_r, Nat.add_0_r. reflexivity.
  - rewrite struct_fields_omit by exact O. apply IH.
  - rewrite struct_fields_step by exact O. rewrite (good_app c f x _ _ A G).
    pose proof (IH (S n)) as IH'. cbn [Nat.eqb] in IH'.
    match goal with |- struct_fields c _ l ?b0 _ = _ => specialize (IH' b0) end. rewrite app_nil_r in IH'. rewrite IH', R_push. clear IH IH'.
    cbn [length]. replace (n + S (length xs))%nat with (S n + length xs)%nat by lia. f_equal. f_equal.
    rewrite fieldb_eq, margin_push. unfold members_text. cbn [map]. rewrite join_cons. unfold line, R.
    destruct (Nat.eqb n 0).
    + destruct xs; cbn [map app]; rewrite ?app_nil_r; repeat (rewrite <- app_assoc); reflexivity.
    + destruct xs; cbn [map app]; rewrite ?app_nil_r; repeat (rewrite <- app_assoc); reflexivity.
Qed.
Lemma struct_fields_pre c pre post : Forall (fun hf => omitted (fst hf) = true \/ rolls (snd hf)) pre -> forall b d,
  struct_fields c 0 (pre ++ post) b d = struct_fields c 0 post b d.
Proof.
  induction 1 as [|[h f] l O H IH]; intros b d; [reflexivity|]. cbn [app fst snd] in *.
  destruct (omitted h) eqn:E.
  - rewrite struct_fields_omit by exact E. apply IH.
  - destruct O as [O|O]; [discriminate|]. rewrite struct_fields_step by exact E. rewrite (O _ d). cbn [Nat.eqb].
    rewrite fieldb_eq, firstn_len_app. apply IH.
Qed.
Lemma encode_struct_good c pre post xs : pre ++ post <> [] -> Forall (fun hf => omitted (fst hf) = true \/ rolls (snd hf)) pre ->
  fields c post xs -> good c (encode_struct c (pre ++ post)) (DObj OAllOmitted xs).
Proof.
  intros NE Hp Hf d. unfold encode_struct, R. rewrite render_obj, punc_123.
  destruct (pre ++ post) as [|p l] eqn:E; [congruence|]. rewrite <- E. clear NE E p l.
  rewrite struct_fields_pre by exact Hp. rewrite in_byte_app, in_byte_nl.
  rewrite (struct_fields_good c d post xs Hf 0%nat). cbn [Nat.eqb Nat.add].
  destruct xs as [|x xs]; cbn [length Nat.eqb]; rewrite pop_push; f_equal; rewrite append_punc_app, punc_125.
  - rewrite in_indent_app, in_indent_margin. unfold members_text, line. cbn [map join]. rewrite app_nil_r, <- !app_assoc. reflexivity.
  - rewrite in_indent_app, in_byte_app, in_byte_nl, in_indent_margin. unfold line. cbn [app]. rewrite <- !app_assoc. reflexivity.
Qed.
Lemma encode_struct0_good c : good c (encode_struct c []) (DObj ONoFields []).
Proof.
  intros d. unfold encode_struct, R. cbn [struct_fields Nat.eqb]. rewrite punc_123, pop_push, append_punc_app, in_indent_app, punc_125, in_indent_margin.
  rewrite <- app_assoc. reflexivity.
Qed.
Definition field_ok (c : cfg) (hf : fhead * encf) : Prop :=
  omitted (fst hf) = true \/ app_only (snd hf) /\ ((exists x, good c (snd hf) x) \/ rolls (snd hf) \/ bad (snd hf)).
Lemma struct_fields_bad c fs : Forall (field_ok c) fs -> Exists (fun hf => omitted (fst hf) = false /\ bad (snd hf)) fs ->
  forall n b d, isbad (fst (struct_fields c n fs b d)).
Proof.
  induction 1 as [|[h f] l O H IH]; intros X n b d; [inversion X|]. unfold field_ok in O. cbn [fst snd] in O.
  apply Exists_cons in X. cbn [fst snd] in X. destruct (omitted h) eqn:E.
  - rewrite struct_fields_omit by exact E. destruct X as [[X _]|X]; [discriminate|apply IH, X].
  - rewrite struct_fields_step by exact E. destruct O as [O|[A O]]; [discriminate|].
    destruct O as [[x G]|[Ro|B]].
    + rewrite (good_app c f x _ _ A G). destruct X as [[_ B]|X]; [|apply IH, X].
      exfalso. destruct (B d) as (? & ? & ? & E0 & _). rewrite (G d) in E0. discriminate.
    + rewrite (Ro _ d). destruct X as [[_ B]|X]; [|apply IH, X].
      exfalso. destruct (B d) as (? & ? & ? & E0 & NE). rewrite (Ro [] d) in E0. congruence.
    + destruct (isbad_app f (fieldb c n b d h) d A B) as (b0 & d0 & e & E0 & NE). rewrite E0.
      destruct e; try congruence; (eexists _, _, _; split; [reflexivity|discriminate]).
Qed.
Lemma encode_struct_bad c fs : Forall (field_ok c) fs -> Exists (fun hf => omitted (fst hf) = false /\ bad (snd hf)) fs -> bad (encode_struct c fs).
Proof.
  intros H X d. unfold encode_struct. set (b' := match fs with [] => _ | _ => _ end).
  pose proof (struct_fields_bad c fs H X 0%nat b' (in_push c d)) as B.
  destruct (struct_fields c 0 fs b' (in_push c d)) as [r n]. destruct B as (b0 & d0 & e & E & NE). cbn [fst] in E. rewrite E. eauto.
Qed.

(** * Sorting *)
Lemma ltb_asym a b : bytes_ltb a b = true -> bytes_ltb b a = false.
Proof.
  revert b. induction a as [|x a IH]; intros [|y b]; cbn; try congruence.
  destruct (x <? y) eqn:E1, (y <? x) eqn:E2; zb; try congruence; try lia. apply IH.
Qed.
Lemma ltb_ge_trans a b c : bytes_ltb b a = false -> bytes_ltb c b = false -> bytes_ltb c a = false.
Proof.
  revert b c. induction a as [|x a IH]; intros [|y b] [|z c]; cbn; try congruence.
  destruct (y <? x) eqn:E1, (x <? y) eqn:E2, (z <? y) eqn:E3, (y <? z) eqn:E4, (z <? x) eqn:E5, (x <? z) eqn:E6; zb; try congruence; try lia.
  apply IH.
Qed.
Lemma ltb_total a b : bytes_ltb a b = false -> bytes_ltb b a = false -> a = b.
Proof.
  revert b. induction a as [|x a IH]; intros [|y b]; cbn; try congruence.
  destruct (x <? y) eqn:E1, (y <? x) eqn:E2; zb; try congruence; try lia. intros H1 H2. f_equal; [lia|apply IH; assumption].
Qed.
Lemma insert_by_sorted {A} (key : A -> bytes) x l : ascending key l -> ascending key (insert_by key x l).
Proof.
  unfold ascending. induction 1 as [|y l S IH H]; cbn [insert_by]; [repeat constructor|].
  destruct (bytes_ltb (key y) (key x)) eqn:E.
  - constructor; [exact IH|]. eapply Permutation_Forall; [apply insert_by_perm|]. constructor; [apply ltb_asym, E|exact H].
  - constructor; [constructor; assumption|]. constructor; [exact E|]. eapply Forall_impl; [|exact H].
    intros z Hz. apply (ltb_ge_trans _ _ _ E Hz).
Qed.
Lemma sort_by_sorted {A} (key : A -> bytes) l : ascending key (sort_by key l).
Proof. induction l as [|x l IH]; cbn [sort_by]; [constructor|]. apply insert_by_sorted, IH. Qed.
Lemma insert_by_map {A B} (f : A -> B) (key : B -> bytes) (key' : A -> bytes) x l : (forall x, key (f x) = key' x) ->
  insert_by key (f x) (map f l) = map f (insert_by key' x l).
Proof. intros H. induction l as [|y l IH]; cbn; [reflexivity|]. rewrite !H. destruct (bytes_ltb (key' y) (key' x)); cbn; [rewrite IH|]; reflexivity. Qed.
Lemma sort_by_map {A B} (f : A -> B) (key : B -> bytes) (key' : A -> bytes) l : (forall x, key (f x) = key' x) ->
  sort_by key (map f l) = map f (sort_by key' l).
Proof. intros H. induction l as [|x l IH]; cbn; [reflexivity|]. rewrite IH. apply insert_by_map, H. Qed.
Definition order {A} (sorted : bool) (key : A -> bytes) (m : list A) : list A := if sorted then sort_by key m else m.
Lemma order_in_order {A} sorted (key : A -> bytes) m : in_order sorted key m (order sorted key m).
Proof. unfold in_order, order. destruct sorted; [split; [apply sort_by_perm|apply sort_by_sorted]|reflexivity]. Qed.
Lemma in_order_perm {A} sorted (key : A -> bytes) m m' : in_order sorted key m m' -> Permutation m m'.
Proof. unfold in_order. destruct sorted; [intros [H _]; exact H|intros ->; reflexivity]. Qed.
Lemma order_perm {A} sorted (key : A -> bytes) m : Permutation m (order sorted key m).
Proof. eapply in_order_perm, order_in_order. Qed.

(** * The main theorem *)
Definition flags (html sorted trust : bool) (c : cfg) : Prop := e_html c = html /\ e_sort c = sorted /\ e_trust c = trust.
Definition cok (c : cfg) (v : gval) : Prop := e_clrs c = None \/ colors_clean v.

Section main.
  Variables html sorted trust : bool.
  Notation vdoc := (vdoc html sorted trust).
  Notation flags := (flags html sorted trust).

  Definition vgood (v : gval) : Prop :=
    absent v = false /\ exists x, vdoc v x /\ forall c, flags c -> cok c v -> good c (enc c v) x.
  Definition vrolls (v : gval) : Prop :=
    absent v = true /\ (forall x, ~ vdoc v x) /\ forall c, rolls (enc c v).
  Definition vbad (v : gval) : Prop :=
    absent v = false /\ (forall x, ~ vdoc v x) /\ forall c, flags c -> cok c v -> bad (enc c v).
  Definition verdict (v : gval) : Prop := vgood v \/ vrolls v \/ vbad v.

  Lemma all_Forall (l : list Prop) : all l <-> Forall (fun P => P) l.
  Proof. induction l as [|P l IH]; cbn; split; intros H; auto. - destruct H. constructor; tauto. - inversion H; subst. tauto. Qed.
  Lemma all_map {A} (P : A -> Prop) l : all (map P l) <-> Forall P l.
  Proof. induction l as [|x l IH]; cbn; split; intros H; auto. - destruct H. constructor; tauto. - inversion H; subst. tauto. Qed.

  Lemma clean_not_absent v : clean sorted trust false v -> absent v = false.
  Proof. destruct v as [ | | | | | | | | | | | | |fs|[x|]|o|o|s|r|r|x| ]; cbn; try reflexivity; try tauto; try discriminate. intros [H _]. discriminate. Qed.

  Lemma good_const c g x : (forall d, g [] = R c d x) -> good c (fun b d => ER (g b) d None) x.
  Proof. intros H d. rewrite (H d). reflexivity. Qed.
  Lemma null_good c : good c (fun b d => ER (append_null (e_clrs c) b) d None) (DTok TNull (bs "null")).
  Proof. intros d. unfold append_null, R. cbn [render]. unfold paint. destruct (e_clrs c); cbn [app kind_color]; rewrite <- ?app_assoc; reflexivity. Qed.
  Lemma str_good c clr k s : (forall cl, clr cl = kind_color k cl) -> good c (encode_str c clr s) (DTok k (json_string (e_html c) s)).
  Proof.
    intros H d. unfold encode_str, R. cbn [render]. unfold paint, json_string. destruct (e_clrs c) as [cl|]; [|reflexivity].
    rewrite do_encode_string_app, H, <- app_assoc. reflexivity.
  Qed.
  Lemma bad_const e : e <> ERollback -> bad (fun b d => ER b d (Some e)).
  Proof. intros H d. eauto. Qed.

  Lemma parse_number_err b r e : parse_number b = PErr r e -> e = ESyntax.
  Proof.
    unfold parse_number, parse_frac, parse_exp.
    repeat match goal with |- context [match ?x with _ => _ end] => destruct x; try discriminate; try (intros H; injection H as <- <-; reflexivity) end.
  Qed.

  (** Raw messages. *)
  Lemma raw_verdict s : match s with None => True | Some s => raw_clean trust s end ->
    (exists x, vdoc (GRaw s) x /\ forall c, flags c -> (e_clrs c = None \/ raw_colors s) -> good c (encode_raw c s) x) \/
    ((forall x, ~ vdoc (GRaw s) x) /\ forall c, flags c -> bad (encode_raw c s)).
  Proof.
    destruct s as [s|]; [|intros _; left; exists (DTok TNull (bs "null")); split; [constructor|intros c _ _; apply null_good]].
    intros [W [[a H]|[T H]]].
    - left. exists (jdoc html a). split; [apply vd_raw, H|]. intros c (<- & _ & <-) C d.
      rewrite (encode_raw_good c s a d W H), raw_R_jdoc; [reflexivity|]. destruct C as [C|C]; [left; exact C|right].
      apply C. unfold raw_text in H. destruct (e_trust c); [exact H|apply jvalue_jtext, H].
    - right. split.
      + intros x V. inversion V; subst. unfold raw_text in *. eapply (H s []); [rewrite app_nil_r; reflexivity|eassumption].
      + intros c (_ & _ & Tc) d. rewrite (encode_raw_bad c s [] d W (eq_trans Tc T) H). eexists _, _, _. split; [reflexivity|discriminate].
  Qed.

  (** Lists of values. *)
  Lemma items_verdict {A B} (D : A -> B -> Prop) (C : cfg -> A -> Prop) (G : cfg -> A -> B -> Prop) (Bd : cfg -> A -> Prop) l :
    Forall (fun a => (exists y, D a y /\ forall c, flags c -> C c a -> G c a y) \/
                     ((forall y, ~ D a y) /\ forall c, flags c -> C c a -> Bd c a)) l ->
    (exists ys, Forall2 D l ys /\ forall c, flags c -> Forall (C c) l -> Forall2 (G c) l ys) \/
    (Exists (fun a => forall y, ~ D a y) l /\ forall c, flags c -> Forall (C c) l ->
       Forall (fun a => (exists y, G c a y) \/ Bd c a) l /\ Exists (Bd c) l).
  Proof.
    intros H.
    assert (O : forall c, flags c -> Forall (C c) l -> Forall (fun a => (exists y, G c a y) \/ Bd c a) l).
    { intros c F Hc. rewrite Forall_forall in *. intros a Ha. destruct (H a Ha) as [(y & _ & Hy)|[_ Hy]]; [left; exists y|right]; auto. }
    assert (X : (exists ys, Forall2 D l ys /\ forall c, flags c -> Forall (C c) l -> Forall2 (G c) l ys) \/
      (Exists (fun a => forall y, ~ D a y) l /\ forall c, flags c -> Forall (C c) l -> Exists (Bd c) l)).
    { clear O. induction H as [|a l Ha H IH]; [left; exists []; split; [constructor|intros; constructor]|].
      destruct Ha as [(y & Dy & Gy)|[N Bd1]].
      - destruct IH as [(ys & V & IH)|(N & IH)].
        + left. exists (y :: ys). split; [constructor; assumption|]. intros c F Hc. inversion Hc; subst. constructor; auto.
        + right. split; [apply Exists_cons_tl, N|]. intros c F Hc. inversion Hc; subst. apply Exists_cons_tl; auto.
      - right. split; [apply Exists_cons_hd, N|]. intros c F Hc. inversion Hc; subst. apply Exists_cons_hd; auto. }
    destruct X as [X|(N & X)]; [left; exact X|right]. split; [exact N|]. intros c F Hc. split; [apply O|apply X]; assumption.
  Qed.
  Lemma no_docs {A B} (D : A -> B -> Prop) l ys : Exists (fun a => forall y, ~ D a y) l -> ~ Forall2 D l ys.
  Proof. intros X F. induction F as [|a y l ys H F IH]; [inversion X|]. apply Exists_cons in X. destruct X as [X|X]; [eapply X, H|auto]. Qed.
  Lemma Exists_perm {A} (P : A -> Prop) l l' : Permutation l l' -> Exists P l -> Exists P l'.
  Proof. intros Pm X. apply Exists_exists in X. destruct X as (a & Ha & H). apply Exists_exists. exists a. split; [eapply Permutation_in; eassumption|exact H]. Qed.
  Lemma Exists_map {A B} (f : A -> B) (P : B -> Prop) l : Exists (fun a => P (f a)) l -> Exists P (map f l).
  Proof. induction 1; cbn; [apply Exists_cons_hd|apply Exists_cons_tl]; assumption. Qed.
  Lemma Forall2_map_l {A B C} (f : A -> B) (P : B -> C -> Prop) l ys : Forall2 (fun a y => P (f a) y) l ys -> Forall2 P (map f l) ys.
  Proof. induction 1; cbn; constructor; assumption. Qed.
  Lemma Forall2_imp {A B} (P Q : A -> B -> Prop) l ys : (forall a y, P a y -> Q a y) -> Forall2 P l ys -> Forall2 Q l ys.
  Proof. induction 2; constructor; auto. Qed.

  Definition vok (v : gval) : Prop :=
    (exists x, vdoc v x /\ forall c, flags c -> cok c v -> good c (enc c v) x) \/
    ((forall x, ~ vdoc v x) /\ forall c, flags c -> cok c v -> bad (enc c v)).
  Lemma verdict_vok v : clean sorted trust false v -> verdict v -> vok v.
  Proof.
    intros H V. pose proof (clean_not_absent v H) as A. destruct V as [(_ & V)|[(A' & _)|(_ & V)]]; [left|congruence|right]; exact V.
  Qed.
  Lemma vok_verdict v : absent v = false -> vok v -> verdict v.
  Proof. intros A [V|V]; [left|right; right]; split; assumption. Qed.

  Lemma array_vok l : Forall vok l -> forall v,
    (forall c, flags c -> cok c v -> Forall (cok c) l) ->
    (forall xs, Forall2 vdoc l xs -> vdoc v (DArr xs)) ->
    (forall x, vdoc v x -> exists xs, Forall2 vdoc l xs) ->
    (forall c, enc c v = encode_array c (map (enc c) l)) -> vok v.
  Proof.
    intros H v Hc Hi Hd He.
    destruct (items_verdict vdoc cok (fun c v x => good c (enc c v) x) (fun c v => bad (enc c v)) l H) as [(xs & V & G)|(N & G)].
    - left. exists (DArr xs). split; [auto|]. intros c F C. rewrite He. apply encode_array_good, Forall2_map_l.
      eapply Forall2_imp; [|apply (G c F (Hc c F C))]. intros a y Ha. split; [apply enc_app_only|exact Ha].
    - right. split; [intros x V; destruct (Hd x V) as (xs & V'); eapply no_docs; eassumption|].
      intros c F C. rewrite He. destruct (G c F (Hc c F C)) as [O X]. apply encode_array_bad; [|apply (Exists_map (enc c) bad), X].
      apply Forall_map. eapply Forall_impl; [|exact O]. intros a Ha. split; [apply enc_app_only|exact Ha].
  Qed.

  (** The verdict on a map key. *)
  Lemma key_verdict k : key_clean k ->
    (exists kt, kdoc html k (fst kt) (snd kt) /\ forall c, flags c -> (e_clrs c = None \/ match k with KInt _ => False | _ => True end) ->
        key_good c (encode_mkey c k) (fst kt) (snd kt)) \/
    ((forall kt t, ~ kdoc html k kt t) /\ forall c, flags c -> bad (encode_mkey c k)).
  Proof.
    destruct k as [s|z|s [e|]|]; cbn [key_clean encode_mkey].
    - intros _. left. exists (TKey, json_string html s). split; [constructor|]. intros c (<- & _) _ d. apply (str_good c c_key TKey s). reflexivity.
    - intros _. left. exists (TPlain, json_string html (itoa z)). split; [constructor|]. intros c (<- & _) [C|[]] d.
      unfold encode_to_string, append_int, paint. rewrite C. cbn [length skipn app fst snd]. cbn [firstn app].
      rewrite do_encode_string_app, skipn_len_app. reflexivity.
    - intros [_ H]. right. split; [intros kt t K; inversion K|]. intros c _ d. eexists _, _, _. split; [reflexivity|congruence].
    - intros _. left. exists (TText, json_string html s). split; [constructor|]. intros c (<- & _) _ d. apply (str_good c c_textm TText s). reflexivity.
    - contradiction.
  Qed.

  Definition edoc (e : mkey * gval) (x : tkind * bytes * doc) : Prop := kdoc html (fst e) (fst (fst x)) (snd (fst x)) /\ vdoc (snd e) (snd x).
  Definition ecok (c : cfg) (e : mkey * gval) : Prop := cok c (snd e) /\ (e_clrs c = None \/ match fst e with KInt _ => False | _ => True end).
  Definition epair (c : cfg) (e : mkey * gval) : encf * encf := (encode_mkey c (fst e), enc c (snd e)).
  Lemma entry_verdict e : key_clean (fst e) -> vok (snd e) ->
    (exists y, edoc e y /\ forall c, flags c -> ecok c e -> entry_good c (epair c e) y) \/
    ((forall y, ~ edoc e y) /\ forall c, flags c -> ecok c e -> entry_ok c (epair c e) /\ entry_bad (epair c e)).
  Proof.
    destruct e as [k v]. cbn [fst snd]. intros K V.
    assert (AO : forall c, app_only (fst (epair c (k, v))) /\ app_only (snd (epair c (k, v)))).
    { intros c. split; [apply ao_mkey|apply enc_app_only]. }
    destruct (key_verdict k K) as [([kt t] & K1 & K2)|[K1 K2]].
    - destruct V as [(x & V1 & V2)|[V1 V2]].
      + left. exists (kt, t, x). split; [split; assumption|]. intros c F [C1 C2]. split; [apply AO|split; [apply K2|apply V2]; assumption].
      + right. split; [intros y [_ V]; eapply V1; exact V|]. intros c F [C1 C2]. split; [split; [apply AO|split; [left; exists kt, t; apply K2; assumption|right; apply V2; assumption]]|].
        right. apply V2; assumption.
    - right. split; [intros y [Y _]; eapply K1; exact Y|]. intros c F [C1 C2]. split; [split; [apply AO|split; [right; apply K2; assumption|]]|].
      + destruct V as [(x & V1 & V2)|[V1 V2]]; [left; exists x|right]; apply V2; assumption.
      + left. apply K2; assumption.
  Qed.
  Lemma entries_verdict m : Forall (fun e => key_clean (fst e) /\ vok (snd e)) m ->
    (exists xs, Forall2 edoc m xs /\ forall c, flags c -> Forall (ecok c) m -> Forall2 (entry_good c) (map (epair c) m) xs) \/
    (Exists (fun e => forall y, ~ edoc e y) m /\ forall c, flags c -> Forall (ecok c) m ->
       Forall (entry_ok c) (map (epair c) m) /\ Exists entry_bad (map (epair c) m)).
  Proof.
    intros H.
    destruct (items_verdict edoc ecok (fun c e y => entry_good c (epair c e) y)
       (fun c e => entry_ok c (epair c e) /\ entry_bad (epair c e)) m) as [(xs & V & G)|(N & G)].
    - eapply Forall_impl; [|exact H]. intros e [H1 H2]. apply entry_verdict; assumption.
    - left. exists xs. split; [exact V|]. intros c F C. apply Forall2_map_l, G; assumption.
    - right. split; [exact N|]. intros c F C. destruct (G c F C) as [O X]. split.
      + apply Forall_map. eapply Forall_impl; [|exact O]. intros e [(y & A & (K & G1))|[A _]]; [|exact A].
        split; [exact A|]. split; left; [exists (fst (fst y)), (snd (fst y)); exact K|eexists; exact G1].
      + apply Exists_map. eapply Exists_impl; [|exact X]. intros e [_ E]. exact E.
  Qed.

  (** Fields. *)
  Definition fdoc (e : fhead * gval) (x : tkind * bytes * doc) : Prop := fst x = (TKey, json_string html (f_name (fst e))) /\ vdoc (snd e) (snd x).

  Lemma mapsi_inv m x : vdoc (GMapSI (Some m)) x -> exists m' xs, in_order sorted fst m m' /\
    Forall2 (fun e x => fst x = (TKey, json_string html (fst e)) /\ vdoc (snd e) (snd x)) m' xs.
  Proof. intros V. inversion V; subst. eauto. Qed.
  Lemma mapsr_inv m x : vdoc (GMapSR (Some m)) x -> exists m' xs, in_order sorted fst m m' /\
    Forall2 (fun e x => fst x = (TKey, json_string html (fst e)) /\ vdoc (GRaw (snd e)) (snd x)) m' xs.
  Proof. intros V. inversion V; subst. eauto. Qed.

  Lemma absent_rolls v : absent v = true -> forall c, rolls (enc c v).
  Proof.
    induction v as [ |b|z|f|s|s|s|t|l IH| |l IH| |m IH| |m IH|m|fs IH|o IH|o IH|o IH|s|r|r|v IH| ] using gval_rect'; cbn [absent]; try discriminate.
    destruct o as [v|]; [exact IH|]. intros _ c b d. reflexivity.
  Qed.
  Lemma absent_no_doc v : absent v = true -> forall x, ~ vdoc v x.
  Proof.
    induction v as [ |b|z|f|s|s|s|t|l IH| |l IH| |m IH| |m IH|m|fs IH|o IH|o IH|o IH|s|r|r|v IH| ] using gval_rect'; cbn [absent]; try discriminate.
    destruct o as [v|]; intros A x V; inversion V; subst. eapply IH; eassumption.
  Qed.
  Definition fmap (c : cfg) : list (fhead * gval) -> list (fhead * encf) := map (fun hv => match hv with (h, x) => (h, enc c x) end).
  Lemma emitted_spec h v : emitted (h, v) = negb (omitted h) && negb (absent v).
  Proof. reflexivity. Qed.
  Lemma fields_post c post : e_html c = html -> Forall (fun hv => omitted (fst hv) = true \/ absent (snd hv) = false) post -> forall ys,
    Forall2 (fun e y => fst y = (TKey, json_string html (f_name (fst e))) /\ good c (enc c (snd e)) (snd y)) (filter emitted post) ys ->
    fields c (fmap c post) ys.
  Proof.
    intros <-. induction 1 as [|[h v] post O H IH]; intros ys F; cbn [filter fmap map] in *.
    - inversion F. constructor.
    - rewrite emitted_spec in F. cbn [fst snd] in O. destruct (omitted h) eqn:E; cbn [negb andb] in F.
      + apply fs_omit; [exact E|]. apply IH, F.
      + destruct O as [O|O]; [discriminate|]. rewrite O in F. cbn [negb] in F. inversion F as [|? [[k t] x] ? ys' [E1 G] F']; subst. cbn [fst snd] in *.
        injection E1 as -> ->. apply fs_emit; [exact E|apply enc_app_only|exact G|]. apply IH, F'.
  Qed.

  Theorem enc_verdict v : forall fld, clean sorted trust fld v -> verdict v.
  Proof.
    induction v as [ |b|z|f|s|s|s|t|l IH| |l IH| |m IH| |m IH|m|fs IH|o IH|o IH|o IH|s|r|r|v IH| ] using gval_rect'; intros fld CL; cbn [clean] in CL.
    - apply vok_verdict; [reflexivity|]. left. eexists. split; [constructor|]. intros c F C. apply null_good.
    - apply vok_verdict; [reflexivity|]. left. destruct b; eexists; (split; [constructor|]); intros c F C d; cbn [enc]; unfold append_bool, R; cbn [render]; unfold paint;
        destruct (e_clrs c); cbn [app]; rewrite <- ?app_assoc; reflexivity.
    - apply vok_verdict; [reflexivity|]. left. eexists. split; [constructor|]. intros c F C d. cbn [enc]; unfold append_int, R; cbn [render]; unfold paint;
        destruct (e_clrs c); cbn [app]; rewrite <- ?app_assoc; reflexivity.
    - apply vok_verdict; [reflexivity|]. destruct (encode_float [] f) as [t [e|]] eqn:E.
      + right. split; [intros x V; inversion V; subst; congruence|]. intros c F C d. cbn [enc]. unfold encode_float_c.
        assert (e = EUnsupportedValue) as -> by (unfold encode_float in E; destruct f; try congruence; destruct (_ || _); congruence).
        destruct (e_clrs c); rewrite encode_float_app, E; eexists _, _, _; (split; [reflexivity|discriminate]).
      + left. exists (DTok TNum t). split; [constructor; exact E|]. intros c F C d. cbn [enc]. unfold encode_float_c, R. cbn [render]. unfold paint.
        destruct (e_clrs c); rewrite encode_float_app, E; cbn [fst snd app]; rewrite <- ?app_assoc; reflexivity.
    - apply vok_verdict; [reflexivity|].
      assert (Z : s = [] \/ s <> []) by (destruct s; [left|right]; congruence). destruct Z as [->|NE].
      { left. eexists. split; [constructor|]. intros c F C d. cbn [enc]. unfold encode_number, R. cbn [render]. unfold paint.
        change (parse_number [48]) with (POk [48] []). destruct (e_clrs c); cbn [app]; rewrite <- ?app_assoc; reflexivity. }
      assert (EN : forall c b d, encode_number c s b d = match parse_number s with
         | PErr _ e => ER b d (Some e)
         | POk _ _ => match e_clrs c with None => ER (b ++ s) d None | Some k => ER (((b ++ c_number k) ++ s) ++ ansi_reset) d None end end).
      { intros. unfold encode_number. destruct s; [congruence|reflexivity]. }
      destruct CL as [CL|[CL|CL]]; [congruence| |].
      + left. exists (DTok TNum s). split; [apply vd_number, CL|]. intros c F C d. cbn [enc]. rewrite EN.
        pose proof (parse_number_complete s [] CL I) as P. rewrite app_nil_r in P. rewrite P.
        unfold R. cbn [render]. unfold paint. destruct (e_clrs c); cbn [app]; rewrite <- ?app_assoc; reflexivity.
      + right. split.
        * intros x V. inversion V; subst; [congruence|]. eapply (CL s []); [rewrite app_nil_r; reflexivity|assumption].
        * intros c F C d. cbn [enc]. rewrite EN. destruct (parse_number s) as [v r|r e] eqn:P.
          -- apply parse_number_sound in P. destruct P as [P1 P2]. destruct (CL _ _ P1 P2).
          -- apply parse_number_err in P. subst e. eexists _, _, _. split; [reflexivity|discriminate].
    - apply vok_verdict; [reflexivity|]. left. eexists. split; [constructor|]. intros c (<- & _) C. apply str_good. reflexivity.
    - apply vok_verdict; [reflexivity|]. left. destruct s as [s|]; eexists; (split; [constructor|]); intros c F C d; cbn [enc]; unfold encode_bytes, do_encode_bytes, R; cbn [render]; unfold paint.
      + destruct (e_clrs c); cbn [app]; rewrite <- ?app_assoc; reflexivity.
      + destruct C as [C|[]]. rewrite C. reflexivity.
    - apply vok_verdict; [reflexivity|]. left. eexists. split; [constructor|]. intros c F C d. cbn [enc]. unfold encode_time, R; cbn [render]; unfold paint, quote.
      destruct (e_clrs c); cbn [app]; rewrite <- ?app_assoc; cbn [app]; rewrite <- ?app_assoc; reflexivity.
    - apply vok_verdict; [reflexivity|]. apply all_map in CL. apply (array_vok l).
      + rewrite Forall_forall in *. intros x Hx. apply verdict_vok; [apply CL, Hx|]. eapply IH; [exact Hx|apply CL, Hx].
      + intros c F [C|C]; apply Forall_forall; intros x Hx; [left; exact C|right]. cbn [colors_clean] in C. apply all_map in C. rewrite Forall_forall in C. auto.
      + intros xs. constructor. assumption.
      + intros x V. inversion V; subst. eauto.
      + reflexivity.
    - apply vok_verdict; [reflexivity|]. left. eexists. split; [constructor|]. intros c F C. apply null_good.
    - apply vok_verdict; [reflexivity|]. apply all_map in CL. apply (array_vok l).
      + rewrite Forall_forall in *. intros x Hx. apply verdict_vok; [apply CL, Hx|]. eapply IH; [exact Hx|apply CL, Hx].
      + intros c F [C|C]; apply Forall_forall; intros x Hx; [left; exact C|right]. cbn [colors_clean] in C. apply all_map in C. rewrite Forall_forall in C. auto.
      + intros xs. constructor. assumption.
      + intros x V. inversion V; subst. eauto.
      + reflexivity.
    - apply vok_verdict; [reflexivity|]. left. eexists. split; [constructor|]. intros c F C. apply null_good.
    - (* maps *)
      apply vok_verdict; [reflexivity|]. apply all_map in CL. set (key := fun e : mkey * gval => key_text (fst e)).
      assert (HE : forall c, enc c (GMap (Some m)) = encode_map c true (map (epair c) (order (e_sort c) key m))).
      { intros c. cbn [enc]. f_equal. unfold order. destruct (e_sort c).
        - rewrite (sort_by_map (fun kv : mkey * gval => let (k, x) := kv in (k, enc c x)) _ key) by (intros [k x]; reflexivity).
          rewrite map_map. apply map_ext. intros [k x]; reflexivity.
        - rewrite map_map. apply map_ext. intros [k x]; reflexivity. }
      assert (HC : forall c, cok c (GMap (Some m)) -> Forall (ecok c) (order (e_sort c) key m)).
      { intros c C. eapply Permutation_Forall; [apply order_perm|]. destruct C as [C|C]; apply Forall_forall; intros [k x] Hx.
        - split; left; exact C.
        - cbn [colors_clean] in C. apply all_map in C. rewrite Forall_forall in C. apply C in Hx. split; right; apply Hx. }
      destruct (entries_verdict (order sorted key m)) as [(xs & V & G)|(N & G)].
      + eapply Permutation_Forall; [apply order_perm|]. rewrite Forall_forall in *. intros [k x] Hx. specialize (CL _ Hx). specialize (IH _ Hx). cbn [fst snd] in *.
        split; [apply CL|]. apply verdict_vok; [apply CL|]. eapply IH, CL.
      + left. exists (DObj ONormal xs). split; [eapply vd_map; [apply order_in_order|exact V]|]. intros c F C. rewrite HE. apply encode_map_good; [|reflexivity].
        assert (F' := F). destruct F' as (_ & <- & _). apply G; [exact F|apply HC, C].
      + right. split.
        * intros x V. inversion V; subst. eapply no_docs; [|eassumption]. eapply Exists_perm; [|exact N].
          etransitivity; [symmetry; apply order_perm|]. eapply in_order_perm; eassumption.
        * intros c F C. rewrite HE. assert (F' := F). destruct F' as (_ & <- & _). destruct (G c F (HC c C)). apply encode_map_bad; assumption.
    - apply vok_verdict; [reflexivity|]. left. eexists. split; [constructor|]. intros c F C. apply null_good.
    - (* map[string]interface{} *)
      apply vok_verdict; [reflexivity|]. apply all_map in CL.
      set (g := fun e : bytes * gval => (KString (fst e), snd e)).
      assert (HE : forall c, enc c (GMapSI (Some m)) = (if e_sort c then encode_map_break c else encode_map c false) (map (epair c) (map g (order (e_sort c) fst m)))).
      { intros c. cbn [enc]. unfold order. destruct (e_sort c).
        - rewrite (sort_by_map (fun kv : bytes * gval => let (k, x) := kv in (k, enc c x)) _ fst) by (intros [k x]; reflexivity).
          rewrite !map_map. f_equal. apply map_ext. intros [k x]; reflexivity.
        - rewrite !map_map. f_equal. apply map_ext. intros [k x]; reflexivity. }
      assert (HC : forall c, cok c (GMapSI (Some m)) -> Forall (ecok c) (map g (order (e_sort c) fst m))).
      { intros c C. apply Forall_map. eapply Permutation_Forall; [apply order_perm|]. destruct C as [C|C]; apply Forall_forall; intros [k x] Hx.
        - split; left; exact C.
        - cbn [colors_clean] in C. apply all_map in C. rewrite Forall_forall in C. apply C in Hx. split; right; [apply Hx|exact I]. }
      assert (HD : forall m xs, Forall2 (fun e x => fst x = (TKey, json_string html (fst e)) /\ vdoc (snd e) (snd x)) m xs <-> Forall2 edoc (map g m) xs).
      { clear. intros m xs. split; intros H.
        - apply Forall2_map_l. eapply Forall2_imp; [|exact H]. intros [k v] [[kt t] x] [E V]. cbn in E. injection E as -> ->. split; [constructor|exact V].
        - revert xs H. induction m as [|[k v] m IH]; intros xs H; inversion H as [|? [[kt t] x] ? ? [K V]]; subst; constructor; [|apply IH; assumption].
          cbn in K. inversion K; subst. split; [reflexivity|exact V]. }
      destruct (entries_verdict (map g (order sorted fst m))) as [(xs & V & G)|(N & G)].
      + apply Forall_map. eapply Permutation_Forall; [apply order_perm|]. rewrite Forall_forall in *. intros [k x] Hx. specialize (CL _ Hx). specialize (IH _ Hx). cbn [fst snd] in *.
        split; [apply CL|]. apply verdict_vok; [apply CL|]. eapply IH, CL.
      + left. exists (DObj ONormal xs). split; [eapply vd_mapsi; [apply order_in_order|apply HD, V]|]. intros c F C. rewrite HE.
        assert (F' := F). destruct F' as (_ & <- & _). specialize (G c F (HC c C)).
        destruct (e_sort c); [apply encode_map_break_good|apply encode_map_good; [|reflexivity]]; exact G.
      + right. split.
        * intros x V. destruct (mapsi_inv m x V) as (m' & xs & OR & V'). apply HD in V'. eapply no_docs; [|eassumption]. eapply Exists_perm; [|exact N].
          apply Permutation_map. etransitivity; [symmetry; apply order_perm|]. eapply in_order_perm; eassumption.
        * intros c F C. rewrite HE. assert (F' := F). destruct F' as (_ & <- & _). destruct (G c F (HC c C)).
          destruct (e_sort c); [apply encode_map_break_bad|apply encode_map_bad]; assumption.
    - (* map[string]RawMessage *)
      apply vok_verdict; [reflexivity|]. destruct m as [m|]; [|left; eexists; split; [constructor|]; intros c F C; apply null_good].
      set (g := fun e : bytes * option bytes => (KString (fst e), GRaw (snd e))).
      assert (HE : forall c, enc c (GMapSR (Some m)) = (if e_sort c then encode_map_break c else encode_map_swallow c) (map (epair c) (map g (order (e_sort c) fst m)))).
      { intros c. cbn [enc]. unfold order. rewrite map_map. destruct (e_sort c); reflexivity. }
      assert (HC : forall c, cok c (GMapSR (Some m)) -> Forall (ecok c) (map g (order (e_sort c) fst m))).
      { intros c C. apply Forall_map. eapply Permutation_Forall; [apply order_perm|]. destruct C as [C|C]; apply Forall_forall; intros [k x] Hx.
        - split; left; exact C.
        - cbn [colors_clean] in C. rewrite Forall_forall in C. apply C in Hx. split; right; [apply Hx|exact I]. }
      assert (HD : forall m xs, Forall2 (fun e x => fst x = (TKey, json_string html (fst e)) /\ vdoc (GRaw (snd e)) (snd x)) m xs <-> Forall2 edoc (map g m) xs).
      { clear. intros m xs. split; intros H.
        - apply Forall2_map_l. eapply Forall2_imp; [|exact H]. intros [k v] [[kt t] x] [E V]. cbn in E. injection E as -> ->. split; [constructor|exact V].
        - revert xs H. induction m as [|[k v] m IH]; intros xs H; inversion H as [|? [[kt t] x] ? ? [K V]]; subst; constructor; [|apply IH; assumption].
          cbn in K. inversion K; subst. split; [reflexivity|exact V]. }
      assert (CL' : Forall (fun e => match snd e with None => True | Some s => raw_clean trust s end) m).
      { eapply Forall_impl; [|exact CL]. intros [k [s|]] [_ H]; [|exact I]. cbn [snd] in *. destruct sorted; [exact H|]. destruct H as [W H]. split; [exact W|left; exact H]. }
      destruct (entries_verdict (map g (order sorted fst m))) as [(xs & V & G)|(N & G)].
      + apply Forall_map. eapply Permutation_Forall; [apply order_perm|]. rewrite Forall_forall in *. intros [k x] Hx. specialize (CL _ Hx). specialize (CL' _ Hx). cbn [fst snd g] in *.
        split; [apply CL|]. destruct (raw_verdict x CL') as [(y & Vy & Gy)|(Ny & By)]; [left; exists y|right]; (split; [assumption|]); intros c F C; cbn [enc]; auto.
      + left. exists (DObj ONormal xs). split; [eapply vd_mapsr; [apply order_in_order|apply HD, V]|]. intros c F C. rewrite HE.
        assert (F' := F). destruct F' as (_ & <- & _). specialize (G c F (HC c C)).
        destruct (e_sort c); [apply encode_map_break_good|apply encode_map_swallow_good]; exact G.
      + right. split.
        * intros x V. destruct (mapsr_inv m x V) as (m' & xs & OR & V'). apply HD in V'. eapply no_docs; [|eassumption]. eapply Exists_perm; [|exact N].
          apply Permutation_map. etransitivity; [symmetry; apply order_perm|]. eapply in_order_perm; eassumption.
        * intros c F C. rewrite HE. assert (F' := F). destruct F' as (_ & <- & _). destruct (G c F (HC c C)) as [O X].
          destruct (e_sort c); [apply encode_map_break_bad; assumption|].
          exfalso. apply Exists_exists in N. destruct N as (e & He & N). apply in_map_iff in He. destruct He as ([k x] & <- & Hx).
          cbn [order] in Hx. rewrite Forall_forall in CL. destruct (CL _ Hx) as [_ R']. cbn [fst snd] in *. destruct x as [s|].
          -- destruct R' as [W [a Ha]]. apply (N (TKey, json_string html k, jdoc html a)). split; cbn [fst snd g]; [constructor|]. apply vd_raw, Ha.
          -- apply (N (TKey, json_string html k, DTok TNull (bs "null"))). split; cbn [fst snd g]; constructor.
    - (* structs *)
      apply vok_verdict; [reflexivity|]. destruct CL as [(pre & post & E & Hpre & Hpost) CL]. apply all_map in CL.
      assert (HV : Forall (fun hv => verdict (snd hv)) fs).
      { rewrite Forall_forall in *. intros [h x] Hx. eapply IH; [exact Hx|]. apply (CL _ Hx). }
      assert (Z : fs = [] \/ fs <> []) by (destruct fs; [left|right]; congruence). destruct Z as [->|NE].
      { left. eexists. split; [constructor|]. intros c F C. apply encode_struct0_good. }
      assert (HC : forall c, cok c (GStruct fs) -> Forall (fun e => cok c (snd e)) fs).
      { intros c [C|C]; apply Forall_forall; intros [h x] Hx; [left; exact C|right]. cbn [colors_clean] in C. apply all_map in C. rewrite Forall_forall in C. apply (C _ Hx). }
      destruct (items_verdict fdoc (fun c e => cok c (snd e))
        (fun c e y => fst y = (TKey, json_string html (f_name (fst e))) /\ good c (enc c (snd e)) (snd y))
        (fun c e => bad (enc c (snd e))) (filter emitted fs)) as [(xs & V & G)|(N & G)].
      + apply Forall_forall. intros [h v] Hv. apply filter_In in Hv. destruct Hv as [Hv Em]. rewrite emitted_spec in Em. apply andb_true_iff in Em. destruct Em as [_ Ab].
        apply negb_true_iff in Ab. rewrite Forall_forall in HV. cbn [fst snd]. destruct (HV _ Hv) as [(_ & x & V & G)|[(A & _)|(_ & N & B)]]; cbn [snd] in *; [|congruence|].
        * left. exists (TKey, json_string html (f_name h), x). split; [split; [reflexivity|exact V]|]. intros c F C. split; [reflexivity|]. apply G; assumption.
        * right. split; [intros y [_ V]; eapply N; exact V|exact B].
      + left. exists (DObj OAllOmitted xs). split; [apply vd_struct; assumption|]. intros c F C. cbn [enc].
        change (map _ fs) with (fmap c fs). rewrite E. unfold fmap. rewrite map_app. apply encode_struct_good.
        * rewrite <- map_app, <- E. destruct fs; [congruence|discriminate].
        * apply Forall_map. apply Forall_forall. intros [h v] Hv. cbn [fst snd].
          assert (Em : emitted (h, v) = false).
          { destruct (emitted (h, v)) eqn:Em; [|reflexivity]. exfalso. assert (In (h, v) (filter emitted pre)) by (apply filter_In; auto). rewrite Hpre in *. contradiction. }
          rewrite emitted_spec in Em. apply andb_false_iff in Em. rewrite !negb_false_iff in Em. destruct Em as [Em|Em]; [left; exact Em|right]. apply absent_rolls, Em.
        * apply fields_post; [apply F|exact Hpost|]. specialize (G c F). rewrite E, filter_app, Hpre in G. apply G.
          cbn [app]. assert (HC' := HC c C). rewrite E in HC'. apply Forall_app in HC'. destruct HC' as [_ HC']. rewrite Forall_forall in *. intros e He. apply HC'. apply filter_In in He. apply He.
      + right. split.
        * intros x V. inversion V; subst; [congruence|]. eapply no_docs; eassumption.
        * intros c F C. cbn [enc]. change (map _ fs) with (fmap c fs).
          assert (HC' : Forall (fun e => cok c (snd e)) (filter emitted fs)).
          { pose proof (HC c C) as HC'. rewrite Forall_forall in *. intros e He. apply HC'. apply filter_In in He. apply He. }
          destruct (G c F HC') as [O X]. apply encode_struct_bad.
          -- apply Forall_map. apply Forall_forall. intros [h v] Hv. unfold field_ok. cbn [fst snd]. right. split; [apply enc_app_only|].
             rewrite Forall_forall in HV. pose proof (HC c C) as HC2. rewrite Forall_forall in HC2. specialize (HC2 _ Hv). destruct (HV _ Hv) as [(_ & x & V & G')|[(A & _ & Ro)|(_ & N' & B)]]; cbn [snd] in *.
             ++ left. exists x. apply G'; assumption.
             ++ right. left. apply Ro.
             ++ right. right. apply B; assumption.
          -- apply (Exists_map (fun hv : fhead * gval => let (h, x) := hv in (h, enc c x))). apply Exists_exists in X. destruct X as ([h v] & Hv & B). apply filter_In in Hv. destruct Hv as [Hv Em].
             apply Exists_exists. exists (h, v). split; [exact Hv|]. cbn [fst snd] in *. split; [|exact B]. rewrite emitted_spec in Em. apply andb_true_iff in Em. destruct Em as [Em _]. apply negb_true_iff, Em.
    - destruct o as [v|].
      + destruct CL as [_ CL]. cbn [optP] in IH. destruct (IH _ CL) as [(A & x & V & G)|[(A & N & Ro)|(A & N & B)]].
        * left. split; [exact A|]. exists x. split; [constructor; exact V|exact G].
        * right. left. split; [exact A|]. split; [intros x V; inversion V; subst; eapply N; eassumption|exact Ro].
        * right. right. split; [exact A|]. split; [intros x V; inversion V; subst; eapply N; eassumption|exact B].
      + right. left. split; [reflexivity|]. split; [intros x V; inversion V|]. intros c b d. reflexivity.
    - apply vok_verdict; [reflexivity|]. destruct o as [v|].
      + cbn [optP] in IH. destruct (verdict_vok v CL (IH _ CL)) as [(x & V & G)|(N & B)].
        * left. exists x. split; [constructor; exact V|exact G].
        * right. split; [intros x V; inversion V; subst; eapply N; eassumption|exact B].
      + left. eexists. split; [constructor|]. intros c F C. apply null_good.
    - apply vok_verdict; [reflexivity|]. destruct o as [v|].
      + cbn [optP] in IH. destruct (verdict_vok v CL (IH _ CL)) as [(x & V & G)|(N & B)].
        * left. exists x. split; [constructor; exact V|exact G].
        * right. split; [intros x V; inversion V; subst; eapply N; eassumption|exact B].
      + left. eexists. split; [constructor|]. intros c F C. apply null_good.
    - apply vok_verdict; [reflexivity|]. destruct (raw_verdict s) as [(x & V & G)|(N & B)].
      + destruct s; exact CL.
      + left. exists x. split; [exact V|exact G].
      + right. split; [exact N|]. intros c F _. apply B, F.
    - apply vok_verdict; [reflexivity|]. destruct r as [[s|e]|].
      + destruct (raw_verdict s) as [(x & V & G)|(N & B)].
        * destruct s; exact CL.
        * left. exists x. split; [constructor; exact V|exact G].
        * right. split; [intros x V; inversion V; subst; eapply N; eassumption|]. intros c F _. apply B, F.
      + right. split; [intros x V; inversion V|]. intros c F C. apply bad_const, CL.
      + left. eexists. split; [constructor|]. intros c F C. apply null_good.
    - apply vok_verdict; [reflexivity|]. destruct r as [[s|e]|].
      + left. eexists. split; [constructor|]. intros c (<- & _) C. apply str_good. reflexivity.
      + right. split; [intros x V; inversion V|]. intros c F C. apply bad_const, CL.
      + left. eexists. split; [constructor|]. intros c F C. apply null_good.
    - apply vok_verdict; [reflexivity|]. destruct (verdict_vok v CL (IH _ CL)) as [(x & V & G)|(N & B)].
      + left. exists (DQuote x). split; [constructor; exact V|]. intros c F [C|[]] d. cbn [enc]. unfold encode_to_string.
        rewrite (G c F (or_introl C) d). cbn [length skipn]. rewrite do_encode_string_app, skipn_len_app. cbn [firstn app].
        unfold R. cbn [render]. destruct F as (<- & _). reflexivity.
      + right. split; [intros x V; inversion V; subst; eapply N; eassumption|]. intros c F [C|[]] d. cbn [enc]. unfold encode_to_string.
        destruct (B c F (or_introl C) d) as (b0 & d0 & e & E & NE). rewrite E. eauto.
    - apply vok_verdict; [reflexivity|]. right. split; [intros x V; inversion V|]. intros c F C. apply bad_const. discriminate.
  Qed.
End main.
