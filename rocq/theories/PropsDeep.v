(** Theorems about the layout of parts: C104. *)
From Coq Require Import Permutation Sorted Lia.
From Verif Require Import Bytes ParseModel StringModel EncModel SpecRender SpecSum SpecDeep EncFacts RawFacts FlatFacts DeepFacts EncMain EncExtra PropsEnc PropsSum.
Local Open Scope Z_scope.

Section Deep.
Context (c : cfg) (p i : bytes).
Hypothesis IND : e_ind c = Some (Indenter false p i).
Let c2 := inside c p i.
Let cl := e_clrs c.

(** What an encoder called one level down does. *)
Definition sets (f : encf) (r : result) : Prop := forall b,
  match f b 1, r with
  | ER o d None, Some (inl o1) => o = b ++ o1 /\ d = 1
  | ER _ _ (Some e), Some (inr e1) => e = e1
  | EPanic, None => True
  | _, _ => False
  end.
Lemma enc_sets v : settled c2 v -> sets (enc c v) (outcome c2 v).
Proof.
  intros ST b. pose proof (enc_deep_ c c2 p i eq_refl eq_refl eq_refl eq_refl eq_refl IND eq_refl v b 0 ltac:(lia)) as X. change (0 + 1) with 1 in X.
  rewrite (C29_append_extends c2 v b 0) in X. unfold outcome. unfold settled in ST.
  destruct (enc c v b 1) as [o d e|], (enc c2 v [] 0) as [o' d' e'|]; cbn [dsim] in X; try contradiction; [|exact I].
  destruct X as (-> & -> & -> & _). destruct e'; [reflexivity|]. split; [reflexivity|]. rewrite (ST _ _ eq_refl). reflexivity.
Qed.
Lemma in_byte_is b a : in_byte c b a = b ++ [a].
Proof. unfold in_byte. now rewrite IND. Qed.
Lemma in_indent_1 b : in_indent c b 1 = b ++ p ++ i.
Proof. unfold in_indent. rewrite IND. cbn [i_disabled i_prefix i_indent]. change (Z.to_nat 1) with 1%nat. cbn [repeat_app]. now rewrite <- app_assoc. Qed.
Lemma in_indent_0 b : in_indent c b 0 = b ++ p.
Proof. unfold in_indent. rewrite IND. reflexivity. Qed.
Lemma in_push_0 : in_push c 0 = 1. Proof. unfold in_push. now rewrite IND. Qed.
Lemma in_pop_1 : in_pop c 1 = 0. Proof. unfold in_pop. now rewrite IND. Qed.
Local Notation lines os := (map (on_line p i) os).
(** What the loops do: the text added and the depth. *)
Definition adds (x : eres) (g : list bytes -> bytes) (r : option (list bytes + err)) : Prop :=
  match x, r with
  | ER o d None, Some (inl os) => o = g os /\ d = 1
  | ER _ _ (Some e), Some (inr e1) => e = e1
  | EPanic, None => True
  | _, _ => False
  end.
Lemma adds_ext x g g' r : (forall os, g os = g' os) -> adds x g r -> adds x g' r.
Proof. intros E. unfold adds. destruct x as [o d [|]|]; auto. destruct r as [[os|]|]; auto. now rewrite E. Qed.
Lemma adds_cons x g o rs : adds x (fun os => g (o :: os)) (all rs) -> adds x g (all (Some (inl o) :: rs)).
Proof. cbn [all]. unfold adds. destruct x as [b d [e|]|]; destruct (all rs) as [[os|e1]|]; auto. Qed.
Lemma array_adds fs rs : Forall2 sets fs rs -> forall first b, adds (array_elems c first fs b 1) (fun os => b ++ more c first (lines os)) (all rs).
Proof.
  induction 1 as [|f r fs rs S H IH]; intros first b; cbn [array_elems]; [cbn; now rewrite more_nil, app_nil_r|].
  cbv zeta. rewrite in_byte_is, in_indent_1.
  assert (X : (if first then b else append_punc (e_clrs c) b 44) = b ++ (if first then [] else comma (e_clrs c))) by (destruct first; [now rewrite app_nil_r|now rewrite punc_is, punc_44]).
  rewrite X. match goal with |- context [f ?y 1] => specialize (S y) end. destruct (f _ 1) as [o d' [e|]|]; destruct r as [[o1|e1]|]; try contradiction; try exact S.
  destruct S as [-> ->]. apply adds_cons. eapply adds_ext; [|apply IH]. intros os. cbv beta. cbn [map]. rewrite more_cons. cbn [more]. unfold on_line. rewrite <- !app_assoc. reflexivity.
Qed.
Definition entry (q : encf * encf) (r : result) : Prop := exists k s, (forall b d, fst q b d = ER (b ++ k) d None) /\ sets (snd q) s /\ r = then_ (fun o => k ++ colon cl ++ [32] ++ o) s.
Lemma map_adds_more fs rs : Forall2 entry fs rs -> forall b, adds (map_elems c false fs b 1) (fun os => b ++ more c false (lines os)) (all rs).
Proof.
  induction 1 as [|[fk fv] r fs rs (k & s & K & S & R) H IH]; intros b; cbn [map_elems]; [cbn; now rewrite app_nil_r|]. cbn [fst snd] in *.
  rewrite punc_is, punc_44, in_byte_is, in_indent_1. rewrite K. rewrite punc_is, punc_58, in_byte_is. match goal with |- context [fv ?y 1] => specialize (S y) end.
  destruct (fv _ 1) as [o d' [e|]|]; destruct s as [[o1|e1]|]; try contradiction; subst r; cbn [then_]; try exact S.
  destruct S as [-> ->]. apply adds_cons. eapply adds_ext; [|apply IH]. intros os. cbv beta. cbn [map]. rewrite more_cons. cbn [more]. unfold on_line, cl. rewrite <- !app_assoc. reflexivity.
Qed.
Lemma map_adds fs rs : fs <> [] -> Forall2 entry fs rs -> forall b, adds (map_elems c true fs (b ++ [10]) 1) (fun os => b ++ more c true (lines os)) (all rs).
Proof.
  intros NE H b. destruct H as [|[fk fv] r fs rs (k & s & K & S & R) H]; [congruence|]. cbn [map_elems fst snd] in *.
  rewrite in_indent_1. rewrite K. rewrite punc_is, punc_58, in_byte_is. match goal with |- context [fv ?y 1] => specialize (S y) end.
  destruct (fv _ 1) as [o d' [e|]|]; destruct s as [[o1|e1]|]; try contradiction; subst r; cbn [then_]; try exact S.
  destruct S as [-> ->]. apply adds_cons. eapply adds_ext; [|apply map_adds_more, H]. intros os. cbv beta. cbn [map]. rewrite more_cons. cbn [more]. unfold on_line, cl. rewrite <- !app_assoc. reflexivity.
Qed.
(** The first field follows a line break that is already there. *)
Definition more_fields (n : nat) (os : list bytes) : bytes := match n, os with O, [] => [10] | O, _ => more c true (lines os) | _, _ => more c false (lines os) end.
Lemma more_fields_cons n q os : more_fields n (q :: os) = more c (Nat.eqb n 0) (on_line p i q :: lines os).
Proof. destruct n; reflexivity. Qed.
Lemma struct_adds fs : reached c2 fs -> Forall (fun hv => settled c2 (snd hv)) fs -> forall n b,
  let x := struct_fields c n (map (fun hv => match hv with (h, x) => (h, enc c x) end) fs) (if Nat.eqb n 0 then b ++ [10] else b) 1 in
  adds (fst x) (fun os => b ++ more_fields n os) (all (concat (map (field_in c2) fs))) /\
  (forall os, all (concat (map (field_in c2) fs)) = Some (inl os) -> snd x = (n + length os)%nat).
Proof.
  intros R SE. induction R as [|[h v] fs RX R IH]; intros n b x; subst x; cbn [map struct_fields concat].
  { cbn. split; [|intros os E; injection E as <-; cbn; lia]. destruct n; cbn; rewrite ?app_nil_r; auto. }
  apply Forall_cons_iff in SE as [SX SE]. specialize (IH SE). unfold field_in at 1 3. cbn [fst snd] in *. destruct (f_omitempty h && f_empty h); [apply IH|].
  set (z := b ++ (if Nat.eqb n 0 then [] else comma (e_clrs c)) ++ [10]).
  match goal with |- context [in_indent c ?y 1] => assert (Y : y = z) by (unfold z; destruct (Nat.eqb n 0); [reflexivity|now rewrite punc_is, punc_44, in_byte_is, <- app_assoc]); rewrite Y end.
  pose (y := z). assert (Y' : y = b ++ (if Nat.eqb n 0 then [] else comma (e_clrs c)) ++ [10]) by reflexivity. change z with y. clearbody y. clear Y z. rename Y' into Y.
  unfold member_in. change (e_clrs c2) with (e_clrs c). change (e_html c2) with (e_html c). set (k := paint (e_clrs c) c_key (json_string (e_html c) (f_name h))).
  rewrite in_indent_1.
  replace (match e_clrs c with None => _ | Some cl => _ end) with ((y ++ p ++ i) ++ k) by (unfold k, paint, f_html, f_json, json_string; destruct (e_clrs c); destruct (e_html c); rewrite <- ?app_assoc; reflexivity).
  rewrite punc_is, punc_58, in_byte_is. pose proof (enc_sets v SX ((((y ++ p ++ i) ++ k) ++ colon (e_clrs c)) ++ [32])) as S.
  destruct (enc c v _ 1) as [o d' [e|]|]; destruct (outcome c2 v) as [[o1|e1]|]; try contradiction; cbn [then_ app].
  - subst e1. assert (NR : e <> ERollback) by (intros ->; now apply RX). cbn [all]. split; [|discriminate]. destruct e; try reflexivity. now destruct NR.
  - destruct S as [-> ->]. destruct (IH (Datatypes.S n) ((((((y ++ p ++ i) ++ k) ++ colon (e_clrs c)) ++ [32]) ++ o1))) as [A B]. cbn [Nat.eqb] in A, B. split.
    + apply adds_cons. eapply adds_ext; [|exact A]. intros os. cbv beta. cbn [more_fields].
      rewrite more_fields_cons.
      rewrite more_cons. cbn [more]. rewrite Y. unfold on_line. rewrite <- !app_assoc. reflexivity.
    + intros os E. cbn [all] in E. destruct (all (concat _)) as [[os'|]|]; try discriminate. injection E as <-. rewrite (B os' eq_refl). cbn [length]. lia.
  - cbn [all]. split; [exact I|discriminate].
Qed.

(** * C104: parts of an indented value *)
(** Arrays and slices. *)
Theorem C104_array l : l <> [] -> Forall (settled c2) l -> outcome c (GArray l) = then_ (array_in cl p i) (all (map (outcome c2) l)).
Proof.
  intros NE SE. unfold outcome at 1. cbn [enc]. unfold encode_array. rewrite punc_is, punc_91, in_push_0. cbn [app].
  pose proof (array_adds (map (enc c) l) (map (outcome c2) l)) as A. destruct l as [|x l]; [congruence|].
  specialize (A (FlatFacts.Forall2_maps sets (enc c) (outcome c2) (x :: l) (Forall_impl _ enc_sets SE)) true (lbrack (e_clrs c))). cbn [map] in A |- *.
  destruct (array_elems c true _ _ _) as [o d' [e|]|]; destruct (all _) as [[os|e1]|]; cbn [adds] in A; try contradiction; cbn [then_]; [congruence| |reflexivity].
  destruct A as [-> ->]. rewrite in_pop_1, in_byte_is, in_indent_0, punc_is, punc_93. unfold array_in, cl. cbn [more]. now rewrite <- !app_assoc.
Qed.
Theorem C104_slice l : l <> [] -> Forall (settled c2) l -> outcome c (GSlice (Some l)) = then_ (array_in cl p i) (all (map (outcome c2) l)).
Proof. intros NE SE. rewrite <- C104_array by assumption. reflexivity. Qed.
(** Structs. *)
Theorem C104_struct fs : fs <> [] -> reached c2 fs -> Forall (fun hv => settled c2 (snd hv)) fs ->
  outcome c (GStruct fs) = then_ (object_in cl p i) (all (concat (map (field_in c2) fs))).
Proof.
  intros NE R SE. unfold outcome at 1. cbn [enc]. unfold encode_struct. rewrite punc_is, punc_123, in_push_0. cbn [app].
  replace (match map _ fs with [] => _ | _ => _ end) with (lbrace (e_clrs c) ++ [10]) by (destruct fs; [congruence|]; cbn [map]; now rewrite in_byte_is).
  destruct (struct_adds fs R SE 0%nat (lbrace (e_clrs c))) as [A B]. cbn [Nat.eqb] in A, B. destruct (struct_fields c 0 _ _ _) as [r n]. cbn [fst snd] in A, B.
  destruct r as [o d' [e|]|]; destruct (all _) as [[os|e1]|]; cbn [adds] in A; try contradiction; cbn [then_]; [congruence| |reflexivity].
  destruct A as [-> ->]. specialize (B os eq_refl). cbn in B. subst n. rewrite in_pop_1. rewrite in_indent_0, punc_is, punc_125. unfold object_in, cl.
  destruct os as [|o os]; cbn [length Nat.eqb more_fields map join]; rewrite ?in_byte_is, <- !app_assoc; reflexivity.
Qed.
(** Maps: each order of the entries, or that of the keys. *)
Lemma entries_sets (m : list (bytes * gval)) : Forall (fun e => settled c2 (snd e)) m ->
  Forall2 entry (map (fun e : bytes * encf => (encode_key c (fst e), snd e)) (map (fun kv : bytes * gval => match kv with (k, x) => (k, enc c x) end) m)) (map (fun e => member_in c2 (fst e) (outcome c2 (snd e))) m).
Proof.
  induction 1 as [|[k x] m SX SE IH]; cbn [map fst snd]; constructor; [|exact IH]. eexists _, (outcome c2 x). split; [apply key_is|]. split; [now apply enc_sets|reflexivity].
Qed.
Theorem C104_map_unsorted m : e_sort c = false -> m <> [] -> Forall (fun e => settled c2 (snd e)) m ->
  outcome c (GMapSI (Some m)) = then_ (object_in cl p i) (all (map (fun e => member_in c2 (fst e) (outcome c2 (snd e))) m)).
Proof.
  intros SO NE SE. unfold outcome at 1. cbn [enc]. rewrite SO. unfold encode_map. rewrite punc_is, punc_123, in_push_0, in_byte_is. cbn [app].
  destruct m as [|[k x] m]; [congruence|].
  pose proof (fun NE => map_adds _ _ NE (entries_sets ((k, x) :: m) SE) (lbrace (e_clrs c))) as A. specialize (A ltac:(discriminate)). cbn [map] in A |- *.
  destruct (map_elems c true _ _ _) as [o d' [e|]|]; destruct (all _) as [[os|e1]|]; cbn [adds] in A; try contradiction; cbn [then_]; [congruence| |reflexivity].
  destruct A as [-> ->]. rewrite in_pop_1, in_byte_is, in_indent_0, punc_is, punc_125. unfold object_in, cl. cbn [more]. now rewrite <- !app_assoc.
Qed.
Theorem C104_map_sorted m m' : e_sort c = true -> m <> [] -> Forall (fun e => settled c2 (snd e)) m ->
  NoDup (map fst m) -> Permutation m m' -> StronglySorted (fun x y => bytes_ltb (fst y) (fst x) = false) m' ->
  outcome c (GMapSI (Some m)) = then_ (object_in cl p i) (all (map (fun e => member_in c2 (fst e) (outcome c2 (snd e))) m')).
Proof.
  intros SO NE SE ND PM ST. unfold outcome at 1. cbn [enc]. rewrite SO. unfold encode_map_break. rewrite punc_is, punc_123, in_push_0, in_byte_is. cbn [app].
  assert (E : sort_by fst (map (fun kv : bytes * gval => match kv with (k, x) => (k, enc c x) end) m) = map (fun kv : bytes * gval => match kv with (k, x) => (k, enc c x) end) m').
  { rewrite (sort_by_map _ fst fst) by (now intros []). f_equal. rewrite (sort_by_unique fst m m' PM ND). apply (sorted_unique fst).
    - apply sort_by_sorted.
    - exact ST.
    - symmetry. apply sort_by_perm.
    - eapply Permutation_NoDup; [|exact ND]. rewrite PM. apply Permutation_map, sort_by_perm. }
  rewrite E. clear E ST. assert (SE' : Forall (fun e => settled c2 (snd e)) m') by (rewrite <- PM; exact SE).
  destruct m' as [|[k x] m']; [apply Permutation_sym, Permutation_nil in PM; congruence|].
  pose proof (fun NE => map_adds _ _ NE (entries_sets ((k, x) :: m') SE') (lbrace (e_clrs c))) as A. specialize (A ltac:(discriminate)). cbn [map] in A |- *.
  destruct (map_elems c true _ _ _) as [o d' [e|]|]; destruct (all _) as [[os|e1]|]; cbn [adds] in A; try contradiction; cbn [then_]; [congruence| |reflexivity].
  destruct A as [-> ->]. rewrite in_pop_1, in_byte_is, in_indent_0, punc_is, punc_125. unfold object_in, cl. cbn [more]. now rewrite <- !app_assoc.
Qed.
End Deep.

(** An Indenter that an earlier call left at some depth is like one whose prefix has
    that many indents more: the same text, the same error. *)
Theorem C104_depth : forall c p i v b n, e_ind c = Some (Indenter false p i) ->
  sim (enc c v b (Z.of_nat n)) (enc (with_ind c (p ++ concat (repeat i n)) i) v b 0).
Proof.
  intros c p i v b n IND.
  assert (G : forall m k, sim (enc (with_ind c (p ++ concat (repeat i m)) i) v b (Z.of_nat k)) (enc (with_ind c (p ++ concat (repeat i (m + k))) i) v b 0)).
  { intros m k. revert m. induction k as [|k IH]; intros m.
    - rewrite Nat.add_0_r. change (Z.of_nat 0) with 0. destruct (enc _ v b 0); cbn; auto.
    - specialize (IH (S m)). replace (S m + k)%nat with (m + S k)%nat in IH by lia.
      assert (RA : p ++ concat (repeat i (S m)) = (p ++ concat (repeat i m)) ++ i).
      { rewrite <- app_assoc. f_equal. clear. induction m as [|m IH]; [cbn; now rewrite app_nil_r|]. cbn [repeat concat] in *. rewrite IH at 1. now rewrite app_assoc. }
      pose proof (enc_deep_ (with_ind c (p ++ concat (repeat i m)) i) (with_ind c (p ++ concat (repeat i (S m))) i) (p ++ concat (repeat i m)) i eq_refl eq_refl eq_refl eq_refl eq_refl eq_refl
        ltac:(unfold with_ind; cbn [e_ind]; now rewrite RA) v b (Z.of_nat k) ltac:(lia)) as X.
      replace (Z.of_nat (S k)) with (Z.of_nat k + 1) by lia.
      destruct (enc _ v b (Z.of_nat k + 1)) as [o d e|], (enc _ v b (Z.of_nat k)) as [o1 d1 e1|], (enc _ v b 0) as [o2 d2 e2|]; cbn [dsim sim] in *; try tauto. intuition congruence. }
  specialize (G 0%nat n). cbn [repeat concat Nat.add] in G. rewrite app_nil_r in G. replace (with_ind c p i) with c in G; [exact G|].
  destruct c. cbn in IND. subst. reflexivity.
Qed.
(** The values for which Append writes JSON leave the indenter as it was. *)
Theorem C104_settled : forall c v, clean (e_sort c) (e_trust c) false v -> (e_clrs c = None \/ colors_clean v) -> settled c v.
Proof.
  intros c v C K o d E. destruct (C33_encode_spec_partial c v [] 0 C K) as [(x & _ & H)|(_ & o' & d' & e & H)]; rewrite H in E; [|discriminate]. now injection E.
Qed.
(** A raw message that is trusted although it is cut short does not: what comes after it
    is laid out too deep. *)
Theorem C104_unsettled_refuted : exists c p i l os, e_ind c = Some (Indenter false p i) /\
  all (map (outcome (inside c p i)) l) = Some (inl os) /\ outcome c (GArray l) <> Some (inl (array_in (e_clrs c) p i os)).
Proof.
  exists (Cfg true true true None (Some (Indenter false [] (bs " "))) (fun _ _ _ => None)), [], (bs " "), [GRaw (Some (bs "[1")); GInt 2]. eexists.
  split; [reflexivity|]. split; [vm_compute; reflexivity|]. vm_compute. congruence.
Qed.
Print Assumptions C104_array.
Print Assumptions C104_slice.
Print Assumptions C104_struct.
Print Assumptions C104_map_unsorted.
Print Assumptions C104_map_sorted.
Print Assumptions C104_depth.
Print Assumptions C104_settled.
Print Assumptions C104_unsettled_refuted.

(** Non-vacuity: nested parts, prefix and indent. *)
Definition de_cfg (cl : option colors) (p : bytes) : cfg := Cfg true true false cl (Some (Indenter false p (bs "  "))) (fun _ _ _ => None).
Definition de_val : gval := GStruct [(FH (bs "a") false false, GArray [GInt 1; GNil]); (FH (bs "b") true true, GUnsupported);
  (FH (bs "c") false false, GMapSI (Some [(bs "y", GBool true); (bs "x", GSlice (Some [GRaw (Some (bs "[2]"))]))]))].
Example C104_holds : outcome (de_cfg None (bs ">")) (GArray [de_val; GNil]) = then_ (array_in None (bs ">") (bs "  ")) (all (map (outcome (de_cfg None (bs ">  "))) [de_val; GNil])) /\
  outcome (de_cfg None (bs ">  ")) (GArray [GInt 1; GNil]) = Some (inl (bs "[" ++ [10] ++ bs ">    1," ++ [10] ++ bs ">    null" ++ [10] ++ bs ">  ]")) /\
  Forall (settled (de_cfg (Some default_colors) (bs ">  "))) [de_val; GNil] /\ reached (de_cfg None (bs ">")) (match de_val with GStruct fs => fs | _ => [] end) /\
  outcome (de_cfg (Some default_colors) (bs ">")) (GArray [de_val; GUnsupported]) = Some (inr EUnsupportedType).
Proof.
  split; [vm_compute; reflexivity|]. split; [vm_compute; reflexivity|]. split; [|split].
  - repeat constructor; intros o d E; vm_compute in E; congruence.
  - cbn. unfold reached. repeat constructor; vm_compute; discriminate.
  - vm_compute. reflexivity.
Qed.
