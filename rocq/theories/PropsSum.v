(** Theorems about parts encoded as if alone: C101. *)
From Coq Require Import Permutation Sorted.
From Verif Require Import Bytes ParseModel StringModel EncModel SpecRender SpecSum EncFacts RawFacts FlatFacts EncMain EncExtra PropsEnc.

Section Sum.
Context (c : cfg).
Hypothesis FL : active (e_ind c) = None.
Definition out (r : eres) : result := match r with EPanic => None | ER o _ None => Some (inl o) | ER _ _ (Some e) => Some (inr e) end.
Definition steps (f : encf) (r : result) : Prop := forall b d, out (f b d) = then_ (app b) r.
Lemma enc_steps v : steps (enc c v) (outcome c v).
Proof.
  intros b d. rewrite C29_append_extends. unfold outcome. pose proof (enc_flat c c v (conj eq_refl (conj eq_refl (conj eq_refl (conj eq_refl (conj FL FL))))) [] d 0) as X.
  destruct (enc c v [] d) as [o d' e|], (enc c v [] 0) as [o' d'' e'|]; cbn [sim] in X; try contradiction; [|reflexivity]. destruct X as [-> ->]. destruct e'; reflexivity.
Qed.
Lemma raw_steps r : steps (encode_raw c r) (outcome c (GRaw r)).
Proof. exact (enc_steps (GRaw r)). Qed.
Definition tail (os : list bytes) : bytes := concat (map (app (comma (e_clrs c))) os).
Lemma join_tail o os : join (comma (e_clrs c)) (o :: os) = o ++ tail os.
Proof.
  revert o. induction os as [|p os IH]; intros o; [cbn; now rewrite app_nil_r|]. change (join (comma (e_clrs c)) (o :: p :: os)) with (o ++ comma (e_clrs c) ++ join (comma (e_clrs c)) (p :: os)).
  rewrite IH. unfold tail. cbn [map concat]. now rewrite <- app_assoc.
Qed.
Lemma punc_is cl b v : append_punc cl b v = b ++ append_punc cl [] v.
Proof. apply append_punc_app. Qed.
(** What the loops add, first or not. *)
Definition more (first : bool) (os : list bytes) : bytes := if first then join (comma (e_clrs c)) os else tail os.
Lemma more_cons first o os : more first (o :: os) = (if first then [] else comma (e_clrs c)) ++ o ++ tail os.
Proof. destruct first; cbn [more]; [apply join_tail|]. unfold tail. cbn [map concat]. now rewrite <- app_assoc. Qed.
Lemma more_nil first : more first [] = [].
Proof. now destruct first. Qed.
Lemma array_steps fs rs : Forall2 steps fs rs -> forall first b d, out (array_elems c first fs b d) = then_ (fun os => b ++ more first os) (all rs).
Proof.
  induction 1 as [|f r fs rs S H IH]; intros first b d; cbn [array_elems all]; [cbn [out then_]; now rewrite more_nil, app_nil_r|].
  rewrite flat_byte, flat_indent by exact FL. set (x := if first then b else append_punc (e_clrs c) b 44).
  assert (X : x = b ++ (if first then [] else comma (e_clrs c))) by (unfold x; destruct first; [now rewrite app_nil_r|now rewrite punc_is, punc_44]). clearbody x.
  specialize (S x d). destruct (f x d) as [o d' [e|]|]; cbn [out] in S |- *; destruct r as [[o1|e1]|]; cbn [then_] in S |- *; try discriminate; try congruence; try reflexivity.
  injection S as ->. rewrite IH. destruct (all rs) as [[os|e]|]; cbn [then_]; try reflexivity. rewrite more_cons. cbn [more]. rewrite X, <- !app_assoc. reflexivity.
Qed.
Lemma map_steps (fs : list (encf * encf)) rs : Forall2 (fun p r => exists k s, (forall b d, fst p b d = ER (b ++ k) d None) /\ steps (snd p) s /\ r = then_ (fun o => k ++ colon (e_clrs c) ++ o) s) fs rs ->
  forall first b d, out (map_elems c first fs b d) = then_ (fun os => b ++ more first os) (all rs).
Proof.
  induction 1 as [|[fk fv] r fs rs (k & s & K & S & R) H IH]; intros first b d; cbn [map_elems all]; [cbn [out then_]; now rewrite more_nil, app_nil_r|]. cbn [fst snd] in *.
  rewrite flat_byte, flat_indent by exact FL. set (x := if first then b else append_punc (e_clrs c) b 44).
  assert (X : x = b ++ (if first then [] else comma (e_clrs c))) by (unfold x; destruct first; [now rewrite app_nil_r|now rewrite punc_is, punc_44]). clearbody x.
  rewrite K; cbv beta iota zeta. rewrite flat_byte by exact FL. rewrite punc_is, punc_58. specialize (S ((x ++ k) ++ colon (e_clrs c)) d).
  destruct (fv _ d) as [o d' [e|]|]; cbn [out] in S |- *; destruct s as [[o1|e1]|]; cbn [then_] in S, R |- *; subst r; cbn [all then_]; try discriminate; try congruence; try reflexivity.
  injection S as ->. rewrite IH. destruct (all rs) as [[os|e]|]; cbn [then_]; try reflexivity. rewrite more_cons. cbn [more]. rewrite X, <- !app_assoc. reflexivity.
Qed.
Lemma key_is k b d : encode_key c k b d = ER (b ++ paint (e_clrs c) c_key (json_string (e_html c) k)) d None.
Proof.
  unfold encode_key, encode_str, paint, json_string. destruct (e_clrs c) as [cl|]; rewrite do_encode_string_app; [|reflexivity]. rewrite <- !app_assoc. reflexivity.
Qed.
Lemma struct_steps fs : reached c fs -> forall n b d,
  out (fst (struct_fields c n (map (fun hv => match hv with (h, x) => (h, enc c x) end) fs) b d)) = then_ (fun os => b ++ more (Nat.eqb n 0) os) (all (concat (map (field_of c) fs))).
Proof.
  induction 1 as [|[h x] fs RX _ IH]; intros n b d; cbn [map struct_fields concat]; [cbn [fst all out then_]; now rewrite more_nil, app_nil_r|].
  unfold field_of at 1. cbn [fst snd] in *. destruct (f_omitempty h && f_empty h); [apply IH|].
  rewrite flat_indent, !flat_byte by exact FL. set (y := if Nat.eqb n 0 then b else append_punc (e_clrs c) b 44).
  assert (Y : y = b ++ (if Nat.eqb n 0 then [] else comma (e_clrs c))) by (unfold y; destruct (Nat.eqb n 0); [now rewrite app_nil_r|now rewrite punc_is, punc_44]).
  unfold member_of. set (k := paint (e_clrs c) c_key (json_string (e_html c) (f_name h))).
  replace (match e_clrs c with None => _ | Some cl => _ end) with (y ++ k) by (unfold k, paint, f_html, f_json, json_string; destruct (e_clrs c); destruct (e_html c); rewrite <- ?app_assoc; reflexivity).
  rewrite punc_is, punc_58. pose proof (enc_steps x ((y ++ k) ++ colon (e_clrs c)) d) as S. clearbody y.
  destruct (enc c x _ d) as [o d' [e|]|]; cbn [out] in S |- *; destruct (outcome c x) as [[o1|e1]|]; cbn [then_] in S |- *; try discriminate.
  - injection S as ->. destruct e1; try reflexivity. now destruct RX.
  - injection S as ->. rewrite IH. cbn [app all]. destruct (all _) as [[os|e]|]; cbn [then_]; try reflexivity. rewrite more_cons. change (Nat.eqb (Datatypes.S n) 0) with false. cbn [more]. rewrite Y, <- !app_assoc. reflexivity.
  - reflexivity.
Qed.

(** * C101: a part is encoded as it would be alone *)
(** Arrays and slices. *)
Theorem C101_array l : outcome c (GArray l) = then_ (array_of (e_clrs c)) (all (map (outcome c) l)).
Proof.
  unfold outcome at 1. cbn [enc]. unfold encode_array. rewrite punc_is, punc_91. cbn [app].
  pose proof (array_steps (map (enc c) l) (map (outcome c) l)) as A. destruct l as [|x l]; [cbn [map all then_]; unfold array_of; rewrite punc_is, punc_93; reflexivity|].
  specialize (A (FlatFacts.Forall2_maps steps (enc c) (outcome c) (x :: l) (proj2 (Forall_forall _ _) (fun v _ => enc_steps v))) true (lbrack (e_clrs c)) (in_push c 0)). cbn [map] in A |- *.
  destruct (array_elems c true _ _ _) as [o d' [e|]|]; cbn [out] in A; destruct (all _) as [[os|e1]|]; cbn [then_] in A |- *; try discriminate; try congruence; try reflexivity.
  injection A as ->. rewrite flat_byte, flat_indent by exact FL. rewrite punc_is, punc_93. unfold array_of. cbn [more]. now rewrite <- app_assoc.
Qed.
Theorem C101_slice l : outcome c (GSlice (Some l)) = then_ (array_of (e_clrs c)) (all (map (outcome c) l)).
Proof. rewrite <- C101_array. reflexivity. Qed.
(** Structs. *)
Theorem C101_struct fs : reached c fs -> outcome c (GStruct fs) = then_ (object_of (e_clrs c)) (all (concat (map (field_of c) fs))).
Proof.
  intros R. unfold outcome at 1. cbn [enc]. unfold encode_struct. rewrite punc_is, punc_123. cbn [app]. rewrite !flat_byte by exact FL.
  replace (match map _ fs with [] => _ | _ => _ end) with (lbrace (e_clrs c)) by (now destruct fs).
  pose proof (struct_steps fs R 0%nat (lbrace (e_clrs c)) (in_push c 0)) as A. destruct (struct_fields c 0 _ _ _) as [r n]. cbn [fst] in A.
  destruct r as [o d' [e|]|]; cbn [out] in A; destruct (all _) as [[os|e1]|]; cbn [then_] in A |- *; try discriminate; try congruence; try reflexivity.
  injection A as ->. rewrite ?flat_byte, flat_indent by exact FL. replace (if Nat.eqb n 0 then _ else _) with (lbrace (e_clrs c) ++ more true os) by (now destruct n).
  rewrite punc_is, punc_125. unfold object_of. cbn [more]. now rewrite <- app_assoc.
Qed.
(** Maps: each order of the entries, or that of the keys. *)
Lemma entries_steps (m : list (bytes * gval)) :
  Forall2 (fun p r => exists k s, (forall b d, fst p b d = ER (b ++ k) d None) /\ steps (snd p) s /\ r = then_ (fun o => k ++ colon (e_clrs c) ++ o) s)
    (map (fun e : bytes * encf => (encode_key c (fst e), snd e)) (map (fun kv : bytes * gval => match kv with (k, x) => (k, enc c x) end) m)) (map (fun e => member_of c (fst e) (outcome c (snd e))) m).
Proof.
  induction m as [|[k x] m IH]; cbn [map fst snd]; constructor; [|exact IH]. eexists _, (outcome c x). split; [apply key_is|]. split; [apply enc_steps|reflexivity].
Qed.
Theorem C101_map_unsorted m : e_sort c = false -> outcome c (GMapSI (Some m)) = then_ (object_of (e_clrs c)) (all (map (fun e => member_of c (fst e) (outcome c (snd e))) m)).
Proof.
  intros SO. unfold outcome at 1. cbn [enc]. rewrite SO. unfold encode_map. rewrite punc_is, punc_123. cbn [app]. rewrite flat_byte by exact FL.
  destruct m as [|[k x] m]; [cbn [map all then_]; unfold object_of; rewrite punc_is, punc_125; reflexivity|].
  pose proof (map_steps _ _ (entries_steps ((k, x) :: m)) true (lbrace (e_clrs c)) (in_push c 0)) as A. cbn [map] in A |- *.
  destruct (map_elems c true _ _ _) as [o d' [e|]|]; cbn [out] in A; destruct (all _) as [[os|e1]|]; cbn [then_] in A |- *; try discriminate; try congruence; try reflexivity.
  injection A as ->. rewrite flat_byte, flat_indent by exact FL. rewrite punc_is, punc_125. unfold object_of. cbn [more]. now rewrite <- app_assoc.
Qed.
Theorem C101_map_sorted m m' : e_sort c = true -> NoDup (map fst m) -> Permutation m m' -> StronglySorted (fun x y => bytes_ltb (fst y) (fst x) = false) m' ->
  outcome c (GMapSI (Some m)) = then_ (object_of (e_clrs c)) (all (map (fun e => member_of c (fst e) (outcome c (snd e))) m')).
Proof.
  intros SO ND PM ST. unfold outcome at 1. cbn [enc]. rewrite SO. unfold encode_map_break. rewrite punc_is, punc_123. cbn [app]. rewrite flat_byte by exact FL.
  assert (E : sort_by fst (map (fun kv : bytes * gval => match kv with (k, x) => (k, enc c x) end) m) = map (fun kv : bytes * gval => match kv with (k, x) => (k, enc c x) end) m').
  { rewrite (sort_by_map _ fst fst) by (now intros []). f_equal. rewrite (sort_by_unique fst m m' PM ND). apply (sorted_unique fst).
    - apply sort_by_sorted.
    - exact ST.
    - symmetry. apply sort_by_perm.
    - eapply Permutation_NoDup; [|exact ND]. rewrite PM. apply Permutation_map, sort_by_perm. }
  rewrite E. clear E PM ST. destruct m' as [|[k x] m']; [cbn [map all then_]; unfold object_of; rewrite punc_is, punc_125; reflexivity|].
  pose proof (map_steps _ _ (entries_steps ((k, x) :: m')) true (lbrace (e_clrs c)) (in_push c 0)) as A. cbn [map] in A |- *.
  destruct (map_elems c true _ _ _) as [o d' [e|]|]; cbn [out] in A; destruct (all _) as [[os|e1]|]; cbn [then_] in A |- *; try discriminate; try congruence; try reflexivity.
  injection A as ->. rewrite flat_byte, flat_indent by exact FL. rewrite punc_is, punc_125. unfold object_of. cbn [more]. now rewrite <- app_assoc.
Qed.
(** The other kinds of maps are written like these. *)
Theorem C101_map_named m : outcome c (GMap (Some (map (fun e => (KString (fst e), snd e)) m))) = outcome c (GMapSI (Some m)).
Proof.
  unfold outcome. cbn [enc]. rewrite map_map.
  assert (E : forall l : list (bytes * gval), map (fun e : mkey * encf => (encode_mkey c (fst e), snd e)) (map (fun x : bytes * gval => (KString (fst x), enc c (snd x))) l) =
    map (fun e : bytes * encf => (encode_key c (fst e), snd e)) (map (fun kv : bytes * gval => match kv with (k, x) => (k, enc c x) end) l)).
  { intros l. rewrite !map_map. apply map_ext. now intros []. }
  destruct (e_sort c); [|rewrite E; unfold encode_map; match goal with |- context [match map ?f ?l with [] => _ | _ => _ end] => destruct (map f l) end; [reflexivity|]; destruct (map_elems c true _ _ _) as [? ? [|]|]; reflexivity].
  rewrite (sort_by_map _ _ fst) by reflexivity. rewrite E. rewrite (sort_by_map _ fst fst m) by (now intros []). unfold encode_map, encode_map_break.
  match goal with |- context [match map ?f ?l with [] => _ | _ => _ end] => destruct (map f l) end; [reflexivity|]. destruct (map_elems c true _ _ _) as [? ? [|]|]; reflexivity.
Qed.
Theorem C101_map_raw m : e_sort c = true -> outcome c (GMapSR (Some m)) = outcome c (GMapSI (Some (map (fun e => (fst e, GRaw (snd e))) m))).
Proof.
  intros SO. unfold outcome. cbn [enc]. rewrite SO, map_map. cbn [enc]. rewrite (sort_by_map _ fst fst m) by reflexivity. rewrite map_map. reflexivity.
Qed.
(** The string option. *)
Theorem C101_quoted v : outcome c (GQuoted v) = then_ (json_string (e_html c)) (outcome c v).
Proof.
  unfold outcome. cbn [enc]. unfold encode_to_string. destruct (enc c v [] 0) as [o d [e|]|]; try reflexivity. 
  cbn [length skipn firstn then_ app]. rewrite do_encode_string_app, skipn_len_app. reflexivity.
Qed.
End Sum.

(** Non-vacuity: nested, with failures. *)
Definition su_cfg : cfg := Cfg true true false (Some default_colors) None (fun _ _ _ => None).
Definition su_val : gval := GStruct [(FH (bs "a") false false, GArray [GInt 1; GNil]); (FH (bs "b") true true, GUnsupported);
  (FH (bs "c") false false, GMapSI (Some [(bs "y", GBool true); (bs "x", GSlice (Some [GString (bs "<")]))]))].
Example C101_holds : active (e_ind su_cfg) = None /\ (exists o, outcome su_cfg su_val = Some (inl o)) /\
  outcome (Cfg true true false None None (fun _ _ _ => None)) su_val = Some (inl (bs "{""a"":[1,null],""c"":{""x"":[""\u003c""],""y"":true}}")) /\
  outcome su_cfg (GArray [su_val; GUnsupported; GNil]) = Some (inr EUnsupportedType) /\
  match su_val with GStruct fs => reached su_cfg fs | _ => False end.
Proof.
  split; [reflexivity|]. split; [eexists; vm_compute; reflexivity|]. split; [vm_compute; reflexivity|]. split; [vm_compute; reflexivity|]. cbn. unfold reached. repeat constructor; vm_compute; discriminate.
Qed.
(** A map of raw messages that is not sorted drops errors instead. *)
Theorem C101_map_raw_refuted : ~ forall c m, active (e_ind c) = None -> outcome c (GMapSR (Some m)) = outcome c (GMapSI (Some (map (fun e => (fst e, GRaw (snd e))) m))).
Proof. intros H. specialize (H (Cfg true false false None None (fun _ _ _ => None)) [(bs "a", Some (bs "x"))] eq_refl). vm_compute in H. congruence. Qed.
(** A nil embedded pointer after another field leaves a comma. *)
Theorem C101_struct_refuted : exists c fs os, active (e_ind c) = None /\
  all (concat (map (field_of c) (filter (fun hv => match snd hv with GEmbPtr None => false | _ => true end) fs))) = Some (inl os) /\ outcome c (GStruct fs) <> Some (inl (object_of (e_clrs c) os)).
Proof.
  exists (Cfg true true false None None (fun _ _ _ => None)), [(FH (bs "a") false false, GNil); (FH (bs "b") false false, GEmbPtr None)]. eexists.
  split; [reflexivity|]. split; [vm_compute; reflexivity|]. vm_compute. congruence.
Qed.
Print Assumptions C101_array.
Print Assumptions C101_slice.
Print Assumptions C101_struct.
Print Assumptions C101_map_unsorted.
Print Assumptions C101_map_sorted.
Print Assumptions C101_map_named.
Print Assumptions C101_map_raw.
Print Assumptions C101_quoted.
Print Assumptions C101_map_raw_refuted.
Print Assumptions C101_struct_refuted.
