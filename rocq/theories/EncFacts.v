(** Facts about the encoder model. *)
From Coq Require Import Permutation Sorted.
From Verif Require Import Bytes Utf8Model ParseModel StringModel IntModel TokenModel EncModel SpecJson SpecString SpecTokens
  SpecRender ParseFacts Utf8Facts StringFacts IntFacts TokenFacts.

Ltac assoc := rewrite <- ?app_assoc; cbn [app]; rewrite <- ?app_assoc.

(** * Induction on values *)
Section gval_induction.
  Variable P : gval -> Prop.
  Definition optP (o : option gval) : Prop := match o with None => True | Some v => P v end.
  Hypothesis HNil : P GNil.
  Hypothesis HBool : forall b, P (GBool b).
  Hypothesis HInt : forall z, P (GInt z).
  Hypothesis HFloat : forall f, P (GFloat f).
  Hypothesis HNumber : forall s, P (GNumber s).
  Hypothesis HString : forall s, P (GString s).
  Hypothesis HBytes : forall s, P (GBytes s).
  Hypothesis HTime : forall t, P (GTime t).
  Hypothesis HArray : forall l, Forall P l -> P (GArray l).
  Hypothesis HSlice0 : P (GSlice None).
  Hypothesis HSlice : forall l, Forall P l -> P (GSlice (Some l)).
  Hypothesis HMap0 : P (GMap None).
  Hypothesis HMap : forall m, Forall (fun kv => P (snd kv)) m -> P (GMap (Some m)).
  Hypothesis HMapSI0 : P (GMapSI None).
  Hypothesis HMapSI : forall m, Forall (fun kv => P (snd kv)) m -> P (GMapSI (Some m)).
  Hypothesis HMapSR : forall m, P (GMapSR m).
  Hypothesis HStruct : forall fs, Forall (fun hv => P (snd hv)) fs -> P (GStruct fs).
  Hypothesis HEmb : forall o, optP o -> P (GEmbPtr o).
  Hypothesis HPtr : forall o, optP o -> P (GPtr o).
  Hypothesis HIface : forall o, optP o -> P (GIface o).
  Hypothesis HRaw : forall s, P (GRaw s).
  Hypothesis HMarshaler : forall r, P (GMarshaler r).
  Hypothesis HText : forall r, P (GText r).
  Hypothesis HQuoted : forall v, P v -> P (GQuoted v).
  Hypothesis HUnsupported : P GUnsupported.
  Fixpoint gval_rect' (v : gval) : P v :=
    let opt (o : option gval) : optP o := match o with None => I | Some x => gval_rect' x end in
    match v with
    | GNil => HNil
    | GBool b => HBool b
    | GInt z => HInt z
    | GFloat f => HFloat f
    | GNumber s => HNumber s
    | GString s => HString s
    | GBytes s => HBytes s
    | GTime t => HTime t
    | GArray l => HArray l ((fix go l : Forall P l :=
        match l with [] => Forall_nil _ | x :: l' => Forall_cons x (gval_rect' x) (go l') end) l)
    | GSlice None => HSlice0
    | GSlice (Some l) => HSlice l ((fix go l : Forall P l :=
        match l with [] => Forall_nil _ | x :: l' => Forall_cons x (gval_rect' x) (go l') end) l)
    | GMap None => HMap0
    | GMap (Some m) => HMap m ((fix go l : Forall (fun kv => P (snd kv)) l :=
        match l with [] => Forall_nil _ | x :: l' => Forall_cons x (gval_rect' (snd x)) (go l') end) m)
    | GMapSI None => HMapSI0
    | GMapSI (Some m) => HMapSI m ((fix go l : Forall (fun kv => P (snd kv)) l :=
        match l with [] => Forall_nil _ | x :: l' => Forall_cons x (gval_rect' (snd x)) (go l') end) m)
    | GMapSR m => HMapSR m
    | GStruct fs => HStruct fs ((fix go l : Forall (fun kv => P (snd kv)) l :=
        match l with [] => Forall_nil _ | x :: l' => Forall_cons x (gval_rect' (snd x)) (go l') end) fs)
    | GEmbPtr o => HEmb o (opt o)
    | GPtr o => HPtr o (opt o)
    | GIface o => HIface o (opt o)
    | GRaw s => HRaw s
    | GMarshaler r => HMarshaler r
    | GText r => HText r
    | GQuoted x => HQuoted x (gval_rect' x)
    | GUnsupported => HUnsupported
    end.
End gval_induction.

(** * Encoders only append *)
Definition pre (b : bytes) (r : eres) : eres :=
  match r with ER o d e => ER (b ++ o) d e | EPanic => EPanic end.
Definition app_only (f : encf) : Prop := forall b d, f b d = pre b (f [] d).
Lemma pre_app a b r : pre a (pre b r) = pre (a ++ b) r.
Proof. destruct r; cbn; [|reflexivity]. rewrite app_assoc. reflexivity. Qed.

Lemma append_punc_app cl b v : append_punc cl b v = b ++ append_punc cl [] v.
Proof. destruct cl; cbn; [|reflexivity]. assoc. reflexivity. Qed.
Lemma append_null_app cl b : append_null cl b = b ++ append_null cl [].
Proof. destruct cl; cbn -[lit_null]; [|reflexivity]. assoc. reflexivity. Qed.
Lemma append_bool_app cl b v : append_bool cl b v = b ++ append_bool cl [] v.
Proof. destruct cl, v; cbn -[lit_true lit_false]; assoc; reflexivity. Qed.
Lemma append_int_app cl b v : append_int cl b v = b ++ append_int cl [] v.
Proof. destruct cl; cbn; [|reflexivity]. assoc. reflexivity. Qed.
Lemma in_byte_app c b a : in_byte c b a = b ++ in_byte c [] a.
Proof. unfold in_byte. destruct (e_ind c) as [i|]; [destruct (i_disabled i)|]; cbn; rewrite ?app_nil_r; reflexivity. Qed.
Lemma repeat_app_spec n b s : repeat_app n b s = b ++ concat (repeat s n).
Proof. revert b. induction n; intros b; cbn; [rewrite app_nil_r; reflexivity|]. rewrite IHn, <- app_assoc. reflexivity. Qed.
Lemma in_indent_app c b d : in_indent c b d = b ++ in_indent c [] d.
Proof.
  unfold in_indent. destruct (e_ind c) as [i|]; [destruct (i_disabled i)|]; cbn; rewrite ?app_nil_r; try reflexivity.
  rewrite !repeat_app_spec. assoc. reflexivity.
Qed.
Lemma encode_string_loop_app html n b0 : forall b pend s,
  encode_string_loop n html (b0 ++ b) pend s =
  match encode_string_loop n html b pend s with Some o => Some (b0 ++ o) | None => None end.
Proof.
  induction n as [|n IH]; intros b pend s; destruct s as [|c s1]; cbn [encode_string_loop]; rewrite <- ?app_assoc; try reflexivity.
  repeat match goal with
  | |- (if ?x then _ else _) = _ => destruct x
  | |- (let '(r, size) := ?x in _) = _ => destruct x
  end; rewrite <- ?app_assoc; apply IH.
Qed.
Lemma do_encode_string_app html b s : do_encode_string html b s = b ++ do_encode_string html [] s.
Proof.
  unfold do_encode_string. rewrite encode_string_loop_app with (b := [34]). cbn [app].
  destruct (encode_string_loop (length s) html [34] [] s); [reflexivity|rewrite app_nil_r; reflexivity].
Qed.

Ltac flat := rewrite ?(append_punc_app _ (_ ++ _)), ?(append_null_app _ (_ ++ _)), ?(append_bool_app _ (_ ++ _)),
  ?(append_int_app _ (_ ++ _)), ?(in_byte_app _ (_ ++ _)), ?(in_indent_app _ (_ ++ _)), ?(do_encode_string_app _ (_ ++ _)).

Lemma fmt_e_len neg ds dp : exists p, exists a b c e, fmt_e neg ds dp = p ++ [a; b; c; e].
Proof.
  assert (L : (4 <= length (fmt_e neg ds dp))%nat).
  { unfold fmt_e. cbv zeta. rewrite !app_length. cbn [length]. rewrite app_length.
    destruct (Z.abs (dp - 1) <? 10) eqn:E; cbn [length].
    - assert (1 <= length (utoa (Z.abs (dp - 1))))%nat; [|lia].
      destruct (utoa (Z.abs (dp - 1))) eqn:U; [|cbn; lia]. exfalso.
      unfold utoa in U. revert U. generalize (Z.to_nat (Z.log2 (Z.abs (dp - 1)))) as n. generalize (Z.abs (dp - 1)) as z.
      assert (G : forall n z acc, acc <> [] -> utoa_f n z acc <> []).
      { induction n as [|n IH]; intros z acc H; cbn [utoa_f]; [exact H|]. destruct (z <? 10); [discriminate|].
        apply IH. discriminate. }
      intros z n U. cbn [utoa_f] in U. destruct (z <? 10); [discriminate|]. revert U. apply G. discriminate.
    - apply Z.ltb_ge in E. assert (2 <= length (utoa (Z.abs (dp - 1))))%nat; [|lia].
      unfold utoa. revert E. generalize (Z.abs (dp - 1)) as z. intros z E.
      assert (G : forall n z acc, (length acc <= length (utoa_f n z acc))%nat).
      { induction n as [|n IH]; intros y acc; cbn [utoa_f]; [lia|]. destruct (y <? 10); [cbn; lia|].
        etransitivity; [|apply IH]. cbn; lia. }
      assert (3 <= Z.log2 z) by (change 3 with (Z.log2 10); apply Z.log2_le_mono; lia).
      destruct (Z.to_nat (Z.log2 z)) as [|n] eqn:En; [lia|]. cbn [utoa_f].
      replace (z <? 10) with false by (symmetry; apply Z.ltb_ge; lia).
      destruct (z / 10 <? 10); [cbn; lia|]. etransitivity; [|apply G]. cbn. lia. }
  set (l := fmt_e neg ds dp) in *. clearbody l.
  exists (firstn (length l - 4) l). pose proof (firstn_skipn (length l - 4) l) as FS.
  pose proof (skipn_length (length l - 4) l) as S.
  destruct (skipn (length l - 4) l) as [|a [|b [|c [|e [|f q]]]]]; cbn [length] in S; try lia. symmetry in FS. eauto 6.
Qed.
Lemma clean_exp_snoc p a b c e : clean_exp (p ++ [a; b; c; e]) =
  if (a =? 101) && (b =? 45) && (c =? 48) then p ++ [a; b; e] else p ++ [a; b; c; e].
Proof.
  unfold clean_exp. rewrite app_length. cbn [length].
  replace (length p + 4 - 4)%nat with (length p) by lia. replace (length p + 4 - 3)%nat with (length p + 1)%nat by lia.
  replace (length p + 4 - 2)%nat with (length p + 2)%nat by lia. replace (length p + 4 - 1)%nat with (length p + 3)%nat by lia.
  replace (Nat.leb 4 (length p + 4)) with true by (symmetry; apply Nat.leb_le; lia).
  replace (nth (length p) (p ++ [a; b; c; e]) 0) with a by (rewrite app_nth2, Nat.sub_diag by lia; reflexivity).
  replace (nth (length p + 1) (p ++ [a; b; c; e]) 0) with b
    by (rewrite app_nth2 by lia; replace (length p + 1 - length p)%nat with 1%nat by lia; reflexivity).
  replace (nth (length p + 2) (p ++ [a; b; c; e]) 0) with c
    by (rewrite app_nth2 by lia; replace (length p + 2 - length p)%nat with 2%nat by lia; reflexivity).
  replace (nth (length p + 3) (p ++ [a; b; c; e]) 0) with e
    by (rewrite app_nth2 by lia; replace (length p + 3 - length p)%nat with 3%nat by lia; reflexivity).
  cbn [andb]. destruct ((a =? 101) && (b =? 45) && (c =? 48)); [|reflexivity].
  rewrite firstn_app. replace (length p + 2 - length p)%nat with 2%nat by lia.
  rewrite firstn_all2 by lia. cbn [firstn]. assoc. reflexivity.
Qed.
Lemma clean_exp_app q neg ds dp : clean_exp (q ++ fmt_e neg ds dp) = q ++ clean_exp (fmt_e neg ds dp).
Proof.
  destruct (fmt_e_len neg ds dp) as (p & a & b & c & e & ->). rewrite app_assoc, !clean_exp_snoc.
  destruct ((a =? 101) && (b =? 45) && (c =? 48)); assoc; reflexivity.
Qed.
Lemma encode_float_app b f : encode_float b f = (b ++ fst (encode_float [] f), snd (encode_float [] f)).
Proof.
  destruct f as [|n|n|n ds dp]; cbn [encode_float fst snd app]; rewrite ?app_nil_r; try reflexivity.
  destruct ((dp <? -5) || (21 <? dp)); cbn [fst snd]; [|reflexivity]. rewrite clean_exp_app. reflexivity.
Qed.

Lemma ao_const (g : bytes -> bytes) e : (forall b, g b = b ++ g []) -> app_only (fun b d => ER (g b) d e).
Proof. intros H b d. cbn. rewrite H. reflexivity. Qed.
Lemma ao_err e : app_only (fun b d => ER b d (Some e)).
Proof. apply (ao_const (fun b => b)). intros b. rewrite app_nil_r. reflexivity. Qed.
Lemma ao_float c f : app_only (encode_float_c c f).
Proof.
  intros b d. unfold encode_float_c. destruct (e_clrs c) as [k|].
  - rewrite (encode_float_app (b ++ _)), (encode_float_app ([] ++ _)). cbn. assoc. reflexivity.
  - rewrite (encode_float_app b). destruct (encode_float [] f). reflexivity.
Qed.
Lemma ao_number c n : app_only (encode_number c n).
Proof.
  intros b d. unfold encode_number. set (n' := match n with [] => [48] | _ => n end). cbv zeta.
  destruct (parse_number n'); [|cbn; rewrite app_nil_r; reflexivity].
  destruct (e_clrs c); cbn; assoc; reflexivity.
Qed.
Lemma ao_str c clr s : app_only (encode_str c clr s).
Proof.
  intros b d. unfold encode_str. destruct (e_clrs c) as [k|].
  - rewrite (do_encode_string_app _ (b ++ _)), (do_encode_string_app _ ([] ++ _)). cbn. assoc. reflexivity.
  - rewrite (do_encode_string_app _ b). reflexivity.
Qed.
Lemma firstn_len_app {A} (a b : list A) : firstn (length a) (a ++ b) = a.
Proof. apply firstn_app_len. reflexivity. Qed.
Lemma skipn_len_app {A} (a b : list A) : skipn (length a) (a ++ b) = b.
Proof. apply skipn_app_len. reflexivity. Qed.
Lemma ao_to_string c f : app_only f -> app_only (encode_to_string c f).
Proof.
  intros Hf b d. unfold encode_to_string. rewrite (Hf b d). destruct (f [] d) as [o d' [e|]|]; cbn [pre]; try reflexivity.
  rewrite skipn_len_app. rewrite (do_encode_string_app _ (b ++ o)), (do_encode_string_app _ o). cbn [length firstn skipn].
  rewrite !skipn_len_app, <- app_assoc, firstn_len_app. reflexivity.
Qed.
Lemma ao_bytes c v : app_only (encode_bytes c v).
Proof.
  intros b d. unfold encode_bytes, do_encode_bytes. destruct (e_clrs c) as [k|], v as [v|]; cbn; assoc; reflexivity.
Qed.
Lemma ao_time c t : app_only (encode_time c t).
Proof. intros b d. unfold encode_time. destruct (e_clrs c); cbn; assoc; reflexivity. Qed.

Lemma array_elems_app c fs : Forall app_only fs -> forall first b d,
  array_elems c first fs b d = pre b (array_elems c first fs [] d).
Proof.
  induction 1 as [|f fs Hf H IH]; intros first b d; cbn [array_elems].
  - cbn. rewrite app_nil_r. reflexivity.
  - set (x := fun b => in_indent c (in_byte c (if first then b else append_punc (e_clrs c) b 44) 10) d).
    assert (X : forall b, x b = b ++ x []).
    { intros b0. unfold x. destruct first; rewrite ?(append_punc_app _ b0);
      rewrite (in_byte_app _ (_ ++ _)) || rewrite (in_byte_app c b0); rewrite in_indent_app, (in_indent_app c (in_byte _ _ _));
      rewrite ?(in_byte_app c (append_punc _ _ _)); assoc; reflexivity. }
    fold (x b) (x []). rewrite (Hf (x b)), (Hf (x [])), X.
    destruct (f [] d) as [o d' [e|]|]; cbn [pre]; assoc; try reflexivity.
    rewrite IH, (IH _ (_ ++ _)). rewrite pre_app. assoc. reflexivity.
Qed.
Lemma ao_array c fs : Forall app_only fs -> app_only (encode_array c fs).
Proof.
  intros H b d. unfold encode_array. rewrite (append_punc_app _ b). destruct fs as [|f fs].
  - rewrite (append_punc_app _ (_ ++ _)), (append_punc_app _ (append_punc _ [] _)). cbn [pre]. assoc. reflexivity.
  - rewrite (array_elems_app c _ H _ (b ++ _)), (array_elems_app c _ H _ (append_punc _ _ _)).
    destruct (array_elems c true (f :: fs) [] (in_push c d)) as [o d' [e|]|]; cbn [pre]; [| |reflexivity].
    + cbn [length firstn]. rewrite <- app_assoc, firstn_len_app, app_nil_r. reflexivity.
    + f_equal. rewrite append_punc_app, in_indent_app, in_byte_app. symmetry.
      rewrite append_punc_app, in_indent_app, in_byte_app. assoc. reflexivity.
Qed.

Lemma map_elems_app c fs : Forall (fun p => app_only (fst p) /\ app_only (snd p)) fs -> forall first b d,
  map_elems c first fs b d = pre b (map_elems c first fs [] d).
Proof.
  induction 1 as [|[fk fv] fs [Hk Hv] H IH]; intros first b d; cbn [map_elems].
  - cbn. rewrite app_nil_r. reflexivity.
  - cbn [fst snd] in *.
    set (x := fun b => in_indent c (if first then b else in_byte c (append_punc (e_clrs c) b 44) 10) d).
    assert (X : forall b, x b = b ++ x []).
    { intros b0. unfold x. destruct first; [apply in_indent_app|].
      rewrite in_indent_app, in_byte_app, append_punc_app. symmetry.
      rewrite in_indent_app, in_byte_app. assoc. reflexivity. }
    fold (x b) (x []). rewrite (Hk (x b)), (Hk (x [])), X.
    destruct (fk [] d) as [o d' [e|]|]; cbn [pre]; assoc; try reflexivity.
    set (y := fun b => in_byte c (append_punc (e_clrs c) b 58) 32).
    assert (Y : forall b, y b = b ++ y []).
    { intros b0. unfold y. rewrite in_byte_app, append_punc_app. symmetry. rewrite in_byte_app. assoc. reflexivity. }
    fold (y (b ++ x [] ++ o)) (y (x [] ++ o)).
    rewrite (Hv (y (b ++ _))), (Hv (y (x [] ++ _))), (Y (b ++ _)), (Y (x [] ++ o)).
    destruct (fv [] d') as [o2 d2 [e2|]|]; cbn [pre]; assoc; try reflexivity.
    rewrite IH, (IH _ (x [] ++ _)). rewrite pre_app. assoc. reflexivity.
Qed.
Lemma ao_map c cut fs : Forall (fun p => app_only (fst p) /\ app_only (snd p)) fs -> app_only (encode_map c cut fs).
Proof.
  intros H b d. unfold encode_map. rewrite (append_punc_app _ b). destruct fs as [|f fs].
  - rewrite (append_punc_app _ (_ ++ _)), (append_punc_app _ (append_punc _ [] _)). cbn [pre]. assoc. reflexivity.
  - rewrite (in_byte_app _ (_ ++ _)). rewrite (map_elems_app c _ H _ (_ ++ _)), (map_elems_app c _ H _ (in_byte _ _ _)).
    rewrite (in_byte_app _ (append_punc _ _ _)).
    destruct (map_elems c true (f :: fs) [] (in_push c d)) as [o d' [e|]|]; cbn [pre]; [| |reflexivity].
    + cbn [length firstn]. destruct cut; assoc; [|reflexivity]. rewrite firstn_len_app, app_nil_r. reflexivity.
    + f_equal. rewrite append_punc_app, in_indent_app, in_byte_app. symmetry.
      rewrite append_punc_app, in_indent_app, in_byte_app. assoc. reflexivity.
Qed.
Lemma ao_map_break c fs : Forall (fun p => app_only (fst p) /\ app_only (snd p)) fs -> app_only (encode_map_break c fs).
Proof.
  intros H b d. unfold encode_map_break. rewrite (append_punc_app _ b). destruct fs as [|f fs].
  - rewrite (append_punc_app _ (_ ++ _)), (append_punc_app _ (append_punc _ [] _)). cbn [pre]. assoc. reflexivity.
  - rewrite (in_byte_app _ (_ ++ _)). rewrite (map_elems_app c _ H _ (_ ++ _)), (map_elems_app c _ H _ (in_byte _ _ _)).
    rewrite (in_byte_app _ (append_punc _ _ _)).
    destruct (map_elems c true (f :: fs) [] (in_push c d)) as [o d' [e|]|]; cbn [pre]; [| |reflexivity].
    + cbn [length firstn]. assoc. rewrite firstn_len_app, app_nil_r. reflexivity.
    + f_equal. rewrite append_punc_app, in_indent_app, in_byte_app. symmetry.
      rewrite append_punc_app, in_indent_app, in_byte_app. assoc. reflexivity.
Qed.
Lemma ao_map_swallow c fs : Forall (fun p => app_only (fst p) /\ app_only (snd p)) fs -> app_only (encode_map_swallow c fs).
Proof.
  intros H b d. unfold encode_map_swallow. rewrite (append_punc_app _ b). destruct fs as [|f fs].
  - rewrite (append_punc_app _ (_ ++ _)), (append_punc_app _ (append_punc _ [] _)). cbn [pre]. assoc. reflexivity.
  - rewrite (in_byte_app _ (_ ++ _)). rewrite (map_elems_app c _ H _ (_ ++ _)), (map_elems_app c _ H _ (in_byte _ _ _)).
    rewrite (in_byte_app _ (append_punc _ _ _)).
    destruct (map_elems c true (f :: fs) [] (in_push c d)) as [o d' e|]; cbn [pre]; [|reflexivity].
    f_equal. rewrite append_punc_app, in_indent_app, in_byte_app. symmetry.
    rewrite append_punc_app, in_indent_app, in_byte_app. assoc. reflexivity.
Qed.

Lemma struct_fields_app c fs : Forall (fun p => app_only (snd p)) fs -> forall n b d,
  struct_fields c n fs b d = (pre b (fst (struct_fields c n fs [] d)), snd (struct_fields c n fs [] d)).
Proof.
  induction 1 as [|[h f] fs Hf H IH]; intros n b d; cbn [struct_fields].
  - cbn. rewrite app_nil_r. reflexivity.
  - cbn [snd] in Hf. destruct (f_omitempty h && f_empty h); [apply IH|].
    set (x := fun b => if Nat.eqb n 0 then b else in_byte c (append_punc (e_clrs c) b 44) 10).
    assert (X : forall b, x b = b ++ x []).
    { intros b0. unfold x. destruct (Nat.eqb n 0); [rewrite app_nil_r; reflexivity|].
      rewrite in_byte_app, append_punc_app. symmetry. rewrite in_byte_app. assoc. reflexivity. }
    fold (x b) (x []).
    set (k := if e_html c then f_html h else f_json h).
    set (y := fun b => in_byte c (append_punc (e_clrs c)
        (match e_clrs c with None => in_indent c b d ++ k | Some cl => ((in_indent c b d ++ c_key cl) ++ k) ++ ansi_reset end) 58) 32).
    assert (Y : forall b, y b = b ++ y []).
    { intros b0. unfold y. rewrite in_byte_app, append_punc_app, in_indent_app. symmetry.
      rewrite in_byte_app, append_punc_app. destruct (e_clrs c); assoc; reflexivity. }
    fold (y (x b)) (y (x [])).
    rewrite (Hf (y (x b))), (Hf (y (x []))), (Y (x b)), (Y (x [])), (X b).
    destruct (f [] d) as [o d' [e|]|]; cbn [pre].
    + destruct e; cbn [fst snd pre]; assoc; try reflexivity.
      rewrite app_length. rewrite (app_assoc b), <- app_length, firstn_len_app.
      rewrite firstn_len_app. rewrite (IH n (b ++ x [])), (IH n (x [])). cbn [fst snd]. rewrite pre_app. reflexivity.
    + rewrite (IH (S n) (((b ++ x []) ++ y []) ++ o)), (IH (S n) ((x [] ++ y []) ++ o)). cbn [fst snd]. rewrite pre_app. assoc. reflexivity.
    + reflexivity.
Qed.
Lemma ao_struct c fs : Forall (fun p => app_only (snd p)) fs -> app_only (encode_struct c fs).
Proof.
  intros H b d. unfold encode_struct.
  set (x := fun b => match fs with [] => append_punc (e_clrs c) b 123 | _ => in_byte c (append_punc (e_clrs c) b 123) 10 end).
  assert (X : forall b, x b = b ++ x []).
  { intros b0. unfold x. destruct fs; [apply append_punc_app|]. rewrite in_byte_app, append_punc_app. symmetry.
    rewrite in_byte_app. assoc. reflexivity. }
  fold (x b) (x []). rewrite (struct_fields_app c fs H _ (x b)), (struct_fields_app c fs H _ (x [])), (X b).
  destruct (struct_fields c 0 fs [] (in_push c d)) as [[o d' [e|]|] n]; cbn [pre fst snd]; [| |reflexivity].
  - cbn [length firstn]. rewrite <- app_assoc, firstn_len_app, app_nil_r. reflexivity.
  - f_equal. rewrite append_punc_app, in_indent_app. symmetry. rewrite append_punc_app, in_indent_app.
    destruct (Nat.eqb n 0); [assoc; reflexivity|]. rewrite !(in_byte_app _ (_ ++ _)). assoc. reflexivity.
Qed.

Lemma compact_html_app src : forall dst pend i e k, compact_html dst pend i e k src = dst ++ compact_html [] pend i e k src.
Proof.
  induction src as [|c src IH]; intros dst pend i e k; cbn [compact_html]; [reflexivity|].
  destruct k as [|k]; [|apply IH].
  repeat match goal with
  | |- (if ?x then _ else _) = _ => destruct x
  end; try apply IH; rewrite IH; symmetry; rewrite IH; cbn [app]; rewrite <- ?app_assoc; reflexivity.
Qed.
Lemma ach_app dst src : append_compact_escape_html dst src = dst ++ append_compact_escape_html [] src.
Proof. apply compact_html_app. Qed.
Lemma verbatim_app c b s d : append_raw_verbatim c b s d = b ++ append_raw_verbatim c [] s d.
Proof.
  unfold append_raw_verbatim. destruct (match e_ind c with None => true | Some i => i_disabled i end).
  - destruct (e_html c); [apply ach_app|reflexivity].
  - destruct (e_stdindent c _ _ _); reflexivity.
Qed.
Lemma raw_prefix_app c b d st k : raw_prefix c b d st k = (b ++ fst (raw_prefix c [] d st k), snd (raw_prefix c [] d st k)).
Proof.
  destruct st as [|[o n] st]; cbn [raw_prefix fst snd]; [rewrite app_nil_r; reflexivity|].
  destruct (o && negb k); cbn [fst snd]; [rewrite app_nil_r; reflexivity|]. f_equal.
  destruct (Nat.eqb n 0); rewrite in_indent_app, in_byte_app, ?(append_punc_app _ b); symmetry;
    rewrite in_indent_app, ?(in_byte_app _ (append_punc _ _ _)); assoc; reflexivity.
Qed.
Lemma raw_scalar_app c b v k : raw_scalar c b v k = b ++ raw_scalar c [] v k.
Proof.
  unfold raw_scalar. destruct (e_clrs c).
  - destruct (e_html c && rv_string v); [rewrite ach_app; symmetry; rewrite ach_app|]; cbn [app]; assoc; reflexivity.
  - destruct (e_html c && rv_string v); [apply ach_app|reflexivity].
Qed.
Definition rpre (b : bytes) (r : rawres) : rawres :=
  match r with RawDone o d e => RawDone (b ++ o) d e | RawPanic => RawPanic | RawFuel => RawFuel end.
Lemma rpre_app a b r : rpre a (rpre b r) = rpre (a ++ b) r.
Proof. destruct r; cbn; [|reflexivity|reflexivity]. rewrite app_assoc. reflexivity. Qed.
Lemma raw_loop_app n c : forall t st b d, raw_loop n c t st b d = rpre b (raw_loop n c t st [] d).
Proof.
  induction n as [|n IH]; intros t st b d; cbn [raw_loop]; [reflexivity|].
  destruct (tok_next t) as [[t' [|]]|]; [|cbn; rewrite app_nil_r; reflexivity|reflexivity].
  destruct (t_delim t' =? 58).
  { rewrite IH, in_byte_app, append_punc_app. symmetry. rewrite IH, in_byte_app, rpre_app. f_equal. assoc. reflexivity. }
  destruct (t_delim t' =? 44); [apply IH|].
  destruct ((t_delim t' =? 125) || (t_delim t' =? 93)).
  { rewrite IH. symmetry. rewrite IH, rpre_app. f_equal. rewrite append_punc_app. symmetry. rewrite append_punc_app.
    destruct (match st with [] => false | (_, k) :: _ => negb (Nat.eqb k 0) end); [|assoc; reflexivity].
    rewrite in_indent_app, in_byte_app. symmetry. rewrite in_indent_app. assoc. reflexivity. }
  rewrite raw_prefix_app. destruct (raw_prefix c [] d st ((t_delim t' =? 0) && t_IsKey t')) as [p st']. cbn [fst snd].
  destruct ((t_delim t' =? 123) || (t_delim t' =? 91)).
  - rewrite IH. symmetry. rewrite IH, rpre_app. f_equal. rewrite append_punc_app. symmetry. rewrite append_punc_app. assoc. reflexivity.
  - rewrite IH. symmetry. rewrite IH, rpre_app. f_equal. rewrite raw_scalar_app. symmetry. rewrite raw_scalar_app. assoc. reflexivity.
Qed.
Lemma raw_tokens_app c b s d : append_raw_tokens c b s d = pre b (append_raw_tokens c [] s d).
Proof.
  unfold append_raw_tokens. rewrite raw_loop_app. destruct (raw_loop _ c _ [] [] d) as [o d' [e|]| |]; cbn [rpre pre]; try reflexivity.
  - rewrite firstn_len_app. cbn. rewrite app_nil_r. reflexivity.
  - rewrite app_nil_r. reflexivity.
Qed.
Lemma ao_raw c v : app_only (encode_raw c v).
Proof.
  intros b d. unfold encode_raw. destruct v as [v|]; [|cbn; rewrite append_null_app; reflexivity].
  assert (G : forall s, match append_raw_tokens c b s d with
      | ER b d (Some e) => if e_trust c then ER (append_raw_verbatim c b s d) d None else ER b d (Some e)
      | r => r end = pre b (match append_raw_tokens c [] s d with
      | ER b d (Some e) => if e_trust c then ER (append_raw_verbatim c b s d) d None else ER b d (Some e)
      | r => r end)).
  { intros s. rewrite raw_tokens_app. destruct (append_raw_tokens c [] s d) as [o d' [e|]|]; cbn [pre]; try reflexivity.
    destruct (e_trust c); [|reflexivity]. cbn [pre]. rewrite verbatim_app, (verbatim_app c o). assoc. reflexivity. }
  destruct (e_trust c) eqn:Et; [apply G|]. destruct (parseValue v); [apply G|]. cbn. rewrite app_nil_r. reflexivity.
Qed.
Lemma ao_text c r : app_only (encode_text c r).
Proof. destruct r; [apply ao_str|apply ao_err]. Qed.
Lemma ao_mkey c k : app_only (encode_mkey c k).
Proof.
  destruct k as [s|z|s [e|]|]; cbn [encode_mkey]; try apply ao_str; try apply ao_text.
  - apply ao_to_string. apply (ao_const (fun b => append_int (e_clrs c) b z)). intros b. apply append_int_app.
  - apply ao_const, append_null_app.
Qed.

Lemma insert_by_perm {A} (key : A -> bytes) x l : Permutation (x :: l) (insert_by key x l).
Proof.
  induction l as [|y l IH]; cbn; [constructor; constructor|]. destruct (bytes_ltb (key y) (key x)); [|reflexivity].
  etransitivity; [apply perm_swap|]. constructor. exact IH.
Qed.
Lemma sort_by_perm {A} (key : A -> bytes) l : Permutation l (sort_by key l).
Proof. induction l as [|x l IH]; cbn; [constructor|]. etransitivity; [constructor; exact IH|]. apply insert_by_perm. Qed.
Lemma Forall_sort {A} (P : A -> Prop) (key : A -> bytes) l : Forall P l -> Forall P (sort_by key l).
Proof. apply Permutation_Forall, sort_by_perm. Qed.

Theorem enc_app_only c v : app_only (enc c v).
Proof.
  induction v as [ | | | | | | | |l IH| |l IH| |m IH| |m IH|m|fs IH|o IH|o IH|o IH|s|r|r|v IH| ] using gval_rect'; cbn [enc];
    try (apply ao_const; first [apply append_null_app|intros; apply append_bool_app|intros; apply append_int_app]).
  - apply ao_float.
  - apply ao_number.
  - apply ao_str.
  - apply ao_bytes.
  - apply ao_time.
  - apply ao_array. apply Forall_map. exact IH.
  - apply ao_array. apply Forall_map. exact IH.
  - apply ao_map. apply Forall_map. cbn [fst snd].
    assert (H : Forall (fun e : mkey * encf => app_only (snd e)) (map (fun kv : mkey * gval => let (k, x) := kv in (k, enc c x)) m)).
    { apply Forall_map. eapply Forall_impl; [|exact IH]. intros [k x] Hx. exact Hx. }
    assert (H' : Forall (fun e : mkey * encf => app_only (encode_mkey c (fst e)) /\ app_only (snd e))
              (map (fun kv : mkey * gval => let (k, x) := kv in (k, enc c x)) m)).
    { eapply Forall_impl; [|exact H]. intros [k x] Hx. split; [apply ao_mkey|exact Hx]. }
    destruct (e_sort c); [apply Forall_sort|]; exact H'.
  - assert (H' : Forall (fun e : bytes * encf => app_only (encode_key c (fst e)) /\ app_only (snd e))
              (map (fun kv : bytes * gval => let (k, x) := kv in (k, enc c x)) m)).
    { apply Forall_map. eapply Forall_impl; [|exact IH]. intros [k x] Hx. split; [apply ao_str|exact Hx]. }
    destruct (e_sort c); [apply ao_map_break|apply ao_map]; apply Forall_map; [apply Forall_sort|]; exact H'.
  - destruct m as [m|]; [|apply ao_const, append_null_app].
    assert (H' : forall m, Forall (fun e : bytes * option bytes => app_only (encode_key c (fst e)) /\ app_only (encode_raw c (snd e))) m).
    { intros m'. apply Forall_forall. intros e _. split; [apply ao_str|apply ao_raw]. }
    destruct (e_sort c); [apply ao_map_break|apply ao_map_swallow]; apply Forall_map, H'.
  - apply ao_struct. apply Forall_map. eapply Forall_impl; [|exact IH]. intros [h x] Hx. exact Hx.
  - destruct o as [x|]; [exact IH|apply ao_err].
  - destruct o as [x|]; [exact IH|apply ao_const, append_null_app].
  - destruct o as [x|]; [exact IH|apply ao_const, append_null_app].
  - apply ao_raw.
  - destruct r as [[j|e]|]; [apply ao_raw|apply ao_err|apply ao_const, append_null_app].
  - destruct r as [r|]; [apply ao_text|apply ao_const, append_null_app].
  - apply ao_to_string, IH.
  - apply ao_err.
Qed.
