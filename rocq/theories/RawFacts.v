(** Facts about the raw-message encoder: on JSON texts it prints the document
    of the text. *)
From Coq Require Import Permutation Sorted.
From Verif Require Import Bytes Utf8Model ParseModel StringModel IntModel TokenModel EncModel SpecJson SpecString SpecTokens
  SpecRender ParseFacts Utf8Facts StringFacts IntFacts TokenFacts EncFacts.

(** * The layout helpers of the model are those of the specification *)
Lemma in_byte_nl c : in_byte c [] 10 = newline (e_ind c).
Proof. unfold in_byte, newline, active. destruct (e_ind c) as [i|]; [destruct (i_disabled i)|]; reflexivity. Qed.
Lemma in_byte_sp c : in_byte c [] 32 = space (e_ind c).
Proof. unfold in_byte, space, active. destruct (e_ind c) as [i|]; [destruct (i_disabled i)|]; reflexivity. Qed.
Lemma in_indent_margin c d : in_indent c [] d = margin (e_ind c) d.
Proof.
  unfold in_indent, margin, active. destruct (e_ind c) as [i|]; [destruct (i_disabled i)|]; try reflexivity.
  rewrite repeat_app_spec. reflexivity.
Qed.
Lemma margin_push c d : margin (e_ind c) (in_push c d) = margin (e_ind c) (d + 1).
Proof. unfold margin, in_push, active. destruct (e_ind c); reflexivity. Qed.
Lemma line_push c d : line (e_ind c) (in_push c d) = line (e_ind c) (d + 1).
Proof. unfold line. rewrite margin_push. reflexivity. Qed.
Lemma pop_push c d : in_pop c (in_push c d) = d.
Proof. unfold in_pop, in_push. destruct (e_ind c); lia. Qed.

Lemma punc_91 cl : append_punc cl [] 91 = lbrack cl.
Proof. destruct cl as [k|]; [|reflexivity]. unfold append_punc, lbrack, paint, or_punc, punc_color. cbn. destruct (c_brackets k); rewrite <- ?app_assoc; reflexivity. Qed.
Lemma punc_93 cl : append_punc cl [] 93 = rbrack cl.
Proof. destruct cl as [k|]; [|reflexivity]. unfold append_punc, rbrack, paint, or_punc, punc_color. cbn. destruct (c_brackets k); rewrite <- ?app_assoc; reflexivity. Qed.
Lemma punc_123 cl : append_punc cl [] 123 = lbrace cl.
Proof. destruct cl as [k|]; [|reflexivity]. unfold append_punc, lbrace, paint, or_punc, punc_color. cbn. destruct (c_braces k); rewrite <- ?app_assoc; reflexivity. Qed.
Lemma punc_125 cl : append_punc cl [] 125 = rbrace cl.
Proof. destruct cl as [k|]; [|reflexivity]. unfold append_punc, rbrace, paint, or_punc, punc_color. cbn. destruct (c_braces k); rewrite <- ?app_assoc; reflexivity. Qed.
Lemma punc_44 cl : append_punc cl [] 44 = comma cl.
Proof. destruct cl as [k|]; [|reflexivity]. unfold append_punc, comma, paint, or_punc, punc_color. cbn. destruct (c_comma k); rewrite <- ?app_assoc; reflexivity. Qed.
Lemma punc_58 cl : append_punc cl [] 58 = colon cl.
Proof. destruct cl as [k|]; [|reflexivity]. unfold append_punc, colon, paint, or_punc, punc_color. cbn. destruct (c_colon k); rewrite <- ?app_assoc; reflexivity. Qed.

Definition R (c : cfg) (d : Z) (x : doc) : bytes := render (e_html c) (e_clrs c) (e_ind c) d x.

Section doc_induction.
  Variable P : doc -> Prop.
  Hypothesis HTok : forall k t, P (DTok k t).
  Hypothesis HQuote : forall x, P x -> P (DQuote x).
  Hypothesis HArr : forall l, Forall P l -> P (DArr l).
  Hypothesis HObj : forall q l, Forall (fun e => P (snd e)) l -> P (DObj q l).
  Fixpoint doc_rect' (x : doc) : P x :=
    match x with
    | DTok k t => HTok k t
    | DQuote y => HQuote y (doc_rect' y)
    | DArr l => HArr l ((fix go l : Forall P l :=
        match l with [] => Forall_nil _ | x :: l' => Forall_cons x (doc_rect' x) (go l') end) l)
    | DObj q l => HObj q l ((fix go l : Forall (fun e => P (snd e)) l :=
        match l with [] => Forall_nil _ | x :: l' => Forall_cons x (doc_rect' (snd x)) (go l') end) l)
    end.
End doc_induction.

(** Printing of the elements, for arbitrary lists. *)
Definition elems_text html cl ind d (l : list doc) : bytes :=
  join (comma cl) (map (fun y => line ind (d + 1) ++ render html cl ind (d + 1) y) l).
Definition members_text html cl ind d (l : list (tkind * bytes * doc)) : bytes :=
  join (comma cl) (map (fun e => match e with (k, t, y) =>
        line ind (d + 1) ++ paint cl (kind_color k) t ++ colon cl ++ space ind ++ render html cl ind (d + 1) y end) l).
Lemma render_arr html cl ind d l : render html cl ind d (DArr l) =
  match l with [] => lbrack cl ++ rbrack cl | _ => lbrack cl ++ elems_text html cl ind d l ++ line ind d ++ rbrack cl end.
Proof. destruct l; reflexivity. Qed.
Lemma render_obj html cl ind d q l : render html cl ind d (DObj q l) =
  match l with
  | [] => lbrace cl ++ match q with ONormal => [] | ONoFields => margin ind d | OAllOmitted => line ind d end ++ rbrace cl
  | _ => lbrace cl ++ members_text html cl ind d l ++ line ind d ++ rbrace cl
  end.
Proof. destruct l; reflexivity. Qed.
Lemma join_cons sep x l : join sep (x :: l) = x ++ match l with [] => [] | _ => sep ++ join sep l end.
Proof. destruct l; cbn [join]; [rewrite app_nil_r|]; reflexivity. Qed.

Lemma render_no_ind html cl d d' x : render html cl None d x = render html cl None d' x.
Proof.
  revert d d'. induction x as [k t|x IH|l IH|q l IH] using doc_rect'; intros d d'.
  - reflexivity.
  - cbn [render]. rewrite (IH d d'). reflexivity.
  - rewrite !render_arr. destruct l as [|x l]; [reflexivity|]. f_equal. f_equal. unfold elems_text. f_equal.
    apply map_ext_in. intros y Hy. rewrite Forall_forall in IH. rewrite (IH y Hy (d + 1) (d' + 1)). reflexivity.
  - rewrite !render_obj. destruct l as [|x l]; [reflexivity|]. f_equal. f_equal. unfold members_text. f_equal.
    apply map_ext_in. intros [[k t] y] Hy. rewrite Forall_forall in IH. pose proof (IH _ Hy (d + 1) (d' + 1)) as E. cbn [snd] in E. rewrite E. reflexivity.
Qed.
Lemma R_push c d x : R c (in_push c d) x = R c (d + 1) x.
Proof. unfold R, in_push. destruct (e_ind c); [reflexivity|]. apply render_no_ind. Qed.

(** * Escaping HTML inside string tokens *)
Definition dull (c : Z) : Prop := c <> 34 /\ c <> 92 /\ is_html c = false /\ c <> 0xE2.
Lemma compact_dull c dst pend s : dull c ->
  compact_html dst pend true false 0 (c :: s) = compact_html dst (pend ++ [c]) true false 0 s.
Proof.
  intros (H1 & H2 & H3 & H4). cbn [compact_html negb]. rewrite H3.
  destruct (c =? 92) eqn:?; [zb; lia|]. destruct (c =? 34) eqn:?; [zb; lia|]. destruct (c =? 0xE2) eqn:?; [zb; lia|]. reflexivity.
Qed.
Lemma html_escape_plain c s : is_html c = false -> c <> 0xE2 -> html_escape (c :: s) = c :: html_escape s.
Proof.
  intros H3 H4. cbn [html_escape]. rewrite H3. destruct (c =? 0xE2) eqn:?; [zb; lia|]. destruct s as [|a [|b s]]; reflexivity.
Qed.
Lemma html_escape_html c s : is_html c = true -> html_escape (c :: s) = u00 c ++ html_escape s.
Proof. intros H. cbn [html_escape]. rewrite H. reflexivity. Qed.
Lemma html_escape_e2_other s :
  match s with a :: b :: _ => (a =? 0x80) && ((b =? 0xA8) || (b =? 0xA9)) | _ => false end = false ->
  html_escape (0xE2 :: s) = 0xE2 :: html_escape s.
Proof.
  intros H. cbn [html_escape]. change (is_html 226) with false. change (226 =? 226) with true. cbv iota.
  destruct s as [|a [|b s]]; try reflexivity. rewrite !andb_true_l.
  destruct (a =? 128); [|reflexivity]. rewrite !andb_true_l in *. apply orb_false_iff in H. destruct H as [-> ->]. reflexivity.
Qed.
Lemma html_escape_e2_ls b s : b = 0xA8 \/ b = 0xA9 -> html_escape (0xE2 :: 0x80 :: b :: s) = u202 b ++ html_escape s.
Proof. intros [->| ->]; reflexivity. Qed.
Lemma hex_dull c : hex_digit c -> dull c.
Proof. unfold hex_digit, dull. rewrite is_html_false. lia. Qed.

Lemma compact_body n : forall body, str_body body -> (length body <= n)%nat -> forall pend,
  compact_html [] pend true false 0 (body ++ [34]) = pend ++ html_escape (body ++ [34]).
Proof.
  induction n as [|n IH]; intros body SB L pend.
  { destruct body; [|cbn in L; lia]. reflexivity. }
  destruct SB as [|c s B1 B2 B3 SB|e s He SB|h1 h2 h3 h4 s H1 H2 H3 H4 SB]; cbn [app length] in *.
  - reflexivity.
  - destruct (is_html c) eqn:Eh.
    { cbn [compact_html negb]. destruct (c =? 92) eqn:?; [zb; lia|]. destruct (c =? 34) eqn:?; [zb; lia|]. rewrite Eh.
      rewrite compact_html_app, (IH s SB ltac:(lia) []), html_escape_html by exact Eh. cbn [app]. rewrite <- !app_assoc. reflexivity. }
    destruct (Z.eq_dec c 0xE2) as [->|NE].
    + destruct (match s ++ [34] with a :: b :: _ => (a =? 0x80) && ((b =? 0xA8) || (b =? 0xA9)) | _ => false end) eqn:E.
      * assert (S2 : exists b s', s = 0x80 :: b :: s' /\ (b = 0xA8 \/ b = 0xA9) /\ str_body s').
        { destruct SB as [|a s1 A1 A2 A3 SB|e s1 He SB|h1 h2 h3 h4 s1 H1 H2 H3 H4 SB].
          - cbn in E. discriminate.
          - destruct SB as [|b s2 C1 C2 C3 SB|e s2 He SB|h1 h2 h3 h4 s2 H1 H2 H3 H4 SB]; cbn [app] in E.
            + rewrite andb_true_iff, orb_true_iff, !Z.eqb_eq in E. lia.
            + rewrite andb_true_iff, orb_true_iff, !Z.eqb_eq in E. destruct E as [-> E]. eauto 6.
            + rewrite andb_true_iff, orb_true_iff, !Z.eqb_eq in E. lia.
            + rewrite andb_true_iff, orb_true_iff, !Z.eqb_eq in E. lia.
          - cbn [app] in E. discriminate.
          - cbn [app] in E. discriminate. }
        destruct S2 as (b & s' & -> & Hb & SB'). cbn [app] in *.
        cbn [compact_html negb]. change (226 =? 92) with false. change (226 =? 34) with false. change (is_html 226) with false.
        change (226 =? 226) with true. cbv iota. rewrite E. cbn [andb nth].
        rewrite compact_html_app, (IH s' SB' ltac:(cbn in L; lia) []), (html_escape_e2_ls b _ Hb). cbn [app]. rewrite <- !app_assoc. reflexivity.
      * rewrite (html_escape_e2_other _ E). cbn [compact_html negb].
        change (226 =? 92) with false. change (226 =? 34) with false. change (is_html 226) with false.
        change (226 =? 226) with true. cbv iota. rewrite E. cbn [andb].
        rewrite (IH s SB ltac:(lia)). rewrite <- app_assoc. reflexivity.
    + rewrite compact_dull by (repeat split; auto). rewrite (IH s SB ltac:(lia)).
      rewrite (html_escape_plain c) by auto. rewrite <- app_assoc. reflexivity.
  - assert (Ne : is_html e = false /\ e <> 0xE2) by (rewrite is_html_false; cbn [In] in He; lia).
    cbn [compact_html negb]. change (92 =? 92) with true. cbv iota.
    rewrite (IH s SB ltac:(lia)). rewrite (html_escape_plain 92), (html_escape_plain e) by (tauto || reflexivity || lia).
    rewrite <- !app_assoc. reflexivity.
  - cbn [compact_html negb]. change (92 =? 92) with true. cbv iota.
    pose proof (hex_dull _ H1) as D1. pose proof (hex_dull _ H2) as D2. pose proof (hex_dull _ H3) as D3. pose proof (hex_dull _ H4) as D4.
    assert (X : forall dst pend s, compact_html dst pend true false 0 (h1 :: h2 :: h3 :: h4 :: s) =
      compact_html dst ((((pend ++ [h1]) ++ [h2]) ++ [h3]) ++ [h4]) true false 0 s).
    { intros. rewrite !compact_dull by assumption. reflexivity. }
    change (compact_html [] ((pend ++ [92]) ++ [117]) true false 0 (h1 :: h2 :: h3 :: h4 :: s ++ [34]) =
       pend ++ html_escape (92 :: 117 :: h1 :: h2 :: h3 :: h4 :: s ++ [34])).
    rewrite X, (IH s SB ltac:(lia)).
    rewrite (html_escape_plain 92), (html_escape_plain 117), (html_escape_plain h1), (html_escape_plain h2), (html_escape_plain h3), (html_escape_plain h4)
      by (apply D1 || apply D2 || apply D3 || apply D4 || reflexivity || lia).
    rewrite <- !app_assoc. reflexivity.
Qed.
Lemma compact_string v : string_lit v -> append_compact_escape_html [] v = html_escape v.
Proof.
  intros (body & -> & SB). unfold append_compact_escape_html. cbn [compact_html negb]. change (34 =? 34) with true. cbv iota.
  rewrite (compact_body (length body) body SB ltac:(lia)). rewrite html_escape_plain by (reflexivity || lia). reflexivity.
Qed.

(** * Scalars *)
Definition scalar_kind (a : jast) : tkind :=
  match a with JNull => TNull | JTrue | JFalse => TBool | JNum _ => TNum | _ => TStr end.
Definition scalar_out (html : bool) (a : jast) : bytes :=
  match a with JStr s => raw_string html s | _ => scalar_text a end.
Fixpoint ast_ok (a : jast) : Prop :=
  match a with
  | JNum s => number_lit s
  | JStr s => string_lit s
  | JArr l => all (map ast_ok l)
  | JObj l => all (map (fun kv => match kv with (k, x) => string_lit k /\ ast_ok x end) l)
  | _ => True
  end.
Lemma jvalue_ok : (forall s a, jvalue s a -> ast_ok a) /\
  (forall s l, jelems s l -> all (map ast_ok l)) /\
  (forall s l, jmembers s l -> all (map (fun kv => match kv with (k, x) => string_lit k /\ ast_ok x end) l)) /\
  (forall m kv, jmember m kv -> string_lit (fst kv) /\ ast_ok (snd kv)).
Proof.
  apply json_mutind; cbn; auto.
  - intros m [k v] Hm H. auto.
  - intros m [k v] t l Hm H Ht IH. auto.
Qed.

Lemma raw_scalar_string c v k : string_lit v ->
  raw_scalar c [] v k = paint (e_clrs c) (kind_color (if k then TKey else TStr)) (raw_string (e_html c) v).
Proof.
  intros H. assert (Rv : rv_string v = true) by (destruct H as (b & -> & _); reflexivity).
  unfold raw_scalar, paint, raw_string. rewrite Rv, andb_true_r. destruct (e_clrs c) as [cl|].
  - destruct (e_html c).
    + rewrite ach_app, compact_string by exact H. cbn [app]. rewrite <- app_assoc. destruct k; reflexivity.
    + cbn [app]. rewrite <- app_assoc. destruct k; reflexivity.
  - destruct (e_html c); [apply compact_string, H|reflexivity].
Qed.
Lemma raw_scalar_ok c a k : ast_ok a -> match a with JArr _ | JObj _ => False | _ => True end ->
  raw_scalar c [] (scalar_text a) k =
  paint (e_clrs c) (kind_color (if k then TKey else scalar_kind a)) (scalar_out (e_html c) a).
Proof.
  intros H Hs. destruct a as [ | | |s|s|l|l]; try contradiction.
  1,2,3: unfold raw_scalar, paint; destruct (e_clrs c); cbn -[app]; rewrite ?andb_false_r; cbn [app]; rewrite <- ?app_assoc; destruct k; reflexivity.
  - cbn in H. destruct (number_head _ H) as (x & t & -> & Hx). cbn [scalar_text scalar_out scalar_kind].
    assert (R1 : rv_string (x :: t) = false) by (cbn; apply Z.eqb_neq; lia).
    assert (R2 : rv_number (x :: t) = true).
    { cbn. unfold is_num_start, is_digit. rewrite orb_true_iff, andb_true_iff, Z.eqb_eq, !Z.leb_le. lia. }
    unfold raw_scalar, paint. rewrite R1, R2, andb_false_r. destruct (e_clrs c); cbn [app]; rewrite <- ?app_assoc; destruct k; reflexivity.
  - apply raw_scalar_string, H.
Qed.

(** * The token loop as a fold *)
Definition raw_step (c : cfg) (x : token) (st : list frame) (d : Z) : bytes * list frame * Z :=
  let dl := k_delim x in
  if dl =? 58 then (colon (e_clrs c) ++ space (e_ind c), st, d)
  else if dl =? 44 then ([], st, d)
  else if (dl =? 125) || (dl =? 93) then
    let had := match st with (_, k) :: _ => negb (Nat.eqb k 0) | [] => false end in
    let d := in_pop c d in
    ((if had then line (e_ind c) d else []) ++ append_punc (e_clrs c) [] (nth 0 (k_value x) 0), tl st, d)
  else
    let isKey := (dl =? 0) && k_key x in
    let '(p, st) := raw_prefix c [] d st isKey in
    if (dl =? 123) || (dl =? 91) then
      (p ++ append_punc (e_clrs c) [] (nth 0 (k_value x) 0), (dl =? 123, 0%nat) :: st, in_push c d)
    else (p ++ raw_scalar c [] (k_value x) isKey, st, d).

Lemma raw_loop_step n c t t' st d : tok_next t = Some (t', true) ->
  raw_loop (S n) c t st [] d =
  (let '(o, st', d') := raw_step c (view t') st d in rpre o (raw_loop n c t' st' [] d')).
Proof.
  intros E. cbn [raw_loop]. rewrite E. unfold raw_step, view. cbn [k_delim k_value k_depth k_index k_key].
  destruct (t_delim t' =? 58).
  { rewrite raw_loop_app, in_byte_app, in_byte_sp, punc_58. reflexivity. }
  destruct (t_delim t' =? 44).
  { destruct (raw_loop n c t' st [] d); reflexivity. }
  destruct ((t_delim t' =? 125) || (t_delim t' =? 93)).
  { rewrite raw_loop_app, append_punc_app. f_equal. f_equal.
    destruct (match st with [] => false | (_, k) :: _ => negb (Nat.eqb k 0) end); [|reflexivity].
    rewrite in_indent_app, in_byte_nl, in_indent_margin. reflexivity. }
  destruct (raw_prefix c [] d st _) as [p st'].
  destruct ((t_delim t' =? 123) || (t_delim t' =? 91)).
  - rewrite raw_loop_app, append_punc_app. reflexivity.
  - rewrite raw_loop_app, raw_scalar_app. reflexivity.
Qed.

Fixpoint raw_fold (c : cfg) (l : list token) (st : list frame) (d : Z) : bytes * list frame * Z :=
  match l with
  | [] => ([], st, d)
  | x :: l' => let '(o, st, d) := raw_step c x st d in
               let '(o', st, d) := raw_fold c l' st d in (o ++ o', st, d)
  end.
Lemma raw_fold_app c l1 l2 : forall st d o1 st1 d1 o2 st2 d2,
  raw_fold c l1 st d = (o1, st1, d1) -> raw_fold c l2 st1 d1 = (o2, st2, d2) ->
  raw_fold c (l1 ++ l2) st d = (o1 ++ o2, st2, d2).
Proof.
  induction l1 as [|x l1 IH]; intros st d o1 st1 d1 o2 st2 d2 E1 E2; cbn [raw_fold app] in *.
  - injection E1 as <- <- <-. exact E2.
  - destruct (raw_step c x st d) as [[o st'] d']. destruct (raw_fold c l1 st' d') as [[o' st''] d''] eqn:E.
    injection E1 as <- <- <-. rewrite (IH _ _ _ _ _ _ _ _ E E2), app_assoc. reflexivity.
Qed.
Lemma raw_fold_cons c x l st d o st1 d1 o2 st2 d2 :
  raw_step c x st d = (o, st1, d1) -> raw_fold c l st1 d1 = (o2, st2, d2) -> raw_fold c (x :: l) st d = (o ++ o2, st2, d2).
Proof. intros E1 E2. cbn [raw_fold]. rewrite E1, E2. reflexivity. Qed.

Lemma raw_loop_fold c t l t' : steps t l t' -> forall n st d o st' d',
  raw_fold c l st d = (o, st', d') ->
  raw_loop (length l + n) c t st [] d = rpre o (raw_loop n c t' st' [] d').
Proof.
  induction 1 as [t|t t1 l t' H S IH]; intros n st d o st' d' E.
  - cbn in E. injection E as <- <- <-. cbn [length Nat.add]. destruct (raw_loop n c t st [] d); reflexivity.
  - cbn [length Nat.add]. rewrite (raw_loop_step _ _ _ _ _ _ H). cbn [raw_fold] in E.
    destruct (raw_step c (view t1) st d) as [[o1 st1] d1].
    destruct (raw_fold c l st1 d1) as [[o2 st2] d2] eqn:E2. injection E as <- <- <-.
    rewrite (IH n _ _ _ _ _ E2), rpre_app. reflexivity.
Qed.

(** The document really printed: as [jdoc], but a scalar flagged IsKey gets
    the color of keys. *)
Fixpoint rdoc (html k : bool) (a : jast) : doc :=
  match a with
  | JArr l => DArr ((fix go k l := match l with [] => [] | a :: l' => rdoc html k a :: go (after k a) l' end) k l)
  | JObj l => DObj ONormal (map (fun kv => match kv with (key, x) => (TKey, raw_string html key, rdoc html false x) end) l)
  | _ => DTok (if k then TKey else scalar_kind a) (scalar_out html a)
  end.
Definition relems (html : bool) := fix go k l := match l with [] => [] | a :: l' => rdoc html k a :: go (after k a) l' end.
Definition rmembers (html : bool) (l : list (bytes * jast)) :=
  map (fun kv => match kv with (key, x) => (TKey, raw_string html key, rdoc html false x) end) l.

Definition vprefix (c : cfg) (fr : list frame) (d : Z) : bytes :=
  match fr with
  | (false, n) :: _ => (if Nat.eqb n 0 then [] else comma (e_clrs c)) ++ line (e_ind c) d
  | _ => []
  end.
Definition bump (fr : list frame) : list frame := match fr with (false, n) :: st => (false, S n) :: st | _ => fr end.
Definition in_obj (fr : list frame) : Prop := exists n st, fr = (true, n) :: st.
Lemma raw_prefix_value c d fr k : (in_obj fr -> k = false) -> raw_prefix c [] d fr k = (vprefix c fr d, bump fr).
Proof.
  intros H. destruct fr as [|[[|] n] st]; cbn [raw_prefix vprefix bump].
  - reflexivity.
  - rewrite H by (unfold in_obj; eauto). reflexivity.
  - cbn [andb]. f_equal. rewrite in_indent_app, in_indent_margin. destruct (Nat.eqb n 0).
    + rewrite in_byte_nl. reflexivity.
    + rewrite in_byte_app, in_byte_nl, punc_44. unfold line. rewrite <- app_assoc. reflexivity.
Qed.
Lemma raw_prefix_key c d n st : raw_prefix c [] d ((true, n) :: st) true =
  ((if Nat.eqb n 0 then [] else comma (e_clrs c)) ++ line (e_ind c) d, (true, S n) :: st).
Proof.
  cbn [raw_prefix andb negb]. f_equal. rewrite in_indent_app, in_indent_margin. destruct (Nat.eqb n 0).
  - rewrite in_byte_nl. reflexivity.
  - rewrite in_byte_app, in_byte_nl, punc_44. unfold line. rewrite <- app_assoc. reflexivity.
Qed.

Lemma raw_fold_value c a : ast_ok a -> forall k D I fr d, (in_obj fr -> k = false) ->
  raw_fold c (ktoks k D I a) fr d = (vprefix c fr d ++ R c d (rdoc (e_html c) k a), bump fr, d).
Proof.
  induction a as [ | | |s|s|l IH|l IH] using jast_rect'; intros OK k D I fr d HK.
  1,2,3,4,5:
    cbn [ktoks raw_fold]; unfold raw_step; cbn [k_delim k_key k_value]; change (0 =? 58) with false; change (0 =? 44) with false;
    change (0 =? 125) with false; change (0 =? 93) with false; change (0 =? 0) with true; change (0 =? 123) with false; change (0 =? 91) with false;
    cbn [orb andb]; rewrite raw_prefix_value by exact HK; rewrite raw_scalar_ok by (exact OK || exact Logic.I); rewrite app_nil_r; reflexivity.
  - rewrite ktoks_arr. cbn [rdoc]. fold relems. unfold R. rewrite render_arr.
    eapply eq_trans.
    { eapply raw_fold_cons.
      - unfold raw_step, delim_tok. cbn [k_delim k_key k_value]. change (91 =? 58) with false. change (91 =? 44) with false.
        change (91 =? 125) with false. change (91 =? 93) with false. change (91 =? 0) with false. change (91 =? 123) with false.
        change (91 =? 91) with true. cbn [orb andb nth]. rewrite raw_prefix_value by reflexivity. rewrite punc_91. reflexivity.
      - eapply raw_fold_app with (st1 := (false, length l) :: bump fr) (d1 := in_push c d)
          (o1 := elems_text (e_html c) (e_clrs c) (e_ind c) d (relems (e_html c) k l)).
        + assert (G : forall k i n, raw_fold c (kelems D k i l) ((false, n) :: bump fr) (in_push c d) =
             ((if Nat.eqb n 0 then [] else match l with [] => [] | _ => comma (e_clrs c) end) ++
              elems_text (e_html c) (e_clrs c) (e_ind c) d (relems (e_html c) k l), (false, (n + length l)%nat) :: bump fr, in_push c d)).
          { clear HK k. cbn [ast_ok] in OK. induction IH as [|a l Ha IH IHl]; intros k i n.
            - cbn. rewrite Nat.add_0_r. destruct n; reflexivity.
            - cbn [map all fold_right] in OK. destruct OK as [OK1 OK2]. cbn [kelems relems length].
              assert (V := Ha OK1 k (D + 1) i ((false, n) :: bump fr) (in_push c d) ltac:(intros (? & ? & X); discriminate)).
              cbn [vprefix bump] in V. rewrite line_push, R_push in V.
              unfold elems_text. cbn [map]. rewrite join_cons.
              destruct l as [|b l].
              + rewrite app_nil_r. rewrite V. cbn [relems map length]. unfold R. rewrite app_nil_r, <- app_assoc.
                replace (n + 1)%nat with (S n) by lia. reflexivity.
              + eapply eq_trans.
                { eapply raw_fold_app; [exact V|]. eapply raw_fold_cons; [reflexivity|]. apply (IHl OK2). }
                cbn [Nat.eqb]. cbn [relems map length]. unfold elems_text. cbn [map app]. cbn [relems map].
                replace (n + S (S (length l)))%nat with (S n + S (length l))%nat by lia.
                unfold R. rewrite <- !app_assoc. reflexivity. }
          specialize (G k 0 0%nat). rewrite G. reflexivity.
        + cbn [raw_fold]. unfold raw_step, delim_tok. cbn [k_delim k_key k_value]. change (93 =? 58) with false. change (93 =? 44) with false.
          change (93 =? 125) with false. change (93 =? 93) with true. cbn [orb andb nth tl]. rewrite punc_93, pop_push, app_nil_r. reflexivity. }
    destruct l as [|b l]; cbn [relems length Nat.eqb negb]; [unfold elems_text; cbn [map join app]|];
      rewrite <- !app_assoc; reflexivity.
  - rewrite ktoks_obj. cbn [rdoc]. fold (rmembers (e_html c) l). unfold R. rewrite render_obj.
    eapply eq_trans.
    { eapply raw_fold_cons.
      - unfold raw_step, delim_tok. cbn [k_delim k_key k_value]. change (123 =? 58) with false. change (123 =? 44) with false.
        change (123 =? 125) with false. change (123 =? 93) with false. change (123 =? 0) with false.
        change (123 =? 123) with true. cbn [orb andb nth]. rewrite raw_prefix_value by reflexivity. rewrite punc_123. reflexivity.
      - eapply raw_fold_app with (st1 := (true, length l) :: bump fr) (d1 := in_push c d)
          (o1 := members_text (e_html c) (e_clrs c) (e_ind c) d (rmembers (e_html c) l)).
        + assert (G : forall i n, raw_fold c (kmembers D i l) ((true, n) :: bump fr) (in_push c d) =
             ((if Nat.eqb n 0 then [] else match l with [] => [] | _ => comma (e_clrs c) end) ++
              members_text (e_html c) (e_clrs c) (e_ind c) d (rmembers (e_html c) l), (true, (n + length l)%nat) :: bump fr, in_push c d)).
          { clear HK. cbn [ast_ok] in OK. induction IH as [|[key a] l Ha IH IHl]; intros i n.
            - cbn. rewrite Nat.add_0_r. destruct n; reflexivity.
            - cbn [map all fold_right] in OK. destruct OK as [[OK0 OK1] OK2]. cbn [kmembers length]. cbn [snd] in Ha.
              assert (V := Ha OK1 false (D + 1) i ((true, S n) :: bump fr) (in_push c d) ltac:(reflexivity)).
              cbn [vprefix bump app] in V. rewrite R_push in V.
              unfold members_text, rmembers. cbn [map]. rewrite join_cons.
              assert (K : raw_fold c [TK 0 key (D + 1) i true; delim_tok 58 (D + 1) i] ((true, n) :: bump fr) (in_push c d) =
                (((if Nat.eqb n 0 then [] else comma (e_clrs c)) ++ line (e_ind c) (d + 1)) ++
                 paint (e_clrs c) (kind_color TKey) (raw_string (e_html c) key) ++ colon (e_clrs c) ++ space (e_ind c),
                 (true, S n) :: bump fr, in_push c d)).
              { eapply eq_trans.
                - eapply raw_fold_cons.
                  + unfold raw_step. cbn [k_delim k_key k_value]. change (0 =? 58) with false. change (0 =? 44) with false.
                    change (0 =? 125) with false. change (0 =? 93) with false. change (0 =? 0) with true. change (0 =? 123) with false. change (0 =? 91) with false.
                    cbn [orb andb]. rewrite raw_prefix_key, line_push, raw_scalar_string by exact OK0. reflexivity.
                  + cbn [raw_fold]. unfold raw_step, delim_tok. cbn [k_delim]. change (58 =? 58) with true. cbv iota. rewrite app_nil_r. reflexivity.
                - rewrite <- !app_assoc. reflexivity. }
              change (TK 0 key (D + 1) i true :: delim_tok 58 (D + 1) i :: ktoks false (D + 1) i a ++ ?x)
                with ([TK 0 key (D + 1) i true; delim_tok 58 (D + 1) i] ++ ktoks false (D + 1) i a ++ x).
              destruct l as [|b l].
              + rewrite app_nil_r. eapply eq_trans; [eapply raw_fold_app; [exact K|exact V]|]. cbn [map length]. rewrite app_nil_r, <- !app_assoc.
                replace (n + 1)%nat with (S n) by lia. reflexivity.
              + eapply eq_trans.
                { eapply raw_fold_app; [exact K|]. eapply raw_fold_app; [exact V|]. eapply raw_fold_cons; [reflexivity|]. apply (IHl OK2). }
                cbn [Nat.eqb]. cbn [map length]. unfold members_text, rmembers. cbn [map app].
                replace (n + S (S (length l)))%nat with (S n + S (length l))%nat by lia.
                unfold R. rewrite <- !app_assoc. reflexivity. }
          specialize (G 0 0%nat). rewrite G. reflexivity.
        + cbn [raw_fold]. unfold raw_step, delim_tok. cbn [k_delim k_key k_value]. change (125 =? 58) with false. change (125 =? 44) with false.
          change (125 =? 125) with true. cbn [orb andb nth tl]. rewrite punc_125, pop_push, app_nil_r. reflexivity. }
    destruct l as [|b l]; cbn [rmembers map length Nat.eqb negb]; [unfold members_text; cbn [map join app]|];
      rewrite <- !app_assoc; reflexivity.
Qed.

(** * Raw messages *)
Lemma render_rdoc_plain html ind a : forall k d, render html None ind d (rdoc html k a) = render html None ind d (jdoc html a).
Proof.
  induction a as [ | | |s|s|l IH|l IH] using jast_rect'; intros k d; try reflexivity.
  - change (rdoc html k (JArr l)) with (DArr (relems html k l)). cbn [jdoc].
    rewrite !render_arr. assert (G : forall k, elems_text html None ind d (relems html k l) = elems_text html None ind d (map (jdoc html) l)).
    { clear k. unfold elems_text. induction IH as [|a l Ha IH IHl]; intros k; [reflexivity|]. cbn [relems map]. rewrite !join_cons, Ha, IHl.
      destruct l; reflexivity. }
    rewrite G. destruct l; reflexivity.
  - cbn [rdoc jdoc]. rewrite !render_obj. destruct l as [|kv l]; [reflexivity|]. cbn [map].
    f_equal. f_equal. unfold members_text. rewrite <- !(map_cons (fun kv : bytes * jast => let (k0, x) := kv in (TKey, raw_string html k0, jdoc html x))).
    rewrite <- !(map_cons (fun kv : bytes * jast => let (k0, x) := kv in (TKey, raw_string html k0, rdoc html false x))).
    rewrite !map_map. f_equal. apply map_ext_in. intros [k0 x] Hx. rewrite Forall_forall in IH.
    pose proof (IH _ Hx false (d + 1)) as E. cbn [snd] in E. rewrite E. reflexivity.
Qed.
Lemma rdoc_clean html a : (no_empty_obj a -> rdoc html false a = jdoc html a) /\
  (no_empty_in_array a -> rdoc html false a = jdoc html a).
Proof.
  induction a as [ | | |s|s|l IH|l IH] using jast_rect'; try (split; reflexivity).
  - assert (G : fold_right and True (map no_empty_obj l) -> relems html false l = map (jdoc html) l).
    { induction IH as [|a l [Ha _] IH IHl]; [reflexivity|]. intros [H1 H2]. cbn [relems map].
      rewrite (after_clean a H1), (Ha H1), IHl by exact H2. reflexivity. }
    split; cbn [no_empty_obj no_empty_in_array jdoc]; intros H; rewrite <- G by exact H; reflexivity.
  - split; cbn [no_empty_obj no_empty_in_array rdoc jdoc]; intros H; f_equal; [destruct H as [_ H]|];
      (induction IH as [|[k x] l [Ha1 Ha2] IH IHl]; [reflexivity|]; cbn in H; destruct H as [H1 H2]; cbn [map]; cbn [snd] in Ha1, Ha2;
       rewrite ?(Ha1 H1), ?(Ha2 H1), IHl by exact H2; reflexivity).
Qed.

Lemma jtext_ok s a : jtext s a -> ast_ok a.
Proof. intros (w1 & v & w2 & _ & _ & H & _). exact (proj1 jvalue_ok v a H). Qed.
Lemma raw_tokens_text c s a d : wf s -> jtext s a -> append_raw_tokens c [] s d = ER (R c d (rdoc (e_html c) false a)) d None.
Proof.
  intros W J. destruct (run_text s a J) as (t' & S & E).
  pose proof (steps_bounded (new_tokenizer s) _ _ W S) as B. cbn [t_json new_tokenizer] in B.
  pose proof (raw_fold_value c a (jtext_ok s a J) false 0 0 [] d ltac:(reflexivity)) as F. cbn [vprefix bump app] in F.
  unfold append_raw_tokens.
  replace (Datatypes.S (length s)) with (length (ktoks false 0 0 a) + Datatypes.S (length s - length (ktoks false 0 0 a)))%nat by lia.
  rewrite (raw_loop_fold c _ _ _ S _ _ _ _ _ _ F). cbn [raw_loop]. rewrite E. cbn [t_err new_tokenizer rpre]. rewrite app_nil_r. reflexivity.
Qed.
Lemma raw_R_jdoc c a d : e_clrs c = None \/ no_empty_in_array a -> R c d (rdoc (e_html c) false a) = R c d (jdoc (e_html c) a).
Proof.
  intros [E|H]; unfold R.
  - rewrite E. apply render_rdoc_plain.
  - rewrite (proj2 (rdoc_clean (e_html c) a) H). reflexivity.
Qed.
Lemma jvalue_jtext s a : jvalue s a -> jtext s a.
Proof. intros H. exists [], s, []. rewrite app_nil_r. repeat split; auto; constructor. Qed.
Lemma encode_raw_good c s a d : wf s -> raw_text (e_trust c) s a ->
  encode_raw c (Some s) [] d = ER (R c d (rdoc (e_html c) false a)) d None.
Proof.
  intros W H. unfold encode_raw. unfold raw_text in H. destruct (e_trust c).
  - rewrite (raw_tokens_text c s a d W H). reflexivity.
  - pose proof (parseValue_complete s a [] H I) as P. rewrite app_nil_r in P. rewrite P.
    rewrite (raw_tokens_text c s a d W (jvalue_jtext s a H)). reflexivity.
Qed.
Lemma encode_raw_bad c s b d : wf s -> e_trust c = false -> (forall v r a, s = v ++ r -> ~ jvalue v a) ->
  encode_raw c (Some s) b d = ER b d (Some EUnsupportedValue).
Proof.
  intros W T H. unfold encode_raw. rewrite T. destruct (parseValue s) as [v r|r e] eqn:E; [|reflexivity].
  apply parseValue_sound in E; [|exact W]. destruct E as [E [a Ha]]. destruct (H _ _ _ E Ha).
Qed.
