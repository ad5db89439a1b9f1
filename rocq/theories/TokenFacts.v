(** Facts about the Tokenizer model: its run over a JSON text. *)
From Verif Require Import Bytes ParseModel StringModel TokenModel SpecJson SpecTokens ParseFacts.

Definition view (t : tokenizer) : token := TK (t_delim t) (t_value t) (t_depth t) (t_index t) (t_IsKey t).

(** Successive calls of Next that return true, and the tokens seen. *)
Inductive steps : tokenizer -> list token -> tokenizer -> Prop :=
| st_nil t : steps t [] t
| st_cons t t1 l t' : tok_next t = Some (t1, true) -> steps t1 l t' -> steps t (view t1 :: l) t'.
Lemma steps_app t l1 t1 l2 t2 : steps t l1 t1 -> steps t1 l2 t2 -> steps t (l1 ++ l2) t2.
Proof. induction 1; cbn; [auto|]. intros H2. econstructor; eauto. Qed.

Definition at_state (t : tokenizer) (json : bytes) (k : bool) (st : list tstate) : Prop :=
  t_err t = None /\ t_json t = json /\ t_isKey t = k /\ t_stack t = st.
Definition runs (json : bytes) (k : bool) (st : list tstate) (l : list token) (json' : bytes) (k' : bool) (st' : list tstate) : Prop :=
  forall t, at_state t json k st -> exists t', steps t l t' /\ at_state t' json' k' st'.
Lemma runs_nil j k st : runs j k st [] j k st.
Proof. intros t H. exists t. split; [constructor|exact H]. Qed.
Lemma runs_app j k st l j1 k1 st1 l2 j2 k2 st2 :
  runs j k st l j1 k1 st1 -> runs j1 k1 st1 l2 j2 k2 st2 -> runs j k st (l ++ l2) j2 k2 st2.
Proof.
  intros H1 H2 t A. destruct (H1 t A) as (t1 & S1 & A1). destruct (H2 t1 A1) as (t2 & S2 & A2).
  exists t2. split; [eapply steps_app; eauto|exact A2].
Qed.
Lemma runs_cons j k st x j1 k1 st1 l2 j2 k2 st2 :
  runs j k st [x] j1 k1 st1 -> runs j1 k1 st1 l2 j2 k2 st2 -> runs j k st (x :: l2) j2 k2 st2.
Proof. intros H1 H2. exact (runs_app _ _ _ _ _ _ _ _ _ _ _ H1 H2). Qed.

(** One token. *)
Lemma runs_one w s r k st d v index depth k' st' :
  ws w -> nsp s -> s <> [] -> scan_token s = (d, v, r, None) ->
  (forall t, t_err t = None -> t_json t = w ++ s -> t_isKey t = k -> t_stack t = st ->
     tok_next t = Some (Tok d v None depth index ((d =? 0) && k) k' r st', true)) ->
  runs (w ++ s) k st [TK d v depth index ((d =? 0) && k)] r k' st'.
Proof.
  intros _ _ _ _ H t (E1 & E2 & E3 & E4). eexists. split.
  - pose proof (st_cons _ _ _ _ (H t E1 E2 E3 E4) (st_nil _)) as S. exact S.
  - repeat split.
Qed.

Lemma tok_next_eq t w s k st : ws w -> nsp s -> t_err t = None -> t_json t = w ++ s -> t_isKey t = k -> t_stack t = st ->
  tok_next t =
      match s with
      | [] => Some (new_tokenizer [], false)
      | _ =>
          let '(d, v, b, err) := scan_token s in
          let IsKey := (d =? 0) && k in
          let mk depth index isKey stack :=
            Tok d v err depth index IsKey isKey b stack in
          let depth := tok_depth st in
          let index := tok_index st in
          if d =? 0 then
            Some (mk depth index k st,
                  match err with None => negb (Nat.eqb (length v) 0) | Some _ => false end)
          else if d =? 123 then Some (mk depth index true ((true, 1) :: st), true)
          else if d =? 91 then Some (mk depth index k ((false, 1) :: st), true)
          else if (d =? 125) || (d =? 93) then
            match tok_pop (d =? 125) st with
            | Some st' => Some (mk (depth - 1) (tok_index st') k st', true)
            | None => Some (mk (depth - 1) (tok_index st) k st, false)
            end
          else if d =? 58 then Some (mk depth index false st, true)
          else
            match st with
            | [] => None
            | (o, n) :: st' =>
                Some (mk depth index (if o then true else k) ((o, n + 1) :: st'), true)
            end
      end.
Proof.
  intros W N E1 E2 E3 E4. unfold tok_next. rewrite E1, E2, E3, E4, skip_spaces_ws, skip_spaces_nsp by assumption.
  reflexivity.
Qed.

Definition lit_token (v : bytes) : Prop := string_lit v \/ number_lit v \/ v = bs "null" \/ v = bs "true" \/ v = bs "false".
Lemma scan_token_lit v r : lit_token v -> num_stop r ->
  scan_token (v ++ r) = (0, v, r, None) /\ nsp (v ++ r) /\ v <> [].
Proof.
  intros [H|[H|[->|[->| ->]]]] Hr.
  - pose proof (parse_string_complete v r H) as P. destruct H as (body & -> & _). cbn [app] in *.
    unfold scan_token. change (34 =? 34) with true. cbv iota. rewrite P. repeat split; discriminate.
  - pose proof (parse_number_complete v r H Hr) as P. destruct (number_head v H) as (c & t & -> & Hc).
    cbn [app] in *. unfold scan_token, is_num_start, is_digit.
    destruct (c =? 34) eqn:?; [zb; lia|]. destruct (c =? 110) eqn:?; [zb; lia|].
    destruct (c =? 116) eqn:?; [zb; lia|]. destruct (c =? 102) eqn:?; [zb; lia|].
    replace ((c =? 45) || (48 <=? c) && (c <=? 57)) with true.
    2:{ symmetry. rewrite orb_true_iff, andb_true_iff, Z.eqb_eq, !Z.leb_le. lia. }
    rewrite P. repeat split; [|discriminate]. cbn. apply vhead_nsp. unfold vhead. lia.
  - split; [|split; [reflexivity|discriminate]]. cbn [bs app]. change (parse_lit lit_null (lit_null ++ r)) with (parse_null (110 :: 117 :: 108 :: 108 :: r)).
    unfold scan_token. cbn -[parse_null]. unfold parse_null.
    change (110 :: 117 :: 108 :: 108 :: r) with (lit_null ++ r). rewrite parse_lit_complete. reflexivity.
  - split; [|split; [reflexivity|discriminate]]. cbn -[parse_true scan_token]. unfold scan_token. cbn -[parse_true]. unfold parse_true.
    change (116 :: 114 :: 117 :: 101 :: r) with (lit_true ++ r). rewrite parse_lit_complete. reflexivity.
  - split; [|split; [reflexivity|discriminate]]. cbn -[parse_false scan_token]. unfold scan_token. cbn -[parse_false]. unfold parse_false.
    change (102 :: 97 :: 108 :: 115 :: 101 :: r) with (lit_false ++ r). rewrite parse_lit_complete. reflexivity.
Qed.

Lemma runs_lit w v r k st : ws w -> lit_token v -> num_stop r ->
  runs (w ++ v ++ r) k st [TK 0 v (tok_depth st) (tok_index st) k] r k st.
Proof.
  intros W L N. destruct (scan_token_lit v r L N) as (S & P & NE).
  assert (NN : v ++ r <> []) by (destruct v; [congruence|discriminate]).
  apply (runs_one w (v ++ r) r k st 0 v _ _ k st W P NN S).
  intros t E1 E2 E3 E4. rewrite (tok_next_eq t w (v ++ r) k st W P E1 E2 E3 E4), S.
  destruct (v ++ r) as [|c0 r0]; [congruence|]. destruct v; [congruence|]. reflexivity.
Qed.

Lemma runs_open o w r k st : ws w ->
  let c := if o : bool then 123 else 91 in
  runs (w ++ c :: r) k st [delim_tok c (tok_depth st) (tok_index st)] r (o || k) ((o, 1) :: st).
Proof.
  intros W c. unfold delim_tok.
  assert (S : scan_token (c :: r) = (c, [c], r, None)) by (destruct o; reflexivity).
  assert (P : nsp (c :: r)) by (destruct o; reflexivity).
  replace false with ((c =? 0) && k) by (destruct o; reflexivity).
  apply (runs_one w (c :: r) r k st c [c] _ _ _ _ W P ltac:(discriminate) S).
  intros t E1 E2 E3 E4. rewrite (tok_next_eq t w (c :: r) k st W P E1 E2 E3 E4), S. destruct o; reflexivity.
Qed.
Lemma runs_close o w r k st n : ws w ->
  let c := if o : bool then 125 else 93 in
  runs (w ++ c :: r) k ((o, n) :: st) [delim_tok c (tok_depth st) (tok_index st)] r k st.
Proof.
  intros W c. unfold delim_tok.
  assert (S : scan_token (c :: r) = (c, [c], r, None)) by (destruct o; reflexivity).
  assert (P : nsp (c :: r)) by (destruct o; reflexivity).
  replace false with ((c =? 0) && k) by (destruct o; reflexivity).
  apply (runs_one w (c :: r) r k _ c [c] _ _ _ _ W P ltac:(discriminate) S).
  intros t E1 E2 E3 E4. rewrite (tok_next_eq t w (c :: r) k _ W P E1 E2 E3 E4), S.
  replace (tok_depth st) with (tok_depth ((o, n) :: st) - 1) by (unfold tok_depth; cbn [length]; lia).
  destruct o; reflexivity.
Qed.
Lemma runs_colon w r k st : ws w ->
  runs (w ++ 58 :: r) k st [delim_tok 58 (tok_depth st) (tok_index st)] r false st.
Proof.
  intros W. unfold delim_tok.
  assert (P : nsp (58 :: r)) by reflexivity.
  change false with ((58 =? 0) && k) at 1.
  apply (runs_one w (58 :: r) r k _ 58 [58] _ _ _ _ W P ltac:(discriminate) eq_refl).
  intros t E1 E2 E3 E4. rewrite (tok_next_eq t w (58 :: r) k _ W P E1 E2 E3 E4). reflexivity.
Qed.
Lemma runs_comma o w r k st n : ws w ->
  runs (w ++ 44 :: r) k ((o, n) :: st) [delim_tok 44 (tok_depth st + 1) (n - 1)] r (o || k) ((o, n + 1) :: st).
Proof.
  intros W. unfold delim_tok.
  assert (P : nsp (44 :: r)) by reflexivity.
  change false with ((44 =? 0) && k).
  apply (runs_one w (44 :: r) r k _ 44 [44] _ _ _ _ W P ltac:(discriminate) eq_refl).
  intros t E1 E2 E3 E4. rewrite (tok_next_eq t w (44 :: r) k _ W P E1 E2 E3 E4).
  replace (tok_depth st + 1) with (tok_depth ((o, n) :: st)) by (unfold tok_depth; cbn [length]; lia).
  destruct o; reflexivity.
Qed.

(** What the Tokenizer really reports: the flag [isKey] survives an empty
    object.  [after k a] is the flag after the value, [ktoks] the tokens. *)
Fixpoint after (k : bool) (a : jast) : bool :=
  match a with
  | JArr l => fold_left (fun k x => after k x) l k
  | JObj l => fold_left (fun _ kv => match kv with (_, x) => after false x end) l true
  | _ => k
  end.
Fixpoint ktoks (k : bool) (depth index : Z) (a : jast) : list token :=
  match a with
  | JArr l =>
      delim_tok 91 depth index ::
      (fix go k i l := match l with
                     | [] => []
                     | a :: l' => ktoks k (depth + 1) i a ++
                                  match l' with
                                  | [] => []
                                  | _ => delim_tok 44 (depth + 1) i :: go (after k a) (i + 1) l'
                                  end
                     end) k 0 l ++
      [delim_tok 93 depth index]
  | JObj l =>
      delim_tok 123 depth index ::
      (fix go i l := match l with
                     | [] => []
                     | (key, a) :: l' => TK 0 key (depth + 1) i true :: delim_tok 58 (depth + 1) i ::
                                       ktoks false (depth + 1) i a ++
                                       match l' with
                                       | [] => []
                                       | _ => delim_tok 44 (depth + 1) i :: go (i + 1) l'
                                       end
                     end) 0 l ++
      [delim_tok 125 depth index]
  | _ => [TK 0 (scalar_text a) depth index k]
  end.
Definition kelems (depth : Z) := fix go k i l := match l with
                     | [] => []
                     | a :: l' => ktoks k (depth + 1) i a ++
                                  match l' with
                                  | [] => []
                                  | _ => delim_tok 44 (depth + 1) i :: go (after k a) (i + 1) l'
                                  end
                     end.
Definition kmembers (depth : Z) := fix go i l := match l with
                     | [] => []
                     | (key, a) :: l' => TK 0 key (depth + 1) i true :: delim_tok 58 (depth + 1) i ::
                                       ktoks false (depth + 1) i a ++
                                       match l' with
                                       | [] => []
                                       | _ => delim_tok 44 (depth + 1) i :: go (i + 1) l'
                                       end
                     end.
Lemma ktoks_arr k d i l : ktoks k d i (JArr l) = delim_tok 91 d i :: kelems d k 0 l ++ [delim_tok 93 d i].
Proof. reflexivity. Qed.
Lemma ktoks_obj k d i l : ktoks k d i (JObj l) = delim_tok 123 d i :: kmembers d 0 l ++ [delim_tok 125 d i].
Proof. reflexivity. Qed.

Lemma tok_depth_cons x st : tok_depth (x :: st) = tok_depth st + 1.
Proof. unfold tok_depth. cbn [length]. lia. Qed.

Ltac norm_app := repeat (rewrite <- ?app_assoc; cbn [app]).

Lemma run_all :
  (forall s a, jvalue s a -> forall w r k st, ws w -> num_stop r ->
     runs (w ++ s ++ r) k st (ktoks k (tok_depth st) (tok_index st) a) r (after k a) st) /\
  (forall s l, jelems s l -> forall r k st n, exists w n', ws w /\
     runs (s ++ 93 :: r) k ((false, n) :: st) (kelems (tok_depth st) k (n - 1) l) (w ++ 93 :: r)
          (fold_left after l k) ((false, n') :: st)) /\
  (forall s l, jmembers s l -> forall r st n, exists w n', ws w /\
     runs (s ++ 125 :: r) true ((true, n) :: st) (kmembers (tok_depth st) (n - 1) l) (w ++ 125 :: r)
          (fold_left (fun _ kv => match kv with (_, x) => after false x end) l true) ((true, n') :: st)) /\
  (forall m kv, jmember m kv -> forall r st n, num_stop r -> exists w, ws w /\
     runs (m ++ r) true ((true, n) :: st)
          (TK 0 (fst kv) (tok_depth st + 1) (n - 1) true :: delim_tok 58 (tok_depth st + 1) (n - 1) ::
           ktoks false (tok_depth st + 1) (n - 1) (snd kv))
          (w ++ r) (after false (snd kv)) ((true, n) :: st)).
Proof.
  apply json_mutind.
  - intros w r k st W N. apply runs_lit; unfold lit_token; auto.
  - intros w r k st W N. apply runs_lit; unfold lit_token; auto.
  - intros w r k st W N. apply runs_lit; unfold lit_token; auto 6.
  - intros s H w r k st W N. apply runs_lit; unfold lit_token; auto.
  - intros s H w r k st W N. apply runs_lit; unfold lit_token; auto.
  - intros w' W' w r k st W N. rewrite ktoks_arr. norm_app. cbn [kelems after fold_left app].
    eapply runs_cons; [apply (runs_open false); exact W|]. cbn [orb].
    apply (runs_close false); exact W'.
  - intros s l Hs IH w r k st W N. rewrite ktoks_arr. norm_app. cbn [after].
    eapply runs_cons; [apply (runs_open false); exact W|]. cbn [orb].
    destruct (IH r k st 1) as (w' & n' & W' & R). change (1 - 1) with 0 in R.
    eapply runs_app; [exact R|]. apply (runs_close false); exact W'.
  - intros w' W' w r k st W N. rewrite ktoks_obj. norm_app. cbn [kmembers after fold_left app].
    eapply runs_cons; [apply (runs_open true); exact W|]. cbn [orb].
    apply (runs_close true); exact W'.
  - intros s l Hs IH w r k st W N. rewrite ktoks_obj. norm_app. cbn [after].
    eapply runs_cons; [apply (runs_open true); exact W|]. cbn [orb].
    destruct (IH r st 1) as (w' & n' & W' & R). change (1 - 1) with 0 in R.
    eapply runs_app; [exact R|]. apply (runs_close true); exact W'.
  - intros w1 s v w2 W1 Hv IH W2 r k st n. exists w2, n. split; [exact W2|].
    cbn [kelems fold_left]. rewrite app_nil_r. norm_app.
    specialize (IH w1 (w2 ++ 93 :: r) k ((false, n) :: st) W1 (num_stop_ws _ (93 :: r) W2 eq_refl)).
    rewrite tok_depth_cons in IH. exact IH.
  - intros w1 s v w2 t l W1 Hv IH W2 Ht IHt r k st n.
    destruct (IHt r (after k v) st (n + 1)) as (w & n' & W & R). exists w, n'. split; [exact W|].
    cbn [kelems fold_left]. fold kelems. norm_app.
    specialize (IH w1 (w2 ++ 44 :: t ++ 93 :: r) k ((false, n) :: st) W1 (num_stop_ws _ (44 :: _) W2 eq_refl)).
    rewrite tok_depth_cons in IH. cbn [tok_index] in IH.
    eapply runs_app; [exact IH|].
    destruct l as [|b l']; [inversion Ht|].
    eapply runs_cons; [apply (runs_comma false); exact W2|]. cbn [orb].
    replace (n - 1 + 1) with (n + 1 - 1) by lia. exact R.
  - intros m kv Hm IH r st n. destruct (IH (125 :: r) st n eq_refl) as (w & W & R).
    exists w, n. split; [exact W|]. destruct kv as [key v]. cbn [kmembers fold_left fst snd] in *. rewrite app_nil_r. exact R.
  - intros m kv t l Hm IH Ht IHt r st n.
    destruct (IH (44 :: t ++ 125 :: r) st n eq_refl) as (w1 & W1 & R1).
    destruct (IHt r st (n + 1)) as (w & n' & W & R). exists w, n'. split; [exact W|].
    destruct kv as [key v]. cbn [kmembers fst snd] in *. fold kmembers. norm_app.
    assert (Ha : forall l (k0 : bool), l <> [] -> fold_left (fun (_ : bool) (kv : bytes * jast) => let (_, x) := kv in after false x) l k0 =
              fold_left (fun (_ : bool) (kv : bytes * jast) => let (_, x) := kv in after false x) l true).
    { intros l0 k0 Hl. destruct l0; [congruence|]. reflexivity. }
    assert (Hl : l <> []) by (inversion Ht; discriminate).
    cbn [fold_left]. rewrite Ha by exact Hl.
    change (TK 0 key (tok_depth st + 1) (n - 1) true :: delim_tok 58 (tok_depth st + 1) (n - 1) ::
      ktoks false (tok_depth st + 1) (n - 1) v ++ match l with [] => [] | _ :: _ => delim_tok 44 (tok_depth st + 1) (n - 1) :: kmembers (tok_depth st) (n - 1 + 1) l end)
      with ((TK 0 key (tok_depth st + 1) (n - 1) true :: delim_tok 58 (tok_depth st + 1) (n - 1) ::
      ktoks false (tok_depth st + 1) (n - 1) v) ++ match l with [] => [] | _ :: _ => delim_tok 44 (tok_depth st + 1) (n - 1) :: kmembers (tok_depth st) (n - 1 + 1) l end).
    eapply runs_app; [exact R1|].
    destruct l as [|b l']; [congruence|].
    eapply runs_cons; [apply (runs_comma true); exact W1|]. cbn [orb].
    replace (n - 1 + 1) with (n + 1 - 1) by lia. exact R.
  - intros w1 k w2 w3 s v w4 W1 Hk W2 W3 Hv IH W4 r st n N. exists w4. split; [exact W4|].
    cbn [fst snd]. norm_app.
    eapply runs_cons.
    { pose proof (runs_lit w1 k (w2 ++ 58 :: w3 ++ s ++ w4 ++ r) true ((true, n) :: st) W1 (or_introl Hk)
        (num_stop_ws _ (58 :: _) W2 eq_refl)) as R. rewrite tok_depth_cons in R. exact R. }
    eapply runs_cons.
    { pose proof (runs_colon w2 (w3 ++ s ++ w4 ++ r) true ((true, n) :: st) W2) as R. rewrite tok_depth_cons in R. exact R. }
    specialize (IH w3 (w4 ++ r) false ((true, n) :: st) W3 (num_stop_ws _ r W4 N)).
    rewrite tok_depth_cons in IH. exact IH.
Qed.

Lemma tok_next_end t w k st : at_state t w k st -> ws w -> tok_next t = Some (new_tokenizer [], false).
Proof.
  intros (E1 & E2 & E3 & E4) W. rewrite <- (app_nil_r w) in E2.
  rewrite (tok_next_eq t w [] k st W I E1 E2 E3 E4). reflexivity.
Qed.

Lemma run_text data a : jtext data a -> exists t', steps (new_tokenizer data) (ktoks false 0 0 a) t' /\
  tok_next t' = Some (new_tokenizer [], false).
Proof.
  intros (w1 & s & w2 & -> & W1 & Hv & W2).
  assert (N : num_stop w2) by (rewrite <- (app_nil_r w2); apply num_stop_ws; [exact W2|exact I]).
  destruct (proj1 run_all s a Hv w1 w2 false [] W1 N (new_tokenizer (w1 ++ s ++ w2))) as (t' & S & A).
  { repeat split. }
  exists t'. split; [exact S|]. eapply tok_next_end; [exact A|exact W2].
Qed.

(** * Induction on syntax trees *)
Section jast_induction.
  Variable P : jast -> Prop.
  Hypothesis HNull : P JNull.
  Hypothesis HTrue : P JTrue.
  Hypothesis HFalse : P JFalse.
  Hypothesis HNum : forall s, P (JNum s).
  Hypothesis HStr : forall s, P (JStr s).
  Hypothesis HArr : forall l, Forall P l -> P (JArr l).
  Hypothesis HObj : forall l, Forall (fun kv => P (snd kv)) l -> P (JObj l).
  Fixpoint jast_rect' (a : jast) : P a :=
    match a with
    | JNull => HNull | JTrue => HTrue | JFalse => HFalse
    | JNum s => HNum s | JStr s => HStr s
    | JArr l => HArr l ((fix go l : Forall P l :=
        match l with [] => Forall_nil _ | x :: l' => Forall_cons x (jast_rect' x) (go l') end) l)
    | JObj l => HObj l ((fix go l : Forall (fun kv => P (snd kv)) l :=
        match l with [] => Forall_nil _ | x :: l' => Forall_cons x (jast_rect' (snd x)) (go l') end) l)
    end.
End jast_induction.

(** * The reported tokens are the right ones, except for IsKey after an empty object *)
Definition elems_toks (depth : Z) := fix go i l := match l with
                     | [] => []
                     | a :: l' => toks (depth + 1) i a ++
                                  match l' with
                                  | [] => []
                                  | _ => delim_tok 44 (depth + 1) i :: go (i + 1) l'
                                  end
                     end.
Definition members_toks (depth : Z) := fix go i l := match l with
                     | [] => []
                     | (k, a) :: l' => TK 0 k (depth + 1) i true :: delim_tok 58 (depth + 1) i ::
                                       toks (depth + 1) i a ++
                                       match l' with
                                       | [] => []
                                       | _ => delim_tok 44 (depth + 1) i :: go (i + 1) l'
                                       end
                     end.
Lemma toks_arr d i l : toks d i (JArr l) = delim_tok 91 d i :: elems_toks d 0 l ++ [delim_tok 93 d i].
Proof. reflexivity. Qed.
Lemma toks_obj d i l : toks d i (JObj l) = delim_tok 123 d i :: members_toks d 0 l ++ [delim_tok 125 d i].
Proof. reflexivity. Qed.

Lemma after_clean a : no_empty_obj a -> after false a = false.
Proof.
  induction a as [ | | | | |l IH|l IH] using jast_rect'; try reflexivity; cbn [no_empty_obj after].
  - induction IH as [|a l Ha IH IHl]; cbn; [reflexivity|]. intros [H1 H2]. rewrite (Ha H1). auto.
  - intros [NE H]. assert (G : forall k, l <> [] -> fold_left (fun (_ : bool) (kv : bytes * jast) => let (_, x) := kv in after false x) l k = false).
    { clear NE. induction IH as [|[k x] l Ha IH IHl]; [congruence|]. cbn in H. destruct H as [H1 H2].
      intros k0 _. cbn [fold_left]. cbn [snd] in Ha. rewrite (Ha H1). destruct l; [reflexivity|]. apply IHl; [exact H2|discriminate]. }
    apply G, NE.
Qed.
Lemma ktoks_clean a : (no_empty_obj a -> forall d i, ktoks false d i a = toks d i a) /\
  (no_empty_in_array a -> forall d i, ktoks false d i a = toks d i a).
Proof.
  induction a as [ | | | | |l IH|l IH] using jast_rect'; try (split; reflexivity).
  - assert (G : fold_right and True (map no_empty_obj l) -> forall d i, kelems d false i l = elems_toks d i l).
    { intros H d. induction IH as [|a l [Ha _] IH IHl]; [reflexivity|]. cbn in H. destruct H as [H1 H2].
      intros i. cbn [kelems elems_toks]. rewrite (Ha H1), (after_clean a H1). destruct l; [reflexivity|].
      do 2 f_equal. apply IHl, H2. }
    split; cbn [no_empty_obj no_empty_in_array]; intros H d i; rewrite ktoks_arr, toks_arr, G by exact H; reflexivity.
  - split; cbn [no_empty_obj no_empty_in_array]; intros H d i; rewrite ktoks_obj, toks_obj; do 2 f_equal;
      [destruct H as [_ H]|]; generalize 0; (induction IH as [|[k x] l [Ha1 Ha2] IH IHl]; [reflexivity|]; cbn in H; destruct H as [H1 H2];
      intros j; cbn [kmembers members_toks]; cbn [snd] in Ha1, Ha2; rewrite ?(Ha1 H1), ?(Ha2 H1); destruct l; [reflexivity|];
      do 4 f_equal; apply IHl, H2).
Qed.

Definition unkey (t : token) : token := TK (k_delim t) (k_value t) (k_depth t) (k_index t) false.
Lemma ktoks_unkey a : forall k d i, map unkey (ktoks k d i a) = map unkey (toks d i a).
Proof.
  induction a as [ | | | | |l IH|l IH] using jast_rect'; intros k d i; try reflexivity.
  - rewrite ktoks_arr, toks_arr. cbn [map]. rewrite !map_app. do 2 f_equal.
    generalize 0 as j. revert k. induction IH as [|a l Ha IH IHl]; intros k j; [reflexivity|].
    cbn [kelems elems_toks]. rewrite !map_app, Ha. destruct l; [reflexivity|]. cbn [map]. do 2 f_equal. apply IHl.
  - rewrite ktoks_obj, toks_obj. cbn [map]. rewrite !map_app. do 2 f_equal.
    generalize 0 as j. induction IH as [|[key a] l Ha IH IHl]; intros j; [reflexivity|].
    cbn [kmembers members_toks map]. rewrite !map_app. cbn [snd] in Ha. rewrite Ha. destruct l; [reflexivity|].
    cbn [map]. do 4 f_equal. apply IHl.
Qed.

(** * Arbitrary input *)
Lemma scan_token_sound s d v r : wf s -> scan_token s = (d, v, r, None) -> s <> [] ->
  s = v ++ r /\ (d = 0 /\ lit_token v \/ is_delim d = true /\ v = [d]).
Proof.
  intros W H NE. destruct s as [|c s]; [congruence|]. unfold scan_token in H.
  assert (L : forall lit, parse_lit lit (c :: s) = parse_lit lit (c :: s)) by reflexivity. clear L.
  destruct (c =? 34).
  { destruct (parse_string (c :: s)) as [v' r'|] eqn:E; cbn in H; [|discriminate]. injection H as <- <- <-.
    apply parse_string_sound in E; [|exact W]. destruct E as [E1 E2]. split; [exact E1|]. left. split; [reflexivity|]. left. exact E2. }
  destruct (c =? 110).
  { unfold parse_null in H. destruct (parse_lit lit_null (c :: s)) as [v' r'|] eqn:E; cbn in H; [|discriminate]. injection H as <- <- <-.
    apply parse_lit_sound in E. destruct E as [-> E2]. split; [exact E2|]. left. split; [reflexivity|]. right; right; left. reflexivity. }
  destruct (c =? 116).
  { unfold parse_true in H. destruct (parse_lit lit_true (c :: s)) as [v' r'|] eqn:E; cbn in H; [|discriminate]. injection H as <- <- <-.
    apply parse_lit_sound in E. destruct E as [-> E2]. split; [exact E2|]. left. split; [reflexivity|]. right; right; right; left. reflexivity. }
  destruct (c =? 102).
  { unfold parse_false in H. destruct (parse_lit lit_false (c :: s)) as [v' r'|] eqn:E; cbn in H; [|discriminate]. injection H as <- <- <-.
    apply parse_lit_sound in E. destruct E as [-> E2]. split; [exact E2|]. left. split; [reflexivity|]. right; right; right; right. reflexivity. }
  destruct (is_num_start c).
  { destruct (parse_number (c :: s)) as [v' r'|] eqn:E; cbn in H; [|discriminate]. injection H as <- <- <-.
    apply parse_number_sound in E. destruct E as [E1 E2]. split; [exact E1|]. left. split; [reflexivity|]. right; left. exact E2. }
  destruct (is_delim c) eqn:E; [|discriminate]. injection H as <- <- <-. split; [reflexivity|]. right. split; [exact E|reflexivity].
Qed.
Lemma lit_token_nonempty v : lit_token v -> v <> [].
Proof.
  intros [H|[H|[->|[->| ->]]]]; try discriminate.
  - destruct H as (b & -> & _). discriminate.
  - destruct (number_head _ H) as (c & t & -> & _). discriminate.
Qed.

Lemma tok_next_sound t t' : wf (t_json t) -> tok_next t = Some (t', true) ->
  exists w, ws w /\ t_json t = w ++ t_value t' ++ t_json t' /\ t_err t' = None /\ t_err t = None /\
    (t_delim t' = 0 /\ lit_token (t_value t') \/ is_delim (t_delim t') = true /\ t_value t' = [t_delim t']).
Proof.
  intros W. unfold tok_next. destruct (t_err t) eqn:Ee; [discriminate|].
  destruct (skip_spaces_split (t_json t)) as (w & Hw & Ej & Hn).
  destruct (skip_spaces (t_json t)) as [|c s] eqn:Es; [discriminate|].
  destruct (scan_token (c :: s)) as [[[d v] r] e] eqn:Et.
  assert (W' : wf (c :: s)) by (rewrite Ej in W; apply wf_app in W; apply W).
  assert (K : e = None -> t_json t = w ++ v ++ r /\ (d = 0 /\ lit_token v \/ is_delim d = true /\ v = [d])).
  { intros ->. apply scan_token_sound in Et; [|exact W'|discriminate]. destruct Et as [E1 E2].
    rewrite Ej, E1. split; [reflexivity|exact E2]. }
  destruct (d =? 0) eqn:E0.
  { destruct e; [discriminate|]. intros H. injection H as <- _. cbn. exists w. destruct (K eq_refl). auto 6. }
  assert (e = None).
  { clear K. unfold scan_token in Et. unfold tok_of_pres in Et.
    repeat match type of Et with
    | (if ?x then _ else _) = _ => destruct x
    | match ?x with _ => _ end = _ => destruct x
    end; injection Et as <- <- <- <-; try discriminate; reflexivity. }
  subst e. destruct (K eq_refl) as [K1 K2].
  repeat match goal with
  | |- (if ?x then _ else _) = _ -> _ => destruct x
  | |- match ?x with _ => _ end = _ -> _ => destruct x
  | p : tstate |- _ => destruct p
  end; intros H; try discriminate; injection H as <-; exists w; cbn; auto 6.
Qed.

(** Lexical errors are reported and kept. *)
Lemma tok_next_lexical t w s : wf s -> t_err t = None -> t_json t = w ++ s -> ws w -> nsp s -> s <> [] ->
  (forall v r, s = v ++ r -> ~ lit_token v) -> (forall c r, s = c :: r -> is_delim c = false) ->
  exists t' e, tok_next t = Some (t', false) /\ t_err t' = Some e.
Proof.
  intros W E1 E2 Hw Hn NE HL HD. rewrite (tok_next_eq t w s _ _ Hw Hn E1 E2 eq_refl eq_refl).
  destruct s as [|c s]; [congruence|].
  destruct (scan_token (c :: s)) as [[[d v] r] [e|]] eqn:Et.
  2:{ exfalso. apply scan_token_sound in Et; [|exact W|discriminate]. destruct Et as [E [[_ L]|[D ->]]].
      - exact (HL _ _ E L).
      - cbn in E. injection E as -> ->. rewrite (HD _ _ eq_refl) in D. discriminate. }
  assert (d = 0).
  { unfold scan_token in Et. unfold tok_of_pres in Et.
    repeat match type of Et with
    | (if ?x then _ else _) = _ => destruct x
    | match ?x with _ => _ end = _ => destruct x
    end; injection Et as <- <- <-; try discriminate; reflexivity. }
  subst d. change (0 =? 0) with true. cbv iota. eexists _, e. split; reflexivity.
Qed.

Lemma steps_bounded : forall t l t', wf (t_json t) -> steps t l t' -> (length l + length (t_json t') <= length (t_json t))%nat.
Proof.
  intros t l t' W S. induction S as [t|t t1 l t' H S IH]; [cbn; lia|].
  destruct (tok_next_sound _ _ W H) as (w & Hw & E & _ & _ & K).
  rewrite E in W |- *. apply wf_app in W. destruct W as [_ W]. apply wf_app in W. destruct W as [_ W].
  specialize (IH W). rewrite !app_length. cbn [length].
  assert (t_value t1 <> []) by (destruct K as [[_ K]|[_ ->]]; [apply lit_token_nonempty, K|discriminate]).
  destruct (t_value t1); [congruence|]. cbn [length]. lia.
Qed.
