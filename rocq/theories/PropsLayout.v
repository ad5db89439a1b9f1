(** C103: the tokens of a text are the text without its layout. *)
From Verif Require Import Bytes ParseModel StringModel TokenModel EncModel ScanModel SpecJson SpecString SpecTokens SpecRender SpecColor SpecRaw SpecScan SpecLayout
  ParseFacts StringFacts TokenFacts EncExtra EncFacts RawFacts TextFacts ColorFacts DocFacts RawText Unambig PropsParse PropsTokens PropsScan.
From Coq Require Import Lia.
Local Open Scope Z_scope.

Lemma steps_spread t l t' : steps t l t' -> wf (t_json t) -> spread (map k_value l) (t_json t) (t_json t') /\ wf (t_json t') /\ (l <> [] -> t_err t' = None) /\
  squeeze (t_json t) = concat (map k_value l) ++ squeeze (t_json t').
Proof.
  induction 1 as [t|t t1 l t' H S IH]; intros W; [repeat split; try easy; constructor|].
  destruct (tok_next_sound t t1 W H) as (w & Hw & E & E1 & _ & K). rewrite E in W. pose proof W as W0. apply wf_app in W0 as [_ W0]. apply wf_app in W0 as [_ W0].
  destruct (IH W0) as (A & B & C & D). split; [|split; [exact B|split]].
  - cbn [map]. rewrite E. constructor; assumption.
  - intros _. destruct l; [inversion S; subst; exact E1|apply C; discriminate].
  - rewrite E, sq_ws by exact Hw. cbn [map concat view k_value]. rewrite <- app_assoc, <- D.
    destruct K as [[_ K]|[K1 K2]]; [apply (squeeze_lit _ K)|]. rewrite K2. cbn [app]. apply sq_c.
    unfold is_delim in K1. rewrite !orb_true_iff, !Z.eqb_eq in K1. cbn [In]. clear - K1. repeat destruct K1 as [K1|K1]; rewrite K1; auto 8.
Qed.

(** How a run ends. *)
Lemma next_ends t t' : wf (t_json t) -> t_err t = None -> tok_next t = Some (t', false) -> t_err t' = None ->
  ws (t_json t) \/ exists w c r, ws w /\ t_json t = w ++ c :: r /\ In c [93; 125] /\ t_delim t' = c.
Proof.
  intros W E H N. destruct (skip_spaces_split (t_json t)) as (w & Hw & Ej & Hn).
  rewrite (tok_next_eq t w _ _ _ Hw Hn E Ej eq_refl eq_refl) in H.
  destruct (skip_spaces (t_json t)) as [|c s]; [left; rewrite Ej, app_nil_r; exact Hw|]. right.
  destruct (scan_token (c :: s)) as [[[d v] r] e] eqn:Et.
  assert (W' : wf (c :: s)) by (rewrite Ej in W; apply wf_app in W; apply W).
  destruct (d =? 0) eqn:E0.
  { injection H as <- H. cbn in N. subst e. apply scan_token_sound in Et; [|exact W'|discriminate].
    destruct Et as [_ [[_ L]|[D _]]]; [|zb; subst d; discriminate].
    apply lit_token_nonempty in L. destruct v; [congruence|discriminate]. }
  destruct (d =? 123); [discriminate|]. destruct (d =? 91); [discriminate|].
  destruct ((d =? 125) || (d =? 93)) eqn:E3.
  2:{ destruct (d =? 58); [discriminate|]. destruct (t_stack t) as [|[o n] st]; discriminate. }
  destruct (tok_pop (d =? 125) (t_stack t)); [discriminate|]. injection H as <-. cbn in N. subst e.
  apply scan_token_sound in Et; [|exact W'|discriminate]. destruct Et as [Es [[-> _]|[_ ->]]]; [discriminate|].
  injection Es as -> ->. exists w, d, r. apply orb_true_iff in E3. rewrite !Z.eqb_eq in E3. cbn [In t_delim]. split; [exact Hw|]. split; [exact Ej|]. split; [|reflexivity]. clear - E3. destruct E3 as [E3|E3]; rewrite E3; auto.
Qed.

(** On any input, the bytes of the input are those of the tokens and the white space
    before them, in order, up to where the tokenizer stops.  It stops without an error
    at the end of the input or at a bracket that closes nothing. *)
Theorem C103_spread : forall data l e, wf data -> token_run data l e ->
  exists rest, spread (map k_value l) data rest /\
    (ws rest -> e = None) /\
    (e = None -> ws rest \/ exists w c r, ws w /\ rest = w ++ c :: r /\ In c [93; 125]).
Proof.
  intros data l e W (t & t' & S & N & <-). destruct (steps_spread _ _ _ S W) as (A & B & C & _). exists (t_json t). split; [exact A|].
  assert (E : t_err t = None) by (destruct l; [inversion S; reflexivity|apply C; discriminate]).
  split.
  - intros R. unfold tok_next in N. rewrite E in N. pose proof (skip_spaces_ws (t_json t) [] R) as X. rewrite app_nil_r in X. rewrite X in N.
    cbn in N. injection N as <-. reflexivity.
  - intros R. destruct (next_ends t t' B E N R) as [X|(w & c & r & X1 & X2 & X3 & _)]; [auto|right; exists w, c, r; auto].
Qed.
Print Assumptions C103_spread.

(** For a JSON text the tokens put together are the text without the white space
    outside strings, *)
Lemma text_values s a l e : jtext s a -> token_run s l e -> e = None /\ concat (map k_value l) = squeeze s.
Proof.
  intros J R. pose proof (jtext_wf s a J) as W. destruct (run_text s a J) as (t & S & N).
  assert (R' : token_run s (ktoks false 0 0 a) None) by (exists t, (new_tokenizer []); auto).
  destruct (C21_run_unique s _ _ _ _ R R') as [-> ->]. split; [reflexivity|].
  destruct (steps_spread _ _ _ S W) as (_ & B & C & D). cbn [t_json new_tokenizer] in D. rewrite D.
  assert (E : t_err t = None) by (destruct (ktoks false 0 0 a); [inversion S; reflexivity|apply C; discriminate]).
  destruct (next_ends t _ B E N eq_refl) as [X|(w & c & r & _ & _ & I & X)]; [|cbn in X; subst c; cbn in I; intuition discriminate].
  pose proof (sq_ws (t_json t) [] X) as Y. rewrite app_nil_r in Y. rewrite Y. cbn. now rewrite app_nil_r.
Qed.
Theorem C103_squeezed : forall s l e, Valid s = true -> wf s -> token_run s l e ->
  e = None /\ concat (map k_value l) = squeeze s.
Proof. intros s l e V W R. apply C01_valid_iff_grammar in V as (a & J); [|exact W]. exact (text_values s a l e J R). Qed.
Print Assumptions C103_squeezed.

(** which is what Compact returns. *)
Theorem C103_compact : forall s t l e, wf s -> go_compact s = Some t -> token_run s l e -> concat (map k_value l) = t.
Proof.
  intros s t l e W E R. destruct (proj1 (proj2 (C86_accepts [] [] s W))) as (a & J & B); [congruence|].
  rewrite (C86_compact s a J B) in E. injection E as <-. rewrite (proj2 (text_values s a l e J R)). now apply squeeze_text.
Qed.
Print Assumptions C103_compact.

(** They make a JSON text again, with the same tokens and the same syntax tree. *)
Theorem C103_again : forall s a l e, jtext s a -> token_run s l e ->
  jtext (concat (map k_value l)) a /\ token_run (concat (map k_value l)) l e.
Proof.
  intros s a l e J R. destruct (text_values s a l e J R) as [-> E].
  assert (J' : jtext (concat (map k_value l)) a).
  { rewrite E, (squeeze_text s a J). apply jvalue_jtext, (text_value None); [exact Logic.I|]. now apply (jtext_ok s). }
  split; [exact J'|]. destruct (run_text s a J) as (t & S & N). destruct (run_text _ a J') as (t2 & S2 & N2).
  assert (R1 : token_run s (ktoks false 0 0 a) None) by (exists t, (new_tokenizer []); auto).
  destruct (C21_run_unique s _ _ _ _ R R1) as [H _]. rewrite H in S2 at 1 |- *. rewrite <- H. exists t2, (new_tokenizer []). rewrite H in *. auto.
Qed.
Print Assumptions C103_again.

(** Two JSON texts differ only in layout if and only if their tokens are the same. *)
Theorem C103_layout : forall s1 s2 a1 a2 l1 l2 e1 e2, jtext s1 a1 -> jtext s2 a2 -> token_run s1 l1 e1 -> token_run s2 l2 e2 ->
  (a1 = a2 <-> l1 = l2) /\ (l1 = l2 <-> concat (map k_value l1) = concat (map k_value l2)).
Proof.
  intros s1 s2 a1 a2 l1 l2 e1 e2 J1 J2 R1 R2.
  assert (X : a1 = a2 -> l1 = l2).
  { intros <-. destruct (run_text s1 a1 J1) as (t & S & N). destruct (run_text s2 a1 J2) as (t2 & S2 & N2).
    assert (Q1 : token_run s1 (ktoks false 0 0 a1) None) by (exists t, (new_tokenizer []); auto).
    assert (Q2 : token_run s2 (ktoks false 0 0 a1) None) by (exists t2, (new_tokenizer []); auto).
    destruct (C21_run_unique _ _ _ _ _ R1 Q1), (C21_run_unique _ _ _ _ _ R2 Q2). congruence. }
  assert (Y : concat (map k_value l1) = concat (map k_value l2) -> a1 = a2).
  { intros E. destruct (C103_again s1 a1 l1 e1 J1 R1) as [A _], (C103_again s2 a2 l2 e2 J2 R2) as [B _]. rewrite E in A. exact (jtext_unique _ _ _ A B). }
  repeat split; intros H; auto; [apply Y|]; now rewrite H.
Qed.
Print Assumptions C103_layout.

(** For other inputs the tokens put together may be other tokens. *)
Fixpoint collect (n : nat) (t : tokenizer) : list token * tokenizer :=
  match n with
  | O => ([], t)
  | S n' => match tok_next t with
            | Some (t1, true) => let '(l, t') := collect n' t1 in (view t1 :: l, t')
            | _ => ([], t)
            end
  end.
Lemma collect_steps n : forall t, steps t (fst (collect n t)) (snd (collect n t)).
Proof.
  induction n as [|n IH]; intros t; [constructor|]. cbn [collect]. destruct (tok_next t) as [[t1 [|]]|] eqn:E; try constructor.
  specialize (IH t1). destruct (collect n t1) as [l t']. cbn [fst snd] in *. econstructor; eassumption.
Qed.
Lemma collect_run n s : tok_next (snd (collect n (new_tokenizer s))) = Some (new_tokenizer [], false) -> token_run s (fst (collect n (new_tokenizer s))) None.
Proof. intros H. eexists _, _. split; [apply collect_steps|]. split; [exact H|reflexivity]. Qed.
Theorem C103_again_refuted : exists s l, token_run s l None /\ ~ token_run (concat (map k_value l)) l None.
Proof.
  exists (bs "1 2"), [TK 0 (bs "1") 0 0 false; TK 0 (bs "2") 0 0 false]. split; [exact (collect_run 9 (bs "1 2") eq_refl)|].
  intros R. destruct (C21_run_unique (bs "12") _ _ _ _ R (collect_run 9 (bs "12") eq_refl)) as [E _]. discriminate.
Qed.
Print Assumptions C103_again_refuted.

Example C103_holds : exists l, token_run (bs " { ""a b"" : [ 1 , {} ] } ") l None /\ concat (map k_value l) = bs "{""a b"":[1,{}]}" /\ length l = 10%nat.
Proof. eexists. split; [exact (collect_run 20 (bs " { ""a b"" : [ 1 , {} ] } ") eq_refl)|split; reflexivity]. Qed.
