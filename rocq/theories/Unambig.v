(** The JSON grammar of SpecJson.v is unambiguous: a text has one tree. *)
From Verif Require Import Bytes ParseModel TokenModel SpecJson SpecTokens ParseFacts TokenFacts EncModel SpecRender RawFacts EncMain StringModel.

Notation uk d i a := (map unkey (toks d i a)).
Lemma toks_head d i a : exists t l, toks d i a = t :: l /\ (k_delim t = 0 \/ k_delim t = 91 \/ k_delim t = 123).
Proof. destruct a; eexists _, _; (split; [reflexivity|]); cbn; auto. Qed.
Lemma scalar_inj a a' : ast_ok a -> ast_ok a' -> match a with JArr _ | JObj _ => False | _ => True end -> match a' with JArr _ | JObj _ => False | _ => True end ->
  scalar_text a = scalar_text a' -> a = a'.
Proof.
  intros O O' S S'.
  assert (N : forall t, number_lit t -> rv_string t = false /\ t <> bs "null" /\ t <> bs "true" /\ t <> bs "false").
  { intros t H. destruct (number_head t H) as (c & u & -> & Hc). cbn. repeat split; try (intros E; injection E as -> _; lia). apply Z.eqb_neq. lia. }
  assert (Q : forall t, string_lit t -> rv_string t = true /\ t <> bs "null" /\ t <> bs "true" /\ t <> bs "false").
  { intros t (b & -> & _). repeat split; discriminate. }
  destruct a, a'; try contradiction; cbn [scalar_text ast_ok] in *; try reflexivity; try discriminate; intros E; subst;
    repeat match goal with H : number_lit _ |- _ => apply N in H | H : string_lit _ |- _ => apply Q in H end; intuition congruence.
Qed.
Lemma toks_inj a : ast_ok a -> forall d i a' r r', ast_ok a' -> uk d i a ++ r = uk d i a' ++ r' -> a = a' /\ r = r'.
Proof.
  assert (SC : forall a, match a with JArr _ | JObj _ => False | _ => True end -> forall d i, toks d i a = [TK 0 (scalar_text a) d i false]) by (intros []; try contradiction; reflexivity).
  assert (M : forall a a' d i r r', ast_ok a -> ast_ok a' -> match a with JArr _ | JObj _ => False | _ => True end -> uk d i a ++ r = uk d i a' ++ r' -> a = a' /\ r = r').
  { clear a. intros a a' d i r r' O O' S E. rewrite (SC a S) in E. destruct a' as [ | | |t|t|l|l]; try discriminate E;
      (rewrite SC in E by exact I; cbn [map app unkey] in E; injection E as E1 E2; split; [apply scalar_inj; auto|exact E2]). }
  induction a as [ | | |t|t|l IH|l IH] using jast_rect'; intros O d i a' r r' O' E; try (apply (M _ _ _ _ _ _ O O' I E)).
  - destruct a' as [ | | |t|t|l'|l']; try discriminate E. rewrite !toks_arr in E. cbn [map app] in E. injection E as E.
    cbn [ast_ok] in O, O'. apply all_map in O, O'.
    assert (X : forall n l' r r', Forall ast_ok l' -> map unkey (elems_toks d n l) ++ TK 93 [93] d i false :: r = map unkey (elems_toks d n l') ++ TK 93 [93] d i false :: r' -> l = l' /\ r = r').
    { clear - IH O. induction IH as [|a l Ha IH IHl]; intros n l' r r' O' E.
      - destruct l' as [|a' l']; [injection E as ->; auto|]. exfalso. cbn [elems_toks] in E. destruct (toks_head (d + 1) n a') as (t & u & Et & D). rewrite Et in E.
        cbn [map app unkey] in E. injection E as E _ _ _ _. lia.
      - inversion O; subst. destruct l' as [|a' l'].
        { exfalso. cbn [elems_toks] in E. destruct (toks_head (d + 1) n a) as (t & u & Et & D). rewrite Et in E. cbn [map app unkey] in E. injection E as E _ _ _ _. lia. }
        inversion O'; subst. cbn [elems_toks] in E. rewrite !map_app, <- !app_assoc in E. apply Ha in E; auto. destruct E as [-> E].
        destruct l as [|a l], l' as [|a1 l']; cbn [map app] in E.
        + injection E as ->. auto.
        + discriminate E.
        + discriminate E.
        + injection E as E. apply (IHl ltac:(assumption) (n + 1) (a1 :: l')) in E; auto. destruct E as [E ->]. split; [congruence|reflexivity]. }
    rewrite !map_app, <- !app_assoc in E. apply X in E; [|exact O']. destruct E as [-> ->]. auto.
  - destruct a' as [ | | |t|t|l'|l']; try discriminate E. rewrite !toks_obj in E. cbn [map app] in E. injection E as E.
    cbn [ast_ok] in O, O'. apply all_map in O, O'.
    assert (X : forall n l' r r', Forall (fun kv => match kv with (k, x) => string_lit k /\ ast_ok x end) l' -> map unkey (members_toks d n l) ++ TK 125 [125] d i false :: r = map unkey (members_toks d n l') ++ TK 125 [125] d i false :: r' -> l = l' /\ r = r').
    { clear - IH O. induction IH as [|[k a] l Ha IH IHl]; intros n l' r r' O' E.
      - destruct l' as [|[k' a'] l']; [injection E as ->; auto|]. discriminate E.
      - inversion O as [|? ? X1 O1]; subst. destruct X1 as [Ok Oa]. destruct l' as [|[k' a'] l']; [discriminate E|].
        inversion O' as [|? ? X1' O1']; subst. destruct X1' as [Ok' Oa']. cbn [members_toks map app] in E. injection E as -> E.
        rewrite !map_app, <- !app_assoc in E. apply Ha in E; auto. destruct E as [E1 E]. cbn [snd] in E1. subst a'.
        destruct l as [|[k a1] l], l' as [|[k1 a2] l']; cbn [map app] in E.
        + injection E as ->. auto.
        + discriminate E.
        + discriminate E.
        + apply (f_equal (@tl token)) in E. cbn [tl] in E. apply (IHl ltac:(assumption) (n + 1) ((k1, a2) :: l')) in E; auto. destruct E as [E ->]. split; [congruence|reflexivity]. }
    rewrite !map_app, <- !app_assoc in E. apply X in E; [|exact O']. destruct E as [-> ->]. auto.
Qed.
Theorem jtext_unique s a a' : jtext s a -> jtext s a' -> a = a'.
Proof.
  intros J J'. destruct (run_text s a J) as (t & S & E). destruct (run_text s a' J') as (t' & S' & E').
  assert (K : ktoks false 0 0 a = ktoks false 0 0 a').
  { revert S E S' E'. generalize (ktoks false 0 0 a) (ktoks false 0 0 a') (new_tokenizer s). intros l l' t0 S E S' E'. revert l' S'.
    induction S as [t|t t1 l t2 H S IH]; intros l' S'.
    - destruct S' as [|t t1 l t2 H S']; [reflexivity|congruence].
    - destruct S' as [|t t1' l' t2' H' S']; [congruence|]. rewrite H in H'. injection H' as <-. f_equal. apply IH; assumption. }
  apply (f_equal (map unkey)) in K. rewrite !ktoks_unkey in K.
  apply (toks_inj a (jtext_ok s a J) 0 0 a' [] [] (jtext_ok s a' J')). rewrite !app_nil_r. exact K.
Qed.
Lemma jvalue_unique s a a' : jvalue s a -> jvalue s a' -> a = a'.
Proof. intros J J'. eapply jtext_unique; apply jvalue_jtext; eassumption. Qed.
