(** Theorems about the spelling of the input: C59. *)
From Verif Require Import Bytes ParseModel IntModel StringModel EncModel DecModel SpecJson SpecString SpecDec DecLoops ParseFacts IntFacts DecFacts
  TypeModel SpecType SpecFit SpecSpell NodeFacts TypeLoops TypeFacts TypeMain ExactFloat PropsType PropsErr SpellFacts.

Lemma erase_alike n : forall v v', (nsize v < n)%nat -> erase v = erase v' -> alike eq v v'.
Proof.
  induction n as [|n IH]; [lia|]. intros [s h] [s' h'] SZ E. destruct h as [| | | | |l|l], h' as [| | | | |l'|l']; cbn [erase] in E; try discriminate; try solve [injection E as ->; constructor; reflexivity]; try constructor.
  - injection E as E. assert (SZl : forall nd, In nd l -> (nsize nd < n)%nat) by (intros nd I; apply (nsize_arr s) in I; lia). clear SZ.
    revert l' E. induction l as [|v l IHl]; intros [|v' l'] E; try discriminate; constructor; cbn [map] in E; injection E as E1 E2.
    + apply IH; [apply SZl; left; reflexivity|exact E1].
    + apply IHl; [intros; apply SZl; right; assumption|exact E2].
  - injection E as E. assert (SZl : forall k nd, In (k, nd) l -> (nsize nd < n)%nat) by (intros k nd I; apply (nsize_obj s) in I; lia). clear SZ.
    revert l' E. induction l as [|[k v] l IHl]; intros [|[k' v'] l'] E; try discriminate; constructor; cbn [map fst snd] in *; injection E as E0 E1 E2.
    + split; [exact E0|]. eapply IH; [eapply SZl; left; reflexivity|exact E1].
    + apply IHl; [intros; eapply SZl; right; eassumption|exact E2].
Qed.
Lemma respelled_alike n : forall v v', (nsize v < n)%nat -> respelled (erase v) (erase v') -> alike same_text v v'.
Proof.
  induction n as [|n IH]; [lia|]. intros [s h] [s' h'] SZ E. destruct h as [| | | | |l|l], h' as [| | | | |l'|l']; cbn [erase] in E; inversion E; subst; try solve [constructor; assumption]; constructor.
  - match goal with H : Forall2 _ _ _ |- _ => rename H into FA end. clear E. assert (SZl : forall nd, In nd l -> (nsize nd < n)%nat) by (intros nd I; apply (nsize_arr s) in I; lia). clear SZ.
    revert l' FA. induction l as [|v l IHl]; intros [|v' l'] E; cbn [map] in E; inversion E; subst; constructor.
    + apply IH; [apply SZl; left; reflexivity|assumption].
    + apply IHl; [intros; apply SZl; right; assumption|assumption].
  - match goal with H : Forall2 _ _ _ |- _ => rename H into FA end. clear E. assert (SZl : forall k nd, In (k, nd) l -> (nsize nd < n)%nat) by (intros k nd I; apply (nsize_obj s) in I; lia). clear SZ.
    revert l' FA. induction l as [|[k v] l IHl]; intros [|[k' v'] l'] E; cbn [map] in E; inversion E as [|? ? ? ? [E0 E1] E2]; subst; constructor; cbn [fst snd] in *.
    + split; [exact E0|]. eapply IH; [eapply SZl; left; reflexivity|exact E1].
    + apply IHl; [intros; eapply SZl; right; eassumption|exact E2].
Qed.
Lemma same_sym a b : same_text a b -> same_text b a.
Proof. intros H t. split; apply H. Qed.
Lemma respelled_sym : forall n v v', (nsize v < n)%nat -> alike same_text v v' -> alike same_text v' v.
Proof.
  induction n as [|n IH]; [lia|]. intros v v' SZ A. destruct A as [s s'|s s'|s s'|s|s s' E|s s' l l' E|s s' l l' E]; constructor.
  - apply same_sym, E.
  - assert (SZl : forall nd, In nd l -> (nsize nd < n)%nat) by (intros nd I; apply (nsize_arr s) in I; lia). clear SZ.
    induction E as [|v v' l l' E1 E IHl]; constructor; [apply IH; [apply SZl; left; reflexivity|exact E1]|apply IHl; intros; apply SZl; right; assumption].
  - assert (SZl : forall k nd, In (k, nd) l -> (nsize nd < n)%nat) by (intros k nd I; apply (nsize_obj s) in I; lia). clear SZ.
    induction E as [|[k v] [k' v'] l l' [E1 E2] E IHl]; constructor; cbn [fst snd] in *.
    + split; [apply same_sym, E1|]. eapply IH; [eapply SZl; left; reflexivity|exact E2].
    + apply IHl; intros; eapply SZl; right; eassumption.
Qed.

(** Two texts of the same tree (they differ only in white space) are decoded to
    the same, or both fail. *)
Theorem C59_white_space V F t b b' a x y : env_ok V -> everywhere keeps_no_text V t -> jtext b a -> jtext b' a ->
  (unmarshal V F t b x = (None, y) <-> unmarshal V F t b' x = (None, y)).
Proof.
  revert b b'. assert (ONE : forall b b', env_ok V -> everywhere keeps_no_text V t -> jtext b a -> jtext b' a ->
    unmarshal V F t b x = (None, y) -> unmarshal V F t b' x = (None, y)); [|intros; split; apply ONE; assumption].
  intros b b' OK [PT PE] J J' H. destruct (C42_every_text _ _ J) as (w1 & nd & w2 & -> & W1 & JN & W2 & E).
  destruct (C42_every_text _ _ J') as (w1' & nd' & w2' & -> & W1' & JN' & W2' & E').
  apply (C42_accepts_iff V F t w1 nd w2 x y OK W1 JN W2) in H. apply (C42_accepts_iff V F t w1' nd' w2' x y OK W1' JN' W2').
  eapply (stores_alike eq ltac:(intros; subst; assumption) V F keeps_no_text PE); try eassumption; try (intros; assumption); try (split; exact I); try apply Nat.lt_succ_diag_r.
  - intros [] HH; cbn in *; auto.
  - intros [] HH; auto.
  - eapply erase_alike; [apply Nat.lt_succ_diag_r|congruence].
Qed.
(** The spelling of strings does not matter either, for types without times and
    durations. *)
Theorem C59_spelling_partial V F t b b' a a' x y : env_ok V -> everywhere keeps_no_text V t -> everywhere reads_escapes V t ->
  jtext b a -> jtext b' a' -> respelled a a' ->
  (unmarshal V F t b x = (None, y) <-> unmarshal V F t b' x = (None, y)).
Proof.
  intros OK [PT PE] [QT QE] J J' R. destruct (C42_every_text _ _ J) as (w1 & nd & w2 & -> & W1 & JN & W2 & E).
  destruct (C42_every_text _ _ J') as (w1' & nd' & w2' & -> & W1' & JN' & W2' & E').
  rewrite (C42_accepts_iff V F t w1 nd w2 x y OK W1 JN W2), (C42_accepts_iff V F t w1' nd' w2' x y OK W1' JN' W2'). subst a a'.
  assert (A := respelled_alike _ _ _ (Nat.lt_succ_diag_r _) R). assert (A' := respelled_sym _ _ _ (Nat.lt_succ_diag_r _) A).
  set (P := fun t => keeps_no_text t /\ reads_escapes t).
  assert (ALL : forall v v', alike same_text v v' -> stores V F t v x y -> stores V F t v' x y); [|split; apply ALL; assumption].
  intros v v' Av H. eapply (stores_alike same_text) with (P := P); try eassumption; try apply Nat.lt_succ_diag_r.
  - intros s s' u S. apply S.
  - intros i f I. split; eauto.
  - intros u []; assumption.
  - intros [] [H1 H2]; cbn in *; unfold P; auto.
  - intros [] [H1 H2]; cbn in *; auto; contradiction.
  - split; split; exact I.
  - split; assumption.
Qed.

Lemma same_text_of lit lit' : string_lit lit -> string_lit lit' -> str_text lit = str_text lit' -> same_text lit lit'.
Proof.
  intros S S' E t. split; intros H.
  - rewrite (str_means_text _ _ S H), E. apply str_text_means, S'.
  - rewrite (str_means_text _ _ S' H), <- E. apply str_text_means, S.
Qed.
Lemma lit_a : string_lit (bs """a""").
Proof. exists (bs "a"). split; [reflexivity|]. change (str_body [97]). apply sb_char; [lia|discriminate|discriminate|constructor]. Qed.
Lemma lit_u : string_lit (bs """\u0061""").
Proof. exists (bs "\u0061"). split; [reflexivity|]. apply (sb_uni 48 48 54 49 []); try (unfold hex_digit; lia). constructor. Qed.
Lemma num_7 : number_lit (bs "7").
Proof. apply (number_intro [] [55] [] []); [left; reflexivity|constructor; [lia|constructor]|constructor|constructor]. Qed.
(** Two spellings. *)
Definition sp_one : bytes := bs "{""a"":7}".
Definition sp_two : bytes := bs " { ""\u0061"" :7}".
Example C59_example : env_ok er_env /\ everywhere keeps_no_text er_env (YStruct 0) /\ everywhere reads_escapes er_env (YStruct 0) /\
  (exists a a', jtext sp_one a /\ jtext sp_two a' /\ respelled a a') /\
  unmarshal er_env ex_flags (YStruct 0) sp_one er_zero = unmarshal er_env ex_flags (YStruct 0) sp_two er_zero /\
  fst (unmarshal er_env ex_flags (YStruct 0) sp_two er_zero) = None.
Proof.
  split; [apply er_env_ok|]. split; [|split; [|split]].
  - split; [exact I|]. intros [|[|i]] f; cbn [v_flds er_env er_env_of er_flds In]; intros H; repeat destruct H as [<-|H]; try contradiction; exact I.
  - split; [exact I|]. intros [|[|i]] f; cbn [v_flds er_env er_env_of er_flds In]; intros H; repeat destruct H as [<-|H]; try contradiction; exact I.
  - exists (JObj [(bs """a""", JNum (bs "7"))]), (JObj [(bs """\u0061""", JNum (bs "7"))]). split; [|split].
    + exists [], sp_one, []. split; [reflexivity|]. split; [constructor|]. split; [|constructor].
      apply (V_obj (bs """a"":7")), M_one, (M_intro [] (bs """a""") [] [] (bs "7") _ []); try constructor; [apply lit_a|apply num_7].
    + exists (bs " "), (bs "{ ""\u0061"" :7}"), []. split; [reflexivity|]. split; [repeat constructor|]. split; [|constructor].
      apply (V_obj (bs " ""\u0061"" :7")), M_one, (M_intro (bs " ") (bs """\u0061""") (bs " ") [] (bs "7") _ []); try constructor; try apply lit_u; try apply num_7; auto; constructor.
    + constructor. constructor; [|constructor]. split; [|constructor]. apply same_text_of; [apply lit_a|apply lit_u|vm_compute; reflexivity].
  - split; vm_compute; reflexivity.
Qed.
(** Times and durations are read without interpreting escapes: the duration 1s
    is not accepted as "\u0031s". *)
Theorem C59_durations_refuted : exists b b' a a', jtext b a /\ jtext b' a' /\ respelled a a' /\
  unmarshal ex_env ex_flags YDuration b (MInt 0) = (None, MInt 1000000000) /\ unmarshal ex_env ex_flags YDuration b' (MInt 0) = (Some EType, MInt 0).
Proof.
  assert (S1 : string_lit (bs """1s""")). { exists (bs "1s"). split; [reflexivity|]. change (str_body [49; 115]). apply sb_char; [lia|discriminate|discriminate|]. apply sb_char; [lia|discriminate|discriminate|constructor]. }
  assert (S2 : string_lit (bs """\u0031s""")). { exists (bs "\u0031s"). split; [reflexivity|]. apply (sb_uni 48 48 51 49 [115]); try (unfold hex_digit; lia). apply sb_char; [lia|discriminate|discriminate|constructor]. }
  exists (bs """1s"""), (bs """\u0031s"""), (JStr (bs """1s""")), (JStr (bs """\u0031s""")). split; [|split; [|split; [|split]]].
  - exists [], (bs """1s"""), []. repeat split; try constructor. exact S1.
  - exists [], (bs """\u0031s"""), []. repeat split; try constructor. exact S2.
  - constructor. apply same_text_of; [exact S1|exact S2|vm_compute; reflexivity].
  - vm_compute. reflexivity.
  - vm_compute. reflexivity.
Qed.
Print Assumptions C59_white_space.
Print Assumptions C59_spelling_partial.
Print Assumptions C59_durations_refuted.
