(** Theorems about the order of the members of objects: C64. *)
From Coq Require Import Permutation.
From Verif Require Import Bytes ParseModel IntModel StringModel EncModel DecModel SpecJson SpecString SpecDec DecLoops ParseFacts IntFacts DecFacts
  TypeModel SpecType SpecFit SpecField SpecSame SpecSpell SpecOrder NodeFacts TypeLoops TypeFacts TypeMain ExactFloat PropsType PropsErr SpellFacts PropsSpell OrderFacts OrderMain Utf8Facts TripType.

Lemma shuf_sym V F K n : forall v v', (nsize v < n)%nat -> shuf V F K v v' -> shuf V F K v' v.
Proof.
  induction n as [|n IH]; [lia|]. intros v v' SZ A. destruct A as [s s'|s s'|s s'|s|s|s s' l l' E|s s' l l1 l' PM E]; try constructor.
  - assert (SZl : forall nd, In nd l -> (nsize nd < n)%nat) by (intros nd I; apply (nsize_arr s) in I; lia). clear SZ.
    induction E as [|v v' l l' E1 E IHl]; constructor; [apply IH; [apply SZl; now left|exact E1]|apply IHl; intros; apply SZl; now right].
  - assert (SZl : forall k nd, In (k, nd) l1 -> (nsize nd < n)%nat).
    { intros k nd I. assert (I' : In (k, nd) l) by (destruct PM as [->|[P _]]; [exact I|eapply Permutation_in; [apply Permutation_sym, P|exact I]]).
      apply (nsize_obj s) in I'. lia. }
    assert (E' : Forall2 (fun m m' => fst m = fst m' /\ shuf V F K (snd m') (snd m)) l1 l').
    { clear PM SZ. induction E as [|[k v] [k' v'] l1 l' [E1 E2] E IHl]; constructor; cbn [fst snd] in *.
      - split; [exact E1|]. apply IH; [eapply SZl; now left|exact E2].
      - apply IHl; intros; eapply SZl; right; eassumption. }
    clear E SZl. destruct PM as [->|[P FO]].
    + apply (sh_obj _ _ _ _ _ _ l'); [now left|]. clear - E'. induction E' as [|x y l l' [A B] E IH]; constructor; auto.
    + destruct (Permutation_Forall2 (Permutation_sym P) E') as (l2 & P2 & E2). apply (sh_obj _ _ _ _ _ _ l2).
      * right. split; [exact P2|]. apply (fop_perm _ _ _ (fun a b H C => H (clash_sym _ _ _ _ _ C)) P) in FO.
        clear - E' FO. induction E' as [|x y l l' [A _] E IH]; [constructor|]. inversion FO as [|z m FA FO']; subst. constructor; [|auto].
        clear - E FA A. induction E as [|x' y' l l' [A' _] E IH]; [constructor|]. inversion FA; subst. constructor; [congruence|auto].
      * clear - E2. induction E2 as [|x y l l' [A B] E IH]; constructor; auto.
Qed.

Section Texts.
Context (V : tenv) (F : dflags) (K : kty -> Prop).

(** If one text is decoded, so is the other, to the same content; the targets
    may differ in the order of the entries of maps as well. *)
Theorem C64_order t b b' a a' x x' y : env_ok V -> env_names V -> everywhere keeps_no_text V t -> K KYString -> everywhere (keys_in K) V t ->
  jtext b a -> jtext b' a' -> reordered V F K a a' -> same_mem x x' ->
  unmarshal V F t b x = (None, y) -> exists y', unmarshal V F t b' x' = (None, y') /\ same_mem y y'.
Proof.
  intros OK EN [PT PE] KS [KT KE] J J' R SX H. destruct (C42_every_text _ _ J) as (w1 & nd & w2 & -> & W1 & JN & W2 & E).
  destruct (C42_every_text _ _ J') as (w1' & nd' & w2' & -> & W1' & JN' & W2' & E'). subst a a'.
  apply (C42_accepts_iff V F t w1 nd w2 x y OK W1 JN W2) in H.
  assert (A := erase_shuf V F K _ _ _ (Nat.lt_succ_diag_r _) R).
  destruct (stores_shuf V F K KS OK EN PE KE _ t nd nd' x x' y PT KT (Nat.lt_succ_diag_r _) A SX H) as (y' & B & C).
  exists y'. split; [|exact C]. now apply (C42_accepts_iff V F t w1' nd' w2' x' y' OK W1' JN' W2').
Qed.
(** Into a new variable: one text is accepted just when the other is. *)
Theorem C64_accepted t b b' a a' : env_ok V -> env_names V -> everywhere keeps_no_text V t -> K KYString -> everywhere (keys_in K) V t ->
  jtext b a -> jtext b' a' -> reordered V F K a a' ->
  (fst (unmarshal V F t b (zero V t)) = None <-> fst (unmarshal V F t b' (zero V t)) = None).
Proof.
  intros OK EN [PT PE] KS [KT KE] J J' R. destruct (C42_every_text _ _ J) as (w1 & nd & w2 & -> & W1 & JN & W2 & E).
  destruct (C42_every_text _ _ J') as (w1' & nd' & w2' & -> & W1' & JN' & W2' & E'). subst a a'.
  assert (A := erase_shuf V F K _ _ _ (Nat.lt_succ_diag_r _) R). assert (A' := shuf_sym V F K _ _ _ (Nat.lt_succ_diag_r _) A).
  split; intros H.
  - destruct (unmarshal V F t (w1 ++ ntext nd ++ w2) (zero V t)) as [e y] eqn:U. cbn [fst] in H. subst e.
    apply (C42_accepts_iff V F t w1 nd w2 _ y OK W1 JN W2) in U.
    destruct (stores_shuf V F K KS OK EN PE KE _ t nd nd' _ _ y PT KT (Nat.lt_succ_diag_r _) A (zero_same V t) U) as (y' & B & C).
    apply (C42_accepts_iff V F t w1' nd' w2' _ y' OK W1' JN' W2') in B. now rewrite B.
  - destruct (unmarshal V F t (w1' ++ ntext nd' ++ w2') (zero V t)) as [e y] eqn:U. cbn [fst] in H. subst e.
    apply (C42_accepts_iff V F t w1' nd' w2' _ y OK W1' JN' W2') in U.
    destruct (stores_shuf V F K KS OK EN PE KE _ t nd' nd _ _ y PT KT (Nat.lt_succ_diag_r _) A' (zero_same V t) U) as (y' & B & C).
    apply (C42_accepts_iff V F t w1 nd w2 _ y' OK W1 JN W2) in B. now rewrite B.
Qed.
End Texts.

(** Keys do not clash if their texts differ, where fields are matched exactly and
    maps have string keys; with the default matching, if they differ in lower
    case (all field names being lowered as keys are). *)
Theorem C64_distinct_keys V F lit lit' : string_lit lit -> string_lit lit' ->
  (forall k k', str_means lit k -> str_means lit' k' -> k <> k' /\ (d_nocase F = true \/ append_to_lower V k <> append_to_lower V k')) ->
  (d_nocase F = true \/ forall i f, In f (v_flds V i) -> v_lower V (jf_name f) = append_to_lower V (jf_name f)) ->
  ~ clash V F (eq KYString) lit lit'.
Proof.
  intros S S' D L [(i & k & k' & f & M & M' & P & P')|(kt & a & <- & A & A')].
  - destruct (D _ _ M M') as [NE FO]. assert (IN : In f (v_flds V i)) by (eapply picks_in; exact P).
    assert (FK : forall k, picks V F (v_flds V i) k (Some f) -> jf_name f = k \/ (d_nocase F = false /\ v_lower V (jf_name f) = append_to_lower V k)).
    { clear. intros k H. inversion H as [l1 f0 l2 E EX _|l1 f0 l2 _ NC E FO _|]; subst; [left; exact EX|right; split; [exact NC|exact FO]]. }
    destruct (FK _ P) as [E|[NC E]], (FK _ P') as [E'|[NC' E']]; destruct FO as [FO|FO]; try congruence; destruct L as [L|L]; try congruence; specialize (L _ _ IN); congruence.
  - inversion A; subst. inversion A'; subst. destruct (D t t); auto.
Qed.

Lemma er_names : env_names er_env.
Proof.
  constructor.
  - intros [|[|i]]; cbn [v_flds er_env er_env_of er_flds map jf_name]; repeat constructor; cbn [In]; intros H; repeat destruct H as [H|H]; try discriminate; contradiction.
  - intros [|[|i]] f; cbn [v_flds er_env er_env_of er_flds In]; intros H; repeat destruct H as [<-|H]; try contradiction; cbn [jf_name]; apply ascii_utf8; vm_compute; repeat constructor; discriminate.
  - intros [|[|i]] f; cbn [v_flds er_env er_env_of er_flds In]; intros H; repeat destruct H as [<-|H]; try contradiction; discriminate.
  - intros [|[|i]] f g; cbn [v_flds er_env er_env_of er_flds In]; intros H H'; repeat destruct H as [<-|H]; try contradiction; repeat destruct H' as [<-|H']; try contradiction; cbn [jf_name jf_path]; intros NE; try congruence;
      repeat first [apply apart_here; cbn; congruence | apply apart_next].
Qed.
Lemma lit_b : string_lit (bs """ok""").
Proof. exists (bs "ok"). split; [reflexivity|]. change (str_body [111; 107]). do 2 (apply sb_char; [lia|discriminate|discriminate|]). constructor. Qed.
Definition or_one : bytes := bs "{""a"":7,""ok"":true}".
Definition or_two : bytes := bs "{""ok"":true,""a"":7}".
(** Two orders; the member "ok" lies behind an embedded pointer. *)
Example C64_example : env_ok er_env /\ env_names er_env /\ everywhere keeps_no_text er_env (YStruct 0) /\ everywhere (keys_in (eq KYString)) er_env (YStruct 0) /\
  (exists a a', jtext or_one a /\ jtext or_two a' /\ a <> a' /\ reordered er_env ex_flags (eq KYString) a a') /\
  unmarshal er_env ex_flags (YStruct 0) or_one er_zero = unmarshal er_env ex_flags (YStruct 0) or_two er_zero /\
  fst (unmarshal er_env ex_flags (YStruct 0) or_two er_zero) = None.
Proof.
  split; [apply er_env_ok|]. split; [apply er_names|]. split; [|split; [|split]].
  - split; [exact I|]. intros [|[|i]] f; cbn [v_flds er_env er_env_of er_flds In]; intros H; repeat destruct H as [<-|H]; try contradiction; exact I.
  - split; [exact I|]. intros [|[|i]] f; cbn [v_flds er_env er_env_of er_flds In]; intros H; repeat destruct H as [<-|H]; try contradiction; cbn; auto.
  - exists (JObj [(bs """a""", JNum (bs "7")); (bs """ok""", JTrue)]), (JObj [(bs """ok""", JTrue); (bs """a""", JNum (bs "7"))]). split; [|split; [|split; [discriminate|]]].
    + exists [], or_one, []. split; [reflexivity|]. split; [constructor|]. split; [|constructor].
      apply (V_obj (bs """a"":7,""ok"":true")). apply (M_cons (bs """a"":7")).
      * apply (M_intro [] (bs """a""") [] [] (bs "7") _ []); try constructor; [apply lit_a|apply num_7].
      * apply M_one, (M_intro [] (bs """ok""") [] [] (bs "true") _ []); try constructor. apply lit_b.
    + exists [], or_two, []. split; [reflexivity|]. split; [constructor|]. split; [|constructor].
      apply (V_obj (bs """ok"":true,""a"":7")). apply (M_cons (bs """ok"":true")).
      * apply (M_intro [] (bs """ok""") [] [] (bs "true") _ []); try constructor. apply lit_b.
      * apply M_one, (M_intro [] (bs """a""") [] [] (bs "7") _ []); try constructor; [apply lit_a|apply num_7].
    + apply (ro_obj _ _ _ _ [(bs """ok""", JTrue); (bs """a""", JNum (bs "7"))]).
      * right. split; [apply perm_swap|]. constructor; [|constructor; [constructor|constructor]]. constructor; [|constructor]. cbn [fst].
        apply C64_distinct_keys; [apply lit_a|apply lit_b| |].
        -- intros k k' M M'. apply (str_means_text _ _ lit_a) in M. apply (str_means_text _ _ lit_b) in M'. subst k k'. vm_compute. split; [|right]; discriminate.
        -- right. intros [|[|i]] f; cbn [v_flds er_env er_env_of er_flds In]; intros H; repeat destruct H as [<-|H]; try contradiction; vm_compute; reflexivity.
      * repeat constructor.
  - split; vm_compute; reflexivity.
Qed.
(** Keys that differ only in case select the same field: the last one wins. *)
Theorem C64_case_refuted :
  unmarshal er_env ex_flags (YStruct 1) (bs "{""ok"":true,""OK"":false}") (zero er_env (YStruct 1)) = (None, MList [MBool false; MMap None]) /\
  unmarshal er_env ex_flags (YStruct 1) (bs "{""OK"":false,""ok"":true}") (zero er_env (YStruct 1)) = (None, MList [MBool true; MMap None]).
Proof. split; vm_compute; reflexivity. Qed.
(** So do the keys null and 0 of a map with integer keys. *)
Theorem C64_integer_keys_refuted :
  unmarshal er_env ex_flags (YMap (KYInt TInt) YBool) (bs "{""0"":true,""null"":false}") (MMap None) = (None, MMap (Some [(MKInt 0, MBool false)])) /\
  unmarshal er_env ex_flags (YMap (KYInt TInt) YBool) (bs "{""null"":false,""0"":true}") (MMap None) = (None, MMap (Some [(MKInt 0, MBool true)])).
Proof. split; vm_compute; reflexivity. Qed.
Print Assumptions C64_order.
Print Assumptions C64_accepted.
Print Assumptions C64_distinct_keys.
Print Assumptions C64_case_refuted.
Print Assumptions C64_integer_keys_refuted.
