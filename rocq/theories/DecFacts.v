(** Decoding into interface{}: the value denoted by a valid text. *)
From Verif Require Import Bytes AsciiModel Utf8Model ParseModel IntModel StringModel EncModel DecModel
  SpecJson SpecString SpecDec ParseFacts Utf8Facts StringFacts IntFacts DecLoops.

(** * Maps *)
Lemma beqb_eq a b : beqb a b = true <-> a = b.
Proof.
  revert b. induction a as [|x a IH]; intros [|y b]; cbn [beqb]; try (split; congruence).
  rewrite andb_true_iff, Z.eqb_eq, IH. split; [intros [-> ->]; reflexivity|intros E; split; congruence].
Qed.
Section MapSet.
Context {K V : Type} (eqb : K -> K -> bool) (eqb_eq : forall a b, eqb a b = true <-> a = b).
Lemma map_set_fst k v (m : list (K * V)) : forall x, In x (map fst (map_set eqb k v m)) <-> x = k \/ In x (map fst m).
Proof.
  induction m as [|[k' v'] m IH]; intros x; cbn [map_set map fst In].
  - split; intros [H|H]; auto.
  - destruct (eqb k' k) eqn:E; cbn [map fst In].
    + apply eqb_eq in E. subst k'. intuition.
    + rewrite IH. tauto.
Qed.
Lemma map_set_nodup k v (m : list (K * V)) : NoDup (map fst m) -> NoDup (map fst (map_set eqb k v m)).
Proof.
  induction m as [|[k' v'] m IH]; intros N; cbn [map_set map fst].
  - constructor; [intros []|constructor].
  - cbn [map fst] in N. inversion N as [|? ? NI N']; subst. destruct (eqb k' k) eqn:E; cbn [map fst].
    + apply eqb_eq in E. subst k'. constructor; assumption.
    + constructor; [|apply IH, N']. rewrite map_set_fst. intros [->|H]; [|contradiction].
      assert (eqb k k = true) by (apply eqb_eq; reflexivity). congruence.
Qed.
Lemma map_set_in k v (m : list (K * V)) : NoDup (map fst m) -> forall k' v',
  In (k', v') (map_set eqb k v m) <-> (k' = k /\ v' = v) \/ (k' <> k /\ In (k', v') m).
Proof.
  induction m as [|[k0 v0] m IH]; intros N k' v'; cbn [map_set In].
  - split; [intros [E|[]]; left; split; congruence|intros [[-> ->]|[_ []]]; auto].
  - cbn [map fst] in N. inversion N as [|? ? NI N']; subst. destruct (eqb k0 k) eqn:E; cbn [In].
    + apply eqb_eq in E. subst k0. split.
      * intros [E|H]; [left; split; congruence|]. right. split; [|auto].
        intros ->. apply NI. apply (in_map fst) in H. exact H.
      * intros [[-> ->]|[NE [E|H]]]; auto. congruence.
    + rewrite (IH N'). split.
      * intros [E1|[[-> ->]|[NE H]]]; auto. right. split; [|auto]. intros ->.
        assert (k0 = k) by congruence. subst k0. assert (eqb k k = true) by (apply eqb_eq; reflexivity). congruence.
      * intros [[-> ->]|[NE [E1|H]]]; auto.
Qed.
Lemma add_all_snoc kvs k v (m : list (K * V)) :
  add_all eqb (kvs ++ [(k, v)]) m = map_set eqb k v (add_all eqb kvs m).
Proof. unfold add_all. rewrite fold_left_app. reflexivity. Qed.
Lemma add_all_nodup kvs : forall m : list (K * V), NoDup (map fst m) -> NoDup (map fst (add_all eqb kvs m)).
Proof.
  induction kvs as [|[k v] kvs IH]; intros m N; cbn; [exact N|]. apply IH, map_set_nodup, N.
Qed.
(** The entries of a map filled in order: the last binding of each key wins;
    the entries already there survive unless overwritten. *)
Lemma add_all_in kvs : forall m : list (K * V), NoDup (map fst m) -> forall k v,
  In (k, v) (add_all eqb kvs m) <->
  (exists l1 l2, kvs = l1 ++ (k, v) :: l2 /\ ~ In k (map fst l2)) \/ (~ In k (map fst kvs) /\ In (k, v) m).
Proof.
  induction kvs as [|[k0 v0] kvs IH] using rev_ind; intros m N k v.
  - cbn. split; [auto|intros [(l1 & l2 & E & _)|[_ H]]; [destruct l1; discriminate|exact H]].
  - rewrite add_all_snoc, map_set_in by (apply add_all_nodup, N). rewrite (IH m N), map_app. cbn [map fst]. split.
    + intros [[-> ->]|[NE [(l1 & l2 & -> & NI)|[NI H]]]].
      * left. exists kvs, []. split; [reflexivity|intros []].
      * left. exists l1, (l2 ++ [(k0, v0)]). split; [rewrite <- app_assoc; reflexivity|].
        rewrite map_app. cbn [map fst]. rewrite in_app_iff. intros [H|[H|[]]]; congruence || contradiction.
      * right. split; [|exact H]. rewrite in_app_iff. intros [H1|[H1|[]]]; congruence || contradiction.
    + intros [(l1 & l2 & E & NI)|[NI H]].
      * destruct l2 as [|[k2 v2] l2 _] using rev_ind.
        { apply app_inj_tail in E. destruct E as [_ E]. left. split; congruence. }
        right. rewrite app_comm_cons, app_assoc in E. apply app_inj_tail in E. destruct E as [-> E].
        assert (k2 = k0) by congruence. subst k2. rewrite map_app, in_app_iff in NI. cbn [map fst In] in NI.
        split; [intros ->; tauto|]. left. exists l1, l2. split; [reflexivity|tauto].
      * rewrite in_app_iff in NI. cbn [In] in NI. right. split; [intros ->; tauto|]. right. split; [tauto|exact H].
Qed.
End MapSet.

(** * Strings *)
Definition str_text (lit : bytes) : bytes := match unquote lit with Some t => t | None => [] end.
Lemma string_lit_unquote lit r : string_lit lit -> exists isNew, parse_string_unquote (lit ++ r) [] = QOk (str_text lit) r isNew.
Proof.
  intros (body & -> & SB). destruct (str_body_denotes body SB) as [l D].
  unfold str_text, unquote, append_unquote.
  pose proof (parse_string_unquote_ok body l [] [] SB D) as H. rewrite app_nil_r in H. rewrite H.
  rewrite (parse_string_unquote_ok body l r [] SB D).
  destruct (plain body); cbn [app]; eauto.
Qed.
Lemma decode_string_lit lit r cur : string_lit lit -> decode_string (lit ++ r) cur = DR r None (str_text lit).
Proof.
  intros H. destruct (string_lit_unquote lit r H) as [i E]. unfold decode_string. rewrite E.
  destruct H as (body & -> & _). reflexivity.
Qed.
Lemma str_text_means lit : string_lit lit -> str_means lit (str_text lit).
Proof.
  intros (body & -> & SB). destruct (str_body_denotes body SB) as [l D].
  exists body, l. split; [reflexivity|]. split; [exact D|].
  unfold str_text, unquote, append_unquote.
  pose proof (parse_string_unquote_ok body l [] [] SB D) as H. rewrite app_nil_r in H. rewrite H.
  assert (U : utf8 l (utf8_text l)) by (apply utf8_text_utf8; eapply str_denotes_scalar; exact D).
  destruct (plain body); exact U.
Qed.
Lemma str_means_det lit t t' : str_means lit t -> str_means lit t' -> t = t'.
Proof.
  intros (body & l & -> & D & U) (body' & l' & E & D' & U').
  assert (body = body') by (apply (f_equal (@removelast Z)) in E; rewrite !app_comm_cons, !removelast_last in E; congruence).
  subst body'. rewrite (str_denotes_det _ _ D _ D') in U. rewrite (utf8_is_text _ _ U), (utf8_is_text _ _ U'). reflexivity.
Qed.
Lemma str_means_text lit t : string_lit lit -> str_means lit t -> t = str_text lit.
Proof. intros S M. eapply str_means_det; [exact M|apply str_text_means, S]. Qed.

(** * Trees *)
Section JastInd.
Variable P : jast -> Prop.
Hypothesis Hn : P JNull. Hypothesis Ht : P JTrue. Hypothesis Hf : P JFalse.
Hypothesis Hnum : forall s, P (JNum s). Hypothesis Hstr : forall s, P (JStr s).
Hypothesis Harr : forall l, Forall P l -> P (JArr l).
Hypothesis Hobj : forall l, Forall (fun kv => P (snd kv)) l -> P (JObj l).
Fixpoint jast_ind' (a : jast) : P a :=
  match a with
  | JNull => Hn | JTrue => Ht | JFalse => Hf | JNum s => Hnum s | JStr s => Hstr s
  | JArr l => Harr l ((fix go l := match l return Forall P l with [] => Forall_nil _ | x :: l' => Forall_cons x (jast_ind' x) (go l') end) l)
  | JObj l => Hobj l ((fix go l := match l return Forall (fun kv => P (snd kv)) l with [] => Forall_nil _ | x :: l' => Forall_cons x (jast_ind' (snd x)) (go l') end) l)
  end.
End JastInd.

(** The keys of a tree are string literals, recursively. *)
Inductive lits_ok : jast -> Prop :=
| lo_null : lits_ok JNull | lo_true : lits_ok JTrue | lo_false : lits_ok JFalse
| lo_num s : number_lit s -> lits_ok (JNum s)
| lo_str s : string_lit s -> lits_ok (JStr s)
| lo_arr l : Forall lits_ok l -> lits_ok (JArr l)
| lo_obj l : Forall (fun kv => string_lit (fst kv) /\ lits_ok (snd kv)) l -> lits_ok (JObj l).
Lemma jvalue_lits : (forall s a, jvalue s a -> lits_ok a) /\ (forall s l, jelems s l -> Forall lits_ok l) /\
  (forall s l, jmembers s l -> Forall (fun kv => string_lit (fst kv) /\ lits_ok (snd kv)) l) /\
  (forall s kv, jmember s kv -> string_lit (fst kv) /\ lits_ok (snd kv)).
Proof. apply json_mutind; intros; try (constructor; auto; fail); auto. Qed.

Fixpoint seq_opt {A} (l : list (option A)) : option (list A) :=
  match l with
  | [] => Some []
  | Some x :: l' => match seq_opt l' with Some xs => Some (x :: xs) | None => None end
  | None :: _ => None
  end.
Lemma seq_opt_some {A B} (f : A -> option B) l xs : seq_opt (map f l) = Some xs <-> Forall2 (fun a x => f a = Some x) l xs.
Proof.
  revert xs. induction l as [|a l IH]; intros xs; cbn [map seq_opt].
  - split; [intros E; inversion E; constructor|intros F; inversion F; reflexivity].
  - destruct (f a) as [x|] eqn:E.
    + destruct (seq_opt (map f l)) as [ys|] eqn:E2.
      * split.
        { intros E3. inversion E3; subst. constructor; [exact E|]. apply IH. reflexivity. }
        { intros F. inversion F as [|? ? ? zs E1 F1]; subst. apply IH in F1. congruence. }
      * split; [discriminate|]. intros F. inversion F as [|? ? ? zs E1 F1]; subst. apply IH in F1. congruence.
    + split; [discriminate|]. intros F. inversion F; subst. congruence.
Qed.
Lemma seq_opt_none {A B} (f : A -> option B) l : seq_opt (map f l) = None ->
  exists l1 a l2 xs, l = l1 ++ a :: l2 /\ Forall2 (fun a x => f a = Some x) l1 xs /\ f a = None.
Proof.
  induction l as [|a l IH]; cbn [map seq_opt]; [discriminate|]. destruct (f a) as [x|] eqn:E.
  - destruct (seq_opt (map f l)) eqn:E2; [discriminate|]. intros _.
    destruct (IH eq_refl) as (l1 & a1 & l2 & xs & -> & F & Ha). exists (a :: l1), a1, l2, (x :: xs). repeat split; auto.
  - intros _. exists [], a, l, []. repeat split; auto.
Qed.

Section Iface.
Variables (usenum : bool) (pf : bytes -> option fl).
Definition numv (s : bytes) : option jv := if usenum then Some (JVNumber s) else option_map JVFloat (pf s).

(** What decoding a tree gives; None if some number is out of range. *)
Fixpoint jden (a : jast) : option jv :=
  match a with
  | JNull => Some JVNull
  | JTrue => Some (JVBool true)
  | JFalse => Some (JVBool false)
  | JNum s => numv s
  | JStr lit => Some (JVString (str_text lit))
  | JArr l => option_map JVArr (seq_opt (map jden l))
  | JObj l => option_map (fun kvs => JVMap (add_all beqb kvs []))
                (seq_opt (map (fun kv => match kv with (lit, x) =>
                    match jden x with Some v => Some (str_text lit, v) | None => None end end) l))
  end.

Lemma dec_iface_ok n : forall s a r cur, jvalue s a -> (length s < n)%nat -> (number_lit s -> num_stop r) ->
  dec_iface usenum pf n (s ++ r) cur = match jden a with Some v => DR r None v | None => DR r (Some EType) JVNull end.
Proof.
  induction n as [|n IH]; intros s a r cur V L NS; [lia|]. cbn [dec_iface].
  rewrite (parseValue_complete' s a r V NS).
  assert (PV : parseValue s = POk s []) by (rewrite <- (app_nil_r s) at 1; apply parseValue_complete with (a := a); [exact V|exact I]).
  assert (V' := V). inversion V' as [| | |s0 NL|s0 SL|w W|t l E|w W|t l E]; subst.
  - reflexivity.
  - reflexivity.
  - reflexivity.
  - destruct (number_head _ NL) as (c & t & Es & Hc).
    assert (PN : parse_number s = POk s []) by (rewrite <- (app_nil_r s) at 1; apply parse_number_complete; [exact NL|exact I]).
    assert (HN : has_null_prefix s = false).
    { subst s. unfold has_null_prefix, lit_null. cbn [has_prefix]. destruct (110 =? c) eqn:Z; [zb; lia|]. reflexivity. }
    clear V'. subst s. rename t into t'.
    destruct (c =? 123) eqn:?; [zb; lia|]. destruct (c =? 91) eqn:?; [zb; lia|].
    destruct (c =? 34) eqn:?; [zb; lia|]. destruct (c =? 110) eqn:?; [zb; lia|].
    destruct (c =? 116) eqn:?; [zb; lia|]. destruct (c =? 102) eqn:?; [zb; lia|].
    replace (is_num_start c) with true.
    2:{ symmetry. unfold is_num_start, is_digit. rewrite orb_true_iff, andb_true_iff, Z.eqb_eq, !Z.leb_le. lia. }
    cbn [orb]. cbn [jden]. unfold numv. destruct usenum.
    + unfold decode_number. rewrite HN, PN. reflexivity.
    + unfold decode_float. rewrite HN, PN. destruct (pf (c :: t')); [reflexivity|].
      unfold in_err, input_error. rewrite PV. reflexivity.
  - pose proof (decode_string_lit s [] [] SL) as D. rewrite app_nil_r in D.
    destruct SL as (body & Es & SB). subst s. cbn [app].
    change (34 =? 123) with false. change (34 =? 91) with false. change (34 =? 34) with true. cbv iota.
    rewrite D. reflexivity.
  - cbn [jden map seq_opt option_map]. cbn [app].
    change (91 =? 123) with false. change (91 =? 91) with true. cbv iota.
    destruct (decode_slice_ok (dec_iface usenum pf n) JVNull (fun _ _ => False) (length (91 :: w ++ [93])) (91 :: w ++ [93]) [] [] []
      (Some (O, repeat JVNull 10))) as (d' & C' & E'); [intros ? ? ? ? ? []|exact V|lia|constructor|exists 10%nat; reflexivity|].
    rewrite app_nil_r in E'. rewrite E'. reflexivity.
  - cbn [jden]. cbn [app].
    change (91 =? 123) with false. change (91 =? 91) with true. cbv iota.
    cbn [length] in L. destruct n as [|n]; [lia|].
    destruct (seq_opt (map jden l)) as [xs|] eqn:SQ.
    + apply seq_opt_some in SQ.
      destruct (decode_slice_ok (dec_iface usenum pf (S n)) JVNull (fun a x => jden a = Some x) n (91 :: t ++ [93]) l xs []
        (Some (O, repeat JVNull 10))) as (d' & C' & E').
      * intros s a x r' V1 D1 L1 N1. rewrite (IH s a r' JVNull V1); [rewrite D1; reflexivity|lia|exact (fun _ => N1)].
      * exact V.
      * cbn [length]. rewrite app_length in *. cbn [length] in *. lia.
      * exact SQ.
      * exists 10%nat. reflexivity.
      * rewrite app_nil_r in E'. rewrite E'. cbn [d_map d_err d_rest d_val option_map].
        destruct C' as [m ->]. rewrite firstn_app_len by reflexivity. reflexivity.
    + apply seq_opt_none in SQ. destruct SQ as (l1 & a & l2 & xs & -> & F & Ea).
      destruct (decode_slice_fail (dec_iface usenum pf (S n)) JVNull (fun a x => jden a = Some x) n EType (91 :: t ++ [93])
        l1 a l2 xs [] (Some (O, repeat JVNull 10))) as (y & E').
      * intros s a1 x r' V1 D1 L1 N1. rewrite (IH s a1 r' JVNull V1); [rewrite D1; reflexivity|lia|exact (fun _ => N1)].
      * intros s' r' V1 L1 N1. rewrite (IH s' a r' JVNull V1); [rewrite Ea; eauto|lia|exact (fun _ => N1)].
      * exact V.
      * cbn [length]. rewrite app_length in *. cbn [length] in *. lia.
      * exact F.
      * exact I.
      * exists 10%nat. reflexivity.
      * rewrite app_nil_r in E'. rewrite E'. reflexivity.
  - cbn [jden map seq_opt option_map]. cbn [app].
    change (123 =? 123) with true. cbv iota.
    pose proof (decode_map_ok beqb (fun b => decode_string b []) (dec_iface usenum pf n) JVNull (fun _ _ => False) (fun _ _ => False)
      (length (123 :: w ++ [125])) (123 :: w ++ [125]) [] [] [] (Some [])) as E'.
    rewrite app_nil_r in E'. rewrite E'; [reflexivity|intros ? ? ? ? []|intros ? ? ? ? ? []|exact V|lia|constructor].
  - cbn [jden]. cbn [app]. change (123 =? 123) with true. cbv iota.
    cbn [length] in L. destruct n as [|n]; [lia|].
    assert (LO := proj1 (proj2 (proj2 jvalue_lits)) _ _ E).
    set (g := fun kv : bytes * jast => _).
    assert (HK : forall kl key r, string_lit kl -> key = str_text kl -> decode_string (kl ++ r) [] = DR r None key).
    { intros kl key r' SL ->. apply decode_string_lit, SL. }
    destruct (seq_opt (map g l)) as [kvs|] eqn:SQ.
    + apply seq_opt_some in SQ.
      pose proof (decode_map_ok beqb (fun b => decode_string b []) (dec_iface usenum pf (S n)) JVNull
        (fun kl key => key = str_text kl) (fun a x => jden a = Some x) n (123 :: t ++ [125]) l kvs [] (Some [])) as E'.
      rewrite app_nil_r in E'. rewrite E'; [reflexivity|exact HK| |exact V| |].
      * intros s a x r' V1 D1 L1 N1. rewrite (IH s a r' JVNull V1); [rewrite D1; reflexivity|lia|exact (fun _ => N1)].
      * cbn [length]. rewrite app_length in *. cbn [length] in *. lia.
      * clear -SQ. induction SQ as [|[lit a] kv l kvs E S IHS]; constructor; [|exact IHS].
        unfold g in E. unfold QP. destruct (jden a) eqn:Ea; [|discriminate]. inversion E; subst. cbn [fst snd]. auto.
    + apply seq_opt_none in SQ. destruct SQ as (l1 & [kl a] & l2 & kvs & -> & F & Ea).
      assert (Ea' : jden a = None) by (unfold g in Ea; destruct (jden a); [discriminate|reflexivity]).
      destruct (decode_map_fail beqb (fun b => decode_string b []) (dec_iface usenum pf (S n)) JVNull
        (fun kl key => key = str_text kl) (fun a x => jden a = Some x) n EType (123 :: t ++ [125]) l1 kl a l2 kvs [] (Some [])) as (y & E').
      * exact HK.
      * intros s a1 x r' V1 D1 L1 N1. rewrite (IH s a1 r' JVNull V1); [rewrite D1; reflexivity|lia|exact (fun _ => N1)].
      * intros s' r' V1 L1 N1. rewrite (IH s' a r' JVNull V1); [rewrite Ea'; eauto|lia|exact (fun _ => N1)].
      * exact V.
      * cbn [length]. rewrite app_length in *. cbn [length] in *. lia.
      * clear -F. induction F as [|[lit a] kv l kvs E S IHS]; constructor; [|exact IHS].
        unfold g in E. unfold QP. destruct (jden a) eqn:Ea; [|discriminate]. inversion E; subst. cbn [fst snd]. auto.
      * eauto.
      * exact I.
      * rewrite app_nil_r in E'. rewrite E'. reflexivity.
Qed.

Lemma decode_interface_ok s a r cur : jvalue s a -> (number_lit s -> num_stop r) ->
  decode_interface usenum pf (s ++ r) cur = match jden a with Some v => DR r None v | None => DR r (Some EType) JVNull end.
Proof. intros V NS. apply dec_iface_ok; [exact V| |exact NS]. rewrite app_length. lia. Qed.

(** The functional denotation meets the specification. *)
Definition num_spec (s : bytes) (v : jv) : Prop := numv s = Some v.
Lemma jden_denotes a : lits_ok a -> forall v, jden a = Some v -> denotes num_spec a v.
Proof.
  induction a using jast_ind'; intros LO v E; cbn [jden] in E.
  - inversion E; constructor.
  - inversion E; constructor.
  - inversion E; constructor.
  - constructor. exact E.
  - inversion E; subst. constructor. inversion LO; subst. apply str_text_means; assumption.
  - destruct (seq_opt (map jden l)) as [xs|] eqn:SQ; [|discriminate]. inversion E; subst. apply seq_opt_some in SQ.
    constructor. inversion LO as [| | | | |l' FL|]; subst. clear E LO. induction SQ; constructor; inversion H; subst; inversion FL; subst; auto.
  - set (g := fun kv : bytes * jast => _) in E.
    destruct (seq_opt (map g l)) as [kvs|] eqn:SQ; [|discriminate]. inversion E; subst. apply seq_opt_some in SQ.
    inversion LO as [| | | | | |l' FL]; subst.
    assert (FK : Forall2 (fun la kv => string_lit (fst la) /\ fst kv = str_text (fst la) /\ denotes num_spec (snd la) (snd kv)) l kvs).
    { clear E LO. induction SQ as [|[lit a] kv l kvs Eg S IHS]; constructor; inversion H as [|? ? H1 H2]; subst; inversion FL as [|? ? [L1 L2] FL2]; subst.
      - unfold g in Eg. cbn [fst snd] in *. destruct (jden a) as [x|] eqn:Ea; [|discriminate]. inversion Eg; subst. cbn [fst snd].
        repeat split; auto.
      - apply IHS; auto. }
    clear SQ E H LO FL g.
    constructor.
    + apply add_all_nodup; [apply beqb_eq|constructor].
    + intros k v H. apply (add_all_in beqb beqb_eq) in H; [|constructor].
      destruct H as [(k1 & k2 & Ek & NI)|[_ []]]. subst kvs.
      apply Forall2_app_inv_r in FK. destruct FK as (l1 & l2' & F1 & F2 & ->).
      inversion F2 as [|[lit a] ? l2 ? (SL & Ek & D) F3]; subst. cbn [fst snd] in *. exists a. split; [|exact D].
      exists l1, lit, l2. split; [reflexivity|]. split; [subst k; apply str_text_means, SL|].
      intros lit' a' HI HM. apply NI. clear -F3 HI HM. induction F3 as [|[lit2 a2] kv l kvs (SL & Ek & D) F IH]; [destruct HI|].
      destruct HI as [E|HI]; cbn [map In].
      * left. assert (lit2 = lit') by congruence. subst lit2. cbn [fst] in *. rewrite Ek. symmetry. apply str_means_text; assumption.
      * right. apply IH, HI.
    + intros k a (l1 & lit & l2 & -> & M & NM).
      apply Forall2_app_inv_l in FK. destruct FK as (k1 & k2' & F1 & F2 & ->).
      inversion F2 as [|? [k0 v] ? k2 (SL & Ek & D) F3]; subst. cbn [fst snd] in *.
      subst k0. rewrite (str_means_text lit k SL M). exists v. split; [|exact D].
      apply (add_all_in beqb beqb_eq); [constructor|]. left. exists k1, k2. split; [reflexivity|].
      intros HI. assert (EM := str_means_text lit k SL M). clear -F3 HI NM EM.
      induction F3 as [|[lit2 a2] kv l kvs (SL & Ek & D) F IH]; [destruct HI|].
      destruct HI as [E|HI]; cbn [fst] in *.
      * apply (NM lit2 a2); [left; reflexivity|]. rewrite EM, <- E, Ek. apply str_text_means, SL.
      * apply IH; [|exact HI]. intros lit' a' H'. apply (NM lit' a'). right. exact H'.
Qed.
Lemma jden_total a : (forall s, number_in s a -> numv s <> None) -> exists v, jden a = Some v.
Proof.
  induction a using jast_ind'; intros HN; cbn [jden]; eauto.
  - destruct (numv s) eqn:E; [eauto|]. exfalso. apply (HN s); [constructor|exact E].
  - destruct (seq_opt (map jden l)) as [xs|] eqn:SQ; [cbn; eauto|]. exfalso.
    apply seq_opt_none in SQ. destruct SQ as (l1 & a & l2 & xs & -> & F & Ea).
    apply Forall_app in H. destruct H as [_ H]. inversion H as [|? ? Ha H']; subst.
    destruct Ha as [v Ev]; [|congruence]. intros s NI. apply HN. eapply ni_arr; [|exact NI]. apply in_elt.
  - set (g := fun kv : bytes * jast => _).
    destruct (seq_opt (map g l)) as [xs|] eqn:SQ; [cbn; eauto|]. exfalso.
    apply seq_opt_none in SQ. destruct SQ as (l1 & [k a] & l2 & xs & -> & F & Ea).
    apply Forall_app in H. destruct H as [_ H]. inversion H as [|? ? Ha H']; subst. cbn [snd] in Ha.
    destruct Ha as [v Ev]; [|unfold g in Ea; rewrite Ev in Ea; discriminate].
    intros s NI. apply HN. eapply ni_obj; [|exact NI]. apply in_elt.
Qed.
Lemma jden_none a s : number_in s a -> numv s = None -> jden a = None.
Proof.
  intros NI E. induction NI as [|l a HI NI IH|l k a HI NI IH]; cbn [jden].
  - exact E.
  - destruct (seq_opt (map jden l)) as [xs|] eqn:SQ; [|reflexivity]. exfalso. apply seq_opt_some in SQ.
    clear NI. induction SQ as [|x y l xs E1 S IHS]; [destruct HI|]. destruct HI as [->|HI]; [congruence|auto].
  - set (g := fun kv : bytes * jast => _).
    destruct (seq_opt (map g l)) as [xs|] eqn:SQ; [|reflexivity]. exfalso. apply seq_opt_some in SQ.
    clear NI. induction SQ as [|x y l xs E1 S IHS]; [destruct HI|]. destruct HI as [->|HI]; [|auto].
    unfold g in E1. rewrite IH in E1. discriminate.
Qed.
End Iface.

(** * The denotation is unique *)
Lemma last_member_in l k a : last_member l k a -> exists lit, In (lit, a) l.
Proof. intros (l1 & lit & l2 & -> & _). exists lit. apply in_elt. Qed.
Lemma last_member_unique l k a a' : last_member l k a -> last_member l k a' -> a = a'.
Proof.
  intros (l1 & lit & l2 & -> & M & N) (l1' & lit' & l2' & E & M' & N').
  revert l1' E. induction l1 as [|x l1 IH]; intros [|x' l1'] E; cbn [app] in E.
  - congruence.
  - exfalso. assert (l2 = l1' ++ (lit', a') :: l2') by congruence. subst l2. apply (N lit' a'); [apply in_elt|exact M'].
  - exfalso. assert (l1 ++ (lit, a) :: l2 = l2') by congruence. subst l2'. apply (N' lit a); [apply in_elt|exact M].
  - apply (IH l1'). congruence.
Qed.
Lemma denotes_unique (num : bytes -> jv -> Prop) :
  (forall s v, num s v -> match v with JVArr _ | JVMap _ => False | _ => True end) ->
  (forall s v v', num s v -> num s v' -> v = v') ->
  forall a v v', denotes num a v -> denotes num a v' -> jv_same v v'.
Proof.
  intros NL NF. induction a using jast_ind'; intros v v' D D'; inversion D as [| | |? ? Ha|? ? Ha|? vs Ha|? m Ha Hb Hc]; subst;
    inversion D' as [| | |? ? Ha'|? ? Ha'|? vs' Ha'|? m' Ha' Hb' Hc']; subst; try (apply same_leaf; exact I).
  - rewrite (NF _ _ _ Ha Ha'). apply same_leaf. eapply NL. exact Ha'.
  - rewrite (str_means_det _ _ _ Ha Ha'). apply same_leaf. exact I.
  - apply same_arr. clear D D'. revert vs' Ha'. induction Ha as [|x y l vs E1 F IH]; intros vs' Ha'; inversion Ha' as [|? y' ? ys' E2 F2]; subst.
    + constructor.
    + inversion H as [|? ? H1 H2]; subst. constructor; [apply H1; assumption|apply IH; assumption].
  - rewrite Forall_forall in H. apply same_map.
    + intros k v HI. destruct (Hb k v HI) as (a & LM & Da). destruct (Hc' k a LM) as (v' & HI' & Da').
      exists v'. split; [exact HI'|]. destruct (last_member_in _ _ _ LM) as [lit HL]. apply (H (lit, a) HL); assumption.
    + intros k v' HI. destruct (Hb' k v' HI) as (a & LM & Da'). destruct (Hc k a LM) as (v & HI' & Da).
      exists v. split; [exact HI'|]. destruct (last_member_in _ _ _ LM) as [lit HL]. apply (H (lit, a) HL); assumption.
Qed.

(** * Parse errors are syntax errors *)
Definition syn (x : pres) : Prop := forall r e, x = PErr r e -> e = ESyntax \/ e = EFuel.
Lemma parse_exp_syn b s : syn (parse_exp b s).
Proof.
  intros r e. unfold parse_exp. destruct s as [|c s1]; [discriminate|]. destruct ((c =? 101) || (c =? 69)); [|discriminate].
  match goal with |- (match ?x with _ => _ end) = _ -> _ => destruct x as [|c2 ?] end; [intros E; left; congruence|].
  destruct (is_digit c2); [discriminate|intros E; left; congruence].
Qed.
Lemma parse_frac_syn b s : syn (parse_frac b s).
Proof.
  intros r e. unfold parse_frac. destruct s as [|c s1]; [apply parse_exp_syn|]. destruct (c =? 46); [|apply parse_exp_syn].
  destruct s1 as [|c1 s1]; [intros E; left; congruence|]. destruct (is_digit c1); [apply parse_exp_syn|intros E; left; congruence].
Qed.
Lemma parse_number_syn b : syn (parse_number b).
Proof.
  intros r e. unfold parse_number. destruct b as [|c b1]; [intros E; left; congruence|].
  destruct (if c =? 45 then b1 else c :: b1) as [|d s1]; [intros E; left; congruence|].
  destruct (negb (is_digit d)); [intros E; left; congruence|]. destruct (d =? 48); [|apply parse_frac_syn].
  destruct s1 as [|x s1]; [discriminate|]. destruct (negb (x =? 46) && negb (x =? 101) && negb (x =? 69)); [discriminate|].
  destruct (is_digit x); [intros E; left; congruence|apply parse_frac_syn].
Qed.
Lemma parse_string_syn b : syn (parse_string b).
Proof.
  intros r e. unfold parse_string. destruct (parse_string_fast b) eqn:E; [discriminate|].
  apply parse_string_fast_err in E. intros E2. left. destruct E as [-> _]. congruence.
Qed.
Lemma parse_lit_syn l b : syn (parse_lit l b).
Proof.
  intros r e. unfold parse_lit. destruct (has_prefix b l); [discriminate|]. destruct (Nat.ltb (length b) (length l)); intros E; left; congruence.
Qed.
Lemma parse_syn n : (forall b, syn (parse_value n b)) /\ (forall f a b, syn (object_loop n f a b)) /\ (forall f a b, syn (array_loop n f a b)).
Proof.
  induction n as [|n (IHv & IHo & IHa)].
  - repeat split; intros; intros r e; cbn; intros E; right; congruence.
  - assert (HO : forall a b, syn (obj_k n a b)).
    { intros a b r e. unfold obj_k. destruct (parse_string b) as [v b'|r' e'] eqn:E.
      - destruct (skip_spaces b') as [|c b1]; [intros E2; left; congruence|]. destruct (negb (c =? 58)); [intros E2; left; congruence|].
        destruct (parse_value n (skip_spaces b1)) eqn:E2; [apply IHo|]. intros E3. eapply IHv. rewrite E2. exact E3.
      - intros E2. eapply parse_string_syn. rewrite E. exact E2. }
    assert (HA : forall a b, syn (arr_k n a b)).
    { intros a b r e. unfold arr_k. destruct (parse_value n b) eqn:E2; [apply IHa|]. intros E3. eapply IHv. rewrite E2. exact E3. }
    repeat split.
    + intros b r e. cbn [parse_value]. destruct b as [|c b1]; [intros E; left; congruence|].
      destruct (c =? 123). { destruct (Nat.ltb _ 2); [intros E; left; congruence|apply IHo]. }
      destruct (c =? 91). { destruct (Nat.ltb _ 2); [intros E; left; congruence|apply IHa]. }
      destruct (c =? 34); [apply parse_string_syn|]. destruct (c =? 110); [apply parse_lit_syn|].
      destruct (c =? 116); [apply parse_lit_syn|]. destruct (c =? 102); [apply parse_lit_syn|].
      destruct (is_num_start c); [apply parse_number_syn|]. intros E; left; congruence.
    + intros f a b r e. rewrite object_loop_S. destruct (skip_spaces b) as [|c b1]; [intros E; left; congruence|].
      destruct (c =? 125); [unfold close_at; discriminate|]. destruct f; [apply HO|].
      destruct (negb (c =? 44)); [intros E; left; congruence|]. destruct (skip_spaces b1) as [|c2 b2]; [intros E; left; congruence|].
      destruct (c2 =? 125); [intros E; left; congruence|apply HO].
    + intros f a b r e. rewrite array_loop_S. destruct (skip_spaces b) as [|c b1]; [intros E; left; congruence|].
      destruct (c =? 93); [unfold close_at; discriminate|]. destruct f; [apply HA|].
      destruct (negb (c =? 44)); [intros E; left; congruence|]. destruct (skip_spaces b1) as [|c2 b2]; [intros E; left; congruence|].
      destruct (c2 =? 93); [intros E; left; congruence|apply HA].
Qed.
Lemma parseValue_err b r e : wf b -> parseValue b = PErr r e -> e = ESyntax.
Proof.
  intros W E. destruct (proj1 (parse_syn _) b r e E) as [H|H]; [exact H|]. exfalso. subst e.
  exact (parseValue_nofuel b W r E).
Qed.
