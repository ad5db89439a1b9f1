(** Theorems about decoding into arrays and maps: C48, C49. *)
From Verif Require Import Bytes AsciiModel ParseModel IntModel StringModel EncModel DecModel SpecJson SpecString SpecDec ParseFacts IntFacts DecLoops DecFacts
  TypeModel SpecType SpecFit SpecField NodeFacts TypeLoops TypeFacts TypeMain TypeSound TypeSafe PropsType PropsField.

(** * C48: fixed-size arrays *)
Lemma stores_array V F n e s l x y : stores V F (YArray n e) (ND s (HArr l)) (MList x) y <->
  length x = n /\ exists z, y = MList z /\ (l = [] -> x = []) /\ along (stores V F e) l x z.
Proof.
  split.
  - intros H. inversion H as [| | | | | | | | | | | | | | | |n' e' v' x' y' L H1| | | | | | | | | |]; subst; cbn [null_keeps] in *; try contradiction.
    inversion H1; subst. split; [reflexivity|]. eauto.
  - intros (L & z & -> & N & A). apply st_array; [exact L|]. apply ar_arr; assumption.
Qed.
Lemma along_full {A} (R : node -> A -> A -> Prop) l x z : length l = length x ->
  (along R l x z <-> length z = length x /\ forall j nd a, nth_error l j = Some nd -> nth_error x j = Some a -> exists b, nth_error z j = Some b /\ R nd a b).
Proof.
  revert x z. induction l as [|nd l IH]; intros [|a x] z L; try discriminate.
  - split; [intros H; inversion H; subst; (split; [reflexivity|]); intros [|j]; discriminate|]. intros [H _]. destruct z; [constructor|discriminate].
  - cbn [length] in L. injection L as L. split.
    + intros H. inversion H as [| |? ? ? ? b z' R1 A1]; subst. apply (IH x z' L) in A1 as [E A1]. split; [cbn; congruence|].
      intros [|j] nd' a' N1 N2; cbn [nth_error] in *; [injection N1 as <-; injection N2 as <-; eauto|eapply A1; eassumption].
    + intros [E H]. destruct (H 0%nat nd a eq_refl eq_refl) as (b & N & R1). destruct z as [|b' z]; [discriminate|]. injection N as ->. constructor; [exact R1|].
      apply (IH x z L). split; [cbn in E; congruence|]. intros j. exact (H (S j)).
Qed.
Lemma nth_error_ext {A} (a b : list A) : (forall j, nth_error a j = nth_error b j) -> a = b.
Proof.
  revert b. induction a as [|x a IH]; intros [|y b] H; [reflexivity|specialize (H 0%nat); discriminate|specialize (H 0%nat); discriminate|].
  f_equal; [specialize (H 0%nat); cbn in H; congruence|apply IH; intros j; exact (H (S j))].
Qed.
(** A JSON array of the length of the Go array is stored element by element. *)
Theorem C48_exact_length_partial V F e s l w1 w2 x y : env_ok V -> jnode (ND s (HArr l)) -> ws w1 -> ws w2 -> length l = length x ->
  (unmarshal V F (YArray (length x) e) (w1 ++ s ++ w2) (MList x) = (None, MList y) <->
   length y = length x /\ forall j nd a, nth_error l j = Some nd -> nth_error x j = Some a -> exists b, nth_error y j = Some b /\ stores V F e nd a b).
Proof.
  intros OK J W1 W2 L. rewrite (C42_accepts_iff V F (YArray (length x) e) w1 (ND s (HArr l)) w2 (MList x) (MList y) OK W1 J W2), stores_array.
  rewrite <- (along_full (stores V F e) l x y L). split.
  - intros (_ & z & [= <-] & _ & A). exact A.
  - intros A. split; [reflexivity|]. exists y. split; [reflexivity|]. split; [|exact A]. intros ->. destruct x; [reflexivity|discriminate].
Qed.
(** Shorter and longer JSON arrays: surplus values are ignored, elements without
    a value keep what they held. *)
Theorem C48_other_length_partial V F e s l w1 w2 x y : env_ok V -> jnode (ND s (HArr l)) -> ws w1 -> ws w2 -> l <> [] ->
  (unmarshal V F (YArray (length x) e) (w1 ++ s ++ w2) (MList x) = (None, MList y) <->
   length y = length x /\
   (forall j nd a, nth_error l j = Some nd -> nth_error x j = Some a -> exists b, nth_error y j = Some b /\ stores V F e nd a b) /\
   (forall j, (length l <= j)%nat -> nth_error y j = nth_error x j)).
Proof.
  intros OK J W1 W2 NE. rewrite (C42_accepts_iff V F (YArray (length x) e) w1 (ND s (HArr l)) w2 (MList x) (MList y) OK W1 J W2), stores_array.
  assert (AL : forall l x y, along (stores V F e) l x y <-> length y = length x /\
    (forall j nd a, nth_error l j = Some nd -> nth_error x j = Some a -> exists b, nth_error y j = Some b /\ stores V F e nd a b) /\
    (forall j, (length l <= j)%nat -> nth_error y j = nth_error x j)).
  { clear. induction l as [|nd l IH]; intros x y.
    - split; [intros H; inversion H; subst; (split; [reflexivity|]); (split; [intros [|j]; discriminate|reflexivity])|].
      intros (L & _ & H). assert (y = x) as ->; [|constructor]. apply nth_error_ext. intros j. apply H. cbn. lia.
    - destruct x as [|a x].
      + split; [intros H; inversion H; subst; (split; [reflexivity|]); (split; [intros [|j] ? ? ? K; discriminate|reflexivity])|].
        intros (L & _ & _). destruct y; [constructor|discriminate].
      + split.
        * intros H. inversion H as [| |? ? ? ? b y' R1 A1]; subst. apply IH in A1 as (L & A1 & A2). split; [cbn; congruence|]. split.
          -- intros [|j] nd' a' N1 N2; cbn [nth_error] in *; [injection N1 as <-; injection N2 as <-; eauto|eapply A1; eassumption].
          -- intros [|j] Lj; cbn [length nth_error] in *; [lia|apply A2; lia].
        * intros (L & H1 & H2). destruct (H1 0%nat nd a eq_refl eq_refl) as (b & N & R1). destruct y as [|b' y]; [discriminate|]. injection N as ->.
          constructor; [exact R1|]. apply IH. split; [cbn in L; congruence|]. split; [intros j; exact (H1 (S j))|]. intros j Lj. apply (H2 (S j)). cbn. lia. }
  rewrite <- AL. split.
  - intros (_ & z & [= <-] & _ & A). exact A.
  - intros A. split; [reflexivity|]. exists y. split; [reflexivity|]. split; [|exact A]. congruence.
Qed.
(** The standard library sets elements without a value to zero and accepts the
    empty array; this package keeps the elements, and fails on []. *)
Theorem C48_short_arrays_refuted :
  unmarshal ex_env ex_flags (YArray 2 (YInt TInt)) (bs "[5]") (MList [MInt 1; MInt 2]) = (None, MList [MInt 5; MInt 2]) /\
  fst (unmarshal ex_env ex_flags (YArray 2 (YInt TInt)) (bs "[]") (MList [MInt 1; MInt 2])) = Some ESyntax.
Proof. split; vm_compute; reflexivity. Qed.
Example C48_example : env_ok ex_env /\ unmarshal ex_env ex_flags (YArray 2 (YPtr YBool)) (bs " [true ,null]") (MList [MPtr None; MPtr (Some (MBool true))]) =
  (None, MList [MPtr (Some (MBool true)); MPtr None]).
Proof. split; [apply ex_env_ok|vm_compute; reflexivity]. Qed.
Print Assumptions C48_exact_length_partial.
Print Assumptions C48_other_length_partial.
Print Assumptions C48_short_arrays_refuted.

(** * C49: maps *)
Lemma mkey_eqb_eq a b : mkey_eqb a b = true <-> a = b.
Proof.
  destruct a, b; cbn [mkey_eqb]; try (split; discriminate).
  - rewrite beqb_eq. split; congruence.
  - rewrite Z.eqb_eq. split; congruence.
  - rewrite beqb_eq. split; congruence.
Qed.
Lemma key_means_det V k lit a b : env_ok V -> string_lit lit -> key_means V k lit a -> key_means V k lit b -> a = b.
Proof.
  intros OK SL HA HB. destruct (key_means_meets V OK k lit SL []) as [(x & _ & _ & U)|(r & e & y & _ & _ & N)]; [rewrite (U a HA), (U b HB); reflexivity|destruct (N a HA)].
Qed.
Lemma key_lits s l : jnode (ND s (HObj l)) -> Forall (fun kv => string_lit (fst kv)) l.
Proof.
  intros J. assert (X : forall s l, nmembers s l -> Forall (fun kv => string_lit (fst kv)) l) by (induction 1; constructor; auto). inversion J; subst; [constructor|eauto].
Qed.
(** The entries after a successful Unmarshal of an object into a map: each key of
    the object with the value of its last member, decoded into a zero value, and
    the old entries under other keys. *)
Theorem C49_map_entries V F kt e s l w1 w2 x y : env_ok V -> jnode (ND s (HObj l)) -> ws w1 -> ws w2 -> NoDup (map fst (entries x)) ->
  unmarshal V F (YMap kt e) (w1 ++ s ++ w2) (MMap x) = (None, y) ->
  exists m, y = MMap (Some m) /\ NoDup (map fst m) /\ forall k v, In (k, v) m <->
    (exists l1 lit nd l2, l = l1 ++ (lit, nd) :: l2 /\ key_means V kt lit k /\ stores V F e nd (zero V e) v /\
                          forall lit' nd', In (lit', nd') l2 -> ~ key_means V kt lit' k) \/
    ((forall lit nd, In (lit, nd) l -> ~ key_means V kt lit k) /\ In (k, v) (entries x)).
Proof.
  intros OK J W1 W2 NDx E. apply (C42_accepts_iff V F (YMap kt e) w1 (ND s (HObj l)) w2 (MMap x) y OK W1 J W2) in E.
  assert (SL := key_lits s l J).
  inversion E as [| | | | | | | | | | | | | | | | | |k' e' v' x' y' H1| | | | | | | |]; subst; cbn [null_keeps] in *; try contradiction.
  inversion H1 as [|s' l' x' kvs FE]; subst. eexists. split; [reflexivity|]. split; [apply (add_all_nodup mkey_eqb mkey_eqb_eq), NDx|].
  intros k v. rewrite (add_all_in mkey_eqb mkey_eqb_eq kvs (entries x) NDx k v).
  assert (KI : forall l kvs, Forall (fun kv => string_lit (fst kv)) l -> Forall2 (entry (stores V F e) (zero V e) (key_means V kt)) l kvs ->
    (In k (map fst kvs) <-> exists lit nd, In (lit, nd) l /\ key_means V kt lit k)).
  { clear -OK. intros l kvs SL FE. induction FE as [|[lit nd] [k0 v0] l kvs [K1 K2] FE IH]; cbn [map fst In].
    - split; [intros []|intros (? & ? & [] & _)].
    - inversion SL; subst. cbn [fst snd] in *. rewrite IH by assumption. split.
      + intros [->|(lit' & nd' & I1 & I2)]; [exists lit, nd; auto|exists lit', nd'; auto].
      + intros (lit' & nd' & [[= <- <-]|I1] & I2); [left; eapply key_means_det; eassumption|right; eauto]. }
  split.
  - intros [(l1 & l2 & -> & NI)|[NI H]].
    + left. apply Forall2_app_inv_r in FE as (la & lb & F1 & F2 & ->). inversion F2 as [|[lit nd] ? lb' ? [K1 K2] F3]; subst. cbn [fst snd] in *.
      exists la, lit, nd, lb'. split; [reflexivity|]. split; [exact K1|]. split; [exact K2|]. intros lit' nd' I1 I2. apply NI. apply Forall_app in SL as [_ SL]. inversion SL; subst. apply (KI lb' l2); eauto.
    + right. split; [|exact H]. intros lit nd I1 I2. apply NI, (KI l kvs SL FE). eauto.
  - intros [(l1 & lit & nd & l2 & -> & K1 & K2 & NI)|[NI H]].
    + left. apply Forall2_app_inv_l in FE as (ka & kb & F1 & F2 & ->). inversion F2 as [|? [k0 v0] ? kb' [K3 K4] F3]; subst. cbn [fst snd] in *.
      apply Forall_app in SL as [_ SL]. inversion SL as [|? ? SL1 SL2]; subst. cbn [fst] in SL1. rewrite (key_means_det V kt lit k k0 OK SL1 K1 K3) in *.
      assert (JN : jnode nd). { clear -J. assert (X : forall s l, nmembers s l -> forall kv, In kv l -> jnode (snd kv)) by (induction 1; intros kv [<-|I1]; [assumption|destruct I1|assumption|auto]).
        inversion J as [| | | | | | | |s' l' NM]; subst; [match goal with H : [] = _ |- _ => symmetry in H; apply app_eq_nil in H as [_ H]; discriminate H end|]. apply (X _ _ NM (lit, nd)), in_elt. }
      assert (v0 = v) as ->.
      { pose proof (C42_accepts_iff V F e [] nd [] (zero V e) v OK ltac:(constructor) JN ltac:(constructor)) as [_ A1].
        pose proof (C42_accepts_iff V F e [] nd [] (zero V e) v0 OK ltac:(constructor) JN ltac:(constructor)) as [_ A2]. specialize (A1 K2). specialize (A2 K4). congruence. }
      exists ka, kb'. split; [reflexivity|]. intros I1. apply (KI l2 kb' SL2 F3) in I1 as (lit' & nd' & I1 & I2). exact (NI lit' nd' I1 I2).
    + right. split; [|exact H]. intros I1. apply (KI l kvs SL FE) in I1 as (lit & nd & I1 & I2). exact (NI lit nd I1 I2).
Qed.
(** null sets the map to nil (C45); a map that was nil becomes a new map. *)
Example C49_example :
  unmarshal ex_env ex_flags (YMap (KYInt TInt8) YBool) (bs "{""-3"":false,""5"":true,""-3"":true}") (MMap (Some [(MKInt 5, MBool false); (MKInt 9, MBool true)])) =
  (None, MMap (Some [(MKInt 5, MBool true); (MKInt 9, MBool true); (MKInt (-3), MBool true)])) /\
  NoDup (map fst (entries (Some [(MKInt 5, MBool false); (MKInt 9, MBool true)]))).
Proof. split; [vm_compute; reflexivity|]. cbn. constructor; [|constructor; [|constructor]]; cbn; intuition congruence. Qed.
(** The key of a map with integer keys is the integer written in it, except that
    the key "null" is taken for 0. *)
Theorem C49_null_key_refuted :
  unmarshal ex_env ex_flags (YMap (KYInt TInt8) YBool) (bs "{""null"":true}") (MMap None) = (None, MMap (Some [(MKInt 0, MBool true)])).
Proof. vm_compute. reflexivity. Qed.
Theorem C49_int_keys V t lit k : key_means V (KYInt t) lit k ->
  (exists s z w, k = MKInt z /\ str_means lit (s ++ w) /\ ws w /\ int_text s z /\ ity_lo t <= z <= ity_hi t) \/ (k = MKInt 0 /\ exists w, ws w /\ str_means lit (bs "null" ++ w)).
Proof.
  intros H. inversion H as [|it lit' s z w SM W (I1 & I2 & _)|it lit' w SM W|]; subst; [left; exists s, z, w; auto|right; eauto].
Qed.
Print Assumptions C49_map_entries.
Print Assumptions C49_null_key_refuted.
Print Assumptions C49_int_keys.
