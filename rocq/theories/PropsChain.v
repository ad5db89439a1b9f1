(** Interfaces that hold pointers to interfaces: C68. *)
From Coq Require Import Permutation.
From Verif Require Import Bytes ParseModel IntModel StringModel EncModel DecModel SpecJson SpecDec ParseFacts IntFacts DecFacts ChainModel SpecChain PropsDec.

Section Chain.
Context (usenum : bool) (pf : bytes -> option fl).
Lemma upd_same h a c : upd h a c a = c.
Proof. unfold upd. now rewrite Nat.eqb_refl. Qed.
Lemma upd_other h a c x : x <> a -> upd h a c x = h x.
Proof. intros N. unfold upd. destruct (Nat.eqb_spec x a); congruence. Qed.
Lemma leads_ext h h' a l z : leads h a l z -> (forall x, In x l -> h' x = h x) -> leads h' a l z.
Proof.
  induction 1 as [a|a a' l z E L IH]; intros H; [constructor|]. eapply leads_ptr; [rewrite H; [exact E|now left]|]. apply IH. intros x X. apply H. now right.
Qed.
Lemma leads_dec l : forall n h a z b, leads h a l z -> NoDup l -> (forall p, h z = CPtr p -> In z l) -> has_null_prefix b = false -> skip_spaces b = b -> (length l <= n)%nat ->
  let v := match h z with CVal v => if in_dec Nat.eq_dec z l then JVNull else v | CPtr _ => JVNull end in
  exists x, dec_cell usenum pf n h a b = Some x /\ let r := decode_interface usenum pf b v in
    d_err x = d_err r /\ (l = [] \/ d_rest x = skip_spaces (d_rest r)) /\ (l = [] -> d_rest x = d_rest r) /\
    forall y, d_val x y = if in_dec Nat.eq_dec y l then (match d_err r with None => h y | Some _ => if Nat.eqb y z then CVal (d_val r) else CVal JVNull end)
                          else if Nat.eqb y z then CVal (d_val r) else h y.
Proof.
  induction l as [|a0 l IH]; intros n h a z b L ND HZ HN SK LN; inversion L; subst; cbv zeta.
  - destruct (h z) as [v|p] eqn:E; [|destruct (HZ p eq_refl)]. exists (DR (d_rest (decode_interface usenum pf b v)) (d_err (decode_interface usenum pf b v)) (upd (upd h z (CVal JVNull)) z (CVal (d_val (decode_interface usenum pf b v))))).
    split; [destruct n; cbn [dec_cell]; rewrite E; reflexivity|]. cbn [d_rest d_err d_val in_dec]. split; [reflexivity|]. split; [now left|]. split; [reflexivity|].
    intros y. unfold upd. destruct (Nat.eqb y z); reflexivity.
  - rename a0 into a. destruct n as [|n]; [cbn in LN; lia|]. inversion ND as [|? ? NI ND']; subst. rename a' into a1.
    set (h0 := upd h a (CVal JVNull)).
    assert (L0 : leads h0 a1 l z). { apply (leads_ext h); [assumption|]. intros x X. apply upd_other. intros ->. contradiction. }
    destruct (IH n h0 a1 z b L0 ND') as (x & E & E1 & E2 & E3 & E4); [|assumption|assumption|cbn in LN; lia|].
    { intros p Hp. destruct (Nat.eq_dec z a) as [->|NE]; [unfold h0 in Hp; rewrite upd_same in Hp; discriminate|].
      unfold h0 in Hp. rewrite upd_other in Hp by exact NE. destruct (HZ p Hp) as [->|X]; [congruence|exact X]. }
    cbv zeta in E1, E2, E3, E4.
    set (v0 := match h0 z with CVal v => if in_dec Nat.eq_dec z l then JVNull else v | CPtr _ => JVNull end) in *.
    assert (EV : (match h z with CVal v => if in_dec Nat.eq_dec z (a :: l) then JVNull else v | CPtr _ => JVNull end) = v0).
    { unfold v0, h0. destruct (Nat.eq_dec z a) as [->|NE].
      - rewrite upd_same. destruct (h a); [|destruct (in_dec _ a l); reflexivity]. destruct (in_dec Nat.eq_dec a (a :: l)) as [_|X]; [|destruct X; now left]. destruct (in_dec _ a l); reflexivity.
      - rewrite upd_other by exact NE. destruct (h z); [|reflexivity]. destruct (in_dec Nat.eq_dec z (a :: l)) as [X|X], (in_dec Nat.eq_dec z l) as [Y|Y]; try reflexivity; exfalso; [destruct X; [congruence|contradiction]|apply X; now right]. }
    rewrite EV. set (r := decode_interface usenum pf b v0) in *.
    eexists. split. { cbn [dec_cell]. match goal with H : h a = CPtr a1 |- _ => rewrite H end. rewrite HN, SK. fold h0. rewrite E. reflexivity. }
    cbn [d_rest d_err d_val]. split; [exact E1|]. split; [|split; [discriminate|]].
    + right. destruct E2 as [E2|E2]; [rewrite (E3 E2); reflexivity|rewrite E2; apply skip_spaces_idem].
    + intros y. rewrite E1. assert (HY : forall (y : nat), in_dec Nat.eq_dec y (a :: l) = in_dec Nat.eq_dec y (a :: l)) by reflexivity. clear HY.
      destruct (Nat.eq_dec y a) as [->|NE].
      * destruct (in_dec Nat.eq_dec a (a :: l)) as [_|X]; [|destruct X; now left]. destruct (d_err r).
        -- rewrite E4. destruct (in_dec Nat.eq_dec a l); [contradiction|]. unfold h0. rewrite upd_same. reflexivity.
        -- rewrite upd_same. congruence.
      * assert (EQ : (if in_dec Nat.eq_dec y (a :: l) then match d_err r with None => h y | Some _ => if Nat.eqb y z then CVal (d_val r) else CVal JVNull end else if Nat.eqb y z then CVal (d_val r) else h y)
                   = d_val x y).
        { rewrite E4. unfold h0. rewrite upd_other by exact NE. destruct (in_dec Nat.eq_dec y (a :: l)) as [X|X], (in_dec Nat.eq_dec y l) as [Y|Y]; try reflexivity; exfalso; [destruct X; [congruence|contradiction]|apply X; now right]. }
        rewrite EQ. destruct (d_err r); [reflexivity|]. now rewrite upd_other.
Qed.

Lemma leads_unmarshal l n h a z b : leads h a l z -> NoDup l -> (forall p, h z = CPtr p -> In z l) -> has_null_prefix (skip_spaces b) = false -> (length l <= n)%nat ->
  let v := match h z with CVal v => if in_dec Nat.eq_dec z l then JVNull else v | CPtr _ => JVNull end in
  exists h', unmarshal_cell usenum pf n h a b = Some (fst (unmarshal_with (decode_interface usenum pf) b v), h') /\
    forall y, h' y = if in_dec Nat.eq_dec y l then (match d_err (parse_with (decode_interface usenum pf) b v) with None => h y | Some _ => if Nat.eqb y z then CVal (snd (unmarshal_with (decode_interface usenum pf) b v)) else CVal JVNull end)
                     else if Nat.eqb y z then CVal (snd (unmarshal_with (decode_interface usenum pf) b v)) else h y.
Proof.
  intros L ND HZ HN LN v. destruct (leads_dec l n h a z (skip_spaces b) L ND HZ HN (skip_spaces_idem b) LN) as (x & E & E1 & E2 & E3 & E4). cbv zeta in *. fold v in E1, E2, E3, E4.
  unfold unmarshal_cell. rewrite E. unfold unmarshal_with, parse_with. cbn [d_rest d_err d_val fst snd].
  exists (d_val x). split; [|exact E4]. rewrite E1.
  assert (X : skip_spaces (d_rest x) = skip_spaces (d_rest (decode_interface usenum pf (skip_spaces b) v))) by (destruct E2 as [E2|E2]; [rewrite (E3 E2); reflexivity|rewrite E2; apply skip_spaces_idem]).
  rewrite X. reflexivity.
Qed.

Lemma leads_det h a l z v : leads h a l z -> h z = CVal v -> forall l', leads h a l' z -> l' = l.
Proof.
  intros L E. induction L as [a|a a' l z E1 L IH]; intros l' L'; inversion L' as [|b b' ? ? E2 L2]; subst; try reflexivity; try congruence.
  assert (b' = a') as -> by congruence. f_equal. apply IH; assumption.
Qed.
Lemma leads_from h a l z : leads h a l z -> forall x, In x l -> exists l', leads h x l' z /\ (length l' <= length l)%nat.
Proof.
  induction 1 as [a|a a' l z E L IH]; intros x X; [destruct X|]. destruct X as [->|X]; [exists (x :: l); split; [econstructor; eassumption|lia]|].
  destruct (IH x X) as (l' & L' & LE). exists l'. split; [exact L'|]. cbn. lia.
Qed.
Lemma leads_once h a l z v : leads h a l z -> h z = CVal v -> NoDup l /\ ~ In z l.
Proof.
  intros L E. induction L as [a|a a' l z E1 L IH]; [split; [constructor|intros []]|]. destruct (IH E) as [ND NI]. split.
  - constructor; [|exact ND]. intros X. destruct (leads_from h a' l z L a X) as (l' & L' & LE).
    assert (L2 : leads h a (a :: l) z) by (econstructor; eassumption). rewrite (leads_det h a (a :: l) z v L2 E l' L') in LE. cbn in LE. lia.
  - intros [->|X]; [congruence|contradiction].
Qed.
(** A chain that ends is decoded into its last variable: same error and same value
    as for that variable alone, for every input that does not start with null.  On
    success all other variables are as before. *)
Theorem C68_chain n h a l z v b : leads h a l z -> h z = CVal v -> has_null_prefix (skip_spaces b) = false -> (length l <= n)%nat ->
  let u := unmarshal_with (decode_interface usenum pf) b v in
  exists h', unmarshal_cell usenum pf n h a b = Some (fst u, h') /\ h' z = CVal (snd u) /\
    (forall y, y <> z -> ~ In y l -> h' y = h y) /\ (fst u = None -> forall y, y <> z -> h' y = h y).
Proof.
  intros L E HN LN u. destruct (leads_once h a l z v L E) as [ND NI]. destruct (leads_unmarshal l n h a z b L ND ltac:(congruence) HN LN) as (h' & E1 & E2). cbv zeta in *. rewrite E in E1, E2.
  destruct (in_dec Nat.eq_dec z l) as [X|_]; [contradiction|]. exists h'. split; [exact E1|]. split; [|split].
  - rewrite E2. destruct (in_dec Nat.eq_dec z l); [contradiction|]. rewrite Nat.eqb_refl. reflexivity.
  - intros y NE NL. rewrite E2. destruct (in_dec Nat.eq_dec y l); [contradiction|]. destruct (Nat.eqb_spec y z); [contradiction|reflexivity].
  - intros EU y NE. rewrite E2. destruct (Nat.eqb_spec y z); [contradiction|]. destruct (in_dec Nat.eq_dec y l); [|reflexivity].
    unfold u, unmarshal_with in EU. cbn [fst] in EU. destruct (d_rest _) in EU; [|discriminate]. now rewrite EU.
Qed.
(** If the pointers lead back to a variable already met, Unmarshal returns, with the
    error it returns for a nil interface; but on success nothing has changed: the
    value is lost. *)
Theorem C68_loop_partial n h a l z b : leads h a l z -> NoDup l -> In z l -> has_null_prefix (skip_spaces b) = false -> (length l <= n)%nat ->
  let u := unmarshal_with (decode_interface usenum pf) b JVNull in
  exists h', unmarshal_cell usenum pf n h a b = Some (fst u, h') /\ (fst u = None -> forall y, h' y = h y).
Proof.
  intros L ND HI HN LN u. destruct (leads_unmarshal l n h a z b L ND ltac:(auto) HN LN) as (h' & E1 & E2). cbv zeta in *.
  assert (EV : (match h z with CVal v => if in_dec Nat.eq_dec z l then JVNull else v | CPtr _ => JVNull end) = JVNull) by (destruct (h z); [|reflexivity]; destruct (in_dec Nat.eq_dec z l); [reflexivity|contradiction]).
  rewrite EV in E1, E2. exists h'. split; [exact E1|]. intros EU y. unfold u, unmarshal_with in EU. cbn [fst] in EU. rewrite E2.
  destruct (d_rest _) in EU; [|discriminate]. rewrite EU. destruct (in_dec Nat.eq_dec y l); [reflexivity|]. destruct (Nat.eqb_spec y z) as [->|_]; [contradiction|reflexivity].
Qed.
(** null only makes the first variable nil. *)
Theorem C68_null n h a a' w1 w2 : h a = CPtr a' -> ws w1 -> ws w2 ->
  exists h', unmarshal_cell usenum pf n h a (w1 ++ bs "null" ++ w2) = Some (None, h') /\ h' a = CVal JVNull /\ forall y, y <> a -> h' y = h y.
Proof.
  intros E W1 W2. unfold unmarshal_cell. rewrite skip_spaces_ws by exact W1. rewrite (skip_spaces_nsp (bs "null" ++ w2)) by reflexivity.
  assert (D : dec_cell usenum pf n h a (bs "null" ++ w2) = Some (DR w2 None (upd h a (CVal JVNull)))) by (assert (HN : has_null_prefix (bs "null" ++ w2) = true) by (apply has_prefix_iff; exists w2; reflexivity); destruct n; cbn [dec_cell]; rewrite E, HN; reflexivity).
  rewrite D. exists (upd h a (CVal JVNull)). unfold unmarshal_with, parse_with. cbn [d_rest d_err d_val]. rewrite skip_spaces_all by exact W2.
  split; [reflexivity|]. split; [apply upd_same|]. intros y NE. now apply upd_other.
Qed.

(** Unmarshal returns for every variable and every input, if finitely many variables
    (those of L) hold pointers. *)
Lemma dec_cell_returns L : forall n h a b, (forall x p, h x = CPtr p -> In x L) -> (length (nodup Nat.eq_dec L) <= n)%nat -> exists x, dec_cell usenum pf n h a b = Some x.
Proof.
  intros n. revert L. induction n as [|n IH]; intros L h a b HL LN; cbn [dec_cell]; destruct (h a) as [v|a'] eqn:E; eauto.
  - specialize (HL a a' E). apply (nodup_In Nat.eq_dec) in HL. destruct (nodup Nat.eq_dec L); [destruct HL|cbn in LN; lia].
  - destruct (has_null_prefix b); [eauto|]. destruct (IH (remove Nat.eq_dec a L) (upd h a (CVal JVNull)) a' (skip_spaces b)) as (x & X).
    + intros x p Hx. destruct (Nat.eq_dec x a) as [->|NE]; [rewrite upd_same in Hx; discriminate|]. rewrite upd_other in Hx by exact NE. apply in_in_remove; eauto.
    + specialize (HL a a' E). apply (nodup_In Nat.eq_dec) in HL.
      assert (K : (length (a :: nodup Nat.eq_dec (remove Nat.eq_dec a L)) <= length (nodup Nat.eq_dec L))%nat).
      { apply NoDup_incl_length; [constructor; [rewrite nodup_In; intros K; apply in_remove in K; tauto|apply NoDup_nodup]|].
        intros y [<-|Y]; [exact HL|]. rewrite nodup_In in *. apply in_remove in Y. tauto. }
      cbn [length] in K. lia.
    + rewrite X. eauto.
Qed.
Theorem C68_returns h L a b : (forall x p, h x = CPtr p -> In x L) -> exists n0 r, forall n, (n0 <= n)%nat -> unmarshal_cell usenum pf n h a b = Some r.
Proof.
  intros HL. exists (length (nodup Nat.eq_dec L)).
  destruct (dec_cell_returns L _ h a (skip_spaces b) HL (le_n _)) as (x & X). exists (unmarshal_with (fun _ _ => x) b h). intros n LN. unfold unmarshal_cell.
  assert (M : forall n m h a b x, (n <= m)%nat -> dec_cell usenum pf n h a b = Some x -> dec_cell usenum pf m h a b = Some x).
  { clear. induction n as [|n IH]; intros m h a b x LE; destruct m as [|m]; try lia; cbn [dec_cell]; auto; destruct (h a); auto; destruct (has_null_prefix b); auto; try discriminate.
    destruct (dec_cell usenum pf n _ _ _) as [y|] eqn:E; [|discriminate]. intros X. rewrite (IH m _ _ _ _ ltac:(lia) E). exact X. }
  rewrite (M _ _ _ _ _ _ LN X). reflexivity.
Qed.
End Chain.

(** * x holds a pointer to y, y a pointer to z, z a string *)
Definition ch3 : cells := fun a => match a with 0%nat => CPtr 1 | 1%nat => CPtr 2 | 2%nat => CVal (JVString (bs "old")) | _ => CVal JVNull end.
Example C68_chain_ex : exists h', unmarshal_cell true (fun _ => None) 2 ch3 0 (bs " [1] ") = Some (None, h') /\ h' 2%nat = CVal (JVArr [JVNumber (bs "1")]) /\
  forall y, y <> 2%nat -> h' y = ch3 y.
Proof.
  destruct (C68_chain true (fun _ => None) 2 ch3 0 [0; 1]%nat 2 (JVString (bs "old")) (bs " [1] ")) as (h' & E & EZ & _ & H);
    [repeat econstructor|reflexivity|reflexivity|cbn; lia|]. cbv zeta in *.
  assert (U : unmarshal_with (decode_interface true (fun _ => None)) (bs " [1] ") (JVString (bs "old")) = (None, JVArr [JVNumber (bs "1")])) by (vm_compute; reflexivity).
  rewrite U in *. exists h'. auto.
Qed.
(** The claim that success means that the value was stored is false: x holds a
    pointer to y and y one to x. *)
Definition ch_loop : cells := fun a => match a with 0%nat => CPtr 1 | 1%nat => CPtr 0 | _ => CVal JVNull end.
Theorem C68_refuted : exists h a b, forall n, (2 <= n)%nat -> exists h', unmarshal_cell true (fun _ => None) n h a b = Some (None, h') /\ forall y, h' y = h y.
Proof.
  exists ch_loop, 0%nat, (bs "[1]"). intros n LN.
  destruct (C68_loop_partial true (fun _ => None) n ch_loop 0 [0; 1]%nat 0 (bs "[1]")) as (h' & E & H);
    [repeat econstructor|repeat constructor; cbn; lia|now left|reflexivity|exact LN|]. cbv zeta in *.
  assert (U : fst (unmarshal_with (decode_interface true (fun _ => None)) (bs "[1]") JVNull) = None) by (vm_compute; reflexivity).
  rewrite U in *. exists h'. auto.
Qed.

Print Assumptions C68_chain.
Print Assumptions C68_loop_partial.
Print Assumptions C68_null.
Print Assumptions C68_returns.
Print Assumptions C68_refuted.
