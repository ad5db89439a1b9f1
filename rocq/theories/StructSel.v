(** The selection of JSON fields: what the loop over the declared fields
    collects, what is kept of it, and in which order. *)
From Coq Require Import Sorting.Sorted Sorting.Permutation.
From Verif Require Import Bytes Utf8Model IntModel EncModel DecModel TypeModel DecFacts SpecFit SpecField StructModel SpecStruct TypeFacts TypeMain StructFacts.

Lemma nth_error_skipn {A} n : forall (l : list A) m, nth_error (skipn n l) m = nth_error l (n + m).
Proof. induction n as [|n IH]; intros [|x l] m; cbn; try reflexivity; [destruct m; reflexivity|apply IH]. Qed.
Lemma skipn_skipn {A} a : forall b (l : list A), skipn a (skipn b l) = skipn (a + b) l.
Proof.
  intros b. induction b as [|b IH]; intros l; [rewrite Nat.add_0_r; reflexivity|]. destruct l as [|x l]; [rewrite !skipn_nil; reflexivity|].
  replace (a + S b)%nat with (S (a + b)) by lia. cbn. apply IH.
Qed.
Lemma NoDup_app_own {A} (l1 l2 : list A) : NoDup l1 -> NoDup l2 -> (forall x, In x l1 -> In x l2 -> False) -> NoDup (l1 ++ l2).
Proof.
  induction 1 as [|x l1 N ND IH]; intros N2 H; cbn; [exact N2|]. constructor; [|apply IH; [exact N2|intros y I1 I2; apply (H y); [right|]; assumption]].
  rewrite in_app_iff. intros [I|I]; [exact (N I)|apply (H x); [left; reflexivity|exact I]].
Qed.

Section Sel.
Context (letter : Z -> bool) (decls : nat -> list sfield).
Local Notation plan_of := (plan_of letter).
Local Notation walk := (walk letter).
Notation spath s := (jf_path (se_field s)).
Notation sname s := (jf_name (se_field s)).

(** Candidates as the code sees them. *)
Inductive mcand : nat -> jfield -> bool -> bool -> Prop :=
| mc_own i k f n tg om q : nth_error (decls i) k = Some f -> plan_of f = PField n tg om q -> mcand i (JField n [PIn k] (sf_ty f) q) tg om
| mc_prom i k f j ptr un g tg om : nth_error (decls i) k = Some f -> plan_of f = PEmbed j ptr un -> mcand j g tg om ->
    mcand i (JField (jf_name g) (via k j ptr un :: jf_path g) (jf_ty g) (jf_quot g)) tg om.

Lemma via_idx k j ptr un : idx (via k j ptr un) = k.
Proof. destruct ptr; reflexivity. Qed.
Lemma mcand_nonnil i f tg om : mcand i f tg om -> jf_path f <> [].
Proof. destruct 1; discriminate. Qed.
Lemma jfield_eta g : JField (jf_name g) (jf_path g) (jf_ty g) (jf_quot g) = g.
Proof. destruct g; reflexivity. Qed.
(** A candidate is known by its positions. *)
Lemma mcand_fun i f tg om g tg' om' : mcand i f tg om -> mcand i g tg' om' -> map idx (jf_path f) = map idx (jf_path g) -> f = g /\ tg = tg' /\ om = om'.
Proof.
  intros H. revert g tg' om'. induction H as [i k f n tg om q N P|i k f j ptr un f' tg om N P M IH]; intros g tg' om' MG E.
  - inversion MG as [i' k' h n' tg1 om1 q' N' P'|i' k' h j' ptr' un' g' tg1 om1 N' P' M']; subst; cbn [jf_path map] in E.
    + injection E as <-. rewrite N in N'. injection N' as <-. rewrite P in P'. injection P' as <- <- <- <-. auto.
    + rewrite via_idx in E. injection E as <- _. rewrite N in N'. injection N' as <-. congruence.
  - inversion MG as [i' k' h n' tg1 om1 q' N' P'|i' k' h j' ptr' un' g' tg1 om1 N' P' M']; subst; cbn [jf_path map] in E; rewrite via_idx in E.
    + injection E as <- _. rewrite N in N'. injection N' as <-. congruence.
    + rewrite via_idx in E. injection E as <- E. rewrite N in N'. injection N' as <-. rewrite P in P'. injection P' as <- <- <-.
      destruct (IH _ _ _ M' E) as (<- & <- & <-). auto.
Qed.

(** ** The loop *)
Definition own_entry (i : nat) (k : skey) (s : sel) : Prop :=
  exists f n tg om q, nth_error (decls i) (fst k) = Some f /\ plan_of f = PField n tg om q /\ snd k = O /\
    s = Sel (JField n [PIn (fst k)] (sf_ty f) q) tg om.
Definition emb_entry (i : nat) (sub : nat -> list sel) (k : skey) (s : sel) : Prop :=
  exists f j ptr un s0, nth_error (decls i) (fst k) = Some f /\ plan_of f = PEmbed j ptr un /\ nth_error (sub (fst k)) (snd k) = Some s0 /\
    s = push (via (fst k) j ptr un) s0.

Lemma number_in l : forall n m s, In (m, s) (number n l) <-> (n <= m)%nat /\ nth_error l (m - n) = Some s.
Proof.
  induction l as [|x l IH]; intros n m s; cbn [number In].
  - split; [intros []|]. intros [_ E]. destruct (m - n)%nat; discriminate.
  - rewrite IH. split.
    + intros [E|[L E]]; [injection E as <- <-; split; [lia|]; rewrite Nat.sub_diag; reflexivity|]. split; [lia|].
      replace (m - n)%nat with (S (m - S n))%nat by lia. exact E.
    + intros [L E]. destruct (Nat.eq_dec n m) as [<-|NE]; [left; rewrite Nat.sub_diag in E; injection E as <-; reflexivity|].
      right. split; [lia|]. replace (m - n)%nat with (S (m - S n))%nat in E by lia. exact E.
Qed.
Lemma number_keys l : forall n, NoDup (map fst (number n l)).
Proof.
  induction l as [|x l IH]; intros n; cbn [number map fst]; constructor; [|apply IH].
  intros I. apply in_map_iff in I as ([m s] & E & I). cbn in E. subst m. apply number_in in I as [L _]. lia.
Qed.
Lemma embed_in k j ptr un l key s : In (key, s) (embed k j ptr un l) <-> fst key = k /\ exists s0, nth_error l (snd key) = Some s0 /\ s = push (via k j ptr un) s0.
Proof.
  unfold embed. rewrite in_map_iff. split.
  - intros ([m x] & E & I). cbn in E. injection E as <- <-. apply number_in in I as [_ I]. rewrite Nat.sub_0_r in I. cbn. eauto.
  - destruct key as [k' m]. cbn. intros (-> & s0 & N & ->). exists (m, s0). split; [reflexivity|]. apply number_in. rewrite Nat.sub_0_r. split; [lia|exact N].
Qed.
Lemma embed_keys k j ptr un l : NoDup (map fst (embed k j ptr un l)).
Proof.
  unfold embed. rewrite map_map. assert (N := number_keys l 0). change (NoDup (map (fun x => (fun m => (k, m)) (fst x)) (number 0 l))). rewrite <- (map_map fst (fun m => (k, m))). apply FinFun.Injective_map_NoDup; [|exact N].
  intros a b E. injection E as ->. reflexivity.
Qed.

Section Walk.
Context (rec : gty -> seen -> option seen) (I : seen -> Prop) (G : nat -> list sel -> Prop).
Definition sub_of (j : nat) (s : seen) : list sel := match look j s with Some l => l | None => [] end.

Lemma walk_spec i fs : forall k s s' d e, fs = skipn k (decls i) ->
  (forall f n tg om q s s', In f fs -> plan_of f = PField n tg om q -> rec (sf_ty f) s = Some s' -> I s -> I s') ->
  (forall f j ptr un s s', In f fs -> plan_of f = PEmbed j ptr un -> rec (YStruct j) s = Some s' -> I s -> I s' /\ G j (sub_of j s')) ->
  I s -> walk rec fs k s = Some (s', d, e) ->
  I s' /\ exists sub,
    (forall m f j ptr un, (k <= m)%nat -> nth_error (decls i) m = Some f -> plan_of f = PEmbed j ptr un -> G j (sub m)) /\
    (forall key x, In (key, x) d <-> (k <= fst key)%nat /\ own_entry i key x) /\
    (forall key x, In (key, x) e <-> (k <= fst key)%nat /\ emb_entry i sub key x) /\
    NoDup (map fst d) /\ NoDup (map fst e).
Proof.
  induction fs as [|f fs IH]; intros k s s' d e EF HF HE IS W; cbn [StructModel.walk] in W.
  - injection W as <- <- <-. split; [exact IS|]. exists (fun _ => []).
    assert (LEN : forall m f, (k <= m)%nat -> nth_error (decls i) m = Some f -> False).
    { intros m f L N. assert (X : nth_error (skipn k (decls i)) (m - k) = Some f) by (rewrite nth_error_skipn; replace (k + (m - k))%nat with m by lia; exact N).
      rewrite <- EF in X. destruct (m - k)%nat; discriminate. }
    repeat split; try constructor; try contradiction.
    + intros m f j ptr un L N. destruct (LEN m f L N).
    + intros [L (f & n & tg & om & q & N & _)]. destruct (LEN _ _ L N).
    + intros [L (f & j & ptr & un & s0 & N & _)]. destruct (LEN _ _ L N).
  - assert (NF : nth_error (decls i) k = Some f) by (rewrite <- (Nat.add_0_r k), <- nth_error_skipn, <- EF; reflexivity).
    assert (EF' : fs = skipn (S k) (decls i)) by (replace (S k) with (1 + k)%nat by lia; rewrite <- skipn_skipn, <- EF; reflexivity).
    specialize (IH (S k)).
    assert (HF' : forall f n tg om q s s', In f fs -> plan_of f = PField n tg om q -> rec (sf_ty f) s = Some s' -> I s -> I s') by (intros; eapply HF; try eassumption; right; assumption).
    assert (HE' : forall f j ptr un s s', In f fs -> plan_of f = PEmbed j ptr un -> rec (YStruct j) s = Some s' -> I s -> I s' /\ G j (sub_of j s')) by (intros; eapply HE; try eassumption; right; assumption).
    destruct (plan_of f) as [|j ptr un|n tg om q] eqn:P.
    + destruct (IH _ _ _ _ EF' HF' HE' IS W) as (IS' & sub & A & B & C & ND & NE). split; [exact IS'|]. exists sub.
      split; [|split; [|split; [|split; assumption]]].
      * intros m g j ptr un L N Q. apply (A m g j ptr un); try assumption. destruct (Nat.eq_dec m k) as [->|]; [congruence|lia].
      * intros key x. rewrite B. split; intros [L O]; (split; [|exact O]); [lia|]. destruct O as (g & n & tg & om & q & N & Q & _). destruct (Nat.eq_dec (fst key) k) as [E|]; [rewrite E in N; congruence|lia].
      * intros key x. rewrite C. split; intros [L O]; (split; [|exact O]); [lia|]. destruct O as (g & j & ptr & un & s0 & N & Q & _). destruct (Nat.eq_dec (fst key) k) as [E|]; [rewrite E in N; congruence|lia].
    + destruct (rec (YStruct j) s) as [s1|] eqn:R; [|discriminate]. destruct (HE f j ptr un s s1 (or_introl eq_refl) P R IS) as [I1 G1].
      destruct (walk rec fs (S k) s1) as [[[s2 d1] e1]|] eqn:W1; [|discriminate]. injection W as <- <- <-.
      destruct (IH _ _ _ _ EF' HF' HE' I1 W1) as (IS' & sub & A & B & C & ND & NE). split; [exact IS'|].
      exists (fun m => if (m =? k)%nat then sub_of j s1 else sub m).
      split; [|split; [|split; [|split; [exact ND|]]]].
      * intros m g j' ptr' un' L N Q. destruct (Nat.eqb_spec m k) as [->|NK]; [rewrite NF in N; injection N as <-; rewrite P in Q; injection Q as <- <- <-; exact G1|].
        apply (A m g j' ptr' un'); try assumption. lia.
      * intros key x. rewrite B. split; intros [L O]; (split; [|exact O]); [lia|]. destruct O as (g & n & tg & om & q & N & Q & _). destruct (Nat.eq_dec (fst key) k) as [E|]; [rewrite E, NF in N; congruence|lia].
      * intros key x. rewrite in_app_iff, C. change (match look j s1 with Some l => l | None => [] end) with (sub_of j s1). rewrite embed_in. split.
        -- intros [(E & s0 & N & X)|[L (g & j' & ptr' & un' & s0 & N & Q & M & X)]].
           ++ split; [lia|]. exists f, j, ptr, un, s0. rewrite E, Nat.eqb_refl. auto.
           ++ split; [lia|]. exists g, j', ptr', un', s0. destruct (Nat.eqb_spec (fst key) k); [lia|auto].
        -- intros [L (g & j' & ptr' & un' & s0 & N & Q & M & X)]. destruct (Nat.eqb_spec (fst key) k) as [E|NK].
           ++ left. split; [exact E|]. rewrite E, NF in N. injection N as <-. rewrite P in Q. injection Q as <- <- <-. exists s0. rewrite E in X. auto.
           ++ right. split; [lia|]. exists g, j', ptr', un', s0. auto.
      * rewrite map_app. apply NoDup_app_own; [apply embed_keys|exact NE|]. intros key I1' I2. apply in_map_iff in I1' as ([key1 x1] & E1 & I1'). apply in_map_iff in I2 as ([key2 x2] & E2 & I2).
        cbn in E1, E2. subst key1 key2. apply embed_in in I1' as [E _]. apply C in I2 as [L _]. lia.
    + destruct (rec (sf_ty f) s) as [s1|] eqn:R; [|discriminate]. assert (I1 := HF f n tg om q s s1 (or_introl eq_refl) P R IS).
      destruct (walk rec fs (S k) s1) as [[[s2 d1] e1]|] eqn:W1; [|discriminate]. injection W as <- <- <-.
      destruct (IH _ _ _ _ EF' HF' HE' I1 W1) as (IS' & sub & A & B & C & ND & NE). split; [exact IS'|]. exists sub.
      split; [|split; [|split; [|split; [|exact NE]]]].
      * intros m g j' ptr' un' L N Q. apply (A m g j' ptr' un'); try assumption. destruct (Nat.eq_dec m k) as [->|]; [congruence|lia].
      * intros key x. cbn [In]. rewrite B. split.
        -- intros [E|[L O]]; [|split; [lia|exact O]]. injection E as <- <-. split; [cbn; lia|]. exists f, n, tg, om, q. auto.
        -- intros [L O]. destruct (Nat.eq_dec (fst key) k) as [E|NK]; [|right; split; [lia|exact O]]. left.
           destruct O as (g & n' & tg' & om' & q' & N & Q & Z0 & ->). rewrite E, NF in N. injection N as <-. rewrite P in Q. injection Q as <- <- <- <-.
           destruct key as [a b]. cbn in *. subst. reflexivity.
      * intros key x. rewrite C. split; intros [L O]; (split; [|exact O]); [lia|]. destruct O as (g & j & ptr & un & s0 & N & Q & _). destruct (Nat.eq_dec (fst key) k) as [E|]; [rewrite E, NF in N; congruence|lia].
      * cbn [map fst]. constructor; [|exact ND]. intros X. apply in_map_iff in X as ([key x] & E & X). cbn in E. subst key. apply B in X as [L _]. cbn in L. lia.
Qed.
End Walk.

(** ** Counting and sorting *)
Lemma skey_ltb_iff a b : skey_ltb a b = true <-> (fst a < fst b \/ fst a = fst b /\ snd a < snd b)%nat.
Proof. unfold skey_ltb. rewrite orb_true_iff, andb_true_iff, !Nat.ltb_lt, Nat.eqb_eq. reflexivity. Qed.
Lemma keys_nodup {A} (l : list (skey * A)) : NoDup (map fst l) -> NoDup l.
Proof. apply NoDup_map_inv. Qed.
Lemma filter_keys {A} (Q : skey * A -> bool) l : NoDup (map fst l) -> NoDup (map fst (filter Q l)).
Proof.
  induction l as [|x l IH]; cbn [filter map]; intros N; [constructor|]. inversion N as [|? ? NI ND]; subst. destruct (Q x); [|apply IH, ND].
  cbn [map]. constructor; [|apply IH, ND]. intros I1. apply NI. apply in_map_iff in I1 as (y & E & I1). apply filter_In in I1 as [I1 _]. rewrite <- E. apply in_map, I1.
Qed.
Lemma count_in Q (l : list (skey * sel)) k x : In (k, x) l -> Q x = true -> (1 <= count Q l)%nat.
Proof.
  intros I1 Q1. unfold count. assert (X : In (k, x) (filter (fun e => Q (snd e)) l)) by (apply filter_In; auto).
  destruct (filter (fun e => Q (snd e)) l); [destruct X|cbn; lia].
Qed.
Lemma count_two Q (l : list (skey * sel)) k1 x1 k2 x2 : In (k1, x1) l -> In (k2, x2) l -> Q x1 = true -> Q x2 = true -> k1 <> k2 -> (2 <= count Q l)%nat.
Proof.
  intros I1 I2 Q1 Q2 N. unfold count. change 2%nat with (length [(k1, x1); (k2, x2)]). apply NoDup_incl_length.
  - constructor; [intros [E|[]]; congruence|]. constructor; [intros []|constructor].
  - intros y [<-|[<-|[]]]; apply filter_In; auto.
Qed.
Lemma count_more Q (l : list (skey * sel)) : NoDup (map fst l) -> (2 <= count Q l)%nat ->
  exists k1 x1 k2 x2, In (k1, x1) l /\ In (k2, x2) l /\ Q x1 = true /\ Q x2 = true /\ k1 <> k2.
Proof.
  intros N C. unfold count in C. assert (NF := filter_keys (fun e => Q (snd e)) l N).
  assert (X := fun y => proj1 (filter_In (fun e : skey * sel => Q (snd e)) y l)).
  destruct (filter (fun e => Q (snd e)) l) as [|[k1 x1] [|[k2 x2] r]]; cbn [length] in C; [lia|lia|].
  exists k1, x1, k2, x2. destruct (X (k1, x1)) as [A1 A2]; [left; reflexivity|]. destruct (X (k2, x2)) as [B1 B2]; [right; left; reflexivity|].
  repeat split; try assumption. intros ->. cbn in NF. inversion NF as [|? ? NI _]; subst. apply NI. left. reflexivity.
Qed.
Lemma insert_perm x l : Permutation (insert_sel x l) (x :: l).
Proof. induction l as [|y l IH]; cbn; [reflexivity|]. destruct (skey_ltb (fst y) (fst x)); [|reflexivity]. rewrite IH. apply perm_swap. Qed.
Lemma sort_perm l : Permutation (sort_sel l) l.
Proof. induction l as [|x l IH]; cbn; [reflexivity|]. rewrite insert_perm, IH. reflexivity. Qed.
Definition key_lt (a b : skey * sel) : Prop := skey_ltb (fst a) (fst b) = true.
Lemma insert_sorted x l : StronglySorted key_lt l -> ~ In (fst x) (map fst l) -> StronglySorted key_lt (insert_sel x l).
Proof.
  induction 1 as [|y l SS IH F]; intros N; cbn; [repeat constructor|].
  assert (TR : forall u v w : skey * sel, key_lt u v -> key_lt v w -> key_lt u w) by (unfold key_lt; intros u v w; rewrite !skey_ltb_iff; lia).
  destruct (skey_ltb (fst y) (fst x)) eqn:L.
  - constructor; [apply IH; intros I1; apply N; right; exact I1|]. rewrite Forall_forall in *. intros z I1. apply (Permutation_in _ (insert_perm x l)) in I1 as [<-|I1]; [exact L|apply F, I1].
  - assert (LX : key_lt x y).
    { unfold key_lt. apply skey_ltb_iff. assert (~ (fst (fst y) < fst (fst x) \/ fst (fst y) = fst (fst x) /\ snd (fst y) < snd (fst x))%nat) by (rewrite <- skey_ltb_iff; congruence).
      assert (fst x <> fst y) as NE by (intros E; apply N; left; symmetry; exact E). destruct (fst x) as [a b], (fst y) as [c d]. cbn in *. assert (~ (a = c /\ b = d)) by (intros [-> ->]; congruence). lia. }
    constructor; [constructor; assumption|]. constructor; [exact LX|]. rewrite Forall_forall in *. intros z I1. eapply TR; [exact LX|apply F, I1].
Qed.
Lemma sort_sorted l : NoDup (map fst l) -> StronglySorted key_lt (sort_sel l).
Proof.
  induction l as [|x l IH]; cbn [map sort_sel fold_right]; intros N; [constructor|]. inversion N as [|? ? NI ND]; subst. apply insert_sorted; [apply IH, ND|].
  intros I1. apply NI. apply (Permutation_in _ (Permutation_map fst (sort_perm l))), I1.
Qed.

(** ** The selection *)
Definition good (j : nat) (l : list sel) : Prop :=
  (forall s, In s l -> exists tg, mcand j (se_field s) tg (se_omit s) /\ se_tag s = tg && (length (spath s) =? 1)%nat) /\
  StronglySorted (fun a b => before (spath a) (spath b)) l /\
  (forall s1 s2, In s1 l -> In s2 l -> sname s1 = sname s2 -> spath s1 <> spath s2 -> length (spath s1) = 1%nat /\ length (spath s2) = 1%nat) /\
  (forall k s, own_entry j k s -> In s l).
Definition own_good (j : nat) (l : list sel) : Prop := l = [] \/ good j l.

Section Select.
Context (i : nat) (sub : nat -> list sel) (d e : list (skey * sel)).
Context (HD : forall key x, In (key, x) d <-> own_entry i key x) (HE : forall key x, In (key, x) e <-> emb_entry i sub key x)
        (ND : NoDup (map fst d)) (NE : NoDup (map fst e)).
Context (HG : forall m f j ptr un, nth_error (decls i) m = Some f -> plan_of f = PEmbed j ptr un -> own_good j (sub m)).

Lemma sel_in s : In s (select d e) <-> (exists key, own_entry i key s) \/ (exists key s0, emb_entry i sub key s0 /\ ambiguous d e s0 = false /\ s = untag s0).
Proof.
  unfold select. rewrite in_map_iff. split.
  - intros ([key x] & E & I1). cbn in E. subst x. apply (Permutation_in _ (sort_perm _)) in I1. apply in_app_or in I1 as [I1|I1].
    + left. exists key. apply HD, I1.
    + right. apply in_map_iff in I1 as ([key' s0] & E & I1). cbn in E. injection E as -> <-. apply filter_In in I1 as [I1 A]. cbn in A. apply negb_true_iff in A.
      exists key, s0. split; [apply HE, I1|]. auto.
  - intros [[key O]|(key & s0 & EM & A & ->)].
    + exists (key, s). split; [reflexivity|]. apply (Permutation_in _ (Permutation_sym (sort_perm _))). apply in_or_app. left. apply HD, O.
    + exists (key, untag s0). split; [reflexivity|]. apply (Permutation_in _ (Permutation_sym (sort_perm _))). apply in_or_app. right.
      apply in_map_iff. exists (key, s0). split; [reflexivity|]. apply filter_In. split; [apply HE, EM|]. cbn. rewrite A. reflexivity.
Qed.

Lemma has_name_iff n : has_name n d = true <-> exists key s, own_entry i key s /\ sname s = n.
Proof.
  unfold has_name. rewrite existsb_exists. split.
  - intros ([key s] & I1 & E). apply beqb_eq in E. exists key, s. split; [apply HD, I1|exact E].
  - intros (key & s & O & E). exists (key, s). split; [apply HD, O|]. apply beqb_eq, E.
Qed.
Lemma own_path key s : own_entry i key s -> spath s = [PIn (fst key)].
Proof. intros (f & n & tg & om & q & _ & _ & _ & ->). reflexivity. Qed.
Lemma emb_path key s : emb_entry i sub key s -> exists j ptr un s0, spath s = via (fst key) j ptr un :: spath s0 /\ nth_error (sub (fst key)) (snd key) = Some s0 /\ own_good j (sub (fst key)) /\ sname s = sname s0 /\ se_tag s = se_tag s0.
Proof. intros (f & j & ptr & un & s0 & N & P & M & ->). exists j, ptr, un, s0. repeat split; try assumption. eapply HG; eassumption. Qed.
Lemma own_emb key s key' s' : own_entry i key s -> emb_entry i sub key' s' -> fst key <> fst key'.
Proof. intros (f & n & tg & om & q & N & P & _) (f' & j & ptr & un & s0 & N' & P' & _) E. rewrite E in N. congruence. Qed.

(** What stays of two entries of one name. *)
Lemma kept_own key s key' s' : own_entry i key s -> emb_entry i sub key' s' -> sname s = sname s' -> ambiguous d e s' = true.
Proof.
  intros O EM E. unfold ambiguous, name_count, tag_count. assert (HN : has_name (sname s') d = true) by (apply has_name_iff; eauto).
  rewrite HN. cbn [b2n]. assert (I1 := proj2 (HE _ _) EM).
  assert (C := count_in (fun s => beqb (sname s) (sname s')) e _ _ I1 (proj2 (beqb_eq _ _) eq_refl)).
  apply andb_true_iff. split; [apply Nat.ltb_lt; lia|]. destruct (se_tag s') eqn:T; [|reflexivity]. cbn [negb orb]. apply negb_true_iff, Nat.eqb_neq.
  assert (C' := count_in (fun s => beqb (sname s) (sname s') && se_tag s) e _ _ I1). cbn beta in C'. rewrite T, (proj2 (beqb_eq _ _) eq_refl) in C'. specialize (C' eq_refl). lia.
Qed.
Lemma kept_emb key s key' s' : emb_entry i sub key s -> emb_entry i sub key' s' -> key <> key' -> sname s = sname s' -> ambiguous d e s = false ->
  se_tag s = true /\ se_tag s' = false.
Proof.
  intros E1 E2 NK EN A. assert (I1 := proj2 (HE _ _) E1). assert (I2 := proj2 (HE _ _) E2).
  unfold ambiguous in A. assert (C := count_two (fun x => beqb (sname x) (sname s)) e _ _ _ _ I1 I2 (proj2 (beqb_eq _ _) eq_refl) (proj2 (beqb_eq _ _) (eq_sym EN)) NK).
  assert (L : (1 <? name_count d e (sname s))%nat = true) by (apply Nat.ltb_lt; unfold name_count; lia). rewrite L in A. cbn [andb] in A.
  apply orb_false_iff in A as [A1 A2]. apply negb_false_iff in A1, A2. split; [exact A1|]. apply Nat.eqb_eq in A2.
  destruct (se_tag s') eqn:T; [|reflexivity]. exfalso.
  assert (C' := count_two (fun x => beqb (sname x) (sname s) && se_tag x) e _ _ _ _ I1 I2). cbn beta in C'. rewrite A1, T, <- EN, (proj2 (beqb_eq _ _) eq_refl) in C'.
  specialize (C' eq_refl eq_refl NK). unfold tag_count in A2. lia.
Qed.

Lemma before_neq p q : before p q -> p <> q.
Proof. induction 1 as [a b p q L|a b p q E B IH]; intros X; injection X as -> ->; [lia|exact (IH eq_refl)]. Qed.
Lemma sorted_nth {A} (R : A -> A -> Prop) l : StronglySorted R l -> forall a b x y, (a < b)%nat -> nth_error l a = Some x -> nth_error l b = Some y -> R x y.
Proof.
  induction 1 as [|z l SS IH F]; intros a b x y L E1 E2; [destruct a; discriminate|]. destruct b as [|b]; [lia|]. destruct a as [|a]; cbn in *.
  - injection E1 as ->. rewrite Forall_forall in F. apply F. eapply nth_error_In; eassumption.
  - eapply IH; [|eassumption|eassumption]. lia.
Qed.
Lemma sorted_imp {A} (R S : A -> A -> Prop) l : (forall x y, In x l -> In y l -> R x y -> S x y) -> StronglySorted R l -> StronglySorted S l.
Proof.
  intros H SS. induction SS as [|x l SS IH F]; constructor; [apply IH; intros y z Iy Iz; apply H; right; assumption|].
  rewrite Forall_forall in *. intros y Iy. apply H; [left; reflexivity|right; exact Iy|apply F, Iy].
Qed.
Lemma sorted_map {A B} (g : A -> B) (R : B -> B -> Prop) l : StronglySorted (fun x y => R (g x) (g y)) l -> StronglySorted R (map g l).
Proof. induction 1 as [|x l SS IH F]; cbn; constructor; [exact IH|]. rewrite Forall_forall in *. intros y I1. apply in_map_iff in I1 as (z & <- & I1). apply F, I1. Qed.

Lemma select_good : good i (select d e).
Proof.
  assert (MC : forall key s, emb_entry i sub key s -> exists tg, mcand i (se_field s) tg (se_omit s) /\ (2 <= length (spath s))%nat).
  { intros key s (f & j & ptr & un & s0 & N & P & M & ->). destruct (HG _ _ _ _ _ N P) as [E0|GG]; [rewrite E0 in M; destruct (snd key); discriminate|].
    destruct (proj1 GG s0) as (tg & MC & _); [eapply nth_error_In; eassumption|]. exists tg. split.
    - unfold push. cbn [se_field se_omit]. eapply mc_prom; eassumption.
    - cbn. apply mcand_nonnil in MC. destruct (spath s0); [congruence|cbn; lia]. }
  split; [|split; [|split]].
  - intros s I1. apply sel_in in I1 as [[key O]|(key & s0 & EM & A & ->)].
    + destruct O as (f & n & tg & om & q & N & P & _ & ->). exists tg. cbn. split; [eapply mc_own; eassumption|]. rewrite andb_true_r. reflexivity.
    + destruct (MC _ _ EM) as (tg & M & L). exists tg. cbn. split; [exact M|]. destruct (Nat.eqb_spec (length (spath s0)) 1); [lia|]. rewrite andb_false_r. reflexivity.
  - unfold select. apply sorted_map. 
    set (l := d ++ map (fun x => (fst x, untag (snd x))) (filter (fun x => negb (ambiguous d e (snd x))) e)).
    assert (LE : forall key x, In (key, x) l -> own_entry i key x \/ exists x0, emb_entry i sub key x0 /\ x = untag x0).
    { intros key x I1. apply in_app_or in I1 as [I1|I1]; [left; apply HD, I1|]. right. apply in_map_iff in I1 as ([k' x0] & E & I1). cbn in E. injection E as -> <-.
      apply filter_In in I1 as [I1 _]. exists x0. split; [apply HE, I1|reflexivity]. }
    assert (NL : NoDup (map fst l)).
    { unfold l. rewrite map_app, map_map. cbn [fst]. apply NoDup_app_own; [exact ND| |].
      - apply filter_keys, NE.
      - intros key I1 I2. apply in_map_iff in I1 as ([k1 x1] & E1 & I1). apply in_map_iff in I2 as ([k2 x2] & E2 & I2). cbn in E1, E2. subst k1 k2.
        apply filter_In in I2 as [I2 _]. apply HD in I1. apply HE in I2. exact (own_emb _ _ _ _ I1 I2 eq_refl). }
    apply (sorted_imp key_lt); [|apply sort_sorted, NL].
    intros [k1 x1] [k2 x2] I1 I2 KL. apply (Permutation_in _ (sort_perm _)) in I1, I2. unfold key_lt in KL. cbn [fst snd] in *. apply skey_ltb_iff in KL.
    apply LE in I1, I2.
    assert (HP : forall k x, own_entry i k x \/ (exists x0, emb_entry i sub k x0 /\ x = untag x0) -> exists a r, spath x = a :: r /\ idx a = fst k).
    { intros k x [O|(x0 & EM & ->)]; [exists (PIn (fst k)), []; split; [apply own_path, O|reflexivity]|].
      destruct (emb_path _ _ EM) as (j & ptr & un & s0 & E & _). exists (via (fst k) j ptr un), (spath s0). split; [exact E|apply via_idx]. }
    destruct KL as [KL|[KE KL]].
    + destruct (HP _ _ I1) as (a & r & E1 & A1). destruct (HP _ _ I2) as (b & r' & E2 & A2). rewrite E1, E2. apply bf_here. lia.
    + destruct I1 as [O1|(y1 & M1 & ->)], I2 as [O2|(y2 & M2 & ->)].
      * destruct O1 as (? & ? & ? & ? & ? & _ & _ & Z1 & _), O2 as (? & ? & ? & ? & ? & _ & _ & Z2 & _). lia.
      * destruct (own_emb _ _ _ _ O1 M2 KE).
      * destruct (own_emb _ _ _ _ O2 M1 (eq_sym KE)).
      * destruct (emb_path _ _ M1) as (j1 & p1 & u1 & s1 & E1 & N1 & G1 & _). destruct (emb_path _ _ M2) as (j2 & p2 & u2 & s2 & E2 & N2 & G2 & _).
        cbn [untag se_field]. rewrite E1, E2. apply bf_next; [rewrite !via_idx; exact KE|]. rewrite <- KE in N2.
        destruct G1 as [G1|G1]; [rewrite G1 in N1; destruct (snd k1); discriminate|]. eapply (sorted_nth _ _ (proj1 (proj2 G1))); eassumption.
  - intros s1 s2 I1 I2 EN NP. apply sel_in in I1, I2. destruct I1 as [[k1 O1]|(k1 & x1 & M1 & A1 & ->)], I2 as [[k2 O2]|(k2 & x2 & M2 & A2 & ->)].
    + rewrite (own_path _ _ O1), (own_path _ _ O2). split; reflexivity.
    + rewrite (kept_own _ _ _ _ O1 M2 EN) in A2. discriminate.
    + rewrite (kept_own _ _ _ _ O2 M1 (eq_sym EN)) in A1. discriminate.
    + assert (NK : k1 <> k2).
      { intros ->. apply NP. assert (X := proj2 (HE _ _) M1). assert (Y := proj2 (HE _ _) M2). cbn [untag se_field].
        destruct M1 as (f & j & ptr & un & s0 & N & P & M & ->), M2 as (f' & j' & ptr' & un' & s0' & N' & P' & M' & ->). congruence. }
      destruct (kept_emb _ _ _ _ M1 M2 NK EN A1) as [_ T2]. destruct (kept_emb _ _ _ _ M2 M1 (not_eq_sym NK) (eq_sym EN) A2) as [T2' _]. congruence.
  - intros k s O. apply sel_in. left. exists k. exact O.
Qed.
End Select.
End Sel.
