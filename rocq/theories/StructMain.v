(** The JSON fields of all struct types of a program: soundness for every
    declaration, and agreement with the rules of encoding/json. *)
From Coq Require Import Sorting.Sorted Sorting.Permutation.
From Verif Require Import Bytes Utf8Model IntModel EncModel DecModel TypeModel DecFacts SpecFit SpecField StructModel SpecStruct TypeFacts TypeMain StructFacts StructSel.

Section Main.
Context (letter : Z -> bool) (decls : nat -> list sfield).
Local Notation plan_of := (plan_of letter).
Local Notation walk := (walk letter).
Local Notation build := (build letter decls).
Local Notation cand := (cand letter decls).
Local Notation mcand := (mcand letter decls).
Local Notation dominant := (dominant letter decls).
Local Notation own_entry := (own_entry letter decls).
Local Notation emb_entry := (emb_entry letter decls).
Local Notation good := (good letter decls).
Local Notation own_good := (own_good letter decls).
Notation spath s := (jf_path (se_field s)).
Notation sname s := (jf_name (se_field s)).

(** ** The construction *)
Lemma build_flat n t s : build n t s = match mentions t with [] => Some s | i :: _ => build n (YStruct i) s end.
Proof. induction t; try (destruct n; reflexivity); destruct n; cbn [mentions] in *; (etransitivity; [|exact IHt]); reflexivity. Qed.
Lemma build_at n i s : build n (YStruct i) s = match n with O => None | S n' => build_struct letter decls (build n') i s end.
Proof. destruct n; reflexivity. Qed.
Lemma mentions_one t i j : In i (mentions t) -> In j (mentions t) -> i = j.
Proof. induction t; cbn; try tauto. intros [<-|[]] [<-|[]]. reflexivity. Qed.

Lemma look_put i l s j : look j (put i l s) = if (i =? j)%nat then Some l else look j s.
Proof.
  induction s as [|[k x] s IH]; cbn; [reflexivity|]. destruct (Nat.eqb_spec k i) as [->|NE]; cbn.
  - destruct (i =? j)%nat; reflexivity.
  - rewrite IH. destruct (Nat.eqb_spec k j) as [->|]; [|reflexivity]. destruct (Nat.eqb_spec i j) as [->|]; [congruence|reflexivity].
Qed.
Lemma look_cons i l s j : look j ((i, l) :: s) = if (i =? j)%nat then Some l else look j s.
Proof. reflexivity. Qed.
Lemma plan_mentions f j ptr un : plan_of f = PEmbed j ptr un -> mentions (sf_ty f) = [j].
Proof.
  unfold StructModel.plan_of. destruct (negb (sf_exported f) && negb (sf_anon f)); [discriminate|]. cbv zeta. destruct (beqb _ _ && _); [discriminate|].
  destruct (sf_anon f && _); [|discriminate]. destruct (struct_kind (sf_ty f)) as [[j' ptr']|] eqn:K; [|destruct (negb (sf_exported f)); discriminate].
  intros E. injection E as <- <- <-. apply struct_kind_iff in K. destruct K; reflexivity.
Qed.

(** Every struct type that is met gets an entry. *)
Definition closed_at (j : nat) (s : seen) : Prop := forall f m, In f (decls j) -> plan_of f <> PSkip -> In m (mentions (sf_ty f)) -> look m s <> None.
Definition grows (s s' : seen) : Prop := (forall j, look j s <> None -> look j s' <> None).
Lemma closed_grows j s s' : grows s s' -> closed_at j s -> closed_at j s'.
Proof. intros G C f m F P M. apply G, (C f m F P M). Qed.
Lemma build_dom n : forall t s s', build n t s = Some s' ->
  grows s s' /\ (forall j, In j (mentions t) -> look j s' <> None) /\ (forall j, look j s' <> None -> look j s <> None \/ closed_at j s').
Proof.
  induction n as [|n IH]; intros t s s' B; rewrite build_flat in B.
  - destruct (mentions t) as [|i r] eqn:M; [injection B as <-; split; [intros j; auto|]; split; [intros j []|auto]|]. discriminate.
  - destruct (mentions t) as [|i r] eqn:M; [injection B as <-; split; [intros j; auto|]; split; [intros j []|auto]|].
    assert (ML : forall j, In j (i :: r) -> j = i) by (intros j J; apply (mentions_one t); rewrite M; [exact J|left; reflexivity]).
    rewrite build_at in B. unfold build_struct in B. destruct (look i s) as [l|] eqn:L.
    + injection B as <-. split; [intros j; auto|]. split; [intros j J; rewrite (ML j J), L; discriminate|auto].
    + destruct (walk (build n) (decls i) 0 ((i, []) :: s)) as [[[s1 d] e]|] eqn:W; [|discriminate]. injection B as <-.
      assert (WD : forall fs k s s1 d e, walk (build n) fs k s = Some (s1, d, e) ->
        grows s s1 /\ (forall f m, In f fs -> plan_of f <> PSkip -> In m (mentions (sf_ty f)) -> look m s1 <> None) /\
        (forall j, look j s1 <> None -> look j s <> None \/ closed_at j s1)).
      { clear - IH. induction fs as [|f fs IHf]; intros k s s1 d e W; cbn [StructModel.walk] in W.
        - injection W as <- <- <-. split; [intros j; auto|]. split; [intros f m []|auto].
        - destruct (plan_of f) as [|j ptr un|nm tg om q] eqn:P.
          + destruct (IHf _ _ _ _ _ W) as (A & B & C). split; [exact A|]. split; [|exact C]. intros g m [<-|I1] Q; [contradiction|]. apply B; assumption.
          + destruct (build n (YStruct j) s) as [s2|] eqn:B2; [|discriminate]. destruct (walk (build n) fs (S k) s2) as [[[s3 d1] e1]|] eqn:W1; [|discriminate]. injection W as <- <- <-.
            destruct (IH _ _ _ B2) as (A1 & A2 & A3). destruct (IHf _ _ _ _ _ W1) as (B1 & BB & B3). split; [intros m Hm; apply B1, A1, Hm|]. split.
            * intros g m [<-|I1] Q Hm; [rewrite (plan_mentions _ _ _ _ P) in Hm; apply B1, A2; exact Hm|]. eapply BB; eassumption.
            * intros m Hm. destruct (B3 m Hm) as [X|X]; [|right; exact X]. destruct (A3 m X) as [Y|Y]; [left; exact Y|right; eapply closed_grows; eassumption].
          + destruct (build n (sf_ty f) s) as [s2|] eqn:B2; [|discriminate]. destruct (walk (build n) fs (S k) s2) as [[[s3 d1] e1]|] eqn:W1; [|discriminate]. injection W as <- <- <-.
            destruct (IH _ _ _ B2) as (A1 & A2 & A3). destruct (IHf _ _ _ _ _ W1) as (B1 & BB & B3). split; [intros m Hm; apply B1, A1, Hm|]. split.
            * intros g m [<-|I1] Q Hm; [apply B1, A2; exact Hm|]. eapply BB; eassumption.
            * intros m Hm. destruct (B3 m Hm) as [X|X]; [|right; exact X]. destruct (A3 m X) as [Y|Y]; [left; exact Y|right; eapply closed_grows; eassumption]. }
      destruct (WD _ _ _ _ _ _ W) as (A & B & C).
      assert (G1 : grows s1 (put i (select d e) s1)) by (intros j J; rewrite look_put; destruct (i =? j)%nat; [discriminate|exact J]).
      assert (L1 : look i s1 <> None) by (apply A; rewrite look_cons, Nat.eqb_refl; discriminate).
      split; [|split].
      * intros j J. apply G1, A. rewrite look_cons. destruct (i =? j)%nat; [discriminate|exact J].
      * intros j J. rewrite (ML j J). apply G1, L1.
      * intros j J. destruct (Nat.eq_dec i j) as [<-|NE].
        -- right. intros f m F P Hm. apply G1. eapply B; eassumption.
        -- rewrite look_put in J. destruct (Nat.eqb_spec i j); [congruence|]. destruct (C j J) as [X|X]; [|right; eapply closed_grows; eassumption].
           left. rewrite look_cons in X. destruct (Nat.eqb_spec i j); [congruence|exact X].
Qed.

(** Soundness of all entries, whatever the declarations.  [P]: the struct types
    being computed. *)
Lemma build_good n : forall P t s s', build n t s = Some s' ->
  (forall j l, look j s = Some l -> In j P /\ l = [] \/ good j l) -> forall j l, look j s' = Some l -> In j P /\ l = [] \/ good j l.
Proof.
  induction n as [|n IH]; intros P t s s' B OK; rewrite build_flat in B; (destruct (mentions t) as [|i r]; [injection B as <-; exact OK|]); [discriminate|].
  rewrite build_at in B. unfold build_struct in B. destruct (look i s) as [l|] eqn:L; [injection B as <-; exact OK|].
  destruct (walk (build n) (decls i) 0 ((i, []) :: s)) as [[[s1 d] e]|] eqn:W; [|discriminate]. injection B as <-.
  destruct (walk_spec letter decls (build n) (fun s => forall j l, look j s = Some l -> In j (i :: P) /\ l = [] \/ good j l) own_good i (decls i) 0 ((i, []) :: s) s1 d e eq_refl) as (OK1 & sub & HG & HD & HE & ND & NE).
  - intros f nm tg om q s2 s3 _ _ B2 OK2. eapply IH; eassumption.
  - intros f j ptr un s2 s3 _ _ B2 OK2. assert (OK3 := IH _ _ _ _ B2 OK2). split; [exact OK3|]. unfold sub_of. destruct (look j s3) eqn:E; [|left; reflexivity]. destruct (OK3 _ _ E) as [[_ X]|X]; [left|right]; exact X.
  - intros j l. rewrite look_cons. destruct (Nat.eqb_spec i j) as [<-|]; [intros E; injection E as <-; left; split; [left|]; reflexivity|].
    intros E. destruct (OK _ _ E) as [[X Y]|X]; [left; split; [right|]; assumption|right; exact X].
  - exact W.
  - intros j l. rewrite look_put. destruct (Nat.eqb_spec i j) as [<-|NJ].
    + intros E. injection E as <-. right. apply (select_good letter decls i sub d e); try assumption.
      * intros key x. rewrite HD. split; [intros [_ X]; exact X|intros X; split; [lia|exact X]].
      * intros key x. rewrite HE. split; [intros [_ X]; exact X|intros X; split; [lia|exact X]].
      * intros m f j ptr un N Q. apply (HG m f j ptr un); try assumption. lia.
    + intros E. destruct (OK1 _ _ E) as [[[X|X] Y]|X]; [congruence|left; auto|right; exact X].
Qed.
Lemma flds_good n root i : flds_of letter decls n root i = [] \/ good i (flds_of letter decls n root i).
Proof.
  unfold flds_of. destruct (build n root []) as [s|] eqn:B; [|left; reflexivity]. destruct (look i s) as [l|] eqn:L; [|left; reflexivity].
  destruct (build_good _ [] _ _ _ B) with (j := i) (l := l) as [[[] _]|G]; [discriminate|exact L|right; exact G].
Qed.
Lemma flds_in n root i s : In s (flds_of letter decls n root i) -> good i (flds_of letter decls n root i).
Proof. intros I1. destruct (flds_good n root i) as [E|G]; [rewrite E in I1; destruct I1|exact G]. Qed.

(** ** Enough fuel *)
Definition unseen (N : nat) (s : seen) : nat := length (filter (fun j => match look j s with None => true | Some _ => false end) (seq 0 N)).
Lemma filter_le {A} (P Q : A -> bool) l : (forall x, In x l -> P x = true -> Q x = true) -> (length (filter P l) <= length (filter Q l))%nat.
Proof.
  induction l as [|x l IH]; intros H; cbn; [lia|]. assert (X := H x (or_introl eq_refl)). specialize (IH (fun y I1 => H y (or_intror I1))).
  destruct (P x); [rewrite (X eq_refl); cbn; lia|destruct (Q x); cbn; lia].
Qed.
Lemma filter_lt {A} (P Q : A -> bool) l a : (forall x, In x l -> P x = true -> Q x = true) -> In a l -> P a = false -> Q a = true -> (length (filter P l) < length (filter Q l))%nat.
Proof.
  induction l as [|x l IH]; intros H I1 PA QA; [destruct I1|]. assert (X := H x (or_introl eq_refl)). assert (Y := fun y I2 => H y (or_intror I2)). cbn. destruct I1 as [->|I1].
  - rewrite PA, QA. cbn. assert (Z := filter_le P Q l Y). lia.
  - specialize (IH Y I1 PA QA). destruct (P x); [rewrite (X eq_refl); cbn; lia|destruct (Q x); cbn; lia].
Qed.
Lemma unseen_grows N s s' : grows s s' -> (unseen N s' <= unseen N s)%nat.
Proof. intros G. apply filter_le. intros j _. specialize (G j). destruct (look j s), (look j s'); auto; intros _. destruct G; [discriminate|reflexivity]. Qed.
Lemma build_total N : (forall i f j, In f (decls i) -> In j (mentions (sf_ty f)) -> (j < N)%nat) ->
  forall n t s, (forall j, In j (mentions t) -> (j < N)%nat) -> (unseen N s < n)%nat -> build n t s <> None.
Proof.
  intros CL. induction n as [|n IH]; intros t s MT U; [lia|]; rewrite build_flat; (destruct (mentions t) as [|i r] eqn:M; [discriminate|]); rewrite build_at.
  unfold build_struct. destruct (look i s) as [l|] eqn:L; [discriminate|].
  assert (IN : (i < N)%nat) by (apply MT; left; reflexivity).
  assert (U1 : (unseen N ((i, []) :: s) < n)%nat).
  { assert (X : (unseen N ((i, []) :: s) < unseen N s)%nat); [|lia]. apply (filter_lt _ _ _ i).
    - intros j _. rewrite look_cons. destruct (i =? j)%nat; [discriminate|auto].
    - apply in_seq. lia.
    - rewrite look_cons, Nat.eqb_refl. reflexivity.
    - rewrite L. reflexivity. }
  assert (WT : forall fs k s, incl fs (decls i) -> (unseen N s < n)%nat -> walk (build n) fs k s <> None).
  { induction fs as [|f fs IHf]; intros k s2 INC U2; cbn [StructModel.walk]; [discriminate|].
    assert (INC' : incl fs (decls i)) by (intros x X; apply INC; right; exact X).
    assert (IF : In f (decls i)) by (apply INC; left; reflexivity).
    destruct (plan_of f) as [|j ptr un|nm tg om q] eqn:P; [apply IHf; assumption| |].
    - destruct (build n (YStruct j) s2) as [s3|] eqn:B.
      + assert (X := IHf (S k) s3 INC' (Nat.le_lt_trans _ _ _ (unseen_grows N s2 s3 (proj1 (build_dom _ _ _ _ B))) U2)). destruct (walk (build n) fs (S k) s3) as [[[? ?] ?]|]; [discriminate|contradiction].
      + exfalso. revert B. apply IH; [|exact U2]. intros m [<-|[]]. apply (CL i f j IF). rewrite (plan_mentions _ _ _ _ P). left. reflexivity.
    - destruct (build n (sf_ty f) s2) as [s3|] eqn:B.
      + assert (X := IHf (S k) s3 INC' (Nat.le_lt_trans _ _ _ (unseen_grows N s2 s3 (proj1 (build_dom _ _ _ _ B))) U2)). destruct (walk (build n) fs (S k) s3) as [[[? ?] ?]|]; [discriminate|contradiction].
      + exfalso. revert B. apply IH; [|exact U2]. intros m Hm. apply (CL i f m IF Hm). }
  assert (X := WT (decls i) O ((i, []) :: s) (incl_refl _) U1). destruct (walk (build n) (decls i) 0 ((i, []) :: s)) as [[[? ?] ?]|]; [discriminate|contradiction].
Qed.

(** ** Agreement with the rules *)
Context (PT : plain_tags letter decls) (CN : clear_names letter decls).

Lemma cand_iff i f tg om : mcand i f tg om <-> cand i f tg om.
Proof.
  split.
  - induction 1 as [i k f n tg om q N P|i k f j ptr un g tg om N P M IH].
    + eapply cd_own; [exact N|]. apply plan_field; [exact (PT i f (nth_error_In _ _ N))|exact P].
    + unfold via. eapply cd_promoted; [exact N|apply plan_embed; [exact (PT i f (nth_error_In _ _ N))|exact P]|]. rewrite jfield_eta. exact IH.
  - induction 1 as [i k f n tg om q N P|i k f j ptr un n p t q tg om N P M IH].
    + eapply mc_own; [exact N|]. apply plan_field; [exact (PT i f (nth_error_In _ _ N))|exact P].
    + apply (mc_prom letter decls i k f j ptr un (JField n p t q) tg om N); [apply plan_embed; [exact (PT i f (nth_error_In _ _ N))|exact P]|exact IH].
Qed.

Definition exact (j : nat) (l : list sel) : Prop := good j l /\ forall f om, (exists tg, In (Sel f tg om) l) <-> dominant j f om.

Section Exact.
Context (i : nat) (sub : nat -> list sel) (d e : list (skey * sel)).
Context (HD : forall key x, In (key, x) d <-> own_entry i key x) (HE : forall key x, In (key, x) e <-> emb_entry i sub key x)
        (ND : NoDup (map fst d)) (NE : NoDup (map fst e)).
Context (HX : forall m f j ptr un, nth_error (decls i) m = Some f -> plan_of f = PEmbed j ptr un -> exact j (sub m)).

Lemma HG' m f j ptr un : nth_error (decls i) m = Some f -> plan_of f = PEmbed j ptr un -> own_good j (sub m).
Proof. intros N P. right. exact (proj1 (HX _ _ _ _ _ N P)). Qed.

Lemma mcand_cases f tg om : mcand i f tg om ->
  (exists key, own_entry i key (Sel f tg om)) \/
  (exists k h j ptr un g, nth_error (decls i) k = Some h /\ plan_of h = PEmbed j ptr un /\ mcand j g tg om /\
     f = JField (jf_name g) (via k j ptr un :: jf_path g) (jf_ty g) (jf_quot g)).
Proof.
  inversion 1 as [i' k h n tg' om' q N P|i' k h j ptr un g tg' om' N P M]; subst.
  - left. exists (k, O). exists h, n, tg, om, q. auto.
  - right. exists k, h, j, ptr, un, g. auto.
Qed.
Lemma own_mcand key s : own_entry i key s -> mcand i (se_field s) (se_tag s) (se_omit s) /\ spath s = [PIn (fst key)].
Proof. intros (f & n & tg & om & q & N & P & _ & ->). split; [eapply mc_own; eassumption|reflexivity]. Qed.
Lemma emb_mcand key s : emb_entry i sub key s ->
  exists f j ptr un s0 tg, nth_error (decls i) (fst key) = Some f /\ plan_of f = PEmbed j ptr un /\ nth_error (sub (fst key)) (snd key) = Some s0 /\
    s = push (via (fst key) j ptr un) s0 /\ mcand i (se_field s) tg (se_omit s) /\ mcand j (se_field s0) tg (se_omit s0) /\ se_tag s0 = tg && (length (spath s0) =? 1)%nat /\
    dominant j (se_field s0) (se_omit s0) /\ (2 <= length (spath s))%nat.
Proof.
  intros (f & j & ptr & un & s0 & N & P & M & ->). assert (IN := nth_error_In _ _ M). destruct (HX _ _ _ _ _ N P) as [GG EX].
  destruct (proj1 GG s0 IN) as (tg & MC & T). exists f, j, ptr, un, s0, tg. split; [exact N|]. split; [exact P|]. split; [exact M|]. split; [reflexivity|].
  split; [eapply mc_prom; eassumption|]. split; [exact MC|]. split; [exact T|]. split.
  - apply EX. exists (se_tag s0). destruct s0; exact IN.
  - cbn. apply mcand_nonnil in MC. destruct (spath s0); [congruence|cbn; lia].
Qed.

Lemma clear f g tf tg om om' : mcand i f tf om -> mcand i g tg om' -> jf_name f = jf_name g -> hd_error (map idx (jf_path f)) <> hd_error (map idx (jf_path g)) ->
  (depth f = 1 /\ depth g > 1 \/ depth g = 1 /\ depth f > 1 \/ depth f = 2 /\ depth g = 2)%nat.
Proof. intros A B. apply cand_iff in A, B. eapply CN; eassumption. Qed.

(** An own field dominates. *)
Lemma own_dominant key s : own_entry i key s -> dominant i (se_field s) (se_omit s).
Proof.
  intros O. destruct (own_mcand _ _ O) as [MC PA]. exists (se_tag s). split; [apply cand_iff, MC|]. intros g tg om CG EN NP. apply cand_iff in CG. left.
  assert (DS : depth (se_field s) = 1%nat) by (unfold depth; rewrite PA; reflexivity).
  destruct (mcand_cases _ _ _ CG) as [[key' O']|(k & h & j & ptr & un & g' & N & P & M & ->)].
  - destruct (own_mcand _ _ O') as [_ PA']. cbn [se_field] in PA'.
    destruct (Nat.eq_dec (fst key) (fst key')) as [E|NK]; [rewrite PA, PA', E in NP; congruence|].
    destruct (clear _ _ _ _ _ _ MC CG (eq_sym EN)); [rewrite PA, PA'; cbn; congruence|lia|lia].
  - destruct (Nat.eq_dec (fst key) k) as [<-|NK]; [destruct O as (f & n & tg' & om' & q & N' & P' & _); congruence|].
    destruct (clear _ _ _ _ _ _ MC CG (eq_sym EN)) as [H|H]; [rewrite PA; cbn; rewrite via_idx; congruence|lia|lia].
Qed.

Lemma select_exact : exact i (select d e).
Proof.
  assert (GG : good i (select d e)) by (apply (select_good letter decls i sub d e); try assumption; exact HG').
  split; [exact GG|]. intros f om. split.
  - intros (tg & I1). apply (sel_in letter decls i sub d e HD HE) in I1 as [[key O]|(key & s & EM & A & E)]; [exact (own_dominant _ _ O)|].
    destruct (emb_mcand _ _ EM) as (h & j & ptr & un & s0 & tg0 & N & P & M & ES & MC & MC0 & T0 & DOM & LEN).
    unfold untag in E. injection E as -> -> ->. exists tg0. split; [apply cand_iff, MC|]. intros g tg' om' CG EN NP. apply cand_iff in CG.
    destruct (mcand_cases _ _ _ CG) as [[key' O']|(k & h' & j' & ptr' & un' & g' & N' & P' & M' & EG)].
    + exfalso. rewrite (kept_own letter decls i sub d e HD HE _ _ _ _ O' EM EN) in A. discriminate.
    + destruct (Nat.eq_dec (fst key) k) as [EK|NK].
      * subst k. rewrite N in N'. injection N' as <-. rewrite P in P'. injection P' as <- <- <-. subst s g. cbn [push se_field jf_path jf_name depth] in *.
        destruct DOM as (tt & CD & DD). apply cand_iff in CD. destruct (mcand_fun letter decls _ _ _ _ _ _ _ MC0 CD eq_refl) as (_ & <- & _).
        apply cand_iff in M'. destruct (DD _ _ _ M' EN) as [X|X]; [congruence| |]; unfold depth in *; cbn [push se_field jf_path length]; [left; lia|right; split; [lia|apply X]].
      * assert (HH : hd_error (map idx (spath s)) <> hd_error (map idx (jf_path g))) by (subst s g; cbn; rewrite !via_idx; congruence).
        assert (LG : (2 <= depth g)%nat) by (subst g; unfold depth; cbn; assert (NN := mcand_nonnil _ _ _ _ _ _ M'); destruct (jf_path g'); [congruence|cbn; lia]).
        destruct (clear _ _ _ _ _ _ MC CG (eq_sym EN) HH) as [X|[X|[X1 X2]]]; [unfold depth in *; lia|unfold depth in *; lia|].
        (* g' is an own field of j' *)
        assert (OG : exists key0, StructSel.own_entry letter decls j' key0 (Sel g' tg' om')).
        { inversion M' as [i' k0 h0 n0 tg1 om1 q0 N0 P0|i' k0 h0 j0 ptr0 un0 g0 tg1 om1 N0 P0 M0]; subst.
          - exists (k0, O). exists h0, n0, tg', om', q0. auto.
          - exfalso. unfold depth in X2. cbn in X2. assert (NN := mcand_nonnil _ _ _ _ _ _ M0). destruct (jf_path g0); [congruence|cbn in X2; lia]. }
        destruct OG as [key0 OG]. destruct (HX _ _ _ _ _ N' P') as [GJ _]. assert (IG := proj2 (proj2 (proj2 GJ)) _ _ OG).
        apply In_nth_error in IG as [m0 IG].
        assert (EM' : emb_entry i sub (k, m0) (push (via k j' ptr' un') (Sel g' tg' om'))) by (exists h', j', ptr', un', (Sel g' tg' om'); auto).
        assert (NKK : key <> (k, m0)) by (intros ->; apply NK; reflexivity).
        assert (EN' : sname s = sname (push (via k j' ptr' un') (Sel g' tg' om'))) by (subst g; cbn in *; symmetry; exact EN).
        destruct (kept_emb letter decls i sub d e HE _ _ _ _ EM EM' NKK EN' A) as [T1 T2]. cbn in T2. right. split; [lia|]. split; [|exact T2].
        subst s. cbn in T1. rewrite T0 in T1. apply andb_true_iff in T1. apply T1.
  - intros DOM. destruct (DOM) as (tg & CF & DD). apply cand_iff in CF.
    destruct (mcand_cases _ _ _ CF) as [[key O]|(k & h & j & ptr & un & g & N & P & M & EF)].
    + exists tg. apply (sel_in letter decls i sub d e HD HE). left. exists key. exact O.
    + (* g is dominant in j *)
      destruct (HX _ _ _ _ _ N P) as [GJ EX].
      assert (DG : dominant j g om).
      { exists tg. split; [apply cand_iff, M|]. intros g2 tg2 om2 C2 EN NP. apply cand_iff in C2.
        destruct (DD (JField (jf_name g2) (via k j ptr un :: jf_path g2) (jf_ty g2) (jf_quot g2)) tg2 om2) as [X|X].
        - apply cand_iff. eapply mc_prom; eassumption.
        - subst f. exact EN.
        - subst f. cbn. congruence.
        - left. subst f. unfold depth in *. cbn in X. lia.
        - right. subst f. unfold depth in *. cbn in X. split; [lia|apply X]. }
      apply EX in DG as [tg0 IG]. destruct (proj1 GJ _ IG) as (tgx & MX & TX). cbn [se_field se_omit se_tag] in MX, TX. destruct (mcand_fun letter decls _ _ _ _ _ _ _ M MX eq_refl) as (_ & <- & _). clear MX.
      apply In_nth_error in IG as [m IG].
      set (s := push (via k j ptr un) (Sel g tg0 om)).
      assert (EM : emb_entry i sub (k, m) s) by (exists h, j, ptr, un, (Sel g tg0 om); auto).
      assert (SF : se_field s = f) by (subst f; reflexivity).
      assert (LF : (2 <= depth f)%nat) by (subst f; unfold depth; cbn; assert (NN := mcand_nonnil _ _ _ _ _ _ M); destruct (jf_path g); [congruence|cbn; lia]).
      assert (AMB : ambiguous d e s = false).
      { destruct (ambiguous d e s) eqn:AM; [|reflexivity]. exfalso. unfold ambiguous in AM. apply andb_true_iff in AM as [A1 A2]. apply Nat.ltb_lt in A1.
        assert (HN : has_name (sname s) d = false).
        { destruct (has_name (sname s) d) eqn:HN; [|reflexivity]. exfalso. apply (has_name_iff letter decls i d HD) in HN as (key & s1 & O & EN).
          destruct (own_mcand _ _ O) as [MO PO]. apply cand_iff in MO. rewrite SF in EN.
          assert (D1 : depth (se_field s1) = 1%nat) by (unfold depth; rewrite PO; reflexivity).
          destruct (DD _ _ _ MO EN) as [X|X]; [intros E; unfold depth in *; rewrite E in D1; lia|lia|lia]. }
        (* every other entry of this name has no tag, and this one has *)
        assert (OTH : forall key x, In (key, x) e -> sname x = sname s -> key <> (k, m) -> tg0 = true /\ se_tag x = false).
        { intros key x IX EN NK. apply HE in IX. destruct (emb_mcand _ _ IX) as (h1 & j1 & p1 & u1 & x0 & tx & N1 & P1 & M1 & EX1 & MX & MX0 & TX0 & DX & LX).
          assert (NP : jf_path (se_field x) <> jf_path f).
          { subst x f. cbn. intros E. injection E as E0 E1. assert (KE : fst key = k) by (apply (f_equal idx) in E0; rewrite !via_idx in E0; exact E0).
            destruct key as [kk mm]. cbn in *. subst kk. assert (mm <> m) by congruence. assert (SS := proj1 (proj2 GJ)).
            destruct (Nat.lt_total mm m) as [L|[L|L]]; [|contradiction|].
            - assert (B := sorted_nth _ _ SS _ _ _ _ L M1 IG). apply (before_neq _ _ B). exact E1.
            - assert (B := sorted_nth _ _ SS _ _ _ _ L IG M1). apply (before_neq _ _ B). symmetry. exact E1. }
          rewrite SF in EN. assert (DF := DD _ _ _ (proj1 (cand_iff _ _ _ _) MX) EN NP).
          destruct (Nat.eq_dec (fst key) k) as [KE|KN].
          - exfalso. destruct key as [kk mm]. cbn in KE. subst kk. cbn [fst snd] in *. rewrite N in N1. injection N1 as <-. rewrite P in P1. injection P1 as <- <- <-.
            destruct DX as (tt & CX & DXX). apply cand_iff in CX. destruct (mcand_fun letter decls _ _ _ _ _ _ _ MX0 CX eq_refl) as (_ & <- & _).
            assert (DB := DXX g tg om (proj1 (cand_iff _ _ _ _) M)). subst x f. cbn in EN, NP, DF. unfold depth in *. cbn in DF. destruct DB as [X|X]; [symmetry; exact EN|congruence| |]; destruct DF as [Y|Y]; try lia.
            destruct X as (_ & -> & _), Y as (_ & _ & Y). discriminate.
          - assert (HH : hd_error (map idx (jf_path f)) <> hd_error (map idx (spath x))) by (subst x f; cbn; rewrite !via_idx; congruence).
            destruct (clear _ _ _ _ _ _ CF MX (eq_sym EN) HH) as [X|[X|[X1 X2]]]; [lia|unfold depth in *; lia|].
            destruct DF as [Y|(_ & -> & ->)]; [lia|]. split.
            + rewrite TX. subst f. unfold depth in X1. cbn in X1. injection X1 as X1. rewrite X1. reflexivity.
            + subst x. cbn. rewrite TX0. reflexivity. }
        assert (IS : In ((k, m), s) e) by (apply HE; exact EM).
        assert (C2 : (2 <= count (fun x => beqb (sname x) (sname s)) e)%nat) by (unfold name_count in A1; rewrite HN in A1; cbn [b2n] in A1; lia).
        destruct (count_more _ _ NE C2) as (k1 & x1 & k2 & x2 & I1 & I2 & Q1 & Q2 & NK). apply beqb_eq in Q1, Q2.
        assert (T0 : tg0 = true).
        { destruct (Nat.eq_dec (fst k1) k) as [E1|E1]; [destruct (Nat.eq_dec (snd k1) m) as [E2|E2]|].
          - apply (OTH _ _ I2 Q2). intros ->. apply NK. destruct k1; cbn in *; congruence.
          - apply (OTH _ _ I1 Q1). intros ->. apply E2. reflexivity.
          - apply (OTH _ _ I1 Q1). intros ->. apply E1. reflexivity. }
        apply orb_true_iff in A2 as [A2|A2]; [cbn in A2; rewrite T0 in A2; discriminate|]. apply negb_true_iff, Nat.eqb_neq in A2. apply A2. unfold tag_count. rewrite HN. cbn [b2n Nat.add].
        assert (CGE := count_in (fun x => beqb (sname x) (sname s) && se_tag x) e _ _ IS). cbn beta in CGE. rewrite (proj2 (beqb_eq _ _) eq_refl) in CGE. cbn [andb] in CGE. specialize (CGE T0).
        destruct (le_lt_dec (count (fun x => beqb (sname x) (sname s) && se_tag x) e) 1) as [LE|GT]; [lia|].
        destruct (count_more _ _ NE GT) as (k3 & x3 & k4 & x4 & I3 & I4 & Q3 & Q4 & NK'). apply andb_true_iff in Q3 as [Q3 T3], Q4 as [Q4 T4]. apply beqb_eq in Q3, Q4.
        destruct (Nat.eq_dec (fst k3) k) as [E1|E1]; [destruct (Nat.eq_dec (snd k3) m) as [E2|E2]|].
        - destruct (OTH _ _ I4 Q4) as [_ Z0]; [intros ->; apply NK'; destruct k3; cbn in *; congruence|congruence].
        - destruct (OTH _ _ I3 Q3) as [_ Z0]; [intros ->; apply E2; reflexivity|congruence].
        - destruct (OTH _ _ I3 Q3) as [_ Z0]; [intros ->; apply E1; reflexivity|congruence]. }
      exists false. apply (sel_in letter decls i sub d e HD HE). right. exists (k, m), s. split; [exact EM|]. split; [exact AMB|]. subst f. reflexivity.
Qed.
End Exact.

Lemma plan_used f : plain letter f -> plan_of f <> PSkip <-> used f.
Proof.
  intros P. destruct (tag_exists (sf_tag f)) as (n & os & T). rewrite (plan_unfold _ _ _ _ T P). unfold used.
  assert (UN := proj2 (proj2 (proj2 P))). assert (NI := name_of letter f n os (sf_name f) false T P).
  destruct (beqb (sf_tag f) (bs "-")) eqn:D.
  { apply beqb_eq in D. split; [|intros [_ X]; contradiction]. destruct (negb (sf_exported f) && negb (sf_anon f)); intros X; destruct X; reflexivity. }
  apply beqb_neq in D. cbv zeta. destruct (sf_exported f); cbn [negb andb].
  - split; [intros _; auto|]. intros _. destruct (sf_anon f && _); [|discriminate]. destruct (struct_kind (sf_ty f)) as [[j ptr]|]; discriminate.
  - destruct (sf_anon f); cbn [negb andb]; [|split; [intros X; destruct X; reflexivity|intros [[X|[X _]] _]; discriminate]].
    destruct n as [|c n]; cbn [negb].
    + destruct (struct_kind (sf_ty f)) as [[j ptr]|] eqn:K.
      * split; [intros _|discriminate]. split; [|exact D]. right. split; [reflexivity|]. exists j, ptr. apply struct_kind_iff, K.
      * split; [intros X; destruct X; reflexivity|]. intros [[X|(_ & j & ptr & X)] _]; [discriminate|]. apply struct_kind_iff in X. congruence.
    + split; [intros _|discriminate]. split; [|exact D]. right. split; [reflexivity|]. destruct (UN eq_refl eq_refl) as [X|X]; [|exact X]. apply NI in X as [X _]. discriminate.
Qed.

Lemma build_exact rk : (forall i f j, In f (decls i) -> used f -> In j (mentions (sf_ty f)) ->
    (rk j <= rk i)%nat /\ (sf_anon f = true -> (exists ptr, struct_type (sf_ty f) j ptr) -> (rk j < rk i)%nat)) ->
  forall n P t s s', build n t s = Some s' -> (forall j l, look j s = Some l -> In j P \/ exact j l) ->
  (forall p j, In p P -> In j (mentions t) -> (rk j <= rk p)%nat) -> forall j l, look j s' = Some l -> In j P \/ exact j l.
Proof.
  intros RK. induction n as [|n IH]; intros P t s s' B OK RP; rewrite build_flat in B; (destruct (mentions t) as [|i r] eqn:M; [injection B as <-; exact OK|]); [discriminate|].
  assert (RI : forall p, In p P -> (rk i <= rk p)%nat) by (intros p IP; apply (RP p i IP); left; reflexivity).
  rewrite build_at in B. unfold build_struct in B. destruct (look i s) as [l|] eqn:L; [injection B as <-; exact OK|].
  destruct (walk (build n) (decls i) 0 ((i, []) :: s)) as [[[s1 d] e]|] eqn:W; [|discriminate]. injection B as <-.
  assert (PU : forall f, In f (decls i) -> plan_of f <> PSkip -> used f) by (intros f F Q; apply plan_used; [exact (PT i f F)|exact Q]).
  assert (RR : forall f m, In f (decls i) -> used f -> In m (mentions (sf_ty f)) -> forall p, In p (i :: P) -> (rk m <= rk p)%nat).
  { intros f m F U Hm p [<-|IP]; [apply (RK i f m F U Hm)|]. specialize (RI p IP). destruct (RK i f m F U Hm) as [X _]. lia. }
  destruct (walk_spec letter decls (build n) (fun s => forall j l, look j s = Some l -> In j (i :: P) \/ exact j l) exact i (decls i) 0 ((i, []) :: s) s1 d e eq_refl) as (OK1 & sub & HG & HD & HE & ND & NE).
  - intros f nm tg om q s2 s3 F Q B2 OK2. eapply IH; [exact B2|exact OK2|]. intros p j IP J. eapply RR; try eassumption. apply PU; [exact F|]. rewrite Q. discriminate.
  - intros f j ptr un s2 s3 F Q B2 OK2. assert (U : used f) by (apply PU; [exact F|rewrite Q; discriminate]). assert (MF := plan_mentions _ _ _ _ Q).
    assert (JM : In j (mentions (sf_ty f))) by (rewrite MF; left; reflexivity).
    assert (OK3 : forall j l, look j s3 = Some l -> In j (i :: P) \/ exact j l).
    { eapply IH; [exact B2|exact OK2|]. intros p m IP [<-|[]]. eapply RR; eassumption. }
    split; [exact OK3|]. unfold sub_of. destruct (look j s3) as [l|] eqn:E.
    + destruct (OK3 _ _ E) as [X|X]; [|exact X]. exfalso. apply plan_embed in Q; [|exact (PT i f F)]. destruct Q as (AN & _ & _ & ST & _).
      destruct (RK i f j F U JM) as [_ LT]. specialize (LT AN (ex_intro _ ptr ST)). destruct X as [->|X]; [lia|]. specialize (RI j X). lia.
    + exfalso. apply (proj1 (proj2 (build_dom _ _ _ _ B2)) j); [left; reflexivity|exact E].
  - intros j l. rewrite look_cons. destruct (Nat.eqb_spec i j) as [<-|]; [intros _; left; left; reflexivity|].
    intros E. destruct (OK _ _ E) as [X|X]; [left; right; exact X|right; exact X].
  - exact W.
  - intros j l. rewrite look_put. destruct (Nat.eqb_spec i j) as [<-|NJ].
    + intros E. injection E as <-. right. apply (select_exact i sub d e); try assumption.
      * intros key x. rewrite HD. split; [intros [_ X]; exact X|intros X; split; [lia|exact X]].
      * intros key x. rewrite HE. split; [intros [_ X]; exact X|intros X; split; [lia|exact X]].
      * intros m f j ptr un N Q. apply (HG m f j ptr un); try assumption. lia.
    + intros E. destruct (OK1 _ _ E) as [[X|X]|X]; [congruence|left; exact X|right; exact X].
Qed.

Lemma reach_look s t i : (forall j, look j s <> None -> closed_at j s) -> (forall j, In j (mentions t) -> look j s <> None) -> reaches decls t i -> look i s <> None.
Proof.
  intros CL MT R. induction R as [t i I1|t i f j I1 F U R IH]; [apply MT, I1|]. apply IH. intros m Hm. apply (CL i (MT i I1) f m F); [|exact Hm].
  apply plan_used; [exact (PT i f F)|exact U].
Qed.

(** The fields as pairs, in order. *)
Definition pairs (l : list sel) : list (jfield * bool) := map (fun s => (se_field s, se_omit s)) l.
Lemma pairs_order l : StronglySorted (fun a b => before (spath a) (spath b)) l -> in_decl_order (pairs l).
Proof.
  induction 1 as [|x l SS IH F]; cbn; constructor; [|exact IH]. rewrite Forall_forall in *. intros y I1. apply in_map_iff in I1 as (z & <- & I1). apply F, I1.
Qed.
Lemma pairs_in l f om : In (f, om) (pairs l) <-> exists tg, In (Sel f tg om) l.
Proof.
  unfold pairs. rewrite in_map_iff. split; [intros ([f' tg om'] & E & I1); cbn in E; injection E as -> ->; eauto|]. intros [tg I1]. exists (Sel f tg om). auto.
Qed.

Lemma build_at_root N root : closed decls N root -> exists s, build (S N) root [] = Some s /\
  (forall j, look j s <> None -> closed_at j s) /\ (forall j, In j (mentions root) -> look j s <> None).
Proof.
  intros [CR CD]. destruct (build (S N) root []) as [s|] eqn:B.
  - exists s. split; [reflexivity|]. destruct (build_dom _ _ _ _ B) as (_ & A & C). split; [|exact A]. intros j J. destruct (C j J) as [X|X]; [destruct X; reflexivity|exact X].
  - exfalso. revert B. apply (build_total N CD); [exact CR|]. unfold unseen. cbn [look]. assert (forall l : list nat, length (filter (fun _ => true) l) = length l) as FL by (induction l; cbn; congruence).
    rewrite FL, seq_length. lia.
Qed.

Theorem fields_exact N root i : no_cycles decls -> closed decls N root -> reaches decls root i -> go_fields letter decls i (pairs (flds_of letter decls (S N) root i)).
Proof.
  intros (rk & RK) CL R. destruct (build_at_root N root CL) as (s & B & CA & MR). unfold flds_of. rewrite B.
  assert (L := reach_look s root i CA MR R). destruct (look i s) as [l|] eqn:E; [|congruence].
  destruct (build_exact rk RK _ [] _ _ _ B) with (j := i) (l := l) as [[]|[G X]]; [discriminate|intros p j []|exact E|].
  split; [|apply pairs_order, (proj1 (proj2 G))]. intros f om. rewrite pairs_in. apply X.
Qed.
End Main.
