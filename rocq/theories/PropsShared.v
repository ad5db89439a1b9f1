(** C27, C28: concurrent calls. *)
From Coq Require Import Permutation.
From Verif Require Import Bytes EncModel SharedModel SpecShared.

Section Proofs.
Variables ty codec val res : Type.
Variable ty_eqb : ty -> ty -> bool.
Hypothesis ty_eqb_spec : forall a b, ty_eqb a b = true <-> a = b.
Variable codec_of : ty -> codec.
Variable enc_steps : option codec -> val -> list (bytes -> bytes).
Variable enc_err : option codec -> val -> option err.
Variable dec_result : option codec -> val -> res.
Notation job := (job ty val). Notation tstate := (tstate ty codec res). Notation state := (state ty codec val res).
Notation tstep := (tstep ty codec val res ty_eqb codec_of enc_steps enc_err dec_result).
Notation gstep := (gstep ty codec val res ty_eqb codec_of enc_steps enc_err dec_result).
Notation exec := (exec ty codec val res ty_eqb codec_of enc_steps enc_err dec_result).
Notation alone := (alone ty codec val res codec_of enc_steps enc_err dec_result).
Notation initial := (initial ty codec val res codec_of).

Definition my_codec (j : job) : option codec := option_map codec_of (j_ty j).
Definition script (j : job) : list (bytes -> bytes) :=
  enc_steps (my_codec j) (j_val j) ++ match j_kind j, enc_err (my_codec j) (j_val j) with KEncode, None => [fun x => x ++ [10]] | _, _ => [] end.
Definition final (j : job) : bytes := fold_left (fun b f => f b) (script j) [].

Definition buf_of (t : tstate) : list nat :=
  match t with
  | TGot (Some b) | TLoaded (Some b) _ _ | TBuilt (Some b) _ _ _ | TReady (Some b) _ | TWriting b _ _ | TReading b _ _ | TPut b _ => [b]
  | _ => []
  end.
Definition is_kparse (j : job) : bool := match j_kind j with KParse => true | _ => false end.
Definition has_buf (j : job) (b : option nat) : Prop := b = None <-> j_kind j = KParse.
Definition sound (m : cmap ty codec) : Prop := Forall (fun e => snd e = codec_of (fst e)) m.
Definition good (h : nat -> bytes) (j : job) (t : tstate) : Prop :=
  match t with
  | TStart => True
  | TGot b => has_buf j b /\ forall i, b = Some i -> h i = []
  | TLoaded b t m => has_buf j b /\ (forall i, b = Some i -> h i = []) /\ j_ty j = Some t /\ sound m
  | TBuilt b t m c => has_buf j b /\ (forall i, b = Some i -> h i = []) /\ j_ty j = Some t /\ sound m /\ c = codec_of t
  | TReady b c => has_buf j b /\ (forall i, b = Some i -> h i = []) /\ c = my_codec j
  | TWriting b ws e => j_kind j <> KParse /\ e = enc_err (my_codec j) (j_val j) /\ fold_left (fun b f => f b) ws (h b) = final j
  | TReading b n acc => j_kind j <> KParse /\ enc_err (my_codec j) (j_val j) = None /\ h b = final j /\ n = length (final j) /\
      acc = firstn (length acc) (final j) /\ (length acc <= n)%nat
  | TPut b r => r = alone j
  | TDone r => r = alone j
  end.
Definition owned (ts : list (job * tstate)) : list nat := concat (map (fun jt => buf_of (snd jt)) ts).
Definition inv (s : state) : Prop :=
  let sh := g_shared s in
  NoDup (owned (g_threads s) ++ s_pool sh) /\ Forall (fun b => (b < s_next sh)%nat) (owned (g_threads s) ++ s_pool sh) /\
  sound (s_cache sh) /\ Forall (fun jt => good (s_heap sh) (fst jt) (snd jt)) (g_threads s).

Lemma lookup_sound m t c : sound m -> lookup ty_eqb m t = Some c -> c = codec_of t.
Proof.
  intros S. induction S as [|[t' c'] m H S IH]; cbn [lookup]; [discriminate|]. destruct (ty_eqb t' t) eqn:E; [|exact IH].
  apply ty_eqb_spec in E. subst t'. intros X. injection X as <-. exact H.
Qed.
Lemma final_ok j : j_kind j <> KParse -> enc_err (my_codec j) (j_val j) = None ->
  match j_kind j with KEncode => RWritten (final j) | _ => RMarshal (final j) end = alone j.
Proof.
  intros K E. unfold alone, final, script. fold (my_codec j). rewrite E. destruct (j_kind j); [|rewrite fold_left_app; reflexivity|contradiction].
  rewrite app_nil_r. reflexivity.
Qed.
Lemma good_frame h h' j t : (forall b, In b (buf_of t) -> h' b = h b) -> good h j t -> good h' j t.
Proof.
  intros F. destruct t as [|[b|]|[b|] t m|[b|] t m c|[b|] c|b ws e|b n acc|b r|r]; cbn [good buf_of] in *; auto.
  - intros (A & B). split; [exact A|]. intros i Q. injection Q as <-. rewrite F by (left; reflexivity). auto.
  - intros (A & B). split; [exact A|]. intros i Q. discriminate.
  - intros (A & B & C). split; [exact A|]. split; [|exact C]. intros i Q. injection Q as <-. rewrite F by (left; reflexivity). auto.
  - intros (A & B & C). split; [exact A|]. split; [|exact C]. intros i Q. discriminate.
  - intros (A & B & C). split; [exact A|]. split; [|exact C]. intros i Q. injection Q as <-. rewrite F by (left; reflexivity). auto.
  - intros (A & B & C). split; [exact A|]. split; [|exact C]. intros i Q. discriminate.
  - intros (A & B & C). split; [exact A|]. split; [|exact C]. intros i Q. injection Q as <-. rewrite F by (left; reflexivity). auto.
  - intros (A & B & C). split; [exact A|]. split; [|exact C]. intros i Q. discriminate.
  - rewrite F by (left; reflexivity). auto.
  - rewrite F by (left; reflexivity). auto.
Qed.

(** One step of a call keeps it good, keeps ownership exclusive, and does not
    touch the buffers of others. *)
Lemma upd_same h b x : upd h b x b = x.
Proof. unfold upd. rewrite Nat.eqb_refl. reflexivity. Qed.
Lemma upd_other h b x k : k <> b -> upd h b x k = h k.
Proof. unfold upd. intros N. destruct (Nat.eqb k b) eqn:E; [apply Nat.eqb_eq in E; contradiction|reflexivity]. Qed.

Lemma step_good j s t s' t' rest : tstep j s t s' t' -> good (s_heap s) j t -> sound (s_cache s) ->
  NoDup (buf_of t ++ rest ++ s_pool s) -> Forall (fun b => (b < s_next s)%nat) (buf_of t ++ rest ++ s_pool s) ->
  good (s_heap s') j t' /\ sound (s_cache s') /\
  NoDup (buf_of t' ++ rest ++ s_pool s') /\ Forall (fun b => (b < s_next s')%nat) (buf_of t' ++ rest ++ s_pool s') /\
  (forall b, In b rest -> s_heap s' b = s_heap s b).
Proof.
  intros T G S N L. destruct T; cbn [good s_heap s_pool s_next s_cache buf_of app] in *.
  - (* get pooled *)
    assert (P : Permutation (rest ++ p1 ++ b :: p2) (b :: rest ++ p1 ++ p2)).
    { rewrite !app_assoc. symmetry. apply Permutation_middle. }
    split; [split; [unfold has_buf; split; [discriminate|intros; contradiction]|intros i Q; injection Q as <-; apply upd_same]|].
    split; [exact S|]. split; [eapply Permutation_NoDup; [exact P|exact N]|]. split; [eapply Permutation_Forall; [exact P|exact L]|].
    intros k Hk. apply upd_other. intros ->. eapply Permutation_NoDup in N; [|exact P]. inversion N as [|? ? NI _]; subst. apply NI, in_or_app. left. exact Hk.
  - (* get new *)
    assert (F : ~ In n (rest ++ p)). { intros H1. rewrite Forall_forall in L. apply L in H1. lia. }
    split; [split; [unfold has_buf; split; [discriminate|intros; contradiction]|intros i Q; injection Q as <-; apply upd_same]|].
    split; [exact S|]. split; [constructor; assumption|]. split; [constructor; [lia|eapply Forall_impl; [|exact L]; cbv beta; intros; lia]|].
    intros k Hk. apply upd_other. intros ->. apply F, in_or_app. left. exact Hk.
  - split; [split; [unfold has_buf; tauto|discriminate]|]. auto.
  - (* nil *) destruct G as [A B]. split; [split; [exact A|]; split; [exact B|unfold my_codec; rewrite H; reflexivity]|]. destruct b; auto.
  - (* load *) destruct G as [A B]. split; [auto|]. destruct b; auto.
  - destruct G as (A & B & C & D). split; [split; [exact A|]; split; [exact B|unfold my_codec; rewrite C; cbn; f_equal; eapply lookup_sound; [exact D|exact H]]|]. destruct b; auto.
  - destruct G as (A & B & C & D). split; [auto 6|]. destruct b; auto.
  - destruct G as (A & B & C & D & ->). split; [split; [exact A|]; split; [exact B|unfold my_codec; rewrite C; reflexivity]|].
    split; [apply Forall_app; split; [exact D|constructor; [reflexivity|constructor]]|]. destruct b; auto.
  - destruct G as (A & B & C). split; [unfold SpecShared.alone; rewrite H, C; reflexivity|]. auto.
  - destruct G as (A & B & ->). split; [split; [exact H|]; split; [reflexivity|rewrite (B b eq_refl); reflexivity]|]. auto.
  - (* write *) destruct G as (A & B & C). inversion N as [|? ? NI N']; subst. inversion L as [|? ? L1 L2]; subst.
    split; [split; [exact A|]; split; [reflexivity|rewrite upd_same; exact C]|]. split; [exact S|]. split; [exact N|]. split; [exact L|].
    intros k Hk. apply upd_other. intros ->. apply NI, in_or_app. left. exact Hk.
  - destruct G as (A & B & C). inversion N as [|? ? NI N']; subst. inversion L as [|? ? L1 L2]; subst.
    split; [unfold SpecShared.alone; fold (my_codec j); rewrite H, <- B; reflexivity|]. auto.
  - destruct G as (A & B & C).
    split; [unfold SpecShared.alone; fold (my_codec j); rewrite H, <- B; reflexivity|]. auto.
  - destruct G as (A & B & C). cbn [fold_left] in C. split; [|auto]. rewrite C. split; [exact A|]. split; [auto|]. split; [reflexivity|]. split; [reflexivity|]. split; [reflexivity|cbn; lia].
  - destruct G as (A & B & C & -> & D & E). split; [|auto]. split; [exact A|]. split; [exact B|]. split; [exact C|]. split; [reflexivity|]. rewrite app_length. cbn [length].
    split; [|lia]. rewrite C. rewrite D at 1. clear - H. remember (length acc) as n. clear acc Heqn. revert n H. generalize (final j). induction b as [|x b IH]; intros n H; [cbn in H; lia|].
    destruct n as [|n]; [reflexivity|]. cbn [Nat.add firstn app nth]. f_equal. apply IH. cbn in H. lia.
  - destruct G as (A & B & C & D & E & F). split; [|auto]. rewrite E, D, firstn_all. apply final_ok; assumption.
  - split; [exact G|]. split; [exact S|]. inversion N as [|? ? NI N']; subst. inversion L as [|? ? L1 L2]; subst.
    assert (P : Permutation (b :: rest ++ p) (rest ++ b :: p)) by apply Permutation_middle.
    split; [eapply Permutation_NoDup; [exact P|exact N]|]. split; [eapply Permutation_Forall; [exact P|exact L]|]. auto.
Qed.

Lemma set_nth_split {A} i (x y : A) l : nth_error l i = Some x -> exists l1 l2, l = l1 ++ x :: l2 /\ set_nth i y l = l1 ++ y :: l2 /\ length l1 = i.
Proof.
  revert l. induction i as [|i IH]; intros [|z l] H; cbn in H; try discriminate.
  - injection H as ->. exists [], l. auto.
  - destruct (IH l H) as (l1 & l2 & -> & E & Q). exists (z :: l1), l2. cbn. rewrite E. auto.
Qed.
Lemma owned_app a b : owned (a ++ b) = owned a ++ owned b.
Proof. unfold owned. rewrite map_app, concat_app. reflexivity. Qed.
Lemma inv_step s l s' : gstep s l s' -> inv s -> inv s'.
Proof.
  intros G (N & L & S & A). destruct G as [s s' ts i j t t' E T|s ts j|h p1 b p2 n m ts]; cbn [g_shared g_threads] in *.
  - destruct (set_nth_split i _ (j, t') ts E) as (l1 & l2 & -> & E2 & _).
    set (rest := owned l1 ++ owned l2).
    assert (Q : forall u, Permutation (owned (l1 ++ (j, u) :: l2)) (buf_of u ++ rest)).
    { intros u. rewrite owned_app. change (owned ((j, u) :: l2)) with (buf_of u ++ owned l2). unfold rest. rewrite app_assoc, (app_assoc (buf_of u)). apply Permutation_app_tail, Permutation_app_comm. }
    assert (Q' : forall u p, Permutation (owned (l1 ++ (j, u) :: l2) ++ p) (buf_of u ++ rest ++ p)) by (intros u p; rewrite (app_assoc (buf_of u)); apply Permutation_app_tail, Q).
    apply Forall_app in A. destruct A as [A1 A2]. inversion A2 as [|? ? A3 A4]; subst. cbn [fst snd] in A3.
    destruct (step_good j s t s' t' rest T A3 S) as (B1 & B2 & B3 & B4 & B5).
    { eapply Permutation_NoDup; [apply Q'|exact N]. } { eapply Permutation_Forall; [apply Q'|exact L]. }
    unfold inv. cbn [g_shared g_threads]. rewrite E2. split; [eapply Permutation_NoDup; [symmetry; apply Q'|exact B3]|].
    split; [eapply Permutation_Forall; [symmetry; apply Q'|exact B4]|]. split; [exact B2|].
    assert (FR : forall l, (forall b, In b (owned l) -> In b rest) -> Forall (fun jt => good (s_heap s) (fst jt) (snd jt)) l -> Forall (fun jt => good (s_heap s') (fst jt) (snd jt)) l).
    { intros l I F. apply Forall_forall. intros [j0 t0] Hi. cbn [fst snd]. rewrite Forall_forall in F. apply (good_frame (s_heap s)); [|apply (F _ Hi)].
      intros b Hb. apply B5, I. unfold owned. apply in_concat. exists (buf_of t0). split; [|exact Hb]. apply in_map_iff. exists (j0, t0). auto. }
    apply Forall_app. split; [apply FR; [unfold rest; intros; apply in_or_app; auto|exact A1]|]. constructor; [exact B1|]. apply FR; [unfold rest; intros; apply in_or_app; auto|exact A4].
  - unfold inv. cbn [g_shared g_threads]. rewrite owned_app. change (owned [(j, TStart)]) with (@nil nat). rewrite app_nil_r. split; [exact N|]. split; [exact L|]. split; [exact S|].
    apply Forall_app. split; [exact A|]. constructor; [exact I|constructor].
  - cbn [s_pool s_next s_cache s_heap] in *. unfold inv. cbn [g_shared g_threads s_pool s_next s_cache s_heap].
    assert (P : Permutation (owned ts ++ p1 ++ b :: p2) (b :: owned ts ++ p1 ++ p2)) by (rewrite !app_assoc; symmetry; apply Permutation_middle).
    split; [eapply Permutation_NoDup in N; [|exact P]; inversion N; assumption|]. split; [eapply Permutation_Forall in L; [|exact P]; inversion L; assumption|]. auto.
Qed.
Lemma inv_exec s ls s' : exec s ls s' -> inv s -> inv s'.
Proof. induction 1 as [|s ls s1 l s2 X IH G]; intros I; [exact I|]. eapply inv_step; [exact G|apply IH, I]. Qed.
Lemma inv_initial s : initial s -> inv s.
Proof. destruct s as [sh ts]. intros (T & N & L & S). cbn [g_threads g_shared] in *. subst ts. unfold inv. cbn. auto. Qed.

(** C27: whatever the calls and the order of their steps, a call that has
    returned has returned what it would alone. *)
Theorem C27_isolation : forall s0 ls s i j r, initial s0 -> exec s0 ls s ->
  nth_error (g_threads s) i = Some (j, TDone r) -> r = alone j.
Proof.
  intros s0 ls s i j r I X E. apply inv_initial in I. apply (inv_exec _ _ _ X) in I. destruct I as (_ & _ & _ & A).
  rewrite Forall_forall in A. apply nth_error_In in E. apply A in E. exact E.
Qed.
(** C27: no buffer is ever used by two calls, or by a call and in the pool. *)
Theorem C27_exclusive : forall s0 ls s, initial s0 -> exec s0 ls s ->
  NoDup (concat (map (fun jt => buf_of (snd jt)) (g_threads s)) ++ s_pool (g_shared s)).
Proof. intros s0 ls s I X. apply inv_initial in I. apply (inv_exec _ _ _ X) in I. apply I. Qed.

(** C27: no call waits for another: it can always go on, and returns after a
    number of its own steps that depends on the call alone. *)
Definition left (j : job) (t : tstate) : nat :=
  let n := (length (script j) + length (final j))%nat in
  match t with
  | TStart => n + 9 | TGot _ => n + 8 | TLoaded _ _ _ => n + 7 | TBuilt _ _ _ _ => n + 6 | TReady _ _ => n + 5
  | TWriting _ ws _ => length ws + length (final j) + 4
  | TReading _ k acc => (k - length acc) + 3
  | TPut _ _ => 1
  | TDone _ => 0
  end%nat.
Lemma left_step j s t s' t' : tstep j s t s' t' -> good (s_heap s) j t -> (S (left j t') <= left j t)%nat.
Proof.
  intros T G. destruct T; cbn [good left] in *; try lia.
  - destruct G as (_ & _ & ->). fold (script j). lia.
  - cbn [length]. lia.
  - destruct G as (_ & _ & C). cbn [fold_left s_heap] in *. rewrite C. cbn [length]. lia.
  - rewrite app_length. cbn [length]. lia.
Qed.
Theorem C27_progress : forall s0 ls s i j t, initial s0 -> exec s0 ls s ->
  nth_error (g_threads s) i = Some (j, t) -> (forall r, t <> TDone r) -> exists s', gstep s (LThread i) s'.
Proof.
  intros s0 ls s i j t I X E D. apply inv_initial in I. apply (inv_exec _ _ _ X) in I. destruct I as (_ & _ & _ & A).
  rewrite Forall_forall in A. pose proof (A _ (nth_error_In _ _ E)) as G. cbn [fst snd] in G. destruct s as [sh ts]. cbn [g_shared g_threads] in *.
  assert (Z : exists sh' t', tstep j sh t sh' t').
  { destruct sh as [h p n m]. destruct t as [|b|b t m'|b t m' c|b c|b ws e|b k acc|b r|r]; cbn [good] in G.
    - destruct (j_kind j) eqn:K; [| |do 2 eexists; apply s_parse; exact K]; do 2 eexists; (apply s_get_new; rewrite K; discriminate).
    - destruct (j_ty j) as [t|] eqn:K; do 2 eexists; [apply s_load; exact K|apply s_nil; exact K].
    - destruct (lookup ty_eqb m' t) as [c|] eqn:K; do 2 eexists; [apply s_found; exact K|apply s_build; exact K].
    - do 2 eexists. apply s_store.
    - destruct G as (B & _). unfold has_buf in B. destruct b as [b|]; [|do 2 eexists; apply s_decode, B; reflexivity]. do 2 eexists. apply s_encode. intros K. apply B in K. discriminate.
    - destruct ws as [|f ws]; [|do 2 eexists; apply s_write]. destruct e as [e|]; [|do 2 eexists; apply s_read_start]. destruct (j_kind j) eqn:K; [| |tauto]; do 2 eexists; [apply s_fail_marshal|apply s_fail_encode]; exact K.
    - destruct G as (_ & _ & _ & _ & _ & L). destruct (Nat.eq_dec (length acc) k) as [<-|N]; do 2 eexists; [apply s_read_end|apply s_read; lia].
    - do 2 eexists. apply s_put.
    - exfalso. eapply D. reflexivity. }
  destruct Z as (sh' & t' & T). eexists. eapply g_thread; eassumption.
Qed.
Lemma nth_set_other {A} i k (x : A) l : i <> k -> nth_error (set_nth i x l) k = nth_error l k.
Proof. revert k l. induction i as [|i IH]; intros [|k] [|y l] N; cbn; auto; try congruence. Qed.
Lemma nth_set_same {A} i (x y : A) l : nth_error l i = Some y -> nth_error (set_nth i x l) i = Some x.
Proof. revert l. induction i as [|i IH]; intros [|z l] H; cbn in *; try discriminate; auto. Qed.
Lemma steps_of_snoc i ls l : steps_of i (ls ++ [l]) = (steps_of i ls + match l with LThread k => if Nat.eqb k i then 1 else 0 | _ => 0 end)%nat.
Proof. unfold steps_of. rewrite filter_app, app_length. f_equal. cbn. destruct l as [k| |]; try reflexivity. destruct (Nat.eqb k i); reflexivity. Qed.
Theorem C27_bounded : forall s0 ls s i j t, initial s0 -> exec s0 ls s ->
  nth_error (g_threads s) i = Some (j, t) -> (steps_of i ls <= length (script j) + length (final j) + 9)%nat.
Proof.
  intros s0 ls s i j t I X.
  enough (H : (nth_error (g_threads s) i = None -> steps_of i ls = O) /\ forall j t, nth_error (g_threads s) i = Some (j, t) -> (steps_of i ls + left j t <= length (script j) + length (final j) + 9)%nat) by (intros E; apply H in E; lia).
  clear j t. pose proof (proj1 I) as T0. apply inv_initial in I. induction X as [s|s ls s1 l s2 X IH G].
  - rewrite T0. destruct i; split; try discriminate; reflexivity.
  - specialize (IH I T0). destruct IH as [IH1 IH2]. pose proof (inv_exec _ _ _ X I) as (_ & _ & _ & A). rewrite steps_of_snoc.
    destruct G as [sh sh' ts k j t t' E T|sh ts j|h p1 b p2 n m ts]; cbn [g_shared g_threads] in *.
    + destruct (Nat.eqb k i) eqn:K.
      * apply Nat.eqb_eq in K. subst k. rewrite (nth_set_same i (j, t') _ _ E). split; [discriminate|]. intros j1 t1 Q. injection Q as <- <-.
        rewrite Forall_forall in A. pose proof (left_step j sh t sh' t' T (A _ (nth_error_In _ _ E))) as L. specialize (IH2 j t E). lia.
      * apply Nat.eqb_neq in K. rewrite nth_set_other by exact K. rewrite Nat.add_0_r. auto.
    + rewrite Nat.add_0_r. destruct (lt_eq_lt_dec i (length ts)) as [[L|L]|L].
      * rewrite nth_error_app1 by exact L. auto.
      * subst i. rewrite nth_error_app2, Nat.sub_diag by lia. split; [discriminate|]. intros j1 t1 Q. cbn in Q. injection Q as <- <-.
        rewrite IH1 by (apply nth_error_None; lia). cbn [left]. lia.
      * rewrite (proj2 (nth_error_None _ _)) by (rewrite app_length; cbn; lia). split; [|discriminate]. intros _. apply IH1, nth_error_None. lia.
    + rewrite Nat.add_0_r. auto.
Qed.

(** C28: in every execution each call uses the codec of its own type, and the
    cache never holds anything else, whatever stores are lost. *)
Theorem C28_right_codec : forall s0 ls s i j t c, initial s0 -> exec s0 ls s ->
  nth_error (g_threads s) i = Some (j, t) -> uses ty codec res t c -> exists T, j_ty j = Some T /\ c = codec_of T.
Proof.
  intros s0 ls s i j t c I X E (b & ->). apply inv_initial in I. apply (inv_exec _ _ _ X) in I. destruct I as (_ & _ & _ & A).
  rewrite Forall_forall in A. apply nth_error_In, A in E. destruct E as (_ & _ & E). cbn [fst] in E. unfold my_codec in E. destruct (j_ty j) as [T|]; [|discriminate].
  exists T. split; [reflexivity|]. cbn in E. congruence.
Qed.
Theorem C28_cache_sound : forall s0 ls s T c, initial s0 -> exec s0 ls s -> lookup ty_eqb (s_cache (g_shared s)) T = Some c -> c = codec_of T.
Proof.
  intros s0 ls s T c I X. apply inv_initial in I. apply (inv_exec _ _ _ X) in I. destruct I as (_ & _ & S & _). apply lookup_sound, S.
Qed.
(** C28: the cache only loses entries to overlapping stores: when a call stores
    while the cache is still what it loaded, all entries are kept, and that of
    its type is added. *)
Theorem C28_store_keeps : forall j s b T m c s' t', tstep j s (TBuilt b T m c) s' t' -> s_cache s = m ->
  (forall U d, lookup ty_eqb (s_cache s) U = Some d -> lookup ty_eqb (s_cache s') U = Some d) /\
  lookup ty_eqb (s_cache s') T <> None.
Proof.
  intros j s b T m c s' t' ST E. inversion ST; subst. clear ST. cbn [s_cache]. unfold cache_with.
  match goal with |- context [?x ++ [(T, c)]] => generalize x; intros mm end. split.
  - intros U d. induction mm as [|[u x] m IH]; cbn [lookup app]; [discriminate|]. destruct (ty_eqb u U); auto.
  - induction mm as [|[u x] m IH]; cbn [lookup app].
    + rewrite (proj2 (ty_eqb_spec T T) eq_refl). discriminate.
    + destruct (ty_eqb u T); [discriminate|exact IH].
Qed.

(** A scheduler, to show executions: it takes the first buffer of the pool. *)
Definition tnext (j : job) (s : shared ty codec) (t : tstate) : option (shared ty codec * tstate) :=
  match s with Shared h p n m =>
  match t with
  | TStart => match j_kind j with
              | KParse => Some (s, TGot None)
              | _ => match p with
                     | b :: p' => Some (Shared (upd h b []) p' n m, TGot (Some b))
                     | [] => Some (Shared (upd h n []) [] (S n) m, TGot (Some n))
                     end
              end
  | TGot b => match j_ty j with None => Some (s, TReady b None) | Some t => Some (s, TLoaded b t m) end
  | TLoaded b t m' => match lookup ty_eqb m' t with Some c => Some (s, TReady b (Some c)) | None => Some (s, TBuilt b t m' (codec_of t)) end
  | TBuilt b t m' c => Some (Shared h p n (cache_with t c m'), TReady b (Some c))
  | TReady None c => match j_kind j with KParse => Some (s, TDone (RParsed (dec_result c (j_val j)))) | _ => None end
  | TReady (Some b) c => match j_kind j with KParse => None | _ =>
      Some (s, TWriting b (enc_steps c (j_val j) ++
         match j_kind j, enc_err c (j_val j) with KEncode, None => [fun x => x ++ [10]] | _, _ => [] end) (enc_err c (j_val j))) end
  | TWriting b (f :: ws) e => Some (Shared (upd h b (f (h b))) p n m, TWriting b ws e)
  | TWriting b [] (Some e) => match j_kind j with KMarshal => Some (s, TDone (RFailed e)) | KEncode => Some (s, TPut b (RFailed e)) | KParse => None end
  | TWriting b [] None => Some (s, TReading b (length (h b)) [])
  | TReading b k acc => if Nat.ltb (length acc) k then Some (s, TReading b k (acc ++ [nth (length acc) (h b) 0]))
                        else if Nat.eqb (length acc) k then Some (s, TPut b (match j_kind j with KEncode => RWritten acc | _ => RMarshal acc end)) else None
  | TPut b r => Some (Shared h (b :: p) n m, TDone r)
  | TDone _ => None
  end end.
Lemma tnext_sound j s t s' t' : tnext j s t = Some (s', t') -> tstep j s t s' t'.
Proof.
  destruct s as [h p n m]. unfold tnext. destruct t as [|b|b t m'|b t m' c|[b|] c|b [|f ws] [e|]|b k acc|b r|r].
  - destruct (j_kind j) eqn:K; [| |intros E; injection E as <- <-; apply s_parse; exact K]; (destruct p as [|b p]; intros E; injection E as <- <-;
      [apply s_get_new; rewrite K; discriminate|apply (s_get_pooled _ _ _ _ _ _ _ _ _ j h [] b p); rewrite K; discriminate]).
  - destruct (j_ty j) eqn:K; intros E; injection E as <- <-; [apply s_load|apply s_nil]; exact K.
  - destruct (lookup ty_eqb m' t) eqn:K; intros E; injection E as <- <-; [apply s_found|apply s_build]; exact K.
  - intros E; injection E as <- <-. apply s_store.
  - destruct (j_kind j) eqn:K; [| |discriminate]; intros E; injection E as <- <-;
      (destruct j as [k jt jv]; cbn [j_kind] in K; subst k; match goal with |- tstep ?J ?S _ _ _ => exact (s_encode ty codec val res ty_eqb codec_of enc_steps enc_err dec_result J S b c ltac:(discriminate)) end).
  - destruct (j_kind j) eqn:K; try discriminate. intros E; injection E as <- <-. apply s_decode; exact K.
  - destruct (j_kind j) eqn:K; [| |discriminate]; intros E; injection E as <- <-; [apply s_fail_marshal|apply s_fail_encode]; exact K.
  - intros E; injection E as <- <-. apply s_read_start.
  - intros E; injection E as <- <-. apply s_write.
  - intros E; injection E as <- <-. apply s_write.
  - destruct (Nat.ltb (length acc) k) eqn:L; [intros E; injection E as <- <-; apply s_read; apply Nat.ltb_lt; exact L|].
    destruct (Nat.eqb (length acc) k) eqn:Q; [|discriminate]. apply Nat.eqb_eq in Q. subst k. intros E; injection E as <- <-. apply s_read_end.
  - intros E; injection E as <- <-. apply s_put.
  - discriminate.
Qed.
Fixpoint sched (s : state) (is : list nat) : option state :=
  match is with
  | [] => Some s
  | i :: is' => match nth_error (g_threads s) i with
                | Some (j, t) => match tnext j (g_shared s) t with
                                 | Some (sh, t') => sched (State sh (set_nth i (j, t') (g_threads s))) is'
                                 | None => None
                                 end
                | None => None
                end
  end.
Lemma exec_app s l1 s1 l2 s2 : exec s l1 s1 -> exec s1 l2 s2 -> exec s (l1 ++ l2) s2.
Proof. intros A B. revert A. induction B as [|s1 ls s2 l s3 B IH G]; intros A; [rewrite app_nil_r; exact A|]. rewrite app_assoc. eapply x_snoc; [apply IH, A|exact G]. Qed.
Lemma sched_exec is : forall s s', sched s is = Some s' -> exec s (map LThread is) s'.
Proof.
  induction is as [|i is IH]; intros s s' E; cbn [sched] in E; [injection E as <-; apply x_nil|].
  destruct (nth_error (g_threads s) i) as [[j t]|] eqn:N; [|discriminate]. destruct (tnext j (g_shared s) t) as [[sh t']|] eqn:T; [|discriminate].
  apply IH in E. change (map LThread (i :: is)) with ([LThread i] ++ map LThread is). eapply exec_app; [|exact E].
  apply (x_snoc _ _ _ _ _ _ _ _ _ _ [] s); [apply x_nil|]. destruct s as [sh0 ts]. eapply g_thread; [exact N|]. apply tnext_sound, T.
Qed.
Lemma spawn_exec s js : exec s (map (fun _ => LSpawn) js) (State (g_shared s) (g_threads s ++ map (fun j => (j, TStart)) js)).
Proof.
  induction js as [|j js IH] using rev_ind; cbn [map]; [rewrite app_nil_r; destruct s; apply x_nil|].
  rewrite !map_app. cbn [map]. eapply x_snoc; [exact IH|]. rewrite app_assoc. apply g_spawn.
Qed.
End Proofs.
Print Assumptions C27_isolation.
Print Assumptions C27_exclusive.
Print Assumptions C27_progress.
Print Assumptions C27_bounded.
Print Assumptions C28_right_codec.
Print Assumptions C28_cache_sound.
Print Assumptions C28_store_keeps.

(** C27 for the encoder of EncModel.v: a concurrent Marshal returns the same as
    the function [marshal], when the codec of the value's type behaves as
    [enc] and appends its output byte by byte. *)
From Verif Require Import IntModel PropsColor.
Definition codec_fn : Type := gval -> bytes * option err.
Definition enc_out (r : eres) : bytes * option err := match r with ER b _ e => (b, e) | EPanic => ([], Some EPanicked) end.
Definition fn_of (std : bytes -> bytes -> bytes -> option bytes) (c : option codec_fn) (v : gval) : bytes * option err :=
  match c with Some f => f v | None => enc_out (enc (marshal_cfg std) GNil [] 0) end.
Definition fn_steps std c v : list (bytes -> bytes) := map (fun x b => b ++ [x]) (fst (fn_of std c v)).
Definition fn_err std c v : option err := snd (fn_of std c v).
Lemma appends_fold out : forall b : bytes, fold_left (fun (b : bytes) (f : bytes -> bytes) => f b) (map (fun x b => b ++ [x]) out) b = b ++ out.
Proof. induction out as [|x out IH]; intros b; cbn [map fold_left]; [rewrite app_nil_r; reflexivity|]. rewrite IH, <- app_assoc. reflexivity. Qed.
Theorem C27_marshal : forall ty ty_eqb (codec_of : ty -> codec_fn) std res (dec : option codec_fn -> gval -> res) s0 ls s i T v r,
  (forall a b, ty_eqb a b = true <-> a = b) -> codec_of T v = enc_out (enc (marshal_cfg std) v [] 0) ->
  initial ty codec_fn gval res codec_of s0 ->
  exec ty codec_fn gval res ty_eqb codec_of (fn_steps std) (fn_err std) dec s0 ls s ->
  nth_error (g_threads s) i = Some (Job KMarshal (Some T) v, TDone r) ->
  match marshal std v with
  | Some (b, None) => r = RMarshal b
  | Some (_, Some e) => r = RFailed e
  | None => r = RFailed EPanicked
  end.
Proof.
  intros ty ty_eqb codec_of std res dec s0 ls s i T v r EQ CO I X E. rewrite (C27_isolation _ _ _ _ _ EQ _ _ _ _ s0 ls s i _ r I X E).
  unfold alone, marshal, fn_err, fn_steps, fn_of. cbn [j_kind j_ty j_val option_map]. rewrite CO.
  destruct (enc (marshal_cfg std) v [] 0) as [b d [e|]|]; cbn [enc_out fst snd]; try reflexivity. rewrite appends_fold. reflexivity.
Qed.
Print Assumptions C27_marshal.

(** Two calls of one type at once, from an empty cache: both miss, both store,
    they take turns in writing; the second takes the only pooled buffer (which
    holds leftovers), the first a new one. *)
Definition s_init : state nat codec_fn gval unit := State (Shared (fun _ => bs "leftover") [0%nat] 1 []) [].
Definition co (t : nat) : codec_fn := fun v => enc_out (enc (marshal_cfg std0) v [] 0).
Lemma s_init_ok : initial nat codec_fn gval unit co s_init.
Proof. split; [reflexivity|]. split; [constructor; [intros []|constructor]|]. split; [constructor; [cbn; lia|constructor]|constructor]. Qed.
Definition jobs : list (job nat gval) := [Job KMarshal (Some 5%nat) (GInt 12); Job KEncode (Some 5%nat) (GString (bs "<")); Job KMarshal (Some 6%nat) GUnsupported].
Definition order : list nat := [1; 0; 2; 0; 1; 2; 0; 1; 2; 2; 1; 0; 1; 0; 1; 0; 1; 0; 2; 1; 2; 0]%nat ++ repeat 1%nat 18 ++ repeat 0%nat 4.
Definition run_co := sched nat codec_fn gval unit Nat.eqb co (fn_steps std0) (fn_err std0) (fun _ _ => tt).
Definition stored (s : state nat codec_fn gval unit) (t : nat) : bool := match lookup Nat.eqb (s_cache (g_shared s)) t with Some _ => true | None => false end.
Definition s_jobs : state nat codec_fn gval unit := State (g_shared s_init) ([] ++ map (fun j => (j, TStart)) jobs).
Definition results (s : state nat codec_fn gval unit) : list (option (result unit)) :=
  map (fun p => match snd p with TDone r => Some r | _ => None end) (g_threads s).
Example C27_case : exists ls s,
  exec nat codec_fn gval unit Nat.eqb co (fn_steps std0) (fn_err std0) (fun _ _ => tt) s_init ls s /\
  results s = [Some (RMarshal (bs "12")); Some (RWritten ([34] ++ bs "\u003c" ++ [34; 10])); Some (RFailed EUnsupportedType)].
Proof.
  assert (E : option_map results (run_co s_jobs order) = Some [Some (RMarshal (bs "12")); Some (RWritten ([34] ++ bs "\u003c" ++ [34; 10])); Some (RFailed EUnsupportedType)]) by (vm_compute; reflexivity).
  destruct (run_co s_jobs order) as [s|] eqn:S; [|discriminate]. injection E as E.
  exists (map (fun _ => LSpawn) jobs ++ map LThread order), s. split; [|exact E].
  eapply exec_app; [apply spawn_exec|]. apply sched_exec. exact S.
Qed.
(** C28, false: an entry of the cache never disappears.  In the middle of that
    execution the third call has stored the codec of its type; then the second
    stores what it loaded before, with its own type. *)
Theorem C28_lost_entry_refuted : exists ls1 s1 ls2 s2,
  exec nat codec_fn gval unit Nat.eqb co (fn_steps std0) (fn_err std0) (fun _ _ => tt) s_init ls1 s1 /\
  exec nat codec_fn gval unit Nat.eqb co (fn_steps std0) (fn_err std0) (fun _ _ => tt) s1 ls2 s2 /\
  lookup Nat.eqb (s_cache (g_shared s1)) 6%nat <> None /\ lookup Nat.eqb (s_cache (g_shared s2)) 6%nat = None.
Proof.
  assert (E : match run_co s_jobs (firstn 10 order) with
              | Some s1 => match run_co s1 [1%nat] with Some s2 => (stored s1 6%nat, stored s2 6%nat) | None => (false, false) end
              | None => (false, false) end = (true, false)) by (vm_compute; reflexivity).
  destruct (run_co s_jobs (firstn 10 order)) as [s1|] eqn:S1; [|discriminate].
  destruct (run_co s1 [1%nat]) as [s2|] eqn:S2; [|discriminate].
  exists (map (fun _ => LSpawn) jobs ++ map LThread (firstn 10 order)), s1, (map LThread [1%nat]), s2.
  split; [eapply exec_app; [apply spawn_exec|apply sched_exec; exact S1]|]. split; [apply sched_exec; exact S2|].
  unfold stored in E. destruct (lookup Nat.eqb (s_cache (g_shared s1)) 6%nat); [|discriminate]. destruct (lookup Nat.eqb (s_cache (g_shared s2)) 6%nat); [discriminate|].
  split; [discriminate|reflexivity].
Qed.
Print Assumptions C28_lost_entry_refuted.
