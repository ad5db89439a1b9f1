(** Paths into structs, the zero value, and the view of a value: facts for the
    round trip of typed values. *)
From Coq Require Import Permutation Sorted.
From Verif Require Import Bytes Utf8Model ParseModel StringModel IntModel TokenModel EncModel DecModel SpecJson SpecString SpecTokens
  SpecRender SpecColor SpecEnc SpecNum SpecDec SpecTrip SpecRaw ParseFacts Utf8Facts StringFacts IntFacts TokenFacts EncFacts RawFacts EncMain TextFacts DocFacts
  RawText NumFacts DecLoops DecFacts PropsString TripFacts
  TypeModel SpecType SpecFit SpecField NodeFacts TypeLoops TypeFacts TypeMain TypeSound TypeSafe ViewModel SpecSame.

Lemma opt_list_some {A B} (f : A -> option B) l xs : opt_list (map f l) = Some xs <-> Forall2 (fun a x => f a = Some x) l xs.
Proof.
  revert xs. induction l as [|a l IH]; intros xs; cbn [map opt_list].
  - split; [intros [= <-]; constructor|inversion 1; reflexivity].
  - split.
    + destruct (f a) as [x|] eqn:E1; [|discriminate]. destruct (opt_list (map f l)) as [ys|] eqn:E2; [|discriminate].
      intros [= <-]. constructor; [exact E1|]. apply IH. reflexivity.
    + inversion 1 as [|? x ? ys E1 E2]; subst. rewrite E1. apply IH in E2. rewrite E2. reflexivity.
Qed.

(** * Zero values *)
Section Zero.
Context (V : tenv) (ET : env_typed V).

Lemma zero_struct i : zero V (YStruct i) = MList (map (zero V) (v_decl V i)).
Proof.
  destruct (et_rank V ET) as (rk & R1 & R2).
  assert (G : forall n m t, (forall i, In i (holds t) -> (rk i < n)%nat /\ (rk i < m)%nat) -> zero_f V n t = zero_f V m t).
  { induction n as [|n IHn]; intros m u; induction u; intros H; try (destruct m; reflexivity).
    - destruct m; cbn [zero_f]; do 2 f_equal; apply IHu, H.
    - exfalso. specialize (H i0 (or_introl eq_refl)). lia.
    - destruct m; cbn [zero_f]; do 2 f_equal; apply IHu, H.
    - destruct m as [|m]; [specialize (H i0 (or_introl eq_refl)); lia|]. cbn [zero_f]. f_equal. apply map_ext_in. intros u U.
      apply IHn. intros j J. specialize (R1 i0 u j U J). specialize (H i0 (or_introl eq_refl)). lia. }
  unfold zero at 1. destruct (v_depth V) as [|n] eqn:E; [specialize (R2 i); lia|]. cbn [zero_f]. f_equal. apply map_ext_in. intros u U.
  unfold zero. rewrite E. apply G. intros j J. specialize (R1 i u j U J). pose proof (R2 i). lia.
Qed.

Lemma zero_array n e : zero V (YArray n e) = MList (repeat (zero V e) n).
Proof. unfold zero. destruct (v_depth V); reflexivity. Qed.
Lemma zero_ptr e : zero V (YPtr e) = MPtr None.
Proof. unfold zero. destruct (v_depth V); reflexivity. Qed.

(** The content of a field, a nil pointer on the way standing for a zero struct. *)
Fixpoint peek (p : list pstep) (m : mem) : option mem :=
  match p, m with
  | [], _ => Some m
  | PIn i :: p', MList l => match nth_error l i with Some x => peek p' x | None => None end
  | PVia i s _ :: p', MList l =>
      match nth_error l i with
      | Some (MPtr (Some x)) => peek p' x
      | Some (MPtr None) => peek p' (zero V (YStruct s))
      | _ => None
      end
  | _, _ => None
  end.

Lemma peek_zero t p u : leads V t p u -> peek p (zero V t) = Some (zero V u).
Proof.
  induction 1 as [t|i k u p t N L IH|i k j un p t N L IH]; [destruct (zero V t); reflexivity| |]; rewrite zero_struct; cbn [peek].
  - rewrite nth_error_map, N. exact IH.
  - rewrite nth_error_map, N. cbn [option_map]. rewrite zero_ptr. exact IH.
Qed.

Lemma nth_split_eq {A} (l : list A) i x : nth_error l i = Some x -> exists l1 l2, l = l1 ++ x :: l2 /\ length l1 = i.
Proof. intros H. apply nth_error_split in H as (l1 & l2 & E & L). eauto. Qed.
Lemma nth_at {A} (l1 : list A) x l2 : nth_error (l1 ++ x :: l2) (length l1) = Some x.
Proof. induction l1; [reflexivity|exact IHl1]. Qed.
Lemma nth_off {A} (l1 : list A) x y l2 i : i <> length l1 -> nth_error (l1 ++ x :: l2) i = nth_error (l1 ++ y :: l2) i.
Proof.
  revert i. induction l1 as [|a l1 IH]; intros i N; cbn [app length] in *.
  - destruct i; [congruence|reflexivity].
  - destruct i; [reflexivity|]. cbn [nth_error]. apply IH. lia.
Qed.

(** A value can be stored in every field. *)
Lemma path_store (R : node -> mem -> mem -> Prop) p v w z : forall x, peek p x = Some w -> exported p -> R v w z -> exists y, at_path V R p v x y /\ get p y = Some z.
Proof.
  induction p as [|a p IH]; intros x P EX HR.
  - cbn [peek] in P. assert (x = w) by (destruct x; congruence). subst x. exists z. split; [constructor; exact HR|]. destruct z; reflexivity.
  - inversion EX as [|? ? E1 E2]; subst. destruct a as [i|i s un]; destruct x; cbn [peek] in P; try discriminate.
    + destruct (nth_error l i) as [x|] eqn:N; [|discriminate]. destruct (nth_split_eq _ _ _ N) as (l1 & l2 & -> & <-).
      destruct (IH x P E2 HR) as (y & A & G). exists (MList (l1 ++ y :: l2)). split; [constructor; exact A|]. cbn [get]. rewrite nth_at. exact G.
    + destruct (nth_error l i) as [x|] eqn:N; [|discriminate]. destruct (nth_split_eq _ _ _ N) as (l1 & l2 & -> & <-).
      destruct x; try discriminate. subst un. destruct p0 as [x|].
      * destruct (IH x P E2 HR) as (y & A & G). exists (MList (l1 ++ MPtr (Some y) :: l2)). split; [constructor; exact A|]. cbn [get]. rewrite nth_at. exact G.
      * destruct (IH _ P E2 HR) as (y & A & G). exists (MList (l1 ++ MPtr (Some y) :: l2)). split; [constructor; exact A|]. cbn [get]. rewrite nth_at. exact G.
Qed.
(** Storing one field does not change another. *)
Lemma store_peek R p v x y : at_path V R p v x y -> forall q, apart p q -> peek q y = peek q x.
Proof.
  induction 1 as [v x y H|l1 x l2 p v y H IH|l1 x l2 s u p v y H IH|l1 l2 s p v y H IH]; intros q AP; inversion AP as [a b p' q' NE|a p' q' AP']; subst.
  - cbn [idx] in NE. destruct b; cbn [peek idx] in *; rewrite (nth_off l1 y x) by congruence; reflexivity.
  - cbn [peek]. rewrite !nth_at. apply IH, AP'.
  - cbn [idx] in NE. destruct b; cbn [peek idx] in *; rewrite (nth_off l1 _ (MPtr (Some x))) by congruence; reflexivity.
  - cbn [peek]. rewrite !nth_at. apply IH, AP'.
  - cbn [idx] in NE. destruct b; cbn [peek idx] in *; rewrite (nth_off l1 _ (MPtr None)) by congruence; reflexivity.
  - cbn [peek]. rewrite !nth_at. apply IH, AP'.
Qed.
Lemma store_get R p v x y : at_path V R p v x y -> forall q z, apart p q -> get q x = Some z -> get q y = Some z.
Proof.
  induction 1 as [v x y H|l1 x l2 p v y H IH|l1 x l2 s u p v y H IH|l1 l2 s p v y H IH]; intros q z AP G; inversion AP as [a b p' q' NE|a p' q' AP']; subst.
  - cbn [idx] in NE. destruct b; cbn [get idx] in *; rewrite (nth_off l1 y x) by congruence; exact G.
  - cbn [get] in *. rewrite nth_at in *. eapply IH; eassumption.
  - cbn [idx] in NE. destruct b; cbn [get idx] in *; rewrite (nth_off l1 _ (MPtr (Some x))) by congruence; exact G.
  - cbn [get] in *. rewrite nth_at in *. eapply IH; eassumption.
  - cbn [idx] in NE. destruct b; cbn [get idx] in *; rewrite (nth_off l1 _ (MPtr None)) by congruence; exact G.
  - cbn [get] in *. rewrite nth_at in G. discriminate.
Qed.
Lemma direct_peek p : direct p = true -> forall m, peek p m = get p m.
Proof.
  induction p as [|a p IH]; intros D m; [destruct m; reflexivity|]. destruct a; [|discriminate]. destruct m; cbn [peek get]; try reflexivity.
  destruct (nth_error l i); [apply IH, D|reflexivity].
Qed.

(** [waits q m y]: the pointer on the way q that is nil in [m] is, or can
    become, nil in [y]. *)
Inductive waits : list pstep -> mem -> mem -> Prop :=
| wt_in i q lm ly xm xy : nth_error lm i = Some xm -> nth_error ly i = Some xy -> waits q xm xy -> waits (PIn i :: q) (MList lm) (MList ly)
| wt_nil i s u q lm ly : nth_error lm i = Some (MPtr None) -> nth_error ly i = Some (MPtr None) -> waits (PVia i s u :: q) (MList lm) (MList ly)
| wt_some i s u q lm ly xm xy : nth_error lm i = Some (MPtr (Some xm)) -> nth_error ly i = Some (MPtr (Some xy)) -> waits q xm xy ->
    waits (PVia i s u :: q) (MList lm) (MList ly)
| wt_new i s u q lm ly xm : nth_error lm i = Some (MPtr (Some xm)) -> nth_error ly i = Some (MPtr None) -> waits q xm (zero V (YStruct s)) ->
    waits (PVia i s u :: q) (MList lm) (MList ly).
Lemma waits_get q m y : waits q m y -> get q y = None.
Proof. induction 1 as [i q lm ly xm xy N1 N2 H IH|i s u q lm ly N1 N2|i s u q lm ly xm xy N1 N2 H IH|i s u q lm ly xm N1 N2 H IH]; cbn [get]; rewrite N2; auto. Qed.
Lemma waits_zero t q u : leads V t q u -> forall m, fits V t m -> get q m = None -> waits q m (zero V t).
Proof.
  induction 1 as [t|i k u p t N L IH|i k j un p t N L IH]; intros m FM G.
  - destruct m; discriminate.
  - inversion FM as [| | | | | | | | | | | | | | | | | | | |? l FL| | |]; subst. destruct (nth_fit V _ _ _ _ FL N) as (x & NX & FX). cbn [get] in G. rewrite NX in G.
    rewrite zero_struct. eapply wt_in; [exact NX|rewrite nth_error_map, N; reflexivity|]. apply IH; assumption.
  - inversion FM as [| | | | | | | | | | | | | | | | | | | |? l FL| | |]; subst. destruct (nth_fit V _ _ _ _ FL N) as (x & NX & FX). cbn [get] in G. rewrite NX in G.
    rewrite zero_struct. assert (NZ : nth_error (map (zero V) (v_decl V i)) k = Some (MPtr None)) by (rewrite nth_error_map, N; cbn [option_map]; rewrite zero_ptr; reflexivity).
    inversion FX as [| | | | | | | | | | | | | | | | | |?|? y FY| | | |]; subst.
    + eapply wt_nil; eassumption.
    + eapply wt_new; [exact NX|exact NZ|]. apply IH; assumption.
Qed.
Lemma store_waits R p v x y : at_path V R p v x y -> forall q m w, apart p q -> get p m = Some w -> waits q m x -> waits q m y.
Proof.
  induction 1 as [v x y H|l1 x l2 p v y H IH|l1 x l2 s u p v y H IH|l1 l2 s p v y H IH]; intros q m w AP G WT; inversion AP as [a b p' q' NE|a p' q' AP']; subst.
  - cbn [idx] in NE. inversion WT; subst; cbn [idx] in NE.
    + eapply wt_in; [eassumption|rewrite (nth_off l1 y x) by congruence; eassumption|assumption].
    + eapply wt_nil; [eassumption|rewrite (nth_off l1 y x) by congruence; eassumption].
    + eapply wt_some; [eassumption|rewrite (nth_off l1 y x) by congruence; eassumption|assumption].
    + eapply wt_new; [eassumption|rewrite (nth_off l1 y x) by congruence; eassumption|assumption].
  - inversion WT as [i q0 lm ly xm xy N1 N2 H0| | |]; subst. cbn [get] in G. rewrite N1 in G. rewrite nth_at in N2. injection N2 as <-.
    eapply wt_in; [exact N1|apply nth_at|]. eapply IH; eassumption.
  - cbn [idx] in NE. inversion WT; subst; cbn [idx] in NE.
    + eapply wt_in; [eassumption|rewrite (nth_off l1 _ (MPtr (Some x))) by congruence; eassumption|assumption].
    + eapply wt_nil; [eassumption|rewrite (nth_off l1 _ (MPtr (Some x))) by congruence; eassumption].
    + eapply wt_some; [eassumption|rewrite (nth_off l1 _ (MPtr (Some x))) by congruence; eassumption|assumption].
    + eapply wt_new; [eassumption|rewrite (nth_off l1 _ (MPtr (Some x))) by congruence; eassumption|assumption].
  - inversion WT as [|? ? ? ? ? ? N1 N2|? ? ? ? ? ? xm xy N1 N2 H0|? ? ? ? ? ? xm N1 N2 H0]; subst; rewrite nth_at in N2; try discriminate. injection N2 as <-.
    cbn [get] in G. rewrite N1 in G. eapply wt_some; [exact N1|apply nth_at|]. eapply IH; eassumption.
  - cbn [idx] in NE. inversion WT; subst; cbn [idx] in NE.
    + eapply wt_in; [eassumption|rewrite (nth_off l1 _ (MPtr None)) by congruence; eassumption|assumption].
    + eapply wt_nil; [eassumption|rewrite (nth_off l1 _ (MPtr None)) by congruence; eassumption].
    + eapply wt_some; [eassumption|rewrite (nth_off l1 _ (MPtr None)) by congruence; eassumption|assumption].
    + eapply wt_new; [eassumption|rewrite (nth_off l1 _ (MPtr None)) by congruence; eassumption|assumption].
  - inversion WT as [|? ? ? ? ? ? N1 N2|? ? ? ? ? ? xm xy N1 N2 H0|? ? ? ? ? ? xm N1 N2 H0]; subst; rewrite nth_at in N2; try discriminate.
    + cbn [get] in G. rewrite N1 in G. discriminate.
    + cbn [get] in G. rewrite N1 in G. eapply wt_some; [exact N1|apply nth_at|]. eapply IH; eassumption.
Qed.
End Zero.
