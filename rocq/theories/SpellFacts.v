(** Lemmas for C59. *)
From Verif Require Import Bytes ParseModel IntModel StringModel EncModel DecModel SpecJson SpecString SpecDec DecLoops IntFacts
  TypeModel SpecType SpecSpell.

Fixpoint nsize (nd : node) : nat :=
  let (_, h) := nd in
  match h with
  | HArr l => S (list_sum (map nsize l))
  | HObj l => S (list_sum (map (fun kv => match kv with (_, v) => nsize v end) l))
  | _ => 1%nat
  end.
Lemma f2_length {A B} (R : A -> B -> Prop) l l' : Forall2 R l l' -> length l = length l'.
Proof. induction 1; cbn; congruence. Qed.
Lemma nsize_arr s l nd : In nd l -> (nsize nd < nsize (ND s (HArr l)))%nat.
Proof.
  cbn [nsize]. unfold list_sum. induction l as [|v l IH]; cbn [map fold_right In]; [intros []|]. intros [->|H]; [lia|]. specialize (IH H). lia.
Qed.
Lemma nsize_obj s l k nd : In (k, nd) l -> (nsize nd < nsize (ND s (HObj l)))%nat.
Proof.
  cbn [nsize]. unfold list_sum. induction l as [|[k' v] l IH]; cbn [map fold_right In]; [intros []|]. intros [E|H]; [injection E as -> ->; lia|]. specialize (IH H). lia.
Qed.

(** [L]: which literals may stand for each other. *)
Section Spell.
Context (L : bytes -> bytes -> Prop) (LM : forall s s' t, L s s' -> str_means s t -> str_means s' t).

Inductive alike : node -> node -> Prop :=
| al_null s s' : alike (ND s HNull) (ND s' HNull)
| al_true s s' : alike (ND s HTrue) (ND s' HTrue)
| al_false s s' : alike (ND s HFalse) (ND s' HFalse)
| al_num s : alike (ND s HNum) (ND s HNum)
| al_str s s' : L s s' -> alike (ND s HStr) (ND s' HStr)
| al_arr s s' l l' : Forall2 alike l l' -> alike (ND s (HArr l)) (ND s' (HArr l'))
| al_obj s s' l l' : Forall2 (fun m m' => L (fst m) (fst m') /\ alike (snd m) (snd m')) l l' -> alike (ND s (HObj l)) (ND s' (HObj l')).

Context (V : tenv) (F : dflags) (P : gty -> Prop).
(** the types allowed *)
Hypothesis PE : forall i f, In f (v_flds V i) -> P (jf_ty f).
Hypothesis PN : forall t, P t -> keeps_no_text t.
Hypothesis PSub : forall t, P t -> match t with YArray _ e | YSlice e | YMap _ e | YPtr e => P e | _ => True end.
Hypothesis PT : forall t, P t -> match t with YTime | YDuration => forall s s', L s s' -> s = s' | _ => True end.
Hypothesis PA : P YIface /\ P (YInt TUint8).

Lemma ival_alike n : forall v v' y, (nsize v < n)%nat -> alike v v' -> ival (num V F) (erase v) y -> ival (num V F) (erase v') y.
Proof.
  induction n as [|n IH]; intros v v' y SZ A H; [lia|]. destruct A as [s s'|s s'|s s'|s|s s' E|s s' l l' E|s s' l l' E]; cbn [erase] in *; auto.
  - inversion H; subst. constructor. eauto.
  - inversion H as [| | | | |l0 vs FV|]; subst. constructor. clear H.
    assert (SZl : forall nd, In nd l -> (nsize nd < n)%nat) by (intros nd I; apply (nsize_arr s) in I; lia). clear SZ.
    revert vs FV. induction E as [|v v' l l' E1 E IHl]; cbn [map]; intros vs FV; inversion FV; subst; constructor.
    + eapply IH; [apply SZl; left; reflexivity| |]; eassumption.
    + apply IHl; [intros; apply SZl; right; assumption|assumption].
  - inversion H as [| | | | | |l0 kvs FV]; subst. constructor. clear H.
    assert (SZl : forall k nd, In (k, nd) l -> (nsize nd < n)%nat) by (intros k nd I; apply (nsize_obj s) in I; lia). clear SZ.
    revert kvs FV. induction E as [|[k v] [k' v'] l l' [E1 E2] E IHl]; cbn [map]; intros vs FV; inversion FV; subst; constructor; cbn [fst snd] in *.
    + destruct H1 as [K1 K2]. split; [eauto|]. eapply IH; [eapply SZl; left; reflexivity| |]; eassumption.
    + apply IHl; [intros; eapply SZl; right; eassumption|assumption].
Qed.

Lemma key_alike k s s' y : L s s' -> key_means V k s y -> key_means V k s' y.
Proof. intros E H. inversion H; subst; [eapply km_str|eapply km_int|eapply km_int_null|eapply km_text]; eauto. Qed.

Section Lists.
Context {A : Type} (R : node -> A -> A -> Prop) (z : A) (n : nat).
Hypothesis RA : forall v v' x y, (nsize v < n)%nat -> alike v v' -> R v x y -> R v' x y.
Lemma onto_alike l l' : Forall2 alike l l' -> (forall nd, In nd l -> (nsize nd < n)%nat) -> forall d ys, onto R z l d ys -> onto R z l' d ys.
Proof.
  induction 1 as [|v v' l l' E1 E IH]; intros SZ d ys H; [exact H|]. inversion H; subst. constructor.
  - eapply RA; [apply SZ; left; reflexivity| |]; eassumption.
  - apply IH; [intros; apply SZ; right; assumption|assumption].
Qed.
Lemma along_alike l l' : Forall2 alike l l' -> (forall nd, In nd l -> (nsize nd < n)%nat) -> forall d ys, along R l d ys -> along R l' d ys.
Proof.
  induction 1 as [|v v' l l' E1 E IH]; intros SZ d ys H; [exact H|]. inversion H; subst; [apply along_extra|constructor].
  - eapply RA; [apply SZ; left; reflexivity| |]; eassumption.
  - apply IH; [intros; apply SZ; right; assumption|assumption].
Qed.
Lemma slice_alike v v' x y : (nsize v < S n)%nat -> alike v v' -> slice_rel R z v x y -> slice_rel R z v' x y.
Proof.
  intros SZ E H. inversion H as [s0 x0|s l x0 ys c H1 H2]; subst; inversion E; subst; [constructor|].
  match goal with FF : Forall2 alike _ _ |- _ => rename FF into FA end. clear H.
  pose proof (f2_length _ _ _ FA) as EL. rewrite EL. constructor; [|rewrite <- EL; exact H2]. eapply (onto_alike _ _ FA); [|exact H1].
  intros nd I. apply (nsize_arr s) in I. lia.
Qed.
Lemma array_alike v v' x y : (nsize v < S n)%nat -> alike v v' -> array_rel R v x y -> array_rel R v' x y.
Proof.
  intros SZ E H. inversion H as [s0 x0|s l x0 ys H1 H2]; subst; inversion E; subst; [constructor|].
  match goal with FF : Forall2 alike _ _ |- _ => rename FF into FA end.
  constructor; [intros ->; inversion FA; subst; auto|]. eapply (along_alike _ _ FA); [|exact H2].
  intros nd I. apply (nsize_arr s) in I. lia.
Qed.
Lemma map_alike {K} (keym : bytes -> K -> Prop) eqb v v' x y : (forall s s' k, L s s' -> keym s k -> keym s' k) ->
  (nsize v < S n)%nat -> alike v v' -> map_rel R z keym eqb v x y -> map_rel R z keym eqb v' x y.
Proof.
  intros KA SZ E H. inversion H as [s0 x0|s l x0 kvs H1]; subst; inversion E; subst; [constructor|]. constructor.
  match goal with FF : Forall2 (fun m m' => L (fst m) (fst m') /\ _) l _ |- _ => rename FF into FA end.
  assert (SZl : forall k nd, In (k, nd) l -> (nsize nd < n)%nat) by (intros k nd I; apply (nsize_obj s) in I; lia). clear SZ H E. revert kvs H1.
  induction FA as [|[k v] [k' v'] l l' [E1 E2] E IHl]; intros kvs H1; inversion H1 as [|? kv ? kvs' [K1 K2] H3]; subst; constructor; cbn [fst snd] in *.
  - split; [cbn [fst] in *; eauto|]. cbn [snd] in *. eapply RA; [eapply SZl; left; reflexivity| |]; eassumption.
  - apply IHl; [intros; eapply SZl; right; eassumption|assumption].
Qed.
End Lists.

Lemma path_alike (R R' : node -> mem -> mem -> Prop) p v v' x y : (forall x y, R v x y -> R' v' x y) -> at_path V R p v x y -> at_path V R' p v' x y.
Proof. intros RR H. induction H; constructor; auto. Qed.

Lemma shape_alike v v' : alike v v' -> nshape v <> HNull -> nshape v' <> HNull.
Proof. intros E. inversion E; subst; cbn; congruence. Qed.

Lemma stores_alike n : forall t v v' x y, P t -> (nsize v < n)%nat -> alike v v' -> stores V F t v x y -> stores V F t v' x y.
Proof.
  induction n as [|n IH]; [lia|].
  induction t as [|it|w| | | | | | |em| |k e IHe|e IHe|k e IHe| | |e IHe|i|u|u|]; intros v v' x y PP SZ A H;
    pose proof (PSub _ PP) as PS; pose proof (PN _ PP) as NT; pose proof (PT _ PP) as TT; cbn [keeps_no_text] in NT; try contradiction; cbv iota in PS, TT.
  1-5: solve [inversion H; subst; inversion A; subst; econstructor; eauto].
  - inversion H; subst; try solve [inversion A; subst; econstructor; eauto]. apply st_bytes_arr. eapply (slice_alike _ _ n); [|exact SZ|exact A|eassumption].
    intros v1 v2 x1 y1 S1 A1 K1. cbn beta in *. eapply IH; [apply PA|exact S1|exact A1|exact K1].
  - inversion H; subst; inversion A; subst; try solve [econstructor; eauto].
    match goal with E : L _ _ |- _ => apply TT in E; subst; constructor; assumption end.
  - inversion H; subst; inversion A; subst; try solve [econstructor; eauto].
    match goal with E : L _ _ |- _ => apply TT in E; subst; constructor; assumption end.
  - inversion H; subst; [contradiction|]. constructor. eapply ival_alike; eassumption.
  - inversion H; subst; [contradiction| |].
    + inversion A; subst. constructor.
    + constructor; [eapply shape_alike; eassumption|]. eapply ival_alike; eassumption.
  - inversion H; subst; [contradiction|]. constructor; [reflexivity|]. eapply (array_alike _ n); [|exact SZ|exact A|eassumption].
    intros v1 v2 x1 y1 S1 A1 K1. eapply IH; eassumption.
  - inversion H; subst; [contradiction|]. constructor. eapply (slice_alike _ _ n); [|exact SZ|exact A|eassumption].
    intros v1 v2 x1 y1 S1 A1 K1. eapply IH; eassumption.
  - inversion H; subst; [contradiction|]. constructor. eapply (map_alike _ _ n); [|intros; eapply key_alike; eassumption|exact SZ|exact A|eassumption].
    intros v1 v2 x1 y1 S1 A1 K1. eapply IH; eassumption.
  - inversion H as [| | | | | | | | | | | | | | | | | | |v0 x0 y0 H0| | | | | | |]; subst; [contradiction|]. constructor. inversion H0; subst; [contradiction|]. constructor.
    eapply (map_alike _ _ n); [|intros; eapply key_alike; eassumption|exact SZ|exact A|eassumption].
    intros v1 v2 x1 y1 S1 A1 K1. eapply IH; try eassumption. apply PA.
  - inversion H; subst; [contradiction|inversion A; subst; constructor; assumption| |].
    + inversion A; subst. apply st_ptr_ptr. eapply IHe; try eassumption.
    + constructor; [eapply shape_alike; eassumption|]. eapply IHe; eassumption.
  - inversion H as [| | | | | | | | | | | | | | | | | | | | | | | |i0 v0 x0 y0 H0| |]; subst; [contradiction|]. constructor. inversion H0 as [s0 x1|s l x1 y1 M]; subst; inversion A; subst; [constructor|].
    match goal with FF : Forall2 (fun m m' => L (fst m) (fst m') /\ _) l _ |- _ => rename FF into FA end. constructor. clear H H0 A.
    assert (SZl : forall k nd, In (k, nd) l -> (nsize nd < n)%nat) by (intros k nd I; apply (nsize_obj s) in I; lia). clear SZ.
    revert M. generalize (MList x0) as m. revert y. induction FA as [|[k v] [k' v'] l l' [E1 E2] E IHl]; intros y m M; inversion M as [|lit kt v2 l2 m2 y2 z2 SM ME MR]; subst; [constructor|].
    cbn [fst snd] in *. eapply mem_cons; [eauto| |apply IHl; [intros; eapply SZl; right; eassumption|exact MR]].
    inversion ME as [i1 k1 v1 x1 PK DA|i1 k1 f v1 x1 y1 PK AP]; subst; [apply me_unknown; assumption|]. eapply me_field; [exact PK|].
    assert (Pf : P (jf_ty f)).
    { inversion PK as [l1 f0 l2 EF _ _|l1 f0 l2 _ _ EF _ _|]; subst; eapply PE; rewrite EF; apply in_or_app; right; left; reflexivity. }
    eapply path_alike; [|exact AP]. assert (SZv : (nsize v < n)%nat) by (eapply SZl; left; reflexivity). intros x1 z1 Q. inversion Q; subst.
    + apply qu_no; [assumption|]. eapply IH; eassumption.
    + inversion E2; subst. apply qu_null; [assumption|]. eapply IH; eassumption.
    + inversion E2; subst. eapply qu_str; eauto.
    + inversion E2; subst. eapply qu_int; eauto.
  - inversion H; subst; inversion A; subst; econstructor; eauto.
  - inversion H; subst. contradiction.
Qed.
End Spell.
