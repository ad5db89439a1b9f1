(** Lemmas for C96. *)
From Verif Require Import Bytes ParseModel IntModel StringModel EncModel DecModel SpecJson SpecString SpecDec DecLoops IntFacts
  TypeModel SpecType SpecFlags TypeFacts SpellFacts WhereUnique AgainFacts.
Local Open Scope nat_scope.

Section Mono.
Context {A : Type} (R R' : node -> A -> A -> Prop) (z0 : A).
Definition into (v : node) : Prop := forall x y, R v x y -> R' v x y.
Lemma onto_into l d ys : Forall into l -> onto R z0 l d ys -> onto R' z0 l d ys.
Proof. intros FI O. induction O as [d|v l d y ys H O IH]; [constructor|]. inversion FI; subst. constructor; auto. Qed.
Lemma slice_into v x y : (forall w, In w (arr_of v) -> into w) -> slice_rel R z0 v x y -> slice_rel R' z0 v x y.
Proof. intros FI H. inversion H as [|s l ? ys c O G]; subst; [constructor|]. constructor; [|exact G]. apply onto_into; [|exact O]. apply Forall_forall. exact FI. Qed.
Lemma along_into l d ys : Forall into l -> along R l d ys -> along R' l d ys.
Proof. intros FI O. induction O as [d|l|v l x d y ys H O IH]; [constructor|constructor|]. inversion FI; subst. constructor; auto. Qed.
Lemma array_into v x y : (forall w, In w (arr_of v) -> into w) -> array_rel R v x y -> array_rel R' v x y.
Proof. intros FI H. inversion H as [|s l ? ? E O]; subst; [constructor|]. constructor; [exact E|]. apply along_into; [|exact O]. apply Forall_forall. exact FI. Qed.
Lemma map_into {K} (keym : bytes -> K -> Prop) eqb v x y : (forall lit w, In (lit, w) (obj_of v) -> into w) -> map_rel R z0 keym eqb v x y -> map_rel R' z0 keym eqb v x y.
Proof.
  intros FI H. inversion H as [|s l ? kvs E]; subst; [constructor|]. constructor. unfold obj_of in FI. cbn [nshape] in FI. clear H. induction E as [|[lit w] [k a] l kvs [E1 E2] E IH]; [constructor|].
  constructor; [split; [exact E1|]; apply (FI lit w); [now left|exact E2]|]. apply IH. intros lit' w' I. apply (FI lit' w'). now right.
Qed.
End Mono.
Lemma path_into V (R R' : node -> mem -> mem -> Prop) p v x y : (forall x y, R v x y -> R' v x y) -> at_path V R p v x y -> at_path V R' p v x y.
Proof. intros HR H. induction H; try (constructor; auto; fail). Qed.

Section Flags.
Context (V : tenv) (F F' : dflags) (OK : env_ok V) (K : bytes -> Prop).
Context (DD : d_disallow F = false -> d_disallow F' = false).
Context (PK : forall lit k i o, K lit -> str_means lit k -> picks V F (v_flds V i) k o -> picks V F' (v_flds V i) k o).
Definition calm (t : gty) : Prop := d_usenum F = d_usenum F' \/ no_iface t.
Context (CE : forall i f, In f (v_flds V i) -> calm (jf_ty f)).
Definition keyed (n : nat) (v : node) : Prop := nsize v < n /\ Forall K (keys_in (erase v)).
Lemma keyed_arr n v w : keyed n v -> In w (arr_of v) -> keyed n w.
Proof.
  destruct v as [s h]. intros [B FK] I. unfold arr_of in I. cbn [nshape] in I. destruct h; try contradiction. split; [apply (nsize_arr s) in I; lia|].
  rewrite Forall_forall in *. intros k Ik. apply FK. cbn [erase keys_in]. apply in_flat_map. exists (erase w). split; [now apply in_map|exact Ik].
Qed.
Lemma keyed_obj n v lit w : keyed (S n) v -> In (lit, w) (obj_of v) -> K lit /\ keyed n w.
Proof.
  destruct v as [s h]. intros [B FK] I. unfold obj_of in I. cbn [nshape] in I. destruct h; try contradiction. cbn [erase keys_in] in FK. rewrite Forall_forall in FK.
  assert (G : forall k, In k (lit :: keys_in (erase w)) -> K k).
  { intros k Ik. apply FK. apply in_flat_map. exists (lit, erase w). split; [|exact Ik]. apply in_map_iff. exists (lit, w). auto. }
  split; [apply G; now left|]. split; [apply (nsize_obj s) in I; lia|]. apply Forall_forall. intros k Ik. apply G. now right.
Qed.
Lemma num_same : d_usenum F = d_usenum F' -> num V F = num V F'.
Proof. intros E. unfold num. now rewrite E. Qed.
Lemma leaf_into t v : match t with YArray _ _ | YSlice _ | YMap _ _ | YMapSI | YMapSR | YPtr _ | YStruct _ => False | _ => True end -> calm t -> into (stores V F t) (stores V F' t) v.
Proof.
  intros LF C x y H. inversion H; subst; try contradiction; try (econstructor; eassumption).
  - match goal with S : slice_rel _ _ _ _ _ |- _ => rename S into S0 end. apply st_bytes_arr. eapply slice_into; [|exact S0]. intros w _ a b Sw. inversion Sw; subst; econstructor; eassumption.
  - destruct C as [C|[]]. apply st_iface. rewrite <- (num_same C). assumption.
  - destruct C as [C|[]]. apply st_named; [assumption|]. rewrite <- (num_same C). assumption.
Qed.
Lemma ptr_into e v : into (stores V F e) (stores V F' e) v -> (forall s, into (stores V F (YPtr e)) (stores V F' (YPtr e)) (ND s HNull)) -> into (stores V F (YPtr e)) (stores V F' (YPtr e)) v.
Proof.
  intros HI HN x y H. destruct (nshape v) eqn:EV; try (inversion H; subst; try contradiction; cbn [nshape] in EV; try discriminate; apply st_ptr; [congruence|now apply HI]; fail).
  destruct v as [s h]. cbn [nshape] in EV. subst h. now apply HN.
Qed.
Lemma null_into e s : into (stores V F (YPtr e)) (stores V F' (YPtr e)) (ND s HNull).
Proof.
  induction e; intros x y H; inversion H; subst; try contradiction; try (now apply st_ptr_null); try (exfalso; match goal with N : nshape _ <> _ |- _ => now apply N end).
  apply st_ptr_ptr. now apply IHe.
Qed.
Lemma quotable_into t v : quotable t -> into (stores V F t) (stores V F' t) v.
Proof.
  revert v. induction t; intros v QT; try contradiction; try (apply leaf_into; [exact I|right; exact I]). apply ptr_into; [|intros s; apply null_into]. apply IHt. cbn [quotable] in QT. destruct t; auto; contradiction.
Qed.
Lemma quoted_into q t v : (q <> QNo -> quotable t) -> into (stores V F t) (stores V F' t) v -> into (quoted q (stores V F t)) (quoted q (stores V F' t)) v.
Proof.
  intros QT HI x y H. inversion H as [v0 x0 y0 Q S|s x0 y0 Q S|s v0 w x0 y0 Q SM W J' S|s t0 v0 x0 y0 Q SM NE UZ J' S]; subst.
  - now apply qu_no; [|apply HI].
  - now apply qu_null; [|apply HI].
  - eapply qu_str; try eassumption; [reflexivity|]. apply quotable_into; [apply QT; discriminate|exact S].
  - eapply qu_int; try eassumption; [reflexivity|]. apply quotable_into; [apply QT; discriminate|exact S].
Qed.
Lemma calm_sub t : calm t -> match t with YArray _ e | YSlice e | YMap _ e | YPtr e => calm e | YMapSI => d_usenum F = d_usenum F' | _ => True end.
Proof. intros [C|C]; destruct t; try exact I; try exact C; try (left; exact C); try (right; exact C); contradiction. Qed.
Lemma stores_into n : forall t, calm t -> forall v, keyed n v -> into (stores V F t) (stores V F' t) v.
Proof.
  induction n as [|n IHn]; intros t CT; [intros v [B _]; lia|].
  induction t as [| | | | | | | | | | |k e IHe|e IHe|k e IHe| | |e IHe|i| | |]; intros v Wv; try (apply leaf_into; [exact I|exact CT]); pose proof (calm_sub _ CT) as CS; cbn [calm_sub] in CS.
  - intros x y H. inversion H; subst; [contradiction|]. apply st_array; [reflexivity|]. eapply array_into; [|eassumption]. intros w I. apply (IHe CS). eapply keyed_arr; eassumption.
  - intros x y H. inversion H; subst; [contradiction|]. apply st_slice. eapply slice_into; [|eassumption]. intros w I. apply (IHe CS). eapply keyed_arr; eassumption.
  - intros x y H. inversion H; subst; [contradiction|]. apply st_map. eapply map_into; [|eassumption]. intros lit w I. apply (IHn e CS). eapply keyed_obj; eassumption.
  - intros x y H. inversion H as [| | | | | | | | | | | | | | | | | | |? ? ? S| | | | | | |]; subst; [contradiction|]. apply st_map_si. inversion S; subst; [contradiction|]. apply st_map. eapply map_into; [|eassumption]. intros lit w _. apply leaf_into; [exact I|left; exact CS].
  - intros x y H. inversion H as [| | | | | | | | | | | | | | | | | | | |? ? ? S| | | | | |]; subst; [contradiction|]. apply st_map_sr. inversion S; subst; [contradiction|]. apply st_map. eapply map_into; [|eassumption]. intros lit w _. apply leaf_into; [exact I|right; exact I].
  - apply ptr_into; [now apply (IHe CS)|intros s; apply null_into].
  - intros x y H. inversion H as [? ? ? NK| | | | | | | | | | | | | | | | | | | | | | | |i' v' l0 y' H1| |]; subst; [contradiction|]. apply st_struct. inversion H1 as [s ?|s l ? ? MR]; subst; [constructor|]. constructor.
    assert (FW : forall lit w, In (lit, w) l -> K lit /\ keyed n w) by (intros lit w I; exact (keyed_obj n _ lit w Wv I)). clear H H1 Wv.
    induction MR as [x|lit k w l x y0 z SM M MR IH]; [constructor|]. destruct (FW lit w ltac:(now left)) as [KL Kw]. econstructor; [exact SM| |apply IH; intros lit0 w0 I0; apply FW; now right]. clear IH MR.
    inversion M as [? ? ? ? P1 D1|? ? f ? ? ? P1 AP]; subst; [apply me_unknown; [now apply (PK lit)|now apply DD]|].
    pose proof (picks_in V F _ _ _ P1) as INf. apply (me_field V F' i k f w x y0 (PK lit k i (Some f) KL SM P1)). eapply path_into; [|exact AP]. intros a b. apply quoted_into; [intros NQ; exact (ok_quot V OK i f INf NQ)|]. apply IHn; [now apply (CE i)|exact Kw].
Qed.
End Flags.
