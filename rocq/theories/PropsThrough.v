(** Theorems about texts that pass through RawMessages: C107. *)
From Verif Require Import Bytes ParseModel IntModel StringModel TokenModel EncModel DecModel SpecJson SpecRender SpecColor SpecRaw SpecSum SpecThrough
  ParseFacts RawFacts EncMain TextFacts DocFacts RawText Unambig PropsEnc PropsScan
  TypeModel SpecType ViewModel ViewFacts TripClean NodeFacts TypeFacts TripType PropsType PropsTrip PropsAgain PropsPart.

Section Through.
Context (V : tenv) (W : menv) (F : dflags).
Section Doc.
Context (html sorted trust : bool).
(** The value is one that is written as the tree a. *)
Definition writes (a : jast) (g : gval) : Prop :=
  clean sorted trust false g /\ vdoc html sorted trust g (jdoc html a) /\ forall z, vdoc html sorted trust g z -> z = jdoc html a.
Lemma raw_writes s a : jvalue s a -> writes a (GRaw (Some s)).
Proof.
  intros J. pose proof (proj1 jvalue_wf s a J) as WS. assert (R : raw_text trust s a) by (unfold raw_text; destruct trust; [apply jvalue_jtext|]; exact J).
  split; [cbn; split; [exact WS|left; eauto]|]. split; [now constructor|]. intros z H. inversion H; subst.
  f_equal. match goal with Q : raw_text trust s ?b |- ?b = a => unfold raw_text in R, Q; destruct trust; [exact (jtext_unique s b a Q R)|exact (jvalue_unique s b a Q R)] end.
Qed.
Lemma slice_writes l gs : Forall2 writes l gs -> writes (JArr l) (GSlice (Some gs)).
Proof.
  intros H. split; [|split].
  - cbn. apply all_map. induction H as [|a g l gs (A & _) H IH]; constructor; auto.
  - cbn [jdoc]. apply vd_slice. induction H as [|a g l gs (_ & B & _) H IH]; constructor; auto.
  - intros z Z. inversion Z; subst. cbn [jdoc]. f_equal. match goal with X : Forall2 _ gs xs |- _ => revert xs X Z end.
    induction H as [|a g l gs (_ & _ & D) H IH]; intros xs X Z; inversion X; subst; [reflexivity|]. cbn [map]. f_equal; [now apply D|]. apply IH; [assumption|now constructor].
Qed.
Lemma ptr_writes a g : writes a g -> writes a (GPtr (Some g)).
Proof. intros (A & B & D). split; [exact A|]. split; [now constructor|]. intros z Z. inversion Z; subst. now apply D. Qed.
Lemma null_writes g : In g [GSlice None; GPtr None] -> writes JNull g.
Proof. intros [<-|[<-|[]]]; (split; [exact I|split; [constructor|]]); intros z Z; inversion Z; reflexivity. Qed.
Lemma carried n t : carrier t -> forall nd x y, jnode nd -> stores V F t nd x y -> exists g, view V W n t y = Some g /\ writes (erase nd) g.
Proof.
  induction t as [ | | | | | | | | | | |k e IH|e IH|k e IH| | |e IH| | | | ]; cbn [carrier]; intros C nd x y J S; try contradiction.
  - inversion S; subst; [contradiction|]. exists (GRaw (Some (ntext nd))). split; [rewrite view_eq; reflexivity|]. now apply raw_writes, jnode_jvalue.
  - assert (Q : exists x0 y0, x = MSlice x0 /\ y = MSlice y0 /\ slice_rel (stores V F e) (zero V e) nd x0 y0) by (inversion S; subst; [contradiction|eauto]). destruct Q as (x0 & y0 & -> & -> & SR). inversion SR as [s|s l ? ys c O G]; subst.
    + exists (GSlice None). split; [rewrite view_eq; reflexivity|]. apply null_writes. now left.
    + assert (JL : Forall jnode l) by (inversion J; subst; [constructor|eapply nelems_all; eassumption]).
      assert (X : exists gs, opt_list (map (view V W n e) ys) = Some gs /\ Forall2 writes (map erase l) gs /\ length ys = length l).
      { clear - O JL IH C. revert ys O. generalize (backing x0). induction JL as [|nd l J JL IHl]; intros d ys O; inversion O as [|? ? ? y' ys' A B]; subst; [exists []; repeat split; constructor|].
        destruct (IH C nd _ y' J A) as (g & E & Wr). destruct (IHl _ ys' B) as (gs & E' & F2 & LN). exists (g :: gs). cbn [map opt_list]. rewrite E, E'. split; [reflexivity|]. split; [now constructor|]. cbn. now f_equal. }
      destruct X as (gs & E & F2 & LN). exists (GSlice (Some gs)). split; [|cbn [erase]; now apply slice_writes].
      rewrite view_eq. rewrite <- LN, firstn_app, Nat.sub_diag, firstn_all, firstn_O, app_nil_r, E. reflexivity.
  - assert (NUL : forall s, exists g, view V W n (YPtr e) (MPtr None) = Some g /\ writes (erase (ND s HNull)) g).
    { intros s. exists (GPtr None). split; [rewrite view_eq; reflexivity|]. apply null_writes. right. now left. }
    inversion S; subst; [contradiction|apply NUL| |];
      match goal with Q : stores V F e ?m _ _ |- _ => destruct (IH C m _ _ J Q) as (g & E & Wr) | Q : stores V F (YPtr _) ?m ?p ?q |- _ => destruct (IH C m p q J Q) as (g & E & Wr) end;
      exists (GPtr (Some g)); (split; [rewrite view_eq, E; reflexivity|now apply ptr_writes]).
Qed.
End Doc.
Lemma written c a g : e_clrs c = None -> writes (e_html c) (e_sort c) (e_trust c) a g -> forall b d, enc c g b d = ER (b ++ render (e_html c) None (e_ind c) d (jdoc (e_html c) a)) d None.
Proof.
  intros K (A & B & D) b d. destruct (C33_encode_spec_partial c g b d A (or_introl K)) as [(x & X & E)|(N & _)]; [|exfalso; exact (N _ B)]. rewrite E, K, (D x X). reflexivity.
Qed.

(** * C107: a text passes unread through RawMessages *)
(** A text read into RawMessages, with any slices and pointers around them, whatever was
    there before, is written again as if it had been one RawMessage. *)
Theorem C107_through c n t s a x y : env_ok V -> carrier t -> e_clrs c = None -> jtext s a -> unmarshal V F t s x = (None, y) ->
  exists g, view V W n t y = Some g /\ forall b d, enc c g b d = enc c (GRaw (Some (squeeze s))) b d.
Proof.
  intros OK C K J U. destruct (text_framed s a J) as (nd & FR & EA). apply (framed_iff V F t s nd) in U; [|exact OK|exact FR].
  destruct FR as (w1 & w2 & _ & _ & JN & _). destruct (carried (e_html c) (e_sort c) (e_trust c) n t C nd x y JN U) as (g & E & Wr). rewrite EA in Wr.
  exists g. split; [exact E|]. intros b d. rewrite (written c a g K Wr).
  assert (JC : jvalue (squeeze s) a) by (rewrite (squeeze_text s a J); apply (text_value None); [exact I|now apply (jtext_ok s)]).
  rewrite (written c a _ K (raw_writes _ _ _ _ _ JC)). reflexivity.
Qed.
(** Without HTML escaping and layout this is the text itself without its layout: every
    number, every escape, every member and every duplicate as it was spelled. *)
Theorem C107_unread c n t s a x y : env_ok V -> carrier t -> e_clrs c = None -> e_html c = false -> e_ind c = None -> jtext s a -> unmarshal V F t s x = (None, y) ->
  exists g, view V W n t y = Some g /\ outcome c g = Some (inl (squeeze s)).
Proof.
  intros OK C K H N J U. destruct (C107_through c n t s a x y OK C K J U) as (g & E & X). exists g. split; [exact E|]. unfold outcome. rewrite X.
  assert (JC : jvalue (squeeze s) a) by (rewrite (squeeze_text s a J); apply (text_value None); [exact I|now apply (jtext_ok s)]).
  rewrite (written c a _ K (raw_writes _ _ _ _ _ JC)). rewrite H, N. cbn [app]. now rewrite (squeeze_text s a J).
Qed.
(** A RawMessage takes every JSON text. *)
Theorem C107_accepts s a x : env_ok V -> jtext s a -> exists v w1 w2, s = w1 ++ v ++ w2 /\ ws w1 /\ ws w2 /\ jvalue v a /\ unmarshal V F YRaw s (MRaw x) = (None, MRaw (Some v)).
Proof.
  intros OK J. destruct (text_framed s a J) as (nd & FR & EA). pose proof FR as (w1 & w2 & E & W1 & JN & W2). exists (ntext nd), w1, w2. rewrite <- EA.
  repeat split; try assumption; [now apply jnode_jvalue|]. apply (framed_iff V F YRaw s nd); [exact OK|exact FR|apply st_raw].
Qed.
End Through.
Print Assumptions C107_through.
Print Assumptions C107_unread.
Print Assumptions C107_accepts.

(** Non-vacuity, and why maps are left out: spellings, duplicate names and the order of
    members come through a slice of pointers to RawMessages, not through a map. *)
Definition th_cfg : cfg := Cfg false true false None None (fun _ _ _ => None).
Definition th_text : bytes := bs " [ {""b"": 1.50, ""a"": ""A"", ""b"": [ ]} , null, 1e2 ]".
Example C107_holds : env_ok ex_env /\ carrier (YSlice (YPtr YRaw)) /\ (exists a, jtext th_text a) /\
  exists y g, unmarshal ex_env ex_flags (YSlice (YPtr YRaw)) th_text (MSlice (Some (1%nat, [MPtr (Some (MRaw (Some (bs "7"))))]))) = (None, y) /\
    view ex_env rf_menv 0 (YSlice (YPtr YRaw)) y = Some g /\ outcome th_cfg g = Some (inl (bs "[{""b"":1.50,""a"":""A"",""b"":[]},null,1e2]")) /\
    squeeze th_text = bs "[{""b"":1.50,""a"":""A"",""b"":[]},null,1e2]".
Proof.
  split; [exact ex_env_ok|]. split; [exact I|]. split; [apply is_text; vm_compute; reflexivity|]. eexists _, _. split; [vm_compute; reflexivity|].
  split; [vm_compute; reflexivity|]. split; vm_compute; reflexivity.
Qed.
Theorem C107_map_refuted : exists s a y g, jtext s a /\ unmarshal ex_env ex_flags YMapSR s (MMap None) = (None, y) /\ view ex_env rf_menv 0 YMapSR y = Some g /\
  outcome th_cfg g <> Some (inl (squeeze s)).
Proof.
  destruct (is_text (bs "{""b"":1,""a"":2,""b"":3}") eq_refl eq_refl) as (a & J). exists (bs "{""b"":1,""a"":2,""b"":3}"), a. eexists _, _. split; [exact J|].
  split; [vm_compute; reflexivity|]. split; [vm_compute; reflexivity|]. vm_compute. congruence.
Qed.
Print Assumptions C107_map_refuted.
