(** Syntax trees with texts (SpecType.v) and the grammar of SpecJson.v. *)
From Verif Require Import Bytes ParseModel IntModel StringModel EncModel DecModel SpecJson SpecString SpecDec TypeModel ParseFacts DecLoops DecFacts SpecType.

Scheme jnode_ind' := Induction for jnode Sort Prop
  with nelems_ind' := Induction for nelems Sort Prop
  with nmembers_ind' := Induction for nmembers Sort Prop.
Combined Scheme node_mutind from jnode_ind', nelems_ind', nmembers_ind'.

Lemma node_jvalue_all :
  (forall nd, jnode nd -> jvalue (ntext nd) (erase nd)) /\
  (forall s l, nelems s l -> jelems s (map erase l)) /\
  (forall s l, nmembers s l -> jmembers s (map (fun kv => match kv with (k, v) => (k, erase v) end) l)).
Proof.
  apply node_mutind; intros; cbn [ntext erase map] in *; try (constructor; assumption).
  - apply (M_one _ (k, erase v)). apply (M_intro w1 k w2 w3 (ntext v) (erase v) w4); assumption.
  - replace (w1 ++ k ++ w2 ++ 58 :: w3 ++ ntext v ++ w4 ++ 44 :: t) with ((w1 ++ k ++ w2 ++ 58 :: w3 ++ ntext v ++ w4) ++ 44 :: t)
      by (repeat rewrite <- app_assoc; cbn [app]; repeat rewrite <- app_assoc; reflexivity).
    apply (M_cons _ (k, erase v)); [|assumption]. apply (M_intro w1 k w2 w3 (ntext v) (erase v) w4); assumption.
Qed.
Lemma jnode_jvalue nd : jnode nd -> jvalue (ntext nd) (erase nd).
Proof. apply node_jvalue_all. Qed.

Lemma jvalue_node_all :
  (forall s a, jvalue s a -> exists nd, ntext nd = s /\ erase nd = a /\ jnode nd) /\
  (forall s l, jelems s l -> exists ns, map erase ns = l /\ nelems s ns) /\
  (forall s l, jmembers s l -> exists ns, map (fun kv => match kv with (k, v) => (k, erase v) end) ns = l /\ nmembers s ns) /\
  (forall s kv, jmember s kv -> exists w1 w2 w3 nd w4, s = w1 ++ fst kv ++ w2 ++ 58 :: w3 ++ ntext nd ++ w4 /\ ws w1 /\ ws w2 /\ ws w3 /\ ws w4 /\
     string_lit (fst kv) /\ jnode nd /\ erase nd = snd kv).
Proof.
  apply json_mutind.
  - exists (ND (bs "null") HNull). repeat split; constructor.
  - exists (ND (bs "true") HTrue). repeat split; constructor.
  - exists (ND (bs "false") HFalse). repeat split; constructor.
  - intros s H. exists (ND s HNum). repeat split; constructor; exact H.
  - intros s H. exists (ND s HStr). repeat split; constructor; exact H.
  - intros w H. exists (ND (91 :: w ++ [93]) (HArr [])). repeat split; constructor; exact H.
  - intros s l _ (ns & E & H). exists (ND (91 :: s ++ [93]) (HArr ns)). cbn [erase]. rewrite E. repeat split; constructor; exact H.
  - intros w H. exists (ND (123 :: w ++ [125]) (HObj [])). repeat split; constructor; exact H.
  - intros s l _ (ns & E & H). exists (ND (123 :: s ++ [125]) (HObj ns)). cbn [erase]. rewrite E. repeat split; constructor; exact H.
  - intros w1 s v w2 W1 _ (nd & <- & <- & J) W2. exists [nd]. split; [reflexivity|]. constructor; assumption.
  - intros w1 s v w2 t l W1 _ (nd & <- & <- & J) W2 _ (ns & <- & H). exists (nd :: ns). split; [reflexivity|]. constructor; assumption.
  - intros m kv _ (w1 & w2 & w3 & nd & w4 & -> & W1 & W2 & W3 & W4 & SL & J & E). destruct kv as [k v]. cbn [fst snd] in *. subst v.
    exists [(k, nd)]. split; [reflexivity|]. constructor; assumption.
  - intros m kv t l _ (w1 & w2 & w3 & nd & w4 & -> & W1 & W2 & W3 & W4 & SL & J & E) _ (ns & <- & H). destruct kv as [k v]. cbn [fst snd] in *. subst v.
    exists ((k, nd) :: ns). split; [reflexivity|].
    replace ((w1 ++ k ++ w2 ++ 58 :: w3 ++ ntext nd ++ w4) ++ 44 :: t) with (w1 ++ k ++ w2 ++ 58 :: w3 ++ ntext nd ++ w4 ++ 44 :: t)
      by (repeat rewrite <- app_assoc; cbn [app]; repeat rewrite <- app_assoc; reflexivity).
    constructor; assumption.
  - intros w1 k w2 w3 s v w4 W1 SL W2 W3 _ (nd & <- & <- & J) W4. exists w1, w2, w3, nd, w4. cbn [fst snd]. tauto.
Qed.
Lemma jvalue_node s a : jvalue s a -> exists nd, ntext nd = s /\ erase nd = a /\ jnode nd.
Proof. apply jvalue_node_all. Qed.

(** A number is followed by something that ends it; other values end by themselves. *)
Definition stops (nd : node) (r : bytes) : Prop := match nshape nd with HNum => num_stop r | _ => True end.
Lemma stop_any nd r : num_stop r -> stops nd r.
Proof. unfold stops. destruct (nshape nd); auto. Qed.
Lemma stops_num nd r : nshape nd = HNum -> stops nd r -> num_stop r.
Proof. unfold stops. intros ->. auto. Qed.
Lemma stops_number nd r : jnode nd -> stops nd r -> number_lit (ntext nd) -> num_stop r.
Proof.
  intros J. unfold stops. destruct J; cbn [ntext nshape]; auto; intros _ N; exfalso; destruct (number_head _ N) as (c & t & E & Hc); try (injection E; intros; lia).
  destruct H as (body & -> & _). injection E; intros; lia.
Qed.
Lemma node_parse nd r : jnode nd -> stops nd r -> parseValue (ntext nd ++ r) = POk (ntext nd) r.
Proof. intros J N. apply parseValue_complete' with (a := erase nd); [apply jnode_jvalue, J|apply stops_number; assumption]. Qed.
Lemma node_head nd : jnode nd -> exists c t, ntext nd = c :: t /\ vhead c.
Proof. intros J. eapply jvalue_head, jnode_jvalue, J. Qed.
Lemma node_in_err {A} nd r (x : A) : jnode nd -> stops nd r -> in_err (ntext nd ++ r) x = DR (skip_spaces r) (Some EType) x.
Proof.
  intros J N. unfold in_err, input_error. rewrite (node_parse nd r J N). destruct (node_head nd J) as (c & t & -> & _). reflexivity.
Qed.
