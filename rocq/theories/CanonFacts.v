(** Facts for C78: equal trees are written as equal bytes. *)
From Coq Require Import Sorting.Permutation.
From Verif Require Import Bytes ParseModel IntModel EncModel DecModel EncoderModel JcModel SpecJson SpecString SpecRender SpecColor SpecEnc SpecNum SpecDec SpecTrip SpecJc
  ParseFacts TokenFacts TextFacts EncRel EncFacts EncMain EncExtra RawFacts TripFacts ExactFloat ColorFacts DecFacts PropsParse PropsColor PropsEnc PropsDec PropsJc.
Local Open Scope Z_scope.

(** ** Sameness is an equivalence *)
Lemma same_refl v : jv_same v v.
Proof.
  induction v as [|b|f|s|s|l IH|m IH] using jv_ind'; try (apply same_leaf; exact I).
  - apply same_arr. induction IH; constructor; auto.
  - rewrite Forall_forall in IH. apply same_map; intros k v H; exists v; (split; [exact H|exact (IH _ H)]).
Qed.
Lemma same_sym : forall v v', jv_same v v' -> jv_same v' v.
Proof.
  induction v as [|b|f|s|s|l IH|m IH] using jv_ind'; intros v' S; inversion S as [? L|? l' F|? m' A B]; subst; try (apply same_leaf; exact I).
  - destruct L.
  - apply same_arr. clear S. revert l' F. induction IH as [|x l Hx IH IHl]; intros l' F; inversion F; subst; constructor; auto.
  - destruct L.
  - rewrite Forall_forall in IH. apply same_map.
    + intros k v' H. destruct (B k v' H) as (v & Hv & S'). exists v. split; [exact Hv|exact (IH _ Hv _ S')].
    + intros k v H. destruct (A k v H) as (v' & Hv & S'). exists v'. split; [exact Hv|exact (IH _ H _ S')].
Qed.
Lemma same_trans : forall v v' v'', jv_same v v' -> jv_same v' v'' -> jv_same v v''.
Proof.
  induction v as [|b|f|s|s|l IH|m IH] using jv_ind'; intros v' v'' S S2; inversion S as [? L|? l' F|? m' A B]; subst; try exact S2.
  - inversion S2 as [? L|? l'' F'|]; subst; [destruct L|]. apply same_arr. clear S S2. revert l' l'' F F'.
    induction IH as [|x l Hx IH IHl]; intros l' l'' F F'; inversion F; subst; inversion F'; subst; constructor; eauto.
  - inversion S2 as [? L| |? m'' A' B']; subst; [destruct L|]. rewrite Forall_forall in IH. apply same_map.
    + intros k v H. destruct (A k v H) as (v' & H' & S'). destruct (A' k v' H') as (v'' & H'' & S''). exists v''. split; [exact H''|exact (IH _ H _ _ S' S'')].
    + intros k v'' H. destruct (B' k v'' H) as (v' & H' & S'). destruct (B k v' H') as (v & H'' & S''). exists v. split; [exact H''|exact (IH _ H'' _ _ S'' S')].
Qed.

(** ** Equal values have the same documents *)
Lemma keys_unique {A} (l l' : list (bytes * A)) : NoDup (map fst l) -> NoDup (map fst l') ->
  (forall k, In k (map fst l) <-> In k (map fst l')) -> ascending fst l -> ascending fst l' -> map fst l = map fst l'.
Proof.
  intros N N' E S S'. apply (sorted_unique (fun k : bytes => k)).
  - clear - S. induction S as [|x l S IH H]; cbn [map]; constructor; [exact IH|]. apply Forall_map. exact H.
  - clear - S'. induction S' as [|x l S IH H]; cbn [map]; constructor; [exact IH|]. apply Forall_map. exact H.
  - apply NoDup_Permutation; assumption.
  - rewrite map_id. exact N.
Qed.
Lemma iface_vdoc html sorted trust g y : vdoc html sorted trust (iface_of g) y <-> vdoc html sorted trust g y.
Proof.
  split; intros H.
  - destruct g; cbn [iface_of] in H; inversion H; subst; try assumption. constructor.
  - destruct g; cbn [iface_of]; try (apply vd_iface, H). inversion H. apply vd_iface0.
Qed.
Lemma f2_in_l {A B} (R : A -> B -> Prop) l l' x : Forall2 R l l' -> In x l -> exists y, In y l' /\ R x y.
Proof. induction 1 as [|a b l l' H F IH]; intros []; [subst; exists b; split; [left; reflexivity|exact H]|]. destruct (IH H0) as (y & Hy & Q). exists y. split; [right; exact Hy|exact Q]. Qed.
Lemma f2_in_r {A B} (R : A -> B -> Prop) l l' y : Forall2 R l l' -> In y l' -> exists x, In x l /\ R x y.
Proof. induction 1 as [|a b l l' H F IH]; intros []; [subst; exists a; split; [left; reflexivity|exact H]|]. destruct (IH H0) as (x & Hx & Q). exists x. split; [right; exact Hx|exact Q]. Qed.
Lemma nodup_val {A} (l : list (bytes * A)) k v v' : NoDup (map fst l) -> In (k, v) l -> In (k, v') l -> v = v'.
Proof.
  induction l as [|[k0 v0] l IH]; cbn [map fst]; intros N [] []; inversion N as [|? ? X Y]; subst; try congruence; auto.
  - injection H as -> ->. exfalso. apply X. apply in_map_iff. exists (k, v'). auto.
  - injection H0 as -> ->. exfalso. apply X. apply in_map_iff. exists (k, v). auto.
Qed.
Lemma same_doc html trust : forall un g v, go_tree_of un g v -> forall g' v' x x', go_tree_of un g' v' -> jv_same v v' ->
  vdoc html true trust g x -> vdoc html true trust g' x' -> x = x'.
Proof.
  induction 1 as [un|un b|f F|n NL|un s V|un xs vs F|un m m' N F] using go_tree_ind'; intros g' v' x x' T' S VD VD'; inversion S as [? L|? l' SL|? m2' SA SB]; subst;
    try (inversion T'; subst; inversion VD; subst; inversion VD'; subst; first [congruence|exfalso; match goal with H : number_lit [] |- _ => destruct (number_head _ H) as (? & ? & Q & _); discriminate Q end]); try (destruct L; fail).
  - inversion T' as [| | | | |? xs' vs' F'|]; subst.
    assert (X : exists ys, x = DArr ys /\ Forall2 (vdoc html true trust) (map iface_of xs) ys) by (inversion VD; eauto). destruct X as (ys & -> & G).
    assert (X : exists ys, x' = DArr ys /\ Forall2 (vdoc html true trust) (map iface_of xs') ys) by (inversion VD'; eauto). destruct X as (ys' & -> & G').
    f_equal. clear VD VD' T' S. revert l' xs' ys ys' SL F' G G'.
    induction F as [|g v xs vs [T IH] F IHF]; intros l' xs' ys ys' SL F' G G'; inversion SL as [|? v' ? l'' Sv SL']; subst; inversion F' as [|g' ? xs'' ? T' F'']; subst; cbn [map] in *;
      inversion G as [|? y ? ys1 Gy G1]; subst; inversion G' as [|? y' ? ys1' Gy' G1']; subst; [reflexivity|]. f_equal.
    + exact (IH _ _ _ _ T' Sv (proj1 (iface_vdoc _ _ _ _ _) Gy) (proj1 (iface_vdoc _ _ _ _ _) Gy')).
    + eapply IHF; eassumption.
  - inversion T' as [| | | | | |? m2 ? N2 F2]; subst.
    assert (X : exists ms ys, x = DObj ONormal ys /\ in_order true fst m ms /\ Forall2 (fun e x => fst x = (TKey, json_string html (fst e)) /\ vdoc html true trust (snd e) (snd x)) ms ys)
      by (inversion VD; subst; eauto). destruct X as (ms & ys & -> & [P A] & G).
    assert (X : exists ms ys, x' = DObj ONormal ys /\ in_order true fst m2 ms /\ Forall2 (fun e x => fst x = (TKey, json_string html (fst e)) /\ vdoc html true trust (snd e) (snd x)) ms ys)
      by (inversion VD'; subst; eauto). destruct X as (ms2 & ys2 & -> & [P2 A2] & G2).
    assert (E1 : map fst m = map fst m') by (clear - F; induction F as [|e e' m m' (A & _) F IH]; cbn [map]; congruence).
    assert (E2 : map fst m2 = map fst m2') by (clear - F2; induction F2 as [|e e' m m' (A & _) F IH]; cbn [map]; congruence).
    assert (K : map fst ms = map fst ms2).
    { apply keys_unique; try assumption.
      - eapply Permutation_NoDup; [apply Permutation_map, P|exact N].
      - eapply Permutation_NoDup; [apply Permutation_map, P2|exact N2].
      - intros k. rewrite <- (Permutation_map fst P), <- (Permutation_map fst P2), E1, E2. rewrite !in_map_iff. split; intros ([k' w] & <- & H); cbn [fst].
        + destruct (SA _ _ H) as (w' & H' & _). exists (k', w'). auto.
        + destruct (SB _ _ H) as (w' & H' & _). exists (k', w'). auto. }
    assert (Q : forall k g1 g2, In (k, g1) ms -> In (k, g2) ms2 -> forall x x', vdoc html true trust g1 x -> vdoc html true trust g2 x' -> x = x').
    { intros k g1 g2 H1 H2 x x' Vx Vx'. apply (Permutation_in _ (Permutation_sym P)) in H1. apply (Permutation_in _ (Permutation_sym P2)) in H2.
      destruct (f2_in_l _ _ _ _ F H1) as ([k1 v1] & I1 & Ek1 & _ & T1 & IH1). destruct (f2_in_l _ _ _ _ F2 H2) as ([k2 v2] & I2 & Ek2 & _ & T2). cbn [fst snd] in *. subst k1 k2.
      destruct (SA _ _ I1) as (v2' & I2' & Sv). assert (NN : NoDup (map fst m2')) by (rewrite <- E2; exact N2).
      pose proof (nodup_val _ _ _ _ NN I2 I2') as ->. exact (IH1 _ _ _ _ T2 Sv Vx Vx'). }
    f_equal. clear - K Q G G2. revert ms2 ys2 K Q G2. induction G as [|[k g1] [t y] ms ys [E Vy] G IH]; intros [|[k2 g2] ms2] ys2 K Q G2; try discriminate; inversion G2 as [|? [t2 y2] ? ys2' [Et2 Vy2] G2']; subst; cbn [map fst snd] in *; [reflexivity|].
    injection K as -> K. f_equal.
    + f_equal; [congruence|]. eapply (Q k2); [left; reflexivity|left; reflexivity|exact Vy|exact Vy2].
    + eapply IH; [exact K| |exact G2']. intros k' g1' g2' H1 H2. apply (Q k'); right; assumption.
Qed.

Lemma same_enc c un g v g' v' b d : e_sort c = true -> go_tree_of un g v -> go_tree_of un g' v' -> jv_same v v' -> enc c g b d = enc c g' b d.
Proof.
  intros HS T T' S.
  destruct (C33_encode_spec_partial c g b d (tree_clean _ _ _ _ _ T) (or_intror (tree_colors _ _ _ T))) as [(x & V & E)|(N & _)].
  2:{ exfalso. destruct (tree_has_doc (e_html c) (e_sort c) (e_trust c) un g v T) as (x & V). exact (N x V). }
  destruct (C33_encode_spec_partial c g' b d (tree_clean _ _ _ _ _ T') (or_intror (tree_colors _ _ _ T'))) as [(x' & V2 & E')|(N & _)].
  2:{ exfalso. destruct (tree_has_doc (e_html c) (e_sort c) (e_trust c) un g' v' T') as (x' & V'). exact (N x' V'). }
  rewrite HS in V, V2. rewrite E, E'. rewrite (same_doc _ _ _ _ _ T _ _ _ _ T' S V V2). reflexivity.
Qed.

(** What a successful decoding gives is a tree when it equals one. *)
Lemma denotes_same_tree pf : forall v' b, denotes (as_float pf) b v' -> forall v, go_tree (gv v) v -> jv_same v v' -> go_tree (gv v') v'.
Proof.
  induction v' as [|b0|f|s|s|l IH|m IH] using jv_ind'; intros b D v T S; cbn [gv].
  - constructor.
  - constructor.
  - inversion S; subst. exact T.
  - inversion S; subst. inversion T.
  - inversion S; subst. exact T.
  - inversion D as [| | |s0 v0 (f' & E & Q) E1 E2| |la vs F E1 E2|]; subst; [discriminate|].
    inversion S as [? L|l0 ? SL|]; subst; [destruct L|]. inversion T as [| | | | |un0 xs vs TF Eun Exs|]; subst. 
    assert (X : Forall (fun v => go_tree (gv v) v) l).
    { assert (TT : Forall (fun v => go_tree (gv v) v) l0).
      { rewrite (map_ext _ (fun x => iface_of (gv x))) in Exs by (intros x; destruct (gv x); reflexivity).
        rewrite <- (map_map gv iface_of) in Exs. clear - TF Exs. revert xs TF Exs. induction l0 as [|v l0 IH]; intros xs TF Exs; [constructor|].
        inversion TF as [|g ? xs' ? Tg TF']; subst. cbn [map] in Exs. injection Exs as Eg Exs. constructor; [|eapply IH; eassumption].
        assert (NI : forall g v, go_tree g v -> forall o, g <> GIface o) by (intros g0 v0 []; discriminate).
        assert (EG : g = gv v).
        { assert (NV : forall o, gv v <> GIface o) by (intros o; destruct v; discriminate). pose proof (NI _ _ Tg) as NG.
          destruct g; destruct (gv v); cbn [iface_of] in Eg; try congruence; exfalso; first [eapply NG; reflexivity|eapply NV; reflexivity]. }
        subst. exact Tg. }
      clear - IH F SL TT. revert la F l0 SL TT. induction IH as [|v l Hv IH IHl]; intros la F l0 SL TT; [constructor|].
      inversion F; subst. inversion SL; subst. inversion TT; subst. constructor; [eapply Hv; eassumption|eapply IHl; eassumption]. }
    rewrite (map_ext _ (fun x => iface_of (gv x))) by (intros x; destruct (gv x); reflexivity).
    rewrite <- (map_map gv iface_of). constructor. clear - X. induction X; constructor; assumption.
  - inversion D as [| | |s0 v0 (f' & E & Q) E1 E2| | |lo m0 N A B E1 E2]; subst; [discriminate|].
    inversion S as [? L| |m1 ? SA SB]; subst; [destruct L|]. inversion T as [| | | | | |? g1 ? N1 F1]; subst.
    assert (X : Forall (fun e => valid_utf8 (fst e) /\ go_tree (gv (snd e)) (snd e)) m).
    { apply Forall_forall. intros [k v'] Hi. cbn [fst snd]. destruct (SB k v' Hi) as (v & Hv & Sv). destruct (A k v' Hi) as (a & _ & Da).
      assert (Y : valid_utf8 k /\ go_tree (gv v) v).
      { apply (in_map (fun e : bytes * jv => match e with (k, x) => (k, gv x) end)) in Hv as Hg. clear - F1 Hv Hg N1.
        assert (Z : Forall2 (fun e e' => fst e = fst e' /\ valid_utf8 (fst e) /\ go_tree (snd e) (snd e')) (map (fun e : bytes * jv => match e with (k, x) => (k, gv x) end) m1) m1) by exact F1.
        clear F1 N1 Hg. induction m1 as [|[k0 v0] m1 IH]; [destruct Hv|]. cbn [map] in Z. inversion Z as [|? ? ? ? (E & U & T) Z']; subst. cbn [fst snd] in *.
        destruct Hv as [Hv|Hv]; [injection Hv as -> ->; auto|apply IH; assumption]. }
      destruct Y as [U T1]. split; [exact U|]. rewrite Forall_forall in IH. eapply (IH (k, v')); eassumption. }
    constructor.
    + rewrite map_map. rewrite (map_ext _ fst); [exact N|]. intros [k v]. reflexivity.
    + clear - X. induction X as [|[k v] m (U & T) X IH]; cbn [map]; constructor; [auto|exact IH].
Qed.
