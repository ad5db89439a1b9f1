(** Proofs about the construction of codecs (CodecModel.v). *)
From Verif Require Import Bytes IntModel TypeModel CodecModel SpecCodec.

Section Facts.
Context (decls : nat -> rtype).

Lemma rlook_put t l s : rlook t (rput t l s) = Some l.
Proof.
  induction s as [|[k x] s IH]; cbn [rput rlook]; [now rewrite Nat.eqb_refl|].
  destruct (k =? t)%nat eqn:E; cbn [rlook]; [now rewrite Nat.eqb_refl|]. now rewrite E.
Qed.
Lemma rlook_put_other t u l s : u <> t -> rlook u (rput t l s) = rlook u s.
Proof.
  intros N. induction s as [|[k x] s IH]; cbn [rput rlook].
  - destruct (Nat.eqb_spec t u); congruence.
  - destruct (k =? t)%nat eqn:E; cbn [rlook].
    + apply Nat.eqb_eq in E. subst k. destruct (Nat.eqb_spec t u); congruence.
    + destruct (k =? u)%nat; [easy|apply IH].
Qed.

(** Unfolding. *)
Lemma construct_S n t s a : construct decls (S n) t s a =
  match r_spec (decls t) with
  | Some sp => Some (special sp, s)
  | None =>
      let r :=
        match r_kind (decls t) with
        | RBool => Some (Codec EBool DBool, s)
        | RInt k => Some (Codec (EInt k) (DInt k), s)
        | RFloat w => Some (Codec (EFloat w) (DFloat w), s)
        | RString => Some (Codec EString DString, s)
        | RIface b => Some (Codec (EDynamic b) (DDynamic b), s)
        | RArray k e =>
            match construct decls n e s a with
            | Some (c, s1) => Some (Codec (EArray k (c_enc c)) (DArray k (c_dec c)), s1)
            | None => None
            end
        | RSlice e =>
            match r_kind (decls e) with
            | RInt TUint8 => Some (slice8 decls e, s)
            | _ => match construct decls n e s true with
                   | Some (c, s1) => Some (Codec (ESlice (c_enc c)) (DSlice (c_dec c)), s1)
                   | None => None
                   end
            end
        | RMap k e =>
            match common_map decls k e with
            | Some c => Some (c, s)
            | None =>
                match construct decls n e s false with
                | Some (vc, s1) =>
                    match key_codec decls (fun t s => construct decls n t s false) k s1 with
                    | Some (Some kc, s2) => Some (Codec (EMap (c_enc kc) (c_enc vc)) (DMap (c_dec kc) (c_dec vc)), s2)
                    | Some (None, s2) => Some (Codec EUnsupported DUnsupported, s2)
                    | None => None
                    end
                | None => None
                end
            end
        | RStruct _ =>
            match build_rstruct decls n t s a with
            | Some s1 => Some (Codec (EStruct t) (DStruct t), s1)
            | None => None
            end
        | RPtr e =>
            match construct decls n e s true with
            | Some (c, s1) => Some (Codec (EPtr (c_enc c)) (DPtr (c_dec c)), s1)
            | None => None
            end
        | ROther => Some (Codec EUnsupported DUnsupported, s)
        end in
      match r with
      | Some (c, s1) => Some (with_methods decls t a c, s1)
      | None => None
      end
  end.
Proof. reflexivity. Qed.
Lemma build_S n t s a : build_rstruct decls (S n) t s a =
  rstruct decls (fun t s => construct decls n t s a) (fun t s => build_rstruct decls n t s a) t s.
Proof. reflexivity. Qed.

(** The elements of a slice: byte kind or not. *)
Lemma byte_kind_dec (k : rkind) : {k = RInt TUint8} + {k <> RInt TUint8}.
Proof. destruct k as [|[]| | | | | | | | |]; try (right; discriminate); left; reflexivity. Defined.
Lemma slice_branch {A} (k : rkind) (x y : A) : k <> RInt TUint8 ->
  match k with RInt TUint8 => x | _ => y end = y.
Proof. destruct k as [|[]| | | | | | | | |]; easy. Qed.

Lemma common_none k e : common_map decls k e = None <->
  ~ (r_spec (decls k) = Some SString /\ (r_spec (decls e) = Some SIface \/ r_spec (decls e) = Some SRaw)).
Proof.
  unfold common_map. split.
  - intros H [K [E|E]]; rewrite K, E in H; discriminate.
  - intros H. destruct (r_spec (decls k)) as [[]|]; try reflexivity.
    destruct (r_spec (decls e)) as [[]|]; try reflexivity; exfalso; apply H; auto.
Qed.

(** ** The encoders. *)
Section Enc.
Context (t0 : nat) (a0 : bool) (ca_of : nat -> bool).
Context (EMB : forall t fs u p, r_kind (decls t) = RStruct fs -> In (FEmb u p) fs -> exists fs', r_kind (decls u) = RStruct fs').
Context (PREC : forall t, mt (r_own (decls t)) = true -> mj (r_ptr (decls t)) = true -> mj (r_own (decls t)) = true).
Context (BYTE : forall t, r_kind (decls t) = RInt TUint8 -> r_spec (decls t) = None).
Context (UNI : forall t a fs, occurs decls t0 a0 t a -> r_kind (decls t) = RStruct fs -> a = ca_of t).
Context (VIA : forall t a fs u, occurs decls t0 a0 t a -> r_kind (decls t) = RStruct fs -> In (FEmb u true) fs -> a = true).

Definition inv (P : list nat) (s : rseen) : Prop :=
  forall t l, rlook t s = Some l -> (In t P /\ l = []) \/ struct_right decls (ca_of t) t (map c_enc l).

Lemma own_enc_special sp : own_enc sp (c_enc (special sp)).
Proof. induction sp; cbn; constructor; auto. Qed.

Lemma struct_all a t l : struct_right decls a t l -> Forall (fright decls a t) l.
Proof.
  intros (fs & own & em & K & -> & F2 & FE). apply Forall_app. split; [|exact FE].
  assert (G : forall g, (forall x, In x g -> In x fs) -> forall own, Forall2 (fun f e => exists e0, right decls a (fst f) e0 /\ field_enc decls (fst f) (snd f) e0 e) (own_fields g) own -> Forall (fright decls a t) own).
  { clear F2 own. intros g. induction g as [|[u str|u p] g IH]; intros I own H; cbn [own_fields] in H.
    - inversion H. constructor.
    - inversion H as [|f e fl ol (e0 & R & FE') R2]; subst. constructor.
      + eapply fr_own; eauto. apply I. now left.
      + apply IH; [|exact R2]. intros x X. apply I. now right.
    - apply IH; [|exact H]. intros x X. apply I. now right. }
  apply (G fs); auto.
Qed.

Lemma right_methods a t c : plain decls t ->
  (~ json_usable decls a t -> ~ text_usable decls a t -> by_kind decls a t (r_kind (decls t)) (c_enc c)) ->
  right decls a t (c_enc (with_methods decls t a c)).
Proof.
  intros PL BK. unfold with_methods. cbn [c_enc].
  pose proof (PREC t) as PR.
  destruct (mj (r_own (decls t))) eqn:OJ.
  { apply ri_json; auto. now left. }
  destruct (mt (r_own (decls t))) eqn:OT.
  { apply ri_text; auto; [|now left]. intros [X|[_ X]]; [congruence|]. specialize (PR eq_refl X). discriminate. }
  destruct a.
  - destruct (mj (r_ptr (decls t))) eqn:PJ.
    { apply ri_json; auto. right; auto. }
    destruct (mt (r_ptr (decls t))) eqn:PT.
    { apply ri_text; auto; [|now right]. intros [X|[_ X]]; congruence. }
    apply ri_kind; auto; [| |apply BK]; intros [X|[_ X]]; congruence.
  - apply ri_kind; auto; [| |apply BK]; intros [X|[X _]]; congruence.
Qed.

Lemma quotable_stringify t str e : field_enc decls t str (c_enc e) (c_enc (if str then stringify decls t e else e)).
Proof.
  unfold field_enc. destruct str; [|right; split; [intros [X _]; discriminate|easy]].
  unfold stringify, quotable, basic.
  destruct (r_kind (decls t)) as [| | | | | | | | |u|]; cbn [c_enc]; try (left; repeat split; easy); try (right; split; [intros [_ []]|easy]).
  destruct (r_kind (decls u)); cbn [c_enc]; try (left; repeat split; easy); right; split; try easy; intros [_ []].
Qed.

Lemma rwalk_right rec sub t fs P :
  r_kind (decls t) = RStruct fs -> forall a, a = ca_of t ->
  (forall u str s c s', In (FOwn u str) fs -> rec u s = Some (c, s') -> inv P s -> right decls a u (c_enc c) /\ inv P s') ->
  (forall u p s s', In (FEmb u p) fs -> sub u s = Some s' -> inv P s -> inv P s' /\ (p = true -> a = true) /\ ca_of u = a) ->
  forall g, (forall x, In x g -> In x fs) -> forall s own em s', rwalk decls rec sub g s = Some (own, em, s') -> inv P s ->
  Forall2 (fun f e => exists e0, right decls a (fst f) e0 /\ field_enc decls (fst f) (snd f) e0 e) (own_fields g) (map c_enc own) /\
  Forall (fright decls a t) (map c_enc em) /\ inv P s'.
Proof.
  intros K a CA REC SUB. induction g as [|[u str|u p] g IH]; intros I s own em s' H IV; cbn [rwalk own_fields] in *.
  - injection H as <- <- <-. repeat split; [constructor|constructor|exact IV].
  - destruct (rec u s) as [[c s1]|] eqn:R; [|discriminate].
    destruct (rwalk decls rec sub g s1) as [[[o e] s2]|] eqn:W; [|discriminate]. injection H as <- <- <-.
    destruct (REC u str _ _ _ (I _ (or_introl eq_refl)) R IV) as [RR IV1].
    destruct (IH (fun x X => I x (or_intror X)) _ _ _ _ W IV1) as (A & B & C). repeat split; auto.
    cbn [map]. constructor; [|exact A]. exists (c_enc c). split; [exact RR|apply quotable_stringify].
  - destruct (sub u s) as [s1|] eqn:R; [|discriminate].
    destruct (rwalk decls rec sub g s1) as [[[o e] s2]|] eqn:W; [|discriminate]. injection H as <- <- <-.
    pose proof (I _ (or_introl eq_refl)) as IN.
    destruct (SUB u p _ _ IN R IV) as (IV1 & PA & CU).
    destruct (IH (fun x X => I x (or_intror X)) _ _ _ _ W IV1) as (A & B & C). repeat split; auto.
    rewrite map_app. apply Forall_app. split; [|exact B].
    destruct (rlook u s1) as [l|] eqn:L; [|destruct p; constructor].
    assert (FL : Forall (fright decls a u) (map c_enc l)).
    { destruct (IV1 _ _ L) as [[_ ->]|SR]; [constructor|]. rewrite CU in SR. apply struct_all in SR. exact SR. }
    destruct p; cbn [emb].
    + rewrite map_map. cbn [c_enc]. rewrite Forall_map in FL |- *. eapply Forall_impl; [|exact FL].
      cbn. intros x X. eapply fr_via; eauto. now rewrite (PA eq_refl) in X.
    + eapply Forall_impl; [|exact FL]. intros x X. eapply fr_in; eauto.
Qed.

Lemma construct_right n :
  (forall t s a c s' P, construct decls n t s a = Some (c, s') -> occurs decls t0 a0 t a -> inv P s -> right decls a t (c_enc c) /\ inv P s') /\
  (forall t s a s' P fs, build_rstruct decls n t s a = Some s' -> occurs decls t0 a0 t a -> r_kind (decls t) = RStruct fs -> inv P s -> inv P s').
Proof.
  induction n as [|n [IHc IHb]]; [split; intros; discriminate|]. split.
  - intros t s a c s' P H OC IV. rewrite construct_S in H.
    destruct (r_spec (decls t)) as [sp|] eqn:SP.
    { injection H as <- <-. split; [|exact IV]. eapply ri_own; [exact SP|apply own_enc_special]. }
    cbv zeta in H.
    match type of H with context [match ?r with Some _ => _ | None => None end] => set (R := r) in H end.
    destruct R as [[c1 s1]|] eqn:ER; [|discriminate]. injection H as <- <-. subst R.
    enough (G : inv P s1 /\ (~ json_usable decls a t -> ~ text_usable decls a t -> by_kind decls a t (r_kind (decls t)) (c_enc c1))).
    { destruct G as [G1 G2]. split; [|exact G1]. now apply right_methods. }
    destruct (r_kind (decls t)) as [|k|w| |b|m u|u|k u|fs|u|] eqn:K.
    + injection ER as <- <-. split; [exact IV|intros; constructor].
    + injection ER as <- <-. split; [exact IV|intros; constructor].
    + injection ER as <- <-. split; [exact IV|intros; constructor].
    + injection ER as <- <-. split; [exact IV|intros; constructor].
    + injection ER as <- <-. split; [exact IV|intros; constructor].
    + destruct (construct decls n u s a) as [[c2 s2]|] eqn:C; [|discriminate]. injection ER as <- <-.
      destruct (IHc _ _ _ _ _ P C) as [A B]; [eapply oc_array; eauto|exact IV|]. split; [exact B|]. intros. now constructor.
    + destruct (byte_kind_dec (r_kind (decls u))) as [BK|BK].
      * rewrite BK in ER. injection ER as <- <-. split; [exact IV|]. intros _ _. cbn [c_enc slice8].
        pose proof (PREC u) as PR. pose proof (BYTE u BK) as PL.
        destruct (mj (r_own (decls u))) eqn:OJ.
        { apply bk_slice; [right; left; now left|]. apply ri_json; auto. now left. }
        destruct (mt (r_own (decls u))) eqn:OT.
        { apply bk_slice; [right; right; now left|]. apply ri_text; auto; [|now left]. intros [X|[_ X]]; [congruence|]. specialize (PR eq_refl X). discriminate. }
        destruct (mj (r_ptr (decls u))) eqn:PJ.
        { apply bk_slice; [right; left; now right|]. apply ri_json; auto. now right. }
        destruct (mt (r_ptr (decls u))) eqn:PT.
        { apply bk_slice; [right; right; now right|]. apply ri_text; auto; [|now right]. intros [X|[_ X]]; congruence. }
        apply bk_bytes; auto; intros [X|[_ X]]; congruence.
      * rewrite slice_branch in ER by exact BK.
        destruct (construct decls n u s true) as [[c2 s2]|] eqn:C; [|discriminate]. injection ER as <- <-.
        destruct (IHc _ _ _ _ _ P C) as [A B]; [eapply oc_slice; eauto|exact IV|]. split; [exact B|]. intros _ _.
        apply bk_slice; [now left|exact A].
    + destruct (common_map decls k u) as [cm|] eqn:CM.
      { injection ER as <- <-. split; [exact IV|]. intros _ _. unfold common_map in CM.
        destruct (r_spec (decls k)) as [[]|] eqn:Ek; try discriminate.
        destruct (r_spec (decls u)) as [[]|] eqn:Eu; try discriminate; injection CM as <-; constructor; auto. }
      apply common_none in CM.
      destruct (construct decls n u s false) as [[vc s2]|] eqn:C; [|discriminate].
      destruct (IHc _ _ _ _ _ P C) as [A B]; [eapply oc_map; eauto|exact IV|].
      unfold key_codec in ER.
      destruct (mt (r_own (decls k)) || ut (r_ptr (decls k))) eqn:TX.
      { injection ER as <- <-. split; [exact B|]. intros _ _. apply bk_map; auto. apply kr_text. now apply orb_true_iff. }
      apply orb_false_iff in TX as [T1 T2].
      destruct (r_kind (decls k)) eqn:Kk; try (injection ER as <- <-; split; [exact B|]; intros _ _; apply bk_map_bad; auto; try (intros; rewrite Kk; discriminate); rewrite Kk; discriminate).
      * destruct (construct decls n k s2 false) as [[kc s3]|] eqn:Ck; [|discriminate]. injection ER as <- <-.
        destruct (IHc _ _ _ _ _ P Ck) as [A' B']; [eapply oc_key; eauto|exact B|].
        split; [exact B'|]. intros _ _. apply bk_map; auto. eapply kr_int; eauto.
      * injection ER as <- <-. split; [exact B|]. intros _ _. apply bk_map; auto. now apply kr_string.
    + destruct (build_rstruct decls n t s a) as [s2|] eqn:C; [|discriminate]. injection ER as <- <-.
      split; [eapply IHb; eauto|]. intros; constructor.
    + destruct (construct decls n u s true) as [[c2 s2]|] eqn:C; [|discriminate]. injection ER as <- <-.
      destruct (IHc _ _ _ _ _ P C) as [A B]; [eapply oc_ptr; eauto|exact IV|]. split; [exact B|]. intros. now constructor.
    + injection ER as <- <-. split; [exact IV|intros; constructor].
  - intros t s a s' P fs H OC K IV. rewrite build_S in H. unfold rstruct in H.
    destruct (rlook t s) as [l|] eqn:L; [now injection H as <-|]. rewrite K in H.
    destruct (rwalk _ _ _ _ _) as [[[own em] s1]|] eqn:W in H; [|discriminate]. injection H as <-.
    assert (CA : a = ca_of t) by (eapply UNI; eauto).
    assert (G : Forall2 (fun f e => exists e0, right decls a (fst f) e0 /\ field_enc decls (fst f) (snd f) e0 e) (own_fields fs) (map c_enc own) /\
      Forall (fright decls a t) (map c_enc em) /\ inv (t :: P) s1).
    { refine (rwalk_right _ _ t fs (t :: P) K a CA _ _ fs (fun x X => X) _ _ _ _ W _).
    + intros u str x c x' IN R IX. apply (IHc _ _ _ _ _ (t :: P) R); [eapply oc_field; eauto|exact IX].
    + intros u p x x' IN R IX. destruct (EMB _ _ _ _ K IN) as [fs' K'].
      assert (AT : p = true -> a = true) by (intros ->; eapply VIA; eauto).
      assert (OU : occurs decls t0 a0 u a).
      { destruct p; [rewrite (AT eq_refl); eapply oc_via; eauto|eapply oc_emb; eauto]. }
      split; [eapply IHb; eauto|]. split; [exact AT|]. symmetry. eapply UNI; eauto.
    + intros u l U. cbn [rlook] in U. destruct (Nat.eqb_spec t u) as [->|N].
      * injection U as <-. left. split; [now left|easy].
      * destruct (IV _ _ U) as [[X Y]|X]; [left; split; [now right|easy]|now right]. }
    destruct G as (A & B & C).
    intros u l U. destruct (Nat.eq_dec u t) as [->|N].
    + rewrite rlook_put in U. injection U as <-. right. exists fs, (map c_enc own), (map c_enc em).
        rewrite map_app. rewrite <- CA. auto.
    + rewrite rlook_put_other in U by exact N. destruct (C _ _ U) as [[[X|X] Y]|X]; [congruence|left; auto|now right].
Qed.
End Enc.

(** ** The decoders. *)
Lemma own_gty_special sp g : own_gty sp g -> gty_of (c_dec (special sp)) = Some g.
Proof. induction 1; try reflexivity. cbn. now rewrite IHown_gty. Qed.

Section Dec.
Context (BYTE : forall t, r_kind (decls t) = RInt TUint8 -> r_spec (decls t) = None).
Context (VAL : forall t, uj (r_own (decls t)) = false /\ ut (r_own (decls t)) = false \/ r_kind (decls t) <> RInt TUint8).

Lemma construct_means n : forall t s a c s' g, construct decls n t s a = Some (c, s') -> means decls t g -> gty_of (c_dec c) = Some g.
Proof.
  induction n as [|n IH]; [discriminate|]. intros t s a c s' g H M. rewrite construct_S in H.
  inversion M as [t1 sp g1 SP OG|t1 PL UJ|t1 PL UJ UT|t1 g1 PL UJ UT KM]; subst.
  { rewrite SP in H. injection H as <- <-. now apply own_gty_special. }
  - unfold plain in PL. rewrite PL in H. cbv zeta in H.
    match type of H with context [match ?r with Some _ => _ | None => None end] => destruct r as [[c1 s1]|] end; [|discriminate].
    injection H as <- <-. cbn [with_methods c_dec]. now rewrite UJ.
  - unfold plain in PL. rewrite PL in H. cbv zeta in H.
    match type of H with context [match ?r with Some _ => _ | None => None end] => destruct r as [[c1 s1]|] end; [|discriminate].
    injection H as <- <-. cbn [with_methods c_dec]. now rewrite UJ, UT.
  - unfold plain in PL. rewrite PL in H. cbv zeta in H.
    match type of H with context [match ?r with Some _ => _ | None => None end] => set (R := r) in H end.
    destruct R as [[c1 s1]|] eqn:ER; [|discriminate]. injection H as <- <-. subst R.
    cbn [with_methods c_dec]. rewrite UJ, UT.
    destruct (r_kind (decls t)) as [|k|w| |b|m u|u|k u|fs|u|] eqn:K; inversion KM; subst;
      try (injection ER as <- <-; reflexivity).
    + destruct (construct decls n u s a) as [[c2 s2]|] eqn:C; [|discriminate]. injection ER as <- <-. cbn. now erewrite IH by eauto.
    + match goal with X : r_kind (decls u) = _ |- _ => rewrite X in ER; pose proof X as BK end. injection ER as <- <-. cbn [slice8 c_dec].
      destruct (VAL u) as [[A B]|A]; [|contradiction]. now rewrite A, B, H1, H3.
    + destruct (byte_kind_dec (r_kind (decls u))) as [BK|BK].
      * rewrite BK in ER. injection ER as <- <-. cbn [slice8 c_dec]. destruct (VAL u) as [[A B]|A]; [|contradiction]. rewrite A, B.
        pose proof (BYTE u BK) as PU.
        destruct H0 as [X|X]; [contradiction|].
        inversion H2 as [t1 sp g2 SP OG|t1 PL' UJ'|t1 PL' UJ' UT'|t1 g2 PL' UJ' UT' KM']; subst.
        -- congruence.
        -- now rewrite UJ'.
        -- now rewrite UJ', UT'.
        -- rewrite UJ', UT' in X. destruct X; discriminate.
      * rewrite slice_branch in ER by exact BK.
        destruct (construct decls n u s true) as [[c2 s2]|] eqn:C; [|discriminate]. injection ER as <- <-. cbn. now erewrite IH by eauto.
    + unfold common_map in ER. repeat match goal with X : r_spec (decls _) = Some _ |- _ => rewrite X in ER; clear X end. injection ER as <- <-. reflexivity.
    + unfold common_map in ER. repeat match goal with X : r_spec (decls _) = Some _ |- _ => rewrite X in ER; clear X end. injection ER as <- <-. reflexivity.
    + match goal with X : ~ (r_spec _ = _ /\ _) |- _ => apply common_none in X; rewrite X in ER end.
      destruct (construct decls n u s false) as [[vc s2]|] eqn:C; [|discriminate].
      unfold key_codec in ER. match goal with X : key_means _ _ _ |- _ => inversion X as [k1 T1|k1 T1 T2 T3|k1 i T1 T2 T3 T4 T5]; subst end.
      * apply orb_true_iff in T1. rewrite T1 in ER. injection ER as <- <-. cbn. now erewrite IH by eauto.
      * rewrite T1, T2, T3 in ER. injection ER as <- <-. cbn. now erewrite IH by eauto.
      * rewrite T1, T2, T5 in ER. cbn [orb] in ER.
        destruct (construct decls n k s2 false) as [[kc s3]|] eqn:Ck; [|discriminate]. injection ER as <- <-.
        assert (KC : c_dec kc = DInt i).
        { destruct n; [discriminate|]. rewrite construct_S in Ck. unfold plain in T4. rewrite T4, T5 in Ck. injection Ck as <- <-.
          cbn [with_methods c_dec]. now rewrite T3, T2. }
        cbn [c_dec gty_of key_of]. rewrite KC. now erewrite IH by eauto.
    + match goal with X : ~ (r_spec _ = _ /\ _) |- _ => apply common_none in X; rewrite X in ER end.
      destruct (construct decls n u s false) as [[vc s2]|] eqn:C; [|discriminate].
      unfold key_codec in ER.
      match goal with X : mt (r_own (decls k)) = false, Y : ut (r_ptr (decls k)) = false |- _ => rewrite X, Y in ER end. cbn [orb] in ER.
      destruct (r_kind (decls k)) eqn:Kk; try (injection ER as <- <-; reflexivity); exfalso;
        match goal with X : forall i, _ <> RInt i |- _ => (eapply X; reflexivity) | X : RString <> RString |- _ => now apply X end.
    + destruct (build_rstruct decls n t s a) as [s2|]; [|discriminate]. injection ER as <- <-. reflexivity.
    + destruct (construct decls n u s true) as [[c2 s2]|] eqn:C; [|discriminate]. injection ER as <- <-. cbn. now erewrite IH by eauto.
Qed.
End Dec.

(** ** The methods that are called. *)
Section Calls.
Context (KEY : forall t k u, r_kind (decls t) = RMap k u -> mt (r_own (decls k)) = true \/ ut (r_ptr (decls k)) = true ->
                             mt (r_own (decls k)) = true /\ ut (r_ptr (decls k)) = true).
Context (VAL : forall t, r_kind (decls t) = RInt TUint8 -> uj (r_own (decls t)) = false /\ ut (r_own (decls t)) = false).

Definition calls_ok (c : codec) : Prop := enc_calls_ok decls (c_enc c) /\ dec_calls_ok decls (c_dec c).
Definition calls_inv (s : rseen) : Prop := forall t l, rlook t s = Some l -> Forall calls_ok l.

Lemma special_calls sp : calls_ok (special sp).
Proof. induction sp; try (split; exact I). destruct IHsp. split; assumption. Qed.
Lemma with_methods_calls t a c : calls_ok c -> calls_ok (with_methods decls t a c).
Proof.
  intros [E D]. split; cbn [with_methods c_enc c_dec].
  - destruct (mj (r_own (decls t))) eqn:A; [exact A|]. destruct (mt (r_own (decls t))) eqn:B; [exact B|].
    destruct a; [|exact E]. destruct (mj (r_ptr (decls t))) eqn:C; [exact C|]. destruct (mt (r_ptr (decls t))) eqn:F; [exact F|exact E].
  - destruct (uj (r_ptr (decls t))) eqn:A; [now split|]. destruct (ut (r_ptr (decls t))) eqn:B; [now split|exact D].
Qed.
Lemma stringify_calls t c : calls_ok c -> calls_ok (stringify decls t c).
Proof.
  intros H. pose proof H as [E D]. unfold stringify.
  destruct (match r_kind (decls t) with RPtr e => r_kind (decls e) | k => k end); try exact H; now split.
Qed.
Lemma slice8_calls u : r_kind (decls u) = RInt TUint8 -> calls_ok (slice8 decls u).
Proof.
  intros K. destruct (VAL u K) as [A B]. unfold slice8. rewrite A, B. split; cbn [c_enc c_dec].
  - destruct (mj (r_own (decls u))) eqn:C1; [exact C1|]. destruct (mt (r_own (decls u))) eqn:C2; [exact C2|].
    destruct (mj (r_ptr (decls u))) eqn:C3; [exact C3|]. destruct (mt (r_ptr (decls u))) eqn:C4; [exact C4|exact I].
  - destruct (uj (r_ptr (decls u))) eqn:C1; [now split|]. destruct (ut (r_ptr (decls u))) eqn:C2; [now split|exact I].
Qed.
Lemma rwalk_calls rec sub :
  (forall u s c s', rec u s = Some (c, s') -> calls_inv s -> calls_ok c /\ calls_inv s') ->
  (forall u s s', sub u s = Some s' -> calls_inv s -> calls_inv s') ->
  forall g s own em s', rwalk decls rec sub g s = Some (own, em, s') -> calls_inv s ->
  Forall calls_ok own /\ Forall calls_ok em /\ calls_inv s'.
Proof.
  intros REC SUB. induction g as [|[u str|u p] g IH]; intros s own em s' H IV; cbn [rwalk] in H.
  - injection H as <- <- <-. auto.
  - destruct (rec u s) as [[c s1]|] eqn:R; [|discriminate].
    destruct (rwalk decls rec sub g s1) as [[[o e] s2]|] eqn:W; [|discriminate]. injection H as <- <- <-.
    destruct (REC _ _ _ _ R IV) as [C1 IV1]. destruct (IH _ _ _ _ W IV1) as (A & B & C). repeat split; auto.
    constructor; [|exact A]. destruct str; [now apply stringify_calls|exact C1].
  - destruct (sub u s) as [s1|] eqn:R; [|discriminate].
    destruct (rwalk decls rec sub g s1) as [[[o e] s2]|] eqn:W; [|discriminate]. injection H as <- <- <-.
    pose proof (SUB _ _ _ R IV) as IV1. destruct (IH _ _ _ _ W IV1) as (A & B & C). repeat split; auto.
    apply Forall_app. split; [|exact B].
    destruct (rlook u s1) as [l|] eqn:L; [|destruct p; constructor]. pose proof (IV1 _ _ L) as FL.
    destruct p; cbn [emb]; [|exact FL]. rewrite Forall_map. eapply Forall_impl; [|exact FL]. intros c [X Y]. now split.
Qed.
Lemma construct_calls n :
  (forall t s a c s', construct decls n t s a = Some (c, s') -> calls_inv s -> calls_ok c /\ calls_inv s') /\
  (forall t s a s', build_rstruct decls n t s a = Some s' -> calls_inv s -> calls_inv s').
Proof.
  induction n as [|n [IHc IHb]]; [split; intros; discriminate|]. split.
  - intros t s a c s' H IV. rewrite construct_S in H.
    destruct (r_spec (decls t)) as [sp|] eqn:SP.
    { injection H as <- <-. split; [apply special_calls|exact IV]. }
    cbv zeta in H.
    match type of H with context [match ?r with Some _ => _ | None => None end] => set (R := r) in H end.
    destruct R as [[c1 s1]|] eqn:ER; [|discriminate]. injection H as <- <-. subst R.
    enough (G : calls_ok c1 /\ calls_inv s1) by (destruct G; split; [now apply with_methods_calls|assumption]).
    destruct (r_kind (decls t)) as [|k|w| |b|m u|u|k u|fs|u|] eqn:K;
      try (injection ER as <- <-; split; [split; exact I|exact IV]).
    + destruct (construct decls n u s a) as [[c2 s2]|] eqn:C; [|discriminate]. injection ER as <- <-.
      destruct (IHc _ _ _ _ _ C IV) as [[X Y] Z]. now repeat split.
    + destruct (byte_kind_dec (r_kind (decls u))) as [BK|BK].
      * rewrite BK in ER. injection ER as <- <-. split; [now apply slice8_calls|exact IV].
      * rewrite slice_branch in ER by exact BK.
        destruct (construct decls n u s true) as [[c2 s2]|] eqn:C; [|discriminate]. injection ER as <- <-.
        destruct (IHc _ _ _ _ _ C IV) as [[X Y] Z]. now repeat split.
    + destruct (common_map decls k u) as [cm|] eqn:CM.
      { injection ER as <- <-. split; [|exact IV]. unfold common_map in CM.
        destruct (r_spec (decls k)) as [[]|]; try discriminate.
        destruct (r_spec (decls u)) as [[]|]; try discriminate; injection CM as <-; now split. }
      destruct (construct decls n u s false) as [[vc s2]|] eqn:C; [|discriminate].
      destruct (IHc _ _ _ _ _ C IV) as [[X Y] Z]. unfold key_codec in ER.
      destruct (mt (r_own (decls k)) || ut (r_ptr (decls k))) eqn:TX.
      { injection ER as <- <-. apply orb_true_iff in TX. destruct (KEY _ _ _ K TX) as [T1 T2]. now repeat split. }
      destruct (r_kind (decls k)) eqn:Kk; try (injection ER as <- <-; now repeat split).
      destruct (construct decls n k s2 false) as [[kc s3]|] eqn:Ck; [|discriminate]. injection ER as <- <-.
      destruct (IHc _ _ _ _ _ Ck Z) as [[X' Y'] Z']. now repeat split.
    + destruct (build_rstruct decls n t s a) as [s2|] eqn:C; [|discriminate]. injection ER as <- <-.
      split; [now split|eapply IHb; eauto].
    + destruct (construct decls n u s true) as [[c2 s2]|] eqn:C; [|discriminate]. injection ER as <- <-.
      destruct (IHc _ _ _ _ _ C IV) as [[X Y] Z]. now repeat split.
  - intros t s a s' H IV. rewrite build_S in H. unfold rstruct in H.
    destruct (rlook t s) as [l|] eqn:L; [now injection H as <-|].
    destruct (r_kind (decls t)) as [|k|w| |b|m u|u|k u|fs|u|]; try now injection H as <-.
    destruct (rwalk _ _ _ _ _) as [[[own em] s1]|] eqn:W in H; [|discriminate]. injection H as <-.
    apply rwalk_calls in W as (A & B & C).
    + intros u l U. destruct (Nat.eq_dec u t) as [->|N].
      * rewrite rlook_put in U. injection U as <-. apply Forall_app. now split.
      * rewrite rlook_put_other in U by exact N. exact (C _ _ U).
    + intros u x c x'. apply IHc.
    + intros u x x'. apply IHb.
    + intros u l U. cbn [rlook] in U. destruct (Nat.eqb_spec t u) as [->|N]; [injection U as <-; constructor|exact (IV _ _ U)].
Qed.
End Calls.

(** ** The decoders of the fields of structs. *)
Section DecFields.
Context (BYTE : forall t, r_kind (decls t) = RInt TUint8 -> r_spec (decls t) = None).
Context (VAL : forall t, uj (r_own (decls t)) = false /\ ut (r_own (decls t)) = false \/ r_kind (decls t) <> RInt TUint8).
Definition field_means (f : nat * bool) (d : dec) : Prop :=
  exists d0, (forall g, means decls (fst f) g -> gty_of d0 = Some g) /\ field_dec decls (fst f) (snd f) d0 d.
Definition dinv (P : list nat) (s : rseen) : Prop :=
  forall t l, rlook t s = Some l -> In t P \/
    exists fs own em, r_kind (decls t) = RStruct fs /\ l = own ++ em /\ Forall2 field_means (own_fields fs) (map c_dec own).

Lemma stringify_field_dec t str c : field_dec decls t str (c_dec c) (c_dec (if str then stringify decls t c else c)).
Proof.
  unfold field_dec, stringify. fold (base_kind decls t). destruct str; [|left; split; [now left|reflexivity]].
  destruct (base_kind decls t) eqn:K; cbn [c_dec basic].
  all: first [right; left; split; [reflexivity|split; [eexists; reflexivity|reflexivity]]
             |right; right; split; [reflexivity|split; [exact I|split; [intros; discriminate|reflexivity]]]
             |left; split; [right; intros []|reflexivity]].
Qed.
Lemma rwalk_dinv rec sub P :
  (forall u s c s', rec u s = Some (c, s') -> dinv P s -> (forall g, means decls u g -> gty_of (c_dec c) = Some g) /\ dinv P s') ->
  (forall u s s', sub u s = Some s' -> dinv P s -> dinv P s') ->
  forall g s own em s', rwalk decls rec sub g s = Some (own, em, s') -> dinv P s ->
  Forall2 field_means (own_fields g) (map c_dec own) /\ dinv P s'.
Proof.
  intros REC SUB. induction g as [|[u str|u p] g IH]; intros s own em s' H IV; cbn [rwalk own_fields] in *.
  - injection H as <- <- <-. split; [constructor|exact IV].
  - destruct (rec u s) as [[c s1]|] eqn:R; [|discriminate].
    destruct (rwalk decls rec sub g s1) as [[[o e] s2]|] eqn:W; [|discriminate]. injection H as <- <- <-.
    destruct (REC _ _ _ _ R IV) as [C1 IV1]. destruct (IH _ _ _ _ W IV1) as (A & B). split; [|exact B].
    cbn [map]. constructor; [|exact A]. exists (c_dec c). split; [exact C1|apply stringify_field_dec].
  - destruct (sub u s) as [s1|] eqn:R; [|discriminate].
    destruct (rwalk decls rec sub g s1) as [[[o e] s2]|] eqn:W; [|discriminate]. injection H as <- <- <-.
    pose proof (SUB _ _ _ R IV) as IV1. destruct (IH _ _ _ _ W IV1) as (A & B). split; auto.
Qed.
Lemma construct_dinv n :
  (forall t s a c s' P, construct decls n t s a = Some (c, s') -> dinv P s -> dinv P s') /\
  (forall t s a s' P, build_rstruct decls n t s a = Some s' -> dinv P s -> dinv P s').
Proof.
  induction n as [|n [IHc IHb]]; [split; intros; discriminate|]. split.
  - intros t s a c s' P H IV. rewrite construct_S in H.
    destruct (r_spec (decls t)) as [sp|] eqn:SP; [injection H as <- <-; exact IV|].
    cbv zeta in H.
    match type of H with context [match ?r with Some _ => _ | None => None end] => set (R := r) in H end.
    destruct R as [[c1 s1]|] eqn:ER; [|discriminate]. injection H as <- <-. subst R.
    destruct (r_kind (decls t)) as [|k|w| |b|m u|u|k u|fs|u|] eqn:K; try (injection ER as <- <-; exact IV).
    + destruct (construct decls n u s a) as [[c2 s2]|] eqn:C; [|discriminate]. injection ER as <- <-. eapply IHc; eauto.
    + destruct (byte_kind_dec (r_kind (decls u))) as [BK|BK].
      * rewrite BK in ER. injection ER as <- <-. exact IV.
      * rewrite slice_branch in ER by exact BK.
        destruct (construct decls n u s true) as [[c2 s2]|] eqn:C; [|discriminate]. injection ER as <- <-. eapply IHc; eauto.
    + destruct (common_map decls k u) as [cm|] eqn:CM; [injection ER as <- <-; exact IV|].
      destruct (construct decls n u s false) as [[vc s2]|] eqn:C; [|discriminate].
      pose proof (IHc _ _ _ _ _ P C IV) as Z. unfold key_codec in ER.
      destruct (mt (r_own (decls k)) || ut (r_ptr (decls k))) eqn:TX; [injection ER as <- <-; exact Z|].
      destruct (r_kind (decls k)) eqn:Kk; try (injection ER as <- <-; exact Z).
      destruct (construct decls n k s2 false) as [[kc s3]|] eqn:Ck; [|discriminate]. injection ER as <- <-. eapply IHc; eauto.
    + destruct (build_rstruct decls n t s a) as [s2|] eqn:C; [|discriminate]. injection ER as <- <-. eapply IHb; eauto.
    + destruct (construct decls n u s true) as [[c2 s2]|] eqn:C; [|discriminate]. injection ER as <- <-. eapply IHc; eauto.
  - intros t s a s' P H IV. rewrite build_S in H. unfold rstruct in H.
    destruct (rlook t s) as [l|] eqn:L; [now injection H as <-|].
    destruct (r_kind (decls t)) as [|k|w| |b|m u|u|k u|fs|u|] eqn:K; try now injection H as <-.
    destruct (rwalk _ _ _ _ _) as [[[own em] s1]|] eqn:W in H; [|discriminate]. injection H as <-.
    apply (rwalk_dinv _ _ (t :: P)) in W as (A & B).
    + intros u l U. destruct (Nat.eq_dec u t) as [->|N].
      * rewrite rlook_put in U. injection U as <-. right. exists fs, own, em. auto.
      * rewrite rlook_put_other in U by exact N. destruct (B _ _ U) as [[X|X]|X]; [congruence|now left|now right].
    + intros u x c x' R IX. split; [|eapply IHc; eauto]. intros g M. eapply construct_means; eauto.
    + intros u x x' R IX. eapply IHb; eauto.
    + intros u l U. cbn [rlook] in U. destruct (Nat.eqb_spec t u) as [->|N]; [left; now left|].
      destruct (IV _ _ U) as [X|X]; [left; now right|now right].
Qed.
End DecFields.

(** ** Termination. *)
Lemma rwalk_mono (r r' : nat -> rseen -> option (codec * rseen)) b b' g : (forall t s x, r t s = Some x -> r' t s = Some x) ->
  (forall t s x, b t s = Some x -> b' t s = Some x) ->
  forall s x, rwalk decls r b g s = Some x -> rwalk decls r' b' g s = Some x.
Proof.
  intros R B. induction g as [|[u str|u p] g IH]; intros s x H; cbn [rwalk] in *; [exact H| |].
  - destruct (r u s) as [[c s1]|] eqn:E; [|discriminate]. rewrite (R _ _ _ E).
    destruct (rwalk decls r b g s1) as [y|] eqn:W; [|discriminate]. now rewrite (IH _ _ W).
  - destruct (b u s) as [s1|] eqn:E; [|discriminate]. rewrite (B _ _ _ E).
    destruct (rwalk decls r b g s1) as [y|] eqn:W; [|discriminate]. now rewrite (IH _ _ W).
Qed.
Lemma construct_mono n :
  (forall t s a x, construct decls n t s a = Some x -> construct decls (S n) t s a = Some x) /\
  (forall t s a x, build_rstruct decls n t s a = Some x -> build_rstruct decls (S n) t s a = Some x).
Proof.
  induction n as [|n [IHc IHb]]; [split; intros; discriminate|]. split.
  - intros t s a x H. rewrite construct_S. rewrite construct_S in H. destruct (r_spec (decls t)); [exact H|].
    cbv zeta in *. destruct (r_kind (decls t)) as [|k|w| |b|m u|u|k u|fs|u|]; try exact H.
    + destruct (construct decls n u s a) as [[c2 s2]|] eqn:C; [|discriminate]. now rewrite (IHc _ _ _ _ C).
    + destruct (byte_kind_dec (r_kind (decls u))) as [BK|BK]; [now rewrite BK in *|].
      rewrite slice_branch in * by exact BK.
      destruct (construct decls n u s true) as [[c2 s2]|] eqn:C; [|discriminate]. now rewrite (IHc _ _ _ _ C).
    + destruct (common_map decls k u); [exact H|].
      destruct (construct decls n u s false) as [[c2 s2]|] eqn:C; [|discriminate]. rewrite (IHc _ _ _ _ C).
      unfold key_codec in *. destruct (mt (r_own (decls k)) || ut (r_ptr (decls k))); [exact H|].
      destruct (r_kind (decls k)); try exact H.
      destruct (construct decls n k s2 false) as [[c3 s3]|] eqn:C3; [|discriminate]. now rewrite (IHc _ _ _ _ C3).
    + destruct (build_rstruct decls n t s a) as [s2|] eqn:C; [|discriminate]. now rewrite (IHb _ _ _ _ C).
    + destruct (construct decls n u s true) as [[c2 s2]|] eqn:C; [|discriminate]. now rewrite (IHc _ _ _ _ C).
  - intros t s a x H. rewrite build_S. rewrite build_S in H. unfold rstruct in *.
    destruct (rlook t s); [exact H|]. destruct (r_kind (decls t)); try exact H.
    destruct (rwalk _ _ _ _ _) as [y|] eqn:W in H; [|discriminate].
    erewrite rwalk_mono; [exact H| | |exact W]; [intros; now apply IHc|intros; now apply IHb].
Qed.
Lemma construct_more n m t s a x : (n <= m)%nat -> construct decls n t s a = Some x -> construct decls m t s a = Some x.
Proof. induction 1; auto. intros H'. apply construct_mono. auto. Qed.
Lemma build_more n m t s a x : (n <= m)%nat -> build_rstruct decls n t s a = Some x -> build_rstruct decls m t s a = Some x.
Proof. induction 1; auto. intros H'. apply construct_mono. auto. Qed.

Definition grows (s s' : rseen) : Prop := forall t, rlook t s <> None -> rlook t s' <> None.
Lemma grows_put t l s : grows s (rput t l s).
Proof.
  intros u H. destruct (Nat.eq_dec u t) as [->|N]; [rewrite rlook_put; discriminate|]. now rewrite rlook_put_other.
Qed.
Section Total.
Context (structs : list nat) (ALL : forall t fs, r_kind (decls t) = RStruct fs -> In t structs).
Context (rank : nat -> nat) (DOWN : forall t u, inner decls t u -> (rank u < rank t)%nat).
Definition missing (s : rseen) : nat := length (filter (fun t => match rlook t s with None => true | Some _ => false end) structs).
Lemma missing_grows s s' : grows s s' -> (missing s' <= missing s)%nat.
Proof.
  clear ALL. intros G. unfold missing. induction structs as [|t l IH]; [apply le_n|]. cbn [filter].
  pose proof (G t) as Gt. destruct (rlook t s) eqn:E, (rlook t s') eqn:E'; cbn [length]; try lia.
  exfalso. apply Gt; [discriminate|reflexivity].
Qed.
Lemma missing_enter t s : In t structs -> rlook t s = None -> (missing ((t, []%list) :: s) < missing s)%nat.
Proof.
  clear ALL. intros I N. unfold missing. induction structs as [|u l IH]; [destruct I|]. cbn [filter rlook].
  assert (M : (length (filter (fun u => match (if (t =? u)%nat then Some [] else rlook u s) with Some _ => false | None => true end) l) <=
               length (filter (fun u => match rlook u s with Some _ => false | None => true end) l))%nat).
  { clear. induction l as [|u l IH]; [apply le_n|]. cbn [filter]. destruct (t =? u)%nat; destruct (rlook u s); cbn [length]; lia. }
  destruct I as [->|I].
  - rewrite Nat.eqb_refl, N. cbn [length]. cbn [rlook] in M. lia.
  - specialize (IH I). cbn [rlook] in IH. destruct (t =? u)%nat; destruct (rlook u s); cbn [length]; lia.
Qed.

Lemma rwalk_total a m :
  (forall s, (missing s <= m)%nat -> forall t, exists n c s', construct decls n t s a = Some (c, s') /\ grows s s') ->
  (forall s, (missing s <= m)%nat -> forall t, exists n s', build_rstruct decls n t s a = Some s' /\ grows s s') ->
  forall g s, (missing s <= m)%nat -> exists n own em s',
    rwalk decls (fun t s => construct decls n t s a) (fun t s => build_rstruct decls n t s a) g s = Some (own, em, s') /\ grows s s'.
Proof.
  intros REC SUB. induction g as [|[u str|u p] g IH]; intros s M; cbn [rwalk].
  - exists O, [], [], s. split; [easy|]. intros t H; exact H.
  - destruct (REC s M u) as (n1 & c & s1 & E1 & G1).
    destruct (IH s1) as (n2 & own & em & s2 & E2 & G2); [pose proof (missing_grows _ _ G1); lia|].
    exists (n1 + n2)%nat. rewrite (construct_more n1 (n1 + n2) u s a _ ltac:(lia) E1).
    rewrite (rwalk_mono _ (fun t s => construct decls (n1 + n2) t s a) _ (fun t s => build_rstruct decls (n1 + n2) t s a) g
      (fun t s x H => construct_more n2 (n1 + n2) t s a x ltac:(lia) H) (fun t s x H => build_more n2 (n1 + n2) t s a x ltac:(lia) H) s1 _ E2).
    eexists _, _, _. split; [reflexivity|]. intros t H. auto.
  - destruct (SUB s M u) as (n1 & s1 & E1 & G1).
    destruct (IH s1) as (n2 & own & em & s2 & E2 & G2); [pose proof (missing_grows _ _ G1); lia|].
    exists (n1 + n2)%nat. rewrite (build_more n1 (n1 + n2) u s a _ ltac:(lia) E1).
    rewrite (rwalk_mono _ (fun t s => construct decls (n1 + n2) t s a) _ (fun t s => build_rstruct decls (n1 + n2) t s a) g
      (fun t s x H => construct_more n2 (n1 + n2) t s a x ltac:(lia) H) (fun t s x H => build_more n2 (n1 + n2) t s a x ltac:(lia) H) s1 _ E2).
    eexists _, _, _. split; [reflexivity|]. intros t H. auto.
Qed.

Lemma total m : forall s, (missing s <= m)%nat ->
  (forall a t, exists n s', build_rstruct decls n t s a = Some s' /\ grows s s') /\
  (forall a t, exists n c s', construct decls n t s a = Some (c, s') /\ grows s s').
Proof.
  induction m as [m IHm] using lt_wf_ind. intros s M.
  assert (B : forall s, (missing s <= m)%nat -> forall a t, exists n s', build_rstruct decls n t s a = Some s' /\ grows s s').
  { clear s M. intros s M a t. destruct (rlook t s) as [l|] eqn:L.
    { exists 1%nat, s. rewrite build_S. unfold rstruct. rewrite L. split; [easy|intros u H; exact H]. }
    destruct (r_kind (decls t)) as [| | | | | | | |fs| |] eqn:K;
      try (exists 1%nat, s; rewrite build_S; unfold rstruct; rewrite L, K; split; [easy|intros u H; exact H]).
    pose proof (missing_enter t s (ALL _ _ K) L) as ME.
    destruct (rwalk_total a (missing ((t, []) :: s))) with (g := fs) (s := (t, @nil codec) :: s) as (n & own & em & s1 & W & G); auto.
    - intros x X u. destruct (IHm (missing ((t, []) :: s)) ltac:(lia) x X) as [_ H]. apply H.
    - intros x X u. destruct (IHm (missing ((t, []) :: s)) ltac:(lia) x X) as [H _]. apply H.
    - exists (S n). eexists. rewrite build_S. unfold rstruct. rewrite L, K, W. split; [reflexivity|].
      intros u H. apply grows_put. apply G. cbn [rlook]. destruct (t =? u)%nat; [discriminate|exact H]. }
  split; [now apply B|].
  intros a t. remember (rank t) as r eqn:Er. revert s M a t Er. induction r as [r IHr] using lt_wf_ind. intros s M a t ->.
  destruct (r_spec (decls t)) as [sp|] eqn:SP.
  { exists 1%nat. eexists _, _. rewrite construct_S, SP. split; [reflexivity|intros u H; exact H]. }
  destruct (r_kind (decls t)) as [|k|w| |b|n u|u|k u|fs|u|] eqn:K;
    try (exists 1%nat; eexists _, _; rewrite construct_S, SP, K; split; [reflexivity|intros x H; exact H]).
  - destruct (IHr (rank u) (DOWN _ _ (in_array decls t n u SP K)) s M a u eq_refl) as (m1 & c & s1 & E & G).
    exists (S m1). eexists _, _. rewrite construct_S, SP, K, E. split; [reflexivity|exact G].
  - destruct (byte_kind_dec (r_kind (decls u))) as [BK|BK].
    { exists 1%nat. eexists _, _. rewrite construct_S, SP, K, BK. split; [reflexivity|intros x H; exact H]. }
    destruct (IHr (rank u) (DOWN _ _ (in_slice decls t u SP K BK)) s M true u eq_refl) as (m1 & c & s1 & E & G).
    exists (S m1). eexists _, _. rewrite construct_S, SP, K, slice_branch, E by exact BK. split; [reflexivity|exact G].
  - destruct (common_map decls k u) as [cm|] eqn:CM.
    { exists 1%nat. eexists _, _. rewrite construct_S, SP, K, CM. split; [reflexivity|intros x H; exact H]. }
    destruct (IHr (rank u) (DOWN _ _ (in_map decls t k u SP K (proj1 (common_none _ _) CM))) s M false u eq_refl) as (m1 & c & s1 & E & G).
    assert (KC : exists c' s', key_codec decls (fun t s => construct decls (S m1) t s false) k s1 = Some (c', s') /\ grows s1 s').
    { unfold key_codec. destruct (mt (r_own (decls k)) || ut (r_ptr (decls k))); [eexists _, _; split; [reflexivity|intros x H; exact H]|].
      destruct (r_kind (decls k)) eqn:Kk; try (eexists _, _; split; [reflexivity|intros x H; exact H]).
      rewrite construct_S, Kk. destruct (r_spec (decls k)); eexists _, _; (split; [reflexivity|intros x H; exact H]). }
    destruct KC as (c' & s' & KC & G').
    exists (S (S m1)). destruct c' as [kc|]; eexists _, _; rewrite construct_S, SP, K, CM; rewrite (construct_more m1 (S m1) u s false _ ltac:(lia) E); rewrite KC;
      (split; [reflexivity|]; intros x H; auto).
  - destruct (B s M a t) as (m1 & s1 & E & G).
    exists (S m1). eexists _, _. rewrite construct_S, SP, K, E. split; [reflexivity|exact G].
  - destruct (IHr (rank u) (DOWN _ _ (in_ptr decls t u SP K)) s M true u eq_refl) as (m1 & c & s1 & E & G).
    exists (S m1). eexists _, _. rewrite construct_S, SP, K, E. split; [reflexivity|exact G].
Qed.
End Total.

(** A type on a chain of arrays, slices, maps and pointers without end. *)
Lemma diverges (P : nat -> Prop) : (forall t, P t -> exists u, inner decls t u /\ P u) ->
  forall n t s a, P t -> construct decls n t s a = None.
Proof.
  intros C. induction n as [|n IH]; [easy|]. intros t s a H. destruct (C t H) as (u & IN & Pu). rewrite construct_S.
  inversion IN as [t1 k u1 SP K|t1 u1 SP K BK|t1 k u1 SP K CM|t1 u1 SP K]; subst; unfold plain in SP; rewrite SP, K; cbv zeta.
  - now rewrite IH.
  - rewrite slice_branch by exact BK. now rewrite IH.
  - apply common_none in CM. rewrite CM. now rewrite IH.
  - now rewrite IH.
Qed.

(** ** The table has every struct type the codecs refer to. *)
Definition linv (s : rseen) : Prop := forall t l, rlook t s = Some l -> Forall (listed s) l.
Lemma listed_grows s s' c : grows s s' -> listed s c -> listed s' c.
Proof. intros G H t I. apply G. now apply H. Qed.
Lemma listed_same s c e d : enc_structs e = enc_structs (c_enc c) -> dec_structs d = dec_structs (c_dec c) -> listed s c -> listed s (Codec e d).
Proof. intros E D H t I. cbn [c_enc c_dec] in I. rewrite E, D in I. now apply H. Qed.
Lemma listed_none s e d : enc_structs e = [] -> dec_structs d = [] -> listed s (Codec e d).
Proof. intros E D t I. cbn [c_enc c_dec] in I. rewrite E, D in I. destruct I. Qed.
Lemma listed_mix s c e d : enc_structs e = [] \/ enc_structs e = enc_structs (c_enc c) -> dec_structs d = [] \/ dec_structs d = dec_structs (c_dec c) ->
  listed s c -> listed s (Codec e d).
Proof.
  intros E D H t I. cbn [c_enc c_dec] in I. apply H. apply in_app_iff. apply in_app_iff in I as [I|I].
  - left. destruct E as [E|E]; rewrite E in I; [destruct I|exact I].
  - right. destruct D as [E'|E']; rewrite E' in I; [destruct I|exact I].
Qed.
Lemma listed_methods s t a c : listed s c -> listed s (with_methods decls t a c).
Proof.
  intros H. unfold with_methods. apply listed_mix with c; [| |exact H].
  - destruct (mj (r_own (decls t))); [now left|]. destruct (mt (r_own (decls t))); [now left|].
    destruct a; [|now right]. destruct (mj (r_ptr (decls t))); [now left|]. destruct (mt (r_ptr (decls t))); [now left|now right].
  - destruct (uj (r_ptr (decls t))); [now left|]. destruct (ut (r_ptr (decls t))); [now left|now right].
Qed.
Lemma listed_stringify s t c : listed s c -> listed s (stringify decls t c).
Proof.
  intros H. unfold stringify. fold (base_kind decls t). destruct (base_kind decls t); try exact H; now apply (listed_same s c).
Qed.
Lemma listed_special s sp : listed s (special sp).
Proof. induction sp; try (now apply listed_none). cbn [special]. apply (listed_same s (special sp)); auto. Qed.
Lemma linv_grows_all s s' l : grows s s' -> Forall (listed s) l -> Forall (listed s') l.
Proof. intros G. apply Forall_impl. intros c. now apply listed_grows. Qed.
Lemma grows_refl s : grows s s. Proof. intros t H; exact H. Qed.
Lemma grows_trans s s' s'' : grows s s' -> grows s' s'' -> grows s s''. Proof. intros A B t H. auto. Qed.

Lemma rwalk_listed rec sub :
  (forall u s c s', rec u s = Some (c, s') -> linv s -> grows s s' /\ linv s' /\ listed s' c) ->
  (forall u s s', sub u s = Some s' -> linv s -> grows s s' /\ linv s') ->
  forall g s own em s', rwalk decls rec sub g s = Some (own, em, s') -> linv s ->
  grows s s' /\ linv s' /\ Forall (listed s') own /\ Forall (listed s') em.
Proof.
  intros REC SUB. induction g as [|[u str|u p] g IH]; intros s own em s' H IV; cbn [rwalk] in H.
  - injection H as <- <- <-. repeat split; auto. apply grows_refl.
  - destruct (rec u s) as [[c s1]|] eqn:R; [|discriminate].
    destruct (rwalk decls rec sub g s1) as [[[o e] s2]|] eqn:W; [|discriminate]. injection H as <- <- <-.
    destruct (REC _ _ _ _ R IV) as (G1 & IV1 & L1). destruct (IH _ _ _ _ W IV1) as (G2 & IV2 & A & B).
    split; [eapply grows_trans; eauto|]. repeat split; auto. constructor; [|exact A].
    apply (listed_grows s1); [exact G2|]. destruct str; [now apply listed_stringify|exact L1].
  - destruct (sub u s) as [s1|] eqn:R; [|discriminate].
    destruct (rwalk decls rec sub g s1) as [[[o e] s2]|] eqn:W; [|discriminate]. injection H as <- <- <-.
    destruct (SUB _ _ _ R IV) as (G1 & IV1). destruct (IH _ _ _ _ W IV1) as (G2 & IV2 & A & B).
    split; [eapply grows_trans; eauto|]. repeat split; auto. apply Forall_app. split; [|exact B].
    apply (linv_grows_all s1); [exact G2|].
    destruct (rlook u s1) as [l|] eqn:L; [|destruct p; constructor]. pose proof (IV1 _ _ L) as FL.
    destruct p; cbn [emb]; [|exact FL]. rewrite Forall_map. eapply Forall_impl; [|exact FL]. intros c X. now apply (listed_same s1 c).
Qed.
Lemma construct_listed n :
  (forall t s a c s', construct decls n t s a = Some (c, s') -> linv s -> grows s s' /\ linv s' /\ listed s' c) /\
  (forall t s a s', build_rstruct decls n t s a = Some s' -> linv s -> grows s s' /\ linv s' /\ (forall fs, r_kind (decls t) = RStruct fs -> rlook t s' <> None)).
Proof.
  induction n as [|n [IHc IHb]]; [split; intros; discriminate|]. split.
  - intros t s a c s' H IV. rewrite construct_S in H.
    destruct (r_spec (decls t)) as [sp|] eqn:SP.
    { injection H as <- <-. split; [apply grows_refl|]. split; [exact IV|apply listed_special]. }
    cbv zeta in H.
    match type of H with context [match ?r with Some _ => _ | None => None end] => set (R := r) in H end.
    destruct R as [[c1 s1]|] eqn:ER; [|discriminate]. injection H as <- <-. subst R.
    enough (G : grows s s1 /\ linv s1 /\ listed s1 c1).
    { destruct G as (A & B & C). repeat split; auto. now apply listed_methods. }
    destruct (r_kind (decls t)) as [|k|w| |b|m u|u|k u|fs|u|] eqn:K;
      try (injection ER as <- <-; split; [apply grows_refl|]; split; [exact IV|now apply listed_none]).
    + destruct (construct decls n u s a) as [[c2 s2]|] eqn:C; [|discriminate]. injection ER as <- <-.
      destruct (IHc _ _ _ _ _ C IV) as (X & Y & Z). repeat split; auto; now apply (listed_same s2 c2).
    + destruct (byte_kind_dec (r_kind (decls u))) as [BK|BK].
      * rewrite BK in ER. injection ER as <- <-. split; [apply grows_refl|]. split; [exact IV|]. unfold slice8. apply listed_none.
        -- destruct (mj (r_own (decls u))); [easy|]. destruct (mt (r_own (decls u))); [easy|]. destruct (mj (r_ptr (decls u))); [easy|]. now destruct (mt (r_ptr (decls u))).
        -- destruct (uj (r_own (decls u))); [easy|]. destruct (ut (r_own (decls u))); [easy|]. destruct (uj (r_ptr (decls u))); [easy|]. now destruct (ut (r_ptr (decls u))).
      * rewrite slice_branch in ER by exact BK.
        destruct (construct decls n u s true) as [[c2 s2]|] eqn:C; [|discriminate]. injection ER as <- <-.
        destruct (IHc _ _ _ _ _ C IV) as (X & Y & Z). repeat split; auto; now apply (listed_same s2 c2).
    + destruct (common_map decls k u) as [cm|] eqn:CM.
      { injection ER as <- <-. split; [apply grows_refl|]. split; [exact IV|]. unfold common_map in CM.
        destruct (r_spec (decls k)) as [[]|]; try discriminate.
        destruct (r_spec (decls u)) as [[]|]; try discriminate; injection CM as <-; now apply listed_none. }
      destruct (construct decls n u s false) as [[vc s2]|] eqn:C; [|discriminate].
      destruct (IHc _ _ _ _ _ C IV) as (X & Y & Z). unfold key_codec in ER.
      destruct (mt (r_own (decls k)) || ut (r_ptr (decls k))) eqn:TX.
      { injection ER as <- <-. repeat split; auto; now apply (listed_same s2 vc). }
      destruct (r_kind (decls k)) eqn:Kk; try (injection ER as <- <-; repeat split; auto; first [now apply listed_none|now apply (listed_same s2 vc)]).
      destruct (construct decls n k s2 false) as [[kc s3]|] eqn:Ck; [|discriminate]. injection ER as <- <-.
      destruct (IHc _ _ _ _ _ Ck Y) as (X' & Y' & Z'). split; [eapply grows_trans; eauto|]. split; [exact Y'|].
      intros x I. cbn [c_enc c_dec enc_structs dec_structs] in I. rewrite !in_app_iff in I.
      destruct I as [[I|I]|[I|I]]; [apply Z'|apply X', Z|apply Z'|apply X', Z]; apply in_app_iff; auto.
    + destruct (build_rstruct decls n t s a) as [s2|] eqn:C; [|discriminate]. injection ER as <- <-.
      destruct (IHb _ _ _ _ C IV) as (X & Y & Z). repeat split; auto. intros x I. cbn in I. destruct I as [<-|[<-|[]]]; eapply Z; eauto.
    + destruct (construct decls n u s true) as [[c2 s2]|] eqn:C; [|discriminate]. injection ER as <- <-.
      destruct (IHc _ _ _ _ _ C IV) as (X & Y & Z). repeat split; auto; now apply (listed_same s2 c2).
  - intros t s a s' H IV. rewrite build_S in H. unfold rstruct in H.
    destruct (rlook t s) as [l|] eqn:L.
    { injection H as <-. split; [apply grows_refl|]. split; [exact IV|]. intros _ _. rewrite L. discriminate. }
    destruct (r_kind (decls t)) as [|k|w| |b|m u|u|k u|fs|u|];
      try (injection H as <-; split; [apply grows_refl|]; split; [exact IV|discriminate]).
    destruct (rwalk _ _ _ _ _) as [[[own em] s1]|] eqn:W in H; [|discriminate]. injection H as <-.
    apply rwalk_listed in W as (G & B & C & D).
    + assert (GP : grows s1 (rput t (own ++ em) s1)) by apply grows_put.
      split; [|split].
      * intros u H. apply GP, G. cbn [rlook]. destruct (t =? u)%nat; [discriminate|exact H].
      * intros u l U. apply (linv_grows_all s1); [exact GP|]. destruct (Nat.eq_dec u t) as [->|N].
        -- rewrite rlook_put in U. injection U as <-. apply Forall_app. now split.
        -- rewrite rlook_put_other in U by exact N. exact (B _ _ U).
      * intros _ _. rewrite rlook_put. discriminate.
    + intros u x c x'. apply IHc.
    + intros u x x' Hx IX. destruct (IHb _ _ _ _ Hx IX) as (X & Y & _). auto.
    + intros u l U. cbn [rlook] in U. destruct (Nat.eqb_spec t u) as [->|N]; [injection U as <-; constructor|].
      apply (linv_grows_all s); [|exact (IV _ _ U)]. intros x Hx. cbn [rlook]. destruct (t =? x)%nat; [discriminate|exact Hx].
Qed.
End Facts.
