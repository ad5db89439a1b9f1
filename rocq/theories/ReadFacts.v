(** Encoding from memory does what encoding of values does. *)
From Verif Require Import Bytes IntModel StringModel EncModel DecModel TypeModel SpecFit AddrModel SpecAddr AddrFacts ViewModel ViewFacts TripClean ReadModel SpecRead.

Lemma mall_ok {A} (l : list (mres A)) xs : Forall2 (fun r x => r = MOk x) l xs -> mall l = MOk xs.
Proof. induction 1 as [|r x l xs -> _ IH]; [reflexivity|]. cbn. rewrite IH. reflexivity. Qed.
Lemma mall_map {A B C} (f : A -> option C) (G : B -> mres C) l l' xs : length l = length l' ->
  (forall i x y c, nth_error l i = Some x -> nth_error l' i = Some y -> f x = Some c -> G y = MOk c) ->
  opt_list (map f l) = Some xs -> mall (map G l') = MOk xs.
Proof.
  intros LE H E. apply opt_list_some in E. apply mall_ok. revert l' LE H. induction E as [|x c l xs FX E IH]; intros [|y l'] LE H; try discriminate; [constructor|].
  cbn [map]. constructor; [exact (H 0%nat x y c eq_refl eq_refl FX)|]. apply IH; [injection LE; auto|]. intros i. exact (H (S i)).
Qed.
Lemma elems_ok {A C} (f : A -> option C) (get : Z -> mres C) sz p l xs :
  (forall i x c, nth_error l i = Some x -> f x = Some c -> get (p + Z.of_nat i * sz) = MOk c) ->
  opt_list (map f l) = Some xs -> r_elems get sz p (length l) = MOk xs.
Proof.
  intros H E. eapply (mall_map f); [|clear E|exact E]; [rewrite seq_length; reflexivity|].
  intros i x y c NX NY FX. assert (LT : (i < length l)%nat) by (apply nth_error_Some; congruence).
  assert (y = i). { rewrite (nth_error_nth' _ 0%nat) in NY by (rewrite seq_length; exact LT). rewrite seq_nth in NY by exact LT. injection NY as <-. reflexivity. } subst y. eauto.
Qed.

Section Facts.
Context (V : tenv) (W : menv) (L : layout) (xv : nat -> jfield -> st -> Z -> bool) (LO : lay_ok V L) (ET : env_typed V).
Notation size := (l_size L).
Notation shows := (shows V L).
Notation m_view := (m_view V W L xv).
Notation view := (view V W).

(** One step of [m_view]. *)
Lemma m_view_eq h n t a : m_view h n t a =
  match t with
  | YBytes =>
      mmap GBytes (r_slice h (fun x => mbind (r_cell V h (YInt TUint8) x) (fun m => match m with MInt z => MOk z | _ => MWild end)) (stride L (YInt TUint8)) a)
  | YArray k e => mmap GArray (r_elems (m_view h n e) (stride L e) a k)
  | YSlice e => mmap GSlice (r_slice h (m_view h n e) (stride L e) a)
  | YMap k e => mmap GMap (r_map h (view_key W k) (m_view h n e) a)
  | YMapSI =>
      mmap GMapSI (r_map h (fun k => match k with MKStr s => Some s | _ => None end)
        (fun x => mbind (r_cell V h YIface x) (fun m => match m with MIface v => MOk (tree v) | _ => MWild end)) a)
  | YMapSR =>
      mmap GMapSR (r_map h (fun k => match k with MKStr s => Some s | _ => None end)
        (fun x => mbind (r_cell V h YRaw x) (fun m => match m with MRaw r => MOk r | _ => MWild end)) a)
  | YPtr e =>
      mbind (of_opt (rd_ptr (hp h a)))
        (fun p => match p with None => MOk (GPtr None) | Some v => mmap (fun g => GPtr (Some g)) (m_view h n e v) end)
  | YStruct i =>
      match n with
      | O => MDeep
      | S n' =>
          mmap GStruct (mall (map (fun f =>
            let '(o, g) := r_field V L h (jf_path f) i (fun a => mmap (view_quot (jf_quot f)) (m_view h n' (jf_ty f) a)) in
            mbind (if direct (jf_path f) then of_opt (r_empty V W h (jf_ty f) (a + o)) else MOk (xv i f h a))
              (fun e => mmap (pair (FH (jf_name f) (o_omit W i f) e)) (g (a + o)))) (v_flds V i)))
      end
  | _ => mbind (r_cell V h t a) (fun m => of_opt (view 0 t m))
  end.
Proof. destruct n, t; reflexivity. Qed.

Lemma shows_mono h D D' t a m : shows h D t a m -> sub D D' -> shows h D' t a m.
Proof.
  intros S HD. induction S; [eapply sh_leaf|eapply sh_array|eapply sh_struct|eapply sh_nil|eapply sh_ptr|eapply sh_slice_nil|eapply sh_slice|eapply sh_bytes_nil|eapply sh_bytes|
    eapply sh_map_nil|eapply sh_map|eapply sh_map_si|eapply sh_map_sr]; eauto. intros i z LT N. destruct (H2 i z LT N). split; auto.
Qed.
(** Only the cells in D matter. *)
Lemma shows_frame h h' D t a m : shows h D t a m -> (forall x, D x -> hp h' x = hp h x) -> shows h' D t a m.
Proof.
  intros S HD. induction S; [eapply sh_leaf|eapply sh_array|eapply sh_struct|eapply sh_nil|eapply sh_ptr|eapply sh_slice_nil|eapply sh_slice|eapply sh_bytes_nil|eapply sh_bytes|
    eapply sh_map_nil|eapply sh_map|eapply sh_map_si|eapply sh_map_sr]; eauto;
    try (lazymatch goal with |- context [hp h' ?x] => rewrite (HD x) by (first [assumption | match goal with D1 : D x |- _ => exact D1 end]); eassumption end).
  intros i z LT N. destruct (H2 i z LT N) as [A B]. split; [exact A|]. rewrite HD by exact A. exact B.
Qed.

Lemma empty_read h D t a m : shows h D t a m -> r_empty V W h t a = Some (is_empty W t m).
Proof.
  intros S. induction S.
  - destruct t, m; cbn in H; try contradiction; cbn [r_empty]; rewrite H1; reflexivity.
  - cbn. destruct n; reflexivity.
  - reflexivity.
  - cbn. rewrite H0. reflexivity.
  - cbn. rewrite H0. reflexivity.
  - cbn. rewrite H0. reflexivity.
  - cbn. rewrite H0. destruct len; reflexivity.
  - cbn. rewrite H0. reflexivity.
  - cbn. rewrite H0. destruct len; reflexivity.
  - cbn. rewrite H0. reflexivity.
  - cbn. rewrite H0, H2. apply (f_equal (@length _)) in H3. rewrite !map_length in H3. destruct l, m; try discriminate; reflexivity.
  - cbn in IHS |- *. exact IHS.
  - cbn in IHS |- *. exact IHS.
Qed.

Lemma field_shows h D i a l k u : shows h D (YStruct i) a (MList l) -> nth_error (v_decl V i) k = Some u ->
  exists x, nth_error l k = Some x /\ shows h D u (a + l_off L i k) x.
Proof.
  intros S N. inversion S as [? ? ? O| |? ? ? LE P| | | | | | | | | | ]; subst; [contradiction|].
  destruct (nth_error l k) as [x|] eqn:E; [eauto|]. apply nth_error_None in E. assert (k < length (v_decl V i))%nat by (apply nth_error_Some; congruence). lia.
Qed.
Lemma struct_inv h D i a m : shows h D (YStruct i) a m -> exists l, m = MList l.
Proof. intros S. inversion S as [? ? ? O| |? ? ? LE P| | | | | | | | | | ]; subst; [contradiction|eauto]. Qed.
Lemma ptr_shows h D e a m : shows h D (YPtr e) a m -> (rd_ptr (hp h a) = Some None /\ m = MPtr None) \/ (exists p x, rd_ptr (hp h a) = Some (Some p) /\ m = MPtr (Some x) /\ shows h D e p x).
Proof. intros S. inversion S as [? ? ? O| | | |? ? p x| | | | | | | | ]; subst; [contradiction|auto|eauto 10]. Qed.

Lemma path_read h D t p u (gf : mem -> option gval) get : leads V t p u ->
  (forall x a g, shows h D u a x -> gf x = Some g -> get a = MOk g) ->
  forall i a m v, (p = [] \/ t = YStruct i) -> shows h D t a m -> view_path p gf m = Some v ->
  let '(o, G) := r_field V L h p i get in G (a + o) = MOk v.
Proof.
  intros LD HG. induction LD as [t|i0 k u p t NU LD IH|i0 k j un p t NU LD IH]; intros i a m v TI S E.
  - cbn in *. rewrite Z.add_0_r. eauto.
  - assert (i0 = i) by (destruct TI as [X|X]; [discriminate|congruence]). subst i0. destruct (struct_inv _ _ _ _ _ S) as [l ->].
    destruct (field_shows _ _ _ _ _ _ _ S NU) as (x & NX & SX). cbn [view_path] in E. rewrite NX in E. cbn [r_field]. rewrite NU.
    set (j := match u with YStruct j => j | _ => O end). specialize (IH HG j (a + l_off L i k) x v).
    destruct (r_field V L h p j get) as [o G]. rewrite Z.add_assoc. apply IH; [|exact SX|exact E]. inversion LD; subst; auto.
  - assert (i0 = i) by (destruct TI as [X|X]; [discriminate|congruence]). subst i0. destruct (struct_inv _ _ _ _ _ S) as [l ->].
    destruct (field_shows _ _ _ _ _ _ _ S NU) as (x & NX & SX). cbn [view_path] in E. rewrite NX in E. cbn [r_field]. specialize (IH HG j).
    destruct (r_field V L h p j get) as [o G]. unfold r_emb. destruct (ptr_shows _ _ _ _ _ SX) as [[R ->]|(q & y & R & -> & SY)]; rewrite R; cbn [of_opt mbind].
    + injection E as <-. reflexivity.
    + destruct (view_path p gf y) as [g|] eqn:EY; [|discriminate]. injection E as <-. unfold mmap. rewrite (IH q y g (or_intror eq_refl) SY EY). reflexivity.
Qed.
Lemma test_read h D t p u (get : Z -> mres gval) : leads V t p u -> direct p = true ->
  forall i a m, (p = [] \/ t = YStruct i) -> shows h D t a m ->
  r_empty V W h u (a + fst (r_field V L h p i get)) = Some (test_path p (is_empty W u) m).
Proof.
  intros LD. induction LD as [t|i0 k u p t NU LD IH|i0 k j un p t NU LD IH]; intros DI i a m TI S; [| |discriminate].
  - cbn. rewrite Z.add_0_r. eapply empty_read, S.
  - assert (i0 = i) by (destruct TI as [X|X]; [discriminate|congruence]). subst i0. destruct (struct_inv _ _ _ _ _ S) as [l ->].
    destruct (field_shows _ _ _ _ _ _ _ S NU) as (x & NX & SX). cbn [test_path r_field]. rewrite NX, NU.
    set (j := match u with YStruct j => j | _ => O end). specialize (IH DI j (a + l_off L i k) x).
    destruct (r_field V L h p j get) as [o G]. cbn [fst] in *. rewrite Z.add_assoc. apply IH; [|exact SX]. inversion LD; subst; auto.
Qed.

(** The tests for omitempty of fields behind embedded pointers are unspecified on both sides. *)
Definition via_as (h : st) (D : Z -> Prop) : Prop :=
  forall i f a m, In f (v_flds V i) -> direct (jf_path f) = false -> shows h D (YStruct i) a m -> xv i f h a = o_via W i f m.

Lemma firstn_nth {A} n (l : list A) i : nth_error (firstn n l) i = if (i <? n)%nat then nth_error l i else None.
Proof.
  revert l i. induction n as [|n IH]; intros l i; [destruct i; reflexivity|]. destruct l as [|x l]; [destruct i; cbn [firstn nth_error]; [reflexivity|destruct (S i <? S n)%nat; reflexivity]|].
  destruct i as [|i]; [reflexivity|]. cbn [firstn nth_error]. rewrite IH. reflexivity.
Qed.
Lemma nth_map_fst {A B C} (l : list (A * B)) (m : list (A * C)) : map fst l = map fst m -> forall i x y, nth_error l i = Some x -> nth_error m i = Some y -> fst x = fst y.
Proof. intros E i x y H1 H2. apply (map_nth_error fst) in H1, H2. rewrite E in H1. congruence. Qed.

Theorem view_read h D : via_as h D -> forall n t a m g, shows h D t a m -> view n t m = Some g -> m_view h n t a = MOk g.
Proof.
  intros VA. induction n as [n IHn] using lt_wf_ind. induction t; intros a m g S E; rewrite m_view_eq; pose proof S as SS;
    (inversion S as [? ? ? O DA RD|? ? ? ls LE P|? ? ls LE P|? ? DA RD|? ? p x DA RD P|? ? DA RD|? ? p len cap d DA RD LE P|? DA RD|? p len cap d DA RD LE P|? ? ? DA RD|
        ? ? ? q ls ms DA RD DQ RO KE P|? ms P|? ms P]; subst);
    try (rewrite view_eq in E; unfold r_cell; rewrite RD; cbn [of_opt mbind]; rewrite view_eq; rewrite E; reflexivity); try contradiction.
  all: rewrite view_eq in E.
  - (* bytes *) injection E as <-. unfold r_slice. rewrite RD. reflexivity.
  - injection E as <-. unfold r_slice. rewrite RD. cbn [of_opt mbind]. replace len with (length (firstn len d)) at 1 by (apply firstn_length_le, LE).
    unfold mmap. erewrite (elems_ok (fun z => Some z)); [reflexivity| |].
    + intros i z c N [= <-]. rewrite firstn_nth in N. destruct (Nat.ltb_spec i len) as [LT|LT]; [|discriminate]. rewrite (stride_size V L LO).
      unfold r_cell. destruct (P i z LT N) as [_ ->]. reflexivity.
    + clear. induction (firstn len d) as [|z l IH]; [reflexivity|]. cbn. rewrite IH. reflexivity.
  - (* array *) destruct (opt_list _) as [xs|] eqn:EX; [|discriminate]. injection E as <-. unfold mmap. erewrite (elems_ok (view n t)); [reflexivity| |exact EX].
    intros i x c N FX. rewrite (stride_size V L LO). eapply IHt; [apply P; exact N|exact FX].
  - (* slice *) injection E as <-. unfold r_slice. rewrite RD. reflexivity.
  - destruct (opt_list _) as [xs|] eqn:EX; [|discriminate]. injection E as <-. unfold r_slice. rewrite RD. cbn [of_opt mbind].
    replace len with (length (firstn len d)) at 1 by (apply firstn_length_le, LE). unfold mmap. erewrite (elems_ok (view n t)); [reflexivity| |exact EX].
    intros i x c N FX. rewrite firstn_nth in N. destruct (Nat.ltb_spec i len) as [LT|LT]; [|discriminate]. rewrite (stride_size V L LO). eapply IHt; [exact (P i x LT N)|exact FX].
  - (* map *) injection E as <-. unfold r_map. rewrite RD. reflexivity.
  - destruct (opt_list _) as [xs|] eqn:EX; [|discriminate]. injection E as <-. unfold r_map. rewrite RD. cbn [of_opt mbind]. rewrite RO. cbn [of_opt mbind]. unfold mmap.
    erewrite mall_map; [reflexivity| | |exact EX]; [apply (f_equal (@length _)) in KE; rewrite !map_length in KE; congruence|].
    intros i [ky x] [kx s] c NX NY FX. pose proof (nth_map_fst _ _ KE _ _ _ NY NX) as KK. cbn [fst snd] in *. subst kx. destruct (view_key W k ky) as [kk|]; [|discriminate].
    destruct (view n t x) as [gx|] eqn:EV; [|discriminate]. injection FX as <-. cbn [of_opt mbind]. erewrite IHt; [reflexivity|eapply P; eassumption|exact EV].
  - (* map[string]interface{} *)
    inversion P as [| | | | | | | | |? ? ? DA RD|? ? ? q ls ms' DA RD DQ RO KE PP| |]; subst; [contradiction| |]; unfold r_map; rewrite RD; cbn [of_opt mbind].
    + injection E as <-. reflexivity.
    + destruct (opt_list _) as [xs|] eqn:EX; [|discriminate]. injection E as <-. rewrite RO. cbn [of_opt mbind]. unfold mmap.
      erewrite mall_map; [reflexivity| | |exact EX]; [apply (f_equal (@length _)) in KE; rewrite !map_length in KE; congruence|].
      intros i [ky x] [kx s] c NX NY FX. pose proof (nth_map_fst _ _ KE _ _ _ NY NX) as KK. cbn [fst snd] in *. subst kx. destruct ky; try discriminate. destruct x; try discriminate. injection FX as <-.
      specialize (PP i _ _ _ _ NY NX). inversion PP as [? ? ? O DA' RD'| | | | | | | | | | | | ]; subst. unfold r_cell. rewrite RD'. reflexivity.
  - inversion P as [| | | | | | | | |? ? ? DA RD|? ? ? q ls ms' DA RD DQ RO KE PP| |]; subst; [contradiction| |]; unfold r_map; rewrite RD; cbn [of_opt mbind].
    + injection E as <-. reflexivity.
    + destruct (opt_list _) as [xs|] eqn:EX; [|discriminate]. injection E as <-. rewrite RO. cbn [of_opt mbind]. unfold mmap.
      erewrite mall_map; [reflexivity| | |exact EX]; [apply (f_equal (@length _)) in KE; rewrite !map_length in KE; congruence|].
      intros i [ky x] [kx s] c NX NY FX. pose proof (nth_map_fst _ _ KE _ _ _ NY NX) as KK. cbn [fst snd] in *. subst kx. destruct ky; try discriminate. destruct x; try discriminate. injection FX as <-.
      specialize (PP i _ _ _ _ NY NX). inversion PP as [? ? ? O DA' RD'| | | | | | | | | | | | ]; subst. unfold r_cell. rewrite RD'. reflexivity.
  - (* pointer *) injection E as <-. rewrite RD. reflexivity.
  - rewrite RD. cbn [of_opt mbind]. destruct (view n t x) as [gx|] eqn:EV; [|discriminate]. injection E as <-. unfold mmap. erewrite IHt by eassumption. reflexivity.
  - (* struct *) destruct n as [|n]; [discriminate|]. destruct (opt_list _) as [xs|] eqn:EX; [|discriminate]. injection E as <-. unfold mmap.
    erewrite mall_map; [reflexivity|reflexivity| |exact EX]. intros k f f' c NF NF' FX. rewrite NF in NF'. injection NF' as <-. apply nth_error_In in NF.
    pose proof (et_path V ET i f NF) as LD. cbv beta in FX. match type of FX with option_map _ ?x = _ => destruct x as [v|] eqn:EP; [|discriminate] end. injection FX as <-.
    set (get := fun a => mbind (m_view h n (jf_ty f) a) (fun x => MOk (view_quot (jf_quot f) x))).
    pose proof (path_read h D _ _ _ (fun x => option_map (view_quot (jf_quot f)) (view n (jf_ty f) x)) get LD) as PR. pose proof (test_read h D _ _ _ get LD) as TR.
    assert (HG : forall x a g, shows h D (jf_ty f) a x -> option_map (view_quot (jf_quot f)) (view n (jf_ty f) x) = Some g -> get a = MOk g).
    { intros x a' g S' EG. destruct (view n (jf_ty f) x) as [gx|] eqn:EV; [|discriminate]. injection EG as <-. unfold get. rewrite (IHn n (Nat.lt_succ_diag_r n) _ _ _ _ S' EV). reflexivity. }
    specialize (PR HG i a (MList ls) v (or_intror eq_refl) SS EP). specialize (fun DI => TR DI i a (MList ls) (or_intror eq_refl) SS).
    destruct (r_field V L h (jf_path f) i get) as [o G]. cbn [fst] in TR. unfold field_empty. destruct (direct (jf_path f)) eqn:DI.
    + rewrite (TR eq_refl). cbn [of_opt mbind]. rewrite PR. reflexivity.
    + cbn [mbind]. rewrite PR, (VA i f a (MList ls) NF DI SS). reflexivity.
Qed.

(** Memory that holds a value without sharing shows it. *)
Lemma rep_shows h t a m D : rep V L h t a m D -> shows h (union (seg a (size t)) D) t a m.
Proof.
  intros R. assert (OWN : forall u b, leafy u = true \/ (exists e, u = YPtr e) \/ (exists e, u = YSlice e) \/ u = YBytes \/ (exists k e, u = YMap k e) \/ u = YMapSI \/ u = YMapSR -> seg b (size u) b)
    by (intros; apply (own_cell V L LO); assumption).
  induction R as [t a m D O RD|n e a l D Q LE P IH S1 S2|i a l D Q LE P IH S1 S2|e a D RD|e a p x D Q RD R IH DJ S1 S2|e a D RD|e a p len d D Q RD LE P IH S1 S2 S3 S4|a D RD|a p len d D RD LE P S1|
    k e a D RD|k e a q l m D Q R RD RO DQ KE P IH S1 S2 S3 S4|a m D R IH|a m D R IH].
  - apply sh_leaf; [exact O| |exact RD]. left. apply OWN. left. eapply one_cell_leafy, O.
  - apply sh_array; [exact LE|]. intros i x N. eapply shows_mono; [apply (IH i x N)|]. assert (i < n)%nat by (subst n; apply nth_error_Some; congruence).
    pose proof (lo_size V L LO e) as SP. intros y [Y|Y]; [left; rewrite (lo_array V L LO)|right; apply (S1 i), Y]. unfold seg in *. nia.
  - apply sh_struct; [exact LE|]. intros k u x N NX. eapply shows_mono; [apply (IH k u x N NX)|]. destruct (lo_in V L LO i k u N).
    intros y [Y|Y]; [left|right; apply (S1 k), Y]. unfold seg in *. lia.
  - apply sh_nil; [|exact RD]. left. apply OWN. eauto.
  - eapply sh_ptr; [|exact RD|]; [left; apply OWN; eauto|]. eapply shows_mono; [exact IH|]. intros y [Y|Y]; right; [apply S2, Y|apply S1, Y].
  - apply sh_slice_nil; [|exact RD]. left. apply OWN. eauto.
  - eapply sh_slice; [left; apply OWN; eauto|exact RD|exact LE|]. intros i x LT N. eapply shows_mono; [apply (IH i x N)|]. pose proof (lo_size V L LO e) as SP.
    intros y [Y|Y]; right; [apply S4; unfold seg in *; nia|apply (S1 i), Y].
  - apply sh_bytes_nil; [|exact RD]. left. apply OWN. eauto 6.
  - eapply sh_bytes; [left; apply OWN; eauto 6|exact RD|exact LE|]. intros i z LT N. split; [|exact (P i z N)]. right. apply S1. pose proof (lo_one V L LO (YInt TUint8)) as SP. cbn in SP. unfold seg. nia.
  - apply sh_map_nil; [|exact RD]. left. apply OWN. eauto 8.
  - eapply sh_map; [left; apply OWN; eauto 8|exact RD|right; exact DQ|exact RO|exact KE|]. intros i kx s ky x N N'. eapply shows_mono; [eapply (IH i); eassumption|].
    destruct (S1 i kx s N) as (_ & A1 & A2). intros y [Y|Y]; right; apply (S2 i); auto.
  - apply sh_map_si. eapply shows_mono; [exact IH|]. destruct (lo_map V L LO KYString YIface) as [E _]. intros y [Y|Y]; [left|right; exact Y]. rewrite <- E. exact Y.
  - apply sh_map_sr. eapply shows_mono; [exact IH|]. destruct (lo_map V L LO KYString YRaw) as [E E']. intros y [Y|Y]; [left|right; exact Y]. rewrite E', <- E. exact Y.
Qed.
End Facts.
