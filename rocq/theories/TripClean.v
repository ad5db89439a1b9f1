(** Values that JSON can carry are clean, and have a document. *)
From Coq Require Import Permutation Sorted.
From Verif Require Import Bytes Utf8Model ParseModel StringModel IntModel TokenModel EncModel DecModel SpecJson SpecString SpecTokens
  SpecRender SpecColor SpecEnc SpecNum SpecDec SpecTrip SpecRaw ParseFacts Utf8Facts StringFacts IntFacts TokenFacts EncFacts RawFacts EncMain TextFacts DocFacts
  RawText NumFacts DecLoops DecFacts PropsString TripFacts PropsDec
  TypeModel SpecType SpecFit SpecField NodeFacts TypeLoops TypeFacts TypeMain TypeSound TypeSafe ViewModel SpecSame ViewFacts.

(** A value behind embedded pointers. *)
Inductive wraps (g : gval) : gval -> Prop :=
| wr_0 : wraps g g
| wr_1 v : wraps g v -> wraps g (GEmbPtr (Some v)).
Lemma wraps_absent g v : wraps g v -> absent v = absent g.
Proof. induction 1; [reflexivity|exact IHwraps]. Qed.
Lemma wraps_clean sorted trust g v : wraps g v -> clean sorted trust false g -> (forall b, absent g = false -> clean sorted trust b g) -> absent g = false -> clean sorted trust true v.
Proof. induction 1 as [|v H IH]; intros C CB A; [apply CB, A|]. cbn [clean]. split; [reflexivity|apply IH; assumption]. Qed.
Lemma wraps_doc html sorted trust g v x : wraps g v -> (vdoc html sorted trust v x <-> vdoc html sorted trust g x).
Proof. induction 1 as [|v H IH]; [tauto|]. rewrite <- IH. split; [inversion 1; assumption|apply vd_emb]. Qed.
Lemma clean_fld sorted trust g : absent g = false -> (match g with GEmbPtr _ => False | _ => True end) -> clean sorted trust false g -> forall b, clean sorted trust b g.
Proof. intros A N C b. destruct g; try exact C; contradiction. Qed.

Inductive gone : gval -> Prop :=
| gone_0 : gone (GEmbPtr None)
| gone_1 v : gone v -> gone (GEmbPtr (Some v)).
Lemma gone_absent v : gone v -> absent v = true.
Proof. induction 1; [reflexivity|assumption]. Qed.
Lemma gone_clean sorted trust v : gone v -> clean sorted trust true v.
Proof. induction 1; cbn [clean]; auto. Qed.
Lemma Forall2_imp {A B} (R R' : A -> B -> Prop) l l' : (forall a b, R a b -> R' a b) -> Forall2 R l l' -> Forall2 R' l l'.
Proof. intros H. induction 1; constructor; auto. Qed.

Lemma view_path_cases p gf m v : view_path p gf m = Some v ->
  match get p m with
  | Some x => exists g, gf x = Some g /\ wraps g v
  | None => gone v
  end.
Proof.
  revert m v. induction p as [|a p IH]; intros m v H; cbn [view_path] in H.
  - assert (E : get [] m = Some m) by (destruct m; reflexivity). rewrite E. exists v. split; [exact H|constructor].
  - destruct a as [i|i s u]; destruct m; try discriminate; cbn [get]; destruct (nth_error l i) as [x|]; try discriminate; [apply IH, H|].
    destruct x; try discriminate. destruct p0 as [x|]; [|injection H as <-; constructor].
    destruct (view_path p gf x) as [w|] eqn:E; [|discriminate]. injection H as <-. specialize (IH _ _ E). destruct (get p x).
    + destruct IH as (g & G & WR). exists g. split; [exact G|constructor; exact WR].
    + constructor. exact IH.
Qed.

Section Views.
Context (V : tenv) (W : menv) (F : dflags).
Notation view := (view V W).
Notation trip := (trip V W F).

(** One step of [view]. *)
Lemma view_eq n t m : view n t m =
  match t, m with
  | YBool, MBool x => Some (GBool x)
  | YInt _, MInt z | YDuration, MInt z => Some (GInt z)
  | YFloat _, MFloat f => Some (GFloat f)
  | YNumber, MStr s => Some (GNumber s)
  | YString, MStr s => Some (GString s)
  | YBytes, MBytes s => Some (GBytes (match s with None => None | Some (len, d) => Some (firstn len d) end))
  | YTime, MTime x => Some (GTime x)
  | YIface, MIface v | YNamedIface _, MIface v => Some (view_iface v)
  | YRaw, MRaw r => Some (GRaw r)
  | YArray _ e, MList l => option_map GArray (opt_list (map (view n e) l))
  | YSlice _, MSlice None => Some (GSlice None)
  | YSlice e, MSlice (Some (len, d)) => option_map (fun l => GSlice (Some l)) (opt_list (map (view n e) (firstn len d)))
  | YMap _ _, MMap None => Some (GMap None)
  | YMap k e, MMap (Some l) =>
      option_map (fun l => GMap (Some l))
        (opt_list (map (fun kv => match view_key W k (fst kv), view n e (snd kv) with
                                  | Some a, Some b => Some (a, b)
                                  | _, _ => None
                                  end) l))
  | YMapSI, MMap None => Some (GMapSI None)
  | YMapSI, MMap (Some l) =>
      option_map (fun l => GMapSI (Some l))
        (opt_list (map (fun kv => match kv with (MKStr k, MIface v) => Some (k, tree v) | _ => None end) l))
  | YMapSR, MMap None => Some (GMapSR None)
  | YMapSR, MMap (Some l) =>
      option_map (fun l => GMapSR (Some l))
        (opt_list (map (fun kv => match kv with (MKStr k, MRaw r) => Some (k, r) | _ => None end) l))
  | YPtr _, MPtr None => Some (GPtr None)
  | YPtr e, MPtr (Some x) => option_map (fun g => GPtr (Some g)) (view n e x)
  | YStruct i, MList _ =>
      match n with
      | O => None
      | S n' =>
          option_map GStruct
            (opt_list (map (fun f =>
               option_map (pair (FH (jf_name f) (o_omit W i f) (field_empty W i f m)))
                 (view_path (jf_path f) (fun x => option_map (view_quot (jf_quot f)) (view n' (jf_ty f) x)) m)) (v_flds V i)))
      end
  | YJSON u, MUser s => Some (GMarshaler (Some (o_json W u s)))
  | YText u, MUser s => Some (GText (Some (o_text W u s)))
  | YUnsupported, MUser _ => Some GUnsupported
  | _, _ => None
  end.
Proof. destruct n, t; reflexivity. Qed.

Lemma view_plain n t m g : view n t m = Some g -> match g with GEmbPtr _ => False | _ => True end.
Proof.
  rewrite view_eq. destruct t, m; try discriminate; try (intros [= <-]; exact I).
  - intros [= <-]. destruct v; exact I.
  - intros [= <-]. destruct v; exact I.
  - destruct (opt_list _); [|discriminate]. intros [= <-]; exact I.
  - destruct s as [[len d]|]; [|intros [= <-]; exact I]. destruct (opt_list _); [|discriminate]. intros [= <-]; exact I.
  - destruct m as [l|]; [|intros [= <-]; exact I]. destruct (opt_list _); [|discriminate]. intros [= <-]; exact I.
  - destruct m as [l|]; [|intros [= <-]; exact I]. destruct (opt_list _); [|discriminate]. intros [= <-]; exact I.
  - destruct m as [l|]; [|intros [= <-]; exact I]. destruct (opt_list _); [|discriminate]. intros [= <-]; exact I.
  - destruct p as [x|]; [|intros [= <-]; exact I]. destruct (view n t x); [|discriminate]. intros [= <-]; exact I.
  - destruct n; [discriminate|]. destruct (opt_list _); [|discriminate]. intros [= <-]; exact I.
Qed.
Lemma quot_plain q g : match g with GEmbPtr _ => False | _ => True end -> match view_quot q g with GEmbPtr _ => False | _ => True end /\ absent (view_quot q g) = false.
Proof. destruct q; cbn [view_quot]; [|split; [exact I|reflexivity]|split; [exact I|reflexivity]]. destruct g; intros H; try contradiction; split; try exact I; reflexivity. Qed.

(** The fields of a struct and their values. *)
Definition field_view (n i : nat) (m : mem) (f : jfield) (hv : fhead * gval) : Prop :=
  fst hv = FH (jf_name f) (o_omit W i f) (field_empty W i f m) /\
  view_path (jf_path f) (fun x => option_map (view_quot (jf_quot f)) (view n (jf_ty f) x)) m = Some (snd hv).
Lemma view_struct n i l g : view n (YStruct i) (MList l) = Some g ->
  exists n' fs, n = S n' /\ g = GStruct fs /\ Forall2 (field_view n' i (MList l)) (v_flds V i) fs.
Proof.
  rewrite view_eq. destruct n as [|n]; [discriminate|]. destruct (opt_list _) as [fs|] eqn:E; [|discriminate]. intros [= <-].
  exists n, fs. split; [reflexivity|]. split; [reflexivity|]. apply opt_list_some in E. eapply Forall2_imp; [|exact E].
  intros f [h v] H. cbn beta in H. destruct (view_path _ _ _) as [w|] eqn:E2; [|discriminate]. injection H as <- <-. split; [reflexivity|exact E2].
Qed.
Lemma field_cases n i m f hv : field_view n i m f hv ->
  (emitted hv = true <-> ~ left_out W i f m /\ get (jf_path f) m <> None) /\
  match get (jf_path f) m with
  | Some x => absent (snd hv) = false /\ exists g, view n (jf_ty f) x = Some g /\ wraps (view_quot (jf_quot f) g) (snd hv)
  | None => gone (snd hv)
  end.
Proof.
  destruct hv as [h v]. intros [E P]. cbn [fst snd] in *. subst h. apply view_path_cases in P.
  assert (C : match get (jf_path f) m with
              | Some x => absent v = false /\ exists g, view n (jf_ty f) x = Some g /\ wraps (view_quot (jf_quot f) g) v
              | None => gone v
              end).
  { destruct (get (jf_path f) m) as [x|]; [|exact P]. destruct P as (g & G & WR). destruct (view n (jf_ty f) x) as [g'|] eqn:E; [|discriminate]. injection G as <-.
    split; [|eauto]. rewrite (wraps_absent _ _ WR). apply quot_plain. eapply view_plain, E. }
  split; [|exact C]. unfold emitted, left_out. cbn [f_omitempty f_empty]. destruct (get (jf_path f) m) as [x|].
  - destruct C as [-> _]. destruct (o_omit W i f), (field_empty W i f m); cbn; split; intros H; try discriminate; try tauto; try (split; [intros [X Y]; discriminate|discriminate]).
  - rewrite (gone_absent _ C). destruct (o_omit W i f), (field_empty W i f m); cbn; split; intros H; try discriminate; destruct H as [_ H]; congruence.
Qed.

Lemma tree_iface x : (match x with JVNull => GIface None | _ => GIface (Some (tree x)) end) = iface_of (tree x).
Proof. destruct x; reflexivity. Qed.

Lemma trip_raw_clean sorted trust s a : jvalue s a -> clean sorted trust false (GRaw (Some s)).
Proof.
  intros J. cbn [clean]. split; [eapply (proj1 jvalue_wf), J|]. left. exists a. destruct trust; [apply jvalue_jtext, J|exact J].
Qed.
Lemma trip_raw_good trust s a : jvalue s a -> raw_good trust (Some s).
Proof.
  intros J. split; [eapply (proj1 jvalue_wf), J|]. exists a. destruct trust; [apply jvalue_jtext, J|exact J].
Qed.
Lemma good_clean trust s : raw_good trust (Some s) -> raw_clean trust s.
Proof. intros [A B]. split; [exact A|left; exact B]. Qed.

Lemma Forall2_Forall_r {A B} (R : A -> B -> Prop) (P : A -> Prop) (Q : B -> Prop) l l' :
  Forall2 R l l' -> Forall P l -> (forall a b, P a -> R a b -> Q b) -> Forall Q l'.
Proof. induction 1; intros FP H'; inversion FP; subst; constructor; eauto. Qed.

Theorem view_clean (NM : env_names V) sorted trust n : forall t m g, view n t m = Some g -> trip t m -> clean sorted trust false g.
Proof.
  induction n as [n IHn] using lt_wf_ind. induction t; intros m0 g0 E T; pose proof E as EE; rewrite view_eq in E; inversion T; subst; try discriminate; try (injection E as <-; cbn [clean]; auto; fail).
  - injection E as <-. cbn [clean]. destruct f; cbn [finite] in *; tauto.
  - injection E as <-. cbn [clean]. right. left. assumption.
  - injection E as <-. cbn [clean]. apply valid_utf8_wf. assumption.
  - injection E as <-. match goal with H : tree_ok _ _ _ |- _ => destruct H as (GT & _) end. destruct v; cbn [view_iface clean]; auto; apply (tree_clean sorted trust _ _ _ GT).
  - injection E as <-. match goal with H : tree_ok _ _ _ |- _ => destruct H as (GT & _) end. destruct v; cbn [view_iface clean]; auto; apply (tree_clean sorted trust _ _ _ GT).
  - injection E as <-. eapply (trip_raw_clean sorted). eassumption.
  - destruct (opt_list _) as [xs|] eqn:EL; [|discriminate]. injection E as <-. apply opt_list_some in EL. cbn [clean]. apply all_map.
    eapply Forall2_Forall_r; [exact EL|eassumption|]. intros a b P Q. eapply IHt; [exact Q|exact P].
  - destruct (opt_list _) as [xs|] eqn:EL; [|discriminate]. injection E as <-. apply opt_list_some in EL. cbn [clean]. apply all_map.
    eapply Forall2_Forall_r; [exact EL|eassumption|]. intros a b P Q. eapply IHt; [exact Q|exact P].
  - destruct (opt_list _) as [xs|] eqn:EL; [|discriminate]. injection E as <-. apply opt_list_some in EL. cbn [clean]. apply all_map.
    eapply Forall2_Forall_r; [exact EL|eassumption|]. intros [a x] [b y] [P1 P2] Q. cbn [fst snd] in *.
    destruct (view_key W k a) as [k'|] eqn:EK; [|discriminate]. destruct (view n t x) as [y'|] eqn:EV; [|discriminate]. injection Q as <- <-.
    split; [|eapply IHt; eassumption]. destruct k, a; try discriminate; cbn [view_key key_ok] in *.
    + injection EK as <-. cbn. apply valid_utf8_wf, P1.
    + injection EK as <-. exact I.
    + destruct P1 as (tx & OT & VU & _). rewrite OT in EK. injection EK as <-. cbn. split; [apply valid_utf8_wf, VU|discriminate].
  - match goal with H : trip (YMap _ _) _ |- _ => inversion H; subst end; [injection E as <-; exact I|].
    destruct (opt_list _) as [xs|] eqn:EL; [|discriminate]. injection E as <-. apply opt_list_some in EL. cbn [clean]. apply all_map.
    eapply Forall2_Forall_r; [exact EL|eassumption|]. intros [a x] [b y] [P1 P2] Q. cbn [fst snd] in *. destruct a; try discriminate. destruct x; try discriminate. injection Q as <- <-.
    split; [apply valid_utf8_wf, P1|]. inversion P2; subst. match goal with H : tree_ok _ _ _ |- _ => destruct H as (GT & _) end. apply (tree_clean sorted trust _ _ _ GT).
  - match goal with H : trip (YMap _ _) _ |- _ => inversion H; subst end; [injection E as <-; exact I|].
    destruct (opt_list _) as [xs|] eqn:EL; [|discriminate]. injection E as <-. apply opt_list_some in EL. cbn [clean].
    eapply Forall2_Forall_r; [exact EL|eassumption|]. intros [a x] [b y] [P1 P2] Q. cbn [fst snd] in *. destruct a; try discriminate. destruct x; try discriminate. injection Q as <- <-.
    split; [apply valid_utf8_wf, P1|]. inversion P2; subst.
    + destruct sorted; exact I.
    + assert (G : raw_good trust (Some s0)) by (eapply trip_raw_good; eassumption). destruct sorted; [apply good_clean, G|exact G].
  - destruct (view n t x) as [g|] eqn:EV; [|discriminate]. injection E as <-. cbn [clean]. eapply IHt; eassumption.
  - clear E. apply view_struct in EE as (n' & fs & -> & -> & FV). cbn [clean]. split.
    + match goal with H : exists pre post, _ |- _ => destruct H as (pre & post & EQ & F1 & F2) end. rewrite EQ in FV.
      apply Forall2_app_inv_l in FV as (fs1 & fs2 & V1 & V2 & ->). exists fs1, fs2. split; [reflexivity|]. split.
      * clear -F1 V1. induction V1 as [|f hv pre fs1 H V1 IH]; [reflexivity|]. inversion F1 as [|? ? A B]; subst. cbn [filter].
        destruct (emitted hv) eqn:EM; [|apply IH, B]. apply (field_cases _ _ _ _ _ H) in EM. tauto.
      * clear -F2 V2. induction V2 as [|f hv post fs2 H V2 IH]; constructor; inversion F2 as [|? ? A B]; subst; [|apply IH, B].
        destruct A as [[A1 A2]|A].
        -- left. destruct H as [-> _]. cbn. rewrite A1, A2. reflexivity.
        -- right. destruct (field_cases _ _ _ _ _ H) as [_ C]. destruct (get (jf_path f) (MList l)); [apply C|congruence].
    + apply all_map. assert (IC : incl (v_flds V i) (v_flds V i)) by (intros y Y; exact Y). revert IC FV. generalize (v_flds V i) at 1 3. intros fl IC FV.
      induction FV as [|f hv fl fs H FV IH]; constructor; [|apply IH; intros y Y; apply IC; right; exact Y].
      assert (IN : In f (v_flds V i)) by (apply IC; left; reflexivity). destruct (field_cases _ _ _ _ _ H) as [_ C]. destruct H as [HA HB]. destruct hv as [h v]. cbn [fst snd] in *. subst h. cbn [f_name].
      split; [apply valid_utf8_wf; eapply en_utf8; eassumption|]. destruct (get (jf_path f) (MList l)) as [x|] eqn:G.
      * destruct C as (A & g & EV & WR). assert (PL := view_plain _ _ _ _ EV). destruct (quot_plain (jf_quot f) g PL) as [Q1 Q2].
        assert (CG : clean sorted trust false g) by (eapply (IHn n'); [lia|exact EV|]; match goal with H : forall f x, In f _ -> _ -> trip _ _ /\ _ |- _ => apply (H f x IN G) end).
        assert (CQ : clean sorted trust false (view_quot (jf_quot f) g)) by (destruct (jf_quot f); exact CG).
        eapply wraps_clean; [exact WR|exact CQ| |exact Q2]. intros b _. apply clean_fld; assumption.
      * apply gone_clean, C.
  - injection E as <-. match goal with H : o_json _ _ _ = _ |- _ => rewrite H end. cbn [clean]. eapply (trip_raw_clean sorted). eassumption.
  - injection E as <-. match goal with H : o_text _ _ _ = _ |- _ => rewrite H end. cbn [clean]. apply valid_utf8_wf. assumption.
Qed.
End Views.
