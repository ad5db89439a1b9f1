(** The value round trip through interface{}. *)
From Coq Require Import QArith Permutation.
From Verif Require Import Bytes Utf8Model ParseModel StringModel IntModel TokenModel EncModel DecModel SpecJson SpecString SpecTokens
  SpecRender SpecColor SpecEnc SpecNum SpecDec SpecTrip ParseFacts Utf8Facts StringFacts IntFacts TokenFacts EncFacts RawFacts EncMain TextFacts DocFacts
  RawText NumFacts DecLoops DecFacts PropsString.
Local Open Scope Z_scope.

Section TreeInd.
Variable P : bool -> gval -> jv -> Prop.
Hypothesis H1 : forall un, P un GNil JVNull.
Hypothesis H2 : forall un b, P un (GBool b) (JVBool b).
Hypothesis H3 : forall f, finite f -> P false (GFloat f) (JVFloat f).
Hypothesis H7 : forall n, number_lit n -> P true (GNumber n) (JVNumber n).
Hypothesis H4 : forall un s, valid_utf8 s -> P un (GString s) (JVString s).
Hypothesis H5 : forall un xs vs, Forall2 (fun x v => go_tree_of un x v /\ P un x v) xs vs -> P un (GSlice (Some (map iface_of xs))) (JVArr vs).
Hypothesis H6 : forall un m m', NoDup (map fst m) ->
  Forall2 (fun e e' => fst e = fst e' /\ valid_utf8 (fst e) /\ go_tree_of un (snd e) (snd e') /\ P un (snd e) (snd e')) m m' ->
  P un (GMapSI (Some m)) (JVMap m').
Fixpoint go_tree_ind' un g v (T : go_tree_of un g v) {struct T} : P un g v :=
  match T in go_tree_of un g v return P un g v with
  | @gt_nil un => H1 un
  | @gt_bool un b => H2 un b
  | gt_float f F => H3 f F
  | gt_number n N => H7 n N
  | @gt_string un s V => H4 un s V
  | @gt_slice un xs vs F => H5 un xs vs ((fix go xs vs (F : Forall2 (go_tree_of un) xs vs) {struct F} : Forall2 (fun x v => go_tree_of un x v /\ P un x v) xs vs :=
      match F in Forall2 _ xs vs return Forall2 (fun x v => go_tree_of un x v /\ P un x v) xs vs with
      | Forall2_nil _ => Forall2_nil _
      | Forall2_cons x v Hx F' => Forall2_cons x v (conj Hx (go_tree_ind' un x v Hx)) (go _ _ F')
      end) xs vs F)
  | @gt_map un m m' N F => H6 un m m' N ((fix go m m' (F : Forall2 (fun e e' => fst e = fst e' /\ valid_utf8 (fst e) /\ go_tree_of un (snd e) (snd e')) m m') {struct F}
      : Forall2 (fun e e' => fst e = fst e' /\ valid_utf8 (fst e) /\ go_tree_of un (snd e) (snd e') /\ P un (snd e) (snd e')) m m' :=
      match F in Forall2 _ m m' return Forall2 (fun e e' => fst e = fst e' /\ valid_utf8 (fst e) /\ go_tree_of un (snd e) (snd e') /\ P un (snd e) (snd e')) m m' with
      | Forall2_nil _ => Forall2_nil _
      | Forall2_cons e e' (conj Ha (conj Hb Hc)) F' =>
          Forall2_cons e e' (conj Ha (conj Hb (conj Hc (go_tree_ind' un _ _ Hc)))) (go _ _ F')
      end) m m' F)
  end.
End TreeInd.

Lemma valid_utf8_wf s : valid_utf8 s -> wf s.
Proof. intros [l U]. eapply utf8_wf, U. Qed.
Lemma str_text_json html s : valid_utf8 s -> str_text (json_string html s) = s.
Proof. intros V. unfold str_text, json_string. rewrite (C05_valid_utf8_unchanged html s V). reflexivity. Qed.

Lemma num_val_lit s q : num_val s q -> number_lit s.
Proof.
  intros [ng i ft f et x Hi Hf He].
  apply (number_intro (if ng then [45] else []) i ft et); [destruct ng; auto|exact Hi| |].
  - inversion Hf; constructor; assumption.
  - inversion He as [|e sg ds He' Hs Hd|e ds He' Hd]; subst; [constructor| |].
    + apply exp_some; tauto.
    + apply (exp_some e [45] ds); tauto.
Qed.

(** The text of a finite float is parsed back. *)
Lemma float_text_parses pf f t : finite f -> parses pf f -> encode_float [] f = (t, None) -> number_lit t /\ pf t = Some f.
Proof.
  intros F P E.
  assert (NL : number_lit t).
  { destruct f as [| |neg|neg ds dp]; cbn [finite] in F; try contradiction.
    - cbn in E. injection E as <-. destruct neg.
      + apply (number_intro [45] [48] [] []); auto; constructor.
      + apply (number_intro [] [48] [] []); auto; constructor.
    - cbn [encode_float app] in E. destruct ((dp <? -5) || (21 <? dp)).
      + destruct (fmt_e_val neg ds dp F) as (q & V & _). injection E as <-. exact (num_val_lit _ _ V).
      + destruct (fmt_f_val neg ds dp F) as (q & V & _). injection E as <-. exact (num_val_lit _ _ V). }
  split; [exact NL|].
  destruct f as [| |neg|neg ds dp]; cbn [finite parses] in *; try contradiction.
  - cbn in E. injection E as <-. destruct neg.
    + eapply P; [apply (nval true [48] [] [] [] 0); constructor|reflexivity|cbn; tauto].
    + eapply P; [apply (nval false [48] [] [] [] 0); constructor|reflexivity|cbn; split; [lia|discriminate]].
  - cbn [encode_float app] in E. destruct ((dp <? -5) || (21 <? dp)).
    + destruct (fmt_e_val neg ds dp F) as (q & V & Q). injection E as <-. exact (P _ q V Q).
    + destruct (fmt_f_val neg ds dp F) as (q & V & Q). injection E as <-. exact (P _ q V Q).
Qed.

Lemma Forall2_ex {A B} (R : A -> B -> Prop) l : Forall (fun a => exists b, R a b) l -> exists l', Forall2 R l l'.
Proof. induction 1 as [|a l [b H] F [l' IH]]; [exists []; constructor|exists (b :: l'); constructor; assumption]. Qed.

Lemma NoDup_fst_inj {A B} (m : list (A * B)) k v v' : NoDup (map fst m) -> In (k, v) m -> In (k, v') m -> v = v'.
Proof.
  induction m as [|[k0 v0] m IH]; intros N H H'; [destruct H|]. cbn [map fst] in N. inversion N as [|? ? NI N']; subst.
  destruct H as [E|H], H' as [E'|H'].
  - congruence.
  - exfalso. apply NI. apply in_map_iff. exists (k, v'). split; [cbn; congruence|exact H'].
  - exfalso. apply NI. apply in_map_iff. exists (k, v). split; [cbn; congruence|exact H].
  - auto.
Qed.

Lemma tree_trip un pf g v : go_tree_of un g v -> (forall f, float_in f v -> parses pf f) ->
  forall html sorted trust ind d x, vdoc html sorted trust g x ->
  exists v', jden un pf (dast html ind d x) = Some v' /\ jv_same v v'.
Proof.
  induction 1 as [un|un b|f F|n NL|un s V|un xs vs F|un m m' N F] using go_tree_ind'; intros HP html sorted trust ind d x VD.
  - inversion VD; subst. cbn [dast]. exists JVNull. split; [reflexivity|apply same_leaf; exact I].
  - inversion VD; subst; cbn [dast]; eexists; (split; [reflexivity|apply same_leaf; exact I]).
  - inversion VD; subst. cbn [dast].
    match goal with E : encode_float _ _ = _ |- _ => destruct (float_text_parses pf f _ F (HP f (fi_float f)) E) as [NL PF] end.
    rewrite (tok_ast_num _ NL). cbn [jden]. unfold numv. rewrite PF. eexists. split; [reflexivity|apply same_leaf; exact I].
  - inversion VD; subst.
    + destruct (number_head _ NL) as (c & r & H' & _). discriminate.
    + cbn [dast]. rewrite (tok_ast_num _ NL). cbn [jden]. eexists. split; [reflexivity|apply same_leaf; exact I].
  - inversion VD; subst. cbn [dast]. rewrite tok_ast_str by (apply json_string_lit, valid_utf8_wf, V). cbn [jden].
    rewrite (str_text_json html s V). eexists. split; [reflexivity|apply same_leaf; exact I].
  - assert (X : exists xs', x = DArr xs' /\ Forall2 (vdoc html sorted trust) (map iface_of xs) xs') by (inversion VD; eauto).
    destruct X as (ys & -> & G). cbn [dast jden].
    assert (Y : exists vs', Forall2 (fun a y => jden un pf a = Some y) (map (dast html ind (d + 1)) ys) vs' /\ Forall2 jv_same vs vs').
    { clear VD. revert ys G HP. induction F as [|g v xs vs [T IH] F IHF]; intros ys G HP; inversion G as [|? y ? ys' Gy G']; subst; cbn [map].
      - exists []. split; constructor.
      - destruct (IHF ys' G') as (vs' & Fa & Fb).
        { intros f Hf. apply HP. inversion Hf; subst. eapply fi_arr; [right; eassumption|assumption]. }
        assert (Vd : vdoc html sorted trust g y).
        { destruct g; cbn [iface_of] in Gy; inversion Gy; subst; try assumption. constructor. }
        destruct (IH (fun f Hf => HP f (fi_arr f (v :: vs) v (or_introl eq_refl) Hf)) html sorted trust ind (d + 1) y Vd) as (v' & Ev & Sv).
        exists (v' :: vs'). split; constructor; assumption. }
    destruct Y as (vs' & Fa & Fb). rewrite (proj2 (seq_opt_some _ _ _) Fa). cbn [option_map].
    exists (JVArr vs'). split; [reflexivity|apply same_arr, Fb].
  - assert (X : exists m0 xs', x = DObj ONormal xs' /\ Permutation m m0 /\
      Forall2 (fun e x => fst x = (TKey, json_string html (fst e)) /\ vdoc html sorted trust (snd e) (snd x)) m0 xs').
    { inversion VD; subst. do 2 eexists. split; [reflexivity|]. split; [eapply in_order_perm; eassumption|eassumption]. }
    destruct X as (m0 & ys & -> & PM & G). cbn [dast jden].
    (* permute the target as well *)
    assert (F0 : Forall (fun e => exists v, In (fst e, v) m' /\ valid_utf8 (fst e) /\
        forall html sorted trust ind d x, vdoc html sorted trust (snd e) x ->
        exists v', jden un pf (dast html ind d x) = Some v' /\ jv_same v v') m0).
    { apply Forall_forall. intros e He. apply (Permutation_in _ (Permutation_sym PM)) in He.
      clear G VD PM m0 N. revert HP. induction F as [|e1 [k1 v1] m m' (Ea & Eb & Ec & Ed) F IHF]; intros HP; [destruct He|].
      cbn [fst snd] in *. destruct He as [->|He].
      - exists v1. split; [left; rewrite Ea; reflexivity|]. split; [exact Eb|]. apply Ed.
        intros f Hf. apply HP. eapply fi_map; [left; reflexivity|exact Hf].
      - destruct (IHF He) as (v & Hv & U & T).
        { intros f Hf. apply HP. inversion Hf; subst. eapply fi_map; [right; eassumption|assumption]. }
        exists v. split; [right; exact Hv|]. auto. }
    set (gk := fun kv : bytes * jast => match kv with (lit, x) => match jden un pf x with Some v => Some (str_text lit, v) | None => None end end).
    assert (Y : exists kvs, Forall2 (fun a y => gk a = Some y) (map (fun e => match e with (_, t, y) => (t, dast html ind (d + 1) y) end) ys) kvs /\
      Forall2 (fun e kv => fst kv = fst e /\ exists v, In (fst e, v) m' /\ jv_same v (snd kv)) m0 kvs).
    { clear PM VD F N HP m. revert ys G. induction F0 as [|e m0 (v & Hv & U & T) F0 IHF]; intros ys G; inversion G as [|? [[k t] y] ? ys' [Gk Gy] G']; subst; cbn [map].
      - exists []. split; constructor.
      - cbn [fst snd] in *. destruct (IHF ys' G') as (kvs & Fa & Fb). destruct (T html sorted trust ind (d + 1) y Gy) as (v' & Ev & Sv).
        exists ((fst e, v') :: kvs). split; constructor; auto.
        + unfold gk. rewrite Ev. assert (t = json_string html (fst e)) by congruence. subst t. rewrite (str_text_json html _ U). reflexivity.
        + cbn [fst snd]. split; [reflexivity|]. exists v. auto. }
    destruct Y as (kvs & Fa & Fb). fold gk. rewrite (proj2 (seq_opt_some gk _ _) Fa). cbn [option_map].
    eexists. split; [reflexivity|].
    assert (NM' : NoDup (map fst m')).
    { replace (map fst m') with (map fst m); [exact N|]. clear -F. induction F as [|e e' m m' (E & _) F IH]; cbn; [reflexivity|congruence]. }
    assert (EK : map fst kvs = map fst m0).
    { clear -Fb. induction Fb as [|e kv m0 kvs (E & _) F IH]; cbn; [reflexivity|congruence]. }
    assert (NK : NoDup (map fst kvs)).
    { rewrite EK. eapply Permutation_NoDup; [apply Permutation_map, PM|exact N]. }
    assert (IN : forall k v, In (k, v) (add_all beqb kvs []) <-> In (k, v) kvs).
    { intros k v. rewrite (add_all_in beqb beqb_eq) by constructor. split.
      - intros [(l1 & l2 & -> & _)|[_ []]]. apply in_elt.
      - intros HI. left. apply in_split in HI. destruct HI as (l1 & l2 & ->). exists l1, l2. split; [reflexivity|].
        rewrite map_app in NK. cbn [map fst] in NK. apply NoDup_remove_2 in NK. rewrite in_app_iff in NK. tauto. }
    apply same_map.
    + intros k v Hv. assert (HK : In k (map fst kvs)).
      { rewrite EK. eapply Permutation_in; [apply Permutation_map, PM|].
        replace (map fst m) with (map fst m'); [apply in_map_iff; exists (k, v); auto|].
        clear -F. induction F as [|e e' m m' (E & _) F IH]; cbn; [reflexivity|congruence]. }
      apply in_map_iff in HK. destruct HK as ([k' v'] & Ek & HK). cbn in Ek. subst k'.
      exists v'. split; [apply IN, HK|].
      assert (Z : exists v0, In (k, v0) m' /\ jv_same v0 v').
      { clear -Fb HK. induction Fb as [|e kv m0 kvs (E & v0 & Hv0 & S0) Fb IH]; [destruct HK|]. destruct HK as [->|HK]; [|auto].
        cbn [fst snd] in *. subst k. eauto. }
      destruct Z as (v0 & Hv0 & S0). rewrite (NoDup_fst_inj m' k v v0 NM' Hv Hv0). exact S0.
    + intros k v' HI. apply IN in HI. clear -Fb HI. induction Fb as [|e kv m0 kvs (E & v0 & Hv0 & S0) Fb IH]; [destruct HI|].
      destruct HI as [->|HI]; [|auto]. cbn [fst snd] in *. subst k. eauto.
Qed.
