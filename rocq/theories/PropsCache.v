(** Theorems about parts replaced by their own text: C102. *)
From Verif Require Import Bytes ParseModel StringModel TokenModel EncModel SpecJson SpecRender SpecColor SpecRaw SpecSum SpecCache
  ParseFacts TokenFacts EncFacts RawFacts FlatFacts EncMain TextFacts DocFacts RawText PropsParse PropsEnc PropsScan PropsSum PropsAgain.
From Coq Require Import Permutation.

Lemma hfree_raw html t : (html = true -> hfree t) -> raw_string html t = t.
Proof. destruct html; [|reflexivity]. intros H. apply hfree_fixed, H. reflexivity. Qed.

(** No token has anything to escape (a quoted part is escaped when quoted). *)
Fixpoint doc_free (x : doc) : Prop :=
  match x with
  | DTok _ t => hfree t
  | DQuote _ => True
  | DArr l => SpecRender.all (map doc_free l)
  | DObj _ l => SpecRender.all (map (fun e => match e with (_, t, y) => hfree t /\ doc_free y end) l)
  end.
Lemma piece_free t : html_piece t -> hfree t.
Proof. intros [H _]. now apply no_html_hfree. Qed.
Lemma str_free s : wf s -> hfree (json_string true s).
Proof. intros W. now apply piece_free, json_string_piece. Qed.
Lemma num_free t : number_lit t -> hfree t.
Proof. intros H. now apply piece_free, number_piece. Qed.
Lemma raw_free t : hfree (raw_string true t).
Proof. apply (html_escape_hfree (length t)). lia. Qed.
Lemma jdoc_free a : ast_ok a -> doc_free (jdoc true a).
Proof.
  induction a as [| | |t|t|l IH|l IH] using jast_rect'; cbn [ast_ok jdoc doc_free]; intros H; try (vm_compute; repeat split; intros; discriminate).
  - now apply num_free.
  - apply raw_free.
  - apply all_map in H. apply all_map. rewrite Forall_forall in *. intros x Hx. apply in_map_iff in Hx. destruct Hx as (a & <- & Ha). auto.
  - apply all_map in H. apply all_map. rewrite Forall_forall in *. intros x Hx. apply in_map_iff in Hx. destruct Hx as ([k a] & <- & Ha).
    specialize (H _ Ha). specialize (IH _ Ha). cbn in *. split; [apply raw_free|apply IH, H].
Qed.
Lemma quote_free s : Forall (fun c => c < 0x80 /\ is_html c = false) s -> hfree (quote s).
Proof. intros H. apply ascii_hfree. unfold quote. constructor; [split; [lia|reflexivity]|]. apply Forall_app. split; [exact H|]. constructor; [split; [lia|reflexivity]|constructor]. Qed.
Lemma kdoc_free k t b : key_clean k -> kdoc true k t b -> hfree b.
Proof. intros C H. destruct H; cbn in C; apply str_free; try tauto. apply ColorFacts.lit_okc, TextFacts.lit_number, itoa_number. Qed.
Theorem vdoc_free sorted trust v : forall fld x, clean sorted trust fld v -> vdoc true sorted trust v x -> doc_free x.
Proof.
  induction v as [ |b|z|f|s|s|s|t|l IH| |l IH| |m IH| |m IH|m|fs IH|o IH|o IH|o IH|s|r|r|v IH| ] using gval_rect'; intros fld x C V;
    cbn [clean] in C; inversion V; subst; cbn [doc_free]; try (vm_compute; repeat split; intros; discriminate).
  - apply num_free, itoa_number.
  - eapply num_free, float_number; [|eassumption]. destruct f; exact C || exact I.
  - now apply num_free.
  - apply str_free, C.
  - apply quote_free. eapply Forall_impl; [|apply (b64_bytes (length s0)); auto]. unfold b64_byte. cbv beta. intros ch. rewrite StringFacts.is_html_false. lia.
  - apply quote_free. eapply Forall_impl; [|exact C]. unfold time_char. intros a Ha. split; [lia|]. apply StringFacts.is_html_false. lia.
  - apply all_map in C. apply all_map. eapply Forall2_all; [eassumption|]. rewrite Forall_forall in *. intros y Hy x Hx. eapply IH; eauto.
  - apply all_map in C. apply all_map. eapply Forall2_all; [eassumption|]. rewrite Forall_forall in *. intros y Hy x Hx. eapply IH; eauto.
  - apply all_map in C. apply all_map. eapply Forall2_all; [eassumption|].
    match goal with H : in_order _ _ m _ |- _ => apply in_order_perm in H; eapply Permutation_Forall; [exact H|] end.
    rewrite Forall_forall in *. intros [k y] Hy [[tk tb] x] [Hk Hx]. specialize (C _ Hy). cbn in *. destruct C as [C1 C2]. split; [eapply kdoc_free; eassumption|].
    exact (IH _ Hy false x C2 Hx).
  - apply all_map in C. apply all_map. eapply Forall2_all; [eassumption|].
    match goal with H : in_order _ _ m _ |- _ => apply in_order_perm in H; eapply Permutation_Forall; [exact H|] end.
    rewrite Forall_forall in *. intros [k y] Hy [[tk tb] x] [Hk Hx]. specialize (C _ Hy). cbn in *. destruct C as [C1 C2]. injection Hk as -> ->. split; [apply str_free, C1|].
    exact (IH _ Hy false x C2 Hx).
  - apply all_map. eapply Forall2_all; [eassumption|].
    match goal with H : in_order _ _ _ _ |- _ => apply in_order_perm in H; eapply Permutation_Forall; [exact H|] end.
    eapply Forall_impl; [|exact C]. cbn beta. intros [k y] [C1 _] [[tk tb] x] [Hk Hx]. cbn in *. injection Hk as -> ->. split; [apply str_free, C1|].
    inversion Hx; subst; [vm_compute; repeat split; intros; discriminate|]. eapply jdoc_free, raw_text_ok; eassumption.
  - destruct C as [_ C]. apply all_map in C. apply all_map. eapply Forall2_all; [eassumption|]. apply filter_Forall.
    rewrite Forall_forall in *. intros [h y] Hy [[tk tb] x] [Hk Hx]. specialize (C _ Hy). cbn in *. destruct C as [C1 C2]. injection Hk as -> ->. split; [apply str_free, C1|].
    exact (IH _ Hy true x C2 Hx).
  - cbn in IH. eapply IH; [apply C|eassumption].
  - cbn in IH. eapply IH; eassumption.
  - cbn in IH. eapply IH; eassumption.
  - eapply jdoc_free, raw_text_ok; eassumption.
  - match goal with H : vdoc _ _ _ (GRaw _) _ |- _ => inversion H; subst end; [vm_compute; repeat split; intros; discriminate|]. eapply jdoc_free, raw_text_ok; eassumption.
  - apply str_free, C.
Qed.

Section Again.
Context (html : bool) (ind : option indenter).
Hypothesis FL : active ind = None.
Hypothesis IW : ind_all ws ind.
Lemma tok_again t d : lit_token t -> (html = true -> hfree t) -> render html None ind d (jdoc html (tok_ast t)) = t.
Proof.
  intros [H|[H|[->|[->| ->]]]] F; try reflexivity.
  - rewrite tok_ast_str by exact H. cbn [jdoc render paint]. apply hfree_raw, F.
  - rewrite tok_ast_num by exact H. reflexivity.
Qed.
Lemma line_flat d : line ind d = [].
Proof. unfold line, newline, margin. rewrite FL. reflexivity. Qed.
Lemma again x : doc_ok x -> (html = true -> doc_free x) -> forall d, render html None ind d (jdoc html (dast html ind d x)) = render html None ind d x.
Proof.
  induction x as [k t|y IH|l IH|q l IH] using doc_rect'; cbn [doc_ok doc_free]; intros OK HF d.
  - cbn [dast]. rewrite tok_again; [reflexivity|exact OK|exact HF].
  - cbn [dast jdoc]. change (raw_string html (json_string html (render html None ind d y)) = json_string html (render html None ind d y)). apply hfree_raw. intros ->.
    apply str_free. exact (proj1 jvalue_wf _ _ (render_jvalue true ind IW y OK d)).
  - apply all_map in OK. cbn [dast jdoc]. rewrite !render_arr. rewrite !map_map. destruct l as [|y l]; [reflexivity|]. cbn [map].
    change (jdoc html (dast html ind (d + 1) y) :: map (fun x => jdoc html (dast html ind (d + 1) x)) l) with (map (fun x => jdoc html (dast html ind (d + 1) x)) (y :: l)).
    f_equal. f_equal. unfold elems_text. rewrite map_map. f_equal. apply map_ext_in. intros z I. f_equal. rewrite Forall_forall in *. apply IH; auto.
    intros E. specialize (HF E). apply all_map in HF. rewrite Forall_forall in HF. auto.
  - apply all_map in OK. cbn [dast jdoc]. rewrite !render_obj. rewrite !map_map. destruct l as [|e l].
    + cbn [map]. destruct q; try reflexivity; [|rewrite line_flat; reflexivity]. unfold margin. rewrite FL. reflexivity.
    + cbn [map]. match goal with |- context [?h :: map ?f l] => change (h :: map f l) with (map f (e :: l)) end.
      f_equal. f_equal. unfold members_text. rewrite map_map. f_equal. apply map_ext_in. intros [[k t] z] I.
      rewrite Forall_forall in *. specialize (OK _ I). specialize (IH _ I). cbn in OK, IH. destruct OK as [T OK].
      assert (HZ : html = true -> hfree t /\ doc_free z) by (intros E; specialize (HF E); apply all_map in HF; rewrite Forall_forall in HF; exact (HF _ I)).
      rewrite (hfree_raw html t) by (intros E; apply HZ, E). rewrite IH by (try assumption; intros E; apply HZ, E). reflexivity.
Qed.
End Again.

Lemma raw_again c v o : e_clrs c = None -> active (e_ind c) = None -> written c v o -> outcome c (GRaw (Some o)) = Some (inl o).
Proof.
  intros K FL (CL & E). set (c0 := Cfg (e_html c) (e_sort c) (e_trust c) (e_clrs c) None (e_stdindent c)).
  assert (SW : forall w, outcome c w = outcome c0 w).
  { intros w. unfold outcome. pose proof (enc_flat c c0 w (conj eq_refl (conj eq_refl (conj eq_refl (conj eq_refl (conj FL eq_refl))))) [] 0 0) as X.
    destruct (enc c w [] 0), (enc c0 w [] 0); cbn [sim] in X; try contradiction; [|reflexivity]. destruct X as [-> ->]. reflexivity. }
  rewrite SW in *. unfold outcome in *. destruct (C33_encode_spec_partial c0 v [] 0 CL (or_introl K)) as [(x & V & H)|(_ & o' & d1 & e & H)]; rewrite H in E; [|discriminate]. injection E as <-.
  cbn [app c0 e_html e_clrs e_ind e_sort e_trust] in *. rewrite K in *. pose proof (vdoc_ok _ _ _ _ _ _ CL V) as OK.
  pose proof (render_jvalue (e_html c) None I x OK 0) as J. pose proof (proj1 jvalue_wf _ _ J) as W.
  change (enc c0 (GRaw (Some (render (e_html c) None None 0 x))) [] 0) with (encode_raw c0 (Some (render (e_html c) None None 0 x)) [] 0).
  assert (RT : raw_text (e_trust c0) (render (e_html c) None None 0 x) (dast (e_html c) None 0 x)) by (unfold raw_text; destruct (e_trust c0); [apply jvalue_jtext|]; exact J).
  rewrite (encode_raw_good c0 _ _ 0 W RT), raw_R_jdoc by (left; exact K). unfold R. cbn [c0 e_html e_clrs e_ind]. rewrite K.
  rewrite (again (e_html c) None eq_refl I x OK); [reflexivity|]. intros E. rewrite E in V. exact (vdoc_free _ _ _ _ _ CL V).
Qed.

Section Cached.
Context (c : cfg).
Hypothesis K : e_clrs c = None.
Hypothesis FL : active (e_ind c) = None.
Lemma same_flat v : flat (enc c v) (enc c v).
Proof. apply enc_flat. repeat split; assumption. Qed.
Lemma outcome_flat v w : (forall o, outcome c v = Some (inl o) -> outcome c w = Some (inl o)) -> (exists o, outcome c v = Some (inl o)) -> flat (enc c v) (enc c w).
Proof.
  intros H (o & E) b d1 d2. specialize (H o E). pose proof (enc_steps c FL v b d1) as A. pose proof (enc_steps c FL w b d2) as B. rewrite E in A. rewrite H in B. cbn [then_] in A, B.
  destruct (enc c v b d1) as [o1 ? [?|]|]; cbn [out] in A; try discriminate. destruct (enc c w b d2) as [o2 ? [?|]|]; cbn [out] in B; try discriminate. cbn [sim]. split; congruence.
Qed.
Lemma written_flat v o : written c v o -> flat (enc c v) (enc c (GRaw (Some o))).
Proof.
  intros W. pose proof (raw_again c v o K FL W) as R. destruct W as (_ & E). apply outcome_flat; [|eauto]. intros o' E'. congruence.
Qed.
Lemma F2_flat {B} (m m' : list (B * gval)) : Forall (fun e => forall w, cached c (snd e) w -> flat (enc c (snd e)) (enc c w)) m ->
  Forall2 (fun e e' => fst e = fst e' /\ cached c (snd e) (snd e')) m m' ->
  Forall2 (fun p q : B * encf => fst p = fst q /\ flat (snd p) (snd q)) (map (fun kv : B * gval => let (k, x) := kv in (k, enc c x)) m) (map (fun kv : B * gval => let (k, x) := kv in (k, enc c x)) m').
Proof.
  intros IH H. induction H as [|[k x] [k' x'] m m' [E X] H IHm]; cbn [map]; [constructor|]. inversion IH; subst. cbn [fst snd] in *. constructor; [|auto]. cbn. split; auto.
Qed.
Lemma cached_flat v : forall w, cached c v w -> flat (enc c v) (enc c w).
Proof.
  induction v as [ | | | | | | | |l IH| |l IH| |m IH| |m IH|m|fs IH|o IH|o IH|o IH|s|r|r|v IH| ] using gval_rect'; intros w H;
    inversion H as [|? ? W|? ? W| | | | | | | | |]; subst; try apply same_flat; try (now apply written_flat); try (apply (written_flat _ _ W)).
  - cbn [enc]. apply flat_array; auto. apply FlatFacts.Forall2_map2. match goal with Q : Forall2 _ l _ |- _ => clear -Q IH; induction Q; inversion IH; subst; constructor; auto end.
  - cbn [enc]. apply flat_array; auto. apply FlatFacts.Forall2_map2. match goal with Q : Forall2 _ l _ |- _ => clear -Q IH; induction Q; inversion IH; subst; constructor; auto end.
  - cbn [enc]. match goal with Q : Forall2 _ m ?m' |- _ => pose proof (F2_flat m m' IH Q) as X end. apply flat_map_; auto. apply FlatFacts.Forall2_map2. cbn [fst snd].
    assert (H' : forall l l', Forall2 (fun p q : mkey * encf => fst p = fst q /\ flat (snd p) (snd q)) l l' ->
      Forall2 (fun p q : mkey * encf => flat (encode_mkey c (fst p)) (encode_mkey c (fst q)) /\ flat (snd p) (snd q)) l l').
    { intros l l' HL. eapply FlatFacts.Forall2_imp; [|exact HL]. intros [k x] [k' x'] [E Hx]. cbn in *. subst k'. split; [apply flat_mkey; auto|exact Hx]. }
    destruct (e_sort c); apply H'; [|exact X]. apply sort_rel; [|exact X]. intros [] [] [E _]. cbn in *. congruence.
  - cbn [enc]. match goal with Q : Forall2 _ m ?m' |- _ => pose proof (F2_flat m m' IH Q) as X end.
    assert (H' : forall l l', Forall2 (fun p q : bytes * encf => fst p = fst q /\ flat (snd p) (snd q)) l l' ->
      Forall2 (fun p q : bytes * encf => flat (encode_key c (fst p)) (encode_key c (fst q)) /\ flat (snd p) (snd q)) l l').
    { intros l l' HL. eapply FlatFacts.Forall2_imp; [|exact HL]. intros [k x] [k' x'] [E Hx]. cbn in *. subst k'. split; [apply flat_str; auto|exact Hx]. }
    destruct (e_sort c); [apply flat_map_break|apply flat_map_]; auto; apply FlatFacts.Forall2_map2; cbn [fst snd]; apply H'; [|exact X].
    apply sort_rel; [|exact X]. intros [] [] [E _]. cbn in *. congruence.
  - cbn [enc]. apply flat_struct; auto. now apply F2_flat.
  - cbn [optP] in IH. cbn [enc]. match goal with Q : cached c _ ?x |- _ => first [exact (IH x Q)] end.
  - cbn [optP] in IH. cbn [enc]. match goal with Q : cached c _ ?x |- _ => first [exact (IH x Q)] end.
  - cbn [optP] in IH. cbn [enc]. match goal with Q : cached c _ ?x |- _ => first [exact (IH x Q)] end.
  - cbn [enc]. apply flat_to_string; [reflexivity|]. apply IH. assumption.
Qed.

(** * C102: a part can be replaced by what was written for it *)
(** What was written is kept byte for byte as a RawMessage or as the result of
    MarshalJSON. *)
Theorem C102_kept v o : written c v o -> outcome c (GRaw (Some o)) = Some (inl o) /\ outcome c (GMarshaler (Some (inl (Some o)))) = Some (inl o).
Proof. intros W. pose proof (raw_again c v o K FL W) as R. split; exact R. Qed.
(** So parts of a value can be replaced by it, in any number and at any depth,
    and Append returns the same text, or the same error, or panics the same. *)
Theorem C102_cached v w : cached c v w -> outcome c w = outcome c v.
Proof.
  intros H. pose proof (cached_flat v w H [] 0 0) as X. unfold outcome. destruct (enc c v [] 0) as [o d e|], (enc c w [] 0) as [o' d' e'|]; cbn [sim] in X; try contradiction; [|reflexivity].
  destruct X as [-> ->]. reflexivity.
Qed.
End Cached.

(** Non-vacuity: a part with a map, a string to escape and a number. *)
Definition ch_cfg : cfg := Cfg true true false None None (fun _ _ _ => None).
Definition ch_part : gval := GMapSI (Some [(bs "y", GString (bs "<")); (bs "x", GSlice (Some [GInt 1; GNil]))]).
Definition ch_text : bytes := bs "{""x"":[1,null],""y"":""\u003c""}".
Example C102_holds : e_clrs ch_cfg = None /\ active (e_ind ch_cfg) = None /\ written ch_cfg ch_part ch_text /\
  cached ch_cfg (GArray [GQuoted ch_part; GUnsupported; ch_part]) (GArray [GQuoted (GRaw (Some ch_text)); GUnsupported; GMarshaler (Some (inl (Some ch_text)))]) /\
  cached ch_cfg (GArray [GBool true; ch_part]) (GArray [GBool true; GRaw (Some ch_text)]) /\
  outcome ch_cfg (GArray [GBool true; GRaw (Some ch_text)]) = Some (inl (bs "[true," ++ ch_text ++ bs "]")).
Proof.
  assert (W : written ch_cfg ch_part ch_text).
  { split; [cbn; repeat split; repeat constructor; auto; try (apply is_wf; reflexivity); try lia|vm_compute; reflexivity]. }
  split; [reflexivity|]. split; [reflexivity|]. split; [exact W|]. split.
  - apply ca_array. constructor; [apply ca_quoted, ca_raw, W|]. constructor; [apply ca_same|]. constructor; [apply ca_own, W|constructor].
  - split; [|vm_compute; reflexivity]. apply ca_array. constructor; [apply ca_same|]. constructor; [apply ca_raw, W|constructor].
Qed.
(** With colors it is false: the color codes are not JSON. *)
Theorem C102_colors_refuted : exists c v o, active (e_ind c) = None /\ written c v o /\ outcome c (GRaw (Some o)) = Some (inr EUnsupportedValue).
Proof.
  exists (Cfg false true false (Some default_colors) None (fun _ _ _ => None)), (GBool true). eexists. split; [reflexivity|]. split; [split; [exact I|vm_compute; reflexivity]|].
  vm_compute. reflexivity.
Qed.
Print Assumptions C102_kept.
Print Assumptions C102_cached.
Print Assumptions C102_colors_refuted.
