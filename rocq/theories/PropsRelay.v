(** Theorems about parts replaced by their text: C105 (another layout), C106 (colors). *)
From Verif Require Import Bytes ParseModel IntModel StringModel TokenModel EncModel SpecJson SpecRender SpecColor SpecRaw SpecSum SpecRelay
  ParseFacts TokenFacts EncFacts RawFacts FlatFacts EncMain TextFacts DocFacts RawText PropsParse PropsEnc PropsScan PropsSum PropsAgain PropsCache Unambig.
From Coq Require Import Permutation.

(** The tree of a document does not depend on the layout it was printed in. *)
Lemma again_laid html ind0 (IW : ind_all ws ind0) x : doc_ok x -> doc_std x -> (html = true -> doc_free x) ->
  forall d0 ind d, render html None ind d (jdoc html (dast html ind0 d0 x)) = render html None ind d x.
Proof.
  induction x as [k t|y IH|l IH|q l IH] using doc_rect'; cbn [doc_ok doc_free]; intros OK ST HF d0 ind d.
  - cbn [dast]. rewrite tok_again; [reflexivity|exact OK|exact HF].
  - cbn [dast jdoc]. cbn [doc_std] in ST. destruct y as [k t| | |]; try contradiction. cbn [render paint] in *. apply hfree_raw. intros ->.
    apply str_free. exact (proj1 jvalue_wf _ _ (render_jvalue true ind0 IW (DTok k t) OK d0)).
  - apply all_map in OK. cbn [doc_std] in ST. apply all_map in ST. cbn [dast jdoc]. rewrite !render_arr. rewrite !map_map. destruct l as [|y l]; [reflexivity|]. cbn [map].
    change (jdoc html (dast html ind0 (d0 + 1) y) :: map (fun x => jdoc html (dast html ind0 (d0 + 1) x)) l) with (map (fun x => jdoc html (dast html ind0 (d0 + 1) x)) (y :: l)).
    f_equal. f_equal. unfold elems_text. rewrite map_map. f_equal. apply map_ext_in. intros z I. f_equal. rewrite Forall_forall in *. apply IH; auto.
    intros E. specialize (HF E). apply all_map in HF. rewrite Forall_forall in HF. auto.
  - apply all_map in OK. cbn [doc_std] in ST. destruct ST as [SQ ST]. apply all_map in ST. cbn [dast jdoc]. rewrite !render_obj. rewrite !map_map. destruct l as [|e l].
    + rewrite (SQ eq_refl). reflexivity.
    + cbn [map]. match goal with |- context [?h :: map ?f l] => change (h :: map f l) with (map f (e :: l)) end.
      f_equal. f_equal. unfold members_text. rewrite map_map. f_equal. apply map_ext_in. intros [[k t] z] I.
      rewrite Forall_forall in *. specialize (OK _ I). specialize (IH _ I). specialize (ST _ I). cbn in OK, IH, ST. destruct OK as [T OK].
      assert (HZ : html = true -> hfree t /\ doc_free z) by (intros E; specialize (HF E); apply all_map in HF; rewrite Forall_forall in HF; exact (HF _ I)).
      rewrite (hfree_raw html t) by (intros E; apply HZ, E). rewrite IH by (try assumption; intros E; apply HZ, E). reflexivity.
Qed.

(** Encoders that do the same. *)
Definition eqf (f g : encf) : Prop := forall b d, f b d = g b d.
Section Same.
Context (c : cfg).
Lemma eq_array_elems fs gs : Forall2 eqf fs gs -> forall first, eqf (array_elems c first fs) (array_elems c first gs).
Proof. induction 1 as [|f g fs gs H HF IH]; intros first b d; cbn [array_elems]; [reflexivity|]. cbv zeta. rewrite H. destruct (g _ d) as [? ? [|]|]; auto. apply IH. Qed.
Lemma eq_array fs gs : Forall2 eqf fs gs -> eqf (encode_array c fs) (encode_array c gs).
Proof.
  intros H b d. unfold encode_array. pose proof (eq_array_elems fs gs H true) as X. destruct H; [reflexivity|]. now rewrite X.
Qed.
Lemma eq_map_elems fs gs : Forall2 (fun p q => eqf (fst p) (fst q) /\ eqf (snd p) (snd q)) fs gs -> forall first, eqf (map_elems c first fs) (map_elems c first gs).
Proof.
  induction 1 as [|[fk fv] [gk gv] fs gs [Hk Hv] HF IH]; intros first b d; cbn [map_elems]; [reflexivity|]. cbn [fst snd] in *. cbv zeta. rewrite Hk.
  destruct (gk _ d) as [? ? [|]|]; auto. rewrite Hv. destruct (gv _ _) as [? ? [|]|]; auto. apply IH.
Qed.
Lemma eq_map cut fs gs : Forall2 (fun p q => eqf (fst p) (fst q) /\ eqf (snd p) (snd q)) fs gs -> eqf (encode_map c cut fs) (encode_map c cut gs).
Proof. intros H b d. unfold encode_map. pose proof (eq_map_elems fs gs H true) as X. destruct H; [reflexivity|]. now rewrite X. Qed.
Lemma eq_map_break fs gs : Forall2 (fun p q => eqf (fst p) (fst q) /\ eqf (snd p) (snd q)) fs gs -> eqf (encode_map_break c fs) (encode_map_break c gs).
Proof. intros H b d. unfold encode_map_break. pose proof (eq_map_elems fs gs H true) as X. destruct H; [reflexivity|]. now rewrite X. Qed.
Lemma eq_struct_fields fs gs : Forall2 (fun p q => fst p = fst q /\ eqf (snd p) (snd q)) fs gs -> forall n b d, struct_fields c n fs b d = struct_fields c n gs b d.
Proof.
  induction 1 as [|[h f] [h' g] fs gs [E H] HF IH]; intros n b d; cbn [struct_fields]; [reflexivity|]. cbn [fst snd] in *. subst h'.
  destruct (f_omitempty h && f_empty h); [apply IH|]. cbv zeta. rewrite H. destruct (g _ d) as [? ? [[]|]|]; auto.
Qed.
Lemma eq_struct fs gs : Forall2 (fun p q => fst p = fst q /\ eqf (snd p) (snd q)) fs gs -> eqf (encode_struct c fs) (encode_struct c gs).
Proof. intros H b d. unfold encode_struct. cbv zeta. pose proof (eq_struct_fields fs gs H) as X. destruct H; [reflexivity|]. now rewrite X. Qed.
Lemma eq_to_string f g : eqf f g -> eqf (encode_to_string c f) (encode_to_string c g).
Proof. intros H b d. unfold encode_to_string. now rewrite H. Qed.
End Same.

Section Replaced.
Context (c : cfg) (L : gval -> bytes -> Prop).
Hypothesis HG : forall v o, L v o -> eqf (enc c (GRaw (Some o))) (enc c v).
Lemma F2_eq {B} (m m' : list (B * gval)) : Forall (fun e => forall w, replaced L (snd e) w -> eqf (enc c w) (enc c (snd e))) m ->
  Forall2 (fun e e' => fst e = fst e' /\ replaced L (snd e) (snd e')) m m' ->
  Forall2 (fun p q : B * encf => fst p = fst q /\ eqf (snd p) (snd q)) (map (fun kv : B * gval => let (k, x) := kv in (k, enc c x)) m') (map (fun kv : B * gval => let (k, x) := kv in (k, enc c x)) m).
Proof.
  intros IH H. induction H as [|[k x] [k' x'] m m' [E X] H IHm]; cbn [map]; [constructor|]. inversion IH; subst. cbn [fst snd] in *. constructor; [|auto]. cbn. split; auto.
Qed.
Lemma replaced_eq v : forall w, replaced L v w -> eqf (enc c w) (enc c v).
Proof.
  induction v as [ | | | | | | | |l IH| |l IH| |m IH| |m IH|m|fs IH|o IH|o IH|o IH|s|r|r|v IH| ] using gval_rect'; intros w H;
    inversion H as [|? ? W|? ? W| | | | | | | | |]; subst; try (intros ? ?; reflexivity); try (now apply HG); try (apply (HG _ _ W)).
  - cbn [enc]. apply eq_array; auto. apply FlatFacts.Forall2_map2. match goal with Q : Forall2 _ l _ |- _ => clear -Q IH; induction Q; inversion IH; subst; constructor; auto end.
  - cbn [enc]. apply eq_array; auto. apply FlatFacts.Forall2_map2. match goal with Q : Forall2 _ l _ |- _ => clear -Q IH; induction Q; inversion IH; subst; constructor; auto end.
  - cbn [enc]. match goal with Q : Forall2 _ m ?m' |- _ => pose proof (F2_eq m m' IH Q) as X end. apply eq_map; auto. apply FlatFacts.Forall2_map2. cbn [fst snd].
    assert (H' : forall l l', Forall2 (fun p q : mkey * encf => fst p = fst q /\ eqf (snd p) (snd q)) l l' ->
      Forall2 (fun p q : mkey * encf => eqf (encode_mkey c (fst p)) (encode_mkey c (fst q)) /\ eqf (snd p) (snd q)) l l').
    { intros l l' HL. eapply FlatFacts.Forall2_imp; [|exact HL]. intros [k x] [k' x'] [E Hx]. cbn in *. subst k'. split; [intros ? ?; reflexivity|exact Hx]. }
    destruct (e_sort c); apply H'; [|exact X]. apply sort_rel; [|exact X]. intros [] [] [E _]. cbn in *. congruence.
  - cbn [enc]. match goal with Q : Forall2 _ m ?m' |- _ => pose proof (F2_eq m m' IH Q) as X end.
    assert (H' : forall l l', Forall2 (fun p q : bytes * encf => fst p = fst q /\ eqf (snd p) (snd q)) l l' ->
      Forall2 (fun p q : bytes * encf => eqf (encode_key c (fst p)) (encode_key c (fst q)) /\ eqf (snd p) (snd q)) l l').
    { intros l l' HL. eapply FlatFacts.Forall2_imp; [|exact HL]. intros [k x] [k' x'] [E Hx]. cbn in *. subst k'. split; [intros ? ?; reflexivity|exact Hx]. }
    destruct (e_sort c); [apply eq_map_break|apply eq_map]; auto; apply FlatFacts.Forall2_map2; cbn [fst snd]; apply H'; [|exact X].
    apply sort_rel; [|exact X]. intros [] [] [E _]. cbn in *. congruence.
  - cbn [enc]. apply eq_struct; auto. now apply F2_eq.
  - cbn [optP] in IH. cbn [enc]. match goal with Q : replaced L _ ?x |- _ => exact (IH x Q) end.
  - cbn [optP] in IH. cbn [enc]. match goal with Q : replaced L _ ?x |- _ => exact (IH x Q) end.
  - cbn [optP] in IH. cbn [enc]. match goal with Q : replaced L _ ?x |- _ => exact (IH x Q) end.
  - cbn [enc]. apply eq_to_string. apply IH. assumption.
Qed.

End Replaced.
Lemma relaid c v o : e_clrs c = None -> laid_out c v o -> eqf (enc c (GRaw (Some o))) (enc c v).
Proof.
  intros K (c0 & (F1 & F2 & F3 & K0 & IW) & CL & ST & E) b d. rewrite (C29_append_extends c (GRaw _)), (C29_append_extends c v).
  pose proof (verdict_vok (e_html c) (e_sort c) (e_trust c) v CL (enc_verdict (e_html c) (e_sort c) (e_trust c) v false CL)) as V.
  assert (FL : flags (e_html c) (e_sort c) (e_trust c) c) by (repeat split). assert (FL0 : flags (e_html c) (e_sort c) (e_trust c) c0) by (repeat split; assumption).
  destruct V as [(x & V & G)|(_ & B)].
  2:{ unfold outcome in E. destruct (B c0 FL0 (or_introl K0) 0) as (o' & d' & e & E' & _). rewrite E' in E. discriminate. }
  pose proof (G c0 FL0 (or_introl K0) 0) as H0. pose proof (G c FL (or_introl K) d) as H1. unfold outcome in E. rewrite H0 in E. injection E as <-. rewrite H1.
  unfold R. rewrite K, K0, F1. pose proof (vdoc_ok _ _ _ _ _ _ CL V) as OK. pose proof (vdoc_std _ _ _ _ _ ST V) as DS.
  pose proof (render_jvalue (e_html c) (e_ind c0) IW x OK 0) as J. pose proof (proj1 jvalue_wf _ _ J) as W.
  assert (RT : raw_text (e_trust c) (render (e_html c) None (e_ind c0) 0 x) (dast (e_html c) (e_ind c0) 0 x)) by (unfold raw_text; destruct (e_trust c); [apply jvalue_jtext|]; exact J).
  change (enc c (GRaw (Some ?s)) [] d) with (encode_raw c (Some s) [] d). rewrite (encode_raw_good c _ _ d W RT), raw_R_jdoc by (left; exact K). unfold R. rewrite K.
  rewrite (again_laid (e_html c) (e_ind c0) IW x OK DS); [reflexivity|]. intros E. rewrite E in V. exact (vdoc_free _ _ _ _ _ CL V).
Qed.

(** * C105: a text in another layout takes the layout of the place it is put *)
(** What was written for a value in some layout is written, as a RawMessage or as the
    result of MarshalJSON, as the value itself would be: in the layout of this call, at
    whatever depth, after whatever is in the buffer. *)
Theorem C105_relaid c v o : e_clrs c = None -> laid_out c v o -> forall b d, enc c (GRaw (Some o)) b d = enc c v b d /\ enc c (GMarshaler (Some (inl (Some o)))) b d = enc c v b d.
Proof. intros K L b d. split; exact (relaid c v o K L b d). Qed.
(** So parts of a value can be replaced by such texts, in any number and at any depth. *)
Theorem C105_replaced c v w : e_clrs c = None -> replaced (laid_out c) v w -> forall b d, enc c w b d = enc c v b d.
Proof. intros K. apply replaced_eq. intros x o. now apply relaid. Qed.
Print Assumptions C105_relaid.
Print Assumptions C105_replaced.
(** A struct that writes no field gets a line break between its braces when there is
    an indenter; the printer of raw messages leaves it out. *)
Theorem C105_empty_struct_refuted : exists c v o, e_clrs c = None /\ ind_all ws (e_ind c) /\ clean (e_sort c) (e_trust c) false v /\
  outcome c v = Some (inl o) /\ outcome c (GRaw (Some o)) <> Some (inl o).
Proof.
  exists (Cfg true true false None (Some (Indenter false [] [32])) (fun _ _ _ => None)), (GStruct [(FH (bs "a") true true, GNil)]). eexists.
  split; [reflexivity|]. split; [cbn; repeat constructor; auto|]. split; [cbn; repeat split; try (apply is_wf; reflexivity)|].
  - exists [(FH (bs "a") true true, GNil)], []. repeat split; constructor.
  - split; [vm_compute; reflexivity|]. vm_compute. congruence.
Qed.
Print Assumptions C105_empty_struct_refuted.

(** Non-vacuity: written with one indenter, put back with another. *)
Definition rl_cfg (p i : bytes) : cfg := Cfg true true false None (Some (Indenter false p i)) (fun _ _ _ => None).
Definition rl_part : gval := GMapSI (Some [(bs "y", GString (bs "<")); (bs "x", GSlice (Some [GInt 1; GNil]))]).
Definition rl_text : bytes := bs "{" ++ [10] ++ bs " ""x"": [" ++ [10] ++ bs "  1," ++ [10] ++ bs "  null" ++ [10] ++ bs " ]," ++ [10] ++ bs " ""y"": ""\u003c""" ++ [10] ++ bs "}".
Example C105_holds : laid_out (rl_cfg (bs ">") (bs "--")) rl_part rl_text /\
  replaced (laid_out (rl_cfg (bs ">") (bs "--"))) (GArray [rl_part; GUnsupported]) (GArray [GRaw (Some rl_text); GUnsupported]) /\
  outcome (rl_cfg (bs ">") (bs "--")) (GArray [GRaw (Some rl_text)]) = outcome (rl_cfg (bs ">") (bs "--")) (GArray [rl_part]) /\
  (exists o, outcome (rl_cfg (bs ">") (bs "--")) (GArray [rl_part]) = Some (inl o) /\ length o = 75%nat).
Proof.
  assert (L : laid_out (rl_cfg (bs ">") (bs "--")) rl_part rl_text).
  { exists (rl_cfg [] (bs " ")). split; [repeat split; cbn; repeat constructor; auto|]. split; [cbn; repeat split; repeat constructor; auto; try (apply is_wf; reflexivity); try lia|].
    split; [cbn; repeat split|vm_compute; reflexivity]. }
  split; [exact L|]. split; [|split; [vm_compute; reflexivity|eexists; split; vm_compute; reflexivity]].
  apply re_array. constructor; [apply re_raw, L|]. constructor; [apply re_same|constructor].
Qed.

(** * C106: in colors *)
Definition kind_of (t : bytes) : tkind := match tok_ast t with JStr _ => TStr | JNum _ => TNum | JNull => TNull | JTrue | JFalse => TBool | _ => TPlain end.
Fixpoint kinds_ok (x : doc) : Prop :=
  match x with
  | DTok k t => k = kind_of t
  | DQuote _ => False
  | DArr l => SpecRender.all (map kinds_ok l)
  | DObj _ l => SpecRender.all (map (fun e => match e with (k, _, y) => k = TKey /\ kinds_ok y end) l)
  end.
Lemma kind_num t : number_lit t -> TNum = kind_of t.
Proof. intros H. unfold kind_of. now rewrite tok_ast_num. Qed.
Lemma kind_str t : string_lit t -> TStr = kind_of t.
Proof. intros H. unfold kind_of. now rewrite tok_ast_str. Qed.
Lemma jdoc_kinds html a : ast_ok a -> kinds_ok (jdoc html a).
Proof.
  induction a as [| | |t|t|l IH|l IH] using jast_rect'; cbn [ast_ok jdoc kinds_ok]; intros H; try reflexivity.
  - now apply kind_num.
  - now apply kind_str, raw_string_lit.
  - apply all_map in H. apply all_map. rewrite Forall_forall in *. intros x Hx. apply in_map_iff in Hx. destruct Hx as (a & <- & Ha). auto.
  - apply all_map in H. apply all_map. rewrite Forall_forall in *. intros x Hx. apply in_map_iff in Hx. destruct Hx as ([k a] & <- & Ha).
    specialize (H _ Ha). specialize (IH _ Ha). cbn in *. split; [reflexivity|apply IH, H].
Qed.
Theorem vdoc_kinds html sorted trust v : forall fld x, clean sorted trust fld v -> plain_kinds v -> vdoc html sorted trust v x -> kinds_ok x.
Proof.
  induction v as [ |b|z|f|s|s|s|t|l IH| |l IH| |m IH| |m IH|m|fs IH|o IH|o IH|o IH|s|r|r|v IH| ] using gval_rect'; intros fld x C P V;
    cbn [clean] in C; cbn [plain_kinds] in P; try contradiction; inversion V; subst; cbn [kinds_ok]; try contradiction; try reflexivity.
  - apply kind_num, itoa_number.
  - eapply kind_num, float_number; [|eassumption]. destruct f; exact C || exact I.
  - now apply kind_num.
  - apply kind_str, json_string_lit, C.
  - apply all_map in C, P. apply all_map. eapply Forall2_all; [eassumption|]. rewrite Forall_forall in *. intros y Hy x Hx. eapply IH; eauto.
  - apply all_map in C, P. apply all_map. eapply Forall2_all; [eassumption|]. rewrite Forall_forall in *. intros y Hy x Hx. eapply IH; eauto.
  - apply all_map in C, P. apply all_map. eapply Forall2_all; [eassumption|].
    match goal with H : in_order _ _ m _ |- _ => apply in_order_perm in H; eapply Permutation_Forall; [exact H|] end.
    rewrite Forall_forall in *. intros [k y] Hy [[tk tb] x] [Hk Hx]. specialize (C _ Hy). specialize (P _ Hy). cbn in *. destruct C as [C1 C2], P as [P1 P2].
    split; [destruct Hk; tauto|]. exact (IH _ Hy false x C2 P2 Hx).
  - apply all_map in C, P. apply all_map. eapply Forall2_all; [eassumption|].
    match goal with H : in_order _ _ m _ |- _ => apply in_order_perm in H; eapply Permutation_Forall; [exact H|] end.
    rewrite Forall_forall in *. intros [k y] Hy [[tk tb] x] [Hk Hx]. specialize (C _ Hy). specialize (P _ Hy). cbn in *. destruct C as [C1 C2]. injection Hk as -> ->. split; [reflexivity|].
    exact (IH _ Hy false x C2 P Hx).
  - apply all_map. eapply Forall2_all; [eassumption|].
    match goal with H : in_order _ _ _ _ |- _ => apply in_order_perm in H; eapply Permutation_Forall; [exact H|] end.
    eapply Forall_impl; [|exact C]. cbn beta. intros [k y] [C1 _] [[tk tb] x] [Hk Hx]. cbn in *. injection Hk as -> ->. split; [reflexivity|].
    inversion Hx; subst; [reflexivity|]. eapply jdoc_kinds, raw_text_ok; eassumption.
  - destruct C as [_ C]. apply all_map in C, P. apply all_map. eapply Forall2_all; [eassumption|]. apply filter_Forall.
    rewrite Forall_forall in *. intros [h y] Hy [[tk tb] x] [Hk Hx]. specialize (C _ Hy). specialize (P _ Hy). cbn in *. destruct C as [C1 C2]. injection Hk as -> ->. split; [reflexivity|].
    exact (IH _ Hy true x C2 P Hx).
  - cbn in IH. eapply IH; [apply C|exact P|eassumption].
  - cbn in IH. eapply IH; eassumption.
  - cbn in IH. eapply IH; eassumption.
  - eapply jdoc_kinds, raw_text_ok; eassumption.
  - match goal with H : vdoc _ _ _ (GRaw _) _ |- _ => inversion H; subst end; [reflexivity|]. eapply jdoc_kinds, raw_text_ok; eassumption.
Qed.
Lemma tok_again_cl html cl ind t d : lit_token t -> (html = true -> hfree t) -> render html cl ind d (jdoc html (tok_ast t)) = paint cl (kind_color (kind_of t)) t.
Proof.
  unfold kind_of. intros [H|[H|[->|[->| ->]]]] F; try reflexivity.
  - rewrite tok_ast_str by exact H. cbn [jdoc render]. now rewrite hfree_raw.
  - rewrite tok_ast_num by exact H. reflexivity.
Qed.
Lemma again_shown html ind0 x : doc_ok x -> doc_std x -> kinds_ok x -> (html = true -> doc_free x) ->
  forall d0 cl ind d, render html cl ind d (jdoc html (dast html ind0 d0 x)) = render html cl ind d x.
Proof.
  induction x as [k t|y IH|l IH|q l IH] using doc_rect'; cbn [doc_ok doc_free kinds_ok]; intros OK ST KO HF d0 cl ind d.
  - cbn [dast]. rewrite tok_again_cl by assumption. subst k. reflexivity.
  - contradiction.
  - apply all_map in OK, KO. cbn [doc_std] in ST. apply all_map in ST. cbn [dast jdoc]. rewrite !render_arr. rewrite !map_map. destruct l as [|y l]; [reflexivity|]. cbn [map].
    change (jdoc html (dast html ind0 (d0 + 1) y) :: map (fun x => jdoc html (dast html ind0 (d0 + 1) x)) l) with (map (fun x => jdoc html (dast html ind0 (d0 + 1) x)) (y :: l)).
    f_equal. f_equal. unfold elems_text. rewrite map_map. f_equal. apply map_ext_in. intros z I. f_equal. rewrite Forall_forall in *. apply IH; auto.
    intros E. specialize (HF E). apply all_map in HF. rewrite Forall_forall in HF. auto.
  - apply all_map in OK, KO. cbn [doc_std] in ST. destruct ST as [SQ ST]. apply all_map in ST. cbn [dast jdoc]. rewrite !render_obj. rewrite !map_map. destruct l as [|e l].
    + rewrite (SQ eq_refl). reflexivity.
    + cbn [map]. match goal with |- context [?h :: map ?f l] => change (h :: map f l) with (map f (e :: l)) end.
      f_equal. f_equal. unfold members_text. rewrite map_map. f_equal. apply map_ext_in. intros [[k t] z] I.
      rewrite Forall_forall in *. specialize (OK _ I). specialize (IH _ I). specialize (ST _ I). specialize (KO _ I). cbn in OK, IH, ST, KO. destruct OK as [T OK], KO as [-> KO].
      assert (HZ : html = true -> hfree t /\ doc_free z) by (intros E; specialize (HF E); apply all_map in HF; rewrite Forall_forall in HF; exact (HF _ I)).
      rewrite (hfree_raw html t) by (intros E; apply HZ, E). rewrite IH by (try assumption; intros E; apply HZ, E). reflexivity.
Qed.
Lemma shown c v o : shown_alike c v o -> eqf (enc c (GRaw (Some o))) (enc c v).
Proof.
  intros ((c0 & (F1 & F2 & F3 & K0 & IW) & CL & ST & E) & P & CC & RC) b d. rewrite (C29_append_extends c (GRaw _)), (C29_append_extends c v).
  pose proof (verdict_vok (e_html c) (e_sort c) (e_trust c) v CL (enc_verdict (e_html c) (e_sort c) (e_trust c) v false CL)) as V.
  assert (FL : flags (e_html c) (e_sort c) (e_trust c) c) by (repeat split). assert (FL0 : flags (e_html c) (e_sort c) (e_trust c) c0) by (repeat split; assumption).
  destruct V as [(x & V & G)|(_ & B)].
  2:{ unfold outcome in E. destruct (B c0 FL0 (or_introl K0) 0) as (o' & d' & e & E' & _). rewrite E' in E. discriminate. }
  pose proof (G c0 FL0 (or_introl K0) 0) as H0. pose proof (G c FL (or_intror CC) d) as H1. unfold outcome in E. rewrite H0 in E. injection E as <-. rewrite H1.
  unfold R in RC |- *. rewrite K0, F1 in *. pose proof (vdoc_ok _ _ _ _ _ _ CL V) as OK. pose proof (vdoc_std _ _ _ _ _ ST V) as DS. pose proof (vdoc_kinds _ _ _ _ _ _ CL P V) as KO.
  pose proof (render_jvalue (e_html c) (e_ind c0) IW x OK 0) as J. pose proof (proj1 jvalue_wf _ _ J) as W.
  assert (RT : raw_text (e_trust c) (render (e_html c) None (e_ind c0) 0 x) (dast (e_html c) (e_ind c0) 0 x)) by (unfold raw_text; destruct (e_trust c); [apply jvalue_jtext|]; exact J).
  change (enc c (GRaw (Some ?s)) [] d) with (encode_raw c (Some s) [] d). rewrite (encode_raw_good c _ _ d W RT), raw_R_jdoc by (right; apply RC, jvalue_jtext, J). unfold R.
  rewrite (again_shown (e_html c) (e_ind c0) x OK DS KO); [reflexivity|]. intros E. rewrite E in V. exact (vdoc_free _ _ _ _ _ CL V).
Qed.

(** What was written for a value without colors is written, as a RawMessage or as the
    result of MarshalJSON, with the colors and the layout the value itself would get. *)
Theorem C106_shown c v o : shown_alike c v o -> forall b d, enc c (GRaw (Some o)) b d = enc c v b d /\ enc c (GMarshaler (Some (inl (Some o)))) b d = enc c v b d.
Proof. intros L b d. split; exact (shown c v o L b d). Qed.
(** So parts of a value can be replaced by such texts, in any number and at any depth. *)
Theorem C106_replaced c v w : replaced (shown_alike c) v w -> forall b d, enc c w b d = enc c v b d.
Proof. apply replaced_eq. intros x o. apply shown. Qed.
Print Assumptions C106_shown.
Print Assumptions C106_replaced.

(** A []byte has a color of its own, which its text does not get. *)
Definition sh_cfg : cfg := Cfg true true false (Some default_colors) (Some (Indenter false (bs ">") (bs "--"))) (fun _ _ _ => None).
Theorem C106_kinds_refuted : exists c v o, laid_out c v o /\ colors_clean v /\ raw_colors (Some o) /\ outcome c (GRaw (Some o)) <> outcome c v.
Proof.
  exists sh_cfg, (GBytes (Some (bs "a"))). eexists. split; [|split; [exact I|split]].
  - exists (rl_cfg [] (bs " ")). split; [repeat split; cbn; repeat constructor; auto|]. split; [apply is_wf; reflexivity|]. split; [exact I|vm_compute; reflexivity].
  - intros a J. rewrite (jtext_unique _ _ _ J (jvalue_jtext _ _ (V_str _ (b64_string (bs "a") (is_wf (bs "a") eq_refl))))). exact I.
  - vm_compute. congruence.
Qed.
Print Assumptions C106_kinds_refuted.

(** Non-vacuity: a text written plainly, shown with the default colors and another layout. *)
Lemma rl_colors : raw_colors (Some rl_text).
Proof.
  pose (x := DObj ONormal [(TKey, json_string true (bs "x"), DArr [DTok TNum (itoa 1); DTok TNull (bs "null")]); (TKey, json_string true (bs "y"), DTok TStr (json_string true (bs "<")))]).
  assert (OK : doc_ok x).
  { pose proof (fun t : bytes => json_string_lit true t) as S. pose proof (itoa_number 1) as N.
    unfold x. cbn [doc_ok SpecRender.all map fold_right]. split; [split; [apply S, is_wf; reflexivity|]|split; [|exact I]; split; [apply S, is_wf; reflexivity|]].
    - split; [apply lit_number, N|]. split; [unfold lit_token; tauto|exact I].
    - apply lit_string, S, is_wf. reflexivity. }
  assert (IW : ind_all ws (Some (Indenter false [] (bs " ")))) by (cbn; repeat constructor; auto).
  intros a J. pose proof (render_jvalue true _ IW x OK 0) as J'. assert (E : render true None (Some (Indenter false [] (bs " "))) 0 x = rl_text) by (vm_compute; reflexivity). rewrite E in J'.
  rewrite (jtext_unique _ _ _ J (jvalue_jtext _ _ J')). vm_compute. intuition discriminate.
Qed.
Example C106_holds : shown_alike sh_cfg rl_part rl_text /\
  replaced (shown_alike sh_cfg) (GArray [rl_part; GBytes None]) (GArray [GRaw (Some rl_text); GBytes None]) /\
  outcome sh_cfg (GArray [GRaw (Some rl_text); GBytes None]) = outcome sh_cfg (GArray [rl_part; GBytes None]) /\
  (exists o, outcome sh_cfg (GArray [rl_part]) = Some (inl o) /\ length o = 163%nat).
Proof.
  assert (L : shown_alike sh_cfg rl_part rl_text).
  { split; [|split; [cbn; tauto|split; [cbn; tauto|exact rl_colors]]].
    exists (rl_cfg [] (bs " ")). split; [repeat split; cbn; repeat constructor; auto|]. split; [cbn; repeat split; repeat constructor; auto; try (apply is_wf; reflexivity); try lia|].
    split; [cbn; repeat split|vm_compute; reflexivity]. }
  split; [exact L|]. split; [|split; [vm_compute; reflexivity|eexists; split; vm_compute; reflexivity]].
  apply re_array. constructor; [apply re_raw, L|]. constructor; [apply re_same|constructor].
Qed.
