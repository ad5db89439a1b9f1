(** The round trip of typed values, and that every value JSON can carry has a
    document. *)
From Coq Require Import Permutation Sorted.
From Verif Require Import Bytes Utf8Model ParseModel StringModel IntModel TokenModel EncModel DecModel SpecJson SpecString SpecTokens
  SpecRender SpecColor SpecEnc SpecNum SpecDec SpecTrip SpecRaw ParseFacts Utf8Facts StringFacts IntFacts TokenFacts EncFacts RawFacts EncMain TextFacts ColorFacts DocFacts
  RawText Unambig NumFacts DecLoops DecFacts PropsString TripFacts PropsDec
  TypeModel SpecType SpecFit SpecField NodeFacts TypeLoops TypeFacts TypeMain TypeSound TypeSafe ViewModel SpecSame ViewFacts TripClean.

(** * Nodes by their trees *)
Lemma erase_num nd s : erase nd = JNum s -> nd = ND s HNum.
Proof. destruct nd as [t h]; destruct h; cbn [erase]; congruence. Qed.
Lemma erase_str nd s : erase nd = JStr s -> nd = ND s HStr.
Proof. destruct nd as [t h]; destruct h; cbn [erase]; congruence. Qed.
Lemma erase_null nd : erase nd = JNull -> nd = ND (ntext nd) HNull.
Proof. destruct nd as [t h]; destruct h; cbn [erase ntext]; congruence. Qed.
Lemma erase_true nd : erase nd = JTrue -> nd = ND (ntext nd) HTrue.
Proof. destruct nd as [t h]; destruct h; cbn [erase ntext]; congruence. Qed.
Lemma erase_false nd : erase nd = JFalse -> nd = ND (ntext nd) HFalse.
Proof. destruct nd as [t h]; destruct h; cbn [erase ntext]; congruence. Qed.
Lemma nelems_all s l : nelems s l -> Forall jnode l.
Proof. induction 1; repeat constructor; assumption. Qed.
Lemma nmembers_all s l : nmembers s l -> Forall (fun kv => string_lit (fst kv) /\ jnode (snd kv)) l.
Proof. induction 1; repeat constructor; assumption. Qed.
Lemma erase_arr nd l : jnode nd -> erase nd = JArr l -> exists s ns, nd = ND s (HArr ns) /\ map erase ns = l /\ Forall jnode ns.
Proof.
  intros J E. destruct nd as [s h]. destruct h; cbn [erase] in E; try discriminate. injection E as <-. exists s, l0. split; [reflexivity|]. split; [reflexivity|].
  inversion J; subst; [constructor|]. eapply nelems_all. eassumption.
Qed.
Lemma erase_obj nd l : jnode nd -> erase nd = JObj l ->
  exists s ns, nd = ND s (HObj ns) /\ Forall2 (fun n kv => fst n = fst kv /\ erase (snd n) = snd kv) ns l /\ Forall (fun kv => string_lit (fst kv) /\ jnode (snd kv)) ns.
Proof.
  intros J E. destruct nd as [s h]. destruct h; cbn [erase] in E; try discriminate. injection E as <-. exists s, l0. split; [reflexivity|]. split.
  - clear J. induction l0 as [|[k v] l0 IH]; constructor; [split; reflexivity|exact IH].
  - inversion J; subst; [constructor|]. eapply nmembers_all. eassumption.
Qed.

(** * Texts *)
Lemma json_means html s : valid_utf8 s -> str_means (json_string html s) s.
Proof.
  intros U. rewrite <- (str_text_json html s U) at 2. apply str_text_means, json_string_lit, valid_utf8_wf, U.
Qed.
Lemma plain_means t : Forall (fun c => 32 <= c < 128 /\ c <> 34 /\ c <> 92) t -> str_means (quote t) t.
Proof.
  intros H. exists t, t. split; [reflexivity|]. split.
  - induction H as [|c t (H1 & H2 & H3) H IH]; [constructor|]. change (c :: t) with ([c] ++ t) at 1. apply sd_char; [apply u8_1; lia|lia|lia|lia|exact IH].
  - apply utf8_ascii. eapply Forall_impl; [|exact H]. cbv beta. intros; lia.
Qed.
Lemma ascii_utf8 t : Forall (fun c => 0 <= c < 128) t -> valid_utf8 t.
Proof. intros H. exists t. apply utf8_ascii, H. Qed.
Lemma number_utf8 t : number_lit t -> valid_utf8 t.
Proof. intros H. apply ascii_utf8. eapply Forall_impl; [|apply number_chars, H]. cbv beta. intros; lia. Qed.
Lemma json_utf8 html s : wf s -> valid_utf8 (json_string html s).
Proof. intros H. destruct (C06_encoded_string_is_token html s [] H) as (v & E & _ & _ & U). unfold json_string. rewrite E. exact U. Qed.
Lemma token_unzeroed t : lit_token t -> unzeroed t t.
Proof.
  intros H. assert (E : has_leading_zeroes t = false).
  { destruct H as [(b & -> & _)|[H|[->|[->| ->]]]]; try reflexivity; [destruct b; reflexivity|].
    destruct H as [sg i f e SG Hi Hf He].
    assert (N : match i ++ f ++ e with c :: d :: _ => (c =? 48) && is_digit d | _ => false end = false).
    { destruct Hi as [|d ds Hd _]; cbn [app].
      - destruct Hf as [|ds _]; cbn [app]; [|reflexivity]. destruct He as [|c sg' ds [->| ->] _ _]; reflexivity.
      - destruct (ds ++ f ++ e); [reflexivity|]. replace (d =? 48) with false by (symmetry; apply Z.eqb_neq; lia). reflexivity. }
    unfold has_leading_zeroes. destruct SG as [-> | ->]; cbn [app]; [|exact N].
    destruct (i ++ f ++ e) as [|c r] eqn:Ei; [reflexivity|].
    assert (Hc : 48 <= c <= 57) by (destruct Hi; cbn [app] in Ei; injection Ei as <- _; lia).
    replace ((c =? 45) || (c =? 43)) with false by (symmetry; apply orb_false_intro; apply Z.eqb_neq; lia). exact N. }
  pose proof (unzeroed_strip t) as U. unfold strip_zeroes in U. rewrite E in U. exact U.
Qed.

(** * Parts of the round trip *)
(** Escaping a message twice is escaping it once. *)
Lemma html_escape_first c s b t : html_escape (c :: s) = b :: t -> b <> 92 -> b = c /\ t = html_escape s.
Proof.
  destruct (html_escape_cases c s) as [(_ & ->)|[(b0 & s' & _ & _ & _ & ->)|(_ & _ & ->)]]; intros E N; cbn [app u00 u202] in E; injection E as <- <-; try lia. auto.
Qed.
Lemma html_escape_twice s : html_escape (html_escape s) = html_escape s.
Proof.
  remember (length s) as n eqn:L. revert s L. induction n as [n IH] using lt_wf_ind. intros [|c s] L; [reflexivity|]. cbn [length] in L.
  destruct (html_escape_cases c s) as [(H & ->)|[(b & s' & -> & -> & Hb & ->)|(H & N & ->)]].
  - assert (X : html_escape (html_escape s) = html_escape s) by (apply (IH (length s)); [lia|reflexivity]).
    unfold is_html in H. rewrite !orb_true_iff, !Z.eqb_eq in H. destruct H as [[->| ->]| ->]; cbn [u00 app]; repeat (rewrite html_escape_plain by (reflexivity || discriminate)); rewrite X; reflexivity.
  - assert (X : html_escape (html_escape s') = html_escape s') by (apply (IH (length s')); [cbn [length] in L; lia|reflexivity]).
    destruct Hb as [->| ->]; cbn [u202 app]; repeat (rewrite html_escape_plain by (reflexivity || discriminate)); rewrite X; reflexivity.
  - assert (X : html_escape (html_escape s) = html_escape s) by (apply (IH (length s)); [lia|reflexivity]).
    destruct (html_escape_cases c (html_escape s)) as [(H' & _)|[(b & s' & -> & E & Hb & _)|(_ & _ & ->)]]; [congruence| |rewrite X; reflexivity].
    exfalso. specialize (N eq_refl). destruct s as [|x s]; [discriminate|]. apply html_escape_first in E as [<- E]; [|lia].
    destruct s as [|y s]; [discriminate|]. symmetry in E. apply html_escape_first in E as [<- E]; [|lia]. destruct Hb as [->| ->]; discriminate.
Qed.
Lemma jdoc_esc html a : jdoc html (esc_ast html a) = jdoc html a.
Proof.
  assert (R : forall t, raw_string html (raw_string html t) = raw_string html t) by (intros t; destruct html; [apply html_escape_twice|reflexivity]).
  induction a as [| | |t|t|l IH|l IH] using jast_rect'; cbn [esc_ast jdoc]; try reflexivity.
  - rewrite R. reflexivity.
  - f_equal. rewrite map_map. apply map_ext_in. intros x Hx. rewrite Forall_forall in IH. apply IH, Hx.
  - f_equal. rewrite map_map. apply map_ext_in. intros [k x] Hx. rewrite Forall_forall in IH. specialize (IH _ Hx). cbn [snd] in IH. rewrite R, IH. reflexivity.
Qed.

(** * A value that is written again the same
    [again html t m m']: as [same], but messages have the same document under
    this setting of EscapeHTML, and a field with omitempty is left out of both
    structs or of none. *)
Section Again.
Context (V : tenv) (W : menv) (html : bool).
Definition raw_again (r r' : option bytes) : Prop :=
  match r, r' with
  | None, None => True
  | None, Some s' => s' = bs "null"
  | Some s, Some s' => exists a a', jvalue s a /\ jvalue s' a' /\ same_tree a a' /\ jdoc html a = jdoc html a'
  | Some _, None => False
  end.
Inductive again : gty -> mem -> mem -> Prop :=
| ag_leaf t m : leaf t -> again t m m
| ag_bytes0 : again YBytes (MBytes None) (MBytes None)
| ag_bytes len d d' : (len <= length d')%nat -> firstn len d = firstn len d' -> again YBytes (MBytes (Some (len, d))) (MBytes (Some (len, d')))
| ag_iface v v' : jv_same v v' -> again YIface (MIface v) (MIface v')
| ag_named e v v' : jv_same v v' -> again (YNamedIface e) (MIface v) (MIface v')
| ag_raw r r' : raw_again r r' -> again YRaw (MRaw r) (MRaw r')
| ag_array n e l l' : Forall2 (again e) l l' -> again (YArray n e) (MList l) (MList l')
| ag_slice0 e : again (YSlice e) (MSlice None) (MSlice None)
| ag_slice e len d d' : (len <= length d')%nat -> Forall2 (again e) (firstn len d) (firstn len d') ->
    again (YSlice e) (MSlice (Some (len, d))) (MSlice (Some (len, d')))
| ag_map0 k e : again (YMap k e) (MMap None) (MMap None)
| ag_map k e m m' :
    (forall a x, In (a, x) m -> exists x', In (a, x') m' /\ again e x x') ->
    (forall a x', In (a, x') m' -> exists x, In (a, x) m /\ again e x x') ->
    again (YMap k e) (MMap (Some m)) (MMap (Some m'))
| ag_map_si m m' : again (YMap KYString YIface) m m' -> again YMapSI m m'
| ag_map_sr m m' : again (YMap KYString YRaw) m m' -> again YMapSR m m'
| ag_ptr0 e : again (YPtr e) (MPtr None) (MPtr None)
| ag_ptr e x x' : again e x x' -> again (YPtr e) (MPtr (Some x)) (MPtr (Some x'))
| ag_struct i l l' :
    (forall f x, In f (v_flds V i) -> get (jf_path f) (MList l) = Some x ->
       exists x', get (jf_path f) (MList l') = Some x' /\ again (jf_ty f) x x') ->
    (forall f, In f (v_flds V i) -> get (jf_path f) (MList l) = None -> get (jf_path f) (MList l') = None) ->
    (forall f, In f (v_flds V i) -> o_omit W i f = true -> direct (jf_path f) = true -> field_empty W i f (MList l) = field_empty W i f (MList l')) ->
    again (YStruct i) (MList l) (MList l').

Fixpoint again_same t m m' (H : again t m m') {struct H} : same V t m m'.
Proof.
  destruct H as [t m L| |len d d' L E|v v' J|e v v' J|r r' R|n e l l' FA|e|e len d d' L FA|k e|k e m m' A B|m m' H|m m' H|e|e x x' H|i l l' A B C].
  - apply sm_leaf, L.
  - apply sm_bytes0.
  - apply sm_bytes; assumption.
  - apply sm_iface, J.
  - apply sm_named, J.
  - apply sm_raw. destruct r as [s|], r' as [s'|]; try exact R. destruct R as (a & a' & R1 & R2 & R3 & _). exists a, a'. auto.
  - apply sm_array. induction FA as [|x y l l' H FA IH]; constructor; [exact (again_same _ _ _ H)|exact IH].
  - apply sm_slice0.
  - apply sm_slice; [exact L|]. induction FA as [|x y l l' H FA IH]; constructor; [exact (again_same _ _ _ H)|exact IH].
  - apply sm_map0.
  - apply sm_map; [intros a x IN; destruct (A a x IN) as (x' & I' & H)|intros a x IN; destruct (B a x IN) as (x' & I' & H)]; exists x'; (split; [exact I'|exact (again_same _ _ _ H)]).
  - apply sm_map_si. exact (again_same _ _ _ H).
  - apply sm_map_sr. exact (again_same _ _ _ H).
  - apply sm_ptr0.
  - apply sm_ptr. exact (again_same _ _ _ H).
  - apply sm_struct; [|exact B]. intros f x IN G. destruct (A f x IN G) as (x' & G' & H). exists x'. split; [exact G'|exact (again_same _ _ _ H)].
Qed.

(** A value that is not empty does not become empty. *)
Lemma kept_map (R : mem -> mem -> Prop) (m m' : list (mkey * mem)) : (forall a x, In (a, x) m -> exists x', In (a, x') m' /\ R x x') -> m <> [] -> m' <> [].
Proof. intros A N ->. destruct m as [|[a x] m]; [congruence|]. destruct (A a x (or_introl eq_refl)) as (? & [] & _). Qed.
Lemma kept t x x' : again t x x' -> is_empty W t x = false -> is_empty W t x' = false.
Proof.
  intros A E. destruct A as [t m L| |len d d' L E0|v v' J|e v v' J|r r' R|n e l l' FA|e|e len d d' L FA|k e|k e m m' A B|m m' H|m m' H|e|e x x' H|i l l' A B C]; try exact E; cbn [is_empty] in *.
  - inversion J; subst; try exact E; reflexivity.
  - inversion J; subst; try exact E; reflexivity.
  - destruct r as [s|], r' as [s'|]; try discriminate; try contradiction. destruct R as (a & a' & _ & R & _). destruct s'; [|reflexivity]. exfalso. apply jvalue_node in R as (v & E1 & _ & JV). destruct (node_head v JV) as (c & t & E2 & _). congruence.
  - assert (N : m' <> []) by (eapply kept_map; [exact A|destruct m; congruence]). destruct m'; congruence.
  - inversion H as [? ? Q| | | | | | | | | |? ? m0 m1 A B| | | | |]; subst; try contradiction; [exact E|].
    assert (N : m1 <> []) by (eapply kept_map; [exact A|destruct m0; congruence]). destruct m1; congruence.
  - inversion H as [? ? Q| | | | | | | | | |? ? m0 m1 A B| | | | |]; subst; try contradiction; [exact E|].
    assert (N : m1 <> []) by (eapply kept_map; [exact A|destruct m0; congruence]). destruct m1; congruence.
Qed.
Lemma test_get_eq p q : direct p = true -> forall m, test_path p q m = match get p m with Some x => q x | None => false end.
Proof.
  induction p as [|[i|i s u] p IH]; cbn [direct]; intros H m; [destruct m; reflexivity| |discriminate].
  destruct m; cbn [test_path get]; try reflexivity. destruct (nth_error l i) as [x|]; [|reflexivity]. exact (IH H x).
Qed.
End Again.

Section Trip.
Context (V : tenv) (W : menv) (F : dflags) (OK : env_ok V) (ET : env_typed V) (NM : env_names V).
Notation view := (view V W).
Notation trip := (trip V W F).
Notation stores := (stores V F).
Notation again := (again V W).
Notation fits := (fits V).

Lemma get_fits t p u m x : leads V t p u -> fits t m -> get p m = Some x -> fits u x.
Proof.
  intros L. revert m. induction L as [t|i k u p t N L IH|i k j un p t N L IH]; intros m FM G.
  - destruct m; cbn [get] in G; injection G as <-; exact FM.
  - inversion FM as [| | | | | | | | | | | | | | | | | | | |? l FL| | |]; subst. destruct (nth_fit V _ _ _ _ FL N) as (y & NX & FX). cbn [get] in G. rewrite NX in G. eapply IH; eassumption.
  - inversion FM as [| | | | | | | | | | | | | | | | | | | |? l FL| | |]; subst. destruct (nth_fit V _ _ _ _ FL N) as (y & NX & FX). cbn [get] in G. rewrite NX in G.
    inversion FX; subst; [discriminate|]. eapply IH; eassumption.
Qed.

Lemma iface_trip html sorted trust ind d v x nd : tree_ok V F v -> vdoc html sorted trust (view_iface v) x -> jnode nd -> erase nd = dast html ind d x ->
  exists v', ival (num V F) (erase nd) v' /\ jv_same v v'.
Proof.
  intros (GT & FL) VD J E. assert (VD' : vdoc html sorted trust (tree v) x) by (destruct v; cbn [view_iface] in VD; inversion VD; subst; try assumption; constructor).
  destruct (tree_trip _ (v_float V true) _ _ GT FL html sorted trust ind d x VD') as (v' & D & S). exists v'. split; [|exact S].
  apply (iface_rel V F nd v' J). rewrite E. exact D.
Qed.

Lemma mkey_dec_eq a b : mkey_eqb a b = true <-> a = b.
Proof.
  destruct a, b; cbn [mkey_eqb]; split; intros H; try discriminate; try (apply beqb_eq in H; congruence); try (injection H as <-; apply beqb_eq; reflexivity).
  - apply Z.eqb_eq in H. congruence.
  - injection H as <-. apply Z.eqb_refl.
Qed.
Lemma map_trip html k e m m0 l s : NoDup (map fst m) -> Permutation m m0 ->
  Forall2 (fun kv ln => key_means V k (fst ln) (fst kv) /\ exists x', stores e (snd ln) (zero V e) x' /\ again html e (snd kv) x') m0 l ->
  exists m', stores (YMap k e) (ND s (HObj l)) (MMap None) (MMap (Some m')) /\ again html (YMap k e) (MMap (Some m)) (MMap (Some m')).
Proof.
  intros N P H.
  assert (X : exists kvs, Forall2 (entry (stores e) (zero V e) (key_means V k)) l kvs /\ Forall2 (fun a b => fst a = fst b /\ again html e (snd a) (snd b)) m0 kvs).
  { clear N P. induction H as [|[a x] [lit nd] m0 l (K & x' & S1 & S2) H (kvs & F1 & F2)]; [exists []; split; constructor|]. cbn [fst snd] in *.
    exists ((a, x') :: kvs). split; constructor; try assumption; split; assumption || reflexivity. }
  destruct X as (kvs & F1 & F2). exists (add_all mkey_eqb kvs []). split; [apply st_map; apply (mr_obj _ _ _ _ s l None kvs F1)|].
  assert (EK : map fst kvs = map fst m0) by (clear -F2; induction F2 as [|a b m0 kvs (E & _) F IH]; cbn; congruence).
  assert (NK : NoDup (map fst kvs)) by (rewrite EK; eapply Permutation_NoDup; [apply Permutation_map, P|exact N]).
  assert (IN : forall k v, In (k, v) (add_all mkey_eqb kvs []) <-> In (k, v) kvs).
  { intros k0 v. rewrite (add_all_in mkey_eqb mkey_dec_eq) by constructor. split.
    - intros [(l1 & l2 & -> & _)|[_ []]]. apply in_elt.
    - intros HI. left. apply in_split in HI. destruct HI as (l1 & l2 & ->). exists l1, l2. split; [reflexivity|].
      rewrite map_app in NK. cbn [map fst] in NK. apply NoDup_remove_2 in NK. rewrite in_app_iff in NK. tauto. }
  apply ag_map.
  - intros a x HI. apply (Permutation_in _ P) in HI. clear -F2 HI IN. assert (Y : exists x', In (a, x') kvs /\ again html e x x').
    { clear IN. induction F2 as [|[a1 x1] [a2 x2] m0 kvs (E & S1) F2 IH]; [destruct HI|]. cbn [fst snd] in *. destruct HI as [HI|HI].
      - injection HI as <- <-. subst a2. exists x2. split; [left; reflexivity|exact S1].
      - destruct (IH HI) as (x' & A & B). exists x'. split; [right; exact A|exact B]. }
    destruct Y as (x' & A & B). exists x'. split; [apply IN, A|exact B].
  - intros a x' HI. apply IN in HI. assert (Y : exists x, In (a, x) m0 /\ again html e x x').
    { clear -F2 HI. induction F2 as [|[a1 x1] [a2 x2] m0 kvs (E & S1) F2 IH]; [destruct HI|]. cbn [fst snd] in *. destruct HI as [HI|HI].
      - injection HI as <- <-. subst a2. exists x1. split; [left; reflexivity|exact S1].
      - destruct (IH HI) as (x & A & B). exists x. split; [right; exact A|exact B]. }
    destruct Y as (x & A & B). exists x. split; [|exact B]. apply (Permutation_in _ (Permutation_sym P)), A.
Qed.

(** Fields with option ",string". *)
Lemma quot_text n t m g x html sorted trust : quotable t -> quot_ok t -> view n t m = Some g -> trip t m -> vdoc html sorted trust g x -> exists k T, x = DTok k T /\ valid_utf8 T.
Proof.
  assert (NU : valid_utf8 (bs "null")) by (apply ascii_utf8; vm_compute; repeat constructor; discriminate).
  assert (TU : valid_utf8 (bs "true")) by (apply ascii_utf8; vm_compute; repeat constructor; discriminate).
  assert (FU : valid_utf8 (bs "false")) by (apply ascii_utf8; vm_compute; repeat constructor; discriminate).
  revert m g. induction t; cbn [quotable quot_ok]; try contradiction; intros m g QT QO EV T VD; rewrite view_eq in EV; inversion T; subst; try discriminate.
  - injection EV as <-. inversion VD; subst; eauto.
  - injection EV as <-. inversion VD; subst. eexists _, _. split; [reflexivity|]. apply number_utf8, itoa_number.
  - injection EV as <-. inversion VD; subst. eexists _, _. split; [reflexivity|]. apply number_utf8. eapply float_number; [|eassumption]. destruct f; cbn [finite float_ok] in *; tauto.
  - injection EV as <-. inversion VD; subst; eexists _, _; (split; [reflexivity|]); apply number_utf8; [|assumption]. apply (number_intro [] [48] [] []); auto; constructor.
  - injection EV as <-. inversion VD; subst. eexists _, _. split; [reflexivity|]. apply json_utf8, valid_utf8_wf. assumption.
  - injection EV as <-. inversion VD; subst. eexists _, _. split; [reflexivity|]. apply number_utf8, itoa_number.
  - injection EV as <-. inversion VD; subst. eauto.
  - destruct (view n t x0) as [g'|] eqn:E; [|discriminate]. injection EV as <-. inversion VD; subst. eapply IHt; [| |exact E|eassumption|eassumption]; destruct t; try contradiction; try exact QT; try exact I.
  - match goal with H : o_text _ _ _ = _ |- _ => rewrite H in EV end. injection EV as <-. inversion VD; subst. eexists _, _. split; [reflexivity|]. apply json_utf8, valid_utf8_wf. assumption.
Qed.
Lemma quot_stores q (R : node -> mem -> mem -> Prop) html T nd v x y : q <> QNo -> erase nd = JStr (json_string html T) -> valid_utf8 T -> lit_token T -> jnode v -> ntext v = T -> R v x y ->
  quoted q R nd x y.
Proof.
  intros Q E U L J <- HR. apply erase_str in E. subst nd. destruct q; [congruence| |].
  - apply (qu_str _ _ _ v []); [reflexivity|rewrite app_nil_r; apply json_means, U|constructor|exact J|exact HR].
  - apply (qu_int _ _ _ (ntext v) v); [reflexivity|apply json_means, U| |apply token_unzeroed, L|exact J|exact HR].
    destruct (node_head v J) as (c & t & -> & _). discriminate.
Qed.

(** The members of an object, written one after the other into a struct. *)
Section Run.
Context (n i : nat) (m : list mem) (html sorted trust : bool) (ind : option indenter) (d : Z).
Hypothesis FM : fits (YStruct i) (MList m).
Hypothesis TM : trip (YStruct i) (MList m).
Notation path f := (jf_path f).
Definition node_of (ln : bytes * node) (kx : tkind * bytes * doc) : Prop :=
  fst ln = snd (fst kx) /\ jnode (snd ln) /\ erase (snd ln) = dast html ind (d + 1) (snd kx).
Definition doc_of (e : fhead * gval) (x : tkind * bytes * doc) : Prop :=
  fst x = (TKey, json_string html (f_name (fst e))) /\ vdoc html sorted trust (snd e) (snd x).
Hypothesis HF : forall f hv x kx nd, In f (v_flds V i) -> field_view V W n i (MList m) f hv -> get (path f) (MList m) = Some x ->
  vdoc html sorted trust (snd hv) kx -> jnode nd -> erase nd = dast html ind (d + 1) kx ->
  exists z, quoted (jf_quot f) (stores (jf_ty f)) nd (zero V (jf_ty f)) z /\ again html (jf_ty f) x z.

Lemma picks_name f : In f (v_flds V i) -> picks V F (v_flds V i) (jf_name f) (Some f).
Proof.
  intros IN. apply in_split in IN as (l1 & l2 & E). apply (pk_exact _ _ _ _ l1 f l2); [exact E|reflexivity|].
  pose proof (en_names V NM i) as N. rewrite E, map_app in N. cbn [map] in N. apply NoDup_remove_2 in N. rewrite in_app_iff in N.
  apply Forall_forall. intros g G E2. apply N. right. rewrite <- E2. apply in_map, G.
Qed.

Lemma name_uniq f g : In f (v_flds V i) -> In g (v_flds V i) -> jf_name f = jf_name g -> f = g.
Proof.
  intros I1 I2 E. pose proof (picks_name f I1) as P1. pose proof (picks_name g I2) as P2. rewrite E in P1. pose proof (picks_uniq V F _ _ _ _ P1 P2). congruence.
Qed.
Lemma run todo : forall fs xs l y, incl todo (v_flds V i) -> NoDup (map jf_name todo) -> Forall2 (field_view V W n i (MList m)) todo fs ->
  Forall2 doc_of (filter emitted fs) xs -> Forall2 node_of l xs ->
  (forall f, In f todo -> peek V (path f) y = Some (zero V (jf_ty f))) ->
  (forall f, In f (v_flds V i) -> get (path f) (MList m) = None -> waits V (path f) (MList m) y) ->
  exists y', members_rel (member V F i) l y y' /\
    (forall f, In f todo -> ~ left_out W i f (MList m) -> forall x, get (path f) (MList m) = Some x -> exists x', get (path f) y' = Some x' /\ again html (jf_ty f) x x') /\
    (forall f, In f (v_flds V i) -> get (path f) (MList m) = None -> waits V (path f) (MList m) y') /\
    (forall q, (forall f, In f todo -> ~ left_out W i f (MList m) -> get (path f) (MList m) <> None -> apart (path f) q) ->
       peek V q y' = peek V q y /\ forall z, get q y = Some z -> get q y' = Some z).
Proof.
  induction todo as [|f todo IH]; intros fs xs l y IC ND FV FD FN PK WT; inversion FV as [|? hv ? fs' FV1 FV2]; subst.
  - cbn [filter] in FD. inversion FD; subst. inversion FN; subst. exists y. split; [constructor|]. split; [intros f []|]. split; [exact WT|]. auto.
  - cbn [filter] in FD. cbn [map] in ND. inversion ND as [|? ? ND1 ND2]; subst.
    assert (IN : In f (v_flds V i)) by (apply IC; left; reflexivity). assert (IC' : incl todo (v_flds V i)) by (intros g G; apply IC; right; exact G).
    destruct (field_cases V W n i (MList m) f hv FV1) as [EM CS]. destruct (emitted hv) eqn:EH.
    + destruct (proj1 EM eq_refl) as [NL GN]. inversion FD as [|? [[tk tx] dx] ? xs' [D1 D2] FD']; subst. inversion FN as [|[lit nd] ? l' ? (N1 & N2 & N3) FN']; subst. cbn [fst snd] in *.
      destruct (get (path f) (MList m)) as [x|] eqn:G; [|congruence].
      destruct (HF f hv x dx nd IN FV1 G D2 N2 N3) as (z & QZ & SZ).
      inversion TM as [| | | | | | | | | | | | | | | | | | | | | | |i' l0 T1 T2 T3 T4| |]; subst. destruct (T2 f x IN G) as [_ EX].
      destruct (path_store V (quoted (jf_quot f) (stores (jf_ty f))) (path f) nd (zero V (jf_ty f)) z y (PK f (or_introl eq_refl)) EX QZ) as (y1 & AP & G1).
      assert (AX : forall g, In g (v_flds V i) -> jf_name f <> jf_name g -> apart (path f) (path g)) by (intros g Ig; apply (en_apart V NM i); assumption).
      assert (AT : forall g, In g todo -> apart (path f) (path g)).
      { intros g Ig. apply AX; [apply IC', Ig|]. intros E. apply ND1. rewrite E. apply in_map, Ig. }
      assert (AS : forall g, In g todo -> apart (path g) (path f)).
      { intros g Ig. apply (en_apart V NM i); [apply IC', Ig|exact IN|]. intros E. apply ND1. rewrite <- E. apply in_map, Ig. }
      destruct (IH fs' xs' l' y1 IC' ND2 FV2 FD' FN') as (y' & M & A & B & C).
      { intros g Ig. rewrite (store_peek V _ _ _ _ _ AP _ (AT g Ig)). apply PK. right. exact Ig. }
      { intros g Ig Gg. eapply store_waits; [exact AP| |exact G|apply WT; assumption]. apply AX; [exact Ig|].
        intros E. assert (f = g) by (apply name_uniq; assumption). congruence. }
      exists y'. split.
      { econstructor; [|eapply me_field; [apply (picks_name f IN)|exact AP]|exact M]. destruct FV1 as [FE _]. rewrite FE in D1. cbn [f_name] in D1. injection D1 as _ ->. apply json_means. eapply en_utf8; eassumption. }
      split.
      { intros g [<-|Ig] NLg xg Gg.
        - rewrite G in Gg. injection Gg as <-. exists z. split; [|exact SZ]. apply (proj2 (C (path f) (fun g Ig _ _ => AS g Ig))). exact G1.
        - apply A; assumption. }
      split; [exact B|]. intros q HQ. destruct (C q) as [C1 C2]; [intros g Ig; apply HQ; right; exact Ig|].
      assert (Aq : apart (path f) q) by (apply HQ; [left; reflexivity|exact NL|congruence]). split.
      * rewrite C1. apply (store_peek V _ _ _ _ _ AP _ Aq).
      * intros z0 Gz. apply C2. eapply store_get; [exact AP|exact Aq|exact Gz].
    + destruct (IH fs' xs l y IC' ND2 FV2 FD FN) as (y' & M & A & B & C); [intros g Ig; apply PK; right; exact Ig|exact WT|].
      exists y'. split; [exact M|]. split.
      { intros g [<-|Ig] NLg xg Gg; [|apply A; assumption]. exfalso. assert (X : false = true) by (apply EM; split; [exact NLg|congruence]). discriminate. }
      split; [exact B|]. intros q HQ. apply C. intros g Ig. apply HQ. right. exact Ig.
Qed.
End Run.

(** Every value is the same as itself. *)
Lemma jv_same_refl un g v : go_tree_of un g v -> jv_same v v.
Proof.
  intros T. induction T as [un|un b|f FF|n NL|un s U|un xs vs H|un m m' N H] using go_tree_ind'; try (apply same_leaf; exact I).
  - apply same_arr. induction H as [|x y xs vs [_ A] H IH]; constructor; assumption.
  - apply same_map; intros k v IN; exists v; (split; [exact IN|]); clear N; (induction H as [|e e' m m' (_ & _ & _ & A) H IH]; [destruct IN|destruct IN as [E|IN]; [subst e'; exact A|auto]]).
Qed.
Lemma same_tree_refl a : ast_ok a -> same_tree a a.
Proof. intros H. rewrite <- (esc_ast_false a) at 2. apply esc_ast_same, H. Qed.
Lemma again_refl html n : forall t m g, view n t m = Some g -> trip t m -> again html t m m.
Proof.
  induction n as [n IHn] using lt_wf_ind. induction t; intros m0 g0 E T; pose proof E as EE; rewrite view_eq in E; inversion T; subst; try discriminate; try (apply ag_leaf; exact I).
  - apply ag_bytes0.
  - apply ag_bytes; [assumption|reflexivity].
  - apply ag_iface. match goal with H : tree_ok _ _ _ |- _ => destruct H as (GT & _) end. eapply jv_same_refl, GT.
  - apply ag_named, same_leaf. exact I.
  - apply ag_named. match goal with H : tree_ok _ _ _ |- _ => destruct H as (GT & _) end. eapply jv_same_refl, GT.
  - apply ag_raw. exact I.
  - apply ag_raw. cbn [raw_again]. exists a, a. split; [assumption|]. split; [assumption|]. split; [|reflexivity]. apply same_tree_refl. eapply jtext_ok, jvalue_jtext. eassumption.
  - destruct (opt_list _) as [xs|] eqn:EL; [|discriminate]. apply opt_list_some in EL. apply ag_array. match goal with H : Forall _ l |- _ => rename H into FT end. clear -EL FT IHt.
    induction EL as [|a b l xs P EL IH]; constructor; inversion FT; subst; eauto.
  - apply ag_slice0.
  - destruct (opt_list _) as [xs|] eqn:EL; [|discriminate]. apply opt_list_some in EL. apply ag_slice; [assumption|]. match goal with H : Forall _ (firstn len d) |- _ => rename H into FT end. clear -EL FT IHt.
    induction EL as [|a b l xs P EL IH]; constructor; inversion FT; subst; eauto.
  - apply ag_map0.
  - destruct (opt_list _) as [xs|] eqn:EL; [|discriminate]. apply opt_list_some in EL. match goal with H : Forall _ m |- _ => rename H into FT end.
    assert (X : forall a x, In (a, x) m -> again html t x x).
    { clear -EL FT IHt. intros a x IN. induction EL as [|[a0 x0] b l xs P EL IH]; [destruct IN|]. inversion FT as [|? ? [P1 P2] FT']; subst. destruct IN as [IN|IN]; [|auto].
      injection IN as -> ->. cbn [fst snd] in *. destruct (view_key W k a); [|discriminate]. destruct (view n t x) eqn:EV; [|discriminate]. eapply IHt; eassumption. }
    apply ag_map; intros a x IN; exists x; eauto.
  - apply ag_map_si. match goal with H : trip (YMap _ _) _ |- _ => inversion H; subst end; [apply ag_map0|]. match goal with H : Forall _ _ |- _ => rename H into FT end.
    rewrite Forall_forall in FT. apply ag_map; intros a x IN; exists x; (split; [exact IN|]); destruct (FT _ IN) as [_ TX]; cbn [snd] in TX; inversion TX; subst;
      apply ag_iface; match goal with H : tree_ok _ _ _ |- _ => destruct H as (GT & _) end; eapply jv_same_refl, GT.
  - apply ag_map_sr. match goal with H : trip (YMap _ _) _ |- _ => inversion H; subst end; [apply ag_map0|]. match goal with H : Forall _ _ |- _ => rename H into FT end.
    assert (X : forall a x, In (a, x) m -> again html YRaw x x).
    { rewrite Forall_forall in FT. intros a x IN. destruct (FT _ IN) as [_ TX]; cbn [snd] in TX; inversion TX; subst; apply ag_raw; [exact I|].
      exists a0, a0. split; [assumption|]. split; [assumption|]. split; [|reflexivity]. apply same_tree_refl. eapply jtext_ok, jvalue_jtext. eassumption. }
    apply ag_map; intros a x IN; exists x; eauto.
  - apply ag_ptr0.
  - destruct (view n t x) as [g|] eqn:EV; [|discriminate]. apply ag_ptr. eapply IHt; eassumption.
  - clear E. apply view_struct in EE as (n' & fs & -> & -> & FV). apply ag_struct; [|auto|auto]. intros f x IN G. exists x. split; [exact G|].
    assert (X : exists hv, field_view V W n' i (MList l) f hv).
    { clear -FV IN. induction FV as [|a b fl fs P FV IH]; [destruct IN|]. destruct IN as [->|IN]; eauto. }
    destruct X as (hv & HV). destruct (field_cases V W n' i (MList l) f hv HV) as [_ C]. rewrite G in C. destruct C as (_ & g & EV & _).
    eapply (IHn n'); [lia|exact EV|]. match goal with H : forall f x, In f _ -> _ -> trip _ _ /\ _ |- _ => apply (H f x IN G) end.
Qed.

Lemma tok_null : tok_ast (bs "null") = JNull. Proof. reflexivity. Qed.
Lemma tok_true : tok_ast (bs "true") = JTrue. Proof. reflexivity. Qed.
Lemma tok_false : tok_ast (bs "false") = JFalse. Proof. reflexivity. Qed.
Lemma b64_means s : wf s -> str_means (quote (b64 s)) (b64 s).
Proof. intros H. apply plain_means. eapply Forall_impl; [|apply (b64_bytes (length s)); auto]. unfold b64_byte. cbv beta. intros; lia. Qed.

Lemma zero_leaf t : match t with YArray _ _ | YStruct _ => True | _ => zero V t = zero_f V 0 t end.
Proof. unfold zero. destruct t; try exact I; destruct (v_depth V); reflexivity. Qed.

Lemma itoa_ok t z : ity_lo t <= z <= ity_hi t -> int_ok t (itoa z) z.
Proof.
  intros R. split; [apply itoa_text|]. split; [exact R|]. destruct (signed t) eqn:S; [left; reflexivity|right]. intros s'. apply itoa_nonneg. destruct t; cbn [signed ity_lo] in *; try discriminate; lia.
Qed.
Lemma raw_unique trust s a b : jvalue s a -> raw_text trust s b -> b = a.
Proof. intros J R. destruct trust; cbn [raw_text] in R; [eapply jtext_unique; [exact R|apply jvalue_jtext, J]|eapply jvalue_unique; eassumption]. Qed.

(** The elements of an array or slice. *)
Lemma elems_trip n e html sorted trust ind d l gs xs ns :
  (forall m g, view n e m = Some g -> fits e m -> trip e m -> forall d x, vdoc html sorted trust g x -> forall nd, jnode nd -> erase nd = dast html ind d x ->
     exists m', stores e nd (zero V e) m' /\ again html e m m') ->
  Forall2 (fun a x => view n e a = Some x) l gs -> Forall (fits e) l -> Forall (trip e) l -> Forall2 (vdoc html sorted trust) gs xs ->
  map erase ns = map (dast html ind d) xs -> Forall jnode ns ->
  exists ys, Forall2 (fun nd y => stores e nd (zero V e) y) ns ys /\ Forall2 (again html e) l ys.
Proof.
  intros IH EL. revert xs ns. induction EL as [|m g l gs P EL IHl]; intros xs ns FF FT FD E J; inversion FD as [|? x ? xs' D1 D2]; subst; cbn [map] in E; destruct ns as [|nd ns]; try discriminate.
  - exists []. split; constructor.
  - cbn [map] in E. injection E as E1 E2. inversion FF; subst. inversion FT; subst. inversion J; subst.
    destruct (IH m g P ltac:(assumption) ltac:(assumption) d x D1 nd ltac:(assumption) E1) as (y & S1 & S2).
    destruct (IHl xs' ns ltac:(assumption) ltac:(assumption) D2 E2 ltac:(assumption)) as (ys & F1 & F2). exists (y :: ys). split; constructor; assumption.
Qed.
Lemma onto_fresh e ns ys : Forall2 (fun nd y => stores e nd (zero V e) y) ns ys -> onto (stores e) (zero V e) ns [] ys.
Proof. induction 1; constructor; auto. Qed.
Lemma along_zero e ns ys : Forall2 (fun nd y => stores e nd (zero V e) y) ns ys -> along (stores e) ns (repeat (zero V e) (length ns)) ys.
Proof. induction 1; cbn [length repeat]; constructor; auto. Qed.
Lemma grows_ex n : exists c, grows 0 n c /\ (n <= c)%nat.
Proof.
  assert (G : forall k c, (n <= c + k)%nat -> (0 < c)%nat -> exists c', grows c n c' /\ (n <= c')%nat).
  { induction k as [|k IH]; intros c L P; destruct (Nat.le_gt_cases n c) as [H|H]; try (exists c; split; [constructor; exact H|exact H]).
    - lia.
    - destruct (IH (c + c)%nat) as (c' & A & B); [lia|lia|]. exists c'. split; [apply grows_more; [exact H|]|exact B]. destruct c; [lia|exact A]. }
  destruct n as [|n0]; [exists 0%nat; split; [constructor; lia|lia]|]. destruct (G (S n0) 10%nat) as (c' & A & B); [lia|lia|]. exists c'. split; [|exact B].
  apply grows_more; [lia|exact A].
Qed.
Lemma Forall2_len {A B} (R : A -> B -> Prop) l l' : Forall2 R l l' -> length l = length l'.
Proof. induction 1; cbn; congruence. Qed.

(** Messages. *)
Lemma raw_trip html sorted trust ind d x nd r : trip YRaw (MRaw r) -> vdoc html sorted trust (GRaw r) x -> jnode nd -> erase nd = dast html ind d x ->
  exists m', stores YRaw nd (MRaw None) m' /\ again html YRaw (MRaw r) m'.
Proof.
  intros T VD J E. eexists. split; [apply st_raw|apply ag_raw]. inversion VD; subst; cbn [raw_again].
  - cbn [dast] in E. rewrite tok_null in E. apply erase_null in E. rewrite E in J |- *. inversion J; subst. reflexivity.
  - rewrite dast_jdoc in E by (eapply raw_text_ok; eassumption). inversion T; subst. assert (a = a0) as -> by (eapply raw_unique; eassumption). exists a0, (esc_ast html a0).
    split; [assumption|]. split; [rewrite <- E; apply jnode_jvalue, J|]. split; [apply esc_ast_same; eapply raw_text_ok; eassumption|symmetry; apply jdoc_esc].
Qed.

(** The entries of a map. *)
Lemma key_trip k a ka html kd tx : view_key W k a = Some ka -> key_ok V W k a -> kdoc html ka kd tx -> key_means V k tx a.
Proof.
  destruct k, a; cbn [view_key key_ok]; try discriminate.
  - intros [= <-] U K. inversion K; subst. constructor. apply json_means, U.
  - intros [= <-] R K. inversion K; subst. apply (km_int V _ _ (itoa z) z []); [rewrite app_nil_r; apply json_means, number_utf8, itoa_number|constructor|apply itoa_ok, R].
  - intros E (tx' & OT & U & VT) K. rewrite OT in E. injection E as <-. inversion K; subst. eapply km_text; [apply json_means, U|exact VT].
Qed.
Lemma Forall2_flip {A B} (R : A -> B -> Prop) l l' : Forall2 R l l' -> Forall2 (fun b a => R a b) l' l.
Proof. induction 1; constructor; assumption. Qed.
Lemma entries_trip {G} (Rv : mkey * mem -> G -> Prop) (Rd : G -> tkind * bytes * doc -> Prop) k e html ind d m gs gs' xs ns s :
  NoDup (map fst m) -> Forall2 Rv m gs -> Permutation gs gs' -> Forall2 Rd gs' xs ->
  Forall2 (fun n kv => fst n = fst kv /\ erase (snd n) = snd kv) ns (map (fun e => match e with (_, t, y) => (t, dast html ind (d + 1) y) end) xs) ->
  Forall (fun kv => string_lit (fst kv) /\ jnode (snd kv)) ns ->
  (forall kv g kx nd, In kv m -> Rv kv g -> Rd g kx -> jnode nd -> erase nd = dast html ind (d + 1) (snd kx) ->
     key_means V k (snd (fst kx)) (fst kv) /\ exists x', stores e nd (zero V e) x' /\ again html e (snd kv) x') ->
  exists m', stores (YMap k e) (ND s (HObj ns)) (MMap None) m' /\ again html (YMap k e) (MMap (Some m)) m'.
Proof.
  intros ND RV P RD EM JN H. apply Forall2_flip in RV. destruct (Permutation_Forall2 P RV) as (m0 & P0 & RV0). apply Forall2_flip in RV0. cbv beta in RV0.
  destruct (map_trip html k e m m0 ns s ND P0) as (m' & A & B); [|eexists; split; [exact A|exact B]].
  assert (IC : incl m0 m) by (intros y Y; apply (Permutation_in _ (Permutation_sym P0)), Y). clear -RV0 RD EM JN H IC.
  revert xs ns RD EM JN. induction RV0 as [|kv g m0 gs' R1 RV0 IH]; intros xs ns RD EM JN; inversion RD as [|? [[tk tx] dx] ? xs' RD1 RD2]; subst; cbn [map] in EM; inversion EM as [|[lit nd] ? ns' ? [E1 E2] EM2]; subst; [constructor|].
  cbn [fst snd] in *. inversion JN as [|? ? [_ J1] J2]; subst. constructor; [|eapply IH; [|exact RD2|exact EM2|exact J2]; intros y Y; apply IC; right; exact Y]. cbn [fst snd].
  apply (H kv g (tk, tx, dx) nd); try assumption. apply IC. left. reflexivity.
Qed.

(** Only nil values are written as null. *)
Lemma esc_null html a : esc_ast html a = JNull -> a = JNull.
Proof. destruct a; cbn [esc_ast]; congruence. Qed.
Lemma tok_nonnull t : lit_token t -> tok_ast t = JNull -> t = bs "null".
Proof. intros L E. pose proof (tok_value t L) as H. rewrite E in H. inversion H. reflexivity. Qed.
Lemma iface_null html sorted trust ind d v x : tree_ok V F v -> vdoc html sorted trust (view_iface v) x -> dast html ind d x = JNull -> v = JVNull.
Proof.
  intros (GT & FL) VD E. assert (VD' : vdoc html sorted trust (tree v) x) by (destruct v; cbn [view_iface] in VD; inversion VD; subst; try assumption; constructor).
  destruct (tree_trip _ (v_float V true) _ _ GT FL html sorted trust ind d x VD') as (v' & D & S). rewrite E in D. cbn [jden] in D. injection D as <-. inversion S; subst; reflexivity.
Qed.
Lemma doc_null html sorted trust ind n t : forall m g d x, view n t m = Some g -> trip t m -> vdoc html sorted trust g x -> dast html ind d x = JNull -> null_like t m.
Proof.
  induction t; intros m0 g0 d x EV T VD E; pose proof EV as EE; rewrite view_eq in EV; inversion T; subst; try discriminate; cbn [null_like]; try exact I.
  - injection EV as <-. inversion VD; subst; cbn [dast] in E; discriminate.
  - injection EV as <-. inversion VD; subst. cbn [dast] in E. rewrite tok_ast_num in E by apply itoa_number. discriminate.
  - injection EV as <-. inversion VD; subst. cbn [dast] in E. destruct (float_text_parses (v_float V wide) f t ltac:(assumption) ltac:(assumption) ltac:(assumption)) as [NL PF].
    rewrite (tok_ast_num _ NL) in E. discriminate.
  - injection EV as <-. inversion VD; subst; cbn [dast] in E; [discriminate|]. rewrite tok_ast_num in E by assumption. discriminate.
  - injection EV as <-. inversion VD; subst. cbn [dast] in E. rewrite tok_ast_str in E by (apply json_string_lit, valid_utf8_wf; assumption). discriminate.
  - injection EV as <-. inversion VD; subst. cbn [dast] in E. rewrite tok_ast_str in E by (apply b64_string; assumption). discriminate.
  - injection EV as <-. inversion VD; subst. cbn [dast] in E. rewrite tok_ast_num in E by apply itoa_number. discriminate.
  - injection EV as <-. inversion VD; subst. cbn [dast] in E. rewrite tok_ast_str in E by (apply time_string; assumption). discriminate.
  - injection EV as <-. rewrite (iface_null html sorted trust ind d v x) by assumption. exact I.
  - injection EV as <-. rewrite (iface_null html sorted trust ind d v x) by assumption. exact I.
  - injection EV as <-. inversion VD; subst. rewrite dast_jdoc in E by (eapply raw_text_ok; eassumption). apply esc_null in E. subst a0.
    assert (JNull = a) as <- by (eapply raw_unique; eassumption). assumption.
  - destruct (opt_list _) as [gs|] eqn:EL; [|discriminate]. injection EV as <-. inversion VD; subst. discriminate.
  - destruct (opt_list _) as [gs|] eqn:EL; [|discriminate]. injection EV as <-. inversion VD; subst. discriminate.
  - destruct (opt_list _) as [gs|] eqn:EL; [|discriminate]. injection EV as <-. inversion VD; subst. discriminate.
  - match goal with H : trip (YMap _ _) _ |- _ => inversion H; subst end; [exact I|]. destruct (opt_list _) as [gs|] eqn:EL; [|discriminate]. injection EV as <-. inversion VD; subst. discriminate.
  - match goal with H : trip (YMap _ _) _ |- _ => inversion H; subst end; [exact I|]. destruct (opt_list _) as [gs|] eqn:EL; [|discriminate]. injection EV as <-. inversion VD; subst. discriminate.
  - destruct (view n t x0) as [g|] eqn:EX; [|discriminate]. injection EV as <-. inversion VD; subst. match goal with H : ~ null_like _ _ |- _ => apply H end. eapply IHt; eassumption.
  - apply view_struct in EE as (n' & fs & -> & -> & FV). inversion VD; subst; discriminate.
  - injection EV as <-. match goal with H : o_json _ _ _ = _ |- _ => rewrite H in VD end.
    assert (X : exists a', raw_text trust t a' /\ x = jdoc html a') by (inversion VD; subst; match goal with H : vdoc _ _ _ (GRaw _) _ |- _ => inversion H; subst end; eauto).
    destruct X as (a' & RT & ->). assert (a' = a) as -> by (eapply raw_unique; eassumption). rewrite dast_jdoc in E by (eapply raw_text_ok; eassumption). apply esc_null in E. congruence.
  - injection EV as <-. match goal with H : o_text _ _ _ = _ |- _ => rewrite H in VD end. inversion VD; subst. cbn [dast] in E. rewrite tok_ast_str in E by (apply json_string_lit, valid_utf8_wf; assumption). discriminate.
Qed.

(** Fields. *)
Lemma path_list (R : node -> mem -> mem -> Prop) p v x y : p <> [] -> at_path V R p v (MList x) y -> exists l, y = MList l.
Proof. intros N H. inversion H; subst; [congruence|eauto..]. Qed.
Lemma members_list i l x y : members_rel (member V F i) l (MList x) y -> exists l', y = MList l'.
Proof.
  intros H. remember (MList x) as z eqn:E. revert x E. induction H as [z|lit k v l z w u SM M H IH]; intros x ->; [eauto|].
  assert (X : exists w', w = MList w').
  { inversion M as [? ? ? ? P D E1 E2|? ? f ? ? ? P A]; subst; [eauto|]. eapply path_list; [|exact A]. apply (en_inside V NM i). inversion P; subst; [|]; match goal with H : v_flds V i = _ |- _ => rewrite H; apply in_elt end. }
  destruct X as (w' & ->). eapply IH. reflexivity.
Qed.
(** A field with option ",string". *)
Lemma quot_trip n q t m g html sorted trust ind d y nd : ind_all ws ind -> q <> QNo -> quotable t -> quot_ok t -> view n t m = Some g -> trip t m -> vdoc html sorted trust (view_quot q g) y ->
  erase nd = dast html ind d y ->
  (forall x, vdoc html sorted trust g x -> forall nd, jnode nd -> erase nd = dast html ind d x -> exists m', stores t nd (zero V t) m' /\ again html t m m') ->
  exists z, quoted q (stores t) nd (zero V t) z /\ again html t m z.
Proof.
  intros IW Q QT QO EG T D E H. assert (X : exists x, y = DQuote x /\ vdoc html sorted trust g x) by (destruct q; [congruence| |]; cbn [view_quot] in D; inversion D; eauto).
  destruct X as (x & -> & VX). cbn [dast] in E. destruct (quot_text n t m g x html sorted trust QT QO EG T VX) as (k & tx & -> & U).
  pose proof (vdoc_ok html sorted trust g false _ (view_clean V W F NM sorted trust n t m g EG T) VX) as DO.
  pose proof (render_jvalue html ind IW _ DO d) as RJ. apply jvalue_node in RJ as (v & E1 & E2 & JV). cbn [render paint] in E1, E.
  destruct (H _ VX v JV E2) as (z & S1 & S2). exists z. split; [|exact S2]. eapply quot_stores; [exact Q|exact E|exact U|exact DO|exact JV|exact E1|exact S1].
Qed.

Theorem view_trip html sorted trust ind (IW : ind_all ws ind) n : forall t m g, view n t m = Some g -> fits t m -> trip t m -> forall d x, vdoc html sorted trust g x ->
  forall nd, jnode nd -> erase nd = dast html ind d x -> exists m', stores t nd (zero V t) m' /\ again html t m m'.
Proof.
  induction n as [n IHn] using lt_wf_ind. induction t; intros m0 g0 EV FT T d x VD nd J E; pose proof EV as EE; pose proof T as TT; rewrite view_eq in EV; inversion T; subst; try discriminate;
    match goal with |- exists m', stores ?t _ _ _ /\ _ => pose proof (zero_leaf t) as Z; cbn [zero_f] in Z end.
  - injection EV as <-. rewrite Z. inversion VD; subst; cbn [dast] in E; [rewrite tok_true in E; apply erase_true in E|rewrite tok_false in E; apply erase_false in E]; rewrite E; eexists; (split; [constructor|apply ag_leaf; exact I]).
  - injection EV as <-. rewrite Z. inversion VD; subst. cbn [dast] in E. rewrite tok_ast_num in E by apply itoa_number. apply erase_num in E. subst nd.
    eexists. split; [apply st_int, itoa_ok; assumption|apply ag_leaf; exact I].
  - injection EV as <-. rewrite Z. inversion VD; subst. cbn [dast] in E. destruct (float_text_parses (v_float V wide) f t ltac:(assumption) ltac:(assumption) ltac:(assumption)) as [NL PF].
    rewrite (tok_ast_num _ NL) in E. apply erase_num in E. subst nd. eexists. split; [apply st_float; exact PF|apply ag_leaf; exact I].
  - injection EV as <-. rewrite Z. inversion VD; subst; [exfalso; match goal with H : number_lit [] |- _ => destruct (number_head _ H) as (c & r & H' & _); discriminate end|].
    cbn [dast] in E. rewrite tok_ast_num in E by assumption. apply erase_num in E. subst nd. eexists. split; [apply st_number|apply ag_leaf; exact I].
  - injection EV as <-. rewrite Z. inversion VD; subst. cbn [dast] in E. rewrite tok_ast_str in E by (apply json_string_lit, valid_utf8_wf; assumption). apply erase_str in E. subst nd.
    eexists. split; [apply st_string, json_means; assumption|apply ag_leaf; exact I].
  - injection EV as <-. rewrite Z. inversion VD; subst. cbn [dast] in E. rewrite tok_null in E. apply erase_null in E. rewrite E.
    eexists. split; [apply st_bytes_arr; apply sr_null|apply ag_bytes0].
  - injection EV as <-. rewrite Z. inversion VD; subst. cbn [dast] in E. rewrite tok_ast_str in E by (apply b64_string; assumption). apply erase_str in E. subst nd.
    eexists. split; [eapply st_bytes; [apply b64_means; assumption|eassumption]|]. rewrite firstn_length_le by assumption. apply ag_bytes; [rewrite firstn_length_le by assumption; lia|].
    rewrite firstn_firstn, Nat.min_id. reflexivity.
  - injection EV as <-. rewrite Z. inversion VD; subst. cbn [dast] in E. rewrite tok_ast_num in E by apply itoa_number. apply erase_num in E. subst nd.
    eexists. split; [apply st_dur_num, itoa_ok; assumption|apply ag_leaf; exact I].
  - injection EV as <-. rewrite Z. inversion VD; subst. cbn [dast] in E. rewrite tok_ast_str in E by (apply time_string; assumption). apply erase_str in E. subst nd.
    eexists. split; [apply st_time; eassumption|apply ag_leaf; exact I].
  - injection EV as <-. rewrite Z. destruct (iface_trip html sorted trust ind d v x nd ltac:(assumption) VD J E) as (v' & A & B). exists (MIface v'). split; [apply st_iface, A|apply ag_iface, B].
  - injection EV as <-. rewrite Z. inversion VD; subst. cbn [dast] in E. rewrite tok_null in E. apply erase_null in E. rewrite E. eexists. split; [apply st_named_null|apply ag_named, same_leaf; exact I].
  - injection EV as <-. rewrite Z. destruct (iface_trip html sorted trust ind d v x nd ltac:(assumption) VD J E) as (v' & A & B). exists (MIface v'). split; [|apply ag_named, B].
    destruct (nshape nd) eqn:SH; try (apply st_named; [congruence|exact A]). rewrite (node_eta nd), SH in A |- *. cbn [erase] in A. inversion A; subst. apply st_named_null.
  - injection EV as <-. rewrite Z. eapply raw_trip; eassumption.
  - injection EV as <-. rewrite Z. eapply raw_trip; eassumption.
  - clear Z. destruct (opt_list _) as [gs|] eqn:EL; [|discriminate]. injection EV as <-. apply opt_list_some in EL. inversion VD; subst. cbn [dast] in E.
    destruct (erase_arr _ _ J E) as (s & ns & -> & EM & JN). rewrite zero_array. inversion FT; subst.
    destruct (elems_trip n t html sorted trust ind (d + 1) l gs xs ns) as (ys & F1 & F2); try assumption.
    exists (MList ys). split; [|apply ag_array, F2]. assert (LN : length ns = length l) by (apply Forall2_len in F1; apply Forall2_len in F2; congruence).
    apply st_array; [rewrite repeat_length; reflexivity|]. apply ar_arr; [intros ->; cbn [length] in LN; rewrite <- LN; reflexivity|]. rewrite <- LN. apply along_zero, F1.
  - injection EV as <-. rewrite Z. inversion VD; subst. cbn [dast] in E. rewrite tok_null in E. apply erase_null in E. rewrite E. eexists. split; [apply st_slice, sr_null|apply ag_slice0].
  - rewrite Z. destruct (opt_list _) as [gs|] eqn:EL; [|discriminate]. injection EV as <-. apply opt_list_some in EL. inversion VD; subst. cbn [dast] in E.
    destruct (erase_arr _ _ J E) as (s & ns & -> & EM & JN). inversion FT; subst.
    destruct (elems_trip n t html sorted trust ind (d + 1) (firstn len d0) gs xs ns) as (ys & F1 & F2); try assumption.
    { apply Forall_forall. intros y Y. match goal with H : Forall _ d0 |- _ => rewrite Forall_forall in H; apply H end. rewrite <- (firstn_skipn len d0); apply in_or_app; left; exact Y. }
    destruct (grows_ex (length ns)) as (c & GR & GL).
    assert (LN : length ns = len) by (apply Forall2_len in F1; apply Forall2_len in F2; rewrite firstn_length_le in F2 by assumption; congruence).
    assert (LY : length ys = len) by (apply Forall2_len in F1; congruence).
    eexists. split; [apply st_slice; apply (sr_arr _ _ _ _ None ys c); [apply onto_fresh, F1|exact GR]|]. rewrite LN. cbn [backing]. apply ag_slice; [rewrite app_length; lia|].
    rewrite firstn_app, LY, Nat.sub_diag, firstn_O, app_nil_r, (firstn_all2 ys) by lia. exact F2.
  - injection EV as <-. rewrite Z. inversion VD; subst. cbn [dast] in E. rewrite tok_null in E. apply erase_null in E. rewrite E. eexists. split; [apply st_map, mr_null|apply ag_map0].
  - rewrite Z. destruct (opt_list _) as [gs|] eqn:EL; [|discriminate]. injection EV as <-. apply opt_list_some in EL.
    assert (X : exists gm' xs, x = DObj ONormal xs /\ Permutation gs gm' /\
      Forall2 (fun e x => kdoc html (fst e) (fst (fst x)) (snd (fst x)) /\ vdoc html sorted trust (snd e) (snd x)) gm' xs).
    { inversion VD; subst. eexists _, _. split; [reflexivity|]. split; [eapply in_order_perm; eassumption|eassumption]. }
    destruct X as (gm' & xs & -> & PM & FD). cbn [dast] in E. destruct (erase_obj _ _ J E) as (s & ns & -> & EM & JN). inversion FT; subst.
    match goal with H : Forall (fun kv => key_ok _ _ _ _ /\ _) _ |- _ => rename H into FK end.
    eapply entries_trip; [eassumption|exact EL|exact PM|exact FD|exact EM|exact JN|]. intros [a y] [ka g] [[tk tx] dx] nd IN RV [RD1 RD2] JD ED. cbn [fst snd] in *.
    destruct (view_key W k a) as [ka'|] eqn:EK; [|discriminate]. destruct (view n t y) as [g'|] eqn:EY; [|discriminate]. injection RV as -> ->.
    rewrite Forall_forall in FK. destruct (FK _ IN) as [KO TY]. match goal with H : Forall (fun kv => key_fits _ _ /\ _) _ |- _ => rewrite Forall_forall in H; destruct (H _ IN) as [_ FY] end.
    cbn [fst snd] in *. split; [eapply key_trip; eassumption|]. eapply IHt; eassumption.
  - match goal with H : trip (YMap _ _) _ |- _ => inversion H; subst end.
    + injection EV as <-. rewrite Z. inversion VD; subst. cbn [dast] in E. rewrite tok_null in E. apply erase_null in E. rewrite E. eexists. split; [apply st_map_si, st_map, mr_null|apply ag_map_si, ag_map0].
    + rewrite Z. destruct (opt_list _) as [gs|] eqn:EL; [|discriminate]. injection EV as <-. apply opt_list_some in EL.
      match goal with H : Forall (fun kv => key_ok _ _ _ _ /\ _) _ |- _ => rename H into FK end. rewrite Forall_forall in FK.
      assert (X : exists gm' xs, x = DObj ONormal xs /\ Permutation gs gm' /\
        Forall2 (fun e x => fst x = (TKey, json_string html (fst e)) /\ vdoc html sorted trust (snd e) (snd x)) gm' xs).
      { inversion VD; subst. eexists _, _. split; [reflexivity|]. split; [eapply in_order_perm; eassumption|eassumption]. }
      destruct X as (gm' & xs & -> & PM & FD). cbn [dast] in E. destruct (erase_obj _ _ J E) as (s & ns & -> & EM & JN).
      edestruct (@entries_trip (bytes * gval)) with (k := KYString) (e := YIface) as (m' & A & B); [eassumption|exact EL|exact PM|exact FD|exact EM|exact JN| |exists m'; split; [apply st_map_si; exact A|apply ag_map_si; exact B]].
      intros [a y] [ka g] [[tk tx] dx] nd IN RV [RD1 RD2] JD ED. cbn [fst snd] in *. injection RD1 as _ ->. destruct (FK _ IN) as [KO TY]. cbn [fst snd] in *.
      destruct a; try discriminate. destruct y; try discriminate. injection RV as -> <-. split; [apply km_str, json_means, KO|]. inversion TY; subst.
      destruct (iface_trip html sorted trust ind (d + 1) v dx nd ltac:(assumption)) as (v' & A & B); try assumption; [destruct v; cbn [view_iface tree] in *; try assumption; try (constructor; assumption); inversion RD2; subst; constructor|].
      exists (MIface v'). split; [rewrite (zero_leaf YIface); apply st_iface, A|apply ag_iface, B].
  - match goal with H : trip (YMap _ _) _ |- _ => inversion H; subst end.
    + injection EV as <-. rewrite Z. inversion VD; subst. cbn [dast] in E. rewrite tok_null in E. apply erase_null in E. rewrite E. eexists. split; [apply st_map_sr, st_map, mr_null|apply ag_map_sr, ag_map0].
    + rewrite Z. destruct (opt_list _) as [gs|] eqn:EL; [|discriminate]. injection EV as <-. apply opt_list_some in EL.
      match goal with H : Forall (fun kv => key_ok _ _ _ _ /\ _) _ |- _ => rename H into FK end. rewrite Forall_forall in FK.
      assert (X : exists gm' xs, x = DObj ONormal xs /\ Permutation gs gm' /\
        Forall2 (fun e x => fst x = (TKey, json_string html (fst e)) /\ vdoc html sorted trust (GRaw (snd e)) (snd x)) gm' xs).
      { inversion VD; subst. eexists _, _. split; [reflexivity|]. split; [eapply in_order_perm; eassumption|eassumption]. }
      destruct X as (gm' & xs & -> & PM & FD). cbn [dast] in E. destruct (erase_obj _ _ J E) as (s & ns & -> & EM & JN).
      edestruct (@entries_trip (bytes * option bytes)) with (k := KYString) (e := YRaw) as (m' & A & B); [eassumption|exact EL|exact PM|exact FD|exact EM|exact JN| |exists m'; split; [apply st_map_sr; exact A|apply ag_map_sr; exact B]].
      intros [a y] [ka g] [[tk tx] dx] nd IN RV [RD1 RD2] JD ED. cbn [fst snd] in *. injection RD1 as _ ->. destruct (FK _ IN) as [KO TY]. cbn [fst snd] in *.
      destruct a; try discriminate. destruct y; try discriminate. injection RV as -> ->. split; [apply km_str, json_means, KO|]. rewrite (zero_leaf YRaw). eapply raw_trip; eassumption.
  - injection EV as <-. rewrite Z. inversion VD; subst. cbn [dast] in E. rewrite tok_null in E. apply erase_null in E. rewrite E. eexists. split; [apply st_ptr_null; exact I|apply ag_ptr0].
  - destruct (view n t x0) as [g|] eqn:EX; [|discriminate]. injection EV as <-. rewrite Z. inversion VD; subst. inversion FT; subst.
    destruct (IHt x0 g EX ltac:(assumption) ltac:(assumption) d x ltac:(assumption) nd J E) as (y & A & B). exists (MPtr (Some y)). split; [|apply ag_ptr, B].
    apply st_ptr; [|exact A]. intros SH. rewrite (node_eta nd), SH in E. symmetry in E. match goal with H : ~ null_like _ _ |- _ => apply H end. eapply doc_null; eassumption.
  - clear EV Z. apply view_struct in EE as (n' & fs & -> & -> & FV).
    assert (X : exists q xs, x = DObj q xs /\ Forall2 (doc_of html sorted trust) (filter emitted fs) xs).
    { inversion VD; subst; eexists _, _; (split; [reflexivity|]); [constructor|assumption]. }
    destruct X as (q & xs & -> & FD). cbn [dast] in E. destruct (erase_obj _ _ J E) as (s & ns & -> & EM & JN). pose proof (zero_struct V ET i) as ZS. rewrite ZS.
    destruct (run n' i l html sorted trust ind d T) with (todo := v_flds V i) (fs := fs) (xs := xs) (l := ns) (y := zero V (YStruct i)) as (y' & M & A & B & C).
    { intros f hv y kx nd IN HV G D JD ED. destruct (field_cases V W n' i (MList l) f hv HV) as [_ FC]. rewrite G in FC. destruct FC as (_ & g & EG & WR).
      apply (wraps_doc html sorted trust _ _ kx WR) in D. match goal with H : forall f x, In f _ -> _ -> trip _ _ /\ _ |- _ => destruct (H f y IN G) as [TY _] end.
      assert (FY : fits (jf_ty f) y) by (eapply get_fits; [apply (et_path V ET i f IN)|exact FT|exact G]).
      destruct (jf_quot f) eqn:QF.
      - cbn [view_quot] in D. destruct (IHn n' ltac:(lia) _ _ _ EG FY TY _ _ D nd JD ED) as (z & S1 & S2). exists z. split; [apply qu_no; [reflexivity|exact S1]|exact S2].
      - eapply quot_trip; try eassumption; [discriminate|eapply (ok_quot V OK); [exact IN|congruence]| |intros; eapply (IHn n'); [lia|eassumption..]].
        match goal with H : forall f, In f _ -> jf_quot f <> QNo -> _ |- _ => apply (H f IN); congruence end.
      - eapply quot_trip; try eassumption; [discriminate|eapply (ok_quot V OK); [exact IN|congruence]| |intros; eapply (IHn n'); [lia|eassumption..]].
        match goal with H : forall f, In f _ -> jf_quot f <> QNo -> _ |- _ => apply (H f IN); congruence end. }
    { intros f IN. exact IN. }
    { apply (en_names V NM). }
    { exact FV. }
    { exact FD. }
    { clear -EM JN. revert xs EM. induction ns as [|[lit nd] ns IH]; intros xs EM; destruct xs as [|[[tk tx] dx] xs]; cbn [map] in EM; inversion EM as [|? ? ? ? [E1 E2] EM2]; subst; constructor.
      - inversion JN as [|? ? [_ J1] _]; subst. split; [exact E1|]. split; [exact J1|exact E2].
      - inversion JN; subst. apply IH; assumption. }
    { intros f IN. apply (peek_zero V ET). apply (et_path V ET i f IN). }
    { intros f IN G. eapply (waits_zero V ET); [apply (et_path V ET i f IN)|exact FT|exact G]. }
    rewrite ZS in M. destruct (members_list _ _ _ _ M) as (l' & ->). exists (MList l'). split; [apply st_struct, str_obj; exact M|].
    assert (PX : forall f y, In f (v_flds V i) -> get (jf_path f) (MList l) = Some y ->
      exists x', get (jf_path f) (MList l') = Some x' /\ again html (jf_ty f) y x' /\ (left_out W i f (MList l) -> x' = y)).
    { intros f y IN G. destruct (o_omit W i f && field_empty W i f (MList l)) eqn:LO.
      - apply andb_true_iff in LO. change (left_out W i f (MList l)) in LO. match goal with H : forall f, In f _ -> left_out _ _ _ _ -> _ |- _ => destruct (H f IN LO) as [DR GZ] end.
        rewrite G in GZ. injection GZ as ->. exists (zero V (jf_ty f)). split; [|split; [|reflexivity]].
        + rewrite <- (direct_peek V _ DR). destruct (C (jf_path f)) as [-> _]; [|apply (peek_zero V ET), (et_path V ET i f IN)].
          intros h IH NL _. apply (en_apart V NM i); try assumption. intros EN. assert (h = f) as -> by (eapply (name_uniq i); eassumption). contradiction.
        + assert (X : exists hv, field_view V W n' i (MList l) f hv) by (clear -FV IN; induction FV; [destruct IN|destruct IN as [->|IN]; eauto]).
          destruct X as (hv & HV). destruct (field_cases V W n' i (MList l) f hv HV) as [_ FC]. rewrite G in FC. destruct FC as (_ & g & EG & _). eapply again_refl; [exact EG|].
          match goal with H : forall f x, In f _ -> _ -> trip _ _ /\ _ |- _ => apply (H f _ IN G) end.
      - assert (NL : ~ left_out W i f (MList l)) by (intros [L1 L2]; rewrite L1, L2 in LO; discriminate). destruct (A f IN NL y G) as (x' & G' & SX). exists x'. tauto. }
    apply ag_struct.
    + intros f y IN G. destruct (PX f y IN G) as (x' & G' & SX & _). eauto.
    + intros f IN G. apply (waits_get V _ _ _ (B f IN G)).
    + intros f IN O DI. assert (LL : left_out W i f (MList l) <-> field_empty W i f (MList l) = true) by (unfold left_out; tauto). unfold field_empty in *. rewrite DI, !test_get_eq in * by exact DI.
      destruct (get (jf_path f) (MList l)) as [y|] eqn:G; [|rewrite (waits_get V _ _ _ (B f IN G)); reflexivity].
      destruct (PX f y IN G) as (x' & -> & SX & LO). destruct (is_empty W (jf_ty f) y) eqn:EY; [rewrite LO by (apply LL; reflexivity); congruence|symmetry; eapply kept; eassumption].
  - injection EV as <-. rewrite Z. match goal with H : o_json _ _ _ = _ |- _ => rewrite H in VD end.
    assert (X : exists a', raw_text trust t a' /\ x = jdoc html a') by (inversion VD; subst; match goal with H : vdoc _ _ _ (GRaw _) _ |- _ => inversion H; subst end; eauto).
    destruct X as (a' & RT & ->). assert (a' = a) as -> by (eapply raw_unique; eassumption). rewrite dast_jdoc in E by (eapply raw_text_ok; eassumption).
    eexists. split; [apply st_json|apply ag_leaf; exact I].
    + intros SH. rewrite (node_eta nd), SH in E. cbn [erase] in E. symmetry in E. apply esc_null in E. congruence.
    + match goal with H : forall t' a', jvalue t' a' -> _ |- _ => apply (H _ (erase nd)) end; [apply jnode_jvalue, J|]. rewrite E. apply esc_ast_same. eapply raw_text_ok. eassumption.
  - injection EV as <-. rewrite Z. match goal with H : o_text _ _ _ = _ |- _ => rewrite H in VD end. inversion VD; subst. cbn [dast] in E. rewrite tok_ast_str in E by (apply json_string_lit, valid_utf8_wf; assumption).
    apply erase_str in E. subst nd. eexists. split; [eapply st_text; [apply json_means; assumption|eassumption]|apply ag_leaf; exact I].
Qed.
End Trip.
