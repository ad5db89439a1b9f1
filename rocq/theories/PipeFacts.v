(** Values through an Encoder and a Decoder. *)
From Coq Require Import Permutation Sorted.
From Verif Require Import Bytes Utf8Model ParseModel StringModel IntModel EncModel EncoderModel DecModel StreamModel SpecJson SpecString SpecRender SpecEnc SpecEncoder SpecColor SpecDec SpecTrip SpecStream SpecPipe
  ParseFacts Utf8Facts StringFacts IntFacts EncFacts EncMain ColorFacts TextFacts DocFacts RawText DecFacts TripFacts StreamFacts ExactFloat PropsEnc PropsDec.

(** * Literals *)
Inductive even_esc : bytes -> Prop :=
| ee_nil : even_esc []
| ee_char c s : c <> 92 -> even_esc s -> even_esc (c :: s)
| ee_esc c s : c <> 117 -> even_esc s -> c <> 92 -> even_esc (92 :: c :: s).
Lemma even_app a b : even_esc a -> even_esc b -> even_esc (a ++ b).
Proof. intros A B. induction A; cbn [app]; [exact B|apply ee_char; assumption|apply ee_esc; assumption]. Qed.
Lemma even_none s : even_esc s -> forall a b, s <> a ++ [92; 117] ++ b.
Proof.
  induction 1 as [|c s N H IH|c s N H IH N2]; intros a b E.
  - destruct a; discriminate.
  - destruct a as [|x a]; [injection E as -> _; congruence|]. injection E as -> E. exact (IH a b E).
  - destruct a as [|x a]; [injection E as -> _; congruence|]. injection E as <- E.
    destruct a as [|y a]; [injection E as -> _; congruence|]. injection E as -> E. exact (IH a b E).
Qed.
Lemma seq_bytes r e : utf8_seq r e -> Forall (fun c => c = r \/ 0x80 <= c) e.
Proof. intros H. inversion H; subst; repeat (apply Forall_cons; [first [left; reflexivity|right; lia]|]); apply Forall_nil. Qed.
Lemma hex_char_digit n : 0 <= n < 16 -> hex_digit (hex_char n).
Proof. intros H. apply hex_char_hex1 in H. eapply hex1_digit, H. Qed.
Lemma enc_no34 html s out l : enc_rel html s out l -> wf s -> ~ In 34 s -> ~ In 34 out.
Proof.
  induction 1 as [|r e x s out l U X R IH|c s out l N R IH]; intros W H; [auto| |].
  - apply wf_app_iff in W as [We W]. rewrite in_app_iff in *. intros [I|I]; [|apply IH; tauto].
    assert (HE : ~ In 34 e) by tauto. clear IH H R. inversion X as [r' e' U' L N1 N2 HT N3 N4 Er|c v Ic SE|r' HR Er|r' HR Er]; subst.
    + pose proof (seq_bytes _ _ U') as B. rewrite Forall_forall in B. apply B in I. lia.
    + destruct I as [I|[I|[]]]; [lia|]. subst c. inversion SE; subst. apply HE. inversion U; subst; cbn; auto; lia.
    + assert (0 <= r < 256) by (destruct HR as [?|HR]; [lia|]; unfold is_html in HR; rewrite !orb_true_iff, !Z.eqb_eq in HR; lia).
      unfold u00 in I. pose proof (hex_char_digit (r / 16) ltac:(split; [apply Z.div_pos; lia|apply Z.div_lt_upper_bound; lia])) as D1.
      pose proof (hex_char_digit (r mod 16) (Z.mod_pos_bound r 16 ltac:(lia))) as D2. unfold hex_digit in *. cbn [In] in I. lia.
    + unfold u202 in I. pose proof (hex_char_digit (r mod 16) (Z.mod_pos_bound r 16 ltac:(lia))) as D2. unfold hex_digit in *. cbn [In] in I. lia.
  - inversion W; subst. unfold ufffd. rewrite in_app_iff. cbn [In] in *. intros [I|I]; [lia|]. apply IH; tauto.
Qed.
Lemma enc_even html s out l : enc_rel html s out l -> valid_utf8 s -> Forall (fun c => 32 <= c /\ ~ In c [92; 60; 62; 38; 226]) s -> even_esc out.
Proof.
  intros R [lv U]. revert lv U. induction R as [|r e x s out l U X R IH|c s out l N R IH]; intros lv UV H; [constructor| |].
  - apply Forall_app in H as [HE H]. apply even_app.
    + clear IH R. inversion X as [r' e' U' L N1 N2 HT N3 N4 Er|c v Ic SE|r' HR Er|r' HR Er]; subst.
      * pose proof (seq_bytes _ _ U') as B. clear - B N2. induction B as [|c t B1 B IH]; constructor; [|exact IH]. lia.
      * cbn [In] in Ic. apply ee_esc; [lia|constructor|]. intros ->. inversion SE; subst. inversion U; subst; try lia. inversion HE as [|? ? [_ K] ?]; subst. apply K. cbn. auto.
      * exfalso. assert (0 <= r < 0x80) by (destruct HR as [?|HR]; [lia|]; unfold is_html in HR; rewrite !orb_true_iff, !Z.eqb_eq in HR; lia).
        inversion U; subst; try lia. inversion HE as [|? ? [K1 K2] ?]; subst. cbn [In] in K2. unfold is_html in HR. rewrite !orb_true_iff, !Z.eqb_eq in HR. lia.
      * exfalso. assert (HEAD : exists t, e = 226 :: t).
        { inversion U; subst; try lia. eexists. f_equal. lia. }
        destruct HEAD as [t ->]. inversion HE as [|? ? [_ K] ?]; subst. apply K. cbn. auto 8.
    + assert (exists lv', utf8 lv' s) as [lv' U']; [|eauto]. remember (e ++ s) as es eqn:Q. destruct UV as [|r2 l2 e2 s2 U2 UV2].
      * destruct U; discriminate.
      * destruct (utf8_seq_prefix _ _ _ _ _ _ U2 U Q) as (_ & _ & ->). eauto.
  - exfalso. remember (c :: s) as es eqn:Q. destruct UV as [|r2 l2 e2 s2 U2 UV2]; [discriminate|]. exact (N r2 e2 s2 U2 eq_refl).
Qed.
Lemma calm_resumable html s : valid_utf8 s -> calm_text s -> resumable (json_string html s).
Proof.
  intros V C l1 l2 l3 E. destruct (do_encode_string_ok html s (valid_utf8_wf s V)) as (out & l & R & D). unfold json_string in E. rewrite D in E. cbn [app] in E.
  destruct C as [C|C].
  - pose proof (enc_no34 _ _ _ _ R (valid_utf8_wf s V) C) as N. destruct l1 as [|x l1]; [discriminate|]. injection E as <- E.
    assert (K : exists t, out ++ [34] = (l1 ++ [92; 34]) ++ t ++ [92; 117] ++ l3). { exists l2. rewrite E, <- !app_assoc. reflexivity. }
    destruct K as [t K]. clear E. assert (In 34 (removelast (out ++ [34]))).
    { rewrite K. rewrite removelast_app; [apply in_app_iff; left; apply in_app_iff; right; cbn; auto|]. destruct t; discriminate. }
    rewrite removelast_last in H. exact (N H).
  - assert (V2 : even_esc (34 :: out ++ [34])).
    { apply ee_char; [lia|]. apply even_app; [eapply enc_even; eassumption|]. apply ee_char; [lia|constructor]. }
    apply (even_none _ V2 (l1 ++ [92; 34] ++ l2) l3). rewrite E, <- !app_assoc. reflexivity.
Qed.
Lemma Forall2_in_r {A B} (P : A -> B -> Prop) l l' b : Forall2 P l l' -> In b l' -> exists a, In a l /\ P a b.
Proof. induction 1 as [|x y l l' H F IH]; [intros []|]. intros [->|I]; [exists x; split; [left; reflexivity|exact H]|]. destruct (IH I) as (a & I2 & H2). exists a. split; [right; exact I2|exact H2]. Qed.
(** * Trees *)
Lemma tree_lits html sorted trust ind un g v : go_tree_of un g v -> forall d x, vdoc html sorted trust g x ->
  forall lit, lit_in lit (dast html ind d x) -> exists s, text_in s v /\ valid_utf8 s /\ lit = json_string html s.
Proof.
  induction 1 as [un|un b|f F|n NL|un s V|un xs vs F|un m m' N F] using go_tree_ind'; intros d x VD lit L.
  - inversion VD; subst. inversion L.
  - inversion VD; subst; inversion L.
  - inversion VD; subst. cbn [dast] in L.
    match goal with E : encode_float _ _ = _ |- _ => pose proof (proj1 (float_text_parses exact f _ F (exact_parses f F) E)) as NL end.
    rewrite (tok_ast_num _ NL) in L. inversion L.
  - inversion VD; subst; [destruct (number_head _ NL) as (c & r & H' & _); discriminate|]. cbn [dast] in L. rewrite (tok_ast_num _ NL) in L. inversion L.
  - inversion VD; subst. cbn [dast] in L. rewrite tok_ast_str in L by (apply json_string_lit, valid_utf8_wf, V). inversion L; subst. exists s. repeat split; [constructor|exact V].
  - assert (X : exists xs', x = DArr xs' /\ Forall2 (vdoc html sorted trust) (map iface_of xs) xs') by (inversion VD; eauto).
    destruct X as (ys & -> & G). cbn [dast] in L. inversion L as [|l a Ia La| |]; subst. apply in_map_iff in Ia as (y & <- & Iy). clear VD L.
    revert ys G Iy. induction F as [|g v xs vs [T IH] F IHF]; intros ys G Iy; inversion G as [|? y' ? ys' Gy G']; subst; [destruct Iy|].
    destruct Iy as [->|Iy].
    + assert (Vd : vdoc html sorted trust g y). { destruct g; cbn [iface_of] in Gy; inversion Gy; subst; try assumption. constructor. }
      destruct (IH _ _ Vd _ La) as (s & S1 & S2). exists s. split; [eapply ti_arr; [left; reflexivity|exact S1]|exact S2].
    + destruct (IHF ys' G' Iy) as (s & S1 & S2). exists s. split; [|exact S2]. inversion S1; subst. eapply ti_arr; [right; eassumption|assumption].
  - assert (X : exists m0 xs', x = DObj ONormal xs' /\ Permutation m m0 /\
      Forall2 (fun e x => fst x = (TKey, json_string html (fst e)) /\ vdoc html sorted trust (snd e) (snd x)) m0 xs').
    { inversion VD; subst. do 2 eexists. split; [reflexivity|]. split; [eapply in_order_perm; eassumption|eassumption]. }
    destruct X as (m0 & ys & -> & PM & G). cbn [dast] in L. clear VD N.
    assert (X : forall y, In y ys -> exists e, In e m /\ fst y = (TKey, json_string html (fst e)) /\ vdoc html sorted trust (snd e) (snd y)).
    { intros y Iy. destruct (Forall2_in_r _ _ _ _ G Iy) as (e & Ie & H). exists e. split; [|exact H]. eapply Permutation_in; [apply Permutation_sym, PM|exact Ie]. }
    assert (FM : forall e, In e m -> exists e', In e' m' /\ fst e = fst e' /\ valid_utf8 (fst e) /\ forall d x, vdoc html sorted trust (snd e) x ->
      forall lit, lit_in lit (dast html ind d x) -> exists s, text_in s (snd e') /\ valid_utf8 s /\ lit = json_string html s).
    { intros e Ie. clear - F Ie. induction F as [|e1 e' m m' (E1 & E2 & E3 & E4) F IH]; [destruct Ie|]. destruct Ie as [->|Ie].
      - exists e'. split; [left; reflexivity|]. auto.
      - destruct (IH Ie) as (e2 & I2 & H). exists e2. split; [right; exact I2|exact H]. }
    inversion L as [| |l a Ia|l k a Ia La]; subst; apply in_map_iff in Ia as ([[tk t] y] & E & Iy); injection E as <- <-;
      destruct (X _ Iy) as (e & Ie & Ek & Vy); cbn [fst snd] in Ek, Vy; injection Ek as -> ->; destruct (FM e Ie) as ([k' v'] & I' & K & U & H); cbn [fst snd] in K, H; subst k'.
    + exists (fst e). split; [eapply ti_key; exact I'|]. auto.
    + destruct (H _ _ Vy _ La) as (s & S1 & S2). exists s. split; [eapply ti_map; eassumption|exact S2].
Qed.
(** * Histories *)
Definition quiet_enc (e : encoder) : Prop := en_err e = None /\ en_depth e = 0 /\ en_clrs e = None /\ ind_all ws (en_ind e).
Lemma pipe_run std (P : gval -> bytes -> Prop) ops : Forall plain_op ops ->
  Forall (fun g => forall c, e_clrs c = None -> ind_all ws (e_ind c) -> exists o, enc c g [] 0 = ER o 0 None /\ P g o) (encoded ops) ->
  forall e log, quiet_enc e -> exists rs e' outs, run std ops e (World [] log) = Some (rs, e', World [] (log ++ map (fun o => o ++ [10]) outs)) /\
    Forall (fun r => r = None) rs /\ Forall2 P (encoded ops) outs.
Proof.
  intros PL. induction PL as [|o ops Po PL IH]; intros H e log Q.
  - exists [], e, []. cbn. rewrite app_nil_r. repeat split; constructor.
  - assert (S : forall e1, quiet_enc e1 -> encoded (o :: ops) = encoded ops -> step std o e (World [] log) = Some (None, e1, World [] log) ->
      exists rs e' outs, run std (o :: ops) e (World [] log) = Some (rs, e', World [] (log ++ map (fun o => o ++ [10]) outs)) /\
      Forall (fun r => r = None) rs /\ Forall2 P (encoded (o :: ops)) outs).
    { intros e1 Q1 E S. rewrite E in *. destruct (IH H e1 log Q1) as (rs & e' & outs & R & N & F). exists (None :: rs), e', outs. cbn [run]. rewrite S, R. repeat split; [constructor; auto|exact F]. }
    destruct Q as (Q1 & Q2 & Q3 & Q4). destruct o as [k|p i|on|on|on|v]; cbn [plain_op] in Po.
    + eapply S; [|reflexivity|reflexivity]. subst k. repeat split; assumption.
    + eapply S; [|reflexivity|reflexivity]. repeat split; try assumption; destruct Po; assumption.
    + eapply S; [|reflexivity|reflexivity]. repeat split; assumption.
    + eapply S; [|reflexivity|reflexivity]. repeat split; assumption.
    + eapply S; [|reflexivity|reflexivity]. repeat split; assumption.
    + cbn [encoded] in *. inversion H as [|? ? Hv H']; subst. destruct (Hv (cfg_of std e) Q3 Q4) as (out & E & Po').
      destruct (IH H' (Encoder None (en_flags e) (en_clrs e) (en_ind e) 0) (log ++ [out ++ [10]])) as (rs & e' & outs & R & N & F).
      { repeat split; assumption. }
      exists (None :: rs), e', (out :: outs). cbn [run step]. unfold encode_op. rewrite Q1, Q2, E. unfold write. cbn [w_results w_log]. cbv iota beta. unfold bytes in R |- *. rewrite R.
      cbn [map]. rewrite <- app_assoc. repeat split; constructor; auto.
Qed.
Lemma new_quiet : quiet_enc new_encoder.
Proof. repeat split. Qed.
Lemma lines_stream : forall vas, Forall (fun va => jvalue (fst va) (snd va)) vas -> stream (concat (map (fun o => o ++ [10]) (map fst vas))) vas [].
Proof.
  intros vas H. rewrite <- (app_nil_l (concat _)).
  assert (W : forall w, ws w -> stream (w ++ concat (map (fun o => o ++ [10]) (map fst vas))) vas []); [|apply W; constructor].
  induction H as [|[v a] vas J H IH]; intros w W; cbn [map concat fst snd] in *.
  - rewrite <- (app_nil_r w) at 1. rewrite <- app_assoc. apply st_end. exact W.
  - rewrite <- app_assoc. apply st_value; [exact W|exact J|intros _; cbn; unfold digit; lia|]. apply IH. apply Forall_cons; [auto|constructor].
Qed.
Lemma lines_wf vas : Forall (fun va => jvalue (fst va) (snd va)) vas -> wf (concat (map (fun o => o ++ [10]) (map fst vas))).
Proof.
  induction 1 as [|[v a] vas J H IH]; cbn [map concat fst snd] in *; [constructor|]. apply wf_app_iff. split; [|exact IH]. apply wf_app_iff. split; [eapply (proj1 jvalue_wf), J|].
  repeat constructor; unfold is_byte; lia.
Qed.
