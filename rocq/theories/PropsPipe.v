(** C77: what an Encoder writes, a Decoder reads. *)
From Coq Require Import Permutation.
From Verif Require Import Bytes Utf8Model ParseModel StringModel IntModel EncModel EncoderModel DecModel StreamModel SpecJson SpecString SpecRender SpecEnc SpecEncoder SpecColor SpecDec SpecTrip SpecStream SpecPipe
  ParseFacts Utf8Facts StringFacts IntFacts EncFacts EncMain ColorFacts TextFacts DocFacts RawFacts RawText DecFacts TripFacts StreamFacts ExactFloat PropsEnc PropsDec PropsStream PropsEncoder
  TypeModel SpecType SpecFit SpecField NodeFacts TypeFacts TypeMain PropsType ViewModel SpecSame ViewFacts TripClean TripType ViewTotal PropsTrip PropsColor EncoderModel SpecStream PipeFacts.

(** Any number of trees of nil, booleans, finite floats (with UseNumber:
    Numbers that hold a JSON number), UTF-8 strings, slices
    and maps, written with any settings that change on the way but without
    colors, and read from a reader that delivers them in any pieces: each
    Decode into an interface gives the tree back, and after the last one there
    is only the reader's end. *)
Theorem C77_trees_partial un pf std ops vs : Forall plain_op ops -> Forall2 (go_tree_of un) (encoded ops) vs -> (forall v f, In v vs -> float_in f v -> parses pf f) ->
  exists rs e w, run std ops new_encoder (start []) = Some (rs, e, w) /\ Forall (fun r => r = None) rs /\ length (w_log w) = length vs /\
  forall r final curs, delivers r (concat (w_log w)) final -> Z.of_nat (length (concat (w_log w))) <= minBufferSize \/ Forall calm_value vs -> length curs = length vs ->
  Forall2 (fun v x => fst x = None /\ jv_same v (snd x)) vs (decodes (decode_interface un pf) curs (new_decoder r)) /\
  forall k, skipn (length vs) (map fst (reads (length vs + k)%nat (new_decoder r))) = repeat (inr (end_error final)) k.
Proof.
  intros PL T PF. set (P := fun (gv : gval * jv) (oa : bytes * jast) => jvalue (fst oa) (snd oa) /\ (exists v', jden un pf (snd oa) = Some v' /\ jv_same (snd gv) v') /\ (calm_value (snd gv) -> splittable (snd oa))).
  set (Q := fun (g : gval) (o : bytes) => forall v, go_tree_of un g v -> (forall f, float_in f v -> parses pf f) -> exists a, P (g, v) (o, a)).
  destruct (pipe_run std Q ops PL) with (e := new_encoder) (log := @nil bytes) as (rs & e' & outs & R & N & F); [|apply new_quiet|].
  { apply Forall_forall. intros g Ig c HC HI. assert (Tg : exists v, go_tree_of un g v). { clear - T Ig. induction T as [|g0 v0 gs vs0 T0 T IH]; [destruct Ig|]. destruct Ig as [->|Ig]; eauto. }
    destruct Tg as [v Tg]. pose proof (tree_clean (e_sort c) (e_trust c) _ g v Tg) as C.
    destruct (C33_encode_spec_partial c g [] 0 C (or_introl HC)) as [(x & V & E)|(N & _)].
    2:{ exfalso. destruct (tree_has_doc (e_html c) (e_sort c) (e_trust c) _ g v Tg) as (x & V). exact (N x V). }
    rewrite HC in E. cbn [app] in E. eexists. split; [exact E|]. intros v2 T2 P2.
    exists (dast (e_html c) (e_ind c) 0 x). unfold P. cbn [fst snd]. split; [apply render_jvalue; [exact HI|eapply vdoc_ok; eassumption]|]. split; [apply (tree_trip _ pf g v2 T2 P2 (e_html c) (e_sort c) (e_trust c) (e_ind c) 0 x V)|].
    intros (K1 & K0 & K2). split.
    - intros s E2. clear - T2 K0 K1 V E2. destruct T2; inversion V; subst; cbn [dast] in E2; try discriminate; try (destruct (K1 f); reflexivity); try (eelim K0; reflexivity). rewrite tok_ast_str in E2; [discriminate|]. apply json_string_lit, valid_utf8_wf. assumption.
    - intros lit L. destruct (tree_lits _ _ _ (e_ind c) _ _ _ T2 0 x V lit L) as (s & S1 & S2 & ->). apply calm_resumable; auto. }
  exists rs, e', (World [] (map (fun o => o ++ [10]) outs)). split; [exact R|]. split; [exact N|]. cbn [w_log].
  assert (X : exists asts, length asts = length outs /\ Forall2 (fun v oa => P (GNil, v) oa) vs (combine outs asts)).
  { clear - T F PF. revert outs F. induction T as [|g v gs vs Tg T IH]; intros outs F; inversion F as [|? o ? outs' Qo F']; subst.
    - exists []. split; constructor.
    - destruct (IH (fun v0 f I => PF v0 f (or_intror I)) outs' F') as (asts & L & H). destruct (Qo v Tg (fun f => PF v f (or_introl eq_refl))) as (a & Pa).
      exists (a :: asts). split; [cbn; congruence|]. cbn [combine]. constructor; [exact Pa|exact H]. }
  destruct X as (asts & L & X). assert (EO : map fst (combine outs asts) = outs).
  { clear - L. revert asts L. induction outs as [|o outs IH]; intros [|a asts] L; try discriminate; [reflexivity|]. cbn. f_equal. apply IH. cbn in L. congruence. }
  set (vas := combine outs asts) in *. rewrite <- EO.
  assert (J : Forall (fun va => jvalue (fst va) (snd va)) vas). { clear - X. induction X as [|v oa vs vas [Pa _] X IH]; constructor; assumption. }
  assert (LV : length vs = length vas). { clear - X. induction X; cbn; congruence. }
  split; [rewrite map_length, map_length; congruence|].
  intros r final curs D RD LC. pose proof (lines_stream vas J) as S. pose proof (lines_wf vas J) as W.
  assert (RB : readable (concat (map (fun o => o ++ [10]) (map fst vas))) vas).
  { destruct RD as [RD|RD]; [left; exact RD|right]. clear - X RD. induction X as [|v oa vs vas (_ & _ & Pa) X IH]; [constructor|]. inversion RD; subst. constructor; auto. }
  split.
  - rewrite (C23_decode_partial _ _ curs r _ vas final W D S RB) by (rewrite LC; exact LV). rewrite LV in LC. clear - X LC. revert curs LC.
    induction X as [|v [o a] vs vas (Pa & (v' & E & SM) & _) X IH]; intros curs LC; [constructor|]. destruct curs as [|cur curs]; [discriminate|]. injection LC as LC.
    cbn [combine map fst snd] in *. constructor; [|apply IH, LC]. rewrite (parse_iface un pf o a cur (jvalue_jtext _ _ Pa)), E. cbn. auto.
  - intros k. rewrite LV. pose proof (C23_values_partial r _ vas final k W D S RB) as H. unfold bytes in H |- *. rewrite H. rewrite skipn_app, map_length, Nat.sub_diag. rewrite skipn_all2 by (rewrite map_length; lia). reflexivity.
Qed.
(** The same for values of any type that JSON can carry, each read into a fresh
    variable of that type. *)
Theorem C77_typed_partial V W F std ops t ms : env_ok V -> env_typed V -> env_names V -> Forall plain_op ops ->
  Forall2 (fun g m => fits V t m /\ trip V W F t m /\ exists n, view V W n t m = Some g) (encoded ops) ms ->
  exists rs e w, run std ops new_encoder (start []) = Some (rs, e, w) /\ Forall (fun r => r = None) rs /\ length (w_log w) = length ms /\
  forall r final, delivers r (concat (w_log w)) final ->
    Z.of_nat (length (concat (w_log w))) <= minBufferSize \/ Forall (fun s => forall o a, s = o ++ [10] -> jvalue o a -> splittable a) (w_log w) ->
  Forall2 (fun m x => fst x = None /\ same V t m (snd x)) ms (decodes (decode V F t) (repeat (zero V t) (length ms)) (new_decoder r)) /\
  forall k, skipn (length ms) (map fst (reads (length ms + k)%nat (new_decoder r))) = repeat (inr (end_error final)) k.
Proof.
  intros OK ET NM PL T.
  set (Q := fun (g : gval) (o : bytes) => (exists a, jvalue o a) /\ forall m n, fits V t m -> trip V W F t m -> view V W n t m = Some g -> exists m', unmarshal V F t o (zero V t) = (None, m') /\ same V t m m').
  destruct (pipe_run std Q ops PL) with (e := new_encoder) (log := @nil bytes) as (rs & e' & outs & R & N & FO); [|apply new_quiet|].
  { apply Forall_forall. intros g Ig c HC HI. assert (Tg : exists m n, fits V t m /\ trip V W F t m /\ view V W n t m = Some g).
    { clear - T Ig. induction T as [|g0 v0 gs vs0 (T1 & T2 & n & T3) T IH]; [destruct Ig|]. destruct Ig as [->|Ig]; eauto 6. }
    destruct Tg as (m & n & FM & Tm & E). destruct (C50_typed_round_trip_partial V W F c t m n g OK ET NM FM Tm HC HI E) as (out & m' & EN & _ & _).
    exists out. split; [exact EN|]. split.
    - destruct (C10_valid_json_partial c g [] 0 out 0 HC HI (view_clean V W F NM (e_sort c) (e_trust c) n t m g E Tm) EN) as (o & a & -> & J & _). eauto.
    - intros m2 n2 F2 T2 E2. destruct (C50_typed_round_trip_partial V W F c t m2 n2 g OK ET NM F2 T2 HC HI E2) as (out2 & m2' & EN2 & U & S). assert (out2 = out) by congruence. subst. eauto. }
  exists rs, e', (World [] (map (fun o => o ++ [10]) outs)). split; [exact R|]. split; [exact N|]. cbn [w_log].
  assert (X : exists asts, length asts = length outs /\ Forall2 (fun m oa => jvalue (fst oa) (snd oa) /\ exists m', unmarshal V F t (fst oa) (zero V t) = (None, m') /\ same V t m m') ms (combine outs asts)).
  { clear - T FO. revert outs FO. induction T as [|g m gs ms (T1 & T2 & n & T3) T IH]; intros outs FO; inversion FO as [|? o ? outs' [[a Ja] Qo] F']; subst.
    - exists []. split; constructor.
    - destruct (IH outs' F') as (asts & L & H). exists (a :: asts). split; [cbn; congruence|]. cbn [combine]. constructor; [|exact H]. cbn [fst snd]. eauto. }
  destruct X as (asts & L & X). assert (EO : map fst (combine outs asts) = outs).
  { clear - L. revert asts L. induction outs as [|o outs IH]; intros [|a asts] L; try discriminate; [reflexivity|]. cbn. f_equal. apply IH. cbn in L. congruence. }
  set (vas := combine outs asts) in *. rewrite <- EO.
  assert (J : Forall (fun va => jvalue (fst va) (snd va)) vas). { clear - X. induction X as [|v oa vs vas [Pa _] X IH]; constructor; assumption. }
  assert (LV : length ms = length vas). { clear - X. induction X; cbn; congruence. }
  split; [rewrite map_length, map_length; congruence|].
  intros r final D RD. pose proof (lines_stream vas J) as S. pose proof (lines_wf vas J) as WF.
  assert (RB : readable (concat (map (fun o => o ++ [10]) (map fst vas))) vas).
  { destruct RD as [RD|RD]; [left; exact RD|right]. clear - J RD. induction J as [|va vas Ja J IH]; [constructor|]. inversion RD as [|? ? R1 R2]; subst. constructor; [exact (R1 _ _ eq_refl Ja)|auto]. }
  split.
  - rewrite (C23_decode_partial _ _ (repeat (zero V t) (length ms)) r _ vas final WF D S RB) by (rewrite repeat_length; exact LV). clear - X.
    induction X as [|m [o a] ms vas (Pa & m' & E & SM) X IH]; [constructor|]. cbn [length repeat combine map fst snd] in *. constructor; [|apply IH].
    unfold unmarshal, unmarshal_with in E. destruct (d_rest _); [|discriminate]. cbv zeta in *. split; [exact (f_equal fst E)|]. replace (d_val _) with m' by (symmetry; exact (f_equal snd E)). exact SM.
  - intros k. rewrite LV. pose proof (C23_values_partial r _ vas final k WF D S RB) as H. unfold bytes in H |- *. rewrite H. rewrite skipn_app, map_length, Nat.sub_diag. rewrite skipn_all2 by (rewrite map_length; lia). reflexivity.
Qed.
(** One value after another: 32 strings of 1020 bytes, one more, and [g]. *)
Definition pp_ops (k : nat) (g : gval) : list op := map OEncode (repeat (GString (repeat 97 (Z.to_nat 1020))) 32 ++ [GString (repeat 97 k); g]).
Definition pp_read (k : nat) (g : gval) : option (list (option err * jv)) :=
  match run std0 (pp_ops k g) new_encoder (start []) with
  | Some (_, _, w) => Some (skipn 33 (decodes (decode_interface false exact) (repeat JVNull 35) (new_decoder (plain_reader (concat (w_log w))))))
  | None => None
  end.
(** A number that the end of the buffer cuts in two is read as two numbers. *)
Theorem C77_number_refuted : pp_read 27 (GFloat (FFin false [49] 3)) = Some [(None, JVFloat (FFin false [49] 2)); (None, JVFloat (FZero false))].
Proof. vm_compute. reflexivity. Qed.
(** A string with a quote before an escaped character, cut by the end of the
    buffer, is rejected. *)
Theorem C77_string_refuted : pp_read 23 (GString [34; 60]) = Some [(Some ESyntax, JVNull); (Some ESyntax, JVNull)].
Proof. vm_compute. reflexivity. Qed.

Lemma Forall2_skipn {A B} (P : A -> B -> Prop) n : forall l l', Forall2 P l l' -> Forall2 P (skipn n l) (skipn n l').
Proof. induction n; intros l l' H; [exact H|]. destruct H; [constructor|]. cbn. apply IHn. assumption. Qed.
Lemma decodes_length {A} (dec : bytes -> A -> dres A) cs : forall d, length (decodes dec cs d) = length cs.
Proof. induction cs as [|c cs IH]; intros d0; [reflexivity|]. cbn [decodes]. destruct (decode_next _ d0 c) as [[x y] z]. cbn. f_equal. apply IH. Qed.
Lemma decodes_snoc {A} (dec : bytes -> A -> dres A) cs c : forall d, exists x, decodes dec (cs ++ [c]) d = decodes dec cs d ++ [x].
Proof.
  induction cs as [|c' cs IH]; intros d0; cbn [app decodes].
  - destruct (decode_next _ d0 c) as [[x y] z]. exists (x, y). reflexivity.
  - destruct (decode_next _ d0 c') as [[x y] z]. destruct (IH z) as [q ->]. exists q. reflexivity.
Qed.
Lemma pp_34 d a b : skipn 33 (decodes (decode_interface false exact) (repeat JVNull 35) d) = [a; b] -> skipn 33 (decodes (decode_interface false exact) (repeat JVNull 34) d) = [a].
Proof.
  assert (R35 : repeat JVNull 35 = repeat JVNull 34 ++ [JVNull]) by reflexivity. rewrite R35. destruct (decodes_snoc (decode_interface false exact) (repeat JVNull 34) JVNull d) as [x ->].
  rewrite skipn_app, decodes_length. change (33 - length (repeat JVNull 34))%nat with 0%nat. cbn [skipn]. generalize (skipn 33 (decodes (decode_interface false exact) (repeat JVNull 34) d)). intros u C.
  change [a; b] with ([a] ++ [b]) in C. apply app_inj_tail in C as [C _]. exact C.
Qed.
Definition pp_vals (k : nat) (f : fl) : list jv := repeat (JVString (repeat 97 (Z.to_nat 1020))) 32 ++ [JVString (repeat 97 k); JVFloat f].
Lemma pp_encoded k g : encoded (pp_ops k g) = repeat (GString (repeat 97 (Z.to_nat 1020))) 32 ++ [GString (repeat 97 k); g].
Proof. unfold pp_ops. generalize (repeat (GString (repeat 97 (Z.to_nat 1020))) 32 ++ [GString (repeat 97 k); g]). intros gs. induction gs as [|x gs IH]; cbn; congruence. Qed.
Lemma pp_plain k g : Forall plain_op (pp_ops k g).
Proof. unfold pp_ops. generalize (repeat (GString (repeat 97 (Z.to_nat 1020))) 32 ++ [GString (repeat 97 k); g]). intros gs. induction gs as [|x gs IH]; constructor; [exact I|exact IH]. Qed.
Lemma pp_tree k f : finite f -> Forall2 go_tree (encoded (pp_ops k (GFloat f))) (pp_vals k f).
Proof.
  intros F. assert (S : forall k, valid_utf8 (repeat 97 k)). { intros n. exists (repeat 97 n). induction n; [constructor|]. apply (u8_cons 97 (repeat 97 n) [97]); [constructor; lia|exact IHn]. }
  rewrite pp_encoded. unfold pp_vals. apply Forall2_app.
  - generalize (Z.to_nat 1020). generalize 32%nat. intros n m. induction n; constructor; [constructor; apply S|exact IHn].
  - constructor; [constructor; apply S|]. constructor; [constructor; exact F|constructor].
Qed.
Lemma pp_vals_length k f : length (pp_vals k f) = 34%nat.
Proof. unfold pp_vals. rewrite app_length, repeat_length. reflexivity. Qed.
Lemma pp_vals_last k f : skipn 33 (pp_vals k f) = [JVFloat f].
Proof. unfold pp_vals. rewrite skipn_app, skipn_all2 by (rewrite repeat_length; lia). rewrite repeat_length. reflexivity. Qed.
Lemma pp_read_some k g l : pp_read k g = Some l -> exists rs e w, run std0 (pp_ops k g) new_encoder (start []) = Some (rs, e, w) /\
  skipn 33 (decodes (decode_interface false exact) (repeat JVNull 35) (new_decoder (plain_reader (concat (w_log w))))) = l.
Proof. unfold pp_read. destruct (run _ _ _ _) as [[[rs e] w]|]; [|discriminate]. intros E. exists rs, e, w. split; [reflexivity|congruence]. Qed.
(** So not every tree comes back, whatever the sizes. *)
Theorem C77_trees_refuted :
  ~ (forall std ops vs rs e w r curs, Forall plain_op ops -> Forall2 go_tree (encoded ops) vs -> run std ops new_encoder (start []) = Some (rs, e, w) ->
     delivers r (concat (w_log w)) EOF -> length curs = length vs ->
     Forall2 (fun v x => fst x = None /\ jv_same v (snd x)) vs (decodes (decode_interface false exact) curs (new_decoder r))).
Proof.
  intros H. destruct (pp_read_some _ _ _ C77_number_refuted) as (rs & e & w & R & C).
  specialize (H std0 _ (pp_vals 27 (FFin false [49] 3)) rs e w (plain_reader (concat (w_log w))) (repeat JVNull 34) (pp_plain 27 (GFloat (FFin false [49] 3)))).
  apply (Forall2_skipn _ 33) in H; [|apply pp_tree; split; [repeat constructor; discriminate|exists 49, []; repeat split; discriminate]|exact R|apply plain_delivers|rewrite pp_vals_length; reflexivity].
  rewrite (pp_34 _ _ _ C), pp_vals_last in H. inversion H as [|? ? ? ? [_ S] _]; subst. inversion S.
Qed.

(** Cases: settings that change between the calls; three trees, the second of
    them a number. *)
Definition px_ops : list op :=
  [OEncode (GSlice (Some [GIface (Some (GBool true)); GIface None])); OSetIndent [] (bs "  "); OEncode (GFloat (FFin false [49] 3)); OSetEscapeHTML false;
   OEncode (GMapSI (Some [(bs "b", GString (bs "<""")); (bs "a", GNil)]))].
Definition px_vals : list jv := [JVArr [JVBool true; JVNull]; JVFloat (FFin false [49] 3); JVMap [(bs "b", JVString (bs "<""")); (bs "a", JVNull)]].
Example C77_trees_case : Forall plain_op px_ops /\ Forall2 go_tree (encoded px_ops) px_vals /\ (forall v f, In v px_vals -> float_in f v -> parses exact f) /\
  exists rs e w, run std0 px_ops new_encoder (start []) = Some (rs, e, w) /\ w_log w = [bs "[true,null]" ++ [10]; bs "100" ++ [10]; bs "{" ++ [10] ++ bs "  ""a"": null," ++ [10] ++ bs "  ""b"": ""<\""""" ++ [10] ++ bs "}" ++ [10]].
Proof.
  assert (FN : finite (FFin false [49] 3)). { split; [repeat constructor; discriminate|]. exists 49, []. repeat split; discriminate. }
  assert (T : Forall2 go_tree (encoded px_ops) px_vals).
  { cbn [encoded px_ops]. unfold px_vals. constructor; [|constructor; [|constructor; [|constructor]]].
    - apply (gt_slice [GBool true; GNil]). repeat constructor.
    - constructor. exact FN.
    - constructor; [repeat constructor; cbn; intros H; repeat destruct H as [H|H]; try discriminate; contradiction|].
      constructor; [|constructor; [|constructor]]; cbn [fst snd]; (split; [reflexivity|]); (split; [apply ascii_utf8; vm_compute; repeat constructor; discriminate|]); constructor.
      apply ascii_utf8; vm_compute; repeat constructor; discriminate. }
  split; [repeat constructor|]. split; [exact T|]. split.
  - intros v f I H. apply exact_parses. clear - T I H. revert I. induction T as [|g v0 gs vs Tg T IH]; [intros []|]. intros [->|I]; [|auto]. eapply tree_floats_finite; eassumption.
  - eexists _, _, _. split; vm_compute; reflexivity.
Qed.
Example C77_calm_case : calm_value (JVArr [JVString (bs "a""b"); JVMap [(bs "<k>", JVFloat (FFin false [49] 3))]]) /\ ~ calm_text [34; 60].
Proof.
  split.
  - split; [discriminate|]. split; [discriminate|]. intros s H. inversion H as [|l v I T| |]; subst. destruct I as [<-|[<-|[]]].
    + inversion T; subst. right. vm_compute. repeat constructor; try discriminate; intros H'; repeat destruct H' as [H'|H']; try discriminate; contradiction.
    + left. inversion T as [| |m v I|m k v I T']; subst; destruct I as [[= <- <-]|[]]; [|inversion T']. intros H'. vm_compute in H'. repeat destruct H' as [H'|H']; try discriminate; contradiction.
  - intros [H|H]; [apply H; left; reflexivity|]. inversion H as [|? ? [_ _] H2]; subst. inversion H2 as [|? ? [_ K] _]; subst. apply K. cbn. auto.
Qed.
Definition pt_ops (g : gval) : list op := [OEncode g; OSetIndent [] (bs " "); OEncode g].
Example C77_typed_case : exists g, Forall plain_op (pt_ops g) /\
  Forall2 (fun g m => fits ex_env (YStruct 0) m /\ trip ex_env ex_menv ex_flags (YStruct 0) m /\ exists n, view ex_env ex_menv n (YStruct 0) m = Some g) (encoded (pt_ops g)) [ex_value; ex_value].
Proof.
  destruct C50_case as (OK & ET & NM & FX & TX). destruct (C50_view_exists ex_env ex_menv (YStruct 0) ex_value ET NM FX) as (n & g & E).
  exists g. split; [repeat constructor|]. cbn [encoded pt_ops]. constructor; [eauto|]. constructor; [eauto|]. constructor.
Qed.
Print Assumptions C77_trees_partial.
Print Assumptions C77_typed_partial.
Print Assumptions C77_number_refuted.
Print Assumptions C77_string_refuted.
Print Assumptions C77_trees_refuted.
