(** Decoding into typed values: the main refinement proof. *)
From Verif Require Import Bytes AsciiModel Utf8Model ParseModel IntModel StringModel EncModel DecModel
  SpecJson SpecString SpecDec ParseFacts Utf8Facts StringFacts IntFacts DecLoops DecFacts TypeModel SpecType NodeFacts TypeLoops TypeFacts.

(** * Leading zeroes of a ",string" integer *)
Lemma drop_zeroes_nz r : (forall c d r', r = c :: d :: r' -> c = 48 -> ~ digit d) -> drop_zeroes r = r.
Proof.
  intros H. destruct r as [|c [|d r]]; try reflexivity. cbn [drop_zeroes]. destruct ((c =? 48) && is_digit d) eqn:E; [|reflexivity].
  zb. exfalso. eapply H; [reflexivity|assumption|]. apply is_digit_iff. assumption.
Qed.
Lemma drop_zeroes_app zs r : Forall (eq 48) zs -> (zs <> [] -> exists d r', r = d :: r' /\ digit d) ->
  (forall c d r', r = c :: d :: r' -> c = 48 -> ~ digit d) -> drop_zeroes (zs ++ r) = r.
Proof.
  induction zs as [|z zs IH]; intros HZ HD HN; [apply drop_zeroes_nz, HN|].
  inversion HZ as [|? ? Hz HZ']; subst. assert (HD' : exists d r', r = d :: r' /\ digit d) by (apply HD; discriminate).
  assert (N : exists d t, zs ++ r = d :: t /\ is_digit d = true).
  { destruct zs as [|z zs]; [destruct HD' as (d & r' & -> & H); exists d, r'; split; [reflexivity|]; apply is_digit_iff, H|].
    inversion HZ'; subst. eexists _, _. split; [reflexivity|reflexivity]. }
  cbn [app]. destruct N as (d & t & E & D). rewrite <- (IH HZ' (fun _ => HD') HN) at 2.
  change (48 :: zs ++ r) with (48 :: (zs ++ r)). cbn [drop_zeroes]. rewrite E. rewrite D. reflexivity.
Qed.
Lemma drop_zeroes_split v : exists zs, Forall (eq 48) zs /\ v = zs ++ drop_zeroes v /\
  (zs <> [] -> exists d r', drop_zeroes v = d :: r' /\ digit d) /\
  (forall c d r', drop_zeroes v = c :: d :: r' -> c = 48 -> ~ digit d).
Proof.
  induction v as [|c v IH]; [exists []; split; [constructor|]; split; [reflexivity|]; split; [congruence|discriminate]|].
  destruct v as [|d v]; [exists []; split; [constructor|]; split; [reflexivity|]; split; [congruence|discriminate]|].
  cbn [drop_zeroes] in *. destruct ((c =? 48) && is_digit d) eqn:E.
  - assert (Hd : digit d) by (apply is_digit_iff; zb; assumption). assert (c = 48) by (zb; lia). subst c. clear E.
    destruct IH as (zs & HZ & E & HD & HN). exists (48 :: zs). split; [constructor; [reflexivity|exact HZ]|].
    split; [rewrite E at 1; reflexivity|]. split; [|exact HN]. intros _.
    destruct zs as [|z zs]; [|apply HD; discriminate]. cbn [app] in E. rewrite <- E. eauto.
  - exists []. split; [constructor|]. split; [reflexivity|]. split; [congruence|]. intros c' d' r' [= -> -> ->] -> Hd. apply is_digit_iff in Hd. rewrite Hd in E. discriminate.
Qed.
Lemma strip_zeroes_eq v : strip_zeroes v =
  match v with c :: v' => if (c =? 45) || (c =? 43) then c :: drop_zeroes v' else drop_zeroes v | [] => [] end.
Proof.
  unfold strip_zeroes, has_leading_zeroes. destruct v as [|c v']; [reflexivity|]. destruct ((c =? 45) || (c =? 43)) eqn:E.
  - destruct v' as [|a [|b v]]; try reflexivity. cbn [drop_zeroes]. destruct ((a =? 48) && is_digit b) eqn:E2; [reflexivity|reflexivity].
  - destruct v' as [|a v]; [reflexivity|]. cbn [drop_zeroes]. destruct ((c =? 48) && is_digit a) eqn:E2; reflexivity.
Qed.
Lemma unzeroed_strip v : unzeroed v (strip_zeroes v).
Proof.
  rewrite strip_zeroes_eq. destruct v as [|c v].
  { apply (unz [] [] []); [auto|constructor|congruence|discriminate|discriminate]. }
  destruct ((c =? 45) || (c =? 43)) eqn:E.
  - destruct (drop_zeroes_split v) as (zs & HZ & E1 & HD & HN).
    rewrite E1 at 1. apply (unz [c] zs (drop_zeroes v)); [|exact HZ|exact HD|discriminate|exact HN].
    apply orb_true_iff in E as [E|E]; apply Z.eqb_eq in E; subst c; auto.
  - destruct (drop_zeroes_split (c :: v)) as (zs & HZ & E1 & HD & HN).
    rewrite E1 at 1. apply (unz [] zs); [auto|exact HZ|exact HD| |exact HN]. intros _ -> c' r' E2. cbn [app] in E1. rewrite <- E1 in E2. injection E2 as <- <-. zb. lia.
Qed.
Lemma strip_unzeroed v t : unzeroed v t -> t = strip_zeroes v.
Proof.
  intros H. destruct H as [sg zs r HS HZ HD HC HN]. rewrite strip_zeroes_eq. pose proof (drop_zeroes_app zs r HZ HD HN) as DZ.
  destruct HS as [->|[->| ->]]; cbn [app].
  - destruct (zs ++ r) as [|c v] eqn:E.
    + apply app_eq_nil in E as [-> ->]. reflexivity.
    + assert (((c =? 45) || (c =? 43)) = false) as ->; [|congruence].
      destruct zs as [|z zs]; [cbn [app] in E; destruct (HC eq_refl eq_refl _ _ E); apply orb_false_intro; apply Z.eqb_neq; assumption|].
      inversion HZ; subst. injection E as <- _. reflexivity.
  - change ((45 =? 45) || (45 =? 43)) with true. cbv iota. congruence.
  - change ((43 =? 45) || (43 =? 43)) with true. cbv iota. congruence.
Qed.
Lemma strip_wf v : wf v -> wf (strip_zeroes v).
Proof.
  intros W. pose proof (unzeroed_strip v) as U. destruct U as [sg zs r _ _ _ _ _]. apply wf_app in W as [W1 W2]. apply wf_app in W2 as [_ W2]. apply wf_app. auto.
Qed.

(** * Values inside strings *)
Section Inside.
Context {A : Type} (D : bytes -> A -> dres A) (R : node -> A -> A -> Prop) (cur : A).
Hypothesis HR : forall b, wf b -> reads D b cur.
Hypothesis HM : forall nd, jnode nd -> meets D R nd cur.

Definition inside (lit : bytes) (y : A) : Prop := exists nd w, str_means lit (ntext nd ++ w) /\ ws w /\ jnode nd /\ R nd cur y.
Lemma ws_num_stop w : ws w -> num_stop w.
Proof. intros W. rewrite <- (app_nil_r w). apply num_stop_ws; [exact W|exact I]. Qed.
Lemma skip_nil_ws w : skip_spaces w = [] -> ws w.
Proof. intros E. destruct (skip_spaces_split w) as (w1 & W & E1 & _). rewrite E, app_nil_r in E1. congruence. Qed.
Lemma ws_skip_nil w : ws w -> skip_spaces w = [].
Proof. intros W. rewrite <- (app_nil_r w), skip_spaces_ws by exact W. reflexivity. Qed.

Lemma from_string_meets lit r : string_lit lit ->
  (exists y, decode_from_string D (lit ++ r) cur = DR r None y /\ inside lit y /\ forall y', inside lit y' -> y' = y) \/
  (exists e y, decode_from_string D (lit ++ r) cur = DR r (Some e) y /\ e <> EFuel /\ forall y', ~ inside lit y').
Proof.
  intros SL. destruct (string_lit_unquote lit r SL) as [i Q]. unfold decode_from_string.
  assert (N : has_null_prefix (lit ++ r) = false) by (destruct SL as (body & -> & _); reflexivity). rewrite N, Q. cbv zeta.
  pose proof (HR (str_text lit) (str_text_wf lit SL)) as RD. unfold reads in RD.
  assert (IN : forall nd w, str_means lit (ntext nd ++ w) -> ntext nd ++ w = str_text lit) by (intros; apply str_means_text; assumption).
  destruct (D (str_text lit) cur) as [u o y] eqn:ED. cbn [d_err d_rest d_val] in *. destruct o as [e|].
  - right. exists e, y. split; [reflexivity|]. split; [exact RD|]. intros y' (nd & w & M & W & J & RY).
    destruct (HM nd J w (stop_any _ _ (ws_num_stop w W))) as [(r1 & z & E & _)|(r1 & e' & z & _ & _ & NO)]; [rewrite (IN nd w M) in E; congruence|exact (NO _ RY)].
  - destruct RD as (nd & J & E). destruct (skip_spaces u) as [|su0 su] eqn:SU.
    + left. exists y. split; [reflexivity|]. pose proof (skip_nil_ws u SU) as W. split.
      * exists nd, u. split; [rewrite <- E; apply str_text_means, SL|]. split; [exact W|]. split; [exact J|].
        destruct (HM nd J u (stop_any _ _ (ws_num_stop u W))) as [(r1 & z & E1 & _ & RZ & _)|(r1 & e' & z & E1 & _)]; rewrite <- E, ED in E1; congruence.
      * intros y' (nd' & w & M & W' & J' & RY).
        destruct (HM nd' J' w (stop_any _ _ (ws_num_stop w W'))) as [(r1 & z & E1 & _ & _ & UZ)|(r1 & e' & z & E1 & _)]; rewrite (IN nd' w M), ED in E1; [|congruence].
        rewrite (UZ _ RY). congruence.
    + right. exists ESyntax, y. split; [reflexivity|]. split; [discriminate|]. intros y' (nd' & w & M & W' & J' & RY).
      destruct (HM nd' J' w (stop_any _ _ (ws_num_stop w W'))) as [(r1 & z & E1 & E2 & _)|(r1 & e' & z & E1 & _)]; rewrite (IN nd' w M), ED in E1; [|congruence].
      injection E1 as <- <-. rewrite (ws_skip_nil w W') in E2. congruence.
Qed.

Definition inside_int (lit : bytes) (y : A) : Prop :=
  exists t nd, str_means lit t /\ t <> [] /\ unzeroed t (ntext nd) /\ jnode nd /\ R nd cur y.
Lemma from_string_int_meets pf lit r : string_lit lit ->
  (exists y, decode_from_string_int pf D (lit ++ r) cur = DR r None y /\ inside_int lit y /\ forall y', inside_int lit y' -> y' = y) \/
  (exists r1 e y, decode_from_string_int pf D (lit ++ r) cur = DR r1 (Some e) y /\ e <> EFuel /\ forall y', ~ inside_int lit y').
Proof.
  intros SL. destruct (string_lit_unquote lit r SL) as [i Q]. unfold decode_from_string_int.
  assert (N : has_null_prefix (lit ++ r) = false) by (destruct SL as (body & -> & _); reflexivity). rewrite N, Q. cbv zeta.
  assert (IN : forall nd t, str_means lit t -> unzeroed t (ntext nd) -> ntext nd = strip_zeroes (str_text lit)).
  { intros nd t M U. apply strip_unzeroed in U. rewrite U. f_equal. apply str_means_text; assumption. }
  destruct (list_eq_dec Z.eq_dec (str_text lit) []) as [E0|NE].
  - (* the empty string *)
    right. destruct SL as (body & -> & SB). assert (body = []) as ->.
    { destruct (str_text_means (34 :: body ++ [34])) as (body' & l & E & DD & U); [exists body; auto|].
      assert (body = body') as <- by (apply (f_equal (@removelast Z)) in E; rewrite !app_comm_cons, !removelast_last in E; congruence).
      rewrite E0 in U. inversion U as [|rr ll ee ss U1 U2 E1 E2]; subst.
      - inversion DD; subst; reflexivity.
      - exfalso. destruct ee; [inversion U1|discriminate]. }
    cbn [app]. change (negb (34 =? 34)) with false. change (34 =? 34) with true. cbv iota.
    eexists _, _, _. split; [reflexivity|]. split; [discriminate|]. intros y' (t & nd & M & T & _).
    apply T. rewrite <- E0. apply str_means_text; [exists []; split; [reflexivity|constructor]|exact M].
  - pose proof (HR (strip_zeroes (str_text lit)) (strip_wf _ (str_text_wf lit SL))) as RD. unfold reads in RD.
    assert (NQ : match lit ++ r with
                 | c :: c1 :: _ => (c =? 34) = true /\ (c1 =? 34) = false
                 | _ => False end).
    { destruct SL as (body & -> & SB). cbn [app]. destruct body as [|b0 body].
      - exfalso. apply NE. symmetry. apply str_means_text; [exists []; auto|]. exists [], []. repeat split; try constructor.
      - cbn [app]. split; [reflexivity|]. apply Z.eqb_neq. intros ->. inversion SB; subst; congruence. }
    destruct (lit ++ r) as [|c [|c1 b]]; [contradiction|contradiction|]. destruct NQ as [-> ->]. cbn [negb].
    destruct (D (strip_zeroes (str_text lit)) cur) as [u o y] eqn:ED. cbn [d_err d_rest d_val] in *. destruct o as [e|].
    + right.
      assert (NO : forall y', ~ inside_int lit y').
      { intros y' (t & nd & M & T & U & J & RY).
        destruct (HM nd J [] (stop_any nd [] I)) as [(r1 & z & E & _)|(r1 & e' & z & _ & _ & NO)]; [rewrite app_nil_r, (IN nd t M U) in E; congruence|exact (NO _ RY)]. }
      destruct e; (eexists _, _, _; split; [reflexivity|]; split; [|exact NO]); try (repeat (match goal with |- (match ?x with _ => _ end) <> _ => destruct x end); discriminate).
      congruence.
    + destruct RD as (nd & J & E). destruct u as [|a u].
      * left. exists y. split; [reflexivity|]. rewrite app_nil_r in E. split.
        -- exists (str_text lit), nd. split; [apply str_text_means, SL|]. split; [exact NE|]. split; [rewrite <- E; apply unzeroed_strip|]. split; [exact J|].
           destruct (HM nd J [] (stop_any nd [] I)) as [(r1 & z & E1 & _ & RZ & _)|(r1 & e' & z & E1 & _)]; rewrite app_nil_r, <- E, ED in E1; congruence.
        -- intros y' (t & nd' & M & T & U & J' & RY).
           destruct (HM nd' J' [] (stop_any nd' [] I)) as [(r1 & z & E1 & _ & _ & UZ)|(r1 & e' & z & E1 & _)]; rewrite app_nil_r, (IN nd' t M U), ED in E1; [|congruence].
           rewrite (UZ _ RY). congruence.
      * right. eexists _, _, _. split; [reflexivity|]. split; [discriminate|]. intros y' (t & nd' & M & T & U & J' & RY).
        destruct (HM nd' J' [] (stop_any nd' [] I)) as [(r1 & z & E1 & E2 & _)|(r1 & e' & z & E1 & _)]; rewrite app_nil_r, (IN nd' t M U), ED in E1; [|congruence].
        injection E1 as <- <-. pose proof (skip_nil_ws _ E2) as W.
        pose proof (node_parse nd (a :: u) J (stop_any _ _ (ws_num_stop _ W))) as P1. rewrite <- E in P1.
        pose proof (node_parse nd' [] J' (stop_any nd' [] I)) as P2. rewrite app_nil_r, (IN nd' t M U) in P2. congruence.
Qed.
End Inside.

Lemma string_parse lit r : string_lit lit -> parseValue (lit ++ r) = POk lit r.
Proof.
  intros SL. assert (P := parse_string_complete lit r SL). destruct SL as (body & -> & SB). exact P.
Qed.

Section Main.
Context (V : tenv) (F : dflags) (OK : env_ok V).
Notation stores := (stores V F).
Notation dec_ty := (dec_ty V F).

(** * Keys *)
Lemma key_means_meets k lit : string_lit lit -> key_meets (decode_key V k) (key_means V k) lit.
Proof.
  intros SL r. destruct k as [|it|u]; cbn [decode_key].
  - left. exists (MKStr (str_text lit)). split.
    { unfold decode_string. destruct (string_lit_unquote lit r SL) as [i ->].
      assert (has_null_prefix (lit ++ r) = false) as -> by (destruct SL as (body & -> & _); reflexivity). reflexivity. }
    split; [constructor; apply str_text_means, SL|]. intros k' K. inversion K as [l t M| | |]; subst. f_equal. apply str_means_text; assumption.
  - assert (EQ : forall z, inside (fun nd x z => (nshape nd = HNull /\ z = x) \/ (nshape nd = HNum /\ int_ok it (ntext nd) z)) 0 lit z <-> key_means V (KYInt it) lit (MKInt z)).
    { intros z. split.
      - intros (nd & w & M & W & J & [[S ->]|[S H]]).
        + eapply km_int_null; [|exact W]. destruct J; try discriminate S. exact M.
        + eapply km_int; eassumption.
      - intros K. inversion K as [|it' l s z' w M W H|it' l w M W|]; subst.
        + exists (ND s HNum), w. split; [exact M|]. split; [exact W|]. split; [constructor; eapply int_text_number, H|]. right. auto.
        + exists (ND (bs "null") HNull), w. split; [exact M|]. split; [exact W|]. split; [constructor|]. left. auto. }
    destruct (from_string_meets (decode_int it) _ 0 (fun b W => int_reads it b 0 W) (fun nd J => int_meets it nd 0 J) lit r SL)
      as [(y & E & Y & U)|(e & y & E & NE & NO)]; rewrite E.
    + left. exists (MKInt y). split; [reflexivity|]. split; [apply EQ, Y|]. intros k' K. assert (K' := K). inversion K'; subst; f_equal; apply U, EQ, K.
    + right. eexists _, _, _. split; [reflexivity|]. split; [exact NE|]. intros k' K. assert (K' := K). inversion K'; subst; eapply NO, EQ, K.
  - assert (J : jnode (ND lit HStr)) by (constructor; exact SL).
    unfold decode_text_user. rewrite (string_parse lit r SL).
    assert (rv_null lit = false) as -> by (destruct SL as (body & -> & _); reflexivity).
    assert (rv_string lit = true) as -> by (destruct SL as (body & -> & _); reflexivity).
    destruct (string_lit_unquote lit [] SL) as [i Q]. rewrite app_nil_r in Q. rewrite Q.
    destruct (v_text V u (str_text lit) []) as [[e|] z] eqn:E2.
    + right. eexists _, _, _. split; [reflexivity|]. split; [apply (ok_text V OK _ _ _ _ _ E2)|]. intros k' K. inversion K as [| | |u' l t x M T]; subst.
      rewrite (str_means_text lit t SL M) in T. congruence.
    + left. exists (MKUser z). split; [reflexivity|]. split; [econstructor; [apply str_text_means, SL|exact E2]|]. intros k' K. inversion K as [| | |u' l t x M T]; subst.
      rewrite (str_means_text lit t SL M) in T. congruence.
Qed.

(** * Fields *)
Lemma map_meets {A} (D : bytes -> A -> dres A) R (D' : bytes -> mem -> dres mem) R' (f : A -> mem) nd x m :
  (forall r, stops nd r -> D' (ntext nd ++ r) m = d_map f (D (ntext nd ++ r) x)) -> (forall y, R' nd m y <-> exists z, y = f z /\ R nd x z) ->
  meets D R nd x -> meets D' R' nd m.
Proof.
  intros HD HR H r NS. rewrite (HD r NS). destruct (H r NS) as [(r1 & y & E1 & E2 & E3 & E4)|(r1 & e & y & E1 & E2 & E3)]; rewrite E1.
  - left. exists r1, (f y). split; [reflexivity|]. split; [exact E2|]. split; [apply HR; eauto|]. intros y' Y. apply HR in Y as (z & -> & Z). f_equal. apply E4, Z.
  - right. exists r1, e, (f y). split; [reflexivity|]. split; [exact E2|]. intros y' Y. apply HR in Y as (z & -> & Z). exact (E3 z Z).
Qed.
Lemma split_at {A} (l1 l1' : list A) x x' l2 l2' : l1 ++ x :: l2 = l1' ++ x' :: l2' -> length l1 = length l1' -> l1 = l1' /\ x = x' /\ l2 = l2'.
Proof.
  revert l1'. induction l1 as [|a l1 IH]; intros [|a' l1'] E L; try discriminate L; cbn [app] in E.
  - injection E as -> ->. auto.
  - injection E as -> E. injection L as L. destruct (IH l1' E L) as (-> & -> & ->). auto.
Qed.
Lemma path_meets D R nd p : (forall x, meets D R nd x) -> forall m, meets (on_path V p D) (at_path V R p) nd m.
Proof.
  intros HD. induction p as [|st p IH]; intros m.
  - eapply meets_ext; [reflexivity| |apply (HD m)]. intros y. split; [intros Y; inversion Y; assumption|constructor; assumption].
  - assert (NX : forall l1 (x : mem) l2, nth_error (l1 ++ x :: l2) (length l1) = Some x)
      by (intros; rewrite nth_error_app2, Nat.sub_diag by lia; reflexivity).
    destruct m; try (apply bad_meets; [intros b; destruct st; reflexivity|intros y Y; inversion Y; fail]).
    destruct st as [i|i s un].
    + destruct (nth_error l i) as [x|] eqn:E.
      * apply nth_error_split in E as (l1 & l2 & -> & <-).
        eapply (map_meets (on_path V p D) _ _ _ (fun y => MList (l1 ++ y :: l2)) nd x); [| |apply IH].
        -- intros b0 _. set (b := ntext nd ++ b0). cbn [on_path]. rewrite NX.
           destruct (on_path V p D b x) as [r o v]. unfold d_map. cbn [d_rest d_err d_val]. rewrite set_nth_app. reflexivity.
        -- intros y. split.
           ++ intros Y. inversion Y; subst. match goal with H : _ ++ _ :: _ = _ ++ _ :: _ |- _ => apply split_at in H as (-> & -> & ->); [eauto|congruence] end.
           ++ intros (z & -> & H). constructor. exact H.
      * apply bad_meets; [intros b; cbn [on_path]; rewrite E; reflexivity|]. intros y Y. inversion Y; subst. rewrite NX in E. discriminate E.
    + destruct (nth_error l i) as [x|] eqn:E.
      * apply nth_error_split in E as (l1 & l2 & -> & <-).
        destruct x; try (apply bad_meets; [intros b; cbn [on_path]; rewrite NX; reflexivity|];
          intros y Y; inversion Y; subst;
          match goal with H : _ ++ _ :: _ = _ ++ _ :: _ |- _ => apply split_at in H as (_ & E & _); [discriminate E|congruence] end).
        rename p0 into o. destruct o as [x|]; [|destruct un].
        -- eapply (map_meets (on_path V p D) _ _ _ (fun y => MList (l1 ++ MPtr (Some y) :: l2)) nd x); [| |apply IH].
           ++ intros b0 _. set (b := ntext nd ++ b0). cbn [on_path]. rewrite NX.
              destruct (on_path V p D b x) as [r o v]. unfold d_map. cbn [d_rest d_err d_val]. rewrite set_nth_app. reflexivity.
           ++ intros y. split.
              ** intros Y. inversion Y; subst; match goal with H : _ ++ _ :: _ = _ ++ _ :: _ |- _ => apply split_at in H as (-> & E & ->); [|congruence] end; [|discriminate E].
                 injection E as ->. eauto.
              ** intros (z & -> & H). constructor. exact H.
        -- intros r NS. right. exists [], EOther, (MList (l1 ++ MPtr None :: l2)). split; [cbn [on_path]; rewrite NX; reflexivity|]. split; [discriminate|].
           intros y Y. inversion Y; subst. match goal with H : _ ++ _ :: _ = _ ++ _ :: _ |- _ => apply split_at in H as (-> & E & ->); [discriminate E|congruence] end.
        -- eapply (map_meets (on_path V p D) _ _ _ (fun y => MList (l1 ++ MPtr (Some y) :: l2)) nd (zero V (YStruct s))); [| |apply IH].
           ++ intros b0 _. set (b := ntext nd ++ b0). cbn [on_path]. rewrite NX.
              destruct (on_path V p D b (zero V (YStruct s))) as [r o v]. unfold d_map. cbn [d_rest d_err d_val]. rewrite set_nth_app. reflexivity.
           ++ intros y. split.
              ** intros Y. inversion Y; subst; match goal with H : _ ++ _ :: _ = _ ++ _ :: _ |- _ => apply split_at in H as (-> & E & ->); [|congruence] end; [discriminate E|]. eauto.
              ** intros (z & -> & H). constructor. exact H.
      * apply bad_meets; [intros b; cbn [on_path]; rewrite E; reflexivity|]. intros y Y. inversion Y; subst; rewrite NX in E; discriminate E.
Qed.

(** The field a key selects. *)
Lemma find_first {A} (f : A -> bool) l : match find f l with
  | Some x => exists l1 l2, l = l1 ++ x :: l2 /\ f x = true /\ Forall (fun y => f y = false) l1
  | None => Forall (fun y => f y = false) l
  end.
Proof.
  induction l as [|x l IH]; cbn [find]; [constructor|]. destruct (f x) eqn:E.
  - exists [], l. auto.
  - destruct (find f l); [|constructor; assumption]. destruct IH as (l1 & l2 & -> & H & HF). exists (x :: l1), l2. split; [reflexivity|]. split; [exact H|constructor; assumption].
Qed.
Lemma beqb_neq a b : beqb a b = false <-> a <> b.
Proof. rewrite <- beqb_eq. destruct (beqb a b); split; congruence. Qed.
Lemma find_field_picks fs k : picks V F fs k (find_field V F fs k).
Proof.
  unfold find_field. pose proof (find_first (fun f => beqb (jf_name f) k) (rev fs)) as H1.
  destruct (find _ (rev fs)) as [f|].
  - destruct H1 as (l1 & l2 & E & Ef & HF). apply beqb_eq in Ef. apply (pk_exact V F fs k (rev l2) f (rev l1)); [|exact Ef|].
    + apply (f_equal (@rev _)) in E. rewrite rev_involutive, rev_app_distr in E. cbn [rev] in E. rewrite <- app_assoc in E. exact E.
    + apply Forall_rev. eapply Forall_impl; [|exact HF]. intros g Hg. apply beqb_neq, Hg.
  - assert (HN : Forall (fun g => ~ exact_name g k) fs).
    { rewrite <- (rev_involutive fs). apply Forall_rev. eapply Forall_impl; [|exact H1]. intros g Hg. apply beqb_neq, Hg. }
    destruct (d_nocase F) eqn:NC; [apply pk_none; [exact HN|congruence]|].
    pose proof (find_first (fun f => beqb (v_lower V (jf_name f)) (append_to_lower V k)) fs) as H2. destruct (find _ fs) as [f|].
    + destruct H2 as (l1 & l2 & E & Ef & HF). apply beqb_eq in Ef. eapply pk_fold; [exact HN|reflexivity || exact NC|exact E|exact Ef|].
      eapply Forall_impl; [|exact HF]. intros g Hg. apply beqb_neq, Hg.
    + apply pk_none; [exact HN|]. intros _. eapply Forall_impl; [|exact H2]. intros g Hg. apply beqb_neq, Hg.
Qed.
Lemma split_uniq {A} (P : A -> Prop) l1 x l2 l1' x' l2' : l1 ++ x :: l2 = l1' ++ x' :: l2' ->
  P x -> P x' -> Forall (fun y => ~ P y) l1 -> Forall (fun y => ~ P y) l1' -> x = x'.
Proof.
  revert l1'. induction l1 as [|a l1 IH]; intros [|a' l1'] E X X' F1 F2; cbn [app] in E.
  - congruence.
  - injection E as -> _. inversion F2; contradiction.
  - injection E as -> _. inversion F1; contradiction.
  - injection E as -> E. inversion F1; inversion F2; subst. eapply IH; eassumption.
Qed.
Lemma picks_uniq fs k o o' : picks V F fs k o -> picks V F fs k o' -> o = o'.
Proof.
  assert (NO : forall (P : jfield -> Prop) l1 f l2, Forall (fun g => ~ P g) (l1 ++ f :: l2) -> P f -> False).
  { intros P l1 f l2 H. apply Forall_app in H as [_ H]. inversion H; subst. assumption. }
  intros [l1 f l2 E N L|l1 f l2 N0 NC E N L|N0 N1] [l1' f' l2' E' N' L'|l1' f' l2' N0' NC' E' N' L'|N0' N1'].
  - f_equal. apply (split_uniq (fun g => exact_name g k) (rev l2) f (rev l1) (rev l2') f' (rev l1')); try assumption; try (apply Forall_rev; assumption).
    rewrite E in E'. apply (f_equal (@rev _)) in E'. rewrite !rev_app_distr in E'. cbn [rev] in E'. rewrite <- !app_assoc in E'. exact E'.
  - exfalso. rewrite E in N0'. exact (NO (fun g => exact_name g k) _ _ _ N0' N).
  - exfalso. rewrite E in N0'. exact (NO (fun g => exact_name g k) _ _ _ N0' N).
  - exfalso. rewrite E' in N0. exact (NO (fun g => exact_name g k) _ _ _ N0 N').
  - f_equal. apply (split_uniq (fun g => folded_name V g k) l1 f l2 l1' f' l2'); try assumption. congruence.
  - exfalso. specialize (N1' NC). rewrite E in N1'. exact (NO (fun g => folded_name V g k) _ _ _ N1' N).
  - exfalso. rewrite E' in N0. exact (NO (fun g => exact_name g k) _ _ _ N0 N').
  - exfalso. specialize (N1 NC'). rewrite E' in N1. exact (NO (fun g => folded_name V g k) _ _ _ N1 N').
  - reflexivity.
Qed.

(** * Pointers *)
Lemma ptr_meets n e nd x : jnode nd -> (forall x, meets (dec_ty n e) (stores e) nd x) -> meets (dec_ty n (YPtr e)) (stores (YPtr e)) nd x.
Proof.
  intros J H. destruct x; try (apply bad_meets; [intros b; rewrite dec_ty_eq; reflexivity|]; intros y Y; inversion Y; subst; cbn [shape_of null_keeps] in *; contradiction).
  destruct (nshape nd) eqn:S.
  { assert (C : (match p, e with Some _, YPtr _ => False | _, _ => True end) \/ exists x e', p = Some x /\ e = YPtr e') by (destruct p, e; eauto).
    destruct C as [C|(x & e' & -> & ->)].
    - apply leaf_meets. intros r NS. rewrite dec_ty_eq. cbv zeta. rewrite (null_only nd r J NS), S.
      replace (match p, e with Some x, YPtr _ => d_map (fun y => MPtr (Some y)) (dec_ty n e (ntext nd ++ r) x) | _, _ => DR (skipn 4 (ntext nd ++ r)) None (MPtr None) end)
        with (DR (skipn 4 (ntext nd ++ r)) None (MPtr None)) by (destruct p, e; try contradiction; reflexivity).
      cbn [d_err d_rest d_val]. split; [apply skip4_null; assumption|]. rewrite (node_eta nd), S. intros y. split; [intros Y; inversion Y; subst; cbn [nshape null_keeps] in *; try contradiction; congruence|].
      intros ->. constructor. exact C.
    - eapply (map_meets (dec_ty n (YPtr e')) _ _ _ (fun y => MPtr (Some y)) nd x); [| |apply H].
      + intros r NS. rewrite dec_ty_eq, (null_only nd r J NS), S. reflexivity.
      + intros y. rewrite (node_eta nd), S. split; [intros Y; inversion Y; subst; cbn [nshape null_keeps] in *; try contradiction; try congruence; eauto|].
        intros (z & -> & Z). constructor. exact Z. }
  all: eapply (map_meets (dec_ty n e) _ _ _ (fun y => MPtr (Some y)) nd (match p with Some x => x | None => zero V e end)); [| |apply H];
    [intros r NS; rewrite dec_ty_eq, (null_only nd r J NS), S; reflexivity|];
    (intros y; split; [intros Y; inversion Y; subst; cbn [nshape null_keeps] in *; try contradiction; try congruence; eauto|
       intros (z & -> & Z); constructor; [congruence|exact Z]]).
Qed.

(** * ",string" fields *)
Lemma quotable_meets n t nd x : quotable t -> jnode nd -> meets (dec_ty n t) (stores t) nd x.
Proof.
  intros Q J. revert x Q. induction t; intros x Q; cbn [quotable] in Q; try contradiction.
  - apply bool_meets, J.
  - apply ty_int_meets, J.
  - apply float_meets, J.
  - apply number_meets, J.
  - apply string_meets, J.
  - apply duration_meets; assumption.
  - apply ptr_meets; [exact J|]. intros y. apply IHt. destruct t; try contradiction; exact Q.
  - apply json_meets; assumption.
  - apply text_meets; assumption.
Qed.
Lemma field_meets n f nd x : jnode nd -> (jf_quot f = QNo -> meets (dec_ty n (jf_ty f)) (stores (jf_ty f)) nd x) ->
  (jf_quot f <> QNo -> quotable (jf_ty f)) ->
  meets (decode_field V f (dec_ty n (jf_ty f))) (quoted (jf_quot f) (stores (jf_ty f))) nd x.
Proof.
  intros J HM HQ. unfold decode_field. destruct (jf_quot f) eqn:Q.
  - eapply meets_ext; [reflexivity| |apply HM; reflexivity]. intros y. split; [intros Y; inversion Y; congruence|constructor; auto].
  - specialize (HQ ltac:(discriminate)). set (t := jf_ty f) in *. destruct (nshape nd) eqn:S.
    { eapply (meets_ext (dec_ty n t)); [|  |apply quotable_meets; eassumption].
      - intros r NS. unfold decode_from_string. rewrite (null_only nd r J NS), S. reflexivity.
      - intros y. rewrite (node_eta nd), S. split; [intros Y; inversion Y; congruence|apply qu_null; discriminate]. }
    4:{ pose proof (str_node_inv nd J S) as SL. intros r NS.
        destruct (from_string_meets (dec_ty n t) (stores t) x (fun b W => quotable_reads V F OK n t HQ b x W) (fun nd J => quotable_meets n t nd x HQ J) (ntext nd) r SL)
          as [(y & E & (v & w & I1 & I2 & I3 & I4) & U)|(e & y & E & NE & NO)].
        - left. exists r, y. split; [exact E|]. split; [reflexivity|]. rewrite (node_eta nd), S. split; [eapply qu_str; eauto|].
          intros y' Y. apply U. inversion Y; subst; try congruence. eexists _, _. eauto.
        - right. exists r, e, y. split; [exact E|]. split; [exact NE|]. rewrite (node_eta nd), S. intros y' Y. apply (NO y'). inversion Y; subst; try congruence. eexists _, _. eauto. }
    all: intros r NS; right; destruct (head_only nd r J NS) as (c & tl & Ec & Hc); unfold decode_from_string; rewrite (null_only nd r J NS), S in *; rewrite Ec;
      destruct (not_quote_unquote c tl) as (r0 & e0 & ->); [cbn in Hc; lia|]; eexists _, _, _; split; [reflexivity|]; split; [discriminate|];
      rewrite (node_eta nd), S; intros y Y; inversion Y; congruence.
  - specialize (HQ ltac:(discriminate)). set (t := jf_ty f) in *. destruct (nshape nd) eqn:S.
    { eapply (meets_ext (dec_ty n t)); [|  |apply quotable_meets; eassumption].
      - intros r NS. unfold decode_from_string_int. rewrite (null_only nd r J NS), S. reflexivity.
      - intros y. rewrite (node_eta nd), S. split; [intros Y; inversion Y; congruence|apply qu_null; discriminate]. }
    4:{ pose proof (str_node_inv nd J S) as SL. intros r NS.
        destruct (from_string_int_meets (dec_ty n t) (stores t) x (fun b W => quotable_reads V F OK n t HQ b x W) (fun nd J => quotable_meets n t nd x HQ J) (v_float V true) (ntext nd) r SL)
          as [(y & E & (v & w & I1 & I2 & I3 & I4 & I5) & U)|(r1 & e & y & E & NE & NO)].
        - left. exists r, y. split; [exact E|]. split; [reflexivity|]. rewrite (node_eta nd), S. split; [eapply qu_int; eauto|].
          intros y' Y. apply U. inversion Y; subst; try congruence. eexists _, _. eauto 6.
        - right. exists r1, e, y. split; [exact E|]. split; [exact NE|]. rewrite (node_eta nd), S. intros y' Y. apply (NO y'). inversion Y; subst; try congruence. eexists _, _. eauto 6. }
    all: intros r NS; right; destruct (head_only nd r J NS) as (c & tl & Ec & Hc); unfold decode_from_string_int; rewrite (null_only nd r J NS), S in *; rewrite Ec;
      replace (c =? 34) with false by (symmetry; apply Z.eqb_neq; cbn in Hc; lia); cbn [negb];
      (assert (NO : forall y, ~ quoted QInt (stores t) nd x y) by (rewrite (node_eta nd), S; intros y Y; inversion Y; congruence));
      repeat match goal with |- context [match ?d with _ => _ end] => match d with parse_number _ => destruct d | existsb _ _ => destruct d | v_float _ _ _ => destruct d end end;
      eexists _, _, _; (split; [reflexivity|]); (split; [discriminate|exact NO]).
Qed.

(** * Rejection of ']' where a value should be *)
Lemma bracket_rejected n t r x : (0 < n)%nat -> exists r1 e y, dec_ty n t (93 :: r) x = DR r1 (Some e) y /\ e <> EFuel.
Proof.
  intros HN. destruct n as [|n]; [lia|].
  assert (E2 : (exists c r', r = c :: r') \/ r = []) by (destruct r; eauto).
  revert x. induction t; intros x; rewrite dec_ty_eq; destruct x; try (eexists _, _, _; split; [reflexivity|discriminate]);
    try (destruct E2 as [(c & r' & ->)| ->]; eexists _, _, _; split; [reflexivity|discriminate|reflexivity|discriminate]);
    try (destruct E2 as [(c & r' & ->)| ->]; eexists _, _, _; (split; [reflexivity|discriminate])).
  - rename t into it. unfold decode_int. change (has_null_prefix (93 :: r)) with false. cbv iota. fold (parse_sint it (93 :: r)).
    destruct (parse_sint it (93 :: r)) as [v r'|r' e] eqn:E.
    + exfalso. apply sint_inv in E as (s & E1 & _ & E3 & _). apply int_text_number in E3.
      destruct (number_head s E3) as (c & u & -> & Hc). injection E1 as <- _. lia.
    + apply sint_err in E. eexists _, _, _. split; [reflexivity|].
      change (snd (input_error (93 :: r))) with ESyntax in E. destruct E as [->|[->| ->]]; discriminate.
  - change (has_null_prefix (93 :: r)) with false. cbv iota. destruct v; try (eexists _, _, _; split; [reflexivity|discriminate]). destruct empty; (eexists _, _, _; split; [reflexivity|discriminate]).
  - destruct (Nat.eqb (length l) n0); [|eexists _, _, _; split; [reflexivity|discriminate]].
    destruct E2 as [(c & r' & ->)| ->]; eexists _, _, _; (split; [reflexivity|discriminate]).
  - change (has_null_prefix (93 :: r)) with false. cbv iota.
    destruct (IHt (match p with Some x => x | None => zero V t end)) as (r1 & e & y & E & NE). rewrite E. eexists _, _, _. split; [reflexivity|exact NE].
Qed.

(** * The theorem *)
Lemma si_rel nd x y : stores YMapSI nd x y <->
  exists m m', x = MMap m /\ y = MMap m' /\ map_rel (stores YIface) (MIface JVNull) (key_means V KYString) mkey_eqb nd m m'.
Proof.
  split.
  - intros Y. inversion Y; subst; cbn [null_keeps] in *; try contradiction.
    match goal with H : _ (YMap _ _) _ _ _ |- _ => inversion H; subst; cbn [null_keeps] in *; try contradiction end. eexists _, _. split; [reflexivity|]. split; [reflexivity|]. 
    match goal with H : map_rel _ (zero V ?t) _ _ _ _ _ |- _ => unfold zero in H; replace (zero_f V (v_depth V) t) with (MIface JVNull) in H by (destruct (v_depth V); reflexivity); exact H end.
  - intros (m & m' & -> & -> & H). constructor. constructor. unfold zero. destruct (v_depth V); exact H.
Qed.
Lemma sr_rel nd x y : stores YMapSR nd x y <->
  exists m m', x = MMap m /\ y = MMap m' /\ map_rel (stores YRaw) (MRaw None) (key_means V KYString) mkey_eqb nd m m'.
Proof.
  split.
  - intros Y. inversion Y; subst; cbn [null_keeps] in *; try contradiction.
    match goal with H : _ (YMap _ _) _ _ _ |- _ => inversion H; subst; cbn [null_keeps] in *; try contradiction end. eexists _, _. split; [reflexivity|]. split; [reflexivity|]. 
    match goal with H : map_rel _ (zero V ?t) _ _ _ _ _ |- _ => unfold zero in H; replace (zero_f V (v_depth V) t) with (MRaw None) in H by (destruct (v_depth V); reflexivity); exact H end.
  - intros (m & m' & -> & -> & H). constructor. constructor. unfold zero. destruct (v_depth V); exact H.
Qed.
Lemma dec_ty_meets n : forall t nd x, jnode nd -> (length (ntext nd) < n)%nat -> meets (dec_ty n t) (stores t) nd x.
Proof.
  induction n as [|n IHn]; intros t nd x J HL; [lia|].
  revert nd x J HL. induction t; intros nd x J HL.
  - apply bool_meets, J.
  - apply ty_int_meets, J.
  - apply float_meets, J.
  - apply number_meets, J.
  - apply string_meets, J.
  - apply bytes_meets, J.
  - apply duration_meets; assumption.
  - apply time_meets; assumption.
  - apply iface_meets; assumption.
  - apply named_meets; assumption.
  - apply raw_meets, J.
  - (* arrays *)
    destruct x; try (apply bad_meets; [intros b; rewrite dec_ty_eq; reflexivity|]; intros y Y; inversion Y; subst; cbn [shape_of null_keeps] in *; contradiction).
    destruct (Nat.eqb (length l) n0) eqn:E.
    + eapply (wrap_meets (decode_array (dec_ty (Datatypes.S n) t))); [intros b; rewrite dec_ty_eq, E; reflexivity| |].
      2:{ apply decode_array_meets; [exact J| |intros r x; apply bracket_rejected; lia]. intros nd' x J' L. apply IHt; [exact J'|lia]. }
      apply Nat.eqb_eq in E. intros y. split; [intros Y; inversion Y; subst; try contradiction; eauto|intros (z & -> & Z); constructor; assumption].
    + apply bad_meets; [intros b; rewrite dec_ty_eq, E; reflexivity|]. apply Nat.eqb_neq in E. intros y Y; inversion Y; subst; try contradiction; congruence.
  - destruct x; try (apply bad_meets; [intros b; rewrite dec_ty_eq; reflexivity|]; intros y Y; inversion Y; subst; cbn [shape_of null_keeps] in *; contradiction).
    eapply (wrap_meets (decode_slice (dec_ty (Datatypes.S n) t) (zero V t))); [intros b; rewrite dec_ty_eq; reflexivity| |].
    2:{ apply decode_slice_meets; [exact J|]. intros nd' x J' L. apply IHt; [exact J'|lia]. }
    intros y. split; [intros Y; inversion Y; subst; try contradiction; eauto|intros (z & -> & Z); constructor; assumption].
  - destruct x; try (apply bad_meets; [intros b; rewrite dec_ty_eq; reflexivity|]; intros y Y; inversion Y; subst; cbn [shape_of null_keeps] in *; contradiction).
    eapply (wrap_meets (decode_map mkey_eqb (decode_key V k) (dec_ty (Datatypes.S n) t) (zero V t))); [intros b; rewrite dec_ty_eq; reflexivity| |].
    2:{ apply decode_map_meets; [exact J| |apply key_means_meets]. intros nd' J' L. apply IHt; [exact J'|lia]. }
    intros y. split; [intros Y; inversion Y; subst; try contradiction; eauto|intros (z & -> & Z); constructor; assumption].
  - destruct x; try (apply bad_meets; [intros b; rewrite dec_ty_eq; reflexivity|]; intros y Y; apply si_rel in Y as (? & ? & E & _); discriminate E).
    eapply (wrap_meets (decode_map mkey_eqb (decode_key V KYString) (fun b x => d_map MIface (decode_interface (d_usenum F) (v_float V true) b JVNull)) (MIface JVNull))); [intros b; rewrite dec_ty_eq; reflexivity| |].
    2:{ apply decode_map_meets; [exact J| |apply key_means_meets]. intros nd' J' L. eapply meets_ext; [|reflexivity|apply (iface_meets V F n nd' (MIface JVNull) J')].
        intros r NS. rewrite dec_ty_eq. reflexivity. }
    intros y. rewrite si_rel. split.
    + intros (m1 & m2 & E & -> & Z). injection E as ->. eauto.
    + intros (z & -> & Z). eauto 6.
  - destruct x; try (apply bad_meets; [intros b; rewrite dec_ty_eq; reflexivity|]; intros y Y; apply sr_rel in Y as (? & ? & E & _); discriminate E).
    eapply (wrap_meets (decode_map mkey_eqb (decode_key V KYString) (fun b x => d_map MRaw (decode_raw b None)) (MRaw None))); [intros b; rewrite dec_ty_eq; reflexivity| |].
    2:{ apply decode_map_meets; [exact J| |apply key_means_meets]. intros nd' J' L. eapply meets_ext; [|reflexivity|apply (raw_meets V F n nd' (MRaw None) J')].
        intros r NS. rewrite dec_ty_eq. reflexivity. }
    intros y. rewrite sr_rel. split.
    + intros (m1 & m2 & E & -> & Z). injection E as ->. eauto.
    + intros (z & -> & Z). eauto 6.
  - apply ptr_meets; [exact J|]. intros y. apply IHt; assumption.
  - (* structs *)
    destruct x; try (apply bad_meets; [intros b; rewrite dec_ty_eq; reflexivity|]; intros y Y; inversion Y; subst; cbn [shape_of null_keeps] in *; contradiction).
    set (look := fun k => match find_field V F (v_flds V i) k with
                          | Some f => Some (on_path V (jf_path f) (decode_field V f (dec_ty n (jf_ty f))))
                          | None => None
                          end).
    eapply (meets_ext (decode_struct look (d_disallow F)) _ (struct_rel (member V F i))).
    + intros r NS. rewrite dec_ty_eq. reflexivity.
    + intros y. split; [intros Y; inversion Y; subst; try contradiction; assumption|constructor; assumption].
    + apply decode_struct_meets; [exact J|]. intros k nd' x J' L. unfold look_meets, look. pose proof (find_field_picks (v_flds V i) k) as PK.
      destruct (find_field V F (v_flds V i) k) as [f|] eqn:FF.
      * eapply meets_ext; [reflexivity| |apply (path_meets _ (quoted (jf_quot f) (stores (jf_ty f)))); intros x'; apply field_meets].
        -- intros y. split; [intros Y; inversion Y as [i' k' v' x'' PK' DD|i' k' f' v' x'' y' PK' P]; subst; pose proof (picks_uniq _ _ _ _ PK PK'); [congruence|]|].
           ++ assert (f = f') as <- by congruence. exact P.
           ++ intros P. eapply me_field; eassumption.
        -- exact J'.
        -- intros _. apply IHn; [exact J'|lia].
        -- intros Q. eapply (ok_quot V OK); [|exact Q]. unfold find_field in FF. destruct (find _ (rev _)) eqn:E1.
           ++ injection FF as ->. apply find_some in E1 as [E1 _]. apply in_rev, E1.
           ++ destruct (d_nocase F); [discriminate|]. apply find_some in FF as [E2 _]. exact E2.
      * intros y. split; [intros Y; inversion Y as [i' k' v' x'' PK' DD|i' k' f' v' x'' y' PK' P]; subst; [auto|pose proof (picks_uniq _ _ _ _ PK PK'); congruence]|].
        intros [D ->]. constructor; assumption.
  - apply json_meets; assumption.
  - apply text_meets; assumption.
  - apply unsupported_meets; assumption.
Qed.
End Main.
