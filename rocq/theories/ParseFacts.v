(** Lemmas about the parsers of ParseModel.v: they accept exactly the grammar
    of SpecJson.v. *)
From Verif Require Import Bytes AsciiModel AsciiFacts Utf8Model ParseModel SpecJson.

(** * Generic list facts *)
Lemma upto_app v r : upto (v ++ r) r = v.
Proof.
  unfold upto. rewrite app_length. replace (length v + length r - length r)%nat with (length v) by lia.
  rewrite firstn_app, Nat.sub_diag, firstn_all, firstn_O. apply app_nil_r.
Qed.
Lemma firstn_app_len {A} (v r : list A) n : n = length v -> firstn n (v ++ r) = v.
Proof. intros ->. rewrite firstn_app, Nat.sub_diag, firstn_all, firstn_O. apply app_nil_r. Qed.
Lemma skipn_app_len {A} (v r : list A) n : n = length v -> skipn n (v ++ r) = r.
Proof. intros ->. rewrite skipn_app, Nat.sub_diag, skipn_all. reflexivity. Qed.

Lemma wf_app a b : wf (a ++ b) <-> wf a /\ wf b.
Proof. unfold wf. rewrite Forall_app. tauto. Qed.
Lemma wf_cons c b : wf (c :: b) <-> is_byte c /\ wf b.
Proof. unfold wf. split; [intros H; inversion H; auto | intros [? ?]; constructor; auto]. Qed.
Lemma wf_firstn n b : wf b -> wf (firstn n b).
Proof. intros H. rewrite <- (firstn_skipn n b) in H. apply wf_app in H. tauto. Qed.
Lemma wf_skipn n b : wf b -> wf (skipn n b).
Proof. intros H. rewrite <- (firstn_skipn n b) in H. apply wf_app in H. tauto. Qed.

(** * Whitespace *)
Definition nsp (s : bytes) : Prop := match s with [] => True | c :: _ => is_space c = false end.

Lemma is_space_iff c : is_space c = true <-> c = 32 \/ c = 9 \/ c = 10 \/ c = 13.
Proof. unfold is_space. rewrite !orb_true_iff, !Z.eqb_eq. tauto. Qed.
Lemma ws_forallb w : ws w <-> forallb is_space w = true.
Proof.
  unfold ws. rewrite forallb_forall, Forall_forall. split; intros H x Hx; apply is_space_iff; auto.
Qed.
Lemma ws_app a b : ws (a ++ b) <-> ws a /\ ws b.
Proof. unfold ws. rewrite Forall_app. tauto. Qed.
Lemma ws_nil : ws [].
Proof. constructor. Qed.

Lemma skip_from i j b : fst (skip_spaces_from i b) = fst (skip_spaces_from j b).
Proof. revert i j. induction b as [|c b IH]; intros i j; cbn; [reflexivity|]. destruct (is_space c); auto. Qed.
Lemma skip_spaces_nil : skip_spaces [] = [].
Proof. reflexivity. Qed.
Lemma skip_spaces_cons c b : skip_spaces (c :: b) = if is_space c then skip_spaces b else c :: b.
Proof.
  unfold skip_spaces, skip_spaces_n. cbn [skip_spaces_from]. destruct (is_space c); [apply skip_from|reflexivity].
Qed.
Lemma skip_spaces_ws w s : ws w -> skip_spaces (w ++ s) = skip_spaces s.
Proof.
  intros H. induction H as [|c w Hc Hw IH]; [reflexivity|]. cbn [app]. rewrite skip_spaces_cons.
  apply is_space_iff in Hc. rewrite Hc. exact IH.
Qed.
Lemma skip_spaces_nsp s : nsp s -> skip_spaces s = s.
Proof. destruct s; cbn [nsp]; intros H; [reflexivity|]. rewrite skip_spaces_cons, H. reflexivity. Qed.
Lemma skip_spaces_split b : exists w, ws w /\ b = w ++ skip_spaces b /\ nsp (skip_spaces b).
Proof.
  induction b as [|c b IH].
  - exists []. repeat split. constructor.
  - rewrite skip_spaces_cons. destruct (is_space c) eqn:Hc.
    + destruct IH as (w & Hw & E & Hn). exists (c :: w). repeat split; auto.
      * constructor; [apply is_space_iff, Hc | exact Hw].
      * cbn. congruence.
    + exists []. repeat split; [constructor | exact Hc].
Qed.
Lemma skip_spaces_all w : ws w -> skip_spaces w = [].
Proof. intros H. rewrite <- (app_nil_r w). rewrite skip_spaces_ws by exact H. reflexivity. Qed.
Lemma skip_spaces_le b : (length (skip_spaces b) <= length b)%nat.
Proof. destruct (skip_spaces_split b) as (w & _ & E & _). rewrite E at 2. rewrite app_length. lia. Qed.
Lemma skip_spaces_idem b : skip_spaces (skip_spaces b) = skip_spaces b.
Proof. destruct (skip_spaces_split b) as (w & _ & _ & H). apply skip_spaces_nsp, H. Qed.
Lemma wf_skip_spaces b : wf b -> wf (skip_spaces b).
Proof. destruct (skip_spaces_split b) as (w & _ & E & _). intros H. rewrite E in H. apply wf_app in H. tauto. Qed.

(** * Digits and numbers *)
Lemma is_digit_iff c : is_digit c = true <-> digit c.
Proof. unfold is_digit, digit. rewrite andb_true_iff, !Z.leb_le. lia. Qed.
Lemma is_digit_false c : is_digit c = false <-> ~ digit c.
Proof. rewrite <- is_digit_iff. destruct (is_digit c); intuition congruence. Qed.
Definition ndig (s : bytes) : Prop := match s with [] => True | c :: _ => is_digit c = false end.

Lemma skip_digits_split b : exists ds, Forall digit ds /\ b = ds ++ skip_digits b /\ ndig (skip_digits b).
Proof.
  induction b as [|c b IH]; cbn [skip_digits].
  - exists []. repeat split. constructor.
  - destruct (is_digit c) eqn:Hc.
    + destruct IH as (w & Hw & E & Hn). exists (c :: w). repeat split; auto.
      * constructor; [apply is_digit_iff, Hc | exact Hw].
      * cbn. congruence.
    + exists []. repeat split; [constructor | exact Hc].
Qed.
Lemma skip_digits_app ds s : Forall digit ds -> ndig s -> skip_digits (ds ++ s) = s.
Proof.
  intros H Hs. induction H as [|c w Hc Hw IH]; cbn [app skip_digits].
  - destruct s; cbn in *; [reflexivity|]. rewrite Hs. reflexivity.
  - apply is_digit_iff in Hc. rewrite Hc. exact IH.
Qed.

Lemma skip_digits_split1 c b : is_digit c = true ->
  exists ds, digits1 ds /\ c :: b = ds ++ skip_digits (c :: b) /\ ndig (skip_digits (c :: b)).
Proof.
  intros Hc. destruct (skip_digits_split b) as (ds & Hds & E & Hn).
  cbn [skip_digits]. rewrite Hc. exists (c :: ds). repeat split; auto; [discriminate| |cbn; congruence].
  constructor; [apply is_digit_iff, Hc|exact Hds].
Qed.

(** [r] does not continue a number. *)
Definition num_cont (c : Z) : bool := is_digit c || (c =? 46) || (c =? 101) || (c =? 69).
Definition num_stop (r : bytes) : Prop := match r with [] => True | c :: _ => num_cont c = false end.
Lemma num_stop_ndig r : num_stop r -> ndig r.
Proof. destruct r; cbn; [auto|]. unfold num_cont. destruct (is_digit z); cbn; [discriminate|auto]. Qed.

Ltac zb :=
  repeat match goal with
  | H : (_ =? _) = true |- _ => apply Z.eqb_eq in H
  | H : (_ =? _) = false |- _ => apply Z.eqb_neq in H
  | H : (_ <? _) = true |- _ => apply Z.ltb_lt in H
  | H : (_ <? _) = false |- _ => apply Z.ltb_ge in H
  | H : (_ <=? _) = true |- _ => apply Z.leb_le in H
  | H : (_ <=? _) = false |- _ => apply Z.leb_gt in H
  | H : _ || _ = true |- _ => apply orb_true_iff in H
  | H : _ || _ = false |- _ => apply orb_false_iff in H; destruct H
  | H : _ && _ = true |- _ => apply andb_true_iff in H; destruct H
  | H : negb _ = true |- _ => apply negb_true_iff in H
  | H : negb _ = false |- _ => apply negb_false_iff in H
  end.

Lemma parse_exp_sound p s v r : parse_exp (p ++ s) s = POk v r ->
  exists e, exp_lit e /\ s = e ++ r /\ v = p ++ e.
Proof.
  unfold parse_exp. destruct s as [|c s1].
  - intros E. injection E as <- <-. exists []. repeat split; [constructor|].
    rewrite upto_app, app_nil_r. reflexivity.
  - destruct ((c =? 101) || (c =? 69)) eqn:Hc.
    2:{ intros E. injection E as <- <-. exists []. repeat split; [constructor|].
        rewrite upto_app, app_nil_r. reflexivity. }
    set (s2 := match s1 with [] => s1 | c1 :: s2 => if (c1 =? 43) || (c1 =? 45) then s2 else s1 end).
    assert (Hs2 : exists sg, s1 = sg ++ s2 /\ (sg = [] \/ sg = [43] \/ sg = [45])).
    { subst s2. destruct s1 as [|c1 s2]; [exists []; auto|].
      destruct ((c1 =? 43) || (c1 =? 45)) eqn:H1; [|exists []; auto].
      exists [c1]. zb. destruct H1 as [H1|H1]; zb; subst; auto. }
    destruct Hs2 as (sg & E1 & Hsg). clearbody s2.
    destruct s2 as [|c2 s3]; [discriminate|].
    destruct (is_digit c2) eqn:H2; [|discriminate].
    intros E. injection E as Ev Er.
    destruct (skip_digits_split1 c2 s3 H2) as (ds & Hds & E3 & Hn).
    change (skip_digits (c2 :: s3) = r) in Er.
    change (upto (p ++ c :: s1) (skip_digits (c2 :: s3)) = v) in Ev.
    rewrite Er in E3, Hn, Ev.
    exists (c :: sg ++ ds). repeat split.
    + apply exp_some; [zb; destruct Hc; zb; auto | exact Hsg | exact Hds].
    + rewrite E1, E3. cbn [app]. rewrite <- app_assoc. reflexivity.
    + rewrite <- Ev, E1, E3.
      replace (p ++ c :: sg ++ ds ++ r) with ((p ++ c :: sg ++ ds) ++ r).
      2:{ rewrite <- app_assoc. cbn [app]. rewrite <- app_assoc. reflexivity. }
      apply upto_app.
Qed.
Lemma parse_frac_sound p s v r : parse_frac (p ++ s) s = POk v r ->
  exists f e, frac_lit f /\ exp_lit e /\ s = f ++ e ++ r /\ v = p ++ f ++ e.
Proof.
  unfold parse_frac. destruct s as [|c s1].
  - intros E. apply parse_exp_sound in E. destruct E as (e & He & E & ->).
    exists [], e. repeat split; auto. constructor.
  - destruct (c =? 46) eqn:Hc.
    + destruct s1 as [|c1 s2]; [discriminate|]. destruct (is_digit c1) eqn:H1; [|discriminate].
      destruct (skip_digits_split1 c1 s2 H1) as (ds & Hds & E3 & Hn).
      intros E. rewrite E3 in E at 1.
      replace (p ++ c :: ds ++ skip_digits (c1 :: s2)) with ((p ++ c :: ds) ++ skip_digits (c1 :: s2)) in E
        by (rewrite <- app_assoc; reflexivity).
      apply parse_exp_sound in E. destruct E as (e & He & E & ->).
      exists (c :: ds), e. repeat split; auto.
      * zb; subst. constructor. exact Hds.
      * rewrite E3, E. reflexivity.
      * rewrite <- !app_assoc. reflexivity.
    + intros E. apply parse_exp_sound in E. destruct E as (e & He & E & ->).
      exists [], e. repeat split; auto. constructor.
Qed.

Lemma parse_number_sound b v r : parse_number b = POk v r -> b = v ++ r /\ number_lit v.
Proof.
  unfold parse_number. destruct b as [|c b1]; [discriminate|].
  set (s := if c =? 45 then b1 else c :: b1).
  assert (Hs : exists sg, c :: b1 = sg ++ s /\ (sg = [] \/ sg = [45])).
  { subst s. destruct (c =? 45) eqn:Hc; [exists [c]; zb; subst; auto | exists []; auto]. }
  destruct Hs as (sg & E1 & Hsg). rewrite E1. clearbody s. clear E1.
  destruct s as [|d s1]; [discriminate|].
  destruct (is_digit d) eqn:Hd; cbn [negb]; [|discriminate].
  destruct (d =? 48) eqn:H0.
  - zb; subst d. 
    assert (Hz : forall x, POk (upto (sg ++ 48 :: s1) s1) s1 = x -> x = POk v r ->
                 sg ++ 48 :: s1 = v ++ r /\ number_lit v).
    { intros x <- E. injection E as <- <-.
      replace (sg ++ 48 :: s1) with ((sg ++ [48]) ++ s1) by (rewrite <- app_assoc; reflexivity).
      rewrite upto_app. split; [reflexivity|].
      apply (number_intro sg [48] [] []); auto; constructor. }
    destruct s1 as [|x s2]; [eapply Hz; reflexivity|].
    destruct (negb (x =? 46) && negb (x =? 101) && negb (x =? 69)); [eapply Hz; reflexivity|].
    destruct (is_digit x) eqn:Hx; [discriminate|].
    assert (Es : skip_digits (x :: s2) = x :: s2) by (cbn; rewrite Hx; reflexivity). rewrite Es.
    intros E. replace (sg ++ 48 :: x :: s2) with ((sg ++ [48]) ++ x :: s2) in E |- *
      by (rewrite <- app_assoc; reflexivity).
    apply parse_frac_sound in E. destruct E as (f & e & Hf & He & E & ->).
    rewrite E. split; [rewrite <- !app_assoc; reflexivity|].
    rewrite <- app_assoc. apply number_intro; auto. constructor.
  - destruct (skip_digits_split1 d s1 Hd) as (ds & [Hne Hds] & E3 & Hn).
    intros E. rewrite E3 in E at 1. rewrite app_assoc in E.
    apply parse_frac_sound in E. destruct E as (f & e & Hf & He & E & ->).
    rewrite E3, E. split; [rewrite <- !app_assoc; reflexivity|].
    rewrite <- app_assoc. apply number_intro; auto.
    destruct ds as [|d' ds']; [congruence|].
    cbn [app] in E3. injection E3 as <- _. inversion Hds; subst. constructor; auto.
    apply is_digit_iff in Hd. unfold digit in Hd. zb. lia.
Qed.

Lemma parse_exp_complete p e r : exp_lit e -> num_stop r -> parse_exp (p ++ e ++ r) (e ++ r) = POk (p ++ e) r.
Proof.
  intros He Hr. destruct He as [|x sg ds Hx Hsg [Hne Hds]].
  - cbn [app]. rewrite app_nil_r. unfold parse_exp. destruct r as [|c r'].
    + rewrite upto_app. reflexivity.
    + cbn in Hr. unfold num_cont in Hr. zb.
      destruct ((c =? 101) || (c =? 69)) eqn:Hc; [zb; lia|]. rewrite upto_app. reflexivity.
  - replace (p ++ (x :: sg ++ ds) ++ r) with ((p ++ x :: sg ++ ds) ++ r)
      by (rewrite <- !app_assoc; reflexivity).
    set (L := (p ++ x :: sg ++ ds) ++ r). cbn [app parse_exp]. unfold parse_exp.
    replace ((x =? 101) || (x =? 69)) with true by (destruct Hx; subst; reflexivity).
    destruct ds as [|d ds]; [congruence|].
    assert (Hd : is_digit d = true) by (apply is_digit_iff; inversion Hds; auto).
    assert (Hd' : digit d) by (inversion Hds; auto). unfold digit in Hd'.
    assert (E : (match (sg ++ d :: ds) ++ r with
             | [] => (sg ++ d :: ds) ++ r
             | c1 :: s2 => if (c1 =? 43) || (c1 =? 45) then s2 else (sg ++ d :: ds) ++ r
             end) = (d :: ds) ++ r).
    { destruct Hsg as [->|[->| ->]]; cbn [app]; try reflexivity.
      destruct ((d =? 43) || (d =? 45)) eqn:X; [|reflexivity]. zb. destruct X; zb; lia. }
    rewrite E. cbn [app]. rewrite Hd.
    change (d :: ds ++ r) with ((d :: ds) ++ r).
    rewrite skip_digits_app by (auto using num_stop_ndig).
    subst L. rewrite upto_app. reflexivity.
Qed.
Lemma exp_lit_ndig e r : exp_lit e -> num_stop r -> ndig (e ++ r).
Proof.
  intros [|x sg ds Hx Hsg Hds] Hr; cbn; [apply num_stop_ndig, Hr|]. destruct Hx; subst; reflexivity.
Qed.
Lemma parse_frac_complete p f e r : frac_lit f -> exp_lit e -> num_stop r ->
  parse_frac (p ++ f ++ e ++ r) (f ++ e ++ r) = POk (p ++ f ++ e) r.
Proof.
  intros Hf He Hr. destruct Hf as [|ds [Hne Hds]].
  - cbn [app].
    assert (E : parse_frac (p ++ e ++ r) (e ++ r) = parse_exp (p ++ e ++ r) (e ++ r)).
    { unfold parse_frac. destruct (e ++ r) as [|c s] eqn:Ee; [reflexivity|].
      destruct (c =? 46) eqn:Hc; [|reflexivity]. exfalso. zb. subst c.
      destruct He as [|x sg ds Hx]; cbn in Ee.
      - subst r. discriminate Hr.
      - injection Ee as -> _. destruct Hx; discriminate. }
    rewrite E. apply parse_exp_complete; auto.
  - destruct ds as [|d ds]; [congruence|].
    assert (Hd : is_digit d = true) by (apply is_digit_iff; inversion Hds; auto).
    set (L := p ++ (46 :: d :: ds) ++ e ++ r).
    assert (EL : L = (p ++ 46 :: d :: ds) ++ e ++ r).
    { unfold L. rewrite <- (app_assoc p). reflexivity. }
    cbn [app]. unfold parse_frac. change (46 =? 46) with true. cbv iota. rewrite Hd.
    change (d :: ds ++ e ++ r) with ((d :: ds) ++ e ++ r).
    rewrite skip_digits_app by (auto using exp_lit_ndig).
    rewrite EL, parse_exp_complete by auto. rewrite <- app_assoc. reflexivity.
Qed.

Lemma frac_exp_ndig f e r : frac_lit f -> exp_lit e -> num_stop r -> ndig (f ++ e ++ r).
Proof. intros [|ds Hds] He Hr; cbn; [apply exp_lit_ndig; auto|reflexivity]. Qed.

Lemma parse_number_complete v r : number_lit v -> num_stop r -> parse_number (v ++ r) = POk v r.
Proof.
  intros [sg i f e Hsg Hi Hf He] Hr.
  replace ((sg ++ i ++ f ++ e) ++ r) with (sg ++ i ++ f ++ e ++ r) by (rewrite <- !app_assoc; reflexivity).
  assert (Hi' : exists d t, i = d :: t /\ digit d /\ d <> 45).
  { destruct Hi as [|d ds Hd Hds]; [exists 48, []|exists d, ds]; unfold digit; repeat split; lia. }
  destruct Hi' as (d & t & Ei & Hd & Hd45).
  assert (E : exists c b1, sg ++ i ++ f ++ e ++ r = c :: b1 /\
              (if c =? 45 then b1 else c :: b1) = i ++ f ++ e ++ r).
  { destruct Hsg as [->| ->]; cbn [app]; [|eexists _, _; split; [reflexivity|reflexivity]].
    subst i. cbn [app]. exists d, (t ++ f ++ e ++ r). split; [reflexivity|].
    apply Z.eqb_neq in Hd45. rewrite Hd45. reflexivity. }
  destruct E as (c & b1 & E & Es). unfold parse_number. rewrite E, Es.
  rewrite <- E. clear E Es c b1.
  apply is_digit_iff in Hd.
  assert (G : parse_frac (sg ++ i ++ f ++ e ++ r) (f ++ e ++ r) = POk (sg ++ i ++ f ++ e) r).
  { rewrite (app_assoc sg), parse_frac_complete by auto. rewrite <- app_assoc. reflexivity. }
  destruct Hi as [|d' ds Hd' Hds].
  - cbn [app]. change (is_digit 48) with true. change (48 =? 48) with true. cbv iota. cbn [negb].
    cbn [app] in G.
    assert (N := frac_exp_ndig f e r Hf He Hr).
    destruct (f ++ e ++ r) as [|x s] eqn:Ex.
    + apply app_eq_nil in Ex. destruct Ex as [-> Ex]. apply app_eq_nil in Ex. destruct Ex as [-> ->].
      cbn [app]. change (sg ++ [48]) with (sg ++ [48]). f_equal.
      rewrite <- (app_nil_r (sg ++ [48])) at 1. apply upto_app.
    + cbn [ndig] in N. destruct (negb (x =? 46) && negb (x =? 101) && negb (x =? 69)) eqn:Hx.
      * (* no fraction, no exponent *)
        assert (f = []) as ->.
        { destruct Hf; [reflexivity|]. cbn in Ex. injection Ex as <- _. discriminate Hx. }
        assert (e = []) as ->.
        { destruct He as [|y sg' ds Hy]; [reflexivity|]. cbn in Ex. injection Ex as <- _.
          destruct Hy; subst; discriminate Hx. }
        cbn [app] in Ex. subst r. cbn [app]. f_equal.
        replace (sg ++ 48 :: x :: s) with ((sg ++ [48]) ++ x :: s) by (rewrite <- app_assoc; reflexivity).
        apply upto_app.
      * rewrite N. cbn [skip_digits]. rewrite N. exact G.
  - injection Ei as -> ->. cbn [app]. rewrite Hd. cbn [negb].
    destruct (d =? 48) eqn:H0; [zb; lia|].
    change (d :: t ++ f ++ e ++ r) with ((d :: t) ++ f ++ e ++ r).
    rewrite skip_digits_app; [exact G| |apply frac_exp_ndig; auto].
    constructor; [unfold digit; lia|exact Hds].
Qed.

(** * Strings *)
Lemma index_byte_some c s k : index_byte c s = Some k ->
  exists p q, s = p ++ c :: q /\ length p = k /\ ~ In c p.
Proof.
  revert k. induction s as [|d s IH]; intros k; cbn [index_byte]; [discriminate|].
  destruct (d =? c) eqn:E.
  - intros H. injection H as <-. zb. subst. exists [], s. auto.
  - destruct (index_byte c s) as [i|]; [|discriminate]. intros H. injection H as <-.
    destruct (IH i eq_refl) as (p & q & -> & Hl & Hi).
    exists (d :: p), q. cbn. repeat split; auto. intros [->|H]; [zb; congruence|auto].
Qed.
Lemma index_byte_none c s : index_byte c s = None -> ~ In c s.
Proof.
  induction s as [|d s IH]; cbn [index_byte]; [auto|]. destruct (d =? c) eqn:E; [discriminate|].
  destruct (index_byte c s); [discriminate|]. intros _ [->|H]; [zb; congruence|]. apply IH; auto.
Qed.
Lemma index_byte_app c p q : ~ In c p -> index_byte c (p ++ c :: q) = Some (length p).
Proof.
  induction p as [|d p IH]; cbn [app index_byte length In]; intros H.
  - rewrite Z.eqb_refl. reflexivity.
  - destruct (d =? c) eqn:E; [zb; tauto|]. rewrite IH by tauto. reflexivity.
Qed.
Lemma index_byte_notin c s : ~ In c s -> index_byte c s = None.
Proof.
  induction s as [|d s IH]; cbn [index_byte In]; intros H; [reflexivity|].
  destruct (d =? c) eqn:E; [zb; tauto|]. rewrite IH by tauto. reflexivity.
Qed.

Lemma hex_val_iff d : (exists x, hex_val d = Some x) <-> hex_digit d.
Proof.
  unfold hex_val, hex_digit.
  destruct ((48 <=? d) && (d <=? 57)) eqn:A; [zb; split; [intros _; lia|eauto]|].
  destruct ((65 <=? d) && (d <=? 70)) eqn:B; [zb; split; [intros _; lia|eauto]|].
  destruct ((97 <=? d) && (d <=? 102)) eqn:C; [zb; split; [intros _; lia|eauto]|].
  apply andb_false_iff in A, B, C. split; [intros [x Hx]; discriminate|].
  intros Hx. exfalso. destruct A, B, C; zb; lia.
Qed.
Lemma hex_val_bound d x : hex_val d = Some x -> 0 <= x < 16.
Proof.
  unfold hex_val.
  destruct ((48 <=? d) && (d <=? 57)) eqn:A; [zb; intros Hx; injection Hx as <-; lia|].
  destruct ((65 <=? d) && (d <=? 70)) eqn:B; [zb; intros Hx; injection Hx as <-; lia|].
  destruct ((97 <=? d) && (d <=? 102)) eqn:C; [zb; intros Hx; injection Hx as <-; lia|discriminate].
Qed.
Lemma hex_step f value d b x : hex_val d = Some x -> 0 <= value < 2 ^ 32 ->
  parse_uint_hex_loop f value (d :: b) = parse_uint_hex_loop false (value * 16 + x) b.
Proof.
  intros H Hv. assert (Hx := hex_val_bound _ _ H). cbn [parse_uint_hex_loop]. rewrite H.
  change ((2 ^ 64 - 1) / 16) with 1152921504606846975.
  unfold wrap64. change (2 ^ 32) with 4294967296 in Hv. change (2 ^ 64) with 18446744073709551616.
  rewrite (Z.mod_small (value * 16)) by lia.
  rewrite (Z.mod_small (18446744073709551616 - 1 - x)) by lia.
  rewrite (Z.mod_small (value * 16 + x)) by lia.
  replace (value >? 1152921504606846975) with false by (symmetry; rewrite Z.gtb_ltb; apply Z.ltb_ge; lia).
  replace (value * 16 >? 18446744073709551616 - 1 - x) with false
    by (symmetry; rewrite Z.gtb_ltb; apply Z.ltb_ge; lia).
  reflexivity.
Qed.
Lemma hex_stop value d b : hex_val d = None -> parse_uint_hex_loop false value (d :: b) = Some (value, d :: b).
Proof. intros H. cbn [parse_uint_hex_loop]. rewrite H. reflexivity. Qed.

(** The code point denoted by four hexadecimal digits. *)
Definition hex4 (a b c d : Z) : Z := ((a * 16 + b) * 16 + c) * 16 + d.
Lemma parse_unicode_cons a b c d s :
  parse_unicode (a :: b :: c :: d :: s) =
  match hex_val a, hex_val b, hex_val c, hex_val d with
  | Some x, Some y, Some z, Some t => Some (hex4 x y z t)
  | _, _, _, _ => None
  end.
Proof.
  unfold parse_unicode. cbn [length Nat.ltb Nat.leb firstn parse_uint_hex].
  destruct (hex_val a) as [x|] eqn:Ha.
  2:{ cbn [parse_uint_hex_loop]. rewrite Ha. reflexivity. }
  assert (Bx := hex_val_bound _ _ Ha).
  rewrite (hex_step _ _ _ _ _ Ha) by (cbv; split; congruence).
  destruct (hex_val b) as [y|] eqn:Hb; [|rewrite hex_stop by exact Hb; reflexivity].
  assert (By := hex_val_bound _ _ Hb).
  rewrite (hex_step _ _ _ _ _ Hb) by (change (2 ^ 32) with 4294967296; lia).
  destruct (hex_val c) as [z|] eqn:Hc; [|rewrite hex_stop by exact Hc; reflexivity].
  assert (Bz := hex_val_bound _ _ Hc).
  rewrite (hex_step _ _ _ _ _ Hc) by (change (2 ^ 32) with 4294967296; lia).
  destruct (hex_val d) as [t|] eqn:Hd; [|rewrite hex_stop by exact Hd; reflexivity].
  rewrite (hex_step _ _ _ _ _ Hd) by (change (2 ^ 32) with 4294967296; lia).
  cbn [parse_uint_hex_loop]. unfold hex4. rewrite Z.mul_0_l, Z.add_0_l. reflexivity.
Qed.
Lemma parse_unicode_short s : (length s < 4)%nat -> parse_unicode s = None.
Proof. intros H. unfold parse_unicode. apply Nat.ltb_lt in H. rewrite H. reflexivity. Qed.
Lemma parse_unicode_some s u : parse_unicode s = Some u ->
  exists a b c d t, s = a :: b :: c :: d :: t /\ hex_digit a /\ hex_digit b /\ hex_digit c /\ hex_digit d.
Proof.
  intros H. destruct s as [|a [|b [|c [|d t]]]]; try discriminate H.
  rewrite parse_unicode_cons in H.
  destruct (hex_val a) eqn:Ha; [|discriminate]. destruct (hex_val b) eqn:Hb; [|discriminate].
  destruct (hex_val c) eqn:Hc; [|discriminate]. destruct (hex_val d) eqn:Hd; [|discriminate].
  exists a, b, c, d, t. repeat split; apply hex_val_iff; eauto.
Qed.
Lemma parse_unicode_hex a b c d s : hex_digit a -> hex_digit b -> hex_digit c -> hex_digit d ->
  exists u, parse_unicode (a :: b :: c :: d :: s) = Some u.
Proof.
  rewrite <- !hex_val_iff. intros [x Ha] [y Hb] [z Hc] [t Hd].
  rewrite parse_unicode_cons, Ha, Hb, Hc, Hd. eauto.
Qed.

Lemma simple_escape_iff c : is_simple_escape c = true <-> In c [34; 92; 47; 98; 102; 110; 114; 116].
Proof. unfold is_simple_escape. cbn [In]. rewrite !orb_true_iff, !Z.eqb_eq. intuition congruence. Qed.

Lemma string_loop_sound n s r : (length s <= n)%nat -> wf s -> string_loop s = SLEnd r ->
  exists body, s = body ++ 34 :: r /\ str_body body.
Proof.
  revert s. induction n as [|n IH]; intros s Hl Hw.
  { destruct s; [discriminate|cbn in Hl; lia]. }
  destruct s as [|c s1]; [discriminate|]. cbn [string_loop]. cbn [length] in Hl.
  apply wf_cons in Hw. destruct Hw as [Hc Hw].
  destruct (c =? 92) eqn:E92.
  - zb. subst c. destruct s1 as [|e s2]; [discriminate|]. apply wf_cons in Hw. destruct Hw as [_ Hw].
    cbn [length] in Hl.
    destruct (is_simple_escape e) eqn:Ee.
    + intros H. destruct (IH s2) as (b & -> & Hb); [lia|exact Hw|exact H|].
      exists (92 :: e :: b). split; [reflexivity|]. apply sb_esc; [apply simple_escape_iff, Ee|exact Hb].
    + destruct (e =? 117) eqn:Eu; [|discriminate]. zb. subst e.
      destruct s2 as [|h1 [|h2 [|h3 [|h4 s3]]]]; try discriminate.
      destruct (parse_unicode (h1 :: h2 :: h3 :: h4 :: s3)) eqn:Ep; [|discriminate].
      intros H. destruct (IH s3) as (b & -> & Hb); [cbn in Hl; lia| |exact H|].
      { apply (wf_skipn 4) in Hw. exact Hw. }
      exists (92 :: 117 :: h1 :: h2 :: h3 :: h4 :: b). split; [reflexivity|].
      apply parse_unicode_some in Ep. destruct Ep as (? & ? & ? & ? & ? & E & ? & ? & ? & ?).
      injection E as <- <- <- <- _. apply sb_uni; auto.
  - destruct (c =? 34) eqn:E34.
    + intros H. injection H as ->. zb. subst. exists []. split; [reflexivity|constructor].
    + destruct (c <? 32) eqn:E32; [discriminate|]. intros H.
      destruct (IH s1) as (b & -> & Hb); [lia|exact Hw|exact H|].
      exists (c :: b). split; [reflexivity|]. zb. unfold is_byte in Hc. constructor; auto; lia.
Qed.
Lemma string_loop_complete body r : str_body body -> string_loop (body ++ 34 :: r) = SLEnd r.
Proof.
  induction 1 as [|c s Hc H34 H92 Hs IH|e s He Hs IH|h1 h2 h3 h4 s H1 H2 H3 H4 Hs IH]; cbn [app string_loop].
  - reflexivity.
  - apply Z.eqb_neq in H34, H92. rewrite H34, H92. destruct (c <? 32) eqn:E; [zb; lia|]. exact IH.
  - change (92 =? 92) with true. cbv iota. apply simple_escape_iff in He. rewrite He. exact IH.
  - change (92 =? 92) with true. cbv iota. change (is_simple_escape 117) with false. cbv iota.
    change (117 =? 117) with true. cbv iota.
    destruct (parse_unicode_hex h1 h2 h3 h4 (s ++ 34 :: r)) as [u ->]; auto.
Qed.

(** The body of a string that the fast path of parseStringFast takes. *)
Definition plain (body : bytes) : bool := forallb printable body && negb (existsb (Z.eqb 92) body).

Lemma plain_str_body p : plain p = true -> ~ In 34 p -> str_body p.
Proof.
  unfold plain. induction p as [|c p IH]; cbn [forallb existsb]; intros H Hq; [constructor|].
  apply andb_true_iff in H. destruct H as [H1 H2]. apply andb_true_iff in H1. destruct H1 as [H0 H1].
  rewrite negb_orb in H2. apply andb_true_iff in H2. destruct H2 as [H2 H3]. unfold printable in H0. zb.
  cbn [In] in Hq. constructor; try lia. apply IH; [rewrite H1, H3; reflexivity|tauto].
Qed.
Lemma existsb_in c p : existsb (Z.eqb c) p = true <-> In c p.
Proof. rewrite existsb_exists. split; [intros (x & H & E); zb; subst; auto | intros H; exists c; rewrite Z.eqb_refl; auto]. Qed.

Lemma first_quote_body body r p q : str_body body -> body ++ 34 :: r = p ++ 34 :: q -> ~ In 34 p -> ~ In 92 p ->
  body = p /\ r = q.
Proof.
  intros H. revert p. induction H as [|c s Hc H34 H92 Hs IH|e s He Hs IH|h1 h2 h3 h4 s H1 H2 H3 H4 Hs IH];
    intros p E Hq Hb.
  - destruct p as [|x p]; cbn in E; injection E; [auto|]. intros _ <-. cbn in Hq. tauto.
  - destruct p as [|x p]; cbn in E; [injection E; intros; congruence|]. injection E as <- E.
    cbn in Hq, Hb. destruct (IH p E); try tauto. subst. auto.
  - destruct p as [|x p]; cbn in E; [discriminate|]. injection E as <- E. cbn in Hb. tauto.
  - destruct p as [|x p]; cbn in E; [discriminate|]. injection E as <- E. cbn in Hb. tauto.
Qed.

Lemma parse_string_fast_sound b v r esc : wf b -> parse_string_fast b = SOk v r esc ->
  exists body, v = 34 :: body ++ [34] /\ b = v ++ r /\ str_body body /\ (esc = false -> plain body = true).
Proof.
  intros Hw. unfold parse_string_fast. destruct b as [|c [|c1 b1']]; try discriminate.
  set (b1 := c1 :: b1') in *. apply wf_cons in Hw. destruct Hw as [Hc Hw].
  destruct (c =? 34) eqn:E34; cbn [negb]; [|discriminate]. zb. subst c.
  destruct (index_byte 34 b1) as [k|] eqn:Ek; [|discriminate].
  apply index_byte_some in Ek. destruct Ek as (p & q & E1 & Hk & Hp).
  assert (Efst : firstn (k + 1) b1 = p ++ [34]).
  { rewrite E1. change (34 :: q) with ([34] ++ q). rewrite app_assoc. apply firstn_app_len.
    rewrite app_length. cbn. lia. }
  rewrite Efst.
  assert (Hslow : match string_loop b1 with
                  | SLEnd r => SOk (upto (34 :: b1) r) r true
                  | SLBad => SErr (34 :: b1) ESyntax
                  | SLMissing => SErr [] ESyntax
                  end = SOk v r esc ->
       exists body, v = 34 :: body ++ [34] /\ 34 :: b1 = v ++ r /\ str_body body /\ (esc = false -> plain body = true)).
  { destruct (string_loop b1) as [r'| |] eqn:Es; try discriminate.
    intros H. injection H as Hv Hr He. subst r' esc.
    apply (string_loop_sound (length b1)) in Es; [|lia|exact Hw].
    destruct Es as (body & Eb & Hb). exists body.
    assert (E : 34 :: b1 = (34 :: body ++ [34]) ++ r) by (rewrite Eb; cbn; rewrite <- app_assoc; reflexivity).
    rewrite E, upto_app in Hv. subst v. repeat split; auto. discriminate. }
  destruct (index_byte 92 (p ++ [34])) as [j|] eqn:Ej; [exact Hslow|].
  destruct (ascii_valid_print (p ++ [34])) eqn:Ea; [|exact Hslow].
  clear Hslow. intros H. injection H as Hv Hr He. subst esc.
  assert (Hwp : wf (p ++ [34])). { rewrite E1 in Hw. apply wf_app in Hw. apply wf_app. destruct Hw as [Hw1 Hw2].
    split; [exact Hw1|]. apply wf_cons in Hw2. apply wf_cons. split; [tauto|constructor]. }
  rewrite ascii_valid_print_spec, forallb_app in Ea by exact Hwp. apply andb_true_iff in Ea. destruct Ea as [Ea _].
  apply index_byte_none in Ej. rewrite in_app_iff in Ej.
  assert (Hpl : plain p = true).
  { unfold plain. rewrite Ea. cbn. destruct (existsb (Z.eqb 92) p) eqn:X; [|reflexivity].
    apply existsb_in in X. tauto. }
  assert (E : 34 :: b1 = (34 :: p ++ [34]) ++ q) by (rewrite E1; cbn; rewrite <- app_assoc; reflexivity).
  assert (Hlen : length (34 :: p ++ [34]) = (k + 2)%nat) by (cbn; rewrite app_length; cbn; lia).
  change (firstn (k + 2) (34 :: b1) = v) in Hv. change (skipn (k + 2) (34 :: b1) = r) in Hr.
  rewrite E, firstn_app_len in Hv by (symmetry; exact Hlen).
  rewrite E, skipn_app_len in Hr by (symmetry; exact Hlen). subst v r.
  exists p. repeat split; auto. apply plain_str_body; auto.
Qed.

Lemma parse_string_fast_complete body r : wf body -> str_body body ->
  parse_string_fast ((34 :: body ++ [34]) ++ r) = SOk (34 :: body ++ [34]) r (negb (plain body)).
Proof.
  intros Hw Hb. set (v := 34 :: body ++ [34]).
  assert (Ev : v ++ r = 34 :: body ++ 34 :: r) by (unfold v; cbn; rewrite <- app_assoc; reflexivity).
  rewrite Ev. unfold parse_string_fast.
  destruct (body ++ 34 :: r) as [|c1 b1'] eqn:E1; [destruct body; discriminate|].
  set (b1 := c1 :: b1') in *. change (34 =? 34) with true. cbn [negb].
  assert (Hslow : match string_loop b1 with
                  | SLEnd r => SOk (upto (34 :: b1) r) r true
                  | SLBad => SErr (34 :: b1) ESyntax
                  | SLMissing => SErr [] ESyntax
                  end = SOk v r true).
  { replace (string_loop b1) with (SLEnd r) by (rewrite <- E1; symmetry; apply string_loop_complete, Hb).
    rewrite <- Ev, upto_app. reflexivity. }
  destruct (index_byte 34 b1) as [k|] eqn:Ek.
  2:{ apply index_byte_none in Ek. exfalso. apply Ek. rewrite <- E1. apply in_or_app. right. left. reflexivity. }
  apply index_byte_some in Ek. destruct Ek as (p & q & E2 & Hk & Hp).
  assert (Efst : firstn (k + 1) b1 = p ++ [34]).
  { rewrite E2. change (34 :: q) with ([34] ++ q). rewrite app_assoc. apply firstn_app_len.
    rewrite app_length. cbn. lia. }
  rewrite Efst.
  destruct (index_byte 92 (p ++ [34])) as [j|] eqn:Ej.
  - rewrite Hslow. replace (plain body) with false; [reflexivity|]. symmetry.
    destruct (plain body) eqn:Hpl; [|reflexivity]. exfalso.
    unfold plain in Hpl. zb.
    assert (H92 : ~ In 92 body) by (intros X; apply existsb_in in X; congruence).
    assert (H34 : ~ In 34 body).
    { clear - Hb H92. induction Hb; cbn [In] in *; tauto. }
    assert (Hx : p = body).
    { assert (Ek := index_byte_app 34 body r H34). rewrite E1, E2 in Ek.
      rewrite (index_byte_app 34 p q Hp) in Ek. injection Ek as Ek.
      rewrite E2 in E1. apply (f_equal (firstn (length p))) in E1.
      rewrite !firstn_app_len in E1 by congruence. congruence. }
    subst p. assert (Ej' : In 92 (body ++ [34])).
    { apply index_byte_some in Ej. destruct Ej as (a & c & -> & _). apply in_or_app. right. left. reflexivity. }
    apply in_app_or in Ej'. cbn in Ej'. destruct Ej' as [|[|]]; [tauto|discriminate|tauto].
  - apply index_byte_none in Ej. rewrite in_app_iff in Ej.
    destruct (first_quote_body body r p q Hb) as [<- <-].
    { rewrite E1, <- E2. reflexivity. }
    { exact Hp. } { tauto. }
    rewrite ascii_valid_print_spec.
    2:{ apply wf_app. split; [exact Hw|]. apply wf_cons. split; [unfold is_byte; lia|constructor]. }
    rewrite forallb_app. change (forallb printable [34]) with true. rewrite andb_true_r.
    assert (Hnb : existsb (Z.eqb 92) body = false).
    { destruct (existsb (Z.eqb 92) body) eqn:X; [|reflexivity]. apply existsb_in in X. tauto. }
    unfold plain. rewrite Hnb, andb_true_r.
    destruct (forallb printable body); [|exact Hslow].
    rewrite <- Ev. assert (Hlen : (k + 2)%nat = length v) by (unfold v; cbn; rewrite app_length; cbn; lia).
    rewrite firstn_app_len, skipn_app_len by exact Hlen. reflexivity.
Qed.

Lemma parse_string_sound b v r : wf b -> parse_string b = POk v r -> b = v ++ r /\ string_lit v.
Proof.
  intros Hw. unfold parse_string. destruct (parse_string_fast b) as [v' r' esc|] eqn:E; [|discriminate].
  intros H. injection H as <- <-. destruct (parse_string_fast_sound _ _ _ _ Hw E) as (body & -> & Eb & Hb & _).
  split; [exact Eb|]. exists body. auto.
Qed.
Lemma str_body_wf body : str_body body -> wf body.
Proof.
  induction 1; unfold wf, is_byte in *; repeat apply Forall_cons; auto; unfold hex_digit in *; cbn [In] in *; lia.
Qed.
Lemma parse_string_complete v r : string_lit v -> parse_string (v ++ r) = POk v r.
Proof.
  intros (body & -> & Hb). unfold parse_string.
  rewrite parse_string_fast_complete; auto using str_body_wf.
Qed.

(** * Literals *)
Lemma has_prefix_iff b s : has_prefix b s = true <-> exists r, b = s ++ r.
Proof.
  revert b. induction s as [|x s IH]; intros b.
  - destruct b; (split; [eexists; reflexivity|reflexivity]).
  - destruct b as [|y b]; [split; [discriminate|intros [r E]; discriminate]|].
    cbn [has_prefix]. rewrite andb_true_iff, Z.eqb_eq, IH. split.
    + intros [-> [r ->]]. exists r. reflexivity.
    + intros [r E]. injection E as -> ->. eauto.
Qed.
Lemma parse_lit_sound lit b v r : parse_lit lit b = POk v r -> v = lit /\ b = lit ++ r.
Proof.
  unfold parse_lit. destruct (has_prefix b lit) eqn:E.
  - apply has_prefix_iff in E. destruct E as [r' ->]. rewrite firstn_app_len, skipn_app_len by reflexivity.
    intros H. injection H as <- <-. auto.
  - destruct (Nat.ltb _ _); discriminate.
Qed.
Lemma parse_lit_complete lit r : parse_lit lit (lit ++ r) = POk lit r.
Proof.
  unfold parse_lit. replace (has_prefix (lit ++ r) lit) with true by (symmetry; apply has_prefix_iff; eauto).
  rewrite firstn_app_len, skipn_app_len by reflexivity. reflexivity.
Qed.

Lemma close_at_app p c r : close_at (p ++ c :: r) (c :: r) = POk (p ++ [c]) r.
Proof.
  unfold close_at. rewrite app_length.
  replace (length p + length (c :: r) - length (c :: r) + 1)%nat with (length (p ++ [c])).
  2:{ rewrite app_length. cbn. lia. }
  replace (p ++ c :: r) with ((p ++ [c]) ++ r) by (rewrite <- app_assoc; reflexivity).
  rewrite firstn_app_len, skipn_app_len by reflexivity. reflexivity.
Qed.

(** * Heads of values *)
Definition vhead (c : Z) : Prop :=
  c = 123 \/ c = 91 \/ c = 34 \/ c = 110 \/ c = 116 \/ c = 102 \/ c = 45 \/ 48 <= c <= 57.
Lemma number_head s : number_lit s -> exists c t, s = c :: t /\ (c = 45 \/ 48 <= c <= 57).
Proof.
  intros [sg i f e [->| ->] Hi Hf He]; cbn; [|eauto 6].
  destruct Hi as [|d ds Hd]; cbn; eexists _, _; split; try reflexivity; lia.
Qed.
Lemma jvalue_head s a : jvalue s a -> exists c t, s = c :: t /\ vhead c.
Proof.
  unfold vhead. intros H.
  destruct H as [| | |s Hs|s Hs|w Hw|s l Hs|w Hw|s l Hs]; try (eexists _, _; split; [vm_compute; reflexivity|lia]).
  - apply number_head in Hs. destruct Hs as (c & t & -> & H). exists c, t. split; [reflexivity|lia].
  - destruct Hs as (body & -> & _). eexists _, _; split; [reflexivity|lia].
Qed.
Lemma vhead_nsp c : vhead c -> is_space c = false.
Proof. unfold vhead, is_space. intros H. repeat rewrite orb_false_iff. rewrite !Z.eqb_neq. lia. Qed.

(** Unfolding equations with the loop bodies named. *)
Definition obj_k (n : nat) (a b : bytes) : pres :=
  match parse_string b with
  | PErr r e => PErr r e
  | POk _ b =>
      match skip_spaces b with
      | [] => PErr [] ESyntax
      | c :: b1 =>
          if negb (c =? cCOLON) then PErr (c :: b1) ESyntax
          else match parse_value n (skip_spaces b1) with
               | PErr r e => PErr r e
               | POk _ b => object_loop n false a b
               end
      end
  end.
Definition arr_k (n : nat) (a b : bytes) : pres :=
  match parse_value n b with
  | PErr r e => PErr r e
  | POk _ b => array_loop n false a b
  end.
Lemma object_loop_S n f a b : object_loop (S n) f a b =
  match skip_spaces b with
  | [] => PErr [] ESyntax
  | c :: b1 =>
      if c =? 125 then close_at a (c :: b1)
      else if f then obj_k n a (c :: b1)
      else if negb (c =? 44) then PErr (c :: b1) ESyntax
      else match skip_spaces b1 with
           | [] => PErr [] ESyntax
           | c2 :: b2 => if c2 =? 125 then PErr (c2 :: b2) ESyntax else obj_k n a (c2 :: b2)
           end
  end.
Proof. cbn [object_loop array_loop]. destruct (skip_spaces b); reflexivity. Qed.
Lemma array_loop_S n f a b : array_loop (S n) f a b =
  match skip_spaces b with
  | [] => PErr [] ESyntax
  | c :: b1 =>
      if c =? 93 then close_at a (c :: b1)
      else if f then arr_k n a (c :: b1)
      else if negb (c =? 44) then PErr (c :: b1) ESyntax
      else match skip_spaces b1 with
           | [] => PErr [] ESyntax
           | c2 :: b2 => if c2 =? 93 then PErr (c2 :: b2) ESyntax else arr_k n a (c2 :: b2)
           end
  end.
Proof. cbn [object_loop array_loop]. destruct (skip_spaces b); reflexivity. Qed.

(** * Soundness *)
Inductive arr_tail : bool -> bytes -> list jast -> Prop :=
| at_nil f w : ws w -> arr_tail f (w ++ [93]) []
| at_first s l : jelems s l -> arr_tail true (s ++ [93]) l
| at_next w s l : ws w -> jelems s l -> arr_tail false (w ++ 44 :: s ++ [93]) l.
Inductive obj_tail : bool -> bytes -> list (bytes * jast) -> Prop :=
| ot_nil f w : ws w -> obj_tail f (w ++ [125]) []
| ot_first s l : jmembers s l -> obj_tail true (s ++ [125]) l
| ot_next w s l : ws w -> jmembers s l -> obj_tail false (w ++ 44 :: s ++ [125]) l.

Lemma arr_tail_cons w s v t l : ws w -> jvalue s v -> arr_tail false t l ->
  exists e, jelems e (v :: l) /\ w ++ s ++ t = e ++ [93].
Proof.
  intros Hw Hv Ht. inversion Ht; subst.
  - exists (w ++ s ++ w0). split; [constructor; auto|]. rewrite <- !app_assoc. reflexivity.
  - exists (w ++ s ++ w0 ++ 44 :: s0). split; [constructor; auto|].
    repeat (rewrite <- ?app_assoc; cbn [app]). reflexivity.
Qed.
Lemma obj_tail_cons w1 k w2 w3 s v t l : ws w1 -> string_lit k -> ws w2 -> ws w3 -> jvalue s v -> obj_tail false t l ->
  exists e, jmembers e ((k, v) :: l) /\ w1 ++ k ++ w2 ++ 58 :: w3 ++ s ++ t = e ++ [125].
Proof.
  intros H1 Hk H2 H3 Hv Ht. inversion Ht; subst.
  - exists (w1 ++ k ++ w2 ++ 58 :: w3 ++ s ++ w). split; [apply M_one; constructor; auto|].
    repeat (rewrite <- ?app_assoc; cbn [app]). reflexivity.
  - exists ((w1 ++ k ++ w2 ++ 58 :: w3 ++ s ++ w) ++ 44 :: s0). split; [apply M_cons; [constructor; auto|auto]|].
    repeat (rewrite <- ?app_assoc; cbn [app]). reflexivity.
Qed.

Lemma parse_sound_all n :
  (forall b v r, wf b -> parse_value n b = POk v r -> b = v ++ r /\ exists a, jvalue v a) /\
  (forall f p b v r, wf b -> object_loop n f (p ++ b) b = POk v r ->
     exists t l, v = p ++ t /\ b = t ++ r /\ obj_tail f t l) /\
  (forall f p b v r, wf b -> array_loop n f (p ++ b) b = POk v r ->
     exists t l, v = p ++ t /\ b = t ++ r /\ arr_tail f t l).
Proof.
  induction n as [|n (IHv & IHo & IHa)]; [repeat split; discriminate|].
  split; [|split].
  - intros b v r Hw. cbn [parse_value]. destruct b as [|c b1]; [discriminate|].
    assert (Hw1 : wf b1) by (apply wf_cons in Hw; tauto).
    destruct (c =? 123) eqn:E1.
    { zb; subst c. destruct (Nat.ltb _ _); [discriminate|]. intros H.
      apply (IHo true [123]) in H; [|exact Hw1]. destruct H as (t & l & -> & -> & Ht).
      split; [reflexivity|]. exists (JObj l). inversion Ht; subst; constructor; auto. }
    destruct (c =? 91) eqn:E2.
    { zb; subst c. destruct (Nat.ltb _ _); [discriminate|]. intros H.
      apply (IHa true [91]) in H; [|exact Hw1]. destruct H as (t & l & -> & -> & Ht).
      split; [reflexivity|]. exists (JArr l). inversion Ht; subst; constructor; auto. }
    destruct (c =? 34).
    { intros H. apply parse_string_sound in H; [|exact Hw]. destruct H as [-> H]. split; [reflexivity|].
      eexists. apply V_str, H. }
    destruct (c =? 110).
    { intros H. apply parse_lit_sound in H. destruct H as [-> ->]. split; [reflexivity|]. eexists. apply V_null. }
    destruct (c =? 116).
    { intros H. apply parse_lit_sound in H. destruct H as [-> ->]. split; [reflexivity|]. eexists. apply V_true. }
    destruct (c =? 102).
    { intros H. apply parse_lit_sound in H. destruct H as [-> ->]. split; [reflexivity|]. eexists. apply V_false. }
    destruct (is_num_start c); [|discriminate].
    intros H. apply parse_number_sound in H. destruct H as [-> H]. split; [reflexivity|].
    eexists. apply V_num, H.
  - intros f p b v r Hw. rewrite object_loop_S.
    destruct (skip_spaces_split b) as (w & Hws & Eb & Hn).
    assert (Hwb := wf_skip_spaces _ Hw).
    destruct (skip_spaces b) as [|c b1] eqn:Es; [discriminate|].
    destruct (c =? 125) eqn:Ec.
    { zb; subst c. rewrite Eb, app_assoc, close_at_app. intros H. injection H as <- <-.
      exists (w ++ [125]), []. rewrite <- !app_assoc. repeat split; auto. constructor; auto. }
    assert (HK : forall p' b', wf b' -> p ++ b = p' ++ b' -> obj_k n (p ++ b) b' = POk v r ->
       exists e l, v = p' ++ e ++ [125] /\ b' = e ++ [125] ++ r /\ jmembers e l).
    { intros p' b' Hw' E. unfold obj_k. destruct (parse_string b') as [k b2|] eqn:Ek; [|discriminate].
      apply parse_string_sound in Ek; [|exact Hw']. destruct Ek as [-> Hk].
      apply wf_app in Hw'. destruct Hw' as [_ Hw2].
      destruct (skip_spaces_split b2) as (w2 & Hws2 & Eb2 & _). assert (Hw3 := wf_skip_spaces _ Hw2).
      destruct (skip_spaces b2) as [|c2 b3]; [discriminate|].
      destruct (c2 =? 58) eqn:Ec2; cbn [negb]; [|discriminate]. zb; subst c2.
      apply wf_cons in Hw3. destruct Hw3 as [_ Hw3].
      destruct (skip_spaces_split b3) as (w3 & Hws3 & Eb3 & _). assert (Hw4 := wf_skip_spaces _ Hw3).
      destruct (parse_value n (skip_spaces b3)) as [u b4|] eqn:Ev; [|discriminate].
      apply IHv in Ev; [|exact Hw4]. destruct Ev as [Eu [a Ha]].
      rewrite Eu in Hw4. apply wf_app in Hw4. destruct Hw4 as [_ Hw5].
      rewrite E. subst b2. rewrite Eb3, Eu.
      replace (p' ++ k ++ w2 ++ 58 :: w3 ++ u ++ b4) with ((p' ++ k ++ w2 ++ 58 :: w3 ++ u) ++ b4)
        by (repeat (rewrite <- ?app_assoc; cbn [app]); reflexivity).
      intros H. apply IHo in H; [|exact Hw5]. destruct H as (t & l & -> & -> & Ht).
      destruct (obj_tail_cons [] k w2 w3 u a t l) as (e & He & Ee); auto using ws_nil.
      exists e, ((k, a) :: l). cbn [app] in Ee.
      split; [|split; [|exact He]].
      - rewrite <- Ee. repeat (rewrite <- ?app_assoc; cbn [app]). reflexivity.
      - rewrite (app_assoc e), <- Ee. repeat (rewrite <- ?app_assoc; cbn [app]). reflexivity. }
    destruct f.
    + intros H. apply (HK (p ++ w)) in H; [|exact Hwb|rewrite Eb, <- app_assoc; reflexivity].
      destruct H as (e & l & -> & E & He). exists ((w ++ e) ++ [125]), l.
      split; [rewrite <- !app_assoc; reflexivity|]. split; [rewrite Eb, E, <- !app_assoc; reflexivity|].
      apply ot_first.
      (* leading whitespace joins the first member *)
      clear - He Hws. inversion He; subst.
      * apply M_one. inversion H; subst. rewrite app_assoc. constructor; auto. apply ws_app; auto.
      * rewrite app_assoc. apply M_cons; auto. inversion H; subst. rewrite app_assoc. constructor; auto. apply ws_app; auto.
    + destruct (c =? 44) eqn:E44; cbn [negb]; [|discriminate]. zb; subst c.
      apply wf_cons in Hwb. destruct Hwb as [_ Hwb].
      destruct (skip_spaces_split b1) as (w2 & Hws2 & Eb2 & _). assert (Hw3 := wf_skip_spaces _ Hwb).
      destruct (skip_spaces b1) as [|c2 b2]; [discriminate|]. destruct (c2 =? 125); [discriminate|].
      intros H. apply (HK (p ++ w ++ 44 :: w2)) in H; [|exact Hw3|].
      2:{ rewrite Eb, Eb2. repeat (rewrite <- ?app_assoc; cbn [app]). reflexivity. }
      destruct H as (e & l & -> & E & He). exists (w ++ 44 :: (w2 ++ e) ++ [125]), l.
      split; [repeat (rewrite <- ?app_assoc; cbn [app]); reflexivity|].
      split; [rewrite Eb, Eb2, E; repeat (rewrite <- ?app_assoc; cbn [app]); reflexivity|].
      apply ot_next; [exact Hws|].
      clear - He Hws2. inversion He; subst.
      * apply M_one. inversion H; subst. rewrite app_assoc. constructor; auto. apply ws_app; auto.
      * rewrite app_assoc. apply M_cons; auto. inversion H; subst. rewrite app_assoc. constructor; auto. apply ws_app; auto.
  - intros f p b v r Hw. rewrite array_loop_S.
    destruct (skip_spaces_split b) as (w & Hws & Eb & Hn).
    assert (Hwb := wf_skip_spaces _ Hw).
    destruct (skip_spaces b) as [|c b1] eqn:Es; [discriminate|].
    destruct (c =? 93) eqn:Ec.
    { zb; subst c. rewrite Eb, app_assoc, close_at_app. intros H. injection H as <- <-.
      exists (w ++ [93]), []. rewrite <- !app_assoc. repeat split; auto. constructor; auto. }
    assert (HK : forall p' w' b', wf b' -> ws w' -> p ++ b = p' ++ w' ++ b' -> arr_k n (p ++ b) b' = POk v r ->
       exists e l, v = p' ++ e ++ [93] /\ w' ++ b' = e ++ [93] ++ r /\ jelems e l).
    { intros p' w' b' Hw' Hws' E. unfold arr_k. destruct (parse_value n b') as [u b2|] eqn:Ev; [|discriminate].
      apply IHv in Ev; [|exact Hw']. destruct Ev as [-> [a Ha]].
      apply wf_app in Hw'. destruct Hw' as [_ Hw2]. rewrite E.
      replace (p' ++ w' ++ u ++ b2) with ((p' ++ w' ++ u) ++ b2) by (rewrite <- !app_assoc; reflexivity).
      intros H. apply IHa in H; [|exact Hw2]. destruct H as (t & l & -> & -> & Ht).
      destruct (arr_tail_cons w' u a t l) as (e & He & Ee); auto.
      exists e, (a :: l). split; [|split; [|exact He]].
      - rewrite <- Ee, <- !app_assoc. reflexivity.
      - rewrite (app_assoc e), <- Ee, <- !app_assoc. reflexivity. }
    destruct f.
    + intros H. apply (HK p w) in H; [|exact Hwb|exact Hws|rewrite Eb; reflexivity].
      destruct H as (e & l & -> & E & He). exists (e ++ [93]), l.
      split; [reflexivity|]. split; [rewrite Eb, E, <- !app_assoc; reflexivity|]. apply at_first, He.
    + destruct (c =? 44) eqn:E44; cbn [negb]; [|discriminate]. zb; subst c.
      apply wf_cons in Hwb. destruct Hwb as [_ Hwb].
      destruct (skip_spaces_split b1) as (w2 & Hws2 & Eb2 & _). assert (Hw3 := wf_skip_spaces _ Hwb).
      destruct (skip_spaces b1) as [|c2 b2]; [discriminate|]. destruct (c2 =? 93); [discriminate|].
      intros H. apply (HK (p ++ w ++ [44]) w2) in H; [|exact Hw3|exact Hws2|].
      2:{ rewrite Eb, Eb2. repeat (rewrite <- ?app_assoc; cbn [app]). reflexivity. }
      destruct H as (e & l & -> & E & He). exists (w ++ 44 :: e ++ [93]), l.
      split; [repeat (rewrite <- ?app_assoc; cbn [app]); reflexivity|].
      split; [rewrite Eb, Eb2, E; repeat (rewrite <- ?app_assoc; cbn [app]); reflexivity|].
      apply at_next; auto.
Qed.
Lemma parse_value_sound n b v r : wf b -> parse_value n b = POk v r -> b = v ++ r /\ exists a, jvalue v a.
Proof. apply parse_sound_all. Qed.

(** * Completeness *)
Lemma num_stop_ws w r : ws w -> num_stop r -> num_stop (w ++ r).
Proof. intros [|c w' Hc]; cbn; [auto|]. intros _. destruct Hc as [->|[->|[->| ->]]]; reflexivity. Qed.

Ltac appn := repeat (rewrite <- ?app_assoc; cbn [app]).
Ltac lens := repeat (rewrite ?app_length in *; cbn [length] in *).

Lemma parse_complete_all :
  (forall s a, jvalue s a -> forall n r, (2 * length s + 1 <= n)%nat -> num_stop r ->
     parse_value n (s ++ r) = POk s r) /\
  (forall s l, jelems s l -> forall n f p w r, (2 * length s + 2 <= n)%nat ->
     (f = true /\ w = []) \/ (f = false /\ exists w', ws w' /\ w = w' ++ [44]) ->
     array_loop n f (p ++ w ++ s ++ 93 :: r) (w ++ s ++ 93 :: r) = POk (p ++ w ++ s ++ [93]) r) /\
  (forall s l, jmembers s l -> forall n f p w r, (2 * length s + 2 <= n)%nat ->
     (f = true /\ w = []) \/ (f = false /\ exists w', ws w' /\ w = w' ++ [44]) ->
     object_loop n f (p ++ w ++ s ++ 125 :: r) (w ++ s ++ 125 :: r) = POk (p ++ w ++ s ++ [125]) r) /\
  (forall m kv, jmember m kv -> forall n f p w r, (2 * length m + 2 <= n)%nat -> num_stop r ->
     (f = true /\ w = []) \/ (f = false /\ exists w', ws w' /\ w = w' ++ [44]) ->
     exists m0 w4 n', m = m0 ++ w4 /\ ws w4 /\ n = S n' /\ (1 <= length m0)%nat /\
     object_loop n f (p ++ w ++ m ++ r) (w ++ m ++ r) = object_loop n' false (p ++ w ++ m ++ r) (w4 ++ r)).
Proof.
  apply json_mutind.
  - intros n r Hn Hr. destruct n as [|n]; [cbn in Hn; lia|]. apply parse_lit_complete.
  - intros n r Hn Hr. destruct n as [|n]; [cbn in Hn; lia|]. apply parse_lit_complete.
  - intros n r Hn Hr. destruct n as [|n]; [cbn in Hn; lia|]. apply parse_lit_complete.
  - intros s Hs n r Hn Hr. destruct n as [|n]; [cbn in Hn; lia|].
    rewrite <- (parse_number_complete s r Hs Hr).
    destruct (number_head _ Hs) as (c & t & -> & Hc). cbn [app parse_value].
    unfold is_num_start, is_digit.
    destruct (c =? 123) eqn:?; [zb; lia|]. destruct (c =? 91) eqn:?; [zb; lia|].
    destruct (c =? 34) eqn:?; [zb; lia|]. destruct (c =? 110) eqn:?; [zb; lia|].
    destruct (c =? 116) eqn:?; [zb; lia|]. destruct (c =? 102) eqn:?; [zb; lia|].
    replace ((c =? 45) || (48 <=? c) && (c <=? 57)) with true; [reflexivity|].
    symmetry. rewrite orb_true_iff, andb_true_iff, Z.eqb_eq, !Z.leb_le. lia.
  - intros s Hs n r Hn Hr. destruct n as [|n]; [lia|].
    rewrite <- (parse_string_complete s r Hs). destruct Hs as (body & -> & _). reflexivity.
  - intros w Hw n r Hn Hr. lens. destruct n as [|[|n]]; [lia|lia|].
    cbn [app]. cbn [parse_value].
    change (91 =? 123) with false. change (91 =? 91) with true. cbv iota.
    rewrite <- app_assoc. cbn [app].
    replace (Nat.ltb (length (91 :: w ++ 93 :: r)) 2) with false by (symmetry; apply Nat.ltb_ge; lens; lia).
    rewrite array_loop_S. rewrite skip_spaces_ws by exact Hw.
    rewrite (skip_spaces_nsp (93 :: r)) by reflexivity. change (93 =? 93) with true. cbv iota.
    change (91 :: w ++ 93 :: r) with ((91 :: w) ++ 93 :: r). rewrite close_at_app. reflexivity.
  - intros s l Hs IH n r Hn Hr. lens. destruct n as [|n]; [lia|].
    cbn [app]. cbn [parse_value].
    change (91 =? 123) with false. change (91 =? 91) with true. cbv iota.
    rewrite <- app_assoc. cbn [app].
    replace (Nat.ltb (length (91 :: s ++ 93 :: r)) 2) with false by (symmetry; apply Nat.ltb_ge; lens; lia).
    specialize (IH n true [91] [] r). cbn [app] in IH. apply IH; [lia|auto].
  - intros w Hw n r Hn Hr. lens. destruct n as [|[|n]]; [lia|lia|].
    cbn [app]. cbn [parse_value].
    change (123 =? 123) with true. cbv iota.
    rewrite <- app_assoc. cbn [app].
    replace (Nat.ltb (length (123 :: w ++ 125 :: r)) 2) with false by (symmetry; apply Nat.ltb_ge; lens; lia).
    rewrite object_loop_S. rewrite skip_spaces_ws by exact Hw.
    rewrite (skip_spaces_nsp (125 :: r)) by reflexivity. change (125 =? 125) with true. cbv iota.
    change (123 :: w ++ 125 :: r) with ((123 :: w) ++ 125 :: r). rewrite close_at_app. reflexivity.
  - intros s l Hs IH n r Hn Hr. lens. destruct n as [|n]; [lia|].
    cbn [app]. cbn [parse_value].
    change (123 =? 123) with true. cbv iota.
    rewrite <- app_assoc. cbn [app].
    replace (Nat.ltb (length (123 :: s ++ 125 :: r)) 2) with false by (symmetry; apply Nat.ltb_ge; lens; lia).
    specialize (IH n true [123] [] r). cbn [app] in IH. apply IH; [lia|auto].
  - (* last element *)
    intros w1 s v w2 Hw1 Hv IH Hw2 n f p w r Hn Hf.
    destruct n as [|[|n]]; [lia|lia|].
    destruct (jvalue_head _ _ Hv) as (c & t & Es & Hc).
    assert (Hsp : nsp ((s ++ w2) ++ 93 :: r)) by (subst s; cbn; apply vhead_nsp, Hc).
    set (a := p ++ w ++ (w1 ++ s ++ w2) ++ 93 :: r).
    assert (Hend : array_loop (S n) false a (w2 ++ 93 :: r) = POk (p ++ w ++ (w1 ++ s ++ w2) ++ [93]) r).
    { rewrite array_loop_S. rewrite skip_spaces_ws by exact Hw2. rewrite (skip_spaces_nsp (93 :: r)) by reflexivity.
      change (93 =? 93) with true. cbv iota. unfold a.
      replace (p ++ w ++ (w1 ++ s ++ w2) ++ 93 :: r) with ((p ++ w ++ (w1 ++ s ++ w2)) ++ 93 :: r) by (appn; reflexivity).
      rewrite close_at_app. appn. reflexivity. }
    assert (Hv' : parse_value (S n) (s ++ w2 ++ 93 :: r) = POk s (w2 ++ 93 :: r)).
    { apply IH; [lens; lia|]. apply num_stop_ws; [exact Hw2|reflexivity]. }
    destruct Hf as [[-> ->]|[-> (w' & Hw' & ->)]].
    + cbn [app]. rewrite array_loop_S. fold a. rewrite <- app_assoc, skip_spaces_ws by exact Hw1.
      rewrite (skip_spaces_nsp _ Hsp). rewrite <- app_assoc. rewrite Es in Hv' |- *. cbn [app] in Hv' |- *.
      destruct (c =? 93) eqn:E; [zb; unfold vhead in Hc; lia|]. unfold arr_k. rewrite Hv', Hend, ?Es. reflexivity.
    + rewrite array_loop_S. fold a.
      replace ((w' ++ [44]) ++ (w1 ++ s ++ w2) ++ 93 :: r) with (w' ++ 44 :: w1 ++ (s ++ w2) ++ 93 :: r)
        by (appn; reflexivity).
      rewrite skip_spaces_ws by exact Hw'. rewrite (skip_spaces_nsp (44 :: _)) by reflexivity.
      change (44 =? 93) with false. change (44 =? 44) with true. cbn [negb].
      rewrite skip_spaces_ws by exact Hw1. rewrite (skip_spaces_nsp _ Hsp).
      rewrite <- app_assoc. rewrite Es in Hv' |- *. cbn [app] in Hv' |- *.
      destruct (c =? 93) eqn:E; [zb; unfold vhead in Hc; lia|]. unfold arr_k. rewrite Hv', Hend, ?Es. reflexivity.
  - (* more elements *)
    intros w1 s v w2 e l Hw1 Hv IH Hw2 He IHe n f p w r Hn Hf.
    destruct n as [|n]; [lia|].
    destruct (jvalue_head _ _ Hv) as (c & t & Es & Hc).
    assert (Hsp : nsp ((s ++ w2 ++ 44 :: e) ++ 93 :: r)) by (subst s; cbn; apply vhead_nsp, Hc).
    set (a := p ++ w ++ (w1 ++ s ++ w2 ++ 44 :: e) ++ 93 :: r).
    assert (Hls : (1 <= length s)%nat) by (subst s; cbn; lia).
    assert (Hend : array_loop n false a (w2 ++ 44 :: e ++ 93 :: r)
                   = POk (p ++ w ++ (w1 ++ s ++ w2 ++ 44 :: e) ++ [93]) r).
    { specialize (IHe n false (p ++ w ++ w1 ++ s) (w2 ++ [44]) r).
      replace ((w2 ++ [44]) ++ e ++ 93 :: r) with (w2 ++ 44 :: e ++ 93 :: r) in IHe by (appn; reflexivity).
      replace a with ((p ++ w ++ w1 ++ s) ++ w2 ++ 44 :: e ++ 93 :: r) by (unfold a; appn; reflexivity).
      rewrite IHe; [|lens; lia|right; split; [reflexivity|eauto]]. f_equal. appn. reflexivity. }
    assert (Hv' : parse_value n (s ++ w2 ++ 44 :: e ++ 93 :: r) = POk s (w2 ++ 44 :: e ++ 93 :: r)).
    { apply IH; [lens; lia|]. apply num_stop_ws; [exact Hw2|reflexivity]. }
    destruct Hf as [[-> ->]|[-> (w' & Hw' & ->)]].
    + cbn [app]. rewrite array_loop_S. fold a. rewrite <- app_assoc, skip_spaces_ws by exact Hw1.
      rewrite (skip_spaces_nsp _ Hsp).
      replace ((s ++ w2 ++ 44 :: e) ++ 93 :: r) with (s ++ w2 ++ 44 :: e ++ 93 :: r) by (appn; reflexivity).
      rewrite Es in Hv' |- *. cbn [app] in Hv' |- *.
      destruct (c =? 93) eqn:E; [zb; unfold vhead in Hc; lia|]. unfold arr_k. rewrite Hv', Hend, ?Es. reflexivity.
    + rewrite array_loop_S. fold a.
      replace ((w' ++ [44]) ++ (w1 ++ s ++ w2 ++ 44 :: e) ++ 93 :: r) with (w' ++ 44 :: w1 ++ (s ++ w2 ++ 44 :: e) ++ 93 :: r)
        by (appn; reflexivity).
      rewrite skip_spaces_ws by exact Hw'. rewrite (skip_spaces_nsp (44 :: _)) by reflexivity.
      change (44 =? 93) with false. change (44 =? 44) with true. cbn [negb].
      rewrite skip_spaces_ws by exact Hw1. rewrite (skip_spaces_nsp _ Hsp).
      replace ((s ++ w2 ++ 44 :: e) ++ 93 :: r) with (s ++ w2 ++ 44 :: e ++ 93 :: r) by (appn; reflexivity).
      rewrite Es in Hv' |- *. cbn [app] in Hv' |- *.
      destruct (c =? 93) eqn:E; [zb; unfold vhead in Hc; lia|]. unfold arr_k. rewrite Hv', Hend, ?Es. reflexivity.
  - (* last member *)
    intros m kv Hm IH n f p w r Hn Hf.
    destruct (IH n f p w (125 :: r)) as (m0 & w4 & n' & Em & Hw4 & Hn' & Hm0 & E); [lia|reflexivity|exact Hf|].
    rewrite E. destruct n' as [|n']; [lia|]. rewrite object_loop_S. rewrite skip_spaces_ws by exact Hw4.
    rewrite (skip_spaces_nsp (125 :: r)) by reflexivity. change (125 =? 125) with true. cbv iota.
    replace (p ++ w ++ m ++ 125 :: r) with ((p ++ w ++ m) ++ 125 :: r) by (appn; reflexivity).
    rewrite close_at_app. appn. reflexivity.
  - (* more members *)
    intros m kv t l Hm IH Ht IHt n f p w r Hn Hf.
    destruct (IH n f p w (44 :: t ++ 125 :: r)) as (m0 & w4 & n' & Em & Hw4 & Hn' & Hm0 & E);
      [lens; lia|reflexivity|exact Hf|].
    replace ((m ++ 44 :: t) ++ 125 :: r) with (m ++ 44 :: t ++ 125 :: r) by (appn; reflexivity).
    rewrite E. specialize (IHt n' false (p ++ w ++ m0) (w4 ++ [44]) r).
    replace ((w4 ++ [44]) ++ t ++ 125 :: r) with (w4 ++ 44 :: t ++ 125 :: r) in IHt by (appn; reflexivity).
    replace (p ++ w ++ m ++ 44 :: t ++ 125 :: r) with ((p ++ w ++ m0) ++ w4 ++ 44 :: t ++ 125 :: r)
      by (subst m; appn; reflexivity).
    rewrite IHt; [|subst m n; lens; lia|right; split; [reflexivity|eauto]]. f_equal. subst m. appn. reflexivity.
  - (* one member *)
    intros w1 k w2 w3 s v w4 H1 Hk H2 H3 Hv IH H4 n f p w r Hn Hr Hf.
    destruct n as [|n]; [lia|].
    exists (w1 ++ k ++ w2 ++ 58 :: w3 ++ s), w4, n.
    split; [appn; reflexivity|]. split; [exact H4|]. split; [reflexivity|]. split; [lens; lia|].
    set (a := p ++ w ++ (w1 ++ k ++ w2 ++ 58 :: w3 ++ s ++ w4) ++ r).
    assert (Hk' := Hk). destruct Hk' as (body & Ek & _).
    set (rest := w2 ++ 58 :: w3 ++ s ++ w4 ++ r).
    assert (HK : obj_k n a (k ++ rest) = object_loop n false a (w4 ++ r)).
    { unfold obj_k. rewrite parse_string_complete by exact Hk. unfold rest. rewrite skip_spaces_ws by exact H2.
      rewrite (skip_spaces_nsp (58 :: _)) by reflexivity. change (58 =? 58) with true. cbn [negb].
      rewrite skip_spaces_ws by exact H3.
      destruct (jvalue_head _ _ Hv) as (c & t & Es & Hc).
      rewrite (skip_spaces_nsp (s ++ w4 ++ r)) by (subst s; cbn; apply vhead_nsp, Hc).
      rewrite IH; [reflexivity|lens; lia|apply num_stop_ws; auto]. }
    assert (Hsp : nsp (k ++ rest)) by (subst k; reflexivity).
    destruct Hf as [[-> ->]|[-> (w' & Hw' & ->)]].
    + cbn [app]. rewrite object_loop_S. fold a.
      replace ((w1 ++ k ++ w2 ++ 58 :: w3 ++ s ++ w4) ++ r) with (w1 ++ k ++ rest) by (unfold rest; appn; reflexivity).
      rewrite skip_spaces_ws by exact H1. rewrite (skip_spaces_nsp _ Hsp).
      rewrite Ek in HK |- *. cbn [app] in HK |- *. change (34 =? 125) with false. cbv iota. exact HK.
    + rewrite object_loop_S. fold a.
      replace ((w' ++ [44]) ++ (w1 ++ k ++ w2 ++ 58 :: w3 ++ s ++ w4) ++ r) with (w' ++ 44 :: w1 ++ k ++ rest)
        by (unfold rest; appn; reflexivity).
      rewrite skip_spaces_ws by exact Hw'. rewrite (skip_spaces_nsp (44 :: _)) by reflexivity.
      change (44 =? 125) with false. change (44 =? 44) with true. cbn [negb].
      rewrite skip_spaces_ws by exact H1. rewrite (skip_spaces_nsp _ Hsp).
      rewrite Ek in HK |- *. cbn [app] in HK |- *. change (34 =? 125) with false. cbv iota. exact HK.
Qed.
Lemma parse_value_complete s a n r : jvalue s a -> (2 * length s + 1 <= n)%nat -> num_stop r ->
  parse_value n (s ++ r) = POk s r.
Proof. intros H. apply (proj1 parse_complete_all s a H). Qed.

(** * Fuel *)
Definition nofuel (x : pres) : Prop := forall r, x <> PErr r EFuel.

Lemma parse_number_nofuel b : nofuel (parse_number b).
Proof.
  intros r. unfold parse_number, parse_frac, parse_exp.
  repeat match goal with |- context [match ?x with _ => _ end] => destruct x; try discriminate end.
Qed.
Lemma parse_string_fast_err b r e : parse_string_fast b = SErr r e -> e = ESyntax /\ (r = [] \/ r = b).
Proof.
  unfold parse_string_fast.
  destruct b as [|c [|c1 b1]]; try (intros H; injection H as <- <-; auto; fail).
  destruct (negb _); [intros H; injection H as <- <-; auto|].
  destruct (index_byte _ _); [|intros H; injection H as <- <-; auto].
  destruct (index_byte _ _); [|destruct (ascii_valid_print _); [discriminate|]];
  (destruct (string_loop _); intros H; [discriminate| |]; injection H as <- <-; auto).
Qed.
Lemma parse_string_nofuel b : nofuel (parse_string b).
Proof.
  intros r. unfold parse_string. destruct (parse_string_fast b) eqn:E; [discriminate|].
  apply parse_string_fast_err in E. destruct E as [-> _]. discriminate.
Qed.
Lemma parse_lit_nofuel l b : nofuel (parse_lit l b).
Proof. intros r. unfold parse_lit. destruct (has_prefix b l); [discriminate|]. destruct (Nat.ltb _ _); discriminate. Qed.

Lemma parse_value_shrinks n b v r : wf b -> parse_value n b = POk v r -> (length r < length b)%nat /\ wf r.
Proof.
  intros Hw H. destruct (parse_value_sound n b v r Hw H) as [-> [a Ha]].
  apply jvalue_head in Ha. destruct Ha as (c & t & -> & _). apply wf_app in Hw. lens. split; [lia|tauto].
Qed.
Lemma parse_string_shrinks b v r : wf b -> parse_string b = POk v r -> (length r < length b)%nat /\ wf r.
Proof.
  intros Hw H. destruct (parse_string_sound b v r Hw H) as [-> (body & -> & _)].
  apply wf_app in Hw. lens. split; [lia|tauto].
Qed.

Lemma fuel_enough n :
  (forall b, wf b -> (2 * length b + 1 <= n)%nat -> nofuel (parse_value n b)) /\
  (forall f a b, wf b -> (2 * length b + 2 <= n)%nat -> nofuel (object_loop n f a b)) /\
  (forall f a b, wf b -> (2 * length b + 2 <= n)%nat -> nofuel (array_loop n f a b)).
Proof.
  induction n as [|n (IHv & IHo & IHa)]; [repeat split; intros; lia|].
  split; [|split].
  - intros b Hw Hn r. cbn [parse_value]. destruct b as [|c b1]; [discriminate|].
    apply wf_cons in Hw. destruct Hw as [_ Hw]. cbn [length] in Hn.
    destruct (c =? 123). { destruct (Nat.ltb _ _); [discriminate|]. apply IHo; [exact Hw|lia]. }
    destruct (c =? 91). { destruct (Nat.ltb _ _); [discriminate|]. apply IHa; [exact Hw|lia]. }
    destruct (c =? 34); [apply parse_string_nofuel|]. destruct (c =? 110); [apply parse_lit_nofuel|].
    destruct (c =? 116); [apply parse_lit_nofuel|]. destruct (c =? 102); [apply parse_lit_nofuel|].
    destruct (is_num_start c); [apply parse_number_nofuel|discriminate].
  - intros f a b Hw Hn r. rewrite object_loop_S.
    assert (L := skip_spaces_le b). assert (Hws := wf_skip_spaces b Hw).
    destruct (skip_spaces b) as [|c b1]; [discriminate|]. destruct (c =? 125); [discriminate|].
    assert (HK : forall b', wf b' -> (2 * length b' + 2 <= S n)%nat -> obj_k n a b' <> PErr r EFuel).
    { intros b' Hw' Hn'. unfold obj_k. destruct (parse_string b') as [v b2|] eqn:E.
      2:{ intros H. injection H as -> ->. eapply parse_string_nofuel; eassumption. }
      apply parse_string_shrinks in E; [|exact Hw']. destruct E as [E1 E2].
      assert (L2 := skip_spaces_le b2). assert (Hws2 := wf_skip_spaces b2 E2).
      destruct (skip_spaces b2) as [|c2 b3]; [discriminate|]. destruct (negb _); [discriminate|].
      apply wf_cons in Hws2. destruct Hws2 as [_ Hws2].
      assert (L3 := skip_spaces_le b3). assert (Hws3 := wf_skip_spaces b3 Hws2). cbn [length] in *.
      destruct (parse_value n (skip_spaces b3)) as [v4 b4|] eqn:E4.
      - apply parse_value_shrinks in E4; [|exact Hws3]. apply IHo; [tauto|lia].
      - intros H. injection H as -> ->. eapply IHv; [| |exact E4]; [exact Hws3|lia]. }
    destruct f; [apply HK; [exact Hws|lia]|]. destruct (negb _); [discriminate|].
    apply wf_cons in Hws. destruct Hws as [_ Hws].
    assert (L2 := skip_spaces_le b1). assert (Hws2 := wf_skip_spaces b1 Hws). cbn [length] in *.
    destruct (skip_spaces b1) as [|c2 b2]; [discriminate|]. destruct (c2 =? 125); [discriminate|].
    apply HK; [exact Hws2|lia].
  - intros f a b Hw Hn r. rewrite array_loop_S.
    assert (L := skip_spaces_le b). assert (Hws := wf_skip_spaces b Hw).
    destruct (skip_spaces b) as [|c b1]; [discriminate|]. destruct (c =? 93); [discriminate|].
    assert (HK : forall b', wf b' -> (2 * length b' + 2 <= S n)%nat -> arr_k n a b' <> PErr r EFuel).
    { intros b' Hw' Hn'. unfold arr_k.
      destruct (parse_value n b') as [v4 b4|] eqn:E4.
      - apply parse_value_shrinks in E4; [|exact Hw']. apply IHa; [tauto|lia].
      - intros H. injection H as -> ->. eapply IHv; [| |exact E4]; [exact Hw'|lia]. }
    destruct f; [apply HK; [exact Hws|lia]|]. destruct (negb _); [discriminate|].
    apply wf_cons in Hws. destruct Hws as [_ Hws].
    assert (L2 := skip_spaces_le b1). assert (Hws2 := wf_skip_spaces b1 Hws). cbn [length] in *.
    destruct (skip_spaces b1) as [|c2 b2]; [discriminate|]. destruct (c2 =? 93); [discriminate|].
    apply HK; [exact Hws2|lia].
Qed.

Lemma fuel_mono_S n :
  (forall b, nofuel (parse_value n b) -> parse_value (S n) b = parse_value n b) /\
  (forall f a b, nofuel (object_loop n f a b) -> object_loop (S n) f a b = object_loop n f a b) /\
  (forall f a b, nofuel (array_loop n f a b) -> array_loop (S n) f a b = array_loop n f a b).
Proof.
  induction n as [|n (IHv & IHo & IHa)].
  { repeat split; intros; exfalso; eapply H; reflexivity. }
  split; [|split].
  - intros b H. remember (S n) as m. cbn [parse_value]. subst m. cbn [parse_value] in H |- *.
    destruct b as [|c b1]; [reflexivity|].
    destruct (c =? 123). { destruct (Nat.ltb _ _); [reflexivity|]. apply IHo, H. }
    destruct (c =? 91). { destruct (Nat.ltb _ _); [reflexivity|]. apply IHa, H. }
    reflexivity.
  - intros f a b H. rewrite object_loop_S in H. rewrite !object_loop_S.
    destruct (skip_spaces b) as [|c b1]; [reflexivity|]. destruct (c =? 125); [reflexivity|].
    assert (HK : forall b', nofuel (obj_k n a b') -> obj_k (S n) a b' = obj_k n a b').
    { intros b' Hb. unfold obj_k in Hb |- *. destruct (parse_string b') as [v b2|]; [|reflexivity].
      destruct (skip_spaces b2) as [|c2 b3]; [reflexivity|]. destruct (negb (c2 =? 58)); [reflexivity|].
      rewrite IHv.
      - destruct (parse_value n (skip_spaces b3)) as [v4 b4|]; [|reflexivity]. apply IHo, Hb.
      - intros r E. rewrite E in Hb. eapply Hb. reflexivity. }
    destruct f; [apply HK, H|]. destruct (negb _); [reflexivity|].
    destruct (skip_spaces b1) as [|c2 b2]; [reflexivity|]. destruct (c2 =? 125); [reflexivity|]. apply HK, H.
  - intros f a b H. rewrite array_loop_S in H. rewrite !array_loop_S.
    destruct (skip_spaces b) as [|c b1]; [reflexivity|]. destruct (c =? 93); [reflexivity|].
    assert (HK : forall b', nofuel (arr_k n a b') -> arr_k (S n) a b' = arr_k n a b').
    { intros b' Hb. unfold arr_k in Hb |- *.
      rewrite IHv.
      - destruct (parse_value n b') as [v4 b4|]; [|reflexivity]. apply IHa, Hb.
      - intros r E. rewrite E in Hb. eapply Hb. reflexivity. }
    destruct f; [apply HK, H|]. destruct (negb _); [reflexivity|].
    destruct (skip_spaces b1) as [|c2 b2]; [reflexivity|]. destruct (c2 =? 93); [reflexivity|]. apply HK, H.
Qed.
Lemma fuel_mono n m b : (n <= m)%nat -> nofuel (parse_value n b) -> parse_value m b = parse_value n b.
Proof.
  intros H Hn. induction H as [|m H IH]; [reflexivity|]. rewrite (proj1 (fuel_mono_S m)), IH; [reflexivity|].
  rewrite IH. exact Hn.
Qed.
Lemma parse_value_fuel n b : wf b -> (2 * length b + 1 <= n)%nat -> parse_value n b = parseValue b.
Proof.
  intros Hw Hn. unfold parseValue, parse_fuel.
  assert (N : nofuel (parse_value (2 * length b + 1) b)) by (apply fuel_enough; [exact Hw|lia]).
  rewrite (fuel_mono (2 * length b + 1) n), (fuel_mono (2 * length b + 1) (2 * length b + 2)); auto; lia.
Qed.

(** Top-level statements without fuel. *)
Lemma parseValue_nofuel b : wf b -> nofuel (parseValue b).
Proof. intros Hw. apply fuel_enough; [exact Hw|unfold parse_fuel; lia]. Qed.
Lemma parseValue_sound b v r : wf b -> parseValue b = POk v r -> b = v ++ r /\ exists a, jvalue v a.
Proof. apply parse_value_sound. Qed.
Lemma parseValue_complete s a r : jvalue s a -> num_stop r -> parseValue (s ++ r) = POk s r.
Proof. intros H. apply (parse_value_complete s a); [exact H|unfold parse_fuel; lens; lia]. Qed.
(** A non-number is recognized whatever follows it. *)
Lemma parse_value_complete' s a n r : jvalue s a -> (2 * length s + 1 <= n)%nat -> (number_lit s -> num_stop r) ->
  parse_value n (s ++ r) = POk s r.
Proof.
  intros H Hn Hr. destruct H as [| | |s Hs|s Hs|w Hw|s l Hs|w Hw|s l Hs].
  - destruct n as [|n]; [cbn in Hn; lia|]. apply parse_lit_complete.
  - destruct n as [|n]; [cbn in Hn; lia|]. apply parse_lit_complete.
  - destruct n as [|n]; [cbn in Hn; lia|]. apply parse_lit_complete.
  - apply (parse_value_complete s (JNum s)); [constructor; exact Hs|exact Hn|auto].
  - destruct n as [|n]; [lia|]. rewrite <- (parse_string_complete s r Hs). destruct Hs as (body & -> & _). reflexivity.
  - lens. destruct n as [|[|n]]; [lia|lia|].
    cbn [app]. cbn [parse_value].
    change (91 =? 123) with false. change (91 =? 91) with true. cbv iota.
    rewrite <- app_assoc. cbn [app].
    replace (Nat.ltb (length (91 :: w ++ 93 :: r)) 2) with false by (symmetry; apply Nat.ltb_ge; lens; lia).
    rewrite array_loop_S. rewrite skip_spaces_ws by exact Hw.
    rewrite (skip_spaces_nsp (93 :: r)) by reflexivity. change (93 =? 93) with true. cbv iota.
    change (91 :: w ++ 93 :: r) with ((91 :: w) ++ 93 :: r). rewrite close_at_app. reflexivity.
  - pose proof (proj1 (proj2 parse_complete_all) s l Hs) as IH. lens. destruct n as [|n]; [lia|].
    cbn [app]. cbn [parse_value].
    change (91 =? 123) with false. change (91 =? 91) with true. cbv iota.
    rewrite <- app_assoc. cbn [app].
    replace (Nat.ltb (length (91 :: s ++ 93 :: r)) 2) with false by (symmetry; apply Nat.ltb_ge; lens; lia).
    specialize (IH n true [91] [] r). cbn [app] in IH. apply IH; [lia|auto].
  - lens. destruct n as [|[|n]]; [lia|lia|].
    cbn [app]. cbn [parse_value].
    change (123 =? 123) with true. cbv iota.
    rewrite <- app_assoc. cbn [app].
    replace (Nat.ltb (length (123 :: w ++ 125 :: r)) 2) with false by (symmetry; apply Nat.ltb_ge; lens; lia).
    rewrite object_loop_S. rewrite skip_spaces_ws by exact Hw.
    rewrite (skip_spaces_nsp (125 :: r)) by reflexivity. change (125 =? 125) with true. cbv iota.
    change (123 :: w ++ 125 :: r) with ((123 :: w) ++ 125 :: r). rewrite close_at_app. reflexivity.
  - pose proof (proj1 (proj2 (proj2 parse_complete_all)) s l Hs) as IH. lens. destruct n as [|n]; [lia|].
    cbn [app]. cbn [parse_value].
    change (123 =? 123) with true. cbv iota.
    rewrite <- app_assoc. cbn [app].
    replace (Nat.ltb (length (123 :: s ++ 125 :: r)) 2) with false by (symmetry; apply Nat.ltb_ge; lens; lia).
    specialize (IH n true [123] [] r). cbn [app] in IH. apply IH; [lia|auto].
Qed.
Lemma parseValue_complete' s a r : jvalue s a -> (number_lit s -> num_stop r) -> parseValue (s ++ r) = POk s r.
Proof. intros H Hr. apply (parse_value_complete' s a); [exact H|unfold parse_fuel; lens; lia|exact Hr]. Qed.


Lemma jtext_wf_Valid data : wf data -> (Valid data = true <-> exists v, jtext data v).
Proof.
  intros Hw. unfold Valid. split.
  - destruct (skip_spaces_split data) as (w1 & Hw1 & E1 & _).
    destruct (parseValue (skip_spaces data)) as [v r|] eqn:E; [|discriminate].
    apply parseValue_sound in E; [|apply wf_skip_spaces, Hw]. destruct E as [E [a Ha]].
    destruct (skip_spaces_split r) as (w2 & Hw2 & E2 & _).
    destruct (skip_spaces r); [|discriminate]. intros _.
    exists a, w1, v, w2. rewrite app_nil_r in E2. subst w2. rewrite E in E1. auto.
  - intros (a & w1 & s & w2 & -> & Hw1 & Ha & Hw2).
    rewrite skip_spaces_ws by exact Hw1.
    rewrite skip_spaces_nsp.
    2:{ destruct (jvalue_head _ _ Ha) as (c & t & -> & Hc). cbn. apply vhead_nsp, Hc. }
    rewrite (parseValue_complete s a w2 Ha).
    2:{ rewrite <- (app_nil_r w2). apply num_stop_ws; [exact Hw2|exact I]. }
    rewrite skip_spaces_all by exact Hw2. reflexivity.
Qed.
