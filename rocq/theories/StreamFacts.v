(** Parsing of incomplete values, and the Decoder on streams. *)
From Verif Require DecFacts.
From Verif Require Import Bytes AsciiModel Utf8Model ParseModel IntModel StreamModel SpecJson SpecStream AsciiFacts ParseFacts.

Definition inc (x : pres) : Prop := exists e, x = PErr [] e.

(** Splitting. *)
Lemma app_split {A} (s t p q : list A) : s ++ t = p ++ q ->
  (exists p', s = p ++ p' /\ q = p' ++ t) \/ (exists p', p = s ++ p' /\ t = p' ++ q).
Proof.
  revert p. induction s as [|x s IH]; intros p H; cbn [app] in H; [right; exists p; auto|].
  destruct p as [|y p]; [left; exists (x :: s); split; [reflexivity|cbn [app] in *; congruence]|].
  cbn [app] in H. injection H as -> H. destruct (IH p H) as [(p' & -> & ->)|(p' & -> & ->)]; [left|right]; exists p'; auto.
Qed.
Lemma ws_app_l p q : ws (p ++ q) -> ws p.
Proof. unfold ws. rewrite Forall_app. tauto. Qed.

(** Incomplete numbers: an error that is not at the end is definitive. *)
Lemma skip_digits_app2 s q : skip_digits s <> [] -> skip_digits (s ++ q) = skip_digits s ++ q.
Proof. induction s as [|c s IH]; cbn [skip_digits app]; [congruence|]. destruct (is_digit c); [exact IH|reflexivity]. Qed.
Lemma upto_ext b r q : (length r <= length b)%nat -> upto (b ++ q) (r ++ q) = upto b r.
Proof. intros L. unfold upto. lens. replace (length b + length q - (length r + length q))%nat with (length b - length r)%nat by lia.
  rewrite firstn_app. replace (length b - length r - length b)%nat with O by lia. cbn. apply app_nil_r. Qed.
Lemma skip_digits_le s : (length (skip_digits s) <= length s)%nat.
Proof. induction s as [|c s IH]; cbn [skip_digits]; [lia|]. destruct (is_digit c); cbn [length] in *; lia. Qed.

Definition ext (x y : pres) (q : bytes) : Prop :=
  match x with
  | PErr [] _ => True
  | PErr _ e => exists r, y = PErr r e
  | POk v [] => True
  | POk v r => y = POk v (r ++ q)
  end.
Lemma parse_exp_ext b s q : (length s <= length b)%nat -> s <> [] -> ext (parse_exp b s) (parse_exp (b ++ q) (s ++ q)) q.
Proof.
  intros L N. destruct s as [|c s1]; [congruence|]. cbn [app]. unfold parse_exp.
  destruct ((c =? ce) || (c =? cE)).
  - destruct s1 as [|c1 s2].
    + exact I.
    + cbn [app length] in *. destruct ((c1 =? cPLUS) || (c1 =? cMINUS)).
      * destruct s2 as [|c2 s3]; [exact I|]. cbn [app]. destruct (is_digit c2) eqn:D; [|exact I].
        destruct (skip_digits (c2 :: s3)) as [|x r] eqn:E; [exact I|]. cbn [ext].
        change (c2 :: s3 ++ q) with ((c2 :: s3) ++ q). rewrite (skip_digits_app2 (c2 :: s3) q) by congruence. rewrite E.
        pose proof (skip_digits_le (c2 :: s3)) as LL. rewrite E in LL. cbn [length] in LL.
        rewrite upto_ext by (cbn [length] in *; lia). reflexivity.
      * destruct (is_digit c1) eqn:D; [|exact I].
        destruct (skip_digits (c1 :: s2)) as [|x r] eqn:E; [exact I|]. cbn [ext].
        change (c1 :: s2 ++ q) with ((c1 :: s2) ++ q). rewrite (skip_digits_app2 (c1 :: s2) q) by congruence. rewrite E.
        pose proof (skip_digits_le (c1 :: s2)) as LL. rewrite E in LL. cbn [length] in LL.
        rewrite upto_ext by (cbn [length] in *; lia). reflexivity.
  - cbn [ext]. change (c :: s1 ++ q) with ((c :: s1) ++ q). rewrite upto_ext by exact L. reflexivity.
Qed.
Lemma parse_frac_ext b s q : (length s <= length b)%nat -> s <> [] -> ext (parse_frac b s) (parse_frac (b ++ q) (s ++ q)) q.
Proof.
  intros L N. destruct s as [|c s1]; [congruence|]. cbn [app]. unfold parse_frac.
  destruct (c =? cDOT).
  - destruct s1 as [|c1 s2]; [exact I|]. cbn [app]. destruct (is_digit c1) eqn:D; [|cbn [ext]; eauto].
    destruct (skip_digits (c1 :: s2)) as [|x r] eqn:E.
    + cbn [parse_exp]. exact I.
    + change (c1 :: s2 ++ q) with ((c1 :: s2) ++ q). rewrite (skip_digits_app2 (c1 :: s2) q) by congruence. rewrite E.
      apply parse_exp_ext; [|discriminate]. pose proof (skip_digits_le (c1 :: s2)) as LL. rewrite E in LL. cbn [length] in *. lia.
  - change (c :: s1 ++ q) with ((c :: s1) ++ q). apply parse_exp_ext; [exact L|discriminate].
Qed.
Lemma parse_number_ext p q : ext (parse_number p) (parse_number (p ++ q)) q.
Proof.
  destruct p as [|c b1]; [exact I|]. cbn [app]. unfold parse_number.
  assert (K : forall s, (length s <= length (c :: b1))%nat -> ext
    (match s with
      | [] => PErr [] ESyntax
      | d :: s1 =>
          if negb (is_digit d) then PErr s ESyntax
          else if d =? c0 then
            match s1 with
            | [] => POk (upto (c :: b1) s1) s1
            | x :: _ =>
                if negb (x =? cDOT) && negb (x =? ce) && negb (x =? cE)
                then POk (upto (c :: b1) s1) s1
                else if is_digit x then PErr s1 ESyntax
                else parse_frac (c :: b1) (skip_digits s1)
            end
          else parse_frac (c :: b1) (skip_digits s)
      end)
    (match s ++ q with
      | [] => PErr [] ESyntax
      | d :: s1 =>
          if negb (is_digit d) then PErr (s ++ q) ESyntax
          else if d =? c0 then
            match s1 with
            | [] => POk (upto ((c :: b1) ++ q) s1) s1
            | x :: _ =>
                if negb (x =? cDOT) && negb (x =? ce) && negb (x =? cE)
                then POk (upto ((c :: b1) ++ q) s1) s1
                else if is_digit x then PErr s1 ESyntax
                else parse_frac ((c :: b1) ++ q) (skip_digits s1)
            end
          else parse_frac ((c :: b1) ++ q) (skip_digits (s ++ q))
      end) q).
  { intros s L. destruct s as [|d s1]; [exact I|]. cbn [app length] in *. destruct (negb (is_digit d)); [cbn [ext]; eauto|].
    destruct (d =? c0).
    - destruct s1 as [|x s2]; [exact I|]. cbn [app length] in *.
      destruct (negb (x =? cDOT) && negb (x =? ce) && negb (x =? cE)).
      + cbn [ext]. change (c :: b1 ++ q) with ((c :: b1) ++ q). change (x :: s2 ++ q) with ((x :: s2) ++ q).
        rewrite upto_ext by (cbn [length] in *; lia). reflexivity.
      + destruct (is_digit x) eqn:D; [cbn [ext]; eauto|].
        cbn [skip_digits]. rewrite D. change (x :: s2 ++ q) with ((x :: s2) ++ q). change (c :: b1 ++ q) with ((c :: b1) ++ q).
        apply parse_frac_ext; [cbn [length]; lia|discriminate].
    - destruct (skip_digits (d :: s1)) as [|x r] eqn:E.
      + cbn [parse_frac parse_exp]. exact I.
      + change (d :: s1 ++ q) with ((d :: s1) ++ q). rewrite (skip_digits_app2 (d :: s1) q) by congruence. rewrite E.
        change (c :: b1 ++ q) with ((c :: b1) ++ q).
        apply parse_frac_ext; [|discriminate]. pose proof (skip_digits_le (d :: s1)) as LL. rewrite E in LL. cbn [length] in *. lia. }
  destruct (c =? cMINUS); [exact (K b1 ltac:(cbn [length]; lia))|exact (K (c :: b1) (le_n _))].
Qed.
Lemma number_inc p q : number_lit (p ++ q) -> parse_number p = POk p [] \/ inc (parse_number p).
Proof.
  intros N. pose proof (parse_number_complete _ [] N I) as C. rewrite app_nil_r in C.
  pose proof (parse_number_ext p q) as X. rewrite C in X.
  destruct (parse_number p) as [v [|c r]|[|c r] e] eqn:E; cbn [ext] in X.
  - left. f_equal.
    unfold parse_number in E. (* the value read is the input *)
    assert (S : forall b v r, parse_number b = POk v r -> v = upto b r).
    { clear. intros b v r. unfold parse_number, parse_frac, parse_exp.
      repeat (match goal with |- context [match ?x with _ => _ end] => destruct x end; try discriminate);
      intros H; injection H as <- <-; reflexivity. }
    fold (parse_number p) in E. rewrite (S _ _ _ E). unfold upto. cbn [length]. rewrite Nat.sub_0_r. apply firstn_all.
  - exfalso. injection X as _ X. discriminate X.
  - right. exists e. reflexivity.
  - destruct X as (r' & X). discriminate X.
Qed.

(** Incomplete strings. *)
Lemma quote_esc body : str_body body -> forall p q, body = p ++ q -> In 34 p -> exists l1 l2, p = l1 ++ 92 :: 34 :: l2.
Proof.
  induction 1 as [|c s Hc H34 H92 Hs IH|e s He Hs IH|h1 h2 h3 h4 s H1 H2 H3 H4 Hs IH]; intros p q E HI.
  - destruct p; [destruct HI|discriminate].
  - destruct p as [|c' p]; [destruct HI|]. injection E as <- E. destruct HI as [HI|HI]; [congruence|].
    destruct (IH p q E HI) as (l1 & l2 & ->). exists (c :: l1), l2. reflexivity.
  - destruct p as [|a [|b p]]; [destruct HI|injection E as <- _; destruct HI as [HI|[]]; discriminate|].
    injection E as <- <- E. destruct (Z.eq_dec e 34) as [->|N]; [exists [], p; reflexivity|].
    destruct HI as [HI|[HI|HI]]; [discriminate|congruence|].
    destruct (IH p q E HI) as (l1 & l2 & ->). exists (92 :: e :: l1), l2. reflexivity.
  - assert (X : forall h, hex_digit h -> h <> 34) by (unfold hex_digit; lia).
    assert (Y : ~ In 34 [92; 117; h1; h2; h3; h4]).
    { cbn [In]. intros HH. repeat destruct HH as [HH|HH]; try discriminate HH; try (exact HH); (eapply X; [|exact HH]; assumption). }
    destruct (app_split [92; 117; h1; h2; h3; h4] s p q E) as [(p' & E1 & _)|(p' & -> & E')].
    { exfalso. apply Y. rewrite E1. apply in_or_app. left. exact HI. }
    apply in_app_or in HI. destruct HI as [HI|HI']; [contradiction|].
    destruct (IH p' q E' HI') as (l1 & l2 & ->). exists (92 :: 117 :: h1 :: h2 :: h3 :: h4 :: l1), l2. reflexivity.
Qed.
Lemma string_loop_inc body : str_body body -> forall p q, body = p ++ q ->
  string_loop p = SLMissing \/ exists x y, p = x ++ 92 :: 117 :: y /\ ~ In 34 y.
Proof.
  induction 1 as [|c s Hc H34 H92 Hs IH|e s He Hs IH|h1 h2 h3 h4 s H1 H2 H3 H4 Hs IH]; intros p q E.
  - destruct p; [left; reflexivity|discriminate].
  - destruct p as [|c' p]; [left; reflexivity|]. injection E as <- E. cbn [string_loop].
    apply Z.eqb_neq in H34, H92. rewrite H34, H92. destruct (c <? 32) eqn:E32; [zb; lia|].
    destruct (IH p q E) as [H|(x & y & -> & N)]; [left; exact H|right; exists (c :: x), y; auto].
  - destruct p as [|a [|b p]]; [left; reflexivity|injection E as <- _; left; reflexivity|].
    injection E as <- <- E. cbn [string_loop]. change (92 =? cBSLASH) with true. cbv iota. apply simple_escape_iff in He. rewrite He.
    destruct (IH p q E) as [H|(x & y & -> & N)]; [left; exact H|right; exists (92 :: e :: x), y; auto].
  - assert (X : forall h, hex_digit h -> h <> 34) by (unfold hex_digit; lia).
    destruct p as [|a1 p]; [left; reflexivity|]. cbn [app] in E. injection E as <- E.
    destruct p as [|a2 p]; [left; reflexivity|]. cbn [app] in E. injection E as <- E.
    destruct p as [|a3 p]; [right; exists [], []; auto|]. cbn [app] in E. injection E as <- E.
    destruct p as [|a4 p]; [right; exists [], [h1]; split; [reflexivity|intros [H|[]]; eapply X; [|exact H]; assumption]|]. cbn [app] in E. injection E as <- E.
    destruct p as [|a5 p]; [right; exists [], [h1; h2]; split; [reflexivity|intros [H|[H|[]]]; (eapply X; [|exact H]; assumption)]|]. cbn [app] in E. injection E as <- E.
    destruct p as [|a6 p]; [right; exists [], [h1; h2; h3]; split; [reflexivity|intros [H|[H|[H|[]]]]; (eapply X; [|exact H]; assumption)]|]. cbn [app] in E. injection E as <- E.
    destruct (IH p q E) as [H|(x & y & -> & N)]; [left|right; exists (92 :: 117 :: h1 :: h2 :: h3 :: h4 :: x), y; auto].
    cbn [string_loop]. change (92 =? cBSLASH) with true. change (is_simple_escape 117) with false. change (117 =? cu) with true. cbv iota.
    destruct (parse_unicode_hex h1 h2 h3 h4 p) as [u ->]; auto.
Qed.
Lemma string_inc k p q : string_lit k -> resumable k -> k = p ++ q -> q <> [] -> inc (parse_string p).
Proof.
  intros (body & Ek & B) R E Q. subst k. destruct p as [|c p]; [eexists; reflexivity|].
  cbn [app] in E. injection E as <- E. destruct p as [|c p]; [eexists; reflexivity|].
  assert (P : exists q', body = (c :: p) ++ q').
  { destruct (app_split body [34] (c :: p) q E) as [(p' & -> & _)|(p' & E1 & E2)]; [eauto|].
    destruct p' as [|x p']; [rewrite app_nil_r in E1; exists []; rewrite app_nil_r; congruence|].
    cbn [app] in E2. injection E2 as <- E2. symmetry in E2. apply app_eq_nil in E2. destruct E2 as [_ E2]. congruence. }
  destruct P as (q' & EB). unfold parse_string, parse_string_fast. change (34 =? cQUOTE) with true. cbn [negb].
  change (negb true) with false. cbv iota.
  destruct (index_byte cQUOTE (c :: p)) as [k|] eqn:EI; [|eexists; reflexivity].
  apply index_byte_some in EI. destruct EI as (u & v & Eu & Lu & Nu).
  assert (F : firstn (k + 1) (c :: p) = u ++ [34]).
  { rewrite Eu. replace (u ++ cQUOTE :: v) with ((u ++ [34]) ++ v) by (rewrite <- app_assoc; reflexivity).
    replace (k + 1)%nat with (length (u ++ [34])) by (rewrite app_length; cbn; lia).
    rewrite firstn_app, Nat.sub_diag, firstn_all. cbn. apply app_nil_r. }
  rewrite F. destruct (index_byte cBSLASH (u ++ [34])) eqn:EB2.
  2:{ exfalso. apply index_byte_none in EB2. destruct (quote_esc body B (u ++ [34]) (v ++ q')) as (l1 & l2 & EE).
      - rewrite EB, Eu, <- !app_assoc. reflexivity.
      - apply in_or_app. right. left. reflexivity.
      - apply EB2. rewrite EE. apply in_or_app. right. left. reflexivity. }
  destruct (string_loop_inc body B (c :: p) q' EB) as [->|(x & y & Ex & Ny)]; [eexists; reflexivity|].
  exfalso. assert (HI : In 34 x).
  { assert (H : In 34 (c :: p)) by (rewrite Eu; apply in_or_app; right; left; reflexivity).
    rewrite Ex in H. apply in_app_or in H. destruct H as [H|[H|[H|H]]]; auto; try discriminate H. tauto. }
  destruct (quote_esc body B x (92 :: 117 :: y ++ q')) as (l1 & l2 & EE).
  - rewrite EB, Ex, <- app_assoc. reflexivity.
  - exact HI.
  - apply (R (34 :: l1) l2 (y ++ q' ++ [34])). rewrite EB, Ex, EE. repeat (rewrite <- !app_assoc; cbn [app]). reflexivity.
Qed.

(** Incomplete arrays and objects. *)
Definition sepok (f : bool) (w : bytes) : Prop := (f = true /\ w = []) \/ (f = false /\ exists w', ws w' /\ w = w' ++ [44]).
Lemma obj_enter n f a w X : sepok f w ->
  (skip_spaces X = [] -> inc (object_loop (S n) f a (w ++ X))) /\
  (forall c t, skip_spaces X = c :: t -> c <> 125 -> object_loop (S n) f a (w ++ X) = obj_k n a (c :: t)).
Proof.
  intros [[-> ->]|[-> (w' & Hw & ->)]]; cbn [app]; rewrite object_loop_S.
  - split; [intros ->; eexists; reflexivity|]. intros c t -> N. apply Z.eqb_neq in N. rewrite N. reflexivity.
  - replace ((w' ++ [44]) ++ X) with (w' ++ 44 :: X) by (rewrite <- app_assoc; reflexivity).
    rewrite skip_spaces_ws by exact Hw. rewrite (skip_spaces_nsp (44 :: X)) by reflexivity.
    change (44 =? 125) with false. change (44 =? 44) with true. cbn [negb].
    split; [intros ->; eexists; reflexivity|]. intros c t -> N. apply Z.eqb_neq in N. rewrite N. reflexivity.
Qed.
Lemma arr_enter n f a w X : sepok f w ->
  (skip_spaces X = [] -> inc (array_loop (S n) f a (w ++ X))) /\
  (forall c t, skip_spaces X = c :: t -> c <> 93 -> array_loop (S n) f a (w ++ X) = arr_k n a (c :: t)).
Proof.
  intros [[-> ->]|[-> (w' & Hw & ->)]]; cbn [app]; rewrite array_loop_S.
  - split; [intros ->; eexists; reflexivity|]. intros c t -> N. apply Z.eqb_neq in N. rewrite N. reflexivity.
  - replace ((w' ++ [44]) ++ X) with (w' ++ 44 :: X) by (rewrite <- app_assoc; reflexivity).
    rewrite skip_spaces_ws by exact Hw. rewrite (skip_spaces_nsp (44 :: X)) by reflexivity.
    change (44 =? 93) with false. change (44 =? 44) with true. cbn [negb].
    split; [intros ->; eexists; reflexivity|]. intros c t -> N. apply Z.eqb_neq in N. rewrite N. reflexivity.
Qed.
Lemma obj_ws_inc n f a w : (1 <= n)%nat -> ws w -> inc (object_loop n f a w).
Proof. intros L W. destruct n; [lia|]. rewrite object_loop_S, skip_spaces_all by exact W. eexists. reflexivity. Qed.
Lemma arr_ws_inc n f a w : (1 <= n)%nat -> ws w -> inc (array_loop n f a w).
Proof. intros L W. destruct n; [lia|]. rewrite array_loop_S, skip_spaces_all by exact W. eexists. reflexivity. Qed.
Lemma ws_num_stop p q : ws (p ++ q) -> num_stop p.
Proof. intros H. apply ws_app_l in H. rewrite <- (app_nil_r p). apply num_stop_ws; [exact H|exact I]. Qed.

Definition is_num (a : jast) : Prop := exists x, a = JNum x.
Definition res_all (a : jast) : Prop := forall lit, lit_in lit a -> resumable lit.

Lemma inc_all :
  (forall s a, jvalue s a -> res_all a -> forall p q n, s = p ++ q -> q <> [] -> (2 * length s + 1 <= n)%nat ->
     inc (parse_value n p) \/ is_num a /\ parse_value n p = POk p []) /\
  (forall s l, jelems s l -> Forall res_all l -> forall p q n f a w, s = p ++ q -> (2 * length s + 2 <= n)%nat -> sepok f w ->
     inc (array_loop n f a (w ++ p))) /\
  (forall s l, jmembers s l -> Forall (fun kv => resumable (fst kv) /\ res_all (snd kv)) l -> forall p q n f P w, s = p ++ q -> (2 * length s + 2 <= n)%nat -> sepok f w ->
     inc (object_loop n f (P ++ w ++ p) (w ++ p))) /\
  (forall m kv, jmember m kv -> resumable (fst kv) /\ res_all (snd kv) -> forall p q n f a w, m = p ++ q -> (2 * length m + 2 <= n)%nat -> sepok f w ->
     inc (object_loop n f a (w ++ p))).
Proof.
  assert (LIT : forall lit c n p q, lit = p ++ q -> q <> [] -> hd 0 lit = c -> (c = 110 \/ c = 116 \/ c = 102) ->
     (forall b, parse_value (S n) (c :: b) = parse_lit lit (c :: b)) -> inc (parse_value (S n) p)).
  { intros lit c n p q E Q H C PV. destruct p as [|x p]; [eexists; reflexivity|].
    subst lit. cbn [hd app] in H. subst x. rewrite PV. unfold parse_lit.
    destruct (has_prefix (c :: p) ((c :: p) ++ q)) eqn:HP.
    - exfalso. apply has_prefix_iff in HP. destruct HP as [r HP]. rewrite <- app_assoc in HP. rewrite <- (app_nil_r (c :: p)) in HP at 1.
      apply app_inv_head in HP. symmetry in HP. apply app_eq_nil in HP. tauto.
    - replace (Nat.ltb (length (c :: p)) (length ((c :: p) ++ q))) with true; [eexists; reflexivity|].
      symmetry. apply Nat.ltb_lt. rewrite app_length. destruct q; [congruence|cbn; lia]. }
  apply json_mutind.
  - intros _ p q n E Q Hn. left. destruct n as [|n]; [cbn in Hn; lia|]. eapply (LIT _ 110); eauto.
  - intros _ p q n E Q Hn. left. destruct n as [|n]; [cbn in Hn; lia|]. eapply (LIT _ 116); eauto.
  - intros _ p q n E Q Hn. left. destruct n as [|n]; [cbn in Hn; lia|]. eapply (LIT _ 102); eauto.
  - (* numbers *)
    intros s Hs _ p q n E Q Hn. destruct n as [|n]; [cbn in Hn; lia|].
    destruct p as [|c p]; [left; eexists; reflexivity|].
    assert (PV : parse_value (S n) (c :: p) = parse_number (c :: p)).
    { destruct (number_head _ Hs) as (c' & t & Es & Hc). rewrite Es in E. cbn [app] in E. injection E as -> _. cbn [parse_value].
      unfold is_num_start, is_digit.
      destruct (c =? 123) eqn:?; [zb; lia|]. destruct (c =? 91) eqn:?; [zb; lia|].
      destruct (c =? 34) eqn:?; [zb; lia|]. destruct (c =? 110) eqn:?; [zb; lia|].
      destruct (c =? 116) eqn:?; [zb; lia|]. destruct (c =? 102) eqn:?; [zb; lia|].
      replace ((c =? 45) || (48 <=? c) && (c <=? 57)) with true; [reflexivity|].
      symmetry. rewrite orb_true_iff, andb_true_iff, Z.eqb_eq, !Z.leb_le. lia. }
    rewrite PV. subst s. destruct (number_inc (c :: p) q Hs) as [H|H]; [right|left; exact H]. split; [eexists; reflexivity|exact H].
  - (* strings *)
    intros s Hs R p q n E Q Hn. left. destruct n as [|n]; [lia|]. destruct p as [|c p]; [eexists; reflexivity|].
    replace (parse_value (S n) (c :: p)) with (parse_string (c :: p)).
    + eapply string_inc; [exact Hs| |exact E|exact Q]. apply R. constructor.
    + destruct Hs as (body & -> & _). injection E as <- _. reflexivity.
  - (* [] *)
    intros w Hw R p q n E Q Hn. left. lens. destruct n as [|n]; [lia|]. destruct p as [|c p]; [eexists; reflexivity|].
    cbn [app] in E. injection E as <- E. cbn [parse_value]. change (91 =? 123) with false. change (91 =? 91) with true. cbv iota.
    destruct (Nat.ltb _ _); [eexists; reflexivity|]. apply arr_ws_inc; [lia|].
    destruct (app_split w [93] p q E) as [(p' & -> & _)|(p' & -> & E2)]; [eapply ws_app_l; exact Hw|].
    destruct p' as [|x p']; [rewrite app_nil_r; exact Hw|]. injection E2 as _ E2. symmetry in E2. apply app_eq_nil in E2. tauto.
  - intros s l Hs IH R p q n E Q Hn. left. lens. destruct n as [|n]; [lia|]. destruct p as [|c p]; [eexists; reflexivity|].
    cbn [app] in E. injection E as <- E. cbn [parse_value]. change (91 =? 123) with false. change (91 =? 91) with true. cbv iota.
    destruct (Nat.ltb _ _); [eexists; reflexivity|].
    assert (exists q', s = p ++ q') as (q' & Es).
    { destruct (app_split s [93] p q E) as [(p' & -> & _)|(p' & -> & E2)]; [eauto|].
      destruct p' as [|x p']; [exists []; rewrite !app_nil_r; reflexivity|]. injection E2 as _ E2. symmetry in E2. apply app_eq_nil in E2. tauto. }
    apply (IH) with (w := []) (q := q'); [|exact Es|lia|left; auto].
    apply Forall_forall. intros x Hx lit HL. apply R. eapply li_arr; eassumption.
  - intros w Hw R p q n E Q Hn. left. lens. destruct n as [|n]; [lia|]. destruct p as [|c p]; [eexists; reflexivity|].
    cbn [app] in E. injection E as <- E. cbn [parse_value]. change (123 =? 123) with true. cbv iota.
    destruct (Nat.ltb _ _); [eexists; reflexivity|]. apply obj_ws_inc; [lia|].
    destruct (app_split w [125] p q E) as [(p' & -> & _)|(p' & -> & E2)]; [eapply ws_app_l; exact Hw|].
    destruct p' as [|x p']; [rewrite app_nil_r; exact Hw|]. injection E2 as _ E2. symmetry in E2. apply app_eq_nil in E2. tauto.
  - intros s l Hs IH R p q n E Q Hn. left. lens. destruct n as [|n]; [lia|]. destruct p as [|c p]; [eexists; reflexivity|].
    cbn [app] in E. injection E as <- E. cbn [parse_value]. change (123 =? 123) with true. cbv iota.
    destruct (Nat.ltb _ _); [eexists; reflexivity|].
    assert (exists q', s = p ++ q') as (q' & Es).
    { destruct (app_split s [125] p q E) as [(p' & -> & _)|(p' & -> & E2)]; [eauto|].
      destruct p' as [|x p']; [exists []; rewrite !app_nil_r; reflexivity|]. injection E2 as _ E2. symmetry in E2. apply app_eq_nil in E2. tauto. }
    change (123 :: p) with ([123] ++ [] ++ p). change p with ([] ++ p) at 2. apply IH with (q := q'); [|exact Es|lia|left; auto].
    apply Forall_forall. intros [k x] Hx. cbn [fst snd]. split; [apply R; eapply li_key; eassumption|].
    intros lit HL. apply R. eapply li_obj; eassumption.
  - (* last element *)
    intros w1 s v w2 Hw1 Hv IH Hw2 R p q n f a w E Hn Hf. inversion R as [|? ? Rv _]; subst. clear R. lens. destruct n as [|n]; [lia|].
    destruct (jvalue_head _ _ Hv) as (c & t & Es & Hc).
    assert (HP : forall X, skip_spaces (w1 ++ c :: X) = c :: X).
    { intros X. rewrite skip_spaces_ws by exact Hw1. apply skip_spaces_nsp. cbn. apply vhead_nsp, Hc. }
    assert (C93 : c <> 93) by (unfold vhead in Hc; lia).
    destruct (app_split _ _ _ _ E) as [(p' & E1 & E2)|(p1 & -> & E2)].
    { apply arr_enter; [exact Hf|]. apply skip_spaces_all. rewrite E1 in Hw1. eapply ws_app_l, Hw1. }
    destruct p1 as [|c' p1]. { rewrite app_nil_r. apply arr_enter; [exact Hf|]. apply skip_spaces_all, Hw1. }
    assert (c' = c) as ->. { rewrite Es in E2. cbn [app] in E2. congruence. }
    rewrite (proj2 (arr_enter n f a w (w1 ++ c :: p1) Hf) c p1 (HP p1) C93). unfold arr_k.
    destruct (app_split _ _ _ _ E2) as [(p' & E3 & E4)|(p2 & E3 & E4)].
    + destruct p' as [|x p'].
      * rewrite app_nil_r in E3. rewrite <- E3, <- (app_nil_r s).
        rewrite (parse_value_complete s v n []); [|exact Hv|lia|exact I]. apply arr_ws_inc; [lia|constructor].
      * destruct (IH Rv (c :: p1) (x :: p') n E3) as [(e & ->)|(_ & ->)]; [discriminate|lia|eexists; reflexivity|]. apply arr_ws_inc; [lia|constructor].
    + rewrite E3. rewrite (parse_value_complete s v n p2); [|exact Hv|lia|rewrite E4 in Hw2; eapply ws_num_stop; exact Hw2].
      apply arr_ws_inc; [lia|]. rewrite E4 in Hw2. eapply ws_app_l; exact Hw2.
  - (* more elements *)
    intros w1 s v w2 e l Hw1 Hv IH Hw2 He IHe R p q n f a w E Hn Hf. inversion R as [|? ? Rv Rl]; subst. clear R. lens. destruct n as [|n]; [lia|].
    destruct (jvalue_head _ _ Hv) as (c & t & Es & Hc).
    assert (Ls : (1 <= length s)%nat) by (rewrite Es; cbn; lia).
    assert (HP : forall X, skip_spaces (w1 ++ c :: X) = c :: X).
    { intros X. rewrite skip_spaces_ws by exact Hw1. apply skip_spaces_nsp. cbn. apply vhead_nsp, Hc. }
    assert (C93 : c <> 93) by (unfold vhead in Hc; lia).
    destruct (app_split _ _ _ _ E) as [(p' & E1 & E2)|(p1 & -> & E2)].
    { apply arr_enter; [exact Hf|]. apply skip_spaces_all. rewrite E1 in Hw1. eapply ws_app_l, Hw1. }
    destruct p1 as [|c' p1]. { rewrite app_nil_r. apply arr_enter; [exact Hf|]. apply skip_spaces_all, Hw1. }
    assert (c' = c) as ->. { rewrite Es in E2. cbn [app] in E2. congruence. }
    rewrite (proj2 (arr_enter n f a w (w1 ++ c :: p1) Hf) c p1 (HP p1) C93). unfold arr_k.
    destruct (app_split _ _ _ _ E2) as [(p' & E3 & E4)|(p2 & E3 & E4)].
    + destruct p' as [|x p'].
      * rewrite app_nil_r in E3. rewrite <- E3, <- (app_nil_r s).
        rewrite (parse_value_complete s v n []); [|exact Hv|lia|exact I]. apply arr_ws_inc; [lia|constructor].
      * destruct (IH Rv (c :: p1) (x :: p') n E3) as [(e0 & ->)|(_ & ->)]; [discriminate|lia|eexists; reflexivity|]. apply arr_ws_inc; [lia|constructor].
    + assert (NS : num_stop p2).
      { destruct (app_split _ _ _ _ E4) as [(p' & E5 & _)|(p' & -> & E5)].
        - rewrite E5 in Hw2. eapply ws_num_stop; exact Hw2.
        - apply num_stop_ws; [exact Hw2|]. destruct p' as [|x p']; [exact I|]. injection E5 as <- _. reflexivity. }
      rewrite E3. rewrite (parse_value_complete s v n p2); [|exact Hv|lia|exact NS].
      destruct (app_split _ _ _ _ E4) as [(p' & E5 & _)|(p' & -> & E5)].
      * apply arr_ws_inc; [lia|]. rewrite E5 in Hw2. eapply ws_app_l; exact Hw2.
      * destruct p' as [|x p']; [rewrite app_nil_r; apply arr_ws_inc; [lia|exact Hw2]|]. injection E5 as <- E5.
        replace (w2 ++ 44 :: p') with ((w2 ++ [44]) ++ p') by (rewrite <- app_assoc; reflexivity).
        eapply IHe; [exact Rl|exact E5|lia|right; split; [reflexivity|eauto]].
  - (* last member *)
    intros m kv Hm IH R p q n f P w E Hn Hf. inversion R as [|? ? Rv _]; subst. eapply IH; [exact Rv|reflexivity|exact Hn|exact Hf].
  - (* more members *)
    intros m kv t l Hm IH Ht IHt R p q n f P w E Hn Hf. inversion R as [|? ? Rv Rl]; subst. clear R. lens.
    destruct (app_split _ _ _ _ E) as [(p' & E1 & E2)|(p1 & -> & E2)].
    { eapply IH; [exact Rv|exact E1|lia|exact Hf]. }
    destruct p1 as [|x p1]. { rewrite app_nil_r. eapply IH; [exact Rv|symmetry; apply app_nil_r|lia|exact Hf]. }
    injection E2 as <- E2.
    destruct (proj2 (proj2 (proj2 parse_complete_all)) m kv Hm n f P w (44 :: p1)) as (m0 & w4 & n' & Em & Hw4 & Hn' & Hm0 & EQ); [lia|reflexivity|exact Hf|].
    rewrite EQ. replace (w4 ++ 44 :: p1) with ((w4 ++ [44]) ++ p1) by (rewrite <- app_assoc; reflexivity).
    replace (P ++ w ++ m ++ 44 :: p1) with ((P ++ w ++ m0) ++ (w4 ++ [44]) ++ p1) by (rewrite Em, <- !app_assoc; reflexivity).
    eapply IHt; [exact Rl|exact E2| |right; split; [reflexivity|eauto]]. rewrite Em in Hn. lens. lia.
  - (* one member *)
    intros w1 k w2 w3 s v w4 H1 Hk H2 H3 Hv IH H4 [Rk Rv] p q n f a w E Hn Hf. cbn [fst snd] in Rk, Rv. lens. destruct n as [|n]; [lia|].
    assert (Hk' := Hk). destruct Hk' as (body & Ek & _).
    assert (HP : forall X, skip_spaces (w1 ++ 34 :: X) = 34 :: X).
    { intros X. rewrite skip_spaces_ws by exact H1. apply skip_spaces_nsp. reflexivity. }
    destruct (app_split _ _ _ _ E) as [(p' & E1 & E2)|(p1 & -> & E2)].
    { apply obj_enter; [exact Hf|]. apply skip_spaces_all. rewrite E1 in H1. eapply ws_app_l, H1. }
    destruct p1 as [|c' p1]. { rewrite app_nil_r. apply obj_enter; [exact Hf|]. apply skip_spaces_all, H1. }
    assert (c' = 34) as ->. { rewrite Ek in E2. cbn [app] in E2. congruence. }
    rewrite (proj2 (obj_enter n f a w (w1 ++ 34 :: p1) Hf) 34 p1 (HP p1)) by discriminate. unfold obj_k.
    assert (CE : forall p2, ws p2 -> match skip_spaces p2 with
      | [] => PErr [] ESyntax
      | c :: b1 => if negb (c =? cCOLON) then PErr (c :: b1) ESyntax
          else match parse_value n (skip_spaces b1) with PErr r e => PErr r e | POk _ b => object_loop n false a b end
      end = PErr [] ESyntax) by (intros p2 W; rewrite (skip_spaces_all p2 W); reflexivity).
    destruct (app_split _ _ _ _ E2) as [(p' & E3 & E4)|(p2 & E3 & E4)].
    + destruct p' as [|x p'].
      * rewrite app_nil_r in E3. rewrite <- E3, <- (app_nil_r k). rewrite parse_string_complete by exact Hk. rewrite CE by constructor. eexists; reflexivity.
      * destruct (string_inc k (34 :: p1) (x :: p') Hk Rk E3) as (e & ->); [discriminate|eexists; reflexivity].
    + rewrite E3, parse_string_complete by exact Hk.
      destruct (app_split _ _ _ _ E4) as [(p' & E5 & _)|(p3 & -> & E5)].
      { rewrite CE; [eexists; reflexivity|]. rewrite E5 in H2. eapply ws_app_l; exact H2. }
      destruct p3 as [|x p3]. { rewrite app_nil_r, CE by exact H2. eexists; reflexivity. }
      injection E5 as <- E5. rewrite skip_spaces_ws by exact H2. rewrite (skip_spaces_nsp (58 :: p3)) by reflexivity.
      change (58 =? cCOLON) with true. cbn [negb]. change (negb true) with false. cbv iota.
      destruct (jvalue_head _ _ Hv) as (c & t & Es & Hc).
      destruct (app_split _ _ _ _ E5) as [(p' & E6 & _)|(p4 & -> & E6)].
      { rewrite (skip_spaces_all p3) by (rewrite E6 in H3; eapply ws_app_l; exact H3). destruct n; [lia|]. eexists; reflexivity. }
      rewrite skip_spaces_ws by exact H3.
      destruct p4 as [|c' p4]; [destruct n; [lia|]; eexists; reflexivity|].
      assert (c' = c) as ->. { rewrite Es in E6. cbn [app] in E6. congruence. }
      rewrite (skip_spaces_nsp (c :: p4)) by (cbn; apply vhead_nsp, Hc).
      destruct (app_split _ _ _ _ E6) as [(p' & E7 & _)|(p5 & E7 & E8)].
      * destruct p' as [|x p'].
        -- rewrite app_nil_r in E7. rewrite <- E7, <- (app_nil_r s).
           rewrite (parse_value_complete s v n []); [|exact Hv|lia|exact I]. apply obj_ws_inc; [lia|constructor].
        -- destruct (IH Rv (c :: p4) (x :: p') n E7) as [(e & ->)|(_ & ->)]; [discriminate|lia|eexists; reflexivity|]. apply obj_ws_inc; [lia|constructor].
      * rewrite E7. rewrite (parse_value_complete s v n p5); [|exact Hv|lia|rewrite E8 in H4; eapply ws_num_stop; exact H4].
        apply obj_ws_inc; [lia|]. rewrite E8 in H4. eapply ws_app_l; exact H4.
Qed.

(** Readers. *)
Lemma read_chunks_calm final l : calm final l -> forall n, (0 < n)%nat ->
  exists l', read_chunks n l final =
    (firstn n (concat (map fst l)), if Nat.ltb (length (concat (map fst l))) n then Some final else None, l') /\
    calm final l' /\ concat (map fst l') = skipn n (concat (map fst l)).
Proof.
  induction 1 as [|ch|ch l Hl IH]; intros n Hn; (destruct n as [|n]; [lia|]); cbn [read_chunks].
  - exists []. repeat split; constructor.
  - cbn [map fst concat]. rewrite app_nil_r. destruct (Nat.ltb (length ch) (S n)) eqn:E.
    + apply Nat.ltb_lt in E. exists []. rewrite firstn_all2, skipn_all2 by lia. repeat split. constructor.
    + apply Nat.ltb_ge in E. destruct (Nat.eqb (length ch) (S n)) eqn:E2.
      * apply Nat.eqb_eq in E2. exists []. rewrite firstn_all2, skipn_all2 by lia. repeat split. constructor.
      * exists [(skipn (S n) ch, Some final)]. repeat split; [constructor|]. cbn [map fst concat]. apply app_nil_r.
  - cbn [map fst concat]. rewrite firstn_app, skipn_app, app_length. destruct (Nat.ltb (length ch) (S n)) eqn:E.
    + apply Nat.ltb_lt in E. destruct (IH (S n - length ch)%nat ltac:(lia)) as (l' & -> & C & U). exists l'.
      rewrite (firstn_all2 ch), (skipn_all2 ch) by lia. repeat split; auto. f_equal. f_equal.
      destruct (Nat.ltb _ (S n - length ch)) eqn:E1; destruct (Nat.ltb _ (S n)) eqn:E2; auto; (apply Nat.ltb_lt in E1 || apply Nat.ltb_ge in E1); (apply Nat.ltb_lt in E2 || apply Nat.ltb_ge in E2); lia.
    + apply Nat.ltb_ge in E. replace (Nat.ltb (length ch + length (concat (map fst l))) (S n)) with false by (symmetry; apply Nat.ltb_ge; lia).
      replace (S n - length ch)%nat with O by lia. rewrite firstn_O, skipn_O, app_nil_r. destruct (Nat.eqb (length ch) (S n)) eqn:E2.
      * apply Nat.eqb_eq in E2. exists l. rewrite firstn_all2, skipn_all2 by lia. repeat split; auto.
      * exists ((skipn (S n) ch, None) :: l). repeat split; [constructor; exact Hl].
Qed.

(** Decoders in the same situation. *)
Definition wfd (d : decoder) : Prop := (dc_cap d = 0 /\ dc_remain d = []) \/ (32768 <= dc_cap d /\ Z.of_nat (length (dc_remain d)) <= dc_cap d).
Definition cap' (d : decoder) : Z :=
  let cap := if dc_cap d =? 0 then minBufferSize else dc_cap d in
  if cap - Z.of_nat (length (dc_remain d)) <? minReadSize then 2 * cap else cap.
Definition room (d : decoder) : nat := Z.to_nat (cap' d - Z.of_nat (length (dc_remain d))).
Lemma room_pos d : wfd d -> (4096 <= room d)%nat /\ 32768 <= cap' d /\ Z.of_nat (length (dc_remain d)) + Z.of_nat (room d) = cap' d.
Proof.
  intros H. unfold room. assert (H' : 4096 <= cap' d - Z.of_nat (length (dc_remain d)) /\ 32768 <= cap' d); [|lia].
  unfold cap', minBufferSize, minReadSize.
  destruct H as [[H1 H2]|[H1 H2]]; [rewrite H1, H2; cbn; lia|]. destruct (dc_cap d =? 0) eqn:E; [zb; lia|].
  destruct (_ <? _) eqn:E2; zb; lia.
Qed.
Lemma fill_calm d : wfd d -> calm (r_final (dc_reader d)) (r_chunks (dc_reader d)) ->
  exists l', calm (r_final (dc_reader d)) l' /\ concat (map fst l') = skipn (room d) (unread (dc_reader d)) /\
   fill d = Decoder (Reader l' (r_final (dc_reader d))) (cap' d)
     (skip_spaces (dc_remain d ++ firstn (room d) (unread (dc_reader d))))
     (dc_offset d + Z.of_nat (snd (skip_spaces_n (dc_remain d ++ firstn (room d) (unread (dc_reader d))))))
     (match unread (dc_reader d) with [] => Some (end_error (r_final (dc_reader d))) | _ => None end).
Proof.
  intros W C. destruct (room_pos d W) as (R & _). unfold fill. fold (cap' d). fold (room d). unfold read_full.
  destruct (read_chunks_calm _ _ C (room d) ltac:(lia)) as (l' & -> & C' & U).
  exists l'. split; [exact C'|]. split; [exact U|]. cbn [r_chunks r_final]. fold (unread (dc_reader d)).
  unfold skip_spaces. destruct (unread (dc_reader d)) as [|c u] eqn:EU.
  - rewrite firstn_nil. cbn [length]. replace (Nat.ltb 0 (room d)) with true by (symmetry; apply Nat.ltb_lt; lia).
    rewrite app_nil_r. destruct (skip_spaces_n (dc_remain d)) as [rem n]. cbn [fst snd]. f_equal.
    unfold end_error. destruct (r_final (dc_reader d)); reflexivity.
  - destruct (room d) as [|m] eqn:ER; [lia|]. cbn [firstn].
    destruct (skip_spaces_n (dc_remain d ++ c :: firstn m u)) as [rem n]. reflexivity.
Qed.
Definition same (d1 d2 : decoder) : Prop :=
  wfd d1 /\ wfd d2 /\
  calm (r_final (dc_reader d1)) (r_chunks (dc_reader d1)) /\ calm (r_final (dc_reader d2)) (r_chunks (dc_reader d2)) /\
  r_final (dc_reader d1) = r_final (dc_reader d2) /\ unread (dc_reader d1) = unread (dc_reader d2) /\
  dc_cap d1 = dc_cap d2 /\ dc_remain d1 = dc_remain d2 /\ dc_offset d1 = dc_offset d2 /\ dc_err d1 = dc_err d2.
Lemma skip_n_le b : (length (fst (skip_spaces_n b)) <= length b)%nat.
Proof. apply skip_spaces_le. Qed.
Lemma fill_wfd d : wfd d -> calm (r_final (dc_reader d)) (r_chunks (dc_reader d)) -> wfd (fill d).
Proof.
  intros W C. destruct (fill_calm d W C) as (l' & _ & _ & ->). right. cbn [dc_cap dc_remain]. destruct (room_pos d W) as (A & B & D).
  split; [exact B|]. pose proof (skip_spaces_le (dc_remain d ++ firstn (room d) (unread (dc_reader d)))) as L.
  rewrite app_length, firstn_length in L. lia.
Qed.
Lemma fill_same d1 d2 : same d1 d2 -> same (fill d1) (fill d2).
Proof.
  intros (W1 & W2 & C1 & C2 & F & U & K & R & O & E). unfold same. split; [apply fill_wfd; auto|]. split; [apply fill_wfd; auto|].
  destruct (fill_calm d1 W1 C1) as (l1 & D1 & U1 & ->). destruct (fill_calm d2 W2 C2) as (l2 & D2 & U2 & ->).
  cbn [dc_reader dc_cap dc_remain dc_offset dc_err r_chunks r_final]. unfold unread in *. cbn [r_chunks].
  assert (RM : room d1 = room d2) by (unfold room, cap'; rewrite K, R; reflexivity).
  assert (KM : cap' d1 = cap' d2) by (unfold cap'; rewrite K, R; reflexivity).
  rewrite <- U, <- R, <- O, <- F, <- RM in *. repeat split; auto; congruence.
Qed.
Definition rel_step (x y : rstep) : Prop :=
  match x, y with
  | RValue v d, RValue v' d' => v = v' /\ same d d'
  | RError e d, RError e' d' => e = e' /\ same d d'
  | RMore, RMore => True
  | _, _ => False
  end.
Lemma parse_len b v r : wf b -> parseValue b = POk v r -> (length v + length r = length b)%nat.
Proof. intros W H. apply parseValue_sound in H; [|exact W]. destruct H as [-> _]. rewrite app_length. lia. Qed.
Lemma try_same d1 d2 : wf (dc_remain d1) -> same d1 d2 -> rel_step (try_value d1) (try_value d2).
Proof.
  intros WF (W1 & W2 & C1 & C2 & F & U & K & R & O & E). unfold try_value. rewrite <- R, <- E.
  assert (S : same d1 d2) by (unfold same; tauto).
  assert (M : rel_step match dc_err d1 with Some e => RError (match dc_remain d1, e with _ :: _, EOF => EUnexpectedEOF | _, _ => e end) d1 | None => RMore end
    match dc_err d1 with Some e => RError (match dc_remain d1, e with _ :: _, EOF => EUnexpectedEOF | _, _ => e end) d2 | None => RMore end).
  { destruct (dc_err d1); cbn [rel_step]; auto. }
  destruct (dc_remain d1) as [|c t] eqn:ER; [exact M|].
  destruct (parseValue (c :: t)) as [v r|[|x r] e] eqn:EP; [|exact M|cbn [rel_step]; auto].
  apply parse_len in EP; [|exact WF]. pose proof (skip_n_le r) as L. destruct (skip_spaces_n r) as [rem n]. cbn [fst] in L. cbn [rel_step]. split; [reflexivity|].
  unfold same, wfd in *. cbn [dc_reader dc_cap dc_remain dc_offset dc_err]. rewrite <- R in *. rewrite ER in *.
  repeat split; auto; try congruence.
  - right. destruct W1 as [[_ W1]|W1]; [discriminate|]. lia.
  - right. destruct W2 as [[_ W2]|W2]; [discriminate|]. lia.
Qed.
Definition wfs (d : decoder) : Prop := wf (dc_remain d) /\ wf (unread (dc_reader d)).
Lemma fill_wfs d : wfd d -> calm (r_final (dc_reader d)) (r_chunks (dc_reader d)) -> wfs d -> wfs (fill d).
Proof.
  intros W C [H1 H2]. destruct (fill_calm d W C) as (l' & _ & U & ->). unfold wfs. cbn [dc_remain dc_reader]. unfold unread at 2. cbn [r_chunks]. rewrite U.
  rewrite <- (firstn_skipn (room d) (unread (dc_reader d))) in H2. apply wf_app in H2. destruct H2 as [H2 H3].
  split; [|exact H3]. apply wf_skip_spaces. apply wf_app. auto.
Qed.
Lemma try_wfs d v d' : wfs d -> try_value d = RValue v d' -> wfs d'.
Proof.
  intros [H1 H2] E. unfold try_value in E. destruct (dc_remain d) as [|c t] eqn:ER; [destruct (dc_err d); discriminate|].
  destruct (parseValue (c :: t)) as [v0 r|[|x r] e] eqn:EP; [|destruct (dc_err d); discriminate|discriminate].
  pose proof (parseValue_sound _ _ _ H1 EP) as [EE _]. rewrite EE in H1. apply wf_app in H1.
  assert (L : wf (fst (skip_spaces_n r))) by (apply wf_skip_spaces; tauto).
  destruct (skip_spaces_n r) as [rem n]. injection E as _ <-. split; [exact L|exact H2].
Qed.
Lemma try_err d e d' : try_value d = RError e d' -> d' = d.
Proof.
  unfold try_value. destruct (dc_remain d) as [|c t]; [destruct (dc_err d); congruence|].
  destruct (parseValue (c :: t)) as [v0 r|[|x r] e0]; [destruct (skip_spaces_n r); discriminate|destruct (dc_err d); congruence|congruence].
Qed.
Lemma read_same k : forall d1 d2, wfs d1 -> same d1 d2 ->
  fst (read_value k d1) = fst (read_value k d2) /\ same (snd (read_value k d1)) (snd (read_value k d2)) /\ wfs (snd (read_value k d1)).
Proof.
  induction k as [|k IH]; intros d1 d2 W S; [cbn; auto|]. cbn [read_value].
  pose proof (try_same d1 d2 (proj1 W) S) as T.
  destruct (try_value d1) as [v d1'|e d1'|] eqn:T1; destruct (try_value d2) as [v2 d2'|e2 d2'|] eqn:T2; cbn [rel_step] in T; try contradiction.
  - destruct T as [-> T]. cbn [fst snd]. split; [reflexivity|split; [exact T|exact (try_wfs _ _ _ W T1)]].
  - destruct T as [-> T]. cbn [fst snd]. apply try_err in T1. subst d1'. split; [reflexivity|split; [exact T|exact W]].
  - apply IH; [|apply fill_same, S]. apply fill_wfs; [apply S|apply S|exact W].
Qed.
Lemma reads_same k : forall d1 d2, wfs d1 -> same d1 d2 -> reads k d1 = reads k d2.
Proof.
  induction k as [|k IH]; intros d1 d2 W S; [reflexivity|]. cbn [reads]. unfold readValue.
  assert (U : unread (dc_reader d1) = unread (dc_reader d2)) by apply S. rewrite <- U.
  destruct (read_same (length (unread (dc_reader d1)) + 3) d1 d2 W S) as (A & B & D).
  destruct (read_value _ d1) as [x1 e1]. destruct (read_value _ d2) as [x2 e2]. cbn [fst snd] in *. subst x2.
  destruct B as (B1 & B2 & B3 & B4 & B5 & B6 & B7 & B8 & B9 & B10). unfold buffered, input_offset. rewrite B8, B9. f_equal.
  apply IH; [exact D|]. unfold same. tauto.
Qed.
Lemma new_same r1 r2 s e : delivers r1 s e -> delivers r2 s e -> same (new_decoder r1) (new_decoder r2).
Proof.
  intros (C1 & U1 & F1) (C2 & U2 & F2). unfold same, wfd. cbn. rewrite F1, F2 in *. repeat split; auto; congruence.
Qed.

(** Stepping through a stream. *)
Definition wholly (d : decoder) : Prop :=
  unread (dc_reader d) = [] \/ (dc_remain d = [] /\ dc_cap d = 0 /\ Z.of_nat (length (unread (dc_reader d))) <= minBufferSize).
Record at_ (d : decoder) (T : bytes) (fin : err) : Prop := At {
  at_wfd : wfd d;
  at_wfs : wfs d;
  at_calm : calm (r_final (dc_reader d)) (r_chunks (dc_reader d));
  at_fin : r_final (dc_reader d) = fin;
  at_err : forall e, dc_err d = Some e -> unread (dc_reader d) = [] /\ e = end_error fin;
  at_nsp : nsp (dc_remain d);
  at_pos : skip_spaces (dc_remain d ++ unread (dc_reader d)) = skip_spaces T }.
Lemma nsp_skip b : nsp (skip_spaces b).
Proof. destruct (skip_spaces_split b) as (w & _ & _ & H). exact H. Qed.
Lemma nsp_app p q : p <> [] -> nsp p -> nsp (p ++ q).
Proof. destruct p; [congruence|auto]. Qed.
Lemma skip_skip_app p q : skip_spaces (skip_spaces p ++ q) = skip_spaces (p ++ q).
Proof.
  destruct (skip_spaces_split p) as (w & W & E & _). rewrite E at 2. rewrite <- app_assoc. symmetry. apply skip_spaces_ws, W.
Qed.
Lemma fill_at d T fin : at_ d T fin -> at_ (fill d) T fin.
Proof.
  intros [W S C F E N P]. pose proof (fill_wfd d W C) as W'. pose proof (fill_wfs d W C S) as S'.
  destruct (fill_calm d W C) as (l' & C' & U & EQ). rewrite EQ in *. constructor; auto; cbn [dc_reader dc_err dc_remain r_final r_chunks].
  - intros e He. unfold unread at 1. cbn [r_chunks]. rewrite U. destruct (unread (dc_reader d)); [|discriminate].
    rewrite skipn_nil. split; [reflexivity|]. rewrite F in He. congruence.
  - apply nsp_skip.
  - unfold unread at 2. cbn [r_chunks]. rewrite U, skip_skip_app, <- app_assoc, firstn_skipn. exact P.
Qed.
Lemma fill_wholly d : wfd d -> calm (r_final (dc_reader d)) (r_chunks (dc_reader d)) -> wholly d -> unread (dc_reader (fill d)) = [].
Proof.
  intros W C H. destruct (fill_calm d W C) as (l' & _ & U & ->). cbn [dc_reader]. unfold unread at 1. cbn [r_chunks]. rewrite U.
  destruct H as [-> |(R & K & L)]; [apply skipn_nil|]. apply skipn_all2. unfold room, cap'. rewrite K, R. unfold minBufferSize, minReadSize in *. cbn [length]. change (0 =? 0) with true. cbv iota. change (32768 - Z.of_nat 0 <? 4096) with false. cbv iota. lia.
Qed.
Lemma unread_fill d : wfd d -> calm (r_final (dc_reader d)) (r_chunks (dc_reader d)) ->
  unread (dc_reader d) <> [] -> (length (unread (dc_reader (fill d))) < length (unread (dc_reader d)))%nat.
Proof.
  intros W C H. destruct (fill_calm d W C) as (l' & _ & U & ->). cbn [dc_reader]. unfold unread at 1. cbn [r_chunks]. rewrite U, skipn_length.
  destruct (room_pos d W). destruct (unread (dc_reader d)); [congruence|cbn [length]; lia].
Qed.
Lemma num_end_stop r : num_end r -> num_stop r.
Proof.
  destruct r as [|c r]; [auto|]. cbn. unfold num_cont, is_digit. intros (A & B & D & E).
  destruct (48 <=? c) eqn:?; destruct (c <=? 57) eqn:?; destruct (c =? 46) eqn:?; destruct (c =? 101) eqn:?; destruct (c =? 69) eqn:?; zb; try lia; reflexivity.
Qed.
Lemma num_end_pre p q : num_end (p ++ q) -> num_end p.
Proof. destruct p; [intros; exact I|auto]. Qed.
Lemma wf_skip_spaces_iff T : wf (skip_spaces T) -> wf T.
Proof.
  destruct (skip_spaces_split T) as (w & W & E & _). intros H. rewrite E. apply wf_app. split; [|exact H].
  unfold ws in W. unfold wf. eapply Forall_impl; [|exact W]. unfold is_byte. intros c [->|[->|[->| ->]]]; lia.
Qed.
Lemma step_value k : forall d w v a r fin, at_ d (w ++ v ++ r) fin -> ws w -> jvalue v a -> (number_lit v -> num_end r) ->
  (splittable a \/ wholly d) -> (length (unread (dc_reader d)) + 1 <= k)%nat -> (unread (dc_reader d) <> [] \/ dc_remain d <> []) ->
  exists d', read_value k d = (inl v, d') /\ at_ d' r fin /\ (wholly d -> unread (dc_reader d') = []) .
Proof.
  induction k as [|k IH]; intros d w v a r fin A W V N K L NE; [lia|].
  pose proof A as [Wd Ws C F E NS P].
  assert (HV : skip_spaces (w ++ v ++ r) = v ++ r).
  { rewrite skip_spaces_ws by exact W. apply skip_spaces_nsp. destruct (jvalue_head _ _ V) as (c & t & -> & Hc). cbn. apply vhead_nsp, Hc. }
  rewrite HV in P.
  assert (MORE : unread (dc_reader d) <> [] -> try_value d = RMore ->
    exists d', read_value (S k) d = (inl v, d') /\ at_ d' r fin /\ (wholly d -> unread (dc_reader d') = [])).
  { intros UN TM. cbn [read_value]. rewrite TM. pose proof (fill_at _ _ _ A) as A'. pose proof (unread_fill d Wd C UN) as UL.
    destruct (IH (fill d) w v a r fin A' W V N) as (d' & ED & AD & WD).
    - destruct K as [K|K]; [left; exact K|right; left; apply fill_wholly; auto].
    - lia.
    - destruct (unread (dc_reader (fill d))) eqn:UE; [|left; discriminate]. right. intros RE.
      destruct A' as [_ _ _ _ _ _ P']. rewrite UE, RE, HV in P'. destruct (jvalue_head _ _ V) as (c & t & Ev & _). rewrite Ev in P'. discriminate.
    - exists d'. split; [exact ED|]. split; [exact AD|]. intros WH. apply WD. left. apply fill_wholly; auto. }
  destruct (dc_remain d) as [|c t] eqn:ER.
  { apply MORE.
    - destruct NE; congruence.
    - unfold try_value. rewrite ER. destruct (dc_err d) eqn:EE; [|reflexivity]. destruct (E _ eq_refl) as [U _]. destruct NE; congruence. }
  rewrite skip_spaces_nsp in P by (apply nsp_app; [discriminate|exact NS]).
  pose proof Ws as Ws0. destruct Ws as [Ws1 Ws2]. rewrite ER in Ws1.
  destruct (app_split _ _ _ _ (eq_sym P)) as [(q & EV & EU)|(p' & EP & ET)].
  2:{ (* the value is all there *)
      assert (PV : parseValue (c :: t) = POk v p').
      { rewrite EP. apply (parseValue_complete' v a); [exact V|]. intros NL. apply num_end_stop. apply N in NL. rewrite ET in NL. eapply num_end_pre, NL. }
      assert (TV : try_value d = RValue v (Decoder (dc_reader d) (dc_cap d) (skip_spaces p') (dc_offset d + Z.of_nat (length v + snd (skip_spaces_n p'))) (dc_err d))).
      { unfold try_value. rewrite ER, PV. unfold skip_spaces. destruct (skip_spaces_n p'). reflexivity. }
      pose proof (try_wfs d _ _ Ws0 TV) as WS'. cbn [read_value]. rewrite TV. eexists. split; [reflexivity|].
      split.
      - constructor; cbn [dc_reader dc_err dc_remain dc_cap]; auto.
        + right. cbn [dc_cap dc_remain]. destruct Wd as [[_ Wd]|Wd]; [congruence|]. split; [tauto|].
          pose proof (skip_spaces_le p'). rewrite ER, EP, app_length in Wd. lia.
        + apply nsp_skip.
        + rewrite skip_skip_app, <- ET. reflexivity.
      - cbn [dc_reader]. intros [H|(H & _)]; [exact H|congruence]. }
  (* only a part of the value *)
  destruct q as [|q0 q].
  { (* exactly the value *)
    rewrite app_nil_r in EV. cbn [app] in EU.
    assert (PV : parseValue (c :: t) = POk v []).
    { pose proof (parseValue_complete' v a [] V (fun _ => I)) as X. rewrite app_nil_r in X. rewrite <- EV. exact X. }
    assert (TV : try_value d = RValue v (Decoder (dc_reader d) (dc_cap d) [] (dc_offset d + Z.of_nat (length v + 0)) (dc_err d))).
    { unfold try_value. rewrite ER, PV. reflexivity. }
    cbn [read_value]. rewrite TV. eexists. split; [reflexivity|]. split.
    - constructor; cbn [dc_reader dc_err dc_remain dc_cap]; auto.
      + right. cbn [dc_cap dc_remain]. destruct Wd as [[_ Wd]|Wd]; [congruence|]. cbn. lia.
      + split; [constructor|exact Ws2].
      + exact I.
      + cbn [app]. rewrite EU. reflexivity.
    - cbn [dc_reader]. intros [H|(H & _)]; [exact H|congruence]. }
  assert (UN : unread (dc_reader d) <> []) by (rewrite EU; discriminate).
  destruct K as [[Kn Kr]|[K|(K & _)]]; [|congruence|congruence].
  apply MORE; [exact UN|]. unfold try_value. rewrite ER.
  assert (I : inc (parseValue (c :: t))).
  { destruct (proj1 inc_all v a V Kr (c :: t) (q0 :: q) (2 * length v + 1 + 2 * length (c :: t))%nat EV) as [I|(IN & _)]; [discriminate|lia| |].
    - rewrite parse_value_fuel in I; [exact I|exact Ws1|lia].
    - destruct IN as (x & IN). destruct (Kn x IN). }
  destruct I as (e & ->). destruct (dc_err d) eqn:EE; [|reflexivity]. destruct (E _ eq_refl) as [U _]. congruence.
Qed.

Lemma nsp_remain d T fin : at_ d T fin -> skip_spaces T = [] -> dc_remain d = [].
Proof.
  intros [_ _ _ _ _ N P] E. rewrite E in P. destruct (dc_remain d) as [|c t]; [reflexivity|].
  rewrite skip_spaces_nsp in P; [discriminate|exact N].
Qed.
Lemma step_end k : forall d T fin, at_ d T fin -> skip_spaces T = [] ->
  (length (unread (dc_reader d)) + match dc_err d with None => 2 | Some _ => 1 end <= k)%nat ->
  exists d', read_value k d = (inr (end_error fin), d') /\ at_ d' [] fin /\ dc_err d' <> None /\ unread (dc_reader d') = [].
Proof.
  induction k as [|k IH]; intros d T fin A ET L; [destruct (dc_err d); lia|]. pose proof (nsp_remain _ _ _ A ET) as ER.
  pose proof A as [Wd Ws C F E NS P]. cbn [read_value]. unfold try_value. rewrite ER. destruct (dc_err d) as [e|] eqn:EE.
  - destruct (E e eq_refl) as [U ->]. exists d. split; [reflexivity|]. split; [|split; [congruence|exact U]].
    constructor; auto; [intros e He; apply E; congruence|]. rewrite P. exact ET.
  - apply (IH (fill d) T fin); [apply fill_at, A|exact ET|].
    destruct (list_eq_dec Z.eq_dec (unread (dc_reader d)) []) as [U|U].
    + destruct (fill_calm d Wd C) as (l' & _ & U' & ->). cbn [dc_reader dc_err]. unfold unread at 1. cbn [r_chunks]. rewrite U', U, skipn_nil. cbn. lia.
    + pose proof (unread_fill d Wd C U). destruct (dc_err (fill d)); lia.
Qed.

(** Offsets. *)
Definition phi (d : decoder) : Z := dc_offset d + Z.of_nat (length (dc_remain d)) + Z.of_nat (length (unread (dc_reader d))).
Lemma skip_from_n b : forall i, snd (skip_spaces_from i b) = match fst (skip_spaces_from i b) with [] => O | r => (i + (length b - length r))%nat end.
Proof.
  induction b as [|c b IH]; intros i; cbn [skip_spaces_from]; [reflexivity|]. destruct (is_space c); [|cbn [fst snd length]; lia].
  rewrite IH. assert (L : (length (fst (skip_spaces_from (S i) b)) <= length b)%nat).
  { clear. revert i. induction b as [|c b IH]; intros i; cbn [skip_spaces_from]; [cbn; lia|]. destruct (is_space c); [specialize (IH (S i)); cbn [length]; lia|cbn; lia]. }
  destruct (fst (skip_spaces_from (S i) b)) as [|x r]; [reflexivity|]. cbn [length] in *. lia.
Qed.
Lemma skip_n b : snd (skip_spaces_n b) = match skip_spaces b with [] => O | r => (length b - length r)%nat end.
Proof. exact (skip_from_n b 0). Qed.
Lemma fill_phi d : wfd d -> calm (r_final (dc_reader d)) (r_chunks (dc_reader d)) ->
  dc_offset d <= dc_offset (fill d) /\ phi (fill d) <= phi d /\ (dc_remain (fill d) <> [] -> phi (fill d) = phi d).
Proof.
  intros W C. destruct (fill_calm d W C) as (l' & _ & U & ->). unfold phi. cbn [dc_offset dc_remain dc_reader]. change (unread (Reader l' (r_final (dc_reader d)))) with (concat (map fst l')). rewrite U.
  rewrite skip_n. set (b := firstn (room d) (unread (dc_reader d))). pose proof (skip_spaces_le (dc_remain d ++ b)) as L.
  assert (L2 : (length b + length (skipn (room d) (unread (dc_reader d))) = length (unread (dc_reader d)))%nat).
  { unfold b. rewrite <- app_length, firstn_skipn. reflexivity. }
  rewrite app_length in L. destruct (skip_spaces (dc_remain d ++ b)) as [|x r]; [cbn [length]; split; [lia|split; [lia|congruence]]|].
  rewrite app_length. cbn [length] in *. repeat split; intros; lia.
Qed.
Lemma try_phi d v d' : wf (dc_remain d) -> try_value d = RValue v d' ->
  dc_offset d + Z.of_nat (length v) <= dc_offset d' /\ phi d' <= phi d /\ (dc_remain d' <> [] -> phi d' = phi d).
Proof.
  intros WF E. unfold try_value in E. destruct (dc_remain d) as [|c t] eqn:ER; [destruct (dc_err d); discriminate|].
  destruct (parseValue (c :: t)) as [v0 r|[|x r] e] eqn:EP; [|destruct (dc_err d); discriminate|discriminate].
  apply parse_len in EP; [|exact WF]. pose proof (skip_n r) as SN. unfold skip_spaces in SN. pose proof (skip_n_le r) as L.
  destruct (skip_spaces_n r) as [rem n]. cbn [fst snd] in *. injection E as <- <-. unfold phi. cbn [dc_offset dc_remain dc_reader]. rewrite ER.
  destruct rem as [|y rem]; subst n; cbn [length] in *; repeat split; intros; try congruence; lia.
Qed.
Lemma read_phi k : forall d v d', wfd d -> wfs d -> calm (r_final (dc_reader d)) (r_chunks (dc_reader d)) -> read_value k d = (inl v, d') ->
  dc_offset d + Z.of_nat (length v) <= dc_offset d' /\ phi d' <= phi d.
Proof.
  induction k as [|k IH]; intros d v d' W S C E; [discriminate|]. cbn [read_value] in E.
  destruct (try_value d) as [v0 d0|e d0|] eqn:T; [|discriminate|].
  - injection E as -> ->. pose proof (try_phi d v d' (proj1 S) T). lia.
  - apply IH in E; [|apply fill_wfd; auto|apply fill_wfs; auto|destruct (fill_calm d W C) as (l' & C' & _ & ->); exact C'].
    pose proof (fill_phi d W C). lia.
Qed.

Lemma step_exact k : forall d w v a r fin x, at_ d (w ++ v ++ r) fin -> ws w -> jvalue v a -> (number_lit v -> num_end r) -> wholly d ->
  read_value k d = x -> (forall e, fst x <> inr e) ->
  dc_offset (snd x) = phi d - Z.of_nat (length match skip_spaces r with [] => r | r' => r' end).
Proof.
  induction k as [|k IH]; intros d w v a r fin x A W V N WH E NE; [subst x; destruct (NE EFuel eq_refl)|].
  pose proof A as [Wd Ws C F Er NS P]. cbn [read_value] in E.
  destruct (try_value d) as [v0 d0|e d0|] eqn:T; [|subst x; destruct (NE e eq_refl)|].
  - subst x. cbn [snd]. unfold try_value in T. destruct (dc_remain d) as [|c t] eqn:ER; [destruct (dc_err d); discriminate|].
    assert (U : unread (dc_reader d) = []) by (destruct WH as [U|(H & _)]; [exact U|congruence]).
    assert (HV : skip_spaces (w ++ v ++ r) = v ++ r).
    { rewrite skip_spaces_ws by exact W. apply skip_spaces_nsp. destruct (jvalue_head _ _ V) as (c0 & t0 & -> & Hc). cbn. apply vhead_nsp, Hc. }
    rewrite HV, U, app_nil_r, skip_spaces_nsp in P by exact NS. rewrite P in T, ER.
    rewrite (parseValue_complete' v a r V) in T by (intros NL; apply num_end_stop, N, NL).
    pose proof (skip_n r) as SN. pose proof (skip_n_le r) as L. unfold skip_spaces in *. destruct (skip_spaces_n r) as [rem n]. cbn [fst snd] in *.
    injection T as _ <-. unfold phi. cbn [dc_offset]. rewrite ER, U. destruct rem; subst n; rewrite app_length; cbn [length] in *; lia.
  - pose proof (fill_at _ _ _ A) as A'. pose proof (fill_wholly d Wd C WH) as U'.
    rewrite (IH (fill d) w v a r fin x A' W V N (or_introl U') E NE). f_equal.
    apply (fill_phi d Wd C). intros R'. destruct A' as [_ _ _ _ _ _ P']. rewrite U', R' in P'.
    rewrite (skip_spaces_ws w (v ++ r) W) in P'. destruct (jvalue_head _ _ V) as (c0 & t0 & -> & Hc).
    cbn [app] in P'. rewrite (skip_spaces_nsp (c0 :: t0 ++ r)) in P' by (cbn; apply vhead_nsp, Hc). discriminate.
Qed.

Lemma new_at r s fin : wf s -> delivers r s fin -> at_ (new_decoder r) s fin.
Proof.
  intros W (C & U & F). constructor; cbn; auto; try discriminate.
  - left. auto.
  - split; [constructor|]. cbn. rewrite U. exact W.
  - rewrite U. reflexivity.
Qed.
Lemma fuel_ok d : (length (unread (dc_reader d)) + match dc_err d with None => 2 | Some _ => 1 end <= length (unread (dc_reader d)) + 3)%nat.
Proof. destruct (dc_err d); lia. Qed.
Lemma at_cong d T T' fin : at_ d T fin -> skip_spaces T = skip_spaces T' -> at_ d T' fin.
Proof. intros [] E. constructor; auto. congruence. Qed.
Lemma readValue_value d w v a r fin : at_ d (w ++ v ++ r) fin -> ws w -> jvalue v a -> (number_lit v -> num_end r) -> (splittable a \/ wholly d) ->
  exists d', readValue d = (inl v, d') /\ at_ d' r fin /\ (wholly d -> unread (dc_reader d') = []).
Proof.
  intros A W V N K. apply (step_value _ d w v a r fin A W V N K); [lia|].
  destruct (dc_remain d) eqn:ER; [|right; discriminate]. left. intros U. destruct A as [_ _ _ _ _ _ P]. rewrite ER, U in P. cbn [app] in P.
  rewrite (skip_spaces_ws w (v ++ r) W) in P. destruct (jvalue_head _ _ V) as (c0 & t0 & -> & Hc).
  cbn [app] in P. rewrite (skip_spaces_nsp (c0 :: t0 ++ r)) in P by (cbn; apply vhead_nsp, Hc). discriminate.
Qed.
Lemma at_nofuel k : forall d T fin x, fin <> EFuel -> at_ d T fin -> read_value k d = x ->
  (length (unread (dc_reader d)) + match dc_err d with None => 2 | Some _ => 1 end <= k)%nat ->
  fst x <> inr EFuel /\ exists T', at_ (snd x) T' fin.
Proof.
  induction k as [|k IH]; intros d T fin x FN A E L; [destruct (dc_err d); lia|].
  pose proof A as [Wd Ws C F Er NS P]. cbn [read_value] in E.
  destruct (try_value d) as [v d'|e d'|] eqn:TV.
  - subst x. split; [discriminate|]. cbn [snd]. pose proof (try_wfs d v d' Ws TV) as Ws'.
    unfold try_value in TV. destruct (dc_remain d) as [|c t] eqn:ER; [destruct (dc_err d); discriminate|].
    destruct (parseValue (c :: t)) as [v0 r|[|y r] e] eqn:EP; [|destruct (dc_err d); discriminate|discriminate].
    apply parse_len in EP; [|rewrite <- ER; apply Ws]. pose proof (nsp_skip r) as NR. pose proof (skip_n_le r) as LR. unfold skip_spaces in NR.
    destruct (skip_spaces_n r) as [rem n]. cbn [fst] in *. injection TV as <- <-. exists (rem ++ unread (dc_reader d)).
    constructor; cbn [dc_reader dc_err dc_remain dc_cap]; auto. right. cbn [dc_cap dc_remain].
    destruct Wd as [[_ Wd]|Wd]; [congruence|]. rewrite ER in Wd. cbn [length] in *. lia.
  - subst x. cbn [fst snd]. rewrite (try_err _ _ _ TV). split; [|eauto]. intros [= ->].
    assert (M : forall X, match dc_err d with Some e => RError (match dc_remain d, e with _ :: _, EOF => EUnexpectedEOF | _, _ => e end) d | None => RMore end = RError EFuel X -> False).
    { intros X. destruct (dc_err d) as [e|] eqn:EE; [|discriminate]. destruct (Er e eq_refl) as [_ ->]. intros H.
      apply (f_equal (fun x => match x with RError e _ => e | _ => EOF end)) in H.
      destruct (dc_remain d); destruct fin; cbn in H; try discriminate H; congruence. }
    unfold try_value in TV. destruct (dc_remain d) as [|c t] eqn:ER; [eapply M; exact TV|].
    destruct (parseValue (c :: t)) as [v0 r|[|y r] e] eqn:EP; [destruct (skip_spaces_n r); discriminate|eapply M; exact TV|].
    apply DecFacts.parseValue_err in EP; [|rewrite <- ER; apply Ws]. congruence.
  - assert (EN : dc_err d = None).
    { unfold try_value in TV. destruct (dc_remain d) as [|c t]; [destruct (dc_err d); congruence|].
      destruct (parseValue (c :: t)) as [v0 r|[|y r] e]; [destruct (skip_spaces_n r); discriminate|destruct (dc_err d); congruence|discriminate]. }
    rewrite EN in L. apply (IH (fill d) T fin); [exact FN|apply fill_at, A|exact E|].
    destruct (list_eq_dec Z.eq_dec (unread (dc_reader d)) []) as [U|U].
    + destruct (fill_calm d Wd C) as (l' & _ & U' & ->). cbn [dc_reader dc_err]. unfold unread at 1. cbn [r_chunks]. rewrite U', U, skipn_nil. cbn. lia.
    + pose proof (unread_fill d Wd C U). destruct (dc_err (fill d)); lia.
Qed.
Lemma reads_nofuel k : forall d T fin, fin <> EFuel -> at_ d T fin -> Forall (fun x => fst x <> inr EFuel) (reads k d).
Proof.
  induction k as [|k IH]; intros d T fin FN A; [constructor|]. cbn [reads].
  destruct (at_nofuel _ d T fin (readValue d) FN A eq_refl (fuel_ok d)) as [H (T' & A')].
  destruct (readValue d) as [x d']. cbn [fst snd] in *. constructor; [exact H|]. eapply IH; eassumption.
Qed.
(** Whole streams. *)
Lemma wholly_new r s fin : delivers r s fin -> Z.of_nat (length s) <= minBufferSize -> wholly (new_decoder r).
Proof. intros (_ & U & _) L. right. cbn. rewrite U. auto. Qed.
Lemma stream_go s vs tl : stream s vs tl -> forall d fin, at_ d s fin -> (Forall (fun va => splittable (snd va)) vs \/ wholly d) ->
  exists d', at_ d' tl fin /\ (wholly d -> wholly d') /\ d' = after (length vs) d /\
  (forall k, map fst (reads (length vs + k) d) = map (fun va => inl (fst va)) vs ++ map fst (reads k d')) /\
  (forall A (dec : bytes -> A -> dres A) curs curs', length curs = length vs ->
     decodes dec (curs ++ curs') d = map (fun vc => let x := parse_with dec (fst (fst vc)) (snd vc) in (d_err x, d_val x)) (combine vs curs) ++ decodes dec curs' d').
Proof.
  induction 1 as [w tl W|w v a r vs tl W V N S IH]; intros d fin A K.
  - exists d. split; [|split; [auto|split; [reflexivity|split; [reflexivity|]]]].
    + eapply at_cong; [exact A|]. apply skip_spaces_ws, W.
    + intros B dec [|] curs' L; [reflexivity|discriminate].
  - destruct (readValue_value d w v a r fin A W V N) as (d1 & E1 & A1 & W1).
    { destruct K as [K|K]; [left|right; exact K]. inversion K; auto. }
    destruct (IH d1 fin A1) as (d' & A' & W' & AF & R & D).
    { destruct K as [K|K]; [left; inversion K; auto|right; left; auto]. }
    exists d'. split; [exact A'|]. split; [intros H; apply W'; left; auto|]. split; [cbn [length after]; rewrite E1; exact AF|]. split.
    + intros k. cbn [length Nat.add reads]. rewrite E1. cbn [map fst app]. rewrite R. reflexivity.
    + intros B dec [|cur curs] curs' L; [discriminate|]. injection L as L. cbn [app decodes combine map fst snd]. unfold decode_next. rewrite E1.
      rewrite (D B dec curs curs' L). reflexivity.
Qed.
Lemma end_reads k : forall d T fin, at_ d T fin -> skip_spaces T = [] -> map fst (reads k d) = repeat (inr (end_error fin)) k.
Proof.
  induction k as [|k IH]; intros d T fin A E; [reflexivity|]. cbn [reads repeat].
  destruct (step_end _ d T fin A E (fuel_ok d)) as (d' & ED & A' & _). unfold readValue. rewrite ED. cbn [map fst]. f_equal. apply (IH d' []); auto.
Qed.
(** What follows the values has no prefix that is a value; the buffer may end
    anywhere in it. *)
Definition last_error (fin : err) : err := match end_error fin with EOF => EUnexpectedEOF | e => e end.
Lemma step_bad k : forall d T tl fin, at_ d T fin -> skip_spaces T = tl -> tl <> [] ->
  (forall p q, tl = p ++ q -> p <> [] -> forall v r, parseValue p <> POk v r) ->
  (length (unread (dc_reader d)) + match dc_err d with None => 2 | Some _ => 1 end <= k)%nat ->
  exists d' x, read_value k d = (inr x, d') /\ try_value d' = RError x d' /\
    (x = last_error fin \/ x = ESyntax /\ exists p q, tl = p ++ q /\ p <> [] /\ ~ inc (parseValue p)).
Proof.
  induction k as [|k IH]; intros d T tl fin A ET TN PN L; [destruct (dc_err d); lia|].
  pose proof A as [Wd Ws C F E NS P]. rewrite ET in P.
  assert (MORE : dc_err d = None -> try_value d = RMore -> exists d' x, read_value (S k) d = (inr x, d') /\ try_value d' = RError x d' /\
    (x = last_error fin \/ x = ESyntax /\ exists p q, tl = p ++ q /\ p <> [] /\ ~ inc (parseValue p))).
  { intros EN TM. rewrite EN in L. cbn [read_value]. rewrite TM. apply (IH (fill d) T); [apply fill_at, A|exact ET|exact TN|exact PN|].
    destruct (list_eq_dec Z.eq_dec (unread (dc_reader d)) []) as [U|U].
    - destruct (fill_calm d Wd C) as (l' & _ & U' & ->). cbn [dc_reader dc_err]. unfold unread at 1. cbn [r_chunks]. rewrite U', U, skipn_nil. cbn. lia.
    - pose proof (unread_fill d Wd C U). destruct (dc_err (fill d)); lia. }
  destruct (dc_remain d) as [|c t] eqn:ER.
  - assert (EN : dc_err d = None).
    { destruct (dc_err d); [|reflexivity]. destruct (E _ eq_refl) as [U _]. rewrite U in P. cbn in P. congruence. }
    apply MORE; [exact EN|]. unfold try_value. rewrite ER, EN. reflexivity.
  - rewrite skip_spaces_nsp in P by exact NS. assert (Wp : wf (c :: t)) by (rewrite <- ER; apply Ws).
    destruct (parseValue (c :: t)) as [v r|r e] eqn:EP; [destruct (PN (c :: t) _ (eq_sym P) ltac:(discriminate) v r EP)|].
    assert (e = ESyntax) as -> by (apply (DecFacts.parseValue_err (c :: t) r); [exact Wp|exact EP]).
    destruct r as [|x r].
    + destruct (dc_err d) as [e|] eqn:EE.
      * destruct (E e eq_refl) as [_ ->].
        assert (TR : try_value d = RError (last_error fin) d).
        { unfold try_value, last_error. rewrite ER, EP, EE. destruct (end_error fin); reflexivity. }
        exists d, (last_error fin). cbn [read_value]. rewrite TR. auto.
      * apply MORE; [reflexivity|]. unfold try_value. rewrite ER, EP, EE. reflexivity.
    + assert (TR : try_value d = RError ESyntax d) by (unfold try_value; rewrite ER, EP; reflexivity).
      exists d, ESyntax. split; [cbn [read_value]; rewrite TR; reflexivity|]. split; [exact TR|]. right. split; [reflexivity|].
      exists (c :: t), (unread (dc_reader d)). split; [symmetry; exact P|]. split; [discriminate|]. rewrite EP. intros [e I]. discriminate I.
Qed.
Lemma bad_reads k d T tl fin : at_ d T fin -> skip_spaces T = tl -> tl <> [] ->
  (forall p q, tl = p ++ q -> p <> [] -> forall v r, parseValue p <> POk v r) ->
  exists x, (x = last_error fin \/ x = ESyntax /\ exists p q, tl = p ++ q /\ p <> [] /\ ~ inc (parseValue p)) /\
    map fst (reads k d) = repeat (inr x) k.
Proof.
  intros A ET TN PN. destruct (step_bad _ d T tl fin A ET TN PN (fuel_ok d)) as (d' & x & RD & TR & HX). exists x. split; [exact HX|].
  assert (G : forall k, map fst (reads k d') = repeat (inr x) k).
  { clear k. induction k as [|k IH]; [reflexivity|]. cbn [reads repeat]. unfold readValue. rewrite Nat.add_succ_r. cbn [read_value]. rewrite TR. cbn [map fst]. f_equal. exact IH. }
  destruct k as [|k]; [reflexivity|]. cbn [reads repeat]. unfold readValue. rewrite RD. cbn [map fst]. f_equal. apply G.
Qed.
Lemma at_remain d T fin : at_ d T fin -> unread (dc_reader d) = [] -> dc_remain d = skip_spaces T.
Proof. intros [_ _ _ _ _ N P] U. rewrite U, app_nil_r, skip_spaces_nsp in P by exact N. exact P. Qed.
Lemma stream_tail_ne s vs tl : stream s vs tl -> tl <> [] -> nsp tl -> skip_spaces s <> [].
Proof.
  intros [w t W|w v a r vs' t W V N S] TN NS; rewrite skip_spaces_ws by exact W.
  - rewrite skip_spaces_nsp; auto.
  - destruct (jvalue_head _ _ V) as (c0 & t0 & -> & Hc). cbn [app]. rewrite skip_spaces_nsp by (cbn; apply vhead_nsp, Hc). discriminate.
Qed.
Lemma stream_off s vs tl : stream s vs tl -> tl <> [] -> nsp tl -> forall d fin, at_ d s fin -> wholly d -> vs <> [] ->
  let d' := after (length vs) d in
  dc_offset d' = phi d - Z.of_nat (length tl) /\ phi d' = phi d /\ dc_remain d' = tl /\ unread (dc_reader d') = [] /\ at_ d' tl fin.
Proof.
  induction 1 as [w tl W|w v a r vs tl W V N S IH]; intros TN NS d fin A K NE; [congruence|]. cbn [length after].
  destruct (readValue_value d w v a r fin A W V N (or_intror K)) as (d1 & E1 & A1 & W1). specialize (W1 K).
  assert (X := step_exact _ d w v a r fin _ A W V N K E1 ltac:(discriminate)). cbn [snd] in X.
  pose proof (stream_tail_ne _ _ _ S TN NS) as RN. pose proof (at_remain _ _ _ A1 W1) as RM.
  assert (PH : phi d1 = phi d).
  { unfold phi at 1. rewrite X, RM, W1. destruct (skip_spaces r); [congruence|]. cbn [length]. lia. }
  rewrite E1. cbn [snd]. destruct vs as [|va vs].
  - cbn [length after]. inversion S as [w0 ? W0 E0|]; subst.
    rewrite (skip_spaces_ws w0 tl W0), (skip_spaces_nsp tl NS) in *.
    split; [destruct tl; [congruence|exact X]|]. split; [exact PH|]. split; [exact RM|]. split; [exact W1|]. apply (at_cong _ (w0 ++ tl) tl _ A1), skip_spaces_ws, W0.
  - destruct (IH TN NS d1 fin A1 (or_introl W1)) as (O & PD & RD & UD & AD); [discriminate|].
    cbv zeta in *. rewrite PH in *. auto.
Qed.
Lemma after_app j : forall k d, after (j + k) d = after k (after j d).
Proof. induction j as [|j IH]; intros k d; [reflexivity|]. cbn [Nat.add after]. apply IH. Qed.
Lemma stream_bounds s vs tl : stream s vs tl -> forall d fin, at_ d s fin -> (Forall (fun va => splittable (snd va)) vs \/ wholly d) ->
  dc_offset d + Z.of_nat (length (concat (map fst vs))) <= dc_offset (after (length vs) d) /\
  phi (after (length vs) d) <= phi d.
Proof.
  induction 1 as [w tl W|w v a r vs tl W V N S IH]; intros d fin A K; [cbn; lia|]. cbn [length after].
  destruct (readValue_value d w v a r fin A W V N) as (d1 & E1 & A1 & W1).
  { destruct K as [K|K]; [left|right; exact K]. inversion K; auto. }
  rewrite E1. cbn [snd]. destruct (IH d1 fin A1) as [B1 B2].
  { destruct K as [K|K]; [left; inversion K; auto|right; left; auto]. }
  pose proof A as [Wd Ws C F Er NS P]. destruct (read_phi _ d v d1 Wd Ws C E1) as [C1 C2].
  cbn [map fst concat]. rewrite app_length. lia.
Qed.
Lemma stream_wf_tl s vs tl : stream s vs tl -> wf s -> wf tl.
Proof. induction 1 as [w tl W|w v a r vs tl W V N S IH]; intros H; apply wf_app in H; [tauto|]. apply IH. destruct H as [_ H]. apply wf_app in H. tauto. Qed.
