(** What the parsers and the decoders leave of their input is its end. *)
From Verif Require Import Bytes AsciiModel Utf8Model ParseModel IntModel StringModel EncModel DecModel TypeModel DecLoops TypeFacts.

Definition tail_of (b r : bytes) : Prop := exists p, b = p ++ r.
Lemma tail_refl b : tail_of b b. Proof. exists []. reflexivity. Qed.
Lemma tail_nil b : tail_of b []. Proof. exists b. rewrite app_nil_r. reflexivity. Qed.
Lemma tail_trans a b c : tail_of a b -> tail_of b c -> tail_of a c.
Proof. intros [p ->] [q ->]. exists (p ++ q). apply app_assoc. Qed.
Lemma tail_cons c b r : tail_of b r -> tail_of (c :: b) r.
Proof. intros [p ->]. exists (c :: p). reflexivity. Qed.
Lemma tail_uncons c b r : tail_of b (c :: r) -> tail_of b r.
Proof. intros [p ->]. exists (p ++ [c]). rewrite <- app_assoc. reflexivity. Qed.
Lemma tail_skipn n b : tail_of b (skipn n b).
Proof. exists (firstn n b). symmetry. apply firstn_skipn. Qed.
Lemma tail_tl b : tail_of b (tl b).
Proof. destruct b; [apply tail_refl|apply tail_cons, tail_refl]. Qed.
Lemma tail_spaces b : tail_of b (skip_spaces b).
Proof.
  unfold skip_spaces, skip_spaces_n. generalize 0%nat. induction b as [|c b IH]; intros i; cbn; [apply tail_refl|].
  destruct (is_space c); [apply tail_cons, IH|apply tail_refl].
Qed.
Lemma tail_digits b : tail_of b (skip_digits b).
Proof. induction b as [|c b IH]; cbn; [apply tail_refl|]. destruct (is_digit c); [apply tail_cons, IH|apply tail_refl]. Qed.
Global Hint Resolve tail_refl tail_nil tail_cons tail_skipn tail_tl tail_spaces tail_digits : tails.

Definition pres_rest (p : pres) : bytes := match p with POk _ r | PErr r _ => r end.
Lemma exp_tail b s0 s : tail_of s0 s -> tail_of s0 (pres_rest (parse_exp b s)).
Proof.
  intros T. eapply tail_trans; [exact T|]. unfold parse_exp. destruct s as [|c s1]; [apply tail_refl|]. destruct (_ || _); [|apply tail_refl].
  set (s2 := match s1 with [] => _ | _ :: _ => _ end). assert (T2 : tail_of s1 s2). { subst s2. destruct s1 as [|c1 s2]; [apply tail_refl|]. destruct (_ || _); auto with tails. }
  destruct s2 as [|c2 s2]; [apply tail_nil|]. destruct (is_digit c2); [|apply tail_nil]. cbv zeta. cbn [pres_rest]. apply tail_cons. eapply tail_trans; [exact T2|apply tail_digits].
Qed.
Lemma frac_tail b s0 s : tail_of s0 s -> tail_of s0 (pres_rest (parse_frac b s)).
Proof.
  intros T. unfold parse_frac. destruct s as [|c s1]; [apply exp_tail, T|]. destruct (c =? cDOT); [|apply exp_tail, T].
  destruct s1 as [|c1 s1]; [apply tail_nil|]. destruct (is_digit c1).
  - apply exp_tail. eapply tail_trans; [exact T|]. apply tail_cons. apply tail_digits.
  - cbn [pres_rest]. eapply tail_trans; [exact T|]. auto with tails.
Qed.
Lemma number_tail b : tail_of b (pres_rest (parse_number b)).
Proof.
  unfold parse_number. destruct b as [|c b1]; [apply tail_refl|]. set (s := if c =? cMINUS then b1 else c :: b1).
  assert (T : tail_of (c :: b1) s) by (subst s; destruct (c =? cMINUS); auto with tails).
  destruct s as [|d s1]; [apply tail_nil|]. destruct (negb (is_digit d)); [exact T|].
  assert (T1 : tail_of (c :: b1) s1) by (eapply tail_uncons, T). destruct (d =? c0).
  - destruct s1 as [|x s1]; [exact T1|]. destruct (_ && _); [exact T1|]. destruct (is_digit x); [exact T1|].
    apply frac_tail. eapply tail_trans; [exact T1|apply tail_digits].
  - apply frac_tail. eapply tail_trans; [exact T|apply tail_digits].
Qed.
Lemma lit_tail lit b : tail_of b (pres_rest (parse_lit lit b)).
Proof. unfold parse_lit. destruct (has_prefix b lit); [apply tail_skipn|]. destruct (Nat.ltb _ _); auto with tails. Qed.
Lemma string_loop_tail n : forall s r, (length s <= n)%nat -> string_loop s = SLEnd r -> tail_of s r.
Proof.
  induction n as [|n IH]; intros s r L E; (destruct s as [|c s1]; [discriminate|]); cbn [length] in L; [lia|]. cbn in E.
  destruct (c =? cBSLASH).
  - destruct s1 as [|e s2]; [discriminate|]. cbn [length] in L. destruct (is_simple_escape e); [do 2 apply tail_cons; apply IH; [lia|exact E]|].
    destruct (e =? cu); [|discriminate]. destruct s2 as [|h1 [|h2 [|h3 [|h4 s3]]]]; try discriminate. destruct (parse_unicode _); [|discriminate].
    do 6 apply tail_cons. apply IH; [cbn in L; lia|exact E].
  - destruct (c =? cQUOTE); [injection E as <-; auto with tails|]. destruct (c <? _); [discriminate|]. apply tail_cons, IH; [lia|exact E].
Qed.
Definition sres_rest (p : sres) : bytes := match p with SOk _ r _ | SErr r _ => r end.
Lemma fast_tail b : tail_of b (sres_rest (parse_string_fast b)).
Proof.
  unfold parse_string_fast. destruct b as [|c [|c1 b1]]; try apply tail_nil. destruct (negb _); [apply tail_refl|].
  destruct (index_byte cQUOTE (c1 :: b1)) as [k|]; [|apply tail_nil].
  set (n := (k + 2)%nat). set (b2 := c1 :: b1).
  assert (H : tail_of (c :: b2) (sres_rest match string_loop b2 with SLEnd r => SOk (upto (c :: b2) r) r true | SLBad => SErr (c :: b2) ESyntax | SLMissing => SErr [] ESyntax end)).
  { destruct (string_loop b2) as [r| |] eqn:E; cbn [sres_rest]; auto with tails. apply tail_cons. eapply string_loop_tail; [apply le_n|exact E]. }
  cbv zeta. destruct (index_byte _ (firstn _ _)); [exact H|]. destruct (ascii_valid_print _); [apply (tail_skipn n (c :: b2))|exact H].
Qed.
Lemma string_tail b : tail_of b (pres_rest (parse_string b)).
Proof. unfold parse_string. pose proof (fast_tail b). destruct (parse_string_fast b); assumption. Qed.
Lemma unquote_tail b u : match parse_string_unquote b u with QOk _ r _ | QErr r _ => tail_of b r | _ => True end.
Proof.
  unfold parse_string_unquote. pose proof (fast_tail b) as T. destruct (parse_string_fast b) as [v r esc|r e]; [|exact T]. cbn [sres_rest] in T. cbv zeta.
  destruct (negb esc); [exact T|]. destruct (unquote_loop _ _ _); auto.
Qed.

Lemma value_tails n : (forall b, tail_of b (pres_rest (parse_value n b))) /\
  (forall first a b, tail_of a b -> tail_of a (pres_rest (object_loop n first a b))) /\
  (forall first a b, tail_of a b -> tail_of a (pres_rest (array_loop n first a b))).
Proof.
  induction n as [|n (IV & IO & IA)]; [repeat split; intros; cbn [parse_value object_loop array_loop pres_rest]; auto with tails|].
  assert (VT : forall a b, tail_of a b -> tail_of a (pres_rest (parse_value n b))) by (intros a b T; eapply tail_trans; [exact T|apply IV]).
  assert (SP : forall a b, tail_of a b -> tail_of a (skip_spaces b)) by (intros a b T; eapply tail_trans; [exact T|apply tail_spaces]).
  split; [|split].
  - intros b. cbn [parse_value]. destruct b as [|c b1]; [apply tail_refl|]. destruct (c =? cLBRACE); [destruct (Nat.ltb _ _); [apply tail_nil|apply IO; auto with tails]|].
    destruct (c =? cLBRACK); [destruct (Nat.ltb _ _); [apply tail_nil|apply IA; auto with tails]|]. destruct (c =? cQUOTE); [apply string_tail|].
    destruct (c =? cn); [apply lit_tail|]. destruct (c =? ct); [apply lit_tail|]. destruct (c =? cf); [apply lit_tail|].
    destruct (is_num_start c); [apply number_tail|apply tail_refl].
  - intros first a b T. cbn [object_loop]. apply SP in T. destruct (skip_spaces b) as [|c b1]; [apply tail_nil|].
    destruct (c =? cRBRACE); [unfold close_at; cbn [pres_rest]; apply tail_skipn|]. cbv zeta.
    assert (HK : forall x, tail_of a x -> tail_of a (pres_rest match parse_string x with
       | PErr r e => PErr r e
       | POk _ b => match skip_spaces b with
                    | [] => PErr [] ESyntax
                    | c :: b1 => if negb (c =? cCOLON) then PErr (c :: b1) ESyntax
                                 else match parse_value n (skip_spaces b1) with PErr r e => PErr r e | POk _ b => object_loop n false a b end
                    end
       end)).
    { intros x Tx. pose proof (tail_trans _ _ _ Tx (string_tail x)) as T2. destruct (parse_string x) as [v r|r e]; cbn [pres_rest] in *; [|exact T2].
      apply SP in T2. destruct (skip_spaces r) as [|c2 b2]; [apply tail_nil|]. destruct (negb _); [exact T2|]. apply tail_uncons in T2.
      pose proof (VT a _ (SP _ _ T2)) as T3. destruct (parse_value n (skip_spaces b2)) as [v2 r2|r2 e2]; cbn [pres_rest] in *; [apply IO, T3|exact T3]. }
    destruct first; [apply HK, T|]. destruct (negb _); [exact T|]. pose proof (SP _ _ (tail_uncons _ _ _ T)) as T2.
    destruct (skip_spaces b1) as [|c2 b2]; [apply tail_nil|]. destruct (c2 =? cRBRACE); [exact T2|apply HK, T2].
  - intros first a b T. cbn [array_loop]. apply SP in T. destruct (skip_spaces b) as [|c b1]; [apply tail_nil|].
    destruct (c =? cRBRACK); [unfold close_at; cbn [pres_rest]; apply tail_skipn|]. cbv zeta.
    assert (HK : forall x, tail_of a x -> tail_of a (pres_rest match parse_value n x with PErr r e => PErr r e | POk _ b => array_loop n false a b end)).
    { intros x Tx. pose proof (VT a _ Tx) as T3. destruct (parse_value n x); cbn [pres_rest] in *; [apply IA, T3|exact T3]. }
    destruct first; [apply HK, T|]. destruct (negb _); [exact T|]. pose proof (SP _ _ (tail_uncons _ _ _ T)) as T2.
    destruct (skip_spaces b1) as [|c2 b2]; [apply tail_nil|]. destruct (c2 =? cRBRACK); [exact T2|apply HK, T2].
Qed.
Lemma value_tail b : tail_of b (pres_rest (parseValue b)).
Proof. apply value_tails. Qed.
Lemma input_tail b : tail_of b (fst (input_error b)).
Proof.
  unfold input_error. destruct b as [|c b]; [apply tail_refl|]. pose proof (value_tail (c :: b)) as T. destruct (parseValue (c :: b)); cbn [pres_rest fst] in *; [|exact T].
  eapply tail_trans; [exact T|apply tail_spaces].
Qed.
Definition ires_rest (p : ires) : bytes := match p with IOk _ r | IErr r _ => r end.
Lemma finish_tail b v k : tail_of b (ires_rest (int_finish b v k)).
Proof.
  unfold int_finish. pose proof (tail_skipn k b) as T. destruct (skipn k b) as [|c s]; [apply tail_nil|]. destruct (_ || _); [|exact T].
  pose proof (number_tail b) as N. destruct (parse_number b); cbn [ires_rest pres_rest] in *; [exact N|apply tail_skipn].
Qed.
Lemma int_tail b : tail_of b (ires_rest (parse_int b)).
Proof.
  unfold parse_int. destruct b as [|c b1]; [apply tail_refl|]. pose proof (input_tail (c :: b1)) as T. destruct (c =? cMINUS).
  - destruct b1; [apply tail_refl|]. destruct (leading_zero _); [apply tail_refl|]. destruct (neg_loop _ _ _); [apply finish_tail| |apply tail_refl].
    destruct (input_error _). exact T.
  - destruct (leading_zero _); [apply tail_refl|]. destruct (pos_loop _ _ _); [apply finish_tail| |apply tail_refl]. destruct (input_error _). exact T.
Qed.
Lemma uint_tail b : tail_of b (ires_rest (parse_uint b)).
Proof.
  unfold parse_uint. destruct b as [|c b1]; [apply tail_refl|]. pose proof (input_tail (c :: b1)) as T.
  destruct (leading_zero _); [apply tail_refl|]. destruct (uint_loop _ _ _); [apply finish_tail| |apply tail_refl]. destruct (input_error _). exact T.
Qed.

(** A decoder that leaves an end of its input. *)
Definition tailed {A} (D : bytes -> A -> dres A) : Prop := forall b x, tail_of b (d_rest (D b x)).
Lemma in_err_tail {A} b (x : A) : tail_of b (d_rest (in_err b x)).
Proof. unfold in_err. pose proof (input_tail b). destruct (input_error b). assumption. Qed.
Lemma d_map_tail {A B} (f : A -> B) b d : tail_of b (d_rest d) -> tail_of b (d_rest (d_map f d)).
Proof. auto. Qed.
Global Hint Resolve in_err_tail d_map_tail : tails.
Lemma bool_tail : tailed decode_bool.
Proof. intros b x. unfold decode_bool. destruct (has_true_prefix b); [|destruct (has_false_prefix b); [|destruct (has_null_prefix b)]]; cbn [d_rest]; auto with tails. Qed.
Lemma null_tail {A} : tailed (@decode_null A).
Proof. intros b x. unfold decode_null. destruct (has_null_prefix b); cbn [d_rest]; auto with tails. Qed.
Lemma float_tail pf : tailed (decode_float pf).
Proof.
  intros b x. unfold decode_float. destruct (has_null_prefix b); [apply tail_skipn|]. pose proof (number_tail b) as N. destruct (parse_number b) as [v r|r e]; [|apply in_err_tail].
  destruct (pf v); [exact N|apply in_err_tail].
Qed.
Lemma decode_number_tail : tailed decode_number.
Proof. intros b x. unfold decode_number. destruct (has_null_prefix b); [apply tail_skipn|]. pose proof (number_tail b) as N. destruct (parse_number b); [exact N|apply in_err_tail]. Qed.
Lemma decode_int_tail t : tailed (decode_int t).
Proof.
  intros b x. unfold decode_int. destruct (has_null_prefix b); [apply tail_skipn|]. assert (T : tail_of b (ires_rest (if signed t then parse_int b else parse_uint b))) by (destruct (signed t); [apply int_tail|apply uint_tail]).
  destruct (if signed t then _ else _); [|exact T]. destruct (out_of_range t v); exact T.
Qed.
Lemma decode_string_tail : tailed decode_string.
Proof.
  intros b x. unfold decode_string. destruct (has_null_prefix b); [apply tail_skipn|]. pose proof (unquote_tail b []) as T.
  destruct (parse_string_unquote b []); cbn [d_rest]; auto with tails. destruct b as [|c b]; [apply in_err_tail|]. destruct (c =? cQUOTE); [exact T|apply in_err_tail].
Qed.
Lemma raw_tail : tailed decode_raw.
Proof. intros b x. unfold decode_raw. pose proof (value_tail b) as T. destruct (parseValue b); [exact T|apply in_err_tail]. Qed.
Lemma elem_err_tail {A} a inp e (x : A) : tail_of a inp -> tail_of a (d_rest (elem_err inp e x)).
Proof. intros Ti. eapply tail_trans; [exact Ti|]. unfold elem_err. pose proof (value_tail inp) as T. destruct (parseValue inp); exact T. Qed.
Lemma slice_loop_tail {A} (D : bytes -> A -> dres A) z inp : tailed D -> forall k b len data, tail_of inp b -> tail_of inp (d_rest (slice_loop D z inp k b len data)).
Proof.
  intros HD. induction k as [|k IH]; intros b len data T; [exact T|]. cbn [slice_loop]. cbv zeta.
  assert (T2 : tail_of inp (skip_spaces b)) by (eapply tail_trans; [exact T|apply tail_spaces]).
  destruct (match skip_spaces b with [] => false | c :: _ => c =? cRBRACK end); [cbn [d_rest]; eapply tail_trans; [exact T2|apply tail_tl]|].
  set (d := match data with None => [] | Some d => d end). set (d2 := if Nat.eqb len (length d) then grow z d else d).
  assert (EL : forall b', tail_of inp b' -> tail_of inp (d_rest
     match d_err (D b' (nth len d2 z)) with
     | None => slice_loop D z inp k (d_rest (D b' (nth len d2 z))) (S len) (Some (set_nth len (d_val (D b' (nth len d2 z))) d2))
     | Some e => elem_err inp e (Some (len, set_nth len (d_val (D b' (nth len d2 z))) d2)) end)).
  { intros b' T'. destruct (d_err _); [apply elem_err_tail, tail_refl|]. apply IH. eapply tail_trans; [exact T'|apply HD]. }
  destruct (Nat.eqb len 0); [apply EL, T2|]. destruct (skip_spaces b) as [|c b1]; [apply tail_nil|]. destruct (c =? cCOMMA); [|exact T2].
  apply EL. eapply tail_trans; [eapply tail_uncons, T2|apply tail_spaces].
Qed.
Lemma slice_tail {A} (D : bytes -> A -> dres A) z : tailed D -> tailed (decode_slice D z).
Proof.
  intros HD b x. unfold decode_slice. destruct (has_null_prefix b); [apply tail_skipn|]. destruct (Nat.ltb _ _); [apply in_err_tail|]. destruct b as [|c b1]; [apply in_err_tail|].
  destruct (c =? cLBRACK); [|apply in_err_tail]. apply slice_loop_tail; auto with tails.
Qed.
Lemma array_skip_tail k : forall b, tail_of b (fst (array_skip k b)).
Proof.
  induction k as [|k IH]; intros b; [apply tail_refl|]. cbn [array_skip]. cbv zeta. pose proof (tail_spaces b) as T. destruct (skip_spaces b) as [|c b1]; [apply tail_nil|].
  destruct (c =? cRBRACK); [eapply tail_uncons, T|]. set (b2 := if c =? cCOMMA then skip_spaces b1 else c :: b1).
  assert (T2 : tail_of b b2). { subst b2. destruct (c =? cCOMMA); [|exact T]. eapply tail_trans; [eapply tail_uncons, T|apply tail_spaces]. }
  pose proof (tail_trans _ _ _ T2 (value_tail b2)) as T3. destruct (parseValue b2); cbn [pres_rest fst] in *; [|exact T3]. eapply tail_trans; [exact T3|apply IH].
Qed.
Lemma arr_loop_tail {A} (D : bytes -> A -> dres A) : tailed D -> forall todo first b done, tail_of b (d_rest (arr_loop D first b done todo)).
Proof.
  intros HD. induction todo as [|x todo IH]; intros first b done; cbn [arr_loop].
  { pose proof (array_skip_tail (S (length b)) b) as T. destruct (array_skip _ b). exact T. }
  cbv zeta. assert (EL : forall b', tail_of b b' -> tail_of b (d_rest
     match d_err (D b' x) with None => arr_loop D false (d_rest (D b' x)) (done ++ [d_val (D b' x)]) todo | Some e => DR (d_rest (D b' x)) (Some e) (done ++ d_val (D b' x) :: todo) end)).
  { intros b' T'. pose proof (tail_trans _ _ _ T' (HD b' x)) as T2. destruct (d_err _); [exact T2|]. eapply tail_trans; [exact T2|apply IH]. }
  pose proof (tail_spaces b) as T. destruct first; [apply EL, T|]. destruct (skip_spaces b) as [|c b1]; [apply tail_nil|]. pose proof (tail_uncons _ _ _ T) as T1.
  destruct (c =? cCOMMA); [apply EL; eapply tail_trans; [exact T1|apply tail_spaces]|]. destruct (c =? cRBRACK); [exact T1|exact T].
Qed.
Lemma array_tail {A} (D : bytes -> A -> dres A) : tailed D -> tailed (decode_array D).
Proof.
  intros HD b x. unfold decode_array. destruct (has_null_prefix b); [apply tail_skipn|]. destruct (Nat.ltb _ _); [apply in_err_tail|]. destruct b as [|c b1]; [apply in_err_tail|].
  destruct (c =? cLBRACK); [|apply in_err_tail]. apply tail_cons, arr_loop_tail, HD.
Qed.
Lemma obj_key_tail {K} (DK : bytes -> dres K) first a b : (forall b, tail_of b (d_rest (DK b))) -> tail_of a b ->
  match obj_key DK first b with inl (r, _) => tail_of a r | inr (r, _) => tail_of a r end.
Proof.
  intros HK T. unfold obj_key. cbv zeta.
  assert (HH : forall x, tail_of a x -> match
      (if has_null_prefix x then inl (x, ESyntax)
       else match d_err (DK x) with
            | Some e => inl (key_error (d_rest (DK x)) e)
            | None => match skip_spaces (d_rest (DK x)) with
                      | [] => inl (skip_spaces (d_rest (DK x)), ESyntax)
                      | c :: b1 => if c =? cCOLON then inr (skip_spaces b1, d_val (DK x)) else inl (skip_spaces (d_rest (DK x)), ESyntax)
                      end
            end) with inl (r, _) => tail_of a r | inr (r, _) => tail_of a r end).
  { intros x Tx. destruct (has_null_prefix x); [exact Tx|]. pose proof (tail_trans _ _ _ Tx (HK x)) as T2. destruct (d_err (DK x)) as [e|].
    - unfold key_error. destruct (d_rest (DK x)); exact T2 || apply tail_nil.
    - assert (T3 : tail_of a (skip_spaces (d_rest (DK x)))) by (eapply tail_trans; [exact T2|apply tail_spaces]).
      destruct (skip_spaces (d_rest (DK x))) as [|c b1]; [apply tail_nil|]. destruct (c =? cCOLON); [|exact T3]. eapply tail_trans; [eapply tail_uncons, T3|apply tail_spaces]. }
  destruct first; [apply HH, T|]. destruct b as [|c b1]; [exact T|]. destruct (c =? cCOMMA); [|exact T]. apply HH. eapply tail_trans; [eapply tail_uncons, T|apply tail_spaces].
Qed.
Lemma map_loop_tail {K W} eqb (DK : bytes -> dres K) (D : bytes -> W -> dres W) z inp fresh : (forall b, tail_of b (d_rest (DK b))) -> tailed D ->
  forall k first b m, tail_of inp b -> tail_of inp (d_rest (map_loop eqb DK D z inp fresh k first b m)).
Proof.
  intros HK HD. induction k as [|k IH]; intros first b m T; [exact T|]. cbn [map_loop]. cbv zeta.
  assert (T2 : tail_of inp (skip_spaces b)) by (eapply tail_trans; [exact T|apply tail_spaces]).
  destruct (match skip_spaces b with [] => false | c :: _ => c =? cRBRACE end); [cbn [d_rest]; eapply tail_trans; [exact T2|apply tail_tl]|].
  pose proof (obj_key_tail DK first inp (skip_spaces b) HK T2) as T3. destruct (obj_key DK first (skip_spaces b)) as [[r e]|[r key]]; [exact T3|].
  destruct (d_err (D r z)); [apply elem_err_tail, tail_refl|]. apply IH. eapply tail_trans; [exact T3|apply HD].
Qed.
Lemma map_tail {K W} eqb (DK : bytes -> dres K) (D : bytes -> W -> dres W) z : (forall b, tail_of b (d_rest (DK b))) -> tailed D -> tailed (decode_map eqb DK D z).
Proof.
  intros HK HD b x. unfold decode_map. destruct (has_null_prefix b); [apply tail_skipn|]. destruct (Nat.ltb _ _); [apply in_err_tail|]. destruct b as [|c b1]; [apply in_err_tail|].
  destruct (c =? cLBRACE); [|apply in_err_tail]. apply map_loop_tail; auto with tails.
Qed.
(** An error of a member is reported after the object is parsed again: only
    what is left on success matters. *)
Lemma struct_loop_tail {A} (look : bytes -> option (bytes -> A -> dres A)) dis inp :
  (forall k D b x, look k = Some D -> d_err (D b x) = None -> tail_of b (d_rest (D b x))) ->
  forall k first b x, tail_of inp b -> tail_of inp (d_rest (struct_loop look dis inp k first b x)).
Proof.
  intros HL. induction k as [|k IH]; intros first b x T; [exact T|]. cbn [struct_loop]. cbv zeta.
  assert (T2 : tail_of inp (skip_spaces b)) by (eapply tail_trans; [exact T|apply tail_spaces]).
  destruct (match skip_spaces b with [] => false | c :: _ => c =? cRBRACE end); [cbn [d_rest]; eapply tail_trans; [exact T2|apply tail_tl]|].
  match goal with |- context [obj_key ?dk first _] => set (DK := dk) end.
  assert (HK : forall b, tail_of b (d_rest (DK b))).
  { intros b'. subst DK. cbv beta. pose proof (unquote_tail b' []) as U. destruct (parse_string_unquote b' []); cbn [d_rest]; auto with tails. }
  pose proof (obj_key_tail DK first inp (skip_spaces b) HK T2) as T3. destruct (obj_key DK first (skip_spaces b)) as [[r e]|[r key]]; [exact T3|].
  destruct (look key) as [D|] eqn:EL.
  - destruct (d_err (D r x)) eqn:EE; [apply elem_err_tail, tail_refl|]. apply IH. eapply tail_trans; [exact T3|]. eapply HL; eassumption.
  - destruct dis; [exact T3|]. pose proof (tail_trans _ _ _ T3 (value_tail r)) as T4. destruct (parseValue r); cbn [pres_rest d_rest] in *; [apply IH, T4|exact T4].
Qed.
Lemma struct_tail {A} (look : bytes -> option (bytes -> A -> dres A)) dis :
  (forall k D b x, look k = Some D -> d_err (D b x) = None -> tail_of b (d_rest (D b x))) -> tailed (decode_struct look dis).
Proof.
  intros HL b x. unfold decode_struct. destruct (has_null_prefix b); [apply tail_skipn|]. destruct (Nat.ltb _ _); [apply in_err_tail|]. destruct b as [|c b1]; [apply in_err_tail|].
  destruct (c =? cLBRACE); [|apply in_err_tail]. apply struct_loop_tail; auto with tails.
Qed.
Lemma iface_tail u pf n : tailed (dec_iface u pf n).
Proof.
  intros b x. destruct n as [|n]; [apply tail_refl|]. cbn [dec_iface]. pose proof (value_tail b) as T. destruct (parseValue b) as [v r|r e]; [|exact T]. cbn [pres_rest] in T. cbv zeta.
  assert (DN : forall d : dres jv, tail_of b (d_rest match d_err d with Some e => DR r (Some e) JVNull | None => match skip_spaces (d_rest d) with [] => DR r None (d_val d) | _ => DR r (Some ESyntax) JVNull end end)).
  { intros d. destruct (d_err d); [exact T|]. destruct (skip_spaces (d_rest d)); exact T. }
  destruct v as [|c v]; [exact T|].
  destruct (c =? cLBRACE); [apply DN|]. destruct (c =? cLBRACK); [apply DN|]. destruct (c =? cQUOTE); [apply DN|]. destruct (c =? cn); [apply DN|].
  destruct (_ || _); [apply DN|]. destruct (is_num_start c); [destruct u; apply DN|exact T].
Qed.
Section Typed.
Context (V : tenv) (F : dflags).
Lemma from_string_tail {A} (D : bytes -> A -> dres A) b x : tailed D -> tail_of b (d_rest (decode_from_string D b x)).
Proof.
  intros HD. unfold decode_from_string. destruct (has_null_prefix b); [apply HD|]. pose proof (unquote_tail b []) as U. destruct (parse_string_unquote b []); cbn [d_rest]; auto with tails.
  destruct (d_err _); [exact U|]. destruct (skip_spaces _); exact U.
Qed.
Lemma from_string_int_tail {A} pf (D : bytes -> A -> dres A) b x : tailed D -> d_err (decode_from_string_int pf D b x) = None -> tail_of b (d_rest (decode_from_string_int pf D b x)).
Proof.
  intros HD. unfold decode_from_string_int. destruct (has_null_prefix b); [intros _; apply HD|]. cbv zeta. pose proof (unquote_tail b []) as U.
  match goal with |- context [match b with [] => ?q | _ :: _ => _ end] => set (Q := q) end.
  assert (HQ : d_err Q = None -> tail_of b (d_rest Q)).
  { subst Q. destruct (parse_string_unquote b []) as [v r n|r e| |]; try discriminate. destruct (d_err (D (strip_zeroes v) x)) as [e|] eqn:E.
    - destruct e; discriminate.
    - destruct (d_rest (D (strip_zeroes v) x)); [intros _; exact U|discriminate]. }
  destruct b as [|c b1]; [exact HQ|]. destruct (negb _).
  - destruct (parse_number _); [|discriminate]. destruct (existsb _ _); [destruct (pf v)|]; discriminate.
  - destruct b1 as [|c1 b1]; [exact HQ|]. destruct (c1 =? cQUOTE); [discriminate|exact HQ].
Qed.
Lemma bytes_tail : tailed (decode_bytes V).
Proof.
  intros b x. unfold decode_bytes. destruct (has_null_prefix b); [apply tail_skipn|]. destruct (Nat.ltb _ _); [apply in_err_tail|]. destruct b as [|c b1]; [apply in_err_tail|].
  destruct (negb _); [destruct (c =? cLBRACK); [apply slice_tail, decode_int_tail|apply in_err_tail]|].
  pose proof (unquote_tail (c :: b1) []) as U. destruct (parse_string_unquote (c :: b1) []); cbn [d_rest]; auto with tails. destruct (v_b64 V s); exact U.
Qed.
Lemma quoted_tail {A} (prs : bytes -> option A) : tailed (decode_quoted prs).
Proof.
  intros b x. unfold decode_quoted. destruct (Nat.ltb _ _); [apply in_err_tail|]. destruct b as [|c b1]; [apply in_err_tail|]. destruct (negb _); [apply in_err_tail|].
  destruct (index_byte _ _); [|apply in_err_tail]. destruct (prs _); [|apply in_err_tail]. cbn [d_rest]. apply tail_cons. apply tail_skipn.
Qed.
Lemma duration_tail : tailed (decode_duration V).
Proof.
  intros b x. unfold decode_duration. destruct (has_null_prefix b); [apply tail_skipn|]. destruct b as [|c b1]; [apply quoted_tail|]. destruct (negb _); [|apply quoted_tail].
  pose proof (int_tail (c :: b1)) as T. destruct (parse_int _); [exact T|apply in_err_tail].
Qed.
Lemma time_tail : tailed (decode_time V).
Proof. intros b x. unfold decode_time. destruct (has_null_prefix b); [apply tail_skipn|apply quoted_tail]. Qed.
Lemma type_error_tail : tailed decode_type_error.
Proof. intros b x. unfold decode_type_error. pose proof (value_tail b) as T. destruct (parseValue b); exact T. Qed.
Lemma json_tail u : tailed (decode_json_user V u).
Proof. intros b x. unfold decode_json_user. pose proof (value_tail b) as T. destruct (parseValue b) as [v r|r e]; [|exact T]. destruct (rv_null v); [exact T|]. destruct (v_json V u v x). exact T. Qed.
Lemma text_tail u : tailed (decode_text_user V u).
Proof.
  intros b x. unfold decode_text_user. pose proof (value_tail b) as T. destruct (parseValue b) as [v r|r e]; [|exact T]. destruct (rv_null v); [destruct (parse_null v); exact T|].
  destruct (rv_string v); [|exact T]. destruct (parse_string_unquote v []); cbn [d_rest]; auto with tails. destruct (v_text V u s x). exact T.
Qed.
Lemma key_tail k b : tail_of b (d_rest (decode_key V k b)).
Proof. destruct k; unfold decode_key; apply d_map_tail; [apply decode_string_tail|apply from_string_tail, decode_int_tail|apply text_tail]. Qed.
Lemma on_path_tail p D : (forall b x, d_err (D b x) = None -> tail_of b (d_rest (D b x))) -> forall b x, d_err (on_path V p D b x) = None -> tail_of b (d_rest (on_path V p D b x)).
Proof.
  intros HD. induction p as [|s p IH]; intros b x; [apply HD|]. cbn [on_path]. destruct s as [i|i s unexp].
  - destruct x; try discriminate. destruct (nth_error l i); [|discriminate]. apply IH.
  - destruct x; try discriminate. destruct (nth_error l i) as [[]|]; try discriminate. destruct p0 as [m|]; [apply IH|]. destruct unexp; [discriminate|apply IH].
Qed.
Lemma dec_ty_tail n : forall t, tailed (dec_ty V F n t).
Proof.
  induction n as [|n IHn]; (induction t; intros b x; rewrite dec_ty_eq;
    try (destruct x; try apply tail_refl; apply d_map_tail;
         first [apply bool_tail|apply decode_int_tail|apply float_tail|apply decode_number_tail|apply decode_string_tail|apply bytes_tail|apply duration_tail|apply time_tail
               |apply iface_tail|apply raw_tail|apply slice_tail, IHt|apply map_tail; [apply key_tail|assumption]
               |apply map_tail; [apply key_tail|intros b' x'; apply d_map_tail; first [apply iface_tail|apply raw_tail]]|apply json_tail|apply text_tail])).
  all: try (destruct x; try apply tail_refl; apply type_error_tail).
  all: try (destruct x as [| | | | | | | | l | | | |]; try apply tail_refl; destruct (Nat.eqb _ _); [apply d_map_tail, array_tail, IHt|apply tail_refl]).
  all: try (destruct x as [| | | | | | | | | | |p|]; try apply tail_refl; destruct (has_null_prefix b) eqn:EN;
            [destruct p as [m|]; [destruct t; first [apply d_map_tail, IHt|apply tail_skipn]|apply tail_skipn]|apply d_map_tail, IHt]).
  all: try (destruct x as [| | | | | | |v| | | | |]; try apply tail_refl; destruct (has_null_prefix b); [apply tail_skipn|];
            destruct v; try apply type_error_tail; destruct empty; [|apply type_error_tail]; apply d_map_tail; unfold parse_with; cbn [d_rest];
            eapply tail_trans; [apply tail_spaces|]; eapply tail_trans; [apply iface_tail|apply tail_spaces]).
  all: destruct x; try apply tail_refl. apply struct_tail. intros k D b' x' EL. destruct (find_field V F (v_flds V i) k) as [f|]; [|discriminate]. injection EL as <-.
  apply on_path_tail. intros b2 x2. unfold decode_field. destruct (jf_quot f); [intros _; apply IHn|intros _; apply from_string_tail, IHn|apply from_string_int_tail, IHn].
Qed.
Lemma parse_tail t b x : tail_of b (d_rest (parse V F t b x)).
Proof. unfold parse, parse_with, decode. cbn [d_rest]. eapply tail_trans; [apply tail_spaces|]. eapply tail_trans; [apply dec_ty_tail|apply tail_spaces]. Qed.
End Typed.
