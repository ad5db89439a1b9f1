(** The loops of the decoders on memory do what the loops on values do. *)
From Verif Require Import Bytes ParseModel IntModel StringModel EncModel DecModel TypeModel SpecFit AddrModel SpecAddr AddrFacts.

(** [step h own D X x R]: from memory h, the decoder with result X does what the
    one on values with result x does: the same rest and error, the value it stores
    is in memory (R), and only own, D and new memory are written. *)
Definition step {A} (h : st) (own D : Z -> Prop) (X : dres st) (x : dres A) (R : st -> A -> (Z -> Prop) -> Prop) : Prop :=
  d_rest X = d_rest x /\ d_err X = d_err x /\ R (d_val X) (d_val x) (union D (fresh h (d_val X))) /\ writes_only (union own D) h (d_val X).

Lemma step_ret {A} h own D r e (y : A) (R : st -> A -> (Z -> Prop) -> Prop) : R h y (union D (fresh h h)) -> step h own D (DR r e h) (DR r e y) R.
Proof. intros H. split; [reflexivity|]. split; [reflexivity|]. split; [exact H|apply writes_refl]. Qed.
Lemma step_put {A} h h' own D r e (y : A) (R : st -> A -> (Z -> Prop) -> Prop) : R h' y (union D (fresh h h')) -> writes_only (union own D) h h' -> step h own D (DR r e h') (DR r e y) R.
Proof. intros H W. split; [reflexivity|]. split; [reflexivity|]. split; [exact H|exact W]. Qed.
Lemma step_in_err {A} h own D b (y : A) (R : st -> A -> (Z -> Prop) -> Prop) : R h y (union D (fresh h h)) -> step h own D (in_err b h) (in_err b y) R.
Proof. intros H. unfold in_err. destruct (input_error b). apply step_ret, H. Qed.
Lemma step_elem_err {A} h h' own D inp e (y : A) (R : st -> A -> (Z -> Prop) -> Prop) : R h' y (union D (fresh h h')) -> writes_only (union own D) h h' -> step h own D (elem_err inp e h') (elem_err inp e y) R.
Proof. intros H W. unfold elem_err. destruct (parseValue inp); apply step_put; assumption. Qed.
Lemma step_bind {A} h h1 own D X (x : dres A) (R : st -> A -> (Z -> Prop) -> Prop) : (forall h y D D', R h y D -> sub D D' -> R h y D') ->
  writes_only (union own D) h h1 -> step h1 own (union D (fresh h h1)) X x R -> step h own D X x R.
Proof.
  intros MO W1 (A1 & A2 & A3 & A4). split; [exact A1|]. split; [exact A2|]. destruct W1 as [N1 K1], A4 as [N2 K2]. split.
  - eapply MO; [exact A3|]. intros z [[Y|Y]|Y]; [left; exact Y|right|right]; unfold fresh in *; lia.
  - split; [lia|]. intros z Z0 NP. rewrite K2; [apply K1; assumption|lia|]. intros [Y|[Y|Y]]; [apply NP; left; exact Y|apply NP; right; exact Y|unfold fresh in Y; lia].
Qed.
Lemma step_map {A B} h own D X (x : dres A) (f : A -> B) (R : st -> A -> (Z -> Prop) -> Prop) (R' : st -> B -> (Z -> Prop) -> Prop) :
  (forall h y D, R h y D -> R' h (f y) D) -> step h own D X x R -> step h own D X (d_map f x) R'.
Proof. intros H (A1 & A2 & A3 & A4). split; [exact A1|]. split; [exact A2|]. split; [apply H, A3|exact A4]. Qed.

Section Loops.
Context {A : Type} (er : st -> Z -> A -> (Z -> Prop) -> Prop) (sz : Z) (zero : A)
  (MD : Z -> bytes -> st -> dres st) (d : bytes -> A -> dres A).
Hypothesis sz_pos : 0 <= sz.
Hypothesis er_move : forall h h' p p' x D, er h p x D -> (forall o, 0 <= o < sz -> hp h' (p' + o) = hp h (p + o)) ->
  (forall y, D y -> hp h' y = hp h y) -> er h' p' x D.
Hypothesis er_zero : forall h p, (forall x, seg p sz x -> hp h x = CZero) -> er h p zero emp.
Hypothesis er_mono : forall h p x D D', er h p x D -> sub D D' -> er h p x D'.
Hypothesis SIM : forall p b h x D, er h p x D -> disj D (seg p sz) -> (forall y, seg p sz y \/ D y -> y < nx h) ->
  step h (seg p sz) D (MD p b h) (d b x) (fun h' y D' => er h' p y D').

Notation elems := (parts (fun _ => er) (fun i => Z.of_nat i * sz)).
Lemma elems_laid n : laid (fun i => Z.of_nat i * sz) (fun _ => sz) n (Z.of_nat n * sz).
Proof. split; intros; nia. Qed.
Lemma elems_step h p l D i x : elems h p l D -> disj D (seg p (Z.of_nat (length l) * sz)) -> (forall y, seg p (Z.of_nat (length l) * sz) y \/ D y -> y < nx h) ->
  nth_error l i = Some x ->
  exists Qi, er h (p + Z.of_nat i * sz) x Qi /\ sub Qi D /\ disj Qi (seg (p + Z.of_nat i * sz) sz) /\ sub (seg (p + Z.of_nat i * sz) sz) (seg p (Z.of_nat (length l) * sz)) /\
    forall h' y, er h' (p + Z.of_nat i * sz) y (union Qi (fresh h h')) -> writes_only (union (seg (p + Z.of_nat i * sz) sz) Qi) h h' ->
      elems h' p (set_nth i y l) (union D (fresh h h')).
Proof.
  intros P DJ BD N. exact (parts_step (fun _ => er) (fun i => Z.of_nat i * sz) (fun _ => sz) (fun _ => er_move) h p l D _ i x (elems_laid (length l)) P DJ BD N).
Qed.
Lemma elems_move h h' p p' l D : elems h p l D -> (forall o, 0 <= o < Z.of_nat (length l) * sz -> hp h' (p' + o) = hp h (p + o)) ->
  (forall y, D y -> hp h' y = hp h y) -> elems h' p' l D.
Proof. intros P. exact (parts_move (fun _ => er) (fun i => Z.of_nat i * sz) (fun _ => sz) (fun _ => er_move) h h' p p' l D _ (elems_laid (length l)) P). Qed.

Definition bounded (h : st) (P D : Z -> Prop) : Prop := forall y, P y \/ D y -> y < nx h.
Lemma after_bounded h h' P D : bounded h P D -> nx h <= nx h' -> bounded h' P (union D (fresh h h')).
Proof. intros B N y [Y|[Y|Y]]; [assert (y < nx h) by (apply B; left; exact Y); lia|assert (y < nx h) by (apply B; right; exact Y); lia|unfold fresh in Y; lia]. Qed.
Lemma after_disj h h' P D : bounded h P D -> disj D P -> disj (union D (fresh h h')) P.
Proof. intros B N y [Y|Y] Z0; [exact (N y Y Z0)|]. assert (y < nx h) by (apply B; left; exact Z0). unfold fresh in Y. lia. Qed.

(** Decoding one element. *)
Lemma elem_step h p l D i x b : elems h p l D -> disj D (seg p (Z.of_nat (length l) * sz)) -> bounded h (seg p (Z.of_nat (length l) * sz)) D ->
  nth_error l i = Some x ->
  let X := MD (p + Z.of_nat i * sz) b h in
  d_rest X = d_rest (d b x) /\ d_err X = d_err (d b x) /\ elems (d_val X) p (set_nth i (d_val (d b x)) l) (union D (fresh h (d_val X))) /\
  writes_only (union (seg p (Z.of_nat (length l) * sz)) D) h (d_val X).
Proof.
  intros P DJ BD N. destruct (elems_step h p l D i x P DJ BD N) as (Qi & E & S1 & D1 & S2 & K). cbv zeta.
  destruct (SIM (p + Z.of_nat i * sz) b h x Qi E D1) as (B1 & B2 & B3 & B4).
  { intros y [Y|Y]; apply BD; [left; apply S2, Y|right; apply S1, Y]. }
  split; [exact B1|]. split; [exact B2|]. split; [apply K; assumption|].
  eapply writes_sub; [exact B4|]. intros y _ [Y|Y]; [left; apply S2, Y|right; apply S1, Y].
Qed.

Lemma set_nth_app (done : list A) x todo y : set_nth (length done) y (done ++ x :: todo) = (done ++ [y]) ++ todo.
Proof.
  unfold set_nth. rewrite firstn_app, firstn_all, Nat.sub_diag, app_nil_r. rewrite skipn_app, (skipn_all2 done) by lia.
  replace (S (length done) - length done)%nat with 1%nat by lia. cbn. rewrite <- app_assoc. reflexivity.
Qed.
Lemma arr_sim a todo : forall done b h D, let n := length (done ++ todo) in
  elems h a (done ++ todo) D -> disj D (seg a (Z.of_nat n * sz)) -> bounded h (seg a (Z.of_nat n * sz)) D ->
  step h (seg a (Z.of_nat n * sz)) D (m_arr MD sz a (length todo) (length done) b h) (arr_loop d (Nat.eqb (length done) 0) b done todo)
    (fun h' l' D' => length l' = n /\ elems h' a l' D').
Proof.
  assert (MO : forall n h y D D', length y = n /\ elems h a y D -> sub D D' -> length y = n /\ elems h a y D') by (intros n h y D D' [H1 H2] S; split; [exact H1|eapply parts_mono; eassumption]).
  induction todo as [|x todo IH]; intros done b h D n P DJ BD.
  - cbn [m_arr arr_loop length]. destruct (array_skip (S (length b)) b) as [r e]. apply step_ret. split; [unfold n; rewrite app_nil_r; reflexivity|].
    rewrite app_nil_r in P. eapply parts_mono; [exact P|apply union_l].
  - cbn [m_arr arr_loop length]. set (sp := skip_spaces b).
    assert (SAME : length (done ++ x :: todo) = n /\ elems h a (done ++ x :: todo) (union D (fresh h h))) by (split; [reflexivity|eapply parts_mono; [exact P|apply union_l]]).
    assert (EL : forall b0, step h (seg a (Z.of_nat n * sz)) D
        (let y := MD (a + Z.of_nat (length done) * sz) b0 h in match d_err y with None => m_arr MD sz a (length todo) (S (length done)) (d_rest y) (d_val y) | Some _ => y end)
        (let y := d b0 x in match d_err y with None => arr_loop d false (d_rest y) (done ++ [d_val y]) todo | Some e => DR (d_rest y) (Some e) (done ++ d_val y :: todo) end)
        (fun h' l' D' => length l' = n /\ elems h' a l' D')).
    { intros b0. cbv zeta. assert (N : nth_error (done ++ x :: todo) (length done) = Some x) by (rewrite nth_error_app2, Nat.sub_diag by lia; reflexivity).
      destruct (elem_step h a (done ++ x :: todo) D (length done) x b0 P DJ BD N) as (E1 & E2 & E3 & E4). cbv zeta in *. set (X := MD (a + Z.of_nat (length done) * sz) b0 h) in *.
      rewrite set_nth_app in E3. rewrite E2. destruct (d b0 x) as [r [e|] y]; cbn [d_err d_rest d_val] in *.
      - split; [exact E1|]. split; [exact E2|]. split; [|exact E4]. cbn [d_val]; split; [unfold n; rewrite !app_length; cbn [length]; lia|]. rewrite <- app_assoc in E3. exact E3.
      - eapply step_bind; [apply MO|exact E4|]. assert (EN : length ((done ++ [y]) ++ todo) = n) by (unfold n; rewrite !app_length; cbn [length]; lia).
        assert (LD : S (length done) = length (done ++ [y])) by (rewrite app_length; cbn [length]; lia).
        rewrite LD, E1. specialize (IH (done ++ [y]) r (d_val X) (union D (fresh h (d_val X)))). cbv zeta in IH. rewrite EN in IH.
        assert (EF : Nat.eqb (length (done ++ [y])) 0 = false) by (rewrite <- LD; reflexivity). rewrite EF in IH. apply IH; [exact E3|apply after_disj; assumption|apply after_bounded; [exact BD|exact (proj1 E4)]]. }
    destruct (Nat.eqb (length done) 0); [apply EL|]. destruct sp as [|c sp1]; [apply step_ret, SAME|]. destruct (c =? cCOMMA); [apply EL|]. destruct (c =? cRBRACK); apply step_ret, SAME.
Qed.
Lemma array_sim a b h l D : elems h a l D -> disj D (seg a (Z.of_nat (length l) * sz)) -> bounded h (seg a (Z.of_nat (length l) * sz)) D ->
  step h (seg a (Z.of_nat (length l) * sz)) D (m_array MD sz (length l) a b h) (decode_array d b l) (fun h' l' D' => length l' = length l /\ elems h' a l' D').
Proof.
  intros P DJ BD. assert (SAME : length l = length l /\ elems h a l (union D (fresh h h))) by (split; [reflexivity|eapply parts_mono; [exact P|apply union_l]]).
  unfold m_array, decode_array. destruct (has_null_prefix b); [apply step_ret, SAME|]. destruct (Nat.ltb (length b) 2); [apply step_in_err, SAME|].
  destruct b as [|c b1]; [apply step_in_err, SAME|]. destruct (c =? cLBRACK); [|apply step_in_err, SAME].
  exact (arr_sim a l [] b1 h D P DJ BD).
Qed.

(** Slices. *)
Definition slice_rep (h : st) (a : Z) (s : sl A) (D : Z -> Prop) : Prop :=
  match s with
  | None => rd_slice (hp h a) = Some (None, O, O)
  | Some (len, l) => exists p Q, rd_slice (hp h a) = Some (Some p, len, length l) /\ (len <= length l)%nat /\ elems h p l Q /\
      disj Q (seg p (Z.of_nat (length l) * sz)) /\ sub Q D /\ sub (seg p (Z.of_nat (length l) * sz)) D
  end.
Lemma slice_mono h a s D D' : slice_rep h a s D -> sub D D' -> slice_rep h a s D'.
Proof. destruct s as [[len l]|]; [|trivial]. intros (p & Q & H1 & H2 & H3 & H4 & H5 & H6) S. exists p, Q. repeat (split; [assumption|]). split; eapply sub_trans; eassumption. Qed.
Lemma slice_frame h h' a s D : slice_rep h a s D -> hp h' a = hp h a -> (forall y, D y -> hp h' y = hp h y) -> slice_rep h' a s D.
Proof.
  destruct s as [[len l]|]; cbn; intros H E K; [|rewrite E; exact H]. destruct H as (p & Q & H1 & H2 & H3 & H4 & H5 & H6). exists p, Q. rewrite E.
  repeat (split; [assumption|]). split; [|repeat (split; [assumption|]); assumption]. eapply elems_move; [exact H3| |].
  - intros o O. apply K, H6. unfold seg. lia.
  - intros y Y. apply K, H5, Y.
Qed.

Lemma slice_sim (own : Z -> Prop) a inp k : forall b len data h D, own a -> (data = None -> len = O) ->
  slice_rep h a (match data with None => None | Some l => Some (len, l) end) D -> disj D own -> bounded h own D ->
  step h own D (m_slice_loop MD sz a inp k b h) (slice_loop d zero inp k b len data) (fun h' s D' => slice_rep h' a s D').
Proof.
  induction k as [|k IH]; intros b len data h D OA LN R DJ BD; [cbn; apply step_ret; eapply slice_mono; [exact R|apply union_l]|].
  cbn [m_slice_loop slice_loop]. set (now := match data with None => None | Some l => Some (len, l) end) in *. set (l := match data with None => [] | Some l => l end).
  assert (HD : exists dp, rd_slice (hp h a) = Some (dp, len, length l) /\ (len <= length l)%nat /\ (dp = None <-> data = None)).
  { unfold now, l in *. destruct data as [l0|]; cbn in R.
    - destruct R as (p & Q & H1 & H2 & _). exists (Some p). split; [exact H1|]. split; [exact H2|]. split; discriminate.
    - specialize (LN eq_refl). subst len. exists None. split; [exact R|]. split; [cbn; lia|]. tauto. }
  destruct HD as (dp & HD & LL & DN). rewrite HD. set (sp := skip_spaces b).
  assert (SAME : slice_rep h a now (union D (fresh h h))) by (eapply slice_mono; [exact R|apply union_l]).
  destruct (match sp with c :: _ => c =? cRBRACK | [] => false end).
  { destruct dp as [p|].
    - destruct data as [l0|]; [|destruct DN as [_ DN]; discriminate (DN eq_refl)]. apply step_ret. exact SAME.
    - assert (data = None) by (apply DN; reflexivity). subst data. specialize (LN eq_refl). subst len. apply step_put; [|apply put_writes; left; exact OA].
      exists addr_empty, emp. rewrite put_same. cbn. split; [reflexivity|]. split; [lia|]. split; [exists (fun _ => emp); split; [intros i x N; destruct i; discriminate|split; [intros i x []|intros i j _ x []]]|].
      split; [intros x []|]. split; [intros x []|]. intros x. unfold seg. lia. }
  assert (EL : forall b0, step h own D
    (let h1 := if Nat.eqb len (length l) then let n := match length l with O => 10%nat | _ => (length l * 2)%nat end in let '(p, h1) := extend sz dp len n h in put_cell a (CSlice (Some p) len n) h1 else h in
     match rd_slice (hp h1 a) with
     | Some (Some p, _, _) =>
         let x := MD (p + Z.of_nat len * sz) b0 h1 in
         match d_err x with
         | None => match rd_slice (hp (d_val x) a) with
                   | Some (data', len', cap') => m_slice_loop MD sz a inp k (d_rest x) (put_cell a (CSlice data' (S len') cap') (d_val x))
                   | None => oops b0 h
                   end
         | Some e => elem_err inp e (d_val x)
         end
     | _ => oops b0 h
     end)
    (let d0 := if Nat.eqb len (length l) then grow zero l else l in
     let x := d b0 (nth len d0 zero) in
     match d_err x with
     | None => slice_loop d zero inp k (d_rest x) (S len) (Some (set_nth len (d_val x) d0))
     | Some e => elem_err inp e (Some (len, set_nth len (d_val x) d0))
     end) (fun h' s D' => slice_rep h' a s D')).
  { intros b0. cbv zeta. set (h1 := if Nat.eqb len (length l) then _ else h). set (d0 := if Nat.eqb len (length l) then _ else l).
    assert (G : writes_only (union own D) h h1 /\ slice_rep h1 a (Some (len, d0)) (union D (fresh h h1)) /\ (len < length d0)%nat).
    { unfold h1, d0. destruct (Nat.eqb_spec len (length l)) as [EL|NL].
      - set (n := match length l with O => 10%nat | _ => (length l * 2)%nat end).
        assert (GL : length (grow zero l) = n /\ (len < n)%nat).
        { unfold grow, n. rewrite app_length, repeat_length. rewrite EL. destruct l; cbn [length]; lia. }
        destruct GL as [GL GT]. unfold extend. destruct (alloc (Z.of_nat n * sz) h) as [p2 h2] eqn:AL.
        assert (P2 : p2 = nx h) by (injection AL as <- _; reflexivity). assert (N2 : nx h2 = nx h + Z.of_nat n * sz) by (injection AL as _ <-; reflexivity).
        assert (O2 : forall x, x < nx h -> hp h2 x = hp h x) by (intros x X; pose proof (alloc_old (Z.of_nat n * sz) h x X) as Y; rewrite AL in Y; exact Y).
        assert (Z2 : forall x, seg p2 (Z.of_nat n * sz) x -> hp h2 x = CZero) by (intros x X; pose proof (alloc_zero (Z.of_nat n * sz) h x) as Y; rewrite AL in Y; exact (Y X)).
        clear AL. cbv zeta. set (h3 := match dp with Some p => copy p p2 (Z.of_nat (Nat.min n len) * sz) h2 | None => h2 end).
        assert (N3 : nx h3 = nx h2) by (unfold h3; destruct dp; reflexivity).
        assert (O3 : forall x, x < nx h -> hp h3 x = hp h x) by (intros x X; unfold h3; destruct dp; [rewrite copy_else by (unfold seg; lia)|]; apply O2, X).
        assert (AB : a < nx h) by (apply BD; left; exact OA).
        assert (W : writes_only (union own D) h (put_cell a (CSlice (Some p2) len n) h3)).
        { split; [cbn; nia|]. intros x X NP. rewrite put_else; [apply O3, X|]. intros ->. apply NP. left. exact OA. }
        split; [exact W|]. split; [|lia]. cbn [slice_rep].
        (* the elements *)
        assert (EO : exists p Q, elems h p l Q /\ (l <> [] -> dp = Some p) /\ sub Q D /\ sub (seg p (Z.of_nat (length l) * sz)) D).
        { unfold now, l in *. destruct data as [l0|]; cbn in R.
          - destruct R as (p & Q & H1 & H2 & H3 & H4 & H5 & H6). exists p, Q. split; [exact H3|]. split; [congruence|]. split; assumption.
          - exists 0, emp. split; [exists (fun _ => emp); split; [intros i x N; destruct i; discriminate|split; [intros i x []|intros i j _ x []]]|].
            split; [congruence|]. split; [intros x []|]. intros x. unfold seg. cbn. lia. }
        destruct EO as (p & Q & (QQ & E1 & E2 & E3) & DP & SQ & SP). set (h4 := put_cell a (CSlice (Some p2) len n) h3) in *.
        exists p2, Q. split; [unfold h4; rewrite put_same, GL; reflexivity|]. split; [lia|].
        assert (H4 : forall x, nx h <= x -> hp h4 x = hp h3 x) by (intros x X; unfold h4; apply put_else; lia).
        assert (QB : sub Q (fun y => y < nx h)) by (intros y Y; apply BD; right; apply SQ, Y).
        split; [|split; [|split]].
        + exists (fun i => if (i <? length l)%nat then QQ i else emp). split; [|split].
          * intros i x N. destruct (Nat.ltb_spec i (length l)) as [IL|IL].
            -- unfold grow in N. rewrite nth_error_app1 in N by exact IL. eapply er_move; [apply E1, N| |].
               ++ intros o O. rewrite H4 by nia. unfold h3. assert (dp = Some p) as -> by (apply DP; intros X; rewrite X in IL; cbn in IL; lia).
                  rewrite <- Z.add_assoc. rewrite copy_there by nia. rewrite O2; [f_equal; lia|]. apply BD. right. apply SP. unfold seg. nia.
               ++ intros y Y. assert (DY : D y) by (apply SQ, (E2 i), Y). unfold h4. rewrite put_else; [apply O3, BD; right; exact DY|]. intros ->. exact (DJ a DY OA).
            -- assert (X0 : x = zero).
               { unfold grow in N. rewrite nth_error_app2 in N by exact IL. apply nth_error_In, repeat_spec in N. exact N. }
               subst x. apply er_zero. intros y Y. assert (IG : (i < n)%nat) by (rewrite <- GL; apply nth_error_Some; congruence).
               assert (YS : seg p2 (Z.of_nat n * sz) y) by (unfold seg in *; nia). rewrite H4 by (unfold seg in YS; lia).
               unfold h3. destruct dp; [rewrite copy_else|]; try (apply Z2, YS). unfold seg in *. intros [_ X]. rewrite EL in X. rewrite Nat.min_r in X by lia. nia.
          * intros i x. destruct (i <? length l)%nat; [apply E2|intros []].
          * intros i j NE x. destruct (i <? length l)%nat; [|intros []]. destruct (j <? length l)%nat; [apply E3, NE|intros _ []].
        + intros y Y S. rewrite GL in S. specialize (QB y Y). cbn in QB. unfold seg in S. lia.
        + eapply sub_trans; [exact SQ|apply union_l].
        + intros y Y. right. rewrite GL in Y. unfold fresh, seg in *. unfold h4. cbn [nx put_cell]. lia.
      - split; [apply writes_refl|]. split; [|lia]. unfold now, l in *. destruct data as [l0|]; [exact SAME|]. specialize (LN eq_refl). cbn in *. lia. }
    destruct G as (W1 & (p & Q & H1 & H2 & H3 & H4 & H5 & H6) & LT). rewrite H1.
    assert (B1 : bounded h1 own (union D (fresh h h1))) by (apply after_bounded; [exact BD|exact (proj1 W1)]).
    assert (DJ1 : disj (union D (fresh h h1)) own) by (apply after_disj; assumption).
    assert (N0 : nth_error d0 len = Some (nth len d0 zero)) by (apply nth_error_nth'; exact LT).
    destruct (elem_step h1 p d0 Q len (nth len d0 zero) b0 H3 H4) as (E1 & E2 & E3 & E4); [|exact N0|].
    { intros y [Y|Y]; apply B1; right; [apply H6, Y|apply H5, Y]. }
    cbv zeta in *. set (X := MD (p + Z.of_nat len * sz) b0 h1) in *. set (y := d_val (d b0 (nth len d0 zero))) in *.
    assert (SL : length (set_nth len y d0) = length d0) by (apply set_nth_length; exact LT).
    assert (HA : hp (d_val X) a = hp h1 a).
    { apply E4; [apply B1; left; exact OA|]. intros [Y|Y]; [exact (DJ1 a (H6 a Y) OA)|exact (DJ1 a (H5 a Y) OA)]. }
    assert (WX : writes_only (union own D) h (d_val X)).
    { eapply writes_trans; [exact W1|]. eapply writes_sub; [exact E4|]. intros z _ [Y|Y]; [apply H6 in Y|apply H5 in Y]; destruct Y as [Y|Y]; [left; right; exact Y|right; exact Y|left; right; exact Y|right; exact Y]. }
    assert (FF : sub (union D (fresh h h1)) (union D (fresh h (d_val X)))).
    { intros z [Y|Y]; [left; exact Y|right]. destruct E4 as [E4 _]. unfold fresh in *. lia. }
    assert (RX : forall h4 len', nx h4 = nx (d_val X) -> (forall z, z <> a -> hp h4 z = hp (d_val X) z) -> rd_slice (hp h4 a) = Some (Some p, len', length d0) -> (len' <= length d0)%nat ->
                 slice_rep h4 a (Some (len', set_nth len y d0)) (union D (fresh h (d_val X)))).
    { intros h4 len' N4 K4 C4 L4. exists p, (union Q (fresh h1 (d_val X))). rewrite SL. split; [exact C4|]. split; [exact L4|]. split; [|split; [|split]].
      - eapply elems_move; [exact E3| |].
        + intros o O. apply K4. intros E. apply (DJ1 a); [|exact OA]. apply H6. rewrite <- E. unfold seg. rewrite SL in O. lia.
        + intros z Z0. apply K4. intros ->. destruct Z0 as [Z0|Z0]; [exact (DJ1 a (H5 a Z0) OA)|]. assert (a < nx h1) by (apply B1; left; exact OA). unfold fresh in Z0. lia.
      - intros z [Y|Y] S; [exact (H4 z Y S)|]. assert (z < nx h1) by (apply B1; right; apply H6, S). unfold fresh in Y. lia.
      - intros z [Y|Y]; [apply FF, H5, Y|right]. destruct W1 as [W1 _]. unfold fresh in *. lia.
      - intros z Y. apply FF, H6, Y. }
    rewrite E2. destruct (d b0 (nth len d0 zero)) as [r [e|] y0] eqn:ED; cbn [d_err d_rest d_val] in *.
    - apply step_elem_err; [|exact WX]. apply RX; [reflexivity|reflexivity|rewrite HA, H1; reflexivity|exact H2].
    - rewrite HA, H1. set (h4 := put_cell a (CSlice (Some p) (S len) (length d0)) (d_val X)).
      assert (W4 : writes_only (union own D) h h4).
      { eapply writes_trans; [exact WX|]. apply put_writes. left. left. exact OA. }
      eapply step_bind; [intros h' s' D1 D2; apply slice_mono|exact W4|]. rewrite E1.
      apply (IH r (S len) (Some (set_nth len y d0))); [exact OA|discriminate| |apply after_disj; assumption|apply after_bounded; [exact BD|exact (proj1 W4)]].
      change (fresh h h4) with (fresh h (d_val X)). apply RX; [reflexivity|intros z NE; apply put_else, NE|unfold h4; rewrite put_same; reflexivity|lia]. }
  destruct (Nat.eqb len 0); [apply EL|]. destruct sp as [|c sp1]; [apply step_ret, SAME|]. destruct (c =? cCOMMA); [apply EL|apply step_ret, SAME].
Qed.
Lemma slice_all_sim (own : Z -> Prop) a b s h D : own a -> slice_rep h a s D -> disj D own -> bounded h own D ->
  step h own D (m_slice MD sz a b h) (decode_slice d zero b s) (fun h' s D' => slice_rep h' a s D').
Proof.
  intros OA R DJ BD. assert (SAME : slice_rep h a s (union D (fresh h h))) by (eapply slice_mono; [exact R|apply union_l]).
  unfold m_slice, decode_slice. destruct (has_null_prefix b).
  { apply step_put; [cbn [slice_rep]; rewrite put_same; reflexivity|apply put_writes; left; exact OA]. }
  destruct (Nat.ltb (length b) 2); [apply step_in_err, SAME|]. destruct b as [|c b1]; [apply step_in_err, SAME|]. destruct (c =? cLBRACK); [|apply step_in_err, SAME].
  assert (NA : ~ D a) by (intros X; exact (DJ a X OA)).
  assert (HD : exists dp len cap, rd_slice (hp h a) = Some (dp, len, cap) /\
     slice_rep (put_cell a (CSlice dp 0 cap) h) a (match option_map snd s with None => None | Some l => Some (O, l) end) D).
  { destruct s as [[len l]|]; cbn in R |- *.
    - destruct R as (p & Q & H1 & H2 & H3 & H4 & H5 & H6). exists (Some p), len, (length l). split; [exact H1|]. exists p, Q. rewrite Z.eqb_refl. split; [reflexivity|]. split; [lia|].
      split; [|repeat (split; [assumption|]); assumption]. eapply elems_move; [exact H3| |].
      + intros o O. apply put_else. intros E. apply NA, H6. rewrite <- E. unfold seg. lia.
      + intros y Y. apply put_else. intros ->. apply NA, H5, Y.
    - exists None, O, O. split; [exact R|]. rewrite Z.eqb_refl. reflexivity. }
  destruct HD as (dp & len & cap & HD & R2). rewrite HD. set (h1 := put_cell a (CSlice dp 0 cap) h) in *.
  assert (W1 : writes_only (union own D) h h1) by (apply put_writes; left; exact OA).
  eapply step_bind; [intros h' s' D1 D2; apply slice_mono|exact W1|].
  apply slice_sim; [exact OA|reflexivity|eapply slice_mono; [exact R2|apply union_l]|apply after_disj; assumption|apply after_bounded; [exact BD|exact (proj1 W1)]].
Qed.

(** Maps. *)
Definition map_rep (h : st) (q : Z) (m : list (mkey * A)) (D : Z -> Prop) : Prop :=
  exists (l : list (mkey * Z)) (Q R : nat -> Z -> Prop), rd_obj (hp h q) = Some l /\ D q /\ map fst l = map fst m /\
    (forall i kx s ky x, nth_error l i = Some (kx, s) -> nth_error m i = Some (ky, x) -> er h s x (Q i)) /\
    (forall i kx s, nth_error l i = Some (kx, s) -> disj (Q i) (seg s sz) /\ sub (seg s sz) (R i) /\ sub (Q i) (R i)) /\
    (forall i, sub (R i) D) /\ (forall i, ~ R i q) /\ (forall i j, i <> j -> disj (R i) (R j)).
Lemma map_mono h q m D D' : map_rep h q m D -> sub D D' -> map_rep h q m D'.
Proof.
  intros (l & Q & R & H1 & H2 & H3 & H4 & H5 & H6 & H7 & H8) S. exists l, Q, R. repeat (split; [assumption || (apply S; assumption)|]).
  split; [intros i; eapply sub_trans; [apply H6|exact S]|]. split; assumption.
Qed.
Lemma map_frame h h' q m D : map_rep h q m D -> (forall y, D y -> hp h' y = hp h y) -> map_rep h' q m D.
Proof.
  intros (l & Q & R & H1 & H2 & H3 & H4 & H5 & H6 & H7 & H8) K. exists l, Q, R. split; [rewrite K; assumption|]. split; [exact H2|]. split; [exact H3|].
  split; [|repeat (split; [assumption|]); assumption]. intros i kx s ky x N1 N2. destruct (H5 i kx s N1) as (D1 & D2 & D3). eapply er_move; [eapply H4; eassumption| |].
  - intros o O. apply K, (H6 i), D2. unfold seg. lia.
  - intros y Y. apply K, (H6 i), D3, Y.
Qed.
Lemma slot_set k (x : A) : forall (l : list (mkey * Z)) (m : list (mkey * A)), map fst l = map fst m ->
  match slot k l with
  | Some s => exists i, nth_error l i = Some (k, s) /\ map_set mkey_eqb k x m = set_nth i (k, x) m
  | None => map_set mkey_eqb k x m = m ++ [(k, x)]
  end.
Proof.
  induction l as [|[k1 s1] l IH]; intros [|[k2 x2] m] E; cbn in E; try discriminate; [reflexivity|]. injection E as -> E. cbn [slot map_set].
  destruct (mkey_eqb k2 k) eqn:EK.
  - apply mkey_eqb_eq in EK. subst k2. exists O. split; reflexivity.
  - specialize (IH m E). destruct (slot k l) as [s|].
    + destruct IH as (i & N & E2). exists (S i). split; [exact N|]. rewrite E2. reflexivity.
    + rewrite IH. reflexivity.
Qed.
Lemma set_index_sim h q m D k v x Qv : map_rep h q m D -> er h v x Qv -> disj Qv (seg v sz) -> disj D Qv -> disj D (seg v sz) ->
  (forall y, D y -> y < nx h) -> (forall y, Qv y -> y < nx h) -> (forall y, seg v sz y -> y < nx h) ->
  exists h', set_index sz q k v h = Some h' /\ writes_only D h h' /\
    map_rep h' q (map_set mkey_eqb k x m) (union (union D Qv) (fresh h h')).
Proof.
  intros (l & Q & R & H1 & H2 & H3 & H4 & H5 & H6 & H7 & H8) EV DV DQ DS BD BQ BS. unfold set_index. rewrite H1. pose proof (slot_set k x l m H3) as SS.
  assert (LE : length l = length m) by (rewrite <- (map_length fst l), H3, map_length; reflexivity).
  destruct (slot k l) as [s|].
  - destruct SS as (i & N & ->). exists (copy v s sz h). split; [reflexivity|]. destruct (H5 i k s N) as (D1 & D2 & D3).
    assert (SD : sub (seg s sz) D) by (eapply sub_trans; [exact D2|apply H6]).
    split; [eapply writes_sub; [apply copy_writes|intros y _; apply SD]|].
    assert (IL : (i < length m)%nat) by (rewrite <- LE; apply nth_error_Some; congruence).
    exists l, (fun j => if (j =? i)%nat then Qv else Q j), (fun j => if (j =? i)%nat then union (seg s sz) Qv else R j).
    split; [rewrite copy_else; [exact H1|]; intros X; exact (H7 i (D2 q X))|]. split; [left; left; exact H2|].
    split; [|split; [|split; [|split; [|split]]]].
    + assert (NM : nth_error (map fst m) i = Some k) by (rewrite <- H3; exact (map_nth_error fst i l N)). rewrite H3. unfold set_nth.
      clear - NM IL. revert i NM IL. induction m as [|[k1 x1] m IH]; intros i NM IL; [cbn in IL; lia|]. destruct i as [|i]; cbn in *; [congruence|]. f_equal. apply IH; [exact NM|lia].
    + intros j kx s' ky x'. rewrite (nth_set_nth i j (k, x) m IL). destruct (Nat.eqb_spec j i) as [->|NJ].
      * intros N1 N2. rewrite N in N1. injection N1 as <- <-. injection N2 as <- <-. eapply er_move; [exact EV| |].
        -- intros o O. apply copy_there, O.
        -- intros y Y. apply copy_else. intros X. exact (DQ y (SD y X) Y).
      * intros N1 N2. destruct (H5 j kx s' N1) as (F1 & F2 & F3). eapply er_move; [eapply H4; eassumption| |].
        -- intros o O. apply copy_else. intros X. apply (H8 i j ltac:(congruence) (s' + o)); [apply D2, X|apply F2; unfold seg; lia].
        -- intros y Y. apply copy_else. intros X. apply (H8 i j ltac:(congruence) y); [apply D2, X|apply F3, Y].
    + intros j kx s' N1. destruct (Nat.eqb_spec j i) as [->|NJ]; [|apply (H5 j kx s' N1)]. rewrite N in N1. injection N1 as <- <-.
      split; [intros y Y X; exact (DQ y (SD y X) Y)|]. split; [apply union_l|apply union_r].
    + intros j y. destruct (Nat.eqb_spec j i) as [->|NJ]; [intros [Y|Y]; left; [left; apply SD, Y|right; exact Y]|intros Y; left; left; apply (H6 j), Y].
    + intros j. destruct (Nat.eqb_spec j i) as [->|NJ]; [|apply H7]. intros [Y|Y]; [exact (H7 i (D2 q Y))|exact (DQ q H2 Y)].
    + intros j j' NE y. destruct (Nat.eqb_spec j i) as [->|NJ], (Nat.eqb_spec j' i) as [->|NJ']; try congruence.
      * intros [Y|Y] X; [exact (H8 i j' NE y (D2 y Y) X)|exact (DQ y (H6 j' y X) Y)].
      * intros X [Y|Y]; [exact (H8 j i NE y X (D2 y Y))|exact (DQ y (H6 j y X) Y)].
      * apply H8, NE.
  - rewrite SS. destruct (alloc sz h) as [s h1] eqn:AL.
    assert (P2 : s = nx h) by (injection AL as <- _; reflexivity). assert (N2 : nx h1 = nx h + sz) by (injection AL as _ <-; reflexivity).
    assert (O2 : forall y, y < nx h -> hp h1 y = hp h y) by (intros y Y; pose proof (alloc_old sz h y Y) as Z0; rewrite AL in Z0; exact Z0). clear AL.
    eexists. split; [reflexivity|]. set (h2 := copy v s sz h1). assert (O3 : forall y, y < nx h -> hp h2 y = hp h y) by (intros y Y; unfold h2; rewrite copy_else by (unfold seg; lia); apply O2, Y).
    set (h3 := put_cell q (CObj (l ++ [(k, s)])) h2). assert (QB : q < nx h) by (apply BD, H2).
    split; [split; [cbn; lia|]; intros y Y NP; unfold h3; rewrite put_else by (intros ->; contradiction); apply O3, Y|].
    assert (O4 : forall y, y < nx h -> y <> q -> hp h3 y = hp h y) by (intros y Y NY; unfold h3; rewrite put_else by exact NY; apply O3, Y).
    exists (l ++ [(k, s)]), (fun j => if (j =? length l)%nat then Qv else Q j), (fun j => if (j =? length l)%nat then union (seg s sz) Qv else if (j <? length l)%nat then R j else emp).
    split; [unfold h3; rewrite put_same; reflexivity|]. split; [left; left; exact H2|]. split; [rewrite !map_app, H3; reflexivity|].
    assert (NL : forall j kx s', nth_error (l ++ [(k, s)]) j = Some (kx, s') -> (j = length l /\ kx = k /\ s' = s) \/ ((j < length l)%nat /\ nth_error l j = Some (kx, s'))).
    { intros j kx s' N1. destruct (Nat.lt_ge_cases j (length l)) as [J|J]; [right; rewrite nth_error_app1 in N1 by exact J; auto|]. rewrite nth_error_app2 in N1 by exact J.
      destruct (j - length l)%nat as [|n] eqn:E; [|destruct n; discriminate]. injection N1 as <- <-. left. split; [lia|auto]. }
    split; [|split; [|split; [|split]]].
    + intros j kx s' ky x' N1 N3. destruct (NL j kx s' N1) as [(-> & -> & ->)|[J N4]].
      * rewrite Nat.eqb_refl. rewrite LE in N3. rewrite nth_error_app2, Nat.sub_diag in N3 by lia. injection N3 as <- <-. eapply er_move; [exact EV| |].
        -- intros o O. unfold h3. rewrite put_else by lia. unfold h2. rewrite copy_there by exact O. apply O2, BS. unfold seg. lia.
        -- intros y Y. apply O4; [apply BQ, Y|]. intros ->. exact (DQ q H2 Y).
      * destruct (Nat.eqb_spec j (length l)); [lia|]. rewrite nth_error_app1 in N3 by lia. destruct (H5 j kx s' N4) as (F1 & F2 & F3). eapply er_move; [eapply H4; eassumption| |].
        -- intros o O. assert (RJ : R j (s' + o)) by (apply F2; unfold seg; lia). apply O4; [apply BD, (H6 j), RJ|]. intros E. rewrite E in RJ. exact (H7 j RJ).
        -- intros y Y. apply F3 in Y. apply O4; [apply BD, (H6 j), Y|]. intros ->. exact (H7 j Y).
    + intros j kx s' N1. destruct (NL j kx s' N1) as [(-> & -> & ->)|[J N4]].
      * rewrite Nat.eqb_refl. split; [intros y Y X; specialize (BQ y Y); unfold seg in X; lia|]. split; [apply union_l|apply union_r].
      * destruct (Nat.eqb_spec j (length l)); [lia|]. destruct (Nat.ltb_spec j (length l)); [|lia]. apply (H5 j kx s' N4).
    + intros j y. destruct (Nat.eqb_spec j (length l)) as [->|NJ].
      * intros [Y|Y]; [right; unfold fresh, seg in *; cbn [nx h3 h2 put_cell copy]; unfold h3, h2; cbn [nx put_cell copy]; lia|left; right; exact Y].
      * destruct (j <? length l)%nat; [intros Y; left; left; apply (H6 j), Y|intros []].
    + intros j. destruct (Nat.eqb_spec j (length l)) as [->|NJ]; [intros [Y|Y]; [unfold seg in Y; lia|exact (DQ q H2 Y)]|]. destruct (j <? length l)%nat; [apply H7|intros []].
    + assert (NEW : forall j y, union (seg s sz) Qv y -> R j y -> False).
      { intros j y [Y|Y] X; [specialize (BD y (H6 j y X)); unfold seg in Y; lia|exact (DQ y (H6 j y X) Y)]. }
      intros j j' NE y. destruct (Nat.eqb_spec j (length l)) as [->|NJ], (Nat.eqb_spec j' (length l)) as [->|NJ']; try congruence.
      * destruct (j' <? length l)%nat; [apply NEW|intros _ []].
      * destruct (j <? length l)%nat; [intros X Y; exact (NEW j y Y X)|intros []].
      * destruct (j <? length l)%nat; [|intros []]. destruct (j' <? length l)%nat; [apply H8, NE|intros _ []].
Qed.

Definition map_at (h : st) (a : Z) (m : option (list (mkey * A))) (D : Z -> Prop) : Prop :=
  match m with
  | None => rd_map (hp h a) = Some None
  | Some m => exists q, rd_map (hp h a) = Some (Some q) /\ map_rep h q m D
  end.
Lemma map_at_mono h a m D D' : map_at h a m D -> sub D D' -> map_at h a m D'.
Proof. destruct m as [m|]; [|trivial]. intros (q & H1 & H2) S. exists q. split; [exact H1|eapply map_mono; eassumption]. Qed.
Lemma map_sim (deck : bytes -> dres mkey) (own : Z -> Prop) a q v inp (new : bool) k : forall first b h m Dm D, own a ->
  rd_map (hp h a) = Some (if new then None else Some q) -> map_rep h q m Dm -> sub Dm D -> sub (seg v sz) D -> disj Dm (seg v sz) -> disj D own -> bounded h own D ->
  step h own D (m_map_loop deck MD sz a q v inp k first b h) (map_loop mkey_eqb deck d zero inp new k first b m) (fun h' m D' => map_at h' a m D').
Proof.
  induction k as [|k IH]; intros first b h m Dm D OA HA MR SD SV DV DJ BD.
  - cbn. apply step_ret. destruct new; [exact HA|]. exists q. split; [exact HA|]. eapply map_mono; [exact MR|]. eapply sub_trans; [exact SD|apply union_l].
  - cbn [m_map_loop map_loop]. set (h1 := fill v sz h). assert (W1 : writes_only (seg v sz) h h1) by apply fill_writes.
    assert (NA : ~ D a) by (intros X; exact (DJ a X OA)). assert (AB : a < nx h) by (apply BD; left; exact OA).
    assert (W1' : writes_only (union own D) h h1) by (eapply writes_sub; [exact W1|intros y _ Y; right; apply SV, Y]).
    assert (HA1 : rd_map (hp h1 a) = Some (if new then None else Some q)) by (rewrite (proj2 W1); [exact HA|exact AB|intros X; apply NA, SV, X]).
    assert (MR1 : map_rep h1 q m Dm) by (eapply map_frame; [exact MR|]; intros y Y; apply W1; [apply BD; right; apply SD, Y|intros X; exact (DV y Y X)]).
    set (sp := skip_spaces b). set (now := if new then None else Some m).
    assert (NOW : forall h' D', rd_map (hp h' a) = Some (if new then None else Some q) -> map_rep h' q m D' -> map_at h' a now D').
    { intros h' D' X Y. unfold now. destruct new; [exact X|]. exists q. auto. }
    destruct (match sp with c :: _ => c =? cRBRACE | [] => false end).
    { apply step_put; [|eapply writes_trans; [exact W1'|apply put_writes; left; left; exact OA]]. exists q. rewrite put_same. split; [reflexivity|].
      eapply map_mono; [|eapply sub_trans; [exact SD|apply union_l]]. eapply map_frame; [exact MR1|]. intros y Y. apply put_else. intros ->. apply NA, SD, Y. }
    destruct (obj_key deck first sp) as [[r e]|[b1 key]].
    { apply step_put; [|exact W1']. apply NOW; [exact HA1|]. eapply map_mono; [exact MR1|]. eapply sub_trans; [exact SD|apply union_l]. }
    assert (ZV : er h1 v zero emp) by (apply er_zero; intros x X; apply fill_zero, X).
    assert (BV : forall y, seg v sz y \/ emp y -> y < nx h1) by (intros y [Y|[]]; change (nx h1) with (nx h); apply BD; right; apply SV, Y).
    destruct (SIM v b1 h1 zero emp ZV (fun _ X _ => match X with end) BV) as (E1 & E2 & E3 & E4). set (X := MD v b1 h1) in *.
    assert (WX : writes_only (union own D) h (d_val X)).
    { eapply writes_trans; [exact W1'|]. eapply writes_sub; [exact E4|]. intros y _ [Y|[]]. left. right. apply SV, Y. }
    assert (HAX : rd_map (hp (d_val X) a) = Some (if new then None else Some q)).
    { rewrite (proj2 E4); [exact HA1|exact AB|]. intros [Y|[]]. apply NA, SV, Y. }
    assert (MRX : map_rep (d_val X) q m Dm).
    { eapply map_frame; [exact MR1|]. intros y Y. apply E4; [change (nx h1) with (nx h); apply BD; right; apply SD, Y|]. intros [Z0|[]]. exact (DV y Y Z0). }
    rewrite E2. destruct (d b1 zero) as [r [e|] y0] eqn:ED; cbn [d_err d_rest d_val] in *.
    { apply step_elem_err; [|exact WX]. apply NOW; [exact HAX|]. eapply map_mono; [exact MRX|]. eapply sub_trans; [exact SD|apply union_l]. }
    assert (BX : forall y, Dm y -> y < nx h) by (intros y Y; apply BD; right; apply SD, Y).
    assert (NN : nx h <= nx (d_val X)) by exact (proj1 E4).
    destruct (set_index_sim (d_val X) q m Dm key v y0 (union emp (fresh h1 (d_val X))) MRX E3) as (h2 & S2 & W2 & MR2).
    { intros y [[]|Y] Z0. specialize (BV y (or_introl Z0)). unfold fresh in Y. lia. }
    { intros y Y [[]|Z0]. specialize (BX y Y). unfold fresh in Z0. cbn [nx h1 fill] in Z0. change (nx h1) with (nx h) in Z0. lia. }
    { exact DV. }
    { intros y Y. specialize (BX y Y). lia. }
    { intros y [[]|Y]. unfold fresh in Y. lia. }
    { intros y Y. specialize (BV y (or_introl Y)). change (nx h1) with (nx h) in BV. lia. }
    rewrite S2. assert (W2' : writes_only (union own D) h h2).
    { eapply writes_trans; [exact WX|]. eapply writes_sub; [exact W2|]. intros y _ Y. left. right. apply SD, Y. }
    eapply step_bind; [intros h' m' D1 D2; apply map_at_mono|exact W2'|]. rewrite E1.
    eapply IH with (Dm := union (union Dm (union emp (fresh h1 (d_val X)))) (fresh (d_val X) h2)); [exact OA| |exact MR2| | | |apply after_disj; assumption|apply after_bounded; [exact BD|exact (proj1 W2')]].
    + rewrite (proj2 W2); [exact HAX|lia|]. intros Y. apply NA, SD, Y.
    + destruct W2 as [W2 _]. intros y [[Y|[[]|Y]]|Y]; [left; apply SD, Y|right|right]; unfold fresh in *; change (nx h1) with (nx h) in *; lia.
    + eapply sub_trans; [exact SV|apply union_l].
    + intros y [[Y|[[]|Y]]|Y] Z0; [exact (DV y Y Z0)| |]; specialize (BV y (or_introl Z0)); unfold fresh in Y; change (nx h1) with (nx h) in *; lia.
Qed.
Lemma map_all_sim (deck : bytes -> dres mkey) (own : Z -> Prop) a b m h D : own a -> map_at h a m D -> disj D own -> bounded h own D ->
  step h own D (m_map deck MD sz a b h) (decode_map mkey_eqb deck d zero b m) (fun h' m D' => map_at h' a m D').
Proof.
  intros OA R DJ BD. assert (SAME : map_at h a m (union D (fresh h h))) by (eapply map_at_mono; [exact R|apply union_l]).
  unfold m_map, decode_map. destruct (has_null_prefix b).
  { apply step_put; [cbn [map_at]; rewrite put_same; reflexivity|apply put_writes; left; exact OA]. }
  destruct (Nat.ltb (length b) 2); [apply step_in_err, SAME|]. destruct b as [|c b1]; [apply step_in_err, SAME|]. destruct (c =? cLBRACE); [|apply step_in_err, SAME].
  assert (NA : ~ D a) by (intros X; exact (DJ a X OA)). assert (AB : a < nx h) by (apply BD; left; exact OA).
  destruct (alloc sz h) as [v h1] eqn:AL.
  assert (PV : v = nx h) by (injection AL as <- _; reflexivity). assert (N1 : nx h1 = nx h + sz) by (injection AL as _ <-; reflexivity).
  assert (O1 : forall y, y < nx h -> hp h1 y = hp h y) by (intros y Y; pose proof (alloc_old sz h y Y) as Z0; rewrite AL in Z0; exact Z0). clear AL.
  destruct m as [m|].
  - destruct R as (q & HA & MR). rewrite HA. assert (W : writes_only (union own D) h h1) by (split; [lia|intros y Y _; apply O1, Y]).
    eapply step_bind; [intros h' m' D1 D2; apply map_at_mono|exact W|].
    eapply map_sim with (new := false) (Dm := D); [exact OA|rewrite O1; assumption| |apply union_l| | |apply after_disj; assumption|apply after_bounded; [exact BD|exact (proj1 W)]].
    + eapply map_frame; [exact MR|]. intros y Y. apply O1, BD. right. exact Y.
    + intros y Y. right. unfold fresh, seg in *. lia.
    + intros y Y Z0. assert (y < nx h) by (apply BD; right; exact Y). unfold seg in Z0. lia.
  - cbn in R. rewrite R. destruct (alloc 1 h1) as [q h2] eqn:AL.
    assert (PQ : q = nx h1) by (injection AL as <- _; reflexivity). assert (N2 : nx h2 = nx h1 + 1) by (injection AL as _ <-; reflexivity).
    assert (O2 : forall y, y < nx h1 -> hp h2 y = hp h1 y) by (intros y Y; pose proof (alloc_old 1 h1 y Y) as Z0; rewrite AL in Z0; exact Z0).
    assert (Z2 : hp h2 q = CZero) by (pose proof (alloc_zero 1 h1 q) as Z0; rewrite AL in Z0; apply Z0; cbn; unfold seg; lia). clear AL.
    assert (W : writes_only (union own D) h h2) by (split; [lia|intros y Y _; rewrite O2 by lia; apply O1, Y]).
    eapply step_bind; [intros h' m' D1 D2; apply map_at_mono|exact W|].
    eapply map_sim with (new := true) (Dm := eq q); [exact OA|rewrite O2, O1 by lia; assumption| | | | |apply after_disj; assumption|apply after_bounded; [exact BD|exact (proj1 W)]].
    + exists [], (fun _ => emp), (fun _ => emp). rewrite Z2. split; [reflexivity|]. split; [reflexivity|]. split; [reflexivity|].
      split; [intros i kx s ky x N; destruct i; discriminate|]. split; [intros i kx s N; destruct i; discriminate|]. split; [intros i x []|]. split; [intros i []|intros i j _ x []].
    + intros y <-. right. unfold fresh. lia.
    + intros y Y. right. unfold fresh, seg in *. lia.
    + intros y <- Z0. unfold seg in Z0. lia.
Qed.
End Loops.
