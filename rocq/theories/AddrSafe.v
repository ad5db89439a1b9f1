(** Decoding into memory whose variables refer to each other in any way keeps it
    as the types say, takes from the input what it reads, and ends. *)
From Verif Require Import Bytes AsciiModel Utf8Model ParseModel IntModel StringModel EncModel DecModel
  SpecJson SpecString SpecDec ParseFacts StringFacts DecFacts TypeModel SpecType NodeFacts TypeLoops TypeFacts TypeMain SpecFit TypeSound TypeSafe AddrModel SpecAddr AddrFacts AddrMain SpecVars VarsFacts.

(** Ends with an error the code has, or after reading something. *)
Definition fine {A} (b : bytes) (X : dres A) : Prop :=
  match d_err X with
  | None => wf (d_rest X) /\ (length (d_rest X) < length b)%nat
  | Some e => e <> EFuel /\ e <> EPanicked
  end.
Lemma in_err_fine {A} b (x : A) : wf b -> fine b (in_err b x) /\ d_val (in_err b x) = x.
Proof.
  intros W. destruct (in_err_wf b x W) as (r & e & E & NF). pose proof (in_err_safe (fun _ => True) (fun b x => in_err b x) b x x W eq_refl I) as [_ NP].
  rewrite E in *. cbn in *. split; [|reflexivity]. unfold fine. cbn. split; [exact NF|congruence].
Qed.
Lemma elem_err_fine {A} inp e b (x : A) : wf inp -> e <> EFuel /\ e <> EPanicked -> fine b (elem_err inp e x) /\ d_val (elem_err inp e x) = x.
Proof.
  intros W [N1 N2]. destruct (elem_err_nf inp e x W N1) as (r & e' & E & NF). destruct (elem_err_np inp e x W N2) as [_ NP].
  rewrite E in *. cbn in *. split; [|reflexivity]. unfold fine. cbn. split; [exact NF|congruence].
Qed.
Lemma null_fine {A} b (x : A) : wf b -> has_null_prefix b = true -> fine b (DR (skipn 4 b) None x).
Proof.
  intros W N. pose proof (null_takes (A:=A) False (fun _ _ => DR (skipn 4 b) None x) b x x W N eq_refl) as T. unfold takes in T. cbn in T. unfold fine. cbn. tauto.
Qed.
Lemma fine_weaken {A} b b' (X : dres A) : fine b X -> (length b <= length b')%nat -> fine b' X.
Proof. unfold fine. destruct (d_err X); [auto|]. intros [H1 H2] L. split; [exact H1|lia]. Qed.

Section Safe.
Context (V : tenv) (F : dflags) (L : layout) (LO : lay_ok V L) (ET : env_typed V) (EO : env_ok V).
Notation size := (l_size L).
Notation typed := (typed V L).
Notation cell_ok := (cell_ok V L).
Notation good := (good V L).
Notation within := (within V L).
Notation moves := (moves V L).
Notation m_dec := (m_dec V F L).

Definition ran (t : gty) (T : vars) (h : st) (b : bytes) (X : dres st) : Prop :=
  fine b X /\ exists T', moves t T h T' (d_val X).
Lemma ran_same t T h b X : good h T -> fine b X -> d_val X = h -> ran t T h b X.
Proof. intros G H E. split; [exact H|]. exists T. rewrite E. apply moves_refl, G. Qed.
Lemma ran_in_err t T h b : good h T -> wf b -> ran t T h b (in_err b h).
Proof. intros G W. destruct (in_err_fine b h W). apply ran_same; assumption. Qed.
Lemma ran_err t T h b r e h' T' : moves t T h T' h' -> e <> EFuel /\ e <> EPanicked -> ran t T h b (DR r (Some e) h').
Proof. intros M N. split; [exact N|eauto]. Qed.
Lemma ran_elem_err t T h b inp e h' T' : wf inp -> moves t T h T' h' -> e <> EFuel /\ e <> EPanicked -> ran t T h b (elem_err inp e h').
Proof. intros W M N. destruct (elem_err_fine inp e b h' W N) as [H E]. split; [exact H|]. rewrite E. eauto. Qed.
Lemma ran_after t T h T1 h1 b b1 X : moves t T h T1 h1 -> ran t T1 h1 b1 X -> (length b1 <= length b)%nat -> ran t T h b X.
Proof. intros M [H (T' & M')] L1. split; [eapply fine_weaken; eassumption|]. exists T'. eapply moves_trans; eassumption. Qed.
Lemma ran_weaken t e T h b X : (forall k, within e k -> within t k) -> ran e T h b X -> ran t T h b X.
Proof. intros S [H (T' & M)]. split; [exact H|]. exists T'. eapply moves_weaken; eassumption. Qed.
Lemma ran_ok {t T h b X} : ran t T h b X -> d_err X = None -> wf (d_rest X) /\ (length (d_rest X) < length b)%nat.
Proof. intros [H _] E. unfold fine in H. rewrite E in H. exact H. Qed.
Lemma ran_bad {t T h b X e} : ran t T h b X -> d_err X = Some e -> e <> EFuel /\ e <> EPanicked.
Proof. intros [H _] E. unfold fine in H. rewrite E in H. exact H. Qed.
Notation mg M := (mv_good _ _ _ _ _ _ _ M).
Notation mk M := (mv_keep _ _ _ _ _ _ _ M).

(** What a decoder of a type does with texts shorter than N. *)
Definition sdec (N : nat) (t : gty) (MD : Z -> bytes -> st -> dres st) : Prop :=
  forall a b h T, wf b -> (length b < N)%nat -> good h T -> typed T t a -> ran t T h b (MD a b h).

(** ** Leaves *)
Lemma leafy_one t : leafy t = true -> one t.
Proof. destruct t; try discriminate; intros; exact I. Qed.
Lemma leaf_ran t a b h T : leafy t = true -> wf b -> good h T -> typed T t a -> ran t T h b (m_leaf V F t a b h).
Proof.
  intros LF W G TA. pose proof (typed_one V L T t a (leafy_one t LF) TA) as TK. destruct (proj1 G _ _ TK) as [_ OK].
  assert (OK' : exists m, rd_leaf V t (hp h a) = Some m /\ fits V t m) by (destruct t; try discriminate LF; exact OK).
  destruct OK' as (m & RD & FM). unfold m_leaf. rewrite RD.
  assert (FU : dec_ty V F 0 t b m = dec_ty V F (S (length b)) t b m) by (rewrite !dec_ty_eq; destruct t; try discriminate LF; reflexivity). rewrite FU.
  destruct (dec_ty_safe V F EO ET (S (length b)) t b m W ltac:(lia) FM) as [FZ NP].
  pose proof (dec_ty_takes V F EO (S (length b)) t b m W ltac:(lia)) as TK2. unfold takes in TK2. split.
  - unfold fine. cbn [d_map d_err d_rest]. destruct (d_err (dec_ty V F (S (length b)) t b m)); [split; [exact TK2|congruence]|tauto].
  - exists T. cbn [d_map d_val]. eapply moves_put; [exact G|exact TK|apply within_self, leafy_one, LF|].
    destruct t; try discriminate LF; (eexists; split; [reflexivity|exact FZ]).
Qed.

(** ** Arrays *)
Section Arrays.
Context (e : gty) (MD : Z -> bytes -> st -> dres st) (N : nat) (HD : sdec N e MD).
Lemma skip_fine k b : wf b -> snd (array_skip k b) <> Some EPanicked.
Proof.
  revert b. induction k as [|k IH]; intros b W; [discriminate|]. cbn [array_skip]. destruct (skip_read b W) as (w & Ww & Eb & Ws & Ls).
  destruct (skip_spaces b) as [|c b1]; [discriminate|]. destruct (c =? 93); [discriminate|].
  assert (W2 : wf (if c =? 44 then skip_spaces b1 else c :: b1)) by (destruct (c =? 44); [apply wf_skip_spaces; apply wf_cons in Ws; tauto|exact Ws]).
  pose proof (parse_takes _ W2) as PT. cbv zeta. destruct (parseValue (if c =? 44 then skip_spaces b1 else c :: b1)); [apply IH; tauto|]. subst e0. discriminate.
Qed.
Lemma m_arr_ran a k : forall i b h T, wf b -> (length b < N)%nat -> good h T ->
  (forall j, (i <= j < i + k)%nat -> typed T e (a + Z.of_nat j * size e)) -> ran e T h b (m_arr MD (size e) a k i b h).
Proof.
  induction k as [|k IH]; intros i b h T W LN G TE; cbn [m_arr].
  - pose proof (array_skip_nf (S (length b)) b W ltac:(lia)) as H. pose proof (skip_fine (S (length b)) b W) as NP.
    destruct (array_skip (S (length b)) b) as [r [x|]]; (apply ran_same; [exact G| |reflexivity]); unfold fine; cbn in *; [split; [exact H|congruence]|exact H].
  - cbv zeta. destruct (skip_read b W) as (w & Ww & Eb & Ws & Ls). set (sb := skip_spaces b) in *.
    assert (EL : forall b2, wf b2 -> (length b2 <= length b)%nat ->
      ran e T h b (let y := MD (a + Z.of_nat i * size e) b2 h in match d_err y with None => m_arr MD (size e) a k (S i) (d_rest y) (d_val y) | Some _ => y end)).
    { intros b2 W2 L2. pose proof (HD (a + Z.of_nat i * size e) b2 h T W2 ltac:(lia) G (TE i ltac:(lia))) as R. cbv zeta.
      set (y := MD (a + Z.of_nat i * size e) b2 h) in *. destruct (d_err y) eqn:EY.
      - destruct R as [R1 R2]. split; [eapply fine_weaken; eassumption|exact R2].
      - destruct (ran_ok R EY) as [Wr Lr]. destruct R as [_ (T1 & M)]. eapply ran_after; [exact M|apply IH; [exact Wr|lia|apply (mg M)|]|lia].
        intros j J. eapply typed_after; [exact M|]. apply TE. lia. }
    destruct (Nat.eqb i 0); [exact (EL sb Ws Ls)|]. destruct sb as [|c b1]; [apply (ran_err e T h b _ _ h T); [apply moves_refl, G|split; discriminate]|].
    apply wf_cons in Ws as [_ Ws]. cbn [length] in Ls. destruct (c =? 44).
    + destruct (skip_read b1 Ws) as (w2 & _ & _ & Ws1 & Ls1). apply (EL (skip_spaces b1) Ws1). lia.
    + destruct (c =? 93); [apply ran_same; [exact G|split; [exact Ws|cbn; lia]|reflexivity]|]. apply (ran_err e T h b _ _ h T); [apply moves_refl, G|split; discriminate].
Qed.
Lemma m_array_ran n a b h T : wf b -> (length b < N)%nat -> good h T -> typed T (YArray n e) a -> ran (YArray n e) T h b (m_array MD (size e) n a b h).
Proof.
  intros W LN G TA. unfold m_array. destruct (has_null_prefix b) eqn:NN; [apply ran_same; [exact G|apply null_fine; assumption|reflexivity]|].
  destruct (Nat.ltb (length b) 2); [apply ran_in_err; assumption|]. destruct b as [|c b1]; [apply ran_in_err; assumption|].
  destruct (c =? cLBRACK); [|apply ran_in_err; assumption]. apply wf_cons in W as [_ W]. cbn [length] in LN.
  assert (R := m_arr_ran a n 0 b1 h T W ltac:(lia) G ltac:(intros j J; apply (typed_elem V L LO T n e a j TA); lia)).
  destruct n as [|n]; [|eapply (ran_weaken _ e); [intros k; apply within_elem; lia|]; eapply ran_after; [apply moves_refl, G|exact R|cbn; lia]].
  cbn [m_arr] in *. destruct (array_skip (S (length b1)) b1) as [r x]. destruct R as [R _]. apply ran_same; [exact G|eapply fine_weaken; [exact R|cbn; lia]|reflexivity].
Qed.
End Arrays.

(** ** Slices *)
Section Slices.
Context (s e : gty) (SE : slice_elem s = Some e) (NR : ~ within e (KVar s)) (MD : Z -> bytes -> st -> dres st) (N : nat) (HD : sdec N e MD).
Lemma slice_cell T c : cell_ok T c (KVar s) <-> exists d len cap, rd_slice c = Some (d, len, cap) /\ (len <= cap)%nat /\
  match d with Some p => typed T (YArray cap e) p | None => cap = O end.
Proof.
  clear NR. destruct s; try discriminate SE; cbn [SpecVars.cell_ok]; (split; [intros (e' & d & len & cap & E & H); rewrite SE in E; injection E as <-; eauto|intros (d & len & cap & H); exists e; eauto]).
Qed.
Lemma slice_one : one s. Proof. clear NR. destruct s; try discriminate SE; exact I. Qed.
Lemma header_put T h a d len cap : good h T -> T a (KVar s) -> (len <= cap)%nat -> match d with Some p => typed T (YArray cap e) p | None => cap = O end ->
  moves s T h T (put_cell a (CSlice d len cap) h).
Proof. intros G TA LE H. eapply moves_put; [exact G|exact TA|apply within_self, slice_one|]. apply slice_cell. exists d, len, cap. auto. Qed.
Lemma extend_moves T h d len cap n : good h T -> (len <= cap)%nat -> match d with Some p => typed T (YArray cap e) p | None => cap = O end ->
  exists T1, moves s T h T1 (snd (extend (size e) d len n h)) /\ typed T1 (YArray n e) (fst (extend (size e) d len n h)).
Proof.
  intros G LE H. assert (SZ : Z.of_nat n * size e = size (YArray n e)) by (rewrite (lo_array V L LO); reflexivity).
  destruct (moves_new V L LO ET s (YArray n e) T h _ G SZ) as [M TN]. set (T1 := tplus T _) in *. exists T1.
  unfold extend. assert (AL : alloc (Z.of_nat n * size e) h = (nx h, snd (alloc (Z.of_nat n * size e) h))) by reflexivity. rewrite AL. cbn [fst snd]. split; [|exact TN].
  destruct d as [p|]; [|exact M]. eapply moves_trans; [exact M|].
  set (m := Nat.min n len) in *. apply (moves_weaken V L s (YArray m e)); [intros k W; eapply within_slice; [exact SE|eapply within_of_array, W]|].
  apply (moves_copy V L ET T1 _ (YArray m e)); [apply (mg M)| | |rewrite (lo_array V L LO); reflexivity].
  - eapply typed_prefix; [exact LO|eapply typed_after; [exact M|exact H]|lia].
  - eapply typed_prefix; [exact LO|exact TN|lia].
Qed.
Lemma m_slice_loop_ran a inp k : wf inp -> forall b h T, wf b -> (length b < k)%nat -> (length b < N)%nat -> good h T -> T a (KVar s) ->
  ran s T h b (m_slice_loop MD (size e) a inp k b h).
Proof.
  intros WI. induction k as [|k IH]; intros b h T W LK LN G TA; [lia|]. cbn [m_slice_loop].
  destruct (proj1 (slice_cell T _) (proj2 (proj1 G _ _ TA))) as (d & len & cap & RD & LE & TD). rewrite RD. cbv zeta.
  destruct (skip_read b W) as (w & Ww & Eb & Ws & Ls). set (sb := skip_spaces b) in *.
  destruct (match sb with c :: _ => c =? cRBRACK | [] => false end) eqn:CB.
  { destruct sb as [|c t]; [discriminate|]. apply wf_cons in Ws as [_ Ws]. cbn [length] in Ls. cbn [tl]. split; [split; [exact Ws|cbn; lia]|]. exists T. cbn [d_val].
    destruct d as [p|]; [apply moves_refl, G|]. apply header_put; [exact G|exact TA|exact LE|]. rewrite TD. apply typed_none, LO. }
  set (grown := if Nat.eqb len cap then _ else h).
  assert (GR : exists T1 p cap1, moves s T h T1 grown /\ rd_slice (hp grown a) = Some (Some p, len, cap1) /\ (len < cap1)%nat /\ typed T1 (YArray cap1 e) p).
  { unfold grown. destruct (Nat.eqb_spec len cap) as [EC|NC].
    - set (n := match cap with O => 10%nat | _ => (cap * 2)%nat end). assert (LT : (len < n)%nat) by (unfold n; destruct cap; lia).
      destruct (extend_moves T h d len cap n G LE TD) as (T1 & M & TN). destruct (extend (size e) d len n h) as [p h1]. cbn [fst snd] in *.
      exists T1, p, n. split; [|split; [rewrite put_same; reflexivity|auto]]. eapply moves_trans; [exact M|]. apply header_put; [apply (mg M)|apply (mk M), TA|lia|exact TN].
    - destruct d as [p|]; [|lia]. exists T, p, cap. split; [apply moves_refl, G|]. split; [exact RD|]. split; [lia|exact TD]. }
  destruct GR as (T1 & p & cap1 & M1 & RD1 & LT & TP).
  assert (EL : forall b2, wf b2 -> (length b2 <= length b)%nat ->
    ran s T h b (match rd_slice (hp grown a) with
      | Some (Some p, _, _) =>
          let x := MD (p + Z.of_nat len * size e) b2 grown in
          match d_err x with
          | None => match rd_slice (hp (d_val x) a) with
                    | Some (data', len', cap') => m_slice_loop MD (size e) a inp k (d_rest x) (put_cell a (CSlice data' (S len') cap') (d_val x))
                    | None => oops b2 h
                    end
          | Some e => elem_err inp e (d_val x)
          end
      | _ => oops b2 h
      end)).
  { intros b2 W2 L2. rewrite RD1. cbv zeta.
    pose proof (HD (p + Z.of_nat len * size e) b2 grown T1 W2 ltac:(lia) (mg M1) (typed_elem V L LO T1 cap1 e p len TP LT)) as R.
    set (x := MD (p + Z.of_nat len * size e) b2 grown) in *. destruct (d_err x) as [er|] eqn:EX.
    - pose proof (ran_bad R EX) as NE. destruct R as [_ (T2 & M2)]. apply (moves_weaken V L s e) in M2; [|intros kk; apply within_slice, SE].
      eapply ran_elem_err; [exact WI|eapply moves_trans; [exact M1|exact M2]|exact NE].
    - destruct (ran_ok R EX) as [Wr Lr]. destruct R as [_ (T2 & M2)].
      assert (A1 : a < nx grown) by apply (proj1 (mg M1) _ _ (mk M1 _ _ TA)).
      rewrite (mv_frame _ _ _ _ _ _ _ M2 a A1), RD1 by (intros kk K; rewrite (proj2 (mg M1) _ _ _ K (mk M1 _ _ TA)); exact NR).
      assert (M3 : moves s T h T2 (d_val x)) by (eapply moves_trans; [exact M1|]; eapply moves_weaken; [|exact M2]; intros kk; apply within_slice, SE).
      assert (M4 : moves s T2 (d_val x) T2 (put_cell a (CSlice (Some p) (S len) cap1) (d_val x))) by (apply header_put; [apply (mg M2)|apply (mk M3), TA|lia|eapply typed_after; [exact M2|exact TP]]).
      eapply ran_after; [eapply moves_trans; [exact M3|exact M4]|apply IH; [exact Wr|lia|lia|apply (mg M4)|apply (mk M3), TA]|lia]. }
  destruct (Nat.eqb len 0); [exact (EL sb Ws Ls)|]. destruct sb as [|c b1]; [eapply ran_err; [apply moves_refl, G|split; discriminate]|].
  destruct (c =? cCOMMA); [|eapply ran_err; [apply moves_refl, G|split; discriminate]].
  apply wf_cons in Ws as [_ Ws]. cbn [length] in Ls. destruct (skip_read b1 Ws) as (w2 & _ & _ & Ws1 & Ls1). apply (EL (skip_spaces b1) Ws1). lia.
Qed.
Lemma m_slice_ran a b h T : wf b -> (length b < N)%nat -> good h T -> T a (KVar s) -> ran s T h b (m_slice MD (size e) a b h).
Proof.
  intros W LN G TA. unfold m_slice. destruct (has_null_prefix b) eqn:NN.
  { split; [apply null_fine; assumption|]. exists T. apply header_put; auto. }
  destruct (Nat.ltb (length b) 2); [apply ran_in_err; assumption|]. destruct b as [|c b1]; [apply ran_in_err; assumption|].
  destruct (c =? cLBRACK); [|apply ran_in_err; assumption].
  destruct (proj1 (slice_cell T _) (proj2 (proj1 G _ _ TA))) as (d & len & cap & RD & LE & TD). rewrite RD.
  assert (M : moves s T h T (put_cell a (CSlice d 0 cap) h)) by (apply header_put; [exact G|exact TA|lia|exact TD]).
  assert (W1 := W). apply wf_cons in W1 as [_ W1]. cbn [length] in LN.
  eapply ran_after; [exact M|apply m_slice_loop_ran; [exact W|exact W1|cbn; lia|lia|apply (mg M)|exact TA]|cbn; lia].
Qed.
End Slices.

(** ** Bytes *)
Notation byte := (YInt TUint8).
Lemma put_bytes_moves T l : forall p h, Forall u8 l -> good h T -> (forall i, (i < length l)%nat -> T (p + Z.of_nat i * size byte) (KVar byte)) ->
  moves YBytes T h T (put_bytes p (size byte) l h).
Proof.
  induction l as [|c l IH]; intros p h U G TP; cbn [put_bytes]; [apply moves_refl, G|]. inversion U as [|? ? U1 U2]; subst.
  assert (M : moves YBytes T h T (put_cell p (CLeaf (MInt c)) h)).
  { apply (moves_put V L YBytes T h p (KVar byte)); [exact G| | |].
    - specialize (TP O ltac:(cbn; lia)). replace (p + Z.of_nat 0 * size byte) with p in TP by lia. exact TP.
    - eapply within_slice; [reflexivity|apply within_self; exact I].
    - exists (MInt c). split; [reflexivity|]. constructor. exact U1. }
  eapply moves_trans; [exact M|]. apply IH; [exact U2|apply (mg M)|]. intros i IL. specialize (TP (S i) ltac:(cbn; lia)). replace (p + size byte + Z.of_nat i * size byte) with (p + Z.of_nat (S i) * size byte) by lia. exact TP.
Qed.
Lemma byte_flat : ~ within byte (KVar YBytes).
Proof.
  assert (G : forall t k, within t k -> t = byte -> k = KVar byte \/ k = KPad).
  { intros t k W. induction W as [t a x u C|t e k W1 IH1 W2 _|t s e k W1 IH1 E W2 _|t m kq e W1 IH1 E|t m kq e k W1 IH1 E W2 _|t]; intros ->.
    - inversion C; subst. auto.
    - destruct (IH1 eq_refl); discriminate.
    - destruct (IH1 eq_refl) as [[= ->]|]; discriminate.
    - destruct (IH1 eq_refl) as [[= ->]|]; discriminate.
    - destruct (IH1 eq_refl) as [[= ->]|]; discriminate.
    - auto. }
  intros W. destruct (G _ _ W eq_refl); discriminate.
Qed.
Lemma byte_sdec N : sdec N byte (m_leaf V F byte).
Proof. intros a b h T W _ G TA. apply leaf_ran; auto. Qed.
Lemma m_bytes_ran a b h T : wf b -> good h T -> T a (KVar YBytes) -> ran YBytes T h b (m_bytes V (m_leaf V F byte) (size byte) a b h).
Proof.
  intros W G TA. unfold m_bytes. destruct (has_null_prefix b) eqn:NN.
  { split; [apply null_fine; assumption|]. exists T. apply (header_put YBytes byte eq_refl); [exact G|exact TA|lia|reflexivity]. }
  destruct (Nat.ltb (length b) 2); [apply ran_in_err; assumption|]. destruct b as [|c b1]; [apply ran_in_err; assumption|].
  destruct (negb (c =? cQUOTE)).
  - destruct (c =? cLBRACK); [|apply ran_in_err; assumption]. apply (m_slice_ran YBytes byte eq_refl byte_flat _ (S (length (c :: b1))) (byte_sdec _)); auto.
  - set (b := c :: b1) in *. destruct (unquote_cases b W) as [(lit & r & i & SL & Eb & Q)|(r & Q)]; rewrite Q; [|apply ran_in_err; assumption].
    destruct (v_b64 V (str_text lit)) as [x|] eqn:BX; [|eapply ran_err; [apply moves_refl, G|split; discriminate]].
    assert (SZ : Z.of_nat (length x) * size byte = size (YArray (length x) byte)) by (rewrite (lo_array V L LO); reflexivity).
    destruct (moves_new V L LO ET YBytes (YArray (length x) byte) T h _ G SZ) as [M TN]. set (T1 := tplus T _) in *.
    assert (AL : alloc (Z.of_nat (length x) * size byte) h = (nx h, snd (alloc (Z.of_nat (length x) * size byte) h))) by reflexivity. rewrite AL.
    set (h1 := snd (alloc _ h)) in *. split.
    + pose proof (value_takes False (fun _ _ => DR r None tt) b tt lit (JStr lit) r tt W Eb (V_str lit SL) eq_refl) as TK. unfold takes in TK. cbn in TK. unfold fine. cbn [d_err d_rest]. tauto.
    + exists T1. cbn [d_val]. assert (M2 : moves YBytes T1 h1 T1 (put_bytes (nx h) (size byte) x h1)).
      { apply put_bytes_moves; [apply (et_b64 V ET _ _ BX)|apply (mg M)|]. intros j J. apply (typed_one V L); [exact I|]. eapply typed_elem; eassumption. }
      eapply moves_trans; [exact M|]. eapply moves_trans; [exact M2|]. apply (header_put YBytes byte eq_refl); [apply (mg M2)|apply (mk M), TA|lia|exact TN].
Qed.

(** ** Maps *)
Section Maps.
Context (m : gty) (kk : kty) (e : gty) (ME : map_elem m = Some (kk, e)) (deck : bytes -> dres mkey) (MD : Z -> bytes -> st -> dres st) (N : nat) (HD : sdec N e MD).
Context (HK : key_takes deck) (HKP : forall b, wf b -> has_null_prefix b = false -> key_fits kk (d_val (deck b)) /\ d_err (deck b) <> Some EPanicked).
Lemma map_cell T c : cell_ok T c (KVar m) <-> exists q, rd_map c = Some q /\ forall p, q = Some p -> T p (KMap kk e).
Proof.
  destruct m; try discriminate ME; cbn [SpecVars.cell_ok]; (split; [intros (k' & e' & q & E & H); rewrite ME in E; injection E as <- <-; eauto|intros (q & H); exists kk, e; eauto]).
Qed.
Lemma map_one : one m. Proof. destruct m; try discriminate ME; exact I. Qed.
Lemma m_map_loop_ran a q v inp k : wf inp -> forall first b h T, wf b -> (length b < k)%nat -> (length b < N)%nat -> good h T -> T a (KVar m) -> T q (KMap kk e) -> typed T e v ->
  ran m T h b (m_map_loop deck MD (size e) a q v inp k first b h).
Proof.
  intros WI. induction k as [|k IH]; intros first b h T W LK LN G TA TQ TV; [lia|]. cbn [m_map_loop]. cbv zeta.
  destruct (skip_read b W) as (w & Ww & Eb & Ws & Ls). set (sb := skip_spaces b) in *.
  assert (WE : forall k', within e k' -> within m k') by (intros k'; apply within_val with (kk := kk), ME).
  assert (M1 : moves m T h T (fill v (size e) h)) by (eapply moves_weaken; [exact WE|apply moves_fill; assumption]). set (h1 := fill v (size e) h) in *.
  destruct (match sb with c :: _ => c =? cRBRACE | [] => false end) eqn:CB.
  { destruct sb as [|c t]; [discriminate|]. apply wf_cons in Ws as [_ Ws]. cbn [length] in Ls. cbn [tl]. split; [split; [exact Ws|cbn; lia]|]. exists T. cbn [d_val].
    eapply moves_trans; [exact M1|]. eapply moves_put; [apply (mg M1)|exact TA|apply within_self, map_one|]. apply map_cell. eexists. split; [reflexivity|]. intros p [= <-]. exact TQ. }
  pose proof (obj_key_read deck first sb HK Ws) as OK. pose proof (obj_key_np (key_fits kk) deck first sb HKP Ws) as OQ.
  destruct (obj_key deck first sb) as [[r er]|[b2 key]]; [eapply ran_err; [exact M1|split; assumption]|].
  destruct OK as (W2 & L2 & _). pose proof (HD v b2 h1 T W2 ltac:(lia) (mg M1) TV) as R. set (x := MD v b2 h1) in *. destruct (d_err x) as [er|] eqn:EX.
  - pose proof (ran_bad R EX) as NE. destruct R as [_ (T2 & M2)]. apply (moves_weaken V L m e _ _ _ _ WE) in M2. eapply ran_elem_err; [exact WI|eapply moves_trans; [exact M1|exact M2]|exact NE].
  - destruct (ran_ok R EX) as [Wr Lr]. destruct R as [_ (T2 & M2)]. apply (moves_weaken V L m e _ _ _ _ WE) in M2.
    destruct (set_index_moves V L LO ET m kk e T2 (d_val x) q key v (size e) (mg M2) (mk M2 _ _ TQ) OQ (typed_after V L _ _ _ _ _ _ _ M2 TV) (within_map V L m kk e ME) WE eq_refl) as (h3 & T3 & SI & M3).
    rewrite SI. assert (M : moves m T h T3 h3) by (eapply moves_trans; [exact M1|]; eapply moves_trans; eassumption).
    eapply ran_after; [exact M|apply IH; [exact Wr|lia|lia|apply (mg M3)|apply (mk M), TA|apply (mk M), TQ|eapply typed_after; [exact M|exact TV]]|lia].
Qed.
Lemma m_map_ran a b h T : wf b -> (length b < N)%nat -> good h T -> T a (KVar m) -> ran m T h b (m_map deck MD (size e) a b h).
Proof.
  intros W LN G TA. unfold m_map. destruct (has_null_prefix b) eqn:NN.
  { split; [apply null_fine; assumption|]. exists T. eapply moves_put; [exact G|exact TA|apply within_self, map_one|]. apply map_cell. eexists. split; [reflexivity|discriminate]. }
  destruct (Nat.ltb (length b) 2); [apply ran_in_err; assumption|]. destruct b as [|c b1]; [apply ran_in_err; assumption|].
  destruct (c =? cLBRACE); [|apply ran_in_err; assumption].
  destruct (proj1 (map_cell T _) (proj2 (proj1 G _ _ TA))) as (q0 & RD & TQ). rewrite RD.
  destruct (moves_new V L LO ET m e T h (size e) G eq_refl) as [M TV]. set (T1 := tplus T _) in *.
  assert (AL : alloc (size e) h = (nx h, snd (alloc (size e) h))) by reflexivity. rewrite AL. set (h1 := snd (alloc (size e) h)) in *.
  assert (W1 := W). apply wf_cons in W1 as [_ W1]. cbn [length] in LN. destruct q0 as [q|].
  - eapply ran_after; [exact M|apply m_map_loop_ran; [exact W|exact W1|cbn; lia|lia|apply (mg M)|apply (mk M), TA|apply (mk M), TQ, eq_refl|exact TV]|cbn; lia].
  - pose proof (moves_new_map V L m kk e T1 h1 (mg M)) as M2. set (T2 := tplus T1 _) in *.
    assert (AL2 : alloc 1 h1 = (nx h1, snd (alloc 1 h1))) by reflexivity. rewrite AL2. set (h2 := snd (alloc 1 h1)) in *.
    eapply ran_after; [eapply moves_trans; [exact M|exact M2]|apply m_map_loop_ran; [exact W|exact W1|cbn; lia|lia|apply (mg M2)|apply (mk M2), (mk M), TA|right; auto|eapply typed_after; [exact M2|exact TV]]|cbn; lia].
Qed.
End Maps.

(** ** Pointers *)
Lemma ptr_ran n e a b h T : wf b -> (forall a h T, good h T -> typed T e a -> ran e T h b (m_dec n e a b h)) -> good h T -> typed T (YPtr e) a ->
  ran (YPtr e) T h b (m_dec n (YPtr e) a b h).
Proof.
  intros W H G TA. rewrite m_dec_eq. pose proof (typed_one V L T (YPtr e) a I TA) as TK. destruct (proj1 G _ _ TK) as [_ (p & RD & TP)]. rewrite RD.
  assert (IN : forall v, p = Some v -> ran (YPtr e) T h b (m_dec n e v b h)) by (intros v E; eapply ran_weaken; [intros k; apply within_ptr|]; apply H; auto).
  assert (NIL : has_null_prefix b = true -> ran (YPtr e) T h b (DR (skipn 4 b) None (put_cell a (CPtr None) h))).
  { intros NN. split; [apply null_fine; assumption|]. exists T. eapply moves_put; [exact G|exact TK|apply within_self; exact I|]. exists None. split; [reflexivity|discriminate]. }
  destruct (has_null_prefix b) eqn:NN; [destruct p as [v|]; [destruct e|]; auto|].
  destruct p as [v|]; [apply IN, eq_refl|].
  destruct (moves_new V L LO ET (YPtr e) e T h (size e) G eq_refl) as [M TV]. set (T1 := tplus T _) in *.
  assert (AL : alloc (size e) h = (nx h, snd (alloc (size e) h))) by reflexivity. rewrite AL. set (h1 := snd (alloc (size e) h)) in *.
  assert (M2 : moves (YPtr e) T1 h1 T1 (put_cell a (CPtr (Some (nx h))) h1)).
  { eapply moves_put; [apply (mg M)|apply (mk M), TK|apply within_self; exact I|]. eexists. split; [reflexivity|]. intros v [= <-]. exact TV. }
  eapply ran_after; [eapply moves_trans; [exact M|exact M2]| |reflexivity]. eapply ran_weaken; [intros k; apply within_ptr|]. apply H; [apply (mg M2)|exact TV].
Qed.

(** ** Structs *)
Lemma path_ran t p u : leads V t p u -> forall i dec, t = YStruct i -> forall b a h T,
  (forall a h T, good h T -> typed T u a -> ran u T h b (dec a b h)) -> good h T -> typed T t a ->
  let '(o, d) := m_field V L p i dec in ran t T h b (d (a + o) b h).
Proof.
  intros LD. induction LD as [t|i k w p t E LD IH|i k j un p t E LD IH]; intros i0 dec ET0 b a h T HD G TA.
  - cbn [m_field]. rewrite Z.add_0_r. apply HD; assumption.
  - injection ET0 as <-. cbn [m_field]. rewrite E. pose proof (typed_field V L LO T i a k w TA E) as TW.
    assert (WI : forall kk, within w kk -> within (YStruct i) kk) by (intros kk; eapply within_field, E).
    assert (CW : p = [] \/ exists j, w = YStruct j) by (inversion LD; subst; eauto).
    destruct CW as [-> |(j & ->)].
    + inversion LD; subst. cbn [m_field]. rewrite Z.add_0_r. eapply ran_weaken; [exact WI|]. apply HD; assumption.
    + specialize (IH j dec eq_refl b (a + l_off L i k) h T HD G TW). destruct (m_field V L p j dec) as [o d]. rewrite Z.add_assoc. eapply ran_weaken; [exact WI|exact IH].
  - injection ET0 as <-. cbn [m_field]. pose proof (typed_field V L LO T i a k _ TA E) as TW. pose proof (typed_one V L T (YPtr (YStruct j)) _ I TW) as TK.
    assert (WI : forall kk, within (YPtr (YStruct j)) kk -> within (YStruct i) kk) by (intros kk; eapply within_field, E).
    assert (WJ : forall kk, within (YStruct j) kk -> within (YStruct i) kk) by (intros kk W; apply WI, within_ptr, W).
    specialize (fun a h T => IH j dec eq_refl b a h T HD). destruct (m_field V L p j dec) as [o d]. unfold m_emb.
    destruct (proj1 G _ _ TK) as [_ (q & RD & TP)]. rewrite RD. destruct q as [v|].
    + eapply ran_weaken; [exact WJ|]. apply IH; [exact G|apply TP, eq_refl].
    + destruct un; [eapply ran_err; [apply moves_refl, G|split; discriminate]|].
      destruct (moves_new V L LO ET (YStruct i) (YStruct j) T h (size (YStruct j)) G eq_refl) as [M TV]. set (T1 := tplus T _) in *.
      assert (AL : alloc (size (YStruct j)) h = (nx h, snd (alloc (size (YStruct j)) h))) by reflexivity. rewrite AL. set (h1 := snd (alloc (size (YStruct j)) h)) in *.
      assert (M2 : moves (YStruct i) T1 h1 T1 (put_cell (a + l_off L i k) (CPtr (Some (nx h))) h1)).
      { eapply moves_put; [apply (mg M)|apply (mk M), TK|apply WI, within_self; exact I|]. eexists. split; [reflexivity|]. intros v [= <-]. exact TV. }
      eapply ran_after; [eapply moves_trans; [exact M|exact M2]| |reflexivity]. eapply ran_weaken; [exact WJ|]. apply IH; [apply (mg M2)|exact TV].
Qed.
Section Structs.
Context (t : gty) (a : Z) (look : bytes -> option (bytes -> st -> dres st)) (dis : bool) (N : nat).
Context (HD : forall k D b h T, look k = Some D -> wf b -> (length b < N)%nat -> good h T -> typed T t a -> ran t T h b (D b h)).
Lemma struct_loop_ran inp k : wf inp -> forall first b h T, wf b -> (length b < k)%nat -> (length b < N)%nat -> good h T -> typed T t a ->
  ran t T h b (struct_loop look dis inp k first b h).
Proof.
  intros WI. induction k as [|k IH]; intros first b h T W LK LN G TA; [lia|]. cbn [struct_loop]. cbv zeta.
  destruct (skip_read b W) as (w & Ww & Eb & Ws & Ls). set (sb := skip_spaces b) in *.
  destruct (match sb with c :: _ => c =? 125 | [] => false end) eqn:CB.
  { destruct sb as [|c s]; [discriminate|]. apply wf_cons in Ws as [_ Ws]. cbn [length] in Ls. cbn [tl]. apply ran_same; [exact G|split; [exact Ws|cbn; lia]|reflexivity]. }
  change (fun b0 : bytes => match parse_string_unquote b0 [] with QOk s q1 _ => DR q1 None s | QErr q2 e => DR q2 (Some e) [] | QPanic => DR b0 (Some EPanicked) [] | QFuel => DR b0 (Some EFuel) [] end) with deck_name.
  pose proof (obj_key_read deck_name first sb deck_name_takes Ws) as OK.
  assert (HKQ : forall b, wf b -> has_null_prefix b = false -> True /\ d_err (deck_name b) <> Some EPanicked).
  { intros b0 W0 _. split; [exact I|]. unfold deck_name. destruct (unquote_cases b0 W0) as [(lit & r & i & SL & E & U)|(r & U)]; rewrite U; discriminate. }
  pose proof (obj_key_np (fun _ => True) deck_name first sb HKQ Ws) as OQ.
  destruct (obj_key deck_name first sb) as [[r e]|[b2 key]]; [eapply ran_err; [apply moves_refl, G|split; assumption]|].
  destruct OK as (W2 & L2 & _). destruct (look key) as [D|] eqn:LK2.
  - pose proof (HD key D b2 h T LK2 W2 ltac:(lia) G TA) as R. set (x := D b2 h) in *. destruct (d_err x) as [er|] eqn:EX.
    + pose proof (ran_bad R EX) as NE. destruct R as [_ (T2 & M2)]. eapply ran_elem_err; [exact WI|exact M2|exact NE].
    + destruct (ran_ok R EX) as [Wr Lr]. destruct R as [_ (T2 & M2)]. eapply ran_after; [exact M2|apply IH; [exact Wr|lia|lia|apply (mg M2)|eapply typed_after; [exact M2|exact TA]]|lia].
  - destruct dis; [eapply ran_err; [apply moves_refl, G|split; discriminate]|]. pose proof (parse_takes b2 W2) as PT.
    destruct (parseValue b2) as [v r|r e]; [|subst e; eapply ran_err; [apply moves_refl, G|split; discriminate]].
    destruct PT as (Wv & Wr & Lr & _). eapply ran_after; [apply moves_refl, G|apply IH; [exact Wr|lia|lia|exact G|exact TA]|lia].
Qed.
Lemma decode_struct_ran b h T : wf b -> (length b <= N)%nat -> good h T -> typed T t a -> ran t T h b (decode_struct look dis b h).
Proof.
  intros W LN G TA. unfold decode_struct. destruct (has_null_prefix b) eqn:NN; [apply ran_same; [exact G|apply null_fine; assumption|reflexivity]|].
  destruct (Nat.ltb (length b) 2); [apply ran_in_err; assumption|]. destruct b as [|c b1]; [apply ran_in_err; assumption|].
  destruct (c =? 123); [|apply ran_in_err; assumption]. assert (W1 := W). apply wf_cons in W1 as [_ W1]. cbn [length] in LN.
  eapply ran_after; [apply moves_refl, G|apply struct_loop_ran; [exact W|exact W1|cbn; lia|lia|exact G|exact TA]|cbn; lia].
Qed.
End Structs.

(** ** Quoted fields *)
Lemma quotable_ran n t : quotable t -> forall a b h T, wf b -> good h T -> typed T t a -> ran t T h b (m_dec n t a b h).
Proof.
  induction t; cbn [quotable]; try contradiction; intros QT a b h T W G TA; try (rewrite m_dec_eq; apply leaf_ran; [reflexivity|assumption..]).
  apply ptr_ran; try assumption. intros a' h' T' G' TA'. apply IHt; try assumption. destruct t; try contradiction QT; exact QT.
Qed.
Lemma from_string_ran t T h (D : bytes -> st -> dres st) b : wf b -> good h T -> (forall b, wf b -> ran t T h b (D b h)) -> ran t T h b (decode_from_string D b h).
Proof.
  intros W G HR. unfold decode_from_string. destruct (has_null_prefix b); [apply HR, W|].
  destruct (unquote_cases b W) as [(lit & r & i & SL & Eb & Q)|(r & Q)]; rewrite Q; [|eapply ran_err; [apply moves_refl, G|split; discriminate]].
  pose proof (HR (str_text lit) (str_text_wf lit SL)) as R. cbv zeta. set (x := D (str_text lit) h) in *. destruct (d_err x) as [er|] eqn:EX.
  - pose proof (ran_bad R EX) as NE. destruct R as [_ (T2 & M2)]. eapply ran_err; eassumption.
  - destruct R as [_ (T2 & M2)]. destruct (skip_spaces (d_rest x)); [|eapply ran_err; [exact M2|split; discriminate]]. split; [|exists T2; exact M2].
    pose proof (value_takes False (fun _ _ => DR r None tt) b tt lit (JStr lit) r tt W Eb (V_str lit SL) eq_refl) as TK. unfold takes in TK. cbn in TK. unfold fine. cbn [d_err d_rest]. tauto.
Qed.
Lemma from_string_int_ran t T h pf (D : bytes -> st -> dres st) b : wf b -> good h T -> (forall b, wf b -> ran t T h b (D b h)) -> ran t T h b (decode_from_string_int pf D b h).
Proof.
  intros W G HR. unfold decode_from_string_int. destruct (has_null_prefix b); [apply HR, W|]. cbv zeta.
  set (q := match parse_string_unquote b [] with QOk _ _ _ => _ | _ => _ end).
  assert (RQ : ran t T h b q).
  { unfold q. destruct (unquote_cases b W) as [(lit & r & i & SL & Eb & Q)|(r & Q)]; rewrite Q; [|eapply ran_err; [apply moves_refl, G|split; discriminate]].
    pose proof (HR (strip_zeroes (str_text lit)) (strip_wf _ (str_text_wf lit SL))) as R. set (x := D (strip_zeroes (str_text lit)) h) in *. destruct (d_err x) as [er|] eqn:EX.
    - pose proof (ran_bad R EX) as NE. destruct R as [_ (T2 & M2)].
      destruct er; (eapply ran_err; [exact M2|]); repeat match goal with |- context [match ?z with _ => _ end] => destruct z end; try (split; discriminate); exact NE.
    - destruct R as [_ (T2 & M2)]. destruct (d_rest x); [|eapply ran_err; [exact M2|split; discriminate]]. split; [|exists T2; exact M2].
      pose proof (value_takes False (fun _ _ => DR r None tt) b tt lit (JStr lit) r tt W Eb (V_str lit SL) eq_refl) as TK. unfold takes in TK. cbn in TK. unfold fine. cbn [d_err d_rest]. tauto. }
  assert (ER : forall r e, e <> EFuel /\ e <> EPanicked -> ran t T h b (DR r (Some e) h)) by (intros; eapply ran_err; [apply moves_refl, G|assumption]).
  destruct b as [|c b1]; [exact RQ|]. destruct (c =? 34); cbn [negb].
  - destruct b1 as [|c1 b2]; [exact RQ|]. destruct (c1 =? 34); [apply ER; split; discriminate|exact RQ].
  - destruct (parse_number (c :: b1)); [|apply ER; split; discriminate]. destruct (existsb _ v); [|apply ER; split; discriminate]. destruct (pf v); apply ER; split; discriminate.
Qed.

(** ** All types *)
Lemma leads_within t p u : leads V t p u -> forall k, within u k -> within t k.
Proof.
  induction 1 as [t|i k w p t E LD IH|i k j un p t E LD IH]; intros kk W; [exact W| |].
  - eapply within_field; [exact E|apply IH, W].
  - eapply within_field; [exact E|apply within_ptr, IH, W].
Qed.
Lemma dec_ran n : forall t, flat_slices V L t -> sdec n t (m_dec n t).
Proof.
  induction n as [|n IHn]; [intros t _ a b h T _ LN; lia|].
  induction t; intros FS a b h T W LN G TA; rewrite m_dec_eq; try (apply leaf_ran; [reflexivity|assumption..]).
  - rewrite (stride_size V L LO). apply m_bytes_ran; [exact W|exact G|]. apply (typed_one V L); [exact I|exact TA].
  - rewrite (stride_size V L LO). destruct n0 as [|k].
    + change (m_array (m_dec (S n) t) (size t) 0 a b h) with (m_array (fun _ b h => in_err b h) (size t) 0 a b h). apply (m_array_ran t _ (S n)); try assumption.
      intros a0 b0 h0 T0 W0 _ G0 _. apply ran_in_err; assumption.
    + apply (m_array_ran t _ (S n)); try assumption. apply IHt. eapply flat_sub; [exact FS|]. intros kk. apply within_elem. lia.
  - rewrite (stride_size V L LO). apply (m_slice_ran (YSlice t) t eq_refl) with (N := S n); [|apply IHt|exact W|exact LN|exact G|apply (typed_one V L); [exact I|exact TA]].
    + apply FS; [apply within_self; exact I|reflexivity].
    + eapply flat_sub; [exact FS|]. intros kk. apply within_slice. reflexivity.
  - apply (m_map_ran (YMap k t) k t eq_refl) with (N := S n); [apply IHt|apply key_takes_all, EO| |exact W|exact LN|exact G|apply (typed_one V L); [exact I|exact TA]].
    + eapply flat_sub; [exact FS|]. intros kk. eapply within_val. reflexivity.
    + intros b0 W0 N0. destruct (key_safe V ET k b0 W0 N0). auto.
  - apply (m_map_ran YMapSI KYString YIface eq_refl) with (N := S n); [|apply key_takes_all, EO| |exact W|exact LN|exact G|apply (typed_one V L); [exact I|exact TA]].
    + intros a0 b0 h0 T0 W0 _ G0 TA0. apply leaf_ran; auto.
    + intros b0 W0 N0. destruct (key_safe V ET KYString b0 W0 N0). auto.
  - apply (m_map_ran YMapSR KYString YRaw eq_refl) with (N := S n); [|apply key_takes_all, EO| |exact W|exact LN|exact G|apply (typed_one V L); [exact I|exact TA]].
    + intros a0 b0 h0 T0 W0 _ G0 TA0. apply leaf_ran; auto.
    + intros b0 W0 N0. destruct (key_safe V ET KYString b0 W0 N0). auto.
  - pose proof (ptr_ran (S n) t a b h T W) as PR. rewrite m_dec_eq in PR. apply PR; try assumption. intros a' h' T' G' TA'. apply IHt; try assumption. eapply flat_sub; [exact FS|]. intros kk. apply within_ptr.
  - apply (decode_struct_ran (YStruct i) a _ _ n); [|exact W|lia|exact G|exact TA].
    intros key D b0 h0 T0 LK W0 L0 G0 TA0. destruct (find_field V F (v_flds V i) key) as [f|] eqn:FF; [|discriminate]. apply find_in in FF.
    pose proof (et_path V ET i f FF) as LD. pose proof (path_ran _ _ _ LD i (fun a => m_quot V (jf_quot f) (m_dec n (jf_ty f)) a) eq_refl b0 a h0 T0) as PR.
    destruct (m_field V L (jf_path f) i _) as [o d]. injection LK as <-. apply PR; [|exact G0|exact TA0].
    intros a1 h1 T1 G1 TA1. unfold m_quot. destruct (jf_quot f) eqn:QF.
    + apply IHn; try assumption. eapply flat_sub; [exact FS|]. intros kk. apply (leads_within _ _ _ LD).
    + apply from_string_ran; [exact W0|exact G1|]. intros b2 W2. apply quotable_ran; try assumption. eapply (ok_quot V EO); [exact FF|congruence].
    + apply from_string_int_ran; [exact W0|exact G1|]. intros b2 W2. apply quotable_ran; try assumption. eapply (ok_quot V EO); [exact FF|congruence].
Qed.
End Safe.
