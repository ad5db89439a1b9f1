(** Decoding into memory does what decoding into values does. *)
From Verif Require Import Bytes ParseModel IntModel StringModel EncModel DecModel TypeModel TypeFacts SpecFit AddrModel SpecAddr AddrFacts AddrLoops.

(** Structs and quoted fields: the code on values is used for memory as well, so
    that only the decoders of fields have to agree. *)
Section Same.
Context {A : Type} (own : Z -> Prop) (R : st -> A -> (Z -> Prop) -> Prop).
Hypothesis R_mono : forall h y D D', R h y D -> sub D D' -> R h y D'.
Definition agree (MD : bytes -> st -> dres st) (d : bytes -> A -> dres A) : Prop :=
  forall b h x D, R h x D -> disj D own -> bounded h own D -> step h own D (MD b h) (d b x) R.

Lemma step_end h D X (x : dres A) r e : step h own D X x R -> step h own D (DR r e (d_val X)) (DR r e (d_val x)) R.
Proof. intros (H1 & H2 & H3 & H4). apply step_put; assumption. Qed.
Lemma from_string_agree MD d : agree MD d -> agree (decode_from_string MD) (decode_from_string d).
Proof.
  intros AG b h x D RX DJ BD. assert (SAME : R h x (union D (fresh h h))) by (eapply R_mono; [exact RX|apply union_l]).
  unfold decode_from_string. destruct (has_null_prefix b); [apply AG; assumption|].
  destruct (parse_string_unquote b []) as [v r q|r e| |]; [|apply step_in_err, SAME|apply step_ret, SAME|apply step_ret, SAME].
  destruct (AG v h x D RX DJ BD) as (E1 & E2 & _). pose proof (AG v h x D RX DJ BD) as ST2. rewrite E2.
  destruct (d_err (d v x)); [apply step_end, ST2|]. rewrite E1. destruct (skip_spaces (d_rest (d v x))); apply step_end, ST2.
Qed.
Lemma from_string_int_agree pf MD d : agree MD d -> agree (decode_from_string_int pf MD) (decode_from_string_int pf d).
Proof.
  intros AG b h x D RX DJ BD. assert (SAME : R h x (union D (fresh h h))) by (eapply R_mono; [exact RX|apply union_l]).
  unfold decode_from_string_int. destruct (has_null_prefix b); [apply AG; assumption|].
  match goal with |- context [match b with [] => ?q | _ :: _ => _ end] => set (QM := q) end.
  match goal with |- step _ _ _ _ (match b with [] => ?q | _ :: _ => _ end) _ => set (QV := q) end.
  assert (Q : step h own D QM QV R).
  { unfold QM, QV. clear QM QV. destruct (parse_string_unquote b []) as [v r q|r e| |]; [|apply step_in_err, SAME|apply step_ret, SAME|apply step_ret, SAME].
    set (w := strip_zeroes v). cbv zeta. destruct (AG w h x D RX DJ BD) as (E1 & E2 & _). pose proof (AG w h x D RX DJ BD) as ST. rewrite E2.
    destruct (d_err (d w x)) as [[]|]; try (apply step_end; exact ST). rewrite E1. destruct (d_rest (d w x)); apply step_end, ST. }
  destruct b as [|c b1]; [exact Q|]. destruct (negb (c =? cQUOTE)).
  - destruct (parse_number (c :: b1)) as [v r|r e]; [|apply step_ret, SAME]. destruct (existsb _ v); [destruct (pf v)|]; apply step_ret, SAME.
  - destruct b1 as [|c1 b1]; [exact Q|]. destruct (c1 =? cQUOTE); [apply step_ret, SAME|exact Q].
Qed.

Lemma struct_loop_agree (LM : bytes -> option (bytes -> st -> dres st)) (LV : bytes -> option (bytes -> A -> dres A)) dis inp :
  (forall k, match LM k, LV k with Some MD, Some d => agree MD d | None, None => True | _, _ => False end) ->
  forall k first, agree (struct_loop LM dis inp k first) (struct_loop LV dis inp k first).
Proof.
  intros LK. induction k as [|k IH]; intros first b h x D RX DJ BD; assert (SAME : R h x (union D (fresh h h))) by (eapply R_mono; [exact RX|apply union_l]); [apply step_ret, SAME|].
  cbn [struct_loop]. set (sp := skip_spaces b). destruct (match sp with c :: _ => c =? cRBRACE | [] => false end); [apply step_ret, SAME|].
  match goal with |- context [obj_key ?f first sp] => destruct (obj_key f first sp) as [[r e]|[b1 key]] end; [apply step_ret, SAME|].
  specialize (LK key). destruct (LM key) as [MD|], (LV key) as [d|]; try contradiction.
  - destruct (LK b1 h x D RX DJ BD) as (E1 & E2 & E3 & E4). cbv zeta. rewrite E2. destruct (d_err (d b1 x)); [apply step_elem_err; assumption|]. rewrite E1.
    eapply step_bind; [exact R_mono|exact E4|]. apply IH; [exact E3|apply after_disj; assumption|apply after_bounded; [exact BD|exact (proj1 E4)]].
  - destruct dis; [apply step_ret, SAME|]. destruct (parseValue b1) as [v r|r e]; [apply IH; assumption|apply step_ret, SAME].
Qed.
Lemma struct_agree LM LV dis : (forall k, match LM k, LV k with Some MD, Some d => agree MD d | None, None => True | _, _ => False end) ->
  agree (decode_struct LM dis) (decode_struct LV dis).
Proof.
  intros LK b h x D RX DJ BD. assert (SAME : R h x (union D (fresh h h))) by (eapply R_mono; [exact RX|apply union_l]).
  unfold decode_struct. destruct (has_null_prefix b); [apply step_ret, SAME|]. destruct (Nat.ltb (length b) 2); [apply step_in_err, SAME|].
  destruct b as [|c b1]; [apply step_in_err, SAME|]. destruct (c =? cLBRACE); [|apply step_in_err, SAME]. apply struct_loop_agree; assumption.
Qed.
End Same.

Lemma map_loop_ext {K A} (eqb : K -> K -> bool) deck (d d' : bytes -> A -> dres A) zero inp new : (forall b, d b zero = d' b zero) ->
  forall k first b m, map_loop eqb deck d zero inp new k first b m = map_loop eqb deck d' zero inp new k first b m.
Proof.
  intros E. induction k as [|k IH]; intros first b m; [reflexivity|]. cbn [map_loop]. destruct (match skip_spaces b with c :: _ => c =? cRBRACE | [] => false end); [reflexivity|].
  destruct (obj_key deck first (skip_spaces b)) as [[r e]|[b1 key]]; [reflexivity|]. rewrite E. destruct (d_err (d' b1 zero)); [reflexivity|apply IH].
Qed.
Lemma decode_map_ext {K A} (eqb : K -> K -> bool) deck (d d' : bytes -> A -> dres A) zero b m : (forall b, d b zero = d' b zero) ->
  decode_map eqb deck d zero b m = decode_map eqb deck d' zero b m.
Proof. intros E. unfold decode_map. destruct b as [|c b1]; [reflexivity|]. rewrite !(map_loop_ext eqb deck d d' zero) by exact E. destruct m; [|reflexivity]. try rewrite !(map_loop_ext eqb deck d d' zero) by exact E. reflexivity. Qed.

Section Main.
Context (V : tenv) (F : dflags) (L : layout) (LO : lay_ok V L) (ET : env_typed V).
Notation size := (l_size L).
Notation rep := (rep V L).
Notation m_dec := (m_dec V F L).

Definition at_ (t : gty) (a : Z) (h : st) (m : mem) (D : Z -> Prop) : Prop := rep h t a m D.
Lemma at_mono t a h m D D' : at_ t a h m D -> sub D D' -> at_ t a h m D'.
Proof. apply rep_mono. Qed.
(** The decoder MD of variables of type t does what d does. *)
Definition sim (t : gty) (MD : Z -> bytes -> st -> dres st) (d : bytes -> mem -> dres mem) : Prop :=
  forall a, agree (seg a (size t)) (at_ t a) (MD a) d.

Lemma m_dec_eq n t a b h : m_dec n t a b h =
  match t with
  | YBytes => m_bytes V (m_leaf V F (YInt TUint8)) (stride L (YInt TUint8)) a b h
  | YArray k e => m_array (m_dec n e) (stride L e) k a b h
  | YSlice e => m_slice (m_dec n e) (stride L e) a b h
  | YMap k e => m_map (decode_key V k) (m_dec n e) (size e) a b h
  | YMapSI => m_map (decode_key V KYString) (m_leaf V F YIface) (size YIface) a b h
  | YMapSR => m_map (decode_key V KYString) (m_leaf V F YRaw) (size YRaw) a b h
  | YPtr e =>
      match rd_ptr (hp h a) with
      | None => oops b h
      | Some p =>
          if has_null_prefix b then
            match p, e with
            | Some v, YPtr _ => m_dec n e v b h
            | _, _ => DR (skipn 4 b) None (put_cell a (CPtr None) h)
            end
          else match p with
               | Some v => m_dec n e v b h
               | None => let '(v, h1) := alloc (size e) h in m_dec n e v b (put_cell a (CPtr (Some v)) h1)
               end
      end
  | YStruct i =>
      match n with
      | O => DR b (Some EFuel) h
      | S n' =>
          decode_struct
            (fun k => match find_field V F (v_flds V i) k with
                      | Some f =>
                          let '(o, d) := m_field V L (jf_path f) i (fun a => m_quot V (jf_quot f) (m_dec n' (jf_ty f)) a) in
                          Some (d (a + o))
                      | None => None
                      end) (d_disallow F) b h
      end
  | _ => m_leaf V F t a b h
  end.
Proof. destruct n, t; reflexivity. Qed.

(** Variables of one cell. *)
Lemma dec_leaf n t b m : leafy t = true -> dec_ty V F n t b m = dec_ty V F 0 t b m.
Proof. intros H. rewrite !dec_ty_eq. destruct t; try discriminate H; reflexivity. Qed.
Lemma dec_one n t b m : one_cell t m -> one_cell t (d_val (dec_ty V F n t b m)).
Proof.
  intros O. rewrite dec_ty_eq. destruct t, m; cbn in O; try contradiction; try exact I.
  - destruct (has_null_prefix b); [exact I|]. unfold decode_type_error. destruct v; [destruct empty|..]; try (destruct (parseValue b); exact I).
  - unfold decode_type_error. destruct (parseValue b); exact I.
Qed.
Lemma rep_leaf_inv h t a m D : leafy t = true -> rep h t a m D -> one_cell t m /\ rd_leaf V t (hp h a) = Some m.
Proof. intros H R. inversion R; subst; try discriminate H. auto. Qed.
Lemma one_size t : leafy t = true -> 1 <= size t.
Proof. intros H. pose proof (lo_one V L LO t) as O. destruct t; try discriminate H; exact O. Qed.
Lemma leaf_sim t : leafy t = true -> sim t (m_leaf V F t) (dec_ty V F 0 t).
Proof.
  intros LF a b h m D R DJ BD. destruct (rep_leaf_inv h t a m D LF R) as [O E]. unfold m_leaf. rewrite E.
  split; [reflexivity|]. split; [reflexivity|]. cbn [d_map d_val]. split.
  - apply rp_leaf; [apply dec_one, O|]. rewrite put_same. reflexivity.
  - apply put_writes. left. pose proof (one_size t LF). unfold seg. lia.
Qed.

(** Pointers. *)
Lemma ptr_inv h e a m D : rep h (YPtr e) a m D -> (m = MPtr None /\ rd_ptr (hp h a) = Some None) \/
  (exists p x Q, m = MPtr (Some x) /\ rd_ptr (hp h a) = Some (Some p) /\ rep h e p x Q /\ disj Q (seg p (size e)) /\ sub Q D /\ sub (seg p (size e)) D).
Proof.
  intros R. inversion R; subst.
  - match goal with O : one_cell _ _ |- _ => cbn in O; destruct m; contradiction end.
  - left. auto.
  - right. exists p, x, Q. split; [reflexivity|]. repeat (split; [assumption|]). assumption.
Qed.
Lemma ptr_sim (e : gty) a v x (Q D : Z -> Prop) h X y : rd_ptr (hp h a) = Some (Some v) -> rep h e v x Q -> disj Q (seg v (size e)) -> sub Q D -> sub (seg v (size e)) D ->
  disj D (seg a (size (YPtr e))) -> bounded h (seg a (size (YPtr e))) D ->
  step h (seg v (size e)) Q X y (at_ e v) ->
  step h (seg a (size (YPtr e))) D X (d_map (fun z => MPtr (Some z)) y) (at_ (YPtr e) a).
Proof.
  intros HA R DQ SQ SS DJ BD (E1 & E2 & E3 & E4). assert (OA : seg a (size (YPtr e)) a) by (pose proof (lo_one V L LO (YPtr e)) as O; cbn in O; unfold seg; lia).
  split; [exact E1|]. split; [exact E2|]. split.
  - cbn [d_val d_map]. apply rp_ptr with (p := v) (Q := union Q (fresh h (d_val X))); [|exact E3| | |].
    + rewrite (proj2 E4); [exact HA|apply BD; left; exact OA|]. intros [Y|Y]; [apply SS in Y|apply SQ in Y]; exact (DJ a Y OA).
    + intros z [Y|Y] Z0; [exact (DQ z Y Z0)|]. assert (z < nx h) by (apply BD; right; apply SS, Z0). unfold fresh in Y. lia.
    + intros z [Y|Y]; [left; apply SQ, Y|right; exact Y].
    + eapply sub_trans; [exact SS|apply union_l].
  - eapply writes_sub; [exact E4|]. intros z _ [Y|Y]; right; [apply SS, Y|apply SQ, Y].
Qed.
Lemma new_sim (e : gty) a h D X y : let '(v, h1) := alloc (size e) h in let h2 := put_cell a (CPtr (Some v)) h1 in
  disj D (seg a (size (YPtr e))) -> bounded h (seg a (size (YPtr e))) D ->
  (rep h2 e v (zero V e) emp -> disj emp (seg v (size e)) -> bounded h2 (seg v (size e)) emp -> step h2 (seg v (size e)) emp X y (at_ e v)) ->
  step h (seg a (size (YPtr e))) D X (d_map (fun z => MPtr (Some z)) y) (at_ (YPtr e) a).
Proof.
  assert (OA : seg a (size (YPtr e)) a) by (pose proof (lo_one V L LO (YPtr e)) as O; cbn in O; unfold seg; lia).
  destruct (alloc (size e) h) as [v h1] eqn:AL. cbv zeta. intros DJ BD ST. pose proof (lo_size V L LO e) as SP.
  assert (PV : v = nx h) by (injection AL as <- _; reflexivity). assert (N1 : nx h1 = nx h + size e) by (injection AL as _ <-; reflexivity).
  assert (O1 : forall y, y < nx h -> hp h1 y = hp h y) by (intros z Y; pose proof (alloc_old (size e) h z Y) as Z0; rewrite AL in Z0; exact Z0).
  assert (Z1 : forall z, seg v (size e) z -> hp h1 z = CZero) by (intros z Y; pose proof (alloc_zero (size e) h z) as Z0; rewrite AL in Z0; apply Z0; cbn; unfold seg in *; lia).
  assert (AB : a < nx h) by (apply BD; left; exact OA). set (h2 := put_cell a (CPtr (Some v)) h1) in *.
  assert (W : writes_only (union (seg a (size (YPtr e))) D) h h2).
  { split; [cbn; lia|]. intros z Z0 NP. unfold h2. rewrite put_else by (intros ->; apply NP; left; exact OA). apply O1, Z0. }
  assert (R2 : rep h2 e v (zero V e) emp) by (apply rep_zero; [exact LO|exact ET|]; intros z Y; unfold h2; rewrite put_else by (unfold seg in Y; lia); apply Z1, Y).
  eapply step_bind; [apply at_mono|exact W|].
  eapply ptr_sim with (v := v) (Q := emp); [unfold h2; rewrite put_same; reflexivity|exact R2|intros z []|intros z []| |apply after_disj; assumption|apply after_bounded; [exact BD|exact (proj1 W)]|].
  - intros z Y. right. unfold fresh, seg in *. cbn. lia.
  - apply ST; [exact R2|intros z []|]. intros z [Y|[]]. unfold seg in Y. cbn. lia.
Qed.

(** Fields. *)
Notation decl := (v_decl V).
Definition fsize (i k : nat) : Z := match nth_error (decl i) k with Some u => size u | None => 0 end.
Definition frep (i k : nat) (h : st) (p : Z) (x : mem) (Q : Z -> Prop) : Prop := forall u, nth_error (decl i) k = Some u -> rep h u p x Q.
Notation fields i := (parts (frep i) (l_off L i)).
Lemma frep_move i k h h' p p' x D : frep i k h p x D -> (forall o, 0 <= o < fsize i k -> hp h' (p' + o) = hp h (p + o)) ->
  (forall y, D y -> hp h' y = hp h y) -> frep i k h' p' x D.
Proof. intros R M K u N. eapply rep_move; [exact LO|apply R, N| |exact K]. unfold fsize in M. rewrite N in M. exact M. Qed.
Lemma fields_laid i : laid (l_off L i) (fsize i) (length (decl i)) (size (YStruct i)).
Proof.
  assert (G : forall k, (k < length (decl i))%nat -> exists u, nth_error (decl i) k = Some u) by (intros k K; destruct (nth_error (decl i) k) as [u|] eqn:E; [eauto|apply nth_error_None in E; lia]).
  split.
  - intros k K. destruct (G k K) as [u N]. unfold fsize. rewrite N. pose proof (lo_in V L LO i k u N). pose proof (lo_size V L LO u). lia.
  - intros k k' K K'. destruct (G k ltac:(lia)) as [u N], (G k' K') as [u' N']. unfold fsize. rewrite N. exact (lo_order V L LO i k k' u u' N N' K).
Qed.
Lemma struct_rep h i a m D : rep h (YStruct i) a m D <-> exists l, m = MList l /\ length l = length (decl i) /\ fields i h a l D.
Proof.
  split.
  - intros R. inversion R; subst; [cbn in H; destruct m; contradiction|]. exists l. split; [reflexivity|]. split; [assumption|]. exists Q. split; [|split; assumption].
    intros k x N u NU. eapply H1; eassumption.
  - intros (l & -> & LE & Q & A1 & A2 & A3). apply rp_struct with (Q := Q); try assumption. intros k u x NU N. exact (A1 k x N u NU).
Qed.
(** Decoding into one field of a struct. *)
Lemma field_sim i k u a h l D X (y : mem -> dres mem) : rep h (YStruct i) a (MList l) D -> disj D (seg a (size (YStruct i))) -> bounded h (seg a (size (YStruct i))) D ->
  nth_error (decl i) k = Some u ->
  (forall x Q, nth_error l k = Some x -> rep h u (a + l_off L i k) x Q -> disj Q (seg (a + l_off L i k) (size u)) -> bounded h (seg (a + l_off L i k) (size u)) Q ->
     step h (seg (a + l_off L i k) (size u)) Q X (y x) (at_ u (a + l_off L i k))) ->
  exists x, nth_error l k = Some x /\ step h (seg a (size (YStruct i))) D X (d_map (fun z => MList (set_nth k z l)) (y x)) (at_ (YStruct i) a).
Proof.
  intros R DJ BD NU ST. apply struct_rep in R as (l' & E & LE & P). injection E as <-.
  assert (KL : (k < length l)%nat) by (rewrite LE; apply nth_error_Some; congruence).
  destruct (nth_error l k) as [x|] eqn:N; [|apply nth_error_None in N; lia]. exists x. split; [reflexivity|].
  pose proof (fields_laid i) as LA. rewrite <- LE in LA.
  destruct (parts_step (frep i) (l_off L i) (fsize i) (frep_move i) h a l D _ k x LA P DJ BD N) as (Q & E & S1 & D1 & S2 & KK).
  assert (FS : fsize i k = size u) by (unfold fsize; rewrite NU; reflexivity). rewrite FS in *.
  destruct (ST x Q eq_refl (E u NU) D1) as (B1 & B2 & B3 & B4); [intros z [Y|Y]; apply BD; [left; apply S2, Y|right; apply S1, Y]|].
  split; [exact B1|]. split; [exact B2|]. split.
  - apply struct_rep. cbn [d_val d_map]. eexists. split; [reflexivity|]. split; [rewrite set_nth_length; assumption|]. apply KK; [|exact B4]. intros u' NU'. rewrite NU in NU'. injection NU' as <-. exact B3.
  - eapply writes_sub; [exact B4|]. intros z _ [Y|Y]; [left; apply S2, Y|right; apply S1, Y].
Qed.
Lemma step_eta {A} h own D X (x : dres A) R : step h own D X x R -> step h own D X (d_map (fun y => y) x) R.
Proof. intros (H1 & H2 & H3 & H4). repeat (split; [assumption|]). assumption. Qed.
Lemma d_map_map {A B C} (f : A -> B) (g : B -> C) (x : dres A) : d_map g (d_map f x) = d_map (fun z => g (f z)) x.
Proof. reflexivity. Qed.

Lemma path_sim t p u MD d : leads V t p u -> sim u MD d -> forall i, (p = [] \/ t = YStruct i) ->
  let '(o, M) := m_field V L p i MD in forall a, agree (seg a (size t)) (at_ t a) (M (a + o)) (on_path V p d).
Proof.
  intros LD SM. induction LD as [t|i0 k u p t NU LD IH|i0 k j un p t NU LD IH]; intros i TI.
  - cbn [m_field on_path]. intros a. rewrite Z.add_0_r. apply SM.
  - assert (i0 = i) by (destruct TI as [X|X]; [discriminate|congruence]). subst i0. cbn [m_field]. rewrite NU.
    set (j := match u with YStruct j => j | _ => O end). specialize (IH SM j). destruct (m_field V L p j MD) as [o M].
    assert (IH' : forall a, agree (seg a (size u)) (at_ u a) (M (a + o)) (on_path V p d)) by (apply IH; inversion LD; subst; [left; reflexivity|right; reflexivity|right; reflexivity]). clear IH.
    intros a b h m D R DJ BD. destruct (proj1 (struct_rep h i a m D) R) as (l & -> & LE & P).
    destruct (field_sim i k u a h l D (M (a + (l_off L i k + o)) b h) (on_path V p d b) R DJ BD NU) as (x & N & ST).
    { intros x Q N RX DX BX. rewrite Z.add_assoc. apply IH'; assumption. }
    cbn [on_path]. rewrite N. exact ST.
  - assert (i0 = i) by (destruct TI as [X|X]; [discriminate|congruence]). subst i0. cbn [m_field]. specialize (IH SM j). destruct (m_field V L p j MD) as [o M].
    assert (IH' : forall a, agree (seg a (size (YStruct j))) (at_ (YStruct j) a) (M (a + o)) (on_path V p d)) by (apply IH; right; reflexivity). clear IH.
    intros a b h m D R DJ BD. destruct (proj1 (struct_rep h i a m D) R) as (l & -> & LE & P). set (a' := a + l_off L i k).
    set (y := fun x => match x with
                       | MPtr (Some x) => d_map (fun y => MPtr (Some y)) (on_path V p d b x)
                       | MPtr None => if un then DR [] (Some EOther) (MPtr None) else d_map (fun y => MPtr (Some y)) (on_path V p d b (zero V (YStruct j)))
                       | _ => bad b x
                       end).
    assert (IN : forall x, nth_error l k = Some x -> exists q, x = MPtr q).
    { intros x N. destruct P as (Q & A1 & _). specialize (A1 k x N _ NU). destruct (ptr_inv _ _ _ _ _ A1) as [[-> _]|(v & z & Q1 & -> & _)]; eauto. }
    destruct (field_sim i k (YPtr (YStruct j)) a h l D (m_emb L j un o M a' b h) y R DJ BD NU) as (x & N & ST).
    { fold a'. intros x Q N RX DX BX. unfold m_emb. destruct (IN x N) as [[x'|] ->]; unfold y.
      - destruct (ptr_inv _ _ _ _ _ RX) as [[X _]|(v & z & Q1 & X & H1 & H2 & H3 & H4 & H5)]; [discriminate|]. injection X as <-. rewrite H1.
        eapply ptr_sim; try eassumption. apply IH'; [assumption|assumption|]. intros z [Y|Y]; apply BX; right; [apply H5, Y|apply H4, Y].
      - destruct (ptr_inv _ _ _ _ _ RX) as [[_ H1]|(v & z & Q1 & X & _)]; [|discriminate]. rewrite H1. destruct un; [apply step_ret; eapply rep_mono; [exact RX|apply union_l]|].
        pose proof (new_sim (YStruct j) a' h Q) as NS. destruct (alloc (size (YStruct j)) h) as [v h1]. apply NS; [exact DX|exact BX|]. intros R2 D2 B2. apply IH'; assumption. }
    cbn [on_path]. rewrite N. destruct (IN x N) as [[x'|] ->]; unfold y in ST; [exact ST|].
    destruct un; [|exact ST]. destruct ST as (B1 & B2 & B3 & B4). split; [exact B1|]. split; [exact B2|]. split; [|exact B4].
    cbn [d_val d_map] in B3 |- *. replace (set_nth k (MPtr None) l) with l in B3; [exact B3|]. clear - N.
    unfold set_nth. revert l N. induction k as [|k IH]; intros [|x l] N; try discriminate; [injection N as ->; reflexivity|]. cbn. f_equal. apply IH, N.
Qed.

(** Slices, bytes, maps. *)
Definition er (e : gty) (h : st) (p : Z) (x : mem) (D : Z -> Prop) : Prop := rep h e p x D.
Lemma er_moves e h h' p p' x D : er e h p x D -> (forall o, 0 <= o < size e -> hp h' (p' + o) = hp h (p + o)) -> (forall y, D y -> hp h' y = hp h y) -> er e h' p' x D.
Proof. apply rep_move, LO. Qed.
Lemma er_zeros e h p : (forall x, seg p (size e) x -> hp h x = CZero) -> er e h p (zero V e) emp.
Proof. apply rep_zero; assumption. Qed.
Lemma er_monos e h p x D D' : er e h p x D -> sub D D' -> er e h p x D'.
Proof. apply rep_mono. Qed.

Lemma slice_is h e a m D : rep h (YSlice e) a m D <-> exists s, m = MSlice s /\ slice_rep (er e) (size e) h a s D.
Proof.
  split.
  - intros R. inversion R; subst; [match goal with O : one_cell _ _ |- _ => cbn in O; destruct m; contradiction end|exists None; auto|].
    exists (Some (len, d)). split; [reflexivity|]. exists p, (fun y => exists i, Q i y). split; [assumption|]. split; [assumption|]. split; [|split; [|split; [|assumption]]].
    + exists Q. split; [assumption|]. split; [|assumption]. intros i y Y. exists i. exact Y.
    + intros y [i Y] Z0. match goal with X : forall i, disj (Q i) (seg _ _) |- _ => exact (X i y Y Z0) end.
    + intros y [i Y]. match goal with X : forall i, sub (Q i) D |- _ => exact (X i y Y) end.
  - intros (s & -> & R). destruct s as [[len d]|]; [|apply rp_slice_nil; exact R]. destruct R as (p & Q & H1 & H2 & (Qs & A1 & A2 & A3) & H4 & H5 & H6).
    apply rp_slice with (p := p) (Q := Qs); try assumption; intros i; [eapply sub_trans; [apply A2|exact H5]|]. intros y Y. apply H4, (A2 i), Y.
Qed.
Lemma map_is h k e a m D : rep h (YMap k e) a m D <-> exists s, m = MMap s /\ map_at (er e) (size e) h a s D.
Proof.
  split.
  - intros R. inversion R; subst; [match goal with O : one_cell _ _ |- _ => cbn in O; destruct m; contradiction end|exists None; auto|].
    exists (Some m0). split; [reflexivity|]. exists q. split; [assumption|]. exists l, Q, R0. repeat (split; [assumption|]). assumption.
  - intros (s & -> & R). destruct s as [m|]; [|apply rp_map_nil; exact R]. destruct R as (q & H0 & l & Q & R & H1 & H2 & H3 & H4 & H5 & H6 & H7 & H8).
    eapply rp_map with (q := q) (l := l) (Q := Q) (R := R); assumption.
Qed.
Notation u8t := (YInt TUint8).
Definition byte_at (h : st) (p : Z) (z : Z) (D : Z -> Prop) : Prop := rd_leaf V u8t (hp h p) = Some (MInt z).
Lemma bytes_is h a m D : rep h YBytes a m D <-> exists s, m = MBytes s /\ slice_rep byte_at (size u8t) h a s D.
Proof.
  split.
  - intros R. inversion R; subst; [match goal with O : one_cell _ _ |- _ => cbn in O; destruct m; contradiction end|exists None; auto|].
    exists (Some (len, d)). split; [reflexivity|]. exists p, emp. split; [assumption|]. split; [assumption|]. split; [|split; [intros y []|split; [intros y []|assumption]]].
    exists (fun _ => emp). split; [assumption|]. split; [intros i y []|intros i j _ y []].
  - intros (s & -> & R). destruct s as [[len d]|]; [|apply rp_bytes_nil; exact R]. destruct R as (p & Q & H1 & H2 & (Qs & A1 & A2 & A3) & H4 & H5 & H6).
    apply rp_bytes with (p := p); assumption.
Qed.
Lemma u8_pos : 1 <= size u8t.
Proof. exact (lo_one V L LO u8t). Qed.
Lemma byte_move h h' p p' x D : byte_at h p x D -> (forall o, 0 <= o < size u8t -> hp h' (p' + o) = hp h (p + o)) -> (forall y, D y -> hp h' y = hp h y) -> byte_at h' p' x D.
Proof. intros B M _. pose proof u8_pos. specialize (M 0 ltac:(lia)). rewrite !Z.add_0_r in M. unfold byte_at. rewrite M. exact B. Qed.
Lemma byte_zero h p : (forall x, seg p (size u8t) x -> hp h x = CZero) -> byte_at h p 0 emp.
Proof. intros Z0. pose proof u8_pos. unfold byte_at. rewrite Z0 by (unfold seg; lia). cbn [rd_leaf]. f_equal. exact (zero_leaf V (v_depth V) 0 u8t eq_refl). Qed.
Lemma byte_mono h p x D D' : byte_at h p x D -> sub D D' -> byte_at h p x D'.
Proof. intros H _. exact H. Qed.
Lemma byte_sim p b h x D : byte_at h p x D -> disj D (seg p (size u8t)) -> (forall y, seg p (size u8t) y \/ D y -> y < nx h) ->
  step h (seg p (size u8t)) D (m_leaf V F u8t p b h) (decode_int TUint8 b x) (fun h' y D' => byte_at h' p y D').
Proof.
  intros B DJ BD. unfold m_leaf. rewrite B. split; [reflexivity|]. split; [reflexivity|]. split.
  - cbn [d_map d_val]. unfold byte_at. rewrite put_same. reflexivity.
  - cbn [d_map d_val]. apply put_writes. left. pose proof u8_pos. unfold seg. lia.
Qed.
Lemma put_bytes_nx sz l : forall p h, nx (put_bytes p sz l h) = nx h.
Proof. induction l as [|c l IH]; intros p h; [reflexivity|]. cbn [put_bytes]. rewrite IH. reflexivity. Qed.
Lemma put_bytes_else sz l : 1 <= sz -> forall p h y, ~ seg p (Z.of_nat (length l) * sz) y -> hp (put_bytes p sz l h) y = hp h y.
Proof.
  intros S1. induction l as [|c l IH]; intros p h y N; [reflexivity|]. cbn [put_bytes length] in *. rewrite Nat2Z.inj_succ in N. unfold seg in *. rewrite IH by nia. apply put_else. nia.
Qed.
Lemma put_bytes_at sz l : 1 <= sz -> forall p h i z, nth_error l i = Some z -> hp (put_bytes p sz l h) (p + Z.of_nat i * sz) = CLeaf (MInt z).
Proof.
  intros S1. induction l as [|c l IH]; intros p h i z N; [destruct i; discriminate|]. cbn [put_bytes]. destruct i as [|i].
  - injection N as <-. rewrite put_bytes_else by (try exact S1; unfold seg; nia). rewrite Z.add_0_r. apply put_same.
  - replace (p + Z.of_nat (S i) * sz) with (p + sz + Z.of_nat i * sz) by lia. apply IH, N.
Qed.
Lemma bytes_sim : sim YBytes (m_bytes V (m_leaf V F u8t) (stride L u8t)) (dec_ty V F 0 YBytes).
Proof.
  intros a b h m D R DJ BD. rewrite (stride_size V L LO). destruct (proj1 (bytes_is h a m D) R) as (s & -> & SR).
  assert (OA : seg a (size YBytes) a) by (pose proof (lo_one V L LO YBytes) as O; cbn in O; unfold seg; lia).
  rewrite dec_ty_eq. eapply step_map with (R := fun h' s D' => slice_rep byte_at (size u8t) h' a s D'); [intros h' y D' X; apply bytes_is; eauto|].
  assert (SAME : slice_rep byte_at (size u8t) h a s (union D (fresh h h))) by (eapply slice_mono; [exact SR|apply union_l]).
  unfold m_bytes, decode_bytes. destruct (has_null_prefix b) eqn:NP.
  { apply step_put; [cbn [slice_rep]; rewrite put_same; reflexivity|apply put_writes; left; exact OA]. }
  destruct (Nat.ltb (length b) 2) eqn:BL; [apply step_in_err, SAME|]. destruct b as [|c b1] eqn:EB; [apply step_in_err, SAME|]. rewrite <- EB in *.
  destruct (negb (c =? cQUOTE)).
  { destruct (c =? cLBRACK); [|apply step_in_err, SAME].
    apply (slice_all_sim byte_at (size u8t) 0 (m_leaf V F u8t) (decode_int TUint8) (lo_size V L LO u8t) byte_move byte_zero byte_sim); assumption. }
  destruct (parse_string_unquote b []) as [v r q|r e| |]; [|apply step_in_err, SAME|apply step_ret, SAME|apply step_ret, SAME].
  destruct (v_b64 V v) as [x|]; [|apply step_ret, SAME].
  destruct (alloc (Z.of_nat (length x) * size u8t) h) as [p h1] eqn:AL. pose proof u8_pos as S1.
  assert (PV : p = nx h) by (injection AL as <- _; reflexivity). assert (N1 : nx h1 = nx h + Z.of_nat (length x) * size u8t) by (injection AL as _ <-; reflexivity).
  assert (O1 : forall y, y < nx h -> hp h1 y = hp h y) by (intros z Y; pose proof (alloc_old (Z.of_nat (length x) * size u8t) h z Y) as Z0; rewrite AL in Z0; exact Z0).
  assert (AB : a < nx h) by (apply BD; left; exact OA).
  apply step_put.
  - exists p, emp. rewrite put_same. split; [reflexivity|]. split; [lia|]. split; [|split; [intros y []|split; [intros y []|]]].
    + exists (fun _ => emp). split; [|split; [intros i y []|intros i j _ y []]]. intros i z N. unfold byte_at.
      assert (IL : (i < length x)%nat) by (apply nth_error_Some; congruence). rewrite put_else by nia. rewrite (put_bytes_at _ _ S1 _ _ _ _ N). reflexivity.
    + intros y Y. right. unfold fresh, seg in *. cbn [nx put_cell]. rewrite put_bytes_nx. lia.
  - split; [cbn [nx put_cell]; rewrite put_bytes_nx; nia|]. intros y Y NY. rewrite put_else by (intros ->; apply NY; left; exact OA).
    rewrite put_bytes_else by (try exact S1; unfold seg; lia). apply O1, Y.
Qed.

Lemma array_is h n e a m D : rep h (YArray n e) a m D <-> exists l, m = MList l /\ length l = n /\ parts (fun _ => er e) (fun i => Z.of_nat i * size e) h a l D.
Proof.
  split.
  - intros R. inversion R; subst; [match goal with O : one_cell _ _ |- _ => cbn in O; destruct m; contradiction end|]. exists l. split; [reflexivity|]. split; [reflexivity|].
    exists Q. split; [assumption|]. split; assumption.
  - intros (l & -> & LE & Q & A1 & A2 & A3). apply rp_array with (Q := Q); assumption.
Qed.

Lemma quot_sim q t MD d : sim t MD d -> sim t (fun a => m_quot V q MD a) (match q with QNo => d | QStr => decode_from_string d | QInt => decode_from_string_int (v_float V true) d end).
Proof.
  intros SM a. destruct q; cbn [m_quot]; [apply SM|apply from_string_agree|apply from_string_int_agree]; try apply SM; intros h y D D'; apply at_mono.
Qed.
Lemma find_in fs k f : find_field V F fs k = Some f -> In f fs.
Proof.
  unfold find_field. destruct (find _ (rev fs)) as [g|] eqn:E.
  - intros X. injection X as ->. apply find_some in E. apply in_rev. tauto.
  - destruct (d_nocase F); [discriminate|]. intros X. apply find_some in X. tauto.
Qed.

Lemma slice_dec_sim e MD d : sim e MD d -> forall a b h s D, slice_rep (er e) (size e) h a s D -> disj D (seg a (size (YSlice e))) -> bounded h (seg a (size (YSlice e))) D ->
  step h (seg a (size (YSlice e))) D (m_slice MD (size e) a b h) (decode_slice d (zero V e) b s) (fun h' s D' => slice_rep (er e) (size e) h' a s D').
Proof.
  intros SM a b h s D SR DJ BD. pose proof (lo_one V L LO (YSlice e)) as O. cbn in O.
  apply (slice_all_sim (er e) (size e) (zero V e) MD d (lo_size V L LO e) (er_moves e) (er_zeros e) (fun p b h x D => SM p b h x D)); try assumption. unfold seg. lia.
Qed.
Lemma map_dec_sim e MD d deck t : size t = size YMapSI -> sim e MD d -> forall a b h s D, map_at (er e) (size e) h a s D -> disj D (seg a (size t)) -> bounded h (seg a (size t)) D ->
  step h (seg a (size t)) D (m_map deck MD (size e) a b h) (decode_map mkey_eqb deck d (zero V e) b s) (fun h' s D' => map_at (er e) (size e) h' a s D').
Proof.
  intros TS SM a b h s D SR DJ BD. pose proof (lo_one V L LO YMapSI) as O. cbn in O.
  apply (map_all_sim (er e) (size e) (zero V e) MD d (lo_size V L LO e) (er_moves e) (er_zeros e) (fun p b h x D => SM p b h x D)); try assumption. unfold seg. lia.
Qed.

Lemma dec_sim_case n t : (forall n' t', n = S n' -> sim t' (m_dec n' t') (dec_ty V F n' t')) ->
  (forall e, (exists k, t = YArray k e) \/ t = YSlice e \/ (exists k, t = YMap k e) \/ t = YPtr e -> sim e (m_dec n e) (dec_ty V F n e)) ->
  sim t (m_dec n t) (dec_ty V F n t).
Proof.
  intros IHn IHt a b h m D R DJ BD. rewrite m_dec_eq.
  destruct (leafy t) eqn:LF.
  { rewrite dec_leaf by exact LF. replace (match t with YBytes => _ | _ => _ end) with (m_leaf V F t a b h) by (destruct t; try discriminate LF; reflexivity). apply leaf_sim; assumption. }
  destruct t; try discriminate LF.
  - replace (dec_ty V F n YBytes b m) with (dec_ty V F 0 YBytes b m) by (rewrite !dec_ty_eq; reflexivity). apply bytes_sim; assumption.
  - rewrite (stride_size V L LO). destruct (proj1 (array_is h n0 t a m D) R) as (l & -> & LE & P). rewrite dec_ty_eq, LE, Nat.eqb_refl.
    pose proof (lo_array V L LO n0 t) as SA. rewrite SA in DJ, BD |- *. rewrite <- LE in DJ, BD |- * at 1. rewrite <- LE.
    eapply step_map; [|eapply (array_sim (er t) (size t) (m_dec n t) (dec_ty V F n t) (lo_size V L LO t) (er_moves t)); [|exact P|rewrite LE in *; exact DJ|rewrite LE in *; exact BD]].
    + intros h' y D' [Y1 Y2]. apply array_is. exists y. split; [reflexivity|]. split; [congruence|exact Y2].
    + intros p b0 h0 x D0 X. apply IHt; [left; eauto|exact X].
  - rewrite (stride_size V L LO). destruct (proj1 (slice_is h t a m D) R) as (s & -> & SR). rewrite dec_ty_eq.
    eapply step_map; [|apply slice_dec_sim; [apply IHt; auto|exact SR|exact DJ|exact BD]]. intros h' y D' Y. apply slice_is. eauto.
  - destruct (proj1 (map_is h k t a m D) R) as (s & -> & SR). rewrite dec_ty_eq.
    eapply step_map; [|apply map_dec_sim; [exact (proj1 (lo_map V L LO k t))|apply IHt; eauto|exact SR|exact DJ|exact BD]]. intros h' y D' Y. apply map_is. eauto.
  - inversion R; subst; [match goal with O : one_cell _ _ |- _ => cbn in O; destruct m; contradiction end|].
    match goal with X : SpecAddr.rep _ _ _ (YMap KYString YIface) _ _ _ |- _ => destruct (proj1 (map_is _ _ _ _ _ _) X) as (s & E & SR) end. injection E as ->. rewrite dec_ty_eq.
    rewrite (decode_map_ext mkey_eqb _ _ (dec_ty V F 0 YIface) (MIface JVNull)) by (intros b0; rewrite dec_ty_eq; reflexivity).
    replace (MIface JVNull) with (zero V YIface) by exact (zero_leaf V (v_depth V) 0 YIface eq_refl).
    eapply step_map; [|apply map_dec_sim; [reflexivity|apply leaf_sim; reflexivity|exact SR|exact DJ|exact BD]]. intros h' y D' Y. apply rp_map_si, map_is. eauto.
  - inversion R; subst; [match goal with O : one_cell _ _ |- _ => cbn in O; destruct m; contradiction end|].
    match goal with X : SpecAddr.rep _ _ _ (YMap KYString YRaw) _ _ _ |- _ => destruct (proj1 (map_is _ _ _ _ _ _) X) as (s & E & SR) end. injection E as ->. rewrite dec_ty_eq.
    rewrite (decode_map_ext mkey_eqb _ _ (dec_ty V F 0 YRaw) (MRaw None)) by (intros b0; rewrite dec_ty_eq; reflexivity).
    replace (MRaw None) with (zero V YRaw) by exact (zero_leaf V (v_depth V) 0 YRaw eq_refl).
    eapply step_map; [|apply map_dec_sim; [exact (proj2 (lo_map V L LO KYString YRaw))|apply leaf_sim; reflexivity|exact SR|exact DJ|exact BD]]. intros h' y D' Y. apply rp_map_sr, map_is. eauto.
  - assert (OA : seg a (size (YPtr t)) a) by (pose proof (lo_one V L LO (YPtr t)) as O; cbn in O; unfold seg; lia).
    assert (SM : sim t (m_dec n t) (dec_ty V F n t)) by (apply IHt; auto). rewrite dec_ty_eq.
    destruct (ptr_inv _ _ _ _ _ R) as [[-> H1]|(v & x & Q & -> & H1 & H2 & H3 & H4 & H5)]; rewrite H1.
    + assert (NIL : step h (seg a (size (YPtr t))) D (DR (skipn 4 b) None (put_cell a (CPtr None) h)) (DR (skipn 4 b) None (MPtr None)) (at_ (YPtr t) a)).
      { apply step_put; [apply rp_nil; rewrite put_same; reflexivity|apply put_writes; left; exact OA]. }
      destruct (has_null_prefix b); [exact NIL|]. pose proof (new_sim t a h D) as NS. destruct (alloc (size t) h) as [v h1]. apply NS; [exact DJ|exact BD|]. intros R2 D2 B2. apply SM; assumption.
    + assert (SOME : step h (seg a (size (YPtr t))) D (m_dec n t v b h) (d_map (fun z => MPtr (Some z)) (dec_ty V F n t b x)) (at_ (YPtr t) a)).
      { eapply ptr_sim; try eassumption. apply SM; [assumption|assumption|]. intros z [Y|Y]; apply BD; right; [apply H5, Y|apply H4, Y]. }
      destruct (has_null_prefix b); [|exact SOME].
      assert (NIL : step h (seg a (size (YPtr t))) D (DR (skipn 4 b) None (put_cell a (CPtr None) h)) (DR (skipn 4 b) None (MPtr None)) (at_ (YPtr t) a)).
      { apply step_put; [apply rp_nil; rewrite put_same; reflexivity|apply put_writes; left; exact OA]. }
      destruct t; first [exact SOME|exact NIL].
  - destruct (proj1 (struct_rep h i a m D) R) as (l & -> & LE & P). rewrite dec_ty_eq. destruct n as [|n]; [apply step_ret; eapply rep_mono; [exact R|apply union_l]|].
    apply (struct_agree (seg a (size (YStruct i))) (at_ (YStruct i) a)); [intros h' y D1 D2; apply at_mono| |assumption..].
    intros k. destruct (find_field V F (v_flds V i) k) as [f|] eqn:FF; [|exact I]. apply find_in in FF.
    pose proof (path_sim _ _ _ _ _ (et_path V ET i f FF) (quot_sim (jf_quot f) (jf_ty f) _ _ (IHn n (jf_ty f) eq_refl)) i (or_intror eq_refl)) as PS.
    destruct (m_field V L (jf_path f) i (fun a => m_quot V (jf_quot f) (m_dec n (jf_ty f)) a)) as [o M]. apply PS.
Qed.
Theorem dec_sim n : forall t, sim t (m_dec n t) (dec_ty V F n t).
Proof.
  induction n as [|n IHn]; intros t; induction t; apply dec_sim_case; try (intros n' t' E; first [discriminate E|injection E as <-; apply IHn]).
  all: intros e [[k0 E]|[E|[[k0 E]|E]]]; first [discriminate E|injection E as -> ->; assumption|injection E as ->; assumption|injection E as <- <-; assumption|injection E as <-; assumption].
Qed.
End Main.
