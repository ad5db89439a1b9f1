(** Sizes, alignments and offsets as the gc compiler chooses them on 64-bit
    machines, and a proof that they meet what SpecAddr.v asks of a layout.  User-defined
    types with their own unmarshaler are taken to be one word; the padding
    after a last field of size zero is left out. *)
From Verif Require Import Bytes IntModel EncModel DecModel TypeModel SpecFit AddrModel SpecAddr.

(** Size and alignment of the integer types *)
Definition ity_bytes (t : ity) : Z :=
  match t with TInt8 | TUint8 => 1 | TInt16 | TUint16 => 2 | TInt32 | TUint32 => 4 | _ => 8 end.
(** The fields one after the other, from offset o on: their offsets, and the end *)
Fixpoint place (l : list (Z * Z)) (o : Z) : list Z * Z :=
  match l with
  | [] => ([], o)
  | (s, a) :: l' => let p := align a o in let '(ps, e) := place l' (p + s) in (p :: ps, e)
  end.
Definition max_align (l : list (Z * Z)) : Z := fold_right (fun x y => Z.max (snd x) y) 1 l.

Section Layout.
Context (V : tenv).
(** Size and alignment of a type; [n] is fuel: it decreases at every struct *)
Fixpoint go_lay (n : nat) : gty -> Z * Z :=
  fix go (t : gty) : Z * Z :=
  match t with
  | YBool => (1, 1)
  | YInt it => (ity_bytes it, ity_bytes it)
  | YFloat w => if w then (8, 8) else (4, 4)
  | YNumber | YString => (16, 8)
  | YBytes | YSlice _ | YRaw => (24, 8)
  | YTime => (24, 8)
  | YIface | YNamedIface _ => (16, 8)
  | YArray k e => let '(s, a) := go e in (Z.of_nat k * s, a)
  | YStruct i =>
      match n with
      | O => (0, 1)
      | S n' => let l := map (go_lay n') (v_decl V i) in let a := max_align l in (align a (snd (place l 0)), a)
      end
  | _ => (8, 8)
  end.
Definition go_layout : layout :=
  Layout (fun t => fst (go_lay (v_depth V) t)) (fun t => snd (go_lay (v_depth V) t))
    (fun i k => nth k (fst (place (map (go_lay (v_depth V)) (v_decl V i)) 0)) 0).

Lemma align_le a o : 0 < a -> o <= align a o.
Proof. intros A. unfold align. destruct (negb (a =? 0) && negb (o mod a =? 0)); [|lia]. pose proof (Z.mul_succ_div_gt o a A). nia. Qed.
Lemma align_div a o : 0 < a -> (a | align a o).
Proof.
  intros A. unfold align. destruct (Z.eqb_spec a 0); [lia|]. destruct (Z.eqb_spec (o mod a) 0); cbn [negb andb].
  - apply Z.mod_divide; lia.
  - apply Z.divide_factor_r.
Qed.
Definition lay1 (x : Z * Z) : Prop := 0 <= fst x /\ 0 < snd x /\ (snd x | fst x).
Lemma place_facts l : Forall lay1 l -> forall o, o <= snd (place l o) /\
  (forall k x, nth_error l k = Some x -> o <= nth k (fst (place l o)) 0 /\ nth k (fst (place l o)) 0 + fst x <= snd (place l o)) /\
  (forall k k' x x', nth_error l k = Some x -> nth_error l k' = Some x' -> (k < k')%nat -> nth k (fst (place l o)) 0 + fst x <= nth k' (fst (place l o)) 0).
Proof.
  induction 1 as [|[s a] l (S1 & S2 & S3) H IH]; intros o; cbn [place]; [split; [cbn; lia|]; split; [intros [|k] x; discriminate|intros [|k] k' x x'; discriminate]|]. cbn [fst snd] in *.
  pose proof (align_le a o S2) as AL. destruct (IH (align a o + s)) as (I1 & I2 & I3). destruct (place l (align a o + s)) as [ps e]. cbn [fst snd] in *.
  split; [lia|]. split.
  - intros [|k] x N; cbn [nth_error nth] in *; [injection N as <-; cbn; lia|]. specialize (I2 k x N). lia.
  - intros [|k] [|k'] x x' N N' K; try lia; cbn [nth_error nth] in *; [injection N as <-; specialize (I2 k' x' N'); cbn; lia|]. apply (I3 k k' x x' N N'). lia.
Qed.
Lemma max_pos l : 0 < max_align l.
Proof. induction l as [|x l IH]; [reflexivity|]. change (max_align (x :: l)) with (Z.max (snd x) (max_align l)). lia. Qed.
Lemma go_lay_eq n t : go_lay n t =
  match t with
  | YBool => (1, 1)
  | YInt it => (ity_bytes it, ity_bytes it)
  | YFloat w => if w then (8, 8) else (4, 4)
  | YNumber | YString => (16, 8)
  | YBytes | YSlice _ | YRaw => (24, 8)
  | YTime => (24, 8)
  | YIface | YNamedIface _ => (16, 8)
  | YArray k e => let '(s, a) := go_lay n e in (Z.of_nat k * s, a)
  | YStruct i =>
      match n with
      | O => (0, 1)
      | S n' => let l := map (go_lay n') (v_decl V i) in let a := max_align l in (align a (snd (place l 0)), a)
      end
  | _ => (8, 8)
  end.
Proof. destruct n, t; reflexivity. Qed.
Lemma go_lay1 n : forall t, lay1 (go_lay n t).
Proof.
  assert (C : forall s a, 0 <= s -> 0 < a -> (exists k, s = k * a) -> lay1 (s, a)) by (intros; split; [|split]; assumption).
  assert (K : forall t, match t with YArray _ _ | YStruct _ => True | _ => forall n, lay1 (go_lay n t) end).
  { intros t. destruct t; try exact I; intros m; rewrite go_lay_eq; try (destruct t); try (destruct wide); apply C; try (cbn; lia); first [exists 1; reflexivity|exists 2; reflexivity|exists 3; reflexivity]. }
  induction n as [|n IHn]; intros t; induction t; try apply (K YBool); try (match goal with |- lay1 (go_lay _ ?t) => exact (K t _) end).
  - rewrite go_lay_eq. destruct (go_lay 0 t) as [s a]. destruct IHt as (A1 & A2 & [k A3]). cbn [fst snd] in *. apply C; [nia|exact A2|]. exists (Z.of_nat n * k). rewrite A3. lia.
  - rewrite go_lay_eq. apply C; [lia|lia|exists 0; reflexivity].
  - rewrite go_lay_eq. destruct (go_lay (S n) t) as [s a]. destruct IHt as (A1 & A2 & [k A3]). cbn [fst snd] in *. apply C; [nia|exact A2|]. exists (Z.of_nat n0 * k). rewrite A3. lia.
  - rewrite go_lay_eq. cbv zeta. set (l := map (go_lay n) (v_decl V i)). pose proof (max_pos l) as MP.
    assert (FL : Forall lay1 l) by (apply Forall_forall; intros x X; apply in_map_iff in X as (u & <- & _); apply IHn).
    destruct (place_facts l FL 0) as (P1 & _). pose proof (align_le (max_align l) (snd (place l 0)) MP). apply C; [lia|exact MP|]. exact (align_div (max_align l) (snd (place l 0)) MP).
Qed.
(** Enough fuel is enough. *)
Lemma go_lay_fuel (rk : nat -> nat) : (forall i u j, In u (v_decl V i) -> In j (holds u) -> (rk j < rk i)%nat) ->
  forall n n' t, (forall i, In i (holds t) -> (rk i < n)%nat) -> (forall i, In i (holds t) -> (rk i < n')%nat) -> go_lay n t = go_lay n' t.
Proof.
  intros RK. induction n as [|n IH]; intros n' t; induction t; intros H1 H2; rewrite (go_lay_eq _), (go_lay_eq n'); try reflexivity.
  - rewrite IHt by assumption. reflexivity.
  - specialize (H1 i (or_introl eq_refl)). lia.
  - rewrite IHt by assumption. reflexivity.
  - specialize (H1 i (or_introl eq_refl)). specialize (H2 i (or_introl eq_refl)). destruct n' as [|n']; [lia|].
    rewrite (map_ext_in (go_lay n) (go_lay n')); [reflexivity|]. intros u U. apply IH; intros j J; specialize (RK i u j U J); lia.
Qed.
Theorem go_layout_ok : env_typed V -> lay_ok V go_layout.
Proof.
  intros ET. destruct (et_rank V ET) as (rk & R1 & R2).
  assert (SI : forall i, exists a, 0 < a /\ fst (go_lay (v_depth V) (YStruct i)) = align a (snd (place (map (go_lay (v_depth V)) (v_decl V i)) 0))).
  { intros i. pose proof (R2 i) as RI. destruct (v_depth V) as [|n] eqn:EN; [lia|]. exists (max_align (map (go_lay n) (v_decl V i))). split; [apply max_pos|]. rewrite go_lay_eq. cbn [fst]. f_equal. f_equal. f_equal.
    apply map_ext_in. intros u U. apply (go_lay_fuel rk R1); intros j J; specialize (R1 i u j U J); lia. }
  assert (FL : forall i, Forall lay1 (map (go_lay (v_depth V)) (v_decl V i))) by (intros i; apply Forall_forall; intros x X; apply in_map_iff in X as (u & <- & _); apply go_lay1).
  constructor; cbn [l_size l_align l_off go_layout].
  - intros t. apply go_lay1.
  - intros t. destruct (go_lay1 (v_depth V) t) as (A1 & A2 & A3). split; assumption.
  - intros t. destruct t; try exact I; rewrite go_lay_eq; try (destruct t); try (destruct wide); cbn; lia.
  - intros n e. rewrite go_lay_eq. destruct (go_lay (v_depth V) e). reflexivity.
  - intros k e. rewrite !go_lay_eq. split; reflexivity.
  - intros i k u N. destruct (SI i) as (a & AP & ->). destruct (place_facts _ (FL i) 0) as (P1 & P2 & _). specialize (P2 k (go_lay (v_depth V) u) (map_nth_error _ _ _ N)).
    pose proof (align_le a (snd (place (map (go_lay (v_depth V)) (v_decl V i)) 0)) AP). lia.
  - intros i k k' u u' N N' K. destruct (place_facts _ (FL i) 0) as (_ & _ & P3). exact (P3 k k' _ _ (map_nth_error _ _ _ N) (map_nth_error _ _ _ N') K).
Qed.
End Layout.
