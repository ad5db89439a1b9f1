(** Encoding of values with references. *)
From Coq Require Import Permutation.
From Verif Require Import Bytes IntModel EncModel HeapModel SpecHeap EncFacts EncMain EncExtra.

Lemma fold_and {A} (Q : A -> Prop) l : fold_right (fun v P => Q v /\ P) True l <-> Forall Q l.
Proof. induction l as [|x l IH]; cbn; [split; constructor|]. rewrite IH. split; [intros []; constructor; assumption|inversion 1; auto]. Qed.
Lemma fold_and2 {A} (Q R : A -> Prop) l : fold_right (fun v P => Q v /\ R v /\ P) True l <-> Forall (fun v => Q v /\ R v) l.
Proof. induction l as [|x l IH]; cbn; [split; constructor|]. rewrite IH. split; [intros (? & ? & ?); constructor; auto|inversion 1; tauto]. Qed.

Section Ind.
Context (P : hval -> Prop) (Pl : forall g, P (HLeaf g)) (Pa : forall l, Forall P l -> P (HArray l))
  (Pm : forall m, Forall (fun kv => P (snd kv)) m -> P (HMap m)) (Ps : forall m, Forall (fun kv => P (snd kv)) m -> P (HMapSI m))
  (Pt : forall m, Forall (fun kv => P (snd kv)) m -> P (HStruct m)) (Pi : forall v, P v -> P (HIface v)) (Pq : forall v, P v -> P (HQuoted v)) (Pr : forall a, P (HRef a)).
Fixpoint hval_ind' (v : hval) : P v :=
  match v with
  | HLeaf g => Pl g
  | HArray l => Pa l ((fix go l := match l return Forall P l with [] => Forall_nil _ | x :: l' => Forall_cons x (hval_ind' x) (go l') end) l)
  | HMap m => Pm m ((fix go l := match l return Forall (fun kv => P (snd kv)) l with [] => Forall_nil _ | x :: l' => Forall_cons x (hval_ind' (snd x)) (go l') end) m)
  | HMapSI m => Ps m ((fix go l := match l return Forall (fun kv => P (snd kv)) l with [] => Forall_nil _ | x :: l' => Forall_cons x (hval_ind' (snd x)) (go l') end) m)
  | HStruct m => Pt m ((fix go l := match l return Forall (fun kv => P (snd kv)) l with [] => Forall_nil _ | x :: l' => Forall_cons x (hval_ind' (snd x)) (go l') end) m)
  | HIface v => Pi v (hval_ind' v)
  | HQuoted v => Pq v (hval_ind' v)
  | HRef a => Pr a
  end.
End Ind.

(** One unfolding. *)
Lemma enc_ref_eq n h c v : enc_ref n h c v =
  match v with
  | HLeaf v => enc c v
  | HArray l => encode_array c (map (enc_ref n h c) l)
  | HMap m =>
      let es := map (fun kv => match kv with (k, x) => (k, enc_ref n h c x) end) m in
      let es := if e_sort c then sort_by (fun e => key_text (fst e)) es else es in
      encode_map c true (map (fun e => (encode_mkey c (fst e), snd e)) es)
  | HMapSI m =>
      let es := map (fun kv => match kv with (k, x) => (k, enc_ref n h c x) end) m in
      if e_sort c
      then encode_map_break c (map (fun e => (encode_key c (fst e), snd e)) (sort_by fst es))
      else encode_map c false (map (fun e => (encode_key c (fst e), snd e)) es)
  | HStruct fs => encode_struct c (map (fun hv => match hv with (f, x) => (f, enc_ref n h c x) end) fs)
  | HIface x => enc_ref n h c x
  | HQuoted x => encode_to_string c (enc_ref n h c x)
  | HRef a => match n with O => fun _ _ => EPanic | S n' => enc_ref n' h c (h a) end
  end.
Proof. destruct n, v; reflexivity. Qed.

(** * More room on the stack does not change a result *)
Definition fle (f g : encf) : Prop := forall b d, f b d = EPanic \/ f b d = g b d.
Definition fle2 (p q : encf * encf) : Prop := fle (fst p) (fst q) /\ fle (snd p) (snd q).
Lemma fle_refl f : fle f f.
Proof. right. reflexivity. Qed.
Lemma fle_trans f g k : fle f g -> fle g k -> fle f k.
Proof. intros A B b d. destruct (A b d) as [E|E]; [left; exact E|]. rewrite E. apply B. Qed.
Lemma array_elems_le c fs gs : Forall2 fle fs gs -> forall first, fle (array_elems c first fs) (array_elems c first gs).
Proof.
  induction 1 as [|f g fs gs Hf H IH]; intros first b d; [right; reflexivity|]. cbn [array_elems]. cbv zeta.
  match goal with |- context[f ?B d] => destruct (Hf B d) as [E|E]; rewrite E; [left; reflexivity|] end.
  destruct (g _ d) as [b1 d1 [e1|]|]; [right; reflexivity|apply IH|left; reflexivity].
Qed.
Lemma encode_array_le c fs gs : Forall2 fle fs gs -> fle (encode_array c fs) (encode_array c gs).
Proof.
  intros H b d. unfold encode_array. pose proof (array_elems_le c _ _ H true) as E. destruct H; [right; reflexivity|]. cbv zeta.
  destruct (E (append_punc (e_clrs c) b 91) (in_push c d)) as [X|X]; rewrite X; [left; reflexivity|right; reflexivity].
Qed.
Lemma map_elems_le c fs gs : Forall2 fle2 fs gs -> forall first, fle (map_elems c first fs) (map_elems c first gs).
Proof.
  induction 1 as [|[fk fv] [gk gv] fs gs [Hk Hv] H IH]; intros first b d; [right; reflexivity|]. cbn [map_elems fst snd] in *. cbv zeta.
  match goal with |- context[fk ?B d] => destruct (Hk B d) as [E|E]; rewrite E; [left; reflexivity|] end.
  destruct (gk _ d) as [b1 d1 [e1|]|]; [right; reflexivity| |left; reflexivity].
  match goal with |- context[fv ?B d1] => destruct (Hv B d1) as [E2|E2]; rewrite E2; [left; reflexivity|] end.
  destruct (gv _ d1) as [b2 d2 [e2|]|]; [right; reflexivity|apply IH|left; reflexivity].
Qed.
Lemma encode_map_le c cut fs gs : Forall2 fle2 fs gs -> fle (encode_map c cut fs) (encode_map c cut gs).
Proof.
  intros H b d. unfold encode_map. pose proof (map_elems_le c _ _ H true) as E. destruct H; [right; reflexivity|]. cbv zeta.
  destruct (E (in_byte c (append_punc (e_clrs c) b 123) 10) (in_push c d)) as [X|X]; rewrite X; [left; reflexivity|right; reflexivity].
Qed.
Lemma encode_map_break_le c fs gs : Forall2 fle2 fs gs -> fle (encode_map_break c fs) (encode_map_break c gs).
Proof.
  intros H b d. unfold encode_map_break. pose proof (map_elems_le c _ _ H true) as E. destruct H; [right; reflexivity|]. cbv zeta.
  destruct (E (in_byte c (append_punc (e_clrs c) b 123) 10) (in_push c d)) as [X|X]; rewrite X; [left; reflexivity|right; reflexivity].
Qed.
Lemma struct_fields_le c fs gs : Forall2 (fun p q => fst p = fst q /\ (left_out (fst p) \/ fle (snd p) (snd q))) fs gs ->
  forall n b d, fst (struct_fields c n fs b d) = EPanic \/ struct_fields c n fs b d = struct_fields c n gs b d.
Proof.
  induction 1 as [|[h f] [h' g] fs gs [Hh Hf] H IH]; intros n b d; [right; reflexivity|]. cbn [fst snd] in *. subst h'.
  cbn [struct_fields]. destruct (f_omitempty h && f_empty h) eqn:O; [apply IH|]. cbv zeta. destruct Hf as [[H1 H2]|Hf]; [rewrite H1, H2 in O; discriminate|].
  match goal with |- context[f ?B d] => destruct (Hf B d) as [E|E]; rewrite E; [left; reflexivity|] end.
  destruct (g _ d) as [b1 d1 [[]|]|]; try (right; reflexivity); apply IH.
Qed.
Lemma encode_struct_le c fs gs : Forall2 (fun p q => fst p = fst q /\ (left_out (fst p) \/ fle (snd p) (snd q))) fs gs -> fle (encode_struct c fs) (encode_struct c gs).
Proof.
  intros H b d. unfold encode_struct. cbv zeta. assert (X : (match fs with [] => append_punc (e_clrs c) b 123 | _ => in_byte c (append_punc (e_clrs c) b 123) 10 end) = (match gs with [] => append_punc (e_clrs c) b 123 | _ => in_byte c (append_punc (e_clrs c) b 123) 10 end)) by (destruct H; reflexivity).
  rewrite X. destruct (struct_fields_le c _ _ H 0%nat (match gs with [] => append_punc (e_clrs c) b 123 | _ => in_byte c (append_punc (e_clrs c) b 123) 10 end) (in_push c d)) as [E|E].
  - left. destruct (struct_fields c 0 fs _ _) as [r k]. cbn [fst] in E. subst r. reflexivity.
  - rewrite E. right. reflexivity.
Qed.
Lemma encode_to_string_le c f g : fle f g -> fle (encode_to_string c f) (encode_to_string c g).
Proof. intros H b d. unfold encode_to_string. destruct (H b d) as [E|E]; rewrite E; [left; reflexivity|right; reflexivity]. Qed.

(** Entries of a map, before and after sorting. *)
Definition ents {A X} (Q : X -> encf) (m : list (A * X)) : list (A * encf) := map (fun kv => match kv with (k, x) => (k, Q x) end) m.
Lemma entries_rel {A X Y} (T : encf -> encf -> Prop) (key : A -> bytes) (ek : A -> encf) (Q : X -> encf) (R : Y -> encf) (srt : bool) m m' :
  (forall f, T f f) -> Forall2 (fun kv kw => fst kv = fst kw /\ T (Q (snd kv)) (R (snd kw))) m m' ->
  Forall2 (fun p q => T (fst p) (fst q) /\ T (snd p) (snd q))
    (map (fun e => (ek (fst e), snd e)) (if srt then sort_by (fun e => key (fst e)) (ents Q m) else ents Q m))
    (map (fun e => (ek (fst e), snd e)) (if srt then sort_by (fun e => key (fst e)) (ents R m') else ents R m')).
Proof.
  intros TR H. apply F2_map. set (K := fun e e' : A * encf => fst e = fst e' /\ T (snd e) (snd e')).
  assert (X1 : Forall2 K (ents Q m) (ents R m')).
  { unfold ents. apply F2_map. eapply Forall2_imp; [|exact H]. intros [k x] [k' y] [E F]. split; assumption. }
  assert (Y1 : Forall2 K (if srt then sort_by (fun e => key (fst e)) (ents Q m) else ents Q m) (if srt then sort_by (fun e => key (fst e)) (ents R m') else ents R m')).
  { destruct srt; [|exact X1]. apply sort_by_F2; [|exact X1]. intros a b [E _]. rewrite E. reflexivity. }
  eapply Forall2_imp; [|exact Y1]. intros [k f] [k' g] [E F]. cbn [fst snd] in *. subst k'. split; [apply TR|exact F].
Qed.
Lemma F2_refl {A} (P : A -> A -> Prop) l : Forall (fun x => P x x) l -> Forall2 P l l.
Proof. induction 1; constructor; assumption. Qed.

Lemma enc_ref_le h c n n' : (forall a, fle (enc_ref n h c (HRef a)) (enc_ref n' h c (HRef a))) -> forall v, fle (enc_ref n h c v) (enc_ref n' h c v).
Proof.
  intros HR v. induction v as [g|l IH|m IH|m IH|m IH|v IH|v IH|a] using hval_ind'; [..|apply HR]; rewrite (enc_ref_eq n), (enc_ref_eq n'); cbv zeta.
  - apply fle_refl.
  - apply encode_array_le, F2_map, F2_refl, IH.
  - apply encode_map_le, (entries_rel fle key_text (encode_mkey c)); [apply fle_refl|]. apply F2_refl. eapply Forall_impl; [|exact IH]. intros; split; [reflexivity|assumption].
  - assert (E : forall srt, _) by (intros srt; refine (entries_rel fle (fun k => k) (encode_key c) (enc_ref n h c) (enc_ref n' h c) srt m m fle_refl _); apply F2_refl; eapply Forall_impl; [|exact IH]; intros; split; [reflexivity|assumption]).
    destruct (e_sort c); [apply encode_map_break_le, (E true)|apply encode_map_le, (E false)].
  - apply encode_struct_le, F2_map, F2_refl. eapply Forall_impl; [|exact IH]. intros [f x] F. split; [reflexivity|right; exact F].
  - exact IH.
  - apply encode_to_string_le, IH.
Qed.
Lemma enc_ref_mono h c : forall n v, fle (enc_ref n h c v) (enc_ref (S n) h c v).
Proof.
  induction n as [|n IHn]; apply enc_ref_le; intros a; [left; reflexivity|]. rewrite (enc_ref_eq (S n)), (enc_ref_eq (S (S n))). apply IHn.
Qed.
Lemma enc_ref_more h c n m v : (n <= m)%nat -> fle (enc_ref n h c v) (enc_ref m h c v).
Proof. induction 1; [apply fle_refl|]. eapply fle_trans; [eassumption|apply enc_ref_mono]. Qed.
Lemma fle_antisym f g : fle f g -> fle g f -> feq f g.
Proof. intros A B b d. destruct (A b d) as [E|E]; [|exact E]. destruct (B b d) as [E'|E']; congruence. Qed.
Lemma feq_fle f g : feq f g -> fle f g.
Proof. intros H b d. right. apply H. Qed.

(** * Finite values *)
Section TreeInd.
Context (h : heap) (P : hval -> gval -> Prop) (Pl : forall g, P (HLeaf g) g)
  (Pa : forall l gs, Forall2 P l gs -> P (HArray l) (GArray gs))
  (Pm : forall m gs, Forall2 (fun kv kg => fst kv = fst kg /\ P (snd kv) (snd kg)) m gs -> P (HMap m) (GMap (Some gs)))
  (Ps : forall m gs, Forall2 (fun kv kg => fst kv = fst kg /\ P (snd kv) (snd kg)) m gs -> P (HMapSI m) (GMapSI (Some gs)))
  (Pt : forall fs gs, Forall2 (fun fv fg => fst fv = fst fg /\ (left_out (fst fv) \/ P (snd fv) (snd fg))) fs gs -> P (HStruct fs) (GStruct gs))
  (Pi : forall v g, P v g -> P (HIface v) (GIface (Some g))) (Pq : forall v g, P v g -> P (HQuoted v) (GQuoted g))
  (Pr : forall a g, P (h a) g -> P (HRef a) (GPtr (Some g))).
Fixpoint tree_ind' (v : hval) (g : gval) (t : tree h v g) {struct t} : P v g :=
  match t in tree _ v g return P v g with
  | tr_leaf _ g => Pl g
  | tr_array _ l gs H => Pa l gs ((fix go l gs (H : Forall2 (tree h) l gs) : Forall2 P l gs :=
      match H with Forall2_nil _ => Forall2_nil _ | Forall2_cons x y hx H' => Forall2_cons x y (tree_ind' x y hx) (go _ _ H') end) l gs H)
  | tr_map _ m gs H => Pm m gs ((fix go m gs (H : Forall2 (fun kv kg => fst kv = fst kg /\ tree h (snd kv) (snd kg)) m gs) : Forall2 (fun kv kg => fst kv = fst kg /\ P (snd kv) (snd kg)) m gs :=
      match H with Forall2_nil _ => Forall2_nil _ | Forall2_cons x y (conj e hx) H' => Forall2_cons x y (conj e (tree_ind' _ _ hx)) (go _ _ H') end) m gs H)
  | tr_map_si _ m gs H => Ps m gs ((fix go m gs (H : Forall2 (fun kv kg => fst kv = fst kg /\ tree h (snd kv) (snd kg)) m gs) : Forall2 (fun kv kg => fst kv = fst kg /\ P (snd kv) (snd kg)) m gs :=
      match H with Forall2_nil _ => Forall2_nil _ | Forall2_cons x y (conj e hx) H' => Forall2_cons x y (conj e (tree_ind' _ _ hx)) (go _ _ H') end) m gs H)
  | tr_struct _ fs gs H => Pt fs gs ((fix go m gs (H : Forall2 (fun kv kg => fst kv = fst kg /\ (left_out (fst kv) \/ tree h (snd kv) (snd kg))) m gs) : Forall2 (fun kv kg => fst kv = fst kg /\ (left_out (fst kv) \/ P (snd kv) (snd kg))) m gs :=
      match H with Forall2_nil _ => Forall2_nil _ | Forall2_cons x y (conj e hx) H' => Forall2_cons x y (conj e (match hx with or_introl o => or_introl o | or_intror t => or_intror (tree_ind' _ _ t) end)) (go _ _ H') end) fs gs H)
  | tr_iface _ v g t => Pi v g (tree_ind' v g t)
  | tr_quoted _ v g t => Pq v g (tree_ind' v g t)
  | tr_ref _ a g t => Pr a g (tree_ind' (h a) g t)
  end.
End TreeInd.

Lemma F2_flip {A B} (P : A -> B -> Prop) l l' : Forall2 P l l' -> Forall2 (fun b a => P a b) l' l.
Proof. induction 1; constructor; assumption. Qed.
Lemma uniform {A B} (Q : nat -> A -> B -> Prop) l l' : Forall2 (fun a b => exists n0, forall n, (n0 <= n)%nat -> Q n a b) l l' ->
  exists n0, forall n, (n0 <= n)%nat -> Forall2 (Q n) l l'.
Proof.
  induction 1 as [|a b l l' [n1 H1] H [n2 H2]]; [exists O; constructor|]. exists (max n1 n2). intros n L. constructor; [apply H1|apply H2]; lia.
Qed.
Lemma tree_enc h c v g : tree h v g -> exists n0, forall n, (n0 <= n)%nat -> feq (enc_ref n h c v) (enc c g).
Proof.
  intros T. induction T as [g|l gs IH|m gs IH|m gs IH|fs gs IH|v g IH|v g IH|a g IH] using tree_ind'.
  - exists O. intros n _. rewrite enc_ref_eq. intros b d. reflexivity.
  - destruct (uniform (fun n v g => feq (enc_ref n h c v) (enc c g)) _ _ IH) as [n0 H]. exists n0. intros n L. rewrite enc_ref_eq. cbn [enc]. apply encode_array_ext, F2_map, H, L.
  - destruct (uniform (fun n (kv : mkey * hval) (kg : mkey * gval) => fst kv = fst kg /\ feq (enc_ref n h c (snd kv)) (enc c (snd kg))) m gs) as [n0 H].
    { eapply Forall2_imp; [|exact IH]. intros kv kg [E [n0 H]]. exists n0. auto. }
    exists n0. intros n L. rewrite enc_ref_eq. cbn [enc]. cbv zeta. apply encode_map_ext. refine (entries_rel feq key_text (encode_mkey c) (enc_ref n h c) (enc c) (e_sort c) m gs _ (H n L)). intros f b d. reflexivity.
  - destruct (uniform (fun n (kv : bytes * hval) (kg : bytes * gval) => fst kv = fst kg /\ feq (enc_ref n h c (snd kv)) (enc c (snd kg))) m gs) as [n0 H].
    { eapply Forall2_imp; [|exact IH]. intros kv kg [E [n0 H]]. exists n0. auto. }
    exists n0. intros n L. rewrite enc_ref_eq. cbn [enc]. cbv zeta.
    pose proof (fun srt => entries_rel feq (fun k => k) (encode_key c) (enc_ref n h c) (enc c) srt m gs (fun f b d => eq_refl) (H n L)) as E.
    destruct (e_sort c); [apply encode_map_break_ext, (E true)|apply encode_map_ext, (E false)].
  - destruct (uniform (fun n (kv : fhead * hval) (kg : fhead * gval) => fst kv = fst kg /\ (left_out (fst kv) \/ feq (enc_ref n h c (snd kv)) (enc c (snd kg)))) fs gs) as [n0 H].
    { eapply Forall2_imp; [|exact IH]. intros kv kg [E [X|[n0 H]]]; [exists 0%nat; auto|exists n0; auto]. }
    exists n0. intros n L. rewrite enc_ref_eq. cbn [enc]. specialize (H n L).
    apply fle_antisym; apply encode_struct_le, F2_map.
    + eapply Forall2_imp; [|exact H]. intros [f x] [f' x'] [E [O|F]]; cbn [fst snd] in *; (split; [exact E|]); [left; exact O|right; apply feq_fle, F].
    + apply F2_flip in H. eapply Forall2_imp; [|exact H]. intros [f x] [f' x'] [E [O|F]]; cbn [fst snd] in *; subst f'; (split; [reflexivity|]); [left; exact O|right; apply feq_fle; intros b d; symmetry; apply F].
  - destruct IH as [n0 H]. exists n0. intros n L. rewrite enc_ref_eq. cbn [enc]. apply H, L.
  - destruct IH as [n0 H]. exists n0. intros n L. rewrite enc_ref_eq. cbn [enc]. apply encode_to_string_ext, H, L.
  - destruct IH as [n0 H]. exists (S n0). intros n L. destruct n as [|n]; [lia|]. rewrite enc_ref_eq. cbn [enc]. apply H. lia.
Qed.

(** * No skipping of fields from inside *)
Lemma array_elems_err c e fs : Forall (fun f : encf => forall b d b' d', f b d <> ER b' d' (Some e)) fs -> forall first b d b' d', array_elems c first fs b d <> ER b' d' (Some e).
Proof.
  induction 1 as [|f fs Hf H IH]; intros first b d b' d'; cbn [array_elems]; [discriminate|]. cbv zeta. destruct (f _ d) as [b1 d1 [e1|]|] eqn:E; [|apply IH|discriminate].
  intros X. injection X as -> -> ->. exact (Hf _ _ _ _ E).
Qed.
Lemma encode_array_err c e fs : Forall (fun f : encf => forall b d b' d', f b d <> ER b' d' (Some e)) fs -> forall b d b' d', encode_array c fs b d <> ER b' d' (Some e).
Proof.
  intros H b d b' d'. unfold encode_array. cbv zeta. destruct fs as [|f fs]; [discriminate|]. destruct (array_elems c true _ _ _) as [b1 d1 [e1|]|] eqn:E; try discriminate.
  intros X. injection X as _ _ ->. exact (array_elems_err c e _ H _ _ _ _ _ E).
Qed.
Lemma map_elems_err c e fs : Forall (fun f : encf * encf => (forall b d b' d', fst f b d <> ER b' d' (Some e)) /\ forall b d b' d', snd f b d <> ER b' d' (Some e)) fs -> forall first b d b' d', map_elems c first fs b d <> ER b' d' (Some e).
Proof.
  induction 1 as [|[fk fv] fs [Hk Hv] H IH]; intros first b d b' d'; cbn [map_elems fst snd] in *; [discriminate|]. cbv zeta. destruct (fk _ d) as [b1 d1 [e1|]|] eqn:E; [| |discriminate].
  { intros X. injection X as -> -> ->. exact (Hk _ _ _ _ E). }
  destruct (fv _ d1) as [b2 d2 [e2|]|] eqn:E2; [|apply IH|discriminate]. intros X. injection X as -> -> ->. exact (Hv _ _ _ _ E2).
Qed.
Lemma encode_map_err c cut e fs : Forall (fun f : encf * encf => (forall b d b' d', fst f b d <> ER b' d' (Some e)) /\ forall b d b' d', snd f b d <> ER b' d' (Some e)) fs -> forall b d b' d', encode_map c cut fs b d <> ER b' d' (Some e).
Proof.
  intros H b d b' d'. unfold encode_map. cbv zeta. destruct fs as [|f fs]; [discriminate|]. destruct (map_elems c true _ _ _) as [b1 d1 [e1|]|] eqn:E; try discriminate.
  intros X. injection X as _ _ ->. exact (map_elems_err c e _ H _ _ _ _ _ E).
Qed.
Lemma encode_map_break_err c e fs : Forall (fun f : encf * encf => (forall b d b' d', fst f b d <> ER b' d' (Some e)) /\ forall b d b' d', snd f b d <> ER b' d' (Some e)) fs -> forall b d b' d', encode_map_break c fs b d <> ER b' d' (Some e).
Proof.
  intros H b d b' d'. unfold encode_map_break. cbv zeta. destruct fs as [|f fs]; [discriminate|]. destruct (map_elems c true _ _ _) as [b1 d1 [e1|]|] eqn:E; try discriminate.
  intros X. injection X as _ _ ->. exact (map_elems_err c e _ H _ _ _ _ _ E).
Qed.
Lemma struct_fields_err c e fs : (forall b d b' d', e <> ERollback -> Forall (fun f : fhead * encf => snd f b d <> ER b' d' (Some e)) fs) -> forall n b d b' d', fst (struct_fields c n fs b d) <> ER b' d' (Some e).
Proof.
  induction fs as [|[hd f] fs IH]; intros H n b d b' d'; cbn [struct_fields]; [discriminate|].
  assert (H1 : forall b d b' d', e <> ERollback -> f b d <> ER b' d' (Some e)) by (intros b0 d0 b1 d1 X; specialize (H b0 d0 b1 d1 X); inversion H; assumption).
  assert (H2 : forall b d b' d', e <> ERollback -> Forall (fun f : fhead * encf => snd f b d <> ER b' d' (Some e)) fs) by (intros b0 d0 b1 d1 X; specialize (H b0 d0 b1 d1 X); inversion H; assumption).
  destruct (f_omitempty hd && f_empty hd); [apply IH, H2|]. cbv zeta. destruct (f _ d) as [b1 d1 [e1|]|] eqn:E; [|apply IH, H2|discriminate].
  destruct e1; try (intros X; cbn [fst] in X; injection X as -> -> <-; exact (H1 _ _ _ _ ltac:(discriminate) E)). apply IH, H2.
Qed.
Lemma encode_struct_err c e fs : (forall b d b' d', e <> ERollback -> Forall (fun f : fhead * encf => snd f b d <> ER b' d' (Some e)) fs) -> forall b d b' d', encode_struct c fs b d <> ER b' d' (Some e).
Proof.
  intros H b d b' d'. unfold encode_struct. cbv zeta. destruct (struct_fields c 0 fs _ _) as [r k] eqn:E. destruct r as [b1 d1 [e1|]|]; try discriminate.
  intros X. injection X as _ _ ->. eapply (struct_fields_err c e fs H 0%nat). rewrite E. reflexivity.
Qed.
Lemma encode_to_string_err c e f : (forall b d b' d', f b d <> ER b' d' (Some e)) -> forall b d b' d', encode_to_string c f b d <> ER b' d' (Some e).
Proof. intros H b d b' d'. unfold encode_to_string. destruct (f b d) as [b1 d1 [e1|]|] eqn:E; try discriminate. intros X. injection X as -> -> ->. exact (H _ _ _ _ E). Qed.
Lemma encode_str_no_err c clr s e b d b' d' : encode_str c clr s b d <> ER b' d' (Some e).
Proof. unfold encode_str. destruct (e_clrs c); discriminate. Qed.
Lemma encode_mkey_err c e k : (forall s, k <> KText s (Some e)) -> forall b d b' d', encode_mkey c k b d <> ER b' d' (Some e).
Proof.
  intros H b d b' d'. destruct k as [s|z|s [e1|]|]; cbn [encode_mkey encode_text]; try apply encode_str_no_err; try discriminate.
  intros X. injection X as _ _ ->. exact (H s eq_refl).
Qed.
Lemma ents_all {A X} (P : A -> encf -> Prop) (key : A -> bytes) (ek : A -> encf) (Q : X -> encf) (srt : bool) (m : list (A * X)) :
  Forall (fun kv => P (fst kv) (Q (snd kv))) m ->
  Forall (fun e => P (fst e) (snd e)) (if srt then sort_by (fun e => key (fst e)) (ents Q m) else ents Q m).
Proof.
  intros H. assert (X1 : Forall (fun e => P (fst e) (snd e)) (ents Q m)) by (unfold ents; apply Forall_map; eapply Forall_impl; [|exact H]; intros [k x] Hx; exact Hx).
  destruct srt; [|exact X1]. eapply Permutation_Forall; [|exact X1]. apply sort_by_perm.
Qed.
Lemma enc_ref_proper h c : proper_heap h -> forall n v, proper false v -> forall b d b' d', enc_ref n h c v b d <> ER b' d' (Some ERollback).
Proof.
  intros PH n. induction n as [n IHn] using lt_wf_ind. intros v. induction v as [g|l IH|m IH|m IH|m IH|v IH|v IH|a] using hval_ind'; cbn [proper]; intros PV; rewrite enc_ref_eq; cbv zeta.
  - destruct PV as [PV|[PV _]]; [apply PV|discriminate].
  - apply fold_and in PV. apply encode_array_err. apply Forall_map. rewrite Forall_forall in *. intros x X. apply IH; auto.
  - apply fold_and2 in PV. apply encode_map_err. apply Forall_map. cbn [fst snd].
    apply (ents_all (fun (k : mkey) (f : encf) => (forall b d b' d', encode_mkey c k b d <> ER b' d' (Some ERollback)) /\ forall b d b' d', f b d <> ER b' d' (Some ERollback)) key_text (encode_mkey c)).
    rewrite Forall_forall in *. intros x X. destruct (PV x X) as [P1 P2]. split; [apply encode_mkey_err, P1|apply IH; auto].
  - apply fold_and in PV.
    assert (X : forall srt : bool, Forall (fun f : encf * encf => (forall b d b' d', fst f b d <> ER b' d' (Some ERollback)) /\ forall b d b' d', snd f b d <> ER b' d' (Some ERollback))
       (map (fun e : bytes * encf => (encode_key c (fst e), snd e)) (if srt then sort_by (fun e => (fun k : bytes => k) (fst e)) (ents (enc_ref n h c) m) else ents (enc_ref n h c) m))).
    { intros srt. apply Forall_map. cbn [fst snd].
      apply (ents_all (fun (k : bytes) (f : encf) => (forall b d b' d', encode_key c k b d <> ER b' d' (Some ERollback)) /\ forall b d b' d', f b d <> ER b' d' (Some ERollback)) (fun k : bytes => k) (encode_key c)).
      rewrite Forall_forall in *. intros x X. split; [intros; apply encode_str_no_err|apply IH; auto]. }
    destruct (e_sort c); [apply encode_map_break_err, (X true)|apply encode_map_err, (X false)].
  - apply encode_struct_err. intros b d b' d' NE. congruence.
  - apply IH, PV.
  - apply encode_to_string_err, IH, PV.
  - destruct n as [|n]; [discriminate|]. apply IHn; [lia|apply PH].
Qed.

(** * What is encoded is finite *)
Lemma array_elems_ok c fs : forall first b d b' d', array_elems c first fs b d = ER b' d' None -> Forall (fun f : encf => exists b d b' d', f b d = ER b' d' None) fs.
Proof.
  induction fs as [|f fs IH]; intros first b d b' d' H; [constructor|]. cbn [array_elems] in H. cbv zeta in H. destruct (f _ d) as [b1 d1 [e1|]|] eqn:E; try discriminate H.
  constructor; [eauto|]. eapply IH, H.
Qed.
Lemma map_elems_ok c fs : forall first b d b' d', map_elems c first fs b d = ER b' d' None -> Forall (fun f : encf * encf => exists b d b' d', snd f b d = ER b' d' None) fs.
Proof.
  induction fs as [|[fk fv] fs IH]; intros first b d b' d' H; [constructor|]. cbn [map_elems] in H. cbv zeta in H. destruct (fk _ d) as [b1 d1 [e1|]|] eqn:E; try discriminate H.
  destruct (fv _ d1) as [b2 d2 [e2|]|] eqn:E2; try discriminate H. constructor; [cbn [snd]; eauto|]. eapply IH, H.
Qed.
Lemma struct_fields_ok c fs : forall n b d b' d' k, struct_fields c n fs b d = (ER b' d' None, k) ->
  Forall (fun f : fhead * encf => left_out (fst f) \/ exists b d b' d' e, snd f b d = ER b' d' e /\ (e = None \/ e = Some ERollback)) fs.
Proof.
  induction fs as [|[hd f] fs IH]; intros n b d b' d' k H; [constructor|]. cbn [struct_fields] in H. destruct (f_omitempty hd && f_empty hd) eqn:O.
  { constructor; [left; apply andb_prop in O; exact O|eapply IH, H]. }
  cbv zeta in H. destruct (f _ d) as [b1 d1 [e1|]|] eqn:E; [|constructor; [right; cbn [snd]; eauto 8|eapply IH, H]|discriminate H].
  destruct e1; try discriminate H. constructor; [right; cbn [snd]; eauto 8|eapply IH, H].
Qed.
Lemma ents_all_inv {A X} (P : encf -> Prop) (key : A -> bytes) (ek : A -> encf) (Q : X -> encf) (srt : bool) (m : list (A * X)) :
  Forall (fun f : encf * encf => P (snd f)) (map (fun e => (ek (fst e), snd e)) (if srt then sort_by (fun e => key (fst e)) (ents Q m) else ents Q m)) ->
  Forall (fun kv => P (Q (snd kv))) m.
Proof.
  intros H. apply (proj1 (Forall_map _ _ _)) in H. cbn [snd] in H.
  assert (X1 : Forall (fun e => P (snd e)) (ents Q m)).
  { destruct srt; [|exact H]. eapply Permutation_Forall; [|exact H]. symmetry. apply sort_by_perm. }
  unfold ents in X1. apply (proj1 (Forall_map _ _ _)) in X1. eapply Forall_impl; [|exact X1]. intros [k x] Hx. exact Hx.
Qed.
Lemma pick {A B} (R : A -> B -> Prop) l : Forall (fun a => exists b, R a b) l -> exists l', Forall2 R l l'.
Proof. induction 1 as [|a l [b Hb] H [l' IH]]; [exists []; constructor|]. exists (b :: l'). constructor; assumption. Qed.
Lemma pick2 {K A B} (R : A -> B -> Prop) (l : list (K * A)) : Forall (fun a => exists b, R (snd a) b) l -> exists l', Forall2 (fun a b => fst a = fst b /\ R (snd a) (snd b)) l l'.
Proof. induction 1 as [|[k a] l [b Hb] H [l' IH]]; [exists []; constructor|]. exists ((k, b) :: l'). constructor; [split; [reflexivity|exact Hb]|exact IH]. Qed.

Lemma success_tree h c : proper_heap h -> forall n v fld, proper fld v -> forall b d b' d' e, enc_ref n h c v b d = ER b' d' e ->
  e = None \/ (fld = true /\ e = Some ERollback) -> exists g, tree h v g.
Proof.
  intros PH n. induction n as [n IHn] using lt_wf_ind. intros v.
  assert (ON : forall b d b' d' e fld, proper false v -> enc_ref n h c v b d = ER b' d' e -> e = None \/ (fld = true /\ e = Some ERollback) -> e = None).
  { intros b d b' d' e fld PV E [->|[_ ->]]; [reflexivity|]. destruct (enc_ref_proper h c PH n v PV _ _ _ _ E). }
  induction v as [g|l IH|m IH|m IH|m IH|v IH|v IH|a] using hval_ind'; cbn [proper]; intros fld PV b d b' d' e E HE; [exists g; constructor|..];
    (assert (e = None) as -> by (apply (ON b d b' d' e fld); assumption)); clear ON HE; rewrite enc_ref_eq in E; cbv zeta in E.
  - apply fold_and in PV. unfold encode_array in E. cbv zeta in E. assert (X : Forall (fun v => exists g, tree h v g) l).
    { assert (Y : Forall (fun f : encf => exists b d b' d', f b d = ER b' d' None) (map (enc_ref n h c) l)).
      { destruct (map (enc_ref n h c) l) as [|f fs] eqn:El; [constructor|]. destruct (array_elems c true _ _ _) as [b1 d1 [e1|]|] eqn:E1; try discriminate E. eapply array_elems_ok, E1. }
      apply (proj1 (Forall_map _ _ _)) in Y. rewrite Forall_forall in *. intros x Hx. destruct (Y x Hx) as (b1 & d1 & b2 & d2 & E1). eapply (IH x Hx); [|apply PV, Hx|exact E1|auto].
      intros b0 d0 b3 d3 e fld0 PX EX [->|[_ ->]]; [reflexivity|]. destruct (enc_ref_proper h c PH n x PX _ _ _ _ EX). }
    destruct (pick _ _ X) as [gs G]. exists (GArray gs). constructor. exact G.
  - apply fold_and2 in PV. assert (X : Forall (fun kv => exists g, tree h (snd kv) g) m).
    { unfold encode_map in E. cbv zeta in E. fold (ents (enc_ref n h c) m) in E. 
      assert (Y : Forall (fun kv : mkey * hval => exists b d b' d', enc_ref n h c (snd kv) b d = ER b' d' None) m).
      { eapply (ents_all_inv (fun f => exists b d b' d', f b d = ER b' d' None) key_text (encode_mkey c) (enc_ref n h c) (e_sort c)).
        destruct (map _ (if e_sort c then _ else _)) as [|f fs] eqn:El; [constructor|]. destruct (map_elems c true _ _ _) as [b1 d1 [e1|]|] eqn:E1; try discriminate E. eapply map_elems_ok, E1. }
      rewrite Forall_forall in *. intros x Hx. destruct (Y x Hx) as (b1 & d1 & b2 & d2 & E1). eapply (IH x Hx); [|apply PV, Hx|exact E1|auto].
      intros b0 d0 b3 d3 e fld0 PX EX [->|[_ ->]]; [reflexivity|]. destruct (enc_ref_proper h c PH n _ PX _ _ _ _ EX). }
    destruct (pick2 _ _ X) as [gs G]. eexists. apply tr_map. exact G.
  - apply fold_and in PV. assert (X : Forall (fun kv => exists g, tree h (snd kv) g) m).
    { fold (ents (enc_ref n h c) m) in E.
      assert (Y : Forall (fun kv : bytes * hval => exists b d b' d', enc_ref n h c (snd kv) b d = ER b' d' None) m).
      { eapply (ents_all_inv (fun f => exists b d b' d', f b d = ER b' d' None) (fun k => k) (encode_key c) (enc_ref n h c) (e_sort c)).
        destruct (e_sort c); unfold encode_map_break, encode_map in E; cbv zeta in E.
        - change (sort_by (fun e => fst e) (ents (enc_ref n h c) m)) with (sort_by fst (ents (enc_ref n h c) m)).
          destruct (map _ (sort_by fst _)) as [|f fs] eqn:El; [constructor|]. destruct (map_elems c true _ _ _) as [b1 d1 [e1|]|] eqn:E1; try discriminate E. eapply map_elems_ok, E1.
        - destruct (map _ (ents _ m)) as [|f fs] eqn:El; [constructor|]. destruct (map_elems c true _ _ _) as [b1 d1 [e1|]|] eqn:E1; try discriminate E. eapply map_elems_ok, E1. }
      rewrite Forall_forall in *. intros x Hx. destruct (Y x Hx) as (b1 & d1 & b2 & d2 & E1). eapply (IH x Hx); [|apply PV, Hx|exact E1|auto].
      intros b0 d0 b3 d3 e fld0 PX EX [->|[_ ->]]; [reflexivity|]. destruct (enc_ref_proper h c PH n _ PX _ _ _ _ EX). }
    destruct (pick2 _ _ X) as [gs G]. eexists. apply tr_map_si. exact G.
  - apply fold_and in PV. unfold encode_struct in E. cbv zeta in E. destruct (struct_fields c 0 _ _ _) as [[b1 d1 [e1|]|] k] eqn:E1; try discriminate E.
    apply struct_fields_ok in E1. apply (proj1 (Forall_map _ _ _)) in E1.
    assert (X : Forall (fun fv => exists fg, fst fv = fst fg /\ (left_out (fst fv) \/ tree h (snd fv) (snd fg))) m).
    { rewrite Forall_forall in *. intros [hd x] Hx. destruct (E1 _ Hx) as [LO|(b2 & d2 & b3 & d3 & e & E2 & E3)]; cbn [fst snd] in *.
      - exists (hd, GNil). split; [reflexivity|left; exact LO].
      - destruct (IH _ Hx) with (fld := true) (b := b2) (d := d2) (b' := b3) (d' := d3) (e := e) as [g G]; [|apply (PV _ Hx)|exact E2|destruct E3; auto|exists (hd, g); split; [reflexivity|right; exact G]].
        intros b4 d4 b5 d5 e' fld0 PX EX [->|[_ ->]]; [reflexivity|]. destruct (enc_ref_proper h c PH n _ PX _ _ _ _ EX). }
    destruct (pick _ _ X) as [gs G]. eexists. apply tr_struct. exact G.
  - destruct (IH) with (fld := false) (b := b) (d := d) (b' := b') (d' := d') (e := @None err) as [g G]; [|exact PV|exact E|auto|eexists; apply tr_iface; exact G].
    intros b4 d4 b5 d5 e' fld0 PX EX [->|[_ ->]]; [reflexivity|]. destruct (enc_ref_proper h c PH n _ PX _ _ _ _ EX).
  - unfold encode_to_string in E. destruct (enc_ref n h c v b d) as [b1 d1 [e1|]|] eqn:E1; try discriminate E.
    destruct (IH) with (fld := false) (b := b) (d := d) (b' := b1) (d' := d1) (e := @None err) as [g G]; [|exact PV|exact E1|auto|eexists; apply tr_quoted; exact G].
    intros b4 d4 b5 d5 e' fld0 PX EX [->|[_ ->]]; [reflexivity|]. destruct (enc_ref_proper h c PH n _ PX _ _ _ _ EX).
  - destruct n as [|n]; [discriminate E|]. destruct (IHn n ltac:(lia) (h a) false (PH a) _ _ _ _ _ E ltac:(auto)) as [g G]. eexists. apply tr_ref. exact G.
Qed.

(** * Values nothing in which can fail *)
Lemma enc_ref_sure h c e : (forall a, sure (h a)) -> forall n v, sure v -> forall b d b' d', enc_ref n h c v b d <> ER b' d' (Some e).
Proof.
  intros PH n. induction n as [n IHn] using lt_wf_ind. intros v. induction v as [g|l IH|m IH|m IH|m IH|v IH|v IH|a] using hval_ind'; cbn [sure]; intros PV; rewrite enc_ref_eq; cbv zeta.
  - intros b d b' d'. destruct (PV c b d) as [b1 E]. congruence.
  - apply fold_and in PV. apply encode_array_err. apply Forall_map. rewrite Forall_forall in *. intros x X. apply IH; auto.
  - apply fold_and2 in PV. apply encode_map_err. apply Forall_map. cbn [fst snd].
    apply (ents_all (fun (k : mkey) (f : encf) => (forall b d b' d', encode_mkey c k b d <> ER b' d' (Some e)) /\ forall b d b' d', f b d <> ER b' d' (Some e)) key_text (encode_mkey c)).
    rewrite Forall_forall in *. intros x X. destruct (PV x X) as [P1 P2]. split; [apply encode_mkey_err; intros s; apply P1|apply IH; auto].
  - apply fold_and in PV.
    assert (X : forall srt : bool, Forall (fun f : encf * encf => (forall b d b' d', fst f b d <> ER b' d' (Some e)) /\ forall b d b' d', snd f b d <> ER b' d' (Some e))
       (map (fun e : bytes * encf => (encode_key c (fst e), snd e)) (if srt then sort_by (fun e => (fun k : bytes => k) (fst e)) (ents (enc_ref n h c) m) else ents (enc_ref n h c) m))).
    { intros srt. apply Forall_map. cbn [fst snd].
      apply (ents_all (fun (k : bytes) (f : encf) => (forall b d b' d', encode_key c k b d <> ER b' d' (Some e)) /\ forall b d b' d', f b d <> ER b' d' (Some e)) (fun k : bytes => k) (encode_key c)).
      rewrite Forall_forall in *. intros x X. split; [intros; apply encode_str_no_err|apply IH; auto]. }
    destruct (e_sort c); [apply encode_map_break_err, (X true)|apply encode_map_err, (X false)].
  - apply fold_and in PV. apply encode_struct_err. intros b d b' d' NE. apply Forall_map. rewrite Forall_forall in *. intros [hd x] X. cbn [snd]. apply (IH _ X). apply (PV _ X).
  - apply IH, PV.
  - apply encode_to_string_err, IH, PV.
  - destruct n as [|n]; [discriminate|]. apply IHn; [lia|apply PH].
Qed.
Lemma sure_proper v : forall fld, sure v -> proper fld v.
Proof.
  induction v as [g|l IH|m IH|m IH|m IH|v IH|v IH|a] using hval_ind'; cbn [sure proper]; intros fld PV; auto.
  - left. intros c b d b' d'. destruct (PV c b d) as [b1 E]. congruence.
  - apply fold_and in PV. apply fold_and. rewrite Forall_forall in *. auto.
  - apply fold_and2 in PV. apply fold_and2. rewrite Forall_forall in *. intros x X. destruct (PV x X). auto.
  - apply fold_and in PV. apply fold_and. rewrite Forall_forall in *. auto.
  - apply fold_and in PV. apply fold_and. rewrite Forall_forall in *. auto.
Qed.
