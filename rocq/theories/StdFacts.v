(** What Unmarshal stores is a value that JSON can carry. *)
From Coq Require Import Permutation.
From Verif Require Import Bytes Utf8Model ParseModel StringModel IntModel TokenModel EncModel DecModel SpecJson SpecString SpecTokens
  SpecRender SpecEnc SpecNum SpecDec SpecTrip SpecRaw ParseFacts Utf8Facts StringFacts IntFacts TokenFacts EncFacts RawFacts EncMain TextFacts
  Unambig NumFacts DecLoops DecFacts TripFacts B64Model SpecB64 TimeModel SpecTime FloatModel SpecFloat
  TypeModel SpecType SpecFit SpecField NodeFacts TypeLoops TypeFacts TypeMain TypeSound TypeSafe ViewModel SpecSame ViewFacts TripClean TripType SpecStd
  WhereUnique OrderFacts PropsB64 PropsFloat PropsTime PropsDur.
Local Open Scope Z_scope.

Section Std.
Context (V : tenv) (W : menv) (F : dflags).
Context (OK : env_ok V) (ET : env_typed V) (NM : env_names V) (SE : std_env V W).
Context (FL : ieee V) (TL : go_time_lib V) (BL : forall s, v_b64 V s = b64_decode s) (DL : go_dur_lib V).
Notation trip := (trip V W F).
Notation zero := (zero V).
Notation stores := (stores V F).

Definition scalar (t : gty) : Prop :=
  match t with YBool | YInt _ | YFloat _ | YString | YDuration | YTime | YIface | YNamedIface _ | YRaw => True | _ => False end.
(** As [trip], and all cells of backing arrays are such values. *)
Inductive deep : gty -> mem -> Prop :=
| dp_leaf t m : scalar t -> trip t m -> deep t m
| dp_bytes0 : deep YBytes (MBytes None)
| dp_bytes len d : (len <= length d)%nat -> wf d -> deep YBytes (MBytes (Some (len, d)))
| dp_array n e l : length l = n -> Forall (deep e) l -> deep (YArray n e) (MList l)
| dp_slice0 e : deep (YSlice e) (MSlice None)
| dp_slice e len d : (len <= length d)%nat -> Forall (deep e) d -> deep (YSlice e) (MSlice (Some (len, d)))
| dp_map0 k e : deep (YMap k e) (MMap None)
| dp_map k e m : NoDup (map fst m) -> Forall (fun kv => key_ok V W k (fst kv) /\ deep e (snd kv)) m -> deep (YMap k e) (MMap (Some m))
| dp_map_si m : deep (YMap KYString YIface) m -> deep YMapSI m
| dp_map_sr m : deep (YMap KYString YRaw) m -> deep YMapSR m
| dp_ptr0 e : deep (YPtr e) (MPtr None)
| dp_ptr e x : deep e x -> ~ null_like e x -> deep (YPtr e) (MPtr (Some x))
| dp_struct i l : (forall f, In f (v_flds V i) -> exists x, get (jf_path f) (MList l) = Some x /\ deep (jf_ty f) x) -> deep (YStruct i) (MList l).

Lemma direct_exported p : direct p = true -> exported p.
Proof. induction p as [|[i|i s u] p IH]; cbn [direct]; intros H; [constructor|constructor; [exact I|exact (IH H)]|discriminate]. Qed.
Lemma test_get p q : direct p = true -> forall m, test_path p q m = true -> exists x, get p m = Some x /\ q x = true.
Proof.
  induction p as [|[i|i s u] p IH]; cbn [direct]; intros H m T; [| |discriminate].
  - exists m. split; [destruct m; reflexivity|exact T].
  - destruct m; cbn [test_path] in T; try discriminate. cbn [get]. destruct (nth_error l i) as [x|]; [|discriminate]. exact (IH H x T).
Qed.
Lemma empty_zero t m : omit_ok t -> deep t m -> is_empty W t m = true -> m = zero t.
Proof.
  intros O D E. pose proof (zero_leaf V t) as Z. destruct t; cbn [omit_ok] in O; try contradiction; rewrite Z; clear Z; destruct m; cbn [is_empty] in E; try discriminate; cbn.
  all: match goal with |- _ ?x = _ => destruct x; first [reflexivity | discriminate | idtac] end; cbn in E; discriminate.
Qed.

Fixpoint deep_trip t m (D : deep t m) {struct D} : trip t m.
Proof.
  destruct D as [t m _ T| |len d L D|n e l E D| |e len d L D| |k e m N D|m D|m D| |e x D N|i l D].
  - exact T.
  - apply tr_bytes0.
  - apply tr_bytes; [exact L|apply Forall_firstn, D|]. rewrite BL. apply (proj2 C82_library), Forall_firstn, D.
  - apply tr_array; [exact E|]. clear E. induction D as [|x l Dx D IH]; constructor; [exact (deep_trip e x Dx)|exact IH].
  - apply tr_slice0.
  - apply tr_slice; [exact L|]. apply Forall_firstn. clear L. induction D as [|x l Dx D IH]; constructor; [exact (deep_trip e x Dx)|exact IH].
  - apply tr_map0.
  - apply tr_map; [exact N|]. clear N. induction D as [|x l Dx D IH]; constructor; [destruct Dx as [K Dx]; split; [exact K|exact (deep_trip e (snd x) Dx)]|exact IH].
  - apply tr_map_si, deep_trip, D.
  - apply tr_map_sr, deep_trip, D.
  - apply tr_ptr0.
  - apply tr_ptr; [exact (deep_trip e x D)|exact N].
  - assert (A : forall f, In f (v_flds V i) -> exists x, get (jf_path f) (MList l) = Some x /\ deep (jf_ty f) x /\ trip (jf_ty f) x).
    { intros f I1. destruct (D f I1) as (x & G & Dx). exists x. split; [exact G|]. split; [exact Dx|exact (deep_trip _ _ Dx)]. }
    apply tr_struct.
    + exists [], (v_flds V i). split; [reflexivity|]. split; [constructor|]. apply Forall_forall. intros f I1. right. destruct (A f I1) as (x & -> & _). discriminate.
    + intros f x I1 G. destruct (A f I1) as (x' & G' & _ & T). rewrite G in G'. injection G' as <-. split; [exact T|]. apply direct_exported, (SE i f I1).
    + intros f I1 _. destruct (SE i f I1) as (_ & S & _). destruct (jf_ty f); cbn [std_ty quot_ok] in *; try exact I; [destruct S as [S _]; destruct g; cbn [std_ty] in *; tauto|contradiction].
    + intros f I1 [O E]. destruct (SE i f I1) as (DI & _ & OM). split; [exact DI|]. unfold field_empty in E. rewrite DI in E.
      destruct (test_get _ _ DI _ E) as (x & G & EM). destruct (A f I1) as (x' & G' & Dx & _). rewrite G in G'. injection G' as <-. rewrite G. f_equal.
      apply empty_zero; [apply OM, O|exact Dx|exact EM].
Qed.

(** * Zero values *)
Lemma peek_direct p : direct p = true -> forall m, peek V p m = get p m.
Proof.
  induction p as [|[i|i s u] p IH]; cbn [direct]; intros H m; [destruct m; reflexivity| |discriminate].
  destruct m; cbn [peek get]; try reflexivity. destruct (nth_error l i); [apply IH, H|reflexivity].
Qed.
Lemma zero_writable : exists t, writable t /\ fmt_time t = bs "0001-01-01T00:00:00Z".
Proof.
  exists (GT (-62135596800) 0 0). split; [|vm_compute; reflexivity]. split; [cbn; lia|]. split; [exists 0; reflexivity|]. split; [cbn; lia|].
  exists 1, 1, 1. split; [|lia]. apply C85_calendar. vm_compute. reflexivity.
Qed.
Lemma leads_rank (rk : nat -> nat) : (forall i u j, In u (v_decl V i) -> In j (holds u) -> (rk j < rk i)%nat) ->
  forall p, direct p = true -> forall t u, leads V t p u -> forall n, (forall j, In j (holds t) -> (rk j < n)%nat) -> p <> [] -> forall j, In j (holds u) -> (rk j < pred n)%nat.
Proof.
  intros R. induction p as [|a p IH]; intros DI t u L n H NE j J; [congruence|]. destruct a as [k|]; [|discriminate]. cbn [direct] in DI.
  inversion L as [|i k' w p' t' N L'|]; subst. assert (X : forall j, In j (holds w) -> (rk j < pred n)%nat).
  { intros j' J'. specialize (R i w j' (nth_error_In _ _ N) J'). specialize (H i (or_introl eq_refl)). lia. }
  destruct p as [|a p]; [inversion L'; subst; apply X, J|]. enough (rk j < pred (pred n))%nat by lia. eapply IH; [exact DI|exact L'|exact X|discriminate|exact J].
Qed.
Lemma zero_deep t : std_ty t -> deep t (zero t).
Proof.
  destruct (et_rank V ET) as (rk & R1 & R2).
  assert (G : forall n t, (forall i, In i (holds t) -> (rk i < n)%nat) -> std_ty t -> deep t (zero t)).
  { induction n as [n IHn] using lt_wf_ind. intros u. pose proof (zero_leaf V u) as Z. induction u; intros H S; cbn [std_ty] in S; try contradiction; try rewrite Z; cbn [zero_f].
    - apply dp_leaf; [exact I|constructor].
    - apply dp_leaf; [exact I|constructor]. destruct t0; cbn; lia.
    - apply dp_leaf; [exact I|]. apply C83_typed; [exact FL|left; reflexivity].
    - apply dp_leaf; [exact I|constructor]. exists []. constructor.
    - apply dp_bytes0.
    - apply dp_leaf; [exact I|constructor]. cbn. lia.
    - apply dp_leaf; [exact I|]. destruct zero_writable as (t0 & WR & <-). apply C85_typed; assumption.
    - apply dp_leaf; [exact I|]. constructor. split; [constructor|]. intros f FI. inversion FI.
    - apply dp_leaf; [exact I|constructor].
    - apply dp_leaf; [exact I|constructor].
    - rewrite zero_array. apply dp_array; [apply repeat_length|]. apply Forall_forall. intros x X. apply repeat_spec in X. subst x. apply IHu; [apply zero_leaf|exact H|exact S].
    - apply dp_slice0.
    - apply dp_map0.
    - apply dp_map_si, dp_map0.
    - apply dp_map_sr, dp_map0.
    - apply dp_ptr0.
    - clear Z. rewrite (zero_struct V ET) at 1. apply dp_struct. rewrite <- (zero_struct V ET). intros f I1. destruct (SE i f I1) as (DI & SF & _).
      pose proof (et_path V ET i f I1) as L. pose proof (peek_zero V ET _ _ _ L) as P. rewrite (peek_direct _ DI) in P. exists (zero (jf_ty f)). split; [exact P|].
      specialize (H i (or_introl eq_refl)). apply (IHn (rk i)); [exact H| |exact SF].
      intros j J. pose proof (leads_rank rk R1 (jf_path f) DI (YStruct i) (jf_ty f) L (Datatypes.S (rk i))) as X. cbn [pred] in X. apply X; [|apply (en_inside V NM i f I1)|exact J].
      cbn [holds In]. intros j' [<-|[]]. lia. }
  apply (G (v_depth V)). intros i _. apply R2.
Qed.

(** * Trees *)
Lemma float_ok wide s f : v_float V wide s = Some f -> finite f /\ parses (v_float V wide) f.
Proof.
  intros E. rewrite FL in E. apply C83_contract in E; [|destruct wide; cbn; lia|destruct wide; cbn; lia]. destruct E as [A B]. split; [exact A|].
  unfold parses in *. destruct f; try exact B; intros; rewrite FL; eapply B; eassumption.
Qed.
Definition grown (v : jv) : Prop := go_tree_of (d_usenum F) (tree v) v /\ forall f, float_in f v -> parses (v_float V true) f.
Lemma all_set {K A} (eqb : K -> K -> bool) (P : K * A -> Prop) kvs : forall m, Forall P m -> Forall P kvs -> Forall P (add_all eqb kvs m).
Proof.
  induction kvs as [|[k v] kvs IH]; intros m M H; cbn; [exact M|]. inversion H; subst. apply IH; [|assumption]. apply map_set_all; assumption.
Qed.
Fixpoint ival_tree a v (H : ival (num V F) a v) {struct H} : (forall n, number_in n a -> number_lit n) -> grown v.
Proof.
  destruct H as [| | |s v N|lit t (body & l & _ & _ & U)|l vs H|l kvs H]; intros NL.
  - split; [constructor|]. intros f FI. inversion FI.
  - split; [constructor|]. intros f FI. inversion FI.
  - split; [constructor|]. intros f FI. inversion FI.
  - unfold num in N. destruct (d_usenum F) eqn:UN; [subst v; split; [cbn [tree]; rewrite UN; constructor; apply NL; constructor|intros g G; inversion G]|]. destruct N as (f & E & ->). destruct (float_ok _ _ _ E) as [A B]. split; [rewrite UN; constructor; exact A|]. intros g G. inversion G; subst. exact B.
  - split; [constructor; exists l; exact U|]. intros f FI. inversion FI.
  - assert (X : Forall grown vs).
    { induction H as [|a v l vs Hv H IH]; constructor; [apply (ival_tree a v Hv); intros n I1; apply NL; eapply ni_arr; [left; reflexivity|exact I1]|].
      apply IH. intros n I1. apply NL. inversion I1; subst. eapply ni_arr; [right; eassumption|assumption]. }
    clear H NL l. split.
    + cbn [tree]. replace (map _ vs) with (map iface_of (map tree vs)).
      * apply gt_slice. induction X as [|v vs [Xv _] X IH]; constructor; assumption.
      * rewrite map_map. apply map_ext. intros []; reflexivity.
    + intros f FI. inversion FI as [|? v IN FV|]; subst. rewrite Forall_forall in X. apply (X v IN), FV.
  - assert (X : Forall (fun kv => valid_utf8 (fst kv) /\ grown (snd kv)) kvs).
    { induction H as [|a kv l kvs Hv H IH]; constructor.
      - destruct Hv as [(body & l0 & _ & _ & U) Hv]. split; [exists l0; exact U|apply (ival_tree (snd a) (snd kv) Hv)]. intros n I1. apply NL. destruct a as [k a]. eapply ni_obj; [left; reflexivity|exact I1].
      - apply IH. intros n I1. apply NL. inversion I1; subst. eapply ni_obj; [right; eassumption|assumption]. }
    apply (all_set beqb _ kvs [] (Forall_nil _)) in X. assert (ND : NoDup (map fst (add_all beqb kvs []))) by (apply add_all_nodup; [apply beqb_eq|constructor]).
    clear H NL. set (m := add_all beqb kvs []) in *. clearbody m. split.
    + cbn [tree]. apply gt_map.
      * rewrite map_map. erewrite map_ext; [exact ND|]. intros [k x]. reflexivity.
      * clear ND. induction X as [|[k x] m [U [T _]] X IH]; constructor; [|exact IH]. cbn [fst snd] in *. auto.
    + intros f FI. inversion FI as [| |? k v IN FV]; subst. rewrite Forall_forall in X. apply (X _ IN), FV.
Qed.
Lemma ival_nonnull v y : nshape v <> HNull -> ival (num V F) (erase v) y -> y <> JVNull.
Proof.
  destruct v as [s h]. cbn [nshape]. intros N H ->. destruct h; cbn [erase] in H; inversion H; subst; try congruence.
  match goal with H : num _ _ _ _ |- _ => unfold num in H; destruct (d_usenum F); [discriminate|destruct H as (f & _ & H); discriminate] end.
Qed.
Lemma stores_nonnull e v x y : std_ty e -> (match e with YPtr _ => False | _ => True end) -> jnode v -> nshape v <> HNull -> stores e v x y -> ~ null_like e y.
Proof.
  intros S NP J N H NL. destruct e; cbn [std_ty] in *; try contradiction; cbn [null_like] in NL; try contradiction; inversion H; subst; try contradiction; cbn [nshape] in N; try congruence.
  - match goal with H : slice_rel _ _ _ _ _ |- _ => inversion H; subst end; [cbn in N; congruence|contradiction].
  - apply (ival_nonnull v y0); [exact N|assumption|]. destruct y0; tauto.
  - apply (ival_nonnull v y0); [exact N|assumption|]. destruct y0; tauto.
  - pose proof (jvalue_unique _ _ _ (jnode_jvalue v J) NL) as E. destruct v as [s h]. destruct h; cbn [erase] in E; try discriminate. cbn [nshape] in N. congruence.
  - match goal with H : slice_rel _ _ _ _ _ |- _ => inversion H; subst end; [cbn in N; congruence|contradiction].
  - match goal with H : map_rel _ _ _ _ _ _ _ |- _ => inversion H; subst end; [cbn in N; congruence|contradiction].
  - match goal with H : stores (YMap _ _) _ _ _ |- _ => inversion H; subst end; [cbn in N; congruence|]. match goal with H : map_rel _ _ _ _ _ _ _ |- _ => inversion H; subst end; [cbn in N; congruence|contradiction].
  - match goal with H : stores (YMap _ _) _ _ _ |- _ => inversion H; subst end; [cbn in N; congruence|]. match goal with H : map_rel _ _ _ _ _ _ _ |- _ => inversion H; subst end; [cbn in N; congruence|contradiction].
Qed.

(** * Values *)
Definition clean (v : node) : Prop := times_writable (erase v).
Lemma clean_arr s l : clean (ND s (HArr l)) -> Forall clean l.
Proof.
  intros C. apply Forall_forall. intros v IN x t SI. apply C. cbn [erase]. apply si_arr with (erase v); [apply in_map, IN|exact SI].
Qed.
Lemma clean_obj s l : clean (ND s (HObj l)) -> Forall (fun kv => clean (snd kv)) l.
Proof.
  intros C. apply Forall_forall. intros [k v] IN x t SI. apply C. cbn [erase]. apply si_obj with k (erase v); [|exact SI].
  apply in_map_iff. exists (k, v). auto.
Qed.
Lemma u8_deep v x y : stores (YInt TUint8) v (MInt x) (MInt y) -> is_byte x -> is_byte y.
Proof.
  intros H B. inversion H; subst; [exact B|]. match goal with H : int_ok _ _ _ |- _ => destruct H as (_ & R & _); cbn in R end. unfold is_byte. lia.
Qed.
Lemma onto_all {A} (R : node -> A -> A -> Prop) (z : A) (P : A -> Prop) l : P z ->
  (forall v x y, In v l -> R v x y -> P x -> P y) -> forall d ys, onto R z l d ys -> Forall P d -> Forall P ys.
Proof.
  intros PZ H d ys O. induction O as [d|v l d y ys Rv O IH]; intros FD; [constructor|]. constructor.
  - apply (H v (hd z d)); [left; reflexivity|exact Rv|]. destruct FD; [exact PZ|assumption].
  - apply IH; [intros v' x' y' I1; apply H; right; exact I1|]. destruct FD; [constructor|assumption].
Qed.
Lemma along_all {A} (R : node -> A -> A -> Prop) (P : A -> Prop) l :
  (forall v x y, In v l -> R v x y -> P x -> P y) -> forall d ys, along R l d ys -> Forall P d -> Forall P ys.
Proof.
  intros H d ys O. induction O as [d|l|v l x d y ys Rv O IH]; intros FD; [exact FD|constructor|]. inversion FD; subst. constructor.
  - apply (H v x); [left; reflexivity|exact Rv|assumption].
  - apply IH; [intros v' x' y' I1; apply H; right; exact I1|assumption].
Qed.
Lemma slice_all {A} (R : node -> A -> A -> Prop) (z : A) (P : A -> Prop) s l x y : P z ->
  (forall v x y, In v l -> R v x y -> P x -> P y) -> slice_rel R z (ND s (HArr l)) x y -> Forall P (backing x) ->
  exists d, y = Some (length l, d) /\ (length l <= length d)%nat /\ Forall P d.
Proof.
  intros PZ H SR FX. inversion SR as [|? ? ? ys c O G]; subst. eexists. split; [reflexivity|]. pose proof (onto_all R z P l PZ H _ _ O FX) as FY. split.
  - assert (L : length ys = length l) by (clear -O; induction O; cbn [length]; congruence). rewrite app_length, L. lia.
  - apply Forall_app. split; [exact FY|]. apply Forall_app. split; [apply Forall_skipn, FX|]. apply Forall_forall. intros a A1. apply repeat_spec in A1. subst a. exact PZ.
Qed.
Lemma key_ok_std k lit x : std_key k -> key_means V k lit x -> key_ok V W k x.
Proof.
  intros S H. destruct H as [lit t (body & l & _ & _ & U)|it lit s z w _ _ (_ & R & _)|it lit w _ _|]; cbn [key_ok std_key] in *; try contradiction.
  - exists l. exact U.
  - exact R.
  - destruct it; cbn; lia.
Qed.
Lemma map_deep k e s l x y : std_key k -> std_ty e -> (forall a z, In a l -> stores e (snd a) (zero e) z -> deep e z) ->
  map_rel (stores e) (zero e) (key_means V k) mkey_eqb (ND s (HObj l)) x y -> deep (YMap k e) (MMap x) -> deep (YMap k e) (MMap y).
Proof.
  intros SK SY H MR D. inversion MR as [|? ? ? kvs FE]; subst.
  assert (M : NoDup (map fst (entries x)) /\ Forall (fun kv => key_ok V W k (fst kv) /\ deep e (snd kv)) (entries x)).
  { inversion D; subst; cbn [entries]; [contradiction|split; constructor|auto]. }
  destruct M as [M1 M2]. apply dp_map; [apply add_all_nodup; [apply mkey_eqb_eq'|exact M1]|]. apply all_set; [exact M2|]. clear MR D M1 M2.
  induction FE as [|a kv l kvs [E1 E2] FE IH]; constructor; [|apply IH; intros a' z I1; apply H; right; exact I1].
  split; [eapply key_ok_std; eassumption|]. apply (H a); [left; reflexivity|exact E2].
Qed.
(** Types that may have the option ",string". *)
Lemma quot_deep t : quotable t -> std_ty t -> forall v x y, stores t v x y -> deep t x -> deep t y.
Proof.
  induction t; cbn [quotable std_ty]; intros Q S v x y H D; try contradiction.
  - apply dp_leaf; [exact I|]. inversion H; subst; try constructor. apply deep_trip, D.
  - apply dp_leaf; [exact I|]. inversion H; subst; [apply deep_trip, D|]. constructor. match goal with H : int_ok _ _ _ |- _ => apply H end.
  - apply dp_leaf; [exact I|]. inversion H; subst; [apply deep_trip, D|]. match goal with H : v_float _ _ _ = Some _ |- _ => destruct (float_ok _ _ _ H) end. constructor; assumption.
  - apply dp_leaf; [exact I|]. inversion H; subst; [apply deep_trip, D|]. match goal with H : str_means _ _ |- _ => destruct H as (body & l & _ & _ & U) end. constructor. exists l. exact U.
  - apply dp_leaf; [exact I|]. inversion H; subst; [apply deep_trip, D| |]; constructor.
    + match goal with H : int_ok _ _ _ |- _ => apply H end.
    + match goal with H : v_dur _ _ = Some _ |- _ => apply (et_dur V ET _ _ H) end.
  - destruct S as [S NP]. inversion H; subst; [contradiction|apply dp_ptr0|contradiction|].
    match goal with H : stores t _ _ _ |- _ => rename H into STT end. apply dp_ptr.
    + assert (Q' : quotable t) by (destruct t; tauto). apply (IHt Q' S _ _ _ STT). inversion D; subst; [contradiction|apply zero_deep, S|assumption].
    + destruct t; cbn [quotable] in Q; try contradiction; intros [].
Qed.
(** Struct members. *)
Lemma same_field i f g : In f (v_flds V i) -> In g (v_flds V i) -> jf_name f = jf_name g -> f = g.
Proof.
  intros I1 I2 E. pose proof (en_names V NM i) as N. induction (v_flds V i) as [|h l IH]; [destruct I1|]. cbn [map] in N. inversion N as [|? ? N1 N2]; subst.
  destruct I1 as [<-|I1], I2 as [<-|I2]; auto; exfalso; apply N1; [rewrite E|rewrite <- E]; apply in_map; assumption.
Qed.
Lemma at_direct R p : direct p = true -> forall v x y, at_path V R p v x y -> exists a b, get p x = Some a /\ R v a b /\ get p y = Some b.
Proof.
  intros DI v x y H. induction H as [v x y H|l1 x l2 p v y H IH|l1 x l2 s u p v y H IH|l1 l2 s p v y H IH]; cbn [direct] in DI; try discriminate.
  - exists x, y. split; [destruct x; reflexivity|]. split; [exact H|destruct y; reflexivity].
  - destruct (IH DI) as (a & b & G1 & R1 & G2). exists a, b. cbn [get]. rewrite !nth_at. auto.
Qed.
Lemma member_deep i k v l y : (forall f x z, In f (v_flds V i) -> quoted (jf_quot f) (stores (jf_ty f)) v x z -> deep (jf_ty f) x -> deep (jf_ty f) z) ->
  member V F i k v (MList l) y -> deep (YStruct i) (MList l) -> exists l', y = MList l' /\ deep (YStruct i) (MList l').
Proof.
  intros H M D. inversion M as [? ? ? ? PK DA|? ? f ? ? ? PK AP]; subst; [eauto|]. apply OrderFacts.picks_in in PK.
  pose proof (en_inside V NM i f PK) as NE. destruct (path_list V _ _ _ _ _ NE AP) as (l' & ->). exists l'. split; [reflexivity|]. apply dp_struct. intros g IG.
  inversion D as [| | | | | | | | | | | |? ? DF]; subst; [contradiction|]. destruct (SE i f PK) as (DI & _ & _). destruct (DF g IG) as (x & GX & DX).
  destruct (at_direct _ _ DI _ _ _ AP) as (a & b & G1 & R1 & G2).
  destruct (list_eq_dec Z.eq_dec (jf_name f) (jf_name g)) as [E|N].
  - apply (same_field i f g PK IG) in E. subst g. rewrite G1 in GX. injection GX as ->. exists b. split; [exact G2|]. eapply H; eassumption.
  - exists x. split; [|exact DX]. eapply store_get; [exact AP|apply (en_apart V NM i); assumption|exact GX].
Qed.
Lemma members_deep i l : (forall k v f x z, In (k, v) l -> In f (v_flds V i) -> quoted (jf_quot f) (stores (jf_ty f)) v x z -> deep (jf_ty f) x -> deep (jf_ty f) z) ->
  forall x y, members_rel (member V F i) l (MList x) y -> deep (YStruct i) (MList x) -> deep (YStruct i) y.
Proof.
  induction l as [|[k v] l IH]; intros H x y M D; inversion M; subst; [exact D|].
  match goal with M1 : member _ _ _ _ _ _ ?z |- _ => destruct (member_deep i _ v x z (fun f x0 z0 => H k v f x0 z0 (or_introl eq_refl)) M1 D) as (l' & -> & D') end.
  eapply IH; [|eassumption|exact D']. intros k' v' f x' z I1. eapply H. right. exact I1.
Qed.
(** * The main lemma *)
Lemma stores_deep n : forall t, std_ty t -> forall v x y, (length (ntext v) < n)%nat -> jnode v -> clean v -> stores t v x y -> deep t x -> deep t y.
Proof.
  induction n as [n IHn] using lt_wf_ind.
  assert (IHm : forall s l k e x y, (length s < n)%nat -> jnode (ND s (HObj l)) -> clean (ND s (HObj l)) -> std_key k -> std_ty e ->
    map_rel (stores e) (zero e) (key_means V k) mkey_eqb (ND s (HObj l)) x y -> deep (YMap k e) (MMap x) -> deep (YMap k e) (MMap y)).
  { intros s l k e x y L J C SK SY MR D. eapply map_deep; [exact SK|exact SY| |exact MR|exact D]. intros a z IA ST.
    pose proof (obj_small s l J) as SM. rewrite Forall_forall in SM. destruct (SM a IA) as (_ & Ja & La). pose proof (clean_obj s l C) as CL. rewrite Forall_forall in CL.
    apply (IHn (length s) L e SY (snd a) (zero e) z La Ja (CL a IA) ST). apply zero_deep, SY. }
  induction t; cbn [std_ty]; intros S v x y L J C H D; try contradiction.
  - eapply quot_deep; [| |exact H|exact D]; exact I.
  - eapply quot_deep; [| |exact H|exact D]; exact I.
  - eapply quot_deep; [| |exact H|exact D]; exact I.
  - eapply quot_deep; [| |exact H|exact D]; exact I.
  - inversion H; subst; [contradiction| |].
    + match goal with E : v_b64 _ _ = Some ?b |- _ => rewrite BL in E; apply (proj1 C82_library) in E; apply dp_bytes; [lia|]; eapply Forall_impl; [|exact E]; unfold u8, is_byte; intros; lia end.
    + match goal with SR : slice_rel _ _ _ _ _ |- _ => rename SR into SRR; inversion SRR; subst end; [apply dp_bytes0|].
      match type of SRR with slice_rel _ _ _ ?a _ => assert (FB : Forall is_byte (backing a)) by (inversion D; subst; cbn [backing]; [contradiction|constructor|assumption]) end.
      apply (slice_all _ 0 is_byte) in SRR; [|unfold is_byte; lia|intros v0 x1 y1 _; apply u8_deep|exact FB].
      destruct SRR as (d & E & LE & FD). rewrite E. apply dp_bytes; [exact LE|exact FD].
  - eapply quot_deep; [| |exact H|exact D]; exact I.
  - apply dp_leaf; [exact I|]. inversion H; subst; [apply deep_trip, D|]. match goal with E : v_time _ ?t = Some _ |- _ => rewrite TL in E; destruct (parse_time t) as [g|] eqn:P; [|discriminate]; injection E as <- end.
    apply C85_typed; [exact TL|]. apply (C t g); [cbn [erase]; apply si_str|apply C85_reads, P].
  - apply dp_leaf; [exact I|]. inversion H; subst; [contradiction|]. constructor. match goal with E : ival _ _ _ |- _ => apply (ival_tree _ _ E) end; intros k; eapply (proj1 number_in_lit), jnode_jvalue; eassumption.
  - apply dp_leaf; [exact I|]. inversion H; subst; [contradiction|constructor|]. apply tr_named. match goal with E : ival _ _ _ |- _ => apply (ival_tree _ _ E) end; intros k; eapply (proj1 number_in_lit), jnode_jvalue; eassumption.
  - apply dp_leaf; [exact I|]. inversion H; subst; [contradiction|]. apply tr_raw with (erase v). apply jnode_jvalue, J.
  - inversion H; subst; [contradiction|]. match goal with AR : array_rel _ _ _ _ |- _ => rename AR into ARR; inversion ARR; subst end; [exact D|].
    match goal with AL : along _ _ _ _ |- _ => rename AL into ALL end. apply dp_array.
    + clear -ALL. induction ALL; cbn [length]; congruence.
    + inversion D; subst; [contradiction|]. match goal with FA : Forall (deep t) _ |- _ => rename FA into FAA end. eapply along_all; [|exact ALL|exact FAA]. intros v0 x1 y1 I1 ST.
      pose proof (arr_small _ _ J) as SM. rewrite Forall_forall in SM. destruct (SM v0 I1) as (Ja & La). pose proof (clean_arr _ _ C) as CL. rewrite Forall_forall in CL. cbn [ntext] in L.
      apply (IHn _ L t S v0 x1 y1 La Ja (CL v0 I1) ST).
  - inversion H; subst; [contradiction|]. match goal with SR : slice_rel _ _ _ _ _ |- _ => rename SR into SRR; inversion SRR; subst end; [apply dp_slice0|].
    match type of SRR with slice_rel _ _ _ ?a _ => assert (FB : Forall (deep t) (backing a)) by (inversion D; subst; cbn [backing]; [contradiction|constructor|assumption]) end.
    apply (slice_all _ (zero t) (deep t)) in SRR; [|apply zero_deep, S| |exact FB].
    + destruct SRR as (d & E & LE & FD). rewrite E. apply dp_slice; [exact LE|exact FD].
    + intros v0 x1 y1 I1 ST. pose proof (arr_small _ _ J) as SM. rewrite Forall_forall in SM. destruct (SM v0 I1) as (Ja & La). pose proof (clean_arr _ _ C) as CL. rewrite Forall_forall in CL. cbn [ntext] in L.
      apply (IHn _ L t S v0 x1 y1 La Ja (CL v0 I1) ST).
  - destruct S as [SK S]. inversion H; subst; [contradiction|]. match goal with MR : map_rel _ _ _ _ _ _ _ |- _ => rename MR into MRR; inversion MRR; subst end; [apply dp_map0|].
    eapply IHm; [exact L|exact J|exact C|exact SK|exact S|exact MRR|exact D].
  - inversion H as [| | | | | | | | | | | | | | | | | | |? ? ? H1| | | | | | |]; subst; [contradiction|]. apply dp_map_si. inversion D; subst; [contradiction|]. clear D.
    match goal with D : deep (YMap _ _) _ |- _ => rename D into DD end. inversion H1; subst; [contradiction|]. match goal with MR : map_rel _ _ _ _ _ _ _ |- _ => rename MR into MRR; inversion MRR; subst end; [apply dp_map0|].
    eapply IHm; [exact L|exact J|exact C|exact I|exact I|exact MRR|exact DD].
  - inversion H as [| | | | | | | | | | | | | | | | | | | |? ? ? H1| | | | | |]; subst; [contradiction|]. apply dp_map_sr. inversion D; subst; [contradiction|]. clear D.
    match goal with D : deep (YMap _ _) _ |- _ => rename D into DD end. inversion H1; subst; [contradiction|]. match goal with MR : map_rel _ _ _ _ _ _ _ |- _ => rename MR into MRR; inversion MRR; subst end; [apply dp_map0|].
    eapply IHm; [exact L|exact J|exact C|exact I|exact I|exact MRR|exact DD].
  - destruct S as [S NP]. inversion H; subst; [contradiction|apply dp_ptr0|contradiction|].
    match goal with H : stores t _ _ _ |- _ => rename H into STT end. apply dp_ptr.
    + apply (IHt S _ _ _ L J C STT). inversion D; subst; [contradiction|apply zero_deep, S|assumption].
    + eapply stores_nonnull; [exact S|exact NP|exact J|assumption|exact STT].
  - inversion H; subst; [contradiction|]. match goal with SR : struct_rel _ _ _ _ |- _ => inversion SR; subst end; [exact D|].
    match goal with MR : members_rel _ _ _ _ |- _ => rename MR into MRR end. eapply members_deep; [|exact MRR|exact D]. intros k v0 f x1 y1 I1 IF Q DX.
    destruct (SE i f IF) as (_ & SF & _). pose proof (obj_small _ _ J) as SM. rewrite Forall_forall in SM. destruct (SM _ I1) as (_ & Ja & La). cbn [snd] in Ja, La.
    pose proof (clean_obj _ _ C) as CL. rewrite Forall_forall in CL. specialize (CL _ I1). cbn [snd] in CL. cbn [ntext] in L.
    assert (QT : jf_quot f <> QNo -> quotable (jf_ty f)) by (intros N; apply (ok_quot V OK i f IF N)).
    inversion Q; subst.
    + apply (IHn _ L _ SF v0 x1 y1 La Ja CL); assumption.
    + eapply quot_deep; [apply QT; assumption|exact SF|eassumption|exact DX].
    + eapply quot_deep; [apply QT; congruence|exact SF|eassumption|exact DX].
    + eapply quot_deep; [apply QT; congruence|exact SF|eassumption|exact DX].
Qed.
End Std.
