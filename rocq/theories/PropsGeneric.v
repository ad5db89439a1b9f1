(** Theorems about targets of generic types: C97. *)
From Verif Require Import Bytes ParseModel IntModel StringModel EncModel DecModel SpecJson SpecString SpecDec DecLoops ParseFacts IntFacts DecFacts ExactFloat
  TypeModel SpecType SpecFit SpecGeneric NodeFacts TypeLoops TypeFacts TypeMain TypeSound TypeSafe PropsDec PropsType PropsAgain AgainFacts.

Section Generic.
Context (V : tenv) (F : dflags).
Notation stores := (stores V F).
Definition boxed (kv : bytes * jv) : mkey * mem := (MKStr (fst kv), MIface (snd kv)).
Lemma set_boxed k v m : map boxed (map_set beqb k v m) = map_set mkey_eqb (MKStr k) (MIface v) (map boxed m).
Proof. induction m as [|[k' v'] m IH]; [reflexivity|]. cbn [map_set map boxed fst snd mkey_eqb]. destruct (beqb k' k); cbn [map]; [reflexivity|now rewrite IH]. Qed.
Lemma add_boxed kvs m : map boxed (add_all beqb kvs m) = add_all mkey_eqb (map boxed kvs) (map boxed m).
Proof.
  revert m. induction kvs as [|[k v] kvs IH]; intros m; [reflexivity|]. unfold add_all in *. cbn [fold_left map boxed fst snd]. rewrite IH, set_boxed. reflexivity.
Qed.
Lemma boxed_inj a b : map boxed a = map boxed b -> a = b.
Proof.
  revert b. induction a as [|[k v] a IH]; intros [|[k' v'] b] H; try discriminate; [reflexivity|]. cbn [map boxed fst snd] in H. injection H as -> -> H. now rewrite (IH _ H).
Qed.
Lemma iface_iff nd x y : stores YIface nd (MIface x) y <-> exists v, y = MIface v /\ ival (num V F) (erase nd) v.
Proof.
  split; [intros H; inversion H; subst; [contradiction|]; eauto|]. intros (v & -> & IV). now constructor.
Qed.
Lemma zero_iface : zero V YIface = MIface JVNull.
Proof. unfold zero. destruct (v_depth V); reflexivity. Qed.
Definition erase2 (kv : bytes * node) : bytes * jast := match kv with (k, v) => (k, erase v) end.
Lemma entries_boxed l kvs' : Forall2 (entry (stores YIface) (zero V YIface) (key_means V KYString)) l kvs' <->
  exists kvs, kvs' = map boxed kvs /\ Forall2 (fun la kv => str_means (fst la) (fst kv) /\ ival (num V F) (snd la) (snd kv)) (map erase2 l) kvs.
Proof.
  rewrite zero_iface. split.
  - induction 1 as [|[lit w] [k m] l kvs' [E1 E2] E (kvs & -> & IH)]; [exists []; split; constructor|]. cbn [fst snd] in *. inversion E1; subst. apply iface_iff in E2 as (v & -> & IV).
    exists ((t, v) :: kvs). split; [reflexivity|]. cbn [map erase2]. constructor; [split; assumption|exact IH].
  - intros (kvs & -> & H). revert kvs H. induction l as [|[lit w] l IH]; intros kvs H; inversion H as [|? [k v] ? ? [M IV] H']; subst; [constructor|]. cbn [map boxed erase2 fst snd] in *.
    constructor; [|now apply IH]. split; cbn [fst snd]; [now constructor|]. apply iface_iff. exists v. split; [reflexivity|exact IV].
Qed.
Lemma num_scalar s v : num V F s v -> (exists t, v = JVNumber t) \/ (exists f, v = JVFloat f).
Proof. unfold num. destruct (d_usenum F); [eauto|intros (f & _ & ->); eauto]. Qed.
Lemma to_nd b a : env_ok V -> jtext b a -> exists nd, jnode nd /\ erase nd = a /\ forall t x y, unmarshal V F t b x = (None, y) <-> stores t nd x y.
Proof.
  intros OK J. destruct (C42_every_text b a J) as (w1 & nd & w2 & -> & W1 & JN & W2 & E). exists nd. split; [exact JN|]. split; [exact E|]. intros t x y. now apply C42_accepts_iff.
Qed.

(** * C97: generic targets agree *)
Theorem C97_map b a x kvs : env_ok V -> jtext b a ->
  unmarshal V F YIface b (MIface x) = (None, MIface (JVMap kvs)) <-> unmarshal V F YMapSI b (MMap None) = (None, as_map kvs).
Proof.
  intros OK J. destruct (to_nd b a OK J) as ([s h] & JN & E & TN). rewrite !TN, iface_iff. change (as_map kvs) with (MMap (Some (map boxed kvs))). split.
  - intros (v & [= <-] & IV). destruct h; cbn [erase] in IV; inversion IV as [| | |? ? N| | |l' kvs' FE]; subst; try (destruct (num_scalar _ _ N) as [(t & T)|(t & T)]; discriminate).
    apply st_map_si, st_map. rewrite add_boxed. cbn [map]. apply (mr_obj _ _ _ _ s l None). apply entries_boxed. exists kvs'. split; [reflexivity|]. exact FE.
  - intros H. inversion H as [| | | | | | | | | | | | | | | | | | |? ? ? S| | | | | | |]; subst. inversion S as [| | | | | | | | | | | | | | | | | |? ? ? ? ? M| | | | | | | |]; subst.
    inversion M as [|? l ? kvs' FE EQ1 EQ2 EQ3]; subst. apply entries_boxed in FE as (kvs0 & -> & FE). cbn [entries] in *. change (@nil (mkey * mem)) with (map boxed []) in *. rewrite <- add_boxed in *.
    match goal with Q : map boxed _ = map boxed _ |- _ => apply boxed_inj in Q; subst kvs end. exists (JVMap (add_all beqb kvs0 [])). split; [reflexivity|]. cbn [erase]. constructor. exact FE.
Qed.
(** map[string]interface{} is decoded like any other map. *)
Theorem C97_map_types b a x y : env_ok V -> jtext b a ->
  unmarshal V F YMapSI b x = (None, y) <-> unmarshal V F (YMap KYString YIface) b x = (None, y).
Proof.
  intros OK J. destruct (to_nd b a OK J) as (nd & JN & E & TN). rewrite !TN. split; [intros H; inversion H; subst; [contradiction|assumption]|now constructor].
Qed.
Theorem C97_slice b a x vs : env_ok V -> jtext b a ->
  unmarshal V F YIface b (MIface x) = (None, MIface (JVArr vs)) <-> exists m, as_slice vs m /\ unmarshal V F (YSlice YIface) b (MSlice None) = (None, m).
Proof.
  intros OK J. destruct (to_nd b a OK J) as ([s h] & JN & E & TN). rewrite !TN, iface_iff.
  assert (ON : forall l ys, onto (stores YIface) (zero V YIface) l [] ys <-> exists vs, ys = map MIface vs /\ Forall2 (ival (num V F)) (map erase l) vs).
  { rewrite zero_iface. intros l. induction l as [|w l IH]; intros ys.
    - split; [intros H; inversion H; subst; exists []; split; [reflexivity|constructor]|]. intros (vs0 & -> & H). inversion H; subst. constructor.
    - split.
      + intros H. inversion H as [|? ? ? y ys' H1 H2]; subst. cbn [hd tl] in *. apply iface_iff in H1 as (v & -> & IV). apply IH in H2 as (vs0 & -> & FV). exists (v :: vs0). split; [reflexivity|]. cbn [map]. now constructor.
      + intros (vs0 & -> & H). cbn [map] in H. inversion H as [|? v ? vs1 IV FV]; subst. cbn [map]. constructor; cbn [hd tl]; [apply iface_iff; eauto|]. apply IH. eauto. }
  split.
  - intros (v & [= <-] & IV). destruct h; cbn [erase] in IV; inversion IV as [| | |? ? N| |? ? FV|]; subst; try (destruct (num_scalar _ _ N) as [(t & T)|(t & T)]; discriminate).
    destruct (grows_any _ 0%nat (length l) (le_n _)) as (c & G). assert (LV : length l = length vs) by (apply SpellFacts.f2_length in FV; rewrite map_length in FV; exact FV).
    eexists. split; [|apply TN, st_slice, (sr_arr _ _ s l None (map MIface vs) c); [apply ON; eauto|exact G]]. cbn [backing]. rewrite LV. eexists. reflexivity.
  - intros (m & (spare & ->) & H). apply TN in H. inversion H as [| | | | | | | | | | | | | | | | |? ? ? ? SR| | | | | | | | |]; subst. inversion SR as [|? l ? ys c O G]; subst.
    cbn [backing] in O. apply ON in O as (vs0 & EQ & FV). assert (LV : length l = length vs0) by (apply SpellFacts.f2_length in FV; rewrite map_length in FV; exact FV).
    exists (JVArr vs). split; [reflexivity|]. cbn [erase]. constructor.
    replace vs with vs0; [exact FV|]. subst ys. assert (LE : length vs0 = length vs) by lia.
    match goal with Q : map MIface vs0 ++ _ = map MIface vs ++ _ |- _ => revert Q end. clear - LE.
    match goal with |- _ ++ ?z = _ -> _ => generalize z end. intros z. revert vs LE. induction vs0 as [|v vs0 IH]; intros [|v' vs] LE Q; try discriminate; [reflexivity|].
    cbn [map app] in Q. injection Q as <- Q. cbn [length] in LE. f_equal. apply IH; [lia|exact Q].
Qed.
(** Scalars and null: whatever either variable held. *)
Theorem C97_scalar b a x v t x' y : env_ok V -> jtext b a ->
  unmarshal V F YIface b (MIface x) = (None, MIface v) -> as_scalar v t y -> shape_of t x' -> unmarshal V F t b x' = (None, y).
Proof.
  intros OK J. destruct (to_nd b a OK J) as ([s h] & JN & E & TN). rewrite !TN, iface_iff. intros (w & [= <-] & IV) A SH.
  destruct A; destruct x'; cbn [shape_of] in SH; try contradiction; destruct h; cbn [erase] in IV; inversion IV as [| | |? ? N| | |]; subst;
    try (destruct (num_scalar _ _ N) as [(t & T)|(t & T)]; discriminate).
  - constructor.
  - constructor.
  - constructor. unfold num in N. destruct (d_usenum F); [discriminate|]. destruct N as (f' & N & [= <-]). exact N.
  - unfold num in N. destruct (d_usenum F); [injection N as ->; constructor|]. destruct N as (f' & _ & [=]).
  - now constructor.
  - apply st_map_si, st_map. constructor.
  - apply st_slice. constructor.
Qed.
End Generic.

(** Non-vacuity: an object with a repeated key, and an array. *)
Definition gn_obj : bytes := bs "{""a"":[1],""b"":null,""a"":{""c"":true}}".
Definition gn_arr : bytes := bs "[""x"",{""c"":true},[]]".
Example C97_holds : env_ok ex_env /\ (exists a, jtext gn_obj a) /\ (exists a, jtext gn_arr a) /\
  (let m := [(bs "a", JVMap [(bs "c", JVBool true)]); (bs "b", JVNull)] in
   unmarshal ex_env (DFlags true false false) YIface gn_obj (MIface JVNull) = (None, MIface (JVMap m)) /\
   unmarshal ex_env (DFlags true false false) YMapSI gn_obj (MMap None) = (None, as_map m)) /\
  unmarshal ex_env (DFlags true false false) YIface gn_arr (MIface JVNull) = (None, MIface (JVArr [JVString (bs "x"); JVMap [(bs "c", JVBool true)]; JVArr []])) /\
  unmarshal ex_env (DFlags true false false) YString (bs """x""") (MStr (bs "old")) = (None, MStr (bs "x")).
Proof.
  split; [exact ex_env_ok|]. split; [apply is_text; vm_compute; reflexivity|]. split; [apply is_text; vm_compute; reflexivity|].
  split; [split; vm_compute; reflexivity|]. split; vm_compute; reflexivity.
Qed.
(** With a map that already has entries the two differ: an interface gets a new
    map, a map keeps the entries it has. *)
Theorem C97_kept_entries_refuted : ~ forall b a x m kvs, jtext b a ->
  unmarshal ex_env (DFlags true false false) YIface b (MIface x) = (None, MIface (JVMap kvs)) -> unmarshal ex_env (DFlags true false false) YMapSI b (MMap m) = (None, as_map kvs).
Proof.
  intros H. destruct (is_text (bs "{}")) as (a & J); [reflexivity|vm_compute; reflexivity|]. specialize (H _ a JVNull (Some [(MKStr (bs "k"), MIface JVNull)]) [] J ltac:(vm_compute; reflexivity)). vm_compute in H. discriminate H.
Qed.
Print Assumptions C97_map.
Print Assumptions C97_map_types.
Print Assumptions C97_slice.
Print Assumptions C97_scalar.
Print Assumptions C97_kept_entries_refuted.
