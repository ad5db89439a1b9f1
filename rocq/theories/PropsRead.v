(** Theorems about encoding from memory (ReadModel.v): C71. *)
From Verif Require TripType.
From Verif Require Import Bytes ParseModel IntModel StringModel EncModel DecModel SpecJson SpecString SpecEnc SpecRender SpecTrip SpecRaw TypeModel TypeFacts SpecFit SpecField ViewModel SpecSame ViewFacts ViewTotal AddrModel SpecAddr AddrFacts AddrMain AddrLayout SpecVars VarsFacts AddrSafe
  ReadModel SpecRead ReadFacts ReadSafe PropsType PropsTrip PropsAddr PropsVars.

(** C71, for memory from which a value can be read to its end: Marshal writes what it
    writes for the value that the memory shows, whatever parts of it are shared. *)
Theorem C71_memory_partial V W L xv ind h D t a m n g : lay_ok V L -> env_typed V -> shows V L h D t a m -> via_as V W L xv h D -> view V W n t m = Some g ->
  m_marshal V W L xv h ind n t a = marshal ind g.
Proof. intros LO ET S VA E. unfold m_marshal. rewrite (view_read V W L xv LO ET h D VA n t a m g S E). reflexivity. Qed.
(** There is such a number n for every value of the type. *)
Theorem C71_returns_partial V W L xv ind h D t a m : lay_ok V L -> env_typed V -> env_names V -> fits V t m -> shows V L h D t a m -> via_as V W L xv h D ->
  exists n g, view V W n t m = Some g /\ m_marshal V W L xv h ind n t a = marshal ind g.
Proof. intros LO ET EN FM S VA. destruct (C50_view_exists V W t m ET EN FM) as (n & g & E). exists n, g. split; [exact E|]. eapply C71_memory_partial; eassumption. Qed.
(** The same value anywhere else, with other parts shared, gives the same output. *)
Theorem C71_sharing_partial V W L xv ind h D a h' D' a' t m n g : lay_ok V L -> env_typed V -> shows V L h D t a m -> shows V L h' D' t a' m ->
  via_as V W L xv h D -> via_as V W L xv h' D' -> view V W n t m = Some g -> m_marshal V W L xv h ind n t a = m_marshal V W L xv h' ind n t a'.
Proof. intros LO ET S S' VA VA' E. rewrite (C71_memory_partial V W L xv ind h D t a m n g), (C71_memory_partial V W L xv ind h' D' t a' m n g); auto. Qed.
(** Memory that holds a value in the sense of C69 shows it. *)
Theorem C71_holds V L h t a m D : lay_ok V L -> holds_at V L h t a m D -> shows V L h (union (seg a (l_size L t)) D) t a m.
Proof. intros LO (R & _). apply rep_shows; assumption. Qed.
(** Nothing else than the memory of the value matters. *)
Theorem C71_only_partial V W L xv ind h h' D t a m n g : lay_ok V L -> env_typed V -> shows V L h D t a m -> via_as V W L xv h D -> via_as V W L xv h' D -> view V W n t m = Some g ->
  (forall x, D x -> hp h' x = hp h x) -> m_marshal V W L xv h' ind n t a = m_marshal V W L xv h ind n t a.
Proof. intros LO ET S VA VA' E AG. eapply C71_sharing_partial; try eassumption. eapply shows_frame; eassumption. Qed.

(** Whatever refers to whatever in memory: however far Marshal reads, it reads
    variables of the types that they have. *)
Theorem C71_any_memory V W L xv h T t a n : lay_ok V L -> env_typed V -> good V L h T -> typed V L T t a -> m_view V W L xv h n t a <> MWild.
Proof. intros LO ET G TA. exact (view_safe V W L xv LO ET h T G n t a TA). Qed.
(** And only those that can be reached from its type. *)
Theorem C71_any_only V W L xv h h' T t a n : lay_ok V L -> env_typed V -> good V L h T -> typed V L T t a -> (forall i f x, xv i f h' x = xv i f h x) ->
  (forall x k, T x k -> within V L t k -> k <> KPad -> hp h' x = hp h x) -> m_view V W L xv h' n t a = m_view V W L xv h n t a.
Proof. intros LO ET G TA XV AL. exact (view_same V W L xv LO ET h T G h' XV n t a TA AL). Qed.
(** Marshal gives the same result after Unmarshal into a variable from whose type no
    variable of the first one's types can be reached. *)
Theorem C71_after_partial V W F L xv ind h T t a u c b n : lay_ok V L -> env_typed V -> env_ok V -> good V L h T -> typed V L T t a -> typed V L T u c -> flat_slices V L u -> wf b ->
  (forall i f h' x, xv i f h' x = xv i f h x) -> (forall k, within V L t k -> within V L u k -> k = KPad) ->
  m_marshal V W L xv (snd (m_unmarshal V F L u c b h)) ind n t a = m_marshal V W L xv h ind n t a.
Proof.
  intros LO ET EO G TA TC FS WB XV DJ. pose proof (C70_any_memory_partial V F L u c b h T LO ET EO FS WB G TC) as M.
  destruct (m_unmarshal V F L u c b h) as [e h']. destruct M as (_ & _ & T' & M). cbn [snd]. unfold m_marshal.
  rewrite (C71_any_only V W L xv h h' T t a n LO ET G TA); [reflexivity|auto|]. intros x k TX WK NP. apply (mv_frame _ _ _ _ _ _ _ M); [apply (proj1 G x k TX)|].
  intros k' TX' WU. apply NP, DJ; [exact WK|]. rewrite (proj2 G x k k' TX TX'). exact WU.
Qed.

(** * Copying through JSON *)
(** A value that JSON can carry (SpecSame.v), at a, possibly with shared parts: Marshal and
    Unmarshal of the output into a new variable a' returns no errors; the new
    variable holds the same value, in memory of its own, no part of which is used twice; and the old memory is as it was. *)
Theorem C71_copy_partial V W F L xv ind t a h D m : env_ok V -> env_typed V -> env_names V -> lay_ok V L ->
  shows V L h D t a m -> (forall x, D x -> x < nx h) -> via_as V W L xv h D -> fits V t m -> trip V W F t m ->
  exists n out, m_marshal V W L xv h ind n t a = Some (out, None) /\
    let '(a', h1) := alloc (l_size L t) h in
    let '(e, h2) := m_unmarshal V F L t a' out h1 in
    e = None /\ nx h <= a' /\ (exists m', holds_at V L h2 t a' m' (fresh h1 h2) /\ same V t m m') /\
    (forall x, x < nx h -> hp h2 x = hp h x) /\ shows V L h2 D t a m.
Proof.
  intros EO ET EN LO S BD VA FM TR. destruct (C71_returns_partial V W L xv ind h D t a m LO ET EN FM S VA) as (n & g & EV & EM).
  destruct (C50_marshal_partial V W F ind t m n g EO ET EN FM TR EV) as (out & m' & MO & UN & SA). exists n, out. split; [congruence|].
  pose proof (C69_new V L t h LO ET) as NW. pose proof (lo_size V L LO t) as SP. destruct (alloc (l_size L t) h) as [a' h1] eqn:AL.
  assert (P : a' = nx h /\ nx h1 = nx h + l_size L t /\ forall x, x < nx h -> hp h1 x = hp h x).
  { pose proof (alloc_old (l_size L t) h) as AO. rewrite AL in AO. cbn [snd] in AO. injection AL as <- <-. auto. }
  destruct P as (-> & N1 & O1). pose proof (C69_memory_partial V F L t (nx h) out h1 (zero V t) _ LO ET NW) as MM.
  destruct (m_unmarshal V F L t (nx h) out h1) as [e h2]. rewrite UN in MM. destruct MM as (-> & HA & [N2 WO]). split; [reflexivity|]. split; [lia|].
  assert (OLD : forall x, x < nx h -> hp h2 x = hp h x). { intros x X. rewrite WO; [apply O1, X|lia|]. intros [Y|[]]. unfold seg in Y. lia. }
  split; [|split; [exact OLD|eapply shows_frame; [exact S|intros x X; apply OLD, BD, X]]].
  exists m'. split; [|exact SA]. destruct HA as (R & DJ & B). split; [|split].
  - eapply rep_mono; [exact R|]. intros x [[]|X]. exact X.
  - intros x X. apply DJ. right. exact X.
  - intros x [X|X]; apply B; [left; exact X|right; right; exact X].
Qed.

(** * The nodes of PropsVars.v: the second node is referred to twice, by the first one and by an entry of its map. *)
Definition sr_mem : st :=
  St (fun x => match x with
      | 1000 => CLeaf (MInt 1) | 1008 => CPtr (Some 1024) | 1016 => CMap (Some 1048) | 1024 => CLeaf (MInt 2)
      | 1048 => CObj [(MKStr (bs "a"), 1056)] | 1056 => CPtr (Some 1024) | _ => CZero end) 1064.
Definition sr_node : mem := MList [MInt 2; MPtr None; MMap None].
Definition sr_value : mem := MList [MInt 1; MPtr (Some sr_node); MMap (Some [(MKStr (bs "a"), MPtr (Some sr_node))])].
Definition sr_menv : menv := MEnv (fun _ s => inl (Some s)) (fun _ s => inl s) (fun _ _ => false) (fun _ => false) (fun _ _ _ => false).
Definition sr_at (x : Z) : Prop := 1000 <= x < 1064.
Definition sr_xv (i : nat) (f : jfield) (h : st) (a : Z) : bool := false.
Lemma sr_names : env_names rg_env.
Proof.
  constructor.
  - intros [|i]; cbn [v_flds rg_env map jf_name]; repeat constructor; cbn [In]; intros H; repeat destruct H as [H|H]; try discriminate; contradiction.
  - intros [|i] f; cbn [v_flds rg_env In]; intros H; repeat destruct H as [<-|H]; try contradiction; cbn [jf_name]; apply TripType.ascii_utf8; vm_compute; repeat constructor; discriminate.
  - intros [|i] f; cbn [v_flds rg_env In]; intros H; repeat destruct H as [<-|H]; try contradiction; discriminate.
  - intros [|i] f g; cbn [v_flds rg_env In]; intros H H'; repeat destruct H as [<-|H]; try contradiction; repeat destruct H' as [<-|H']; try contradiction; cbn [jf_name jf_path]; intros NE; try congruence;
      repeat first [apply apart_here; cbn; congruence | apply apart_next].
Qed.
Lemma sr_shows : shows rg_env rg_lay sr_mem sr_at (YStruct 0) 1000 sr_value.
Proof.
  assert (OF : l_off rg_lay 0 0 = 0 /\ l_off rg_lay 0 1 = 8 /\ l_off rg_lay 0 2 = 16) by (vm_compute; auto). destruct OF as (O0 & O1 & O2).
  assert (ND : shows rg_env rg_lay sr_mem sr_at (YStruct 0) 1024 sr_node).
  { apply sh_struct; [reflexivity|]. intros [|[|[|k]]] u x N NX; cbn [v_decl rg_env nth_error] in N, NX; try (destruct k; discriminate); injection N as <-; injection NX as <-; rewrite ?O0, ?O1, ?O2.
    - apply sh_leaf; [exact I|unfold sr_at; lia|reflexivity].
    - apply sh_nil; [unfold sr_at; lia|reflexivity].
    - apply sh_map_nil; [unfold sr_at; lia|reflexivity]. }
  apply sh_struct; [reflexivity|]. intros [|[|[|k]]] u x N NX; cbn [v_decl rg_env nth_error] in N, NX; try (destruct k; discriminate); injection N as <-; injection NX as <-; rewrite ?O0, ?O1, ?O2.
  - apply sh_leaf; [exact I|unfold sr_at; lia|reflexivity].
  - eapply sh_ptr; [unfold sr_at; lia|reflexivity|exact ND].
  - eapply (sh_map _ _ _ _ _ _ _ 1048); [unfold sr_at; lia|reflexivity|unfold sr_at; lia|reflexivity|reflexivity|].
    intros [|i] kx s ky x; cbn [nth_error]; [|destruct i; discriminate]. intros [= <- <-] [= <- <-]. eapply sh_ptr; [unfold sr_at; lia|reflexivity|exact ND].
Qed.
Lemma sr_trip F : trip rg_env sr_menv F (YStruct 0) sr_value.
Proof.
  assert (SP : forall l, (forall f x, In f (v_flds rg_env 0) -> get (jf_path f) (MList l) = Some x -> trip rg_env sr_menv F (jf_ty f) x) ->
            (forall f, In f (v_flds rg_env 0) -> get (jf_path f) (MList l) <> None) -> trip rg_env sr_menv F (YStruct 0) (MList l)).
  { intros l H NN. apply tr_struct.
    - exists [], (v_flds rg_env 0). split; [reflexivity|]. split; [constructor|]. apply Forall_forall. intros f IN. right. apply NN, IN.
    - intros f x IN E. split; [apply (H f x IN E)|]. cbn [v_flds rg_env In] in IN. repeat destruct IN as [<-|IN]; try contradiction; repeat constructor.
    - intros f IN. cbn [v_flds rg_env In] in IN. repeat destruct IN as [<-|IN]; try contradiction; cbn; congruence.
    - intros f IN [X _]. discriminate X. }
  assert (ND : trip rg_env sr_menv F (YStruct 0) sr_node).
  { apply SP; cbn [v_flds rg_env In]; intros f; [intros x|]; intros IN; [intros E|]; repeat destruct IN as [<-|IN]; try contradiction; try (vm_compute; discriminate); cbn in E; injection E as <-; constructor. cbn; lia. }
  assert (NP : trip rg_env sr_menv F rg_ptr (MPtr (Some sr_node))) by (apply tr_ptr; [exact ND|exact (fun H => H)]).
  apply SP; cbn [v_flds rg_env In]; intros f; [intros x|]; intros IN; [intros E|]; repeat destruct IN as [<-|IN]; try contradiction; try (vm_compute; discriminate); cbn in E; injection E as <-; cbn [jf_ty].
  - constructor. cbn. lia.
  - exact NP.
  - apply tr_map; [repeat constructor; intros []|]. constructor; [|constructor]. split; [|exact NP]. apply TripType.ascii_utf8. repeat constructor; discriminate.
Qed.
Lemma sr_fits : fits rg_env (YStruct 0) sr_value.
Proof. unfold sr_value, sr_node. repeat first [apply Forall_nil | apply Forall_cons | apply Forall2_nil | apply Forall2_cons | split | constructor; cbn; try lia]. Qed.
Lemma sr_via : via_as rg_env sr_menv rg_lay sr_xv sr_mem sr_at.
Proof. intros i f a m _ _ _. reflexivity. Qed.
Definition sr_no (_ _ _ : bytes) : option bytes := None.
Definition sr_text : bytes := bs "{""v"":1,""n"":{""v"":2,""n"":null,""m"":null},""m"":{""a"":{""v"":2,""n"":null,""m"":null}}}".
Example C71_case : lay_ok rg_env rg_lay /\ env_ok rg_env /\ env_typed rg_env /\ env_names rg_env /\ shows rg_env rg_lay sr_mem sr_at (YStruct 0) 1000 sr_value /\
  fits rg_env (YStruct 0) sr_value /\ trip rg_env sr_menv ex_flags (YStruct 0) sr_value /\ via_as rg_env sr_menv rg_lay sr_xv sr_mem sr_at /\
  m_marshal rg_env sr_menv rg_lay sr_xv sr_mem sr_no 2 (YStruct 0) 1000 = Some (sr_text, None) /\
  (* a ring: Marshal does not come to an end *)
  forall n, m_view rg_env sr_menv rg_lay sr_xv rg_mem n (YStruct 0) 1000 = MDeep.
Proof.
  split; [apply C69_layout, rg_typed|]. split; [apply rg_ok|]. split; [apply rg_typed|]. split; [apply sr_names|]. split; [apply sr_shows|]. split; [apply sr_fits|]. split; [apply sr_trip|]. split; [apply sr_via|].
  split; [vm_compute; reflexivity|].
  assert (OF : l_off rg_lay 0 0 = 0 /\ l_off rg_lay 0 1 = 8 /\ l_off rg_lay 0 2 = 16) by (vm_compute; auto). destruct OF as (O0 & O1 & O2).
  assert (H : forall n, m_view rg_env sr_menv rg_lay sr_xv rg_mem n (YStruct 0) 1000 = MDeep /\ m_view rg_env sr_menv rg_lay sr_xv rg_mem n (YStruct 0) 1024 = MDeep); [|intros n; apply H].
  induction n as [|n [IH1 IH2]]; [split; reflexivity|]. split; rewrite m_view_eq; cbn [v_flds rg_env map jf_path r_field v_decl nth_error]; rewrite O0, O1, O2; cbn [direct jf_ty r_empty].
  - rewrite (m_view_eq _ _ _ _ _ n (YInt TInt64)), (m_view_eq _ _ _ _ _ n rg_ptr). cbn -[m_view]. rewrite IH2. reflexivity.
  - rewrite (m_view_eq _ _ _ _ _ n (YInt TInt64)), (m_view_eq _ _ _ _ _ n rg_ptr). cbn -[m_view]. rewrite IH1. reflexivity.
Qed.
(** The ring of PropsVars.v, and a new variable of type bool. *)
Definition sr_vars : vars := tplus rg_vars (block rg_env rg_lay YBool 1064).
Definition sr_more : st := snd (alloc (l_size rg_lay YBool) rg_mem).
Example C71_any_case : good rg_env rg_lay sr_more sr_vars /\ typed rg_env rg_lay sr_vars (YStruct 0) 1000 /\ typed rg_env rg_lay sr_vars YBool 1064 /\ flat_slices rg_env rg_lay YBool /\
  (forall k, within rg_env rg_lay (YStruct 0) k -> within rg_env rg_lay YBool k -> k = KPad).
Proof.
  destruct (moves_new rg_env rg_lay (C69_layout _ rg_typed) rg_typed YBool YBool rg_vars rg_mem (l_size rg_lay YBool) rg_good eq_refl) as [M TB].
  assert (BK : forall t k, within rg_env rg_lay t k -> t = YBool -> k = KVar YBool \/ k = KPad).
  { intros t k W. induction W as [t a x u C|t e k W1 IH1 W2 _|t s e k W1 IH1 E W2 _|t m kk e W1 IH1 E|t m kk e k W1 IH1 E W2 _|t]; intros ->; try (destruct (IH1 eq_refl) as [[= ->]|]; discriminate); auto. inversion C; subst. auto. }
  split; [exact (mv_good _ _ _ _ _ _ _ M)|]. split; [eapply typed_mono; [|apply (mv_keep _ _ _ _ _ _ _ M)]; apply typed_block; unfold rg_vars; auto|]. split; [exact TB|]. split.
  - intros s e W E. destruct (BK _ _ W eq_refl) as [[= ->]|]; discriminate.
  - intros k W1 W2. destruct (BK _ _ W2 eq_refl) as [-> | ->]; [|reflexivity]. destruct (rg_kinds _ _ W1 (or_introl eq_refl)) as [|[|[|[|]]]]; discriminate.
Qed.

Print Assumptions C71_memory_partial.
Print Assumptions C71_returns_partial.
Print Assumptions C71_sharing_partial.
Print Assumptions C71_holds.
Print Assumptions C71_only_partial.
Print Assumptions C71_any_memory.
Print Assumptions C71_any_only.
Print Assumptions C71_after_partial.
Print Assumptions C71_copy_partial.
