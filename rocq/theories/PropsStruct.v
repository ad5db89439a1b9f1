(** Properties of the computation of JSON fields from struct declarations. *)
From Coq Require Import Sorting.Sorted.
From Verif Require Import Bytes Utf8Model SpecString Utf8Facts IntModel EncModel DecModel TypeModel DecFacts SpecFit SpecField StructModel SpecStruct TypeFacts TypeMain StructFacts StructSel StructMain
  SpecJson SpecRender SpecTrip SpecDec ViewModel SpecSame.

Section Props.
Context (letter : Z -> bool) (decls : nat -> list sfield).

(** C51.  The JSON fields of a struct type, with their names, options and order,
    are those of the rules of encoding/json: the dominant candidates in the
    order of declaration.  Partial: for declarations with proper tags
    ([plain_tags]), whose name clashes are between a field and promoted ones or
    between fields promoted from the first level ([clear_names]), and in which no
    embedded struct leads back to the struct it is embedded in ([no_cycles]);
    each hypothesis is needed, see the refutations below. *)
Theorem C51_fields_partial N root i :
  plain_tags letter decls -> clear_names letter decls -> no_cycles decls -> closed decls N root -> reaches decls root i ->
  go_fields letter decls i (pairs (flds_of letter decls (S N) root i)).
Proof. intros PT CN NC CL R. apply fields_exact; assumption. Qed.

Lemma before_asym p q : before p q -> before q p -> False.
Proof. induction 1 as [a b p q L|a b p q E B IH]; intros X; inversion X; subst; [lia|lia|lia|auto]. Qed.
Lemma order_unique : forall l1 l2, in_decl_order l1 -> in_decl_order l2 -> (forall f, In f l1 <-> In f l2) -> l1 = l2.
Proof.
  induction l1 as [|x l1 IH]; intros [|y l2] S1 S2 E; [reflexivity|destruct (proj2 (E y) (or_introl eq_refl))|destruct (proj1 (E x) (or_introl eq_refl))|].
  inversion S1 as [|? ? F1 T1]; inversion S2 as [|? ? F2 T2]; subst. rewrite Forall_forall in F1, F2.
  assert (x = y) as <-.
  { destruct (proj1 (E x) (or_introl eq_refl)) as [X|X]; [auto|]. destruct (proj2 (E y) (or_introl eq_refl)) as [Y|Y]; [auto|].
    destruct (before_asym _ _ (F1 _ Y) (F2 _ X)). }
  f_equal. apply IH; [assumption|assumption|]. intros f. split; intros I1.
  - destruct (proj1 (E f) (or_intror I1)) as [<-|X]; [|exact X]. destruct (before_asym _ _ (F1 _ I1) (F1 _ I1)).
  - destruct (proj2 (E f) (or_intror I1)) as [<-|X]; [|exact X]. destruct (before_asym _ _ (F2 _ I1) (F2 _ I1)).
Qed.
Theorem C51_rules_determine i l l' : go_fields letter decls i l -> go_fields letter decls i l' -> l = l'.
Proof. intros [A1 A2] [B1 B2]. apply order_unique; try assumption. intros [f om]. rewrite A1, B1. reflexivity. Qed.

(** C53.  A struct value is treated the same wherever it occurs: on its own, or
    inside any other value.  Partial: as C51. *)
Theorem C53_same_everywhere_partial N root root' i :
  plain_tags letter decls -> clear_names letter decls -> no_cycles decls -> closed decls N root -> closed decls N root' ->
  reaches decls root i -> reaches decls root' i ->
  pairs (flds_of letter decls (S N) root i) = pairs (flds_of letter decls (S N) root' i).
Proof. intros. apply (C51_rules_determine i); apply C51_fields_partial; assumption. Qed.

(** C52.  Whatever the declarations: every JSON field is a field of the struct
    type, or of one it embeds, in the place and of the type declared; the fields
    come in the order of declaration, none twice; no promoted field has the name
    of another field; only numbers, booleans and strings are quoted. *)
Theorem C52_fields_sound n root i V : (forall j, v_decl V j = map sf_ty (decls j)) ->
  let l := flds_of letter decls n root i in
  (forall s, In s l -> leads V (YStruct i) (jf_path (se_field s)) (jf_ty (se_field s)) /\ jf_path (se_field s) <> [] /\
                       (jf_quot (se_field s) <> QNo -> quotable (jf_ty (se_field s)))) /\
  in_decl_order (pairs l) /\
  (forall s s', In s l -> In s' l -> jf_name (se_field s) = jf_name (se_field s') -> s <> s' ->
                length (jf_path (se_field s)) = 1%nat /\ length (jf_path (se_field s')) = 1%nat).
Proof.
  intros VD l. destruct (flds_good letter decls n root i) as [E|G].
  { fold l in E. rewrite E. split; [intros s []|]. split; [constructor|intros s s' []]. }
  fold l in G. destruct G as (GM & GS & GN & _). split; [|split; [apply pairs_order, GS|]].
  - intros s IS. destruct (GM s IS) as (tg & MC & _). split; [|split; [eapply mcand_nonnil, MC|]].
    + clear - MC VD. induction MC as [i k f n tg om q N P|i k f j ptr un g tg om N P M IH].
      * cbn. eapply ld_in; [rewrite VD; apply map_nth_error; exact N|constructor].
      * cbn [jf_path jf_ty]. assert (ST : exists b, struct_type (sf_ty f) j b /\ b = ptr).
        { revert P. unfold plan_of. destruct (negb (sf_exported f) && negb (sf_anon f)); [discriminate|]. cbv zeta. destruct (beqb _ _ && _); [discriminate|].
          destruct (sf_anon f && _); [|discriminate]. destruct (struct_kind (sf_ty f)) as [[j' ptr']|] eqn:K; [|destruct (negb (sf_exported f)); discriminate].
          intros E. injection E as <- <- _. apply struct_kind_iff in K. eauto. }
        destruct ST as (b & ST & ->). unfold via. inversion ST as [j' E1 E2 E3|j' E1 E2 E3]; subst.
        -- eapply ld_in; [rewrite VD; apply map_nth_error; exact N|]. rewrite <- E1. exact IH.
        -- eapply ld_via; [rewrite VD, (map_nth_error _ _ _ N), <- E1; reflexivity|exact IH].
    + clear - MC. induction MC as [i k f n tg om q N P|i k f j ptr un g tg om N P M IH]; [|exact IH]. cbn. intros Q. revert P. unfold plan_of.
      destruct (negb (sf_exported f) && negb (sf_anon f)); [discriminate|]. cbv zeta. destruct (beqb _ _ && _); [discriminate|].
      assert (X : forall nm t o b, PField nm t o (if b : bool then stringify (sf_ty f) else QNo) = PField n tg om q -> quotable (sf_ty f)).
      { intros nm t o b E. injection E as _ _ _ E. destruct b; [|congruence]. subst q. destruct (sf_ty f) as [| | | | | | | | | | | | | | | |u|i'| | |]; cbn in *; try exact I; try congruence. destruct u; cbn in *; try exact I; congruence. }
      destruct (sf_anon f && _); [|apply X]. destruct (struct_kind (sf_ty f)) as [[j' ptr']|]; [discriminate|]. destruct (negb (sf_exported f)); [discriminate|apply X].
  - intros s s' I1 I2 EN NE. apply GN; try assumption. intros EP. apply NE. clear - GS EP I1 I2. induction GS as [|x r SS IH F]; [destruct I1|]. rewrite Forall_forall in F.
    destruct I1 as [->|I1], I2 as [->|I2]; [reflexivity| | |auto].
    + specialize (F _ I2). rewrite EP in F. destruct (before_neq _ _ F eq_refl).
    + specialize (F _ I1). rewrite <- EP in F. destruct (before_neq _ _ F eq_refl).
Qed.

(** Whatever the declarations: the name and the options of every JSON field are
    those its declaration gives. *)
Lemma plan_names f n tg om q : wf (sf_tag f) -> plan_of letter f = PField n tg om q ->
  (exists tagged, json_name letter f n tagged) /\ sf_tag f <> bs "-" /\ (sf_exported f = true \/ sf_anon f = true) /\
  (om = true <-> has_option f (bs "omitempty")) /\
  (has_option f (bs "string") /\ q = string_kind (sf_ty f) \/ ~ has_option f (bs "string") /\ q = QNo).
Proof.
  intros W. destruct (tag_exists (sf_tag f)) as (h & os & T). unfold plan_of. pose proof (proj1 (tag_split _ _ _) T) as E. rewrite E.
  destruct (negb (sf_exported f) && negb (sf_anon f)) eqn:EX; [discriminate|]. cbv zeta.
  match goal with |- (if ?c then _ else _) = _ -> _ => destruct c eqn:DASH end; [discriminate|].
  assert (K : forall nm b, PField nm b (existsb (fun t => beqb t (bs "omitempty")) os) (if existsb (fun t => beqb t (bs "string")) os then stringify (sf_ty f) else QNo) = PField n tg om q ->
    nm = n /\ (om = true <-> has_option f (bs "omitempty")) /\ (has_option f (bs "string") /\ q = string_kind (sf_ty f) \/ ~ has_option f (bs "string") /\ q = QNo)).
  { intros nm b. pose proof (option_iff _ (bs "string") _ _ T) as O1. pose proof (option_iff _ (bs "omitempty") _ _ T) as O2.
    set (oe := existsb (fun t => beqb t (bs "omitempty")) os) in *. set (st := existsb (fun t => beqb t (bs "string")) os) in *. clearbody oe st.
    intros X. injection X as <- _ <- <-. split; [reflexivity|]. split; [exact O2|]. rewrite stringify_kind. destruct st; [left; split; [apply O1; reflexivity|reflexivity]|right; split; [intros X; apply O1 in X; discriminate|reflexivity]]. }
  assert (N : exists tagged, json_name letter f (if is_valid_tag letter (if match h with [] => false | _ => true end then h else sf_name f) then (if match h with [] => false | _ => true end then h else sf_name f) else sf_name f) tagged).
  { destruct h as [|c h].
    - exists false. replace (if is_valid_tag letter (sf_name f) then sf_name f else sf_name f) with (sf_name f) by (destruct (is_valid_tag letter _); reflexivity).
      eapply jn_go; [exact T|]. intros [X _]. congruence.
    - assert (wf (c :: h)) as WN by (eapply tag_wf; eassumption). destruct (is_valid_tag letter (c :: h)) eqn:VT.
      + exists true. eapply jn_tag; [exact T|]. apply (valid_tag_iff _ _ WN), VT.
      + exists false. eapply jn_go; [exact T|]. intros X. apply (valid_tag_iff _ _ WN) in X. congruence. }
  assert (ND : sf_tag f <> bs "-").
  { intros X. rewrite X in T. apply tag_split in T. cbn in T. injection T as <- <-. cbn in DASH. discriminate. }
  assert (EA : sf_exported f = true \/ sf_anon f = true) by (destruct (sf_exported f), (sf_anon f); auto; discriminate).
  intros P. assert (K2 : exists b, PField (if is_valid_tag letter (if match h with [] => false | _ => true end then h else sf_name f) then (if match h with [] => false | _ => true end then h else sf_name f) else sf_name f) b
      (existsb (fun t => beqb t (bs "omitempty")) os) (if existsb (fun t => beqb t (bs "string")) os then stringify (sf_ty f) else QNo) = PField n tg om q).
  { revert P. destruct (sf_anon f && _); [|intros P; eexists; exact P]. destruct (struct_kind (sf_ty f)) as [[j ptr]|]; [discriminate|]. destruct (negb (sf_exported f)); [discriminate|intros P; eexists; exact P]. }
  destruct K2 as (b & K2). apply K in K2 as (<- & KO & KQ). auto.
Qed.
Theorem C52_names n root i s : (forall j f, In f (decls j) -> wf (sf_tag f)) -> In s (flds_of letter decls n root i) ->
  exists f, declared_at decls i (jf_path (se_field s)) f /\ jf_ty (se_field s) = sf_ty f /\ (exists tagged, json_name letter f (jf_name (se_field s)) tagged) /\
    sf_tag f <> bs "-" /\ (sf_exported f = true \/ sf_anon f = true) /\ (se_omit s = true <-> has_option f (bs "omitempty")) /\
    (has_option f (bs "string") /\ jf_quot (se_field s) = string_kind (sf_ty f) \/ ~ has_option f (bs "string") /\ jf_quot (se_field s) = QNo).
Proof.
  intros WT IS. destruct (flds_good letter decls n root i) as [E|G]; [rewrite E in IS; destruct IS|].
  destruct G as (GM & _). destruct (GM s IS) as (tg & MC & _). clear - MC WT.
  induction MC as [i k f n tg om q N P|i k f j ptr un g tg om N P M IH].
  - destruct (plan_names f n tg om q (WT _ _ (nth_error_In _ _ N)) P) as (A & B & C & D & E). exists f. split; [apply da_own, N|]. cbn. exact (conj eq_refl (conj A (conj B (conj C (conj D E))))).
  - destruct IH as (f0 & DA & H). exists f0. split; [|exact H]. cbn [jf_path].
    assert (ST : struct_type (sf_ty f) j ptr).
    { revert P. unfold plan_of. destruct (negb (sf_exported f) && negb (sf_anon f)); [discriminate|]. cbv zeta. destruct (beqb _ _ && _); [discriminate|].
      destruct (sf_anon f && _); [|discriminate]. destruct (struct_kind (sf_ty f)) as [[j' ptr']|] eqn:K; [|destruct (negb (sf_exported f)); discriminate].
      intros E. injection E as <- <- _. apply struct_kind_iff in K. exact K. }
    unfold via. inversion ST as [j' E1 E2 E3|j' E1 E2 E3]; subst; [eapply da_in|eapply da_via]; eauto.
Qed.

(** Every field that has a JSON name of its own is there. *)
Theorem C52_own_fields N root i k f n tagged omit q :
  plain_tags letter decls -> closed decls N root -> reaches decls root i ->
  nth_error (decls i) k = Some f -> go_field letter f n tagged omit q ->
  In (JField n [PIn k] (sf_ty f) q, omit) (pairs (flds_of letter decls (S N) root i)).
Proof.
  intros PT CL R NF GF. destruct (build_at_root letter decls N root CL) as (s & B & CA & MR). unfold flds_of. rewrite B.
  assert (L := reach_look letter decls PT s root i CA MR R). destruct (look i s) as [l|] eqn:E; [|congruence].
  destruct (build_good letter decls _ [] _ _ _ B) with (j := i) (l := l) as [[[] _]|G]; [discriminate|exact E|].
  apply pairs_in. exists tagged. apply (proj2 (proj2 (proj2 G)) (k, O)). exists f, n, tagged, omit, q. split; [exact NF|]. split; [|split; reflexivity].
  apply plan_field; [exact (PT i f (nth_error_In _ _ NF))|exact GF].
Qed.

(** Struct types that follow from declarations satisfy what the theorems about
    decoding and the round trip (C46 to C50) assume of them, if the names a
    struct gives to its own fields are distinct. *)
Definition own_names_distinct : Prop := forall i k k' f f' n tg tg' om om' q q',
  nth_error (decls i) k = Some f -> nth_error (decls i) k' = Some f' -> go_field letter f n tg om q -> go_field letter f' n tg' om' q' -> k = k'.
Lemma lossy_utf8 l s : utf8_lossy l s -> ~ In 0xFFFD l -> utf8 l s.
Proof.
  induction 1 as [|r l e s S L IH|c l s N L IH]; intros NI; [constructor|constructor; [exact S|apply IH; intros X; apply NI; right; exact X]|].
  destruct NI. left. reflexivity.
Qed.
Theorem C52_environment n root V :
  plain_tags letter decls -> own_names_distinct -> letter 0xFFFD = false -> (forall i f, In f (decls i) -> valid_utf8 (sf_name f)) ->
  (forall j, v_decl V j = map sf_ty (decls j)) -> (forall j, v_flds V j = map se_field (flds_of letter decls n root j)) ->
  env_names V /\
  (forall i f, In f (v_flds V i) -> leads V (YStruct i) (jf_path f) (jf_ty f)) /\
  (forall i f, In f (v_flds V i) -> jf_quot f <> QNo -> quotable (jf_ty f)).
Proof.
  intros PT ON LF GU VD VF. assert (SO := fun i => C52_fields_sound n root i V VD). cbv zeta in SO.
  assert (INF : forall i f, In f (v_flds V i) -> exists s, In s (flds_of letter decls n root i) /\ se_field s = f).
  { intros i f I1. rewrite VF in I1. apply in_map_iff in I1 as (s & E & I1). eauto. }
  assert (ORD : forall i, StronglySorted (fun a b => before (jf_path (se_field a)) (jf_path (se_field b))) (flds_of letter decls n root i)).
  { intros i. destruct (flds_good letter decls n root i) as [E|G]; [rewrite E; constructor|apply G]. }
  assert (UNIQ : forall i s s', In s (flds_of letter decls n root i) -> In s' (flds_of letter decls n root i) -> jf_name (se_field s) = jf_name (se_field s') -> se_field s = se_field s').
  { intros i s s' I1 I2 EN. assert (G := flds_in letter decls n root i s I1). destruct (proj1 G s I1) as (tg & MC & _). destruct (proj1 G s' I2) as (tg' & MC' & _).
    destruct (list_eq_dec Nat.eq_dec (map idx (jf_path (se_field s))) (map idx (jf_path (se_field s')))) as [E|NP]; [apply (mcand_fun letter decls _ _ _ _ _ _ _ MC MC' E)|].
    destruct (proj1 (proj2 (proj2 G)) s s' I1 I2 EN) as [L1 L2]; [intros E; rewrite E in NP; congruence|].
    exfalso. apply NP. clear - MC MC' L1 L2 EN ON PT.
    remember (se_field s) as a. remember (se_field s') as b. clear Heqa Heqb.
    inversion MC as [i' k f nm t o q N P|i' k f j ptr un g t o N P M]; subst; inversion MC' as [i' k' f' nm' t' o' q' N' P'|i' k' f' j' ptr' un' g' t' o' N' P' M']; subst; cbn in *;
      try (apply mcand_nonnil in M; destruct (jf_path g); [congruence|discriminate]); try (apply mcand_nonnil in M'; destruct (jf_path g'); [congruence|discriminate]).
    subst nm'. f_equal. eapply ON; [exact N|exact N'| |]; (apply plan_field; [|eassumption]); [exact (PT _ _ (nth_error_In _ _ N))|exact (PT _ _ (nth_error_In _ _ N'))]. }
  split; [|split].
  - constructor.
    + intros i. rewrite VF. assert (NDP : NoDup (map se_field (flds_of letter decls n root i))).
      { specialize (ORD i). clear - ORD. induction ORD as [|x l SS IH F]; constructor; [|assumption]. intros I1. rewrite Forall_forall in F. apply in_map_iff in I1 as (y & E & I1). specialize (F _ I1). rewrite E in F. destruct (before_neq _ _ F eq_refl). }
      rewrite map_map. specialize (UNIQ i). clear - NDP UNIQ. induction (flds_of letter decls n root i) as [|x l IH]; cbn [map] in *; [constructor|]. inversion NDP as [|? ? NI ND]; subst. constructor.
      * intros I1. apply in_map_iff in I1 as (y & E & I1). apply NI. rewrite <- (UNIQ y x (or_intror I1) (or_introl eq_refl) E). apply in_map, I1.
      * apply IH; [|exact ND]. intros s s' A B. apply UNIQ; right; assumption.
    + intros i f I1. destruct (INF _ _ I1) as (s & IS & <-). assert (G := flds_in letter decls n root i s IS). destruct (proj1 G s IS) as (tg & MC & _).
      clear - MC PT LF GU. induction MC as [i k f nm tg om q N P|i k f j ptr un g tg om N P M IH]; [|exact IH]. cbn.
      assert (PF := PT i f (nth_error_In _ _ N)). assert (GUF := GU i f (nth_error_In _ _ N)). apply plan_field in P; [|exact PF]. destruct P as (_ & _ & JN & _).
      destruct JN as [m os T (_ & l & LL & FL)|m os T NT]; [|exact GUF]. exists l. apply lossy_utf8; [exact LL|]. intros X. rewrite Forall_forall in FL. destruct (FL _ X) as [Y|Y]; [congruence|].
      vm_compute in Y. repeat destruct Y as [Y|Y]; try discriminate. destruct Y.
    + intros i f I1. destruct (INF _ _ I1) as (s & IS & <-). apply (proj1 (SO i)), IS.
    + intros i f g I1 I2 NN. destruct (INF _ _ I1) as (s & IS & <-). destruct (INF _ _ I2) as (s' & IS' & <-).
      assert (G := flds_in letter decls n root i s IS). destruct (proj1 G s IS) as (tg & MC & _). destruct (proj1 G s' IS') as (tg' & MC' & _).
      assert (NI : map idx (jf_path (se_field s)) <> map idx (jf_path (se_field s'))) by (intros E; apply NN; destruct (mcand_fun letter decls _ _ _ _ _ _ _ MC MC' E) as (-> & _); reflexivity).
      clear - MC MC' NI. revert MC'. revert NI. generalize (se_field s') tg' (se_omit s'). induction MC as [i k f nm tg om q N P|i k f j ptr un g tg om N P M IH]; intros b tb ob NI MC'.
      * inversion MC' as [i' k' f' nm' t' o' q' N' P'|i' k' f' j' ptr' un' g' t' o' N' P' M']; subst; cbn in *.
        -- apply apart_here. cbn. congruence.
        -- apply apart_here. rewrite via_idx. cbn. intros <-. congruence.
      * inversion MC' as [i' k' f' nm' t' o' q' N' P'|i' k' f' j' ptr' un' g' t' o' N' P' M']; subst; cbn in *.
        -- apply apart_here. rewrite via_idx. cbn. intros ->. congruence.
        -- rewrite !via_idx in NI. destruct (Nat.eq_dec k k') as [<-|NK]; [|apply apart_here; rewrite !via_idx; exact NK].
           rewrite N in N'. injection N' as <-. rewrite P in P'. injection P' as <- <- <-. apply apart_next. eapply IH; [|exact M']. congruence.
  - intros i f I1. destruct (INF _ _ I1) as (s & IS & <-). apply (proj1 (SO i)), IS.
  - intros i f I1. destruct (INF _ _ I1) as (s & IS & <-). apply (proj1 (SO i)), IS.
Qed.
End Props.

(** ** A program
    type Person struct {
      ID      int64 `json:"id,string"`
      Address
      *Meta
      Name    string
      Tags    []string `json:"tags,omitempty"`
      secret  int
      Skip    int `json:"-"`
      Friends []*Person
    }
    type Address struct { Street, Name string; Town string `json:"City"` }
    type Meta struct { City string; Rev int } *)
Definition asc (r : Z) : bool := ((48 <=? r) && (r <=? 57)) || ((65 <=? r) && (r <=? 90)) || ((97 <=? r) && (r <=? 122)).
Definition fld (n tag : string) (t : gty) : sfield := SField (bs n) true false (bs tag) t.
Definition emb (n : string) (t : gty) : sfield := SField (bs n) true true [] t.
Definition ex_decls (i : nat) : list sfield :=
  match i with
  | 0 => [fld "ID" "id,string" (YInt TInt64); emb "Address" (YStruct 1); emb "Meta" (YPtr (YStruct 2)); fld "Name" "" YString;
          fld "Tags" "tags,omitempty" (YSlice YString); SField (bs "secret") false false [] (YInt TInt); fld "Skip" "-" (YInt TInt); fld "Friends" "" (YSlice (YPtr (YStruct 0)))]
  | 1 => [fld "Street" "" YString; fld "Name" "" YString; fld "Town" "City" YString]
  | 2 => [fld "City" "" YString; fld "Rev" "" (YInt TInt)]
  | _ => []
  end%nat.

Lemma ex_in i f : In f (ex_decls i) -> In f (ex_decls 0 ++ ex_decls 1 ++ ex_decls 2).
Proof. destruct i as [|[|[|i]]]; [| | |intros []]; intros H; rewrite !in_app_iff; auto. Qed.
(** Checking [plain_tags] by computation. *)
Definition plain_b (letter : Z -> bool) (f : sfield) : bool :=
  forallb (fun c => (0 <=? c) && (c <=? 255)) (sf_tag f) && negb (beqb (sf_name f) (bs "-")) &&
  match split_comma (sf_tag f) with [] => false | n :: _ => match n with [] => true | _ => is_valid_tag letter n end end &&
  (negb (sf_anon f) || sf_exported f || match split_comma (sf_tag f) with [] :: _ => true | _ => match struct_kind (sf_ty f) with Some _ => true | None => false end end).
Lemma plain_check letter f : plain_b letter f = true -> plain letter f.
Proof.
  unfold plain_b. rewrite !andb_true_iff. intros (((W & ND) & T) & U). rewrite forallb_forall in W.
  assert (WF : wf (sf_tag f)) by (apply Forall_forall; intros c I1; specialize (W c I1); unfold is_byte; lia).
  split; [exact WF|]. split; [apply negb_true_iff, beqb_neq in ND; exact ND|].
  split.
  - intros n os TI. assert (WN := tag_wf _ _ _ TI WF). apply tag_split in TI. rewrite TI in T. destruct n as [|c n]; [auto|right]. apply valid_tag_iff; assumption.
  - intros AN EX. rewrite AN, EX in U. cbn [negb orb] in U. destruct (split_comma (sf_tag f)) as [|n os] eqn:E; [destruct (split_nonnil _ E)|]. destruct n as [|c n].
    + left. apply tag_split in E. eapply jn_go; [exact E|]. intros [X _]. congruence.
    + right. destruct (struct_kind (sf_ty f)) as [[j ptr]|] eqn:K; [|discriminate]. exists j, ptr. apply struct_kind_iff, K.
Qed.
Lemma ex_plain : plain_tags asc ex_decls.
Proof.
  intros i f IF. apply ex_in in IF. apply plain_check. revert f IF. apply forallb_forall. vm_compute. reflexivity.
Qed.
(** A tag whose name is not valid (a, a quotation mark, b) gives the field its
    Go name. *)
Example C52_names_case :
  let d := fun i : nat => match i with 0%nat => [SField (bs "A") true false ([97; 34; 98] ++ bs ",omitempty") (YInt TInt)] | _ => [] end in
  map (fun s => (jf_name (se_field s), se_omit s)) (flds_of asc d 4 (YStruct 0) 0) = [(bs "A", true)] /\ (forall j f, In f (d j) -> wf (sf_tag f)).
Proof.
  intros d. split; [vm_compute; reflexivity|]. intros j f IF. destruct j; [|destruct IF]. destruct IF as [<-|[]]. apply Forall_forall. intros c IC. unfold is_byte.
  cbn in IC. repeat (destruct IC as [<-|IC]; [lia|]). destruct IC.
Qed.


(** The candidates of a struct type, by computation (those of paths of at most n
    steps). *)
Fixpoint cands (letter : Z -> bool) (decls : nat -> list sfield) (n i : nat) : list (jfield * bool * bool) :=
  match n with
  | O => []
  | S n' =>
      flat_map (fun e => match e with
        | (k, f) => match plan_of letter f with
                    | PSkip => []
                    | PField nm tg om q => [(JField nm [PIn k] (sf_ty f) q, tg, om)]
                    | PEmbed j ptr un => map (fun c => match c with (g, tg, om) => (JField (jf_name g) (via k j ptr un :: jf_path g) (jf_ty g) (jf_quot g), tg, om) end) (cands letter decls n' j)
                    end
        end) (combine (seq 0 (length (decls i))) (decls i))
  end.
Lemma combine_nth {A} (l : list A) : forall n k x, nth_error l k = Some x -> In ((n + k)%nat, x) (combine (seq n (length l)) l).
Proof.
  induction l as [|y l IH]; intros n k x E; [destruct k; discriminate|]. destruct k as [|k]; cbn in *.
  - injection E as ->. left. f_equal. lia.
  - right. replace (n + S k)%nat with (S n + k)%nat by lia. apply IH, E.
Qed.
Lemma cands_all letter decls n i f tg om : mcand letter decls i f tg om -> (length (jf_path f) <= n)%nat -> In (f, tg, om) (cands letter decls n i).
Proof.
  intros MC. revert n. induction MC as [i k f nm tg om q N P|i k f j ptr un g tg om N P M IH]; intros [|n] L; cbn [jf_path length] in L; try lia; cbn [cands].
  - apply in_flat_map. exists (k, f). split; [apply (combine_nth _ 0), N|]. rewrite P. left. reflexivity.
  - apply in_flat_map. exists (k, f). split; [apply (combine_nth _ 0), N|]. rewrite P. apply in_map_iff. exists (g, tg, om). split; [reflexivity|]. apply IH. lia.
Qed.
(** Candidates have bounded depth if embedding is well founded. *)
Lemma depth_bound letter decls (rk : nat -> nat) : (forall i f j ptr un, In f (decls i) -> plan_of letter f = PEmbed j ptr un -> (rk j < rk i)%nat) ->
  forall i f tg om, mcand letter decls i f tg om -> (length (jf_path f) <= S (rk i))%nat.
Proof.
  intros RK i f tg om MC. induction MC as [i k f nm tg om q N P|i k f j ptr un g tg om N P M IH]; cbn; [lia|]. specialize (RK i f j ptr un (nth_error_In _ _ N) P). lia.
Qed.
Definition clear_pair (f g : jfield) : bool :=
  negb (beqb (jf_name f) (jf_name g)) ||
  match jf_path f, jf_path g with
  | a :: p, b :: q => (idx a =? idx b)%nat || ((length p =? 0) && (0 <? length q) || (length q =? 0) && (0 <? length p) || (length p =? 1) && (length q =? 1))%nat
  | _, _ => true
  end.
Lemma clear_check letter decls M (rk : nat -> nat) N : plain_tags letter decls ->
  (forall i f j ptr un, In f (decls i) -> plan_of letter f = PEmbed j ptr un -> (rk j < rk i)%nat) -> (forall i, (rk i < M)%nat) ->
  (forall i, (N <= i)%nat -> decls i = []) ->
  forallb (fun i => let l := cands letter decls M i in forallb (fun a => forallb (fun b => clear_pair (fst (fst a)) (fst (fst b))) l) l) (seq 0 N) = true ->
  clear_names letter decls.
Proof.
  intros PT RK RM DN CH i f g tf tg om om' CF CG EN HH. apply cand_iff in CF, CG; try assumption.
  assert (IB : (i < N)%nat).
  { destruct (le_lt_dec N i) as [L|L]; [|exact L]. specialize (DN i L). destruct CF as [? k ? ? ? ? ? NF|? k ? ? ? ? ? ? ? NF]; rewrite DN in NF; destruct k; discriminate. }
  rewrite forallb_forall in CH. specialize (CH i (proj2 (in_seq _ _ _) (conj (Nat.le_0_l i) IB))). cbv zeta in CH. rewrite forallb_forall in CH.
  assert (LB : forall h t o, mcand letter decls i h t o -> (length (jf_path h) <= M)%nat) by (intros h t o MH; assert (X := depth_bound letter decls rk RK _ _ _ _ MH); specialize (RM i); lia).
  specialize (CH _ (cands_all letter decls M i f tf om CF (LB _ _ _ CF))). rewrite forallb_forall in CH. specialize (CH _ (cands_all letter decls M i g tg om' CG (LB _ _ _ CG))).
  cbn [fst] in CH. unfold clear_pair in CH. rewrite (proj2 (beqb_eq _ _) EN) in CH. cbn [negb orb] in CH. unfold depth. apply mcand_nonnil in CF, CG.
  destruct (jf_path f) as [|a p]; [congruence|]. destruct (jf_path g) as [|b q]; [congruence|]. cbn [map hd_error length] in *.
  apply orb_true_iff in CH as [CH|CH]; [apply Nat.eqb_eq in CH; congruence|]. rewrite !orb_true_iff, !andb_true_iff, !Nat.eqb_eq, !Nat.ltb_lt in CH. lia.
Qed.
Lemma ex_clear : clear_names asc ex_decls.
Proof.
  apply (clear_check asc ex_decls 2 (fun i => match i with O => 1 | _ => 0 end)%nat 3 ex_plain).
  - intros [|[|[|i]]] f j ptr un IF P; cbn in IF; repeat destruct IF as [IF|IF]; subst; try destruct IF; vm_compute in P; try discriminate; injection P as <- _ _; lia.
  - intros [|i]; lia.
  - intros [|[|[|i]]] L; try lia. reflexivity.
  - vm_compute. reflexivity.
Qed.
Lemma ex_no_cycles : no_cycles ex_decls.
Proof.
  exists (fun i => match i with O => 1 | _ => 0 end)%nat. intros [|[|[|i]]] f j IF _ IM; cbn in IF; repeat destruct IF as [IF|IF]; subst; try destruct IF; cbn in IM; repeat destruct IM as [IM|IM]; subst; try destruct IM; (split; [lia|]); cbn; try lia; discriminate.
Qed.
Lemma ex_closed : closed ex_decls 3 (YStruct 0).
Proof.
  split; [intros j [<-|[]]; lia|]. intros [|[|[|i]]] f j IF IM; cbn in IF; repeat destruct IF as [IF|IF]; subst; try destruct IF; cbn in IM; repeat destruct IM as [IM|IM]; subst; try destruct IM; lia.
Qed.
Example C51_case : go_fields asc ex_decls 0 (pairs (flds_of asc ex_decls 4 (YStruct 0) 0)).
Proof. apply C51_fields_partial; [exact ex_plain|exact ex_clear|exact ex_no_cycles|exact ex_closed|]. apply rc_here. left. reflexivity. Qed.
(** id (quoted), Street, City from Address because of its tag, Rev through the
    pointer, Name, tags, Friends; neither Address.Name nor Meta.City. *)
Example C51_case_names : map (fun e => (jf_name (fst e), jf_path (fst e), jf_quot (fst e), snd e)) (pairs (flds_of asc ex_decls 4 (YStruct 0) 0)) =
  [(bs "id", [PIn 0], QInt, false); (bs "Street", [PIn 1; PIn 0], QNo, false); (bs "City", [PIn 1; PIn 2], QNo, false);
   (bs "Rev", [PVia 2 2 false; PIn 1], QNo, false); (bs "Name", [PIn 3], QNo, false); (bs "tags", [PIn 4], QNo, true); (bs "Friends", [PIn 7], QNo, false)]%nat.
Proof. vm_compute. reflexivity. Qed.
Lemma ex_own : own_names_distinct asc ex_decls.
Proof.
  intros i k k' f f' n tg tg' om om' q q' N N' G G'.
  assert (P := proj2 (plan_field asc f n tg om q (ex_plain i f (nth_error_In _ _ N))) G). assert (P' := proj2 (plan_field asc f' n tg' om' q' (ex_plain i f' (nth_error_In _ _ N'))) G').
  destruct i as [|[|[|i]]]; [| | |destruct k; discriminate];
    repeat (destruct k as [|k]; [|try (destruct k; discriminate)]); try discriminate; cbn in N; try (injection N as <-); vm_compute in P; try discriminate;
    repeat (destruct k' as [|k']; [|try (destruct k'; discriminate)]); try discriminate; cbn in N'; try (injection N' as <-); vm_compute in P'; congruence.
Qed.
(** The hypotheses of [C52_environment] hold for this program. *)
Definition ex_senv : tenv := TEnv (fun j => map sf_ty (ex_decls j)) 8 (fun j => map se_field (flds_of asc ex_decls 4 (YStruct 0) j))
  (fun _ _ => None) (fun _ => None) (fun _ => None) (fun _ => None) (fun _ _ y => (None, y)) (fun _ _ y => (None, y)) (fun s => s) (fun c => c).
Example C52_case : env_names ex_senv.
Proof.
  apply (C52_environment asc ex_decls 4 (YStruct 0) ex_senv ex_plain ex_own); try reflexivity. intros i f IF. apply ex_in in IF.
  assert (X : forall f, In f (ex_decls 0 ++ ex_decls 1 ++ ex_decls 2) -> forallb (fun c => (0 <=? c) && (c <? 128)) (sf_name f) = true) by (apply forallb_forall; vm_compute; reflexivity).
  specialize (X f IF). rewrite forallb_forall in X. exists (sf_name f). clear IF. induction (sf_name f) as [|c s IH]; [constructor|]. apply (u8_cons c s [c] s).
  - apply u8_1. specialize (X c (or_introl eq_refl)). lia.
  - apply IH. intros y I1. apply X. right. exact I1.
Qed.

(** ** What fails without the hypotheses of C51 *)
Definition beats (f : jfield) (tg : bool) (c : jfield * bool * bool) : bool :=
  match c with (g, tg', _) =>
    negb (beqb (jf_name g) (jf_name f)) || (if list_eq_dec Nat.eq_dec (map idx (jf_path g)) (map idx (jf_path f)) then true else false) ||
    (depth f <? depth g)%nat || ((depth f =? depth g)%nat && tg && negb tg')
  end.
Lemma dominant_check letter decls M (rk : nat -> nat) i f tg om : plain_tags letter decls ->
  (forall i f j ptr un, In f (decls i) -> plan_of letter f = PEmbed j ptr un -> (rk j < rk i)%nat) -> (forall i, (rk i < M)%nat) ->
  mcand letter decls i f tg om -> forallb (beats f tg) (cands letter decls M i) = true -> dominant letter decls i f om.
Proof.
  intros PT RK RM MC CH. exists tg. split; [apply cand_iff; assumption|]. intros g tg' om' CG EN NP. apply cand_iff in CG; [|exact PT].
  assert (L : (length (jf_path g) <= M)%nat) by (assert (X := depth_bound letter decls rk RK _ _ _ _ CG); specialize (RM i); lia).
  rewrite forallb_forall in CH. specialize (CH _ (cands_all letter decls M i g tg' om' CG L)). unfold beats in CH. rewrite (proj2 (beqb_eq _ _) EN) in CH. cbn [negb orb] in CH.
  destruct (list_eq_dec Nat.eq_dec (map idx (jf_path g)) (map idx (jf_path f))) as [E|_].
  - destruct (mcand_fun letter decls _ _ _ _ _ _ _ CG MC E) as (-> & _). congruence.
  - cbn [orb] in CH. rewrite orb_true_iff, !andb_true_iff, Nat.ltb_lt, Nat.eqb_eq in CH. destruct CH as [X|[[X Y] Z]]; [left; exact X|right]. destruct tg'; [discriminate|auto].
Qed.

(** Depth is not respected: X of A (second level) should win against X of B.C
    (third level); the package drops both.
    type T struct { A; B }   type A struct { X int }
    type B struct { C }      type C struct { X int } *)
Definition dp_decls (i : nat) : list sfield :=
  match i with
  | 0 => [emb "A" (YStruct 1); emb "B" (YStruct 2)]
  | 1 => [fld "X" "" (YInt TInt)]
  | 2 => [emb "C" (YStruct 3)]
  | 3 => [fld "X" "" (YInt TInt)]
  | _ => []
  end%nat.
Ltac in_decls := intros [|[|[|[|i]]]] f; cbn; intros IF; repeat destruct IF as [IF|IF]; try (destruct IF); try contradiction; try subst f.
Lemma dp_plain : plain_tags asc dp_decls.
Proof. intros i f IF. apply plain_check. revert i f IF. in_decls; vm_compute; reflexivity. Qed.
Definition dp_rk (i : nat) : nat := match i with 0 => 2 | 2 => 1 | _ => 0 end%nat.
Lemma dp_rank i f j ptr un : In f (dp_decls i) -> plan_of asc f = PEmbed j ptr un -> (dp_rk j < dp_rk i)%nat.
Proof. revert i f. in_decls; intros P; vm_compute in P; try discriminate; injection P as <- _ _; cbn; lia. Qed.
Theorem C51_depth_refuted : exists decls N root i f omit, plain_tags asc decls /\ no_cycles decls /\ closed decls N root /\ reaches decls root i /\
  dominant asc decls i f omit /\ ~ In (f, omit) (pairs (flds_of asc decls (S N) root i)).
Proof.
  exists dp_decls, 4%nat, (YStruct 0), O, (JField (bs "X") [PIn 0; PIn 0] (YInt TInt) QNo), false. split; [exact dp_plain|]. split.
  { exists dp_rk. intros i f j IF U IM. revert i f IF U IM. in_decls; intros U IM; cbn in IM; repeat destruct IM as [<-|IM]; try contradiction; (split; [cbn; lia|]); intros _ _; cbn; lia. }
  split; [split; [intros j [<-|[]]; lia|]; intros i f j IF; revert i f IF; in_decls; intros IM; cbn in IM; repeat destruct IM as [<-|IM]; try contradiction; lia|].
  split; [apply rc_here; left; reflexivity|]. split.
  - apply (dominant_check asc dp_decls 3 dp_rk 0 _ false false dp_plain dp_rank); [intros [|[|[|i]]]; cbn; lia| |vm_compute; reflexivity].
    apply (mc_prom asc dp_decls 0 0 (emb "A" (YStruct 1)) 1 false false (JField (bs "X") [PIn 0] (YInt TInt) QNo)); [reflexivity|vm_compute; reflexivity|].
    apply (mc_own asc dp_decls 1 0 (fld "X" "" (YInt TInt))); [reflexivity|vm_compute; reflexivity].
  - vm_compute. intros X. exact X.
Qed.

(** Two fields with the same tag are both encoded, under the same name. *)
Definition du_decls (i : nat) : list sfield := match i with O => [fld "A" "x" (YInt TInt); fld "B" "x" (YInt TInt)] | _ => [] end.
Theorem C51_duplicate_refuted : exists decls N root i f omit, plain_tags asc decls /\ no_cycles decls /\ closed decls N root /\ reaches decls root i /\
  In (f, omit) (pairs (flds_of asc decls (S N) root i)) /\ ~ dominant asc decls i f omit /\
  ~ NoDup (map (fun e => jf_name (fst e)) (pairs (flds_of asc decls (S N) root i))).
Proof.
  assert (PT : plain_tags asc du_decls) by (intros i f IF; apply plain_check; revert i f IF; in_decls; vm_compute; reflexivity).
  exists du_decls, 1%nat, (YStruct 0), O, (JField (bs "x") [PIn 0] (YInt TInt) QNo), false. split; [exact PT|]. split.
  { exists (fun _ => O). intros i f j IF U IM. revert i f IF U IM. in_decls; intros _ []. }
  split; [split; [intros j [<-|[]]; lia|]; intros i f j IF; revert i f IF; in_decls; intros []|].
  split; [apply rc_here; left; reflexivity|]. split; [vm_compute; left; reflexivity|]. split.
  - intros (tg & CF & D). destruct (D (JField (bs "x") [PIn 1] (YInt TInt) QNo) true false) as [X|(_ & _ & X)]; [|reflexivity|discriminate|cbn in X; lia|discriminate].
    apply cand_iff; [exact PT|]. apply (mc_own asc du_decls 0 1 (fld "B" "x" (YInt TInt))); [reflexivity|vm_compute; reflexivity].
  - vm_compute. intros X. inversion X as [|? ? NI _]. apply NI. left. reflexivity.
Qed.

(** Tags below the first level of embedding do not count: Go takes the tagged
    one of two candidates of depth three, the package neither.
    type T struct { A; B }   type A struct { C }   type B struct { D }
    type C struct { V int `json:"X"` }   type D struct { X int } *)
Definition td_decls (i : nat) : list sfield :=
  match i with
  | 0 => [emb "A" (YStruct 1); emb "B" (YStruct 2)]
  | 1 => [emb "C" (YStruct 3)]
  | 2 => [emb "D" (YStruct 4)]
  | 3 => [fld "V" "X" (YInt TInt)]
  | 4 => [fld "X" "" (YInt TInt)]
  | _ => []
  end%nat.
Ltac in_decls5 := intros [|[|[|[|[|i]]]]] f; cbn; intros IF; repeat destruct IF as [IF|IF]; try (destruct IF); try contradiction; try subst f.
Theorem C51_tag_refuted : exists decls N root i f omit, plain_tags asc decls /\ no_cycles decls /\ closed decls N root /\ reaches decls root i /\
  dominant asc decls i f omit /\ ~ In (f, omit) (pairs (flds_of asc decls (S N) root i)).
Proof.
  assert (PT : plain_tags asc td_decls) by (intros i f IF; apply plain_check; revert i f IF; in_decls5; vm_compute; reflexivity).
  set (rk := fun i : nat => match i with 0 => 2 | 1 | 2 => 1 | _ => 0 end%nat).
  exists td_decls, 5%nat, (YStruct 0), O, (JField (bs "X") [PIn 0; PIn 0; PIn 0] (YInt TInt) QNo), false. split; [exact PT|]. split.
  { exists rk. intros i f j IF U IM. revert i f IF U IM. in_decls5; intros U IM; cbn in IM; repeat destruct IM as [<-|IM]; try contradiction; (split; [cbn; lia|]); intros _ _; cbn; lia. }
  split; [split; [intros j [<-|[]]; lia|]; intros i f j IF; revert i f IF; in_decls5; intros IM; cbn in IM; repeat destruct IM as [<-|IM]; try contradiction; lia|].
  split; [apply rc_here; left; reflexivity|]. split.
  - apply (dominant_check asc td_decls 3 rk 0 _ true false PT); [|intros [|[|[|i]]]; cbn; lia| |vm_compute; reflexivity].
    + intros i f j ptr un IF. revert i f IF. in_decls5; intros P; vm_compute in P; try discriminate; injection P as <- _ _; cbn; lia.
    + apply (mc_prom asc td_decls 0 0 (emb "A" (YStruct 1)) 1 false false (JField (bs "X") [PIn 0; PIn 0] (YInt TInt) QNo)); [reflexivity|vm_compute; reflexivity|].
      apply (mc_prom asc td_decls 1 0 (emb "C" (YStruct 3)) 3 false false (JField (bs "X") [PIn 0] (YInt TInt) QNo)); [reflexivity|vm_compute; reflexivity|].
      apply (mc_own asc td_decls 3 0 (fld "V" "X" (YInt TInt))); [reflexivity|vm_compute; reflexivity].
  - vm_compute. intros X. exact X.
Qed.

(** A struct that embeds the struct whose fields are being computed loses the
    promoted fields: the nodes inside a Base have no Name, a Node of its own has.
    type Base struct { Children []*Node; Name string }
    type Node struct { Base; Value int } *)
Definition bn_decls (i : nat) : list sfield :=
  match i with
  | O => [fld "Children" "" (YSlice (YPtr (YStruct 1))); fld "Name" "" YString]
  | S O => [emb "Base" (YStruct 0); fld "Value" "" (YInt TInt)]
  | _ => []
  end.
Theorem C53_nested_refuted : exists decls N root root' i, plain_tags asc decls /\ clear_names asc decls /\ closed decls N root /\ closed decls N root' /\
  reaches decls root i /\ reaches decls root' i /\
  pairs (flds_of asc decls (S N) root i) <> pairs (flds_of asc decls (S N) root' i) /\
  exists f omit, dominant asc decls i f omit /\ In (f, omit) (pairs (flds_of asc decls (S N) root' i)) /\ ~ In (f, omit) (pairs (flds_of asc decls (S N) root i)).
Proof.
  assert (PT : plain_tags asc bn_decls) by (intros i f IF; apply plain_check; revert i f IF; in_decls; vm_compute; reflexivity).
  set (rk := fun i : nat => match i with 1 => 1 | _ => 0 end%nat).
  assert (RK : forall i f j ptr un, In f (bn_decls i) -> plan_of asc f = PEmbed j ptr un -> (rk j < rk i)%nat).
  { intros i f j ptr un IF. revert i f IF. in_decls; intros P; vm_compute in P; try discriminate; injection P as <- _ _; cbn; lia. }
  assert (CD : forall i f j, In f (bn_decls i) -> In j (mentions (sf_ty f)) -> (j < 2)%nat).
  { intros i f j IF. revert i f IF. in_decls; intros IM; cbn in IM; repeat destruct IM as [<-|IM]; try contradiction; lia. }
  exists bn_decls, 2%nat, (YStruct 0), (YStruct 1), 1%nat. split; [exact PT|]. split.
  { apply (clear_check asc bn_decls 2 rk 2 PT RK); [intros [|[|i]]; cbn; lia|intros [|[|i]] L; try lia; reflexivity|vm_compute; reflexivity]. }
  split; [split; [intros j [<-|[]]; lia|exact CD]|]. split; [split; [intros j [<-|[]]; lia|exact CD]|].
  split. { eapply (rc_next _ (YStruct 0) 0 (fld "Children" "" (YSlice (YPtr (YStruct 1))))); [left; reflexivity|left; reflexivity|split; [left; reflexivity|discriminate]|apply rc_here; left; reflexivity]. }
  split; [apply rc_here; left; reflexivity|]. split; [vm_compute; discriminate|].
  exists (JField (bs "Name") [PIn 0; PIn 1] YString QNo), false. split; [|split; [vm_compute; tauto|vm_compute; intros [X|[]]; discriminate]].
  apply (dominant_check asc bn_decls 2 rk 1 _ false false PT RK); [intros [|[|i]]; cbn; lia| |vm_compute; reflexivity].
  apply (mc_prom asc bn_decls 1 0 (emb "Base" (YStruct 0)) 0 false false (JField (bs "Name") [PIn 1] YString QNo)); [reflexivity|vm_compute; reflexivity|].
  apply (mc_own asc bn_decls 0 1 (fld "Name" "" YString)); [reflexivity|vm_compute; reflexivity].
Qed.

(** An unexported embedded type that is not a struct is encoded if it has a
    tag. *)
Theorem C51_unexported_refuted : exists decls N root i f omit, closed decls N root /\ no_cycles decls /\ reaches decls root i /\
  In (f, omit) (pairs (flds_of asc decls (S N) root i)) /\ ~ exists tg om, cand asc decls i f tg om.
Proof.
  set (decls := fun i : nat => match i with O => [SField (bs "inner") false true (bs "x") YString] | _ => [] end).
  exists decls, 1%nat, (YStruct 0), O, (JField (bs "x") [PIn 0] YString QNo), false.
  split; [split; [intros j [<-|[]]; lia|]; intros [|i] f j IF; cbn in IF; [destruct IF as [<-|[]]; intros []|destruct IF]|].
  split; [exists (fun _ => O); intros [|i] f j IF U IM; cbn in IF; [destruct IF as [<-|[]]; destruct IM|destruct IF]|].
  split; [apply rc_here; left; reflexivity|]. split; [vm_compute; left; reflexivity|].
  intros (tg & om & C). inversion C as [i' k f n tg' om' q N G|i' k f j ptr un n p t q tg' om' N G C']; subst.
  - cbn in N. injection N as <-. destruct G as ([G|(_ & j & ptr & G)] & _); [discriminate|]. cbn in G. inversion G.
  - destruct k as [|k]; [|destruct k; discriminate]. cbn in N. injection N as <-. destruct G as (_ & _ & _ & G & _). cbn in G. inversion G.
Qed.

(** An embedded struct whose tag is not a proper name is not inlined: Go ignores
    such a name. *)
Theorem C51_bad_tag_refuted : exists decls N root i f omit, closed decls N root /\ no_cycles decls /\ reaches decls root i /\
  dominant asc decls i f omit /\ ~ In (f, omit) (pairs (flds_of asc decls (S N) root i)).
Proof.
  set (decls := fun i : nat => match i with O => [SField (bs "Inner") true true (bs "a'b") (YStruct 1)] | S O => [fld "X" "" (YInt TInt)] | _ => [] end).
  assert (NT : ~ tag_name asc (bs "a'b")).
  { intros T. assert (W : wf (bs "a'b")) by (apply Forall_forall; intros c I1; vm_compute in I1; repeat destruct I1 as [<-|I1]; try contradiction; unfold is_byte; lia). apply (valid_tag_iff asc _ W) in T. vm_compute in T. discriminate. }
  assert (PX : plain asc (fld "X" "" (YInt TInt))) by (apply plain_check; vm_compute; reflexivity).
  assert (TG : tag_is (bs "a'b") (bs "a'b") []) by (apply tag_split; vm_compute; reflexivity).
  assert (GE : go_embed asc (SField (bs "Inner") true true (bs "a'b") (YStruct 1)) 1 false false).
  { split; [reflexivity|]. split; [discriminate|]. split; [|split; [constructor|reflexivity]]. exists (bs "Inner"). eapply jn_go; [exact TG|exact NT]. }
  assert (GF : go_field asc (fld "X" "" (YInt TInt)) (bs "X") false false QNo) by (apply plan_field; [exact PX|vm_compute; reflexivity]).
  exists decls, 2%nat, (YStruct 0), O, (JField (bs "X") [PIn 0; PIn 0] (YInt TInt) QNo), false.
  split; [split; [intros j [<-|[]]; lia|]; intros [|[|i]] f j IF; cbn in IF; [destruct IF as [<-|[]]; cbn; intros [<-|[]]; lia|destruct IF as [<-|[]]; intros []|destruct IF]|].
  split. { exists (fun i => match i with O => 1 | _ => 0 end)%nat. intros [|[|i]] f j IF U IM; cbn in IF; [destruct IF as [<-|[]]; cbn in IM; destruct IM as [<-|[]]; split; lia|destruct IF as [<-|[]]; destruct IM|destruct IF]. }
  split; [apply rc_here; left; reflexivity|]. split; [|vm_compute; intros [X|[]]; discriminate].
  exists false. split.
  - apply (cd_promoted asc decls 0 0 _ 1 false false (bs "X") [PIn 0] (YInt TInt) QNo false false eq_refl GE). apply (cd_own asc decls 1 0 (fld "X" "" (YInt TInt)) (bs "X") false false QNo eq_refl GF).
  - intros g tg om C EN NP. exfalso. inversion C as [i' k f n tg' om' q N G|i' k f j ptr un n p t q tg' om' N G C']; subst.
    + destruct k as [|k]; [|destruct k; discriminate]. cbn in N. injection N as <-. destruct G as (_ & _ & _ & G & _). apply G. exists 1%nat, false, false. exact GE.
    + destruct k as [|k]; [|destruct k; discriminate]. cbn in N. injection N as <-. destruct G as (_ & _ & _ & G & _). cbn in G. inversion G; subst. apply NP. cbn [jf_path].
      inversion C' as [i' k f n' tg' om' q' N' G'|i' k f j' ptr' un' n' p' t' q' tg' om' N' G' C'']; subst.
      * destruct k as [|k]; [reflexivity|destruct k; discriminate].
      * destruct k as [|k]; [|destruct k; discriminate]. cbn in N'. injection N' as <-. destruct G' as (G' & _). discriminate.
Qed.

Print Assumptions C51_fields_partial.
Print Assumptions C51_rules_determine.
Print Assumptions C51_depth_refuted.
Print Assumptions C51_duplicate_refuted.
Print Assumptions C51_tag_refuted.
Print Assumptions C51_unexported_refuted.
Print Assumptions C51_bad_tag_refuted.
Print Assumptions C52_fields_sound.
Print Assumptions C52_own_fields.
Print Assumptions C52_environment.
Print Assumptions C53_same_everywhere_partial.
Print Assumptions C53_nested_refuted.
Print Assumptions C52_names.
