(** Facts about the computation of the JSON fields of struct types. *)
From Coq Require Import Sorting.Sorted.
From Verif Require Import Bytes Utf8Model SpecString Utf8Facts IntModel EncModel DecModel TypeModel DecFacts SpecFit SpecField StructModel SpecStruct TypeFacts TypeMain.

(** ** Tags *)
Lemma split_nonnil s : split_comma s <> [].
Proof. destruct s as [|c s]; cbn; [discriminate|]. destruct (split_comma s); [discriminate|]. destruct (c =? 44); discriminate. Qed.
Lemma split_tag s : forall n os, split_comma s = n :: os -> tag_is s n os.
Proof.
  induction s as [|c s IH]; cbn; intros n os E.
  - injection E as <- <-. constructor. intros [].
  - destruct (split_comma s) as [|p ps] eqn:ES; [destruct (split_nonnil _ ES)|]. specialize (IH _ _ eq_refl). destruct (Z.eqb_spec c 44) as [->|NC]; injection E as <- <-.
    + apply (ti_opts [] s p ps); [intros []|assumption].
    + inversion IH as [x X|x t o os' X Y]; subst; [constructor|apply (ti_opts (c :: p) t o os'); [|assumption]]; (intros [e|I]; [congruence|exact (X I)]).
Qed.
Lemma split_plain n : no_comma n -> split_comma n = [n].
Proof.
  induction n as [|c n IH]; intros N; [reflexivity|]. cbn. rewrite IH by (intros I; apply N; right; assumption).
  destruct (Z.eqb_spec c 44) as [->|]; [destruct N; left; reflexivity|reflexivity].
Qed.
Lemma split_at n t : no_comma n -> split_comma (n ++ 44 :: t) = n :: split_comma t.
Proof.
  induction n as [|c n IH]; intros N.
  - cbn. destruct (split_comma t) eqn:E; [destruct (split_nonnil _ E)|reflexivity].
  - cbn. rewrite IH by (intros I; apply N; right; assumption). destruct (Z.eqb_spec c 44) as [->|]; [destruct N; left; reflexivity|reflexivity].
Qed.
Lemma tag_split s n os : tag_is s n os <-> split_comma s = n :: os.
Proof.
  split; [|apply split_tag]. induction 1 as [n N|n t o os N T IH]; [apply split_plain; assumption|]. rewrite split_at by assumption. rewrite IH. reflexivity.
Qed.
Lemma tag_exists s : exists n os, tag_is s n os.
Proof. destruct (split_comma s) as [|n os] eqn:E; [destruct (split_nonnil _ E)|]. exists n, os. apply tag_split, E. Qed.
Lemma tag_det s n os n' os' : tag_is s n os -> tag_is s n' os' -> n = n' /\ os = os'.
Proof. rewrite !tag_split. intros -> E. injection E as <- <-. split; reflexivity. Qed.

Lemma tag_wf s n os : tag_is s n os -> wf s -> wf n.
Proof. intros T W. destruct T as [n N|n t o os N T]; [exact W|apply (proj1 (proj1 (Forall_app _ _ _) W))]. Qed.

Section Facts.
Context (letter : Z -> bool) (decls : nat -> list sfield).
Local Notation plan_of := (plan_of letter).
Local Notation tag_name := (tag_name letter).
Local Notation json_name := (json_name letter).
Local Notation go_field := (go_field letter).
Local Notation go_embed := (go_embed letter).
Local Notation cand := (cand letter decls).
Local Notation build := (build letter decls).
Local Notation walk := (walk letter).

Lemma punct_in r : existsb (Z.eqb r) tag_punct = true <-> In r tag_punct.
Proof. rewrite existsb_exists. split; [intros (x & I & E); apply Z.eqb_eq in E; subst; exact I|intros I; exists r; split; [exact I|apply Z.eqb_refl]]. Qed.
Lemma valid_tag_iff s : wf s -> is_valid_tag letter s = true <-> tag_name s.
Proof.
  intros W. unfold is_valid_tag, SpecStruct.tag_name. assert (L := runes_lossy s W).
  assert (H : forallb (fun r => existsb (Z.eqb r) tag_punct || letter r) (runes s) = true <-> Forall (name_char letter) (runes s)).
  { rewrite forallb_forall, Forall_forall. unfold name_char. split; intros X r I; specialize (X r I).
    - apply orb_true_iff in X as [X|X]; [right; apply punct_in, X|left; exact X].
    - apply orb_true_iff. destruct X as [X|X]; [right; exact X|left; apply punct_in, X]. }
  destruct s as [|c s]; [split; [discriminate|intros [N _]; congruence]|]. rewrite H. split.
  - intros X. split; [discriminate|]. exists (runes (c :: s)). split; assumption.
  - intros (_ & l & LL & F). rewrite (utf8_lossy_det _ _ _ L LL). exact F.
Qed.

Lemma option_iff f o os n : tag_is (sf_tag f) n os -> existsb (fun t => beqb t o) os = true <-> has_option f o.
Proof.
  intros T. rewrite existsb_exists. unfold has_option. split.
  - intros (x & I & E). apply beqb_eq in E. subst x. eauto.
  - intros (n' & os' & T' & I). destruct (tag_det _ _ _ _ _ T T') as [<- <-]. exists o. split; [exact I|]. apply beqb_eq. reflexivity.
Qed.
Lemma dash_tag s n os : tag_is s n os -> (s = bs "-" <-> n = bs "-" /\ os = []).
Proof.
  intros T. split.
  - intros ->. apply tag_split in T. cbn in T. injection T as <- <-. split; reflexivity.
  - intros [-> ->]. inversion T. reflexivity.
Qed.
Lemma struct_kind_iff t j ptr : struct_kind t = Some (j, ptr) <-> struct_type t j ptr.
Proof.
  split; [|destruct 1; reflexivity]. intros E.
  destruct t as [| | | | | | | | | | | | | | | |e|i| | |]; try discriminate; [destruct e; try discriminate|]; injection E as <- <-; constructor.
Qed.
Lemma stringify_kind t : stringify t = string_kind t.
Proof. destruct t; reflexivity. Qed.

(** The declarations of [plain_tags]. *)
Definition plain (f : sfield) : Prop :=
  wf (sf_tag f) /\ sf_name f <> bs "-" /\
  (forall n os, tag_is (sf_tag f) n os -> n = [] \/ tag_name n) /\
  (sf_anon f = true -> sf_exported f = false -> json_name f (sf_name f) false \/ exists j ptr, struct_type (sf_ty f) j ptr).

Lemma plan_unfold f n os : tag_is (sf_tag f) n os -> plain f ->
  plan_of f =
  if negb (sf_exported f) && negb (sf_anon f) then PSkip else
  if beqb (sf_tag f) (bs "-") then PSkip else
  let tagged := match n with [] => false | _ => true end in
  let fld := PField (if tagged then n else sf_name f) tagged (existsb (fun t => beqb t (bs "omitempty")) os)
                    (if existsb (fun t => beqb t (bs "string")) os then string_kind (sf_ty f) else QNo) in
  if sf_anon f && negb tagged
  then match struct_kind (sf_ty f) with
       | Some (j, ptr) => PEmbed j ptr (negb (sf_exported f))
       | None => if negb (sf_exported f) then PSkip else fld
       end
  else fld.
Proof.
  intros T (W & ND & NM & _). unfold StructModel.plan_of. pose proof (proj1 (tag_split _ _ _) T) as E. rewrite E.
  destruct (negb (sf_exported f) && negb (sf_anon f)); [reflexivity|].
  assert (DT := dash_tag _ _ _ T).
  assert (D : beqb (if match n with [] => false | _ => true end then n else sf_name f) (bs "-") && (length (n :: os) =? 1)%nat = beqb (sf_tag f) (bs "-")).
  { apply eq_true_iff_eq. rewrite andb_true_iff, !beqb_eq, Nat.eqb_eq, DT. destruct n as [|c n].
    - split; [intros [X _]; contradiction|intros [X _]; discriminate].
    - cbn [length]. split; intros [X Y]; (split; [exact X|]); [destruct os; [reflexivity|discriminate]|subst; reflexivity]. }
  cbv zeta iota beta. match goal with |- (if ?c then _ else _) = _ => replace c with (beqb (sf_tag f) (bs "-")) by (symmetry; exact D) end. destruct (beqb (sf_tag f) (bs "-")); [reflexivity|].
  rewrite <- stringify_kind. destruct n as [|c n].
  - destruct (is_valid_tag letter (sf_name f)); reflexivity.
  - destruct (NM _ _ T) as [X|X]; [discriminate|].
    assert (wf (c :: n)) as WN by (eapply tag_wf; eassumption).
    rewrite (proj2 (valid_tag_iff _ WN) X). reflexivity.
Qed.

Lemma name_of f n os m tagged : tag_is (sf_tag f) n os -> plain f ->
  json_name f m tagged <-> tagged = match n with [] => false | _ => true end /\ m = if tagged then n else sf_name f.
Proof.
  intros T (W & ND & NM & _). assert (TN : forall k, tag_name k -> k <> []) by (intros k [X _]; exact X).
  split.
  - intros [n' os' T' Q|n' os' T' Q]; destruct (tag_det _ _ _ _ _ T T') as [<- <-].
    + specialize (TN _ Q). destruct n; [congruence|split; reflexivity].
    + destruct (NM _ _ T) as [->|X]; [split; reflexivity|contradiction].
  - intros [-> ->]. destruct n as [|c n].
    + eapply jn_go; [exact T|]. intros X. apply (TN _ X eq_refl).
    + eapply jn_tag; [exact T|]. destruct (NM _ _ T) as [X|X]; [discriminate|exact X].
Qed.

Lemma embed_iff f n os j ptr un : tag_is (sf_tag f) n os -> plain f ->
  go_embed f j ptr un <-> sf_anon f = true /\ sf_tag f <> bs "-" /\ n = [] /\ struct_type (sf_ty f) j ptr /\ un = negb (sf_exported f).
Proof.
  intros T P. unfold SpecStruct.go_embed. split.
  - intros (A & B & (m & C) & D & E). apply (proj1 (name_of _ _ _ _ _ T P)) in C as [C _]. destruct n; [auto|discriminate].
  - intros (A & B & -> & D & E). repeat split; try assumption. exists (sf_name f). apply (name_of _ _ _ _ _ T P). split; reflexivity.
Qed.
Lemma plan_embed f j ptr un : plain f -> plan_of f = PEmbed j ptr un <-> go_embed f j ptr un.
Proof.
  intros P. destruct (tag_exists (sf_tag f)) as (n & os & T). rewrite (embed_iff _ _ _ _ _ _ T P), (plan_unfold _ _ _ T P). split.
  - destruct (negb (sf_exported f) && negb (sf_anon f)); [discriminate|]. destruct (beqb (sf_tag f) (bs "-")) eqn:D; [discriminate|].
    apply beqb_neq in D. cbv zeta. destruct n as [|c n]; cbn [negb]; [|rewrite andb_false_r; discriminate]. rewrite andb_true_r.
    destruct (sf_anon f); [|discriminate]. destruct (struct_kind (sf_ty f)) as [[j' ptr']|] eqn:K; [|destruct (negb (sf_exported f)); discriminate].
    intros E. injection E as <- <- <-. apply struct_kind_iff in K. auto.
  - intros (A & B & -> & D & ->). rewrite A. cbn [negb]. rewrite andb_false_r. apply beqb_neq in B. rewrite B. cbv zeta. cbn [negb andb].
    apply struct_kind_iff in D. rewrite D. reflexivity.
Qed.
Lemma plan_field f n tg om q : plain f -> plan_of f = PField n tg om q <-> go_field f n tg om q.
Proof.
  intros P. destruct (tag_exists (sf_tag f)) as (m & os & T). rewrite (plan_unfold _ _ _ T P). unfold SpecStruct.go_field.
  assert (EI := fun j ptr un => embed_iff f m os j ptr un T P). assert (NI := fun x tg => name_of f m os x tg T P).
  assert (OI := option_iff f (bs "omitempty") os m T). assert (SI := option_iff f (bs "string") os m T).
  set (bo := existsb (fun t => beqb t (bs "omitempty")) os) in *. set (bq := existsb (fun t => beqb t (bs "string")) os) in *. clearbody bo bq.
  assert (X : forall tagged, tagged = (match m with [] => false | _ => true end) ->
     PField (if tagged then m else sf_name f) tagged bo
        (if bq then string_kind (sf_ty f) else QNo) = PField n tg om q <->
     json_name f n tg /\ (om = true <-> has_option f (bs "omitempty")) /\
     (has_option f (bs "string") /\ q = string_kind (sf_ty f) \/ ~ has_option f (bs "string") /\ q = QNo)).
  { intros tagged ->. rewrite NI, <- OI, <- SI. split.
    - intros E. injection E as <- <- <- <-. split; [split; reflexivity|]. split; [reflexivity|]. destruct (bq); [left|right]; (split; [|reflexivity]); [reflexivity|discriminate].
    - intros ([-> ->] & OM & SM). f_equal; [symmetry; apply eq_true_iff_eq, OM|]. destruct (bq); destruct SM as [[A ->]|[A ->]]; congruence. }
  destruct P as (W & ND & NM & UN).
  destruct (sf_exported f) eqn:EX; cbn [negb andb].
  2:{ destruct (sf_anon f) eqn:AN; cbn [negb andb].
      2:{ split; [discriminate|]. intros ([A|[A _]] & _); discriminate. }
      destruct (beqb (sf_tag f) (bs "-")) eqn:D; [apply beqb_eq in D; split; [discriminate|intros (_ & A & _); contradiction]|]. apply beqb_neq in D.
      cbv zeta. destruct m as [|c m]; cbn [negb andb].
      - split; [destruct (struct_kind (sf_ty f)) as [[j ptr]|]; discriminate|]. intros ([A|(_ & j & ptr & A)] & _ & _ & NE & _); [discriminate|].
        destruct NE. exists j, ptr, true. apply EI. auto.
      - etransitivity; [exact (X true eq_refl)|]. split.
        + intros (A & B & C). split; [|split; [exact D|split; [exact A|split; [|split; [exact B|exact C]]]]]; [|intros (j & ptr & un & E); apply EI in E as (_ & _ & E & _); discriminate].
          right. split; [reflexivity|]. destruct (UN eq_refl eq_refl) as [J|J]; [|exact J]. apply NI in J as [J _]. discriminate.
        + intros (_ & _ & A & _ & B & C). auto. }
  destruct (beqb (sf_tag f) (bs "-")) eqn:D; [apply beqb_eq in D; split; [discriminate|intros (_ & A & _); contradiction]|]. apply beqb_neq in D.
  cbv zeta.
  assert (GO : ~ (exists j ptr un, go_embed f j ptr un) -> PField (if match m with [] => false | _ => true end then m else sf_name f) (match m with [] => false | _ => true end) bo
        (if bq then string_kind (sf_ty f) else QNo) = PField n tg om q <->
    (true = true \/ sf_anon f = true /\ (exists j ptr, struct_type (sf_ty f) j ptr)) /\ sf_tag f <> bs "-" /\ json_name f n tg /\ ~ (exists j ptr un, go_embed f j ptr un) /\
    (om = true <-> has_option f (bs "omitempty")) /\
    (has_option f (bs "string") /\ q = string_kind (sf_ty f) \/ ~ has_option f (bs "string") /\ q = QNo)).
  { intros NE. etransitivity; [exact (X _ eq_refl)|]. split; [intros (A & B & C)|intros (_ & _ & A & _ & B & C); auto]. repeat split; auto; apply B. }
  destruct (sf_anon f) eqn:AN; cbn [andb].
  - destruct m as [|c m]; cbn [negb].
    + destruct (struct_kind (sf_ty f)) as [[j ptr]|] eqn:K.
      * split; [discriminate|]. intros (_ & _ & _ & NE & _). destruct NE. exists j, ptr, false. apply EI. apply struct_kind_iff in K. auto.
      * apply GO. intros (j & ptr & un & E). apply EI in E as (_ & _ & _ & E & _). apply struct_kind_iff in E. congruence.
    + apply GO. intros (j & ptr & un & E). apply EI in E as (_ & _ & E & _). discriminate.
  - apply GO. intros (j & ptr & un & E). apply EI in E as (E & _). congruence.
Qed.
End Facts.
