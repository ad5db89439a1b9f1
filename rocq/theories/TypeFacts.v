(** Decoding valid text into typed values: the decoder does what [stores] of
    SpecType.v says. *)
From Verif Require Import Bytes AsciiModel Utf8Model ParseModel IntModel StringModel EncModel DecModel
  SpecJson SpecString SpecDec ParseFacts Utf8Facts StringFacts IntFacts DecLoops DecFacts TypeModel SpecType NodeFacts TypeLoops.

(** * Generalities *)
Lemma leaf_meets {A} (D : bytes -> A -> dres A) (R : node -> A -> A -> Prop) nd old :
  (forall r, stops nd r -> let d := D (ntext nd ++ r) old in
     match d_err d with
     | None => d_rest d = r /\ (forall y, R nd old y <-> y = d_val d)
     | Some e => e <> EFuel /\ forall y, ~ R nd old y
     end) -> meets D R nd old.
Proof.
  intros H r NS. specialize (H r NS). cbv zeta in H. destruct (D (ntext nd ++ r) old) as [r1 [e|] y]; cbn [d_err d_rest d_val] in H.
  - right. exists r1, e, y. tauto.
  - left. destruct H as [-> H]. exists r, y. split; [reflexivity|]. split; [reflexivity|]. split; [apply H; reflexivity|]. intros y'. apply H.
Qed.
Lemma wrap_meets {A} (D : bytes -> A -> dres A) R (D' : bytes -> mem -> dres mem) R' (f : A -> mem) nd x :
  (forall b, D' b (f x) = d_map f (D b x)) -> (forall y, R' nd (f x) y <-> exists z, y = f z /\ R nd x z) ->
  meets D R nd x -> meets D' R' nd (f x).
Proof.
  intros HD HR H r NS. rewrite HD. destruct (H r NS) as [(r1 & y & E1 & E2 & E3 & E4)|(r1 & e & y & E1 & E2 & E3)]; rewrite E1.
  - left. exists r1, (f y). split; [reflexivity|]. split; [exact E2|]. split; [apply HR; eauto|]. intros y' Y. apply HR in Y as (z & -> & Z). f_equal. apply E4, Z.
  - right. exists r1, e, (f y). split; [reflexivity|]. split; [exact E2|]. intros y' Y. apply HR in Y as (z & -> & Z). exact (E3 _ Z).
Qed.
Lemma meets_ext {A} (D D' : bytes -> A -> dres A) (R R' : node -> A -> A -> Prop) nd old :
  (forall r, stops nd r -> D' (ntext nd ++ r) old = D (ntext nd ++ r) old) -> (forall y, R' nd old y <-> R nd old y) ->
  meets D R nd old -> meets D' R' nd old.
Proof.
  intros HD HR H r NS. rewrite (HD r NS). destruct (H r NS) as [(r1 & y & E1 & E2 & E3 & E4)|(r1 & e & y & E1 & E2 & E3)]; rewrite E1.
  - left. exists r1, y. split; [reflexivity|]. split; [exact E2|]. split; [apply HR, E3|]. intros y' Y. apply E4, HR, Y.
  - right. exists r1, e, y. split; [reflexivity|]. split; [exact E2|]. intros y' Y. apply HR in Y. exact (E3 _ Y).
Qed.

(** First bytes of values. *)
Lemma lit_only lit h nd r : jnode nd -> stops nd r -> (lit = bs "true" /\ h = HTrue \/ lit = bs "false" /\ h = HFalse) ->
  has_prefix (ntext nd ++ r) lit = true <-> nshape nd = h.
Proof.
  intros J N H. rewrite has_prefix_iff. split.
  - intros (r' & E). destruct H as [[-> ->]|[-> ->]]; destruct J as [| | |s H|s H|w W|s l H|w W|s l H]; cbn [ntext nshape] in *; try reflexivity; exfalso; cbn [bs] in E;
      try (destruct (number_head s H) as (c & t & -> & Hc)); try (destruct H as (body & -> & _)); cbn in E; discriminate || (injection E; intros; lia).
  - intros E. destruct H as [[-> ->]|[-> ->]]; destruct J; try discriminate E; exists r; reflexivity.
Qed.
Lemma head_only nd r : jnode nd -> stops nd r ->
  exists c t, ntext nd ++ r = c :: t /\
    match nshape nd with
    | HNull => c = 110 | HTrue => c = 116 | HFalse => c = 102 | HStr => c = 34
    | HNum => c = 45 \/ 48 <= c <= 57
    | HArr _ => c = 91 | HObj _ => c = 123
    end.
Proof.
  intros J N. destruct J as [| | |s H|s H|w W|s l H|w W|s l H]; cbn [ntext nshape]; try (eexists _, _; split; reflexivity).
  - destruct (number_head s H) as (c & t & -> & Hc). eexists _, _; split; [reflexivity|]. lia.
  - destruct H as (body & -> & _). eexists _, _; split; reflexivity.
Qed.
Lemma node_input_error nd r : jnode nd -> stops nd r -> snd (input_error (ntext nd ++ r)) = EType.
Proof.
  intros J N. pose proof (node_in_err nd r tt J N) as H. unfold in_err in H. destruct (input_error (ntext nd ++ r)). cbn. congruence.
Qed.
Lemma num_node_inv nd : jnode nd -> nshape nd = HNum -> number_lit (ntext nd).
Proof. intros J E. destruct J; try discriminate E. exact H. Qed.
Lemma str_node_inv nd : jnode nd -> nshape nd = HStr -> string_lit (ntext nd).
Proof. intros J E. destruct J; try discriminate E. exact H. Qed.

(** Numbers. *)
Lemma number_only nd r v r' : jnode nd -> stops nd r -> parse_number (ntext nd ++ r) = POk v r' -> nshape nd = HNum /\ v = ntext nd /\ r' = r.
Proof.
  intros J N E. pose proof (parse_number_sound _ _ _ E) as [E1 NL]. destruct (head_only nd r J N) as (c & t & Ec & Hc).
  destruct (number_head v NL) as (d & t' & -> & Hd). rewrite E1 in Ec. cbn [app] in Ec. injection Ec as -> _.
  assert (S : nshape nd = HNum) by (destruct (nshape nd); lia || reflexivity). split; [exact S|].
  rewrite (parse_number_complete (ntext nd) r (num_node_inv nd J S) (stops_num nd r S N)) in E. injection E as <- <-. auto.
Qed.
Definition parse_sint (it : ity) (b : bytes) : ires := if signed it then parse_int b else parse_uint b.
Lemma sint_inv it b v r : parse_sint it b = IOk v r -> exists s, b = s ++ r /\ num_stop r /\ int_text s v /\
  (if signed it then minI64 <= v <= maxI64 else 0 <= v <= maxU64) /\ (signed it = true \/ forall s', s <> 45 :: s').
Proof.
  unfold parse_sint. destruct (signed it); intros E.
  - apply parse_int_inv in E as (s & E1 & E2 & E3 & E4). eauto 10.
  - apply parse_uint_inv in E as (s & E1 & E2 & E3 & -> & E4). exists s. split; [exact E1|]. split; [exact E2|]. split; [constructor; exact E3|].
    split; [exact E4|]. right. intros s' ->. inversion E3; lia.
Qed.
Lemma int_finish_err b v c r e : int_finish b v c = IErr r e -> e = EType.
Proof.
  unfold int_finish. destruct (skipn c b) as [|x l]; [discriminate|]. destruct (_ || _); [|discriminate]. destruct (parse_number b); congruence.
Qed.
Lemma sint_err it b r e : parse_sint it b = IErr r e -> e = ESyntax \/ e = EType \/ e = snd (input_error b).
Proof.
  assert (LE : forall (x : lres) (f : Z -> nat -> ires), (forall v c r e, f v c = IErr r e -> e = EType) ->
    match x with LInput => let '(r, e) := input_error b in IErr r e | LOverflow => IErr b EType | LOk v c => f v c end = IErr r e ->
    e = ESyntax \/ e = EType \/ e = snd (input_error b)).
  { intros x f Hf. destruct x; [intros E; apply Hf in E; auto| |intros E; right; left; congruence].
    destruct (input_error b); intros E; right; right; cbn; congruence. }
  unfold parse_sint. destruct (signed it).
  - unfold parse_int. destruct b as [|c b1] eqn:Eb; [intros E; left; congruence|]. rewrite <- Eb in *. destruct (c =? 45).
    + destruct b1 as [|c2 b2] eqn:E2; [intros E; left; congruence|]. rewrite <- E2. destruct (leading_zero b1); [intros E; left; congruence|].
      apply (LE _ (fun v c => int_finish b v (S c))). intros. eapply int_finish_err; eassumption.
    + destruct (leading_zero b); [intros E; left; congruence|]. apply (LE _ (fun v c => int_finish b v c)). intros. eapply int_finish_err; eassumption.
  - unfold parse_uint. destruct b as [|c b1] eqn:Eb; [intros E; left; congruence|]. rewrite <- Eb in *.
    destruct (leading_zero b); [intros E; left; congruence|]. apply (LE _ (fun v c => int_finish b v c)). intros. eapply int_finish_err; eassumption.
Qed.
Lemma int_text_number s z : int_text s z -> number_lit s.
Proof.
  intros [ds H|ds H].
  - pose proof (number_intro [] ds [] [] (or_introl eq_refl) H frac_none exp_none) as N. rewrite !app_nil_r in N. exact N.
  - pose proof (number_intro [45] ds [] [] (or_intror eq_refl) H frac_none exp_none) as N. rewrite !app_nil_r in N. exact N.
Qed.
Lemma sint_node it nd r v r' : jnode nd -> stops nd r -> parse_sint it (ntext nd ++ r) = IOk v r' ->
  nshape nd = HNum /\ r' = r /\ int_text (ntext nd) v /\ (if signed it then minI64 <= v <= maxI64 else 0 <= v <= maxU64) /\
  (signed it = true \/ forall s', ntext nd <> 45 :: s').
Proof.
  intros J N E. apply sint_inv in E as (s & E1 & E2 & E3 & E4 & E5).
  pose proof (parse_number_complete s r' (int_text_number s v E3) E2) as P. rewrite <- E1 in P.
  apply number_only in P as (P1 & -> & ->); auto.
Qed.

Lemma int_text_det s z z' : int_text s z -> int_text s z' -> z = z'.
Proof.
  intros [ds H|ds H] H'; inversion H' as [ds' H1|ds' H1]; subst; try reflexivity.
  - exfalso. inversion H; lia.
  - exfalso. inversion H1; lia.
Qed.

Lemma int_meets it nd x : jnode nd ->
  meets (decode_int it) (fun nd x z => (nshape nd = HNull /\ z = x) \/ (nshape nd = HNum /\ int_ok it (ntext nd) z)) nd x.
Proof.
  intros J. apply leaf_meets. intros r NS. cbv zeta. unfold decode_int. rewrite (null_only nd r J NS).
  destruct (nshape nd) eqn:S.
  { cbn [d_err d_rest d_val]. split; [destruct J; try discriminate S; reflexivity|]. intros y. split; [intros [[_ H]|[H _]]; congruence|auto]. }
  all: fold (parse_sint it (ntext nd ++ r)); destruct (parse_sint it (ntext nd ++ r)) as [v r'|r' e] eqn:E.
  all: try (apply sint_node in E as (E & _); [congruence|assumption|assumption]).
  all: try (pose proof (sint_err _ _ _ _ E) as E'; cbn [d_err]; split; [rewrite (node_input_error nd r J NS) in E'; intros ->; destruct E' as [E'|[E'|E']]; discriminate|]).
  all: try (intros y [[H _]|[H _]]; congruence).
  - apply sint_node in E as (_ & -> & E1 & E2 & E3); [|assumption|assumption].
    destruct (out_of_range it v) eqn:O; cbn [d_err d_rest d_val].
    + split; [discriminate|]. intros y [[H _]|[_ (H1 & H2 & H3)]]; [congruence|]. rewrite (int_text_det _ _ _ H1 E1) in H2.
      apply out_of_range_iff in H2; [congruence|exact E2].
    + split; [reflexivity|]. intros y. split.
      * intros [[H _]|[_ (H1 & H2 & H3)]]; [congruence|]. apply (int_text_det _ _ _ H1 E1).
      * intros ->. right. split; [reflexivity|]. split; [exact E1|]. split; [apply out_of_range_iff; assumption|exact E3].
  - intros y [[H _]|[_ (H1 & H2 & H3)]]; [congruence|].
    pose proof (decode_int_in_range it (ntext nd) y r 0 H1 (stops_num nd r S NS) H3 H2) as P. unfold decode_int in P. rewrite (null_only nd r J NS), S in P.
    fold (parse_sint it (ntext nd ++ r)) in P. rewrite E in P. discriminate.
Qed.

(** * Assumptions about the environment
    No duration and no time contains a quote, a backslash or a control
    character; user-defined functions do not return the model-only error EFuel;
    the option ",string" only applies to the types codec.go:668-705 lists
    ([quotable]), and user-defined types of those kinds. *)
Definition plain_text (t : bytes) : Prop := Forall (fun c => 32 <= c < 256 /\ c <> 34 /\ c <> 92) t.
Fixpoint quotable (t : gty) : Prop :=
  match t with
  | YBool | YInt _ | YFloat _ | YString | YNumber | YDuration | YJSON _ | YText _ => True
  | YPtr e => match e with YPtr _ => False | _ => quotable e end
  | _ => False
  end.
Record env_ok (V : tenv) : Prop := EnvOk {
  ok_dur : forall t z, v_dur V t = Some z -> plain_text t;
  ok_time : forall t z, v_time V t = Some z -> plain_text t;
  ok_json : forall u s x e y, v_json V u s x = (Some e, y) -> e <> EFuel;
  ok_text : forall u s x e y, v_text V u s x = (Some e, y) -> e <> EFuel;
  ok_quot : forall i f, In f (v_flds V i) -> jf_quot f <> QNo -> quotable (jf_ty f) }.

Lemma plain_body t : plain_text t -> str_body t.
Proof. induction 1 as [|c t (H1 & H2 & H3) H IH]; constructor; assumption. Qed.

Section Facts.
Context (V : tenv) (F : dflags) (OK : env_ok V).

Lemma dec_ty_eq n t b cur : dec_ty V F n t b cur =
  match t with
  | YBool => match cur with MBool x => d_map MBool (decode_bool b x) | _ => bad b cur end
  | YInt it => match cur with MInt x => d_map MInt (decode_int it b x) | _ => bad b cur end
  | YFloat w => match cur with MFloat x => d_map MFloat (decode_float (v_float V w) b x) | _ => bad b cur end
  | YNumber => match cur with MStr x => d_map MStr (decode_number b x) | _ => bad b cur end
  | YString => match cur with MStr x => d_map MStr (decode_string b x) | _ => bad b cur end
  | YBytes => match cur with MBytes x => d_map MBytes (decode_bytes V b x) | _ => bad b cur end
  | YDuration => match cur with MInt x => d_map MInt (decode_duration V b x) | _ => bad b cur end
  | YTime => match cur with MTime x => d_map MTime (decode_time V b x) | _ => bad b cur end
  | YIface =>
      match cur with MIface x => d_map MIface (decode_interface (d_usenum F) (v_float V true) b x) | _ => bad b cur end
  | YNamedIface empty =>
      match cur with
      | MIface x =>
          if has_null_prefix b then DR (skipn 4 b) None (MIface JVNull)
          else match x with
               | JVNull => if empty
                           then d_map MIface (parse_with (decode_interface (d_usenum F) (v_float V true)) b JVNull)
                           else decode_type_error b cur
               | _ => decode_type_error b cur
               end
      | _ => bad b cur
      end
  | YRaw => match cur with MRaw x => d_map MRaw (decode_raw b x) | _ => bad b cur end
  | YArray k e =>
      match cur with
      | MList l => if Nat.eqb (length l) k then d_map MList (decode_array (dec_ty V F n e) b l) else bad b cur
      | _ => bad b cur
      end
  | YSlice e => match cur with MSlice s => d_map MSlice (decode_slice (dec_ty V F n e) (zero V e) b s) | _ => bad b cur end
  | YMap k e =>
      match cur with MMap m => d_map MMap (decode_map mkey_eqb (decode_key V k) (dec_ty V F n e) (zero V e) b m) | _ => bad b cur end
  | YMapSI =>
      match cur with
      | MMap m => d_map MMap (decode_map mkey_eqb (decode_key V KYString)
                                (fun b x => d_map MIface (decode_interface (d_usenum F) (v_float V true) b JVNull)) (MIface JVNull) b m)
      | _ => bad b cur
      end
  | YMapSR =>
      match cur with
      | MMap m => d_map MMap (decode_map mkey_eqb (decode_key V KYString)
                                (fun b x => d_map MRaw (decode_raw b None)) (MRaw None) b m)
      | _ => bad b cur
      end
  | YPtr e =>
      match cur with
      | MPtr p =>
          if has_null_prefix b then
            match p, e with
            | Some x, YPtr _ => d_map (fun y => MPtr (Some y)) (dec_ty V F n e b x)
            | _, _ => DR (skipn 4 b) None (MPtr None)
            end
          else d_map (fun y => MPtr (Some y)) (dec_ty V F n e b (match p with Some x => x | None => zero V e end))
      | _ => bad b cur
      end
  | YStruct i =>
      match n with
      | O => DR b (Some EFuel) cur
      | S n' =>
          match cur with
          | MList _ =>
              decode_struct
                (fun k => match find_field V F (v_flds V i) k with
                          | Some f => Some (on_path V (jf_path f) (decode_field V f (dec_ty V F n' (jf_ty f))))
                          | None => None
                          end) (d_disallow F) b cur
          | _ => bad b cur
          end
      end
  | YJSON u => match cur with MUser s => d_map MUser (decode_json_user V u b s) | _ => bad b cur end
  | YText u => match cur with MUser s => d_map MUser (decode_text_user V u b s) | _ => bad b cur end
  | YUnsupported => match cur with MUser _ => decode_type_error b cur | _ => bad b cur end
  end.
Proof. destruct n, t; reflexivity. Qed.

Notation stores := (stores V F).
Notation dec_ty := (dec_ty V F).

Lemma bad_meets (D : bytes -> mem -> dres mem) (R : node -> mem -> mem -> Prop) nd old :
  (forall b, D b old = bad b old) -> (forall y, ~ R nd old y) -> meets D R nd old.
Proof. intros HD HR r NS. rewrite HD. right. eexists _, _, _. split; [reflexivity|]. split; [discriminate|exact HR]. Qed.
Lemma skip4_null nd r : jnode nd -> nshape nd = HNull -> skipn 4 (ntext nd ++ r) = r.
Proof. intros J E. destruct J; try discriminate E. reflexivity. Qed.

(** Memory of another shape than the type. *)
Ltac badmem := try (apply bad_meets; [intros b; rewrite dec_ty_eq; reflexivity|intros y Y; inversion Y; subst; cbn [shape_of] in *; solve [contradiction|inversion H]]).
Ltac sinv H := inversion H; subst; try contradiction; try discriminate; try congruence.

Lemma node_eta nd : nd = ND (ntext nd) (nshape nd).
Proof. destruct nd; reflexivity. Qed.

Lemma bool_meets n nd x : jnode nd -> meets (dec_ty n YBool) (stores YBool) nd x.
Proof.
  intros J. destruct x; badmem. apply leaf_meets. intros r NS. rewrite dec_ty_eq. cbv zeta.
  unfold decode_bool. change (has_true_prefix (ntext nd ++ r)) with (has_prefix (ntext nd ++ r) (bs "true")).
  change (has_false_prefix (ntext nd ++ r)) with (has_prefix (ntext nd ++ r) (bs "false")). rewrite (null_only nd r J NS), (node_in_err nd r x J NS).
  pose proof (lit_only (bs "true") HTrue nd r J NS (or_introl (conj eq_refl eq_refl))) as L1.
  pose proof (lit_only (bs "false") HFalse nd r J NS (or_intror (conj eq_refl eq_refl))) as L2.
  destruct (has_prefix (ntext nd ++ r) (bs "true")) eqn:E1.
  { assert (S : nshape nd = HTrue) by (apply L1; reflexivity). cbn [d_map d_err d_rest d_val]. split; [destruct J; try discriminate S; reflexivity|].
    rewrite (node_eta nd), S. intros y. split; [intros Y; sinv Y|intros ->; constructor]. }
  destruct (has_prefix (ntext nd ++ r) (bs "false")) eqn:E2.
  { assert (S : nshape nd = HFalse) by (apply L2; reflexivity). cbn [d_map d_err d_rest d_val]. split; [destruct J; try discriminate S; reflexivity|].
    rewrite (node_eta nd), S. intros y. split; [intros Y; sinv Y|intros ->; constructor]. }
  destruct (nshape nd) eqn:S; cbn [d_map d_err d_rest d_val].
  { split; [apply (skip4_null nd r J S)|]. rewrite (node_eta nd), S. intros y. split; [intros Y; sinv Y|intros ->; constructor; exact I]. }
  all: split; [discriminate|]; rewrite (node_eta nd), S; intros y Y; sinv Y; first [discriminate (proj2 L1 eq_refl)|discriminate (proj2 L2 eq_refl)].
Qed.
Lemma ty_int_meets n it nd x : jnode nd -> meets (dec_ty n (YInt it)) (stores (YInt it)) nd x.
Proof.
  intros J. destruct x; badmem. eapply (wrap_meets (decode_int it)); [intros b; rewrite dec_ty_eq; reflexivity| |apply int_meets, J].
  intros y. cbn. split.
  - intros Y. inversion Y; subst; cbn [nshape ntext] in *; eauto.
  - intros (w & -> & [[S ->]|[S H]]); rewrite (node_eta nd), S; constructor; try exact I. exact H.
Qed.
Lemma float_meets n w nd x : jnode nd -> meets (dec_ty n (YFloat w)) (stores (YFloat w)) nd x.
Proof.
  intros J. destruct x; badmem. apply leaf_meets. intros r NS. rewrite dec_ty_eq. cbv zeta. unfold decode_float.
  rewrite (null_only nd r J NS), (node_in_err nd r f J NS).
  destruct (nshape nd) eqn:S.
  { cbn [d_map d_err d_rest d_val]. split; [apply (skip4_null nd r J S)|]. rewrite (node_eta nd), S. intros y. split; [intros Y; sinv Y|intros ->; constructor; exact I]. }
  all: destruct (parse_number (ntext nd ++ r)) as [v r'|] eqn:P.
  all: try (apply number_only in P as (P & _); [congruence|assumption|assumption]).
  all: try (cbn [d_map d_err d_rest d_val]; split; [discriminate|]; rewrite (node_eta nd), S; intros y Y; sinv Y; fail).
  - apply number_only in P as (_ & -> & ->); [|assumption|assumption]. destruct (v_float V w (ntext nd)) as [z|] eqn:E; cbn [d_map d_err d_rest d_val].
    + split; [reflexivity|]. rewrite (node_eta nd), S. cbn [ntext]. intros y. split; [intros Y; sinv Y|intros ->; constructor; exact E].
    + split; [discriminate|]. rewrite (node_eta nd), S. intros y Y; sinv Y.
  - rewrite (parse_number_complete (ntext nd) r (num_node_inv nd J S) (stops_num nd r S NS)) in P. discriminate.
Qed.
Lemma number_meets n nd x : jnode nd -> meets (dec_ty n YNumber) (stores YNumber) nd x.
Proof.
  intros J. destruct x; badmem. apply leaf_meets. intros r NS. rewrite dec_ty_eq. cbv zeta. unfold decode_number.
  rewrite (null_only nd r J NS), (node_in_err nd r s J NS).
  destruct (nshape nd) eqn:S.
  { cbn [d_map d_err d_rest d_val]. split; [apply (skip4_null nd r J S)|]. rewrite (node_eta nd), S. intros y. split; [intros Y; sinv Y|intros ->; constructor; exact I]. }
  all: destruct (parse_number (ntext nd ++ r)) as [v r'|] eqn:P.
  all: try (apply number_only in P as (P & _); [congruence|assumption|assumption]).
  all: try (cbn [d_map d_err d_rest d_val]; split; [discriminate|]; rewrite (node_eta nd), S; intros y Y; sinv Y; fail).
  - apply number_only in P as (_ & -> & ->); [|assumption|assumption]. cbn [d_map d_err d_rest d_val].
    split; [reflexivity|]. rewrite (node_eta nd), S. cbn [ntext]. intros y. split; [intros Y; sinv Y|intros ->; constructor].
  - rewrite (parse_number_complete (ntext nd) r (num_node_inv nd J S) (stops_num nd r S NS)) in P. discriminate.
Qed.

(** Strings. *)
Lemma not_quote_unquote c t : c <> 34 -> exists r e, parse_string_unquote (c :: t) [] = QErr r e.
Proof.
  intros H. unfold parse_string_unquote, parse_string_fast. destruct t as [|d t]; [eauto|].
  replace (c =? 34) with false by (symmetry; apply Z.eqb_neq, H). cbn [negb]. eauto.
Qed.
Lemma string_meets n nd x : jnode nd -> meets (dec_ty n YString) (stores YString) nd x.
Proof.
  intros J. destruct x; badmem. apply leaf_meets. intros r NS. rewrite dec_ty_eq. cbv zeta. unfold decode_string.
  rewrite (null_only nd r J NS), (node_in_err nd r s J NS).
  destruct (nshape nd) eqn:S.
  { cbn [d_map d_err d_rest d_val]. split; [apply (skip4_null nd r J S)|]. rewrite (node_eta nd), S. intros y. split; [intros Y; sinv Y|intros ->; constructor; exact I]. }
  all: destruct (head_only nd r J NS) as (c & t & Ec & Hc); rewrite S in Hc.
  all: try (rewrite Ec; destruct (not_quote_unquote c t) as (r0 & e0 & ->); [lia|]; replace (c =? 34) with false by (symmetry; apply Z.eqb_neq; lia);
     cbn [d_map d_err d_rest d_val]; split; [discriminate|]; rewrite (node_eta nd), S; intros y Y; sinv Y; fail).
  destruct (string_lit_unquote (ntext nd) r (str_node_inv nd J S)) as [i ->]. cbn [d_map d_err d_rest d_val].
  split; [reflexivity|]. rewrite (node_eta nd), S. cbn [ntext]. intros y. split.
  - intros Y; sinv Y. f_equal. apply str_means_text; [apply (str_node_inv nd J S)|assumption].
  - intros ->. constructor. apply str_text_means, (str_node_inv nd J S).
Qed.
Lemma raw_meets n nd x : jnode nd -> meets (dec_ty n YRaw) (stores YRaw) nd x.
Proof.
  intros J. destruct x; badmem. apply leaf_meets. intros r0 NS. rewrite dec_ty_eq. cbv zeta. unfold decode_raw.
  rewrite (node_parse nd r0 J NS). cbn [d_map d_err d_rest d_val]. split; [reflexivity|]. intros y. split; [intros Y; sinv Y|intros ->; constructor].
Qed.
Lemma json_meets n u nd x : jnode nd -> meets (dec_ty n (YJSON u)) (stores (YJSON u)) nd x.
Proof.
  intros J. destruct x; badmem. apply leaf_meets. intros r0 NS. rewrite dec_ty_eq. cbv zeta. unfold decode_json_user.
  rewrite (node_parse nd r0 J NS). assert (RV : rv_null (ntext nd) = match nshape nd with HNull => true | _ => false end).
  { destruct (head_only nd [] J (stop_any nd [] I)) as (c & t & Ec & Hc). rewrite app_nil_r in Ec. rewrite Ec. cbn [rv_null]. destruct (nshape nd); apply Z.eqb_eq || apply Z.eqb_neq; lia. }
  rewrite RV. destruct (nshape nd) eqn:S.
  { cbn [d_map d_err d_rest d_val]. split; [reflexivity|]. rewrite (node_eta nd), S. intros y. split; [intros Y; sinv Y|intros ->; constructor; exact I]. }
  all: destruct (v_json V u (ntext nd) s) as [[e|] z] eqn:E; cbn [d_map d_err d_rest d_val].
  all: try (split; [apply (ok_json V OK _ _ _ _ _ E)|]; rewrite (node_eta nd), S; intros y Y; sinv Y; cbn [ntext] in *; congruence).
  all: split; [reflexivity|]; rewrite (node_eta nd), S; cbn [ntext]; intros y; split; [intros Y; sinv Y; cbn [ntext] in *; congruence|intros ->; constructor; [discriminate|exact E]].
Qed.
Lemma text_meets n u nd x : jnode nd -> meets (dec_ty n (YText u)) (stores (YText u)) nd x.
Proof.
  intros J. destruct x; badmem. apply leaf_meets. intros r0 NS. rewrite dec_ty_eq. cbv zeta. unfold decode_text_user.
  rewrite (node_parse nd r0 J NS). destruct (head_only nd [] J (stop_any nd [] I)) as (c & t & Ec & Hc). rewrite app_nil_r in Ec.
  assert (RV : rv_null (ntext nd) = match nshape nd with HNull => true | _ => false end).
  { rewrite Ec. cbn [rv_null]. destruct (nshape nd); apply Z.eqb_eq || apply Z.eqb_neq; lia. }
  assert (RS : rv_string (ntext nd) = match nshape nd with HStr => true | _ => false end).
  { rewrite Ec. cbn [rv_string]. destruct (nshape nd); apply Z.eqb_eq || apply Z.eqb_neq; lia. }
  rewrite RV, RS. destruct (nshape nd) eqn:S.
  { assert (P : parse_null (ntext nd) = POk (ntext nd) []) by (destruct J; try discriminate S; reflexivity). rewrite P.
    cbn [d_map d_err d_rest d_val]. split; [reflexivity|]. rewrite (node_eta nd), S. intros y. split; [intros Y; sinv Y|intros ->; constructor; exact I]. }
  all: try (cbn [d_map d_err d_rest d_val]; split; [discriminate|]; rewrite (node_eta nd), S; intros y Y; sinv Y; fail).
  assert (SL := str_node_inv nd J S). destruct (string_lit_unquote (ntext nd) [] SL) as [i E]. rewrite app_nil_r in E. rewrite E.
  destruct (v_text V u (str_text (ntext nd)) s) as [[e|] z] eqn:E2; cbn [d_map d_err d_rest d_val].
  - split; [apply (ok_text V OK _ _ _ _ _ E2)|]. rewrite (node_eta nd), S. intros y Y; sinv Y. rewrite (str_means_text (ntext nd) t0) in * by assumption. congruence.
  - split; [reflexivity|]. rewrite (node_eta nd), S. cbn [ntext]. intros y. split.
    + intros Y; sinv Y. rewrite (str_means_text (ntext nd) t0) in * by assumption. congruence.
    + intros ->. econstructor; [apply str_text_means, SL|exact E2].
Qed.
Lemma unsupported_meets n nd x : jnode nd -> meets (dec_ty n YUnsupported) (stores YUnsupported) nd x.
Proof.
  intros J. destruct x; badmem. apply leaf_meets. intros r0 NS. rewrite dec_ty_eq. cbv zeta. unfold decode_type_error.
  rewrite (node_parse nd r0 J NS). cbn [d_map d_err d_rest d_val]. split; [discriminate|]. intros y Y; sinv Y.
Qed.

(** Durations and times: the text up to the next quote. *)
Lemma body_quote p q : str_body (p ++ 34 :: q) -> ~ In 34 p -> In 92 p.
Proof.
  induction p as [|c p IH]; intros H N; cbn [app] in H.
  - inversion H; subst; congruence.
  - destruct (Z.eq_dec c 92) as [->|NE]; [left; reflexivity|]. right. inversion H; subst; try congruence. apply IH; [assumption|]. intros I. apply N. right. exact I.
Qed.
Lemma plain_no_quote t : plain_text t -> ~ In 34 t /\ ~ In 92 t.
Proof. intros H. unfold plain_text in H. rewrite Forall_forall in H. split; intros I; apply H in I; lia. Qed.
Lemma quoted_text {A} (prs : bytes -> option A) nd r cur : jnode nd -> stops nd r -> (forall t z, prs t = Some z -> plain_text t) ->
  decode_quoted prs (ntext nd ++ r) cur =
  match nshape nd with
  | HStr => match prs (firstn (length (ntext nd) - 2) (tl (ntext nd))) with
            | Some z => DR r None z
            | None => in_err (ntext nd ++ r) cur
            end
  | _ => in_err (ntext nd ++ r) cur
  end.
Proof.
  intros J NS PL. unfold decode_quoted. destruct (head_only nd r J NS) as (c & t & Ec & Hc).
  destruct (nshape nd) eqn:S; try (destruct (Nat.ltb _ 2); [reflexivity|]; rewrite Ec; replace (c =? 34) with false by (symmetry; apply Z.eqb_neq; lia); reflexivity).
  clear c t Ec Hc. destruct (str_node_inv nd J S) as (body & E & SB). rewrite E.
  rewrite ltb2 by (cbn [length]; rewrite app_length; cbn; lia). cbn [app]. change (negb (34 =? 34)) with false. cbv iota.
  cbn [tl length]. rewrite app_length. cbn [length]. replace (Datatypes.S (length body + 1) - 2)%nat with (length body) by lia.
  rewrite firstn_app, firstn_all, Nat.sub_diag. cbn [firstn]. rewrite app_nil_r. rewrite <- app_assoc. cbn [app].
  destruct (in_dec Z.eq_dec 34 body) as [I|NI].
  - destruct (index_byte 34 body) as [i|] eqn:Ei; [|apply index_byte_none in Ei; contradiction].
    apply index_byte_some in Ei as (p & q & -> & <- & NP). rewrite <- app_assoc. cbn [app]. rewrite index_byte_app by exact NP.
    rewrite firstn_app, firstn_all, Nat.sub_diag. cbn [firstn]. rewrite app_nil_r.
    destruct (prs p) eqn:P1. { apply PL, plain_no_quote in P1. apply body_quote in SB; tauto. }
    destruct (prs (p ++ 34 :: q)) eqn:P2; [|reflexivity]. apply PL, plain_no_quote in P2. tauto.
  - rewrite index_byte_app by exact NI. rewrite firstn_app, firstn_all, Nat.sub_diag. cbn [firstn]. rewrite app_nil_r.
    destruct (prs body); [|reflexivity]. f_equal. change (skipn (Datatypes.S (length body)) (body ++ [34] ++ r) = r). rewrite app_assoc.
    rewrite skipn_app, skipn_all2 by (rewrite app_length; cbn; lia). rewrite app_length. cbn [length]. replace (Datatypes.S (length body) - (length body + 1))%nat with 0%nat by lia. reflexivity.
Qed.
Lemma str_inner nd : jnode nd -> nshape nd = HStr -> ntext nd = 34 :: firstn (length (ntext nd) - 2) (tl (ntext nd)) ++ [34].
Proof.
  intros J S. destruct (str_node_inv nd J S) as (body & E & SB). rewrite E. cbn [tl length]. rewrite app_length. cbn [length].
  replace (Datatypes.S (length body + 1) - 2)%nat with (length body) by lia. rewrite firstn_app, firstn_all, Nat.sub_diag. cbn [firstn]. rewrite app_nil_r. reflexivity.
Qed.
Lemma inner_inj (a b : bytes) : 34 :: a ++ [34] = 34 :: b ++ [34] -> a = b.
Proof. intros E. injection E as E. apply app_inj_tail in E. tauto. Qed.

Lemma time_meets n nd x : jnode nd -> meets (dec_ty n YTime) (stores YTime) nd x.
Proof.
  intros J. destruct x; badmem. apply leaf_meets. intros r NS. rewrite dec_ty_eq. cbv zeta. unfold decode_time.
  rewrite (null_only nd r J NS). rewrite (quoted_text (v_time V) nd r t J NS (ok_time V OK)). rewrite (node_in_err nd r t J NS).
  destruct (nshape nd) eqn:S.
  { cbn [d_map d_err d_rest d_val]. split; [apply (skip4_null nd r J S)|]. rewrite (node_eta nd), S. intros y. split; [intros Y; sinv Y|intros ->; constructor; exact I]. }
  all: try (cbn [d_map d_err d_rest d_val]; split; [discriminate|]; rewrite (node_eta nd), S; intros y Y; sinv Y; fail).
  pose proof (str_inner nd J S) as E. set (body := firstn _ _) in *. clearbody body. destruct (v_time V body) as [z|] eqn:P; cbn [d_map d_err d_rest d_val].
  - split; [reflexivity|]. rewrite (node_eta nd), S, E. intros y. split; [intros Y; sinv Y|intros ->; constructor; exact P].
    match goal with H : _ = _ :: body ++ _ |- _ => apply app_inj_tail in H; destruct H as [-> _] | H : _ ++ [34] = body ++ [34] |- _ => apply app_inj_tail in H; destruct H as [-> _] end. congruence.
  - split; [discriminate|]. rewrite (node_eta nd), S, E. intros y Y. sinv Y.
    match goal with H : _ ++ [34] = body ++ [34] |- _ => apply app_inj_tail in H; destruct H as [-> _] end. congruence.
Qed.
Lemma dur_int s z : int_text s z -> minI64 <= z <= maxI64 -> int_ok TInt64 s z.
Proof. intros H B. split; [exact H|]. split; [exact B|left; reflexivity]. Qed.
Lemma duration_meets n nd x : jnode nd -> meets (dec_ty n YDuration) (stores YDuration) nd x.
Proof.
  intros J. destruct x; badmem. apply leaf_meets. intros r NS. rewrite dec_ty_eq. cbv zeta. unfold decode_duration.
  rewrite (null_only nd r J NS). rewrite (node_in_err nd r z J NS).
  destruct (nshape nd) eqn:S.
  { cbn [d_map d_err d_rest d_val]. split; [apply (skip4_null nd r J S)|]. rewrite (node_eta nd), S. intros y. split; [intros Y; sinv Y|intros ->; constructor; exact I]. }
  all: destruct (head_only nd r J NS) as (c & t & Ec & Hc); rewrite S in Hc; rewrite Ec.
  all: try (replace (c =? 34) with false by (symmetry; apply Z.eqb_neq; lia); cbn [negb]; rewrite <- Ec).
  all: try (destruct (parse_int (ntext nd ++ r)) as [v r'|] eqn:P; [apply (sint_node TInt64) in P as (P & _); [congruence|assumption|assumption]|]).
  all: try (cbn [d_map d_err d_rest d_val]; split; [discriminate|]; rewrite (node_eta nd), S; intros y Y; sinv Y; fail).
  - destruct (parse_int (ntext nd ++ r)) as [v r'|] eqn:P.
    + apply (sint_node TInt64) in P as (_ & -> & E1 & E2 & E3); [|assumption|assumption]. cbn [d_map d_err d_rest d_val]. split; [reflexivity|].
      rewrite (node_eta nd), S. intros y. split; [intros Y; sinv Y|intros ->; constructor; apply dur_int; assumption].
      f_equal. match goal with H : int_ok _ _ _ |- _ => destruct H as (H & _) end. eapply int_text_det; eassumption.
    + cbn [d_map d_err d_rest d_val]. split; [discriminate|]. rewrite (node_eta nd), S. intros y Y. sinv Y.
      match goal with H : int_ok _ _ _ |- _ => destruct H as (H1 & H2 & _) end. rewrite (parse_int_text _ _ r H1 (stops_num nd r S NS)) in P.
      change (ity_lo TInt64 <= z0 <= ity_hi TInt64) with (minI64 <= z0 <= maxI64) in H2.
      replace ((minI64 <=? z0) && (z0 <=? maxI64)) with true in P by (symmetry; apply andb_true_iff; rewrite !Z.leb_le; lia). discriminate.
  - subst c. change (negb (34 =? 34)) with false. cbv iota. rewrite <- Ec. rewrite (quoted_text (v_dur V) nd r z J NS (ok_dur V OK)), S, (node_in_err nd r z J NS).
    clear t Ec. pose proof (str_inner nd J S) as E. set (body := firstn _ _) in *. clearbody body. destruct (v_dur V body) as [w|] eqn:PD; cbn [d_map d_err d_rest d_val].
    + split; [reflexivity|]. rewrite (node_eta nd), S, E. intros y. split; [intros Y; sinv Y|intros ->; constructor; exact PD].
      match goal with H : _ ++ [34] = body ++ [34] |- _ => apply app_inj_tail in H; destruct H as [-> _] end. congruence.
    + split; [discriminate|]. rewrite (node_eta nd), S, E. intros y Y. sinv Y.
      match goal with H : _ ++ [34] = body ++ [34] |- _ => apply app_inj_tail in H; destruct H as [-> _] end. congruence.
Qed.

(** Byte slices. *)
Lemma uint8_rel v x y : stores (YInt TUint8) v (MInt x) (MInt y) <-> (nshape v = HNull /\ y = x) \/ (nshape v = HNum /\ int_ok TUint8 (ntext v) y).
Proof.
  split.
  - intros H. inversion H; subst; cbn; auto.
  - intros [[S ->]|[S H]]; rewrite (node_eta v), S; constructor; auto; exact I.
Qed.
Lemma slice_rel_ext {A} (R R' : node -> A -> A -> Prop) z v x y : (forall v x y, R v x y <-> R' v x y) -> slice_rel R z v x y -> slice_rel R' z v x y.
Proof.
  intros E H. destruct H as [|s l x ys c O G]; constructor; [|exact G]. clear G. induction O; constructor; [apply E; assumption|assumption].
Qed.
Lemma bytes_meets n nd x : jnode nd -> meets (dec_ty n YBytes) (stores YBytes) nd x.
Proof.
  intros J. destruct x; badmem.
  set (RI := fun nd x z => (nshape nd = HNull /\ z = x) \/ (nshape nd = HNum /\ int_ok TUint8 (ntext nd) z)).
  assert (RE : forall v x y, slice_rel (fun v x y => stores (YInt TUint8) v (MInt x) (MInt y)) 0 v x y <-> slice_rel RI 0 v x y).
  { intros. split; apply slice_rel_ext; intros; [|symmetry]; apply uint8_rel. }
  assert (SM : meets (decode_slice (decode_int TUint8) 0) (slice_rel RI 0) nd s).
  { apply decode_slice_meets; [exact J|]. intros nd' x J' _. apply int_meets, J'. }
  destruct (nshape nd) eqn:S.
  1,6: intros r NS; rewrite dec_ty_eq.
  1,2: assert (EQ : decode_bytes V (ntext nd ++ r) s = decode_slice (decode_int TUint8) 0 (ntext nd ++ r) s).
  1:{ unfold decode_bytes, decode_slice. rewrite (null_only nd r J NS), S. reflexivity. }
  2:{ unfold decode_bytes, decode_slice. rewrite (null_only nd r J NS), S. destruct (head_only nd r J NS) as (c & t & Ec & Hc). rewrite S in Hc. subst c. rewrite Ec.
      destruct (Nat.ltb _ 2) eqn:L; [reflexivity|]. cbn [negb Z.eqb]. reflexivity. }
  1,2: rewrite EQ; destruct (SM r NS) as [(r1 & y & E1 & E2 & E3 & E4)|(r1 & e & y & E1 & E2 & E3)]; rewrite E1; cbn [d_map d_err d_rest d_val].
  1,3: left; exists r1, (MBytes y); split; [reflexivity|]; split; [exact E2|]; split; [apply st_bytes_arr, RE, E3|];
      intros y' Y; rewrite (node_eta nd), S in Y; sinv Y; f_equal; apply E4, RE; rewrite (node_eta nd), S; assumption.
  1,2: right; exists r1, e, (MBytes y); split; [reflexivity|]; split; [exact E2|]; intros y' Y; rewrite (node_eta nd), S in Y; sinv Y; eapply E3, RE; rewrite (node_eta nd), S; eassumption.
  all: apply leaf_meets; intros r NS; rewrite dec_ty_eq; cbv zeta; unfold decode_bytes; rewrite (null_only nd r J NS), S, (node_in_err nd r s J NS);
    destruct (head_only nd r J NS) as (c & t & Ec & Hc); rewrite S in Hc.
  all: try (destruct (Nat.ltb _ 2); [|rewrite Ec; replace (c =? 34) with false by (symmetry; apply Z.eqb_neq; lia); replace (c =? 91) with false by (symmetry; apply Z.eqb_neq; lia)];
     cbn [negb d_map d_err d_rest d_val]; (split; [discriminate|]); rewrite (node_eta nd), S; intros y Y; sinv Y; match goal with H : slice_rel _ _ _ _ _ |- _ => inversion H end; fail).
  assert (SL := str_node_inv nd J S). destruct (string_lit_unquote (ntext nd) r SL) as [i E].
  replace (Nat.ltb (length (ntext nd ++ r)) 2) with false
    by (symmetry; destruct SL as (body & -> & _); apply Nat.ltb_ge; rewrite app_length; cbn [length]; rewrite app_length; cbn; lia).
  rewrite E, Ec. subst c. change (negb (34 =? 34)) with false. cbv iota.
  destruct (v_b64 V (str_text (ntext nd))) as [z|] eqn:B; cbn [d_map d_err d_rest d_val].
  - split; [reflexivity|]. rewrite (node_eta nd), S. cbn [ntext]. intros y. split.
    + intros Y; sinv Y; [|match goal with H : slice_rel _ _ _ _ _ |- _ => inversion H end]. rewrite (str_means_text (ntext nd) t0) in * by assumption. congruence.
    + intros ->. econstructor; [apply str_text_means, SL|exact B].
  - split; [discriminate|]. rewrite (node_eta nd), S. intros y Y. sinv Y; [|match goal with H : slice_rel _ _ _ _ _ |- _ => inversion H end].
    rewrite (str_means_text (ntext nd) t0) in * by assumption. congruence.
Qed.

(** Interfaces. *)
Notation jden := (jden (d_usenum F) (v_float V true)).
Lemma num_numv s v : num V F s v <-> numv (d_usenum F) (v_float V true) s = Some v.
Proof.
  unfold num, numv. destruct (d_usenum F); [split; intros E; congruence|]. destruct (v_float V true s) as [f|]; cbn [option_map].
  - split; [intros (f' & E & ->); congruence|intros E; exists f; split; congruence].
  - split; [intros (f' & E & _); discriminate|discriminate].
Qed.
Lemma ival_jden a : lits_ok a -> forall v, ival (num V F) a v <-> jden a = Some v.
Proof.
  induction a as [| | |s|s|l IH|l IH] using jast_ind'; intros LO v; cbn [DecFacts.jden].
  - split; [intros H; inversion H; reflexivity|intros E; injection E as <-; constructor].
  - split; [intros H; inversion H; reflexivity|intros E; injection E as <-; constructor].
  - split; [intros H; inversion H; reflexivity|intros E; injection E as <-; constructor].
  - rewrite <- num_numv. split; [intros H; inversion H; assumption|intros H; constructor; exact H].
  - inversion LO as [| | | |s0 SL| |]; subst. split.
    + intros H. inversion H; subst. f_equal. f_equal. symmetry. apply str_means_text; assumption.
    + intros E; injection E as <-; constructor. apply str_text_means, SL.
  - inversion LO as [| | | | |l0 FL|]; subst.
    assert (X : forall vs, Forall2 (ival (num V F)) l vs <-> seq_opt (map jden l) = Some vs).
    { intros vs. rewrite seq_opt_some. clear LO. revert vs. induction l as [|a l IHl]; intros vs; [split; intros H; inversion H; constructor|].
      inversion IH; subst. inversion FL; subst. split; intros H; inversion H; subst; constructor; try (apply IHl; assumption); apply (H1 H3); assumption. }
    destruct (seq_opt (map jden l)) as [vs|]; cbn [option_map]; split; try discriminate.
    + intros H. inversion H as [| | | | |? vs' H1|]; subst. apply X in H1. congruence.
    + intros E; injection E as <-. constructor. apply X. reflexivity.
    + intros H. inversion H as [| | | | |? vs' H1|]; subst. apply X in H1. discriminate.
  - inversion LO as [| | | | | |l0 FL]; subst.
    set (g := fun kv : bytes * jast => _).
    assert (X : forall kvs, Forall2 (fun la kv => str_means (fst la) (fst kv) /\ ival (num V F) (snd la) (snd kv)) l kvs <-> seq_opt (map g l) = Some kvs).
    { intros vs. rewrite seq_opt_some. clear LO. revert vs. induction l as [|[lit a] l IHl]; intros vs; [split; intros H; inversion H; constructor|].
      inversion IH as [|? ? IHa IHr]; subst. inversion FL as [|? ? [SL LA] FLr]; subst. cbn [fst snd] in *. split; intros H; inversion H as [|? [k v0] ? ? H1 H2]; subst; constructor; try (apply IHl; assumption); cbn [fst snd] in *.
      - destruct H1 as [H1 H3]. unfold g. apply (IHa LA) in H3. rewrite H3. f_equal. f_equal. symmetry. apply str_means_text; assumption.
      - unfold g in H1. destruct (jden a) as [va|] eqn:Ea; [|discriminate]. injection H1 as <- <-. split; [apply str_text_means, SL|apply (IHa LA); reflexivity]. }
    destruct (seq_opt (map g l)) as [vs|]; cbn [option_map]; split; try discriminate.
    + intros H. inversion H as [| | | | | |? vs' H1]; subst. apply X in H1. congruence.
    + intros E; injection E as <-. constructor. apply X. reflexivity.
    + intros H. inversion H as [| | | | | |? vs' H1]; subst. apply X in H1. discriminate.
Qed.
Lemma iface_rel nd v : jnode nd -> (ival (num V F) (erase nd) v <-> jden (erase nd) = Some v).
Proof. intros J. apply ival_jden. eapply jvalue_lits, jnode_jvalue, J. Qed.

Lemma iface_meets n nd x : jnode nd -> meets (dec_ty n YIface) (stores YIface) nd x.
Proof.
  intros J. destruct x; badmem. apply leaf_meets. intros r NS. rewrite dec_ty_eq. cbv zeta.
  rewrite (decode_interface_ok _ _ (ntext nd) (erase nd) r v (jnode_jvalue nd J) (stops_number nd r J NS)).
  destruct (jden (erase nd)) as [w|] eqn:E; cbn [d_map d_err d_rest d_val].
  - split; [reflexivity|]. intros y. split; [intros Y; sinv Y|intros ->; constructor; apply iface_rel; assumption].
    match goal with H : ival _ _ _ |- _ => apply iface_rel in H; [congruence|assumption] end.
  - split; [discriminate|]. intros y Y; sinv Y. match goal with H : ival _ _ _ |- _ => apply iface_rel in H; [congruence|assumption] end.
Qed.
Lemma type_error_node nd r x : jnode nd -> stops nd r -> decode_type_error (ntext nd ++ r) x = DR r (Some EType) x.
Proof. intros J NS. unfold decode_type_error. rewrite (node_parse nd r J NS). reflexivity. Qed.
Lemma named_meets n em nd x : jnode nd -> meets (dec_ty n (YNamedIface em)) (stores (YNamedIface em)) nd x.
Proof.
  intros J. destruct x; badmem. intros r NS. rewrite dec_ty_eq, (null_only nd r J NS).
  destruct (nshape nd) eqn:S.
  { left. exists r, (MIface JVNull). split; [rewrite (skip4_null nd r J S); reflexivity|]. split; [reflexivity|].
    rewrite (node_eta nd), S. split; [constructor|]. intros y Y; sinv Y. }
  all: assert (NN : nshape nd <> HNull) by (rewrite S; discriminate).
  all: destruct v; [destruct em|..]; try rewrite (type_error_node nd r _ J NS).
  all: try (right; eexists _, _, _; split; [reflexivity|]; split; [discriminate|]; rewrite (node_eta nd), S; intros y Y; sinv Y; fail).
  all: unfold parse_with; destruct (node_start nd J) as (Sn & _ & Se & _); rewrite (skip_spaces_nsp (ntext nd ++ r)) by (apply nsp_app; assumption);
    rewrite (decode_interface_ok _ _ (ntext nd) (erase nd) r JVNull (jnode_jvalue nd J) (stops_number nd r J NS));
    destruct (jden (erase nd)) as [w|] eqn:E; unfold d_map; cbn [d_err d_rest d_val].
  all: try (left; eexists _, _; split; [reflexivity|]; split; [apply skip_spaces_idem|]; split; [apply st_named; [exact NN|apply iface_rel; assumption]|];
     intros y Y; rewrite (node_eta nd), S in Y; sinv Y; match goal with H : ival _ _ _ |- _ => rewrite <- S, <- node_eta in H; apply iface_rel in H; [congruence|assumption] end).
  all: right; eexists _, _, _; split; [reflexivity|]; split; [discriminate|]; intros y Y; rewrite (node_eta nd), S in Y; sinv Y; match goal with H : ival _ _ _ |- _ => rewrite <- S, <- node_eta in H; apply iface_rel in H; [congruence|assumption] end.
Qed.

(** * Arbitrary input: what a successful decoder has read *)
Lemma utf8_wf l s : utf8 l s -> wf s.
Proof.
  induction 1 as [|r l e s U H IH]; [constructor|]. apply wf_app. split; [|exact IH].
  inversion U; subst; repeat constructor; unfold is_byte; lia.
Qed.
Lemma str_text_wf lit : string_lit lit -> wf (str_text lit).
Proof. intros SL. destruct (str_text_means lit SL) as (body & l & _ & _ & U). eapply utf8_wf, U. Qed.
Lemma unquote_cases b : wf b ->
  (exists lit r i, string_lit lit /\ b = lit ++ r /\ parse_string_unquote b [] = QOk (str_text lit) r i) \/
  (exists r, parse_string_unquote b [] = QErr r ESyntax).
Proof.
  intros W. destruct (parse_string_fast b) as [v r esc|r e] eqn:E.
  - left. destruct (parse_string_fast_sound _ _ _ _ W E) as (body & -> & -> & SB & _).
    assert (SL : string_lit (34 :: body ++ [34])) by (exists body; auto).
    destruct (string_lit_unquote _ r SL) as [i Q]. eauto 8.
  - right. exists r. unfold parse_string_unquote. rewrite E. f_equal.
    assert (P : parse_string b = PErr r e) by (unfold parse_string; rewrite E; reflexivity).
    destruct (parse_string_syn b r e P) as [->| ->]; [reflexivity|]. exfalso. exact (parse_string_nofuel b r P).
Qed.
Lemma in_err_wf {A} b (x : A) : wf b -> exists r e, in_err b x = DR r (Some e) x /\ e <> EFuel.
Proof.
  intros W. unfold in_err, input_error. destruct b as [|c b]; [eexists _, _; split; [reflexivity|discriminate]|].
  destruct (parseValue (c :: b)) as [v r|r e] eqn:P; eexists _, _; split; try reflexivity; try discriminate.
  apply parseValue_err in P; [|exact W]. subst e. discriminate.
Qed.
Lemma jvalue_nd s a : jvalue s a -> exists nd, jnode nd /\ ntext nd = s.
Proof. intros H. destruct (jvalue_node s a H) as (nd & E & _ & J). eauto. Qed.
Lemma null_read b : has_null_prefix b = true -> b = bs "null" ++ skipn 4 b.
Proof. intros H. apply has_prefix_iff in H as (r & ->). reflexivity. Qed.
Lemma null_nd : exists nd, jnode nd /\ ntext nd = bs "null".
Proof. exists (ND (bs "null") HNull). split; [constructor|reflexivity]. Qed.

Definition reads {A} (D : bytes -> A -> dres A) (b : bytes) (x : A) : Prop :=
  match d_err (D b x) with
  | None => exists nd, jnode nd /\ b = ntext nd ++ d_rest (D b x)
  | Some e => e <> EFuel
  end.
Lemma reads_null {A} b (x : A) D : has_null_prefix b = true -> D b x = DR (skipn 4 b) None (d_val (D b x)) -> reads D b x.
Proof.
  intros H E. unfold reads. rewrite E. cbn [d_err d_rest]. exists (ND (bs "null") HNull). split; [constructor|]. apply null_read, H.
Qed.
Lemma int_reads it b x : wf b -> reads (decode_int it) b x.
Proof.
  intros W. destruct (has_null_prefix b) eqn:N; [apply reads_null; [exact N|unfold decode_int; rewrite N; reflexivity]|].
  unfold reads, decode_int. rewrite N. fold (parse_sint it b). destruct (parse_sint it b) as [v r|r e] eqn:E; cbn [d_err d_rest].
  - destruct (out_of_range it v); cbn [d_err d_rest]; [discriminate|]. apply sint_inv in E as (s & -> & _ & H & _).
    exists (ND s HNum). split; [constructor; eapply int_text_number, H|reflexivity].
  - apply sint_err in E. destruct (in_err_wf b tt W) as (r' & e' & E' & NE). unfold in_err in E'. destruct (input_error b). cbn [snd] in *.
    destruct E as [->|[->| ->]]; try discriminate. congruence.
Qed.
Lemma in_err_reads {A} (D : bytes -> A -> dres A) b x : wf b -> D b x = in_err b x -> reads D b x.
Proof. intros W E. unfold reads. rewrite E. destruct (in_err_wf b x W) as (r & e & -> & H). exact H. Qed.
Lemma d_map_reads {A B} (D : bytes -> A -> dres A) (D' : bytes -> B -> dres B) (f : A -> B) b x y :
  D' b y = d_map f (D b x) -> reads D b x -> reads D' b y.
Proof. intros E. unfold reads. rewrite E. exact (fun H => H). Qed.
Lemma float_reads pf b x : wf b -> reads (decode_float pf) b x.
Proof.
  intros W. destruct (has_null_prefix b) eqn:N; [apply reads_null; [exact N|unfold decode_float; rewrite N; reflexivity]|].
  destruct (parse_number b) as [v r|] eqn:P; [destruct (pf v) eqn:E|];
    try (apply in_err_reads; [exact W|]; unfold decode_float; rewrite N, P, ?E; reflexivity).
  unfold reads, decode_float. rewrite N, P, E. cbn [d_err d_rest]. apply parse_number_sound in P as [-> NL]. exists (ND v HNum). split; [constructor; exact NL|reflexivity].
Qed.
Lemma number_reads b x : wf b -> reads decode_number b x.
Proof.
  intros W. destruct (has_null_prefix b) eqn:N; [apply reads_null; [exact N|unfold decode_number; rewrite N; reflexivity]|].
  destruct (parse_number b) as [v r|] eqn:P;
    try (apply in_err_reads; [exact W|]; unfold decode_number; rewrite N, P; reflexivity).
  unfold reads, decode_number. rewrite N, P. cbn [d_err d_rest]. apply parse_number_sound in P as [-> NL]. exists (ND v HNum). split; [constructor; exact NL|reflexivity].
Qed.
Lemma string_reads b x : wf b -> reads decode_string b x.
Proof.
  intros W. destruct (has_null_prefix b) eqn:N; [apply reads_null; [exact N|unfold decode_string; rewrite N; reflexivity]|].
  destruct (unquote_cases b W) as [(lit & r & i & SL & E & Q)|(r & Q)].
  - unfold reads, decode_string. rewrite N, Q. cbn [d_err d_rest]. exists (ND lit HStr). split; [constructor; exact SL|exact E].
  - destruct b as [|c b]; [apply in_err_reads; [exact W|reflexivity]|]. destruct (c =? 34) eqn:C.
    + unfold reads, decode_string. rewrite N, Q, C. discriminate.
    + apply in_err_reads; [exact W|]. unfold decode_string. rewrite N, Q, C. reflexivity.
Qed.
Lemma bool_reads b x : wf b -> reads decode_bool b x.
Proof.
  intros W. unfold reads, decode_bool. destruct (has_true_prefix b) eqn:T.
  { cbn [d_err d_rest]. exists (ND (bs "true") HTrue). split; [constructor|]. apply has_prefix_iff in T as (r & ->). reflexivity. }
  destruct (has_false_prefix b) eqn:T2.
  { cbn [d_err d_rest]. exists (ND (bs "false") HFalse). split; [constructor|]. apply has_prefix_iff in T2 as (r & ->). reflexivity. }
  destruct (has_null_prefix b) eqn:N.
  { cbn [d_err d_rest]. exists (ND (bs "null") HNull). split; [constructor|]. apply null_read, N. }
  destruct (in_err_wf b x W) as (r & e & -> & H). exact H.
Qed.
Lemma quoted_reads {A} (prs : bytes -> option A) b x : wf b -> (forall t z, prs t = Some z -> plain_text t) -> reads (decode_quoted prs) b x.
Proof.
  intros W PL. unfold reads, decode_quoted. destruct (in_err_wf b x W) as (r & e & E & NE).
  destruct (Nat.ltb (length b) 2); [rewrite E; exact NE|]. destruct b as [|c b1]; [rewrite E; exact NE|].
  destruct (c =? 34) eqn:C; cbn [negb]; [|rewrite E; exact NE]. apply Z.eqb_eq in C. subst c.
  destruct (index_byte 34 b1) as [i|] eqn:I; [|rewrite E; exact NE]. apply index_byte_some in I as (p & q & -> & <- & NP).
  rewrite firstn_app, firstn_all, Nat.sub_diag. cbn [firstn]. rewrite app_nil_r. destruct (prs p) eqn:P; [|rewrite E; exact NE]. cbn [d_err d_rest].
  exists (ND (34 :: p ++ [34]) HStr). split.
  - constructor. exists p. split; [reflexivity|]. eapply plain_body, PL, P.
  - cbn [ntext app]. rewrite <- app_assoc. cbn [app]. f_equal. f_equal.
    change (34 :: q) with ([34] ++ q). rewrite (app_assoc p [34] q). rewrite skipn_app, skipn_all2 by (rewrite app_length; cbn; lia).
    rewrite app_length. cbn [length]. replace (Datatypes.S (length p) - (length p + 1))%nat with 0%nat by lia. reflexivity.
Qed.
Lemma duration_reads b x : wf b -> reads (decode_duration V) b x.
Proof.
  intros W. destruct (has_null_prefix b) eqn:N; [apply reads_null; [exact N|unfold decode_duration; rewrite N; reflexivity]|].
  pose proof (quoted_reads (v_dur V) b x W (ok_dur V OK)) as Q. unfold reads, decode_duration in *. rewrite N.
  destruct b as [|c b1]; [exact Q|]. destruct (c =? 34); cbn [negb]; [exact Q|].
  destruct (parse_int (c :: b1)) as [v r|r e] eqn:P.
  - cbn [d_err d_rest]. apply parse_int_inv in P as (s & -> & _ & H & _). exists (ND s HNum). split; [constructor; eapply int_text_number, H|reflexivity].
  - destruct (in_err_wf (c :: b1) x W) as (r' & e' & -> & NE). exact NE.
Qed.
Lemma time_reads b x : wf b -> reads (decode_time V) b x.
Proof.
  intros W. destruct (has_null_prefix b) eqn:N; [apply reads_null; [exact N|unfold decode_time; rewrite N; reflexivity]|].
  pose proof (quoted_reads (v_time V) b x W (ok_time V OK)) as Q. unfold reads, decode_time in *. rewrite N. exact Q.
Qed.
Lemma raw_reads b x : wf b -> reads decode_raw b x.
Proof.
  intros W. unfold reads, decode_raw. destruct (parseValue b) as [v r|r e] eqn:P.
  - cbn [d_err d_rest]. apply parseValue_sound in P as [-> [a H]]; [|exact W]. destruct (jvalue_nd v a H) as (nd & J & <-). eauto.
  - destruct (in_err_wf b x W) as (r' & e' & -> & NE). exact NE.
Qed.
Lemma json_reads u b x : wf b -> reads (decode_json_user V u) b x.
Proof.
  intros W. unfold reads, decode_json_user. destruct (parseValue b) as [v r|r e] eqn:P.
  - apply parseValue_sound in P as [-> [a H]]; [|exact W]. destruct (jvalue_nd v a H) as (nd & J & <-).
    destruct (rv_null (ntext nd)); [cbn [d_err d_rest]; eauto|]. destruct (v_json V u (ntext nd) x) as [[e|] y] eqn:E; cbn [d_err d_rest]; [eapply ok_json; eassumption|eauto].
  - cbn [d_err]. apply parseValue_err in P; [|exact W]. subst e. discriminate.
Qed.
Lemma text_reads u b x : wf b -> reads (decode_text_user V u) b x.
Proof.
  intros W. unfold reads, decode_text_user. destruct (parseValue b) as [v r|r e] eqn:P.
  - apply parseValue_sound in P as [-> [a H]]; [|exact W]. destruct (jvalue_nd v a H) as (nd & J & <-).
    destruct (rv_null (ntext nd)).
    { destruct (parse_null (ntext nd)) eqn:E; cbn [d_err d_rest]; [eauto|]. intros ->. exact (parse_lit_nofuel _ _ _ E). }
    destruct (rv_string (ntext nd)); [|discriminate].
    apply wf_app in W as [W _]. destruct (unquote_cases (ntext nd) W) as [(lit & r0 & i & SL & E & Q)|(r0 & Q)]; rewrite Q; [|discriminate].
    destruct (v_text V u (str_text lit) x) as [[e|] y] eqn:E2; cbn [d_err d_rest]; [eapply ok_text; eassumption|eauto].
  - cbn [d_err]. apply parseValue_err in P; [|exact W]. subst e. discriminate.
Qed.
Lemma quotable_reads n t : quotable t -> forall b x, wf b -> reads (dec_ty n t) b x.
Proof.
  induction t; cbn [quotable]; try contradiction; intros QT b x W; unfold reads; rewrite dec_ty_eq; destruct x; try discriminate.
  - apply (bool_reads b x W).
  - apply (int_reads t b z W).
  - apply (float_reads _ b f W).
  - apply (number_reads b s W).
  - apply (string_reads b s W).
  - apply (duration_reads b z W).
  - destruct (has_null_prefix b) eqn:N.
    + assert (Q : match p, t with Some x, YPtr _ => d_map (fun y => MPtr (Some y)) (dec_ty n t b x) | _, _ => DR (skipn 4 b) None (MPtr None) end = DR (skipn 4 b) None (MPtr None)).
      { destruct p, t; try reflexivity. contradiction. }
      rewrite Q. cbn [d_err d_rest]. exists (ND (bs "null") HNull). split; [constructor|]. apply null_read, N.
    + apply IHt; [|exact W]. destruct t; try exact QT. contradiction.
  - apply (json_reads u b s W).
  - apply (text_reads u b s W).
Qed.
End Facts.
