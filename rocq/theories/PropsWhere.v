(** What an UnmarshalTypeError says: its Field (C66), its Type, Value and Struct
    (C75). *)
From Verif Require Import Bytes ParseModel IntModel StringModel EncModel DecModel SpecJson SpecString SpecDec ParseFacts IntFacts DecLoops DecFacts
  TypeModel SpecType NodeFacts TypeLoops TypeFacts TypeMain WhereModel SpecWhere WhereFacts WhereUnique ExactFloat PropsType PropsErr.

(** If Unmarshal returns an UnmarshalTypeError for a JSON text, the error is about
    the first value that its place in the target cannot hold. *)
Theorem C75_reports V F t w1 nd w2 x : env_ok V -> ws w1 -> jnode nd -> ws w2 ->
  fst (unmarshal V F t (w1 ++ ntext nd ++ w2) x) = Some EType ->
  exists p, faults V F t nd x p /\ reports (unmarshal_at V F t (w1 ++ ntext nd ++ w2) x) p.
Proof.
  intros OK W1 J W2. unfold unmarshal, unmarshal_with, parse_with, decode, unmarshal_at. rewrite skip_spaces_ws by exact W1.
  destruct (node_start nd J) as (NS & _ & NN & _). cbv zeta.
  rewrite (skip_spaces_nsp (ntext nd ++ w2)) by (destruct (ntext nd); [congruence|exact NS]). cbn [d_rest d_err d_val fst].
  intros H. apply (dec_ty_points V F OK); [exact J|rewrite app_length; lia|exact (stop_any _ _ (ws_num_stop w2 W2))|].
  destruct (skip_spaces _); [exact H|discriminate H].
Qed.
(** Its Field is made from the way to that value. *)
Theorem C66_place_partial V F t w1 nd w2 x : env_ok V -> ws w1 -> jnode nd -> ws w2 ->
  fst (unmarshal V F t (w1 ++ ntext nd ++ w2) x) = Some EType ->
  exists p, faults V F t nd x p /\ r_path (unmarshal_at V F t (w1 ++ ntext nd ++ w2) x) = pl_path p.
Proof. intros OK W1 J W2 H. destruct (C75_reports V F t w1 nd w2 x OK W1 J W2 H) as (p & FA & RP & _). eauto. Qed.
(** There is only one such place, and there is one only if the value cannot be
    stored as a whole. *)
Theorem C66_only_place V F t nd x p : env_ok V -> jnode nd -> faults V F t nd x p ->
  (forall y, ~ stores V F t nd x y) /\ forall q, faults V F t nd x q -> q = p.
Proof. intros OK J H. exact (faults_one V F OK (S (length (ntext nd))) t nd x J ltac:(lia) p H). Qed.
(** So the error is about that place, whatever it is. *)
Lemma reports_it V F t w1 nd w2 x p : env_ok V -> ws w1 -> jnode nd -> ws w2 ->
  fst (unmarshal V F t (w1 ++ ntext nd ++ w2) x) = Some EType -> faults V F t nd x p ->
  reports (unmarshal_at V F t (w1 ++ ntext nd ++ w2) x) p.
Proof.
  intros OK W1 J W2 H FA. destruct (C66_only_place V F t nd x p OK J FA) as [_ U]. destruct (C75_reports V F t w1 nd w2 x OK W1 J W2 H) as (q & FQ & RP).
  rewrite (U _ FQ) in RP. exact RP.
Qed.
Theorem C66_names_it_partial V F t w1 nd w2 x p : env_ok V -> ws w1 -> jnode nd -> ws w2 ->
  fst (unmarshal V F t (w1 ++ ntext nd ++ w2) x) = Some EType -> faults V F t nd x p ->
  r_path (unmarshal_at V F t (w1 ++ ntext nd ++ w2) x) = pl_path p.
Proof. intros OK W1 J W2 H FA. apply (reports_it V F t w1 nd w2 x p OK W1 J W2 H FA). Qed.
(** The text of Field: the segments with dots between them, and one more dot at
    the end. *)
Theorem C66_field_text sprint p : p <> [] -> field_text sprint p = dotted (map (seg_text sprint) p) ++ [46].
Proof.
  induction p as [|s [|s' p] IH]; intros NE; [congruence|reflexivity|]. change (field_text sprint (s :: s' :: p)) with (seg_text sprint s ++ 46 :: field_text sprint (s' :: p)).
  rewrite IH by discriminate. cbn [map dotted]. rewrite <- app_assoc. reflexivity.
Qed.

(** * Example, with the types of PropsErr.v: the second child, and its name.  The
    segment of a field is the key as the text spells it. *)
Definition wh_text : bytes := bs "{""a"":1, ""KIDS"":[null,{""any"":{""x"":[true]},""name"":""n""},{""name"":7}]}".
Definition wh_path : list seg := [SName (bs "KIDS"); SIdx 2; SName (bs "name")].
Definition wh_in : list gty := [YStruct 0; YSlice (YPtr (YStruct 0)); YStruct 0].
Lemma wh_report : unmarshal_at er_env ex_flags (YStruct 0) wh_text er_zero = Rep wh_path wh_in (WQuote (bs "7}]}")) (RTy YString).
Proof. vm_compute. reflexivity. Qed.
Lemma wh_node : exists nd, jnode nd /\ ntext nd = wh_text.
Proof.
  destruct (parseValue_sound wh_text wh_text [] ltac:(repeat constructor; unfold is_byte; cbn; lia) ltac:(vm_compute; reflexivity)) as (_ & a & J).
  destruct (jvalue_node _ _ J) as (nd & E & _ & Jn). eauto.
Qed.
Example C66_example : env_ok er_env /\
  (exists nd p, jnode nd /\ ntext nd = wh_text /\ faults er_env ex_flags (YStruct 0) nd er_zero p /\ pl_path p = wh_path /\ pl_in p = wh_in) /\
  fst (unmarshal er_env ex_flags (YStruct 0) wh_text er_zero) = Some EType /\
  r_path (unmarshal_at er_env ex_flags (YStruct 0) wh_text er_zero) = wh_path.
Proof.
  assert (E1 : fst (unmarshal er_env ex_flags (YStruct 0) wh_text er_zero) = Some EType) by (vm_compute; reflexivity).
  split; [apply er_env_ok|]. split; [|split; [exact E1|rewrite wh_report; reflexivity]].
  destruct wh_node as (nd & J & E). rewrite <- E in E1. rewrite <- (app_nil_r (ntext nd)) in E1.
  destruct (C75_reports er_env ex_flags (YStruct 0) [] nd [] er_zero er_env_ok ltac:(constructor) J ltac:(constructor) E1) as (p & FA & RP & RI & _).
  exists nd, p. split; [exact J|]. split; [exact E|]. split; [exact FA|]. cbn [app] in RP, RI. rewrite app_nil_r, E, wh_report in RP, RI. split; symmetry; assumption.
Qed.
(** The Field of that error ends with a dot; encoding/json reports "kids.name". *)
Theorem C66_field_refuted : exists V F t b x, Valid b = true /\ fst (unmarshal V F t b x) = Some EType /\
  field_text (fun x => x) (r_path (unmarshal_at V F t b x)) <> dotted (map (seg_text (fun x => x)) (r_path (unmarshal_at V F t b x))) /\
  field_text (fun x => x) (r_path (unmarshal_at V F t b x)) = bs "KIDS.2.name.".
Proof.
  exists er_env, ex_flags, (YStruct 0), wh_text, er_zero. split; [vm_compute; reflexivity|]. split; [vm_compute; reflexivity|]. split; [|vm_compute; reflexivity].
  vm_compute. discriminate.
Qed.
(** Entries of maps, elements of slices. *)
Example C66_more :
  unmarshal_at er_env ex_flags (YMap (KYInt TInt8) (YSlice (YInt TUint8))) (bs " {""-3"":[1,255] , ""7"":[1,2,256]}") (MMap None) =
    Rep [SKey (MKInt 7); SIdx 2] [YMap (KYInt TInt8) (YSlice (YInt TUint8)); YSlice (YInt TUint8)] (WOver (bs "256")) (RTy (YInt TUint8)) /\
  fst (unmarshal er_env ex_flags (YMap (KYInt TInt8) (YSlice (YInt TUint8))) (bs " {""-3"":[1,255] , ""7"":[1,2,256]}") (MMap None)) = Some EType.
Proof. split; vm_compute; reflexivity. Qed.

(** * Type, Value and Struct *)
(** Type is the type of the variable that the value does not fit.  Missing:
    durations and types with UnmarshalText, see below; types with UnmarshalJSON,
    whose errors are the user's. *)
Theorem C75_type_partial V F t w1 nd w2 x p : env_ok V -> ws w1 -> jnode nd -> ws w2 ->
  fst (unmarshal V F t (w1 ++ ntext nd ++ w2) x) = Some EType -> faults V F t nd x p ->
  match pl_type p with YDuration | YText _ | YJSON _ => False | _ => True end ->
  r_type (unmarshal_at V F t (w1 ++ ntext nd ++ w2) x) = RTy (pl_type p).
Proof.
  intros OK W1 J W2 H FA NT. destruct (reports_it V F t w1 nd w2 x p OK W1 J W2 H FA) as (_ & _ & S). destruct (pl_type p); try contradiction; apply S.
Qed.
(** Value is made from a text that begins with the value.  Missing: that it ends
    with it. *)
Theorem C75_value_partial V F t w1 nd w2 x p v : env_ok V -> ws w1 -> jnode nd -> ws w2 ->
  fst (unmarshal V F t (w1 ++ ntext nd ++ w2) x) = Some EType -> faults V F t nd x p -> pl_val p = Some v ->
  match pl_type p with YText _ | YJSON _ => False | _ => True end ->
  exists r, let w := r_value (unmarshal_at V F t (w1 ++ ntext nd ++ w2) x) in
    w = WQuote (v ++ r) \/ (w = WOver (v ++ r) /\ exists it, pl_type p = YInt it) \/ w = WText v.
Proof.
  intros OK W1 J W2 H FA PV NT. destruct (reports_it V F t w1 nd w2 x p OK W1 J W2 H FA) as (_ & _ & S). rewrite PV in S. cbv zeta.
  destruct (pl_type p); try contradiction; cbn [says quotes counts exactly] in S; try (destruct S as [[r ->] _]; exists r; left; reflexivity);
    try (destruct S as [-> _]; exists []; right; right; reflexivity).
  destruct S as [(r & [->| ->] & _) _]; exists r; [left; reflexivity|]. right. left. split; [reflexivity|eauto].
Qed.
(** For integers: a number outside the range of the type is said to overflow, one
    with a fraction or an exponent is quoted alone, and what is no number is
    quoted. *)
Theorem C75_integers_partial V F t w1 nd w2 x p v it : env_ok V -> ws w1 -> jnode nd -> ws w2 ->
  fst (unmarshal V F t (w1 ++ ntext nd ++ w2) x) = Some EType -> faults V F t nd x p -> pl_val p = Some v -> pl_type p = YInt it ->
  let w := r_value (unmarshal_at V F t (w1 ++ ntext nd ++ w2) x) in
  (forall z, int_text v z -> signed it = true \/ hd 0 v <> 45 -> exists r, w = WOver (v ++ r)) /\
  (forall s z c u, int_text s z -> fits64 it s z -> v = s ++ c :: u -> c = 46 \/ c = 101 \/ c = 69 -> w = WQuote v) /\
  (~ number_lit v -> exists r, w = WQuote (v ++ r)).
Proof.
  intros OK W1 J W2 H FA PV PT. destruct (reports_it V F t w1 nd w2 x p OK W1 J W2 H FA) as (_ & _ & S). rewrite PV, PT in S.
  destruct S as [(r & _ & S1 & S2 & S3) _]. split; [|split; [exact S2|]]; [intros z T N; exists r; eapply S1; eassumption|intros N; exists r; apply S3, N].
Qed.
(** So the text of Value shows the value itself if it has at most 32 bytes, and
    the first 32 bytes of it otherwise: after an opening quotation mark [quote]
    (strconv.Quote), or after the word number. *)
Theorem C75_value_shows_partial V F t w1 nd w2 x p v quote : env_ok V -> ws w1 -> jnode nd -> ws w2 ->
  fst (unmarshal V F t (w1 ++ ntext nd ++ w2) x) = Some EType -> faults V F t nd x p -> pl_val p = Some v ->
  match pl_type p with YText _ | YJSON _ => False | _ => True end ->
  let text := value_text quote (r_value (unmarshal_at V F t (w1 ++ ntext nd ++ w2) x)) in
  text = v \/
  (exists r, (text = quote (firstn 32 v ++ r) \/ text = bs "number " ++ (firstn 32 v ++ r) ++ bs " overflows") /\ ((32 < length v)%nat -> r = bs "...")).
Proof.
  intros OK W1 J W2 H FA PV NT. destruct (C75_value_partial V F t w1 nd w2 x p v OK W1 J W2 H FA PV NT) as (r & HW). cbv zeta in *.
  assert (PR : exists q, prefix (v ++ r) = firstn 32 v ++ q /\ ((32 < length v)%nat -> q = bs "...")).
  { unfold prefix. destruct (Nat.ltb_spec (length (v ++ r)) 32) as [L|L]; rewrite app_length in L.
    - exists r. rewrite firstn_all2 by lia. split; [reflexivity|lia].
    - rewrite firstn_app, <- app_assoc. eexists. split; [reflexivity|]. intros LV. replace (32 - length v)%nat with O by lia. reflexivity. }
  destruct PR as (q & EQ & Q). destruct HW as [-> | [[-> _] | ->]]; cbn [value_text]; [right; exists q; rewrite EQ; auto .. |left; reflexivity].
Qed.
(** A type with UnmarshalText gets the name of the value's kind, and Type is a
    pointer to the type of the variable. *)
Theorem C75_text_partial V F t w1 nd w2 x p v u : env_ok V -> ws w1 -> jnode nd -> ws w2 ->
  fst (unmarshal V F t (w1 ++ ntext nd ++ w2) x) = Some EType -> faults V F t nd x p -> pl_val p = Some v -> pl_type p = YText u -> hd 0 v <> 34 ->
  r_type (unmarshal_at V F t (w1 ++ ntext nd ++ w2) x) = RPtr (YText u) /\
  exists k, r_value (unmarshal_at V F t (w1 ++ ntext nd ++ w2) x) = WText k /\ kind_of v k.
Proof.
  intros OK W1 J W2 H FA PV PT NQ. destruct (reports_it V F t w1 nd w2 x p OK W1 J W2 H FA) as (_ & _ & S). rewrite PV, PT in S. cbn [says] in S.
  destruct v as [|c v]; [exact S|]. cbn [hd] in NQ. destruct c as [|c|c]; try exact S. repeat (destruct c as [c|c|]; try exact S). congruence.
Qed.
(** Struct is made from the types of all containers the value is in, outermost
    first; it is the type of the struct if there is only that one. *)
Theorem C75_struct_partial V F t w1 nd w2 x p str : env_ok V -> ws w1 -> jnode nd -> ws w2 ->
  fst (unmarshal V F t (w1 ++ ntext nd ++ w2) x) = Some EType -> faults V F t nd x p ->
  r_in (unmarshal_at V F t (w1 ++ ntext nd ++ w2) x) = pl_in p /\
  (forall i, pl_in p = [YStruct i] -> struct_text str (r_in (unmarshal_at V F t (w1 ++ ntext nd ++ w2) x)) = str (YStruct i)).
Proof.
  intros OK W1 J W2 H FA. destruct (reports_it V F t w1 nd w2 x p OK W1 J W2 H FA) as (_ & RI & _). split; [exact RI|]. intros i E. rewrite RI, E. apply app_nil_r.
Qed.

(** A number in a slice of bools. *)
Lemma seven_lit : number_lit (bs "7").
Proof. change (bs "7") with ([] ++ [55] ++ [] ++ []). constructor; [left; reflexivity| |constructor|constructor]. apply (int_pos 55 []); [lia|constructor]. Qed.
Example C75_example : let t := YSlice YBool in let x := MSlice None in
  let r := unmarshal_at er_env ex_flags t (bs " [true,7]") x in
  exists nd p, jnode nd /\ bs " " ++ ntext nd ++ [] = bs " [true,7]" /\ faults er_env ex_flags t nd x p /\
    fst (unmarshal er_env ex_flags t (bs " [true,7]") x) = Some EType /\
    p = Place [SIdx 1] [YSlice YBool] (Some (bs "7")) YBool /\ reports r p /\ r = Rep [SIdx 1] [YSlice YBool] (WQuote (bs "7]")) (RTy YBool).
Proof.
  intros t x r. set (a := ND (bs "true") HTrue). set (b := ND (bs "7") HNum).
  assert (Ja : jnode a) by constructor. assert (Jb : jnode b) by (apply N_num, seven_lit).
  exists (ND (bs "[true,7]") (HArr [a; b])), (Place [SIdx 1] [YSlice YBool] (Some (bs "7")) YBool).
  split. { change (bs "[true,7]") with (91 :: ([] ++ ntext a ++ [] ++ 44 :: [] ++ ntext b ++ []) ++ [93]). apply N_arr.
    apply NE_cons; [constructor|exact Ja|constructor|]. apply NE_one; [constructor|exact Jb|constructor]. }
  split; [reflexivity|]. split.
  { apply fa_slice. change (Place [SIdx 1] [YSlice YBool] (Some (bs "7")) YBool) with (inside (YSlice YBool) (SIdx (length [a])) (Place [] [] (Some (ntext b)) YBool)).
    apply (sf (inside (YSlice YBool)) (stores er_env ex_flags YBool) (faults er_env ex_flags YBool) (zero er_env YBool) [a] b [] _ [MBool true]);
      [repeat constructor|]. apply fa_here; [intros []|]. intros y Y. inversion Y. }
  split; [vm_compute; reflexivity|]. split; [reflexivity|].
  assert (R : r = Rep [SIdx 1] [YSlice YBool] (WQuote (bs "7]")) (RTy YBool)) by (vm_compute; reflexivity). rewrite R. split; [|reflexivity].
  split; [reflexivity|]. split; [reflexivity|]. cbn. split; [exists (bs "]"); reflexivity|reflexivity].
Qed.
(** Value goes on with what follows the value in the text, up to 32 bytes: the
    same value in the same place is described in two ways. *)
Theorem C75_value_refuted quote : (forall a b, quote a = quote b -> a = b) ->
  let u b := value_text quote (r_value (unmarshal_at er_env ex_flags (YSlice YBool) b (MSlice None))) in
  fst (unmarshal er_env ex_flags (YSlice YBool) (bs "[7,true]") (MSlice None)) = Some EType /\
  fst (unmarshal er_env ex_flags (YSlice YBool) (bs "[7,false]") (MSlice None)) = Some EType /\
  u (bs "[7,true]") = quote (bs "7,true]") /\ u (bs "[7,false]") = quote (bs "7,false]") /\ u (bs "[7,true]") <> u (bs "[7,false]").
Proof.
  intros Q u. split; [vm_compute; reflexivity|]. split; [vm_compute; reflexivity|].
  assert (U1 : u (bs "[7,true]") = quote (bs "7,true]")) by (vm_compute; reflexivity). assert (U2 : u (bs "[7,false]") = quote (bs "7,false]")) by (vm_compute; reflexivity).
  split; [exact U1|]. split; [exact U2|]. rewrite U1, U2. intros E. apply Q in E. discriminate E.
Qed.
(** For a duration the error names int32; for a type with UnmarshalText a pointer
    to it. *)
Theorem C75_type_refuted :
  (exists nd, jnode nd /\ ntext nd = bs "true" /\ faults er_env ex_flags YDuration nd (MInt 0) (Place [] [] (Some (bs "true")) YDuration)) /\
  fst (unmarshal er_env ex_flags YDuration (bs "true") (MInt 0)) = Some EType /\
  r_type (unmarshal_at er_env ex_flags YDuration (bs "true") (MInt 0)) = RTy (YInt TInt32) /\
  (exists nd, jnode nd /\ ntext nd = bs "7" /\ faults er_env ex_flags (YText 0) nd (MUser []) (Place [] [] (Some (bs "7")) (YText 0))) /\
  fst (unmarshal er_env ex_flags (YText 0) (bs "7") (MUser [])) = Some EType /\
  r_type (unmarshal_at er_env ex_flags (YText 0) (bs "7") (MUser [])) = RPtr (YText 0).
Proof.
  split; [|split; [vm_compute; reflexivity|split; [vm_compute; reflexivity|split; [|split; vm_compute; reflexivity]]]].
  - exists (ND (bs "true") HTrue). split; [constructor|]. split; [reflexivity|]. apply (fa_here er_env ex_flags YDuration (ND (bs "true") HTrue) (MInt 0)); [intros []|]. intros y Y. inversion Y.
  - exists (ND (bs "7") HNum). split; [apply N_num, seven_lit|]. split; [reflexivity|].
    apply (fa_here er_env ex_flags (YText 0) (ND (bs "7") HNum) (MUser [])); [intros []|]. intros y Y. inversion Y.
Qed.
(** Struct is not the type of the struct that the value is a field of, but all
    the types on the way to it, without anything between them. *)
Theorem C75_struct_refuted :
  let str t := match t with YStruct _ => bs "main.Node" | YSlice _ => bs "[]*main.Node" | _ => [] end in
  fst (unmarshal er_env ex_flags (YStruct 0) wh_text er_zero) = Some EType /\
  struct_text str (r_in (unmarshal_at er_env ex_flags (YStruct 0) wh_text er_zero)) = bs "main.Node[]*main.Nodemain.Node".
Proof. split; vm_compute; reflexivity. Qed.
Print Assumptions C66_place_partial.
Print Assumptions C66_only_place.
Print Assumptions C66_names_it_partial.
Print Assumptions C66_field_text.
Print Assumptions C66_field_refuted.
Print Assumptions C75_reports.
Print Assumptions C75_type_partial.
Print Assumptions C75_value_partial.
Print Assumptions C75_value_shows_partial.
Print Assumptions C75_integers_partial.
Print Assumptions C75_text_partial.
Print Assumptions C75_struct_partial.
Print Assumptions C75_value_refuted.
Print Assumptions C75_type_refuted.
Print Assumptions C75_struct_refuted.
