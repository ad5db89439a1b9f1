(** Texts of many opening brackets: how deep every decoder goes, and how long
    decodeInterface takes. *)
From Verif Require Import Bytes SpecJson SpecString SpecDec AsciiModel Utf8Model ParseModel IntModel StringModel EncModel DecModel TypeModel
  ParseFacts IntFacts StringFacts DecFacts SpecType NodeFacts TypeFacts TypeMain SpecFit TypeSafe SpecMeter MeterModel MeterFacts MeterParse MeterDec MeterLoop MeterType.

Open Scope Z_scope.

Lemma skip_open b : skip_spaces (91 :: b) = 91 :: b.
Proof. reflexivity. Qed.
Lemma parse_deep (r : bytes) : forall L n, (2 * L <= n)%nat -> (L <= calls (snd (parse_value_m n (repeat 91%Z L ++ r))))%nat.
Proof.
  induction L as [|L IH]; intros n Hn; [lia|]. destruct n as [|[|n]]; try lia. cbn [repeat app].
  cbn [parse_value_m]. unfold call. cbn [snd calls]. change (91 =? cLBRACE) with false. change (91 =? cLBRACK) with true. cbv iota.
  destruct L as [|L]; [lia|]. replace (Nat.ltb _ 2) with false by (symmetry; apply Nat.ltb_ge; cbn [repeat app length]; lia).
  rewrite array_loop_m_S. rewrite calls_bind, fst_skip. cbn [repeat app]. rewrite skip_open. change (91 =? 93) with false. cbv iota.
  unfold arr_k_m. rewrite calls_bind. specialize (IH n ltac:(lia)). cbn [repeat app] in IH. lia.
Qed.
Lemma pv_deep L r : (L <= calls (snd (parseValue_m (repeat 91%Z L ++ r))))%nat.
Proof. apply parse_deep. unfold parse_fuel. rewrite app_length, repeat_length. lia. Qed.
Definition deep (L : nat) {A} (m : M A) : Prop := (L <= calls (snd m))%nat.
Lemma deep_bind {A B} L (m : M A) (f : A -> M B) : deep L m -> deep L (let* x := m in f x).
Proof. unfold deep. rewrite calls_bind. lia. Qed.
Lemma deep_then {A B} L (m : M A) (f : A -> M B) : deep L (f (fst m)) -> deep L (let* x := m in f x).
Proof. unfold deep. rewrite calls_bind. lia. Qed.
Lemma deep_map {A B} L (f : A -> B) m : deep L m -> deep L (md_map f m).
Proof. apply deep_bind. Qed.
Lemma deep_call {A} L (m : M A) : deep L m -> deep (S L) (call m).
Proof. unfold deep, call. cbn [snd calls]. lia. Qed.
Lemma deep_le {A} L L' (m : M A) : (L' <= L)%nat -> deep L m -> deep L' m.
Proof. unfold deep. lia. Qed.
Lemma in_err_deep {A} L r (x : A) : deep (S L) (in_err_m (repeat 91%Z (S L) ++ r) x).
Proof. apply deep_bind. unfold input_error_m. cbn [repeat app]. apply deep_bind. apply (pv_deep (S L) r). Qed.
Section Leaves.
Context (L : nat) (r : bytes).
Notation b := (repeat 91%Z (S L) ++ r).
Lemma int_deep t x : deep (S L) (decode_int_m t b x).
Proof.
  unfold decode_int_m. change (has_null_prefix b) with false. cbv iota. apply deep_bind. destruct (signed t).
  - unfold parse_int_m. cbn [repeat app]. change (91 =? cMINUS) with false. cbv iota. replace (leading_zero _) with false by (destruct L, r; reflexivity).
    change (pos_loop 0 0 _) with LInput. apply deep_bind. unfold input_error_m. apply deep_bind, (pv_deep (S L) r).
  - unfold parse_uint_m. cbn [repeat app]. replace (leading_zero _) with false by (destruct L, r; reflexivity).
    change (uint_loop 0 0 _) with LInput. apply deep_bind. unfold input_error_m. apply deep_bind, (pv_deep (S L) r).
Qed.
Lemma bool_deep x : deep (S L) (decode_bool_m b x).
Proof. apply in_err_deep. Qed.
Lemma float_deep pf x : deep (S L) (decode_float_m pf b x).
Proof. unfold decode_float_m. change (has_null_prefix b) with false. cbv iota. apply deep_then. rewrite fst_pres. change (parse_number b) with (PErr b ESyntax). apply in_err_deep. Qed.
Lemma number_deep x : deep (S L) (decode_number_m b x).
Proof. unfold decode_number_m. change (has_null_prefix b) with false. cbv iota. apply deep_then. rewrite fst_pres. change (parse_number b) with (PErr b ESyntax). apply in_err_deep. Qed.
Lemma string_deep x : deep (S L) (decode_string_m b x).
Proof.
  unfold decode_string_m. change (has_null_prefix b) with false. cbv iota. apply deep_then. rewrite fst_unquote.
  assert (E : exists q, parse_string_unquote b [] = QErr q ESyntax).
  { unfold parse_string_unquote, parse_string_fast. destruct L, r; cbn [repeat app]; eexists; reflexivity. }
  destruct E as [q ->]. change b with (91 :: (repeat 91%Z L ++ r)). change (91 =? cQUOTE) with false. cbv iota. apply (in_err_deep L r).
Qed.
Lemma quoted_deep {A} (p : bytes -> option A) x : deep (S L) (decode_quoted_m p b x).
Proof.
  unfold decode_quoted_m. destruct (Nat.ltb _ _); [apply in_err_deep|]. change b with (91 :: (repeat 91%Z L ++ r)).
  change (negb (91 =? cQUOTE)) with true. cbv iota. apply (in_err_deep L r).
Qed.
Lemma raw_deep x : deep (S L) (decode_raw_m b x).
Proof. apply deep_bind, pv_deep. Qed.
End Leaves.
Lemma iface_deep un pf n L r x : (1 <= n)%nat -> deep (S L) (dec_iface_m un pf n (repeat 91%Z (S L) ++ r) x).
Proof. intros N. destruct n as [|n]; [lia|]. cbn [dec_iface_m]. apply (deep_le (S (S L))); [lia|]. apply deep_call, deep_bind, pv_deep. Qed.
Lemma slice_deep {A} (dm : bytes -> A -> M (dres A)) (Q : A -> Prop) z L r s : Q z -> sl_ok Q s ->
  (forall x, Q x -> deep L (dm (repeat 91%Z L ++ r) x)) -> deep L (decode_slice_m dm z (repeat 91%Z (S L) ++ r) s).
Proof.
  intros QZ QS H. destruct L as [|L]; [unfold deep; lia|]. unfold decode_slice_m. change (has_null_prefix _) with false. cbv iota.
  replace (Nat.ltb _ 2) with false by (symmetry; apply Nat.ltb_ge; cbn [repeat app length]; lia).
  change (repeat 91%Z (S (S L)) ++ r) with (91%Z :: (repeat 91%Z (S L) ++ r)). change (91 =? cLBRACK) with true. cbv iota.
  cbn [slice_loop_m]. apply deep_then. rewrite fst_skip. change (skip_spaces (repeat 91%Z (S L) ++ r)) with (repeat 91%Z (S L) ++ r).
  change (match repeat 91%Z (S L) ++ r with c :: _ => c =? cRBRACK | [] => false end) with false. cbv iota zeta. change (Nat.eqb 0 0) with true. cbv iota.
  apply deep_bind, H. destruct s as [[k d]|]; cbn [option_map snd].
  - destruct QS as [_ QD]. destruct d as [|x d]; [cbn; exact QZ|]. cbn [length Nat.eqb nth]. inversion QD; assumption.
  - cbn. exact QZ.
Qed.
Lemma array_deep {A} (dm : bytes -> A -> M (dres A)) (Q : A -> Prop) L r l : Forall Q l ->
  (forall x, Q x -> deep L (dm (repeat 91%Z L ++ r) x)) -> deep L (decode_array_m dm (repeat 91%Z (S L) ++ r) l).
Proof.
  intros QS H. destruct L as [|L]; [unfold deep; lia|]. unfold decode_array_m. change (has_null_prefix _) with false. cbv iota.
  replace (Nat.ltb _ 2) with false by (symmetry; apply Nat.ltb_ge; cbn [repeat app length]; lia).
  change (repeat 91%Z (S (S L)) ++ r) with (91%Z :: (repeat 91%Z (S L) ++ r)). change (91 =? cLBRACK) with true. cbv iota.
  destruct QS as [|x l QX QS]; cbn [arr_loop_m].
  - apply deep_bind. set (k := length (repeat 91%Z (S L) ++ r)). cbn [array_skip_m]. apply deep_then. rewrite fst_skip.
    change (skip_spaces (repeat 91%Z (S L) ++ r)) with (91 :: (repeat 91%Z L ++ r)). change (91 =? cRBRACK) with false. change (91 =? cCOMMA) with false. cbv iota.
    apply deep_then, deep_bind. cbn [ret fst]. apply (pv_deep (S L) r).
  - apply deep_then. rewrite fst_skip. change (skip_spaces (repeat 91%Z (S L) ++ r)) with (repeat 91%Z (S L) ++ r). cbv zeta. apply deep_bind, H, QX.
Qed.
Lemma skip_opens L r : skip_spaces (repeat 91%Z (S L) ++ r) = repeat 91%Z (S L) ++ r.
Proof. reflexivity. Qed.
Lemma map_deep {K W} eqb dk (dv : bytes -> W -> M (dres W)) z L r (m : option (list (K * W))) :
  deep (S L) (decode_map_m eqb dk dv z (repeat 91%Z (S L) ++ r) m).
Proof.
  unfold decode_map_m. change (has_null_prefix _) with false. cbv iota. destruct (Nat.ltb _ 2); [apply in_err_deep|].
  change (repeat 91%Z (S L) ++ r) with (91%Z :: (repeat 91%Z L ++ r)). change (91 =? cLBRACE) with false. cbv iota. apply (in_err_deep L r).
Qed.
Lemma struct_deep {W} lk ds L r (m : W) : deep (S L) (decode_struct_m lk ds (repeat 91%Z (S L) ++ r) m).
Proof.
  unfold decode_struct_m. change (has_null_prefix _) with false. cbv iota. destruct (Nat.ltb _ 2); [apply in_err_deep|].
  change (repeat 91%Z (S L) ++ r) with (91%Z :: (repeat 91%Z L ++ r)). change (91 =? cLBRACE) with false. cbv iota. apply (in_err_deep L r).
Qed.
Lemma opens_len L (r : bytes) : (1 <= S (length (repeat 91%Z (S L) ++ r)))%nat.
Proof. lia. Qed.
Section Typed.
Context (V : tenv) (F : dflags) (ET : env_typed V).
Lemma bytes_deep L r s : deep L (decode_bytes_m V (repeat 91%Z (S L) ++ r) s).
Proof.
  destruct L as [|L]; [unfold deep; lia|]. unfold decode_bytes_m. change (has_null_prefix _) with false. cbv iota.
  replace (Nat.ltb _ 2) with false by (symmetry; apply Nat.ltb_ge; cbn [repeat app length]; lia).
  change (repeat 91%Z (S (S L)) ++ r) with (91%Z :: (repeat 91%Z (S L) ++ r)). change (91 =? cLBRACK) with true. change (negb (91 =? cQUOTE)) with true. cbv iota.
  change (91%Z :: (repeat 91%Z (S L) ++ r)) with (repeat 91%Z (S (S L)) ++ r).
  destruct (Nat.leb (match s with Some (k, d) => k | None => 0 end) (match s with Some (k, d) => length d | None => 0 end)) eqn:E.
  - apply (slice_deep _ (fun _ => True)); [exact I| |intros; apply int_deep]. destruct s as [[k d]|]; [|exact I]. apply Nat.leb_le in E.
    split; [exact E|]. apply Forall_forall. intros; exact I.
  - unfold decode_slice_m. change (has_null_prefix _) with false. cbv iota.
    replace (Nat.ltb _ 2) with false by (symmetry; apply Nat.ltb_ge; cbn [repeat app length]; lia).
    change (repeat 91%Z (S (S L)) ++ r) with (91%Z :: (repeat 91%Z (S L) ++ r)). change (91 =? cLBRACK) with true. cbv iota.
    cbn [slice_loop_m]. apply deep_then. rewrite fst_skip, skip_opens.
    change (match repeat 91%Z (S L) ++ r with c :: _ => c =? cRBRACK | [] => false end) with false. cbv iota zeta. change (Nat.eqb 0 0) with true. cbv iota.
    apply deep_bind, int_deep.
Qed.
Lemma dur_deep L r s : deep (S L) (decode_duration_m V (repeat 91%Z (S L) ++ r) s).
Proof.
  unfold decode_duration_m. change (has_null_prefix _) with false. cbv iota. cbn [repeat app]. change (negb (91 =? cQUOTE)) with true. cbv iota.
  apply deep_bind. unfold parse_int_m. change (91 =? cMINUS) with false. cbv iota. replace (leading_zero _) with false by (destruct L, r; reflexivity).
  change (pos_loop 0 0 _) with LInput. apply deep_bind. unfold input_error_m. apply deep_bind, (pv_deep (S L) r).
Qed.
Lemma ty_deep n : (1 <= n)%nat -> forall t L r x, fits V t x -> deep L (dec_ty_m V F n t (repeat 91%Z L ++ r) x).
Proof.
  intros N. induction t; intros L r x FX; (destruct L as [|L]; [unfold deep; lia|]); rewrite dec_ty_m_eq; inversion FX; subst; apply deep_call.
  all: lazymatch goal with |- deep _ (md_map _ _) => apply deep_map | _ => idtac end.
  all: lazymatch goal with |- deep _ (decode_bytes_m _ _ _) => idtac | |- deep _ (decode_slice_m _ _ _ _) => idtac
       | |- deep _ (dec_ty_m _ _ _ _ _ _) => idtac | |- context [if Nat.eqb ?a ?a then _ else _] => rewrite Nat.eqb_refl; apply deep_map
       | _ => apply (deep_le (S L)); [lia|] end.
  - apply bool_deep.
  - apply int_deep.
  - apply float_deep.
  - apply number_deep.
  - apply string_deep.
  - apply bytes_deep.
  - apply dur_deep.
  - unfold decode_time_m. change (has_null_prefix _) with false. cbv iota. apply quoted_deep.
  - unfold decode_interface_m. apply iface_deep. lia.
  - change (has_null_prefix _) with false. cbv iota. destruct v; try (apply deep_bind, pv_deep). destruct empty; [|apply deep_bind, pv_deep].
    apply deep_map. unfold parse_with_m. apply deep_then. rewrite fst_skip, skip_opens. apply deep_bind. unfold decode_interface_m. apply iface_deep. lia.
  - apply raw_deep.
  - apply (array_deep _ (fits V t)); [assumption|]. intros y FY. apply IHt, FY.
  - apply (slice_deep _ (fits V t)); [apply (zero_fits V ET)|exact I|]. intros y FY. apply IHt, FY.
  - apply (slice_deep _ (fits V t)); [apply (zero_fits V ET)|split; assumption|]. intros y FY. apply IHt, FY.
  - apply map_deep.
  - apply map_deep.
  - apply map_deep.
  - apply map_deep.
  - change (has_null_prefix _) with false. cbv iota. apply deep_map. apply (deep_le (S L)); [lia|]. apply IHt, (zero_fits V ET).
  - change (has_null_prefix _) with false. cbv iota. apply deep_map. apply (deep_le (S L)); [lia|]. apply IHt. assumption.
  - destruct n as [|n]; [lia|]. apply struct_deep.
  - apply deep_bind, pv_deep.
  - apply deep_bind, pv_deep.
  - apply deep_bind, pv_deep.
Qed.
End Typed.

(** * The time decodeInterface takes *)
Definition nn {A} (m : M A) : Prop := 0 <= steps (snd m).
Lemma nn_ret {A} (a : A) : nn (ret a). Proof. unfold nn. cbn. lia. Qed.
Lemma nn_bind {A B} (m : M A) (f : A -> M B) : nn m -> (forall x, nn (f x)) -> nn (let* x := m in f x).
Proof. unfold nn. intros H1 H2. rewrite steps_bind. specialize (H2 (fst m)). lia. Qed.
Lemma nn_call {A} (m : M A) : nn m -> nn (call m).
Proof. unfold nn, call. cbn [snd steps]. lia. Qed.
Lemma nn_spend b r : nn (spend b r). Proof. unfold nn, spend, tick. cbn [snd steps]. lia. Qed.
Ltac nnt := repeat (lazymatch goal with
  | |- nn (ret _) => apply nn_ret
  | |- nn (spend _ _) => apply nn_spend
  | |- nn (bind _ _) => apply nn_bind; [|intros ?]
  | |- nn (call _) => apply nn_call
  | |- nn (match ?x with _ => _ end) => destruct x
  | H : nn ?m |- nn ?m => exact H
  end).
Lemma nn_skip b : nn (skip_spaces_m b). Proof. unfold skip_spaces_m. nnt. Qed.
Lemma nn_pres b p : nn (pres_m b p). Proof. unfold pres_m. nnt. Qed.
Lemma nn_unq b : nn (unquote_m b). Proof. unfold unquote_m. nnt. Qed.
Lemma nn_parse n : (forall b, nn (parse_value_m n b)) /\ (forall f a b, nn (object_loop_m n f a b)) /\ (forall f a b, nn (array_loop_m n f a b)).
Proof.
  induction n as [|n (IHv & IHo & IHa)]; (split; [|split]); intros; cbn [parse_value_m object_loop_m array_loop_m]; cbv zeta; nnt.
  all: first [apply nn_pres | apply nn_skip | apply IHv | apply IHo | apply IHa].
Qed.
Lemma nn_pv b : nn (parseValue_m b). Proof. apply nn_parse. Qed.
Lemma nn_in_err {A} b (x : A) : nn (in_err_m b x).
Proof. unfold in_err_m, input_error_m. nnt. apply nn_pv. apply nn_skip. Qed.
Lemma nn_elem_err {A} b e (x : A) : nn (elem_err_m b e x).
Proof. unfold elem_err_m. nnt. apply nn_pv. Qed.
Lemma nn_map {A B} (f : A -> B) m : nn m -> nn (md_map f m).
Proof. intros. unfold md_map. nnt. Qed.
Lemma nn_slice_loop {A} (dm : bytes -> A -> M (dres A)) z inp k : (forall b x, nn (dm b x)) -> forall b ln d, nn (slice_loop_m dm z inp k b ln d).
Proof.
  intros H. induction k as [|k IH]; intros b ln d; cbn [slice_loop_m]; cbv zeta; [apply nn_ret|].
  nnt; try apply nn_skip; try apply H; try apply nn_elem_err; apply IH.
Qed.
Lemma nn_slice {A} (dm : bytes -> A -> M (dres A)) z b s : (forall b x, nn (dm b x)) -> nn (decode_slice_m dm z b s).
Proof.
  intros H. unfold decode_slice_m. destruct (has_null_prefix b); [apply nn_ret|]. destruct (Nat.ltb _ _); [apply nn_in_err|].
  destruct b as [|c b]; [apply nn_in_err|]. destruct (c =? cLBRACK); [|apply nn_in_err]. apply nn_slice_loop, H.
Qed.
Lemma slice_first {A} (dm : bytes -> A -> M (dres A)) z c s b d : (c =? cRBRACK) = false -> skip_spaces (c :: s) = c :: s -> (forall b x, nn (dm b x)) ->
  b = 91 :: c :: s -> exists x, steps (snd (dm (c :: s) x)) <= steps (snd (decode_slice_m dm z b d)).
Proof.
  intros C1 C2 H ->. unfold decode_slice_m. change (has_null_prefix _) with false. cbv iota. change (Nat.ltb _ 2) with false.
  change (91 =? cLBRACK) with true. cbv iota.
  cbn [slice_loop_m]. rewrite steps_bind, fst_skip. pose proof (nn_skip (c :: s)) as N0.
  rewrite C2. cbv iota zeta. rewrite C1. change (Nat.eqb 0 0) with true. cbv iota. rewrite steps_bind.
  match goal with |- exists x, _ <= _ + (steps (snd (dm _ ?y)) + steps (snd ?m)) => exists y; assert (N : nn m) end.
  - nnt; [apply nn_elem_err|apply nn_slice_loop, H].
  - unfold nn in *. eapply Z.le_trans; [|apply Z.add_le_mono; [exact N0|apply Z.add_le_mono; [apply Z.le_refl|exact N]]]. rewrite Z.add_0_r. apply Z.le_refl.
Qed.
Lemma nn_obj_key {K} (dk : bytes -> M (dres K)) f b : (forall b, nn (dk b)) -> nn (obj_key_m dk f b).
Proof. intros HK. unfold obj_key_m. cbv zeta. nnt; try apply nn_skip; apply HK. Qed.
Lemma nn_map_loop {K W} (eqb : K -> K -> bool) dk (dv : bytes -> W -> M (dres W)) z inp fr k :
  (forall b, nn (dk b)) -> (forall b x, nn (dv b x)) -> forall f b m, nn (map_loop_m eqb dk dv z inp fr k f b m).
Proof.
  intros HK H. induction k as [|k IH]; intros f b l; cbn [map_loop_m]; cbv zeta; [apply nn_ret|].
  nnt; try apply nn_skip; try apply H; try apply nn_elem_err; try apply IH; apply nn_obj_key, HK.
Qed.
Lemma nn_dmap {K W} eqb dk (dv : bytes -> W -> M (dres W)) z b (m : option (list (K * W))) :
  (forall b, nn (dk b)) -> (forall b x, nn (dv b x)) -> nn (decode_map_m eqb dk dv z b m).
Proof.
  intros HK H. unfold decode_map_m. destruct (has_null_prefix b); [apply nn_ret|]. destruct (Nat.ltb _ _); [apply nn_in_err|].
  destruct b as [|c b]; [apply nn_in_err|]. destruct (c =? cLBRACE); [|apply nn_in_err]. apply nn_map_loop; assumption.
Qed.
Lemma nn_string b x : nn (decode_string_m b x).
Proof. unfold decode_string_m. nnt; try apply nn_in_err. apply nn_unq. Qed.
Lemma nn_iface un pf n : forall b x, nn (dec_iface_m un pf n b x).
Proof.
  induction n as [|n IH]; intros b x; [apply nn_ret|]. cbn [dec_iface_m]. cbv zeta.
  assert (D : forall r (m : M (dres jv)), nn m -> nn (let* x := m in
          match d_err x with
          | Some e => ret (DR r (Some e) JVNull)
          | None => let* s := skip_spaces_m (d_rest x) in
                    match s with
                    | [] => ret (DR r None (d_val x))
                    | _ => ret (DR r (Some ESyntax) JVNull)
                    end
          end)).
  { intros r m Hm. nnt. apply nn_skip. }
  apply nn_call, nn_bind; [apply nn_pv|]. intros [v r|r e]; [|apply nn_ret]. destruct v as [|c v]; [apply nn_ret|].
  repeat match goal with |- nn (if ?c then _ else _) => destruct c end; try apply nn_ret; apply D; try apply nn_map.
  - apply nn_dmap; [intros; apply nn_string|exact IH].
  - apply nn_slice, IH.
  - apply nn_string.
  - unfold decode_null_m. nnt. apply nn_in_err.
  - unfold decode_bool_m. nnt. apply nn_in_err.
  - unfold decode_number_m. nnt; try apply nn_in_err. apply nn_pres.
  - unfold decode_float_m. nnt; try apply nn_in_err. apply nn_pres.
Qed.

Lemma tower_S n : tower (S n) = 91 :: tower n ++ [93].
Proof. unfold tower. cbn [repeat app]. f_equal. rewrite <- app_assoc, <- repeat_cons. reflexivity. Qed.
Fixpoint tower_tree (n : nat) : jast := match n with O => JArr [] | S n => JArr [tower_tree n] end.
Lemma tower_value n : jvalue (tower (S n)) (tower_tree n).
Proof.
  induction n as [|n IH]; [apply (V_arr0 []); constructor|]. rewrite tower_S. cbn [tower_tree]. apply V_arr.
  rewrite <- (app_nil_r (tower (S n))). apply (E_one []); [constructor|exact IH|constructor].
Qed.
Lemma tower_nest n : nest (tower_tree n) = n.
Proof. induction n as [|n IH]; [reflexivity|]. cbn [tower_tree nest map list_max fold_right]. rewrite IH. lia. Qed.
Lemma tower_wf n : wf (tower n).
Proof. apply Forall_app; split; apply Forall_forall; intros c H; apply repeat_spec in H; subst; unfold is_byte; lia. Qed.
Lemma tower_length n : length (tower n) = (2 * n)%nat.
Proof. unfold tower. rewrite app_length, !repeat_length. lia. Qed.
Lemma tower_parse n r : wf r -> parseValue (tower (S n) ++ r) = POk (tower (S n)) r /\ 2 * (Z.of_nat n + 1) <= steps (snd (parseValue_m (tower (S n) ++ r))).
Proof.
  intros W. assert (P : parseValue (tower (S n) ++ r) = POk (tower (S n)) r).
  { apply (parseValue_complete' _ _ _ (tower_value n)). intros N. exfalso. apply number_head in N. rewrite tower_S in N. destruct N as (c & s & E & H). injection E as <- _. lia. }
  split; [exact P|]. destruct (parse_tree (parse_fuel (tower (S n) ++ r))) as [T _].
  destruct (T (tower (S n) ++ r) (tower (S n)) r) as (a & _ & _ & S); [apply Forall_app; split; [apply tower_wf|exact W]|exact P|].
  unfold used in S. rewrite app_length, tower_length in S. unfold parseValue_m. lia.
Qed.
Lemma tower_time un pf n : forall k r x, wf r -> (S n <= k)%nat ->
  (Z.of_nat n + 1) * (Z.of_nat n + 1) <= steps (snd (dec_iface_m un pf k (tower (S n) ++ r) x)).
Proof.
  induction n as [|n IH]; intros k r x W Hk; (destruct k as [|k]; [lia|]).
  - cbn [dec_iface_m]. cbv zeta. unfold call. cbn [snd steps].
    rewrite steps_bind. destruct (tower_parse 0 r W) as [P S].
    match goal with |- _ <= 1 + (_ + steps (snd ?m)) => assert (N : nn m) end; [|unfold nn in N; lia].
    replace (fst (parseValue_m (tower 1 ++ r))) with (POk (tower 1) r) by (rewrite <- P; symmetry; apply erase_parseValue).
    cbn [tower repeat app]. change (91 =? cLBRACE) with false. change (91 =? cLBRACK) with true. cbv iota.
    apply nn_bind; [apply nn_map, nn_slice, nn_iface|]. intros y. nnt. apply nn_skip.
  - cbn [dec_iface_m]. cbv zeta. unfold call. cbn [snd steps].
    rewrite steps_bind. destruct (tower_parse (S n) r W) as [P S].
    replace (fst (parseValue_m (tower (Datatypes.S (Datatypes.S n)) ++ r))) with (POk (tower (Datatypes.S (Datatypes.S n))) r) by (rewrite <- P; symmetry; apply erase_parseValue).
    assert (E1 : tower (Datatypes.S n) = 91 :: tower n ++ [93]) by apply tower_S.
    assert (E2 : tower (Datatypes.S (Datatypes.S n)) = 91 :: 91 :: (tower n ++ [93]) ++ [93]) by (rewrite tower_S, E1; reflexivity).
    set (pp := steps (snd (parseValue_m _))) in *. clearbody pp. rewrite E2. cbv iota beta. change (91 =? cLBRACE) with false. change (91 =? cLBRACK) with true. cbv iota.
    rewrite steps_bind. unfold md_map. rewrite steps_bind.
    destruct (slice_first (dec_iface_m un pf k) JVNull 91 ((tower n ++ [93]) ++ [93]) (91 :: 91 :: (tower n ++ [93]) ++ [93]) (Some (0%nat, repeat JVNull 10)))
      as [y Y]; [reflexivity|reflexivity|apply nn_iface|reflexivity|].
    specialize (IH k [93] y ltac:(repeat constructor; lia) ltac:(lia)). rewrite E1 in IH. change ((91 :: tower n ++ [93]) ++ [93]) with (91 :: (tower n ++ [93]) ++ [93]) in IH.
    match goal with |- _ <= 1 + (_ + (_ + ?q + steps (snd ?m))) => assert (N : nn m); [|change q with 0] end; [nnt; apply nn_skip|].
    unfold nn in N. eapply Z.le_trans; [|apply Z.add_le_mono_l, Z.add_le_mono_l, Z.add_le_mono; [apply Z.add_le_mono_r; exact Y|exact N]].
    set (z := steps _) in *. clearbody z. nia.
Qed.
