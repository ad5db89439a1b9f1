(** The functions of MeterModel.v compute what those without meters do. *)
From Verif Require Import Bytes AsciiModel Utf8Model ParseModel IntModel StringModel EncModel DecModel TypeModel MeterModel.

Lemma fst_bind {A B} (m : M A) (f : A -> M B) : fst (bind m f) = fst (f (fst m)).
Proof. reflexivity. Qed.
Lemma fst_call {A} (m : M A) : fst (call m) = fst m.
Proof. reflexivity. Qed.
Lemma fst_ret {A} (a : A) : fst (ret a) = a.
Proof. reflexivity. Qed.
Lemma fst_skip b : fst (skip_spaces_m b) = skip_spaces b.
Proof. reflexivity. Qed.
Lemma fst_pres b p : fst (pres_m b p) = p.
Proof. destruct p; reflexivity. Qed.
Lemma fst_unquote b : fst (unquote_m b) = parse_string_unquote b [].
Proof. unfold unquote_m. destruct (parse_string_unquote b []); reflexivity. Qed.
#[export] Hint Rewrite @fst_bind @fst_call @fst_ret fst_skip fst_pres fst_unquote : erase.

(** one step: rewrite, then split the first match of the goal *)
Ltac er1 :=
  match goal with
  | |- fst (match ?x with _ => _ end) = _ => destruct x eqn:?
  | |- fst (let '(_, _) := ?x in _) = _ => destruct x eqn:?
  end.
Ltac er := repeat (autorewrite with erase; try reflexivity; try solve [eauto]; try er1).

Lemma erase_pv n :
  (forall b, fst (parse_value_m n b) = parse_value n b) /\
  (forall f a b, fst (object_loop_m n f a b) = object_loop n f a b) /\
  (forall f a b, fst (array_loop_m n f a b) = array_loop n f a b).
Proof.
  induction n as [|n (IV & IO & IA)]; [repeat split|].
  repeat split; intros; cbn [parse_value_m parse_value object_loop_m object_loop array_loop_m array_loop];
    autorewrite with erase.
  - destruct b as [|c b1]; [reflexivity|]. er.
  - cbv zeta. destruct (skip_spaces b) as [|c b1]; [reflexivity|].
    destruct (c =? cRBRACE); [reflexivity|].
    assert (K : forall b2, fst (let* p := pres_m b2 (parse_string b2) in match p with
            | PErr r e => ret (PErr r e)
            | POk _ b => let* b := skip_spaces_m b in match b with
                | [] => ret (PErr [] ESyntax)
                | c :: b1 => if negb (c =? cCOLON) then ret (PErr (c :: b1) ESyntax)
                    else let* b := skip_spaces_m b1 in let* p := parse_value_m n b in
                         match p with PErr r e => ret (PErr r e) | POk _ b => object_loop_m n false a b end end end) =
        match parse_string b2 with
            | PErr r e => PErr r e
            | POk _ b => match skip_spaces b with
                | [] => PErr [] ESyntax
                | c :: b1 => if negb (c =? cCOLON) then PErr (c :: b1) ESyntax
                    else match parse_value n (skip_spaces b1) with PErr r e => PErr r e | POk _ b => object_loop n false a b end end end).
    { intros b2. autorewrite with erase. destruct (parse_string b2) as [s r|r e]; [|reflexivity]. autorewrite with erase.
      destruct (skip_spaces r) as [|c2 b3]; [reflexivity|]. destruct (negb (c2 =? cCOLON)); [reflexivity|].
      autorewrite with erase. rewrite IV. destruct (parse_value n (skip_spaces b3)); [apply IO|reflexivity]. }
    destruct f; [apply K|]. destruct (negb (c =? cCOMMA)); [reflexivity|]. rewrite fst_bind, fst_skip.
    destruct (skip_spaces b1) as [|c2 b2]; [reflexivity|]. destruct (c2 =? cRBRACE); [reflexivity|apply K].
  - cbv zeta. destruct (skip_spaces b) as [|c b1]; [reflexivity|].
    destruct (c =? cRBRACK); [reflexivity|].
    assert (K : forall b2, fst (let* p := parse_value_m n b2 in match p with PErr r e => ret (PErr r e) | POk _ b => array_loop_m n false a b end) =
        match parse_value n b2 with PErr r e => PErr r e | POk _ b => array_loop n false a b end).
    { intros b2. autorewrite with erase. rewrite IV. destruct (parse_value n b2); [apply IA|reflexivity]. }
    destruct f; [apply K|]. destruct (negb (c =? cCOMMA)); [reflexivity|]. rewrite fst_bind, fst_skip.
    destruct (skip_spaces b1) as [|c2 b2]; [reflexivity|]. destruct (c2 =? cRBRACK); [reflexivity|apply K].
Qed.
Lemma erase_parseValue b : fst (parseValue_m b) = parseValue b.
Proof. apply erase_pv. Qed.
#[export] Hint Rewrite erase_parseValue : erase.
Lemma erase_valid b : fst (Valid_m b) = Valid b.
Proof. unfold Valid_m, Valid. autorewrite with erase. destruct (parseValue (skip_spaces b)); reflexivity. Qed.
Lemma erase_input_error b : fst (input_error_m b) = input_error b.
Proof. unfold input_error_m, input_error. destruct b; [reflexivity|]. autorewrite with erase. destruct (parseValue _); reflexivity. Qed.
#[export] Hint Rewrite erase_input_error : erase.
Lemma erase_in_err {A} b (x : A) : fst (in_err_m b x) = in_err b x.
Proof. unfold in_err_m, in_err. autorewrite with erase. destruct (input_error b); reflexivity. Qed.
Lemma erase_elem_err {A} b e (x : A) : fst (elem_err_m b e x) = elem_err b e x.
Proof. unfold elem_err_m, elem_err. autorewrite with erase. destruct (parseValue b); reflexivity. Qed.
#[export] Hint Rewrite @erase_in_err @erase_elem_err : erase.
Lemma erase_finish b v c : fst (int_finish_m b v c) = int_finish b v c.
Proof.
  unfold int_finish_m, int_finish. autorewrite with erase. destruct (skipn c b) as [|d r]; [reflexivity|].
  destruct (_ || _)%bool; [|reflexivity]. autorewrite with erase. destruct (parse_number b); reflexivity.
Qed.
#[export] Hint Rewrite erase_finish : erase.
Lemma erase_pint b : fst (parse_int_m b) = parse_int b.
Proof.
  unfold parse_int_m, parse_int. destruct b as [|c b1]; [reflexivity|]. destruct (c =? cMINUS).
  - destruct b1 as [|d b1]; [reflexivity|]. destruct (leading_zero _); [reflexivity|].
    destruct (neg_loop _ _ _); autorewrite with erase; [reflexivity| |reflexivity]. destruct (input_error _); reflexivity.
  - destruct (leading_zero _); [reflexivity|].
    destruct (pos_loop _ _ _); autorewrite with erase; [reflexivity| |reflexivity]. destruct (input_error _); reflexivity.
Qed.
Lemma erase_puint b : fst (parse_uint_m b) = parse_uint b.
Proof.
  unfold parse_uint_m, parse_uint. destruct b as [|c b1]; [reflexivity|]. destruct (leading_zero _); [reflexivity|].
  destruct (uint_loop _ _ _); autorewrite with erase; [reflexivity| |reflexivity]. destruct (input_error _); reflexivity.
Qed.
#[export] Hint Rewrite erase_pint erase_puint : erase.
Lemma erase_int t b x : fst (decode_int_m t b x) = decode_int t b x.
Proof.
  unfold decode_int_m, decode_int. destruct (has_null_prefix b); [reflexivity|]. autorewrite with erase.
  destruct (signed t); autorewrite with erase;
    [destruct (parse_int b)|destruct (parse_uint b)]; try reflexivity; destruct (out_of_range t v); reflexivity.
Qed.
Lemma erase_null {A} b (x : A) : fst (decode_null_m b x) = decode_null b x.
Proof. unfold decode_null_m, decode_null. er. Qed.
Lemma erase_bool b x : fst (decode_bool_m b x) = decode_bool b x.
Proof. unfold decode_bool_m, decode_bool. er. Qed.
Lemma erase_float pf b x : fst (decode_float_m pf b x) = decode_float pf b x.
Proof. unfold decode_float_m, decode_float. er. Qed.
Lemma erase_number b x : fst (decode_number_m b x) = decode_number b x.
Proof. unfold decode_number_m, decode_number. er. Qed.
Lemma erase_string b x : fst (decode_string_m b x) = decode_string b x.
Proof. unfold decode_string_m, decode_string. er. Qed.
Lemma erase_raw b x : fst (decode_raw_m b x) = decode_raw b x.
Proof. unfold decode_raw_m, decode_raw. er. Qed.
Lemma erase_map {A B} (f : A -> B) m d : fst m = d -> fst (md_map f m) = d_map f d.
Proof. intros <-. reflexivity. Qed.
#[export] Hint Rewrite erase_int @erase_null erase_bool erase_float erase_number erase_string erase_raw : erase.

Section Loops.
Context {A : Type} (dm : bytes -> A -> M (dres A)) (dec : bytes -> A -> dres A) (E : forall b x, fst (dm b x) = dec b x).
Lemma erase_slice_loop z i k : forall b len d, fst (slice_loop_m dm z i k b len d) = slice_loop dec z i k b len d.
Proof.
  induction k as [|k IH]; intros b len d; [reflexivity|]. cbn [slice_loop_m slice_loop]. autorewrite with erase. cbv zeta.
  match goal with |- fst (if ?c then _ else _) = _ => destruct c; [reflexivity|] end.
  assert (K : forall b x d', fst (let* x := dm b x in match d_err x with
     | None => slice_loop_m dm z i k (d_rest x) (S len) (Some (set_nth len (d_val x) d'))
     | Some e => elem_err_m i e (Some (len, set_nth len (d_val x) d')) end) =
     match d_err (dec b x) with
     | None => slice_loop dec z i k (d_rest (dec b x)) (S len) (Some (set_nth len (d_val (dec b x)) d'))
     | Some e => elem_err i e (Some (len, set_nth len (d_val (dec b x)) d')) end).
  { intros b2 x d'. autorewrite with erase. rewrite E. destruct (d_err (dec b2 x)); [apply erase_elem_err|apply IH]. }
  destruct (Nat.eqb len 0); [apply K|]. destruct (skip_spaces b) as [|c b1]; [reflexivity|].
  destruct (c =? cCOMMA); [|reflexivity]. rewrite fst_bind, fst_skip. apply K.
Qed.
Lemma erase_slice z b x : fst (decode_slice_m dm z b x) = decode_slice dec z b x.
Proof. unfold decode_slice_m, decode_slice. er. apply erase_slice_loop. Qed.
Lemma erase_skip k : forall b, fst (array_skip_m k b) = array_skip k b.
Proof.
  induction k as [|k IH]; intros b; [reflexivity|]. cbn [array_skip_m array_skip]. autorewrite with erase. cbv zeta.
  destruct (skip_spaces b) as [|c b1]; [reflexivity|]. destruct (c =? cRBRACK); [reflexivity|].
  rewrite fst_bind. destruct (c =? cCOMMA); autorewrite with erase;
    (match goal with |- context [parseValue ?x] => destruct (parseValue x) end; [apply IH|reflexivity]).
Qed.
Lemma erase_arr_loop todo : forall f b done, fst (arr_loop_m dm f b done todo) = arr_loop dec f b done todo.
Proof.
  induction todo as [|x todo IH]; intros f b done; cbn [arr_loop_m arr_loop].
  - autorewrite with erase. rewrite erase_skip. destruct (array_skip _ _); reflexivity.
  - autorewrite with erase. cbv zeta.
    assert (K : forall b, fst (let* y := dm b x in match d_err y with
       | None => arr_loop_m dm false (d_rest y) (done ++ [d_val y]) todo
       | Some e => ret (DR (d_rest y) (Some e) (done ++ d_val y :: todo)) end) =
       match d_err (dec b x) with
       | None => arr_loop dec false (d_rest (dec b x)) (done ++ [d_val (dec b x)]) todo
       | Some e => DR (d_rest (dec b x)) (Some e) (done ++ d_val (dec b x) :: todo) end).
    { intros b2. autorewrite with erase. rewrite E. destruct (d_err (dec b2 x)); [reflexivity|apply IH]. }
    destruct f; [apply K|]. destruct (skip_spaces b) as [|c b1]; [reflexivity|].
    destruct (c =? cCOMMA); [|destruct (c =? cRBRACK); reflexivity]. rewrite fst_bind, fst_skip. apply K.
Qed.
Lemma erase_array b x : fst (decode_array_m dm b x) = decode_array dec b x.
Proof. unfold decode_array_m, decode_array. er. apply erase_arr_loop. Qed.

Context {K : Type} (km : bytes -> M (dres K)) (dk : bytes -> dres K) (EK : forall b, fst (km b) = dk b).
Lemma erase_obj_key f b : fst (obj_key_m km f b) = obj_key dk f b.
Proof.
  unfold obj_key_m, obj_key. cbv zeta.
  assert (H : forall b, fst (if has_null_prefix b then ret (inl (b, ESyntax)) else
      let* x := km b in match d_err x with
      | Some e => ret (inl (key_error (d_rest x) e))
      | None => let* b := skip_spaces_m (d_rest x) in match b with
          | [] => ret (inl (b, ESyntax))
          | c :: b1 => if c =? cCOLON then let* b2 := skip_spaces_m b1 in ret (inr (b2, d_val x)) else ret (inl (b, ESyntax)) end end) =
      if has_null_prefix b then inl (b, ESyntax) else
      match d_err (dk b) with
      | Some e => inl (key_error (d_rest (dk b)) e)
      | None => match skip_spaces (d_rest (dk b)) with
          | [] => inl (skip_spaces (d_rest (dk b)), ESyntax)
          | c :: b1 => if c =? cCOLON then inr (skip_spaces b1, d_val (dk b)) else inl (skip_spaces (d_rest (dk b)), ESyntax) end end).
  { intros b2. destruct (has_null_prefix b2); [reflexivity|]. autorewrite with erase. rewrite EK.
    destruct (d_err (dk b2)); [reflexivity|]. autorewrite with erase. destruct (skip_spaces _) as [|c b3]; [reflexivity|].
    destruct (c =? cCOLON); reflexivity. }
  destruct f; [apply H|]. destruct b as [|c b1]; [reflexivity|]. destruct (c =? cCOMMA); [|reflexivity].
  rewrite fst_bind, fst_skip. apply H.
Qed.
Lemma erase_map_loop eqb z i fr k : forall f b m, fst (map_loop_m eqb km dm z i fr k f b m) = map_loop eqb dk dec z i fr k f b m.
Proof.
  induction k as [|k IH]; intros f b m; [reflexivity|]. cbn [map_loop_m map_loop]. autorewrite with erase. cbv zeta.
  match goal with |- fst (if ?c then _ else _) = _ => destruct c; [reflexivity|] end.
  autorewrite with erase. rewrite erase_obj_key. destruct (obj_key dk f (skip_spaces b)) as [[r e]|[b2 key]]; [reflexivity|].
  autorewrite with erase. rewrite E. destruct (d_err _); [apply erase_elem_err|apply IH].
Qed.
Lemma erase_dmap eqb z b m : fst (decode_map_m eqb km dm z b m) = decode_map eqb dk dec z b m.
Proof. unfold decode_map_m, decode_map. er; apply erase_map_loop. Qed.
End Loops.

Lemma erase_struct_loop {A} (lm : bytes -> option (bytes -> A -> M (dres A))) look dis i
    (E : forall k, match lm k, look k with Some dm, Some d => forall b x, fst (dm b x) = d b x | None, None => True | _, _ => False end) k :
  forall f b x, fst (struct_loop_m lm dis i k f b x) = struct_loop look dis i k f b x.
Proof.
  induction k as [|k IH]; intros f b x; [reflexivity|]. cbn [struct_loop_m struct_loop]. autorewrite with erase. cbv zeta.
  match goal with |- fst (if ?c then _ else _) = _ => destruct c; [reflexivity|] end.
  rewrite fst_bind, (erase_obj_key _ (fun b => match parse_string_unquote b [] with
                    | QOk s r _ => DR r None s | QErr r e => DR r (Some e) []
                    | QPanic => DR b (Some EPanicked) [] | QFuel => DR b (Some EFuel) [] end));
    [|intros b2; autorewrite with erase; destruct (parse_string_unquote b2 []); reflexivity].
  match goal with |- fst (match ?o with _ => _ end) = _ => destruct o as [[r e]|[b2 key]] end; [reflexivity|].
  specialize (E key). destruct (lm key) as [dm|], (look key) as [d|]; try contradiction.
  - autorewrite with erase. rewrite E. destruct (d_err _); [apply erase_elem_err|apply IH].
  - destruct dis; [reflexivity|]. autorewrite with erase. destruct (parseValue b2); [apply IH|reflexivity].
Qed.
Lemma erase_struct {A} (lm : bytes -> option (bytes -> A -> M (dres A))) look dis
    (E : forall k, match lm k, look k with Some dm, Some d => forall b x, fst (dm b x) = d b x | None, None => True | _, _ => False end) b x :
  fst (decode_struct_m lm dis b x) = decode_struct look dis b x.
Proof. unfold decode_struct_m, decode_struct. er. apply erase_struct_loop, E. Qed.

Lemma erase_iface un pf n : forall b x, fst (dec_iface_m un pf n b x) = dec_iface un pf n b x.
Proof.
  induction n as [|n IH]; intros b x; [reflexivity|]. cbn [dec_iface_m dec_iface]. autorewrite with erase.
  destruct (parseValue b) as [v b'|r e]; [|reflexivity]. cbv zeta.
  assert (K : forall m d, fst m = d -> fst (let* x := m in match d_err x with
          | Some e => ret (DR b' (Some e) JVNull)
          | None => let* s := skip_spaces_m (d_rest x) in match s with
                    | [] => ret (DR b' None (d_val x)) | _ => ret (DR b' (Some ESyntax) JVNull) end end) =
       match d_err d with
       | Some e => DR b' (Some e) JVNull
       | None => match skip_spaces (d_rest d) with [] => DR b' None (d_val d) | _ => DR b' (Some ESyntax) JVNull end end).
  { intros m d <-. autorewrite with erase. destruct (d_err (fst m)); [reflexivity|]. autorewrite with erase.
    destruct (skip_spaces _); reflexivity. }
  destruct v as [|c v]; [reflexivity|].
  destruct (c =? cLBRACE). { apply K, erase_map, erase_dmap; [apply IH|intros; apply erase_string]. }
  destruct (c =? cLBRACK). { apply K, erase_map, erase_slice, IH. }
  destruct (c =? cQUOTE). { apply K, erase_map, erase_string. }
  destruct (c =? cn). { apply K, erase_null. }
  destruct (_ || _)%bool. { apply K, erase_map, erase_bool. }
  destruct (is_num_start c); [|reflexivity]. destruct un; apply K, erase_map; [apply erase_number|apply erase_float].
Qed.
Lemma erase_interface un pf b x : fst (decode_interface_m un pf b x) = decode_interface un pf b x.
Proof. apply erase_iface. Qed.
Lemma erase_parse {A} (dm : bytes -> A -> M (dres A)) dec b x : (forall b x, fst (dm b x) = dec b x) ->
  fst (parse_with_m dm b x) = parse_with dec b x.
Proof. intros E. unfold parse_with_m, parse_with. autorewrite with erase. rewrite E. reflexivity. Qed.
Lemma erase_unmarshal_with {A} (dm : bytes -> A -> M (dres A)) dec b x : (forall b x, fst (dm b x) = dec b x) ->
  fst (unmarshal_with_m dm b x) = unmarshal_with dec b x.
Proof. intros E. unfold unmarshal_with_m, unmarshal_with. autorewrite with erase. rewrite (erase_parse _ _ _ _ E). reflexivity. Qed.
Lemma erase_from_string {A} (dm : bytes -> A -> M (dres A)) dec b x : (forall b x, fst (dm b x) = dec b x) ->
  fst (decode_from_string_m dm b x) = decode_from_string dec b x.
Proof.
  intros E. unfold decode_from_string_m, decode_from_string. destruct (has_null_prefix b); [apply E|]. autorewrite with erase.
  destruct (parse_string_unquote b []); try reflexivity; try apply erase_in_err. autorewrite with erase. rewrite E. cbv zeta.
  destruct (d_err _); [reflexivity|]. autorewrite with erase. destruct (skip_spaces _); reflexivity.
Qed.
Lemma erase_from_string_int {A} pf (dm : bytes -> A -> M (dres A)) dec b x : (forall b x, fst (dm b x) = dec b x) ->
  fst (decode_from_string_int_m pf dm b x) = decode_from_string_int pf dec b x.
Proof.
  intros E. unfold decode_from_string_int_m, decode_from_string_int. destruct (has_null_prefix b); [apply E|]. cbv zeta.
  match goal with |- fst (match b with [] => ?q | _ => _ end) = match b with [] => ?q' | _ => _ end => set (qm := q); set (qe := q'); assert (Q : fst qm = qe); [subst qm qe|clearbody qm qe] end.
  { autorewrite with erase. destruct (parse_string_unquote b []) as [s r e| | |]; try reflexivity; try apply erase_in_err.
    autorewrite with erase. rewrite E. destruct (d_err (dec (strip_zeroes s) x)) as [e'|].
    - destruct e'; try reflexivity; autorewrite with erase; destruct (parse_number _); autorewrite with erase; reflexivity.
    - destruct (d_rest _); reflexivity. }
  destruct b as [|c b1]; [apply Q|]. destruct (negb (c =? cQUOTE)).
  - autorewrite with erase. destruct (parse_number _); [|reflexivity]. autorewrite with erase.
    destruct (existsb _ _); [|reflexivity]. destruct (pf _); reflexivity.
  - destruct b1 as [|c1 b2]; [apply Q|]. destruct (c1 =? cQUOTE); [reflexivity|apply Q].
Qed.

Section Typed.
Context (V : tenv) (F : dflags).
Lemma erase_bytes b x : fst (decode_bytes_m V b x) = decode_bytes V b x.
Proof.
  unfold decode_bytes_m, decode_bytes. destruct (has_null_prefix b); [reflexivity|]. destruct (Nat.ltb _ _); [apply erase_in_err|].
  destruct b as [|c b1]; [apply erase_in_err|]. destruct (negb (c =? cQUOTE)).
  - destruct (c =? cLBRACK); [|apply erase_in_err]. apply erase_slice. intros; apply erase_int.
  - autorewrite with erase. destruct (parse_string_unquote _ _); try reflexivity; try apply erase_in_err.
    autorewrite with erase. destruct (v_b64 V _); reflexivity.
Qed.
Lemma erase_quoted {A} (p : bytes -> option A) b x : fst (decode_quoted_m p b x) = decode_quoted p b x.
Proof.
  unfold decode_quoted_m, decode_quoted. destruct (Nat.ltb _ _); [apply erase_in_err|].
  destruct b as [|c b1]; [apply erase_in_err|]. destruct (negb (c =? cQUOTE)); [apply erase_in_err|].
  destruct (index_byte cQUOTE b1); autorewrite with erase; [|reflexivity]. destruct (p _); autorewrite with erase; reflexivity.
Qed.
Lemma erase_duration b x : fst (decode_duration_m V b x) = decode_duration V b x.
Proof.
  unfold decode_duration_m, decode_duration. destruct (has_null_prefix b); [reflexivity|].
  destruct b as [|c b1]; [apply erase_quoted|]. destruct (negb (c =? cQUOTE)); [|apply erase_quoted].
  autorewrite with erase. destruct (parse_int _); autorewrite with erase; reflexivity.
Qed.
Lemma erase_time b x : fst (decode_time_m V b x) = decode_time V b x.
Proof. unfold decode_time_m, decode_time. destruct (has_null_prefix b); [reflexivity|apply erase_quoted]. Qed.
Lemma erase_type_error b x : fst (decode_type_error_m b x) = decode_type_error b x.
Proof. unfold decode_type_error_m, decode_type_error. autorewrite with erase. destruct (parseValue b); reflexivity. Qed.
Lemma erase_json_user u b x : fst (decode_json_user_m V u b x) = decode_json_user V u b x.
Proof.
  unfold decode_json_user_m, decode_json_user. autorewrite with erase. destruct (parseValue b); [|reflexivity].
  destruct (rv_null v); [reflexivity|]. autorewrite with erase. destruct (v_json V u v x); reflexivity.
Qed.
Lemma erase_text_user u b x : fst (decode_text_user_m V u b x) = decode_text_user V u b x.
Proof.
  unfold decode_text_user_m, decode_text_user. autorewrite with erase. destruct (parseValue b); [|reflexivity].
  destruct (rv_null v). { destruct (parse_null v); reflexivity. } destruct (rv_string v); [|reflexivity].
  autorewrite with erase. destruct (parse_string_unquote v []); try reflexivity. autorewrite with erase. destruct (v_text V u _ x); reflexivity.
Qed.
Lemma erase_key k b : fst (decode_key_m V k b) = decode_key V k b.
Proof.
  destruct k; cbn [decode_key_m decode_key]; apply erase_map; [apply erase_string| |apply erase_text_user].
  apply erase_from_string. intros; apply erase_int.
Qed.
Lemma erase_path p dm dec : (forall b x, fst (dm b x) = dec b x) ->
  forall b x, fst (on_path_m V p dm b x) = on_path V p dec b x.
Proof.
  intros E. induction p as [|[i|i s un] p IH]; intros b x; cbn [on_path_m on_path]; [apply E| |].
  - destruct x; try reflexivity. destruct (nth_error l i); [|reflexivity]. apply erase_map, IH.
  - autorewrite with erase. destruct x; try reflexivity. destruct (nth_error l i) as [m|]; [|reflexivity]. destruct m; try reflexivity.
    destruct p0; [apply erase_map, IH|]. destruct un; [reflexivity|]. apply erase_map, IH.
Qed.
Lemma erase_field f dm dec : (forall b x, fst (dm b x) = dec b x) ->
  forall b x, fst (decode_field_m V f dm b x) = decode_field V f dec b x.
Proof.
  intros E b x. unfold decode_field_m, decode_field. destruct (jf_quot f); [apply E|apply erase_from_string, E|apply erase_from_string_int, E].
Qed.
Lemma erase_ty n : forall t b x, fst (dec_ty_m V F n t b x) = dec_ty V F n t b x.
Proof.
  induction n as [|n IHn]; (induction t; intros b x; cbn [dec_ty_m dec_ty]; rewrite fst_call; destruct x; try reflexivity;
    try (apply erase_map; first [apply erase_bool|apply erase_int|apply erase_float|apply erase_number|apply erase_string|apply erase_bytes
      |apply erase_duration|apply erase_time|apply erase_interface|apply erase_raw|apply erase_json_user|apply erase_text_user
      |apply erase_slice; apply IHt
      |apply erase_dmap; [apply IHt|apply erase_key]
      |apply erase_dmap; [intros; apply erase_map; apply erase_interface|apply erase_key]
      |apply erase_dmap; [intros; apply erase_map; apply erase_raw|apply erase_key]]; fail);
    try (apply erase_type_error; fail)).
  all: try (destruct (Nat.eqb _ _); [|reflexivity]; apply erase_map, erase_array, IHt).
  all: try (destruct (has_null_prefix b); [reflexivity|]; destruct v; try apply erase_type_error; destruct empty; [|apply erase_type_error];
            apply erase_map, erase_parse; intros; apply erase_interface).
  all: try (destruct (has_null_prefix b); [destruct p as [y|]; [|destruct t; reflexivity]; destruct t; try reflexivity; apply erase_map, IHt|
            apply erase_map, IHt]).
  apply erase_struct. intros k. destruct (find_field V F (v_flds V i) k) as [f|]; [|trivial].
  apply erase_path. apply erase_field. apply IHn.
Qed.
Lemma erase_decode t b x : fst (decode_m V F t b x) = decode V F t b x.
Proof. apply erase_ty. Qed.
Lemma erase_unmarshal t b x : fst (unmarshal_m V F t b x) = unmarshal V F t b x.
Proof. apply erase_unmarshal_with. intros; apply erase_decode. Qed.
End Typed.
