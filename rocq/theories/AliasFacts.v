(** The decoders with places compute the values of the decoders without. *)
From Verif Require Import Bytes AsciiModel Utf8Model ParseModel IntModel StringModel EncModel DecModel TypeModel AliasModel SpecAlias TypeFacts.

Definition smap {A B} (f : A -> B) (s : sl A) : sl B := match s with None => None | Some (n, d) => Some (n, map f d) end.
Definition kvmap {K L A B} (fk : K -> L) (f : A -> B) (m : list (K * A)) : list (L * B) := map (fun kv => match kv with (k, x) => (fk k, f x) end) m.

Lemma d_map_map {A B D} (f : A -> B) (g : B -> D) d : d_map g (d_map f d) = d_map (fun x => g (f x)) d.
Proof. reflexivity. Qed.
Lemma d_map_ext {A B} (f g : A -> B) d : (forall x, f x = g x) -> d_map f d = d_map g d.
Proof. intros H. unfold d_map. rewrite H. reflexivity. Qed.
Lemma in_err_map {A B} (f : A -> B) b x : d_map f (in_err b x) = in_err b (f x).
Proof. unfold in_err. destruct (input_error b). reflexivity. Qed.
Lemma elem_err_map {A B} (f : A -> B) i e x : d_map f (elem_err i e x) = elem_err i e (f x).
Proof. unfold elem_err. destruct (parseValue i); reflexivity. Qed.
Lemma set_nth_map {A B} (f : A -> B) i x l : map f (set_nth i x l) = set_nth i (f x) (map f l).
Proof. unfold set_nth. rewrite map_app, firstn_map. cbn [map]. rewrite skipn_map. reflexivity. Qed.
Lemma map_rep {A B} (f : A -> B) x n : map f (repeat x n) = repeat (f x) n.
Proof. induction n as [|n IH]; [reflexivity|]. cbn [repeat map]. rewrite IH. reflexivity. Qed.
Lemma grow_map {A B} (f : A -> B) z d : map f (grow z d) = grow (f z) (map f d).
Proof. unfold grow. rewrite map_app. f_equal. rewrite map_rep. f_equal. destruct d; [reflexivity|]. cbn [map length]. rewrite map_length. reflexivity. Qed.

Section Loops.
Context {A B : Type} (f : A -> B) (dA : bytes -> A -> dres A) (dB : bytes -> B -> dres B).
Hypothesis H : forall b x, d_map f (dA b x) = dB b (f x).

Lemma slice_loop_map z inp k : forall b len data,
  d_map (smap f) (slice_loop dA z inp k b len data) = slice_loop dB (f z) inp k b len (option_map (map f) data).
Proof.
  induction k as [|k IH]; intros b len data; cbn [slice_loop].
  - destruct data; reflexivity.
  - cbv zeta. destruct (match skip_spaces b with c :: _ => c =? cRBRACK | [] => false end); [destruct data; reflexivity|].
    assert (E : forall b2, d_map (smap f)
       (let d := if Nat.eqb len (length (match data with None => [] | Some d => d end)) then grow z (match data with None => [] | Some d => d end) else match data with None => [] | Some d => d end in
        match d_err (dA b2 (nth len d z)) with
        | None => slice_loop dA z inp k (d_rest (dA b2 (nth len d z))) (S len) (Some (set_nth len (d_val (dA b2 (nth len d z))) d))
        | Some e => elem_err inp e (Some (len, set_nth len (d_val (dA b2 (nth len d z))) d))
        end) =
       (let d := if Nat.eqb len (length (match option_map (map f) data with None => [] | Some d => d end)) then grow (f z) (match option_map (map f) data with None => [] | Some d => d end) else match option_map (map f) data with None => [] | Some d => d end in
        match d_err (dB b2 (nth len d (f z))) with
        | None => slice_loop dB (f z) inp k (d_rest (dB b2 (nth len d (f z)))) (S len) (Some (set_nth len (d_val (dB b2 (nth len d (f z)))) d))
        | Some e => elem_err inp e (Some (len, set_nth len (d_val (dB b2 (nth len d (f z)))) d))
        end)).
    { intros b2. set (d := match data with None => [] | Some d => d end).
      replace (match option_map (map f) data with None => [] | Some d => d end) with (map f d) by (unfold d; destruct data; reflexivity).
      rewrite map_length. cbv zeta. replace (if Nat.eqb len (length d) then grow (f z) (map f d) else map f d) with (map f (if Nat.eqb len (length d) then grow z d else d)) by (destruct (Nat.eqb len (length d)); [apply grow_map|reflexivity]).
      set (e := if Nat.eqb len (length d) then grow z d else d). rewrite map_nth, <- H. cbn [d_map d_err d_rest d_val].
      destruct (d_err (dA b2 (nth len e z))) as [er|].
      - rewrite elem_err_map. cbn [smap]. rewrite set_nth_map. reflexivity.
      - rewrite IH. cbn [option_map]. rewrite set_nth_map. reflexivity. }
    cbv zeta in E. destruct (Nat.eqb len 0); [apply E|]. destruct (skip_spaces b) as [|c b1]; [destruct data; reflexivity|].
    destruct (c =? cCOMMA); [apply E|destruct data; reflexivity].
Qed.
Lemma decode_slice_map z b s : d_map (smap f) (decode_slice dA z b s) = decode_slice dB (f z) b (smap f s).
Proof.
  unfold decode_slice. destruct (has_null_prefix b); [reflexivity|]. destruct (Nat.ltb (length b) 2); [apply in_err_map|].
  destruct b as [|c b1]; [apply in_err_map|]. destruct (c =? cLBRACK); [|apply in_err_map]. rewrite slice_loop_map. destruct s as [[n d]|]; reflexivity.
Qed.

Lemma arr_loop_map todo : forall first b done, d_map (map f) (arr_loop dA first b done todo) = arr_loop dB first b (map f done) (map f todo).
Proof.
  induction todo as [|x todo IH]; intros first b done; cbn [arr_loop map].
  - destruct (array_skip _ _). reflexivity.
  - cbv zeta.
    assert (E : forall b2, d_map (map f) (match d_err (dA b2 x) with None => arr_loop dA false (d_rest (dA b2 x)) (done ++ [d_val (dA b2 x)]) todo | Some e => DR (d_rest (dA b2 x)) (Some e) (done ++ d_val (dA b2 x) :: todo) end) =
      match d_err (dB b2 (f x)) with None => arr_loop dB false (d_rest (dB b2 (f x))) (map f done ++ [d_val (dB b2 (f x))]) (map f todo) | Some e => DR (d_rest (dB b2 (f x))) (Some e) (map f done ++ d_val (dB b2 (f x)) :: map f todo) end).
    { intros b2. rewrite <- H. cbn [d_map d_err d_rest d_val]. destruct (d_err (dA b2 x)).
      - unfold d_map. cbn [d_rest d_err d_val]. rewrite map_app. reflexivity.
      - rewrite IH, map_app. reflexivity. }
    destruct first; [apply E|]. destruct (skip_spaces b) as [|c b1]; [unfold d_map; cbn [d_rest d_err d_val]; rewrite map_app; reflexivity|].
    destruct (c =? cCOMMA); [apply E|]. destruct (c =? cRBRACK); unfold d_map; cbn [d_rest d_err d_val]; rewrite map_app; reflexivity.
Qed.
Lemma decode_array_map b l : d_map (map f) (decode_array dA b l) = decode_array dB b (map f l).
Proof.
  unfold decode_array. destruct (has_null_prefix b); [reflexivity|]. destruct (Nat.ltb (length b) 2); [apply in_err_map|].
  destruct b as [|c b1]; [apply in_err_map|]. destruct (c =? cLBRACK); [apply arr_loop_map|apply in_err_map].
Qed.

Context {K L : Type} (fk : K -> L) (eqA : K -> K -> bool) (eqB : L -> L -> bool) (kA : bytes -> dres K) (kB : bytes -> dres L).
Hypothesis HK : forall b, d_map fk (kA b) = kB b.
Hypothesis HE : forall x y, eqB (fk x) (fk y) = eqA x y.

Lemma obj_key_map first b : obj_key kB first b = match obj_key kA first b with inl e => inl e | inr (r, k) => inr (r, fk k) end.
Proof.
  unfold obj_key. cbv zeta.
  assert (E : forall b2, match kA b2 with DR r e k => kB b2 = DR r e (fk k) end) by (intros b2; rewrite <- HK; destruct (kA b2); reflexivity).
  destruct first; [|destruct b as [|c b1]; [reflexivity|]; destruct (c =? cCOMMA); [|reflexivity]];
    match goal with |- context [kB ?b2] => specialize (E b2); destruct (kA b2) as [r e k]; rewrite E end; cbn [d_err d_rest d_val];
    (destruct (has_null_prefix _); [reflexivity|]); (destruct e; [reflexivity|]); (destruct (skip_spaces r) as [|c' t]; [reflexivity|]); destruct (c' =? cCOLON); reflexivity.
Qed.
Lemma map_set_map k v (m : list (K * A)) : kvmap fk f (map_set eqA k v m) = map_set eqB (fk k) (f v) (kvmap fk f m).
Proof. induction m as [|[k' v'] m IH]; [reflexivity|]. cbn [map_set kvmap map]. rewrite HE. destruct (eqA k' k); [reflexivity|]. cbn [map]. unfold kvmap in IH. rewrite IH. reflexivity. Qed.
Lemma map_loop_map z inp fresh n : forall first b m,
  d_map (option_map (kvmap fk f)) (map_loop eqA kA dA z inp fresh n first b m) = map_loop eqB kB dB (f z) inp fresh n first b (kvmap fk f m).
Proof.
  induction n as [|n IH]; intros first b m; cbn [map_loop].
  - destruct fresh; reflexivity.
  - cbv zeta. destruct (match skip_spaces b with c :: _ => c =? cRBRACE | [] => false end); [reflexivity|].
    rewrite obj_key_map. destruct (obj_key kA first (skip_spaces b)) as [[r e]|[b2 key]]; [destruct fresh; reflexivity|].
    rewrite <- H. cbn [d_map d_err d_rest d_val]. destruct (d_err (dA b2 z)).
    + rewrite elem_err_map. destruct fresh; reflexivity.
    + rewrite IH, map_set_map. reflexivity.
Qed.
Lemma decode_map_map z b m : d_map (option_map (kvmap fk f)) (decode_map eqA kA dA z b m) = decode_map eqB kB dB (f z) b (option_map (kvmap fk f) m).
Proof.
  unfold decode_map. destruct (has_null_prefix b); [reflexivity|]. destruct (Nat.ltb (length b) 2); [apply in_err_map|].
  destruct b as [|c b1]; [apply in_err_map|]. destruct (c =? cLBRACE); [|apply in_err_map]. rewrite map_loop_map. destruct m; reflexivity.
Qed.
End Loops.

Section StructLoop.
Context {A B : Type} (f : A -> B) (lA : bytes -> option (bytes -> A -> dres A)) (lB : bytes -> option (bytes -> B -> dres B)).
Hypothesis H : forall k, match lA k, lB k with
                         | None, None => True
                         | Some dA, Some dB => forall b x, d_map f (dA b x) = dB b (f x)
                         | _, _ => False
                         end.
Lemma struct_loop_map dis inp n : forall first b x, d_map f (struct_loop lA dis inp n first b x) = struct_loop lB dis inp n first b (f x).
Proof.
  induction n as [|n IH]; intros first b x; cbn [struct_loop]; [reflexivity|].
  cbv zeta. destruct (match skip_spaces b with c :: _ => c =? cRBRACE | [] => false end); [reflexivity|].
  destruct (obj_key _ first (skip_spaces b)) as [[r e]|[b2 key]]; [reflexivity|]. specialize (H key).
  destruct (lA key) as [dA|], (lB key) as [dB|]; try contradiction.
  - rewrite <- H. cbn [d_map d_err d_rest d_val]. destruct (d_err (dA b2 x)); [apply elem_err_map|apply IH].
  - destruct dis; [reflexivity|]. destruct (parseValue b2); [apply IH|reflexivity].
Qed.
Lemma decode_struct_map dis b x : d_map f (decode_struct lA dis b x) = decode_struct lB dis b (f x).
Proof.
  unfold decode_struct. destruct (has_null_prefix b); [reflexivity|]. destruct (Nat.ltb (length b) 2); [apply in_err_map|].
  destruct b as [|c b1]; [apply in_err_map|]. destruct (c =? cLBRACE); [apply struct_loop_map|apply in_err_map].
Qed.
End StructLoop.

(** * Leaves *)
Section Erase.
Context (V : tenv) (F : dflags) (C : cflags).

Lemma a_number_map at_ b x : d_map a_text (a_number C at_ b x) = decode_number b (a_text x).
Proof. unfold a_number, decode_number. destruct (has_null_prefix b); [reflexivity|]. destruct (parse_number b); [reflexivity|apply in_err_map]. Qed.
Lemma a_string_map at_ b x : d_map a_text (a_string C at_ b x) = decode_string b (a_text x).
Proof.
  unfold a_string, decode_string. destruct (has_null_prefix b); [reflexivity|]. destruct (parse_string_unquote b []) as [s r i| | |]; try reflexivity.
  - destruct i; reflexivity.
  - destruct b as [|c b1]; [apply in_err_map|]. destruct (c =? cQUOTE); [reflexivity|apply in_err_map].
Qed.
Lemma a_raw_map at_ b x : d_map (option_map a_text) (a_raw C at_ b x) = decode_raw b (option_map a_text x).
Proof. unfold a_raw, decode_raw. destruct (parseValue b); [reflexivity|apply in_err_map]. Qed.
Lemma null_map {A B} (f : A -> B) b x : d_map f (decode_null b x) = decode_null b (f x).
Proof. unfold decode_null. destruct (has_null_prefix b); [reflexivity|apply in_err_map]. Qed.

Notation vjv := (walk_jv a_text).
Lemma a_iface_map n : forall at_ b x, d_map vjv (a_iface_f V F C n at_ b x) = dec_iface (d_usenum F) (v_float V true) n b (vjv x).
Proof.
  induction n as [|n IH]; intros at_ b x; [reflexivity|]. cbn [a_iface_f dec_iface]. destruct (parseValue b) as [v b'|r e]; [|reflexivity]. cbv zeta.
  set (at2 := stop_at at_ (length b')).
  assert (D : forall (y : dres ajv) (z : dres jv), d_map vjv y = z ->
    d_map vjv (match d_err y with Some e => DR b' (Some e) AVNull | None => match skip_spaces (d_rest y) with [] => DR b' None (d_val y) | _ => DR b' (Some ESyntax) AVNull end end) =
    match d_err z with Some e => DR b' (Some e) JVNull | None => match skip_spaces (d_rest z) with [] => DR b' None (d_val z) | _ => DR b' (Some ESyntax) JVNull end end).
  { intros y z <-. cbn [d_map d_err d_rest d_val]. destruct (d_err y); [reflexivity|]. destruct (skip_spaces (d_rest y)); reflexivity. }
  destruct v as [|c v]; [reflexivity|].
  destruct (c =? cLBRACE).
  { apply D. pose proof (decode_map_map vjv _ _ (IH at2) a_text aeqb beqb (fun b => a_string C at2 b (AS [] None)) (fun b => decode_string b []) (fun b => a_string_map at2 b _) (fun _ _ => eq_refl) AVNull (c :: v) (Some [])) as M.
    cbn [option_map kvmap map walk_jv] in M. rewrite <- M, !d_map_map. apply d_map_ext. intros [m|]; reflexivity. }
  destruct (c =? cLBRACK).
  { apply D. pose proof (decode_slice_map vjv _ _ (IH at2) AVNull (c :: v) (Some (O, repeat AVNull 10))) as M. cbn [smap] in M. rewrite map_rep in M. cbn [walk_jv] in M.
    rewrite <- M, !d_map_map. apply d_map_ext. intros [[k d]|]; [|reflexivity]. cbn [walk_jv smap]. rewrite firstn_map. reflexivity. }
  destruct (c =? cQUOTE); [apply D; change (@nil Z) with (a_text (AS [] None)) at 2; rewrite <- (a_string_map at2); reflexivity|].
  destruct (c =? cn); [apply D, null_map|].
  destruct ((c =? ct) || (c =? cf)); [apply D; reflexivity|].
  destruct (is_num_start c); [|reflexivity].
  destruct (d_usenum F); [|apply D; reflexivity]. apply D. change (@nil Z) with (a_text (AS [] None)) at 2. rewrite <- (a_number_map at2). reflexivity.
Qed.
Lemma a_zero_map f : (forall s, f (AS s None) = s) -> forall t, walk f (a_zero V t) = zero V t.
Proof.
  intros E. unfold a_zero, zero. induction (v_depth V) as [|n IHn]; induction t; cbn [a_zero_f zero_f walk walk_jv option_map]; rewrite ?E; try reflexivity.
  - rewrite map_rep. f_equal. f_equal. exact IHt.
  - rewrite map_rep. f_equal. f_equal. exact IHt.
  - f_equal. rewrite map_map. apply map_ext. exact IHn.
Qed.
Lemma from_string_map {A B} (f : A -> B) at_ dA dB b x : (forall at_ b x, d_map f (dA at_ b x) = dB b (f x)) ->
  d_map f (a_from_string at_ dA b x) = decode_from_string dB b (f x).
Proof.
  intros H. unfold a_from_string, decode_from_string. destruct (has_null_prefix b); [apply H|].
  destruct (parse_string_unquote b []) as [v r i| | |]; try reflexivity. cbv zeta. rewrite <- (H (if i then None else stop_at at_ (S (length r)))). cbn [d_map d_err d_rest d_val].
  destruct (d_err _); [reflexivity|]. destruct (skip_spaces _); reflexivity.
Qed.
Lemma from_string_int_map {A B} (f : A -> B) at_ pf dA dB b x : (forall at_ b x, d_map f (dA at_ b x) = dB b (f x)) ->
  d_map f (a_from_string_int at_ pf dA b x) = decode_from_string_int pf dB b (f x).
Proof.
  intros H. unfold a_from_string_int, decode_from_string_int. destruct (has_null_prefix b); [apply H|]. cbv zeta.
  set (qa := match parse_string_unquote b [] with QOk v r isNew => _ | _ => _ end). set (qb := match parse_string_unquote b [] with QOk v r isNew => _ | _ => _ end).
  assert (Q : d_map f qa = qb).
  { unfold qa, qb. destruct (parse_string_unquote b []) as [v r i| | |]; try reflexivity.
    rewrite <- (H (if i || has_leading_zeroes v then None else stop_at at_ (S (length r)))). cbn [d_map d_err d_rest d_val].
    destruct (d_err _) as [[]|]; try reflexivity. destruct (d_rest _); reflexivity. }
  clearbody qa qb. destruct b as [|c b1]; [exact Q|]. destruct (negb (c =? cQUOTE)).
  - destruct (parse_number (c :: b1)) as [v r|]; [|reflexivity]. destruct (existsb _ v); [destruct (pf v)|]; reflexivity.
  - destruct b1 as [|c1 b2]; [exact Q|]. destruct (c1 =? cQUOTE); [reflexivity|exact Q].
Qed.
Notation val := (walk a_text).
Lemma on_path_map dA dB p : (forall b x, d_map val (dA b x) = dB b (val x)) -> forall b x, d_map val (a_on_path V p dA b x) = on_path V p dB b (val x).
Proof.
  intros H. induction p as [|a p IH]; intros b x; [apply H|]. cbn [a_on_path on_path]. destruct a as [i|i s un].
  - destruct x; try reflexivity. cbn [walk]. rewrite nth_error_map. destruct (nth_error l i) as [y|]; [|reflexivity]. cbn [option_map]. rewrite <- IH, !d_map_map. apply d_map_ext.
    intros z. cbn [walk]. rewrite set_nth_map. reflexivity.
  - destruct x; try reflexivity. cbn [walk]. rewrite nth_error_map. destruct (nth_error l i) as [y|]; [|reflexivity]. cbn [option_map]. destruct y as [| | | | | | | | | | |q|]; try reflexivity. destruct q as [y|]; cbn [walk].
    + rewrite <- IH, !d_map_map. apply d_map_ext. intros z. cbn [walk]. rewrite set_nth_map. reflexivity.
    + destruct un; [reflexivity|]. rewrite <- (a_zero_map a_text (fun _ => eq_refl)), <- IH, !d_map_map. apply d_map_ext. intros z. cbn [walk]. rewrite set_nth_map. reflexivity.
Qed.
Lemma a_key_map at_ k b : d_map (walk_key a_text) (a_key V C at_ k b) = decode_key V k b.
Proof. destruct k; cbn [a_key decode_key]; [|reflexivity|reflexivity]. change (@nil Z) with (a_text (AS [] None)) at 2. rewrite <- (a_string_map at_). reflexivity. Qed.
Lemma akey_eqb_map x y : mkey_eqb (walk_key a_text x) (walk_key a_text y) = akey_eqb x y.
Proof. destruct x, y; reflexivity. Qed.
Lemma a_type_error_map b x : d_map val (a_type_error b x) = decode_type_error b (val x).
Proof. unfold a_type_error, decode_type_error. destruct (parseValue b); reflexivity. Qed.
Lemma a_interface_map at_ b x : d_map (walk_jv a_text) (a_iface V F C at_ b x) = decode_interface (d_usenum F) (v_float V true) b (walk_jv a_text x).
Proof. apply a_iface_map. Qed.
Lemma a_dec_eq n t at_ b cur : a_dec V F C n t at_ b cur =
  match t with
  | YBool => match cur with ABool x => d_map ABool (decode_bool b x) | _ => a_bad b cur end
  | YInt it => match cur with AInt x => d_map AInt (decode_int it b x) | _ => a_bad b cur end
  | YFloat w => match cur with AFloat x => d_map AFloat (decode_float (v_float V w) b x) | _ => a_bad b cur end
  | YNumber => match cur with AStr x => d_map AStr (a_number C at_ b x) | _ => a_bad b cur end
  | YString => match cur with AStr x => d_map AStr (a_string C at_ b x) | _ => a_bad b cur end
  | YBytes => match cur with ABytes x => d_map ABytes (decode_bytes V b x) | _ => a_bad b cur end
  | YDuration => match cur with AInt x => d_map AInt (decode_duration V b x) | _ => a_bad b cur end
  | YTime => match cur with ATime x => d_map ATime (decode_time V b x) | _ => a_bad b cur end
  | YIface => match cur with AIface x => d_map AIface (a_iface V F C at_ b x) | _ => a_bad b cur end
  | YNamedIface empty =>
      match cur with
      | AIface x =>
          if has_null_prefix b then DR (skipn 4 b) None (AIface AVNull)
          else match x with
               | AVNull => if empty then d_map AIface (parse_with (a_iface V F C at_) b AVNull) else a_type_error b cur
               | _ => a_type_error b cur
               end
      | _ => a_bad b cur
      end
  | YRaw => match cur with ARaw x => d_map ARaw (a_raw C at_ b x) | _ => a_bad b cur end
  | YArray k e =>
      match cur with
      | AList l => if Nat.eqb (length l) k then d_map AList (decode_array (a_dec V F C n e at_) b l) else a_bad b cur
      | _ => a_bad b cur
      end
  | YSlice e => match cur with ASlice s => d_map ASlice (decode_slice (a_dec V F C n e at_) (a_zero V e) b s) | _ => a_bad b cur end
  | YMap k e =>
      match cur with AMap m => d_map AMap (decode_map akey_eqb (a_key V C at_ k) (a_dec V F C n e at_) (a_zero V e) b m) | _ => a_bad b cur end
  | YMapSI =>
      match cur with
      | AMap m => d_map AMap (decode_map akey_eqb (a_key V C at_ KYString) (fun b x => d_map AIface (a_iface V F C at_ b AVNull)) (AIface AVNull) b m)
      | _ => a_bad b cur
      end
  | YMapSR =>
      match cur with
      | AMap m => d_map AMap (decode_map akey_eqb (a_key V C at_ KYString) (fun b x => d_map ARaw (a_raw C at_ b None)) (ARaw None) b m)
      | _ => a_bad b cur
      end
  | YPtr e =>
      match cur with
      | APtr p =>
          if has_null_prefix b then
            match p, e with
            | Some x, YPtr _ => d_map (fun y => APtr (Some y)) (a_dec V F C n e at_ b x)
            | _, _ => DR (skipn 4 b) None (APtr None)
            end
          else d_map (fun y => APtr (Some y)) (a_dec V F C n e at_ b (match p with Some x => x | None => a_zero V e end))
      | _ => a_bad b cur
      end
  | YStruct i =>
      match n with
      | O => DR b (Some EFuel) cur
      | S n' =>
          match cur with
          | AList _ =>
              decode_struct
                (fun k => match find_field V F (v_flds V i) k with
                          | Some f => Some (a_on_path V (jf_path f) (a_field V at_ f (a_dec V F C n' (jf_ty f))))
                          | None => None
                          end) (d_disallow F) b cur
          | _ => a_bad b cur
          end
      end
  | YJSON u => match cur with AUser s => d_map AUser (decode_json_user V u b s) | _ => a_bad b cur end
  | YText u => match cur with AUser s => d_map AUser (decode_text_user V u b s) | _ => a_bad b cur end
  | YUnsupported => match cur with AUser _ => a_type_error b cur | _ => a_bad b cur end
  end.
Proof. destruct n, t; reflexivity. Qed.

(** The two models agree. *)
Theorem a_dec_value n : forall t at_ b cur, d_map val (a_dec V F C n t at_ b cur) = dec_ty V F n t b (val cur).
Proof.
  induction n as [n IHn] using lt_wf_ind. induction t; intros at_ b cur; rewrite a_dec_eq, dec_ty_eq; destruct cur; cbn [walk]; try reflexivity.
  - rewrite <- (a_number_map at_). reflexivity.
  - rewrite <- (a_string_map at_). reflexivity.
  - rewrite <- (a_interface_map at_). reflexivity.
  - destruct (has_null_prefix b); [reflexivity|]. destruct v; try apply a_type_error_map. cbn [walk_jv]. destruct empty; [|apply a_type_error_map].
    unfold parse_with. cbv zeta. change JVNull with (walk_jv a_text AVNull). rewrite <- (a_interface_map at_). reflexivity.
  - rewrite <- (a_raw_map at_). reflexivity.
  - rewrite map_length. destruct (Nat.eqb (length l) n0); [|reflexivity]. rewrite <- (decode_array_map val _ _ (IHt at_)). reflexivity.
  - transitivity (d_map MSlice (decode_slice (dec_ty V F n t) (zero V t) b (smap val s))); [|reflexivity]. rewrite <- (a_zero_map a_text (fun _ => eq_refl)), <- (decode_slice_map val _ _ (IHt at_)). reflexivity.
  - transitivity (d_map MMap (decode_map mkey_eqb (decode_key V k) (dec_ty V F n t) (zero V t) b (option_map (kvmap (walk_key a_text) val) m))); [|reflexivity].
    rewrite <- (a_zero_map a_text (fun _ => eq_refl)), <- (decode_map_map val _ _ (IHt at_) _ _ _ _ _ (a_key_map at_ k) akey_eqb_map). reflexivity.
  - transitivity (d_map MMap (decode_map mkey_eqb (decode_key V KYString) (fun b x => d_map MIface (decode_interface (d_usenum F) (v_float V true) b JVNull)) (val (AIface AVNull)) b (option_map (kvmap (walk_key a_text) val) m))); [|reflexivity].
    erewrite <- (decode_map_map val); [reflexivity| |apply (a_key_map at_ KYString)|apply akey_eqb_map].
    intros b' x. cbv beta. change JVNull with (walk_jv a_text AVNull). rewrite <- (a_interface_map at_). reflexivity.
  - transitivity (d_map MMap (decode_map mkey_eqb (decode_key V KYString) (fun b x => d_map MRaw (decode_raw b None)) (val (ARaw None)) b (option_map (kvmap (walk_key a_text) val) m))); [|reflexivity].
    erewrite <- (decode_map_map val); [reflexivity| |apply (a_key_map at_ KYString)|apply akey_eqb_map].
    intros b' x. cbv beta. change (@None bytes) with (option_map a_text None). rewrite <- (a_raw_map at_). reflexivity.
  - destruct (has_null_prefix b).
    + destruct p as [x|]; [|reflexivity]. destruct t; try reflexivity. rewrite <- (IHt at_). reflexivity.
    + replace (match match p with Some x => Some (val x) | None => None end with Some x => x | None => zero V t end) with (val (match p with Some x => x | None => a_zero V t end))
        by (destruct p; [reflexivity|apply a_zero_map; reflexivity]). rewrite <- (IHt at_). reflexivity.
  - destruct n as [|n]; reflexivity.
  - destruct n as [|n]; reflexivity.
  - destruct n as [|n]; reflexivity.
  - destruct n as [|n]; reflexivity.
  - destruct n as [|n]; reflexivity.
  - destruct n as [|n]; reflexivity.
  - destruct n as [|n]; reflexivity.
  - destruct n as [|n]; reflexivity.
  - destruct n as [|n]; [reflexivity|]. change (MList (map val l)) with (val (AList l)). apply decode_struct_map. intros k. destruct (find_field V F (v_flds V i) k) as [f|]; [|exact I].
    apply on_path_map. intros b' x. unfold a_field, decode_field. destruct (jf_quot f).
    + apply IHn. lia.
    + apply from_string_map. intros. apply IHn. lia.
    + apply from_string_int_map. intros. apply IHn. lia.
  - destruct n as [|n]; reflexivity.
  - destruct n as [|n]; reflexivity.
  - destruct n as [|n]; reflexivity.
  - destruct n as [|n]; reflexivity.
  - apply a_type_error_map.
Qed.
End Erase.
