(** Two encoder configurations related: a generic simulation, used to compare
    colored with uncolored output, indented with compact output, and to see
    what outputs are made of. *)
From Coq Require Import Permutation Sorted.
From Verif Require Import Bytes Utf8Model ParseModel StringModel IntModel TokenModel EncModel SpecJson SpecString SpecTokens
  SpecRender SpecColor ParseFacts Utf8Facts StringFacts IntFacts TokenFacts EncFacts RawFacts EncMain.

Section rel.
  Variables c1 c2 : cfg.
  Hypothesis Fsort : e_sort c1 = e_sort c2.
  Hypothesis Ftrust : e_trust c1 = e_trust c2.
  Variable P : bytes -> bytes -> Prop.
  Hypothesis P_nil : P [] [].
  Hypothesis P_app : forall a1 a2 b1 b2, P a1 a2 -> P b1 b2 -> P (a1 ++ b1) (a2 ++ b2).
  Variable D : Z -> Z -> Prop.
  Hypothesis D_push : forall d1 d2, D d1 d2 -> D (in_push c1 d1) (in_push c2 d2).
  Hypothesis D_pop : forall d1 d2, D d1 d2 -> D (in_pop c1 d1) (in_pop c2 d2).
  Hypothesis P_nl : P (newline (e_ind c1)) (newline (e_ind c2)).
  Hypothesis P_sp : P (space (e_ind c1)) (space (e_ind c2)).
  Hypothesis P_margin : forall d1 d2, D d1 d2 -> P (margin (e_ind c1) d1) (margin (e_ind c2) d2).
  Hypothesis P_punc : forall v, is_delim v = true -> P (append_punc (e_clrs c1) [] v) (append_punc (e_clrs c2) [] v).
  Hypothesis P_null : P (append_null (e_clrs c1) []) (append_null (e_clrs c2) []).

  Definition srel (r1 r2 : eres) : Prop :=
    match r1, r2 with
    | ER b1 d1 e1, ER b2 d2 e2 => P b1 b2 /\ D d1 d2 /\ e1 = e2
    | EPanic, EPanic => True
    | _, _ => False
    end.
  Definition frel (f1 f2 : encf) : Prop := forall d1 d2, D d1 d2 -> srel (f1 [] d1) (f2 [] d2).
  Definition crel (f1 f2 : encf) : Prop := (app_only f1 /\ app_only f2) /\ frel f1 f2.

  Variable okt : bytes -> Prop.            (* strings *)
  Variable oks : bytes -> Prop.            (* raw messages *)
  Variable okn : bytes -> Prop.            (* Number values *)
  Variable oktime : bytes -> Prop.
  Variable okf : fl -> Prop.
  Variable okq : gval -> Prop.             (* values with the ",string" option *)
  Variable okint : Prop.                   (* integer map keys *)
  Hypothesis L_bool : forall x, P (append_bool (e_clrs c1) [] x) (append_bool (e_clrs c2) [] x).
  Hypothesis L_int : forall x, P (append_int (e_clrs c1) [] x) (append_int (e_clrs c2) [] x).
  Hypothesis L_float : forall f, okf f -> frel (encode_float_c c1 f) (encode_float_c c2 f).
  Hypothesis L_number : forall s, okn s -> frel (encode_number c1 s) (encode_number c2 s).
  Hypothesis L_str : forall k s, k <> TPlain -> okt s -> P (paint (e_clrs c1) (kind_color k) (json_string (e_html c1) s)) (paint (e_clrs c2) (kind_color k) (json_string (e_html c2) s)).
  Hypothesis L_bytes : forall s, match s with None => True | Some s => wf s end -> frel (encode_bytes c1 s) (encode_bytes c2 s).
  Hypothesis L_time : forall s, oktime s -> frel (encode_time c1 s) (encode_time c2 s).
  Hypothesis L_keyint : okint -> forall z, frel (encode_mkey c1 (KInt z)) (encode_mkey c2 (KInt z)).
  Hypothesis L_quoted : forall v, okq v -> leaves okt oks okn oktime okf okq okint v -> crel (enc c1 v) (enc c2 v) -> frel (enc c1 (GQuoted v)) (enc c2 (GQuoted v)).
  Hypothesis L_raw : forall s, oks s -> frel (encode_raw c1 (Some s)) (encode_raw c2 (Some s)).

  Lemma P_lines d1 d2 : D d1 d2 -> P (line (e_ind c1) d1) (line (e_ind c2) d2).
  Proof. intros H. unfold line. auto. Qed.
  Lemma srel_pre b1 b2 r1 r2 : P b1 b2 -> srel r1 r2 -> srel (pre b1 r1) (pre b2 r2).
  Proof. intros H. destruct r1, r2; cbn; auto. intros (H1 & H2 & H3). auto. Qed.
  Lemma crel_at f1 f2 b1 b2 d1 d2 : crel f1 f2 -> P b1 b2 -> D d1 d2 -> srel (f1 b1 d1) (f2 b2 d2).
  Proof. intros [[A1 A2] H] Hb Hd. rewrite A1, A2. apply srel_pre; auto. Qed.
  Lemma frel_const (g1 g2 : bytes -> bytes) e : P (g1 []) (g2 []) -> frel (fun b d => ER (g1 b) d e) (fun b d => ER (g2 b) d e).
  Proof. intros H d1 d2 Hd. cbn. auto. Qed.

  Lemma P_nl_app b1 b2 : P b1 b2 -> P (in_byte c1 b1 10) (in_byte c2 b2 10).
  Proof. intros H. rewrite in_byte_app, (in_byte_app c2), !in_byte_nl. auto. Qed.
  Lemma P_sp_app b1 b2 : P b1 b2 -> P (in_byte c1 b1 32) (in_byte c2 b2 32).
  Proof. intros H. rewrite in_byte_app, (in_byte_app c2), !in_byte_sp. auto. Qed.
  Lemma P_indent_app b1 b2 d1 d2 : P b1 b2 -> D d1 d2 -> P (in_indent c1 b1 d1) (in_indent c2 b2 d2).
  Proof. intros H Hd. rewrite in_indent_app, (in_indent_app c2), !in_indent_margin. auto. Qed.
  Lemma P_punc_app b1 b2 v : is_delim v = true -> P b1 b2 -> P (append_punc (e_clrs c1) b1 v) (append_punc (e_clrs c2) b2 v).
  Proof. intros Hv H. rewrite append_punc_app, (append_punc_app _ b2). auto. Qed.
  Hint Resolve P_nl_app P_sp_app P_indent_app P_punc_app : core.

  (** Arrays. *)
  Lemma array_elems_rel fs1 fs2 : Forall2 crel fs1 fs2 -> forall first b1 b2 d1 d2, P b1 b2 -> D d1 d2 ->
    srel (array_elems c1 first fs1 b1 d1) (array_elems c2 first fs2 b2 d2).
  Proof.
    induction 1 as [|f1 f2 fs1 fs2 Hf H IH]; intros first b1 b2 d1 d2 Hb Hd; cbn [array_elems]; [cbn; auto|].
    match goal with |- srel (match f1 ?x1 _ with _ => _ end) (match f2 ?x2 _ with _ => _ end) => assert (X : P x1 x2) by (destruct first; auto); set (y1 := x1) in *; set (y2 := x2) in * end.
    pose proof (crel_at f1 f2 y1 y2 d1 d2 Hf X Hd) as S.
    destruct (f1 y1 d1) as [o1 e1 [x1|]|], (f2 y2 d2) as [o2 e2 [x2|]|]; cbn in S; try tauto; try (destruct S as (S1 & S2 & S3)); try discriminate.
    - cbn. auto.
    - apply IH; assumption.
  Qed.
  Lemma array_rel fs1 fs2 : Forall2 crel fs1 fs2 -> frel (encode_array c1 fs1) (encode_array c2 fs2).
  Proof.
    intros H d1 d2 Hd. unfold encode_array. cbn [length].
    assert (X : P (append_punc (e_clrs c1) [] 91) (append_punc (e_clrs c2) [] 91)) by auto.
    destruct H as [|f1 f2 fs1 fs2 Hf H]; [cbn; auto|].
    pose proof (array_elems_rel (f1 :: fs1) (f2 :: fs2) (Forall2_cons _ _ Hf H) true _ _ _ _ X (D_push _ _ Hd)) as S.
    destruct (array_elems c1 _ _ _ _) as [o1 e1 [x1|]|], (array_elems c2 _ _ _ _) as [o2 e2 [x2|]|]; cbn in S; try tauto; try (destruct S as (S1 & S2 & S3)); try discriminate.
    - cbn. auto.
    - cbn. auto 8.
  Qed.

  (** Maps. *)
  Definition prel (p1 p2 : encf * encf) : Prop := crel (fst p1) (fst p2) /\ crel (snd p1) (snd p2).
  Lemma map_elems_rel ps1 ps2 : Forall2 prel ps1 ps2 -> forall first b1 b2 d1 d2, P b1 b2 -> D d1 d2 ->
    srel (map_elems c1 first ps1 b1 d1) (map_elems c2 first ps2 b2 d2).
  Proof.
    induction 1 as [|[k1 v1] [k2 v2] ps1 ps2 [Hk Hv] H IH]; intros first b1 b2 d1 d2 Hb Hd; cbn [map_elems]; [cbn; auto|]. cbn [fst snd] in *.
    match goal with |- srel (match k1 ?x1 _ with _ => _ end) (match k2 ?x2 _ with _ => _ end) => assert (X : P x1 x2) by (destruct first; auto); set (y1 := x1) in *; set (y2 := x2) in * end.
    pose proof (crel_at k1 k2 y1 y2 d1 d2 Hk X Hd) as S.
    destruct (k1 y1 d1) as [o1 e1 [x1|]|], (k2 y2 d2) as [o2 e2 [x2|]|]; cbn in S; try tauto; try (destruct S as (S1 & S2 & S3)); try discriminate; [cbn; auto|].
    match goal with |- srel (match v1 ?x1 _ with _ => _ end) (match v2 ?x2 _ with _ => _ end) => assert (X' : P x1 x2) by auto; set (z1 := x1) in *; set (z2 := x2) in * end.
    pose proof (crel_at v1 v2 z1 z2 e1 e2 Hv X' S2) as S'.
    destruct (v1 z1 e1) as [o1' e1' [x1|]|], (v2 z2 e2) as [o2' e2' [x2|]|]; cbn in S'; try tauto; try (destruct S' as (S1' & S2' & S3')); try discriminate; [cbn; auto|].
    apply IH; assumption.
  Qed.
  Lemma map_rel cut ps1 ps2 : Forall2 prel ps1 ps2 -> frel (encode_map c1 cut ps1) (encode_map c2 cut ps2).
  Proof.
    intros H d1 d2 Hd. unfold encode_map. cbn [length]. destruct H as [|p1 p2 ps1 ps2 Hp H]; [cbn; auto|].
    assert (X : P (in_byte c1 (append_punc (e_clrs c1) [] 123) 10) (in_byte c2 (append_punc (e_clrs c2) [] 123) 10)) by auto.
    pose proof (map_elems_rel (p1 :: ps1) (p2 :: ps2) (Forall2_cons _ _ Hp H) true _ _ _ _ X (D_push _ _ Hd)) as S.
    destruct (map_elems c1 _ _ _ _) as [o1 e1 [x1|]|], (map_elems c2 _ _ _ _) as [o2 e2 [x2|]|]; cbn in S; try tauto; try (destruct S as (S1 & S2 & S3)); try discriminate;
      cbn; [destruct cut; auto|auto 8].
  Qed.
  Lemma map_break_rel ps1 ps2 : Forall2 prel ps1 ps2 -> frel (encode_map_break c1 ps1) (encode_map_break c2 ps2).
  Proof.
    intros H d1 d2 Hd. unfold encode_map_break. cbn [length]. destruct H as [|p1 p2 ps1 ps2 Hp H]; [cbn; auto|].
    assert (X : P (in_byte c1 (append_punc (e_clrs c1) [] 123) 10) (in_byte c2 (append_punc (e_clrs c2) [] 123) 10)) by auto.
    pose proof (map_elems_rel (p1 :: ps1) (p2 :: ps2) (Forall2_cons _ _ Hp H) true _ _ _ _ X (D_push _ _ Hd)) as S.
    destruct (map_elems c1 _ _ _ _) as [o1 e1 [x1|]|], (map_elems c2 _ _ _ _) as [o2 e2 [x2|]|]; cbn in S; try tauto; try (destruct S as (S1 & S2 & S3)); try discriminate;
      cbn; auto 8.
  Qed.
  Lemma map_swallow_rel ps1 ps2 : Forall2 prel ps1 ps2 -> frel (encode_map_swallow c1 ps1) (encode_map_swallow c2 ps2).
  Proof.
    intros H d1 d2 Hd. unfold encode_map_swallow. cbn [length]. destruct H as [|p1 p2 ps1 ps2 Hp H]; [cbn; auto|].
    assert (X : P (in_byte c1 (append_punc (e_clrs c1) [] 123) 10) (in_byte c2 (append_punc (e_clrs c2) [] 123) 10)) by auto.
    pose proof (map_elems_rel (p1 :: ps1) (p2 :: ps2) (Forall2_cons _ _ Hp H) true _ _ _ _ X (D_push _ _ Hd)) as S.
    destruct (map_elems c1 _ _ _ _) as [o1 e1 [x1|]|], (map_elems c2 _ _ _ _) as [o2 e2 [x2|]|]; cbn in S; try tauto; try (destruct S as (S1 & S2 & S3)); try discriminate;
      cbn; auto 8.
  Qed.

  (** Structs. *)
  Definition hrel (p1 p2 : fhead * encf) : Prop := fst p1 = fst p2 /\ okt (f_name (fst p1)) /\ crel (snd p1) (snd p2).
  Definition nrel (r1 r2 : eres * nat) : Prop := srel (fst r1) (fst r2) /\ snd r1 = snd r2.
  Lemma fieldb_rel n b1 b2 d1 d2 h : okt (f_name h) -> P b1 b2 -> D d1 d2 -> P (fieldb c1 n b1 d1 h) (fieldb c2 n b2 d2 h).
  Proof.
    intros Hh Hb Hd. rewrite !fieldb_eq. rewrite <- !punc_44, <- !punc_58.
    repeat apply P_app; auto; [destruct (Nat.eqb n 0); auto|]. apply (L_str TKey); [discriminate|exact Hh].
  Qed.
  Lemma struct_fields_rel fs1 fs2 : Forall2 hrel fs1 fs2 -> forall n b1 b2 d1 d2, P b1 b2 -> D d1 d2 ->
    nrel (struct_fields c1 n fs1 b1 d1) (struct_fields c2 n fs2 b2 d2).
  Proof.
    induction 1 as [|[h1 f1] [h2 f2] fs1 fs2 [Eh [Hh Hf]] H IH]; intros n b1 b2 d1 d2 Hb Hd; [split; cbn; auto|]. cbn [fst snd] in *. subst h2.
    destruct (omitted h1) eqn:O.
    - rewrite !struct_fields_omit by exact O. apply IH; assumption.
    - rewrite !struct_fields_step by exact O. pose proof (fieldb_rel n b1 b2 d1 d2 h1 Hh Hb Hd) as X.
      pose proof (crel_at f1 f2 _ _ d1 d2 Hf X Hd) as S. pose proof Hf as Hf'. destruct Hf' as [[A1 A2] _].
      rewrite (A1 (fieldb _ _ _ _ _)), (A2 (fieldb _ _ _ _ _)) in *.
      set (q := fun c b => if Nat.eqb n 0 then b else in_byte c (append_punc (e_clrs c) b 44) 10).
      assert (Q : forall c b d, exists r, fieldb c n b d h1 = q c b ++ r).
      { intros c b d. eexists. rewrite fieldb_eq. unfold q. destruct (Nat.eqb n 0); [cbn [app]; reflexivity|].
        rewrite in_byte_app, append_punc_app, punc_44, in_byte_nl. repeat (rewrite <- app_assoc). reflexivity. }
      assert (PQ : P (q c1 b1) (q c2 b2)) by (unfold q; destruct (Nat.eqb n 0); auto).
      destruct (Q c1 b1 d1) as [r1 E1], (Q c2 b2 d2) as [r2 E2]. rewrite E1, E2 in *.
      destruct (f1 [] d1) as [o1 e1 x1|], (f2 [] d2) as [o2 e2 x2|]; cbn in S; try tauto; cbn [pre].
      + destruct S as (S1 & S2 & <-).
        assert (K : nrel (struct_fields c1 n fs1 (q c1 b1) e1) (struct_fields c2 n fs2 (q c2 b2) e2)) by (apply IH; assumption).
        destruct x1 as [[]|]; try (split; cbn; auto; fail).
        * rewrite <- !app_assoc. unfold q. rewrite !firstn_len_app. exact K.
        * apply IH; assumption.
      + split; cbn; auto.
  Qed.
  Lemma struct_rel fs1 fs2 : Forall2 hrel fs1 fs2 -> frel (encode_struct c1 fs1) (encode_struct c2 fs2).
  Proof.
    intros H d1 d2 Hd. unfold encode_struct. cbn [length].
    assert (X : P (append_punc (e_clrs c1) [] 123) (append_punc (e_clrs c2) [] 123)) by auto.
    set (y1 := match fs1 with [] => _ | _ => _ end). set (y2 := match fs2 with [] => _ | _ => _ end).
    assert (Y : P y1 y2) by (unfold y1, y2; destruct H; auto).
    destruct (struct_fields_rel fs1 fs2 H 0%nat y1 y2 _ _ Y (D_push _ _ Hd)) as [S N].
    destruct (struct_fields c1 _ _ _ _) as [[o1 e1 x1|] n1], (struct_fields c2 _ _ _ _) as [[o2 e2 x2|] n2]; cbn in S, N; try tauto; try (destruct S as (S1 & S2 & <-)); try discriminate.
    subst n2. destruct x1 as [x1|]; cbn; [auto|].
    destruct (Nat.eqb n1 0); auto 8.
  Qed.

  (** Values. *)
  Notation cond := (leaves okt oks okn oktime okf okq okint).

  Lemma null_rel : frel (fun b d => ER (append_null (e_clrs c1) b) d None) (fun b d => ER (append_null (e_clrs c2) b) d None).
  Proof. apply frel_const, P_null. Qed.
  Lemma err_rel e : frel (fun b d => ER b d (Some e)) (fun b d => ER b d (Some e)).
  Proof. intros d1 d2 Hd. cbn. auto. Qed.
  Lemma str_rel clr k s : (forall cl, clr cl = kind_color k cl) -> k <> TPlain -> okt s -> frel (encode_str c1 clr s) (encode_str c2 clr s).
  Proof.
    intros H Hk Hs d1 d2 Hd.
    rewrite (str_good c1 clr k s H d1), (str_good c2 clr k s H d2). cbn. unfold R. cbn [render]. auto.
  Qed.
  Lemma raw_rel s : match s with None => True | Some s => oks s end -> frel (encode_raw c1 s) (encode_raw c2 s).
  Proof. destruct s as [s|]; intros H; [apply L_raw, H|apply null_rel]. Qed.
  Lemma mkey_rel k : match k with KInt _ => okint | KString s => okt s | KText s _ => okt s | KNil => True end -> crel (encode_mkey c1 k) (encode_mkey c2 k).
  Proof.
    intros H. split; [split; apply ao_mkey|]. destruct k as [s|z|s [e|]|].
    - cbn [encode_mkey]. apply (str_rel _ TKey); [reflexivity|discriminate|exact H].
    - apply L_keyint, H.
    - cbn [encode_mkey encode_text]. apply err_rel.
    - cbn [encode_mkey encode_text]. apply (str_rel _ TText); [reflexivity|discriminate|exact H].
    - cbn [encode_mkey]. apply null_rel.
  Qed.
  Lemma entries_rel {A} (mk : A -> mkey) (va : cfg -> A -> encf) (l : list A) :
    Forall (fun e => crel (encode_mkey c1 (mk e)) (encode_mkey c2 (mk e)) /\ crel (va c1 e) (va c2 e)) l ->
    Forall2 prel (map (fun e => (encode_mkey c1 (mk e), va c1 e)) l) (map (fun e => (encode_mkey c2 (mk e), va c2 e)) l).
  Proof. induction 1 as [|e l [H1 H2] H IH]; cbn; constructor; [split; assumption|exact IH]. Qed.

  Theorem enc_rel v : cond v -> frel (enc c1 v) (enc c2 v).
  Proof.
    induction v as [ |b|z|f|s|s|s|t|l IH| |l IH| |m IH| |m IH|m|fs IH|o IH|o IH|o IH|s|r|r|v IH| ] using gval_rect'; intros C; cbn [leaves] in C; cbn [enc].
    - apply null_rel.
    - apply frel_const, L_bool.
    - apply frel_const, L_int.
    - apply L_float, C.
    - apply L_number, C.
    - apply (str_rel _ TStr); [reflexivity|discriminate|exact C].
    - apply L_bytes. destruct s; exact C.
    - apply L_time, C.
    - apply array_rel. apply all_map in C. induction IH as [|x l Hx IH IHl]; cbn; constructor; inversion C; subst; auto.
      split; [split; apply enc_app_only|auto].
    - apply null_rel.
    - apply array_rel. apply all_map in C. induction IH as [|x l Hx IH IHl]; cbn; constructor; inversion C; subst; auto.
      split; [split; apply enc_app_only|auto].
    - apply null_rel.
    - apply all_map in C. 
      assert (HE : forall c, (let es := map (fun kv : mkey * gval => let (k, x) := kv in (k, enc c x)) m in
         let es := if e_sort c then sort_by (fun e => key_text (fst e)) es else es in
         encode_map c true (map (fun e => (encode_mkey c (fst e), snd e)) es)) =
         encode_map c true (map (fun e : mkey * gval => (encode_mkey c (fst e), enc c (snd e))) (order (e_sort c) (fun e => key_text (fst e)) m))).
      { intros c. cbv zeta. f_equal. unfold order. destruct (e_sort c).
        - rewrite (sort_by_map (fun kv : mkey * gval => let (k, x) := kv in (k, enc c x)) _ (fun e => key_text (fst e))) by (intros [k x]; reflexivity).
          rewrite map_map. apply map_ext. intros [k x]; reflexivity.
        - rewrite map_map. apply map_ext. intros [k x]; reflexivity. }
      rewrite !HE, <- Fsort. apply map_rel. apply (entries_rel fst (fun c e => enc c (snd e))).
      eapply Permutation_Forall; [apply order_perm|]. rewrite Forall_forall in *. intros [k x] Hx. specialize (C _ Hx). specialize (IH _ Hx). cbn in *.
      split; [apply mkey_rel, C|]. split; [split; apply enc_app_only|]. apply IH, C.
    - apply null_rel.
    - apply all_map in C.
      assert (HE : forall c, (let es := map (fun kv : bytes * gval => let (k, x) := kv in (k, enc c x)) m in
         if e_sort c then encode_map_break c (map (fun e => (encode_key c (fst e), snd e)) (sort_by fst es))
         else encode_map c false (map (fun e => (encode_key c (fst e), snd e)) es)) =
         (if e_sort c then encode_map_break c else encode_map c false)
           (map (fun e : bytes * gval => (encode_mkey c (KString (fst e)), enc c (snd e))) (order (e_sort c) fst m))).
      { intros c. cbv zeta. unfold order. destruct (e_sort c).
        - rewrite (sort_by_map (fun kv : bytes * gval => let (k, x) := kv in (k, enc c x)) _ fst) by (intros [k x]; reflexivity).
          rewrite map_map. f_equal. apply map_ext. intros [k x]; reflexivity.
        - rewrite map_map. f_equal. apply map_ext. intros [k x]; reflexivity. }
      rewrite !HE, <- Fsort.
      assert (X : Forall2 prel (map (fun e : bytes * gval => (encode_mkey c1 (KString (fst e)), enc c1 (snd e))) (order (e_sort c1) fst m))
                    (map (fun e : bytes * gval => (encode_mkey c2 (KString (fst e)), enc c2 (snd e))) (order (e_sort c1) fst m))).
      { apply (entries_rel (fun e => KString (fst e)) (fun c e => enc c (snd e))).
        eapply Permutation_Forall; [apply order_perm|]. rewrite Forall_forall in *. intros [k x] Hx. specialize (C _ Hx). specialize (IH _ Hx). cbn [fst snd] in *.
        split; [apply mkey_rel, C|]. split; [split; apply enc_app_only|]. apply IH, C. }
      destruct (e_sort c1); [apply map_break_rel|apply map_rel]; exact X.
    - destruct m as [m|]; [|apply null_rel].
      assert (X : forall m, Forall (fun kv => okt (fst kv) /\ match snd kv with None => True | Some s => oks s end) m ->
         Forall2 prel (map (fun e : bytes * option bytes => (encode_mkey c1 (KString (fst e)), encode_raw c1 (snd e))) m)
                    (map (fun e : bytes * option bytes => (encode_mkey c2 (KString (fst e)), encode_raw c2 (snd e))) m)).
      { intros m' H. apply (entries_rel (fun e => KString (fst e)) (fun c e => encode_raw c (snd e))).
        eapply Forall_impl; [|exact H]. intros [k x] [H1 H2]. cbn [fst snd] in *. split; [apply mkey_rel; exact H1|]. split; [split; apply ao_raw|apply raw_rel, H2]. }
      rewrite <- Fsort. destruct (e_sort c1); [apply map_break_rel, X, Forall_sort, C|apply map_swallow_rel, X, C].
    - apply struct_rel. apply all_map in C. induction IH as [|[h x] fs Hx IH IHl]; [apply Forall2_nil|]. inversion C as [|? ? C0 C3]; subst. destruct C0 as [C1 C2]. cbn [map]. constructor; [|apply IHl, C3].
      split; [reflexivity|]. split; [exact C1|]. split; [split; apply enc_app_only|]. apply Hx, C2.
    - destruct o as [x|]; [apply IH, C|apply err_rel].
    - destruct o as [x|]; [apply IH, C|apply null_rel].
    - destruct o as [x|]; [apply IH, C|apply null_rel].
    - apply raw_rel, C.
    - destruct r as [[j|e]|]; [apply raw_rel, C|apply err_rel|apply null_rel].
    - destruct r as [[s|e]|]; [cbn [encode_text]; apply (str_rel _ TText); [reflexivity|discriminate|exact C]|apply err_rel|apply null_rel].
    - destruct C as [C1 C2]. apply (L_quoted v C1 C2). split; [split; apply enc_app_only|apply IH, C2].
    - apply err_rel.
  Qed.
End rel.

(** The raw-message loop under two configurations. *)
Section rawrel.
  Variables c1 c2 : cfg.
  Hypothesis Ftrust : e_trust c1 = e_trust c2.
  Variable P : bytes -> bytes -> Prop.
  Hypothesis P_nil : P [] [].
  Hypothesis P_app : forall a1 a2 b1 b2, P a1 a2 -> P b1 b2 -> P (a1 ++ b1) (a2 ++ b2).
  Variable D : Z -> Z -> Prop.
  Hypothesis D_push : forall d1 d2, D d1 d2 -> D (in_push c1 d1) (in_push c2 d2).
  Hypothesis D_pop : forall d1 d2, D d1 d2 -> D (in_pop c1 d1) (in_pop c2 d2).
  Hypothesis P_nl : P (newline (e_ind c1)) (newline (e_ind c2)).
  Hypothesis P_sp : P (space (e_ind c1)) (space (e_ind c2)).
  Hypothesis P_margin : forall d1 d2, D d1 d2 -> P (margin (e_ind c1) d1) (margin (e_ind c2) d2).
  Hypothesis P_punc : forall v, is_delim v = true -> P (append_punc (e_clrs c1) [] v) (append_punc (e_clrs c2) [] v).
  Variable txt : bytes.                    (* the message *)
  Hypothesis L_scalar : forall v k, lit_token v -> (exists x y, txt = x ++ v ++ y) -> P (raw_scalar c1 [] v k) (raw_scalar c2 [] v k).

  Definition rawrel (r1 r2 : rawres) : Prop :=
    match r1, r2 with
    | RawDone b1 d1 e1, RawDone b2 d2 e2 => P b1 b2 /\ D d1 d2 /\ e1 = e2
    | RawPanic, RawPanic => True
    | RawFuel, RawFuel => True
    | _, _ => False
    end.
  Lemma raw_loop_rel n : forall t st d1 d2 b1 b2, wf (t_json t) -> (exists x y, txt = x ++ t_json t ++ y) -> D d1 d2 -> P b1 b2 ->
    rawrel (raw_loop n c1 t st b1 d1) (raw_loop n c2 t st b2 d2).
  Proof.
    induction n as [|n IH]; intros t st d1 d2 b1 b2 W HX Hd Hb; cbn [raw_loop]; [exact I|].
    destruct (tok_next t) as [[t' [|]]|] eqn:E; [|cbn; auto|exact I].
    destruct (tok_next_sound t t' W E) as (w & _ & Ej & _ & _ & K).
    assert (W' : wf (t_json t')) by (rewrite Ej in W; apply wf_app in W; destruct W as [_ W]; apply wf_app in W; apply W).
    assert (HV : exists x y, txt = x ++ t_value t' ++ y).
    { destruct HX as (x & y & ->). rewrite Ej. exists (x ++ w), (t_json t' ++ y). rewrite <- !app_assoc. reflexivity. }
    assert (HX' : exists x y, txt = x ++ t_json t' ++ y).
    { destruct HX as (x & y & ->). rewrite Ej. exists (x ++ w ++ t_value t'), y. rewrite <- !app_assoc. reflexivity. }
    pose proof (fun b1 b2 => P_nl_app c1 c2 P P_app P_nl b1 b2) as N1.
    pose proof (fun b1 b2 => P_sp_app c1 c2 P P_app P_sp b1 b2) as N2.
    pose proof (fun b1 b2 d1 d2 => P_indent_app c1 c2 P P_app D P_margin b1 b2 d1 d2) as N3.
    pose proof (fun b1 b2 v => P_punc_app c1 c2 P P_app P_punc b1 b2 v) as N4.
    assert (V : t_delim t' <> 0 -> P (append_punc (e_clrs c1) [] (nth 0 (t_value t') 0)) (append_punc (e_clrs c2) [] (nth 0 (t_value t') 0))).
    { intros NZ. destruct K as [[K _]|[K1 K2]]; [congruence|]. rewrite K2. apply P_punc. exact K1. }
    assert (V' : t_delim t' <> 0 -> forall b1 b2, P b1 b2 -> P (append_punc (e_clrs c1) b1 (nth 0 (t_value t') 0)) (append_punc (e_clrs c2) b2 (nth 0 (t_value t') 0))).
    { intros NZ x1 x2 Hx. rewrite append_punc_app, (append_punc_app _ x2). auto. }
    destruct (t_delim t' =? 58) eqn:E1; [apply IH; auto|].
    destruct (t_delim t' =? 44) eqn:E2; [apply IH; auto|].
    destruct ((t_delim t' =? 125) || (t_delim t' =? 93)) eqn:E3.
    { apply IH; auto. apply V'; [apply orb_true_iff in E3; rewrite !Z.eqb_eq in E3; lia|].
      destruct (match st with [] => false | (_, k) :: _ => negb (Nat.eqb k 0) end); auto. }
    assert (Q : forall k, P (fst (raw_prefix c1 b1 d1 st k)) (fst (raw_prefix c2 b2 d2 st k)) /\ snd (raw_prefix c1 b1 d1 st k) = snd (raw_prefix c2 b2 d2 st k)).
    { intros k. unfold raw_prefix. destruct st as [|[o cn] st0]; [auto|]. destruct (o && negb k); [auto|]. cbn [fst snd]. split; [|reflexivity].
      destruct (Nat.eqb cn 0); auto. }
    specialize (Q ((t_delim t' =? 0) && t_IsKey t')).
    destruct (raw_prefix c1 b1 d1 st _) as [p1 s1], (raw_prefix c2 b2 d2 st _) as [p2 s2]. cbn [fst snd] in Q. destruct Q as [Q ->].
    destruct ((t_delim t' =? 123) || (t_delim t' =? 91)) eqn:E4.
    { apply IH; auto. apply V'; [apply orb_true_iff in E4; rewrite !Z.eqb_eq in E4; lia|exact Q]. }
    apply IH; auto. rewrite raw_scalar_app, (raw_scalar_app c2). apply P_app; [exact Q|]. apply L_scalar; [|exact HV].
    destruct K as [[_ K]|[K _]]; [exact K|]. exfalso. unfold is_delim in K.
    apply orb_false_iff in E3, E4. destruct E3 as [E31 E32], E4 as [E41 E42]. rewrite E1, E2, E31, E32, E41, E42 in K. discriminate.
  Qed.
  Lemma raw_tokens_rel s d1 d2 : wf s -> (exists y, txt = s ++ y) -> D d1 d2 -> srel P D (append_raw_tokens c1 [] s d1) (append_raw_tokens c2 [] s d2).
  Proof.
    intros W HX Hd. unfold append_raw_tokens.
    pose proof (raw_loop_rel (S (length s)) (new_tokenizer s) [] d1 d2 [] [] W (ex_intro _ [] HX) Hd P_nil) as H.
    destruct (raw_loop _ c1 _ _ _ _) as [o1 e1 x1| |], (raw_loop _ c2 _ _ _ _) as [o2 e2 x2| |]; cbn in H; try tauto.
    - destruct H as (H1 & H2 & <-). destruct x1; cbn; auto.
    - cbn. auto.
  Qed.
  Lemma encode_raw_rel s : txt = s ->
    wf s -> (e_trust c1 = true -> (exists a, jtext s a) \/ forall d1 d2, D d1 d2 -> P (append_raw_verbatim c1 [] s d1) (append_raw_verbatim c2 [] s d2)) ->
    frel P D (encode_raw c1 (Some s)) (encode_raw c2 (Some s)).
  Proof.
    intros HT W HV d1 d2 Hd. unfold encode_raw. rewrite <- Ftrust. destruct (e_trust c1).
    - pose proof (raw_tokens_rel s d1 d2 W (ex_intro _ [] (eq_trans HT (eq_sym (app_nil_r s)))) Hd) as H.
      destruct (append_raw_tokens c1 [] s d1) as [o1 e1 x1|] eqn:E1, (append_raw_tokens c2 [] s d2) as [o2 e2 x2|] eqn:E2; cbn in H; try tauto.
      destruct H as (H1 & H2 & <-). destruct x1 as [x|]; [|cbn; auto].
      destruct (HV eq_refl) as [[a J]|HV']; [rewrite (raw_tokens_text c1 s a d1 W J) in E1; discriminate|].
      rewrite verbatim_app, (verbatim_app c2). cbn. split; [|auto]. apply P_app; [exact H1|apply HV'; auto].
    - destruct (parseValue s) as [v r|r e] eqn:E; [|cbn; auto].
      assert (Wv : wf v) by (apply parseValue_sound in E; [|exact W]; destruct E as [E _]; rewrite E in W; apply wf_app in W; apply W).
      assert (HX : exists y, txt = v ++ y) by (exists r; rewrite HT; apply parseValue_sound in E; [apply E|exact W]).
      pose proof (raw_tokens_rel v d1 d2 Wv HX Hd) as H.
      destruct (append_raw_tokens c1 [] v d1) as [o1 e1 x1|] eqn:E1, (append_raw_tokens c2 [] v d2) as [o2 e2 x2|] eqn:E2; cbn in H; try tauto.
      destruct H as (H1 & H2 & <-). destruct x1 as [x|]; cbn; auto.
  Qed.
End rawrel.
