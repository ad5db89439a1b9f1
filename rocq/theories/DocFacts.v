(** Documents: their plain text is JSON, with the same tree in every layout;
    the standard Indent of the compact text is the indented text. *)
From Coq Require Import Permutation Sorted.
From Verif Require Import Bytes Utf8Model ParseModel StringModel IntModel TokenModel EncModel SpecJson SpecString SpecTokens
  SpecRender SpecColor ParseFacts Utf8Facts StringFacts IntFacts TokenFacts EncFacts RawFacts EncMain EncRel LeafRel TextFacts ColorFacts.

(** Documents whose tokens are JSON literals. *)
Fixpoint doc_ok (x : doc) : Prop :=
  match x with
  | DTok _ t => lit_token t
  | DQuote y => doc_ok y
  | DArr l => all (map doc_ok l)
  | DObj _ l => all (map (fun e => match e with (_, t, y) => string_lit t /\ doc_ok y end) l)
  end.
Definition tok_ast (t : bytes) : jast :=
  if rv_string t then JStr t else if rv_true t then JTrue else if rv_false t then JFalse else if rv_null t then JNull else JNum t.
Lemma tok_value t : lit_token t -> jvalue t (tok_ast t).
Proof.
  intros [H|[H|[->|[->| ->]]]]; try (cbn; constructor).
  - destruct H as (b & -> & H). cbn. apply V_str. exists b. auto.
  - destruct (number_head t H) as (c & u & -> & Hc). unfold tok_ast. cbn [rv_string rv_true rv_false rv_null].
    destruct (c =? 34) eqn:?; [zb; lia|]. destruct (c =? 116) eqn:?; [zb; lia|]. destruct (c =? 102) eqn:?; [zb; lia|]. destruct (c =? 110) eqn:?; [zb; lia|].
    apply V_num, H.
Qed.
Section text.
  Variables (html : bool) (ind : option indenter).
  Hypothesis IW : ind_all ws ind.
  Fixpoint dast (d : Z) (x : doc) : jast :=
    match x with
    | DTok _ t => tok_ast t
    | DQuote y => JStr (json_string html (render html None ind d y))
    | DArr l => JArr (map (dast (d + 1)) l)
    | DObj _ l => JObj (map (fun e => match e with (_, t, y) => (t, dast (d + 1) y) end) l)
    end.
  Lemma margin_ws d : ws (margin ind d).
  Proof. apply margin_all. exact IW. Qed.
  Lemma line_ws d : ws (line ind d).
  Proof. unfold line. apply Forall_app. split; [apply newline_all; auto|apply margin_ws]. Qed.
  Lemma space_ws : ws (space ind).
  Proof. apply space_all. auto. Qed.
  Lemma ws_wf w : ws w -> wf w.
  Proof. intros H. eapply Forall_impl; [|exact H]. unfold is_byte. cbv beta. intros; lia. Qed.
  Lemma jelems_join w l f g : ws w -> l <> [] -> Forall (fun y => jvalue (f y) (g y)) l -> forall w2, ws w2 ->
    jelems (join [44] (map (fun y : doc => w ++ f y) l) ++ w2) (map g l).
  Proof.
    intros W N H. induction H as [|y l Hy H IH]; [congruence|]. intros w2 W2. cbn [map]. rewrite join_cons. destruct l as [|z l].
    - cbn [map]. rewrite app_nil_r, <- app_assoc. apply E_one; assumption.
    - cbn [map]. rewrite <- !app_assoc. change (f y ++ [44] ++ ?x) with (f y ++ [] ++ 44 :: x). apply E_cons; auto; [constructor|].
      apply IH; [discriminate|exact W2].
  Qed.
  Lemma jmembers_join w s l (k : tkind * bytes * doc -> bytes) f g : ws w -> ws s -> l <> [] -> Forall (fun y => string_lit (k y) /\ jvalue (f y) (g y)) l -> forall w2, ws w2 ->
    jmembers (join [44] (map (fun y => w ++ k y ++ [58] ++ s ++ f y) l) ++ w2) (map (fun y => (k y, g y)) l).
  Proof.
    intros W S N H. induction H as [|y l [Hk Hy] H IH]; [congruence|]. intros w2 W2. cbn [map]. rewrite join_cons. destruct l as [|z l].
    - cbn [map]. rewrite app_nil_r. apply M_one. 
      replace ((w ++ k y ++ [58] ++ s ++ f y) ++ w2) with (w ++ k y ++ [] ++ 58 :: s ++ f y ++ w2) by (repeat (rewrite <- app_assoc; cbn [app]); reflexivity).
      apply M_intro; auto. constructor.
    - cbn [map]. specialize (IH ltac:(discriminate) w2 W2). cbn [map] in IH. 
      rewrite <- app_assoc.
      match goal with |- jmembers (?a ++ ([44] ++ ?x) ++ w2) _ => replace (a ++ ([44] ++ x) ++ w2) with ((w ++ k y ++ [] ++ 58 :: s ++ f y ++ []) ++ 44 :: (x ++ w2)) by (repeat (rewrite <- app_assoc; cbn [app]); reflexivity) end.
      apply M_cons; [|exact IH]. apply M_intro; auto; constructor.
  Qed.
  Lemma jvalue_wf : (forall s a, jvalue s a -> wf s) /\ (forall s l, jelems s l -> wf s) /\ (forall s l, jmembers s l -> wf s) /\ (forall s m, jmember s m -> wf s).
  Proof.
    assert (B : forall s, lit_token s -> wf s) by (intros s H; apply lit_okc, H).
    assert (C : forall c, 0 <= c < 256 -> wf [c]) by (intros c H; repeat constructor; unfold is_byte; lia).
    apply json_mutind; intros; repeat match goal with
      | |- wf (?a ++ ?b) => apply wf_app_iff; split
      | |- wf (?c :: ?s) => change (wf ([c] ++ s)); apply wf_app_iff; split; [apply C; lia|]
      end; try apply Forall_nil; auto using ws_wf; try (apply B; unfold lit_token; auto 8).
  Qed.
  Theorem render_jvalue x : doc_ok x -> forall d, jvalue (render html None ind d x) (dast d x).
  Proof.
    induction x as [k t|x IH|l IH|q l IH] using doc_rect'; cbn [doc_ok]; intros H d.
    - cbn [render paint dast]. apply tok_value, H.
    - cbn [render dast]. apply V_str, json_string_lit. eapply (proj1 jvalue_wf), IH, H.
    - rewrite render_arr. apply all_map in H. cbn [dast]. destruct l as [|y l]; [apply (V_arr0 []); constructor|].
      change (lbrack None ++ elems_text html None ind d (y :: l) ++ line ind d ++ rbrack None) with (91 :: elems_text html None ind d (y :: l) ++ line ind d ++ [93]).
      rewrite app_assoc. apply V_arr. unfold elems_text. apply (jelems_join _ _ (render html None ind (d + 1)) (dast (d + 1))); [apply line_ws|discriminate| |apply line_ws].
      rewrite Forall_forall in *. auto.
    - rewrite render_obj. apply all_map in H. cbn [dast]. destruct l as [|y l].
      + change (lbrace None ++ ?x ++ rbrace None) with (123 :: x ++ [125]). apply V_obj0. destruct q; [constructor|apply margin_ws|apply line_ws].
      + change (lbrace None ++ ?x ++ line ind d ++ rbrace None) with (123 :: x ++ line ind d ++ [125]).
        rewrite app_assoc. apply V_obj. unfold members_text.
        pose proof (jmembers_join (line ind (d + 1)) (space ind) (y :: l) (fun e => snd (fst e)) (fun e => render html None ind (d + 1) (snd e)) (fun e => dast (d + 1) (snd e))) as J.
        specialize (J (line_ws _) space_ws ltac:(discriminate)).
        assert (F : Forall (fun y => string_lit (snd (fst y)) /\ jvalue (render html None ind (d + 1) (snd y)) (dast (d + 1) (snd y))) (y :: l)).
        { rewrite Forall_forall in *. intros [[k t] z] Hz. specialize (H _ Hz). specialize (IH _ Hz). cbn in *. split; [apply H|apply IH, H]. }
        specialize (J F _ (line_ws d)).
        replace (map (fun e => match e with (k, t, y0) => line ind (d + 1) ++ paint None (kind_color k) t ++ colon None ++ space ind ++ render html None ind (d + 1) y0 end) (y :: l))
          with (map (fun e : tkind * bytes * doc => line ind (d + 1) ++ snd (fst e) ++ [58] ++ space ind ++ render html None ind (d + 1) (snd e)) (y :: l)) by (apply map_ext; intros [[k t] z]; reflexivity).
        replace (map (fun e : tkind * bytes * doc => match e with (_, t, y0) => (t, dast (d + 1) y0) end) (y :: l))
          with (map (fun e : tkind * bytes * doc => (snd (fst e), dast (d + 1) (snd e))) (y :: l)) by (apply map_ext; intros [[k t] z]; reflexivity).
        exact J.
  Qed.
End text.

(** * Documents of values *)
Lemma jdoc_ok html a : ast_ok a -> doc_ok (jdoc html a).
Proof.
  induction a as [| | |t|t|l IH|l IH] using jast_rect'; cbn [ast_ok jdoc doc_ok]; intros H; try (unfold lit_token; tauto).
  - apply lit_string, raw_string_lit, H.
  - apply all_map in H. apply all_map. rewrite Forall_forall in *. intros x Hx. apply in_map_iff in Hx. destruct Hx as (a & <- & Ha). auto.
  - apply all_map in H. apply all_map. rewrite Forall_forall in *. intros x Hx. apply in_map_iff in Hx. destruct Hx as ([k a] & <- & Ha).
    specialize (H _ Ha). specialize (IH _ Ha). cbn in *. split; [apply raw_string_lit, H|apply IH, H].
Qed.
Lemma raw_text_ok trust s a : raw_text trust s a -> ast_ok a.
Proof. unfold raw_text. destruct trust; [apply jtext_ok|]. intros H. apply (jtext_ok s). apply jvalue_jtext, H. Qed.
Lemma Forall2_all {A B} (R : A -> B -> Prop) (Q : B -> Prop) l xs : Forall2 R l xs -> Forall (fun a => forall x, R a x -> Q x) l -> Forall Q xs.
Proof. induction 1; intros H'; inversion H'; subst; constructor; auto. Qed.
Lemma kdoc_ok html k t b : key_clean k -> kdoc html k t b -> string_lit b.
Proof. intros C H. destruct H; cbn in C; apply json_string_lit; try tauto. apply lit_okc, lit_number, itoa_number. Qed.
Lemma filter_Forall {A} (P : A -> Prop) f l : Forall P l -> Forall P (filter f l).
Proof. induction 1; cbn; [constructor|]. destruct (f x); auto. Qed.
Theorem vdoc_ok html sorted trust v : forall fld x, clean sorted trust fld v -> vdoc html sorted trust v x -> doc_ok x.
Proof.
  induction v as [ |b|z|f|s|s|s|t|l IH| |l IH| |m IH| |m IH|m|fs IH|o IH|o IH|o IH|s|r|r|v IH| ] using gval_rect'; intros fld x C V;
    cbn [clean] in C; inversion V; subst; cbn [doc_ok]; try (unfold lit_token; tauto).
  - apply lit_number, itoa_number.
  - eapply lit_number, float_number; [|eassumption]. destruct f; exact C || exact I.
  - right. left. apply (number_intro [] [48] [] []); auto; constructor.
  - apply lit_str, C.
  - apply lit_string, b64_string, C.
  - apply lit_string, time_string, C.
  - apply all_map in C. apply all_map. eapply Forall2_all; [eassumption|]. rewrite Forall_forall in *. intros y Hy x Hx. eapply IH; eauto.
  - apply all_map in C. apply all_map. eapply Forall2_all; [eassumption|]. rewrite Forall_forall in *. intros y Hy x Hx. eapply IH; eauto.
  - apply all_map in C. apply all_map. eapply Forall2_all; [eassumption|].
    match goal with H : in_order _ _ m _ |- _ => apply in_order_perm in H; eapply Permutation_Forall; [exact H|] end.
    rewrite Forall_forall in *. intros [k y] Hy [[tk tb] x] [Hk Hx]. specialize (C _ Hy). cbn in *. destruct C as [C1 C2]. split; [eapply kdoc_ok; eassumption|].
    exact (IH _ Hy false x C2 Hx).
  - apply all_map in C. apply all_map. eapply Forall2_all; [eassumption|].
    match goal with H : in_order _ _ m _ |- _ => apply in_order_perm in H; eapply Permutation_Forall; [exact H|] end.
    rewrite Forall_forall in *. intros [k y] Hy [[tk tb] x] [Hk Hx]. specialize (C _ Hy). cbn in *. destruct C as [C1 C2]. injection Hk as -> ->. split; [apply json_string_lit, C1|].
    exact (IH _ Hy false x C2 Hx).
  - apply all_map. eapply Forall2_all; [eassumption|].
    match goal with H : in_order _ _ _ _ |- _ => apply in_order_perm in H; eapply Permutation_Forall; [exact H|] end.
    eapply Forall_impl; [|exact C]. cbn beta. intros [k y] [C1 _] [[tk tb] x] [Hk Hx]. cbn in *. injection Hk as -> ->. split; [apply json_string_lit, C1|].
    inversion Hx; subst; [cbn [doc_ok]; unfold lit_token; tauto|]. eapply jdoc_ok, raw_text_ok; eassumption.
  - destruct C as [_ C]. apply all_map in C. apply all_map. eapply Forall2_all; [eassumption|]. apply filter_Forall.
    rewrite Forall_forall in *. intros [h y] Hy [[tk tb] x] [Hk Hx]. specialize (C _ Hy). cbn in *. destruct C as [C1 C2]. injection Hk as -> ->. split; [apply json_string_lit, C1|].
    exact (IH _ Hy true x C2 Hx).
  - cbn in IH. eapply IH; [apply C|eassumption].
  - cbn in IH. eapply IH; eassumption.
  - cbn in IH. eapply IH; eassumption.
  - eapply jdoc_ok, raw_text_ok; eassumption.
  - match goal with H : vdoc _ _ _ (GRaw _) _ |- _ => inversion H; subst end; [cbn [doc_ok]; unfold lit_token; tauto|]. eapply jdoc_ok, raw_text_ok; eassumption.
  - apply lit_str, C.
  - eapply IH; eassumption.
Qed.

(** * The standard Indent *)
Fixpoint doc_std (x : doc) : Prop :=
  match x with
  | DTok _ _ => True
  | DQuote (DTok _ _) => True
  | DQuote _ => False
  | DArr l => all (map doc_std l)
  | DObj q l => (l = [] -> q = ONormal) /\ all (map (fun e => match e with (_, _, y) => doc_std y end) l)
  end.
Section std.
  Variables (html : bool) (prefix indent : bytes).
  Notation ind := (Some (Indenter false prefix indent)).
  Notation sif := (std_indent_from prefix indent).
  Notation nl := (nl prefix indent).
  Definition lead (need : bool) (d : Z) : bytes := if need then nl (d + 1) else [].
  Definition down (need : bool) (d : Z) : Z := if need then d + 1 else d.
  Lemma nl_line d : nl d = line ind d.
  Proof. reflexivity. Qed.
  Definition dullc (c : Z) : Prop := c <> 32 /\ c <> 9 /\ c <> 10 /\ c <> 13 /\ c <> 34 /\ c <> 44 /\ c <> 58 /\ c <> 91 /\ c <> 93 /\ c <> 123 /\ c <> 125.
  Lemma sif_dull need d c s : dullc c -> sif false false need d (c :: s) = lead need d ++ c :: sif false false false (down need d) s.
  Proof.
    unfold dullc. intros H. cbn [std_indent_from].
    assert ((c =? 32) || (c =? 9) || (c =? 10) || (c =? 13) = false) as -> by (rewrite !orb_false_iff, !Z.eqb_neq; lia).
    assert ((c =? 125) || (c =? 93) = false) as -> by (rewrite !orb_false_iff, !Z.eqb_neq; lia).
    assert ((c =? 123) || (c =? 91) = false) as -> by (rewrite !orb_false_iff, !Z.eqb_neq; lia).
    destruct (c =? 44) eqn:?; [zb; lia|]. destruct (c =? 58) eqn:?; [zb; lia|]. destruct (c =? 34) eqn:?; [zb; lia|]. unfold lead, down. destruct need; reflexivity.
  Qed.
  Lemma sif_plain t : Forall dullc t -> forall d s, sif false false false d (t ++ s) = t ++ sif false false false d s.
  Proof. induction 1 as [|c t Hc H IH]; intros d s; [reflexivity|]. cbn [app]. rewrite (sif_dull false) by exact Hc. cbn [lead down app]. rewrite IH. reflexivity. Qed.
  Lemma sif_body b : str_body b -> forall d s, sif true false false d (b ++ s) = b ++ sif true false false d s.
  Proof.
    assert (C : forall d c s, c <> 34 -> c <> 92 -> sif true false false d (c :: s) = c :: sif true false false d s).
    { intros d c s H1 H2. cbn [std_indent_from]. destruct (c =? 92) eqn:?; [zb; lia|]. destruct (c =? 34) eqn:?; [zb; lia|]. reflexivity. }
    induction 1 as [|c b H1 H2 H3 H IH|e b H1 H IH|h1 h2 h3 h4 b H1 H2 H3 H4 H IH]; intros d s; [reflexivity| | |]; cbn [app].
    - rewrite C, IH by assumption. reflexivity.
    - cbn [std_indent_from]. change (92 =? 92) with true. cbv iota. rewrite IH. reflexivity.
    - unfold hex_digit in *.
      change (92 :: 117 :: sif true false false d (h1 :: h2 :: h3 :: h4 :: b ++ s) = 92 :: 117 :: h1 :: h2 :: h3 :: h4 :: b ++ sif true false false d s).
      rewrite !C, IH by lia. reflexivity.
  Qed.
  Lemma sif_lit t need d s : lit_token t -> sif false false need d (t ++ s) = lead need d ++ t ++ sif false false false (down need d) s.
  Proof.
    intros [H|H].
    - destruct H as (b & -> & H). cbn [app]. rewrite <- !app_assoc.
      assert (E : sif false false need d (34 :: b ++ [34] ++ s) = lead need d ++ 34 :: sif true false false (down need d) (b ++ [34] ++ s)) by (unfold lead, down; destruct need; reflexivity).
      rewrite E, sif_body by exact H. reflexivity.
    - assert (X : t <> [] /\ Forall dullc t).
      { split; [destruct H as [H|[->|[->| ->]]]; try discriminate; destruct (number_head t H) as (c & u & -> & _); discriminate|].
        destruct H as [H|H].
        - apply number_chars in H. eapply Forall_impl; [|exact H]. unfold dullc. cbv beta. intros; lia.
        - destruct H as [->|[->| ->]]; vm_compute; repeat (apply Forall_cons; [repeat split; intro; discriminate|]); apply Forall_nil. }
      destruct X as [N F]. destruct t as [|c t]; [congruence|]. inversion F; subst. cbn [app]. rewrite sif_dull by assumption. rewrite sif_plain by assumption. reflexivity.
  Qed.
  Lemma sif_open need d c s : c = 91 \/ c = 123 -> sif false false need d (c :: s) = lead need d ++ c :: sif false false true (down need d) s.
  Proof. intros [->| ->]; unfold lead, down; destruct need; reflexivity. Qed.
  Lemma sif_close d c s : c = 93 \/ c = 125 -> sif false false false d (c :: s) = line ind (d - 1) ++ c :: sif false false false (d - 1) s.
  Proof. intros [->| ->]; reflexivity. Qed.
  Lemma sif_close_empty d c s : c = 93 \/ c = 125 -> sif false false true d (c :: s) = c :: sif false false false d s.
  Proof. intros [->| ->]; reflexivity. Qed.
  Lemma sif_comma d s : sif false false false d (44 :: s) = 44 :: line ind d ++ sif false false false d s.
  Proof. reflexivity. Qed.
  Lemma sif_colon d s : sif false false false d (58 :: s) = 58 :: 32 :: sif false false false d s.
  Proof. reflexivity. Qed.

  (** [a] is laid out as [b] one level below [d]. *)
  Definition item (d : Z) (a b : bytes) : Prop := forall s,
    sif false false true d (a ++ s) = line ind (d + 1) ++ b ++ sif false false false (d + 1) s /\
    sif false false false (d + 1) (a ++ s) = b ++ sif false false false (d + 1) s.
  Lemma items_rest d la lb : Forall2 (item d) la lb -> la <> [] -> forall s,
    line ind (d + 1) ++ sif false false false (d + 1) (join [44] la ++ s) =
    join [44] (map (fun b => line ind (d + 1) ++ b) lb) ++ sif false false false (d + 1) s.
  Proof.
    induction 1 as [|a b la lb Hx H IH]; [congruence|]. intros _ s. cbn [map]. rewrite !join_cons. rewrite <- !app_assoc. rewrite (proj2 (Hx _)). f_equal. f_equal.
    destruct H as [|a' b' la lb Hx' H]; [reflexivity|]. cbn [map] in *. rewrite <- !app_assoc. cbn [app]. rewrite sif_comma. f_equal. rewrite IH by discriminate. reflexivity.
  Qed.
  Lemma items d la lb : Forall2 (item d) la lb -> la <> [] -> forall s,
    sif false false true d (join [44] la ++ s) =
    join [44] (map (fun b => line ind (d + 1) ++ b) lb) ++ sif false false false (d + 1) s.
  Proof.
    intros H N s. rewrite <- (items_rest d la lb H N). destruct H as [|a b la lb Hx H]; [congruence|]. rewrite !join_cons, <- !app_assoc.
    rewrite (proj1 (Hx _)), (proj2 (Hx _)). reflexivity.
  Qed.

  Definition lays (x : doc) : Prop := forall d0 need d s,
    sif false false need d (render html None None d0 x ++ s) = lead need d ++ render html None ind (down need d) x ++ sif false false false (down need d) s.
  Lemma lays_item x d0 d : lays x -> item d (render html None None d0 x) (render html None ind (d + 1) x).
  Proof. intros H s. split; [apply (H d0 true d)|apply (H d0 false (d + 1))]. Qed.
  Lemma member_item t x d0 d : lit_token t -> lays x -> item d (t ++ [58] ++ render html None None d0 x) (t ++ [58] ++ [32] ++ render html None ind (d + 1) x).
  Proof.
    intros T H s. split; rewrite <- !app_assoc; rewrite sif_lit by exact T; cbn [lead down app]; rewrite sif_colon, (H d0 false (d + 1)); reflexivity.
  Qed.
  Lemma Forall2_map2 {A B C} (P : B -> C -> Prop) (f : A -> B) (g : A -> C) l : Forall (fun x => P (f x) (g x)) l -> Forall2 P (map f l) (map g l).
  Proof. induction 1; constructor; assumption. Qed.

  Lemma std_lays x : doc_ok x -> doc_std x -> lays x.
  Proof.
    induction x as [k t|x IH|l IH|q l IH] using doc_rect'; intros O S d0 need d s.
    - cbn [render paint]. apply sif_lit, O.
    - destruct x as [k t| | |]; try contradiction. cbn [render paint]. apply sif_lit. left. apply json_string_lit, lit_okc, O.
    - rewrite !render_arr. cbn [doc_ok doc_std] in O, S. apply all_map in O, S. destruct l as [|x l].
      + unfold lbrack, rbrack. cbn [paint app]. rewrite sif_open by auto. rewrite sif_close_empty by auto. reflexivity.
      + assert (F : Forall lays (x :: l)) by (rewrite Forall_forall in *; auto).
        assert (I2 : Forall2 (item (down need d)) (map (fun y => render html None None (d0 + 1) y) (x :: l)) (map (fun y => render html None ind (down need d + 1) y) (x :: l))).
        { apply Forall2_map2. eapply Forall_impl; [|exact F]. cbv beta. intros y Hy. apply lays_item, Hy. }
        unfold lbrack, rbrack. cbn [paint]. cbn [app]. rewrite sif_open by auto. f_equal. f_equal.
        unfold elems_text. change (comma None) with [44]. change (fun y : doc => line None (d0 + 1) ++ render html None None (d0 + 1) y) with (fun y : doc => render html None None (d0 + 1) y).
        repeat (rewrite <- app_assoc; cbn [app]). change (line None d0) with (@nil Z). cbn [app]. rewrite (items _ _ _ I2) by discriminate. rewrite map_map. f_equal.
        rewrite sif_close by auto. rewrite Z.add_simpl_r. reflexivity.
    - rewrite !render_obj. cbn [doc_ok doc_std] in O, S. destruct S as [S1 S]. apply all_map in O, S. destruct l as [|x l].
      + rewrite (S1 eq_refl). unfold lbrace, rbrace. cbn [paint app]. rewrite sif_open by auto. rewrite sif_close_empty by auto. reflexivity.
      + assert (F : Forall (fun e => lit_token (snd (fst e)) /\ lays (snd e)) (x :: l)).
        { rewrite Forall_forall in *. intros [[k t] y] Hy. specialize (O _ Hy). specialize (S _ Hy). specialize (IH _ Hy). cbn in *. split; [left; apply O|apply IH; tauto]. }
        assert (I2 : Forall2 (item (down need d)) (map (fun e => snd (fst e) ++ [58] ++ render html None None (d0 + 1) (snd e)) (x :: l)) (map (fun e => snd (fst e) ++ [58] ++ [32] ++ render html None ind (down need d + 1) (snd e)) (x :: l))).
        { apply Forall2_map2. eapply Forall_impl; [|exact F]. cbv beta. intros y [Ht Hy]. apply member_item; assumption. }
        unfold lbrace, rbrace. cbn [paint]. cbn [app]. rewrite sif_open by auto. f_equal. f_equal.
        unfold members_text. change (comma None) with [44].
        replace (map (fun e => match e with (k, t, y) => line None (d0 + 1) ++ paint None (kind_color k) t ++ colon None ++ space None ++ render html None None (d0 + 1) y end) (x :: l))
          with (map (fun e => snd (fst e) ++ [58] ++ render html None None (d0 + 1) (snd e)) (x :: l)) by (apply map_ext; intros [[k t] y]; reflexivity).
        replace (map (fun e => match e with (k, t, y) => line ind (down need d + 1) ++ paint None (kind_color k) t ++ colon None ++ space ind ++ render html None ind (down need d + 1) y end) (x :: l))
          with (map (fun e => line ind (down need d + 1) ++ snd (fst e) ++ [58] ++ [32] ++ render html None ind (down need d + 1) (snd e)) (x :: l)) by (apply map_ext; intros [[k t] y]; reflexivity).
        repeat (rewrite <- app_assoc; cbn [app]). change (line None d0) with (@nil Z). cbn [app]. rewrite (items _ _ _ I2) by discriminate. rewrite map_map. f_equal.
        rewrite sif_close by auto. rewrite Z.add_simpl_r. reflexivity.
  Qed.
  Theorem std_indent_render x : doc_ok x -> doc_std x -> std_indent prefix indent (render html None None 0 x) = render html None ind 0 x.
  Proof.
    intros O S. pose proof (std_lays x O S 0 false 0 []) as H. rewrite app_nil_r in H. unfold std_indent. rewrite H. cbn [lead down app std_indent_from]. apply app_nil_r.
  Qed.
End std.
Lemma jdoc_std html a : doc_std (jdoc html a).
Proof.
  induction a as [| | |t|t|l IH|l IH] using jast_rect'; cbn [jdoc doc_std]; try exact I.
  - apply all_map. rewrite Forall_forall in *. intros x Hx. apply in_map_iff in Hx. destruct Hx as (a & <- & Ha). auto.
  - split; [reflexivity|]. apply all_map. rewrite Forall_forall in *. intros x Hx. apply in_map_iff in Hx. destruct Hx as ([k a] & <- & Ha). apply (IH _ Ha).
Qed.
Lemma flat_tok html sorted trust v : forall x, flat v -> vdoc html sorted trust v x -> exists k t, x = DTok k t.
Proof.
  induction v as [ |b|z|f|s|s|s|t|l IH| |l IH| |m IH| |m IH|m|fs IH|o IH|o IH|o IH|s|r|r|v IH| ] using gval_rect'; intros x F V;
    cbn [flat] in F; try contradiction; inversion V; subst; eauto.
Qed.
Theorem vdoc_std html sorted trust v : forall x, std_layout v -> vdoc html sorted trust v x -> doc_std x.
Proof.
  induction v as [ |b|z|f|s|s|s|t|l IH| |l IH| |m IH| |m IH|m|fs IH|o IH|o IH|o IH|s|r|r|v IH| ] using gval_rect'; intros x C V;
    cbn [std_layout] in C; inversion V; subst; cbn [doc_std]; auto; try apply jdoc_std.
  - apply all_map in C. apply all_map. eapply Forall2_all; [eassumption|]. rewrite Forall_forall in *. intros y Hy x Hx. eapply IH; eauto.
  - apply all_map in C. apply all_map. eapply Forall2_all; [eassumption|]. rewrite Forall_forall in *. intros y Hy x Hx. eapply IH; eauto.
  - split; [reflexivity|]. apply all_map in C. apply all_map. eapply Forall2_all; [eassumption|].
    match goal with H : in_order _ _ m _ |- _ => apply in_order_perm in H; eapply Permutation_Forall; [exact H|] end.
    rewrite Forall_forall in *. intros [k y] Hy [[tk tb] x] [Hk Hx]. specialize (C _ Hy). exact (IH _ Hy x C Hx).
  - split; [reflexivity|]. apply all_map in C. apply all_map. eapply Forall2_all; [eassumption|].
    match goal with H : in_order _ _ m _ |- _ => apply in_order_perm in H; eapply Permutation_Forall; [exact H|] end.
    rewrite Forall_forall in *. intros [k y] Hy [[tk tb] x] [Hk Hx]. specialize (C _ Hy). exact (IH _ Hy x C Hx).
  - split; [reflexivity|]. apply all_map. eapply Forall2_all; [eassumption|].
    match goal with H : in_order _ _ _ _ |- _ => apply in_order_perm in H; eapply Permutation_Forall; [exact H|] end.
    rewrite Forall_forall. intros [k y] _ [[tk tb] x] [Hk Hx]. cbn in *. inversion Hx; subst; [exact I|apply jdoc_std].
  - destruct C as [C _]. cbn in C. congruence.
  - destruct C as [C0 C]. split. { intros ->. match goal with H : Forall2 _ _ [] |- _ => inversion H end. congruence. }
    apply all_map in C. apply all_map. eapply Forall2_all; [eassumption|]. apply filter_Forall.
    rewrite Forall_forall in *. intros [h y] Hy [[tk tb] x] [Hk Hx]. specialize (C _ Hy). exact (IH _ Hy x C Hx).
  - match goal with H : vdoc _ _ _ (GRaw _) _ |- _ => inversion H; subst end; [exact I|apply jdoc_std].
  - match goal with H : vdoc _ _ _ v _ |- _ => destruct (flat_tok _ _ _ v _ C H) as (? & ? & ->) end. exact I.
Qed.
