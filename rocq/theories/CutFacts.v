(** Lemmas for C99: how deep inside brackets and strings the end of a text is. *)
From Coq Require Import Wf_nat.
From Verif Require Import Bytes ParseModel DecModel SpecJson SpecString SpecDec TypeModel SpecType SpecLoose ParseFacts ColorFacts NodeFacts.

Inductive place := Out | Within | Esc.
Definition step (x : Z * place) (c : Z) : Z * place :=
  match x with
  | (d, Out) => if c =? 34 then (d, Within) else if (c =? 91) || (c =? 123) then (d + 1, Out) else if (c =? 93) || (c =? 125) then (d - 1, Out) else (d, Out)
  | (d, Within) => if c =? 34 then (d, Out) else if c =? 92 then (d, Esc) else (d, Within)
  | (d, Esc) => (d, Within)
  end.
Notation scan p x := (fold_left step p x).
(** Texts that close what they open. *)
Definition closed (s : bytes) : Prop := forall d, scan s (d, Out) = (d, Out) /\ forall p z, s = p ++ z -> d <= fst (scan p (d, Out)).
(** Texts that do so at their end only. *)
Definition whole (s : bytes) : Prop := forall d p z, s = p ++ z -> p <> [] -> z <> [] -> scan p (d, Out) <> (d, Out).
Definition plainc (c : Z) : Prop := c <> 34 /\ c <> 91 /\ c <> 123 /\ c <> 93 /\ c <> 125.
Lemma step_plain d c : plainc c -> step (d, Out) c = (d, Out).
Proof.
  intros (A & B & C & D & E). cbn [step]. destruct (Z.eqb_spec c 34), (Z.eqb_spec c 91), (Z.eqb_spec c 123), (Z.eqb_spec c 93), (Z.eqb_spec c 125); congruence || reflexivity.
Qed.
Lemma closed_nil : closed [].
Proof. intros d. split; [reflexivity|]. intros p z E. symmetry in E. apply app_eq_nil in E as [-> _]. cbn. lia. Qed.
Lemma closed_app s t : closed s -> closed t -> closed (s ++ t).
Proof.
  intros A B d. destruct (A d) as [A1 A2], (B d) as [B1 B2]. split; [now rewrite fold_left_app, A1|]. intros p z E. apply app_eq_app in E as (l & [[-> ->]|[-> ->]]); [now apply (A2 p l)|].
  rewrite fold_left_app, A1. now apply (B2 l z).
Qed.
Lemma closed_one c : plainc c -> closed [c].
Proof.
  intros P d. split; [cbn [fold_left]; now apply step_plain|]. intros [|x p] z E; [cbn; lia|]. injection E as <- E. symmetry in E. apply app_eq_nil in E as [-> ->]. cbn [fold_left]. rewrite step_plain by exact P. cbn. lia.
Qed.
Lemma closed_plain s : Forall plainc s -> closed s.
Proof. induction 1 as [|c s P _ IH]; [apply closed_nil|]. exact (closed_app [c] s (closed_one c P) IH). Qed.
Lemma closed_ws w : ws w -> closed w.
Proof. intros W. apply closed_plain. eapply Forall_impl; [|exact W]. unfold plainc. cbv beta. intros; lia. Qed.
Lemma closed_number s : number_lit s -> closed s.
Proof. intros N. apply closed_plain. eapply Forall_impl; [|exact (number_chars s N)]. unfold plainc. cbv beta. intros; lia. Qed.
Lemma split_ends (o : Z) (s : bytes) (c : Z) (p z : bytes) : o :: s ++ [c] = p ++ z -> p <> [] -> z <> [] -> exists p' z', p = o :: p' /\ s = p' ++ z'.
Proof.
  intros E NP NZ. destruct p as [|x p]; [contradiction|]. injection E as <- E. exists p. destruct (exists_last NZ) as (z' & y & ->). exists z'. split; [reflexivity|].
  rewrite app_assoc in E. now apply app_inj_tail in E.
Qed.
Lemma brackets_enclosed o c s : (o = 91 /\ c = 93) \/ (o = 123 /\ c = 125) -> closed s -> closed (o :: s ++ [c]) /\ whole (o :: s ++ [c]).
Proof.
  intros OC A.
  assert (SO : forall d, step (d, Out) o = (d + 1, Out)) by (destruct OC as [[-> _]|[-> _]]; reflexivity).
  assert (SC : forall d, step (d, Out) c = (d - 1, Out)) by (destruct OC as [[_ ->]|[_ ->]]; reflexivity).
  assert (E : forall d, scan (o :: s ++ [c]) (d, Out) = (d, Out)).
  { intros d. cbn [fold_left]. rewrite SO, fold_left_app, (proj1 (A _)). cbn [fold_left]. rewrite SC. f_equal. lia. }
  assert (W : forall d p z, o :: s ++ [c] = p ++ z -> p <> [] -> z <> [] -> d + 1 <= fst (scan p (d, Out))).
  { intros d p z Q NP NZ. destruct (split_ends _ _ _ _ _ Q NP NZ) as (p' & z' & -> & ->). cbn [fold_left]. rewrite SO. exact (proj2 (A (d + 1)) p' z' eq_refl). }
  split.
  - intros d. split; [apply E|]. intros p z Q. destruct p as [|x p]; [cbn; lia|]. destruct z as [|y z]; [rewrite app_nil_r in Q; rewrite <- Q, E; cbn; lia|].
    pose proof (W d (x :: p) (y :: z) Q ltac:(discriminate) ltac:(discriminate)). lia.
  - intros d p z Q NP NZ X. pose proof (W d p z Q NP NZ) as Y. rewrite X in Y. cbn [fst] in Y. lia.
Qed.
Lemma body_within s : str_body s -> forall d, scan s (d, Within) = (d, Within) /\ forall p z, s = p ++ z -> fst (scan p (d, Within)) = d /\ snd (scan p (d, Within)) <> Out.
Proof.
  assert (NH : forall h, hex_digit h -> forall d, step (d, Within) h = (d, Within)).
  { intros h H d. unfold hex_digit in H. cbn [step]. destruct (Z.eqb_spec h 34), (Z.eqb_spec h 92); try lia. reflexivity. }
  induction 1 as [|c s R N1 N2 B IH|e s E B IH|h1 h2 h3 h4 s H1 H2 H3 H4 B IH]; intros d.
  - split; [reflexivity|]. intros p z E. symmetry in E. apply app_eq_nil in E as [-> _]. split; [reflexivity|discriminate].
  - assert (S1 : step (d, Within) c = (d, Within)) by (cbn [step]; destruct (Z.eqb_spec c 34), (Z.eqb_spec c 92); congruence || reflexivity).
    split; [cbn [fold_left]; rewrite S1; apply IH|]. intros [|x p] z Q; [split; [reflexivity|discriminate]|]. injection Q as <- Q. cbn [fold_left]. rewrite S1. now apply (IH d) with z.
  - assert (S1 : step (d, Within) 92 = (d, Esc)) by reflexivity. assert (S2 : step (d, Esc) e = (d, Within)) by reflexivity.
    split; [cbn [fold_left]; rewrite S1, S2; apply IH|]. intros [|x p] z Q; [split; [reflexivity|discriminate]|]. injection Q as <- Q. cbn [fold_left]. rewrite S1.
    destruct p as [|x p]; [split; [reflexivity|discriminate]|]. injection Q as <- Q. cbn [fold_left]. rewrite S2. now apply (IH d) with z.
  - assert (S1 : step (d, Within) 92 = (d, Esc)) by reflexivity. assert (S2 : step (d, Esc) 117 = (d, Within)) by reflexivity.
    split; [cbn [fold_left]; rewrite S1, S2, !NH by assumption; apply IH|].
    intros [|x p] z Q; [split; [reflexivity|discriminate]|]. injection Q as <- Q. cbn [fold_left]. rewrite S1.
    destruct p as [|x p]; [split; [reflexivity|discriminate]|]. injection Q as <- Q. cbn [fold_left]. rewrite S2.
    do 4 (destruct p as [|x p]; [split; [reflexivity|discriminate]|]; injection Q as <- Q; cbn [fold_left]; rewrite NH by assumption). now apply (IH d) with z.
Qed.
Lemma string_enclosed s : string_lit s -> closed s /\ whole s.
Proof.
  intros (b & -> & B). pose proof (body_within b B) as W.
  assert (E : forall d, scan (34 :: b ++ [34]) (d, Out) = (d, Out)) by (intros d; cbn [fold_left step Z.eqb Pos.eqb]; rewrite fold_left_app, (proj1 (W d)); reflexivity).
  assert (N : forall d p z, 34 :: b ++ [34] = p ++ z -> p <> [] -> z <> [] -> fst (scan p (d, Out)) = d /\ snd (scan p (d, Out)) <> Out).
  { intros d p z Q NP NZ. destruct (split_ends _ _ _ _ _ Q NP NZ) as (p' & z' & -> & ->). cbn [fold_left step Z.eqb Pos.eqb]. exact (proj2 (W d) p' z' eq_refl). }
  split.
  - intros d. split; [apply E|]. intros p z Q. destruct p as [|x p]; [cbn; lia|]. destruct z as [|y z]; [rewrite app_nil_r in Q; rewrite <- Q, E; cbn; lia|].
    rewrite (proj1 (N d (x :: p) (y :: z) Q ltac:(discriminate) ltac:(discriminate))). lia.
  - intros d p z Q NP NZ X. apply (proj2 (N d p z Q NP NZ)). now rewrite X.
Qed.
Ltac cl := repeat first [assumption | apply closed_app | apply closed_ws; assumption | apply closed_nil | apply closed_one; unfold plainc; lia | match goal with |- closed (?c :: ?s) => apply (closed_app [c] s) end
  | match goal with H : string_lit ?k |- closed ?k => exact (proj1 (string_enclosed k H)) end].
Definition lit (a : jast) : Prop := match a with JNull | JTrue | JFalse | JNum _ => True | _ => False end.
Lemma value_closed : (forall s a, jvalue s a -> closed s /\ (~ lit a -> whole s)) /\ (forall s l, jelems s l -> closed s) /\ (forall s l, jmembers s l -> closed s) /\ (forall s kv, jmember s kv -> closed s).
Proof.
  apply json_mutind; intros.
  - split; [apply closed_plain; repeat constructor; discriminate|cbn; tauto].
  - split; [apply closed_plain; repeat constructor; discriminate|cbn; tauto].
  - split; [apply closed_plain; repeat constructor; discriminate|cbn; tauto].
  - split; [now apply closed_number|cbn; tauto].
  - destruct (string_enclosed s) as [A B]; [assumption|]. auto.
  - destruct (brackets_enclosed 91 93 w) as [A B]; [auto|now apply closed_ws|]. auto.
  - destruct (brackets_enclosed 91 93 s) as [A B]; auto.
  - destruct (brackets_enclosed 123 125 w) as [A B]; [auto|now apply closed_ws|]. auto.
  - destruct (brackets_enclosed 123 125 s) as [A B]; auto.
  - destruct H as [H _]. cl.
  - destruct H as [H _]. cl.
  - assumption.
  - cl.
  - destruct H as [H _]. cl.
Qed.
Lemma node_closed nd : jnode nd -> closed (ntext nd).
Proof. intros J. exact (proj1 (proj1 value_closed _ _ (jnode_jvalue nd J))). Qed.
Lemma selems_closed (P : bytes -> node -> Prop) n : (forall s v, (length s <= n)%nat -> P s v -> closed s) -> forall s l, selems P s l -> (length s <= n)%nat -> closed s.
Proof.
  intros HP s l H. induction H as [w1 s v w2 W1 H W2|w1 s v w2 t l W1 H W2 HT IH]; intros L; repeat (rewrite app_length in L || cbn [length] in L).
  - assert (closed s) by (eapply HP; [|exact H]; lia). cl.
  - assert (closed s) by (eapply HP; [|exact H]; lia). assert (closed t) by (apply IH; lia). cl.
Qed.
Lemma room_closed (P : bytes -> node -> Prop) n : (forall s v, (length s <= n)%nat -> P s v -> closed s) -> forall k f s l, room P k f s l -> (length s <= n)%nat -> closed s.
Proof.
  intros HP k f s l H. induction H as [k f w W _|k w1 s v t l W1 H HT IH|k w1 w2 s v t l W1 W2 H HT IH|f w1 v t l W1 J HT IH|f w1 w2 v t l W1 W2 J HT IH]; intros L; repeat (rewrite app_length in L || cbn [length] in L).
  - cl.
  - assert (closed s) by (eapply HP; [|exact H]; lia). assert (closed t) by (apply IH; lia). cl.
  - assert (closed s) by (eapply HP; [|exact H]; lia). assert (closed t) by (apply IH; lia). cl.
  - assert (closed t) by (apply IH; lia). pose proof (node_closed v J). cl.
  - assert (closed t) by (apply IH; lia). pose proof (node_closed v J). cl.
Qed.
Lemma smembers_closed (P : bytes -> bytes -> node -> Prop) n : (forall k s v, (length s <= n)%nat -> P k s v -> closed s) -> forall s l, smembers P s l -> (length s <= n)%nat -> closed s.
Proof.
  intros HP s l H. induction H as [w1 k w2 w3 s v w4 W1 K W2 W3 H W4|w1 k w2 w3 s v w4 t l W1 K W2 W3 H W4 HT IH]; intros L; repeat (rewrite app_length in L || cbn [length] in L).
  - assert (closed s) by (eapply HP; [|exact H]; lia). cl.
  - assert (closed s) by (eapply HP; [|exact H]; lia). assert (closed t) by (apply IH; lia). cl.
Qed.
Lemma spells_closed V F t s v : spells V F t s v -> closed s.
Proof.
  remember (length s) as n eqn:En. revert t s v En. induction n as [n IH] using lt_wf_ind.
  assert (IH' : forall t s v, (length s < n)%nat -> spells V F t s v -> closed s) by (intros t s v L H; exact (IH _ L t s v eq_refl H)).
  intros t s v En H. revert En. induction H as [t v J|k e s l u RM J|e s l u SE J|k e s l u SM J|i s l u SM J|e s v H IHt]; intros En; try (cbn [length] in En; rewrite app_length in En; cbn [length] in En).
  - now apply node_closed.
  - apply brackets_enclosed; [auto|]. apply (room_closed (spells V F e) (length s)) with k true l; [|exact RM|lia]. intros s' v' L H. apply (IH' e s' v'); [lia|exact H].
  - apply brackets_enclosed; [auto|]. apply (selems_closed (spells V F e) (length s)) with l; [|exact SE|lia]. intros s' v' L H. apply (IH' e s' v'); [lia|exact H].
  - apply brackets_enclosed; [auto|]. apply (smembers_closed (fun _ => spells V F e) (length s)) with l; [|exact SM|lia]. intros k' s' v' L H. apply (IH' e s' v'); [lia|exact H].
  - apply brackets_enclosed; [auto|]. apply (smembers_closed (spells_member V F i) (length s)) with l; [|exact SM|lia]. intros k' s' v' L H.
    destruct H as [i k' v' J'|i k' key f s' v' K PK Q H]; [now apply node_closed|]. apply (IH' (jf_ty f) s' v'); [lia|exact H].
  - exact (IHt En).
Qed.
Lemma spells_head V F t s v : spells V F t s v -> (exists c r, s = c :: r /\ is_space c = false) /\ ((exists a, jvalue s a) \/ exists r, s = 91 :: r \/ s = 123 :: r).
Proof.
  induction 1 as [t v J|k e s l u RM J|e s l u SE J|k e s l u SM J|i s l u SM J|e s v H IHt].
  - pose proof (jnode_jvalue v J) as JV. split; [|eauto]. destruct (jvalue_head _ _ JV) as (c & r & -> & H). exists c, r. split; [reflexivity|]. exact (vhead_nsp c H).
  - split; [exists 91, (s ++ [93]); auto|eauto].
  - split; [exists 91, (s ++ [93]); auto|eauto].
  - split; [exists 123, (s ++ [125]); auto|eauto].
  - split; [exists 123, (s ++ [125]); auto|eauto].
  - exact IHt.
Qed.
Lemma front_whole V F t s v j a z : spells V F t s v -> jvalue j a -> (forall n, a <> JNum n) -> j = s ++ z -> z = [].
Proof.
  intros SP J NN E. destruct z as [|y z]; [reflexivity|exfalso].
  destruct (spells_head V F t s v SP) as [(c & r & Es & Sc) HD]. assert (NE : s <> []) by (rewrite Es; discriminate).
  assert (LC : lit a \/ ~ lit a) by (destruct a; cbn; tauto). destruct LC as [L|L].
  - destruct HD as [(a' & J')|(r' & HD)].
    + assert (NL : ~ number_lit s).
      { intros N. apply number_chars in N. rewrite Es in N. apply Forall_inv in N. rewrite Es in E. clear - J NN L E N. destruct J; cbn in L; try contradiction; try exact (NN _ eq_refl); vm_compute in E; injection E as E _; lia. }
      pose proof (parseValue_complete' s a' (y :: z) J' ltac:(tauto)) as P1. pose proof (parseValue_complete' j a [] J ltac:(intros _; exact I)) as P2. rewrite app_nil_r in P2. rewrite E, P1 in P2. injection P2 as _ P2. discriminate P2.
    + clear - J NN L E HD. destruct J; cbn in L; try contradiction; try exact (NN _ eq_refl); destruct HD as [->| ->]; discriminate.
  - apply (proj2 (proj1 value_closed _ _ J) L 0 s (y :: z) E NE ltac:(discriminate)). apply (spells_closed V F t s v SP).
Qed.
Lemma no_front V F t v p q a w1 s r : jtext (p ++ q) a -> (forall n, a <> JNum n) -> ~ ws q -> spells V F t s v -> ws w1 -> p = w1 ++ s ++ r -> False.
Proof.
  intros (u1 & j & u2 & E & U1 & J & U2) NN NW SP W1 ->. destruct (spells_head V F t s v SP) as [(c & s' & Es & Sc) _].
  destruct (jvalue_head _ _ J) as (c' & j' & Ej & Hj). apply (f_equal skip_spaces) in E. rewrite <- app_assoc in E. rewrite (skip_spaces_ws w1), (skip_spaces_ws u1) in E by assumption.
  rewrite (skip_spaces_nsp ((s ++ r) ++ q)), (skip_spaces_nsp (j ++ u2)) in E by (rewrite ?Es, ?Ej; cbn; first [exact Sc | apply vhead_nsp, Hj]).
  rewrite <- app_assoc in E. apply app_eq_app in E as (l & [[E1 E2]|[E1 E2]]).
  - apply NW. unfold ws in *. rewrite E2 in U2. apply Forall_app in U2 as [_ U2]. apply Forall_app in U2 as [_ U2]. exact U2.
  - pose proof (front_whole V F t s v j a l SP J NN E1) as ->. cbn [app] in E2. apply NW. unfold ws in *. rewrite <- E2 in U2. apply Forall_app in U2 as [_ U2]. exact U2.
Qed.
