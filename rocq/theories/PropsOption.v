(** Theorems about the options of encoding: C98. *)
From Coq Require Import Permutation.
From Verif Require Import Bytes ParseModel StringModel TokenModel EncModel SpecJson SpecRender SpecColor SpecEnc SpecOption
  ParseFacts EncFacts RawFacts EncMain EncExtra OptionFacts PropsParse PropsColor PropsEnc PropsAgain.

(** * C98: each encoding option changes only what it is about *)
(** SortMapKeys makes no difference, to output or error, without maps. *)
Theorem C98_no_maps c s v b d : no_map v -> enc (with_sort s c) v b d = enc c v b d.
Proof.
  destruct c as [h s0 t k i si]. unfold with_sort. cbn [e_html e_trust e_clrs e_ind e_stdindent]. intros H. apply (enc_flags h k i si no_map).
  - intros v' w N P u Q. apply N. eapply part_trans; eassumption.
  - intros r _ b' d'. apply encode_raw_sort.
  - intros v' N. right. exact (N v' (pt_self v')).
  - exact H.
Qed.
(** With maps it only chooses the order: what is written with SortMapKeys is
    what would be written without it for some order of the entries. *)
Theorem C98_sorted c v b d o d' : shaped (e_trust c) false v -> enc (with_sort true c) v b d = ER o d' None ->
  exists v', rearranged v v' /\ enc (with_sort false c) v' b d = ER o d' None.
Proof.
  destruct c as [h s0 t k i si]. unfold with_sort. cbn [e_html e_trust e_clrs e_ind e_stdindent]. intros SH E. destruct (sort_ok h t k i si v false SH) as (v' & R & O & _). exists v'. split; [exact R|]. now apply O.
Qed.
(** TrustRawMessage makes no difference if every raw message is a JSON value. *)
Theorem C98_trust c t v b d : raws_whole v -> enc (with_trust t c) v b d = enc c v b d.
Proof.
  destruct c as [h s t0 k i si]. unfold with_trust. cbn [e_html e_sort e_clrs e_ind e_stdindent]. intros H. apply (enc_flags h k i si raws_whole).
  - intros v' w N P u Q. apply N. eapply part_trans; eassumption.
  - intros r N b' d'. apply encode_raw_trust. intros x ->. apply N, pt_self.
  - auto.
  - exact H.
Qed.

(** Non-vacuity: nested values with a nil map, with maps, with raw messages. *)
Definition op_flat : gval := GStruct [(FH (bs "m") false true, GMap None); (FH (bs "r") false false, GRaw (Some (bs "[1 ,2]")))].
Definition op_maps : gval := GSlice (Some [GMapSI (Some [(bs "b", GMap (Some [(KInt 2, GBool true); (KInt 10, GNil)])); (bs "a", GNil)])]).
Definition op_maps' : gval := GSlice (Some [GMapSI (Some [(bs "a", GNil); (bs "b", GMap (Some [(KInt 10, GNil); (KInt 2, GBool true)]))])]).
Definition op_cfg : cfg := Cfg true true false (Some default_colors) (Some (new_indenter [] [9])) (fun _ _ _ => None).
Example C98_holds : no_map op_flat /\ raws_whole op_flat /\ shaped false false op_maps /\ rearranged op_maps op_maps' /\
  (exists o, enc op_cfg op_flat [] 0 = ER o 0 None) /\
  exists o, enc (with_sort true op_cfg) op_maps [] 0 = ER o 0 None /\ enc (with_sort false op_cfg) op_maps' [] 0 = ER o 0 None /\
            enc (with_sort false op_cfg) op_maps [] 0 <> ER o 0 None.
Proof.
  assert (P : forall w, part w op_flat -> w = op_flat \/ w = GMap None \/ w = GRaw (Some (bs "[1 ,2]"))).
  { intros w H. inversion H as [| | | | | |? ? ? ? I Q| | | | |]; subst; [auto|]. destruct I as [I|[I|[]]]; injection I as <- <-; inversion Q; auto. }
  split; [intros w H; destruct (P w H) as [->|[->| ->]]; exact I|].
  split.
  { intros s H. destruct (P _ H) as [E|[E|E]]; try discriminate. injection E as ->. split; [apply is_wf; reflexivity|].
    destruct (parseValue_sound (bs "[1 ,2]") (bs "[1 ,2]") []) as [_ J]; [apply is_wf; reflexivity|vm_compute; reflexivity|exact J]. }
  split; [cbn; tauto|]. split.
  { apply ra_slice. constructor; [|constructor]. eapply ra_mapsi; [apply perm_swap|]. constructor; [split; [reflexivity|constructor]|]. constructor; [|constructor]. split; [reflexivity|].
    eapply ra_map; [apply perm_swap|]. constructor; [split; [reflexivity|constructor]|]. constructor; [|constructor]. split; [reflexivity|constructor]. }
  split; [eexists; vm_compute; reflexivity|]. eexists. split; [vm_compute; reflexivity|]. split; [vm_compute; reflexivity|vm_compute; discriminate].
Qed.
(** Sorting is not without effect on errors: a map of raw messages with a bad one
    is refused with SortMapKeys and cut short without it. *)
Theorem C98_errors_refuted : ~ forall v v' b d e, rearranged v v' ->
  (exists o d', enc (with_sort true op_cfg) v b d = ER o d' (Some e)) -> exists o d', enc (with_sort false op_cfg) v' b d = ER o d' (Some e).
Proof.
  intros H. destruct (H (GMapSR (Some [(bs "a", Some (bs "x"))])) (GMapSR (Some [(bs "a", Some (bs "x"))])) [] 0 EUnsupportedValue (ra_refl _)) as (o & d' & E).
  - eexists _, _. vm_compute. reflexivity.
  - vm_compute in E. discriminate E.
Qed.
(** TrustRawMessage does matter for other texts. *)
Theorem C98_trust_matters : exists s, wf s /\ enc (with_trust true op_cfg) (GRaw (Some s)) [] 0 <> enc (with_trust false op_cfg) (GRaw (Some s)) [] 0.
Proof. exists (bs "tru"). split; [apply is_wf; reflexivity|vm_compute; discriminate]. Qed.
Print Assumptions C98_no_maps.
Print Assumptions C98_sorted.
Print Assumptions C98_trust.
Print Assumptions C98_errors_refuted.
Print Assumptions C98_trust_matters.
