(** C60-C63: which codec a Go type gets. *)
From Verif Require Import Bytes IntModel TypeModel CodecModel SpecCodec CodecFacts.

(** What holds of the types of every Go program: only structs (or pointers to
    them) are embedded with their fields, and []byte elements are not one of the
    types with a codec of their own. *)
Record go_types (decls : nat -> rtype) : Prop := {
  gt_emb : forall t fs u p, r_kind (decls t) = RStruct fs -> In (FEmb u p) fs -> exists fs', r_kind (decls u) = RStruct fs';
  gt_byte : forall t, r_kind (decls t) = RInt TUint8 -> r_spec (decls t) = None }.

(** Types used in the examples. *)
Definition no_methods := Methods false false false false.
Definition a_type (k : rkind) := RType None k no_methods no_methods.
Definition ct_types (t : nat) : rtype :=
  match t with
  | 0 => RType (Some SString) RString no_methods no_methods                                      (* string *)
  | 1 => RType None (RInt TInt) no_methods (Methods true false true false)                       (* U, methods on *U *)
  | 2 => a_type (RStruct [FOwn 1 false; FOwn 0 true])                                             (* T: struct { F U; S string `,string` } *)
  | 3 => a_type (RPtr 2)                                                                          (* *T *)
  | 4 => a_type (RStruct [FOwn 2 false; FOwn 3 false])                                            (* struct { A T; B *T } *)
  | 5 => RType None (RInt TInt) (Methods false true false false) (Methods true true false false)  (* MarshalText on the value, MarshalJSON on the pointer *)
  | 6 => a_type (RPtr 5)
  | 7 => a_type (RStruct [FEmb 2 true])                                                           (* struct { *T } *)
  | 8 => a_type (RSlice 8)                                                                        (* type S []S *)
  | 9 => a_type (RMap 0 9)                                                                        (* type M map[string]M *)
  | 10 => a_type (RStruct [FOwn 11 false; FEmb 2 false; FOwn 12 false])                           (* type N struct { Next *N; T; M map[string]U } *)
  | 11 => a_type (RPtr 10)
  | 12 => a_type (RMap 0 1)
  | 13 => RType None (RInt TInt) (Methods false true false false) (Methods false true false false) (* key with MarshalText only *)
  | 14 => a_type (RMap 13 0)
  | 15 => RType None (RInt TUint8) no_methods (Methods true false true false)                     (* a byte with methods on the pointer *)
  | 16 => a_type (RSlice 15)
  | 17 => RType None (RInt TInt) no_methods (Methods false false false true)                      (* key with UnmarshalText only *)
  | 18 => a_type (RMap 17 0)
  | 19 => RType None (RInt TUint8) (Methods false false true false) (Methods false false true false) (* a byte with UnmarshalJSON on the value *)
  | 20 => a_type (RSlice 19)
  | 21 => a_type (RPtr 22)
  | 22 => a_type (RStruct [FOwn 21 false; FEmb 2 false; FOwn 16 false])                           (* like N, without a map *)
  | _ => a_type ROther
  end%nat.
Lemma ct_go_types : go_types ct_types.
Proof.
  split.
  - intros t fs u p. do 23 (destruct t as [|t]; [cbn; intros K; try discriminate; injection K as <-; intros I;
      repeat (destruct I as [I|I]; [try discriminate; injection I as <- <-; eexists; reflexivity|]); destruct I|]). discriminate.
  - intros t. do 23 (destruct t as [|t]; [cbn; try discriminate; reflexivity|]). discriminate.
Qed.

(** ** C60 A method MarshalJSON or MarshalText that can be called is called. *)

(** Proved: if every struct type occurs either only with an address or only
    without, no embedded pointer occurs in a struct without an address, and no
    type has MarshalText as a method of the value and MarshalJSON only as a
    method of the pointer.  Missing: the other programs, see below. *)
Theorem C60_methods_partial decls n t0 c seen (addr : nat -> bool) :
  let a0 := match r_kind (decls t0) with RPtr _ => true | _ => false end in
  go_types decls ->
  (forall t, mt (r_own (decls t)) = true -> mj (r_ptr (decls t)) = true -> mj (r_own (decls t)) = true) ->
  (forall t a fs, occurs decls t0 a0 t a -> r_kind (decls t) = RStruct fs -> a = addr t) ->
  (forall t a fs u, occurs decls t0 a0 t a -> r_kind (decls t) = RStruct fs -> In (FEmb u true) fs -> a = true) ->
  construct_root decls n t0 = Some (c, seen) ->
  right decls a0 t0 (c_enc c) /\ listed seen c /\
  forall t l, rlook t seen = Some l -> struct_right decls (addr t) t (map c_enc l) /\ Forall (listed seen) l.
Proof.
  intros a0 [EMB BYTE] PREC UNI VIA H. unfold construct_root in H. change (is_ptr (r_kind (decls t0))) with a0 in H.
  destruct (construct_right decls t0 a0 addr EMB PREC BYTE UNI VIA n) as [G _].
  destruct (G _ _ _ _ _ [] H (oc_root _ _ _)) as [R IV]; [intros t l X; discriminate|].
  destruct (construct_listed decls n) as [L _].
  destruct (L _ _ _ _ _ H) as (_ & LV & LC); [intros t l X; discriminate|].
  split; [exact R|]. split; [exact LC|]. intros t l X. split; [|exact (LV _ _ X)].
  destruct (IV _ _ X) as [[[] _]|S]. exact S.
Qed.
(** In particular: what a pointer points to, if there are no maps. *)
Theorem C60_pointers_partial decls n t0 u0 c seen :
  go_types decls -> r_kind (decls t0) = RPtr u0 ->
  (forall t, mt (r_own (decls t)) = true -> mj (r_ptr (decls t)) = true -> mj (r_own (decls t)) = true) ->
  (forall t k u a, occurs decls t0 true t a -> r_kind (decls t) <> RMap k u) ->
  construct_root decls n t0 = Some (c, seen) ->
  right decls true t0 (c_enc c) /\ listed seen c /\
  forall t l, rlook t seen = Some l -> struct_right decls true t (map c_enc l) /\ Forall (listed seen) l.
Proof.
  intros GT K PREC NM H.
  assert (A : forall t a, occurs decls t0 true t a -> a = true).
  { intros t a O. induction O; auto; exfalso; eapply NM; eauto. }
  pose proof (C60_methods_partial decls n t0 c seen (fun _ => true)) as T. cbv zeta in T. rewrite K in T.
  apply T; auto; intros; eapply A; eauto.
Qed.
Example C60_example :
  exists c seen l, construct_root ct_types 20 21 = Some (c, seen) /\ rlook 2%nat seen = Some l /\
  (forall t k u a, occurs ct_types 21 true t a -> r_kind (ct_types t) <> RMap k u) /\
  map c_enc l = [EMethod true 1 true; EQuoted EString] /\
  option_map (map c_enc) (rlook 22%nat seen) = Some [EPtr (EStruct 22); ESlice (EMethod true 15 true); EMethod true 1 true; EQuoted EString].
Proof.
  eexists _, _, _. split; [vm_compute; reflexivity|]. split; [reflexivity|]. split; [|split; reflexivity].
  assert (A : forall t a, occurs ct_types 21 true t a -> In t [21; 22; 2; 16; 15; 1; 0]%nat).
  { intros t a O. induction O as [|? ? ? ? O IH ? K|? ? ? O IH ? K|? ? ? ? O IH ? K|? ? ? ? O IH ? K|? ? ? O IH ? K|? ? ? ? ? O IH K I|? ? ? ? O IH K I|? ? ? ? O IH K I]; [now left|..];
      cbn [In] in IH; repeat (destruct IH as [<-|IH]; [cbn in K; try discriminate; injection K as <-;
        try (repeat (destruct I as [I|I]; [try discriminate; injection I as <- <- || injection I as <-; cbn; tauto|]); destruct I); cbn; tauto|]); destruct IH. }
  intros t k u a O K. specialize (A t a O). cbn [In] in A.
  repeat (destruct A as [<-|A]; [cbn in K; discriminate|]). destruct A.
Qed.
(** The codec of a struct type is computed once, for the place where the type is
    met first: in struct { A T; B *T } the fields of T are encoded without the
    methods of the pointer, also behind the pointer B. *)
Theorem C60_first_place_refuted : exists decls t0 t c seen l,
  go_types decls /\ occurs decls t0 false t true /\ construct_root decls 10 t0 = Some (c, seen) /\
  rlook t seen = Some l /\ ~ struct_right decls true t (map c_enc l) /\ struct_right decls false t (map c_enc l).
Proof.
  exists ct_types, 4%nat, 2%nat. eexists _, _, _. split; [exact ct_go_types|].
  split. { eapply (oc_ptr ct_types 4 false 3); try reflexivity. eapply (oc_field ct_types 4 false 4 false); [constructor|reflexivity|cbn; auto]. }
  split; [vm_compute; reflexivity|]. split; [reflexivity|]. cbn [map c_enc]. split.
  - intros (fs & own & em & K & E & F & _). cbn in K. injection K as <-. cbn [own_fields] in F.
    inversion F as [|f e fl ol (e0 & R & FE) F2]; subst. injection E as <- _. cbn [fst snd] in *.
    destruct FE as [[X _]|[_ <-]]; [discriminate|].
    inversion R as [? ? ? ? SP|? ? ? PL J| |? ? ? PL NJ]; subst; try discriminate. apply NJ. now right.
  - exists [FOwn 1 false; FOwn 0 true], [EInt TInt; EQuoted EString], []. split; [reflexivity|]. split; [reflexivity|]. split; [|constructor].
    constructor; [|constructor; [|constructor]].
    + exists (EInt TInt). split; [|right; split; [intros [X _]; discriminate|reflexivity]].
      apply ri_kind; [reflexivity|intros [X|[X _]]; discriminate|intros [X|[X _]]; discriminate|constructor].
    + exists EString. split; [apply ri_own with SString; [reflexivity|constructor]|]. left. repeat split.
Qed.
(** MarshalText on the value hides MarshalJSON on the pointer. *)
Theorem C60_precedence_refuted : exists decls t0 u c seen,
  go_types decls /\ r_kind (decls t0) = RPtr u /\ json_usable decls true u /\
  construct_root decls 10 t0 = Some (c, seen) /\ c_enc c = EPtr (EMethod false u false) /\ ~ right decls true u (EMethod false u false).
Proof.
  exists ct_types, 6%nat, 5%nat. eexists _, _. split; [exact ct_go_types|]. split; [reflexivity|]. split; [now right|].
  split; [vm_compute; reflexivity|]. split; [reflexivity|].
  intros R. inversion R as [? ? ? ? SP|? ? ? PL J|? ? ? PL NJ|? ? ? PL NJ NT BK]; subst; try discriminate; [|inversion BK]. apply NJ. now right.
Qed.
(** What an embedded pointer points to is treated as if it had no address. *)
Theorem C60_embedded_pointer_refuted : exists decls t0 c seen l,
  go_types decls /\ construct_root decls 10 t0 = Some (c, seen) /\ rlook t0 seen = Some l /\ ~ struct_right decls false t0 (map c_enc l).
Proof.
  exists ct_types, 7%nat. eexists _, _, _. split; [exact ct_go_types|]. split; [vm_compute; reflexivity|]. split; [reflexivity|].
  cbn [map c_enc]. intros (fs & own & em & K & E & F & G). cbn in K. injection K as <-. cbn [own_fields] in F. inversion F; subst. cbn [app] in E. subst em.
  inversion G as [|e l FR _]; subst. inversion FR as [? ? ? ? ? ? ? K I R FE|? ? ? ? ? K I|? ? ? u ? K I R]; subst; cbn in K; injection K as <-.
  - destruct I as [I|[]]. discriminate.
  - destruct I as [I|[]]. discriminate.
  - inversion R as [? ? ? u' ? ? ? K I' R' FE|? ? ? ? ? K I'|? ? ? ? ? K I']; subst; cbn in K; injection K as <-.
    + destruct I' as [I'|[I'|[]]]; injection I' as <- <-.
      * destruct FE as [[X _]|[_ <-]]; [discriminate|].
        inversion R' as [? ? ? ? SP|? ? ? PL J| |? ? ? PL NJ]; subst; try discriminate. apply NJ. now right.
      * destruct FE as [(_ & _ & X)|(X & _)]; [discriminate|]. apply X. repeat split.
    + destruct I' as [I'|[I'|[]]]; discriminate.
Qed.

(** ** C61 Every type has a codec: its construction ends. *)

(** Proved: if every type that contains itself does so through a struct ([rank]:
    the steps through arrays, slices, maps and pointers lead down), whatever has
    been constructed before. *)
Theorem C61_ends_partial decls (structs : list nat) (rank : nat -> nat) t s a :
  (forall t fs, r_kind (decls t) = RStruct fs -> In t structs) ->
  (forall t u, inner decls t u -> (rank u < rank t)%nat) ->
  exists n c s', forall m, (n <= m)%nat -> construct decls m t s a = Some (c, s').
Proof.
  intros ALL DOWN. destruct (total decls structs ALL rank DOWN (missing structs s) s (le_n _)) as [_ H].
  destruct (H a t) as (n & c & s' & E & _). exists n, c, s'. intros m M. eapply construct_more; eauto.
Qed.
Definition cr_types (t : nat) : rtype := if (t =? 8)%nat || (t =? 9)%nat then a_type ROther else ct_types t.
Example C61_example :
  (forall t fs, r_kind (cr_types t) = RStruct fs -> In t [2; 4; 7; 10; 22]%nat) /\
  (forall t u, inner cr_types t u -> ((match u with 3 | 6 | 11 | 12 | 14 | 16 | 18 | 20 | 21 => 1 | _ => 0 end) < (match t with 3 | 6 | 11 | 12 | 14 | 16 | 18 | 20 | 21 => 1 | _ => 0 end))%nat) /\
  inner cr_types 11 10.
Proof.
  split; [|split].
  - intros t fs. do 23 (destruct t as [|t]; [cbn; intros K; try discriminate; tauto|]). discriminate.
  - intros t u IN. inversion IN as [t1 k u1 SP K|t1 u1 SP K BK|t1 k u1 SP K CM|t1 u1 SP K]; subst; clear IN;
      do 23 (destruct t as [|t]; [cbn in K; try discriminate; first [injection K as <- <- | injection K as <-]; cbn; lia|]); discriminate.
  - apply in_ptr; reflexivity.
Qed.
(** Refuted for the others: no type on an endless chain of arrays, slices, maps
    and pointers ever gets a codec... *)
Theorem C61_endless decls (P : nat -> Prop) : (forall t, P t -> exists u, inner decls t u /\ P u) ->
  forall t, P t -> forall n s a, construct decls n t s a = None.
Proof. intros C t H n s a. now apply (diverges decls P C). Qed.
(** ... for instance the Go types  type S []S  and  type M map[string]M. *)
Theorem C61_recursive_refuted : exists decls, go_types decls /\
  (exists s, r_kind (decls s) = RSlice s /\ forall n, construct_root decls n s = None) /\
  (exists m k, r_kind (decls m) = RMap k m /\ r_spec (decls k) = Some SString /\ forall n, construct_root decls n m = None).
Proof.
  exists ct_types. split; [exact ct_go_types|]. split.
  - exists 8%nat. split; [reflexivity|]. intros n. apply (C61_endless ct_types (eq 8%nat)); [|reflexivity].
    intros t <-. exists 8%nat. split; [|reflexivity]. apply in_slice; [reflexivity|reflexivity|discriminate].
  - exists 9%nat, 0%nat. split; [reflexivity|]. split; [reflexivity|]. intros n. apply (C61_endless ct_types (eq 9%nat)); [|reflexivity].
    intros t <-. exists 9%nat. split; [|reflexivity]. eapply in_map; [reflexivity|reflexivity|]. intros [_ [X|X]]; discriminate.
Qed.

(** ** C62 The decoder of a type, by its methods and its kind.  It does not
    depend on the place where the type occurs. *)

(** Proved for types without UnmarshalJSON or UnmarshalText as methods of the
    value on types of kind uint8. *)
Theorem C62_decoders_partial decls n t s a c s' g :
  go_types decls -> (forall t, r_kind (decls t) = RInt TUint8 -> uj (r_own (decls t)) = false /\ ut (r_own (decls t)) = false) ->
  construct decls n t s a = Some (c, s') -> means decls t g -> gty_of (c_dec c) = Some g.
Proof.
  intros [EMB BYTE] VAL H M. eapply construct_means; eauto. intros u.
  destruct (byte_kind_dec (r_kind (decls u))) as [K|K]; [left; auto|now right].
Qed.
(** The fields of structs. *)
Theorem C62_fields_partial decls n t0 c seen t l :
  go_types decls -> (forall t, r_kind (decls t) = RInt TUint8 -> uj (r_own (decls t)) = false /\ ut (r_own (decls t)) = false) ->
  construct_root decls n t0 = Some (c, seen) -> rlook t seen = Some l ->
  exists fs own em, r_kind (decls t) = RStruct fs /\ map c_dec l = own ++ em /\
    Forall2 (fun f d => exists d0, (forall g, means decls (fst f) g -> gty_of d0 = Some g) /\ field_dec decls (fst f) (snd f) d0 d) (own_fields fs) own.
Proof.
  intros [EMB BYTE] VAL H L. unfold construct_root in H.
  destruct (construct_dinv decls BYTE) with (n := n) as [G _].
  { intros u. destruct (byte_kind_dec (r_kind (decls u))) as [K|K]; [left; auto|now right]. }
  destruct (G _ _ _ _ _ [] H) with (t := t) (l := l) as [[]|(fs & own & em & K & -> & F)]; auto.
  - intros x y X. discriminate.
  - exists fs, (map c_dec own), (map c_dec em). rewrite map_app. auto.
Qed.
Example C62_example :
  means ct_types 11 (YPtr (YStruct 10)) /\ means ct_types 12 (YMap KYString (YJSON 1)) /\ means ct_types 16 (YSlice (YJSON 15)) /\
  exists c seen, construct_root ct_types 20 11 = Some (c, seen) /\ gty_of (c_dec c) = Some (YPtr (YStruct 10)) /\
  option_map (map c_dec) (rlook 10%nat seen) = Some [DPtr (DStruct 10); DMap DString (DMethod true 1 true); DMethod true 1 true; DQuoted false DString].
Proof.
  split; [|split; [|split]].
  - apply mn_kind; try reflexivity. apply km_ptr. apply mn_kind; try reflexivity. apply km_struct.
  - apply mn_kind; try reflexivity. apply km_map; [intros [_ [X|X]]; discriminate|apply ke_string; reflexivity|apply mn_json; reflexivity].
  - apply mn_kind; try reflexivity. apply km_slice; [right; now left|apply mn_json; reflexivity].
  - eexists _, _. split; [vm_compute; reflexivity|]. split; reflexivity.
Qed.

(** ** C63 Only methods that exist are called. *)

(** Proved: if the key types of maps have both MarshalText and UnmarshalText or
    neither, and types of kind uint8 have no UnmarshalJSON or UnmarshalText as
    methods of the value. *)
Theorem C63_calls_partial decls n t0 c seen :
  (forall t k u, r_kind (decls t) = RMap k u -> mt (r_own (decls k)) = true \/ ut (r_ptr (decls k)) = true ->
                 mt (r_own (decls k)) = true /\ ut (r_ptr (decls k)) = true) ->
  (forall t, r_kind (decls t) = RInt TUint8 -> uj (r_own (decls t)) = false /\ ut (r_own (decls t)) = false) ->
  construct_root decls n t0 = Some (c, seen) ->
  enc_calls_ok decls (c_enc c) /\ dec_calls_ok decls (c_dec c) /\
  forall t l, rlook t seen = Some l -> Forall (fun c => enc_calls_ok decls (c_enc c) /\ dec_calls_ok decls (c_dec c)) l.
Proof.
  intros KEY VAL H. unfold construct_root in H. destruct (construct_calls decls KEY VAL n) as [G _].
  destruct (G _ _ _ _ _ H) as [[A B] C]; [intros t l X; discriminate|]. auto.
Qed.
Example C63_example : exists decls c seen,
  (forall t k u, r_kind (decls t) = RMap k u -> mt (r_own (decls k)) = true \/ ut (r_ptr (decls k)) = true ->
                 mt (r_own (decls k)) = true /\ ut (r_ptr (decls k)) = true) /\
  (forall t, r_kind (decls t) = RInt TUint8 -> uj (r_own (decls t)) = false /\ ut (r_own (decls t)) = false) /\
  construct_root decls 10 0 = Some (c, seen) /\ c = Codec (EMap (EMethod false 1 false) (EPtr (EMethod true 3 true))) (DMap (DMethod false 1 true) (DPtr (DMethod true 3 true))).
Proof.
  exists (fun t => match t with
           | 0 => a_type (RMap 1 2)
           | 1 => RType None RString (Methods false true false false) (Methods false true false true)
           | 2 => a_type (RPtr 3)
           | _ => RType None (RInt TUint8) no_methods (Methods true false true false)
           end%nat). eexists _, _.
  split; [|split; [|split; [vm_compute; reflexivity|reflexivity]]].
  - intros t k u. destruct t as [|[|[|t]]]; cbn; try discriminate. intros K _. injection K as <- <-. auto.
  - intros t. destruct t as [|[|[|t]]]; cbn; try discriminate. auto.
Qed.
(** A key type with MarshalText only: the decoder calls UnmarshalText, which it
    does not have (a nil interface in decode.go:1161-1162, so a panic).  A key
    type with UnmarshalText only: the encoder calls MarshalText. *)
Theorem C63_keys_refuted : exists decls t1 t2 c1 c2 s1 s2, go_types decls /\
  construct_root decls 10 t1 = Some (c1, s1) /\ enc_calls_ok decls (c_enc c1) /\ ~ dec_calls_ok decls (c_dec c1) /\
  construct_root decls 10 t2 = Some (c2, s2) /\ ~ enc_calls_ok decls (c_enc c2) /\ dec_calls_ok decls (c_dec c2).
Proof.
  exists ct_types, 14%nat, 18%nat. eexists _, _, _, _. split; [exact ct_go_types|].
  split; [vm_compute; reflexivity|]. split; [cbn; auto|]. split; [cbn; intros [[_ X] _]; discriminate|].
  split; [vm_compute; reflexivity|]. split; [cbn; intros [X _]; discriminate|cbn; auto].
Qed.
(** A slice of a type of kind uint8 with UnmarshalJSON as a method of the value:
    the decoder does not go through the pointer (t.Elem() panics, decode.go:1124). *)
Theorem C63_byte_methods_refuted : exists decls t c s, go_types decls /\
  construct_root decls 10 t = Some (c, s) /\ ~ dec_calls_ok decls (c_dec c).
Proof.
  exists ct_types, 20%nat. eexists _, _. split; [exact ct_go_types|]. split; [vm_compute; reflexivity|]. cbn. intros [X _]. discriminate.
Qed.

Print Assumptions C60_methods_partial.
Print Assumptions C60_pointers_partial.
Print Assumptions C60_first_place_refuted.
Print Assumptions C60_precedence_refuted.
Print Assumptions C60_embedded_pointer_refuted.
Print Assumptions C61_ends_partial.
Print Assumptions C61_endless.
Print Assumptions C61_recursive_refuted.
Print Assumptions C62_decoders_partial.
Print Assumptions C62_fields_partial.
Print Assumptions C63_calls_partial.
Print Assumptions C63_keys_refuted.
Print Assumptions C63_byte_methods_refuted.
