(** Specification of round trips: Go value trees that interface{} decoding can
    return, and the contract of strconv.ParseFloat that is needed. *)
From Coq Require Import QArith.
From Verif Require Import Bytes SpecJson SpecString SpecNum SpecRender EncModel DecModel.
Local Open Scope Z_scope.

(** A finite float whose shortest decimal form is known. *)
Definition finite (f : fl) : Prop :=
  match f with FNaN | FInf _ => False | FZero _ => True | FFin _ ds _ => float_form ds end.

(** [parses pf f]: ParseFloat returns [f] for every literal that denotes the
    shortest decimal of [f] (for zero the sign is that of the literal). *)
Definition parses (pf : bytes -> option fl) (f : fl) : Prop :=
  match f with
  | FNaN | FInf _ => False
  | FZero neg => forall s q, num_val s q -> (q == 0)%Q -> (hd 0 s = 45 <-> neg = true) -> pf s = Some f
  | FFin neg ds dp => forall s q, num_val s q ->
      (q == q10 ((if neg then -1 else 1) * dval ds) (dp - Z.of_nat (length ds)))%Q -> pf s = Some f
  end.

(** An element of a []interface{} holding the dynamic value [x]. *)
Definition iface_of (x : gval) : gval := match x with GNil => GIface None | _ => GIface (Some x) end.

(** [go_tree_of un g v]: the Go value [g] (as given to the encoder) is the value
    [v]: nil, a boolean, a number, a UTF-8 string, a []interface{} or a
    map[string]interface{} of such values.  A number is a finite float64, or with
    UseNumber ([un]) a Number that holds a JSON number. *)
Inductive go_tree_of : bool -> gval -> jv -> Prop :=
| gt_nil un : go_tree_of un GNil JVNull
| gt_bool un b : go_tree_of un (GBool b) (JVBool b)
| gt_float f : finite f -> go_tree_of false (GFloat f) (JVFloat f)
| gt_number n : number_lit n -> go_tree_of true (GNumber n) (JVNumber n)
| gt_string un s : valid_utf8 s -> go_tree_of un (GString s) (JVString s)
| gt_slice un xs vs : Forall2 (go_tree_of un) xs vs -> go_tree_of un (GSlice (Some (map iface_of xs))) (JVArr vs)
| gt_map un m m' : NoDup (map fst m) ->
    Forall2 (fun e e' => fst e = fst e' /\ valid_utf8 (fst e) /\ go_tree_of un (snd e) (snd e')) m m' ->
    go_tree_of un (GMapSI (Some m)) (JVMap m').
Arguments gt_nil {un}.
Arguments gt_bool {un}.
Arguments gt_string {un}.
Arguments gt_slice {un}.
Arguments gt_map {un}.
Notation go_tree := (go_tree_of false).

Inductive float_in (f : fl) : jv -> Prop :=
| fi_float : float_in f (JVFloat f)
| fi_arr l v : In v l -> float_in f v -> float_in f (JVArr l)
| fi_map m k v : In (k, v) m -> float_in f v -> float_in f (JVMap m).
