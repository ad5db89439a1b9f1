(** Specification of C89: memory as Go programs have it, and types without raw
    messages. *)
From Verif Require Import Bytes IntModel EncModel DecModel TypeModel ViewModel.

(** No map of a value decoded into an interface holds a key twice. *)
Inductive jv_solid : jv -> Prop :=
| js_leaf v : (match v with JVArr _ | JVMap _ => False | _ => True end) -> jv_solid v
| js_arr l : Forall jv_solid l -> jv_solid (JVArr l)
| js_map m : NoDup (map fst m) -> Forall (fun kv => jv_solid (snd kv)) m -> jv_solid (JVMap m).
(** No map holds a key twice, anywhere in memory (the cells of a backing array
    beyond the length count as well). *)
Inductive solid : mem -> Prop :=
| so_leaf m : (match m with MIface _ | MList _ | MSlice (Some _) | MMap (Some _) | MPtr (Some _) => False | _ => True end) -> solid m
| so_iface v : jv_solid v -> solid (MIface v)
| so_list l : Forall solid l -> solid (MList l)
| so_slice len d : Forall solid d -> solid (MSlice (Some (len, d)))
| so_map m : NoDup (map fst m) -> Forall (fun kv => solid (snd kv)) m -> solid (MMap (Some m))
| so_ptr x : solid x -> solid (MPtr (Some x)).

(** Types without json.RawMessage, whose values with the same meaning can be
    different texts. *)
Fixpoint raw_free (t : gty) : Prop :=
  match t with
  | YRaw | YMapSR => False
  | YArray _ e | YSlice e | YPtr e | YMap _ e => raw_free e
  | _ => True
  end.
(** Omitempty only on fields that are not behind an embedded pointer (for
    others the code's test is unspecified). *)
Definition omit_direct (V : tenv) (W : menv) : Prop :=
  forall i f, In f (v_flds V i) -> o_omit W i f = true -> direct (jf_path f) = true.
Definition raw_free_env (V : tenv) : Prop := forall i f, In f (v_flds V i) -> raw_free (jf_ty f).
