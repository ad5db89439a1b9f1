(** Independent specification for readers of sorted and unsorted maps (C110). *)
From Coq Require Import Permutation.
From Verif Require Import Bytes EncModel SpecJson SpecRender SpecColor DecModel TypeModel SpecOrder.

(** Settings of which the first sorts maps and the second does not; layouts of white space, no colors. *)
Definition sort_or_not (c1 c2 : cfg) : Prop :=
  e_sort c1 = true /\ e_sort c2 = false /\ e_html c1 = e_html c2 /\ e_trust c1 = e_trust c2 /\ e_clrs c1 = None /\ e_clrs c2 = None /\
  ind_all ws (e_ind c1) /\ ind_all ws (e_ind c2).
(** No two keys of an object select the same field or denote the same map key. *)
Fixpoint keys_apart (V : tenv) (F : dflags) (K : kty -> Prop) (a : jast) : Prop :=
  match a with
  | JArr l => SpecRender.all (map (keys_apart V F K) l)
  | JObj l => ForallOrdPairs (fun m m' => ~ clash V F K (fst m) (fst m')) l /\ SpecRender.all (map (fun m => match m with (_, x) => keys_apart V F K x end) l)
  | _ => True
  end.
