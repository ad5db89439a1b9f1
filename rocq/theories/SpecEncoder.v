(** Specification of the Encoder's settings and histories. *)
From Verif Require Import Bytes EncModel SpecEnc EncoderModel.

(** The settings in force after some calls: for each the last call that set it.
    Initially HTML is escaped, map keys are sorted, raw messages are checked,
    and there are neither colors nor indentation. *)
Definition settings (std : bytes -> bytes -> bytes -> option bytes) (ops : list op) : cfg :=
  fold_left (fun c o =>
    match o with
    | OSetColors k => Cfg (e_html c) (e_sort c) (e_trust c) k (e_ind c) (e_stdindent c)
    | OSetIndent p i => Cfg (e_html c) (e_sort c) (e_trust c) (e_clrs c) (Some (new_indenter p i)) (e_stdindent c)
    | OSetEscapeHTML on => Cfg on (e_sort c) (e_trust c) (e_clrs c) (e_ind c) (e_stdindent c)
    | OSetSortMapKeys on => Cfg (e_html c) on (e_trust c) (e_clrs c) (e_ind c) (e_stdindent c)
    | OSetTrustRawMessage on => Cfg (e_html c) (e_sort c) on (e_clrs c) (e_ind c) (e_stdindent c)
    | OEncode _ => c
    end) ops (Cfg true true false None None std).

Fixpoint first_failure (l : list (option err)) : option err :=
  match l with [] => None | Some e :: _ => Some e | None :: l' => first_failure l' end.

Definition shaped_op (o : op) : Prop := match o with OEncode v => shaped true false v /\ shaped false false v | _ => True end.
(** Start with a fresh encoder and a writer that will return [results]. *)
Definition start (results : list (option err)) : world := World results [].
