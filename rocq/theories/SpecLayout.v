(** Independent specification: a text taken apart into pieces and the white space
    before each of them.  [spread l s r]: [s] is the pieces [l], each after some
    white space, and then [r]. *)
From Verif Require Import Bytes SpecJson.
Inductive spread : list bytes -> bytes -> bytes -> Prop :=
| sp_end s : spread [] s s
| sp_piece w v l s r : ws w -> spread l s r -> spread (v :: l) (w ++ v ++ s) r.
