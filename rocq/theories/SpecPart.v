(** Independent specification for parts decoded as if alone (C100). *)
From Verif Require Import Bytes EncModel DecModel TypeModel SpecMerge.

(** The array with these elements. *)
Definition bracketed (es : list bytes) : bytes := 91 :: commas es ++ [93].
(** The first n cells of a backing array, with new ones as needed. *)
Definition cells (V : tenv) (e : gty) (n : nat) (l : list mem) : list mem := map (fun i => nth i l (zero V e)) (seq 0 n).
(** Unmarshal on the text alone, into that cell. *)
Definition alone (V : tenv) (F : dflags) (e : gty) (sx : bytes * mem) (y : mem) : Prop := unmarshal V F e (fst sx) (snd sx) = (None, y).
