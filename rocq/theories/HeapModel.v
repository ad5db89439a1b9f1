(** Values with references: what the encoders do with values that share parts or
    contain themselves (/repo/encode.go). *)
From Verif Require Import Bytes ParseModel IntModel EncModel DecModel.

(** A value in a heap.  [HRef a] is a pointer, slice or map that is not nil and
    whose content is cell a; [HLeaf] is a value without references, among them
    the nil pointers, slices and maps.  The values p of the encoders of encode.go:24-1055. *)
Inductive hval :=
| HLeaf (v : gval)
| HArray (l : list hval)                       (* encode.go:374-402, and the elements of a slice *)
| HMap (m : list (mkey * hval))                (* encode.go:425-460 *)
| HMapSI (m : list (bytes * hval))             (* encode.go:487-584 *)
| HStruct (fs : list (fhead * hval))           (* encode.go:690-758 *)
| HIface (v : hval)                            (* encode.go:779-785 *)
| HQuoted (v : hval)                           (* encode.go:277-294 *)
| HRef (a : nat).                              (* encode.go:404-412, 414-424, 481-486, 764-777 *)
(** the memory that the encoders of encode.go:404-412, 414-424, 481-486, 764-777 follow pointers into *)
Definition heap := nat -> hval.

(** As [enc] (EncModel.v), case by case; [n] is the room left on the stack for
    calls through references, and [EPanic] stands for running out of it as well:
    the program ends.  encode.go:374-789 *)
Fixpoint enc_ref (n : nat) (h : heap) (c : cfg) : hval -> encf :=
  fix go (v : hval) : encf :=
  match v with
  | HLeaf v => enc c v
  | HArray l => encode_array c (map go l)
  | HMap m =>
      let es := map (fun kv => match kv with (k, x) => (k, go x) end) m in
      let es := if e_sort c then sort_by (fun e => key_text (fst e)) es else es in
      encode_map c true (map (fun e => (encode_mkey c (fst e), snd e)) es)
  | HMapSI m =>
      let es := map (fun kv => match kv with (k, x) => (k, go x) end) m in
      if e_sort c
      then encode_map_break c (map (fun e => (encode_key c (fst e), snd e)) (sort_by fst es))
      else encode_map c false (map (fun e => (encode_key c (fst e), snd e)) es)
  | HStruct fs => encode_struct c (map (fun hv => match hv with (h, x) => (h, go x) end) fs)
  | HIface x => go x
  | HQuoted x => encode_to_string c (go x)
  | HRef a => match n with O => fun _ _ => EPanic | S n' => enc_ref n' h c (h a) end
  end.

(** json.go:160-172 Marshal; [None]: the program ends with a fatal error, which
    for a stack overflow no recover can prevent. *)
Definition marshal_ref (n : nat) (h : heap) (ind : bytes -> bytes -> bytes -> option bytes) (v : hval) : option (bytes * option err) :=
  match enc_ref n h (marshal_cfg ind) v [] 0 with
  | EPanic => None
  | ER b _ None => Some (b, None)
  | ER _ _ (Some e) => Some ([], Some e)
  end.
