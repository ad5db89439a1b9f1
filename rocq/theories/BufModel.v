(** Model of the memory behind a Decoder: the buffers of /repo/json.go:243-331
    with their contents, and Decode with the DontCopy flags. *)
From Verif Require Import Bytes ParseModel IntModel DecModel StreamModel TypeModel AliasModel.

(** The Decoder of StreamModel.v; the buffers it has allocated before, the
    current one (all [cap] bytes of it; [[]]: nil) and len(dec.buffer), where
    dec.remain ends. *)
(** json.go:244-251 *)
Record bdec := BDec { b_dec : decoder; b_old : list bytes; b_buf : bytes; b_len : nat }.
(** json.go:254 NewDecoder *)
Definition b_new (r : reader) : bdec := BDec (new_decoder r) [] [] 0.

(** copy(buf[off:], x) *)
(** json.go:308, 314 and the reads of 318 *)
Definition write_at (off : nat) (x buf : bytes) : bytes := firstn off buf ++ x ++ skipn (off + length x) buf.

(** The second half of the loop of readValue.  Simplification: of dec.buffer the
    reader changes only the bytes it returns (io.Reader allows it to use the rest
    as scratch space). *)
(** json.go:305-329 *)
Definition b_fill (s : bdec) : bdec :=
  let d := b_dec s in
  let len := length (dc_remain d) in
  let cap := if dc_cap d =? 0 then minBufferSize else dc_cap d in
  let buf := if dc_cap d =? 0 then repeat 0 (Z.to_nat minBufferSize) else write_at 0 (dc_remain d) (b_buf s) in
  let grown := cap - Z.of_nat len <? minReadSize in
  let cap := if grown then 2 * cap else cap in
  let old := b_old s ++ (if grown && negb (dc_cap d =? 0) then [buf] else []) in
  let buf := if grown then write_at 0 (firstn len buf) (repeat 0 (Z.to_nat cap)) else buf in
  let '(b, _, _) := read_full (Z.to_nat (cap - Z.of_nat len)) (dc_reader d) in
  BDec (fill d) old (write_at len b buf) (len + length b).

(** readValue: a value comes with the offset in the current buffer where it ends *)
(** json.go:278-331 readValue; [k] is fuel *)
Fixpoint b_read_value (k : nat) (s : bdec) : ((bytes * nat) + err) * bdec :=
  match k with
  | O => (inr EFuel, s)
  | S k' =>
    match try_value (b_dec s) with
    | RValue v d' => (inl (v, b_len s - length (dc_remain (b_dec s)) + length v)%nat, BDec d' (b_old s) (b_buf s) (b_len s))
    | RError e d' => (inr e, BDec d' (b_old s) (b_buf s) (b_len s))
    | RMore => b_read_value k' (b_fill s)
    end
  end.

Section Buf.
Context (V : tenv) (F : dflags) (C : cflags).
(** json.go:262-269 Decode: the error, the target, and the Decoder afterwards *)
Definition b_decode (t : gty) (s : bdec) (cur : amem) : option err * amem * bdec :=
  match b_read_value (length (unread (dc_reader (b_dec s))) + 3) s with
  | (inr e, s') => (Some e, cur, s')
  | (inl (v, stop), s') => let x := a_parse V F C t stop v cur in (d_err x, d_val x, s')
  end.
(** successive calls of Decode: json.go:262-269 *)
Fixpoint b_decodes (l : list (gty * amem)) (s : bdec) : bdec :=
  match l with
  | [] => s
  | (t, cur) :: l' => b_decodes l' (snd (b_decode t s cur))
  end.
End Buf.

(** The buffer that was current when [length (b_old s)] buffers had been dropped *)
(** the memory behind dec.buffer: json.go:246 *)
Definition buffer (i : nat) (s : bdec) : bytes := nth i (b_old s ++ [b_buf s]) [].
