(** When memory shows a value: as in SpecAddr.v, but parts of the value may share
    memory, and what is behind the length of a slice may be anything. *)
From Verif Require Import Bytes IntModel EncModel DecModel TypeModel AddrModel SpecAddr.

Section Shows.
Context (V : tenv) (L : layout).
Notation size := (l_size L).

(** [shows h t a m D]: the variable of type t at address a has the value m, and
    all the cells that make up the value are at addresses in D. *)
Inductive shows (h : st) (D : Z -> Prop) : gty -> Z -> mem -> Prop :=
| sh_leaf t a m : one_cell t m -> D a -> rd_leaf V t (hp h a) = Some m -> shows h D t a m
| sh_array n e a l : length l = n -> (forall i x, nth_error l i = Some x -> shows h D e (a + Z.of_nat i * size e) x) -> shows h D (YArray n e) a (MList l)
| sh_struct i a l : length l = length (v_decl V i) ->
    (forall k u x, nth_error (v_decl V i) k = Some u -> nth_error l k = Some x -> shows h D u (a + l_off L i k) x) ->
    shows h D (YStruct i) a (MList l)
| sh_nil e a : D a -> rd_ptr (hp h a) = Some None -> shows h D (YPtr e) a (MPtr None)
| sh_ptr e a p x : D a -> rd_ptr (hp h a) = Some (Some p) -> shows h D e p x -> shows h D (YPtr e) a (MPtr (Some x))
| sh_slice_nil e a : D a -> rd_slice (hp h a) = Some (None, O, O) -> shows h D (YSlice e) a (MSlice None)
| sh_slice e a p len cap d : D a -> rd_slice (hp h a) = Some (Some p, len, cap) -> (len <= length d)%nat ->
    (forall i x, (i < len)%nat -> nth_error d i = Some x -> shows h D e (p + Z.of_nat i * size e) x) ->
    shows h D (YSlice e) a (MSlice (Some (len, d)))
| sh_bytes_nil a : D a -> rd_slice (hp h a) = Some (None, O, O) -> shows h D YBytes a (MBytes None)
| sh_bytes a p len cap d : D a -> rd_slice (hp h a) = Some (Some p, len, cap) -> (len <= length d)%nat ->
    (forall i z, (i < len)%nat -> nth_error d i = Some z -> let x := p + Z.of_nat i * size (YInt TUint8) in
       D x /\ rd_leaf V (YInt TUint8) (hp h x) = Some (MInt z)) ->
    shows h D YBytes a (MBytes (Some (len, d)))
| sh_map_nil k e a : D a -> rd_map (hp h a) = Some None -> shows h D (YMap k e) a (MMap None)
| sh_map k e a q l m : D a -> rd_map (hp h a) = Some (Some q) -> D q -> rd_obj (hp h q) = Some l -> map fst l = map fst m ->
    (forall i kx s ky x, nth_error l i = Some (kx, s) -> nth_error m i = Some (ky, x) -> shows h D e s x) ->
    shows h D (YMap k e) a (MMap (Some m))
| sh_map_si a m : shows h D (YMap KYString YIface) a (MMap m) -> shows h D YMapSI a (MMap m)
| sh_map_sr a m : shows h D (YMap KYString YRaw) a (MMap m) -> shows h D YMapSR a (MMap m).
End Shows.
