(** Model of /repo/encode.go and the encoding side of /repo/codec.go with
    addresses: the encoders read the flat memory of AddrModel.v through pointers,
    offsets and sizes, as the code does with unsafe.Pointer.  ViewModel.v is the
    same on values without addresses; PropsRead.v relates the two.
    Simplifications: as in AddrModel.v; what is read is collected first and given
    to the encoders of EncModel.v then, so the model goes on reading where the
    code has returned an error; the test for omitempty is made for all fields. *)
From Verif Require Import Bytes IntModel StringModel EncModel DecModel TypeModel ViewModel AddrModel.

(** What reading gives: a value; a cell of another kind than the type says, or
    a nil pointer that is followed; more structs inside each other than the fuel. *)
(** no code: results of the model *)
Inductive mres (A : Type) := MOk (x : A) | MWild | MDeep.
Arguments MOk {A} x. Arguments MWild {A}. Arguments MDeep {A}.
(** helpers: errors end the loops of encode.go:374-460, 704-747 *)
Definition mbind {A B} (r : mres A) (f : A -> mres B) : mres B :=
  match r with MOk x => f x | MWild => MWild | MDeep => MDeep end.
(** the same *)
Definition mmap {A B} (f : A -> B) (r : mres A) : mres B := mbind r (fun x => MOk (f x)).
(** the same *)
Definition of_opt {A} (o : option A) : mres A := match o with Some x => MOk x | None => MWild end.
(** the same *)
Fixpoint mall {A} (l : list (mres A)) : mres (list A) :=
  match l with
  | [] => MOk []
  | x :: l' => mbind x (fun x => mmap (cons x) (mall l'))
  end.

Section Read.
(** [xv i f h a]: the result of the test for omitempty of a field behind an embedded pointer, for the struct at a:
    codec.go:621-626 apply the field's test to the memory of the pointer (as o_via of ViewModel.v; C56) *)
Context (V : tenv) (W : menv) (L : layout) (xv : nat -> jfield -> st -> Z -> bool) (h : st).

(** encode.go:374-402 encodeArray: the elements at p, p + sz, ... *)
Definition r_elems {A} (get : Z -> mres A) (sz p : Z) (n : nat) : mres (list A) :=
  mall (map (fun i => get (p + Z.of_nat i * sz)) (seq 0 n)).
(** encode.go:404-412 encodeSlice, 296-328 encodeBytes: nil, or the elements *)
Definition r_slice {A} (get : Z -> mres A) (sz a : Z) : mres (option (list A)) :=
  mbind (of_opt (rd_slice (hp h a)))
    (fun s => match s with
              | (None, O, O) => MOk None
              | (None, O, _) => MOk (Some [])
              | (None, _, _) => MWild
              | (Some p, len, _) => mmap Some (r_elems get sz p len)
              end).
(** encode.go:414-460 encodeMap, 481-688: nil, or the keys with their values *)
Definition r_map {K A} (key : mkey -> option K) (get : Z -> mres A) (a : Z) : mres (option (list (K * A))) :=
  mbind (of_opt (rd_map (hp h a)))
    (fun q => match q with
              | None => MOk None
              | Some q => mbind (of_opt (rd_obj (hp h q)))
                  (fun l => mmap Some (mall (map (fun ks => mbind (of_opt (key (fst ks))) (fun k => mmap (pair k) (get (snd ks)))) l)))
              end).
(** reads such as *( *int)(p) at encode.go:22-372 *)
Definition r_cell (t : gty) (a : Z) : mres mem := of_opt (rd_leaf V t (hp h a)).

(** codec.go:861-918 emptyFuncOf *)
Definition r_empty (t : gty) (a : Z) : option bool :=
  match t with
  | YBytes | YSlice _ => option_map (fun s => Nat.eqb (snd (fst s)) 0) (rd_slice (hp h a))
  | YArray n _ => Some (Nat.eqb n 0)
  | YMap _ _ | YMapSI | YMapSR =>
      match rd_map (hp h a) with
      | Some None => Some true
      | Some (Some q) => option_map (fun l => Nat.eqb (length l) 0) (rd_obj (hp h q))
      | None => None
      end
  | YPtr _ => option_map (fun p => match p with None => true | Some _ => false end) (rd_ptr (hp h a))
  | YStruct _ => Some false
  | _ => option_map (is_empty W t) (rd_leaf V t (hp h a))
  end.

(** encode.go:764-770 encodeEmbeddedStructPointer *)
Definition r_emb (off : Z) (get : Z -> mres gval) (a : Z) : mres gval :=
  mbind (of_opt (rd_ptr (hp h a)))
    (fun p => match p with
              | None => MOk (GEmbPtr None)
              | Some v => mmap (fun g => GEmbPtr (Some g)) (get (v + off))
              end).
(** The offset and the encoder of a JSON field of struct type i: codec.go:571-580,
    598-609, 621-626 *)
Fixpoint r_field (p : list pstep) (i : nat) (get : Z -> mres gval) : Z * (Z -> mres gval) :=
  match p with
  | [] => (0, get)
  | PIn k :: p' =>
      let j := match nth_error (v_decl V i) k with Some (YStruct j) => j | _ => O end in
      let '(o, g) := r_field p' j get in (l_off L i k + o, g)
  | PVia k s _ :: p' =>
      let '(o, g) := r_field p' s get in (l_off L i k, r_emb o g)
  end.

(** The encoder of a type at an address; [n] bounds the nesting of structs. *)
(** encode.go:22-789 through codec.go:79-440 *)
Fixpoint m_view (n : nat) : gty -> Z -> mres gval :=
  fix go (t : gty) (a : Z) {struct t} : mres gval :=
  match t with
  | YBytes =>
      mmap GBytes (r_slice (fun x => mbind (r_cell (YInt TUint8) x) (fun m => match m with MInt z => MOk z | _ => MWild end)) (stride L (YInt TUint8)) a)
  | YArray k e => mmap GArray (r_elems (go e) (stride L e) a k)
  | YSlice e => mmap GSlice (r_slice (go e) (stride L e) a)
  | YMap k e => mmap GMap (r_map (view_key W k) (go e) a)
  | YMapSI =>
      mmap GMapSI (r_map (fun k => match k with MKStr s => Some s | _ => None end)
        (fun x => mbind (r_cell YIface x) (fun m => match m with MIface v => MOk (tree v) | _ => MWild end)) a)
  | YMapSR =>
      mmap GMapSR (r_map (fun k => match k with MKStr s => Some s | _ => None end)
        (fun x => mbind (r_cell YRaw x) (fun m => match m with MRaw r => MOk r | _ => MWild end)) a)
  | YPtr e =>
      (* encode.go:772-777 encodePointer *)
      mbind (of_opt (rd_ptr (hp h a)))
        (fun p => match p with None => MOk (GPtr None) | Some v => mmap (fun g => GPtr (Some g)) (go e v) end)
  | YStruct i =>
      (* encode.go:690-758 encodeStruct *)
      match n with
      | O => MDeep
      | S n' =>
          mmap GStruct (mall (map (fun f =>
            let '(o, g) := r_field (jf_path f) i (fun a => mmap (view_quot (jf_quot f)) (m_view n' (jf_ty f) a)) in
            mbind (if direct (jf_path f) then of_opt (r_empty (jf_ty f) (a + o)) else MOk (xv i f h a))
              (fun e => mmap (pair (FH (jf_name f) (o_omit W i f) e)) (g (a + o)))) (v_flds V i)))
      end
  | _ => mbind (r_cell t a) (fun m => of_opt (view V W 0 t m))
  end.

(** json.go:160-172 Marshal of the value at a; None: the program panics, or runs
    for more than [n] structs inside each other *)
Definition m_marshal (ind : bytes -> bytes -> bytes -> option bytes) (n : nat) (t : gty) (a : Z) : option (bytes * option err) :=
  match m_view n t a with MOk g => marshal ind g | _ => None end.
End Read.
