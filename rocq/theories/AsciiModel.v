(** Model of /repo/ascii.go.  Words are loaded little-endian (the code reads
    them through unsafe pointers; amd64/arm64 byte order).  Arithmetic wraps at
    the word size exactly as uint64/uint32 arithmetic does. *)
From Verif Require Import Bytes.

(** Little-endian load of a run of bytes (the unsafe uint64/uint32/uint16 loads of ascii.go:17,25,35,62,70,80,82). *)
Fixpoint load (l : bytes) : Z :=
  match l with [] => 0 | b :: l' => b + 256 * load l' end.

(** ascii.go:92-104: ^uint64(0)/255 and that times 128. *)
Definition L64 : Z := (2 ^ 64 - 1) / 255.
(** ascii.go:92-104 *)
Definition R64 : Z := L64 * 128.
(** ascii.go:92-104 *)
Definition L32 : Z := (2 ^ 32 - 1) / 255.
(** ascii.go:92-104 *)
Definition R32 : Z := L32 * 128.
(** ^x on uint64, as in ascii.go:107-124 *)
Definition not64 (x : Z) : Z := 2 ^ 64 - 1 - x.
(** ^x on uint32, as in ascii.go:107-124 *)
Definition not32 (x : Z) : Z := 2 ^ 32 - 1 - x.

(** ascii.go:107-109 *)
Definition hasLess64 (x n : Z) : bool :=
  negb (Z.land (Z.land (wrap64 (x - wrap64 (L64 * n))) (not64 x)) R64 =? 0).
(** ascii.go:112-114 *)
Definition hasLess32 (x n : Z) : bool :=
  negb (Z.land (Z.land (wrap32 (x - wrap32 (L32 * n))) (not32 x)) R32 =? 0).
(** ascii.go:117-119 *)
Definition hasMore64 (x n : Z) : bool :=
  negb (Z.land (Z.lor (wrap64 (x + wrap64 (L64 * wrap64 (127 - n)))) x) R64 =? 0).
(** ascii.go:122-124 *)
Definition hasMore32 (x n : Z) : bool :=
  negb (Z.land (Z.lor (wrap32 (x + wrap32 (L32 * wrap32 (127 - n)))) x) R32 =? 0).

(** ascii.go:32-43, the 3/2/1/0-byte tail of asciiValid. *)
Definition ascii_valid_tail (b : bytes) : bool :=
  match b with
  | [b0; b1; b2] => Z.land (Z.lor b0 (Z.shiftl (load [b1; b2]) 8)) 0x80808080 =? 0
  | [b0; b1] => Z.land (load [b0; b1]) 0x80808080 =? 0
  | [b0] => Z.land b0 0x80808080 =? 0
  | _ => true
  end.

(** ascii.go:24-30, the 4-byte step of asciiValid. *)
Definition ascii_valid4 (b : bytes) : bool :=
  match b with
  | b0 :: b1 :: b2 :: b3 :: rest =>
      if negb (Z.land (load [b0; b1; b2; b3]) 0x80808080 =? 0) then false
      else ascii_valid_tail rest
  | _ => ascii_valid_tail b
  end.

(** ascii.go:10-44 asciiValid *)
Fixpoint ascii_valid (b : bytes) : bool :=
  match b with
  | b0 :: b1 :: b2 :: b3 :: b4 :: b5 :: b6 :: b7 :: rest =>
      if negb (Z.land (load [b0; b1; b2; b3; b4; b5; b6; b7]) 0x8080808080808080 =? 0)
      then false else ascii_valid rest
  | _ => ascii_valid4 b
  end.

(** ascii.go:77-88, the tail of asciiValidPrint. *)
Definition ascii_valid_print_tail (b : bytes) : bool :=
  match b with
  | [b0; b1; b2] =>
      let x := Z.lor (Z.lor 0x20000000 b0) (Z.shiftl (load [b1; b2]) 8) in
      negb (hasLess32 x 0x20) && negb (hasMore32 x 0x7e)
  | [b0; b1] =>
      let x := Z.lor 0x20200000 (load [b0; b1]) in
      negb (hasLess32 x 0x20) && negb (hasMore32 x 0x7e)
  | [b0] =>
      let x := Z.lor 0x20202000 b0 in
      negb (hasLess32 x 0x20) && negb (hasMore32 x 0x7e)
  | _ => true
  end.

(** ascii.go:69-75, the 4-byte step. *)
Definition ascii_valid_print4 (b : bytes) : bool :=
  match b with
  | b0 :: b1 :: b2 :: b3 :: rest =>
      let x := load [b0; b1; b2; b3] in
      if hasLess32 x 0x20 || hasMore32 x 0x7e then false
      else ascii_valid_print_tail rest
  | _ => ascii_valid_print_tail b
  end.

(** ascii.go:51-89 asciiValidPrint *)
Fixpoint ascii_valid_print (b : bytes) : bool :=
  match b with
  | b0 :: b1 :: b2 :: b3 :: b4 :: b5 :: b6 :: b7 :: rest =>
      let x := load [b0; b1; b2; b3; b4; b5; b6; b7] in
      if hasLess64 x 0x20 || hasMore64 x 0x7e then false
      else ascii_valid_print rest
  | _ => ascii_valid_print4 b
  end.
