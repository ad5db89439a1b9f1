(** Model of how Append (json.go:122-142) and encodeMap (encode.go:414-460) find
    the memory of a value: the data word of an interface or of a reflect.Value is
    used as the address given to the encoder, or its own address is
    (codec.go:68-77, 408-410, 797-801, 829-840). *)
From Verif Require Import Bytes.
Local Open Scope Z_scope.

(** The shapes of Go types that matter for their representation (the kinds
    codec.go:829-840 looks at, and the other ones that are one pointer);
    [RWords n] is any other type, of n words. *)
Inductive rty := RPtr | RMap | RChan | RFunc | RUnsafe | RStruct (fs : list rty) | RArray (n : nat) (e : rty) | RWords (n : nat).

(** codec.go:829-840 inlined *)
Fixpoint inlined (t : rty) : bool :=
  match t with
  | RPtr => true
  | RMap => true
  | RStruct [f] => inlined f
  | _ => false
  end.

(** Memory: words by address. *)
(** what the unsafe.Pointers of json.go:124 and encode.go:443, 450 point into *)
Definition heap := Z -> Z.
(** p, the local variable at address l of codec.go:798 *)
Definition set_word (h : heap) (l w : Z) : heap := fun a => if a =? l then w else h a.

(** codec.go:797-801 constructInlineValueEncodeFunc, applied if [inl]: the memory
    and the address the encoder is called with; [l] is the address of the
    parameter p of the closure. *)
Definition call (inl : bool) (h : heap) (l data : Z) : heap * Z :=
  if inl then (set_word h l data, l) else (h, data).
(** json.go:124, 130-138 with codec.go:71-73: the value in the argument of Append *)
Definition append_call (t : rty) := call (inlined t).
(** encode.go:450 with codec.go:408-410: a value of a map *)
Definition map_value_call (t : rty) := call (inlined t).
(** encode.go:443 with codec.go:355-357: a key of a map whose encoder is
    encodeTextMarshaler.  NB: no inlining. *)
Definition map_key_call (t : rty) := call false.

(** The tests of codec.go:868-915 emptyFuncOf that read the memory of the field,
    by the width of what they read.  Addresses count words; numbers are little
    endian.  (The tests on maps call reflect, those on arrays and structs read
    nothing.) *)
Inductive tkind := T8 | T16 | T32 | T64 | TPointer | TLen | TInterface.
(** codec.go:865, 876, 879 read len, the second word of a string or slice;
    882-900 a number; 909 a pointer; 912 the second word of an interface *)
Definition empty_test (k : tkind) (h : heap) (a : Z) : bool :=
  match k with
  | T8 => h a mod 2 ^ 8 =? 0
  | T16 => h a mod 2 ^ 16 =? 0
  | T32 => h a mod 2 ^ 32 =? 0
  | T64 => h a =? 0
  | TPointer => h a =? 0
  | TLen => h (a + 1) =? 0
  | TInterface => h (a + 1) =? 0
  end.
(** A field of a struct at address [s] (encode.go:707-709): [off] its offset, or
    for a field at offset [sub] behind an embedded pointer the offset of the
    pointer, as codec.go:621-623 set it. *)
Inductive fplace := FHere (off : Z) | FBehind (off sub : Z).
(** encode.go:707-709: v is s plus f.offset *)
Definition field_test (k : tkind) (h : heap) (s : Z) (f : fplace) : bool :=
  empty_test k h (match f with FHere off => s + off | FBehind off _ => s + off end).
