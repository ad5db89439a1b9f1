(** Integer formatting (contract of strconv.AppendInt / AppendUint, base 10)
    and the integer decoders of decode.go. *)
From Verif Require Import Bytes ParseModel.

(** strconv.AppendUint(nil, n, 10): shortest decimal text. *)
(** library function used at encode.go:28-70 *)
Fixpoint utoa_f (fuel : nat) (n : Z) (acc : bytes) : bytes :=
  match fuel with
  | O => acc
  | S f => let acc := (48 + n mod 10) :: acc in
           if n <? 10 then acc else utoa_f f (n / 10) acc
  end.
(** library function used at encode.go:28-70 *)
Definition utoa (n : Z) : bytes := utoa_f (S (Z.to_nat (Z.log2 n))) n [].
(** strconv.AppendInt(nil, z, 10) *)
(** library function used at encode.go:28-70 *)
Definition itoa (z : Z) : bytes := if z <? 0 then 45 :: utoa (- z) else utoa z.

(** Go integer types (64-bit platform). *)
(** the types of decode.go:42-218 *)
Inductive ity := TInt | TInt8 | TInt16 | TInt32 | TInt64 | TUint | TUint8 | TUint16 | TUint32 | TUint64 | TUintptr.
(** decode.go:42-122 against 124-218 *)
Definition signed (t : ity) : bool :=
  match t with TInt | TInt8 | TInt16 | TInt32 | TInt64 => true | _ => false end.
(** math.MinInt8, ...: decode.go:66, 84, 102 and parse.go:53 *)
Definition ity_lo (t : ity) : Z :=
  match t with TInt8 => - 2 ^ 7 | TInt16 => - 2 ^ 15 | TInt32 => - 2 ^ 31 | TInt64 | TInt => - 2 ^ 63 | _ => 0 end.
(** math.MaxInt8, ...: decode.go:66, 84, 102, 162, 180, 198 and parse.go:90, 136 *)
Definition ity_hi (t : ity) : Z :=
  match t with
  | TInt8 => 2 ^ 7 - 1 | TInt16 => 2 ^ 15 - 1 | TInt32 => 2 ^ 31 - 1 | TInt64 | TInt => 2 ^ 63 - 1
  | TUint8 => 2 ^ 8 - 1 | TUint16 => 2 ^ 16 - 1 | TUint32 => 2 ^ 32 - 1 | TUint64 | TUint | TUintptr => 2 ^ 64 - 1
  end.

(** Overflow checks of the decoders: decode.go:66, 84, 102 and 162, 180, 198
    (decodeInt, decodeInt64, decodeUint, decodeUintptr, decodeUint64 have none). *)
Definition out_of_range (t : ity) (v : Z) : bool :=
  match t with
  | TInt8 => (v <? -128) || (v >? 127)
  | TInt16 => (v <? -32768) || (v >? 32767)
  | TInt32 => (v <? -2147483648) || (v >? 2147483647)
  | TUint8 => v >? 255
  | TUint16 => v >? 65535
  | TUint32 => v >? 4294967295
  | TInt | TInt64 | TUint | TUint64 | TUintptr => false
  end.

(** Result of a decoder on a target: the remaining input, the error, and the
    new content of the target. *)
(** codec.go:30-33 decodeFunc *)
Record dres (A : Type) := DR { d_rest : bytes; d_err : option err; d_val : A }.
Arguments DR {A}. Arguments d_rest {A}. Arguments d_err {A}. Arguments d_val {A}.

(** decode.go:42-218 decodeInt, decodeInt8, ..., decodeUint64; [cur] is the
    current content of the target. *)
Definition decode_int (t : ity) (b : bytes) (cur : Z) : dres Z :=
  if has_null_prefix b then DR (skipn 4 b) None cur
  else match (if signed t then parse_int b else parse_uint b) with
       | IErr r e => DR r (Some e) cur
       | IOk v r => if out_of_range t v then DR r (Some EType) cur
                    else DR r None v
       end.

(** json.go:209-232 Parse, for a non-nil pointer target whose type's decode
    function is [dec] (the codec lookup 223-228 is modelled in CacheModel.v). *)
Definition parse_with {A} (dec : bytes -> A -> dres A) (b : bytes) (cur : A) : dres A :=
  let d := dec (skip_spaces b) cur in DR (skip_spaces (d_rest d)) (d_err d) (d_val d).
(** json.go:193-205 Unmarshal: the error and the new content of the target.
    Trailing bytes turn any non-syntax error (or nil) into a SyntaxError. *)
Definition unmarshal_with {A} (dec : bytes -> A -> dres A) (b : bytes) (cur : A) : option err * A :=
  let d := parse_with dec b cur in
  (match d_rest d with [] => d_err d | _ => Some ESyntax end, d_val d).
