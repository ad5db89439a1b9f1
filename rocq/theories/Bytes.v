(** Byte strings and Go primitives shared by every model file.
    A byte is a [Z]; [wf] says that every element is in 0..255.  A Go slice of
    bytes is the list of its elements (capacity and aliasing are not modelled
    here; nil is made explicit where the code distinguishes it from empty). *)
From Coq Require Export String Ascii ZArith Bool Lia List.
Export ListNotations.
Open Scope Z_scope.
Open Scope bool_scope.

Definition bytes := list Z.
Definition is_byte (c : Z) : Prop := 0 <= c < 256.
Definition wf (s : bytes) : Prop := Forall is_byte s.

(** String literals of the Go source as byte lists. *)
Fixpoint bs (s : string) : bytes :=
  match s with
  | EmptyString => []
  | String a s' => Z.of_N (N_of_ascii a) :: bs s'
  end.

(** Character constants (ASCII codes). *)
Notation cQUOTE := 34 (only parsing).      (* double quote *)
Notation cBSLASH := 92 (only parsing).     (* backslash *)
Notation cSLASH := 47 (only parsing).      (* / *)
Notation cLBRACE := 123 (only parsing).    (* { *)
Notation cRBRACE := 125 (only parsing).    (* } *)
Notation cLBRACK := 91 (only parsing).     (* [ *)
Notation cRBRACK := 93 (only parsing).     (* ] *)
Notation cCOMMA := 44 (only parsing).
Notation cCOLON := 58 (only parsing).
Notation cMINUS := 45 (only parsing).
Notation cPLUS := 43 (only parsing).
Notation cDOT := 46 (only parsing).
Notation c0 := 48 (only parsing).
Notation c9 := 57 (only parsing).
Notation cE := 69 (only parsing).
Notation ce := 101 (only parsing).
Notation cn := 110 (only parsing).
Notation ct := 116 (only parsing).
Notation cf := 102 (only parsing).
Notation cu := 117 (only parsing).
Notation cr_ := 114 (only parsing).
Notation cb := 98 (only parsing).
Notation cSP := 32 (only parsing).
Notation cHT := 9 (only parsing).
Notation cNL := 10 (only parsing).
Notation cCR := 13 (only parsing).

Definition is_digit (c : Z) : bool := (48 <=? c) && (c <=? 57).

(** bytes.IndexByte (standard library): position of the first [c]. *)
Fixpoint index_byte (c : Z) (s : bytes) : option nat :=
  match s with
  | [] => None
  | d :: s' => if d =? c then Some O
               else match index_byte c s' with Some i => Some (S i) | None => None end
  end.

(** [string(b[:len(s)]) == s] with a length guard: parse.go:686-688 hasPrefix. *)
Fixpoint has_prefix (b s : bytes) : bool :=
  match s, b with
  | [], _ => true
  | x :: s', y :: b' => (x =? y) && has_prefix b' s'
  | _ :: _, [] => false
  end.

(** Fixed-width machine arithmetic. *)
Definition wrap64 (z : Z) : Z := z mod 2 ^ 64.                  (* uint64 *)
Definition wrap32 (z : Z) : Z := z mod 2 ^ 32.                  (* uint32 *)
Definition sw64 (z : Z) : Z := (z + 2 ^ 63) mod 2 ^ 64 - 2 ^ 63. (* int64 *)

(** Error classes.  The code's error values are abstracted to their dynamic
    type; message text is not modelled. *)
Inductive err :=
| ESyntax            (* *json.SyntaxError: codec.go:963-970 syntaxError, 959-961 unexpectedEOF *)
| EType              (* *json.UnmarshalTypeError: codec.go:951-957 *)
| EInvalidUnmarshal  (* *json.InvalidUnmarshalError: json.go:219 *)
| EUnsupportedValue  (* *json.UnsupportedValueError *)
| EUnsupportedType   (* *json.UnsupportedTypeError *)
| ERollback          (* rollback{}: encode.go:760-762 *)
| EOther             (* fmt.Errorf values and errors of user code *)
| EBase64            (* base64.CorruptInputError *)
| EOF | EUnexpectedEOF | EReader   (* io.EOF, io.ErrUnexpectedEOF, other reader errors *)
| EFuel              (* model only: out of fuel; proved unreachable *)
| EPanicked.         (* model only: the call panics *)
