(** Model of the Decoder of /repo/json.go:243-331 (and of io.ReadFull). *)
From Verif Require Import Bytes ParseModel IntModel.

(** The io.Reader behind a Decoder: the results of its successive Read calls,
    then [r_final] forever.  A Read returns at most as many bytes as it is asked
    for; what is left of a chunk comes with the next Read. *)
(** json.go:245 *)
Record reader := Reader { r_chunks : list (bytes * option err); r_final : err }.

(** io.ReadFull(r, buf) with n = len(buf): Read is called until the buffer is
    full or an error is returned; the error is dropped when the buffer is full.
    The bytes read, the error (before the renaming of EOF) and the reader. *)
(** library function used at json.go:318 *)
Fixpoint read_chunks (n : nat) (l : list (bytes * option err)) (final : err)
    : bytes * option err * list (bytes * option err) :=
  match n with
  | O => ([], None, l)
  | _ =>
    match l with
    | [] => ([], Some final, [])
    | (ch, e) :: l' =>
        if Nat.ltb (length ch) n then
          match e with
          | Some e => (ch, Some e, l')
          | None => let '(b, e2, l2) := read_chunks (n - length ch) l' final in (ch ++ b, e2, l2)
          end
        else if Nat.eqb (length ch) n then (ch, None, l')
        else (firstn n ch, None, (skipn n ch, e) :: l')
    end
  end.
(** library function used at json.go:318 *)
Definition read_full (n : nat) (r : reader) : bytes * option err * reader :=
  let '(b, e, l) := read_chunks n (r_chunks r) (r_final r) in
  (b, match b, e with
      | _ :: _, Some EOF => Some EUnexpectedEOF
      | _, _ => e
      end, Reader l (r_final r)).

(** json.go:244-251 Decoder.  dec.buffer is represented by its capacity (0 for
    nil): its content is only used through dec.remain, a suffix of it. *)
Record decoder := Decoder { dc_reader : reader; dc_cap : Z; dc_remain : bytes; dc_offset : Z; dc_err : option err }.
(** json.go:254 NewDecoder *)
Definition new_decoder (r : reader) : decoder := Decoder r 0 [] 0 None.
(** json.go:257-259 Buffered *)
Definition buffered (d : decoder) : bytes := dc_remain d.
(** json.go:370-372 InputOffset *)
Definition input_offset (d : decoder) : Z := dc_offset d.

(** json.go:271-274 *)
Definition minBufferSize : Z := 32768.
(** json.go:271-274 *)
Definition minReadSize : Z := 4096.

(** json.go:305-329: the second half of the loop of readValue.  NB: an error that comes
    with data is dropped (319-323). *)
Definition fill (d : decoder) : decoder :=
  let len := Z.of_nat (length (dc_remain d)) in
  let cap := if dc_cap d =? 0 then minBufferSize else dc_cap d in
  let cap := if cap - len <? minReadSize then 2 * cap else cap in
  let '(b, e, r) := read_full (Z.to_nat (cap - len)) (dc_reader d) in
  let e := match b with
           | _ :: _ => None
           | [] => match e with Some EUnexpectedEOF => Some EOF | _ => e end
           end in
  let '(rem, n) := skip_spaces_n (dc_remain d ++ b) in
  Decoder r cap rem (dc_offset d + Z.of_nat n) e.

(** json.go:283-303: the first half: a value, an error, or more input needed *)
Inductive rstep := RValue (v : bytes) (d : decoder) | RError (e : err) (d : decoder) | RMore.
(** json.go:283-303 *)
Definition try_value (d : decoder) : rstep :=
  let more :=
    match dc_err d with
    | Some e => RError (match dc_remain d, e with _ :: _, EOF => EUnexpectedEOF | _, _ => e end) d
    | None => RMore
    end in
  match dc_remain d with
  | [] => more
  | _ =>
    match parseValue (dc_remain d) with
    | POk v r => let '(rem, n) := skip_spaces_n r in
                 RValue v (Decoder (dc_reader d) (dc_cap d) rem (dc_offset d + Z.of_nat (length v + n)) (dc_err d))
    | PErr (_ :: _) e => RError e d
    | PErr [] _ => more
    end
  end.
(** json.go:278-331 readValue; [k] is fuel *)
Fixpoint read_value (k : nat) (d : decoder) : (bytes + err) * decoder :=
  match k with
  | O => (inr EFuel, d)
  | S k' =>
    match try_value d with
    | RValue v d' => (inl v, d')
    | RError e d' => (inr e, d')
    | RMore => read_value k' (fill d)
    end
  end.
(** Bytes the reader still holds; one unit of fuel per byte suffices. *)
(** of the reader of json.go:245 *)
Definition unread (r : reader) : bytes := concat (map fst (r_chunks r)).
(** json.go:278-331 readValue *)
Definition readValue (d : decoder) : (bytes + err) * decoder := read_value (length (unread (dc_reader d)) + 3) d.

(** json.go:262-269 Decode into a target with content [cur]; [dec] is the
    decoder of the target's type.  The result of Parse's remainder is ignored. *)
Definition decode_next {A} (dec : bytes -> A -> dres A) (d : decoder) (cur : A) : option err * A * decoder :=
  match readValue d with
  | (inr e, d') => (Some e, cur, d')
  | (inl v, d') => let x := parse_with dec v cur in (d_err x, d_val x, d')
  end.
