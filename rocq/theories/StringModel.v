(** Model of the string encoder of /repo/encode.go and of RawValue of
    /repo/token.go. *)
From Verif Require Import Bytes Utf8Model ParseModel.

(** encode.go:18: const hex = "0123456789abcdef", indexed by 0..15 *)
Definition hex_char (n : Z) : Z := nth (Z.to_nat n) (bs "0123456789abcdef") 0.
(** append(b, `\u00`...), hex[c>>4], hex[c&0xF]: encode.go:225-226, 235-236, 1095-1096 *)
Definition u00 (c : Z) : bytes := [92; 117; 48; 48; hex_char (c / 16); hex_char (c mod 16)].
(** append(b, `\u202`...), hex[r&0xF]: encode.go:262-263, 1106-1107 *)
Definition u202 (r : Z) : bytes := [92; 117; 50; 48; 50; hex_char (r mod 16)].
(** append(b, `\ufffd`...): encode.go:246 *)
Definition ufffd : bytes := [92; 117; 102; 102; 102; 100].

(** encode.go:188 and 223: '<', '>', '&' *)
Definition is_html (c : Z) : bool := (c =? 60) || (c =? 62) || (c =? 38).
(** encode.go:188, the fast path *)
Definition fast_char (escapeHTML : bool) (c : Z) : bool :=
  (0x20 <=? c) && (c <=? 0x7f) && negb (c =? 92) && negb (c =? 34) && (negb escapeHTML || negb (is_html c)).

(** encode.go:185-273, the loop of doEncodeString.  The indices i <= j are
    modelled by [pend] = s[i:j] and [s] = s[j:]; [n] is fuel (the length of
    the string suffices).  None: out of fuel. *)
Fixpoint encode_string_loop (n : nat) (html : bool) (b pend s : bytes) : option bytes :=
  match s with
  | [] => Some (b ++ pend ++ [34])
  | c :: s1 =>
    match n with
    | O => None
    | S n' =>
      if fast_char html c then encode_string_loop n' html b (pend ++ [c]) s1
      else if (c =? 92) || (c =? 34) then encode_string_loop n' html (b ++ pend ++ [92; c]) [] s1
      else if c =? 10 then encode_string_loop n' html (b ++ pend ++ [92; 110]) [] s1
      else if c =? 13 then encode_string_loop n' html (b ++ pend ++ [92; 114]) [] s1
      else if c =? 9 then encode_string_loop n' html (b ++ pend ++ [92; 116]) [] s1
      else if is_html c then encode_string_loop n' html (b ++ pend ++ u00 c) [] s1
      else if c <? 0x20 then encode_string_loop n' html (b ++ pend ++ u00 c) [] s1
      else
        let '(r, size) := decode_rune s in
        if (r =? runeError) && Nat.eqb size 1 then
          encode_string_loop n' html (b ++ pend ++ ufffd) [] (skipn size s)
        else if (r =? 0x2028) || (r =? 0x2029) then
          encode_string_loop n' html (b ++ pend ++ u202 r) [] (skipn size s)
        else encode_string_loop n' html b (pend ++ firstn size s) (skipn size s)
    end
  end.

(** encode.go:177-275 doEncodeString (never fails).  The out-of-fuel branch is
    proved unreachable in StringFacts.v. *)
Definition do_encode_string (html : bool) (b s : bytes) : bytes :=
  match encode_string_loop (length s) html (b ++ [34]) [] s with
  | Some r => r
  | None => b
  end.

(** token.go:243-263: RawValue.String, Null, True, False, Number *)
Definition rv_string (v : bytes) : bool := match v with c :: _ => c =? 34 | [] => false end.
(** token.go:246 *)
Definition rv_null (v : bytes) : bool := match v with c :: _ => c =? 110 | [] => false end.
(** token.go:249 *)
Definition rv_true (v : bytes) : bool := match v with c :: _ => c =? 116 | [] => false end.
(** token.go:252 *)
Definition rv_false (v : bytes) : bool := match v with c :: _ => c =? 102 | [] => false end.
(** token.go:255-263 *)
Definition rv_number (v : bytes) : bool := match v with c :: _ => is_num_start c | [] => false end.

(** token.go:266-280 RawValue.AppendUnquote; None is a panic *)
Definition append_unquote (v b : bytes) : option bytes :=
  match parse_string_unquote v b with
  | QErr _ _ | QPanic | QFuel => None
  | QOk s r isNew =>
      match r with
      | _ :: _ => None
      | [] => Some (if isNew then s else b ++ s)
      end
  end.
(** token.go:283-285 RawValue.Unquote *)
Definition unquote (v : bytes) : option bytes := append_unquote v [].
