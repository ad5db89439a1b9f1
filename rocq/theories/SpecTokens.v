(** Independent specification: the tokens of a JSON text, with the position
    each is found at, as documented on the Tokenizer type (token.go:41-66). *)
From Verif Require Import Bytes SpecJson.

Record token := TK {
  k_delim : Z;       (* the delimiter, or 0 *)
  k_value : bytes;   (* the text of the token *)
  k_depth : Z;       (* number of enclosing arrays and objects *)
  k_index : Z;       (* position in the innermost one, 0 at top level *)
  k_key : bool       (* is it an object key? *)
}.
Definition delim_tok (c depth index : Z) : token := TK c [c] depth index false.

(** Text of a null, true, false, number or string. *)
Definition scalar_text (a : jast) : bytes :=
  match a with
  | JNull => bs "null" | JTrue => bs "true" | JFalse => bs "false"
  | JNum s => s | JStr s => s | _ => []
  end.

Fixpoint toks (depth index : Z) (a : jast) : list token :=
  match a with
  | JArr l =>
      delim_tok 91 depth index ::
      (fix go i l := match l with
                     | [] => []
                     | a :: l' => toks (depth + 1) i a ++
                                  match l' with
                                  | [] => []
                                  | _ => delim_tok 44 (depth + 1) i :: go (i + 1) l'
                                  end
                     end) 0 l ++
      [delim_tok 93 depth index]
  | JObj l =>
      delim_tok 123 depth index ::
      (fix go i l := match l with
                     | [] => []
                     | (k, a) :: l' => TK 0 k (depth + 1) i true :: delim_tok 58 (depth + 1) i ::
                                       toks (depth + 1) i a ++
                                       match l' with
                                       | [] => []
                                       | _ => delim_tok 44 (depth + 1) i :: go (i + 1) l'
                                       end
                     end) 0 l ++
      [delim_tok 125 depth index]
  | _ => [TK 0 (scalar_text a) depth index false]
  end.

(** No empty object occurs inside an array (at any depth). *)
Fixpoint no_empty_obj (a : jast) : Prop :=
  match a with
  | JArr l => fold_right and True (map no_empty_obj l)
  | JObj l => l <> [] /\ fold_right and True (map (fun kv => match kv with (_, x) => no_empty_obj x end) l)
  | _ => True
  end.
Fixpoint no_empty_in_array (a : jast) : Prop :=
  match a with
  | JArr l => fold_right and True (map no_empty_obj l)
  | JObj l => fold_right and True (map (fun kv => match kv with (_, x) => no_empty_in_array x end) l)
  | _ => True
  end.

(** Tokens whose brackets match, and the brackets that would close the open ones,
    innermost first; the depth of a token is the number of arrays and objects
    around it. *)
Inductive nested : list token -> list Z -> Prop :=
| ne_nil : nested [] []
| ne_obj l k st : nested l st -> k_delim k = 123 -> k_depth k = Z.of_nat (length st) -> nested (l ++ [k]) (125 :: st)
| ne_arr l k st : nested l st -> k_delim k = 91 -> k_depth k = Z.of_nat (length st) -> nested (l ++ [k]) (93 :: st)
| ne_close l k c st : nested l (c :: st) -> k_delim k = c -> k_depth k = Z.of_nat (length st) -> nested (l ++ [k]) st
| ne_other l k st : nested l st -> ~ In (k_delim k) [123; 125; 91; 93] -> k_depth k = Z.of_nat (length st) -> nested (l ++ [k]) st.
