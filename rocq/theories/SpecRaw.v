(** Independent specification for C19 and C07: trees with the same meaning,
    native values with the same document as a raw message, and texts without
    HTML characters. *)
From Coq Require Import Sorted.
From Verif Require Import Bytes StringModel EncModel SpecJson SpecString SpecRender.

(** Two string tokens that denote the same characters. *)
Definition same_chars (t t' : bytes) : Prop :=
  exists b b', t = 34 :: b ++ [34] /\ t' = 34 :: b' ++ [34] /\ forall l, str_denotes b l -> str_denotes b' l.

(** The same tree: same shape, same order, same numbers and literals, and
    strings that denote the same characters. *)
Inductive same_tree : jast -> jast -> Prop :=
| st_null : same_tree JNull JNull
| st_true : same_tree JTrue JTrue
| st_false : same_tree JFalse JFalse
| st_num t : same_tree (JNum t) (JNum t)
| st_str t t' : same_chars t t' -> same_tree (JStr t) (JStr t')
| st_arr l l' : Forall2 same_tree l l' -> same_tree (JArr l) (JArr l')
| st_obj l l' : Forall2 (fun x y => same_chars (fst x) (fst y) /\ same_tree (snd x) (snd y)) l l' ->
    same_tree (JObj l) (JObj l').

(** The native value with the tree a: nil, booleans, json.Number, strings,
    []interface{} and map[string]interface{}.  A raw message keeps the escapes
    of its strings, so the native string must be one that is written with
    them; sorted maps write their keys in ascending order, so the members
    must come in that order. *)
Inductive native (html sorted : bool) : jast -> gval -> Prop :=
| nv_null : native html sorted JNull GNil
| nv_true : native html sorted JTrue (GBool true)
| nv_false : native html sorted JFalse (GBool false)
| nv_num t : native html sorted (JNum t) (GNumber t)
| nv_str t s : wf s -> json_string html s = raw_string html t -> native html sorted (JStr t) (GString s)
| nv_arr l vs : Forall2 (native html sorted) l vs -> native html sorted (JArr l) (GSlice (Some vs))
| nv_obj l m : NoDup (map fst m) -> (sorted = true -> ascending fst m) ->
    Forall2 (fun x e => wf (fst e) /\ json_string html (fst e) = raw_string html (fst x) /\ native html sorted (snd x) (snd e)) l m ->
    native html sorted (JObj l) (GMapSI (Some m)).

(** No '<', '>' or '&' and no UTF-8 sequence of U+2028 or U+2029. *)
Definition no_html (s : bytes) : Prop :=
  (forall x c y, s = x ++ c :: y -> c <> 60 /\ c <> 62 /\ c <> 38) /\
  (forall x y, s <> x ++ 0xE2 :: 0x80 :: 0xA8 :: y) /\
  (forall x y, s <> x ++ 0xE2 :: 0x80 :: 0xA9 :: y).
(** Text that can be put before other text without completing a sequence. *)
Definition html_piece (s : bytes) : Prop := no_html s /\ (s = [] \/ last s 0 < 0x80).
Definition safe_piece (s : bytes) : Prop := wf s /\ html_piece s.
