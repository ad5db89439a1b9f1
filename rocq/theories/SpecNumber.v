(** What C90 speaks of: the number literals of a text that count. *)
From Verif Require Import Bytes IntModel EncModel DecModel SpecJson SpecString SpecDec JcModel.
Local Open Scope Z_scope.

(** [live n a]: the literal [n] is in the text [a], and not inside a member that
    a later member of the same object with the same name replaces. *)
Inductive live (n : bytes) : jast -> Prop :=
| lv_num : live n (JNum n)
| lv_arr l a : In a l -> live n a -> live n (JArr l)
| lv_obj l k a : last_member l k a -> live n a -> live n (JObj l).

(** [number_of n v]: the decoded value [v] has the json.Number [n] in it. *)
Inductive number_of (n : bytes) : jv -> Prop :=
| no_num : number_of n (JVNumber n)
| no_arr l v : In v l -> number_of n v -> number_of n (JVArr l)
| no_map m k v : In (k, v) m -> number_of n v -> number_of n (JVMap m).

(** [renumbers pf c input out]: with UseNumber, [input] is read into a nil
    interface{} (Parse with the flag, nothing left over), and what that gives is encoded with the settings [c] as [out]. *)
Definition renumbers (pf : bytes -> option fl) (c : cfg) (input out : bytes) : Prop :=
  exists v, unmarshal_with (decode_interface true pf) input JVNull = (None, v) /\ enc c (gv v) [] 0 = ER out 0 None.
