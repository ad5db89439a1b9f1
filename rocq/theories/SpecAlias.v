(** Specification of sharing: what a decoded value looks like after the memory
    that was the input has changed. *)
From Verif Require Import Bytes DecModel TypeModel AliasModel.

(** The bytes of a string when the memory of the input holds [now]. *)
Definition read (now : bytes) (a : astr) : bytes :=
  match a_place a with
  | None => a_text a
  | Some o => firstn (length (a_text a)) (skipn o now)
  end.
(** The value a program sees: when it was decoded, and when the memory of the
    input holds [now]. *)
Definition value : amem -> mem := walk a_text.
Definition look (now : bytes) : amem -> mem := walk (read now).

(** [every P m]: P of all strings, numbers and messages in m. *)
Inductive every_jv (P : astr -> Prop) : ajv -> Prop :=
| ey_null : every_jv P AVNull
| ey_bool b : every_jv P (AVBool b)
| ey_float f : every_jv P (AVFloat f)
| ey_number s : P s -> every_jv P (AVNumber s)
| ey_string s : P s -> every_jv P (AVString s)
| ey_arr l : Forall (every_jv P) l -> every_jv P (AVArr l)
| ey_map m : Forall (fun kv => P (fst kv) /\ every_jv P (snd kv)) m -> every_jv P (AVMap m).
Definition every_key (P : astr -> Prop) (k : akey) : Prop := match k with AKStr s => P s | _ => True end.
Inductive every (P : astr -> Prop) : amem -> Prop :=
| ev_bool x : every P (ABool x)
| ev_int z : every P (AInt z)
| ev_float f : every P (AFloat f)
| ev_str s : P s -> every P (AStr s)
| ev_time t : every P (ATime t)
| ev_bytes s : every P (ABytes s)
| ev_raw_nil : every P (ARaw None)
| ev_raw s : P s -> every P (ARaw (Some s))
| ev_iface v : every_jv P v -> every P (AIface v)
| ev_list l : Forall (every P) l -> every P (AList l)
| ev_slice_nil : every P (ASlice None)
| ev_slice n d : Forall (every P) d -> every P (ASlice (Some (n, d)))
| ev_map_nil : every P (AMap None)
| ev_map m : Forall (fun kv => every_key P (fst kv) /\ every P (snd kv)) m -> every P (AMap (Some m))
| ev_ptr_nil : every P (APtr None)
| ev_ptr x : every P x -> every P (APtr (Some x))
| ev_user s : every P (AUser s).

(** Nothing in m is in the memory of an input. *)
Definition owned : amem -> Prop := every (fun a => a_place a = None).
(** No DontCopy flag. *)
Definition copies (C : cflags) : Prop := k_string C = false /\ k_number C = false /\ k_raw C = false.
