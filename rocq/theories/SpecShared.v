(** Specification of calls that share nothing: what each gets alone. *)
From Verif Require Import Bytes EncModel SharedModel.

Section SpecShared.
Variables ty codec val res : Type.
Variable ty_eqb : ty -> ty -> bool.
Variable codec_of : ty -> codec.
Variable enc_steps : option codec -> val -> list (bytes -> bytes).
Variable enc_err : option codec -> val -> option err.
Variable dec_result : option codec -> val -> res.

(** The result of a call on its own: it uses the codec of its type, and its
    buffer holds what its encoder makes of an empty buffer. *)
Definition alone (j : job ty val) : result res :=
  let c := option_map codec_of (j_ty j) in
  match j_kind j with
  | KParse => RParsed (dec_result c (j_val j))
  | k => match enc_err c (j_val j) with
         | Some e => RFailed e
         | None => let out := fold_left (fun b f => f b) (enc_steps c (j_val j)) [] in
                   match k with KEncode => RWritten (out ++ [10]) | _ => RMarshal out end
         end
  end.

(** A program at its start: some buffers, with anything in them, may be in the
    pool, each once; every codec in the cache is right; there are no calls yet. *)
Definition initial (s : state ty codec val res) : Prop :=
  g_threads s = [] /\ NoDup (s_pool (g_shared s)) /\ Forall (fun b => (b < s_next (g_shared s))%nat) (s_pool (g_shared s)) /\
  Forall (fun e => snd e = codec_of (fst e)) (s_cache (g_shared s)).

(** The codec a call is using. *)
Definition uses (t : tstate ty codec res) (c : codec) : Prop := exists b, t = TReady b (Some c).
(** Steps of call number i in an execution. *)
Definition steps_of (i : nat) (ls : list label) : nat :=
  length (filter (fun l => match l with LThread k => Nat.eqb k i | _ => false end) ls).
End SpecShared.
