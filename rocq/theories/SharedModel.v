(** Model of what concurrent calls share: the buffer pool of /repo/json.go
    (160-172 Marshal, 392-417 Encode, 454-458) and the codec cache of
    /repo/codec.go:40-77 (used by Append, json.go:132-137, and Parse, 223-228).
    Calls run in any number of goroutines, one step at a time, in any order. *)
From Verif Require Import Bytes EncModel.

Section Shared.
(** Go types, codecs, the codec constructCodec builds for a type (codec.go:68-74,
    a function of the type alone), values, and the results of decoding. *)
Variables ty codec val res : Type.
Variable ty_eqb : ty -> ty -> bool.
Variable codec_of : ty -> codec.
(** What c.encode does to the buffer: a sequence of updates, each computed from
    the bytes it finds there (append, truncate, overwrite), and the error it
    ends with.  No codec: the nil value (json.go:123-127). *)
Variable enc_steps : option codec -> val -> list (bytes -> bytes).
Variable enc_err : option codec -> val -> option err.
(** What c.decode returns (or, without a codec, json.go:213-220); its target
    belongs to the caller. *)
Variable dec_result : option codec -> val -> res.

(** The published cache is a map that is never changed again. *)
(** codec.go:40-62 *)
Definition cmap := list (ty * codec).
(** cache[typeid(t)]: json.go:133, 224 *)
Fixpoint lookup (m : cmap) (t : ty) : option codec :=
  match m with [] => None | (t', c) :: m' => if ty_eqb t' t then Some c else lookup m' t end.
(** codec.go:53-62: the entry is put first and the old entries over it. *)
Definition cache_with (t : ty) (c : codec) (old : cmap) : cmap := old ++ [(t, c)].

(** json.go:160, 392, 209 *)
Inductive kind := KMarshal | KEncode | KParse.
(** A call: Marshal(v), Encode(v) or Parse(.., v); the type whose codec it
    needs, none for nil. *)
(** json.go:160, 392, 209 *)
Record job := Job { j_kind : kind; j_ty : option ty; j_val : val }.
(** json.go:160-172, 392-417, 209-232 *)
Inductive result :=
| RMarshal (b : bytes)      (* Marshal returned b, nil *)
| RWritten (b : bytes)      (* Encode handed b to the writer *)
| RFailed (e : err)         (* Marshal or Encode returned e *)
| RParsed (r : res).

(** Memory: buffers by number (buf.data), the pool, and the cache pointer. *)
(** json.go:454-458, codec.go:46 *)
Record shared := Shared { s_heap : nat -> bytes; s_pool : list nat; s_next : nat; s_cache : cmap }.
(** buf.data = ...: json.go:162-168, 400-408 *)
Definition upd (h : nat -> bytes) (i : nat) (b : bytes) : nat -> bytes := fun k => if Nat.eqb k i then b else h k.

(** Where a call is.  [b] is its buffer, if it uses one. *)
(** json.go:160-172, 392-417, 209-232 *)
Inductive tstate :=
| TStart
| TGot (b : option nat)                                   (* before cacheLoad *)
| TLoaded (b : option nat) (t : ty) (m : cmap)            (* m is the snapshot *)
| TBuilt (b : option nat) (t : ty) (m : cmap) (c : codec) (* before cacheStore *)
| TReady (b : option nat) (c : option codec)              (* has its codec *)
| TWriting (b : nat) (ws : list (bytes -> bytes)) (e : option err)
| TReading (b : nat) (n : nat) (acc : bytes)              (* copying n bytes, or in writer.Write *)
| TPut (b : nat) (r : result)
| TDone (r : result).

(** One step of a call. *)
(** json.go:160-172, 392-417, 209-232 *)
Inductive tstep (j : job) : shared -> tstate -> shared -> tstate -> Prop :=
(* encoderBufferPool.Get: any buffer of the pool, or a new one (454-456);
   buf.data[:0] *)
| s_get_pooled h p1 b p2 n m : j_kind j <> KParse ->
    tstep j (Shared h (p1 ++ b :: p2) n m) TStart (Shared (upd h b []) (p1 ++ p2) n m) (TGot (Some b))
| s_get_new h p n m : j_kind j <> KParse ->
    tstep j (Shared h p n m) TStart (Shared (upd h n []) p (S n) m) (TGot (Some n))
| s_parse s : j_kind j = KParse -> tstep j s TStart s (TGot None)
(* no codec needed *)
| s_nil s b : j_ty j = None -> tstep j s (TGot b) s (TReady b None)
(* cacheLoad (codec.go:48-51) *)
| s_load h p n m b t : j_ty j = Some t -> tstep j (Shared h p n m) (TGot b) (Shared h p n m) (TLoaded b t m)
| s_found s b t m c : lookup m t = Some c -> tstep j s (TLoaded b t m) s (TReady b (Some c))
| s_build s b t m : lookup m t = None -> tstep j s (TLoaded b t m) s (TBuilt b t m (codec_of t))
(* cacheStore (codec.go:53-62): the snapshot, not the current cache, is extended *)
| s_store h p n m0 b t m c :
    tstep j (Shared h p n m0) (TBuilt b t m c) (Shared h p n (cache_with t c m)) (TReady b (Some c))
(* c.decode *)
| s_decode s c : j_kind j = KParse -> tstep j s (TReady None c) s (TDone (RParsed (dec_result c (j_val j))))
(* c.encode, and the newline of Encode (408) *)
| s_encode s b c : j_kind j <> KParse ->
    tstep j s (TReady (Some b) c) s
      (TWriting b (enc_steps c (j_val j) ++
         match j_kind j, enc_err c (j_val j) with KEncode, None => [fun x => x ++ [10]] | _, _ => [] end) (enc_err c (j_val j)))
| s_write h p n m b f ws e :
    tstep j (Shared h p n m) (TWriting b (f :: ws) e) (Shared (upd h b (f (h b))) p n m) (TWriting b ws e)
(* an error: Marshal drops the buffer (164-166), Encode puts it back (403-406) *)
| s_fail_marshal s b e : j_kind j = KMarshal -> tstep j s (TWriting b [] (Some e)) s (TDone (RFailed e))
| s_fail_encode s b e : j_kind j = KEncode -> tstep j s (TWriting b [] (Some e)) s (TPut b (RFailed e))
(* make and copy (168-169), or writer.Write(b) (411), byte by byte *)
| s_read_start h p n m b : tstep j (Shared h p n m) (TWriting b [] None) (Shared h p n m) (TReading b (length (h b)) [])
| s_read h p n m b k acc : (length acc < k)%nat ->
    tstep j (Shared h p n m) (TReading b k acc) (Shared h p n m) (TReading b k (acc ++ [nth (length acc) (h b) 0]))
| s_read_end s b acc : tstep j s (TReading b (length acc) acc) s
    (TPut b (match j_kind j with KEncode => RWritten acc | _ => RMarshal acc end))
(* encoderBufferPool.Put (170, 404, 415) *)
| s_put h p n m b r : tstep j (Shared h p n m) (TPut b r) (Shared h (b :: p) n m) (TDone r).

(** The program: its memory and its calls. *)
(** the state of a program calling json.go:160-417 *)
Record state := State { g_shared : shared; g_threads : list (job * tstate) }.
(** steps of a program calling json.go:160-417 *)
Inductive label := LThread (i : nat) | LSpawn | LGC.
(** the call that makes the step, in a program calling json.go:160-417 *)
Fixpoint set_nth {A} (n : nat) (x : A) (l : list A) : list A :=
  match n, l with O, _ :: l' => x :: l' | S n', y :: l' => y :: set_nth n' x l' | _, [] => [] end.
(** A step of the program: of one of the calls; a new call; or the garbage
    collector takes a buffer from the pool. *)
(** steps of a program calling json.go:160-417 *)
Inductive gstep : state -> label -> state -> Prop :=
| g_thread s s' ts i j t t' : nth_error ts i = Some (j, t) -> tstep j s t s' t' ->
    gstep (State s ts) (LThread i) (State s' (set_nth i (j, t') ts))
| g_spawn s ts j : gstep (State s ts) LSpawn (State s (ts ++ [(j, TStart)]))
| g_gc h p1 b p2 n m ts : gstep (State (Shared h (p1 ++ b :: p2) n m) ts) LGC (State (Shared h (p1 ++ p2) n m) ts).
(** runs of a program calling json.go:160-417 *)
Inductive exec : state -> list label -> state -> Prop :=
| x_nil s : exec s [] s
| x_snoc s ls s1 l s2 : exec s ls s1 -> gstep s1 l s2 -> exec s (ls ++ [l]) s2.
End Shared.
Arguments Job {ty val}. Arguments j_kind {ty val}. Arguments j_ty {ty val}. Arguments j_val {ty val}.
Arguments RMarshal {res}. Arguments RWritten {res}. Arguments RFailed {res}. Arguments RParsed {res}.
Arguments Shared {ty codec}. Arguments s_heap {ty codec}. Arguments s_pool {ty codec}. Arguments s_next {ty codec}. Arguments s_cache {ty codec}.
Arguments TStart {ty codec res}. Arguments TGot {ty codec res}. Arguments TLoaded {ty codec res}. Arguments TBuilt {ty codec res}.
Arguments TReady {ty codec res}. Arguments TWriting {ty codec res}. Arguments TReading {ty codec res}. Arguments TPut {ty codec res}. Arguments TDone {ty codec res}.
Arguments State {ty codec val res}. Arguments g_shared {ty codec val res}. Arguments g_threads {ty codec val res}.
Arguments cmap : clear implicits. Arguments lookup {ty codec}. Arguments cache_with {ty codec}.
