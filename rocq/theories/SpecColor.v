(** Independent specifications for colorized and indented output: removing
    color sequences, removing layout, the layout of the standard Indent, and
    what the data in a value may be. *)
From Verif Require Import Bytes EncModel SpecJson SpecRender.

(** A condition on the data found in a value: [str] on strings and keys, [raw]
    on raw messages (also those returned by MarshalJSON), [num] on Number
    values, [time] on the text of times, [flt] on floats, [quoted] on values of fields with the
    ",string" option, [intkey] on maps with integer keys. *)
Section leaves.
  Variables (str raw num time : bytes -> Prop) (flt : fl -> Prop) (quoted : gval -> Prop) (intkey : Prop).
  Definition raw_opt (s : option bytes) : Prop := match s with None => True | Some s => raw s end.
  Definition key_leaf (k : mkey) : Prop :=
    match k with KInt _ => intkey | KString s => str s | KText s _ => str s | KNil => True end.
  Fixpoint leaves (v : gval) : Prop :=
    match v with
    | GFloat f => flt f
    | GNumber s => num s
    | GString s => str s
    | GBytes (Some s) => wf s
    | GTime t => time t
    | GArray l => all (map leaves l)
    | GSlice (Some l) => all (map leaves l)
    | GMap (Some m) => all (map (fun kv => match kv with (k, x) => key_leaf k /\ leaves x end) m)
    | GMapSI (Some m) => all (map (fun kv => match kv with (k, x) => str k /\ leaves x end) m)
    | GMapSR (Some m) => Forall (fun kv => str (fst kv) /\ raw_opt (snd kv)) m
    | GStruct fs => all (map (fun hv => match hv with (h, x) => str (f_name h) /\ leaves x end) fs)
    | GEmbPtr (Some x) => leaves x
    | GPtr (Some x) => leaves x
    | GIface (Some x) => leaves x
    | GRaw s => raw_opt s
    | GMarshaler (Some (inl s)) => raw_opt s
    | GText (Some (inl s)) => str s
    | GQuoted x => quoted x /\ leaves x
    | _ => True
    end.
End leaves.

(** * Colors *)
(** Remove escape sequences: from ESC up to the next 'm'. *)
Fixpoint strip_from (inseq : bool) (s : bytes) : bytes :=
  match s with
  | [] => []
  | c :: t => if inseq then strip_from (negb (c =? 109)) t
              else if c =? 27 then strip_from true t
              else c :: strip_from false t
  end.
Definition strip : bytes -> bytes := strip_from false.

(** A color: any number of sequences ESC ... m. *)
Inductive ansi : bytes -> Prop :=
| ansi_nil : ansi []
| ansi_seq p s : Forall (fun c => c <> 109) p -> ansi s -> ansi (27 :: p ++ 109 :: s).

Definition palette (k : colors) : list bytes :=
  [c_null k; c_bool k; c_number k; c_string k; c_key k; c_bytes k; c_time k; c_punc k;
   c_brackets k; c_braces k; c_comma k; c_colon k; c_textm k].
Definition esc_free (s : bytes) : Prop := Forall (fun c => c <> 27) s.
Definition ind_all (P : bytes -> Prop) (ind : option indenter) : Prop :=
  match ind with None => True | Some i => P (i_prefix i) /\ P (i_indent i) end.
Definition no_colors (c : cfg) : cfg := Cfg (e_html c) (e_sort c) (e_trust c) None (e_ind c) (e_stdindent c).
Definition no_indent (c : cfg) : cfg := Cfg (e_html c) (e_sort c) (e_trust c) (e_clrs c) None (e_stdindent c).

Definition any {A} (x : A) : Prop := True.
Definition clear_text (s : bytes) : Prop := wf s /\ esc_free s.
Definition float_ok (f : fl) : Prop := match f with FFin _ ds _ => float_form ds | _ => True end.

(** A raw message that is either checked by the encoder or valid anyway. *)
Definition raw_checked (trust : bool) (s : bytes) : Prop := wf s /\ (trust = false \/ exists a, jtext s a).

(** Output made of configured colors, resets and text without ESC. *)
Inductive pieces (k : colors) : bytes -> Prop :=
| pc_nil : pieces k []
| pc_color x s : In x (reset :: palette k) -> pieces k s -> pieces k (x ++ s)
| pc_text x s : esc_free x -> pieces k s -> pieces k (x ++ s).

(** * Layout *)
(** Remove whitespace outside strings. *)
Fixpoint squeeze_from (instr esc : bool) (s : bytes) : bytes :=
  match s with
  | [] => []
  | c :: t =>
      if instr then
        c :: (if esc then squeeze_from true false t
              else if c =? 92 then squeeze_from true true t
              else squeeze_from (negb (c =? 34)) false t)
      else if (c =? 32) || (c =? 9) || (c =? 10) || (c =? 13) then squeeze_from false false t
      else c :: squeeze_from (c =? 34) false t
  end.
Definition squeeze : bytes -> bytes := squeeze_from false false.

(** Values the ",string" option applies to: scalars and pointers to them. *)
Fixpoint flat (v : gval) : Prop :=
  match v with
  | GBool _ | GInt _ | GFloat _ | GNumber _ | GString _ | GPtr None => True
  | GPtr (Some v) => flat v
  | _ => False
  end.

(** The standard library's json.Indent (encoding/json/indent.go, appendIndent)
    on valid JSON: [need] is needIndent, [d] the depth. *)
Section indent.
  Variables (prefix indent : bytes).
  Definition nl (d : Z) : bytes := 10 :: prefix ++ concat (repeat indent (Z.to_nat d)).
  Fixpoint std_indent_from (instr esc need : bool) (d : Z) (s : bytes) : bytes :=
    match s with
    | [] => []
    | c :: t =>
        if instr then
          c :: (if esc then std_indent_from true false need d t
                else if c =? 92 then std_indent_from true true need d t
                else std_indent_from (negb (c =? 34)) false need d t)
        else if (c =? 32) || (c =? 9) || (c =? 10) || (c =? 13) then std_indent_from false false need d t
        else if (c =? 125) || (c =? 93) then
          if need then c :: std_indent_from false false false d t
          else nl (d - 1) ++ c :: std_indent_from false false false (d - 1) t
        else
          let d := if need then d + 1 else d in
          (if need then nl d else []) ++
          if (c =? 123) || (c =? 91) then c :: std_indent_from false false true d t
          else if c =? 44 then c :: nl d ++ std_indent_from false false false d t
          else if c =? 58 then c :: 32 :: std_indent_from false false false d t
          else c :: std_indent_from (c =? 34) false false d t
    end.
  Definition std_indent : bytes -> bytes := std_indent_from false false false 0.
End indent.

(** Values laid out as usual: every struct writes at least one field, and the
    ",string" option is on scalars only. *)
Fixpoint std_layout (v : gval) : Prop :=
  match v with
  | GArray l => all (map std_layout l)
  | GSlice (Some l) => all (map std_layout l)
  | GMap (Some m) => all (map (fun kv => match kv with (_, x) => std_layout x end) m)
  | GMapSI (Some m) => all (map (fun kv => match kv with (_, x) => std_layout x end) m)
  | GStruct fs => filter emitted fs <> [] /\ all (map (fun hv => match hv with (_, x) => std_layout x end) fs)
  | GEmbPtr (Some x) => std_layout x
  | GPtr (Some x) => std_layout x
  | GIface (Some x) => std_layout x
  | GQuoted x => flat x
  | _ => True
  end.
