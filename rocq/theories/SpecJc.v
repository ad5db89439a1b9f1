(** Specification of color detection and of the jc command. *)
From Verif Require Import Bytes SpecJson EncModel DecModel SpecDec SpecTrip EncoderModel JcModel.

(** When colors are wanted on a writer: NO_COLOR is not set, and FORCE_COLOR is
    set or the writer is a terminal that is not "dumb".  (A variable set to the
    empty string counts as not set.) *)
Definition wants_color (e : env) (terminal : Prop) : Prop :=
  e (bs "NO_COLOR") = [] /\ (e (bs "FORCE_COLOR") <> [] \/ (e (bs "TERM") <> bs "dumb" /\ terminal)).

(** jc has an input and a place to write to. *)
Definition jc_ready (f : jc_flags) (o : jc_os) (input : bytes) : Prop :=
  (j_in f <> [] /\ os_infile o = inl input \/
   j_in f = [] /\ os_stdin_stat o = None /\ os_stdin_char o = false /\ os_stdin o = inl input) /\
  (j_out f = [] \/ os_create o = None).
(** The place is a terminal. *)
Definition jc_terminal (f : jc_flags) (o : jc_os) : Prop :=
  (j_out f = [] /\ os_stdout_term o = true) \/ (j_out f <> [] /\ os_file_term o = true).
(** All that was written, wherever. *)
Definition jc_written (r : jc_result) : list bytes := jr_stdout r ++ jr_file r.
(** ParseFloat finds a finite float for each number of the tree, and finds it
    again from its shortest decimal. *)
Definition floats_good (pf : bytes -> option fl) (a : jast) : Prop :=
  forall s, number_in s a -> exists f, pf s = Some f /\ finite f /\ parses pf f.
