(** Model of /repo/terminal.go, /repo/terminal_windows.go, /repo/cmd/jc/main.go
    and /repo/helper/fatihcolor/fatihcolor.go. *)
From Verif Require Import Bytes IntModel EncModel DecModel EncoderModel.

(** os.Getenv: the empty string for variables that are not set *)
(** os.Getenv at terminal.go:18-26 *)
Definition env := bytes -> bytes.
(** What an io.Writer is, to IsColorTerminal: nil, an *os.File (with what
    term.IsTerminal says about its descriptor), anything else. *)
(** terminal.go:28-39 *)
Inductive wkind := WNil | WFile (terminal : bool) | WOther.
(** the comparisons with "" at terminal.go:18, 21 and main.go:65, 99 *)
Definition is_empty (s : bytes) : bool := match s with [] => true | _ => false end.
(** the comparison with "dumb" at terminal.go:24 *)
Definition bytes_eqb (a b : bytes) : bool := if list_eq_dec Z.eq_dec a b then true else false.

(** terminal.go:17-42 IsColorTerminal *)
Definition is_color_terminal (e : env) (w : wkind) : bool :=
  if negb (is_empty (e (bs "NO_COLOR"))) then false
  else if negb (is_empty (e (bs "FORCE_COLOR"))) then true
  else if bytes_eqb (e (bs "TERM")) (bs "dumb") then false
  else
    match w with
    | WNil => false
    | WOther => false
    | WFile terminal => if negb terminal then false else true
    end.

(** terminal_windows.go:15-53 IsColorTerminal.  A file's console: the result of
    GetConsoleMode (None is an error) and whether SetConsoleMode succeeds; also
    returns the mode set, if any. *)
Inductive wkind_win := WWNil | WWFile (mode : option Z) (set_ok : bool) | WWOther.
(** windows.ENABLE_PROCESSED_OUTPUT at terminal_windows.go:42 *)
Definition enable_processed_output : Z := 1.
(** windows.ENABLE_VIRTUAL_TERMINAL_PROCESSING at terminal_windows.go:42 *)
Definition enable_virtual_terminal_processing : Z := 4.
(** terminal_windows.go:15-53 IsColorTerminal *)
Definition is_color_terminal_win (e : env) (w : wkind_win) : bool * option Z :=
  if negb (is_empty (e (bs "NO_COLOR"))) then (false, None)
  else if negb (is_empty (e (bs "FORCE_COLOR"))) then (true, None)
  else if bytes_eqb (e (bs "TERM")) (bs "dumb") then (false, None)
  else
    match w with
    | WWNil | WWOther => (false, None)
    | WWFile None _ => (false, None)
    | WWFile (Some mode) set_ok =>
        let want := Z.lor enable_processed_output enable_virtual_terminal_processing in
        if Z.land mode want =? want then (true, None)
        else if set_ok then (true, Some (Z.lor mode want))
        else (false, None)
    end.

(** A value of type interface{}, as the encoder sees it. *)
(** the argument of Encode at main.go:142 *)
Fixpoint gv (v : jv) : gval :=
  match v with
  | JVNull => GNil
  | JVBool b => GBool b
  | JVFloat f => GFloat f
  | JVNumber s => GNumber s
  | JVString s => GString s
  | JVArr l => GSlice (Some (map (fun x => match gv x with GNil => GIface None | y => GIface (Some y) end) l))
  | JVMap m => GMapSI (Some (map (fun kv => match kv with (k, x) => (k, gv x) end) m))
  end.
(** The *interface{} given to Encode (main.go:93,142) *)
Definition jsn_gval (v : jv) : gval := GPtr (Some (match gv v with GNil => GIface None | y => GIface (Some y) end)).

(** main.go:25-30: the flags -p, -c, -i, -o *)
Record jc_flags := JcFlags { j_pretty : bool; j_color : bool; j_in : bytes; j_out : bytes }.
(** What the operating system answers: reading the input file (open and read
    together), stat of stdin and whether it is a character device, reading it,
    preparing the output file (Abs, MkdirAll and Create together) and whether it
    is a terminal, whether stdout is one, and the result of the one Write. *)
(** the system calls of main.go:65-143 *)
Record jc_os := JcOS {
  os_env : env; os_infile : bytes + err; os_stdin_stat : option err; os_stdin_char : bool; os_stdin : bytes + err;
  os_create : option err; os_file_term : bool; os_stdout_term : bool; os_write : option err }.
(** The error jc exits with, and what it wrote, to stdout and to the file. *)
(** main.go:52-56, 142 *)
Record jc_result := JcResult { jr_err : option err; jr_stdout : list bytes; jr_file : list bytes }.

(** main.go:65-91: the input *)
Definition jc_input (f : jc_flags) (o : jc_os) : bytes + err :=
  if negb (is_empty (j_in f)) then os_infile o
  else match os_stdin_stat o with
       | Some e => inr e
       | None => if os_stdin_char o then inr EOther else os_stdin o
       end.
(** main.go:59-143 doMain.  colorable.NewColorable returns the file itself, as
    it does except on Windows.  [pf] is strconv.ParseFloat, [std] json.Indent. *)
Definition do_main (pf : bytes -> option fl) (std : bytes -> bytes -> bytes -> option bytes) (f : jc_flags) (o : jc_os) : jc_result :=
  match jc_input f o with
  | inr e => JcResult (Some e) [] []
  | inl input =>
    match unmarshal_with (decode_interface false pf) input JVNull with
    | (Some e, _) => JcResult (Some e) [] []
    | (None, v) =>
      let tofile := negb (is_empty (j_out f)) in
      match (if tofile then os_create o else None) with
      | Some e => JcResult (Some e) [] []
      | None =>
        let out := WFile (if tofile then os_file_term o else os_stdout_term o) in
        let ops := (if j_color f && is_color_terminal (os_env o) out then [OSetColors (Some default_colors)] else [])
                   ++ (if j_pretty f then [OSetIndent [] (bs "  ")] else []) ++ [OEncode (jsn_gval v)] in
        match run std ops new_encoder (World [os_write o] []) with
        | None => JcResult (Some EPanicked) [] []
        | Some (rs, _, w) => JcResult (last rs None) (if tofile then [] else w_log w) (if tofile then w_log w else [])
        end
      end
    end
  end.

(** fatihcolor.go:81-103 ToCoreColor.  A *color.Color is nil or something whose
    Sprint(" "), with colors enabled, is the given bytes. *)
Fixpoint index_byte (b : bytes) (c : Z) : option nat :=
  match b with [] => None | x :: t => if x =? c then Some O else option_map S (index_byte t c) end.
(** fatihcolor.go:81-103 ToCoreColor *)
Definition to_core_color (c : option bytes) : bytes :=
  match c with
  | None => []
  | Some b => match index_byte b 32 with
              | None => []
              | Some O => []
              | Some i => firstn i b
              end
  end.
(** fatihcolor.go:14-43 Colors *)
Record fcolors := FColors { fc_bool : option bytes; fc_bytes : option bytes; fc_datetime : option bytes; fc_null : option bytes;
  fc_number : option bytes; fc_string : option bytes; fc_key : option bytes; fc_punc : option bytes; fc_textm : option bytes }.
(** fatihcolor.go:61-77 ToCoreColors *)
Definition to_core_colors (c : option fcolors) : option colors :=
  match c with
  | None => None
  | Some c => Some (Colors (to_core_color (fc_null c)) (to_core_color (fc_bool c)) (to_core_color (fc_number c)) (to_core_color (fc_string c))
      (to_core_color (fc_key c)) (to_core_color (fc_bytes c)) (to_core_color (fc_datetime c)) (to_core_color (fc_punc c))
      [] [] [] [] (to_core_color (fc_textm c)))
  end.
(** fatihcolor.go:46-58 DefaultColors, each field the attributes given to
    color.New; and what Sprint(" ") of such a color is: Sprint of
    github.com/fatih/color prints ESC "[" attributes joined by ";" "m", the text,
    and a reset.  This library is not in /repo. *)
Fixpoint join_semi (l : list Z) : bytes :=
  match l with [] => [] | [x] => itoa x | x :: l' => itoa x ++ [59] ++ join_semi l' end.
(** color.Color.Sprint (library) at fatihcolor.go:96 *)
Definition sprint_space (attrs : list Z) (reset : bytes) : bytes := [27; 91] ++ join_semi attrs ++ [109] ++ [32] ++ reset.
(** fatihcolor.go:46-58 DefaultColors *)
Definition f_default (reset : bytes) : fcolors :=
  let new l := Some (sprint_space l reset) in
  FColors (new [33]) (new [2]) (new [32; 2]) (new [2]) (new [36]) (new [32]) (new [34; 1]) (new [1]) (new [32]).
