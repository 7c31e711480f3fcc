(** Model of the options before the commands (xmq-cli.c: handle_global_option), and of the input that the
    load command reads (cmd_load).

    Not modelled: the options for messages (--verbose, --debug, --trace, --log-xmq), --lines and
    --xml-of-ixml, which are taken and change nothing here; the content of files (whether a grammar can be
    read is a parameter), and the parsing of the input. *)
From Coq Require Import NArith ZArith List Bool Arith String.
From Verif Require Import Bytes CmdLine.
Import ListNotations.
Local Open Scope string_scope.
Local Open Scope list_scope.
Local Open Scope nat_scope.

(** xmq.h XMQContentType, those that can be chosen for the input *)
Inductive format := Detect | FXmq | FJson | FClines | FXml | FIxml | FHtml | FText.
(** xmq-cli.c:150-240 XMQCliCommand, the fields of the load command that the options set; 629-640 allocate_cli_command *)
Record gopts := GOpts { g_help : bool; g_version : bool; g_license : bool; g_no_input : bool; g_content : bool; g_nomerge : bool; g_trim_none : bool; g_trim_heur : bool; g_all_parses : bool; g_recover : bool; g_format : format; g_root : option bytes; g_grammar : option bytes }.
Definition no_options : gopts := GOpts false false false false false false false false false false Detect None None.
Definition with_help o := GOpts true (g_version o) (g_license o) (g_no_input o) (g_content o) (g_nomerge o) (g_trim_none o) (g_trim_heur o) (g_all_parses o) (g_recover o) (g_format o) (g_root o) (g_grammar o).
Definition with_version o := GOpts (g_help o) true (g_license o) (g_no_input o) (g_content o) (g_nomerge o) (g_trim_none o) (g_trim_heur o) (g_all_parses o) (g_recover o) (g_format o) (g_root o) (g_grammar o).
Definition with_license o := GOpts (g_help o) (g_version o) true (g_no_input o) (g_content o) (g_nomerge o) (g_trim_none o) (g_trim_heur o) (g_all_parses o) (g_recover o) (g_format o) (g_root o) (g_grammar o).
Definition with_no_input o := GOpts (g_help o) (g_version o) (g_license o) true (g_content o) (g_nomerge o) (g_trim_none o) (g_trim_heur o) (g_all_parses o) (g_recover o) (g_format o) (g_root o) (g_grammar o).
Definition with_content o := GOpts (g_help o) (g_version o) (g_license o) (g_no_input o) true (g_nomerge o) (g_trim_none o) (g_trim_heur o) (g_all_parses o) (g_recover o) (g_format o) (g_root o) (g_grammar o).
Definition with_nomerge o := GOpts (g_help o) (g_version o) (g_license o) (g_no_input o) (g_content o) true (g_trim_none o) (g_trim_heur o) (g_all_parses o) (g_recover o) (g_format o) (g_root o) (g_grammar o).
Definition with_trim_none o := GOpts (g_help o) (g_version o) (g_license o) (g_no_input o) (g_content o) (g_nomerge o) true (g_trim_heur o) (g_all_parses o) (g_recover o) (g_format o) (g_root o) (g_grammar o).
Definition with_trim_heur o := GOpts (g_help o) (g_version o) (g_license o) (g_no_input o) (g_content o) (g_nomerge o) (g_trim_none o) true (g_all_parses o) (g_recover o) (g_format o) (g_root o) (g_grammar o).
Definition with_all_parses o := GOpts (g_help o) (g_version o) (g_license o) (g_no_input o) (g_content o) (g_nomerge o) (g_trim_none o) (g_trim_heur o) true (g_recover o) (g_format o) (g_root o) (g_grammar o).
Definition with_recover o := GOpts (g_help o) (g_version o) (g_license o) (g_no_input o) (g_content o) (g_nomerge o) (g_trim_none o) (g_trim_heur o) (g_all_parses o) true (g_format o) (g_root o) (g_grammar o).
Definition with_format f o := GOpts (g_help o) (g_version o) (g_license o) (g_no_input o) (g_content o) (g_nomerge o) (g_trim_none o) (g_trim_heur o) (g_all_parses o) (g_recover o) f (g_root o) (g_grammar o).
Definition with_root w o := GOpts (g_help o) (g_version o) (g_license o) (g_no_input o) (g_content o) (g_nomerge o) (g_trim_none o) (g_trim_heur o) (g_all_parses o) (g_recover o) (g_format o) (Some w) (g_grammar o).
Definition with_grammar w o := GOpts (g_help o) (g_version o) (g_license o) (g_no_input o) (g_content o) (g_nomerge o) (g_trim_none o) (g_trim_heur o) (g_all_parses o) (g_recover o) (g_format o) (g_root o) (Some w).

(** True is returned, false is returned, the program ends *)
Inductive gtaken := GTaken (o : gopts) | GUnknown | GEnds.
(** The word ends with this. *)
Definition ends (a : bytes) (s : string) : bool := beq (skipn (List.length a - List.length (B s)) a) (B s).
(** xmq-cli.c:1578-1600 --trim= *)
Definition option_trim (o : gopts) (v : bytes) : gtaken :=
  if is_word v "none" then GTaken (with_trim_none o)
  else if is_word v "heuristic" then GTaken (with_trim_heur o)
  else GEnds.
(** xmq-cli.c:1601-1631 --ixml=; a name of at least 6 bytes is long enough for the comparisons *)
Definition option_ixml (readable : bytes -> bool) (o : gopts) (w : bytes) : gtaken :=
  match g_grammar o with
  | Some _ => GEnds
  | None =>
    if (List.length w <? 6) || (negb (ends w ".ixml") && negb (ends w ".xml") && negb (ends w ".xmq")) then GEnds
    else if ends w ".ixml" then (if readable w then GTaken (with_grammar w o) else GEnds)
    else GUnknown
  end.
(** xmq-cli.c:1446-1634 handle_global_option, in the order of the code *)
Definition handle_global_option (readable : bytes -> bool) (o : gopts) (a : bytes) : gtaken :=
  if is_word a "--help" || is_word a "-h" then GTaken (with_help o)
  else if is_word a "-z" then GTaken (with_no_input o)
  else if is_word a "-i" then GTaken (with_content o)
  else if is_word a "--xml-of-ixml" || is_word a "--trace" || is_word a "--debug" || is_word a "--verbose" then GTaken o
  else if is_word a "--license" then GTaken (with_license o)
  else if is_word a "--version" then GTaken (with_version o)
  else if is_word a "--render-theme" then GEnds
  else if is_word a "--xmq" then GTaken (with_format FXmq o)
  else if is_word a "--json" then GTaken (with_format FJson o)
  else if is_word a "--clines" then GTaken (with_format FClines o)
  else if is_word a "--xml" then GTaken (with_format FXml o)
  else if is_word a "--ixml" then GTaken (with_format FIxml o)
  else if is_word a "--ixml-all-parses" then GTaken (with_all_parses o)
  else if is_word a "--ixml-try-to-recover" then GTaken (with_recover o)
  else if is_word a "--log-xmq" || is_word a "-lx" then GTaken o
  else if is_word a "--html" then GTaken (with_format FHtml o)
  else if is_word a "--text" then GTaken (with_format FText o)
  else if starts a "--root=" then GTaken (with_root (after a "--root=") o)
  else if is_word a "--lines" then GTaken o
  else if is_word a "--no-merge" then GTaken (with_nomerge o)
  else if starts a "--trim=" then option_trim o (after a "--trim=")
  else if starts a "--ixml=" then option_ixml readable o (after a "--ixml=")
  else GUnknown.

(** xmq-cli.c:3644-3672 xmq_parse_cmd_line: the options, and the word for the input if there is one.
    What is left are the commands (CmdLine.v). *)
Inductive gread := Read (o : gopts) (input : option bytes) (commands : list bytes) | Unrecognized (a : bytes) | Ends.
Fixpoint read_options (readable : bytes -> bool) (o : gopts) (words : list bytes) : gread :=
  match words with
  | [] => Read o None []
  | a :: rest =>
    if is_option a then
      match handle_global_option readable o a with
      | GTaken o' => read_options readable o' rest
      | GUnknown => Unrecognized a
      | GEnds => Ends
      end
    else if cmd_beq (cmd_from a) CNone then Read o (Some a) rest
    else Read o None words
  end.

(** Where the input comes from: nowhere (an empty document), a file, the standard input, the word itself *)
Inductive source := Nowhere | AFile (f : bytes) | Stdin | AWord (w : bytes).
(** What is read and how: with a grammar, or in a format with a root and flags; or a null pointer is used *)
Inductive loading := Load (s : source) | LoadGrammar (s : source) (g : bytes) (all_parses recover : bool)
  | LoadAs (s : source) (f : format) (root : option bytes) (nomerge trim_none trim_heur : bool) | NullUsed.
(** xmq-cli.c:1813-1928 cmd_load, 4050 xmqParseBufferWithType (strlen(start)), 4229 xmqParseFileWithType *)
Definition cmd_load (o : gopts) (input : option bytes) : loading :=
  if g_no_input o then Load Nowhere
  else
    let input := match input with Some w => if is_word w "-" then None else Some w | None => None end in
    match g_grammar o with
    | Some g =>
      match input with
      | Some w => LoadGrammar (if g_content o then AWord w else AFile w) g (g_all_parses o) (g_recover o)
      | None => Load Nowhere
      end
    | None =>
      if g_content o then
        match input with
        | Some w => LoadAs (AWord w) (g_format o) (g_root o) (g_nomerge o) (g_trim_none o) (g_trim_heur o)
        | None => NullUsed
        end
      else LoadAs (match input with Some w => AFile w | None => Stdin end) (g_format o) (g_root o) (g_nomerge o) (g_trim_none o) (g_trim_heur o)
    end.
