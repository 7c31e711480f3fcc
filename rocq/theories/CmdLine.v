(** Model of the command line of xmq-cli.c: the words are split into commands with their
    arguments (xmq_parse_cmd_line), missing commands are added, and the commands are
    performed (main).

    Not modelled: what a single command does to the document (the result true or false is
    a parameter; null pointers that come from the document or from a missing stylesheet are left
    to it), the flags --version, --license and --help, messages apart from the one
    for an unknown command, and the memory for the commands.  Whether a file can be read is a
    parameter. *)
From Coq Require Import NArith ZArith List Bool Arith String.
From Verif Require Import Bytes.
Import ListNotations.
Local Open Scope string_scope.
Local Open Scope list_scope.

(** xmq-cli.c:82-118 XMQCliCmd *)
Inductive cmd := CNone | CHelp | CLoad | CToXmq | CToXml | CToHtmq | CToHtml | CToJson | CToText | CToClines
  | CNoOutput | CPrint | CSaveTo | CPager | CBrowser | CRenderTerminal | CRenderHtml | CRenderTex | CRenderRaw
  | CTokenize | CDelete | CDeleteEntity | CReplace | CReplaceEntity | CSubstEntity | CSubstChars | CTransform
  | CValidate | CSelect | CForEach | CAdd | CAddRoot | CStatistics | CQuoteC | CUnquoteC.
Scheme Equality for cmd.

(** xmq-cli.c:435-475 cmd_from *)
Definition cmd_names : list (bytes * cmd) :=
  [(B "add", CAdd); (B "add-root", CAddRoot); (B "br", CBrowser); (B "browse", CBrowser); (B "delete", CDelete);
   (B "delete-entity", CDeleteEntity); (B "for-each", CForEach); (B "help", CHelp); (B "load", CLoad);
   (B "no-output", CNoOutput); (B "pa", CPager); (B "page", CPager); (B "print", CPrint);
   (B "render-html", CRenderHtml); (B "render-raw", CRenderRaw); (B "render-terminal", CRenderTerminal);
   (B "render-tex", CRenderTex); (B "replace", CReplace); (B "replace-entity", CReplaceEntity); (B "save-to", CSaveTo);
   (B "select", CSelect); (B "statistics", CStatistics); (B "substitute-char-entities", CSubstChars);
   (B "substitute-entity", CSubstEntity); (B "to-html", CToHtml); (B "to-htmq", CToHtmq); (B "to-json", CToJson);
   (B "to-text", CToText); (B "to-xml", CToXml); (B "to-xmq", CToXmq); (B "to-clines", CToClines);
   (B "tokenize", CTokenize); (B "transform", CTransform); (B "validate", CValidate); (B "quote-c", CQuoteC);
   (B "unquote-c", CUnquoteC)].
Definition cmd_from (s : bytes) : cmd :=
  match find (fun p => beq s (fst p)) cmd_names with Some p => snd p | None => CNone end.

(** xmq-cli.c:478-519 cmd_name *)
Definition cmd_name (c : cmd) : bytes :=
  match c with
  | CNone => B "noop" | CHelp => B "help" | CLoad => B "load" | CToXmq => B "to-xmq" | CToXml => B "to-xml" | CToHtmq => B "to-htmq"
  | CToHtml => B "to-html" | CToJson => B "to-json" | CToText => B "to-text" | CToClines => B "to-clines" | CNoOutput => B "no-output"
  | CPrint => B "print" | CSaveTo => B "save-to" | CPager => B "pager" | CBrowser => B "browser" | CRenderTerminal => B "render-terminal"
  | CRenderHtml => B "render-html" | CRenderTex => B "render-tex" | CRenderRaw => B "render-raw" | CTokenize => B "tokenize"
  | CDelete => B "delete" | CDeleteEntity => B "delete-entity" | CReplace => B "replace" | CReplaceEntity => B "replace-entity"
  | CSubstEntity => B "substitute-entity" | CSubstChars => B "substitute-char-entities" | CTransform => B "transform"
  | CValidate => B "validate" | CSelect => B "select" | CForEach => B "for-each" | CAdd => B "add" | CAddRoot => B "add-root"
  | CStatistics => B "statistics" | CQuoteC => B "quote-c" | CUnquoteC => B "unquote-c"
  end.

(** xmq-cli.c:521-590 cmd_group *)
Inductive group := GNone | GLoad | GTo | GRender | GTokenize | GOutput | GXpath | GAddXmq | GForEach | GEntity
  | GSubst | GTransform | GQuote | GValidate | GHelp.
Definition cmd_group (c : cmd) : group :=
  match c with
  | CLoad => GLoad
  | CToXmq | CToXml | CToHtmq | CToHtml | CToJson | CToText | CToClines => GTo
  | CNoOutput | CPrint | CSaveTo | CPager | CBrowser => GOutput
  | CRenderTerminal | CRenderHtml | CRenderTex | CRenderRaw => GRender
  | CTokenize => GTokenize
  | CDelete | CReplace | CSelect | CAddRoot => GXpath
  | CAdd => GAddXmq
  | CForEach => GForEach
  | CDeleteEntity | CReplaceEntity => GEntity
  | CSubstEntity | CSubstChars => GSubst
  | CTransform => GTransform
  | CQuoteC | CUnquoteC => GQuote
  | CValidate => GValidate
  | CNone | CStatistics => GNone
  | CHelp => GHelp
  end.

(** The files that are read while the words are split. *)
Record files := { f_doc : bytes -> bool; f_text : bytes -> bool; f_sheet : bytes -> bool; f_schema : bytes -> bool }.

(** Which of the fields of XMQCliCommand are not NULL, as far as handle_option looks at them
    (xmq-cli.c:148-222). *)
Record fields := { has_save : bool; has_xpath : bool; has_add : bool; has_entity : bool; has_content : bool;
  has_node : bool; has_xslt : bool; has_in : bool; has_xsd : bool; help_of : option bytes }.
Definition no_fields : fields := Build_fields false false false false false false false false false None.
Definition set_save o := Build_fields true (has_xpath o) (has_add o) (has_entity o) (has_content o) (has_node o) (has_xslt o) (has_in o) (has_xsd o) (help_of o).
Definition set_xpath o := Build_fields (has_save o) true (has_add o) (has_entity o) (has_content o) (has_node o) (has_xslt o) (has_in o) (has_xsd o) (help_of o).
Definition set_add o := Build_fields (has_save o) (has_xpath o) true (has_entity o) (has_content o) (has_node o) (has_xslt o) (has_in o) (has_xsd o) (help_of o).
Definition set_entity o := Build_fields (has_save o) (has_xpath o) (has_add o) true (has_content o) (has_node o) (has_xslt o) (has_in o) (has_xsd o) (help_of o).
Definition set_content o := Build_fields (has_save o) (has_xpath o) (has_add o) (has_entity o) true (has_node o) (has_xslt o) (has_in o) (has_xsd o) (help_of o).
Definition set_node o := Build_fields (has_save o) (has_xpath o) (has_add o) (has_entity o) (has_content o) true (has_xslt o) (has_in o) (has_xsd o) (help_of o).
Definition set_xslt o := Build_fields (has_save o) (has_xpath o) (has_add o) (has_entity o) (has_content o) (has_node o) true (has_in o) (has_xsd o) (help_of o).
Definition set_in o := Build_fields (has_save o) (has_xpath o) (has_add o) (has_entity o) (has_content o) (has_node o) (has_xslt o) true (has_xsd o) (help_of o).
Definition set_xsd o := Build_fields (has_save o) (has_xpath o) (has_add o) (has_entity o) (has_content o) (has_node o) (has_xslt o) (has_in o) true (help_of o).
Definition set_help a o := Build_fields (has_save o) (has_xpath o) (has_add o) (has_entity o) (has_content o) (has_node o) (has_xslt o) (has_in o) (has_xsd o) (Some a).

(** What handle_option does with a word: true is returned, false is returned, exit(1). *)
Inductive taken := Taken (o : fields) | Refused | Stops.

(** strcmp, strncmp with the length of the second string *)
Definition is_word (a : bytes) (s : string) : bool := beq a (B s).
Definition starts (a : bytes) (s : string) : bool := beq (firstn (List.length (B s)) a) (B s).
Definition after (a : bytes) (s : string) : bytes := skipn (List.length (B s)) a.
Definition is_digit (c : N) : bool := (48 <=? c)%N && (c <=? 57)%N.
(** xmq-cli.c:1066-1096: key=value; a string cannot contain both quotes *)
Definition string_param_ok (s : bytes) : bool :=
  match (fix go s := match s with [] => None | c :: s => if (c =? 61)%N then Some s else go s end) s with
  | None => false
  | Some v => negb (existsb (N.eqb 39) v && existsb (N.eqb 34) v)
  end.
Definition param_ok (s : bytes) : bool := existsb (N.eqb 61) s.

(** xmq-cli.c:741-1204 handle_option.  Each group of conditions of the code either answers
    ([Some]) or goes on to the next one ([None]). *)
Definition opt_or (a : option taken) (b : option taken) : option taken := match a with Some _ => a | None => b end.
Definition when (b : bool) (t : taken) : option taken := if b then Some t else None.
(** 747-760 *)
Definition opt_save_help (c : cmd) (o : fields) (a : bytes) : option taken :=
  match c with
  | CSaveTo => when (negb (has_save o)) (Taken (set_save o))
  | CHelp => Some (Taken (set_help a o))
  | _ => None
  end.
(** 762-791 *)
Definition opt_compact (c : cmd) (o : fields) (a : bytes) : option taken :=
  match cmd_group c with
  | GTo | GRender => opt_or (when (is_word a "--compact") (Taken o))
      (match c with CToXml => when (is_word a "-o" || is_word a "--omit-decl") (Taken o) | _ => None end)
  | GQuote => when (is_word a "--add-nl") (Taken o)
  | _ => None
  end.
(** 793-824 *)
Definition opt_escape (c : cmd) (o : fields) (a : bytes) : option taken :=
  match c with
  | CToXmq | CToHtmq | CRenderTerminal | CRenderHtml | CRenderTex | CRenderRaw =>
    opt_or (when (is_word a "--escape-newlines" || is_word a "--escape-non-7bit" || is_word a "--escape-tabs") (Taken o))
      (when (starts a "--indent=") (if forallb is_digit (after a "--indent=") then Taken o else Stops))
  | _ => None
  end.
(** 826-897 *)
Definition opt_render (c : cmd) (o : fields) (a : bytes) : option taken :=
  match cmd_group c with
  | GRender => when (starts a "--class=" || is_word a "--color" || starts a "--id=" || is_word a "--mono" || is_word a "--nostyle"
      || is_word a "--onlystyle" || starts a "--theme=" || starts a "--use-cr=" || starts a "--use-es=" || starts a "--use-et="
      || starts a "--use-is=" || starts a "--use-nl=") (Taken o)
  | _ => None
  end.
(** 899-940 *)
Definition opt_tokenize (c : cmd) (o : fields) (a : bytes) : option taken :=
  match cmd_group c with
  | GTokenize => when (starts a "--type=")
      (if is_word a "--type=debugtokens" || is_word a "--type=debugcontent" || is_word a "--type=terminal" || is_word a "--type=html"
          || is_word a "--type=tex" || is_word a "--type=location" then Taken o else Stops)
  | _ => None
  end.
(** 942-986 *)
Definition opt_words (c : cmd) (o : fields) (a : bytes) : option taken :=
  match cmd_group c with
  | GXpath => when (negb (has_xpath o)) (Taken (set_xpath o))
  | GAddXmq => when (negb (has_add o)) (Taken (set_add o))
  | GForEach => opt_or (when (negb (has_xpath o)) (Taken (set_xpath o))) (when (starts a "--shell=") (Taken (set_content o)))
  | GSubst => Some (if cmd_beq (cmd_from a) CNone && negb (has_entity o) then Taken (set_entity o) else Refused)
  | _ => None
  end.
(** 988-1051 *)
Definition opt_entity (F : files) (c : cmd) (o : fields) (a : bytes) : option taken :=
  match cmd_group c with
  | GEntity =>
    if starts a "--with-file=" then Some (if f_doc F (after a "--with-file=") then Taken (set_node o) else Refused)
    else if starts a "--with-text-file=" then Some (if f_text F (after a "--with-text-file=") then Taken (set_content o) else Refused)
    else if negb (has_entity o) then Some (Taken (set_entity o))
    else when (negb (has_content o) && negb (has_node o)) (Taken (set_content o))
  | _ => None
  end.
(** 1053-1139 *)
Definition opt_transform (F : files) (c : cmd) (o : fields) (a : bytes) : option taken :=
  match cmd_group c with
  | GTransform =>
    if starts a "--stringparam=" then Some (if string_param_ok (after a "--stringparam=") then Taken o else Refused)
    else if starts a "--param=" then Some (if param_ok (after a "--param=") then Taken o else Refused)
    else when (negb (has_xslt o)) (if f_doc F a && f_sheet F a then Taken (set_xslt o) else Refused)
  | _ => None
  end.
(** 1141-1202; the field is not set if the schema cannot be used *)
Definition opt_load_validate (F : files) (c : cmd) (o : fields) (a : bytes) : option taken :=
  match cmd_group c with
  | GLoad => if starts a "--alias=" then Some (Taken o) else when (negb (has_in o)) (Taken (set_in o))
  | GValidate => if starts a "--silent" then Some (Taken o)
      else when (negb (has_xsd o)) (if f_doc F a then Taken (if f_schema F a then set_xsd o else o) else Refused)
  | _ => None
  end.
Definition handle_option (F : files) (c : cmd) (o : fields) (a : bytes) : taken :=
  match opt_or (opt_save_help c o a) (opt_or (opt_compact c o a) (opt_or (opt_escape c o a) (opt_or (opt_render c o a)
    (opt_or (opt_tokenize c o a) (opt_or (opt_words c o a) (opt_or (opt_entity F c o a) (opt_or (opt_transform F c o a)
    (opt_load_validate F c o a)))))))) with
  | Some t => t
  | None => Refused
  end.

(** A command with its arguments *)
Record step := Step { s_cmd : cmd; s_args : list bytes; s_fields : fields }.

(** xmq-cli.c:3637-3642, 3670: what is remembered; the commands so far, and the place of the
    output command in them *)
Record state := State { st_to : bool; st_output : option nat; st_print : bool; st_steps : list step }.
Definition start_state : state := State false None true [].

(** How xmq_parse_cmd_line ends: with the load command (None: it was overwritten for tokenize),
    the file to load and the commands after it; false; exit(1), with the word that is
    named in the message "no such command" *)
Inductive parsed :=
| Parsed (loads : bool) (file : option bytes) (steps : list step)
| Refuses
| Exits1 (named : option bytes).

(** xmq-cli.c:3710-3742: a command with all its arguments is remembered.  [None]: false is
    returned. *)
Definition is_to (c : cmd) : bool := match cmd_group c with GTo | GRender | GTokenize => true | _ => false end.
Definition is_output (c : cmd) : bool := match cmd_group c with GOutput => true | _ => false end.
Definition is_quiet (c : cmd) : bool := match cmd_group c with GForEach => true | _ => cmd_beq c CNoOutput end.
Definition remember (s : step) (st : state) : option state :=
  if is_to (s_cmd s) && st_to st then None
  else
    let to := is_to (s_cmd s) || st_to st in
    let print := if is_to (s_cmd s) then true else st_print st in
    let print := if is_quiet (s_cmd s) then false else print in
    if is_output (s_cmd s) then
      match st_output st with
      | Some _ => None
      | None => Some (State to (Some (List.length (st_steps st))) print (st_steps st ++ [s]))
      end
    else Some (State to (st_output st) print (st_steps st ++ [s])).

(** xmq-cli.c:3692-3751: the two loops over the words as one recursion.  [c], [o], [taken]:
    the command whose arguments are read. *)
Inductive read := ReadOk (st : state) | ReadRefuses | ReadExits.
Fixpoint read_commands (F : files) (c : cmd) (o : fields) (args : list bytes) (words : list bytes) (st : state) : read :=
  match words with
  | [] => match remember (Step c args o) st with Some st => ReadOk st | None => ReadRefuses end
  | a :: words =>
    match handle_option F c o a with
    | Taken o => read_commands F c o (args ++ [a]) words st
    | Stops => ReadExits
    | Refused =>
      if cmd_beq (cmd_from a) CNone then ReadExits
      else match remember (Step c args o) st with
           | Some st => read_commands F (cmd_from a) no_fields [] words st
           | None => ReadRefuses
           end
    end
  end.

(** xmq-cli.c:3754-3802: commands that were not given are added. *)
Definition plain_step (c : cmd) : step := Step c [] no_fields.
Definition insert_at (n : nat) (s : step) (l : list step) : list step := firstn n l ++ s :: skipn n l.
Definition add_missing (st : state) : list step :=
  let steps := st_steps st in
  let with_to :=
    if negb (st_to st) && st_print st then
      match st_output st with
      | None => steps ++ [plain_step CToXmq]
      | Some n =>
        let browser := match nth_error steps n with Some s => cmd_beq (s_cmd s) CBrowser | None => false end in
        insert_at n (plain_step (if browser then CRenderHtml else CToXmq)) steps
      end
    else steps in
  match st_output st with
  | None => if st_print st then with_to ++ [plain_step CPrint] else with_to
  | Some _ => with_to
  end.

(** xmq-cli.c:3635-3803 xmq_parse_cmd_line.  [words]: argv from argv[1], [before]: the word before
    them, [global]: handle_global_option (it can also exit).  A tokenize command overwrites the load
    command (2826-2830). *)
Definition tokenizes (l : list step) : bool := existsb (fun s => cmd_beq (s_cmd s) CTokenize) l.
Definition parse_commands (F : files) (file : option bytes) (before : bytes) (words : list bytes) : parsed :=
  match words with
  | [] => Parsed true file (add_missing start_state)
  | a :: words =>
    if cmd_beq (cmd_from a) CNone then Exits1 (Some before)
    else match read_commands F (cmd_from a) no_fields [] words start_state with
         | ReadOk st => Parsed (negb (tokenizes (st_steps st))) file (add_missing st)
         | ReadRefuses => Refuses
         | ReadExits => Exits1 None
         end
  end.
Inductive global_result := GlobalOk | GlobalRefused | GlobalExits.
Definition is_option (a : bytes) : bool := match a with 45%N :: _ :: _ => true | _ => false end.
Fixpoint xmq_parse_cmd_line (F : files) (global : bytes -> global_result) (before : bytes) (words : list bytes) : parsed :=
  match words with
  | a :: rest =>
    if is_option a then
      match global a with
      | GlobalOk => xmq_parse_cmd_line F global a rest
      | GlobalRefused => Refuses
      | GlobalExits => Exits1 None
      end
    else if cmd_beq (cmd_from a) CNone then parse_commands F (Some a) a rest
    else parse_commands F None before words
  | [] => parse_commands F None before []
  end.

(** * Performing the commands *)
(** What is in the environment: whether there is a document, and the output *)
Inductive outst := ONone | OData | OFreed.
Record penv := PEnv { p_doc : bool; p_out : outst }.
(** The next command, the end with a status, undefined behaviour (a null pointer is used, or
    memory that was freed). *)
Inductive performed := Next (e : penv) | Fails | ExitsWith (rc : nat) | UB.
(** Commands that use the document: 2047, 2096, 2150, 2212, 2261, 2303, 2342, 2473, 2672, 2742, and
    cmd_to 1940-1979.  [ok]: whether the command returns true. *)
Definition on_doc (e : penv) (ok : bool) : performed := if p_doc e then (if ok then Next e else Fails) else UB.
(** 1981-2042 cmd_output *)
Definition cmd_output (s : step) (e : penv) (ok : bool) : performed :=
  match p_out e with
  | ONone => Fails
  | o =>
    match s_cmd s with
    | CSaveTo => if negb (has_save (s_fields s)) then Fails
        else match o with OFreed => UB | _ => if ok then Next (PEnv (p_doc e) OFreed) else Fails end
    | _ => match o with OFreed => UB | _ => Next (PEnv (p_doc e) OFreed) end
    end
  end.
(** 1636-1705 cmd_help *)
Definition cmd_help (s : step) : option bool :=
  match help_of (s_fields s) with
  | Some a => Some (negb (cmd_beq (cmd_from a) CNone))
  | None => None
  end.
(** 3572-3632 perform_command, with 1813-1928 cmd_load, 1744-1811 cmd_tokenize, 2193-2208 cmd_delete, 2306 *)
Definition perform_command (s : step) (e : penv) (ok : bool) : performed :=
  match s_cmd s with
  | CNone | CNoOutput => Next e
  | CLoad => if ok then Next (PEnv true (p_out e)) else Fails
  | CToXmq | CToXml | CToHtmq | CToHtml | CToJson | CToText | CToClines | CRenderTerminal | CRenderHtml | CRenderTex | CRenderRaw =>
    if p_doc e then Next (PEnv true OData) else UB
  | CPrint | CSaveTo | CPager | CBrowser => cmd_output s e ok
  | CTokenize => if ok then Next (PEnv (p_doc e) OData) else Fails
  | CDelete => if has_xpath (s_fields s) then on_doc e ok else Fails
  | CDeleteEntity => if has_entity (s_fields s) then on_doc e ok else Fails
  | CAdd => if has_add (s_fields s) then on_doc e ok else UB
  | CHelp => match cmd_help s with Some true => Next e | Some false => Fails | None => ExitsWith 0 end
  | CReplace | CReplaceEntity | CSubstEntity | CSubstChars | CTransform | CValidate | CSelect | CForEach
  | CAddRoot | CStatistics | CQuoteC | CUnquoteC => on_doc e ok
  end.
(** 4054-4068: the commands that were performed (returned true), and the status of the program.
    [ok] tells for each command in turn whether it returns true. *)
Inductive ended := Ended (rc : nat) (done : list step) | Crashed (done : list step).
Fixpoint perform_all (ok : step -> bool) (l : list step) (e : penv) (done : list step) : ended :=
  match l with
  | [] => Ended 0 done
  | s :: l =>
    match perform_command s e (ok s) with
    | Next e => perform_all ok l e (done ++ [s])
    | Fails => Ended 1 done
    | ExitsWith rc => Ended rc done
    | UB => Crashed done
    end
  end.
Definition load_step (loads : bool) (file : option bytes) : step :=
  Step (if loads then CLoad else CNone) (match file with Some f => [f] | None => [] end)
    (match file with Some _ => set_in no_fields | None => no_fields end).
(** 4001-4086 main after the command line was split; the value of cmd_help is the status (4049-4052) *)
Definition run_commands (ok : step -> bool) (loads : bool) (file : option bytes) (steps : list step) : ended :=
  match steps with
  | s :: _ =>
    if cmd_beq (s_cmd s) CHelp then
      match cmd_help s with Some b => Ended (if b then 1 else 0) [] | None => Ended 0 [] end
    else perform_all ok (load_step loads file :: steps) (PEnv false ONone) []
  | [] => perform_all ok [load_step loads file] (PEnv false ONone) []
  end.
Definition xmq_main (F : files) (global : bytes -> global_result) (ok : step -> bool) (argv0 : bytes) (words : list bytes) : ended :=
  match xmq_parse_cmd_line F global argv0 words with
  | Parsed loads file steps => run_commands ok loads file steps
  | Refuses | Exits1 _ => Ended 1 []
  end.
