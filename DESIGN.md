# Formal model of libxmq/xmq in Rocq

## Approach

The C code in /repo/src/main/c is modelled function by function as total,
computable Gallina functions over byte lists. Model files contain no proofs.
Each definition cites the file and lines it models, and says where it
simplifies.

* Bytes are `N`. A buffer is a byte list, split into the bytes before the
  reading position, the bytes up to stop and the readable bytes after stop.
  A read or write outside of this memory, or of an uninitialised variable, is
  a distinct outcome (`UB`, `PUB`, `BUB`), never a default value.
* Loops are structural recursion where the C loop visibly consumes its input.
  Otherwise they take fuel and return a distinct out-of-fuel value, which the
  theorems exclude (or, for a real non-termination, prove for every amount of
  fuel).
* `longjmp` to the error handler is the outcome `Err errno` / `PErr`.
* A failing `assert`, or `exit` after an internal error message, is the outcome
  `Abrt` (the library is built with asserts enabled).
* A false property is not weakened silently: a theorem `..._refuted` gives a
  witness, and the part that holds is proved with its condition in the
  statement, under a name that ends in `_partial`.
* Specifications (Utf8Proofs.utf8_spec, QuoteSpec, ParserSpec, Grammar,
  JsonSpec, TrimSpec, Respace, LineEnds, ...) do not use the functions of the model.

## Trusted base

* The kernel of Coq 8.16.1 (and `vm_compute`, which some examples and the
  checks of the Unicode tables use).
* No axioms. `Print Assumptions` follows each property theorem and prints
  "Closed under the global context" for every one. The files use the standard
  library only: NArith, ZArith, List, Bool, Arith, Lia, String, Ascii,
  Permutation, Sorted. No functional extensionality, no classical axioms, no
  axioms, module types or functors of our own. The list of axioms of a
  compiled file may show those of Coq.ssr.ssrunder (Under_rel), which the
  standard library loads with its tactics; no theorem depends on them.
* That the model is the C code: by reading, guided by the citations. The code
  was not run. The generated file UnicodeTables.v is made by
  tools/gen_unicode_tables.py from text.c.
* `size_t` and `int` are unbounded unless a comment says otherwise (so sources
  longer than 2^31 bytes are out of scope).

## What is modelled

| files | part of /repo/src/main/c |
|-------|--------------------------|
| Bytes, Outcome | character classes of text.c and xmq_internals.c; outcomes |
| Utf8 | text.c: encode_utf8, decode_utf8, num_utf8_bytes, str_b_u_len and relatives |
| Containers | stack.c, vector.c, membuffer.c, hashmap.c, quicksort_strings.c |
| Detect | xmq.c: xmqDetectContentType, skip_any_potential_bom, escape/unescape_xml_comment, write_safe_html, write_safe_tex |
| UnicodeTables, Category | text.c: category tables, category_has_code |
| Quote | xmq.c: find_line, xmq_un_quote, xmq_un_comment, xmq_trim_quote |
| Parser | parts/xmq_parser.c entirely, helpers of parts/xmq_internals.c (token scanners, counting of quotes, error positions), xmqTokenizeBuffer |
| Dom | xmq.c:1827-2664: xmqParseBuffer and the do_ callbacks that build the tree |
| NsDom | the same with namespaces: do_element_ns, do_attr_ns, do_ns_declaration, do_attr_key, update_namespace_href, create_node, and xmlNewNs, xmlSearchNs, xmlGetNsList, xmlSetNs, xmlNewNsProp of libxml2 |
| Load | xmq.c: load_file, load_stdin, xmqParseFile (the reading loop) and what is parsed after it; fread and read are given by a schedule of how many bytes each call returns, interruptions and errors |
| NsPrinter | parts/xmq_printer.c with namespaces: prefixes of elements and attributes, declarations after the attributes, the width used for alignment |
| Render | the printer with a theme: parts/xmq_printer.c, parts/utf8.c, parts/colors.c (getThemeStrings), xmq.c: setup_terminal_coloring, setup_html_coloring, setup_tex_coloring, xmq_internals.c: needs_escape, print_color_pre, print_color_post. With render_raw; without use_id, use_class, the page header and the style sheet; how tex treats several spaces is not modelled |
| Highlight | xmq.c: xmqTokenizeBuffer with the callbacks tokenize_TYPE, write_safe_html, write_safe_tex |
| Printer | parts/xmq_printer.c, parts/utf8.c (plain output), xmq_print_xmq, xmqCompactQuote |
| Line | xmq.c: xmqLinePrintf, both forms (vsnprintf is a parameter) |
| CQuote | text.c: xmq_quote_as_c, xmq_unquote_as_c, find_line_col |
| Json | parts/json.c: reader; xmq_parse_buffer_json |
| JsonPrint | parts/json.c: writer; xml.c: xml_collapse_text; xmq_print_json; fixup_json |
| Ixml | parts/ixml.c: the whole reader of ixml grammars, the generated rules and sets; xmq.c: xmqParseBufferWithIXML up to the call of yaep; yaep.c: the checks of names in yaep_read_grammar |
| IxmlDoc | the marks of the rules and uses; xmq.c: generate_dom_from_yaep_node, collect_text, the top of the document in xmqParseBufferWithIXML; yaep.c: the shape of the trees that yaep can return for the rules |
| Clines | xmq.c: xmq_print_clines, xmq_print_text, xmq_parse_buffer_text and the functions they call; libxml2's xmlNodeListGetString and the child that xmlNewReference gives a reference |
| Getters | xmq.c: xmqForeach, xmqGetName, xmqGetContent, xmqGetString, xmqGetInt, xmqGetLong and their Rel forms, on the nodes that an xpath selects; strtol, atoi, atol (undefined outside of the range) |
| TreeEdit | xmq-cli.c: delete_all_entities, delete_entities, replace_entity, replace_entities, substitute_entity, add_root, statistics |
| ForEach | xmq-cli.c: shell_safe, make_shell_safe_name, grab_name, append_text_node, append_text_children, grab_content, invoke_shell up to the fork |
| Pager | xmq-cli.c: the keys of page, find_next_line, find_prev_line, find_next_page, find_prev_page, with what they call; not what is shown |
| Select | xmq-cli.c: delete_xpath, cmd_select, on the places that an xpath selects; what is freed is kept as a list of places |
| Fixup | xmq.c: fixup_html, xmq_fixup_html_before_writeout, fixup_comments, xmq_fixup_comments_after_readin (libxml2 writes and reads in between) |
| ColorDef | parts/colors.c: string_to_color_def, hex_to_number, generate_ansi_color, generate_html_color, generate_tex_color; parts/default_themes.c; xmq.c: add_color and the colours, the style rules and the pre tag of setup_terminal_coloring, setup_html_coloring, setup_tex_coloring |
| Typed | xmq.c: xmqParseBufferWithType, xmqParseFileWithType, xmq_parse_buffer_text, xmq_parse_buffer_clines (the readers of xml, html, json and ixml are arguments) |
| Yaep | parts/yaep.c: yaep_read_grammar (terminals, rules, axiom, end marker, rule for errors), set_empty_access_derives, set_loop_p, create_first_follow_sets, check_grammar (symbols are names; translations and costs are left out) |
| YaepParse | parts/yaep.c: dotted rules and their lookahead at level 1, build_start_set, expand_new_start_set, complete_and_predict_new_state_set, perform_parse without error recovery, the first test of build_parse_tree (a dotted rule is a rule and a place, so two equal rules are one; the vectors of predictions of a core are lookups in its dotted rules) |
| YaepCache | parts/yaep.c: lookup_cached_set, check_cached_transition_set, save_cached_set, perform_parse with the table (the address of a set is its list of started dotted rules with their matched lengths, as set_insert keeps them in tables) |
| IxmlRun | xmq.c: xmqParseBufferWithIXML without the document (that is IxmlDoc) and without error recovery; parts/yaep.c: symb_finish_adding_terms, symb_find_by_code, read_input, yaepParse; refusing a grammar is a longjmp into a function that has returned, so undefined |
| IxmlReport | xmq.c: handle_yaep_syntax_error; parts/text.c: find_line_col (without overflow of int); parts/yaep.c: try_to_recover without recovery |
| YaepTree | parts/yaep.c: build_parse_tree for one parse without costs, with an abstract node with all children for every rule |
| IxmlWhole | xmq.c: all of xmqParseBufferWithIXML for one parse without error recovery (IxmlRun, YaepTree and IxmlDoc together); parts/yaep.c: names and marks of the nodes in build_parse_tree (any rule with the symbols of the node, as rules with the same symbols are not told apart) |
| YaepAmb | parts/yaep.c: ambiguous_p in build_parse_tree; xmq.c: the warning in xmqParseBufferWithIXML (for grammars that give every rule once: a rule given twice is two rules in the code, and one in the model) |
| IxmlWarn | xmq.c: the warning in xmqParseBufferWithIXML, from the bytes of the content; parts/yaep.c: yaepParse (ambiguous_p) |
| CmdLine | xmq-cli.c: cmd_from, cmd_group, handle_option (which words are taken; whether a file can be read is a parameter), xmq_parse_cmd_line, prepare_command (the load command), perform_command, cmd_output, cmd_help, main. Not the values of options, nor the result of a single command (a parameter) |
| CmdOutput | xmq-cli.c: cmd_output (print, save-to, browse), console_write, browse; xmq.c: the bytes to leave out in xmqPrint. The converted document is a parameter, and so is what the system does (a file can be opened, so many bytes are written); the form of the declaration is libxml2's |
| LoadCmd | xmq-cli.c: handle_global_option, the options in xmq_parse_cmd_line, cmd_load (which input is read and how; the parsing is not part of it). Options for messages, --lines and --xml-of-ixml are taken and change nothing in the model |
| Trim | xmq.c: trim_text_node, trim_node, xmqTrimWhitespace |
| *Spec, Grammar, NsGrammar, Compact, NsCompact, Pretty, Respace, LineEnds | specifications and classes of documents |
| *Proofs, Lex*, Build*, Leaf*, ... | proofs |
| Props* | the property theorems, with examples |

## What is not modelled

* libxml2: its tree is replaced by a small tree type (elements, attributes,
  texts, references, comments, processing instructions, doctype) with the
  functions that are called (xmlAddChild with merging of texts, xmlNewProp, ...)
  written by hand. Namespaces: a name with a colon, or an xmlns attribute, gives
  the outcome `Unmodelled` in Dom.v; NsDom.v models them, and agrees with Dom.v
  on everything Dom.v covers (NsPlain.v); NsPrinter.v is the printer for them. XML and HTML parsing and writing are libxml2's.
* of yaep.c: ambiguous parses kept in one tree (XMQ_FLAG_IXML_ALL_PARSES), costs,
  error recovery, and the read of order[-1] at the end of every rule in
  build_parse_tree (6738, its value is not used); XSLT, the CLI (xmq-cli.c) apart from
  TreeEdit, Select, ForEach, Pager, CmdLine, CmdOutput and LoadCmd,
  the page header and style sheet of html and tex output,
  allocation failure (except in load_file).

## Properties

`P` proved, `~` proved in part (the rest is refuted or restricted as said).
The exact theorem names are in MANIFEST.json.

| | status | how, and what is missing |
|--|--|--|
| C01 | P | case analysis of the four lengths with div/mod arithmetic, all code points |
| C02 | ~ | accepted sequences characterised; overlong, surrogate and > 0x10ffff sequences are accepted (refuted) |
| C03 | P | induction; the size that is asserted is exact |
| C04 | ~ | no double dash, by induction; a dash at the end can remain (refuted) |
| C05 | P | induction against the relation html_reads |
| C06 | ~ | equal to detect_spec if four bytes after stop are readable; reads behind the NUL, missed cases (refuted) |
| C07 | ~ | a file that is only a mark is not recognised (refuted) |
| C08 | P | heap of linked cells refines a list, for every history of operations |
| C09, C10 | P | refinement of a sequence, out of bounds never occurs |
| C11, C12 | P | refinement of a finite map, every history and table size |
| C13 | P | sorted permutation, loop invariants of the partition |
| C14 | P | binary search on ascending tables; all tables of text.c are ascending. Finding: no code point above 0xffff is in them |
| C15, C16, C17 | P | invariants over the mutual fuel-indexed parser, every source |
| C18 | ~ | progress measure; a tab in parentheses or a byte that starts no attribute loops for ever (refuted, and shown to be the only cases) |
| C19 | ~ | a missing value at the end reads behind the NUL, a leading bracket reads before the start (refuted, and the only cases) |
| C20 | ~ | the byte at stop is read (refuted); independence when it is a NUL |
| C21 | ~ | no read outside for texts without carriage return; sizes and termination for all; a lone carriage return reads outside (refuted) |
| C22 | P | equality with the specification text_block |
| C23 | ~ | equality with text_block, invariance of text_block; without carriage returns |
| C24, C25 | P | the scanner of the parser applied to the printer's choice |
| C26, C27 | ~ | parse of print by induction on the tree, through the grammar: the output is a text of Grammar.v that denotes the document (C46 then reads it). Each condition on documents has a refutation |
| C28, C29 | ~ | the same for the default output, where columns matter |
| C30 | ~ | every document without three quotes in a row in a text; refuted for those |
| C31 | ~ | relation c_string; refuted: backslash, other control characters, invalid UTF-8 |
| C32, C33, C34 | ~ | against RFC 8259 (JsonSpec); the differences are refuted |
| C35 | ~ | read then print denotes the same value, for a class of values; refutations for what is outside |
| C36 | ~ | simulation of two parser runs; tokens for all sources; the document when columns of several-line quotes are kept (refuted otherwise) |
| C37 | ~ | all numbers of characters; larger ones wrap (refuted) |
| C38 | ~ | refuted in general; class of texts for which it holds; repeated trimming ends |
| C39 | ~ | the document with an implicit root in terms of the one without; refuted as stated |
| C40 | P | the buffer is large enough for every list of children |
| C41 | ~ | exact but for empty brackets (refuted) |
| C42 | ~ | for the documents of C27 and C29 |
| C43 | ~ | the place of a lost value may be NULL (refuted); all other errors |
| C44 | P | induction on valid UTF-8 |
| C45 | ~ | line agrees; the column is one less on later lines (refuted) |
| C46 | P | tokens of every construct, callbacks of every construct, induction on the grammar |
| C47 | P | against TrimSpec and the relation "only white space removed" |
| C48 | ~ | the line is a text of the grammar; refuted for texts of 1024 bytes and more, for quotes only, and for human readable lines |
| C49 | ~ | simulation of two parser runs on related states; values of quotes and comments by the specification of text blocks; refuted for json words |
| C50 | ~ | invariant of the builder on all tokens (scopes of the open elements, table of namespace objects), on scopes without shadowing; refuted with shadowing |
| C51 | ~ | invariant of the builder: names so far are the ones written so far; structure, attributes and values by a simulation with the builder without namespaces on joined tokens; refuted for xmlns='' and for attributes of processing instructions |
| C52 | ~ | grammar of tokens (kinds and texts) as an inductive relation, induction along the parser; a key is not always reported as one (refuted) |
| C53 | + | C52 with C15: the tokens of an accepted source are a split of the source into texts of the grammar |
| C54 | ~ | induction along the schedule of reads: what was read so far is a prefix of the content; the buffer has a slot for each byte; refuted for files without positions |
| C55 | ~ | simulation of the printer with a theme by the printer without: each string that is written shows the text that the plain printer writes; refuted for escape bytes (terminal), stray continuation bytes (html), percent signs and backslashes (tex) |
| C56 | ~ | C15 (the texts of the tokens are the source) and the markup around each token; nothing is written without colors, and tex is refuted |
| C57 | ~ | every function of the printer leaves the open tags as they were; inside of a quote the tag is closed and opened again; refuted for a text of newlines only |
| C58 | ~ | grammar of texts with prefixes and declarations (NsGrammar.v); each construct is read by the parser with its tokens, the callbacks on them follow the scopes (table of namespace objects, default namespace), induction on the written tree; refuted for redeclared and undeclared prefixes and defaults below the root |
| C59 | ~ | the compact output of a document is a text of the grammar of C58 (chunks with their first and last bytes, as for C27), which means the document; refuted for URIs that need an escape or a separator |
| C60 | ~ | specification: the texts a grammar describes, how a grammar is written, what BNF rules derive (IxmlSpec.v); the reader leaves exactly the rules of a direct translation of the grammar (IxmlTrans.v, IxmlParse.v); names generated for groups, repetitions and sets do not meet (IxmlNames.v), and the rules derive what the grammar describes, by induction on derivations both ways (IxmlLang.v, IxmlUse.v); C77 goes on through the parser; refuted for empty groups with a repetition, long sets, and others |
| C61 | ~ | specification: the items (elements, attributes, characters, insertions) that a grammar gives for a text, and the document with these items (IxmlDocSpec.v); the rules with their marks give the same items, by induction on derivations both ways (IxmlOut.v, IxmlOutUse.v), trees of yaep are derivations with items (IxmlTree.v), and the document is made by induction on the tree; a printer shows that every grammar can be written (IxmlWrite.v); refuted for marks and aliases that the reader loses |
| C62 | ~ | specification: the entries of a document and how entries are written as lines (ClinesSpec.v); by induction on the tree, and the lines are read back by their first equals sign and closing quote; refuted for references |
| C63 | ~ | reading and printing a text; through compact xmq with C27; refuted for references and NUL |
| C64 | ~ | numerals as an inductive relation (GettersSpec.v), induction on the digits; from the source to the number with C46; refuted for needless zeros, signs before 0x, values out of range, and values that are not the first child |
| C65 | ~ | what is read in a document as a sequence of bytes, references and elements (TreeEditSpec.v), induction on the tree; refuted for references in attributes, at the top, beside attributes, and for substitute, which does nothing |
| C66 | P | sums over the list of all nodes, by induction |
| C67 | ~ | relation between the command, the changed command and the lines of the environment (ForEachSpec.v); induction on the command. Proved for all commands; that a variable has its value in the shell only for plain names that were not in the environment; refuted otherwise |
| C68 | ~ | invariant over all sequences of keys, if a byte behind the text is readable and the end key is not used on short texts (refuted otherwise); down and up on lines that fit on the screen; refuted for long lines, where up is stuck |
| C69 | ~ | all nodes with their paths, and which of them are left, as relations (SelectSpec.v); induction on the tree and on the selection from its end; selections in which something in a node comes after it. Refuted for select: the order, nested nodes, two attributes of one element |
| C70 | ~ | relation between the documents (PropsFixup.v), induction on the tree with C03 and C04; for entities of xml and ascii numbers; refuted for others in style and script, which are lost, and writing changes the document |
| C71 | ~ | notation and escape sequence, css rule, tex definition as relations (ColorDefSpec.v); digits by arithmetic, numbers by induction, buffers by lengths; refuted: a text that ends with an underscore is read behind its end, unknown marks are not refused, tex has always the light theme, a long id or class leaves the pre tag open |
| C72 | ~ | a relation between asked type, content and reader (TypedSpec.v), by cases; xmq documents with C06, C07, C54 and C58; refuted: htmq and c-lines cannot be loaded, c-lines and utf-16 fail without an error, a negative json number is refused, a text is cut at a zero |
| C73 | P | derivations of sentential forms (YaepSpec.v); the loops over the rules only raise flags, so they end, and at the end nothing can be raised (YaepFix.v); sound by invariant, complete by induction on derivations (YaepProofs.v) |
| C74 | P | taken iff the names are in order, the start derives a text and nothing derives itself; the loop check finds exactly the nonterminals that occur alone and lead to a loop (pigeonhole over chains of single nonterminals); every reported error is justified; refuted: the nonterminal that is named need not loop, a grammar without texts is taken, a second $S is taken |
| C75 | P | the invariant of each state set: a dotted rule in it matched a piece of the text and its left side occurs behind what was read (sound); under the condition on empty symbols every dotted rule that is viable and fits the next token is in the set, by induction on the number of the set, on the size of derivations (completion) and on the length of derivations (prediction) (YaepParseFacts.v, YaepTrees.v, YaepParseProofs.v); refuted without the condition |
| C76 | P | the completion of a set at another place goes in lockstep if the sets at its origins are the same; invariant of the table: each result was built at its place from the sets before it (PropsYaepCache.v) |
| C77 | ~ | the rules of C60 meet the conditions of C74, C75 and C76: names, terminals and loops are carried over, derivations of the two specifications are the same, the codes of the characters are found again (PropsIxmlRun.v); refuted for grammars with loops, for two empty symbols, and for the returned value; large characters abort, for every grammar without loops |
| C78 | ~ | lines and columns by induction on the text; the place from C75 through the translation of the grammar, for all continuations with characters of the content; the bytes that are shown for ascii texts (PropsIxmlReport.v); refuted for columns after the first line, characters of several bytes, and buffers without a zero behind them |
| C79 | ~ | each state set holds the completed rules that its dotted rules need (from the invariants of C75, extended to rules completed over empty symbols), so a candidate is always found; induction on a measure of the place and the dot gives the end of the walk and the tree (YaepTreeProofs.v, PropsYaepTree.v); refuted for rules that start with two empty symbols |
| C80 | ~ | the tree of C79 with marks is one of the trees of C61: induction on the marking relation, the codes of terminals are unique (PropsIxmlWhole.v); totality of the document for characters; refuted (abort) for rules that start with two empty symbols |
| C81 | ~ | two candidates for a symbol in one place give two trees: they differ in the rule, in the place where they start, or are the same dotted rule reached in two ways (over an empty symbol or over a part of the text), for which no list of a state set holds a dotted rule twice; conversely all completions that any tree needs are in the state sets (from C75 and C79), so if there was one candidate at each symbol any tree is the one that was built; both by induction on the walk (YaepAmbProofs.v, PropsYaepAmb.v); refuted for rules that start with two empty symbols |
| C82 | ~ | C81 for the rules that the ixml reader builds, with C80 (text to document) and C61 (documents follow the marks): two derivations with marks over the same tree without marks give the same document, as every rule is given once (PropsIxmlWarn.v); refuted for rules that start with two empty symbols |
| C83 | ~ | the two loops over the words as one recursion; equal to a relation that splits the words into commands and arguments (both directions), and to a relation for the added commands, with an invariant for what is remembered (PropsCmdLine.v); performing: induction on the commands, with the state of the output. Which words a command takes: a table of options and of the number of other words, with a measure on the fields that are set. Refuted: delete-entity takes the next command as an argument, for-each with print, tokenize after other commands, add without argument, the status of help, the message for unknown commands, an example of the help text |
| C84 | ~ | lists of bytes: what is left out and what is written are prefixes and suffixes of the output; the number for printf with its 32 bits; the name for the browser by induction on the name of the input (PropsCmdOutput.v). Refuted: --omit-decl with standalone, browse with --omit-decl, print of 2 GiB, the status of save-to |
| C85 | ~ | the chain of comparisons as one table of cases; then induction on the options, with relations for "one of its words is given" and "the last that chooses" (PropsLoadCmd.v). Which lines are taken: both directions, with the number of grammars. Any order: from what each option means. The rest of the line is read as in C83 (C85_line). Refuted: a grammar with the standard input, -i with the name of a command or -, a grammar in .xml or .xmq, two --trim |

## The log of edits (seeded/LOG.jsonl)

* `theorems_failed`: the lemma, example or theorem at which Coq reported an error; in
  each file only the first one is seen, since Coq stops there.
* `theorems_not_rebuilt`: theorems of the claim that come later in such a file or are in
  a file that needs it.  This is computed from the files (as they are now), not
  observed.  They were not checked again; some of them may have another proof.
* A proof that breaks does not show that the statement is false of the edited model:
  most edits (416 of the first 482) break a lemma first, not a theorem of the claim.
* Until 550 entries `theorems_failed` named all theorems of the claim as soon as the
  build broke.  The entries were made again from the records of the runs.  One edit
  turned out to leave the theorem of its claim standing (NsDom.v attr_ns, C50; noted
  there).

## Findings

Beside the refutations above, reading and proving showed:

* Builder: `?foo` without a value leaves the parser in the state of a
  processing instruction, so `?foo b=1` gives `?foo=1`; the attributes of
  `?foo(k=1)` are given to the element before it; `?foo=''` reads before the buffer; `xmlns` without a
  value leaves the state of a declaration; `&#-5;` gives an invalid byte;
  `&#0;` and `&#;` give an empty text; `a=` and `{a=}` are accepted.
* JSON reading: `{` and a trailing comma in an object hang; `[` and `[1 2]`
  abort; `[1,]` and unterminated strings are accepted; `\/` is refused;
  surrogate pairs give six invalid bytes; `0e5` and a number before a tab or
  carriage return are refused; `-01`, `1e5.3` and `-`, `1e`, `1.` before a comma
  are accepted; `\u0000` cuts the text.
* JSON writing: an index suffix of a key is lost; `{"":{}}` gives `{{}}` and
  `{"1":[]}` gives `{[]}`; control characters are written `\xHH`, `\a`, `\v`;
  `{"a":{"_A":"x","b":1}}` gives `{"a":[1]}`.
* Entities: decode_entity_ref gives 0 for `#x41` and `amp`, which ends the
  text when children are collapsed.
* Default output: spaces at ends of lines are lost; framed quotes lose their
  common indentation; a quote character next to a newline at an end gains a
  newline; texts of tabs only or two quotes spill to siblings; ends of
  comments are lost; an attribute with a tab or two spaces miscounts the
  column; an entity directly after `=` is swallowed; a processing instruction
  with a quote gains a space; a document `true` is read back as JSON.
* Printing: continuation bytes of utf8 that come directly after a space or tab
  (text that is not utf8) are lost, in quotes and in comments.
* write_safe_tex does not escape all characters special to TeX.
* `true` with a newline is taken for JSON, with a carriage return and a newline
  for xmq (C49): the check for a word of json allows one byte after the word.
  One carriage return before a newline in a quote is dropped, of two one stays.
* Keys (C52): with a space and a no-break space between a name and its equals sign the
  name is reported with handle_element_name instead of handle_element_key.
* Namespaces (C50, C51): `a { b(xmlns=1) c }` puts c into namespace 1, since the
  default namespace is not restored at the end of b; in `a(xmlns=1) { b(xmlns=2) }`
  b is in 1, and in `a(xmlns:x=1) { x:b(xmlns:x=2) }` x:b is in 1;
  `x:a(xmlns:x=1 xmlns='')` loses its prefix; `a(xmlns=('x'))` gives a text;
  `a(k=1 xmlns:y=&b;)` adds the entity to k; in `a { x:b(xmlns:x) c(k=5) }` x is
  declared as 5 and k is empty. The printer writes `xmlns:x` without a value for
  a prefix that is not declared, so `a { x:b c(k=5) }` is printed as such a
  source.
* Reading (C54): for a file without positions (a fifo given by name) ftell
  returns -1, the buffer has size 0 and up to 10000 bytes are written to it;
  when the standard input cannot be read the error number stays 0; a file that
  shrinks while it is read leaks the buffer.
* Colors (C55): an escape byte in a comment reaches the terminal; in html a stray
  continuation byte after `&`, `<` or `>` is lost; in tex `%`, `$`, `^` and `~`
  are not escaped, so `a=5%` loses the rest of the line and the closing brace,
  and a backslash becomes `\backslash;`, which is seen with a semicolon.
* Highlighting (C56): with XMQ_RENDER_PLAIN only the (missing) color strings are
  written, so the output is empty; in tex braces, `#`, `%`, `$`, `^` and `~` are
  not escaped, and a backslash becomes a line break.
* Html (C57): the tag of a quote whose text is two or more newlines is never
  closed: in print_quote_lines_and_color_uwhitespace the branch for only newlines
  does not write the string after the color.
* Printing (C59): the URI of a declaration is printed like a quoted text but
  never in parentheses: a URI that needs an escape gives `xmlns:x=&#39;'b'`, which
  is refused, or `xmlns:x=&apos;`, which is read as an entity inside of the element.
* Ixml (C60): `()?`, `""*` and the like apply to the factor before, or abort;
  the name of a set with more than about 250 characters overflows a buffer of 1024 bytes;
  a code above 10ffff (`#110000` in a set, a text with such a code) is used as an
  index into an array of 110000 entries, hexadecimal digits above 32 bits are dropped,
  and names of ranges above 10ffff are cut and can be equal; `a: ["x" {` never
  returns; `+#41`, `[-#41]`, `~"x"`, `"a"++.`, and `b> .` fail an assert; two comments
  in a comment, a first rule named ixml, an empty alternative before a semicolon or first
  in a group and a range from a doubled quote are refused; commas may be missing;
  a rule named error is refused by yaep; a grammar can be used only once, since the
  index of the next rule is not reset. From reading yaep.c, not proved: a
  nonterminal that derives itself, as in `("a"?)*`, is refused, and the error
  is raised with longjmp to a function that has returned.
* Ixml documents (C61): the mark of the last factor is left over for the rule that is made
  for an optional or repeated group, string or set, so that `(b, @c)?` becomes an
  attribute named `|0` and `^"xy"?` an element named `|0`; `^["x"]` becomes
  an element named after the set; a set repeated after an attribute becomes an attribute for
  each character, named after the set; the alias of a rule is used for its first alternative only;
  the alias of a nonterminal in an alternative is never used; an insertion in an attribute
  is left out; the mark of a terminal node is not written by yaep for some
  nodes and is read anyway; an element at the top followed by a text is lost.
* C-lines (C62): a reference to an entity is left out, with its element if it is the only
  child; a reference to lt, gt, amp, quot or apos makes the length and type of an xmlEntity
  be used as the address of an attribute; an attribute that consists of references is a NULL
  given to strlen. From reading, not modelled: the attribute declarations of a doctype
  are taken for an attribute as well. Lines do not show whether two values are in one
  element or in two elements of the same name.
* Text (C63): a reference is printed as `<ENTITY>` and its name.
* Getters (C64): "0809" is 0, "0123" is 83 but "-0123" is -123; "-0x10" and "0X10" are 0;
  "0x100000001" is 1 as an int, and "3000000000" is undefined (atoi). Only the first child is
  looked at: a comment before the text is taken for the value, and a value ends at an entity.
* Edits of entities (C65): references in attributes are not deleted; a reference at
  the top of the document is freed and then used; without an element at the top NULL is used; a node that
  replaces a reference in an attribute is put among the texts of the attribute, which libxml2 does
  not write; substitute --entity changes nothing for named entities.
* for-each (C67): `${a-b}` and `${a_b}` are the same variable; a variable that is in
  the environment already is there twice, the old value first; references are the word TODO
  or are left out; a comment outside of the root makes it use NULL.
* Pager (C68): up does not move behind a line that is at least as long as the screen is
  wide; the end key on a text of less than 100 bytes shows memory before it; a text that ends
  in an escape sequence, as coloured output can, and a long last line, make it read the byte
  behind the text; if the first line is empty up skips the second one.
* select (C69) gives the nodes from the last to the first; a selected node is missing
  in another selected one; two attributes of an element, or two comments in it, are a use
  after free; with something outside of the root selected NULL is used. From reading
  libxml2, not modelled: xmlXPathFreeObject looks at the type of every selected node,
  also after delete and select have freed them.
* Writing xml and html (C70): in style and script, also in xml, a reference to an
  entity like nbsp is lost, `&#8364;` becomes one byte that is not UTF-8, `&#x41;` is
  lost; a reference to an entity named style or script is lost everywhere. Writing changes the
  document: a second output has other comments than the first.
* Colours (C71): the memory behind `#aabbcc_` and `#aabbcc_B_` is read. `#aabbcc_i` is
  accepted. A colour that is not readable is shown on a terminal with the parameters -1.
  generate_html_color always returns false. With tex and the dark theme the colours are
  those of the light theme, bold and underline those of the dark one. The pre tag of html
  is cut to 1022 bytes: with a long id or class it is not closed.
* Loading as a type (C72): nothing can be loaded as htmq or as c-lines, though both
  have cases of their own in the switch; for c-lines and for utf-16 the load fails with no
  error number. `-12` is refused as json. As text, what follows a zero byte is lost silently.
* Grammars that yaep takes (C74): the nonterminal that is reported as "can derive only
  itself" need not derive itself, it may only lead to one that does. A grammar from
  which no text derives is taken, since the rule for errors that is added to the start
  derives something. A rule called $S is refused only if it is the first one.
* The parser refuses texts of the grammar (C75_all_texts_refuted): a dotted rule that
  starts at the current place is not added to a state set if the same dotted rule is
  there with another origin, reached over empty symbols (set_add_initial_dotted_rule,
  yaep.c:4208-4212 compares dotted rules only). With the ixml grammar
  `S: A,"x"; "n",A,"y". A: N,M,P. N: "n"; . M: "m"; . P: "p".` the text npy is refused,
  although npx, nmpy and nnpy are taken. From reading xmq.c:4636-4655, not proved: for
  a text that is refused xmqParseBufferWithIXML returns true and leaves the document
  empty.
* Parsing with ixml (C77): a repetition of something that can be empty (`b*` with
  `b: "x"?`) gives rules that yaep refuses; xmqParseBufferWithIXML then jumps with
  longjmp to ixml_build_yaep_grammar (ixml.c:1541), that has returned, which is undefined
  (C77_repeated_empty_refuted).  A character from U+30D3E on in the text or in the
  grammar fails the assert in symb_finish_adding_terms (C77_large_character_aborts).
  On a syntax error true is returned, without a tree (C77_returned_value_refuted).
  Two symbols that can be empty at the start of a rule: a described text has no tree
  (C77_two_empty_refuted).
* Syntax errors with ixml (C78): the column starts at 1 in the first line and at 0 in
  all others (C78_column_refuted); the number of the character is taken for an index of
  bytes, so the mark is at a wrong place behind characters of several bytes
  (C78_mark_refuted); up to 20 bytes are read from the place on until a zero, also
  behind the end of the buffer (C78_overrun_refuted).
* C79: a text is described by the grammar and taken by the parser, but an assertion in
  build_parse_tree fails and the program aborts, if a rule that starts with two symbols
  that can be empty was also started before at another place, e.g. `S: X, 'c'; 'a', X,
  'd'. X: A, C. A: 'a'; . C: 'b'; .` with the text `ad` (C79_assertion_refuted).
* C80: the failing assertion of C79 is reached from xmqParseBufferWithIXML with the
  grammar `s: x, "c" | "a", x, "d". x: n, m. n: "a"?. m: "b"?.` and the text `ad`
  (C80_aborts_refuted).
* C81: the warning for an ambiguous text can be missing, if a rule that starts with two
  symbols that can be empty was also started before at another place: with
  `S: X, 'c'; 'a', X, 'd'. X: ; A, C. A: 'a'; . C: 'b'; .` the text `ad` has two trees and
  no warning is printed (C81_missing_warning_refuted).
* C82: the same from ixml: `s: x, "c" | "a", x, "d". x: | n, m. n: "a"?. m: "b"?.` gives two
  documents for the text `ad`, with and without the elements n and m in x, and no warning is
  printed (C82_missing_warning_refuted).
* C83: `xmq a.xmq for-each //b --shell=ls print` performs the for-each and then fails with "no
  output found", as no to-xmq is added beside a for-each; with print before the for-each it
  fails at once (C83_print_with_for_each_refuted). With a tokenize command the file is not
  loaded, so other commands before it, as in `xmq a.xmq select /a tokenize`, use a null
  pointer; so does `xmq a.xmq add` (C83_crash_refuted; these are the only crashes that
  come from the command line: C83_crash_only_partial). `xmq help delete` ends with status 1 and
  `xmq help nosuch` with 0 (C83_help_status_refuted). `xmq a.xmq selct /a` tells that there is no
  command "a.xmq": the message names the word before (C83_names_wrong_word_refuted). The last
  example of `xmq --help` uses a command noout that does not exist
  (C83_help_example_refuted). `xmq a.xmq delete-entity DATE to-xml` takes to-xml as an argument of
  delete-entity and prints xmq; `for-each --shell=ls //b` takes the option as the path and
  is refused (C83_delete_entity_refuted). From reading, not modelled: the text of an error, which contains a line
  of the source, is used as a format string (xmq-cli.c: fprintf(stderr, error, command->in)).
* C84: to-xml --omit-decl leaves out 39 bytes, the length of the usual declaration. For a document
  with standalone="yes" the rest of the declaration is printed before the document: `andalone="yes"?>`
  (C84_standalone_refuted; it is right exactly for versions of three characters and no standalone,
  C84_omit_decl_only). `xmq a.xml to-xml -o browse` writes the output from its start, with the declaration, and
  loses the last 39 bytes (C84_browse_omit_refuted). print gives the length to printf as an int: with
  2 GiB bytes after the output are read, with 4 GiB nothing is printed
  (C84_print_large_refuted). If the disk is full save-to prints a message but the status is that of
  success (C84_save_status_refuted), and browse ends with it even if its file cannot be opened
  (C84_browse_status_refuted). From reading, not modelled: bytes that are lost only in fclose are not
  reported.
* C85: `xmq --ixml=g.ixml < text` (or with - for the file) does not read the standard input: the document is
  empty, and the status is that of success (C85_grammar_stdin_refuted). `xmq -i select`, `xmq -i -` and `xmq -i`
  call strlen with a null pointer, and `xmq -i -5` is refused as an option (C85_content_refuted; these are the only
  null pointers here, C85_crash_only). For --ixml= the message offers .xml and .xmq files, but these are
  refused as unrecognized (C85_grammar_name_refuted). Of `--trim=none --trim=heuristic` both stay
  set, in any order (C85_trim_refuted). With a grammar --root, --trim and --no-merge have no effect
  (C85_source_partial: they are not passed on).
