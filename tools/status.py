S['C01'] = ('proved', 'all code points 0..0x10ffff, any following bytes')
S['C02'] = ('partial', 'false as stated: overlong, surrogate and too large sequences are accepted (refuted by witnesses); the part that holds is proved')
S['C03'] = ('proved', 'also for texts that already contain the escape character; the asserted buffer size is exact')
S['C04'] = ('partial', 'no double dash is proved; that a trailing dash cannot remain is false (refuted)')
S['C05'] = ('proved', 'write_safe_html; reading back is specified by html_reads')
S['C06'] = ('partial', 'equal to a specification on the buffer bytes when stop points to a NUL and four more bytes are readable; the reads past the terminator and the missed html/json cases are refuted by witnesses')
S['C07'] = ('partial', 'proved for documents of at least one byte after the mark; a file holding only the mark is not recognised (refuted)')
S['C08'] = ('proved', 'heap model of the linked list; every history of push/pop/rock/size')
S['C09'] = ('proved', 'every history; out of bounds is a distinct outcome that never occurs')
S['C10'] = ('proved', 'every history of appends and drop_last_null')
S['C11'] = ('proved', 'any table size > 0, any history of puts of non-NULL values')
S['C12'] = ('proved', 'each key exactly once with its current value; size is the number of distinct keys')
S['C13'] = ('proved', 'sorted permutation, all indexes in range')
S['C14'] = ('proved', 'for every ascending table and for all tables in text.c; finding: the tables hold no code point above 0xffff')
S['C44'] = ('proved', '')
S['C21'] = ('partial', 'proved for texts without carriage return; output size and termination proved for every input; refuted for a lone carriage return, where the trimming reads past the end')
S['C22'] = ('proved', 'any number of quotes, any column; a carriage return counts as a newline, and the text has no NUL')
S['C23'] = ('partial', 'texts without carriage return and NUL; equal to the independent specification text_block, invariant under indentation')
S['C15'] = ('proved', 'every source followed by a NUL, every outcome')
S['C16'] = ('proved', 'every source, whatever follows it in memory')
S['C17'] = ('proved', 'every source followed by a NUL; every prefix of the reported tokens can be completed to a balanced list')
S['C18'] = ('partial', 'false as stated: a tab in parentheses, or a byte that starts no attribute in an attribute list, makes the program loop for ever (refuted); these are proved to be the only cases')
S['C19'] = ('partial', 'false as stated: a value missing at the end reads past the NUL, a leading bracket reads before the start (refuted); these are proved to be the only cases')
S['C20'] = ('partial', 'false as stated: the byte at stop is read and may become part of a token (refuted); proved when the byte at stop is a NUL')
S['C43'] = ('partial', 'false as stated: the place of a lost value may be a NULL pointer (refuted); proved for every other error')
S['C37'] = ('partial', 'proved for all numbers of characters 1..0x10ffff, in values, attributes and content; larger numbers wrap around or abort (refuted)')
S['C39'] = ('partial', 'the document with an implicit root is characterised for every source that is read; false as stated when a comment or text comes first or the first element is called like the root (refuted)')
S['C46'] = ('proved', 'without any assumption on content detection, except for the three json words, which are refused; the grammar leaves out namespaces, carriage returns inside quotes and comments, quoted doctypes')
S['C24'] = ('proved', 'every non-empty text, every printer state, every parser level')
S['C25'] = ('proved', 'every text with a newline, compact or not; what follows must not start with a slash or asterisk (an asterisk would continue the comment)')
S['C26'] = ('partial', 'false as stated: texts of quotes only, tabs and spaces only, three quotes in a row, continuation bytes of utf8 after a space or tab (refuted); proved for all other texts')
S['C27'] = ('partial', 'false as stated: a refutation for each condition of the class of documents for which it is proved')
S['C30'] = ('partial', 'false as stated: three quotes in a row in a text (refuted); proved for all documents without')
S['C42'] = ('partial', 'compact output, for the documents of C27')
S['C31'] = ('partial', 'UTF-8 texts without NUL: the quoted text denotes the text and no other, has no control character, and fits the buffer; reading it back restores texts without backslashes and without control characters lacking a named escape. Refuted: backslash and other control characters are not restored by xmq_unquote_as_c, invalid UTF-8 can leave a raw quote or read behind the text')
S['C45'] = ('partial', 'line always agrees, column agrees on the first line; on later lines the column is one less (refuted), invalid UTF-8 aborts (refuted)')
S['C32'] = ('partial', 'all texts and encodings but escaped slashes and surrogate pairs, for which it is false (refuted); an unterminated string is accepted (refuted)')
S['C33'] = ('partial', 'all JSON numbers but those starting with 0e are accepted; accepted texts have the characters, signs, dots and exponents of a number. Refuted: 0e5 and numbers before a tab are refused; -01, 1e5.3 and - before a comma are accepted')
S['C34'] = ('partial', 'it ends unless the source ends with a left brace or comma; refuted: these hang, and a missing comma aborts')
S['C40'] = ('proved', 'every list of children; what is written can be cut short by a NUL for unknown entities (shown)')
S['C41'] = ('partial', 'false as stated for empty brackets, which are removed too (refuted); exact otherwise')
S['C35'] = ('partial', 'false as stated; proved for all values of a class: plain different keys, texts whose characters JSON can print with the escapes used, names as keys of empty containers. Refuted: index suffix, underscore key, equal keys, empty container under other keys and control characters (output is not JSON)')
S['C38'] = ('partial', 'false as stated: an indented block loses its shape in the second pass, blank lines are lost one by one (refuted); proved for texts that start on the first line with at most one blank line at the end, and that repeated trimming always comes to an end')
S['C47'] = ('proved', 'texts without carriage return and NUL')
S['C28'] = ('partial', 'texts without spaces at the end of lines, and with a frame that keeps their spaces if they start or end with a quote or contain three; refuted for others')
S['C29'] = ('partial', 'documents of the class pnodes_ok (Pretty.v); each condition that is not met by a reachable document is shown by a refutation')
S['C42'] = ('partial', 'compact output, for the documents of C27; default output, for the documents of C29')
S['C36'] = ('partial', 'Proved for all sources and places between tokens: the tokens apart from white space are unchanged. The document is unchanged when quotes and comments of more than one line keep their columns and the values have no carriage returns; refuted without that.')
S['C48'] = ('partial', 'one line for all texts; read back for texts that C26 restores and that are shorter than 1024 bytes. Refuted: longer texts use the arguments twice, texts of quotes only are not restored, human readable lines keep newlines and do not separate fields')
S['C49'] = ('partial', 'tokens, lines, columns and errors for all sources; the document for sources without other carriage returns and without NUL that are taken for xmq. Refuted: a json word alone on its line is json with a newline and xmq with a carriage return and a newline; before a newline one carriage return is dropped, two are not')
S['C50'] = ('partial', 'Proved for all documents with one root where no prefix is declared again inside the scope of a declaration for it and only the root declares a default namespace; sources without namespaces give the document of the model without them. Refuted otherwise: a default namespace leaks to later siblings, a redeclared one does not apply to its own element, a valueless declaration takes the value of a later attribute, compound and entity values are misplaced')
S['C51'] = ('partial', 'Names, their order and number for all sources, and no prefix is changed or added; structure, attributes (with prefixes), values and texts for sources whose declarations have a text or quote as value, except where a processing instruction has attributes or children (refuted there). Refuted: an empty default namespace takes the prefix from the element')
S['C52'] = ('partial', 'Order and texts of the callbacks for all sources, runs and errors, and keys are followed by their values. Refuted: a name before an equals sign is reported as a name instead of a key when a no-break space comes between')
S['C53'] = ('proved', 'For a source followed by a zero byte')
S['C54'] = ('partial', 'All contents and schedules of reads for a file with a size; loaded bytes give the document of the buffer. Refuted for a file without positions (a pipe given by name): ftell is -1 and the first block overruns the buffer; a failing read of the standard input leaves no error number')
S['C55'] = ('partial', 'All documents, layouts and colors for terminals (output without escape bytes), html (no stray continuation byte after an escaped character) and tex (without the characters that tex needs escaped and that are not). Refuted outside of these conditions')
S['C56'] = ('partial', 'All sources and colors, with and without errors: html for all bytes with closed tags, terminals for sources without escape bytes. Refuted: nothing is written without colors, braces are lost in tex')
S['C57'] = ('partial', 'All documents in which no run of newlines stands alone in a text (next to nothing but references), and no newline is in a doctype or processing instruction. Refuted: the tag of a text of newlines only is never closed')
S['C58'] = ('partial', 'Proved for all texts of the grammar with namespaces in which every prefix is declared, none again inside of its scope, and only the root declares a default namespace; the order of declarations is not told. Refuted outside of these conditions')
S['C59'] = ('partial', 'Proved for all documents whose names, values and URIs are separated in the output and whose URIs need no escape, with prefixes declared and not declared again; documents that are read under C58 are of this kind as to their scopes. Refuted: URIs that need an escape, that contain a newline or end with a semicolon, and redeclared prefixes')
S['C60'] = ('partial', 'Proved for every grammar that is written as in IxmlSpec.v, with repetitions and options of factors that are not empty, sets whose names fit the buffer, and no rule named error; ends at the rules handed to yaep; C77 goes on through the parser. Refuted: empty groups, long sets, asserts, a hang, a second use of the grammar')
S['C61'] = ('partial', 'Proved for every tree that yaep can return, for grammars of C60 whose marks and aliases are kept by the reader (marks_ok), no insertions in attributes and one element at the top; that yaep returns such a tree: C79 and C80. Refuted: optional and repeated groups, strings and sets after a mark, marked sets, aliases of later alternatives and of uses, insertions in attributes, terminal marks that are not written')
S['C62'] = ('partial', 'Proved for all documents without references to entities whose texts are UTF-8; the entries can be read back if no name has a slash or an equals sign or starts with an at sign. Refuted: references are left out or are undefined behaviour')
S['C63'] = ('partial', 'Proved for all texts without NUL; through compact xmq for the texts of C27. Refuted: NUL, references')
S['C64'] = ('partial', 'Proved for all integers in range, in decimal without needless zeros, octal after 0 and hexadecimal after 0x, followed by anything that is not a letter or digit. Refuted: needless zeros, signs before 0x, out of range, comments or entities before or in the value. xmqGetDouble is not modelled')
S['C65'] = ('partial', 'Proved for references below an element at the top and outside of attributes (text replacement also in attributes); refuted for references in attributes (delete), at the top (use after free), without a root, and for substitute of named entities')
S['C66'] = ('proved', 'All counters, for all documents')
S['C67'] = ('partial', 'Proved for all commands: the command does not depend on the document, only plain names are defined, and what lines are added. That a variable has its value only for plain names that were not in the environment, without references; refuted otherwise. The fork and the shell are not modelled')
S['C68'] = ('partial', 'Invariant proved for all keys, given a readable byte behind the text and, for the end key, 100 bytes; movement on lines that fit. Refuted: long lines, the end key on short texts, reads behind the text, an empty first line. What is shown is not modelled')
S['C69'] = ('partial', 'delete: proved for all selections in which what is in a node comes after it (the order of the document). select: what is given is proved, each node without the selected nodes in it, for elements and texts; the order and completeness are refuted, as are two attributes of an element (use after free)')
S['C70'] = ('partial', 'Proved for all documents without references in style and script, and with such references to the entities of xml and to ascii numbers; refuted for others. That libxml2 reads what it has written is assumed')
S['C71'] = ('partial', 'Proved for all colours, marks, themes, names and for all texts that do not end with an underscore; refuted: texts that do, unknown marks, the dark theme in tex, long ids')
S['C72'] = ('partial', 'Proved for xmq, xml, html, json, ixml, text and detection, whatever the readers of xml, html, json and ixml do; refuted for htmq, c-lines, utf-16 and texts with zeros')
S['C73'] = ('proved', 'For every grammar that is taken')
S['C74'] = ('proved', 'Exact conditions in both modes; refuted: the name in the message about a loop, grammars without texts are taken, a second rule $S')
S['C75'] = ('proved', 'Taken texts are texts of the grammar without a condition; the converse and the exact place of errors if no rule starts with two symbols that can be empty before a third, refuted otherwise')
S['C76'] = ('proved', 'For all grammars and texts; with C75 also for the texts that are taken')
S['C77'] = ('partial', 'A tree is given for described texts only, and for all of them if no rule starts with two symbols that can be empty before a third; for grammars of C60 without loops in the generated rules and characters below 199998. Otherwise refuted; with large characters the program aborts (grammars without loops)')
S['C78'] = ('partial', 'The line for all texts, the column in the first line; the text shown for ascii texts with a zero behind the buffer; that the place is the first one if no rule starts with two symbols that can be empty, for continuations with characters of the content. Refuted: columns in later lines, characters of several bytes, no zero behind the buffer')
S['C79'] = ('partial', 'Every tree that is returned is a tree of the text, the walk ends and reads nothing outside of the sets, for all grammars and texts; the assertions hold if no rule starts with two symbols that can be empty, otherwise refuted. One parse without costs, every rule with all its symbols as children')
S['C80'] = ('partial', 'From the bytes of the grammar and the text to the document, for the grammars of C60 and C61 without loops in the generated rules, characters from 1 to 199997, documents with one element at the top; if the text is described an empty document or an abort needs a rule that starts with two symbols that can be empty, and this abort is shown (refuted)')
S['C81'] = ('partial', 'The warning means that there are two trees, for all grammars that give every rule once; no warning means that there is one tree, if no rule starts with two symbols that can be empty; without this condition the warning can be missing (refuted). Stated for the parse of the tokens; from the bytes of the ixml grammar: C82')
S['C82'] = ('partial', 'For grammars and texts as in C80 whose rules are all different: the warning is printed only if there are two trees; if no rule starts with two symbols that can be empty, exactly then, and without it the document equals every document of the grammar for the text; without this condition the warning can be missing (refuted)')
S['C83'] = ('partial', 'How words are split, which words a command takes, what is added, the order and the end at the first failure: proved for all command lines. That it does not crash: except with tokenize beside other commands and add without argument (refuted there); that all is performed: without for-each or no-output at the end, and with the conversion before the output. Refuted: delete-entity takes the next command as an argument, for-each with print, the status of help, the message for unknown commands, an example of the help text')
S['C84'] = ('partial', 'All bytes are written, the declaration is left out for version 1.0 without standalone, print is the same as save-to below 2 GiB, the file for the browser is in the current directory, a message if bytes are missing in a file: proved for all outputs. Refuted: --omit-decl with standalone, browse with --omit-decl, print from 2 GiB on, the status of save-to if bytes are missing')
S['C85'] = ('partial', 'Which options are taken (both directions), what they mean, and where the input comes from: proved for all command lines. Missing in C85_source_partial: the standard input with a grammar, and -i without a content that can be told from a command or an option; refuted there. Also refuted: grammars in .xml and .xmq files, two --trim options')
