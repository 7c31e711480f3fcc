{"id": "C01", "title": "UTF-8 encode/decode round trip", "statement": "Encoding any Unicode code point to UTF-8 and decoding the bytes gives the same code point back, consumes exactly the bytes produced, and every produced byte is a byte.", "quantifier": "all code points 0..0x10FFFF and all bytes that may follow the encoded character", "why_tests_cant": "1.1 million code points times arbitrary following bytes; a test samples a few boundaries", "anchors": ["src/main/c/parts/text.c: encode_utf8", "src/main/c/parts/text.c: decode_utf8"]}
{"id": "C02", "title": "UTF-8 decoding accepts only well-formed UTF-8", "statement": "Decoding reports success only for the shortest-form encoding of a Unicode scalar value.", "quantifier": "all byte strings", "why_tests_cant": "needs the absence of every overlong, surrogate or out of range sequence", "anchors": ["src/main/c/parts/text.c: decode_utf8"]}
{"id": "C03", "title": "XML comment escaping is reversible", "statement": "Escaping a comment for XML output and unescaping it on XML input gives back the original comment text.", "quantifier": "all NUL-free comment strings, including ones that already contain the escape character", "why_tests_cant": "strings that already contain escape sequences, or dashes at the very end, are unbounded in number", "anchors": ["src/main/c/xmq.c: escape_xml_comment", "src/main/c/xmq.c: unescape_xml_comment"]}
{"id": "C04", "title": "Escaped XML comments contain no double dash", "statement": "The text written between <!-- and --> never contains two dashes in a row (and never ends with a dash).", "quantifier": "all NUL-free comment strings", "why_tests_cant": "a single missed position breaks the generated XML", "anchors": ["src/main/c/xmq.c: escape_xml_comment"]}
{"id": "C05", "title": "HTML token rendering is injection-safe and lossless", "statement": "The text written for a token when rendering to HTML contains no raw < > & or double quote other than the escapes themselves, and the token text can be recovered from it.", "quantifier": "all token byte strings", "why_tests_cant": "safety must hold for every byte at every position", "anchors": ["src/main/c/xmq.c: write_safe_html"]}
{"id": "C06", "title": "Content type detection", "statement": "Content type detection depends only on the bytes of the buffer, ignores leading XML whitespace, and classifies by the documented first-character rules.", "quantifier": "all buffers, all bytes after the buffer, all amounts of leading whitespace", "why_tests_cant": "unbounded buffers and unbounded whitespace/comment prefixes", "anchors": ["src/main/c/xmq.c: xmqDetectContentType", "src/main/c/xmq.c: find_word_ignore_case"]}
{"id": "C07", "title": "Byte order mark handling", "statement": "A UTF-8 byte order mark in front of a document is skipped and does not change how the document is read; a UTF-16 mark is refused; anything else is left alone.", "quantifier": "all buffers, of any length including 0 to 3", "why_tests_cant": "the short-length corner cases and arbitrary bodies", "anchors": ["src/main/c/xmq.c: skip_any_potential_bom"]}
{"id": "C08", "title": "Stack and queue semantics", "statement": "A stack returns pushed items last-in first-out, rocking the stack returns them first-in first-out, and the reported size is the number of items held.", "quantifier": "all sequences of push, pop and rock operations", "why_tests_cant": "histories are unbounded", "anchors": ["src/main/c/parts/stack.c: stack_push", "src/main/c/parts/stack.c: stack_pop", "src/main/c/parts/stack.c: stack_rock"]}
{"id": "C09", "title": "Vector semantics", "statement": "Pushing to the back of a vector and reading by index behaves like a sequence, and no write or read leaves the allocated storage.", "quantifier": "all sequences of push_back / pop_back / element_at", "why_tests_cant": "growth steps at every size must preserve the contents", "anchors": ["src/main/c/parts/vector.c: vector_push_back", "src/main/c/parts/vector.c: vector_pop_back", "src/main/c/parts/vector.c: vector_element_at"]}
{"id": "C10", "title": "Memory buffer semantics", "statement": "A memory buffer holds exactly the concatenation of everything appended, and never writes outside its allocation.", "quantifier": "all sequences of appends of any lengths", "why_tests_cant": "the growth policy must leave room for every size of append at every fill level", "anchors": ["src/main/c/parts/membuffer.c: pick_buffer_new_size", "src/main/c/parts/membuffer.c: membuffer_append_region", "src/main/c/parts/membuffer.c: membuffer_append_char", "src/main/c/parts/membuffer.c: membuffer_append_null"]}
{"id": "C11", "title": "Hash map is a finite map", "statement": "Looking up a key returns the last value put for that key, or nothing if it was never put; other keys are unaffected; the size is the number of distinct keys.", "quantifier": "all histories of puts, all keys (colliding or not), all table sizes", "why_tests_cant": "histories and collisions are unbounded", "anchors": ["src/main/c/parts/hashmap.c: hashmap_put", "src/main/c/parts/hashmap.c: hashmap_get", "src/main/c/parts/hashmap.c: hashmap_size"]}
{"id": "C12", "title": "Hash map iteration is complete", "statement": "Iterating over a hash map visits every key exactly once with its current value.", "quantifier": "all maps reachable by any history of puts", "why_tests_cant": "histories and collisions are unbounded", "anchors": ["src/main/c/parts/hashmap.c: hashmap_next_key_value"]}
{"id": "C13", "title": "String sorting is correct", "statement": "Sorting an array of strings leaves a sorted permutation of the input and touches only indexes in range.", "quantifier": "all arrays of strings, including duplicates and already sorted ones", "why_tests_cant": "orderings are unbounded", "anchors": ["src/main/c/parts/quicksort_strings.c: quicksort_strings"]}
{"id": "C14", "title": "Unicode category lookup", "statement": "A code point is reported as a member of a category exactly when it is listed in that category's table.", "quantifier": "all sorted tables of any length and all code points", "why_tests_cant": "binary search boundary errors only show for particular table lengths and positions", "anchors": ["src/main/c/parts/text.c: category_has_code"]}
{"id": "C15", "title": "Tokens cover the source", "statement": "When tokenizing succeeds, the token texts put one after the other are exactly the source; when it fails, they are a prefix of the source.", "quantifier": "all xmq sources", "why_tests_cant": "must hold for every source, it is what makes syntax highlighting lossless", "anchors": ["src/main/c/parts/xmq_parser.c: parse_xmq", "src/main/c/xmq.c: xmqTokenizeBuffer"]}
{"id": "C16", "title": "Token positions are right", "statement": "Every token is reported with the line and column at which its text starts, lines counted by newlines and columns by characters (not bytes).", "quantifier": "all xmq sources and every token in them", "why_tests_cant": "multi-line tokens, UTF-8 and namespaces combine without bound", "anchors": ["src/main/c/parts/xmq_internals.c: increment", "src/main/c/parts/xmq_parser.c: parse_xmq_element_internal"]}
{"id": "C17", "title": "Brackets are balanced", "statement": "When tokenizing succeeds, the brace, attribute-parenthesis and compound-parenthesis tokens are properly nested and closed, and at no point have more been closed than opened.", "quantifier": "all xmq sources", "why_tests_cant": "nesting depth is unbounded", "anchors": ["src/main/c/parts/xmq_parser.c: parse_xmq_element_internal", "src/main/c/parts/xmq_parser.c: parse_xmq_compound"]}
{"id": "C18", "title": "Tokenizing terminates", "statement": "Tokenizing any source terminates with success or a reported error.", "quantifier": "all xmq sources", "why_tests_cant": "termination on every input cannot be tested", "anchors": ["src/main/c/parts/xmq_parser.c: parse_xmq_attributes", "src/main/c/parts/xmq_parser.c: parse_xmq_compound_children", "src/main/c/parts/xmq_internals.c: eat_xmq_token_whitespace"]}
{"id": "C19", "title": "Tokenizing is memory safe", "statement": "Tokenizing a buffer (with its terminating NUL) reads no byte outside of it.", "quantifier": "all xmq sources", "why_tests_cant": "an over-read needs the one input that triggers it", "anchors": ["src/main/c/parts/xmq_parser.c: parse_xmq_value", "src/main/c/parts/xmq_parser.c: possibly_lost_content_after_equals", "src/main/c/parts/xmq_parser.c: count_xmq_slashes"]}
{"id": "C20", "title": "Result depends only on the buffer", "statement": "The tokens of a buffer given by start and stop do not depend on the bytes that happen to follow stop.", "quantifier": "all sources and all following bytes", "why_tests_cant": "the following bytes are arbitrary", "anchors": ["src/main/c/xmq.h: xmqParseBuffer", "src/main/c/parts/xmq_parser.c: count_xmq_slashes", "src/main/c/xmq.c: find_line"]}
{"id": "C21", "title": "Unquoting stays inside its buffers", "statement": "Removing quotes and incidental indentation reads only the quote and writes at most the allocated output size.", "quantifier": "all quote bodies, all indents", "why_tests_cant": "the size computation must be right for every combination of lines, tabs and newlines", "anchors": ["src/main/c/xmq.c: xmq_trim_quote", "src/main/c/xmq.c: xmq_un_quote"]}
{"id": "C22", "title": "Single line quotes are verbatim", "statement": "A quote without newlines means exactly the characters between the quotes, wherever it is placed.", "quantifier": "all single line contents, all columns", "why_tests_cant": "every content, including quotes, spaces and tabs", "anchors": ["src/main/c/xmq.c: xmq_un_quote", "src/main/c/xmq.c: xmq_trim_quote"]}
{"id": "C23", "title": "Incidental indentation is incidental", "statement": "Moving a multi-line quote to the right (all its lines by the same number of spaces) does not change its value.", "quantifier": "all quote contents, all indents and all shifts", "why_tests_cant": "arbitrary contents and shifts", "anchors": ["src/main/c/xmq.c: xmq_trim_quote", "src/main/c/xmq.c: find_line"]}
{"id": "C24", "title": "Chosen quotes delimit the text", "statement": "With the number of quotes chosen by the printer the quoted text is read back as one quote token ending exactly at the closing quotes.", "quantifier": "all texts, all following sources not starting with a quote", "why_tests_cant": "runs of quotes inside the text are unbounded", "anchors": ["src/main/c/parts/xmq_printer.c: count_necessary_quotes", "src/main/c/parts/xmq_parser.c: eat_xmq_quote"]}
{"id": "C25", "title": "Chosen slashes delimit the comment", "statement": "With the number of slashes chosen by the printer a multi-line comment is read back as one comment ending exactly at the closing slashes.", "quantifier": "all comment texts, all following sources", "why_tests_cant": "runs of asterisk-slashes inside the text are unbounded", "anchors": ["src/main/c/parts/xmq_printer.c: count_necessary_slashes", "src/main/c/parts/xmq_parser.c: eat_xmq_comment_to_close"]}
{"id": "C26", "title": "Compact quoting round trip", "statement": "The compact quoting of any text, placed as an attribute or element value, reads back as the same text.", "quantifier": "all NUL-free non-empty texts", "why_tests_cant": "every text must survive, whatever mix of quotes, whitespace and control characters it contains", "anchors": ["src/main/c/xmq.c: xmqCompactQuote", "src/main/c/parts/xmq_printer.c: print_value_internal_text", "src/main/c/parts/xmq_printer.c: quote_needs_compounded"]}
{"id": "C27", "title": "Compact document round trip", "statement": "Printing a document in compact form and parsing the result gives the same document.", "quantifier": "all documents of elements, attributes, texts, entities, comments", "why_tests_cant": "document shapes and contents are unbounded", "anchors": ["src/main/c/parts/xmq_printer.c: print_node", "src/main/c/parts/xmq_parser.c: parse_xmq", "src/main/c/xmq.c: xmqParseBuffer"]}
{"id": "C28", "title": "Pretty quoting round trip", "statement": "The pretty printed (possibly multi-line) quote of a text at any indentation reads back as the same text.", "quantifier": "all texts and all indentations", "why_tests_cant": "every text, indentation and line structure", "anchors": ["src/main/c/parts/xmq_printer.c: print_safe_leaf_quote", "src/main/c/parts/xmq_printer.c: print_quote_lines_and_color_uwhitespace", "src/main/c/xmq.c: xmq_trim_quote"]}
{"id": "C29", "title": "Pretty document round trip", "statement": "Printing a document in the default form and parsing the result gives the same document.", "quantifier": "all documents of elements, attributes, texts, entities, comments", "why_tests_cant": "document shapes and contents are unbounded", "anchors": ["src/main/c/parts/xmq_printer.c: print_node", "src/main/c/parts/xmq_parser.c: parse_xmq", "src/main/c/xmq.c: xmqParseBuffer"]}
{"id": "C30", "title": "Compact output is a single line", "statement": "Compact output contains no newline other than the final one.", "quantifier": "all documents", "why_tests_cant": "any text in any position could smuggle a newline in", "anchors": ["src/main/c/parts/xmq_printer.c: print_safe_leaf_quote", "src/main/c/parts/xmq_printer.c: print_nl_and_indent"]}
{"id": "C31", "title": "C quoting is clean and reversible", "statement": "C-style quoting emits no raw control character, unescaped double quote or lone backslash, fits its buffer, and unquoting restores the text.", "quantifier": "all texts", "why_tests_cant": "every byte at every position", "anchors": ["src/main/c/parts/text.c: xmq_quote_as_c", "src/main/c/parts/text.c: xmq_unquote_as_c"]}
{"id": "C32", "title": "JSON strings are decoded correctly", "statement": "A JSON string literal (with all escapes) is decoded to the text it denotes, and the parser stops exactly after the closing quote.", "quantifier": "all texts, encoded in any of the ways JSON permits", "why_tests_cant": "escapes can be mixed without bound", "anchors": ["src/main/c/parts/json.c: eat_json_quote", "src/main/c/parts/json.c: parse_json_quote"]}
{"id": "C33", "title": "JSON numbers are recognised exactly", "statement": "A token is treated as a JSON number exactly when it matches the JSON number grammar.", "quantifier": "all byte strings", "why_tests_cant": "the language is infinite", "anchors": ["src/main/c/parts/json.c: is_jnumber"]}
{"id": "C34", "title": "JSON parsing terminates", "statement": "Parsing any JSON source ends with success or a reported error.", "quantifier": "all sources", "why_tests_cant": "termination on every input cannot be tested", "anchors": ["src/main/c/parts/json.c: parse_json_object", "src/main/c/parts/json.c: parse_json_array"]}
{"id": "C35", "title": "JSON round trip", "statement": "A document obtained from JSON and printed as JSON denotes the same JSON value.", "quantifier": "all JSON values", "why_tests_cant": "values nest without bound", "anchors": ["src/main/c/parts/json.c: json_print_node", "src/main/c/parts/json.c: parse_json"]}
{"id": "C36", "title": "Whitespace between tokens is insignificant", "statement": "Adding spaces or newlines between tokens does not change the parsed document.", "quantifier": "all sources and all places between tokens", "why_tests_cant": "combinatorial number of places", "anchors": ["src/main/c/parts/xmq_parser.c: parse_xmq_whitespace"]}
{"id": "C37", "title": "Character entities denote their character", "statement": "&#N; and &#xH; denote the text consisting of the character with that code point.", "quantifier": "all code points 1..0x10FFFF in decimal and hexadecimal", "why_tests_cant": "1.1 million code points", "anchors": ["src/main/c/xmq.c: create_entity", "src/main/c/parts/xmq_parser.c: eat_xmq_entity", "src/main/c/parts/xmq_printer.c: print_char_entity"]}
{"id": "C38", "title": "Trimming is idempotent", "statement": "Trimming whitespace of an already trimmed text changes nothing.", "quantifier": "all texts", "why_tests_cant": "all texts and line structures", "anchors": ["src/main/c/xmq.c: trim_text_node", "src/main/c/xmq.c: xmq_trim_quote"]}
{"id": "C39", "title": "Implicit root", "statement": "When an implicit root is requested the parsed document has exactly one top element, with that name.", "quantifier": "all sources and all root names", "why_tests_cant": "documents starting with comments, quotes or several elements", "anchors": ["src/main/c/xmq.c: create_node"]}
{"id": "C40", "title": "Entity collapsing fits its buffer", "statement": "Collapsing text and entity children to one text writes no more bytes than allocated.", "quantifier": "all lists of texts and entities", "why_tests_cant": "every mix of entities, including huge code points with short names", "anchors": ["src/main/c/parts/xml.c: xml_collapse_text", "src/main/c/parts/xml.c: decode_entity_ref"]}
{"id": "C41", "title": "Index suffix trimming", "statement": "Only a trailing [digits] suffix is removed from a JSON key, never anything else, and the rest of the key is kept.", "quantifier": "all keys", "why_tests_cant": "all keys", "anchors": ["src/main/c/parts/json.c: trim_index_suffix"]}
{"id": "C42", "title": "Printing is stable", "statement": "Printing, parsing and printing again gives the same output.", "quantifier": "all documents in the round trip class", "why_tests_cant": "document shapes are unbounded", "anchors": ["src/main/c/parts/xmq_printer.c: print_node", "src/main/c/xmq.c: xmqParseBuffer"]}
{"id": "C43", "title": "Error positions", "statement": "When tokenizing fails the reported line and column are those of a position inside the source (or its end), and everything before is covered by tokens.", "quantifier": "all sources that do not parse", "why_tests_cant": "all malformed sources", "anchors": ["src/main/c/parts/xmq_internals.c: generate_state_error_message"]}
{"id": "C44", "title": "Display width counting", "statement": "The character count used for alignment is the number of code points of a valid UTF-8 string.", "quantifier": "all UTF-8 strings", "why_tests_cant": "all strings", "anchors": ["src/main/c/parts/text.c: str_b_u_len"]}
{"id": "C45", "title": "Line/column lookup", "statement": "The line and column computed for a character offset agree with those of the tokenizer.", "quantifier": "all UTF-8 sources and all offsets", "why_tests_cant": "all sources", "anchors": ["src/main/c/parts/text.c: find_line_col", "src/main/c/parts/xmq_internals.c: increment"]}
{"id": "C46", "title": "A source is read as the document it denotes", "statement": "Every text of the xmq grammar (elements, attributes, values, quotes, entities, comments, processing instructions, with any white space between them) is accepted and read as exactly the document that the grammar assigns to it, and that document is unique.", "quantifier": "all sources of the grammar, of any length and nesting", "why_tests_cant": "infinitely many sources; what ends a name, value, quote or comment depends on what follows it", "anchors": ["src/main/c/parts/xmq_parser.c: parse_xmq, parse_xmq_element_internal, parse_xmq_attribute, parse_xmq_value", "src/main/c/xmq.c: xmqParseBuffer, do_quote, do_entity, do_comment, create_node"]}
{"id": "C47", "title": "Trimming removes only whitespace", "statement": "Trimming the whitespace of a document always succeeds and removes nothing but whitespace from texts and comments: every other character, every element, attribute, reference and processing instruction is kept, in order; a text node is removed only if it was all whitespace.", "quantifier": "all documents, of any depth, with any texts", "why_tests_cant": "infinitely many trees and line structures; an off by one in the indentation would eat a character only for some shapes", "anchors": ["src/main/c/xmq.c: xmqTrimWhitespace, trim_node, trim_text_node", "src/main/c/xmq.c: xmq_trim_quote"]}
{"id": "C48", "title": "Log lines are xmq and read back", "statement": "xmqLinePrintf gives a single line without newlines, which is read by the xmq parser as the element with the given name and one child for each key, holding the formatted text, in order.", "quantifier": "all element names, numbers of fields, keys and formatted texts", "why_tests_cant": "texts are arbitrary: quotes, newlines, parentheses, braces and any neighbours of fields decide about quoting and separation", "anchors": ["src/main/c/xmq.c: xmqLinePrintf, xmq_line_vprintf_xmq, xmq_line_vprintf_hr, buf_vsnprintf, xmqCompactQuote"]}
{"id": "C49", "title": "The kind of line ends does not matter", "statement": "A source stored with newlines and the same source with carriage returns before some or all of its newlines give the same tokens at the same lines and columns (apart from the line ends inside of token texts), the same errors at the same places, and the same document.", "quantifier": "all sources, all choices of newlines that get a carriage return, all results (document, error)", "why_tests_cant": "every place of a newline counts: inside of quotes and comments of any depth, between any two tokens, at the end of the source", "anchors": ["src/main/c/xmq.c: xmqParseBuffer, xmqTokenizeBuffer, xmq_trim_quote, xmq_un_comment, xmqDetectContentType", "src/main/c/parts/xmq_parser.c: parse_xmq", "src/main/c/parts/xmq_internals.c: increment"]}
{"id": "C50", "title": "Names are in the namespace that is declared for them", "statement": "In a document read from xmq every element and attribute with a prefix is in the namespace of the innermost xmlns declaration for that prefix, every element without a prefix is in the innermost default namespace, and attributes without a prefix are in none. Reading a source without prefixes and xmlns attributes gives a document without namespaces.", "quantifier": "all sources that are read as a document, all depths of nesting and placements of declarations before or after use", "why_tests_cant": "declarations come after the names that use them, apply to all descendants at any depth, and the builder keeps global state (default namespace, pending prefix, declaration in progress) across elements", "anchors": ["src/main/c/xmq.c: xmqParseBuffer, do_element_ns, do_attr_ns, do_ns_declaration, do_attr_key, update_namespace_href, create_node"]}
{"id": "C51", "title": "Elements and attributes keep their names, prefixes, order, nesting and values", "statement": "The elements of a document read from xmq have the prefixes and names that are written in the source, in the order in which they start, with none missing, added or renamed (but for an implicit root). Apart from the declarations, the document is the one that the same source gives when a prefixed name is read as one plain name: the same nesting, attributes, values, texts, comments and processing instructions.", "quantifier": "all sources that are read as a document, all implicit roots", "why_tests_cant": "elements nest to any depth and prefixes are looked up through all ancestors", "anchors": ["src/main/c/xmq.c: xmqParseBuffer, do_element_ns, do_element_name, do_element_key, create_node, do_ns_declaration, update_namespace_href"]}
{"id": "C52", "title": "Callbacks come in the order and with the texts of the grammar", "statement": "The callbacks of the tokenizer come in the order of the grammar of xmq: a name, then its attributes in parentheses, then a value after an equals sign or content between braces, with every parenthesis and brace closed and white space never inside of a prefixed name; what is reported as a key is followed by its value. The text of each callback has the form of its kind: quotes, entities, comments, names and plain values. On an error the callbacks so far are the start of such a sequence.", "quantifier": "all sources, with or without errors, all lengths of the run", "why_tests_cant": "contents nest to any depth and handlers are written for every order that can occur", "anchors": ["src/main/c/parts/xmq_parser.c: parse_xmq, parse_xmq_element_internal, parse_xmq_attribute, parse_xmq_attributes, parse_xmq_value, parse_xmq_compound", "src/main/c/xmq.c: xmqTokenizeBuffer"]}
{"id": "C53", "title": "Only xmq is accepted", "statement": "A source that the tokenizer accepts is, as a whole, a text of the grammar of xmq; what it has reported when it stops with an error is the start of the source and of some text of the grammar.", "quantifier": "all sources", "why_tests_cant": "tests show some wrong sources that are rejected, not that no other is accepted", "anchors": ["src/main/c/parts/xmq_parser.c: parse_xmq", "src/main/c/xmq.c: xmqTokenizeBuffer"]}
{"id": "C54", "title": "A file or the standard input is read whole, however the reads are split or interrupted", "statement": "When parsing a file succeeds in reading it, the bytes parsed are all the bytes of the file, in order, followed by a zero byte, whatever number of bytes each read returns; the same holds for the standard input, where interrupted reads are repeated. A file that is shorter than its size says is reported as unreadable, and no byte is written outside of the buffer.", "quantifier": "all contents of all sizes, all schedules of short reads, interruptions and errors", "why_tests_cant": "tests read small files in one read; the way the system splits and interrupts reads cannot be enumerated", "anchors": ["src/main/c/xmq.c: load_file", "src/main/c/xmq.c: load_stdin", "src/main/c/xmq.c: xmqParseFile"]}
{"id": "C55", "title": "Colors change nothing but the colors", "statement": "Printing a document with colors for a terminal, as html or as tex shows the very text that is printed without colors: removing the escape sequences, or the tags and references, or the tex commands gives back the plain output.", "quantifier": "all documents with or without namespaces, all layouts, all definitions of colors", "why_tests_cant": "every place where a color is switched on or off, or a character is escaped, must be right for every combination of nodes and nesting", "anchors": ["src/main/c/parts/xmq_printer.c: print_nodes", "src/main/c/parts/utf8.c: print_utf8", "src/main/c/parts/xmq_internals.c: needs_escape", "src/main/c/xmq.c: setup_terminal_coloring, setup_html_coloring, setup_tex_coloring, xmq_print_xmq"]}
{"id": "C56", "title": "Highlighting a source loses nothing", "statement": "Writing the tokens of an xmq source with their colors shows the very source: removing the escape sequences of a terminal, or the tags and references of html, gives back every byte of it; when the source has an error, what is shown is the part before the error. In html every tag is closed.", "quantifier": "all sources, with or without errors, all definitions of colors", "why_tests_cant": "every kind of token with every byte in it must be written back, at any nesting", "anchors": ["src/main/c/xmq.c: xmqTokenizeBuffer, tokenize_TYPE, write_safe_html, write_safe_tex, xmqSetupParseCallbacksColorizeTokens"]}
{"id": "C57", "title": "Html output is well nested", "statement": "In a document rendered as html every start tag has its end tag and tags are properly nested.", "quantifier": "all documents with or without namespaces, all layouts", "why_tests_cant": "tags are closed and opened again at line ends inside of quotes; all texts, levels and escapes must be right together", "anchors": ["src/main/c/parts/xmq_printer.c: print_quote_lines_and_color_uwhitespace, print_safe_leaf_quote, print_value_internal_text", "src/main/c/xmq.c: setup_html_coloring"]}
{"id": "C58", "title": "A source with namespaces is read as the document it denotes", "statement": "Every text of the xmq grammar with prefixes and namespace declarations is read as the document it denotes: every element and attribute has the prefix and name that is written and the URI of the declaration in scope, and structure, attributes, values and texts are those written.", "quantifier": "all sources of the grammar with namespaces, of any length and nesting, with any white space between the tokens, in which prefixes are declared and not declared again", "why_tests_cant": "scopes nest without bound, uses come before declarations, and the tokens of names, values and quotes depend on what follows", "anchors": ["src/main/c/parts/xmq_parser.c: parse_xmq_element_internal, parse_xmq_attribute", "src/main/c/xmq.c: do_element_ns, do_attr_ns, do_ns_declaration, update_namespace_href, create_node"]}
{"id": "C59", "title": "A document with namespaces printed in compact form is read back", "statement": "Printing a document with namespaces in compact form and reading the output gives a document with the same elements, attributes, prefixes, URIs, declarations and content.", "quantifier": "all documents with namespaces of any size and nesting in which prefixes are declared and not declared again, and whose texts and URIs meet the conditions of C27; all settings of the escapes", "why_tests_cant": "separators depend on the bytes before and after them, and URIs come from declarations any number of levels away", "anchors": ["src/main/c/parts/xmq_printer.c: print_namespace_declaration, print_attribute, print_attributes, print_element_name_and_attributes", "src/main/c/xmq.c: xmqPrint, xmqParseBuffer, do_ns_declaration"]}
{"id": "C60", "title": "An ixml grammar accepts exactly the texts it describes", "statement": "Reading a text with an ixml grammar uses BNF rules that derive the text if and only if the grammar describes it: options, repetitions, separators, groups, sets, ranges, unicode categories, exclusions and insertions mean what ixml says.", "quantifier": "all grammars of any number of rules and nesting, written with any white space and comments, and all texts", "why_tests_cant": "groups, repetitions and sets nest without bound and share one table of generated names, and the rules for a set depend on the text", "anchors": ["src/main/c/parts/ixml.c: ixml_build_yaep_grammar, parse_ixml_alts, make_last_term_repeat, make_last_term_optional, scan_content_fixup_charsets", "src/main/c/xmq.c: xmqParseBufferWithIXML"]}
{"id": "C61", "title": "The document made from a text by an ixml grammar follows the marks of the grammar", "statement": "Parsing a text with an ixml grammar gives a document with an element for each use of a nonterminal, an attribute for each one marked @, nothing but the content for each one marked -, the characters of the terminals that are not marked -, the inserted texts, and the names that the aliases ask for.", "quantifier": "all grammars of any number of rules and nesting, all texts and all parse trees of a text", "why_tests_cant": "marks go through rules that are generated for groups, repetitions and sets at any depth, and a text can have any number of parse trees", "anchors": ["src/main/c/xmq.c: xmqParseBufferWithIXML, generate_dom_from_yaep_node, collect_text", "src/main/c/parts/ixml.c: ixml_build_yaep_grammar, parse_ixml_naming, parse_ixml_terminal, parse_ixml_nonterminal, make_last_term_repeat, make_last_term_optional"]}
{"id": "C62", "title": "C-lines show every value of a document", "statement": "Printing a document as c-lines gives exactly one line for each attribute, text and empty element, in the order of the document, with the names of the elements down to it and its value as a C string; the lines tell these entries unambiguously.", "quantifier": "all documents of any size and nesting, all names and texts", "why_tests_cant": "names and values are of any length and content, and elements nest without bound", "anchors": ["src/main/c/xmq.c: xmq_print_clines, cline_print_node, cline_print_attr, cline_print_xpath", "src/main/c/parts/text.c: xmq_quote_as_c"]}
{"id": "C63", "title": "A text is kept", "statement": "Loading a file as text and printing it as text gives the same bytes, apart from a byte order mark, also if it is put into an element, written as xmq and read again in between.", "quantifier": "all texts", "why_tests_cant": "the texts are of any length and content", "anchors": ["src/main/c/xmq.c: xmq_parse_buffer_text, xmq_print_text, xmqParseBufferWithType"]}
{"id": "C64", "title": "Getters give the value that is written", "statement": "xmqGetInt and xmqGetLong of a path give the integer that is written (decimal with or without sign, octal after a zero, hexadecimal after 0x) in the first element or attribute that the path selects, 0 if there is none; xmqGetString gives its text. xmqForeach calls its callback for the nodes in order until it is told to stop and returns the number of nodes.", "quantifier": "all integers that fit 32 or 64 bits, all their notations, all documents and selected nodes, all callbacks", "why_tests_cant": "there are 2^64 integers, with several notations each, and texts of any length", "anchors": ["src/main/c/xmq.c: xmqGetInt, xmqGetIntRel, xmqGetLong, xmqGetLongRel, xmqGetString, xmqGetStringRel, xmqGetContent, catch_single_content, xmqForeachRel"]}
{"id": "C65", "title": "Edits of entities change the references they name and nothing else", "statement": "delete --entity removes every reference to the entity, replace --entity puts the text or the node in the place of every reference to it, and add-root puts the document into one element; all else that is read in the document, in its order and nesting, stays the same.", "quantifier": "all documents, entity names, replacement texts and nodes", "why_tests_cant": "references can be anywhere in trees of any depth, beside any other nodes", "anchors": ["src/main/c/xmq-cli.c: delete_all_entities, delete_entities, replace_entity, replace_entities, cmd_replace, substitute_entity, cmd_substitute, cmd_add_root"]}
{"id": "C66", "title": "Statistics count what is in the document", "statement": "The numbers that the statistics command gives are the numbers of elements, attributes, texts, references and comments in the document, and the numbers of bytes of their names and contents.", "quantifier": "all documents", "why_tests_cant": "trees of any size and depth", "anchors": ["src/main/c/xmq-cli.c: cmd_statistics, count_statistics, accumulate_*"]}
{"id": "C67", "title": "for-each: a document cannot change the shell command", "statement": "The command that for-each runs for an element is the given one, with other characters than letters, digits and underscores in the names of its variables replaced by underscores. It does not depend on the document. The environment has what it had before, and for each variable in the command one line with its value: the text of the children of that name, the name of the element for two dots, all text of the element for one dot.", "quantifier": "all commands, environments and elements", "why_tests_cant": "commands and texts are arbitrary bytes, an injection needs only one that was not tried", "anchors": ["src/main/c/xmq-cli.c: invoke_shell, grab_name, grab_content, make_shell_safe_name, append_text_node"]}
{"id": "C68", "title": "The pager stays in its text", "statement": "After any keys the pager shows a place inside of the text that starts at the start of a line, it reads nothing outside of the text, down goes to the next line and up back to the line before.", "quantifier": "all texts, sizes of the screen and sequences of keys", "why_tests_cant": "the position depends on the whole history of keys, and on where lines, wraps and escape sequences are in the text", "anchors": ["src/main/c/xmq-cli.c: page, find_next_line, find_prev_line, find_prev_line_start, skip_line_width_backwards, count_non_ansi_chars, find_next_page, find_prev_page"]}
{"id": "C69", "title": "delete and select do what the xpath says", "statement": "delete with an xpath leaves exactly the nodes that are not selected or in a selected node, and the attributes that are not selected, in their order and nesting. select gives the selected nodes, whole and in the order of the document.", "quantifier": "all documents and all sets of nodes and attributes that an xpath can select", "why_tests_cant": "selections can be nested in each other in any way, and nodes are freed while others are still to be used", "anchors": ["src/main/c/xmq-cli.c: cmd_select, delete_xpath", "src/main/c/parts/xml.c: xml_add_root_child"]}
{"id": "C70", "title": "Comments and raw elements survive writing as xml", "statement": "Preparing a document for writing as xml or html and undoing it after reading gives the same document: all comments are as they were, at any depth, and in what is written no comment has two dashes in a row. Only in style and script references are replaced, by the texts they mean.", "quantifier": "all documents", "why_tests_cant": "comments and references are anywhere in trees of any depth and have any content", "anchors": ["src/main/c/xmq.c: fixup_html, xmq_fixup_html_before_writeout, fixup_comments, xmq_fixup_comments_after_readin"]}
{"id": "C71", "title": "A colour is shown as it is written", "statement": "A colour written as #rrggbb, with _B and _U for bold and underline, is read as that colour; the escape sequence for a terminal, the css rule and the tex definition made from it name exactly that colour and these marks and fit into their buffers; everything else is refused, and nothing outside of the text is read.", "quantifier": "all texts, colours, marks, themes and names of colours", "why_tests_cant": "there are 2^24 colours with digits of either case, four combinations of marks, and unboundedly many texts to refuse", "anchors": ["src/main/c/parts/colors.c: string_to_color_def, hex_to_number, generate_ansi_color, generate_html_color, generate_tex_color, color_names", "src/main/c/parts/default_themes.c: default_darkbg_colors, default_lightbg_colors, installDefaultThemeColors", "src/main/c/xmq.c: add_color, setup_terminal_coloring, setup_html_coloring, setup_tex_coloring"]}
{"id": "C72", "title": "Content is loaded as the type asked for", "statement": "If a type is asked for, content of that type is read by the reader for it, from behind a byte order mark, and other content is refused with the error that names the expected type; if none is asked for, the content is read as the type it has; text is loaded unchanged, below the asked root. A written xmq document, in a buffer or a file, is loaded as the document it writes down. Whitespace is trimmed exactly when asked for, or by default in xml and html.", "quantifier": "all contents, types, flags, implicit roots, and all behaviours of the readers", "why_tests_cant": "any content can meet any asked type and any flags", "anchors": ["src/main/c/xmq.c: xmqParseBufferWithType, xmqParseFileWithType, xmq_parse_buffer_text, xmq_parse_buffer_clines, skip_any_potential_bom"]}
{"id": "C73", "title": "What the parser finds out about a grammar is true", "statement": "For every grammar the ixml parser takes, the facts it computes about the symbols are those of the grammar's derivations: whether a symbol can derive nothing, whether some text of terminals derives from it, whether it occurs in a form derived from the start, with which terminals its forms can start and which terminals can follow it.", "quantifier": "all grammars (terminals with codes, and rules) that are taken", "why_tests_cant": "the facts are least fixed points over an arbitrary grammar; a missed pass or a wrong order shows only for particular grammars", "anchors": ["src/main/c/parts/yaep.c: set_empty_access_derives", "src/main/c/parts/yaep.c: create_first_follow_sets", "src/main/c/parts/yaep.c: yaep_read_grammar"]}
{"id": "C74", "title": "Which grammars the parser takes", "statement": "Reading a grammar always ends. It is taken exactly if the names and codes of its symbols are in order, some text derives from the start and no nonterminal derives itself (in strict mode also: every nonterminal is reached and derives a text). Every error that is reported is there. The rules that are added do not change the texts that the grammar derives.", "quantifier": "all grammars, in strict and normal mode", "why_tests_cant": "whether an arbitrary grammar has a loop is not settled by examples; the check is a greatest fixed point over all rules", "anchors": ["src/main/c/parts/yaep.c: yaep_read_grammar", "src/main/c/parts/yaep.c: check_grammar", "src/main/c/parts/yaep.c: set_loop_p"]}
{"id": "C75", "title": "The parser takes texts of the grammar", "statement": "Parsing a text with any grammar that was taken always ends, without a failed assertion or a lookup of a set that is not there. A text that is taken derives from the first nonterminal and has a parse tree; when an error is found there is no tree, and what is before the error is the beginning of something that derives from the first nonterminal. If no rule starts with two symbols that can both be empty and has a third symbol, every text of the grammar is taken, and the error is at the first token after which no text of the grammar goes on; without this condition a text of the grammar can be refused.", "quantifier": "all grammars that are taken and whose rules do not use the reserved names, all texts of their terminals", "why_tests_cant": "which texts a grammar derives is infinite for most grammars, and the way an Earley parser treats symbols that can be empty goes wrong only for particular combinations of rules and positions", "anchors": ["src/main/c/parts/yaep.c: perform_parse", "src/main/c/parts/yaep.c: complete_and_predict_new_state_set", "src/main/c/parts/yaep.c: expand_new_start_set", "src/main/c/parts/yaep.c: set_add_initial_dotted_rule"]}
{"id": "C76", "title": "Reusing parser states does not change what is parsed", "statement": "The parser keeps the state sets it has built in a table and takes a set from there when the same set is reached again before the same two tokens. For every grammar and every text this gives the same state sets, and so the same result, as building each set anew; no set is looked up out of range, and no more than three results are kept for an entry.", "quantifier": "all grammars and texts", "why_tests_cant": "a wrong reuse shows only for texts in which a state recurs with other origins, and every history of earlier sets counts", "anchors": ["src/main/c/parts/yaep.c: lookup_cached_set", "src/main/c/parts/yaep.c: check_cached_transition_set", "src/main/c/parts/yaep.c: save_cached_set", "src/main/c/parts/yaep.c: set_insert"]}
{"id": "C77", "title": "Parsing a text with an ixml grammar gives a tree for the texts of the grammar", "statement": "xmqParseBufferWithIXML with a grammar that was read from ixml and a text in utf8 gives a parse tree if and only if the grammar describes the text, for every grammar and every text.", "quantifier": "all grammars written in ixml, all texts of unicode characters", "why_tests_cant": "the grammar is rewritten into rules, completed with rules for the characters of the text, analysed and parsed with lookahead; that the four steps together keep the language has to hold for all grammars with all texts", "anchors": ["src/main/c/xmq.c: xmqParseBufferWithIXML", "src/main/c/parts/yaep.c: yaepParse", "src/main/c/parts/yaep.c: symb_finish_adding_terms", "src/main/c/parts/yaep.c: symb_find_by_code", "src/main/c/parts/ixml.c: scan_content_fixup_charsets"]}
{"id": "C78", "title": "The place of a syntax error in a text parsed with an ixml grammar", "statement": "When xmqParseBufferWithIXML cannot parse a text, it prints the line and the column of the first character at which no text of the grammar goes on, and the text around it with a mark below this character; it reads no memory outside of the buffer for it.", "quantifier": "all grammars written in ixml, all texts of unicode characters, all contents of the memory behind the buffer", "why_tests_cant": "the place is found by the parser, counted in characters, and used as an index of bytes; lines, characters of several bytes and the end of the buffer can be anywhere around it", "anchors": ["src/main/c/xmq.c: handle_yaep_syntax_error", "src/main/c/parts/text.c: find_line_col", "src/main/c/parts/yaep.c: try_to_recover"]}
{"id": "C79", "title": "The tree that the parser returns", "statement": "For every text that the parser takes, the parse tree it returns (one parse) is a tree of a derivation of exactly this text from the start symbol: every node is a rule of the grammar with a child for each symbol of its right side, and the leaves in order are the tokens of the text. The walk over the state sets ends, reads nothing outside of them, and its assertions hold. For a text with an error no tree is returned.", "quantifier": "all grammars (without the rule for errors), all texts of terminals of the grammar", "why_tests_cant": "the tree is rebuilt from the completed rules of every state set from the end of the text to its start; whether the right completed rule is there depends on the whole text and on all empty symbols of the grammar", "anchors": ["src/main/c/parts/yaep.c: build_parse_tree, core_symb_ids_find", "src/main/c/parts/yaep.h: YaepTreeNode"]}
{"id": "C80", "title": "From an ixml grammar and a text to the document", "statement": "When a text is parsed with an ixml grammar, the document that comes out is the one that the grammar gives for this text, with the elements, attributes and texts that the marks ask for; for a text that the grammar does not describe the document is empty. The process ends normally.", "quantifier": "all grammars written in ixml, all texts of unicode characters, all contents of memory that was never written", "why_tests_cant": "the grammar is read, compiled to rules, analysed, the text is parsed with it, a tree is rebuilt from the state sets and turned into a document; an error anywhere between shows only for particular pairs of a grammar and a text", "anchors": ["src/main/c/xmq.c: xmqParseBufferWithIXML, generate_dom_from_yaep_node", "src/main/c/parts/ixml.c: ixml_build_yaep_grammar, ixml_to_yaep_read_rule", "src/main/c/parts/yaep.c: yaepParse, build_parse_tree"]}
{"id": "C81", "title": "The warning for an ambiguous text", "statement": "When a text is parsed with an ixml grammar and one tree is asked for, the warning that the input can be parsed in multiple ways is printed exactly if the text has more than one parse tree. Without the warning the tree that comes out is the only one.", "quantifier": "all grammars that the parser takes, all texts", "why_tests_cant": "the warning depends on whether a second way was met while one tree was rebuilt from the state sets; the number of trees of a text grows without bound, also with empty symbols, and a second tree can differ from the first one at any depth", "anchors": ["src/main/c/parts/yaep.c: build_parse_tree, yaepParse (ambiguous_p)", "src/main/c/xmq.c: xmqParseBufferWithIXML"]}
{"id": "C82", "title": "Without the warning for an ambiguous text the document is the only one", "statement": "When a text is parsed with an ixml grammar and no warning for an ambiguous input is printed, then the document that comes out is equal to every document that the grammar gives for the text. The warning is printed only if the text has more than one parse tree.", "quantifier": "all ixml grammars (as source text) and all texts", "why_tests_cant": "the documents that a grammar gives for a text cannot be listed by running the program, which gives one of them; there can be infinitely many", "anchors": ["src/main/c/xmq.c: xmqParseBufferWithIXML", "src/main/c/parts/yaep.c: build_parse_tree, yaepParse (ambiguous_p)", "src/main/c/parts/ixml.c: ixml_build_yaep_grammar"]}
{"id": "C83", "title": "The command line is performed as it is written", "statement": "The words of a command line are options, a file, and commands with their arguments; no word is lost or used twice. The commands are performed in the order in which they are written, and none after one that fails. If no conversion or no output is given, to-xmq and print are added and nothing else. A command line that is not of this form is refused before anything is performed. What is printed was converted before, and the program does not crash.", "quantifier": "all command lines, all files that can or cannot be read, all results of the single commands", "why_tests_cant": "the commands and their arguments can be combined in unboundedly many ways, and whether a word is a command or an argument depends on all words before it", "anchors": ["src/main/c/xmq-cli.c: xmq_parse_cmd_line, handle_option, cmd_from, cmd_group, prepare_command, perform_command, cmd_output, cmd_help, main"]}
{"id": "C84", "title": "The output is written whole, where it was asked for", "statement": "print, save-to and browse write the converted document to the terminal, the file or a page for the browser: all its bytes, in order and unchanged. With to-xml --omit-decl exactly the declaration at the start is left out. The file for the browser is created in the current directory whatever the name of the input is. If something could not be written, the program says so and does not end with the status of success.", "quantifier": "all outputs of any length, all documents with any declaration, all names of inputs, all amounts of bytes the system takes", "why_tests_cant": "the length and the content of outputs, the names of files and the place where writing stops are not bounded", "anchors": ["src/main/c/xmq-cli.c: cmd_output, console_write, browse, cmd_to", "src/main/c/xmq.c: xmqPrint, xmqSetOmitDecl", "src/main/c/parts/membuffer.c: free_membuffer_but_return_trimmed_content"]}
{"id": "C85", "title": "The input is what the command line names, read as its options say", "statement": "The words before the first command are options and at most one word for the input. Every option that is known is taken at any place before the input, an unknown one is refused, and the options mean the same in any order, apart from two formats or two roots, of which the last counts. The input is the named file, the standard input if there is none or it is -, the word itself with -i, and nothing with -z; it is read with the grammar if one is given, and else in the given format with the given root.", "quantifier": "all command lines, all names of files and contents, all sets of files that can be read", "why_tests_cant": "options can be given in unboundedly many combinations and orders, and any word can be a file or a content", "anchors": ["src/main/c/xmq-cli.c: handle_global_option, xmq_parse_cmd_line, cmd_load, allocate_cli_command", "src/main/c/xmq.c: xmqParseBufferWithType, xmqParseFileWithType"]}
