(** Property C49: the ends of lines.

    The same source stored with newlines, with carriage returns and newlines, or
    with a mixture, is read the same.  See LineEnds.v for [line_ends src src'],
    src' is src with carriage returns before some of its newlines.

    [tokenize fuel src aft] is xmqTokenizeBuffer on the bytes [src] followed in
    memory by [aft], [parse_buffer] is xmqParseBuffer. *)
From Coq Require Import NArith ZArith List Bool Arith Lia String.
From Verif Require Import Bytes BytesFacts Outcome Detect Quote QuoteSpec QuoteProofs2 QuoteProofs3 PropsQuote Parser ParserSpec Dom Grammar DetectGrammar LineEnds LineEndsText LineEndsLex LineEndsDoc.
Import ListNotations.
Local Open Scope N_scope.

(** ** Tokens
    The same tokens at the same lines and columns; their texts differ in the
    line ends only.  A source is accepted, refused (with the same error at the
    same line and column) or outside of the defined behaviour together with the
    other one.  This holds for all bytes. *)
Theorem C49_same_tokens : forall fuel src src' aft, line_ends src src' ->
  same_reading (tokenize fuel src (0 :: aft)) (tokenize fuel src' (0 :: aft)).
Proof. intros fuel src src' aft H. apply psim_reading. now apply tokenize_sim. Qed.
Print Assumptions C49_same_tokens.

(** ** Document
    The same document or the same error, for a source without other carriage
    returns and without NUL that is taken for xmq. *)
Theorem C49_same_document_partial : forall root src src' aft, ~ In cCR src -> ~ In 0 src -> line_ends src src' ->
  detect_content_type src (0 :: aft) = DOk CXMQ ->
  parse_buffer (enough src') root src' (0 :: aft) = parse_buffer (enough src) root src (0 :: aft).
Proof. intros root src src' aft H1 H0 H D. apply parse_line_ends; auto. now split. Qed.
Print Assumptions C49_same_document_partial.
(** In particular with carriage returns before all newlines. *)
Theorem C49_all_lines_partial : forall root src aft d, ~ In cCR src -> ~ In 0 src ->
  parse_buffer (enough src) root src (0 :: aft) = Document d ->
  parse_buffer (enough (crlf src)) root (crlf src) (0 :: aft) = Document d.
Proof.
  intros root src aft d H1 H0 H. rewrite <- H. apply C49_same_document_partial; auto using crlf_le.
  unfold parse_buffer in H. destruct (detect_content_type src (0 :: aft)) as [[]|]; auto; discriminate.
Qed.
Print Assumptions C49_all_lines_partial.
(** The meaning of a source (Grammar.v, C46) is its meaning with either line
    end. *)
Theorem C49_source_read_as_denoted : forall src src' d aft, denotes src d ->
  (forall w, In w [B "true"; B "false"; B "null"] -> d <> [Elem w [] []]) -> ~ In cCR src -> ~ In 0 src -> line_ends src src' ->
  parse_buffer (enough src') None src' (0 :: aft) = Document d.
Proof.
  intros src src' d aft H J' H1 H0 L. assert (J : ~ json_word d) by (intros (w & I & E); now apply (J' w)). rewrite (C49_same_document_partial None src src' aft H1 H0 L); [now apply denotes_parse|].
  now apply denotes_detected with d.
Qed.
Print Assumptions C49_source_read_as_denoted.

(** ** Quotes
    The value of a quote is the block of text without the carriage returns. *)
Theorem C49_quote_value : forall indent d s s' aft, (1 <= d)%nat -> quotable s -> ~ In cCR s -> ~ In 0 s -> line_ends s s' ->
  exists n, un_quote indent cSP (quoted d s') aft true = Ok (n, text_block (indent + d) s).
Proof.
  intros indent d s s' aft Hd Hq H1 H0 H. unfold quoted. rewrite un_quote_trim; auto.
  - eapply trim_text_block_le; eauto.
  - rewrite (le_first cQ s s'), (le_last cQ s s'); auto; discriminate.
Qed.
Print Assumptions C49_quote_value.

(** ** Counterexamples
    The content type depends on the line end: a word of json alone on its line
    is json with a newline and xmq with a carriage return and a newline. *)
Theorem C49_content_type_refuted : exists src src', line_ends src src' /\ ~ In cCR src /\ ~ In 0 src
  /\ detect_content_type src [0; 0; 0; 0; 0] = DOk CJSON
  /\ parse_buffer (enough src') None src' [0; 0; 0; 0; 0] = Document [Elem (B "true") [] []].
Proof.
  exists (B "true" ++ [cNL]), (B "true" ++ [cCR; cNL]). split; [|split; [|split]].
  - change (line_ends (B "true" ++ [cNL]) (B "true" ++ [cCR; cNL])). apply le_app; [apply le_refl|]. apply le_crlf, le_end.
  - vm_compute. intuition discriminate.
  - vm_compute. intuition discriminate.
  - split; vm_compute; reflexivity.
Qed.
Print Assumptions C49_content_type_refuted.
(** When the source has other carriage returns the document may change: before
    a newline one is dropped, and two are not. *)
Theorem C49_other_carriage_returns_refuted : exists src src' d d', line_ends src src' /\ ~ In 0 src /\ d <> d'
  /\ parse_buffer (enough src) None src [0] = Document d /\ parse_buffer (enough src') None src' [0] = Document d'.
Proof.
  exists (B "'a" ++ [cCR; cNL] ++ B "b'"), (B "'a" ++ [cCR; cCR; cNL] ++ B "b'"). eexists. eexists. split; [|split; [|split; [|split]]].
  - apply le_app; [apply le_refl|]. apply le_byte, le_crlf, le_refl.
  - vm_compute. intuition discriminate.
  - shelve.
  - vm_compute. reflexivity.
  - vm_compute. reflexivity.
  Unshelve. discriminate.
Qed.
Print Assumptions C49_other_carriage_returns_refuted.

(** ** Examples *)
Definition lines : bytes := B "// hello" ++ [cNL] ++ B "a(k='v'" ++ [cNL] ++ B "  j) {" ++ [cNL] ++ B "  b = 'one" ++ [cNL] ++ B "       two'" ++ [cNL; cNL]
  ++ B "  c /* x" ++ [cNL] ++ B "       y */" ++ [cNL] ++ B "}" ++ [cNL].
Definition lines_doc : list node :=
  [Comment (B "hello"); Elem (B "a") [(B "k", [PText (B "v")]); (B "j", [])]
     [Elem (B "b") [] [Part (PText (B "one" ++ [cNL] ++ B "two"))]; Elem (B "c") [] []; Comment (B "x" ++ [cNL] ++ B "y")]].
Example lines_plain : ~ In cCR lines /\ ~ In 0 lines /\ parse_buffer (enough lines) None lines [0] = Document lines_doc.
Proof. split; [vm_compute; intuition discriminate|]. split; [vm_compute; intuition discriminate|]. vm_compute. reflexivity. Qed.
Example lines_crlf : parse_buffer (enough (crlf lines)) None (crlf lines) [0] = Document lines_doc.
Proof. vm_compute. reflexivity. Qed.
Example lines_tokens : exists s s', tokenize (enough lines) lines [0] = POk s /\ tokenize (enough lines) (crlf lines) [0] = POk s'
  /\ List.length (tokens s) = 24%nat /\ List.length (tokens s') = 24%nat /\ tokens s <> tokens s'.
Proof. do 2 eexists. split; [vm_compute; reflexivity|]. split; [vm_compute; reflexivity|]. split; [reflexivity|]. split; [reflexivity|]. discriminate. Qed.
