(** Model of loading a buffer or file as a given type of content (xmq.c 4004-4134
    and 4230-4256).

    The readers of xml and html (libxml2), json and ixml are an argument: what they
    make of the bytes.  Their models are elsewhere (JsonRead, IxmlParse). *)
From Coq Require Import NArith ZArith List Bool Arith String.
From Verif Require Import Bytes Outcome Dom Detect NsDom Load.
Import ListNotations.
Local Open Scope N_scope.
Local Open Scope list_scope.

(** xmq.h:97-109 XMQContentType *)
Inductive ctype := TUnknown | TDetect | TXmq | THtmq | TXml | THtml | TJson | TIxml | TText | TClines.
Definition ctype_eqb (a b : ctype) : bool :=
  match a, b with
  | TUnknown, TUnknown | TDetect, TDetect | TXmq, TXmq | THtmq, THtmq | TXml, TXml | THtml, THtml | TJson, TJson
  | TIxml, TIxml | TText, TText | TClines, TClines => true
  | _, _ => false
  end.
(** What xmqDetectContentType returns *)
Definition type_of (c : content) : ctype :=
  match c with CXMQ => TXmq | CXML => TXml | CHTML => THtml | CJSON => TJson end.

(** xmq.h:158-160 *)
Record load_flags := Flags { trim_none : bool; trim_heuristic : bool; trim_exact : bool }.

(** The functions that read: xmqParseBuffer, xmq_parse_buffer_xml,
    xmq_parse_buffer_html, xmq_parse_buffer_json, xmq_parse_buffer_ixml,
    xmq_parse_buffer_text, xmq_parse_buffer_clines *)
Inductive reader := RXmq | RXml | RHtml | RJson | RIxml | RText | RClines.

(** What the caller sees: the result, errno_, original_content_type_ and
    original_size_ of the document (if they are set), whether xmqTrimWhitespace is
    called, and the document, if it was read. *)
Record load := Load {
  l_ok : bool; l_errno : N; l_origin : option (ctype * N); l_trim : bool; l_doc : option (list vnode) }.
Inductive load_result := LDone (l : load) | LStops (r : nresult).

(** strndup stops at a zero. *)
Fixpoint until_zero (s : bytes) : bytes :=
  match s with [] => [] | c :: r => if c =? 0 then [] else c :: until_zero r end.
(** xmq.c:4004-4025 xmq_parse_buffer_text *)
Definition parse_buffer_text (root : option bytes) (s : bytes) : list vnode :=
  let text := VPart (PText (until_zero s)) in
  match root with
  | Some (c :: r) => [VElem None None (c :: r) [] [] [text]]
  | _ => [text]
  end.
(** xmq.c:4039-4048 xmq_parse_buffer_clines *)
Definition parse_buffer_clines (s : bytes) : list vnode := [VPart (PText (until_zero s))].

(** xmq.h:324-328; xmq.c:4085-4092 *)
Definition expected_error (ct : ctype) (errno : N) : N :=
  match ct with
  | TXmq => 23 | THtmq => 24 | TXml => 25 | THtml => 26 | TJson => 27
  | _ => errno
  end.

Section Readers.
(** The readers that are not modelled here, and the fuel of the one for xmq *)
Variable others : reader -> option bytes -> load_flags -> bytes -> bytes -> nresult.
Variable fuel : nat.

(** xmq.c:1840 an empty implicit root is none *)
Definition xmq_root (root : option bytes) : option bytes := match root with Some [] => None | r => r end.

(** xmq.c:4101-4112 the switch; [None]: nothing is read. *)
Definition read_as (ct : ctype) (root : option bytes) (fl : load_flags) (s aft : bytes) : option nresult :=
  match ct with
  | TXmq => Some (nparse_buffer fuel (xmq_root root) s aft)
  | THtmq => Some (nparse_buffer fuel (xmq_root root) s aft)
  | TXml => Some (others RXml root fl s aft)
  | THtml => Some (others RHtml root fl s aft)
  | TJson => Some (others RJson root fl s aft)
  | TIxml => Some (others RIxml root fl s aft)
  | TText => Some (NDocument (parse_buffer_text root s))
  | TClines => Some (NDocument (parse_buffer_clines s))
  | TUnknown | TDetect => None
  end.

(** xmq.c:4116-4131 *)
Definition should_trim (ct : ctype) (fl : load_flags) : bool :=
  (trim_heuristic fl || trim_exact fl) || (negb (trim_none fl) && (ctype_eqb ct TXml || ctype_eqb ct THtml)).

(** xmq.c:4050-4134 xmqParseBufferWithType on the bytes [s] followed in memory by
    [aft]; [errno] is errno_ of the document before. *)
Definition parse_with_type (errno : N) (root : option bytes) (ct : ctype) (fl : load_flags) (s aft : bytes) : load_result :=
  match skip_any_potential_bom s with
  | None => LDone (Load false errno None false None)
  | Some s =>
    let detected := if ctype_eqb ct TIxml then DOk TUnknown else dbind (detect_content_type s aft) (fun c => DOk (type_of c)) in
    match detected with
    | DUB => LStops NUndefined
    | DOk detected =>
      let refused := negb (ctype_eqb ct TDetect) && negb (ctype_eqb ct detected) && negb (ctype_eqb ct TText)
                     && negb (ctype_eqb ct TIxml) && negb (ctype_eqb detected TXml && ctype_eqb ct THtml) in
      if refused then LDone (Load false (expected_error ct errno) None false None)
      else
        let ct := if ctype_eqb ct TDetect then detected else ct in
        let origin := Some (detected, len s) in
        match read_as ct root fl s aft with
        | None => LDone (Load true errno origin (should_trim ct fl) None)
        | Some (NDocument d) => LDone (Load true errno origin (should_trim ct fl) (Some d))
        | Some (NError e) => LDone (Load false e origin false None)
        | Some r => LStops r
        end
    end
  end.

(** xmq.c:4230-4256 xmqParseFileWithType: what was loaded is given on. *)
Definition parse_file_with_type (errno : N) (root : option bytes) (ct : ctype) (fl : load_flags) (l : loaded) : load_result :=
  match l with
  | Loaded n b =>
    match written_bytes b with
    | Some m => parse_with_type errno root ct fl (firstn (N.to_nat n) m) (skipn (N.to_nat n) m)
    | None => LStops NUndefined
    end
  | CannotRead => LDone (Load false E_CANNOT_READ_FILE None false None)
  | ReadFails => LDone (Load false errno None false None)
  | NoMemory => LDone (Load false E_OOM None false None)
  | Overrun => LStops NUndefined
  | LoadAborts => LStops NAborts
  | Waiting => LStops NRunning
  end.
End Readers.
