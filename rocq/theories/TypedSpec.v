(** Specification: who reads content of a kind if a type was asked for. *)
From Coq Require Import NArith List Bool.
From Verif Require Import Bytes Detect Typed.
Import ListNotations.
Local Open Scope N_scope.

(** The content [c] is read by [r] if the type [ct] is asked for. *)
Inductive accepts : ctype -> content -> reader -> Prop :=
| ac_detect_xmq : accepts TDetect CXMQ RXmq
| ac_detect_xml : accepts TDetect CXML RXml
| ac_detect_html : accepts TDetect CHTML RHtml
| ac_detect_json : accepts TDetect CJSON RJson
| ac_xmq : accepts TXmq CXMQ RXmq
| ac_xml : accepts TXml CXML RXml
| ac_html : accepts THtml CHTML RHtml
| ac_json : accepts TJson CJSON RJson
(** A fragment of html looks like xml. *)
| ac_fragment : accepts THtml CXML RHtml
(** Everything is text. *)
| ac_text c : accepts TText c RText.

(** The error for content that is not of the type *)
Inductive not_the_type : ctype -> N -> Prop :=
| nt_xmq : not_the_type TXmq 23
| nt_xml : not_the_type TXml 25
| nt_html : not_the_type THtml 26
| nt_json : not_the_type TJson 27.

(** Whitespace is trimmed if this is asked for; in xml and html also if nothing is
    asked for. *)
Definition trims (r : reader) (fl : load_flags) : Prop :=
  trim_heuristic fl = true \/ trim_exact fl = true \/ trim_none fl = false /\ (r = RXml \/ r = RHtml).
