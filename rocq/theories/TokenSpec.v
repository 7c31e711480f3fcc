(** The grammar of xmq as a grammar of tokens, independent of the parser: the
    order of the kinds of tokens, and the texts that a token of each kind can
    have. *)
From Coq Require Import NArith List Bool String.
From Verif Require Import Bytes Parser ParserSpec.
From Verif Require Grammar.
Import ListNotations.
Local Open Scope N_scope.

(** A token of kind [k] with a text in [P]. *)
Definition tok (k : kind) (P : bytes -> Prop) (t : token) : Prop := t_kind t = k /\ P (t_text t).

(** ** The texts of tokens *)

(** Letters, digits and - _ . : # *)
Definition name_chars (b : bytes) : Prop := forallb is_xmq_text_name b = true.

(** No white space, quotes, parentheses or braces, and not the start of an
    entity, a comment or a second value. *)
Definition bare_text (b : bytes) : Prop :=
  ~ Grammar.bad_start b /\
  Forall (fun c => is_xml_whitespace c = false /\ ~ In c Grammar.ends_value) b.

(** Two quotes, or a text between one, three or more quotes. *)
Inductive quote_text : bytes -> Prop :=
| qt_empty : quote_text [cQ; cQ]
| qt_text d b : (1 <= d)%nat -> d <> 2%nat -> Grammar.quote_body d b ->
    quote_text (rep cQ d ++ b ++ rep cQ d).

(** A name between & and ;, where the semicolon may be missing after
    hexadecimal digits. *)
Inductive entity_text : bytes -> Prop :=
| et_closed n : name_chars n -> entity_text (cAMP :: n ++ [cSEMI])
| et_open n : forallb is_lowercase_hex n = true -> entity_text (cAMP :: n).

(** From two slashes to the end of the line. *)
Inductive line_comment : bytes -> Prop :=
| lc_line b e : ~ In cNL b -> e = [] \/ e = [cNL] -> line_comment (cSLASH :: cSLASH :: b ++ e).

(** From an asterisk to the first asterisk with [n] slashes. *)
Inductive comment_part (n : nat) : bytes -> Prop :=
| cp_part b : (forall x k y, b ++ [cSTAR] = x ++ [cSTAR] ++ rep cSLASH k ++ y -> (k < n)%nat) ->
    comment_part n ([cSTAR] ++ b ++ [cSTAR] ++ rep cSLASH n).
Definition block_comment (n : nat) (b : bytes) : Prop :=
  exists x, b = rep cSLASH n ++ x /\ comment_part n x.

Definition simple_name (b : bytes) : Prop := name_chars b /\ ~ In cCOLON b.

(** ** The order of tokens *)

(** White space: any number of tokens. *)
Definition spaces (W : list token) : Prop := Forall (tok Kwhitespace ws_text) W.

(** A value: a text, a quote, an entity, or quotes and entities in
    parentheses. *)
Section Value.
  Variables (ktext kquote kentity kcquote kcentity : kind).
  Inductive value_of : list token -> Prop :=
  | vo_text t : tok ktext bare_text t -> value_of [t]
  | vo_quote t : tok kquote quote_text t -> value_of [t]
  | vo_entity t : tok kentity entity_text t -> value_of [t]
  | vo_compound l C r :
      tok Kcpar_left (eq [cLP]) l ->
      Forall (fun t => tok Kwhitespace ws_text t \/ tok kcquote quote_text t \/ tok kcentity entity_text t) C ->
      tok Kcpar_right (eq [cRP]) r ->
      value_of (l :: C ++ [r]).
End Value.
Definition element_value : list token -> Prop :=
  value_of Kelement_value_text Kelement_value_quote Kelement_value_entity
           Kelement_value_compound_quote Kelement_value_compound_entity.
Definition attr_value : list token -> Prop :=
  value_of Kattr_value_text Kattr_value_quote Kattr_value_entity
           Kattr_value_compound_quote Kattr_value_compound_entity.

(** key, x:key, xmlns, xmlns:x *)
Inductive attr_name : list token -> Prop :=
| an_key t : tok Kattr_key simple_name t -> t_text t <> B "xmlns" -> attr_name [t]
| an_prefixed p c n : tok Kattr_ns name_chars p -> t_text p <> B "xmlns" ->
    tok Kns_colon (eq [cCOLON]) c -> tok Kattr_key simple_name n -> attr_name [p; c; n]
| an_default t : tok Kns_declaration (eq (B "xmlns")) t -> t_suffix t = [] -> attr_name [t]
| an_declaration t c n : tok Kns_declaration (eq (B "xmlns")) t -> t_suffix t = cCOLON :: t_text n ->
    tok Kns_colon (eq [cCOLON]) c -> tok Kattr_ns simple_name n -> attr_name [t; c; n].
Inductive attr_tokens : list token -> Prop :=
| at_name N : attr_name N -> attr_tokens N
| at_value N W e X V : attr_name N -> spaces W -> tok Kequals (eq [cEQ]) e -> spaces X -> attr_value V ->
    attr_tokens (N ++ W ++ e :: X ++ V).
Inductive attrs_tokens : list token -> Prop :=
| ats_nil : attrs_tokens []
| ats_space t C : tok Kwhitespace ws_text t -> attrs_tokens C -> attrs_tokens (t :: C)
| ats_attr A C : attr_tokens A -> attrs_tokens C -> attrs_tokens (A ++ C).
(** Nothing, or attributes in parentheses. *)
Inductive apar_tokens : list token -> Prop :=
| ap_none : apar_tokens []
| ap_some l A r : tok Kapar_left (eq [cLP]) l -> attrs_tokens A -> tok Kapar_right (eq [cRP]) r ->
    apar_tokens (l :: A ++ [r]).

(** name, x:name, ?name, !DOCTYPE, reported as a name or as a key. *)
Inductive name_tokens (k : kind) : list token -> Prop :=
| nt_name t : tok k Grammar.element_name t -> name_tokens k [t]
| nt_prefixed p c n : tok Kelement_ns name_chars p -> Grammar.starts is_xmq_element_start (t_text p) ->
    tok Kns_colon (eq [cCOLON]) c -> tok k simple_name n -> name_tokens k [p; c; n]
| nt_pi t n : tok k (eq (cQM :: n)) t -> name_chars n -> name_tokens k [t]
| nt_doctype t : tok k (eq (B "!DOCTYPE")) t -> name_tokens k [t].

Inductive doc_tokens : list token -> Prop :=
| dt_nil : doc_tokens []
| dt_space t C : tok Kwhitespace ws_text t -> doc_tokens C -> doc_tokens (t :: C)
| dt_item A C : item_tokens A -> doc_tokens C -> doc_tokens (A ++ C)
with item_tokens : list token -> Prop :=
| it_quote t : tok Kquote quote_text t -> item_tokens [t]
| it_entity t : tok Kentity entity_text t -> item_tokens [t]
| it_line t : tok Kcomment line_comment t -> item_tokens [t]
| it_block n t C : (1 <= n)%nat -> tok Kcomment (block_comment n) t ->
    Forall (tok Kcomment_continuation (comment_part n)) C -> item_tokens (t :: C)
| it_elem N W A X V : name_tokens Kelement_name N -> spaces W -> apar_tokens A -> spaces X -> content_tokens V ->
    item_tokens (N ++ W ++ A ++ X ++ V)
(** A key is followed by its value. *)
| it_key N W e X V : name_tokens Kelement_key N -> spaces W ->
    tok Kequals (eq [cEQ]) e -> spaces X -> element_value V ->
    item_tokens (N ++ W ++ e :: X ++ V)
with content_tokens : list token -> Prop :=
| ct_none : content_tokens []
| ct_value e X V : tok Kequals (eq [cEQ]) e -> spaces X -> element_value V -> content_tokens (e :: X ++ V)
| ct_body l D r : tok Kbrace_left (eq [cLB]) l -> doc_tokens D -> tok Kbrace_right (eq [cRB]) r ->
    content_tokens (l :: D ++ [r]).

(** The start of a sequence of the grammar. *)
Definition begins (L : list token -> Prop) (A : list token) : Prop := exists C, L (A ++ C).

(** A text that is split into tokens of the grammar. *)
Definition xmq_text (b : bytes) : Prop := exists T, doc_tokens T /\ texts T = b.
