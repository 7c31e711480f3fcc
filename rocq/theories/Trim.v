(** Model of the trimming of whitespace in a document that was read from XML
    or HTML (xmq.c:3005-3083 trim_text_node, trim_node, xmqTrimWhitespace).

    A document is a list of [node]s (Dom.v).  Simplifications: the flags are
    not used by the C code and are left out; a CDATA section is a text node;
    a reference to an entity has no children (the entity is not declared in
    the document), so that trimming leaves it alone. *)
From Coq Require Import NArith List Bool Arith.
From Verif Require Import Bytes Outcome Quote Dom.
Import ListNotations.
Local Open Scope N_scope.
Local Open Scope out_scope.

(** text.c:445-454 is_all_xml_whitespace of a C string. *)
Definition is_all_xml_whitespace (s : bytes) : bool := forallb is_xml_whitespace s.

(** xmq.c:3031 while (start < stop && *start == SPACE) start++ *)
Fixpoint drop_front (s : bytes) : bytes :=
  match s with
  | c :: r => if c =? cSP then drop_front r else s
  | [] => []
  end.

(** xmq.c:3005-3043 trim_text_node: the new content of the text node, None
    when the node is removed.  The content is a C string; what follows the
    text handed to xmq_un_quote are the spaces that were cut off and the NUL
    at the end. *)
Definition trim_text_node (content : bytes) : out (option bytes) :=
  if is_all_xml_whitespace content then Ok None
  else
    let s := drop_front content in
    let b := drop_sp 0 (List.length s) s in
    '(_, trimmed) <- un_quote 0 0 (firstn b s) (skipn b s ++ [0]) false ;
    match trimmed with
    | [] => Ok None
    | _ => Ok (Some trimmed)
    end.

(** xmq.c:3045-3070 trim_node: a removed node is the empty list.  Attributes
    are not children and are not trimmed. *)
Fixpoint trim_node (n : node) : out (list node) :=
  match n with
  | Part (PText t) =>
    r <- trim_text_node t ;
    Ok (match r with Some t' => [Part (PText t')] | None => [] end)
  | Comment t =>
    r <- trim_text_node t ;
    Ok (match r with Some t' => [Comment t'] | None => [] end)
  | Elem name attrs kids =>
    kids' <- (fix go (l : list node) : out (list node) :=
                match l with
                | [] => Ok []
                | k :: r => a <- trim_node k ; b <- go r ; Ok (a ++ b)
                end) kids ;
    Ok [Elem name attrs kids']
  | Part (PRef _) | PI _ _ | Doctype _ => Ok [n]
  end.

(** xmq.c:3072-3083 xmqTrimWhitespace *)
Fixpoint trim_nodes (l : list node) : out (list node) :=
  match l with
  | [] => Ok []
  | k :: r => a <- trim_node k ; b <- trim_nodes r ; Ok (a ++ b)
  end.
