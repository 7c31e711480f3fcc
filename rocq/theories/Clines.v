(** Model of the output as c-lines and as text (xmq.c:2762-2923), and of the
    reader of texts (xmq.c:4003-4023).

    A document is the list of its top nodes (Dom.v), without namespaces and
    without declarations in the doctype.  The output settings are the defaults:
    no theme, and spaces and tabs are written as they are. *)
From Coq Require Import NArith ZArith List Bool String.
From Verif Require Import Bytes Outcome Quote Detect CQuote Dom.
Import ListNotations.
Local Open Scope N_scope.
Local Open Scope list_scope.
Local Open Scope out_scope.

(** xmq.c:2808-2821 cline_print_xpath for a node whose names, from the root
    down, are [path].  The document has no name and no parent. *)
Fixpoint cline_print_xpath (path : list bytes) : bytes :=
  match path with [] => [] | n :: r => cSLASH :: n ++ cline_print_xpath r end.

(** libxml2 xmlNodeListGetString(doc, children, 1) for the children of an
    attribute: texts are appended, references give nothing.  NULL without any
    text. *)
Fixpoint list_string (ps : list part) : option bytes :=
  match ps with
  | [] => None
  | PText t :: r => Some (t ++ match list_string r with Some s => s | None => [] end)
  | PRef _ :: r => list_string r
  end.

(** xmq.c:2881-2911 cline_print_attr of an attribute of the node at [path].
    strlen of NULL is undefined. *)
Definition cline_print_attr (path : list bytes) (a : attr) : out bytes :=
  let '(k, ps) := a in
  v <- match ps with
       | [] => Ok [cDQ; cDQ]
       | _ => match list_string ps with
              | Some v => quote_as_c v [0] true
              | None => UB
              end
       end ;
  Ok (cline_print_xpath path ++ [cSLASH; 64] ++ k ++ [cEQ] ++ v ++ [cNL]).
(** xmq.c:2870-2879 cline_print_attributes *)
Fixpoint cline_print_attributes (path : list bytes) (l : list attr) : out bytes :=
  match l with
  | [] => Ok []
  | a :: r => x <- cline_print_attr path a ; y <- cline_print_attributes path r ; Ok (x ++ y)
  end.

(** libxml2: the entities that need no declaration.  xmlNewReference gives the
    reference the (static) entity as its child. *)
Definition predefined (n : bytes) : bool :=
  existsb (beq n) [B "lt"; B "gt"; B "amp"; B "quot"; B "apos"].

(** xmq.c:2823-2857 cline_print_node and xmq.c:2859-2868 cline_print_nodes,
    below the node at [path].  The child of a reference to a predefined entity
    is an xmlEntity, of which xmq.c:2829 takes the length and type for the
    address of an attribute: undefined.  Comments, processing instructions and
    doctypes have no attributes and no children. *)
Fixpoint cline_print_node (path : list bytes) (x : node) : out bytes :=
  match x with
  | Elem n ats kids =>
    let path := path ++ [n] in
    a <- cline_print_attributes path ats ;
    k <- match kids with
         | [] => Ok (cline_print_xpath path ++ [cEQ; cDQ; cDQ; cNL])
         | _ =>
           (fix all (l : list node) : out bytes :=
              match l with
              | [] => Ok []
              | y :: r => u <- cline_print_node path y ; v <- all r ; Ok (u ++ v)
              end) kids
         end ;
    Ok (a ++ k)
  | Part (PText t) =>
    q <- quote_as_c t [0] false ;
    Ok (cline_print_xpath path ++ [cEQ] ++ [cDQ] ++ q ++ [cDQ] ++ [cNL])
  | Part (PRef n) => if predefined n then UB else Ok []
  | Comment _ | PI _ _ | Doctype _ => Ok []
  end.
(** xmq.c:2913-2923 xmq_print_clines *)
Fixpoint xmq_print_clines (d : list node) : out bytes :=
  match d with
  | [] => Ok []
  | x :: r => u <- cline_print_node [] x ; v <- xmq_print_clines r ; Ok (u ++ v)
  end.

(** xmq.c:2762-2794 text_print_node and text_print_nodes *)
Fixpoint text_print_node (x : node) : bytes :=
  match x with
  | Part (PText t) => t
  | Part (PRef n) => B "<ENTITY>" ++ n
  | Elem _ _ kids => flat_map text_print_node kids
  | Comment _ | PI _ _ | Doctype _ => []
  end.
(** xmq.c:2796-2806 xmq_print_text *)
Definition xmq_print_text (d : list node) : bytes := flat_map text_print_node d.

(** xmq.c:4003-4023 xmq_parse_buffer_text: strndup stops at a NUL.  A text
    takes the place of a root if there is none. *)
Definition xmq_parse_buffer_text (root : option bytes) (s : bytes) : list node :=
  let t := Part (PText (c_str s)) in
  match root with
  | Some (c :: n) => [Elem (c :: n) [] [t]]
  | _ => [t]
  end.
(** xmq.c:4050-4133 xmqParseBufferWithType for XMQ_CONTENT_TEXT, without flags.
    [None]: it fails. *)
Definition parse_text (root : option bytes) (s : bytes) : option (list node) :=
  match skip_any_potential_bom s with
  | None => None
  | Some s => Some (xmq_parse_buffer_text root s)
  end.
