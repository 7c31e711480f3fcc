(** Model of the construction of a document from the tokens of the parser
    (xmq.c:1827-2664): xmqParseBuffer and its callbacks do_quote, do_entity,
    do_comment, ... , together with the functions of libxml2 they call
    (xmlAddChild, which merges adjacent text nodes, xmlNewProp, xmlNewReference,
    xmlNodeAddContent).

    Simplifications.  A document is a tree of [node]s; namespaces are not
    modelled (a name with a colon or an xmlns attribute gives the outcome
    [BUnmodelled]), nor are doctypes that are given as a quote (they are parsed by
    libxml2).  The flags of xmqParseBuffer are 0, so that text is merged and
    quotes are trimmed. *)
From Coq Require Import NArith ZArith List Bool Arith String.
From Verif Require Import Bytes Outcome Utf8 Quote Parser Detect.
Import ListNotations.
Local Open Scope N_scope.

(** The children of an attribute, and the text children of an element: text
    and references to named entities. *)
Inductive part := PText (t : bytes) | PRef (name : bytes).
Definition attr := (bytes * list part)%type.

Inductive node :=
| Elem (name : bytes) (attrs : list attr) (kids : list node)
| Part (p : part)
| Comment (t : bytes)
| PI (name content : bytes)
| Doctype (content : bytes).

(** An open node on the element stack; children and attributes are in reverse
    order. *)
Inductive frame :=
| FDoc (rkids : list node)
| FElem (name : bytes) (rattrs : list attr) (rkids : list node)
| FAttr (name : bytes) (rparts : list part).

(** What state->element_last points to: nothing yet, the last child of the
    node on top of the stack, its last attribute, or an earlier child (after a
    processing instruction or doctype has been added). *)
Inductive last := LastNone | LastKid | LastAttr | LastOld.

(** XMQParseState, the fields used by the callbacks. *)
Record bst := BS {
  b_stack : list frame;
  b_last : last;
  b_pi : option bytes;       (* parsing_pi and pi_name *)
  b_doctype : bool }.        (* parsing_doctype *)

Inductive bout :=
| BOk (s : bst)
| BUB
| BAbrt
| BUnmodelled.

Definition bbind (r : bout) (f : bst -> bout) : bout :=
  match r with BOk s => f s | _ => r end.

Definition with_stack (s : bst) (k : list frame) (l : last) : bst := BS k l (b_pi s) (b_doctype s).

(** libxml2 xmlAddChild for a text node: the content is appended to a text
    node that is the last child already. *)
Definition add_text_kid (t : bytes) (rkids : list node) : list node :=
  match rkids with
  | Part (PText u) :: r => Part (PText (u ++ t)) :: r
  | _ => Part (PText t) :: rkids
  end.
Definition add_text_part (t : bytes) (rparts : list part) : list part :=
  match rparts with
  | PText u :: r => PText (u ++ t) :: r
  | _ => PText t :: rparts
  end.
Definition add_part_kid (p : part) (rkids : list node) : list node :=
  match p with PText t => add_text_kid t rkids | PRef _ => Part p :: rkids end.
Definition add_part_part (p : part) (rparts : list part) : list part :=
  match p with PText t => add_text_part t rparts | PRef _ => p :: rparts end.

(** Add a text or entity to the node on top of the stack (do_quote xmq.c:1994,
    do_entity xmq.c:2047). *)
Definition add_top (p : part) (s : bst) : bout :=
  match b_stack s with
  | FDoc k :: r => BOk (with_stack s (FDoc (add_part_kid p k) :: r) LastKid)
  | FElem n a k :: r => BOk (with_stack s (FElem n a (add_part_kid p k) :: r) LastKid)
  | FAttr n k :: r => BOk (with_stack s (FAttr n (add_part_part p k) :: r) LastKid)
  | [] => BUB
  end.

(** Add a node that is not text to the node on top of the stack. *)
Definition add_node (x : node) (l : last) (s : bst) : bout :=
  match b_stack s with
  | FDoc k :: r => BOk (with_stack s (FDoc (x :: k) :: r) l)
  | FElem n a k :: r => BOk (with_stack s (FElem n a (x :: k) :: r) l)
  | _ => BUnmodelled
  end.

(** Add a text or entity to the node element_last (do_element_value_text
    xmq.c:2138, do_attr_value_text xmq.c:2425 and so on), which stays
    element_last. *)
Definition add_last (p : part) (s : bst) : bout :=
  match b_last s, b_stack s with
  | LastKid, FDoc (Elem n a k :: ks) :: r =>
      BOk (with_stack s (FDoc (Elem n a (rev (add_part_kid p (rev k))) :: ks) :: r) LastKid)
  | LastKid, FElem m b (Elem n a k :: ks) :: r =>
      BOk (with_stack s (FElem m b (Elem n a (rev (add_part_kid p (rev k))) :: ks) :: r) LastKid)
  | LastAttr, FElem m ((n, k) :: b) ks :: r =>
      BOk (with_stack s (FElem m ((n, rev (add_part_part p (rev k))) :: b) ks :: r) LastAttr)
  | _, _ => BUnmodelled
  end.

(** stack_push(state->element_stack, state->element_last): do_brace_left
    xmq.c:2606, do_apar_left, do_cpar_left. *)
Definition push_last (s : bst) : bout :=
  match b_last s, b_stack s with
  | LastKid, FDoc (Elem n a k :: ks) :: r =>
      BOk (with_stack s (FElem n (rev a) (rev k) :: FDoc ks :: r) LastOld)
  | LastKid, FElem m b (Elem n a k :: ks) :: r =>
      BOk (with_stack s (FElem n (rev a) (rev k) :: FElem m b ks :: r) LastOld)
  | LastAttr, FElem m ((n, k) :: b) ks :: r =>
      BOk (with_stack s (FAttr n (rev k) :: FElem m b ks :: r) LastOld)
  | _, _ => BUnmodelled
  end.

(** Putting an open node back under its parent. *)
Definition close_into (f g : frame) : option (frame * last) :=
  match f, g with
  | FElem n a k, FDoc ks => Some (FDoc (Elem n (rev a) (rev k) :: ks), LastKid)
  | FElem n a k, FElem m b ks => Some (FElem m b (Elem n (rev a) (rev k) :: ks), LastKid)
  | FAttr n k, FElem m b ks => Some (FElem m ((n, rev k) :: b) ks, LastAttr)
  | _, _ => None
  end.

(** state->element_last = stack_pop(state->element_stack): do_brace_right
    xmq.c:2616, do_apar_right, do_cpar_right. *)
Definition pop (s : bst) : bout :=
  match b_stack s with
  | f :: g :: r =>
    match close_into f g with
    | Some (g', l) => BOk (with_stack s (g' :: r) l)
    | None => BUnmodelled
    end
  | _ => BUnmodelled
  end.

(** strtol(s, NULL, base) for the characters that can occur in an entity (no
    white space, no plus sign), saturated, and converted to int. *)
Definition digit_value (base : Z) (c : N) : option Z :=
  let v := if in_range 48 57 c then Some (Z.of_N c - 48)%Z
           else if in_range 97 122 c then Some (Z.of_N c - 87)%Z
           else if in_range 65 90 c then Some (Z.of_N c - 55)%Z
           else None in
  match v with Some d => if (d <? base)%Z then Some d else None | None => None end.
Fixpoint digits (base : Z) (s : bytes) (acc : Z) : Z :=
  match s with
  | c :: r => match digit_value base c with Some d => digits base r (acc * base + d)%Z | None => acc end
  | [] => acc
  end.
Definition skip_0x (base : Z) (s : bytes) : bytes :=
  match s with
  | z :: x :: d :: r =>
    if ((base =? 16)%Z && (z =? 48) && ((x =? 120) || (x =? 88))
        && match digit_value base d with Some _ => true | None => false end)%bool
    then d :: r else s
  | _ => s
  end.
Definition LONG_MAX : Z := 9223372036854775807.
Definition strtol (base : Z) (s : bytes) : Z :=
  let '(neg, s) := match s with c :: r => if c =? cMINUS then (true, r) else (false, s) | [] => (false, s) end in
  let v := digits base (skip_0x base s) 0 in
  if neg then Z.max (- v) (- LONG_MAX - 1) else Z.min v LONG_MAX.
(** The conversion of a long to an int keeps the low 32 bits. *)
Definition to_int (v : Z) : Z :=
  let m := (v mod 4294967296)%Z in if (m <? 2147483648)%Z then m else (m - 4294967296)%Z.

(** libxml2 xmlNewReference: the name without the ampersand and the
    semicolon. *)
Definition reference_name (t : bytes) : bytes :=
  match t with
  | a :: n => if a =? cAMP then
                match rev n with c :: r => if c =? cSEMI then rev r else n | [] => [] end
              else t
  | [] => []
  end.

(** xmq.c:2004-2045 create_entity, the new child.  A failing assert in
    encode_utf8 is [None]. *)
Definition entity_part (t : bytes) : option part :=
  match t with
  | _ :: h :: r =>
    if h =? cHASH then
      let uc := match r with
                | x :: r' => if x =? 120 then strtol 16 r' else strtol 10 r
                | [] => strtol 10 []
                end in
      match encode_utf8 (to_int uc) with
      | Some b => Some (PText (c_str b))
      | None => None
      end
    else Some (PRef (reference_name (c_str t)))
  | _ => Some (PRef (reference_name (c_str t)))
  end.
Definition with_entity (t : bytes) (f : part -> bout) : bout :=
  match entity_part t with Some p => f p | None => BAbrt end.

(** The value of a quote token at column [col], followed in memory by
    [aft]. *)
Definition quote_value (col : N) (t aft : bytes) : out (nat * bytes) :=
  un_quote (N.to_nat (col - 1)) cSP t aft true.
Definition with_value (r : out (nat * bytes)) (f : bytes -> bout) : bout :=
  match r with
  | Ok (_, v) => f (c_str v)
  | UB => BUB
  | _ => BAbrt
  end.

(** text.c:598-626 potentially_add_leading_ending_space *)
Definition add_spaces (s : bytes) : bytes :=
  (match s with c :: _ => if c =? cQ then [cSP] else [] | [] => [] end)
  ++ s ++
  (match rev s with c :: _ => if c =? cQ then [cSP] else [] | [] => [] end).

(** An added processing instruction or doctype does not change element_last. *)
Definition keep_last (l : last) : last := match l with LastNone => LastNone | _ => LastOld end.
Definition end_pi (s : bst) : bst := BS (b_stack s) (b_last s) None (b_doctype s).
Definition end_doctype (s : bst) : bst := BS (b_stack s) (b_last s) (b_pi s) false.

(** xmq.c:2106-2141 do_element_value_text *)
Definition element_value_text (t : bytes) (s : bst) : bout :=
  match b_pi s with
  | Some name => add_node (PI name (c_str (add_spaces t))) (keep_last (b_last s)) (end_pi s)
  | None =>
    if b_doctype s then add_node (Doctype (c_str t)) (keep_last (b_last s)) (end_doctype s)
    else add_last (PText (c_str t)) s
  end.

(** xmq.c:2143-2210 do_element_value_quote.  For an empty value of a processing
    instruction the byte before the buffer is read. *)
Definition element_value_quote (v : bytes) (s : bst) : bout :=
  match b_pi s with
  | Some name =>
    match v with
    | [] => BUB
    | _ => add_node (PI name (add_spaces v)) (keep_last (b_last s)) (end_pi s)
    end
  | None =>
    if b_doctype s then BUnmodelled else add_last (PText v) s
  end.

(** xmq.c:2474-2546 create_node, without namespaces *)
Definition create_element_node (root : option bytes) (name : bytes) (s : bst) : bout :=
  let s1 :=
    match b_last s, root with
    | LastNone, Some n =>
      if beq name n then s
      else with_stack s (FElem n [] [] :: b_stack s) (b_last s)
    | _, _ => s
    end in
  add_node (Elem name [] []) LastKid s1.
Definition create_node (root : option bytes) (name : bytes) (s : bst) : bout :=
  if beq name (B "!DOCTYPE") then BOk (BS (b_stack s) (b_last s) (b_pi s) true)
  else
    match name with
    | c :: r =>
      if c =? cQM then BOk (BS (b_stack s) (b_last s) (Some r) (b_doctype s))
      else create_element_node root name s
    | [] => create_element_node root name s
    end.

(** xmq.c:2054-2104 do_comment, do_comment_continuation.  The continuation
    counts the slashes at the end of its text and includes as many before it,
    which are there since the preceding comment ends with them. *)
Definition comment_value (col : N) (t aft : bytes) : out (nat * bytes) :=
  un_comment (N.to_nat (col - 1)) cSP t aft.
Definition append_comment (v : bytes) (s : bst) : bout :=
  match b_last s, b_stack s with
  | LastKid, FDoc (Comment t :: ks) :: r =>
      BOk (with_stack s (FDoc (Comment (t ++ cNL :: v) :: ks) :: r) LastKid)
  | LastKid, FElem m b (Comment t :: ks) :: r =>
      BOk (with_stack s (FElem m b (Comment (t ++ cNL :: v) :: ks) :: r) LastKid)
  | _, _ => BUnmodelled
  end.
Definition continuation_value (col : N) (t aft : bytes) : out (nat * bytes) :=
  un_comment (N.to_nat (col - 1)) cSP (rep cSLASH (count_lead cSLASH (rev t)) ++ t) aft.

(** One callback.  [aft] is the memory after the token. *)
Definition callback (root : option bytes) (t : token) (aft : bytes) (s : bst) : bout :=
  let x := t_text t in
  match t_kind t with
  | Kwhitespace | Kequals => BOk s
  | Kbrace_left | Kapar_left | Kcpar_left => push_last s
  | Kbrace_right | Kapar_right | Kcpar_right => pop s
  | Kquote | Kelement_value_compound_quote | Kattr_value_compound_quote =>
      with_value (quote_value (t_col t) x aft) (fun v => add_top (PText v) s)
  | Kentity | Kelement_value_compound_entity | Kattr_value_compound_entity =>
      with_entity x (fun p => add_top p s)
  | Kcomment => with_value (comment_value (t_col t) x aft) (fun v => add_node (Comment v) LastKid s)
  | Kcomment_continuation =>
      with_value (continuation_value (t_col t) x aft) (fun v => append_comment v s)
  | Kelement_name | Kelement_key => create_node root (c_str x) s
  | Kelement_value_text => element_value_text x s
  | Kelement_value_quote => with_value (quote_value (t_col t) x aft) (fun v => element_value_quote v s)
  | Kelement_value_entity => with_entity x (fun p => add_last p s)
  | Kattr_key =>
      match b_stack s with
      | FElem n a k :: r => BOk (with_stack s (FElem n ((c_str x, []) :: a) k :: r) LastAttr)
      | _ => BUnmodelled
      end
  | Kattr_value_text => add_last (PText (c_str x)) s
  | Kattr_value_quote => with_value (quote_value (t_col t) x aft) (fun v => add_last (PText v) s)
  | Kattr_value_entity => with_entity x (fun p => add_last p s)
  | Kelement_ns | Kattr_ns | Kns_declaration | Kns_colon => BUnmodelled
  end.

(** The callbacks for all tokens; [aft] follows the last token in memory. *)
Fixpoint build (root : option bytes) (T : list token) (aft : bytes) (s : bst) : bout :=
  match T with
  | [] => BOk s
  | t :: T' => bbind (callback root t (List.concat (map t_text T') ++ aft) s) (build root T' aft)
  end.

(** The document when the parse has ended: all open nodes are children
    already. *)
Fixpoint close_up (f : frame) (r : list frame) : option (list node) :=
  match r with
  | [] => match f with FDoc k => Some (rev k) | _ => None end
  | g :: r' => match close_into f g with Some (g', _) => close_up g' r' | None => None end
  end.
Definition close_all (st : list frame) : option (list node) :=
  match st with [] => None | f :: r => close_up f r end.

Inductive result :=
| Document (d : list node)
| Error (e : N)
| Undefined
| Aborts
| Unmodelled
| Running.

(** xmq.c:1827-1864 xmqParseBuffer with xmq.c:911-984 xmqTokenizeBuffer, on
    the bytes [src] that are followed in memory by [aft]. *)
Definition parse_buffer (fuel : nat) (root : option bytes) (src aft : bytes) : result :=
  match detect_content_type src aft with
  | DOk CXMQ =>
    let r := tokenize fuel src aft in
    let run s :=
      build root (tokens s) (s_rest s ++ s_aft s) (BS [FDoc []] LastNone None false) in
    match r with
    | POk s =>
      match run s with
      | BOk b => match close_all (b_stack b) with Some d => Document d | None => Unmodelled end
      | BUB => Undefined
      | BAbrt => Aborts
      | BUnmodelled => Unmodelled
      end
    | PErr e s =>
      match run s with
      | BOk b => Error e
      | BUB => Undefined
      | BAbrt => Aborts
      | BUnmodelled => Unmodelled
      end
    | PUB => Undefined
    | PAbrt => Aborts
    | PNoFuel _ => Running
    end
  | DOk _ => Error E_NOT_XMQ
  | DUB => Undefined
  end.
