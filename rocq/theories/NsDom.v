(** Model of the construction of a document with namespaces (xmq.c:1827-2664):
    the callbacks of Dom.v again, now with do_element_ns, do_attr_ns,
    do_ns_declaration, do_attr_key, update_namespace_href and create_node in
    full, together with the functions of libxml2 they call for namespaces
    (xmlNewNs, xmlSearchNs, xmlGetNsList, xmlSetNs, xmlNewNsProp).

    The namespace objects of libxml2 (xmlNs) live in a table; nodes and
    attributes refer to them by their number, as they do by pointers in libxml2,
    since the href of an object is set after nodes refer to it already.

    Simplifications.  As in Dom.v the flags are 0 and a doctype that is given as
    a quote is not modelled.  A namespace declaration or a prefixed attribute that
    comes after a child element, which the parser never produces, gives the
    outcome [NUnmodelled]. *)
From Coq Require Import NArith ZArith List Bool Arith String.
From Verif Require Import Bytes Outcome Utf8 Quote Parser Detect Dom.
Import ListNotations.
Local Open Scope N_scope.

(** xmlNs: the prefix is NULL for a default namespace, the href is NULL until
    it is set. *)
Record nsobj := NsObj { o_prefix : option bytes; o_href : option bytes }.

(** A pointer to a namespace object: the one of the prefix xml, which
    libxml2 predefines, or one in the table. *)
Inductive nsref := NsXml | NsNum (i : nat).

(** xmlAttr: ns, name and children. *)
Record nattr := NAttr { a_ns : option nsref; a_name : bytes; a_parts : list part }.

(** xmlNode for an element: ns, name, nsDef and properties. *)
Record edata := ED { e_ns : option nsref; e_name : bytes; e_defs : list nat; e_attrs : list nattr }.

Inductive nnode :=
| NElem (e : edata) (kids : list nnode)
| NPart (p : part)
| NComment (t : bytes)
| NPI (name content : bytes)
| NDoctype (content : bytes).

(** A node on the element stack; children are in reverse order.  [GSame] is
    the same node as the one below it, pushed a second time (this happens for a
    compound value of an xmlns attribute). *)
Inductive gframe :=
| GDoc (rkids : list nnode)
| GElem (e : edata) (rkids : list nnode)
| GAttr (ns : option nsref) (name : bytes) (rparts : list part)
| GSame.

(** What state->element_last points to: nothing yet, the last child of the
    node on top of the stack, its last attribute, the node on top of the stack
    itself, or something else. *)
Inductive nlast := LNone | LKid | LAttr | LTop | LOld.

(** XMQParseState (xmq_internals.h:285-330), the fields used by the
    callbacks. *)
Record nst := NS {
  n_stack : list gframe;
  n_last : nlast;
  n_pi : option bytes;           (* parsing_pi and pi_name *)
  n_doctype : bool;              (* parsing_doctype *)
  n_heap : list nsobj;           (* the namespace objects created so far *)
  n_ens : option bytes;          (* element_namespace *)
  n_ans : option bytes;          (* attribute_namespace *)
  n_decl : option nsref;         (* declaring_xmlns and declaring_xmlns_namespace *)
  n_default : option nsref }.    (* default_namespace *)

Inductive nout :=
| NOk (s : nst)
| NUB
| NAbrt
| NUnmodelled.

Definition nbind (r : nout) (f : nst -> nout) : nout :=
  match r with NOk s => f s | _ => r end.

Definition set_stack (k : list gframe) (l : nlast) (s : nst) : nst :=
  NS k l (n_pi s) (n_doctype s) (n_heap s) (n_ens s) (n_ans s) (n_decl s) (n_default s).
Definition set_heap (h : list nsobj) (s : nst) : nst :=
  NS (n_stack s) (n_last s) (n_pi s) (n_doctype s) h (n_ens s) (n_ans s) (n_decl s) (n_default s).
Definition set_pi (p : option bytes) (s : nst) : nst :=
  NS (n_stack s) (n_last s) p (n_doctype s) (n_heap s) (n_ens s) (n_ans s) (n_decl s) (n_default s).
Definition set_doctype (d : bool) (s : nst) : nst :=
  NS (n_stack s) (n_last s) (n_pi s) d (n_heap s) (n_ens s) (n_ans s) (n_decl s) (n_default s).
Definition set_ens (x : option bytes) (s : nst) : nst :=
  NS (n_stack s) (n_last s) (n_pi s) (n_doctype s) (n_heap s) x (n_ans s) (n_decl s) (n_default s).
Definition set_ans (x : option bytes) (s : nst) : nst :=
  NS (n_stack s) (n_last s) (n_pi s) (n_doctype s) (n_heap s) (n_ens s) x (n_decl s) (n_default s).
Definition set_decl (x : option nsref) (s : nst) : nst :=
  NS (n_stack s) (n_last s) (n_pi s) (n_doctype s) (n_heap s) (n_ens s) (n_ans s) x (n_default s).
Definition set_default (x : option nsref) (s : nst) : nst :=
  NS (n_stack s) (n_last s) (n_pi s) (n_doctype s) (n_heap s) (n_ens s) (n_ans s) (n_decl s) x.

(** Change the node on top of the stack. *)
Fixpoint change_top (f : gframe -> option gframe) (st : list gframe) : option (list gframe) :=
  match st with
  | [] => None
  | GSame :: r => option_map (cons GSame) (change_top f r)
  | g :: r => option_map (fun g' => g' :: r) (f g)
  end.
Definition on_top (f : gframe -> option gframe) (l : nlast) (s : nst) : nout :=
  match change_top f (n_stack s) with
  | Some st => NOk (set_stack st l s)
  | None => NUnmodelled
  end.

(** libxml2 xmlAddChild for a text node: the content is appended to a text
    node that is the last child already. *)
Definition n_add_part (p : part) (rkids : list nnode) : list nnode :=
  match p, rkids with
  | PText t, NPart (PText u) :: r => NPart (PText (u ++ t)) :: r
  | _, _ => NPart p :: rkids
  end.
Definition part_into (p : part) (g : gframe) : option gframe :=
  match g with
  | GDoc k => Some (GDoc (n_add_part p k))
  | GElem e k => Some (GElem e (n_add_part p k))
  | GAttr n m k => Some (GAttr n m (add_part_part p k))
  | GSame => None
  end.
Definition node_into (x : nnode) (g : gframe) : option gframe :=
  match g with
  | GDoc k => Some (GDoc (x :: k))
  | GElem e k => Some (GElem e (x :: k))
  | _ => None
  end.

(** Add a text or entity to the node on top of the stack (do_quote xmq.c:1994,
    do_entity xmq.c:2047). *)
Definition n_add_top (p : part) (s : nst) : nout := on_top (part_into p) LKid s.

(** Add a node that is not text to the node on top of the stack. *)
Definition n_add_node (x : nnode) (l : nlast) (s : nst) : nout := on_top (node_into x) l s.

(** The last attribute and the ones before it. *)
Definition last_attr (e : edata) : option (nattr * edata) :=
  match rev (e_attrs e) with
  | a :: r => Some (a, ED (e_ns e) (e_name e) (e_defs e) (rev r))
  | [] => None
  end.
Definition add_attr (a : nattr) (e : edata) : edata :=
  ED (e_ns e) (e_name e) (e_defs e) (e_attrs e ++ [a]).

(** Add a text or entity to the node element_last (do_element_value_text
    xmq.c:2138, do_attr_value_text xmq.c:2413 and so on), which stays
    element_last. *)
Definition part_into_kid (p : part) (ks : list nnode) : option (list nnode) :=
  match ks with
  | NElem e k :: r => Some (NElem e (rev (n_add_part p (rev k))) :: r)
  | _ => None
  end.
Definition part_into_last (p : part) (g : gframe) : option gframe :=
  match g with
  | GDoc k => option_map GDoc (part_into_kid p k)
  | GElem e k => option_map (GElem e) (part_into_kid p k)
  | _ => None
  end.
Definition part_into_attr (p : part) (g : gframe) : option gframe :=
  match g with
  | GElem e k =>
    match last_attr e with
    | Some (a, e') =>
      Some (GElem (add_attr (NAttr (a_ns a) (a_name a) (rev (add_part_part p (rev (a_parts a))))) e') k)
    | None => None
    end
  | _ => None
  end.
Definition n_add_last (p : part) (s : nst) : nout :=
  match n_last s with
  | LKid => on_top (part_into_last p) LKid s
  | LAttr => on_top (part_into_attr p) LAttr s
  | LTop => on_top (part_into p) LTop s
  | _ => NUnmodelled
  end.

(** stack_push(state->element_stack, state->element_last): do_brace_left
    xmq.c:2606, do_apar_left, do_cpar_left. *)
Definition n_push_last (s : nst) : nout :=
  match n_last s, n_stack s with
  | LKid, GDoc (NElem e k :: ks) :: r =>
      NOk (set_stack (GElem e (rev k) :: GDoc ks :: r) LTop s)
  | LKid, GElem m (NElem e k :: ks) :: r =>
      NOk (set_stack (GElem e (rev k) :: GElem m ks :: r) LTop s)
  | LAttr, GElem m ks :: r =>
      match last_attr m with
      | Some (a, m') => NOk (set_stack (GAttr (a_ns a) (a_name a) (rev (a_parts a)) :: GElem m' ks :: r) LTop s)
      | None => NUnmodelled
      end
  | LTop, _ :: _ => NOk (set_stack (GSame :: n_stack s) LTop s)
  | _, _ => NUnmodelled
  end.

(** Putting an open node back under its parent. *)
Definition n_close_into (f g : gframe) : option (gframe * nlast) :=
  match f, g with
  | GElem e k, GDoc ks => Some (GDoc (NElem e (rev k) :: ks), LKid)
  | GElem e k, GElem m ks => Some (GElem m (NElem e (rev k) :: ks), LKid)
  | GAttr n x k, GElem m ks => Some (GElem (add_attr (NAttr n x (rev k)) m) ks, LAttr)
  | GSame, _ => Some (g, LTop)
  | _, _ => None
  end.

(** state->element_last = stack_pop(state->element_stack): do_brace_right
    xmq.c:2616, do_apar_right, do_cpar_right. *)
Definition n_pop (s : nst) : nout :=
  match n_stack s with
  | f :: g :: r =>
    match n_close_into f g with
    | Some (g', l) => NOk (set_stack (g' :: r) l s)
    | None => NUnmodelled
    end
  | _ => NUnmodelled
  end.

Definition n_with_entity (t : bytes) (f : part -> nout) : nout :=
  match entity_part t with Some p => f p | None => NAbrt end.
Definition n_with_value (r : out (nat * bytes)) (f : bytes -> nout) : nout :=
  match r with
  | Ok (_, v) => f (c_str v)
  | UB => NUB
  | _ => NAbrt
  end.

(** An added processing instruction or doctype does not change element_last. *)
Definition n_keep_last (l : nlast) : nlast :=
  match l with LNone => LNone | LTop => LTop | _ => LOld end.

(** xmq.c:2106-2141 do_element_value_text *)
Definition n_element_value_text (t : bytes) (s : nst) : nout :=
  match n_pi s with
  | Some name => n_add_node (NPI name (c_str (add_spaces t))) (n_keep_last (n_last s)) (set_pi None s)
  | None =>
    if n_doctype s then n_add_node (NDoctype (c_str t)) (n_keep_last (n_last s)) (set_doctype false s)
    else n_add_last (PText (c_str t)) s
  end.

(** xmq.c:2143-2210 do_element_value_quote *)
Definition n_element_value_quote (v : bytes) (s : nst) : nout :=
  match n_pi s with
  | Some name =>
    match v with
    | [] => NUB
    | _ => n_add_node (NPI name (add_spaces v)) (n_keep_last (n_last s)) (set_pi None s)
    end
  | None =>
    if n_doctype s then NUnmodelled else n_add_last (PText v) s
  end.

Definition obeq (a b : option bytes) : bool :=
  match a, b with
  | Some x, Some y => beq x y
  | None, None => true
  | _, _ => false
  end.

(** The prefix and the href of namespace object number [i]. *)
Definition prefix_of (h : list nsobj) (i : nat) : option bytes :=
  match nth_error h i with Some o => o_prefix o | None => None end.
Definition href_of (h : list nsobj) (i : nat) : option bytes :=
  match nth_error h i with Some o => o_href o | None => None end.
Definition set_href (h : list nsobj) (i : nat) (v : bytes) : list nsobj :=
  match nth_error h i with
  | Some o => firstn i h ++ NsObj (o_prefix o) (Some v) :: skipn (S i) h
  | None => h
  end.

(** The first of the namespace definitions [defs] with the prefix [p]. *)
Definition find_def (h : list nsobj) (p : option bytes) (defs : list nat) : option nat :=
  find (fun i => obeq (prefix_of h i) p) defs.

(** libxml2 tree.c xmlSearchNs(doc, node, p) for a prefix p: the definitions of
    the node, and then for each ancestor its definitions and its own
    namespace.  The prefix xml is predefined. *)
Definition own_ns (h : list nsobj) (p : bytes) (x : option nsref) : option nsref :=
  match x with
  | Some (NsNum i) => if obeq (prefix_of h i) (Some p) then x else None
  | _ => None
  end.
Fixpoint search_up (h : list nsobj) (p : bytes) (st : list gframe) : option nsref :=
  match st with
  | [] => None
  | GElem e _ :: r =>
    match find_def h (Some p) (e_defs e) with
    | Some i => Some (NsNum i)
    | None =>
      match own_ns h p (e_ns e) with
      | Some n => Some n
      | None => search_up h p r
      end
    end
  | _ :: r => search_up h p r
  end.
Definition search_ns (h : list nsobj) (p : bytes) (defs : list nat) (up : list gframe) : option nsref :=
  if beq p (B "xml") then Some NsXml
  else match find_def h (Some p) defs with
       | Some i => Some (NsNum i)
       | None => search_up h p up
       end.

(** libxml2 tree.c xmlNewNs(node, NULL, p): a new object at the end of the
    definitions [defs] of the node, or NULL if the node defines p already. *)
Definition new_ns (h : list nsobj) (p : option bytes) (defs : list nat)
  : option (nat * list nsobj * list nat) :=
  match find_def h p defs with
  | Some _ => None
  | None => Some (List.length h, h ++ [NsObj p None], defs ++ [List.length h])
  end.

(** The element on top of the stack and the nodes below it, if no child
    element has been added to it. *)
Fixpoint no_elem (k : list nnode) : bool :=
  match k with
  | [] => true
  | NElem _ _ :: _ => false
  | _ :: r => no_elem r
  end.
Definition top_elem (s : nst) : option (edata * list nnode * list gframe) :=
  match n_stack s with
  | GElem e k :: r => if no_elem k then Some (e, k, r) else None
  | _ => None
  end.

(** xmq.c:2263-2345 do_ns_declaration.  [suffix] is the text between the end of
    the word xmlns and the pointer suffix: empty, or a colon and the prefix.  An
    object that is not created is the one that the element defines already
    (xmlGetNsList lists the definitions of the element first). *)
Definition ns_declaration (suffix : bytes) (s : nst) : nout :=
  match top_elem s with
  | Some (e, k, r) =>
    let p := match suffix with [] => None | _ :: n => Some (c_str n) end in
    let '(i, h, defs) :=
      match find_def (n_heap s) p (e_defs e), new_ns (n_heap s) p (e_defs e) with
      | Some j, _ => (j, n_heap s, e_defs e)
      | None, Some x => x
      | None, None => (O, n_heap s, e_defs e)
      end in
    let ns := match p, e_ns e with
              | None, None => Some (NsNum i)
              | _, x => x
              end in
    let s1 := set_heap h (set_stack (GElem (ED ns (e_name e) defs (e_attrs e)) k :: r) (n_last s) s) in
    let s2 := match p with None => set_default (Some (NsNum i)) s1 | Some _ => s1 end in
    NOk (set_decl (Some (NsNum i)) s2)
  | None => NUnmodelled
  end.

(** xmq.c:2242-2261 do_attr_ns *)
Definition attr_ns (x : bytes) (s : nst) : nout :=
  match n_decl s with
  | None => NOk (set_ans (Some (c_str x)) s)
  | Some _ => NOk s
  end.

(** xmq.c:2347-2390 do_attr_key.  xmlNewNs succeeds since no definition with
    this prefix has been found. *)
Definition attr_key (x : bytes) (s : nst) : nout :=
  match n_ans s with
  | None =>
    match n_stack s with
    | GElem e k :: r => NOk (set_stack (GElem (add_attr (NAttr None (c_str x) []) e) k :: r) LAttr s)
    | _ => NUnmodelled
    end
  | Some p =>
    match top_elem s with
    | Some (e, k, r) =>
      let '(n, h, defs) :=
        match search_ns (n_heap s) p (e_defs e) r with
        | Some n => (Some n, n_heap s, e_defs e)
        | None =>
          match new_ns (n_heap s) (Some p) (e_defs e) with
          | Some (i, h, d) => (Some (NsNum i), h, d)
          | None => (None, n_heap s, e_defs e)
          end
        end in
      NOk (set_ans None (set_heap h
            (set_stack (GElem (ED (e_ns e) (e_name e) defs (e_attrs e ++ [NAttr n (c_str x) []])) k :: r)
                       LAttr s)))
    | None => NUnmodelled
    end
  end.

Definition nsref_eqb (a b : nsref) : bool :=
  match a, b with
  | NsXml, NsXml => true
  | NsNum i, NsNum j => Nat.eqb i j
  | _, _ => false
  end.

(** xmlSetNs(element, NULL) for the element on top of the stack. *)
Definition clear_ns (g : gframe) : option gframe :=
  match g with
  | GElem e k => Some (GElem (ED None (e_name e) (e_defs e) (e_attrs e)) k)
  | _ => None
  end.

(** xmq.c:2392-2411 update_namespace_href, for the namespace being declared;
    it is not declared any longer afterwards (xmq.c:2420-2428,
    2440-2448). *)
Definition update_href (n : nsref) (v : bytes) (s : nst) : nout :=
  let s1 := match n with
            | NsNum i => set_heap (set_href (n_heap s) i v) s
            | NsXml => s
            end in
  let s2 := set_decl None s1 in
  match v, n_default s with
  | [], Some d =>
    if nsref_eqb n d then
      nbind (on_top clear_ns (n_last s) s2) (fun s3 => NOk (set_default None s3))
    else NOk s2
  | _, _ => NOk s2
  end.

(** xmq.c:2413-2450 do_attr_value_text, do_attr_value_quote *)
Definition attr_value (v : bytes) (s : nst) : nout :=
  match n_decl s with
  | Some n => update_href n v s
  | None => n_add_last (PText v) s
  end.

(** xmq.c:2482-2555 create_node.  Without an implicit root, or if it is the
    node itself, the node is the root; it is added to the node on top of the
    stack in any case. *)
Definition element_ns (s : nst) : option nsref * list nsobj * list nat * option bytes :=
  match n_ens s with
  | Some p =>
    match search_ns (n_heap s) p [] (n_stack s) with
    | Some n => (Some n, n_heap s, [], None)
    | None => (Some (NsNum (List.length (n_heap s))), n_heap s ++ [NsObj (Some p) None],
               [List.length (n_heap s)], None)
    end
  | None => (n_default s, n_heap s, [], None)
  end.
Definition n_create_element (root : option bytes) (name : bytes) (s : nst) : nout :=
  let s1 :=
    match n_last s, root with
    | LNone, Some n =>
      if beq name n then s
      else set_stack (GElem (ED None n [] []) [] :: n_stack s) (n_last s) s
    | _, _ => s
    end in
  let '(n, h, defs, ens) := element_ns s1 in
  n_add_node (NElem (ED n name defs []) []) LKid (set_ens ens (set_heap h s1)).
Definition n_create_node (root : option bytes) (name : bytes) (s : nst) : nout :=
  if beq name (B "!DOCTYPE") then NOk (set_doctype true s)
  else
    match name with
    | c :: r =>
      if c =? cQM then NOk (set_pi (Some r) s)
      else n_create_element root name s
    | [] => n_create_element root name s
    end.

(** xmq.c:2081-2104 do_comment_continuation *)
Definition comment_more (v : bytes) (ks : list nnode) : option (list nnode) :=
  match ks with
  | NComment t :: r => Some (NComment (t ++ cNL :: v) :: r)
  | _ => None
  end.
Definition comment_into (v : bytes) (g : gframe) : option gframe :=
  match g with
  | GDoc k => option_map GDoc (comment_more v k)
  | GElem e k => option_map (GElem e) (comment_more v k)
  | _ => None
  end.
Definition n_append_comment (v : bytes) (s : nst) : nout :=
  match n_last s with
  | LKid => on_top (comment_into v) LKid s
  | _ => NUnmodelled
  end.

(** One callback.  [aft] is the memory after the token. *)
Definition ncallback (root : option bytes) (t : token) (aft : bytes) (s : nst) : nout :=
  let x := t_text t in
  match t_kind t with
  | Kwhitespace | Kequals | Kns_colon => NOk s
  | Kbrace_left | Kapar_left | Kcpar_left => n_push_last s
  | Kbrace_right | Kapar_right | Kcpar_right => n_pop s
  | Kquote | Kelement_value_compound_quote | Kattr_value_compound_quote =>
      n_with_value (quote_value (t_col t) x aft) (fun v => n_add_top (PText v) s)
  | Kentity | Kelement_value_compound_entity | Kattr_value_compound_entity =>
      n_with_entity x (fun p => n_add_top p s)
  | Kcomment => n_with_value (comment_value (t_col t) x aft) (fun v => n_add_node (NComment v) LKid s)
  | Kcomment_continuation =>
      n_with_value (continuation_value (t_col t) x aft) (fun v => n_append_comment v s)
  | Kelement_ns => NOk (set_ens (Some (c_str x)) s)
  | Kelement_name | Kelement_key => n_create_node root (c_str x) s
  | Kelement_value_text => n_element_value_text x s
  | Kelement_value_quote =>
      n_with_value (quote_value (t_col t) x aft) (fun v => n_element_value_quote v s)
  | Kelement_value_entity => n_with_entity x (fun p => n_add_last p s)
  | Kns_declaration => ns_declaration (t_suffix t) s
  | Kattr_ns => attr_ns x s
  | Kattr_key => attr_key x s
  | Kattr_value_text => attr_value (c_str x) s
  | Kattr_value_quote => n_with_value (quote_value (t_col t) x aft) (fun v => attr_value v s)
  | Kattr_value_entity => n_with_entity x (fun p => n_add_last p s)
  end.

Fixpoint nbuild (root : option bytes) (T : list token) (aft : bytes) (s : nst) : nout :=
  match T with
  | [] => NOk s
  | t :: T' => nbind (ncallback root t (List.concat (map t_text T') ++ aft) s) (nbuild root T' aft)
  end.

Fixpoint n_close_up (f : gframe) (r : list gframe) : option (list nnode) :=
  match r with
  | [] => match f with GDoc k => Some (rev k) | _ => None end
  | g :: r' => match n_close_into f g with Some (g', _) => n_close_up g' r' | None => None end
  end.
Definition n_close_all (st : list gframe) : option (list nnode) :=
  match st with [] => None | f :: r => n_close_up f r end.

Definition ninit : nst := NS [GDoc []] LNone None false [] None None None None.

(** What a user of the document sees: elements and attributes with the
    prefix and the href of their namespace (None for NULL), and the
    declarations of an element. *)
Record decl := Decl { d_prefix : option bytes; d_uri : option bytes }.
Record vattr := VAttr { va_prefix : option bytes; va_uri : option bytes; va_name : bytes;
                        va_value : list part }.
Inductive vnode :=
| VElem (prefix uri : option bytes) (name : bytes) (decls : list decl) (attrs : list vattr)
        (kids : list vnode)
| VPart (p : part)
| VComment (t : bytes)
| VPI (name content : bytes)
| VDoctype (content : bytes).

(** libxml2: XML_XML_NAMESPACE *)
Definition XML_NS : bytes := B "http://www.w3.org/XML/1998/namespace".

Definition ref_prefix (h : list nsobj) (n : option nsref) : option bytes :=
  match n with
  | None => None
  | Some NsXml => Some (B "xml")
  | Some (NsNum i) => prefix_of h i
  end.
Definition ref_uri (h : list nsobj) (n : option nsref) : option bytes :=
  match n with
  | None => None
  | Some NsXml => Some XML_NS
  | Some (NsNum i) => href_of h i
  end.
Definition view_attr (h : list nsobj) (a : nattr) : vattr :=
  VAttr (ref_prefix h (a_ns a)) (ref_uri h (a_ns a)) (a_name a) (a_parts a).
Fixpoint view (h : list nsobj) (x : nnode) : vnode :=
  match x with
  | NElem e k =>
      VElem (ref_prefix h (e_ns e)) (ref_uri h (e_ns e)) (e_name e)
            (map (fun i => Decl (prefix_of h i) (href_of h i)) (e_defs e))
            (map (view_attr h) (e_attrs e)) (map (view h) k)
  | NPart p => VPart p
  | NComment t => VComment t
  | NPI n c => VPI n c
  | NDoctype c => VDoctype c
  end.

Inductive nresult :=
| NDocument (d : list vnode)
| NError (e : N)
| NUndefined
| NAborts
| NNotModelled
| NRunning.

(** xmq.c:1827-1864 xmqParseBuffer with xmq.c:911-984 xmqTokenizeBuffer, on
    the bytes [src] that are followed in memory by [aft]. *)
Definition nparse_buffer (fuel : nat) (root : option bytes) (src aft : bytes) : nresult :=
  match detect_content_type src aft with
  | DOk CXMQ =>
    let r := tokenize fuel src aft in
    let run s := nbuild root (tokens s) (s_rest s ++ s_aft s) ninit in
    match r with
    | POk s =>
      match run s with
      | NOk b => match n_close_all (n_stack b) with
                 | Some d => NDocument (map (view (n_heap b)) d)
                 | None => NNotModelled
                 end
      | NUB => NUndefined
      | NAbrt => NAborts
      | NUnmodelled => NNotModelled
      end
    | PErr e s =>
      match run s with
      | NOk b => NError e
      | NUB => NUndefined
      | NAbrt => NAborts
      | NUnmodelled => NNotModelled
      end
    | PUB => NUndefined
    | PAbrt => NAborts
    | PNoFuel _ => NRunning
    end
  | DOk _ => NError E_NOT_XMQ
  | DUB => NUndefined
  end.
