(** Model of the last step of xmqParseBufferWithIXML: the document that is
    made from the tree of a parse (xmq.c, generate_dom_from_yaep_node), and the
    trees that yaep builds from the rules handed to it, as far as their nodes
    and marks go.  How yaep finds a tree is in YaepTree.v, and both together in
    IxmlWhole.v. *)
From Coq Require Import NArith ZArith Bool List.
From Verif Require Import Bytes Utf8 Dom Ixml.
Import ListNotations.
Local Open Scope N_scope.
Local Open Scope list_scope.

(** ixml.c:1416-1508 ixml_to_yaep_read_rule: all that yaep is told, with the
    marks of the rules and of the terms.  Every rule has an abstract node:
    translation i is the node of term i. *)
Record mgrammar := MGrammar { mg_terms : list (bytes * Z); mg_rules : list irule }.
Definition read_marks (g : gst) : mgrammar := MGrammar (g_terms g) (skipn (g_read g) (g_rules g)).
(** xmq.c:4594-4616 xmqParseBufferWithIXML up to the call of yaep *)
Definition use_marks (g : gst) (content : bytes) : ires mgrammar :=
  ido g <- fixup_charsets content g;
  IOk (read_marks g).
(** ixml.c:1485-1486: the alias of the rule, or its name, is the name of the
    abstract node *)
Definition node_name (r : irule) : bytes := match r_alias r with Some a => a | None => r_name r end.

(** yaep.h YaepTreeNode: terminal and abstract nodes with their marks.  (With
    one parse and without error recovery there are no others.) *)
Inductive ytree := YTerm (c : Z) (m : N) | YNode (n : bytes) (m : N) (ks : list ytree).

(** yaep.c:6800-6815 and 6985-7010 make_parse: the trees for the term [t] of a
    right hand side and the text [w].  The mark of a terminal node is stored
    only if the term has one; otherwise the node, which comes from malloc, has
    a mark that was never written: any mark with [junk].  The mark of an
    abstract node is the one of the term, or else the one of the rule.  The
    start symbol stands in the rule for the axiom, without a mark. *)
Section trees.
Variable y : mgrammar.
Variable junk : N -> Prop.
Inductive tree_of : iterm -> ytree -> list Z -> Prop :=
| to_term m s c k : In (s, c) (mg_terms y) -> (if m =? 0 then junk k else k = m) -> tree_of (ITerm m s) (YTerm c k) [c]
| to_rule m r ks w : In r (mg_rules y) -> trees_of (r_rhs r) ks w ->
    tree_of (ITerm m (r_name r)) (YNode (node_name r) (if m =? 0 then r_mark r else m) ks) w
with trees_of : list iterm -> list ytree -> list Z -> Prop :=
| to_nil : trees_of [] [] []
| to_cons t ts k ks v w : tree_of t k v -> trees_of ts ks w -> trees_of (t :: ts) (k :: ks) (v ++ w).
Definition parse_tree (t : ytree) (w : list Z) : Prop :=
  exists r rs, mg_rules y = r :: rs /\ tree_of (ITerm 0 (r_name r)) t w.
End trees.

(** The bytes before the first zero, as a C string *)
Fixpoint cstr (s : bytes) : bytes :=
  match s with [] => [] | c :: r => if c =? 0 then [] else c :: cstr r end.

(** What the code does: [DUB] stands for a call with a null node or a failing
    assert in encode_utf8. *)
Inductive dres (A : Type) := DOk (a : A) | DUB.
Arguments DOk {A} a.
Arguments DUB {A}.
Definition dbind {A B} (r : dres A) (f : A -> dres B) : dres B := match r with DOk a => f a | DUB => DUB end.

(** text.c encode_utf8, as a C string *)
Definition char_text (c : Z) : dres bytes :=
  match encode_utf8 c with Some s => DOk (cstr s) | None => DUB end.

(** xmq.c:4443-4472 collect_text *)
Fixpoint collect (t : ytree) : dres bytes :=
  match t with
  | YTerm c m => if m =? cMINUS then DOk [] else char_text c
  | YNode _ _ ks =>
    (fix all (l : list ytree) : dres bytes :=
       match l with
       | [] => DOk []
       | k :: l => dbind (collect k) (fun a => dbind (all l) (fun b => DOk (a ++ b)))
       end) ks
  end.

(** The attributes and children of the node that is being filled, the last one
    first *)
Definition filling := (list attr * list node)%type.
(** libxml2 xmlNewProp, which takes the value as it is and does not look for an
    attribute with the same name, and xmlAddChild *)
Definition add_attr (n v : bytes) (f : filling) : filling := ((n, [PText v]) :: fst f, snd f).
Definition add_text (s : bytes) (f : filling) : filling := (fst f, add_text_kid s (snd f)).
Definition add_elem (n : bytes) (sub : filling) (f : filling) : filling := (fst f, Elem n (rev (fst sub)) (rev (snd sub)) :: snd f).

(** xmq.c:4474-4592 generate_dom_from_yaep_node with a node to fill.  An
    element is added to its parent before it is filled: the result is the
    same. *)
Fixpoint gen_dom (t : ytree) (f : filling) : dres filling :=
  match t with
  | YTerm c m => if m =? cMINUS then DOk f else dbind (char_text c) (fun s => DOk (add_text s f))
  | YNode n m ks =>
    let all := fix all (l : list ytree) (f : filling) : dres filling :=
      match l with
      | [] => DOk f
      | k :: l => dbind (gen_dom k f) (all l)
      end in
    match n with
    | 124 :: 43 :: s => DOk (add_text s f)
    | _ =>
      if m =? cMINUS then all ks f
      else if m =? 64 then dbind (collect t) (fun v => DOk (add_attr n v f))
      else dbind (all ks ([], [])) (fun sub => DOk (add_elem n sub f))
    end
  end.

(** libxml2 xmlDocSetRootElement: the node takes the place of the first element
    of the document if there is one (that element is lost).  Otherwise it is
    added at the end by xmlAddSibling, which joins a text to a text. *)
Fixpoint replace_elem (n : node) (d : list node) : option (list node) :=
  match d with
  | [] => None
  | Elem _ _ _ :: r => Some (n :: r)
  | k :: r => option_map (cons k) (replace_elem n r)
  end.
Definition set_root (n : node) (d : list node) : list node :=
  match replace_elem n d with
  | Some d => d
  | None =>
    rev (match n with
         | Part (PText s) => add_text_kid s (rev d)
         | _ => n :: rev d
         end)
  end.
(** xmq.c:4474-4592 generate_dom_from_yaep_node without a node, from xmq.c:4647:
    the children of the document.  An attribute without a node is made and
    lost. *)
Fixpoint gen_doc (t : ytree) (d : list node) : dres (list node) :=
  match t with
  | YTerm c m => if m =? cMINUS then DOk d else dbind (char_text c) (fun s => DOk (set_root (Part (PText s)) d))
  | YNode n m ks =>
    let all := fix all (l : list ytree) (d : list node) : dres (list node) :=
      match l with
      | [] => DOk d
      | k :: l => dbind (gen_doc k d) (all l)
      end in
    match n with
    | 124 :: 43 :: s => DOk (set_root (Part (PText s)) d)
    | _ =>
      if m =? cMINUS then all ks d
      else if m =? 64 then dbind (collect t) (fun _ => DOk d)
      else dbind (gen_dom t ([], [])) (fun f => DOk (fold_right set_root d (snd f)))
    end
  end.
