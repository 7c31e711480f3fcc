(** The documents for which the default (indented) output is proved to be read
    back as the same document.  Each condition excludes a case in which the
    printer is known to fail (the theorems C28_..._refuted and C29_..._refuted
    show one document for each) or a node that the grammar of Grammar.v leaves
    out. *)
From Coq Require Import NArith ZArith List Bool Arith String.
From Verif Require Import Bytes Utf8 Utf8Proofs QuoteSpec Dom Printer Grammar Compact.
Import ListNotations.
Local Open Scope N_scope.

(** White space at an end of q that contains a newline consists of newlines. *)
Definition unmixed (q : bytes) : Prop :=
  forall w r, q = w ++ r \/ q = r ++ w -> only is_xml_whitespace w -> In cNL w -> only (is cNL) w.
(** No line ends with spaces or tabs, apart from the last one. *)
Definition clean_ends (q : bytes) : Prop := forall x c y, q = x ++ [c; cNL] ++ y -> is_hspace c = false.
(** The quotes around such a text are put on lines of their own. *)
Definition needs_frame (q : bytes) : Prop :=
  starts (is cQ) q \/ starts (is cQ) (rev q) \/ exists x y, q = x ++ [cQ; cQ; cQ] ++ y.
Definition frame_ok (q : bytes) : Prop :=
  ~ starts (is cNL) q /\ ~ starts (one_of [cSP; cTAB; cNL]) (rev q)
  /\ exists l, In l (split_lines q) /\ l <> [] /\ ~ starts is_hspace l.
(** Text that can be written in one quote. *)
Definition leaf_ok (q : bytes) : Prop := no_stray q /\ clean_ends q /\ (needs_frame q -> frame_ok q).

Section pretty.
Variable C : cfg.

Definition calm (s : bytes) : Prop := forall c, In c s -> must_escape C c = false.
(** Such a part q of t is looked at on its own: it lies between characters that
    are escaped, apart from white space with a newline. *)
Definition within (t q : bytes) : Prop :=
  exists x w1 w2 y, t = x ++ w1 ++ q ++ w2 ++ y
  /\ (x = [] \/ exists x' c, x = x' ++ [c] /\ must_escape C c = true)
  /\ (y = [] \/ exists c y', y = c :: y' /\ must_escape C c = true)
  /\ only is_xml_whitespace w1 /\ (w1 = [] \/ In cNL w1)
  /\ only is_xml_whitespace w2 /\ (w2 = [] \/ In cNL w2 /\ ~ starts (is cSP) w2).
(** And q is printed as one quote. *)
Definition stretch (t q : bytes) : Prop := q <> [] /\ within t q /\ calm q /\ unmixed q.

Record ptext_ok (t : bytes) : Prop := {
  pt_nul : ~ In 0 t;
  pt_other : t = [] \/ ~ only (is cQ) t;
  pt_utf8 : escape_non_7bit C = true -> exists us, t = List.concat (map utf8_spec us) /\ Forall (fun u => u <= 0x10ffff) us;
  pt_leaf : forall q, stretch t q -> leaf_ok q }.

Definition ppart_ok (p : part) : Prop :=
  match p with
  | PText t => ptext_ok t
  | PRef n => is_name n /\ ~ starts (is cHASH) n
  end.
Definition pvalue_ok (ps : list part) : Prop :=
  ps <> [] /\ Forall ppart_ok ps /\ alternating ps /\ forall t, ps = [PText t] -> ~ tabbed C t.
Definition pattr_ok (a : attr) : Prop :=
  attr_name (fst a) /\ (snd a = [] \/ pvalue_ok (snd a) /\ forall ps, snd a <> PText [] :: ps).

(** The column after the value is counted right. *)
Definition steady (t : bytes) : Prop := forall x c y, t = x ++ c :: y -> is_cont c = true -> x <> [] /\ List.last x 0 <> cNL.
Definition counted_part (p : part) : Prop :=
  match p with
  | PText t => t = [] \/ (calm t /\ unmixed t /\ steady t /\ ~ only is_xml_whitespace t)
  | PRef _ => True
  end.
Definition counted (ps : list part) : Prop := Forall counted_part ps.
(** The value may follow the attributes. *)
Definition after_attrs (l : list attr) (ps : list part) : Prop :=
  forall t r, ps = PText t :: r -> In cNL t -> l = [] \/ counted (snd (List.last l ([], []))).

Definition pcomment_ok (t : bytes) : Prop :=
  plain t /\ no_stray t /\
  if has_newlines t
  then clean_ends t /\ blank (hd [] (split_lines t)) = false /\ blank (List.last (split_lines t) []) = false
  else rstrip t = t.
Definition ppi_ok (t : bytes) : Prop :=
  t <> [] /\ ptext_ok t /\ calm t /\ unmixed t /\ ~ starts (is cQ) t /\ ~ starts (is cQ) (rev t)
  /\ (only (is cSP) t \/ ~ only is_xml_whitespace t).

Definition psiblings (x y : node) : Prop :=
  ~ ((exists t, x = Part (PText t)) /\ exists t, y = Part (PText t))
  /\ forall ps p, last_value x = Some ps -> y = Part p -> ~ ends_in [cEQ] ps.

Inductive pnode_ok : node -> Prop :=
| po_part p : ppart_ok p -> pnode_ok (Part p)
| po_comment t : pcomment_ok t -> pnode_ok (Comment t)
| po_pi n t : forallb is_xmq_text_name n = true -> ppi_ok t -> pnode_ok (PI n t)
| po_doctype t : bare t [] -> pnode_ok (Doctype t)
| po_leaf n l : element_name n -> Forall pattr_ok l -> pnode_ok (Elem n l [])
| po_value n l ps : element_name n -> Forall pattr_ok l -> pvalue_ok ps -> after_attrs l ps -> pnode_ok (Elem n l (map Part ps))
| po_body n l k : element_name n -> Forall pattr_ok l -> as_parts k = None -> pnodes_ok k -> pnode_ok (Elem n l k)
with pnodes_ok : list node -> Prop :=
| po_nil : pnodes_ok []
| po_cons x r : pnode_ok x -> (forall y r', r = y :: r' -> psiblings x y) -> pnodes_ok r -> pnodes_ok (x :: r).

End pretty.
