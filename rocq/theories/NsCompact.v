(** The documents with namespaces for which the compact output is proved to be
    read back (Compact.v is the same without namespaces). *)
From Coq Require Import NArith ZArith List Bool Arith String Permutation.
From Verif Require Import Bytes Utf8 Utf8Proofs QuoteSpec Dom NsDom NsSpec Printer Grammar NsGrammar Compact.
Import ListNotations.
Local Open Scope N_scope.

(** ** Scopes *)

(** The names of the document have the URIs of the declarations in scope, every
    prefix is declared and none is declared again inside of its scope; [dflt]
    tells whether the element may declare a default namespace. *)
Inductive placed (sc : list decl) : bool -> vnode -> Prop :=
| pl_elem (dflt : bool) p u n ds at_ ks :
    NoDup (map d_prefix ds) ->
    Forall (fun d => d_prefix d <> Some (B "xml") /\ ~ In (d_prefix d) (map d_prefix sc)) ds ->
    (dflt = false -> ~ In None (map d_prefix ds)) ->
    is_known (map d_prefix (ds ++ sc)) p -> uri_of (ds ++ sc) p u ->
    Forall (fun a => is_known (map d_prefix (ds ++ sc)) (va_prefix a) /\
                     match va_prefix a with None => va_uri a = None | q => uri_of (ds ++ sc) q (va_uri a) end) at_ ->
    Forall (placed (ds ++ sc) false) ks ->
    placed sc dflt (VElem p u n ds at_ ks)
| pl_part dflt p : placed sc dflt (VPart p)
| pl_comment dflt t : placed sc dflt (VComment t)
| pl_pi dflt n c : placed sc dflt (VPI n c)
| pl_doctype dflt c : placed sc dflt (VDoctype c).

(** One root element, which is the only one that may declare a default
    namespace; or several, and no default namespace. *)
Definition well_placed (d : list vnode) : Prop :=
  exists dflt : bool, Forall (placed [] dflt) d /\
    (dflt = true -> (List.length (filter is_velem d) <= 1)%nat).

(** ** The same document: the declarations of an element have no order. *)
Inductive same : vnode -> vnode -> Prop :=
| same_elem p u n ds ds' at_ ks ks' :
    Permutation ds ds' -> Forall2 same ks ks' -> same (VElem p u n ds at_ ks) (VElem p u n ds' at_ ks')
| same_part p : same (VPart p) (VPart p)
| same_comment t : same (VComment t) (VComment t)
| same_pi n c : same (VPI n c) (VPI n c)
| same_doctype c : same (VDoctype c) (VDoctype c).

(** ** Texts and names *)
Section compact.
Variable C : cfg.

Definition qname_ok (p : option bytes) (n : bytes) : Prop :=
  match p with None => Grammar.element_name n | Some q => Grammar.element_name q /\ local_name n end.
Definition qattr_ok (p : option bytes) (n : bytes) : Prop :=
  match p with None => attr_name n | Some q => attr_name q /\ local_name n end.

Definition vattr_ok (a : vattr) : Prop :=
  qattr_ok (va_prefix a) (va_name a) /\
  (va_value a = [] \/ value_ok C (va_value a) /\ forall ps, va_value a <> PText [] :: ps).
(** Nothing in the URI has to be escaped. *)
Definition decl_ok (d : decl) : Prop :=
  match d_prefix d with None => True | Some q => local_name q end /\
  exists u, d_uri d = Some u /\ pi_ok C u.

(** The attributes and then the declarations; the value of each but the last
    does not end with a semicolon. *)
Fixpoint decls_ok (l : list decl) : Prop :=
  match l with
  | [] => True
  | d :: r => decl_ok d /\ (r = [] \/ forall u, d_uri d = Some u -> ~ ends_in [cSEMI] [PText u]) /\ decls_ok r
  end.
Fixpoint vattrs_ok (l : list vattr) (ds : list decl) : Prop :=
  match l with
  | [] => decls_ok ds
  | a :: r => vattr_ok a /\ (r = [] /\ ds = [] \/ ~ ends_in [cSEMI] (va_value a)) /\ vattrs_ok r ds
  end.

Fixpoint all_parts (k : list vnode) : option (list part) :=
  match k with
  | [] => Some []
  | VPart p :: r => match all_parts r with Some ps => Some (p :: ps) | None => None end
  | _ => None
  end.
Definition vlast_value (x : vnode) : option (list part) :=
  match x with
  | VElem _ _ _ _ _ k => all_parts k
  | VPI _ t | VDoctype t => Some [PText t]
  | _ => None
  end.
(** No space is printed between a node that ends like this and y. *)
Definition vunseparated (y : vnode) : list N :=
  match y with
  | VElem _ _ _ _ _ _ | VPI _ _ | VDoctype _ => [cSEMI; cSLASH]
  | VPart _ => [cSEMI; cEQ]
  | VComment _ => [cSEMI]
  end.
Definition vsiblings (x y : vnode) : Prop :=
  ~ ((exists t, x = VPart (PText t)) /\ exists t, y = VPart (PText t))
  /\ forall ps, vlast_value x = Some ps -> ~ ends_in (vunseparated y) ps.

Inductive vnode_ok : vnode -> Prop :=
| vok_part p : part_ok C p -> vnode_ok (VPart p)
| vok_comment t : comment_ok t -> vnode_ok (VComment t)
| vok_pi n t : forallb is_xmq_text_name n = true -> pi_ok C t -> vnode_ok (VPI n t)
| vok_doctype t : bare t [] -> vnode_ok (VDoctype t)
| vok_leaf p u n ds l : qname_ok p n -> vattrs_ok l ds -> vnode_ok (VElem p u n ds l [])
| vok_value p u n ds l ps : qname_ok p n -> vattrs_ok l ds -> value_ok C ps -> vnode_ok (VElem p u n ds l (map VPart ps))
| vok_body p u n ds l k : qname_ok p n -> vattrs_ok l ds -> all_parts k = None -> vnodes_ok k -> vnode_ok (VElem p u n ds l k)
with vnodes_ok : list vnode -> Prop :=
| vok_nil : vnodes_ok []
| vok_cons x r : vnode_ok x -> (forall y r', r = y :: r' -> vsiblings x y) -> vnodes_ok r -> vnodes_ok (x :: r).

End compact.
