(** Specification of namespaces, independent of the model of the code: the
    rules of "Namespaces in XML 1.0" for the scope of a declaration, on the
    document that a user sees ([vnode], NsDom.v). *)
From Coq Require Import NArith List String.
From Verif Require Import Bytes Quote Parser Dom NsDom.
Import ListNotations.
Local Open Scope bool_scope.

(** [resolves sc p u]: the innermost of the declarations [sc] (innermost first)
    for the prefix [p] ([None] for the default namespace) has the URI [u]; if
    there is none then [u] is [None]. *)
Inductive resolves : list decl -> option bytes -> option bytes -> Prop :=
| res_none p : resolves [] p None
| res_here d sc : resolves (d :: sc) (d_prefix d) (d_uri d)
| res_outer d sc p u : d_prefix d <> p -> resolves sc p u -> resolves (d :: sc) p u.

(** An empty URI (xmlns='') is no namespace. *)
Definition no_empty (u : option bytes) : option bytes :=
  match u with Some [] => None | _ => u end.

(** The prefix and URI of a name agree with the declarations in scope.  The
    prefix xml is bound by definition. *)
Definition in_namespace (sc : list decl) (p u : option bytes) : Prop :=
  (p = Some (B "xml") /\ u = Some XML_NS) \/
  exists w, resolves sc p w /\ no_empty w = no_empty u.

(** A default namespace does not apply to attributes. *)
Definition attr_bound (sc : list decl) (a : vattr) : Prop :=
  match va_prefix a with
  | None => va_uri a = None
  | Some p => in_namespace sc (Some p) (va_uri a)
  end.

(** Every element and every attribute of the tree is in the namespace of the
    innermost declaration for its prefix; [sc] are the declarations of the
    elements around it. *)
Inductive bound (sc : list decl) : vnode -> Prop :=
| bound_elem p u n ds at_ ks :
    in_namespace (ds ++ sc) p u ->
    Forall (attr_bound (ds ++ sc)) at_ ->
    Forall (bound (ds ++ sc)) ks ->
    bound sc (VElem p u n ds at_ ks)
| bound_part p : bound sc (VPart p)
| bound_comment t : bound sc (VComment t)
| bound_pi n c : bound sc (VPI n c)
| bound_doctype c : bound sc (VDoctype c).

(** No element declares a prefix that an element around it declares, or the
    prefix xml. *)
Inductive unshadowed (sc : list decl) : vnode -> Prop :=
| uns_elem p u n ds at_ ks :
    Forall (fun d => d_prefix d <> Some (B "xml") /\ ~ In (d_prefix d) (map d_prefix sc)) ds ->
    Forall (unshadowed (ds ++ sc)) ks ->
    unshadowed sc (VElem p u n ds at_ ks)
| uns_part p : unshadowed sc (VPart p)
| uns_comment t : unshadowed sc (VComment t)
| uns_pi n c : unshadowed sc (VPI n c)
| uns_doctype c : unshadowed sc (VDoctype c).

(** No default namespace is declared in the tree. *)
Inductive no_default : vnode -> Prop :=
| nd_elem p u n ds at_ ks :
    ~ In None (map d_prefix ds) -> Forall no_default ks -> no_default (VElem p u n ds at_ ks)
| nd_part p : no_default (VPart p)
| nd_comment t : no_default (VComment t)
| nd_pi n c : no_default (VPI n c)
| nd_doctype c : no_default (VDoctype c).

(** At most the root element declares a default namespace. *)
Definition no_default_inside (x : vnode) : Prop :=
  match x with VElem _ _ _ _ _ ks => Forall no_default ks | _ => True end.

Definition is_velem (x : vnode) : bool := match x with VElem _ _ _ _ _ _ => true | _ => false end.

(** The documents for which the names are shown to be bound correctly: one
    root element, no prefix is declared again inside the scope of a declaration
    for it, and a default namespace is declared by the root only. *)
Record simple_scopes (d : list vnode) : Prop := SimpleScopes {
  ss_root : (List.length (filter is_velem d) <= 1)%nat;
  ss_unshadowed : Forall (unshadowed []) d;
  ss_default : Forall no_default_inside d }.

(** The prefixes and names of the elements of a tree, in the order of their
    start in the source. *)
Fixpoint elements (x : vnode) : list (option bytes * bytes) :=
  match x with
  | VElem p _ n _ _ ks => (p, n) :: flat_map elements ks
  | _ => []
  end.

(** The prefixes and names of the elements that are written in the source, by
    its tokens.  A name that begins with a question mark, or is !DOCTYPE, is not
    that of an element. *)
Definition element_name (n : bytes) : bool :=
  negb (beq n (B "!DOCTYPE")) && negb (match n with c :: _ => (c =? cQM)%N | [] => false end).
Fixpoint written (pending : option bytes) (T : list token) : list (option bytes * bytes) :=
  match T with
  | [] => []
  | t :: r =>
    match t_kind t with
    | Kelement_ns => written (Some (c_str (t_text t))) r
    | Kelement_name | Kelement_key =>
      if element_name (c_str (t_text t)) then (pending, c_str (t_text t)) :: written None r
      else written pending r
    | _ => written pending r
    end
  end.

(** The source declares a default namespace. *)
Definition declares_default (t : token) : Prop := t_kind t = Kns_declaration /\ t_suffix t = [].
