(** Specification of what a document with namespaces has in common with the
    document of the same source when prefixes are read as a part of the names
    and declarations as white space. *)
From Coq Require Import NArith List String.
From Verif Require Import Bytes Quote Parser Dom NsDom TokenSpec.
From Verif Require Grammar.
Import ListNotations.

(** The name with its prefix, as it is written. *)
Definition qname (p : option bytes) (n : bytes) : bytes :=
  match p with None => n | Some x => x ++ cCOLON :: n end.

(** The document with such names, without the declarations. *)
Definition qualified_attr (a : vattr) : attr := (qname (va_prefix a) (va_name a), va_value a).
Fixpoint qualified (x : vnode) : node :=
  match x with
  | VElem p _ n _ at_ ks => Elem (qname p n) (map qualified_attr at_) (map qualified ks)
  | VPart p => Part p
  | VComment t => Comment t
  | VPI n c => PI n c
  | VDoctype c => Doctype c
  end.

(** The value of a declaration: a text or a quote. *)
Definition uri_value (v : token) : Prop := t_kind v = Kattr_value_text \/ t_kind v = Kattr_value_quote.
Definition not_empty (v : token) : Prop :=
  match t_kind v with
  | Kattr_value_text => c_str (t_text v) <> []
  | _ => forall mem n x, quote_value (t_col v) (t_text v) mem = Outcome.Ok (n, x) -> c_str x <> []
  end.

(** xmlns = uri, where the uri is not empty, and xmlns:x = uri *)
Inductive declaration : list token -> Prop :=
| dc_default t W e X v :
    t_kind t = Kns_declaration -> t_suffix t = [] ->
    spaces W -> t_kind e = Kequals -> spaces X -> uri_value v -> not_empty v ->
    declaration (t :: W ++ e :: X ++ [v])
| dc_prefix t c n W e X v :
    t_kind t = Kns_declaration -> t_suffix t <> [] -> t_kind c = Kns_colon -> t_kind n = Kattr_ns ->
    spaces W -> t_kind e = Kequals -> spaces X -> uri_value v ->
    declaration (t :: c :: n :: W ++ e :: X ++ [v]).

Definition no_namespace (k : kind) : Prop :=
  k <> Kelement_ns /\ k <> Kattr_ns /\ k <> Kns_colon /\ k <> Kns_declaration.

(** [joined root T J]: [J] are the tokens [T] where a prefix, a colon and a name
    are one name, and a declaration is white space.  The name of an implicit
    root is compared with the name without its prefix (xmq.c:2507), therefore
    such names are excluded. *)
Inductive joined (root : option bytes) : list token -> list token -> Prop :=
| j_nil : joined root [] []
| j_same t T J : no_namespace (t_kind t) -> joined root T J -> joined root (t :: T) (t :: J)
| j_elem p c n q T J :
    t_kind p = Kelement_ns -> name_chars (t_text p) -> Grammar.starts is_xmq_element_start (t_text p) ->
    t_kind c = Kns_colon -> t_text c = [cCOLON] ->
    t_kind n = Kelement_name \/ t_kind n = Kelement_key -> name_chars (t_text n) ->
    root <> Some (t_text n) -> root <> Some (t_text p ++ cCOLON :: t_text n) ->
    t_kind q = t_kind n -> t_text q = t_text p ++ cCOLON :: t_text n ->
    joined root T J -> joined root (p :: c :: n :: T) (q :: J)
| j_attr p c n q T J :
    t_kind p = Kattr_ns -> name_chars (t_text p) ->
    t_kind c = Kns_colon -> t_text c = [cCOLON] ->
    t_kind n = Kattr_key -> name_chars (t_text n) ->
    t_kind q = Kattr_key -> t_text q = t_text p ++ cCOLON :: t_text n ->
    joined root T J -> joined root (p :: c :: n :: T) (q :: J)
| j_decl D q T J :
    declaration D -> t_kind q = Kwhitespace -> t_text q = List.concat (map t_text D) ->
    joined root T J -> joined root (D ++ T) (q :: J).

(** The document of tokens without namespaces. *)
Definition document_of (root : option bytes) (T : list token) (mem : bytes) : option (list node) :=
  match build root T mem (BS [FDoc []] LastNone None false) with
  | BOk b => close_all (b_stack b)
  | _ => None
  end.

(** Every declaration in the source has a value as above. *)
Definition declarations_given (T : list token) : Prop :=
  forall A t C, T = A ++ t :: C -> t_kind t = Kns_declaration -> exists D R, t :: C = D ++ R /\ declaration D.
(** No prefixed element has the name of the implicit root. *)
Definition root_apart (root : option bytes) (T : list token) : Prop :=
  forall x, root = Some x -> ~ In cCOLON x /\
    forall A p c n C, T = A ++ p :: c :: n :: C -> t_kind p = Kelement_ns -> t_text n <> x.
