(** Specification for the nesting of html: the texts of a document whose quotes
    are closed.

    A run of newlines is alone when nothing but characters that are written as
    references stands next to it.  A quote with such a run is the one that the
    printer does not close. *)
From Coq Require Import NArith List Bool.
From Verif Require Import Bytes Dom NsDom Printer.
Import ListNotations.
Local Open Scope N_scope.

Section layout.
Variable C : cfg.

(** A character that may be written as a reference *)
Definition referred (c : N) : bool := must_escape C c || (compact C && (c =? cQ)).
Definition alone (a b : bytes) : Prop :=
  (a = [] \/ exists a' c, a = a' ++ [c] /\ referred c = true) /\
  (b = [] \/ exists c b', b = c :: b' /\ referred c = true).
Definition accompanied (t : bytes) : Prop := forall a n b, t = a ++ rep cNL (S n) ++ b -> ~ alone a b.
(** A text that is a single newline is written as a reference. *)
Definition closed_text (t : bytes) : Prop := t = [cNL] \/ escape_newlines C = true \/ accompanied t.
Definition closed_part (p : part) : Prop := match p with PText t => closed_text t | PRef _ => True end.
Definition closed_attr (a : vattr) : Prop := Forall closed_part (va_value a).
Definition closed_decl (d : decl) : Prop := match d_uri d with Some u => closed_text u | None => True end.

(** All texts of a node; there is no newline in a doctype or a processing
    instruction *)
Fixpoint closed_node (x : vnode) : Prop :=
  match x with
  | VElem _ _ _ ds a k =>
    Forall closed_decl ds /\ Forall closed_attr a /\
    (fix all (l : list vnode) : Prop := match l with [] => True | x :: r => closed_node x /\ all r end) k
  | VPart p => closed_part p
  | VComment _ => True
  | VPI _ c => ~ In cNL c
  | VDoctype c => ~ In cNL c
  end.
Fixpoint closed_nodes (l : list vnode) : Prop :=
  match l with [] => True | x :: r => closed_node x /\ closed_nodes r end.
End layout.
