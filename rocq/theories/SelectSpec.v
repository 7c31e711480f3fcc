(** What is deleted and selected, independent of the code: every node of a
    document with its path. *)
From Coq Require Import NArith ZArith List Bool Arith.
From Verif Require Import Bytes Dom Select.
Import ListNotations.
Local Open Scope list_scope.

(** q is p, or in it. *)
Definition below (p q : path) : Prop := exists r, q = p ++ r.
Definition path_of (f : place) : path := match f with AtNode p => p | AtAttr p _ => p end.
(** a is b or in it. *)
Definition inside (a b : place) : Prop := a = b \/ exists q, b = AtNode q /\ below q (path_of a).
(** As in the order of the document: nothing twice, and what is in a node comes
    after it. *)
Definition ordered (sel : list place) : Prop := ForallOrdPairs (fun a b => ~ inside a b) sel.

(** All nodes in a node, or in nodes that are children from number i on, with
    their paths, in the order of the document *)
Fixpoint outline (p : path) (x : node) : list (path * node) :=
  (p, x) :: match x with
            | Elem _ _ kids => (fix go (i : nat) (l : list node) := match l with [] => [] | y :: r => outline (p ++ [i]) y ++ go (S i) r end) 0%nat kids
            | _ => []
            end.
Fixpoint outlines (p : path) (i : nat) (l : list node) : list (path * node) :=
  match l with [] => [] | y :: r => outline (p ++ [i]) y ++ outlines p (S i) r end.

(** A node without its children, and all nodes so, with their depths, which
    says all about a document *)
Definition alone (x : node) : node := match x with Elem n ats _ => Elem n ats [] | _ => x end.
Fixpoint listing (depth : nat) (x : node) : list (nat * node) :=
  (depth, alone x) :: match x with Elem _ _ kids => flat_map (listing (S depth)) kids | _ => [] end.

(** The attributes that are not selected, from number k on *)
Inductive attrs_left (sel : list place) (p : path) : nat -> list attr -> list attr -> Prop :=
| a_nil k : attrs_left sel p k [] []
| a_gone k a l m : In (AtAttr p k) sel -> attrs_left sel p (S k) l m -> attrs_left sel p k (a :: l) m
| a_left k a l m : ~ In (AtAttr p k) sel -> attrs_left sel p (S k) l m -> attrs_left sel p k (a :: l) (a :: m).
Definition left_alone (sel : list place) (p : path) (x y : node) : Prop :=
  match x with
  | Elem n ats _ => exists ats', attrs_left sel p 0 ats ats' /\ y = Elem n ats' []
  | _ => y = x
  end.
(** [kept sel l m]: m lists the nodes in l that are not in a selected node. *)
Inductive kept (sel : list place) : list (path * node) -> list (nat * node) -> Prop :=
| k_nil : kept sel [] []
| k_gone p q x l m : In (AtNode q) sel -> below q p -> kept sel l m -> kept sel ((p, x) :: l) m
| k_left p x y l m : (forall q, In (AtNode q) sel -> ~ below q p) -> left_alone sel p x y -> kept sel l m -> kept sel ((p, x) :: l) ((List.length p, y) :: m).
