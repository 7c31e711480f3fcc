(** What a document says, independent of the code that edits it. *)
From Coq Require Import NArith ZArith List Bool String.
From Verif Require Import Bytes Dom.
Import ListNotations.
Local Open Scope N_scope.
Local Open Scope list_scope.

(** What is read in a document from left to right: bytes of texts (whatever
    nodes they are split into), references, elements, and other nodes. *)
Inductive item :=
| IByte (c : N)
| IRef (n : bytes)
| IElem (n : bytes) (ats : list (bytes * list item)) (kids : list item)
| IOther (x : node).

Section Reading.
(** What a reference is replaced with when it is read *)
Variable sigma : bytes -> list item.
Definition part_reading (p : part) : list item :=
  match p with PText t => map IByte t | PRef n => sigma n end.
Definition attr_reading (a : attr) : bytes * list item := (fst a, flat_map part_reading (snd a)).
(** [attrs]: how an attribute is read *)
Fixpoint reading_with (attrs : attr -> bytes * list item) (x : node) : list item :=
  match x with
  | Elem n ats kids => [IElem n (map attrs ats) (flat_map (reading_with attrs) kids)]
  | Part p => part_reading p
  | _ => [IOther x]
  end.
Definition reading : node -> list item := reading_with attr_reading.
End Reading.

(** Every reference as itself, or the references to one entity replaced *)
Definition as_is (n : bytes) : list item := [IRef n].
Definition instead (e : bytes) (l : list item) (n : bytes) : list item := if beq n e then l else [IRef n].

(** No attribute has a reference to the entity. *)
Fixpoint not_in_attributes (e : bytes) (x : node) : Prop :=
  match x with
  | Elem _ ats kids =>
    Forall (fun a : attr => ~ In (PRef e) (snd a)) ats /\
    (fix all l := match l with [] => True | y :: r => not_in_attributes e y /\ all r end) kids
  | _ => True
  end.

(** All nodes in a node, itself included *)
Fixpoint nodes_of (x : node) : list node :=
  x :: match x with Elem _ _ kids => flat_map nodes_of kids | _ => [] end.
Definition all_nodes (d : list node) : list node := flat_map nodes_of d.
Definition total {A : Type} (f : A -> nat) (l : list A) : nat := fold_right (fun x n => (f x + n)%nat) 0%nat l.
Definition elems (x : node) : nat := match x with Elem _ _ _ => 1 | _ => 0 end.
Definition elem_bytes (x : node) : nat := match x with Elem n _ _ => List.length n | _ => 0 end.
Definition texts (x : node) : nat := match x with Part (PText _) => 1 | _ => 0 end.
Definition text_bytes (x : node) : nat := match x with Part (PText t) => List.length t | _ => 0 end.
Definition refs (x : node) : nat := match x with Part (PRef _) => 1 | _ => 0 end.
Definition ref_bytes (x : node) : nat := match x with Part (PRef n) => List.length n | _ => 0 end.
Definition comments (x : node) : nat := match x with Comment _ => 1 | _ => 0 end.
Definition comment_bytes (x : node) : nat := match x with Comment t => List.length t | _ => 0 end.
Definition attrs_of (x : node) : list attr := match x with Elem _ ats _ => ats | _ => [] end.
Definition attr_text_bytes (a : attr) : nat := total (fun p => match p with PText t => List.length t | PRef _ => 0%nat end) (snd a).
