(** Specification of the trees of a derivation *)
From Coq Require Import NArith List Bool.
From Verif Require Import Bytes Yaep YaepTree.
Import ListNotations.

Section Trees.
Variable terminal : bytes -> Prop.
Variable rules : list (bytes * list bytes).
(** A terminal is a leaf; a nonterminal is a node for one of its rules, with a tree for
    every symbol of the right hand side.  The text is what the leaves spell. *)
Inductive tree_for : bytes -> dtree -> list bytes -> Prop :=
| tf_term t : terminal t -> tree_for t (DTerm t) [t]
| tf_node x rhs ks w : In (x, rhs) rules -> trees_for rhs ks w -> tree_for x (DNode (x, rhs) ks) w
with trees_for : list bytes -> list dtree -> list bytes -> Prop :=
| tf_nil : trees_for [] [] []
| tf_cons x rhs t ks v w : tree_for x t v -> trees_for rhs ks w -> trees_for (x :: rhs) (t :: ks) (v ++ w).
End Trees.
