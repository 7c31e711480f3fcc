(** What a shell command sees of an element, independent of the code. *)
From Coq Require Import NArith ZArith List Bool String.
From Verif Require Import Bytes Dom TreeEditSpec.
Import ListNotations.
Local Open Scope N_scope.
Local Open Scope list_scope.

(** Characters of names of variables of the shell *)
Definition name_char (c : N) : Prop := 97 <= c <= 122 \/ 65 <= c <= 90 \/ 48 <= c <= 57 \/ c = 95.
(** [plain n m]: m is n with an underscore for every other character. *)
Definition plain (n m : bytes) : Prop := Forall2 (fun c d => name_char c /\ d = c \/ ~ name_char c /\ d = 95) n m.
(** A variable in the command: a dollar, a name in braces *)
Definition variable (n : bytes) : bytes := [36; 123] ++ n ++ [125].

(** [prepared val cmd cmd' env]: cmd' is the command with plain names in its
    variables, env has one line for every variable in its order, its plain
    name and its value. *)
Inductive prepared (val : bytes -> bytes) : bytes -> bytes -> list bytes -> Prop :=
| p_nil : prepared val [] [] []
| p_var n m s s' env : ~ In 125 n -> plain n m -> prepared val s s' env ->
    prepared val (variable n ++ s) (variable m ++ s') ((m ++ [61] ++ val n) :: env)
| p_char c s s' env : (forall n r, c :: s <> variable n ++ r) -> prepared val s s' env ->
    prepared val (c :: s) (c :: s') env.

(** The texts in an element in their order, and those of its children of a name *)
Definition own_text (x : node) : bytes := match x with Part (PText t) => t | _ => [] end.
Definition all_text (x : node) : bytes := flat_map own_text (nodes_of x).
Definition named (n : bytes) (x : node) : bool := match x with Elem m _ _ => beq m n | _ => false end.
Definition kids_of (x : node) : list node := match x with Elem _ _ kids => kids | _ => [] end.
Definition child_text (n : bytes) (x : node) : bytes := flat_map own_text (flat_map kids_of (filter (named n) (kids_of x))).
Definition no_references (x : node) : Prop := forall r, ~ In (Part (PRef r)) (nodes_of x).

(** getenv: the value of the first line for the name *)
Definition is_line (n l v : bytes) : Prop := l = n ++ [61] ++ v.
Definition value_in (env : list bytes) (n v : bytes) : Prop :=
  exists a l b, env = a ++ l :: b /\ is_line n l v /\ forall k w, In k a -> ~ is_line n k w.
