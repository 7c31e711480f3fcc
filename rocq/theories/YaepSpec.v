(** Specification of context free grammars: sentential forms and derivations. *)
From Coq Require Import NArith List Bool.
From Verif Require Import Bytes.
Import ListNotations.

Section Grammar.
Variable rules : list (bytes * list bytes).
(** One nonterminal of a form is replaced. *)
Inductive step : list bytes -> list bytes -> Prop :=
| step_rule u x rhs v : In (x, rhs) rules -> step (u ++ x :: v) (u ++ rhs ++ v).
Inductive steps : list bytes -> list bytes -> Prop :=
| steps_refl u : steps u u
| steps_more u v w : step u v -> steps v w -> steps u w.

(** The symbol can disappear. *)
Definition nullable (x : bytes) : Prop := steps [x] [].
(** It derives itself, in one step or more. *)
Definition derives_itself (x : bytes) : Prop := exists u, step [x] u /\ steps u [x].
(** Some text of terminals derives from it. *)
Definition productive (terminal : bytes -> Prop) (x : bytes) : Prop := exists w, Forall terminal w /\ steps [x] w.
(** It occurs in a form that derives from the start. *)
Definition reachable (start x : bytes) : Prop := exists u v, steps [start] (u ++ x :: v).
(** A form that starts with t derives from it. *)
Definition first (x t : bytes) : Prop := exists v, steps [x] (t :: v).
(** In a form that derives from some symbol of the grammar, t follows x. *)
Definition follow (x t : bytes) : Prop := exists z rhs u v, In (z, rhs) rules /\ steps [z] (u ++ x :: t :: v).
End Grammar.

(** * Grammars that are read *)
From Coq Require Import ZArith String.
From Verif Require Import Ixml.
Local Open Scope list_scope.

(** The rules: a new start, that is followed by the end of the text, and a rule for
    errors unless the first nonterminal has one itself. *)
Definition errs (start : bytes) (r : bytes * list bytes) : bool :=
  match r with (x, z :: _) => beq start x && beq z (B "error") | _ => false end.
Definition full_rules (g : ygrammar) : list (bytes * list bytes) :=
  match y_rules g with
  | [] => []
  | (start, _) :: _ =>
    (B "$S", [start; B "$eof"]) :: y_rules g ++ (if existsb (errs start) (y_rules g) then [] else [(B "$S", [B "error"; B "$eof"])])
  end.
Definition terminal_of (g : ygrammar) (x : bytes) : Prop := In x (map fst (y_terms g)) \/ x = B "error" \/ x = B "$eof".
Definition occurs (x : bytes) (rules : list (bytes * list bytes)) : Prop :=
  exists lhs rhs, In (lhs, rhs) rules /\ (x = lhs \/ In x rhs).
Definition nonterminal_of (g : ygrammar) (x : bytes) : Prop := occurs x (full_rules g) /\ ~ terminal_of g x.

(** The names and codes that are in order *)
Definition names_ok (g : ygrammar) : Prop :=
  Forall (fun t => (0 <= snd t)%Z) (y_terms g) /\ NoDup (map fst (y_terms g)) /\ NoDup (map snd (y_terms g)) /\
  Forall (fun t => ~ In (fst t) [B "error"; B "$S"; B "$eof"]) (y_terms g) /\
  (exists start rhs rest, y_rules g = (start, rhs) :: rest /\ start <> B "$S") /\
  Forall (fun r => ~ terminal_of g (fst r)) (y_rules g).
(** Why a grammar is refused when it is read (yaep.h:69-85) *)
Definition reason (g : ygrammar) (code : N) (name : bytes) : Prop :=
  (code = 6%N /\ exists c, In (name, c) (y_terms g) /\ (c < 0)%Z) \/
  (code = 5%N /\ exists a c b, y_terms g = a ++ (name, c) :: b /\ In name (map fst a)) \/
  (code = 7%N /\ exists a c b, y_terms g = a ++ (name, c) :: b /\ In c (map snd a)) \/
  (code = 4%N /\ In name [B "error"; B "$S"; B "$eof"] /\ (In name (map fst (y_terms g)) \/ (name = B "$S" /\ exists rhs rest, y_rules g = (name, rhs) :: rest) \/ (name = B "$eof" /\ exists rhs rest, y_rules g = (name, rhs) :: rest))) \/
  (code = 8%N /\ y_rules g = []) \/
  (code = 9%N /\ terminal_of g name /\ exists rhs, In (name, rhs) (y_rules g)).
