(** Outcomes of modelled C functions: a value, a reported error (longjmp with
    error_nr), undefined behaviour (a read or write outside of the memory the
    function was given), a failed assert, or the fuel of a model loop running
    out (never a behaviour of the program, excluded by the theorems). *)
From Coq Require Import NArith.

Inductive out (A : Type) : Type :=
| Ok (a : A)
| Err (e : N)
| UB
| Abrt
| NoFuel.
Arguments Ok {A} a.
Arguments Err {A} e.
Arguments UB {A}.
Arguments Abrt {A}.
Arguments NoFuel {A}.

Definition obind {A B} (r : out A) (f : A -> out B) : out B :=
  match r with
  | Ok a => f a
  | Err e => Err e
  | UB => UB
  | Abrt => Abrt
  | NoFuel => NoFuel
  end.

Declare Scope out_scope.
Delimit Scope out_scope with out.
Notation "x <- e ; f" := (obind e (fun x => f)) (at level 61, e at next level, right associativity) : out_scope.
Notation "' p <- e ; f" := (obind e (fun p => f)) (at level 61, p pattern, e at next level, right associativity) : out_scope.
