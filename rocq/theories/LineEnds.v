(** Specification for C49: the ends of lines.

    A line ends with a newline, or with a carriage return and a newline. *)
From Coq Require Import NArith List Bool.
From Verif Require Import Bytes Parser.
Import ListNotations.
Local Open Scope N_scope.

(** The second text is the first one with carriage returns in front of some of
    its newlines (none, all, or any). *)
Inductive line_ends : bytes -> bytes -> Prop :=
| le_end : line_ends [] []
| le_byte c s s' : line_ends s s' -> line_ends (c :: s) (c :: s')
| le_crlf s s' : line_ends s s' -> line_ends (cNL :: s) (cCR :: cNL :: s').

(** In front of all of them. *)
Fixpoint crlf (s : bytes) : bytes :=
  match s with
  | [] => []
  | c :: r => if c =? cNL then cCR :: cNL :: crlf r else c :: crlf r
  end.

(** The same token apart from the line ends in its text: same kind, line and
    column. *)
Record same_token (t t' : token) : Prop := {
  st_kind : t_kind t' = t_kind t;
  st_line : t_line t' = t_line t;
  st_col : t_col t' = t_col t;
  st_text : line_ends (t_text t) (t_text t') }.

(** The same reading of a source apart from line ends: the same tokens, and for
    an error the same number and the same line and column. *)
Definition same_where (a a' : option mark) : Prop :=
  match a, a' with
  | None, None => True
  | Some m, Some m' => m_line m' = m_line m /\ m_col m' = m_col m
  | _, _ => False
  end.
Definition same_reading (r r' : pout) : Prop :=
  match r, r' with
  | POk s, POk s' => Forall2 same_token (tokens s) (tokens s')
  | PErr e s, PErr e' s' => e = e' /\ Forall2 same_token (tokens s) (tokens s') /\ same_where (error_mark e s) (error_mark e' s')
  | PNoFuel s, PNoFuel s' => Forall2 same_token (tokens s) (tokens s')
  | PUB, PUB => True
  | PAbrt, PAbrt => True
  | _, _ => False
  end.
