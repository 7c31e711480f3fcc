(** Specification for C36: spaces and newlines between tokens.

    A place between tokens splits the source of a token list into the bytes
    before it and the bytes after it.  Not every such place is meant: the
    namespace, the colon and the name of an element or attribute belong
    together, and so do the parts of a comment that is continued; at the end of
    a line comment that is ended by the end of the source, more text would
    belong to the comment; and a tab or a no-break space must not come next,
    since they only separate tokens after a space or not at all. *)
From Coq Require Import NArith List Bool.
From Verif Require Import Bytes Parser ParserSpec Grammar.
Import ListNotations.
Local Open Scope N_scope.

(** Spaces and newlines. *)
Definition spaces (w : bytes) : Prop := forall c, In c w -> c = cSP \/ c = cNL.

(** Tokens apart from white space, without their positions. *)
Definition is_white (t : token) : bool := match t_kind t with Kwhitespace => true | _ => false end.
Definition contents (T : list token) : list (kind * bytes) :=
  map (fun t => (t_kind t, t_text t)) (filter (fun t => negb (is_white t)) T).

(** Parts of a name or of a continued comment. *)
Definition joined_before (t : token) : Prop := t_kind t = Kns_colon \/ t_kind t = Kcomment_continuation.
Definition joined_after (t : token) : Prop :=
  t_kind t = Kns_colon
  \/ (* a line comment that no newline ends *)
     (t_kind t = Kcomment /\ ~ In cNL (t_text t) /\ exists b, t_text t = cSLASH :: cSLASH :: b
        /\ forall n u, b <> rep cSLASH n ++ cSTAR :: u).

(** The place between x and y is between tokens of T. *)
Record between_tokens (T : list token) (x y : bytes) : Prop := {
  bt_split : exists A C, T = A ++ C /\ texts A = x /\ texts C = y;
  bt_before : forall A t C, T = A ++ t :: C -> texts A = x -> ~ joined_before t;
  bt_after : forall A t C, T = A ++ t :: C -> texts (A ++ [t]) = x -> ~ joined_after t;
  (** what follows is the end, or starts a character that is a space, a newline,
      a carriage return or no white space *)
  bt_char : y = [] \/ exists c r, y = c :: r /\ starts_char c = true
              /\ (c = cSP \/ c = cNL \/ c = cCR \/ ~ begins_white y) }.

(** Quotes and comments of more than one line after the place stay in their
    columns: their lines are read relative to the column they start in. *)
Definition columns_kept (T : list token) (x w : bytes) : Prop :=
  forall A t C v, T = A ++ t :: C -> is_white t = false -> In cNL (t_text t) -> texts A = x ++ v ->
    col_after (x ++ w ++ v) = col_after (x ++ v).

(** The values are without carriage returns and NUL bytes (white space may have
    carriage returns). *)
Definition plain_values (T : list token) : Prop := forall t, In t T -> is_white t = false -> plain (t_text t).

(** White space is added at a place, or at many places one after the other. *)
Inductive space_added (T : list token) : bytes -> bytes -> Prop :=
| sa_at x y w : spaces w -> between_tokens T x y -> columns_kept T x w -> space_added T (x ++ y) (x ++ w ++ y).
