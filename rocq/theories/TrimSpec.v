(** What trimming does to a text, independently of how it is computed.

    The spaces at both ends are removed.  A text of one line stays as it is.
    Otherwise the text is cut into lines: blank lines at the top and at the
    bottom frame the text, the first and the last of them are dropped.  The
    remaining lines lose their trailing spaces and tabs and their common
    indentation.  If the text starts on the first line, then this line has no
    indentation and does not count; the indentation of the second line counts
    even if this line is blank. *)
From Coq Require Import NArith List Bool Arith.
From Verif Require Import Bytes QuoteSpec Dom.
Import ListNotations.
Local Open Scope N_scope.

(** The text without spaces at its start, at its end. *)
Fixpoint lstrip_spaces (s : bytes) : bytes :=
  match s with
  | c :: r => if c =? cSP then lstrip_spaces r else s
  | [] => []
  end.
Definition rstrip_spaces (s : bytes) : bytes := rev (lstrip_spaces (rev s)).

Definition dedent (s : bytes) : bytes :=
  let ls := split_lines s in
  let total := List.length ls in
  let bottom := lead_blank (rev ls) in
  if Nat.eqb total 1 then s
  else if Nat.eqb bottom total then rep cNL (total - 2)
  else
    let core := firstn (total - bottom) ls in
    let top := lead_blank core in
    let keep := Nat.eqb bottom 0 in
    let body :=
      if Nat.eqb top 0 then
        match core with
        | first :: rest =>
          rstrip first :: clean_lines (min_list 0 (columns (nth 1 ls []) :: used_columns rest)) keep rest
        | [] => []
        end
      else clean_lines (min_list 0 (used_columns (skipn top core))) keep (skipn top core) in
    join_lines (repeat [] (top - 1) ++ body ++ repeat [] (bottom - 1)).

(** The trimmed text; the empty text stands for no text. *)
Definition trimmed (s : bytes) : bytes := 
  if forallb (fun c => (c =? cSP) || (c =? cTAB) || (c =? cNL) || (c =? cCR)) s then []
  else dedent (rstrip_spaces (lstrip_spaces s)).

(** The text starts on its first line, and there is at most one blank line at
    its end (the one in front of the closing tag). *)
Definition settles (s : bytes) : Prop :=
  let ls := split_lines s in
  blank (hd [] ls) = false /\ (lead_blank (rev ls) <= 1)%nat.

(** t is s without some of its whitespace. *)
Inductive less_white : bytes -> bytes -> Prop :=
| LW_nil : less_white [] []
| LW_same c s t : less_white s t -> less_white (c :: s) (c :: t)
| LW_drop c s t : In c [cSP; cTAB; cNL; cCR] -> less_white s t -> less_white (c :: s) t.

Fixpoint iter {A} (n : nat) (f : A -> A) (x : A) : A :=
  match n with O => x | S n' => f (iter n' f x) end.

(** All texts and comments of a document; attributes are not included. *)
Inductive in_node (P : bytes -> Prop) : node -> Prop :=
| IN_text t : P t -> in_node P (Part (PText t))
| IN_comment t : P t -> in_node P (Comment t)
| IN_elem n a k : Forall (in_node P) k -> in_node P (Elem n a k)
| IN_ref n : in_node P (Part (PRef n))
| IN_pi n c : in_node P (PI n c)
| IN_doctype c : in_node P (Doctype c).

(** The children that are left of a node: texts and comments lose whitespace,
    or are left out when nothing else remains of them; everything else,
    including the attributes, is the same. *)
Inductive node_trimmed : node -> list node -> Prop :=
| NT_text s t : less_white s t -> t <> [] -> node_trimmed (Part (PText s)) [Part (PText t)]
| NT_text_gone s : less_white s [] -> node_trimmed (Part (PText s)) []
| NT_comment s t : less_white s t -> t <> [] -> node_trimmed (Comment s) [Comment t]
| NT_comment_gone s : less_white s [] -> node_trimmed (Comment s) []
| NT_elem n a k k' : nodes_trimmed k k' -> node_trimmed (Elem n a k) [Elem n a k']
| NT_ref n : node_trimmed (Part (PRef n)) [Part (PRef n)]
| NT_pi n c : node_trimmed (PI n c) [PI n c]
| NT_doctype c : node_trimmed (Doctype c) [Doctype c]
with nodes_trimmed : list node -> list node -> Prop :=
| NTS_nil : nodes_trimmed [] []
| NTS_cons n a k k' : node_trimmed n a -> nodes_trimmed k k' -> nodes_trimmed (n :: k) (a ++ k').

(** A C string without carriage returns. *)
Definition c_text (s : bytes) : Prop := ~ In cCR s /\ ~ In 0 s.
