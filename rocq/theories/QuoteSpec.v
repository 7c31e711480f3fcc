(** What a (multi-line) quote means, independently of how it is computed.

    The text between the quotes is cut into lines.  Blank lines at the top and
    at the bottom frame the text: the first and the last of them are dropped.
    The remaining lines lose their trailing spaces and tabs and the
    indentation that is common to all of them; the first line, when it follows
    the opening quote directly, stands at the column of the quote. *)
From Coq Require Import NArith List Bool Arith.
From Verif Require Import Bytes.
Import ListNotations.
Local Open Scope N_scope.

(** Spaces and tabs. *)
Definition is_hspace (c : N) : bool := (c =? cSP) || (c =? cTAB).
Definition blank (l : bytes) : bool := forallb is_hspace l.

Fixpoint split_lines (s : bytes) : list bytes :=
  match s with
  | [] => [[]]
  | c :: r =>
    if c =? cNL then [] :: split_lines r
    else match split_lines r with
         | l :: ls => (c :: l) :: ls
         | [] => [[c]]
         end
  end.

Fixpoint join_lines (ls : list bytes) : bytes :=
  match ls with
  | [] => []
  | [l] => l
  | l :: r => l ++ cNL :: join_lines r
  end.

(** The line without trailing spaces and tabs. *)
Fixpoint rstrip (l : bytes) : bytes :=
  match l with
  | [] => []
  | c :: r => match rstrip r with
              | [] => if is_hspace c then [] else [c]
              | r' => c :: r'
              end
  end.

(** The column of the first character that is not a space or a tab; a tab
    counts as 8 columns. *)
Fixpoint columns (l : bytes) : nat :=
  match l with
  | c :: r => if c =? cSP then S (columns r) else if c =? cTAB then (8 + columns r)%nat else 0%nat
  | [] => 0%nat
  end.

(** Remove n columns of indentation; a tab that reaches over the limit is
    removed as a whole. *)
Fixpoint drop_columns (n : nat) (l : bytes) : bytes :=
  match n with
  | O => l
  | S n' =>
    match l with
    | c :: r => if c =? cSP then drop_columns n' r
                else if c =? cTAB then (if Nat.leb 8 n then drop_columns (n - 8) r else r)
                else l
    | [] => []
    end
  end.

(** The number of leading blank lines. *)
Fixpoint lead_blank (ls : list bytes) : nat :=
  match ls with
  | l :: r => if blank l then S (lead_blank r) else 0%nat
  | [] => 0%nat
  end.

Fixpoint min_list (d : nat) (l : list nat) : nat :=
  match l with [] => d | x :: r => Nat.min x (min_list x r) end.

(** The columns that count for the common indentation. *)
Definition used_columns (ls : list bytes) : list nat :=
  map columns (filter (fun l => negb (blank l)) ls).

Definition clean_line (inc : nat) (l : bytes) : bytes :=
  if blank l then [] else drop_columns inc (rstrip l).

(** As clean_line for all lines, but the last line keeps its trailing spaces
    if it holds the closing quote ([keep]). *)
Fixpoint clean_lines (inc : nat) (keep : bool) (ls : list bytes) : list bytes :=
  match ls with
  | [] => []
  | [l] => [if keep then drop_columns inc l else clean_line inc l]
  | l :: r => clean_line inc l :: clean_lines inc keep r
  end.

(** The meaning of the text s between the quotes, when the text starts at
    column [indent] of its line. *)
Definition text_block (indent : nat) (s : bytes) : bytes :=
  let ls := split_lines s in
  let total := List.length ls in
  let bottom := lead_blank (rev ls) in
  if Nat.eqb total 1 then s
  else if Nat.eqb bottom total then rep cNL (total - 2)
  else
    let core := firstn (total - bottom) ls in
    let top := lead_blank core in
    let body := skipn top core in
    let '(cols, placed) :=
      if Nat.eqb top 0 then
        (indent :: used_columns (tl body), (rep cSP indent ++ hd [] body) :: tl body)
      else (used_columns body, body) in
    join_lines (repeat [] (top - 1)
                ++ clean_lines (min_list 0 cols) (Nat.eqb bottom 0) placed
                ++ repeat [] (bottom - 1)).

(** Inserting k spaces after every newline. *)
Fixpoint shift_right (k : nat) (s : bytes) : bytes :=
  match s with
  | [] => []
  | c :: r => if c =? cNL then c :: rep cSP k ++ shift_right k r else c :: shift_right k r
  end.
