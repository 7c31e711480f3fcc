(** Model of the pager of xmq-cli.c (2866-3062 and 3448-3571): how the keys move
    through the text.  What is shown is not modelled.

    The text [s] is the memory from start to stop, [aft] are readable bytes
    behind it (none for the output of xmqPrint, which is cut to its size,
    xmq.c:2989-2992).  A position is the pair of line_offset and
    in_line_offset, as distances from start. *)
From Coq Require Import NArith ZArith List Bool Arith.
From Verif Require Import Bytes Outcome.
Import ListNotations.
Local Open Scope N_scope.
Local Open Scope list_scope.
Local Open Scope out_scope.

Definition position := (nat * nat)%type.
Definition cESC : N := 27.

(** xmq-cli.c:3013-3062 find_next_line, the loop: at its head, in an escape
    sequence (3031-3036), or behind one, where the end of the text is not looked
    for again.  [None]: the end of the text was reached.  [true]: after a
    newline. *)
Inductive scan_mode := MLoop | MEsc | MBody.
Fixpoint next_scan (width : nat) (aft : bytes) (m : scan_mode) (l : bytes) (i col : nat) : out (option (bool * nat)) :=
  match l with
  | [] => match m, aft with MLoop, _ => Ok None | _, [] => UB | _, _ => Ok None end
  | c :: r =>
    match m with
    | MEsc => next_scan width aft (if c =? 109 then MBody else MEsc) r (S i) col
    | _ =>
      if match m with MLoop => c =? cESC | _ => false end then next_scan width aft MEsc r (S i) col
      else if c =? cNL then Ok (Some (true, S i))
      else if (width <=? S col)%nat then Ok (Some (false, i))
      else next_scan width aft MLoop r (S i) (S col)
    end
  end.
(** xmq-cli.c:3013-3062 find_next_line *)
Definition next_line (width : nat) (s aft : bytes) (p : position) : out position :=
  let '(lo, ilo) := p in
  r <- next_scan width aft MLoop (skipn ilo s) ilo 0 ;
  Ok match r with
     | None => (lo, ilo)
     | Some (true, q) => (q, q)
     | Some (false, q) => (lo, q)
     end.

(** xmq-cli.c:2866-2888 count_non_ansi_chars: the continue in the loop over an
    escape sequence stays in this loop, so that all after the first escape is
    one character. *)
Fixpoint count_non_ansi_chars (l : bytes) : nat :=
  match l with [] => 0 | c :: r => if c =? cESC then 1 else S (count_non_ansi_chars r) end.

(** xmq-cli.c:2944-2960 find_prev_line_start, the loop down from [i]; the byte at
    start itself is not looked at. *)
Fixpoint search_back (s : bytes) (i : nat) : out nat :=
  match i with
  | O => Ok O
  | S k => match nth_error s i with
           | None => UB
           | Some c => if c =? cNL then Ok (S i) else search_back s k
           end
  end.
Definition find_prev_line_start (s : bytes) (p : position) : out nat :=
  let '(lo, ilo) := p in
  if (lo <? ilo)%nat then Ok lo else search_back s (lo - 2).

(** xmq-cli.c:2924-2940 skip_line_width_backwards; [mem] is the text and what is
    behind it.  skip_ansi_backwards (2890-2912) reads the byte at i; it never
    moves i, as its loop starts at the m, which is no digit. *)
Fixpoint skip_back (mem : bytes) (lo i width : nat) : out nat :=
  match i with
  | O => Ok O
  | S k =>
    match nth_error mem i, nth_error mem k with
    | Some _, Some c =>
      if c =? cNL then Ok (S k)
      else if (k =? lo)%nat then Ok k
      else match width with
           | S (S w) => skip_back mem lo k (S w)
           | _ => Ok k
           end
    | _, _ => UB
    end
  end.
Definition slice (s : bytes) (a b : nat) : bytes := firstn (b - a) (skipn a s).
(** xmq-cli.c:2962-2995 find_prev_line *)
Definition prev_line (width : nat) (s aft : bytes) (p : position) : out position :=
  let '(lo, ilo) := p in
  prev <- find_prev_line_start s p ;
  if (width <? count_non_ansi_chars (slice s prev ilo))%nat then
    match width with
    | O => Abrt
    | _ => q <- skip_back (s ++ aft) lo ilo width ; Ok (prev, q)
    end
  else Ok (prev, prev).

(** xmq-cli.c:2997-3011 find_next_page and find_prev_page *)
Fixpoint times (n : nat) (f : position -> out position) (p : position) : out position :=
  match n with O => Ok p | S n => q <- f p ; times n f q end.

(** xmq-cli.c:3529-3562: the keys. *)
Inductive key := Down | Up | PageDown | PageUp | ToStart | ToEnd.
(** The end is 100 bytes before stop; if this is before start, what is shown is
    read from there. *)
Definition press (width height : nat) (s aft : bytes) (k : key) (p : position) : out position :=
  match k with
  | Down => next_line width s aft p
  | Up => prev_line width s aft p
  | PageDown => times height (next_line width s aft) p
  | PageUp => times height (prev_line width s aft) p
  | ToStart => Ok (0, 0)%nat
  | ToEnd => if (List.length s <? 100)%nat then UB else Ok (List.length s - 100, List.length s - 100)%nat
  end.
(** xmq-cli.c:3448-3571 page: from the start, one key after the other *)
Fixpoint pressed (width height : nat) (s aft : bytes) (ks : list key) (p : position) : out position :=
  match ks with [] => Ok p | k :: r => q <- press width height s aft k p ; pressed width height s aft r q end.
Definition page (width height : nat) (s aft : bytes) (ks : list key) : out position := pressed width height s aft ks (0, 0)%nat.
