(** Model of what is printed when a text is not parsed with an ixml grammar:
    try_to_recover without recovery (yaep.c:5959-5970), handle_yaep_syntax_error
    (xmq.c:4401-4424) and find_line_col (text.c:629-654). *)
From Coq Require Import NArith ZArith List Bool Arith String.
From Verif Require Import Bytes Outcome Utf8 Printer Ixml Yaep YaepParse YaepCache IxmlRun.
Import ListNotations.
Local Open Scope list_scope.
Local Open Scope out_scope.

(** text.c:629-654 find_line_col; the assert at 639 aborts.  The numbers are int in the
    code: texts with 2^31 characters are not considered. *)
Fixpoint find_line_col (at_ : nat) (s : bytes) (line col : N) : out (N * N) :=
  match at_, s with
  | O, _ | _, [] => Ok (line, col)
  | S at_, _ =>
    match decode_utf8 s with
    | DecOk u n => if (u =? 10)%N then find_line_col at_ (skipn n s) (line + 1)%N 0%N else find_line_col at_ (skipn n s) line (col + 1)%N
    | DecBad => Abrt
    | DecUB => UB
    end
  end.
(** xmq.c:4418-4421: at most [n] bytes until a zero; behind the memory it is undefined. *)
Fixpoint shown_from (n : nat) (mem : bytes) : out bytes :=
  match n, mem with
  | O, _ => Ok []
  | S n, [] => UB
  | S n, b :: mem => if (b =? 0)%N then Ok [] else s <- shown_from n mem ; Ok (b :: s)
  end.
(** xmq.c:4401-4424 handle_yaep_syntax_error; [aft] is the memory behind the content. *)
Definition syntax_error (content aft : bytes) (n : nat) : out bytes :=
  ' (line, col) <- find_line_col n content 1%N 1%N ;
  let start := (n - 20)%nat in
  s <- shown_from (n + 20 - start) (skipn start (content ++ aft)) ;
  Ok (B "ixml:" ++ decimal line ++ B ":" ++ decimal col ++ B ": syntax error" ++ [10%N] ++ s ++ [10%N] ++ repeat 32%N (n - start) ++ B "^" ++ [10%N]).

(** yaep.c:6080-6085, 5959-5970: the number of the token that is given to it, if there
    is an error; as parse_with_ixml. *)
Definition error_token (g : gst) (content : bytes) : option nat :=
  match use_grammar g content, scan_content (List.length content) content with
  | IOk (y, _), IOk codes =>
    match yaep_read_grammar false y, code_range (coded y) with
    | Ok (YOk (s, f)), Some (lo, hi) =>
      match read_tokens (coded y) lo hi (codes ++ [END_MARKER_CODE]) with
      | Ok (Some toks) => match perform_parse_cached s f toks with Ok ((e, _), _) => e | _ => None end
      | _ => None
      end
    | _, _ => None
    end
  | _, _ => None
  end.
(** What xmqParseBufferWithIXML prints about it *)
Definition report (g : gst) (content aft : bytes) : out bytes :=
  match error_token g content with Some n => syntax_error content aft n | None => Ok [] end.
