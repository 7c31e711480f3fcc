(** Model of the functions of text.c that quote a text as a C string, and of
    find_line_col. *)
From Coq Require Import NArith ZArith List Bool String.
From Verif Require Import Bytes Utf8 Outcome.
Import ListNotations.
Local Open Scope N_scope.
Local Open Scope out_scope.

(** text.c:457-461 to_hex for 0..15 *)
Definition to_hex (n : N) : N := if n <=? 9 then 48 + n else 65 - 10 + n.

(** text.c:180-225 peek_utf8_char: the number of bytes it returns, for the byte
    c followed in memory by [after].  A byte that starts no character is taken
    as 0 bytes, but the three bytes after it are read. *)
Definition peek_utf8_char (c : N) (after : bytes) : out nat :=
  let n := N.to_nat (num_utf8_bytes c) in
  let last := match n with 0%nat | 4%nat => 3%nat | 3%nat => 2%nat | 2%nat => 1%nat | _ => 0%nat end in
  if Nat.leb last (List.length after) then Ok n else UB.

(** text.c:517-527 one byte that is not part of a longer character *)
Definition escape_c (c : N) : bytes :=
  if (32 <=? c) && (c <=? 126) && negb (c =? cDQ) && negb (c =? cBSL) then [c]
  else if c =? cBSL then [cBSL; cBSL]
  else if c =? cDQ then [cBSL; cDQ]
  else if c =? 7 then [cBSL; 97]
  else if c =? 8 then [cBSL; 98]
  else if c =? 9 then [cBSL; 116]
  else if c =? 10 then [cBSL; 110]
  else if c =? 11 then [cBSL; 118]
  else if c =? 12 then [cBSL; 102]
  else if c =? 13 then [cBSL; 114]
  else [cBSL; 120; to_hex (N.land (N.shiftr c 4) 15); to_hex (N.land c 15)].

(** text.c:500-529 the loop; [skip] bytes belong to a character that is already
    written.  The bytes of a longer character are copied also from behind
    stop. *)
Fixpoint quote_c_loop (skip : nat) (s aft : bytes) : out bytes :=
  match s with
  | [] => Ok []
  | c :: r =>
    match skip with
    | S k => quote_c_loop k r aft
    | O =>
      n <- peek_utf8_char c (r ++ aft) ;
      if Nat.ltb 1 n then
        o <- quote_c_loop (n - 1) r aft ; Ok (firstn n (c :: r ++ aft) ++ o)
      else if c =? 0 then Ok (escape_c c)
      else o <- quote_c_loop 0 r aft ; Ok (escape_c c ++ o)
    end
  end.
(** text.c:463-539 xmq_quote_as_c on the bytes s followed in memory by aft: the
    bytes written before the terminating NUL. *)
Definition quote_as_c (s aft : bytes) (add_quotes : bool) : out bytes :=
  let q := if add_quotes then [cDQ] else [] in
  match s with
  | [] => Ok (q ++ q)
  | _ => o <- quote_c_loop 0 s aft ; Ok (q ++ o ++ q)
  end.
(** text.c:488 the size of the buffer, for a text that is not empty *)
Definition quote_c_size (s : bytes) : nat := (1 + 4 * List.length s + 2)%nat.

(** text.c:573-582 the character for an escape, if it is known *)
Definition unescape_c (c : N) : bytes :=
  if c =? cDQ then [cDQ]
  else if c =? 110 then [10]
  else if c =? 97 then [7]
  else if c =? 98 then [8]
  else if c =? 116 then [9]
  else if c =? 118 then [11]
  else if c =? 102 then [12]
  else if c =? 114 then [13]
  else [].
(** text.c:566-589 the loop: the text and what is left at i. *)
Fixpoint unquote_c_loop (quoted : bool) (s : bytes) : bytes * bytes :=
  match s with
  | [] => ([], [])
  | c :: r =>
    if quoted && (c =? cDQ) then ([], s)
    else if c =? cBSL then
      match r with
      | [] => ([], [])
      | e :: r' => let '(o, x) := unquote_c_loop quoted r' in (unescape_c e ++ o, x)
      end
    else let '(o, x) := unquote_c_loop quoted r in (c :: o, x)
  end.
Fixpoint drop_white (s : bytes) : bytes :=
  match s with c :: r => if is_xml_whitespace c then drop_white r else s | [] => [] end.
Definition not_c : bytes := B "[Not a valid C escaped string]".
(** text.c:541-600 xmq_unquote_as_c; [aft] is the memory behind stop, of which
    the first byte is read when the text has no quote. *)
Definition unquote_as_c (s aft : bytes) (remove_quotes : bool) : out bytes :=
  match s with
  | [] => Ok []
  | _ =>
    if remove_quotes then
      match drop_white s ++ aft with
      | [] => UB
      | c :: _ =>
        if negb (c =? cDQ) then Ok not_c
        else
          let '(o, x) := unquote_c_loop true (tl (drop_white s)) in
          match x ++ (match drop_white s with [] => tl aft | _ => aft end) with
          | [] => UB
          | c :: _ => if negb (c =? cDQ) then Ok not_c else Ok o
          end
      end
    else Ok (fst (unquote_c_loop false s))
  end.

(** text.c:629-655 find_line_col on the bytes [start..stop).  Lines and columns
    are ints; overflow is not modelled.  [Abrt] is the failing assert. *)
Fixpoint find_line_col (at_ : nat) (s : bytes) (line col : N) : out (N * N) :=
  match s, at_ with
  | [], _ => Ok (line, col)
  | _, O => Ok (line, col)
  | _, S k =>
    match decode_utf8 s with
    | DecOk oc ol => if oc =? 10 then find_line_col k (skipn ol s) (line + 1) 0
                     else find_line_col k (skipn ol s) line (col + 1)
    | DecBad => Abrt
    | DecUB => UB
    end
  end.
