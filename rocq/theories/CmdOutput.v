(** Model of what the output commands of xmq-cli.c write: print, save-to and browse, and the part
    of the output that --omit-decl leaves out.

    Not modelled: the pager (Pager.v), the conversion that makes the output (a parameter), and
    the program that is started to show the file.  What the system does is a parameter: whether a
    file can be opened, and how many bytes can be written. *)
From Coq Require Import NArith ZArith List Bool Arith String.
From Verif Require Import Bytes CmdLine.
Import ListNotations.
Local Open Scope string_scope.
Local Open Scope list_scope.
Local Open Scope nat_scope.

(** xmq.c:2992-3001 xmqPrint, with 778 (only to-xml takes the option, C83) and 1956; for tokenize
    the number stays 0 *)
Definition output_skip (c : cmd) (omit_decl : bool) : nat :=
  match c with CToXml => if omit_decl then 39 else 0 | _ => 0 end.

(** What is written, or undefined behaviour: bytes outside of the output are read. *)
Inductive written := Written (b : bytes) | Outside.
(** The conversion of a difference of pointers to int, 32 bits (gcc: modulo 2^32) *)
Definition to_int (z : Z) : Z := ((z + 2 ^ 31) mod 2 ^ 32 - 2 ^ 31)%Z.
(** What printf reads for %s: up to the first byte 0 *)
Fixpoint until_nul (l : bytes) : bytes :=
  match l with [] => [] | b :: l => if N.eqb b 0 then [] else b :: until_nul l end.
Definition has_nul (l : bytes) : bool := existsb (fun b => N.eqb b 0) l.
(** xmq-cli.c:3085-3094 console_write with printf("%.*s"): a negative precision is as none; then
    the text must end with 0 (the output does not: membuffer.c:44-50) *)
Definition console_write (text : bytes) : written :=
  let n := to_int (Z.of_nat (List.length text)) in
  if (n <? 0)%Z then (if has_nul text then Written (until_nul text) else Outside)
  else Written (until_nul (firstn (Z.to_nat n) text)).
(** xmq-cli.c:1994-2000 cmd_output, print *)
Definition print_output (out : bytes) (skip : nat) : written :=
  if List.length out <? skip then Outside else console_write (skipn skip out).

(** The result of the command, the file if there is one, and whether a message is printed *)
Record stored := Stored { ok : bool; file : option bytes; message : bool }.
(** xmq-cli.c:2015-2039 cmd_output, save-to.  [opens]: the file can be opened; [room]: so many bytes
    can be written. *)
Definition save_output (out : bytes) (skip : nat) (opens : bool) (room : nat) : option stored :=
  if negb opens then Some (Stored false None true)
  else if List.length out <? skip then None
  else let len := List.length out - skip in
    let wrote := firstn room (firstn len (skipn skip out)) in
    Some (Stored true (Some wrote) (negb (List.length wrote =? len))).

(** xmq-cli.c:3203-3215 browse: the name after the last slash or backslash *)
Definition is_sep (b : byte) : bool := N.eqb b 47 || N.eqb b 92.
Fixpoint before_sep (l : bytes) : bytes :=
  match l with [] => [] | b :: l => if is_sep b then [] else b :: before_sep l end.
Definition browse_file (input : option bytes) : bytes :=
  match input with Some i => rev (before_sep (rev i)) | None => B "stdin" end.
(** xmq-cli.c:3217-3219: snprintf with 1023 writes at most 1022 bytes *)
Definition browse_name (input : option bytes) : bytes :=
  firstn 1022 (B "xmq_browsing_" ++ browse_file input ++ B ".html").
(** xmq-cli.c:3229-3242 and 2008-2014: here [message] is also the opposite of: the browser is
    started.  The result of the command is always true. *)
Definition browse_output (out : bytes) (skip : nat) (opens : bool) (room : nat) : option stored :=
  if negb opens then Some (Stored true None true)
  else if List.length out <? skip then None
  else let len := List.length out - skip in
    let wrote := firstn room (firstn len out) in
    Some (Stored true (Some wrote) (negb (List.length wrote =? len))).
