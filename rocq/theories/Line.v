(** Model of xmqLinePrintf (xmq.c:4720-4970): log lines with printf formatted
    fields.

    vsnprintf is not modelled: a field is given by the text that its format
    and its arguments make, and by whether there are arguments.  When the text
    does not fit the buffer, vsnprintf is called again with the same va_list;
    if arguments were taken from it already this is undefined behaviour.  The
    warning that is printed for a key without equals sign is left out.  The
    list of fields is ended by a NULL pointer. *)
From Coq Require Import NArith List Bool Arith String.
From Verif Require Import Bytes Outcome Printer.
Import ListNotations.
Local Open Scope N_scope.
Local Open Scope out_scope.

Record formatted := Fmt { f_text : bytes; f_args : bool }.

(** buf_size *= 2 until the text fits *)
Fixpoint grow (fuel : nat) (size n : N) : N :=
  match fuel with
  | O => size
  | S fuel => if n <? size then size else grow fuel (2 * size) n
  end.
(** xmq.c:4725-4743 buf_vsnprintf, and the same loop in xmq.c:4823-4837 and
    xmq.c:4909-4923: the text and the new size of the buffer. *)
Definition format (size : N) (f : formatted) : out (bytes * N) :=
  let n := N.of_nat (List.length (f_text f)) in
  if n <? size then Ok (f_text f, size)
  else if f_args f then UB
  else Ok (f_text f, grow (S (N.size_nat n)) size n).

Definition line_buffer : N := 1024.

(** xmq.c:4895-4899 a space after the text in the buffer *)
Definition line_sep (c : N) : bool := negb (among [cQ; cLP; cRP; cLB; cRB] c).

(** xmq.c:4887-4928 the fields; [mb] is what was written before.  The last byte
    of an empty key is read before its start. *)
Fixpoint line_fields (mb : bytes) (size : N) (l : list (bytes * formatted)) : out bytes :=
  match l with
  | [] => Ok mb
  | (key, f) :: r =>
    match key with
    | [] => UB
    | c :: _ =>
      if c =? cRB then Ok mb
      else
        let mb := mb ++ (if line_sep (List.last mb 0) then [cSP] else []) in
        if negb (List.last key 0 =? cEQ) then Ok mb
        else
          '(t, size) <- format size f ;
          line_fields (mb ++ key ++ compact_quote t) size r
    end
  end.

(** xmq.c:4843-4934 xmq_line_vprintf_xmq.  [f] is the text made from the
    format that follows the element name, or, if the name ends neither with a
    brace nor with an equals sign, from the name itself. *)
Definition line_xmq (name : bytes) (f : formatted) (l : list (bytes * formatted)) : out bytes :=
  match name with
  | [] => UB
  | _ =>
    let c := List.last name 0 in
    if negb (c =? cLB) then
      '(t, _) <- format line_buffer f ;
      Ok ((if negb (c =? cEQ) then B "log=" else name) ++ compact_quote t)
    else
      mb <- line_fields name line_buffer l ;
      Ok (mb ++ [cRB])
  end.

(** xmq.c:4798-4839 the fields of a human readable line; [first] is never
    cleared. *)
Fixpoint hr_fields (mb : bytes) (size : N) (first : bool) (l : list (bytes * formatted)) : out bytes :=
  match l with
  | [] => Ok mb
  | (key, f) :: r =>
    match key with
    | [] => UB
    | c :: _ =>
      if c =? cRB then Ok mb
      else
        let '(mb, first) := if negb first then (mb ++ [cSP], false) else (mb, first) in
        if negb (List.last key 0 =? cEQ) then Ok mb
        else
          '(t, size) <- format size f ;
          hr_fields (mb ++ removelast key ++ [cCOLON] ++ t) size first r
    end
  end.
(** xmq.c:4745-4841 xmq_line_vprintf_hr *)
Definition line_hr (name : bytes) (f : formatted) (l : list (bytes * formatted)) : out bytes :=
  match name with
  | [] => UB
  | _ =>
    let c := List.last name 0 in
    if negb (c =? cLB) then
      '(t, _) <- format line_buffer f ;
      Ok ((if negb (c =? cEQ) then B "(log) " else [cLP] ++ removelast name ++ [cRP; cSP]) ++ t)
    else hr_fields ([cLP] ++ name ++ [cRP; cSP]) line_buffer true l
  end.

(** xmq.c:4936-4944 xmqLineVPrintf *)
Definition line_printf (human_readable : bool) (name : bytes) (f : formatted) (l : list (bytes * formatted)) : out bytes :=
  if human_readable then line_hr name f l else line_xmq name f l.
