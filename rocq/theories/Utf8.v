(** Model of the UTF-8 functions of text.c. *)
From Coq Require Import NArith ZArith List Bool.
From Verif Require Import Bytes.
Import ListNotations.
Local Open Scope N_scope.

(** text.c:163-170 num_utf8_bytes *)
Definition num_utf8_bytes (c : N) : N :=
  if N.land c 0x80 =? 0 then 1
  else if N.land c 0xe0 =? 0xc0 then 2
  else if N.land c 0xf0 =? 0xe0 then 3
  else if N.land c 0xf8 =? 0xf0 then 4
  else 0.

(** text.c:254-285 encode_utf8.  The argument is a C int.  [None] is the
    failing assert(uc <= 0x10ffff).  The result is the list of the first
    [out_len] bytes; a negative int takes the first branch and stores its low
    8 bits. *)
Definition encode_utf8 (uc : Z) : option bytes :=
  if (uc <=? 0x7f)%Z then Some [Z.to_N (uc mod 256)%Z]
  else
    let u := Z.to_N uc in
    if (uc <=? 0x7ff)%Z then
      Some [N.lor 0xc0 (N.land (N.shiftr u 6) 0x1f);
            N.lor 0x80 (N.land u 0x3f)]
    else if (uc <=? 0xffff)%Z then
      Some [N.lor 0xe0 (N.land (N.shiftr u 12) 0x0f);
            N.lor 0x80 (N.land (N.shiftr u 6) 0x3f);
            N.lor 0x80 (N.land u 0x3f)]
    else if (uc <=? 0x10ffff)%Z then
      Some [N.lor 0xf0 (N.land (N.shiftr u 18) 0x07);
            N.lor 0x80 (N.land (N.shiftr u 12) 0x3f);
            N.lor 0x80 (N.land (N.shiftr u 6) 0x3f);
            N.lor 0x80 (N.land u 0x3f)]
    else None.

Definition is_cont (c : N) : bool := N.land c 0xc0 =? 0x80.

(** Result of decode_utf8: *)
Inductive decoded :=
| DecOk (code : N) (len : nat)     (* returned true *)
| DecBad                           (* returned false: out_char=1, out_len=1 *)
| DecUB.                           (* read of a byte that does not exist *)

(** text.c:296-354 decode_utf8 on the bytes [start..stop).  The first byte is
    read without comparing start to stop: for an empty range the result is
    [DecUB] (the C code then reads the byte at stop). *)
Definition decode_utf8 (s : bytes) : decoded :=
  match s with
  | [] => DecUB
  | c :: r =>
    if N.land c 0x80 =? 0 then DecOk c 1
    else if N.land c 0xe0 =? 0xc0 then
      match r with
      | cc :: _ =>
        if is_cont cc
        then DecOk (N.lor (N.shiftl (N.land c 0x1f) 6) (N.land cc 0x3f)) 2
        else DecBad
      | _ => DecBad
      end
    else if N.land c 0xf0 =? 0xe0 then
      match r with
      | cc :: ccc :: _ =>
        if is_cont cc && is_cont ccc
        then DecOk (N.lor (N.lor (N.shiftl (N.land c 0x0f) 12)
                                 (N.shiftl (N.land cc 0x3f) 6))
                          (N.land ccc 0x3f)) 3
        else DecBad
      | _ => DecBad
      end
    else if N.land c 0xf8 =? 0xf0 then
      match r with
      | cc :: ccc :: cccc :: _ =>
        if is_cont cc && is_cont ccc && is_cont cccc
        then DecOk (N.lor (N.lor (N.lor (N.shiftl (N.land c 0x07) 18)
                                        (N.shiftl (N.land cc 0x3f) 12))
                                 (N.shiftl (N.land ccc 0x3f) 6))
                          (N.land cccc 0x3f)) 4
        else DecBad
      | _ => DecBad
      end
    else DecBad
  end.

(** text.c:367-391 str_b_u_len: number of bytes and of non-continuation bytes
    (both loops, for stop given and for stop NULL, count the same way). *)
Fixpoint u_len (s : bytes) : nat :=
  match s with
  | [] => 0
  | c :: r => if is_cont c then u_len r else S (u_len r)
  end.
Definition str_b_u_len (s : bytes) : nat * nat := (List.length s, u_len s).
