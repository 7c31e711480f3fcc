(** Model of reading a file or the standard input into memory: xmq.c:4136-4169
    load_stdin, xmq.c:4171-4228 load_file, and the same loop in xmq.c:1866-1926
    xmqParseFile.

    The operating system is an argument: what ftell returns, and for each call
    of fread or read how much of the file it delivers.  Simplifications: the
    file does not change while it is read, opening it and allocating memory are
    given by their success. *)
From Coq Require Import NArith ZArith List Bool String.
From Verif Require Import Bytes Outcome Containers Parser Dom NsDom.
Import ListNotations.
Local Open Scope N_scope.

(** size_t *)
Definition SIZE : N := 18446744073709551616.
Definition len (b : bytes) : N := N.of_nat (List.length b).

Inductive loaded :=
| Loaded (fsize : N) (buffer : list (option N))  (* with the byte after the content *)
| CannotRead                                     (* false, XMQ_ERROR_CANNOT_READ_FILE *)
| ReadFails                                      (* false, no error number *)
| NoMemory                                       (* false, XMQ_ERROR_OOM *)
| Overrun                                        (* access outside of the buffer *)
| LoadAborts
| Waiting.                                       (* no more input yet *)

(** The loop xmq.c:4204-4210 (and xmq.c:1899-1906).  [sched] are the limits on
    the calls of fread: a call for [block] bytes delivers at most the limit, and
    at most what is left of the file; without a limit left it fails.  [n] bytes
    [buf] have been read, [alloc] are allocated.  None: a write outside of the
    buffer. *)
Fixpoint read_blocks (sched : list N) (alloc fsize block n : N) (buf rest : bytes) : option (N * bytes) :=
  let block := if fsize <? (n + block) mod SIZE then (fsize + SIZE - n) mod SIZE else block in
  match sched with
  | [] => Some (n, buf)
  | s :: sched' =>
    let r := N.min block (N.min s (len rest)) in
    if r =? 0 then Some (n, buf)
    else if alloc <? n + r then None
    else
      let buf' := buf ++ firstn (N.to_nat r) rest in
      if n + r <? fsize then read_blocks sched' alloc fsize block (n + r) buf' (skipn (N.to_nat r) rest)
      else Some (n + r, buf')
  end.

(** xmq.c:4171-4228 load_file, xmq.c:1866-1918 xmqParseFile.  [tell] is the
    result of ftell, -1 for a file without positions. *)
Definition load_file (opens has_memory : bool) (tell : Z) (content : bytes) (sched : list N) : loaded :=
  if negb opens then CannotRead
  else
    let fsize := Z.to_N (tell mod Z.of_N SIZE) in
    let alloc := (fsize + 1) mod SIZE in
    if negb has_memory then NoMemory
    else
      match read_blocks sched alloc fsize (if 10000 <? fsize then 10000 else fsize) 0 [] content with
      | None => Overrun
      | Some (n, buf) =>
        if negb (n =? fsize) then CannotRead
        else if alloc <=? fsize then Overrun
        else Loaded fsize (map Some (buf ++ [0]))
      end.

(** What a call of read does: it delivers at most [k] bytes (one at least, and
    at most 1024), is interrupted by a signal, or fails.  At the end of the input
    it returns 0. *)
Inductive read_event := Gives (k : N) | Interrupted | Fails.

(** xmq.c:4145-4160 *)
Fixpoint read_stdin (ev : list read_event) (rest : bytes) (mb : membuffer) : loaded :=
  match ev with
  | [] => Waiting
  | Interrupted :: ev' => read_stdin ev' rest mb
  | Fails :: _ => ReadFails
  | Gives k :: ev' =>
    match rest with
    | [] =>
      match membuffer_append_null mb with
      | Done mb' => Loaded (N.of_nat (mb_used mb') - 1) (membuffer_content mb')
      | Abort => LoadAborts
      | Bad => Overrun
      end
    | _ =>
      let n := N.to_nat (N.max 1 (N.min k (N.min 1024 (len rest)))) in
      match membuffer_append_region mb (firstn n rest) with
      | Done mb' => read_stdin ev' (skipn n rest) mb'
      | Abort => LoadAborts
      | Bad => Overrun
      end
    end
  end.
(** xmq.c:4136-4169 load_stdin *)
Definition load_stdin (ev : list read_event) (content : bytes) : loaded :=
  read_stdin ev content new_membuffer.

(** xmq.c:1866-1935 xmqParseFile and, for xmq, xmq.c:4230-4256
    xmqParseFileWithType: what is loaded is parsed.  Bytes that were never
    written give the outcome [NUndefined]. *)
Fixpoint written_bytes (b : list (option N)) : option bytes :=
  match b with
  | [] => Some []
  | Some c :: r => match written_bytes r with Some t => Some (c :: t) | None => None end
  | None :: _ => None
  end.
Definition E_CANNOT_READ_FILE : N := 1.
Definition E_OOM : N := 2.
Definition parse_loaded (fuel : nat) (root : option bytes) (l : loaded) : nresult :=
  match l with
  | Loaded n b =>
    match written_bytes b with
    | Some m => nparse_buffer fuel root (firstn (N.to_nat n) m) (skipn (N.to_nat n) m)
    | None => NUndefined
    end
  | CannotRead => NError E_CANNOT_READ_FILE
  | ReadFails => NError 0
  | NoMemory => NError E_OOM
  | Overrun => NUndefined
  | LoadAborts => NAborts
  | Waiting => NRunning
  end.
