(** Model of the removal of quotes, comment markers and incidental
    indentation (xmq.c:1157-1550) and of the whitespace tests of text.c that
    it uses.

    A text between start and stop is a byte list [s]; [aft] are the readable
    bytes that follow stop.  Offsets are [nat].  A read outside of the given
    memory is the outcome [UB], a failing assert is [Abrt]. *)
From Coq Require Import NArith List Bool Arith.
From Verif Require Import Bytes Outcome.
Import ListNotations.
Local Open Scope N_scope.
Local Open Scope out_scope.

Definition is_sp_tab (c : N) : bool := (c =? cSP) || (c =? cTAB).

(** The result of find_line: was a newline found, the indentation, the offset
    after the last non-space, and the offset of the next line. *)
Record fline := FL { fl_nl : bool; fl_indent : nat; fl_text : nat; fl_eol : nat }.

(** xmq.c:1173-1179 skip spaces and tabs: the offset, the indentation and
    what follows. *)
Fixpoint fl_skip (s : bytes) (i ndnt : nat) : nat * nat * bytes :=
  match s with
  | c :: r =>
    if c =? cSP then fl_skip r (S i) (S ndnt)
    else if c =? cTAB then fl_skip r (S i) (ndnt + 8)
    else (i, ndnt, s)
  | [] => (i, ndnt, [])
  end.

(** xmq.c:1182-1193 find the end of the line. *)
Fixpoint fl_scan (r aft : bytes) (i lnws : nat) : out (bool * nat * nat) :=
  match r with
  | [] => Ok (false, lnws, i)
  | c :: r' =>
    if c =? cNL then Ok (true, lnws, S i)
    else if c =? cCR then
      match r' ++ aft with
      | [] => UB
      | d :: _ => if d =? cNL then Ok (true, lnws, S (S i)) else Ok (true, lnws, S i)
      end
    else fl_scan r' aft (S i) (if is_sp_tab c then lnws else S i)
  end.

(** xmq.c:1159-1199 find_line *)
Definition find_line (s aft : bytes) : out fline :=
  let '(i, ndnt, r) := fl_skip s 0 0 in
  ' (nl, lnws, eol) <- fl_scan r aft i 0 ;
  Ok (FL nl ndnt lnws eol).

(** The leading newlines of a text: their number and what follows. *)
Fixpoint skip_nls (s : bytes) (n : nat) : nat * bytes :=
  match s with
  | c :: r => if c =? cNL then skip_nls r (S n) else (n, s)
  | [] => (n, [])
  end.

(** text.c:36-41 scan leading whitespace: the number of bytes skipped and
    whether a newline was among them. *)
Fixpoint skip_ws (s : bytes) (i : nat) (found : bool) : nat * bool :=
  match s with
  | c :: r =>
    let found := if c =? cNL then true else found in
    if is_xml_whitespace c then skip_ws r (S i) found else (i, found)
  | [] => (i, found)
  end.

(** text.c:14-56 has_leading_space_nl: the offset after the leading
    whitespace if it contains a newline, and the number of leading newlines if
    the leading whitespace consists of nothing else (only_newlines). *)
Definition has_leading_space_nl (s : bytes) : option nat * nat :=
  let '(n, r) := skip_nls s 0 in
  let '(i, found) := skip_ws r n (Nat.ltb 0 n) in
  if found then (Some i, if Nat.eqb i n then n else 0%nat) else (None, 0%nat).

(** text.c:58-95 has_ending_nl_space: the same scan from the end.  The result
    is the offset of the trailing whitespace. *)
Definition has_ending_nl_space (s : bytes) : option nat * nat :=
  let '(n, r) := skip_nls (rev s) 0 in
  let '(i, found) := skip_ws r n (Nat.ltb 0 n) in
  if found then (Some (List.length s - i)%nat, if Nat.eqb i n then n else 0%nat)
  else (None, 0%nat).

(** xmq.c:1404-1411 trim from the end, on the reversed text: the text that
    remains, the trimmed bytes and the number of newlines among them. *)
Fixpoint strip_end (r acc : bytes) (nls : nat) : bytes * bytes * nat :=
  match r with
  | [] => ([], acc, nls)
  | c :: r' =>
    let nls := if c =? cNL then S nls else nls in
    if is_xml_whitespace c then strip_end r' (c :: acc) nls else (rev r, acc, nls)
  end.

(** xmq.c:1436-1447 trim leading lines: where to restart and the number of
    newlines passed. *)
Fixpoint strip_lead (r cur : bytes) (nls : nat) : bytes * nat :=
  match r with
  | [] => (cur, nls)
  | c :: r' =>
    if c =? cNL then strip_lead r' r' (S nls)
    else if is_xml_whitespace c then strip_lead r' cur nls
    else (cur, nls)
  end.

(** xmq.c:1456-1476 the smallest indentation; [None] is (size_t)-1. *)
Fixpoint min_indent (fuel : nat) (s aft : bytes) (first ignore : bool) (inc : option nat)
  : out (option nat) :=
  match s with
  | [] => Ok inc
  | _ =>
    match fuel with
    | O => NoFuel
    | S fuel =>
      f <- find_line s aft ;
      if Nat.eqb (fl_text f) 0 then
        min_indent fuel (skipn (fl_eol f) s) aft first ignore inc
      else
        let smaller := match inc with None => true | Some n => Nat.ltb (fl_indent f) n end in
        let inc := if smaller && (negb first || ignore) then Some (fl_indent f) else inc in
        min_indent fuel (skipn (fl_eol f) s) aft false ignore inc
    end
  end.

(** xmq.c:1516-1527 skip the incidental indentation: the number of bytes
    skipped.  All readable memory from i is [m]. *)
Fixpoint skip_cols (n : nat) (m : bytes) : out nat :=
  match n with
  | O => Ok 0%nat
  | S n' =>
    match m with
    | [] => UB
    | c :: m' =>
      if c =? cSP then k <- skip_cols n' m' ; Ok (S k)
      else if c =? cTAB then
        if Nat.leb 8 n then k <- skip_cols (n - 8) m' ; Ok (S k) else Ok 1%nat
      else k <- skip_cols n m' ; Ok (S k)
    end
  end.

Definition skip_incidental (inc : option nat) (m : bytes) : out nat :=
  match inc with Some n => skip_cols n m | None => UB end.

(** xmq.c:1508-1542 copy the lines without their indentation. *)
Fixpoint copy_lines (fuel : nat) (s aft : bytes) (first ignore : bool) (inc : option nat)
  : out bytes :=
  match s with
  | [] => Ok []
  | _ =>
    match fuel with
    | O => NoFuel
    | S fuel =>
      f <- find_line s aft ;
      k <- (if negb first || ignore then skip_incidental inc (s ++ aft) else Ok 0%nat) ;
      let text := skipn k (firstn (fl_text f) s) in
      let tail := if fl_nl f then [cNL] else skipn (Nat.max k (fl_text f)) s in
      rest <- copy_lines fuel (skipn (fl_eol f) s) aft false ignore inc ;
      Ok (text ++ tail ++ rest)
    end
  end.

(** strndup copies up to the first NUL. *)
Fixpoint c_str (s : bytes) : bytes :=
  match s with
  | [] => []
  | c :: r => if c =? 0 then [] else c :: c_str r
  end.

(** xmq.c:1357-1371 the special case that takes the indentation from the
    second line. *)
Definition second_line_indent (s aft : bytes) (indent : nat) (space : N) : out nat :=
  if Nat.eqb indent 0 && (space =? 0) then
    f <- find_line s aft ;
    if fl_nl f && negb (Nat.eqb (fl_eol f) (List.length s)) then
      if Nat.ltb (List.length s) (fl_eol f) then Abrt
      else g <- find_line (skipn (fl_eol f) s) aft ; Ok (fl_indent g)
    else Ok indent
  else Ok indent.

(** xmq.c:1353-1550 xmq_trim_quote: the size of the allocated output buffer
    and the bytes written to it, without the terminating NUL. *)
Definition trim_quote (indent : nat) (space : N) (s aft : bytes) : out (nat * bytes) :=
  indent <- second_line_indent s aft indent space ;
  f <- find_line s aft ;
  if negb (fl_nl f) then Ok (S (List.length (c_str s)), c_str s)
  else
    let '(s1, cut, nls) :=
      match fst (has_ending_nl_space s) with
      | Some _ => strip_end (rev s) [] 0
      | None => (s, [], 0%nat)
      end in
    let aft := cut ++ aft in
    let append := Nat.pred nls in
    match s1 with
    | [] => Ok (S append, rep cNL append)
    | _ =>
      let '(s2, prepend, ignore) :=
        match fst (has_leading_space_nl s1) with
        | Some _ =>
          let '(s2, p) := strip_lead (skipn (fl_eol f) s1) (skipn (fl_eol f) s1) 0 in
          (s2, p, true)
        | None => (s1, 0%nat, false)
        end in
      inc <- min_indent (List.length s2) s2 aft true ignore
               (if ignore then None else Some indent) ;
      let spaces :=
        match ignore, inc with
        | false, Some n => (if Nat.leb n indent then indent - n else 0)%nat
        | _, _ => 0%nat
        end in
      body <- copy_lines (List.length s2) s2 aft true ignore inc ;
      Ok ((List.length s2 + spaces + prepend + append + 1)%nat,
          (if space =? 0 then [] else rep space spaces)
          ++ rep cNL prepend ++ body ++ rep cNL append)
    end.

(** xmq.c:1270-1274 and 1322-1323: how many times the byte [q] can be removed
    from both ends.  A read outside of the text is [UB]. *)
Fixpoint peel (fuel : nat) (q : N) (t : bytes) (j : nat) : out nat :=
  match fuel with
  | O => NoFuel
  | S fuel =>
    match nth_error t j with
    | None => UB
    | Some c =>
      if c =? q then
        if Nat.ltb j (List.length t) then
          match nth_error t (List.length t - j - 1) with
          | None => UB
          | Some d =>
            if (d =? q) && Nat.ltb j (List.length t - j) then peel fuel q t (S j) else Ok j
          end
        else UB
      else Ok j
    end
  end.

(** The text between offsets a and b of t. *)
Definition slice (a b : nat) (t : bytes) : bytes := firstn (b - a) (skipn a t).

(** xmq.c:1264-1281 xmq_un_quote; [aft] follows the quote in memory.  When
    start gets larger than stop the assert of find_line fails. *)
Definition un_quote (indent : nat) (space : N) (t aft : bytes) (remove_qs : bool) : out (nat * bytes) :=
  j <- (if remove_qs then peel (S (S (List.length t))) cQ t 0 else Ok 0%nat) ;
  let b := (List.length t - j)%nat in
  if Nat.ltb b j then Abrt
  else trim_quote (indent + j) space (slice j b t) (skipn b t ++ aft).

(** The number of leading copies of c. *)
Fixpoint count_lead (c : N) (t : bytes) : nat :=
  match t with
  | x :: r => if x =? c then S (count_lead c r) else 0%nat
  | [] => 0%nat
  end.

(** xmq.c:1312 while (i < stop && *(stop-1) == SPACE) stop--: the new stop. *)
Fixpoint drop_sp (i b : nat) (t : bytes) : nat :=
  match b with
  | O => O
  | S b' => if Nat.ltb i b then
              match nth_error t b' with
              | Some c => if c =? cSP then drop_sp i b' t else b
              | None => b
              end
            else b
  end.

(** xmq.c:1292-1351 xmq_un_comment *)
Definition un_comment (indent : nat) (space : N) (t aft : bytes) : out (nat * bytes) :=
  let len := List.length t in
  if Nat.eqb len 0 then Abrt
  else
    let i := count_lead cSLASH t in
    match nth_error t i with
    | None =>
      (* all slashes *)
      if Nat.ltb len 2 then Abrt else trim_quote indent space (skipn 2 t) aft
    | Some c =>
      if negb (c =? cSTAR) then
        let i := if c =? cSP then S i else i in
        let b := drop_sp i len t in
        if Nat.ltb b i then Abrt
        else trim_quote indent space (slice i b t) (skipn b t ++ aft)
      else
        j <- peel (S (S len)) cSLASH t 0 ;
        let a := j in
        let b := (len - j)%nat in
        match nth_error t a, b with
        | _, O => UB
        | None, _ => UB
        | Some x, S b' =>
          match nth_error t b' with
          | None => UB
          | Some y =>
            if negb ((x =? cSTAR) && (y =? cSTAR)) then Abrt
            else
              let a := S a in
              let indent := (indent + j + 1)%nat in
              let b := b' in
              match nth_error (t ++ aft) a, b with
              | None, _ => UB
              | _, O => UB
              | Some x, S b' =>
                let '(a, indent) := if x =? cSP then (S a, S indent) else (a, indent) in
                match nth_error t b' with
                | None => UB
                | Some y =>
                  let b := if (y =? cSP) && Nat.leb a b' then b' else b in
                  if Nat.ltb b a then Abrt
                  else trim_quote indent space (slice a b t) (skipn b t ++ aft)
                end
              end
          end
        end
    end.
