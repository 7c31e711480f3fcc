(** Model of parts/ixml.c: reading an ixml grammar into BNF rules, and of the
    functions of xmq.c that hand these rules to the yaep parser.

    Line and column numbers, error texts and the tracing code are not
    modelled.  The type of a term (terminal or nonterminal) is not kept: the
    only use of it is to find the name that is handed to yaep
    (ixml.c:1466-1479). *)
From Coq Require Import NArith ZArith Bool String List.
From Verif Require Import Bytes Utf8 UnicodeTables Category Printer.
Import ListNotations.
Local Open Scope N_scope.
Local Open Scope list_scope.

(** What a function of ixml.c does:
    - [IOk]: it returns,
    - [IErr]: it reports a syntax error (longjmp to the error handler),
    - [IAbort]: an assert fails,
    - [IExit]: exit(1), on broken UTF-8,
    - [IUB]: undefined behaviour,
    - [IHang]: it loops for ever without changing anything,
    - [IFuel]: the model ran out of fuel. *)
Inductive ires (A : Type) :=
| IOk (a : A) | IErr | IAbort | IExit | IUB | IHang | IFuel.
Arguments IOk {A}. Arguments IErr {A}. Arguments IAbort {A}. Arguments IExit {A}.
Arguments IUB {A}. Arguments IHang {A}. Arguments IFuel {A}.

Definition ibind {A B : Type} (m : ires A) (f : A -> ires B) : ires B :=
  match m with
  | IOk a => f a
  | IErr => IErr | IAbort => IAbort | IExit => IExit
  | IUB => IUB | IHang => IHang | IFuel => IFuel
  end.
Notation "'ido' x <- m ; k" := (ibind m (fun x => k))
  (at level 200, x pattern, m at level 100, k at level 200, right associativity).

(** *state->i.  The grammar is followed by a NUL: is_ixml_eob (ixml.c:197-200)
    is [peek s = 0]. *)
Definition peek (s : bytes) : N := hd 0 s.
Definition peek1 (s : bytes) : N := hd 0 (tl s).
Definition eob (s : bytes) : bool := peek s =? 0.

(** xmq_internals.h:258-265 IXMLTerm, a symbol of a right hand side *)
Record iterm := ITerm { t_mark : N; t_name : bytes }.
(** xmq_internals.h:267-273 IXMLRule.  The alias is the alias of rule_name. *)
Record irule := IRule { r_name : bytes; r_alias : option bytes; r_mark : N; r_rhs : list iterm }.
(** xmq_internals.h:222-231 IXMLCharsetPart: a range, or a category *)
Inductive cpart := CRange (from to : Z) | CCat (cat : bytes).
(** xmq_internals.h:233-241 IXMLCharset *)
Record icharset := ICharset { c_exclude : bool; c_parts : list cpart }.
(** xmq_internals.h:250-256 IXMLNonTerminal.  The alias of a nonterminal on a
    right hand side is stored but never read; it is left out. *)
Record inonterm := INonterm { nt_name : bytes; nt_charset : option icharset }.

(** The part of XMQParseState that the grammar is built in.  [g_cur] is
    ixml_rule and [g_stack] is ixml_rule_stack, both as indexes into
    [g_rules] ([None] is NULL).  [g_terms] is ixml_terminals_map. *)
Record gst := Gst {
  g_rules : list irule;
  g_cur : option nat;
  g_stack : list (option nat);
  g_nts : list inonterm;
  g_terms : list (bytes * Z);
  g_tmp : option (list (bytes * Z));
  g_gen : N;
  g_mark : N;
  g_read : nat (* yaep_j_ *)
}.
Definition set_rules l g := Gst l (g_cur g) (g_stack g) (g_nts g) (g_terms g) (g_tmp g) (g_gen g) (g_mark g) (g_read g).
Definition set_cur c g := Gst (g_rules g) c (g_stack g) (g_nts g) (g_terms g) (g_tmp g) (g_gen g) (g_mark g) (g_read g).
Definition set_stack k g := Gst (g_rules g) (g_cur g) k (g_nts g) (g_terms g) (g_tmp g) (g_gen g) (g_mark g) (g_read g).
Definition set_nts l g := Gst (g_rules g) (g_cur g) (g_stack g) l (g_terms g) (g_tmp g) (g_gen g) (g_mark g) (g_read g).
Definition set_terms l g := Gst (g_rules g) (g_cur g) (g_stack g) (g_nts g) l (g_tmp g) (g_gen g) (g_mark g) (g_read g).
Definition set_tmp t g := Gst (g_rules g) (g_cur g) (g_stack g) (g_nts g) (g_terms g) t (g_gen g) (g_mark g) (g_read g).
Definition set_gen n g := Gst (g_rules g) (g_cur g) (g_stack g) (g_nts g) (g_terms g) (g_tmp g) n (g_mark g) (g_read g).
Definition set_mark m g := Gst (g_rules g) (g_cur g) (g_stack g) (g_nts g) (g_terms g) (g_tmp g) (g_gen g) m (g_read g).
Definition set_read n g := Gst (g_rules g) (g_cur g) (g_stack g) (g_nts g) (g_terms g) (g_tmp g) (g_gen g) (g_mark g) n.

(** ixml.c:1524-1531: the state before the grammar is read *)
Definition gst0 : gst := Gst [] None [] [] [] None 0 0 0.

(** ** Characters (ixml.c:207-461) *)

(** ixml.c:458-461 is_ixml_whitespace_char *)
Definition ix_ws (c : N) : bool :=
  (c =? cSP) || (c =? cTAB) || (c =? cNL) || (c =? cCR) || (c =? cLB) || (c =? cRB).
(** ixml.c:322-328 is_ixml_mark_char: @ ^ - *)
Definition ix_mark (c : N) : bool := (c =? 64) || (c =? 94) || (c =? cMINUS).
(** ixml.c:446-451 is_ixml_tmark_char: ^ - *)
Definition ix_tmark (c : N) : bool := (c =? 94) || (c =? cMINUS).
(** ixml.c:336-339 is_ixml_name_start *)
Definition ix_name_start (c : N) : bool := in_range 97 122 c || in_range 65 90 c || (c =? cUND).
(** ixml.c:330-334 is_ixml_name_follower *)
Definition ix_name_follower (c : N) : bool :=
  in_range 97 122 c || in_range 65 90 c || (c =? cUND) || (c =? cMINUS) || in_range 48 57 c.
(** ixml.c:341-344 is_ixml_naming_char *)
Definition ix_naming (c : N) : bool := ix_name_start c || ix_mark c.
(** ixml.c:299-305 is_ixml_hex_char *)
Definition ix_hex (c : N) : bool := in_range 65 70 c || in_range 97 102 c || in_range 48 57 c.
(** ixml.c:392-396 is_ixml_string_char *)
Definition ix_quote (c : N) : bool := (c =? cDQ) || (c =? cQ).
(** ixml.c:207-220 is_ixml_alt_start *)
Definition ix_alt_start (c : N) : bool :=
  (c =? 43) || (c =? cHASH) || (c =? cLP) || (c =? cDQ) || (c =? cQ) || (c =? 91) || (c =? 126)
  || ix_mark c || ix_name_start c.
(** ixml.c:222-227 is_ixml_alt_end: ; | *)
Definition ix_alt_end (c : N) : bool := (c =? cSEMI) || (c =? 124).

Fixpoint drop_while (p : N -> bool) (s : bytes) : bytes :=
  match s with
  | c :: r => if p c then drop_while p r else s
  | [] => []
  end.
Fixpoint take_while (p : N -> bool) (s : bytes) : bytes :=
  match s with
  | c :: r => if p c then c :: take_while p r else []
  | [] => []
  end.

(** ixml.c:1629-1639 skip_tmark *)
Definition skip_tmark (s : bytes) : bytes :=
  if ix_tmark (peek s) then drop_while ix_ws (tl s) else s.
(** ixml.c:229-241 is_ixml_charset_start *)
Definition charset_start (s : bytes) : bool :=
  let s := skip_tmark s in
  let s := if peek s =? 126 then tl s else s in
  peek (drop_while ix_ws s) =? 91.
(** ixml.c:262-272 is_ixml_encoded_start *)
Definition encoded_start (s : bytes) : bool := peek (skip_tmark s) =? cHASH.
(** ixml.c:420-428 is_ixml_quoted_start *)
Definition quoted_start (s : bytes) : bool := ix_quote (peek (skip_tmark s)).
(** ixml.c:313-320 is_ixml_literal_start *)
Definition literal_start (s : bytes) : bool := quoted_start s || encoded_start s.
(** ixml.c:438-444 is_ixml_terminal_start *)
Definition terminal_start (s : bytes) : bool := encoded_start s || literal_start s || charset_start s.
(** ixml.c:274-281 is_ixml_factor_start *)
Definition factor_start (s : bytes) : bool :=
  terminal_start s || ix_naming (peek s) || (peek s =? 43) || (peek s =? cLP).
(** ixml.c:243-255 is_ixml_code_start *)
Definition code_start (s : bytes) : nat :=
  if in_range 65 90 (peek s) then if in_range 97 122 (peek1 s) || (peek1 s =? 67) then 2%nat else 1%nat else 0%nat.
(** ixml.c:357-361 is_ixml_prolog_start *)
Definition prolog_start (s : bytes) : bool := beq (firstn 4 s) (B "ixml") && ix_ws (peek (skipn 4 s)).

(** ixml.c:1564-1577 skip_comment.  [None]: the comment is not closed and the
    position is left unchanged.  An inner comment that is not closed does not
    move the position either. *)
Fixpoint skip_comment (fuel : nat) (s : bytes) : option bytes :=
  match fuel with
  | O => None
  | S f =>
    let s := tl s in
    let s := if peek s =? cLB then match skip_comment f s with Some r => r | None => s end else s in
    if peek s =? cRB then Some (tl s) else if eob s then None else skip_comment f s
  end.
(** ixml.c:1641-1651 skip_whitespace.  When a comment is not closed
    skip_comment does not move and the loop never ends. *)
Fixpoint skip_ws (fuel : nat) (s : bytes) : ires bytes :=
  match fuel with
  | O => IFuel
  | S f =>
    if ix_ws (peek s) then
      if peek s =? cLB then
        match skip_comment (S (length s)) s with Some r => skip_ws f r | None => IHang end
      else skip_ws f (tl s)
    else IOk s
  end.
(** ixml.c:1579-1586 skip_encoded *)
Definition skip_encoded (s : bytes) : bytes :=
  if peek s =? cHASH then drop_while ix_hex (tl s) else s.
(** ixml.c:1600-1627 skip_string: to the first quote.  A string that is not
    closed does not move the position. *)
Fixpoint skip_to (q : N) (s : bytes) : option bytes :=
  match s with
  | [] => None
  | c :: r => if c =? q then Some r else if c =? 0 then None else skip_to q r
  end.
Definition skip_string (s : bytes) : bytes :=
  if ix_quote (peek s) then match skip_to (peek s) (tl s) with Some r => r | None => s end else s.
(** ixml.c:363-390 is_ixml_range_start *)
Definition range_start (s : bytes) : ires bool :=
  if ix_quote (peek s) then
    ido r <- skip_ws (S (length s)) (skip_string s); IOk (peek r =? cMINUS)
  else if encoded_start s then
    ido r <- skip_ws (S (length s)) (skip_encoded s); IOk (peek r =? cMINUS)
  else IOk false.

(** ** White space, names, strings *)

(** ixml.c:721-746 parse_ixml_comment, the loop *)
Fixpoint comment_loop (fuel : nat) (s : bytes) : ires bytes :=
  match fuel with
  | O => IFuel
  | S f =>
    if eob s then IErr
    else
      ido s <- (if peek s =? cLB then comment_loop f (tl s) else IOk s);
      if peek s =? cRB then IOk (tl s) else comment_loop f (tl s)
  end.
(** ixml.c:721-746 parse_ixml_comment; s starts with a brace *)
Definition parse_comment (s : bytes) : ires bytes := comment_loop (S (length s)) (tl s).
(** ixml.c:1390-1409 parse_ixml_whitespace *)
Fixpoint ws_loop (fuel : nat) (s : bytes) : ires bytes :=
  match fuel with
  | O => IFuel
  | S f =>
    if ix_ws (peek s) then
      if peek s =? cLB then ido r <- parse_comment s; ws_loop f r
      else ws_loop f (tl s)
    else IOk s
  end.
Definition parse_ws (s : bytes) : ires bytes := ws_loop (S (length s)) s.

(** ixml.c:989-1006 parse_ixml_name *)
Definition parse_name (s : bytes) : ires (bytes * bytes) :=
  if ix_name_start (peek s) then
    IOk (peek s :: take_while ix_name_follower (tl s), drop_while ix_name_follower (tl s))
  else IAbort.
(** ixml.c:497-511 parse_ixml_alias *)
Definition parse_alias (s : bytes) : ires (bytes * bytes) :=
  ido s <- parse_ws (tl s);
  ido (n, s) <- parse_name s;
  ido s <- parse_ws s;
  IOk (n, s).
(** ixml.c:1008-1050 parse_ixml_naming: mark, name, alias *)
Definition parse_naming (s : bytes) : ires (N * bytes * option bytes * bytes) :=
  let m := if ix_mark (peek s) then peek s else 0 in
  let s := if ix_mark (peek s) then tl s else s in
  ido s <- parse_ws s;
  if negb (ix_name_start (peek s)) then IErr
  else
    ido (n, s) <- parse_name s;
    ido s <- parse_ws s;
    if peek s =? cGT then ido (a, s) <- parse_alias s; IOk (m, n, Some a, s)
    else IOk (m, n, None, s).

(** ixml.c:1246-1298 parse_ixml_string, the loop *)
Fixpoint string_loop (fuel : nat) (q : N) (s : bytes) : ires (list Z * bytes) :=
  match fuel with
  | O => IFuel
  | S f =>
    if eob s then IErr
    else if (peek s =? q) && negb (peek1 s =? q) then IOk ([], tl s)
    else
      let s := if peek s =? q then tl s else s in
      match decode_utf8 s with
      | DecOk u n => ido (us, r) <- string_loop f q (skipn n s); IOk (Z.of_N u :: us, r)
      | DecBad => IExit
      | DecUB => IUB
      end
  end.
(** The readers of the zero terminated array stop at the first zero. *)
Fixpoint until_zero (l : list Z) : list Z :=
  match l with
  | [] => []
  | c :: r => if (c =? 0)%Z then [] else c :: until_zero r
  end.
(** ixml.c:1246-1298 parse_ixml_string *)
Definition parse_string (s : bytes) : ires (list Z * bytes) :=
  if ix_quote (peek s) then
    ido (us, r) <- string_loop (S (length s)) (peek s) (tl s); IOk (until_zero us, r)
  else IAbort.

(** ixml.c:905-920 parse_ixml_hex: strtol, then a cast to int *)
Definition hex_digit (c : N) : Z :=
  Z.of_N (if in_range 48 57 c then c - 48 else if in_range 97 102 c then c - 87 else c - 55).
Definition hex_value (ds : bytes) : Z := fold_left (fun v c => v * 16 + hex_digit c)%Z ds 0%Z.
Definition to_int (v : Z) : Z :=
  let v := Z.min v (2 ^ 63 - 1) in ((v + 2 ^ 31) mod 2 ^ 32 - 2 ^ 31)%Z.
Definition parse_hex (s : bytes) : Z * bytes :=
  (to_int (hex_value (take_while ix_hex s)), drop_while ix_hex s).

(** ixml.c:748-789 parse_ixml_encoded, without the terminal: mark and value *)
Definition parse_encoded (s : bytes) : ires (N * Z * bytes) :=
  if negb (encoded_start s) then IAbort
  else
    let m := if ix_tmark (peek s) then peek s else 0 in
    let s := if ix_tmark (peek s) then tl s else s in
    ido s <- parse_ws s;
    if negb (peek s =? cHASH) then IAbort
    else
      let s := tl s in
      if negb (ix_hex (peek s)) then IErr
      else
        let '(v, s) := parse_hex s in
        ido s <- parse_ws s;
        IOk (m, v, s).

(** snprintf of an int with %x *)
Definition hex_char (d : N) : N := if d <? 10 then 48 + d else 87 + d.
Fixpoint hex_loop (fuel : nat) (n : N) (acc : bytes) : bytes :=
  match fuel with
  | O => acc
  | S fuel =>
    let acc := hex_char (n mod 16) :: acc in
    if n <? 16 then acc else hex_loop fuel (n / 16) acc
  end.
Definition hex (v : Z) : bytes :=
  let n := Z.to_N (v mod 2 ^ 32) in hex_loop (S (N.to_nat (N.log2 n))) n [].
(** ixml.c:1186-1188: the name of a terminal *)
Definition term_name (v : Z) : bytes := cHASH :: hex v.

(** ** Building rules *)

Fixpoint upd {A} (k : nat) (f : A -> A) (l : list A) : list A :=
  match l, k with
  | [], _ => []
  | a :: l, O => f a :: l
  | a :: l, S k => a :: upd k f l
  end.
Definition set_rhs (ts : list iterm) (r : irule) : irule := IRule (r_name r) (r_alias r) (r_mark r) ts.
Definition add_rhs (ts : list iterm) (r : irule) : irule := set_rhs (r_rhs r ++ ts) r.

(** ixml.c:1653-1662 add_yaep_term_to_rule: adds to the current rule *)
Definition add_term (m : N) (name : bytes) (g : gst) : ires gst :=
  match g_cur g with
  | Some k => if Nat.ltb k (length (g_rules g)) then IOk (set_rules (upd k (add_rhs [ITerm m name]) (g_rules g)) g) else IUB
  | None => IUB
  end.
(** ixml.c:1664-1667 add_yaep_terminal: hashmap_put replaces an old value *)
Definition find_term (name : bytes) (l : list (bytes * Z)) : option (bytes * Z) :=
  find (fun t => beq (fst t) name) l.
(** ixml.c:1670-1673 add_yaep_nonterminal *)
Definition add_nt (nt : inonterm) (g : gst) : gst := set_nts (g_nts g ++ [nt]) g.
(** ixml.c:1675-1681 add_yaep_tmp_term_terminal; vector_push_back asserts that
    the vector exists *)
Definition add_tmp (v : Z) (g : gst) : ires gst :=
  match g_tmp g with
  | Some l => IOk (set_tmp (Some (l ++ [(term_name v, v)])) g)
  | None => IAbort
  end.
(** ixml.c:1881-1884: look the terminal up, add it if it is not there *)
Definition put_term (t : bytes * Z) (l : list (bytes * Z)) : list (bytes * Z) :=
  match find_term (fst t) l with Some _ => l | None => l ++ [t] end.
(** ixml.c:1868-1890 add_yaep_tmp_terminals_to_rule, the loop.  The rule passed
    is always the current rule. *)
Fixpoint add_tmps (m : N) (l : list (bytes * Z)) (g : gst) : ires gst :=
  match l with
  | [] => IOk g
  | t :: l => ido g <- add_term m (fst t) (set_terms (put_term t (g_terms g)) g); add_tmps m l g
  end.
(** ixml.c:1892-1896 allocate_yaep_tmp_terminals *)
Definition alloc_tmp (g : gst) : ires gst :=
  match g_tmp g with None => IOk (set_tmp (Some []) g) | Some _ => IAbort end.

(** new_ixml_rule, vector_push_back, state->ixml_rule = ... (ixml.c:1918-1924
    and its callers) *)
Definition push_rule (name : bytes) (m : N) (g : gst) : gst :=
  set_cur (Some (length (g_rules g))) (set_rules (g_rules g ++ [IRule name None m []]) g).
(** stack_push / stack_pop of ixml_rule_stack; stack_pop of an empty stack
    asserts *)
Definition push_cur (g : gst) : gst := set_stack (g_cur g :: g_stack g) g.
Definition pop_cur (g : gst) : ires gst :=
  match g_stack g with
  | c :: k => IOk (set_cur c (set_stack k g))
  | [] => IAbort
  end.
(** ixml.c:2016-2022 generate_rule_name.  The counter is an int; its overflow
    after two thousand million rules is not modelled. *)
Definition gname (n : N) : bytes := 124 :: decimal n.
Definition next_name (g : gst) : bytes * gst := (gname (g_gen g), set_gen (g_gen g + 1) g).

(** vector_pop_back on the right hand side of the current rule; it asserts
    that there is something to pop *)
Definition pop_term (g : gst) : ires (iterm * gst) :=
  match g_cur g with
  | Some k =>
    match nth_error (g_rules g) k with
    | Some r =>
      match rev (r_rhs r) with
      | t :: l => IOk (t, set_rules (upd k (set_rhs (rev l)) (g_rules g)) g)
      | [] => IAbort
      end
    | None => IUB
    end
  | None => IUB
  end.

(** ixml.c:2065-2107 make_last_term_optional *)
Definition make_optional (g : gst) : ires gst :=
  ido (t, g) <- pop_term g;
  let '(n, g) := next_name g in
  let g := add_nt (INonterm n None) g in
  ido g <- add_term cMINUS n g;
  let g := push_cur g in
  let g := push_rule n cMINUS g in
  ido g <- add_term (g_mark g) (t_name t) g;
  let g := push_rule n cMINUS g in
  pop_cur g.
(** ixml.c:2109-2155 make_last_term_repeat *)
Definition make_repeat (fm : N) (g : gst) : ires gst :=
  ido (t, g) <- pop_term g;
  let '(n, g) := next_name g in
  let g := add_nt (INonterm n None) g in
  ido g <- add_term cMINUS n g;
  let g := push_cur g in
  let g := push_rule n cMINUS g in
  ido g <- add_term fm (t_name t) g;
  let g := push_rule n cMINUS g in
  ido g <- add_term cMINUS n g;
  ido g <- add_term fm (t_name t) g;
  pop_cur g.
(** ixml.c:2157-2207 make_last_term_repeat_infix *)
Definition make_repeat_infix (fm im : N) (g : gst) : ires gst :=
  ido (i, g) <- pop_term g;
  ido (t, g) <- pop_term g;
  let '(n, g) := next_name g in
  let g := add_nt (INonterm n None) g in
  ido g <- add_term cMINUS n g;
  let g := push_cur g in
  let g := push_rule n cMINUS g in
  ido g <- add_term fm (t_name t) g;
  let g := push_rule n cMINUS g in
  ido g <- add_term cMINUS n g;
  ido g <- add_term im (t_name i) g;
  ido g <- add_term fm (t_name t) g;
  pop_cur g.
(** ixml.c:2209-2252 make_last_term_repeat_zero *)
Definition make_repeat_zero (fm : N) (g : gst) : ires gst :=
  ido (t, g) <- pop_term g;
  let '(n, g) := next_name g in
  let g := add_nt (INonterm n None) g in
  ido g <- add_term cMINUS n g;
  let g := push_cur g in
  let g := push_rule n cMINUS g in
  let g := push_rule n cMINUS g in
  ido g <- add_term cMINUS n g;
  ido g <- add_term fm (t_name t) g;
  pop_cur g.
(** ixml.c:2254-2259 make_last_term_repeat_zero_infix *)
Definition make_repeat_zero_infix (fm im : N) (g : gst) : ires gst :=
  ido g <- make_repeat_infix fm im g;
  make_optional (set_mark cMINUS g).

(** ixml.c:1697-1713 add_insertion_rule *)
Definition add_insertion (content : bytes) (g : gst) : ires gst :=
  let n := 124 :: 43 :: content in
  let g := set_rules (g_rules g ++ [IRule n None cSP []]) g in
  add_term 0 n (add_nt (INonterm n None) g).

(** ixml.c:2024-2063 generate_charset_terminal_name.  The buffer has 1024
    bytes and is filled with strcat: a longer name overflows it ([IUB]).
    snprintf cuts a range to 15 bytes. *)
Definition part_name (p : cpart) : bytes :=
  match p with
  | CCat c => c
  | CRange a b =>
    if (a =? b)%Z then term_name a
    else firstn 15 (term_name a ++ cMINUS :: term_name b)
  end.
Fixpoint parts_name (ps : list cpart) : bytes :=
  match ps with
  | [] => []
  | [p] => part_name p
  | p :: ps => part_name p ++ cSEMI :: parts_name ps
  end.
Definition charset_name_text (cs : icharset) (m : N) : bytes :=
  (if c_exclude cs then [126] else []) ++ [91] ++ (if (m =? 0) || (m =? cSP) then [] else [m])
  ++ parts_name (c_parts cs) ++ [93].
Definition charset_name (cs : icharset) (m : N) : ires bytes :=
  let n := charset_name_text cs m in
  if Nat.ltb (length n) (N.to_nat 1024) then IOk n else IUB.

(** text.c:656-701, 847-854 unicode_lookup_category_parts and text.c:856-868
    unicode_get_category_part: the tables that make up a category *)
Definition category_tables : list (bytes * list (list Z)) :=
  [(B "Lu", [unicode_Lu]); (B "Ll", [unicode_Ll]); (B "Lt", [unicode_Lt]);
   (B "LC", [unicode_Lu; unicode_Ll; unicode_Lt]); (B "Lm", [unicode_Lm]); (B "Lo", [unicode_Lo]);
   (B "L", [unicode_Lu; unicode_Ll; unicode_Lt; unicode_Lm; unicode_Lo]);
   (B "Mn", [unicode_Mn]); (B "Mc", [unicode_Mc]); (B "Me", [unicode_Me]);
   (B "M", [unicode_Mn; unicode_Mc; unicode_Me]);
   (B "Nd", [unicode_Nd]); (B "Nl", [unicode_Nl]); (B "No", [unicode_No]);
   (B "N", [unicode_Nd; unicode_Nl; unicode_No]);
   (B "Pc", [unicode_Pc]); (B "Pd", [unicode_Pd]); (B "Ps", [unicode_Ps]); (B "Pe", [unicode_Pe]);
   (B "Pi", [unicode_Pi]); (B "Pf", [unicode_Pf]); (B "Po", [unicode_Po]);
   (B "P", [unicode_Pc; unicode_Pd; unicode_Ps; unicode_Pe; unicode_Pi; unicode_Pf; unicode_Po]);
   (B "Sm", [unicode_Sm]); (B "Sc", [unicode_Sc]); (B "Sk", [unicode_Sk]); (B "So", [unicode_So]);
   (B "S", [unicode_Sm; unicode_Sc; unicode_Sk; unicode_So]);
   (B "Zs", [unicode_Zs]); (B "Zl", [unicode_Zl]); (B "Zp", [unicode_Zp]);
   (B "Z", [unicode_Zs; unicode_Zl; unicode_Zp]);
   (B "Cc", [unicode_Cc]); (B "Cf", [unicode_Cf]); (B "Cs", [unicode_Cs]); (B "Co", [unicode_Co]);
   (B "Cn", [unicode_Cn]);
   (B "C", [unicode_Cc; unicode_Cf; unicode_Cs; unicode_Co; unicode_Cn])].
Definition category_parts (c : bytes) : option (list (list Z)) :=
  option_map snd (find (fun e => beq (fst e) c) category_tables).

(** ** Reading the grammar *)

(** ixml.c:1118-1164 parse_ixml_range: from and to *)
Definition parse_range_end (s : bytes) (g : gst) : ires (Z * bytes * gst) :=
  if ix_quote (peek s) then ido (us, s) <- parse_string s; IOk (hd 0%Z us, s, g)
  else ido (m, v, s) <- parse_encoded s; IOk (v, s, set_mark m g).
Definition parse_range (s : bytes) (g : gst) : ires (Z * Z * bytes * gst) :=
  ido (a, s, g) <- parse_range_end s g;
  ido s <- parse_ws s;
  if negb (peek s =? cMINUS) then IAbort
  else
    ido s <- parse_ws (tl s);
    if ix_quote (peek s) || encoded_start s then
      ido (b, s, g) <- parse_range_end s g;
      ido s <- parse_ws s;
      IOk (a, b, s, g)
    else IErr.

(** ixml.c:635-691, one round of the loop in parse_ixml_charset: the parts it
    adds *)
Definition parse_part (s : bytes) (g : gst) : ires (list cpart * bytes * gst) :=
  ido rs <- range_start s;
  if rs : bool then ido (a, b, s, g) <- parse_range s g; IOk ([CRange a b], s, g)
  else if encoded_start s then ido (m, v, s) <- parse_encoded s; IOk ([CRange v v], s, set_mark m g)
  else match code_start s with
  | O =>
    if ix_quote (peek s) then
      ido (us, s) <- parse_string s;
      ido s <- parse_ws s;
      IOk (map (fun u => CRange u u) us, s, g)
    else IOk ([], s, g)
  | n =>
    match category_parts (firstn n s) with
    | None => IErr
    | Some _ => ido s' <- parse_ws (skipn n s); IOk ([CCat (firstn n s)], s', g)
    end
  end.
(** ixml.c:633-706 the loop in parse_ixml_charset *)
Fixpoint parts_loop (fuel : nat) (s : bytes) (g : gst) : ires (list cpart * bytes * gst) :=
  match fuel with
  | O => IFuel
  | S f =>
    if eob s then IErr
    else
      ido (ps, s, g) <- parse_part s g;
      if peek s =? 93 then IOk (ps, s, g)
      else if ix_alt_end (peek s) then
        ido s <- parse_ws (tl s);
        ido (ps', s, g) <- parts_loop f s g;
        IOk (ps ++ ps', s, g)
      else IErr
  end.
(** ixml.c:605-719 parse_ixml_charset *)
Definition parse_charset (s : bytes) (g : gst) : ires (bytes * gst) :=
  let m := if ix_tmark (peek s) then peek s else 0 in
  ido s <- (if ix_tmark (peek s) then parse_ws (tl s) else IOk s);
  let ex := peek s =? 126 in
  ido s <- (if ex then parse_ws (tl s) else IOk s);
  if negb (peek s =? 91) then IAbort
  else
    ido s <- parse_ws (tl s);
    ido (ps, s, g) <- parts_loop (S (length s)) s g;
    let cs := ICharset ex ps in
    ido n <- charset_name cs m;
    ido g <- add_term m n (add_nt (INonterm n (Some cs)) g);
    IOk (tl s, g).

Fixpoint add_tmp_all (us : list Z) (g : gst) : ires gst :=
  match us with
  | [] => IOk g
  | u :: us => ido g <- add_tmp u g; add_tmp_all us g
  end.
(** ixml.c:1166-1197 parse_ixml_quoted *)
Definition parse_quoted (s : bytes) (g : gst) : ires (bytes * gst) :=
  let m := if ix_tmark (peek s) then peek s else 0 in
  ido s <- (if ix_tmark (peek s) then parse_ws (tl s) else IOk s);
  ido (us, s) <- parse_string s;
  ido g <- add_tmp_all us (set_mark m g);
  ido s <- parse_ws s;
  IOk (s, g).
(** ixml.c:748-789 parse_ixml_encoded(state, true) *)
Definition parse_encoded_terminal (s : bytes) (g : gst) : ires (Z * bytes * gst) :=
  ido (m, v, s) <- parse_encoded s;
  ido g <- add_tmp v (set_mark m g);
  IOk (v, s, g).
(** ixml.c:1373-1388 parse_ixml_terminal and ixml.c:971-987 parse_ixml_literal *)
Definition parse_terminal (s : bytes) (g : gst) : ires (bytes * gst) :=
  if literal_start s then
    if quoted_start s then parse_quoted s g
    else ido (_, s, g) <- parse_encoded_terminal s g; IOk (s, g)
  else if charset_start s then parse_charset s g
  else IAbort.

(** ixml.c:951-959: the UTF-8 of a string *)
Fixpoint encode_all (us : list Z) : ires bytes :=
  match us with
  | [] => IOk []
  | u :: us =>
    match encode_utf8 u with
    | Some b => ido r <- encode_all us; IOk (b ++ r)
    | None => IAbort
    end
  end.
(** ixml.c:922-968 parse_ixml_insertion.  For an encoded character
    parse_ixml_encoded(state, true) wants to add a temporary terminal, for
    which no vector is allocated here. *)
Definition parse_insertion (s : bytes) (g : gst) : ires (bytes * gst) :=
  ido s <- parse_ws (tl s);
  if ix_quote (peek s) then
    ido (us, s) <- parse_string s;
    ido c <- encode_all us;
    ido g <- add_insertion c g;
    IOk (s, g)
  else if encoded_start s then
    ido (v, s, g) <- parse_encoded_terminal s g;
    ido c <- encode_all [v];
    ido g <- add_insertion c g;
    IOk (s, g)
  else IErr.

(** ixml.c:796-832: a terminal factor.  A string of more than one character
    becomes a rule of its own. *)
Definition terminal_factor (s : bytes) (g : gst) : ires (bytes * gst) :=
  ido g <- alloc_tmp g;
  ido (s, g) <- parse_terminal s g;
  ido g <-
    match g_tmp g with
    | None => IAbort
    | Some [] => IOk g
    | Some [t] => add_tmps (g_mark g) [t] g
    | Some ts =>
      let '(n, g) := next_name g in
      let g := add_nt (INonterm n None) g in
      ido g <- add_term cMINUS n g;
      let g := push_rule n cMINUS (push_cur g) in
      ido g <- add_tmps (g_mark g) ts g;
      pop_cur g
    end;
  IOk (s, set_tmp None g).

(** ixml.c:513-603, 791-903, 1300-1371: parse_ixml_alts, parse_ixml_alt,
    parse_ixml_term, parse_ixml_factor and parse_ixml_group *)
Fixpoint parse_alts (fuel : nat) (s : bytes) (g : gst) : ires (bytes * gst) :=
  match fuel with
  | O => IFuel
  | S f =>
    ido s <- parse_ws s;
    if eob s || (peek s =? cDOT) || (peek s =? cRP) then IOk (s, g)
    else
      ido (s, g) <-
        (if peek s =? 124 then IOk (s, g)
         else if negb (ix_alt_start (peek s)) then IErr
         else ido (s, g) <- parse_alt f s g; ido s <- parse_ws s; IOk (s, g));
      if (peek s =? cDOT) || (peek s =? cRP) then IOk (s, g)
      else if negb (ix_alt_end (peek s)) then IErr
      else
        ido s <- parse_ws (tl s);
        match g_cur g with
        | Some k =>
          match nth_error (g_rules g) k with
          | Some r => parse_alts f s (push_rule (r_name r) (r_mark r) g)
          | None => IUB
          end
        | None => IUB
        end
  end
with parse_alt (fuel : nat) (s : bytes) (g : gst) : ires (bytes * gst) :=
  match fuel with
  | O => IFuel
  | S f =>
    if negb (ix_alt_start (peek s)) then IErr
    else
      ido (s, g) <- parse_term f s g;
      ido s <- parse_ws s;
      if ix_alt_end (peek s) || (peek s =? cRP) || (peek s =? cDOT) then IOk (s, g)
      else
        ido s <- parse_ws (if peek s =? 44 then tl s else s);
        parse_alt f s g
  end
with parse_term (fuel : nat) (s : bytes) (g : gst) : ires (bytes * gst) :=
  match fuel with
  | O => IFuel
  | S f =>
    ido (s, g) <- parse_factor f s g;
    let fm := g_mark g in
    let c := peek s in
    ido (s, g) <-
      (if c =? cQM then
         ido s <- parse_ws (tl s);
         ido g <- make_optional g; IOk (s, g)
       else if (c =? cSTAR) || (c =? 43) then
         let s := tl s in
         ido (s, g) <-
           (if c =? peek s then
              ido s <- parse_ws (tl s);
              ido (s, g) <- parse_factor f s g;
              let im := g_mark g in
              ido g <- (if c =? 43 then make_repeat_infix fm im g else make_repeat_zero_infix fm im g);
              IOk (s, g)
            else
              ido g <- (if c =? 43 then make_repeat fm g else make_repeat_zero fm g);
              IOk (s, g));
         ido s <- parse_ws s;
         IOk (s, g)
       else IOk (s, g));
    ido s <- parse_ws s;
    IOk (s, g)
  end
with parse_factor (fuel : nat) (s : bytes) (g : gst) : ires (bytes * gst) :=
  match fuel with
  | O => IFuel
  | S f =>
    if negb (factor_start s) then IAbort
    else
      ido (s, g) <-
        (if terminal_start s then terminal_factor s g
         else if ix_naming (peek s) then
           ido (m, n, _, s) <- parse_naming s;
           ido g <- add_term m n (add_nt (INonterm n None) (set_mark m g));
           IOk (s, g)
         else if peek s =? 43 then parse_insertion s g
         else parse_group f s g);
      ido s <- parse_ws s;
      IOk (s, g)
  end
with parse_group (fuel : nat) (s : bytes) (g : gst) : ires (bytes * gst) :=
  match fuel with
  | O => IFuel
  | S f =>
    ido s <- parse_ws (tl s);
    ido (s, g) <-
      (if ix_alt_start (peek s) then
         let '(n, g) := next_name g in
         let g := add_nt (INonterm n None) g in
         ido g <- add_term cMINUS n g;
         let g := push_rule n cMINUS (push_cur g) in
         ido (s, g) <- parse_alts f s g;
         ido g <- pop_cur g;
         IOk (s, g)
       else if negb (peek s =? cRP) then IErr
       else IOk (s, g));
    if negb (peek s =? cRP) then IErr
    else
      ido s <- parse_ws (tl s);
      IOk (s, g)
  end.

(** ixml.c:1199-1244 parse_ixml_rule *)
Definition parse_rule (fuel : nat) (s : bytes) (g : gst) : ires (bytes * gst) :=
  let g := push_cur g in
  ido (m, n, a, s) <- parse_naming s;
  let g := set_cur (Some (length (g_rules g))) (set_rules (g_rules g ++ [IRule n a m []]) g) in
  ido s <- parse_ws s;
  if negb ((peek s =? cEQ) || (peek s =? cCOLON)) then IErr
  else
    ido s <- parse_ws (tl s);
    ido (s, g) <- parse_alts fuel s g;
    if negb (peek s =? cDOT) then IErr
    else
      ido s <- parse_ws (tl s);
      ido g <- pop_cur g;
      IOk (s, g).

(** ixml.c:1063-1115 parse_ixml_prolog *)
Definition parse_prolog (s : bytes) : ires bytes :=
  ido s <- parse_ws (skipn 4 s);
  if negb (beq (firstn 7 s) (B "version")) then IErr
  else
    let s := skipn 7 s in
    if negb (ix_ws (peek s)) then IErr
    else
      ido s <- parse_ws s;
      if negb (ix_quote (peek s)) then IErr
      else
        ido (_, s) <- parse_string s;
        ido s <- parse_ws s;
        if negb (peek s =? cDOT) then IErr else IOk (tl s).

(** ixml.c:489-492: the rules *)
Fixpoint rules_loop (fuel : nat) (s : bytes) (g : gst) : ires (bytes * gst) :=
  match fuel with
  | O => IFuel
  | S f => if ix_naming (peek s) then ido (s, g) <- parse_rule f s g; rules_loop f s g else IOk (s, g)
  end.
(** ixml.c:465-495 parse_ixml *)
Definition parse_ixml (fuel : nat) (s : bytes) (g : gst) : ires (bytes * gst) :=
  ido s <- parse_ws s;
  ido s <- (if prolog_start s then ido s <- parse_prolog s; parse_ws s else IOk s);
  if negb (ix_naming (peek s)) then IErr
  else
    ido (s, g) <- rules_loop fuel s g;
    ido s <- parse_ws s;
    IOk (s, g).
(** ixml.c:1510-1562 ixml_build_yaep_grammar, called by xmq_parse_buffer_ixml
    (xmq.c:4328-4378) for a new grammar *)
Definition ixml_build (fuel : nat) (src : bytes) : ires gst :=
  ido (s, g) <- parse_ixml fuel src gst0;
  match s with [] => IOk g | _ => IErr end.

(** ** Using the grammar on a content *)

(** ixml.c:1724-1737: the characters of the content.  The array [used] has
    0x110000 bytes. *)
Fixpoint scan_content (fuel : nat) (s : bytes) : ires (list Z) :=
  match s with
  | [] => IOk []
  | _ =>
    match fuel with
    | O => IFuel
    | S f =>
      match decode_utf8 s with
      | DecOk u n => if u <? 0x110000 then ido us <- scan_content f (skipn n s); IOk (Z.of_N u :: us) else IUB
      | DecBad => IExit
      | DecUB => IUB
      end
    end
  end.
(** The indexes of [used] that are set, in ascending order *)
Fixpoint insert_code (u : Z) (l : list Z) : list Z :=
  match l with
  | [] => [u]
  | v :: r => if (u =? v)%Z then l else if (u <? v)%Z then u :: l else v :: insert_code u r
  end.
Definition used_codes (us : list Z) : list Z := fold_right insert_code [] us.

(** ixml.c:1683-1695 add_single_char_rule *)
Definition add_char_rule (n : bytes) (m : N) (c : Z) (g : gst) : gst :=
  set_cur (Some (length (g_rules g)))
    (set_terms (put_term (term_name c, c) (g_terms g))
      (set_rules (g_rules g ++ [IRule n None cMINUS [ITerm m (term_name c)]]) g)).
Definition add_char_rules (n : bytes) (m : N) (cs : list Z) (g : gst) : gst :=
  fold_left (fun g c => add_char_rule n m c g) cs g.

(** ixml.c:1765-1802: the used characters that a part of a set lets through,
    in the order of the rules added for them.  The loop over a range counts
    from [from] to [to]; with [to] = INT_MAX the counter overflows.  It adds
    the used characters of the range in ascending order. *)
Definition part_codes (used : list Z) (p : cpart) : ires (list Z) :=
  match p with
  | CRange a b =>
    if ((a <=? b) && (b =? 2 ^ 31 - 1))%Z then IUB
    else IOk (filter (fun c => (a <=? c) && (c <=? b))%Z used)
  | CCat n =>
    match category_parts n with
    | Some ts => IOk (filter (fun c => existsb (Z.eqb c) used) (List.concat ts))
    | None => IUB
    end
  end.
Fixpoint include_codes (used : list Z) (ps : list cpart) : ires (list Z) :=
  match ps with
  | [] => IOk []
  | p :: ps => ido a <- part_codes used p; ido b <- include_codes used ps; IOk (a ++ b)
  end.
(** ixml.c:1811-1855: is a used character in one of the parts? *)
Fixpoint tables_have (ts : list (list Z)) (c : Z) : ires bool :=
  match ts with
  | [] => IOk false
  | t :: ts =>
    match category_has_code c t with
    | Some true => IOk true
    | Some false => tables_have ts c
    | None => IUB
    end
  end.
Fixpoint parts_have (ps : list cpart) (c : Z) : ires bool :=
  match ps with
  | [] => IOk false
  | CRange a b :: ps => if ((a <=? c) && (c <=? b))%Z then IOk true else parts_have ps c
  | CCat n :: ps =>
    match category_parts n with
    | Some ts => ido b <- tables_have ts c; ido b' <- parts_have ps c; IOk (b || b')
    | None => IUB
    end
  end.
Fixpoint exclude_codes (used : list Z) (ps : list cpart) : ires (list Z) :=
  match used with
  | [] => IOk []
  | c :: used =>
    ido b <- parts_have ps c;
    ido r <- exclude_codes used ps;
    IOk (if b : bool then r else c :: r)
  end.
(** ixml.c:1749-1863: the rules for one nonterminal.  Whether the set is
    negated and its mark are read from its name. *)
Definition fixup_nt (used : list Z) (nt : inonterm) (g : gst) : ires gst :=
  match nt_charset nt with
  | None => IOk g
  | Some cs =>
    let n := nt_name nt in
    let c k := nth k n 0 in
    let m := if ((c 0%nat =? 91) && (c 1%nat =? cMINUS)) || ((c 1%nat =? 91) && (c 2%nat =? cMINUS)) then cMINUS else 0 in
    ido l <- (if c 0%nat =? 126 then exclude_codes used (c_parts cs) else include_codes used (c_parts cs));
    IOk (add_char_rules n m l g)
  end.
Fixpoint fixup_nts (used : list Z) (nts : list inonterm) (g : gst) : ires gst :=
  match nts with
  | [] => IOk g
  | nt :: nts => ido g <- fixup_nt used nt g; fixup_nts used nts g
  end.
(** ixml.c:1715-1866 scan_content_fixup_charsets *)
Definition fixup_charsets (content : bytes) (g : gst) : ires gst :=
  ido us <- scan_content (length content) content;
  let g := set_terms (fold_left (fun l u => put_term (term_name u, u) l) us (g_terms g)) g in
  fixup_nts (used_codes us) (g_nts g) g.

(** The grammar handed to yaep: terminals with their codes and rules; the
    first rule is the start rule (yaep.c:5174-5200). *)
Record ygrammar := YGrammar { y_terms : list (bytes * Z); y_rules : list (bytes * list bytes) }.

(** ixml.c:1416-1508 ixml_to_yaep_read_terminal and ixml_to_yaep_read_rule:
    the names of the rules that were not read before *)
Definition rule_names (r : irule) : bytes * list bytes := (r_name r, map t_name (r_rhs r)).
Definition read_grammar (g : gst) : ygrammar * gst :=
  (YGrammar (g_terms g) (map rule_names (skipn (g_read g) (g_rules g))),
   set_read (length (g_rules g)) g).
(** xmq.c:4594-4616 xmqParseBufferWithIXML up to the call of yaep *)
Definition use_grammar (g : gst) (content : bytes) : ires (ygrammar * gst) :=
  ido g <- fixup_charsets content g;
  IOk (read_grammar g).

(** yaep.c:5117-5163, 5249-5252 yaep_read_grammar: does it take the names?
    No terminal is declared twice, none is called error, there is a rule, and
    no rule has the name of a terminal.  (The checks in check_grammar, for
    loops and for a start symbol that derives nothing, are not modelled.) *)
Definition yaep_names_ok (y : ygrammar) : Prop :=
  NoDup (map fst (y_terms y)) /\ NoDup (map snd (y_terms y)) /\ Forall (fun t => (0 <= snd t)%Z) (y_terms y) /\
  ~ In (B "error") (map fst (y_terms y)) /\ y_rules y <> [] /\
  Forall (fun r => ~ In (fst r) (B "error" :: B "$eof" :: B "$S" :: map fst (y_terms y))) (y_rules y).
