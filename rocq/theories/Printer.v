(** Model of the printer of the xmq format (parts/xmq_printer.c, parts/utf8.c
    and xmq_print_xmq in xmq.c), for output without colors (no theme, plain
    rendering, so that nothing is replaced by needs_escape) and with the default
    strings for white space.

    Printing is a function from the printer state to the bytes written and the
    new state.  Columns (size_t in C) are integers; the only arithmetic on them
    that can wrap around is line_indent-- in a line that is 0, which wraps back
    in line_indent++. *)
From Coq Require Import NArith ZArith List Bool Arith String.
From Verif Require Import Bytes Utf8 Quote Parser Dom.
Import ListNotations.
Local Open Scope N_scope.

(** The fields of XMQOutputSettings that are used.  escape_newlines is set by
    xmq_print_xmq when compact is set (xmq.c:2934). *)
Record cfg := Cfg {
  compact : bool;
  set_escape_newlines : bool;
  escape_non_7bit : bool;
  escape_tabs : bool;
  add_indent : Z }.
Definition escape_newlines (c : cfg) : bool := compact c || set_escape_newlines c.

(** XMQPrintState; [p_ok] becomes false when the fuel of the model runs out. *)
Record pr := PR { p_cur : Z; p_line : Z; p_last : N; p_ok : bool }.
Definition op := pr -> bytes * pr.

Definition nop : op := fun s => ([], s).
Definition put (b : bytes) : op := fun s => (b, s).
Definition seq (a b : op) : op :=
  fun s => let '(x, s1) := a s in let '(y, s2) := b s1 in (x ++ y, s2).
Declare Scope op_scope.
Delimit Scope op_scope with op.
Notation "a ;; b" := (seq a b) (at level 61, right associativity) : op_scope.
Local Open Scope op_scope.
Definition when (c : bool) (a : op) : op := if c then a else nop.
Definition ask {A} (f : pr -> A) (k : A -> op) : op := fun s => k (f s) s.

Definition set_last (c : N) : op := fun s => ([], PR (p_cur s) (p_line s) c (p_ok s)).
Definition set_line (f : pr -> Z) : op := fun s => ([], PR (p_cur s) (f s) (p_last s) (p_ok s)).
Definition add_cur (n : Z) : op := fun s => ([], PR (p_cur s + n) (p_line s) (p_last s) (p_ok s)).
Definition no_fuel : op := fun s => ([], PR (p_cur s) (p_line s) (p_last s) false).

Definition zlen (b : bytes) : Z := Z.of_nat (List.length b).

(** utf8.c:60-112 print_utf8_internal and print_utf8 with stop NULL: every
    byte counts as a column. *)
Definition print_str (b : bytes) : op :=
  match b with
  | [] => nop
  | c :: r => put b ;; add_cur (zlen b) ;; set_last (List.last b 0)
  end.
(** The same with a stop pointer: a byte and its continuation bytes are one
    column.  For a space or tab only explicit_space or explicit_tab is written,
    so continuation bytes after it (not utf8) are lost. *)
Definition chars (b : bytes) : nat :=
  match b with [] => 0%nat | _ :: r => S (u_len r) end.
Definition is_blank (c : N) : bool := (c =? cSP) || (c =? cTAB).
Fixpoint written_after (blank : bool) (b : bytes) : bytes :=
  match b with
  | [] => []
  | c :: r => if blank && is_cont c then written_after true r else c :: written_after (is_blank c) r
  end.
Definition written (b : bytes) : bytes := written_after false b.
Definition print_range (b : bytes) : op :=
  match b with
  | [] => nop
  | c :: r => put (written b) ;; add_cur (Z.of_nat (chars b)) ;; set_last (List.last b 0)
  end.

(** xmq_printer.c:501-514 print_white_spaces *)
Definition white_spaces (n : Z) : op := put (rep cSP (Z.to_nat n)) ;; add_cur n.

(** xmq_printer.c:558-575 print_quoted_spaces *)
Definition quoted_spaces (n : nat) : op :=
  put ([cQ] ++ rep cSP n ++ [cQ]) ;; add_cur (Z.of_nat n) ;; set_last cQ.

(** xmq_printer.c:577-595 print_quotes *)
Definition print_quotes (n : nat) : op :=
  put (rep cQ n) ;; add_cur (Z.of_nat n) ;; set_last cQ.

(** xmq_printer.c:612-624 print_nl *)
Definition print_nl : op := fun s => ([cNL], PR 0 (p_line s) 0 (p_ok s)).
(** xmq_printer.c:597-610 print_nl_and_indent *)
Definition nl_and_indent : op := print_nl ;; ask p_line white_spaces.

(** snprintf of a non-negative int with %d *)
Fixpoint decimal_loop (fuel : nat) (n : N) (acc : bytes) : bytes :=
  match fuel with
  | O => acc
  | S fuel =>
    let acc := (48 + n mod 10) :: acc in
    if n <? 10 then acc else decimal_loop fuel (n / 10) acc
  end.
Definition decimal (n : N) : bytes := decimal_loop (S (N.to_nat (N.log2 n))) n [].
Definition char_ref (n : N) : bytes := [cAMP; cHASH] ++ decimal n ++ [cSEMI].

(** xmq_printer.c:626-673 print_char_entity for the text s (without the
    replacement by html entity names), and the number of bytes it returns. *)
Definition entity_len (s : bytes) : nat :=
  match decode_utf8 s with DecOk _ n => n | _ => 1%nat end.
Definition char_entity (s : bytes) : op :=
  match decode_utf8 s with
  | DecOk uc _ =>
    print_str (char_ref uc) ;; set_last cSEMI ;; add_cur (zlen (char_ref uc))
  | _ => put (B "&badutf8;")
  end.

(** xmq_printer.c:675-689 print_slashes *)
Definition slashes (pre post : bytes) (n : nat) : op := put (pre ++ rep cSLASH n ++ post).

(** xmq_printer.c:691-758 need_separation_... *)
Definition among (l : list N) (c : N) : bool := existsb (fun d => c =? d) l.
Definition sep_attribute (c : N) : bool := negb (among [0; cQ; cLP; cRP; cSEMI] c).
Definition sep_entity (c : N) : bool := negb (among [0; cEQ; cQ; cLB; cRB; cSEMI; cLP; cRP] c).
Definition sep_element (c : N) : bool := negb (among [0; cQ; cLB; cRB; cSEMI; cRP; cSLASH] c).
Definition sep_quote (c : N) : bool := c =? cQ.
Definition sep_comment (c : N) : bool := negb (among [0; cQ; cLB; cRP; cRB; cSEMI] c).

Section settings.
Variable C : cfg.

(** xmq_printer.c:760-856 check_space_before_... *)
Definition space_attribute : op :=
  ask p_last (fun c =>
    if c =? cLP then nop
    else if negb (compact C) then nl_and_indent
    else when (sep_attribute c) (white_spaces 1)).
Definition space_entity : op :=
  ask p_last (fun c =>
    if c =? cLP then nop
    else if negb (compact C) && negb (c =? cEQ) then nl_and_indent
    else when (sep_entity c) (white_spaces 1)).
Definition is_xmq_level (l : level) : bool := match l with LXmq => true | _ => false end.
Definition space_quote (l : level) : op :=
  ask p_last (fun c =>
    if c =? 0 then nop
    else if negb (compact C) && (negb (c =? cEQ) || is_xmq_level l) && negb (c =? cLP) then nl_and_indent
    else when (sep_quote c) (white_spaces 1)).
Definition space_key : op :=
  ask p_last (fun c =>
    if c =? 0 then nop
    else if negb (compact C) then nl_and_indent
    else when (sep_element c) (white_spaces 1)).
Definition space_opening_brace : op :=
  ask p_last (fun c =>
    when (negb (compact C)) (if c =? cRP then nl_and_indent else white_spaces 1)).
Definition space_closing_brace : op := when (negb (compact C)) nl_and_indent.
Definition space_comment : op :=
  ask p_last (fun c =>
    if c =? 0 then nop
    else if negb (compact C) then nl_and_indent
    else when (sep_comment c) (white_spaces 1)).

(** xmq_printer.c:516-539 print_all_whitespace *)
Fixpoint all_whitespace (fuel : nat) (l : level) (s : bytes) : op :=
  match s with
  | [] => nop
  | c :: r =>
    match fuel with
    | O => no_fuel
    | S fuel =>
      if c =? cSP then
        let n := count_lead cSP s in
        space_quote l ;; quoted_spaces n ;; all_whitespace fuel l (skipn n s)
      else
        space_entity ;; char_entity s ;; all_whitespace fuel l r
    end
  end.
Definition print_all_whitespace (l : level) (s : bytes) : op := all_whitespace (List.length s) l s.

(** text.c:97-150 has_leading_ending_quote, has_newlines, has_all_quotes,
    has_all_whitespace. *)
Definition starts_with (c : N) (s : bytes) : bool := match s with d :: _ => d =? c | [] => false end.
Definition ends_with (c : N) (s : bytes) : bool := starts_with c (rev s).
Definition has_newlines (s : bytes) : bool := existsb (fun c => c =? cNL) s.
Definition all_are (c : N) (s : bytes) : bool := forallb (fun d => d =? c) s.

(** xmq_printer.c:78-101 the longest run of quotes, and whether all other
    characters are safe. *)
Fixpoint scan_quotes (s : bytes) (max curr : nat) (safe : bool) : nat * bool :=
  match s with
  | [] => (max, safe)
  | c :: r =>
    if c =? cQ then scan_quotes r (Nat.max max (S curr)) (S curr) safe
    else scan_quotes r max 0 (safe && is_safe_value_char s)
  end.

(** xmq_printer.c:37-107 count_necessary_quotes: the number of quotes, add_nls
    and add_compound, for a text that is not empty. *)
Definition has_mixed_space (s : bytes) : bool :=
  let mixed r := match r with (Some _, O) => true | _ => false end in
  mixed (has_leading_space_nl s) || mixed (has_ending_nl_space s).
Definition count_necessary_quotes (s : bytes) (compact : bool) : nat * bool * bool :=
  let safe := negb (unsafe_value_start (hd 0 s) (nth 1 s 0)) in
  let edge := starts_with cQ s || ends_with cQ s in
  let '(max, safe) := scan_quotes s 0 0 safe in
  let max := if Nat.ltb 0 max then S max else max in
  let max := if Nat.eqb max 0 && negb safe then 1%nat else max in
  let max := if Nat.eqb max 2 then 3%nat else max in
  (max, edge && negb compact, (edge && compact) || has_mixed_space s).

(** utf8.c:11-54 print_utf8_char: one character. *)
Fixpoint take_cont (s : bytes) : bytes * bytes :=
  match s with
  | c :: r => if is_cont c then let '(a, b) := take_cont r in (c :: a, b) else ([], s)
  | [] => ([], [])
  end.

(** xmq_printer.c:974-996 the loop over the characters of a quote; also
    whether all are newlines. *)
Fixpoint quote_chars (fuel : nat) (s : bytes) : op :=
  match s with
  | [] => nop
  | c :: r =>
    match fuel with
    | O => no_fuel
    | S fuel =>
      if c =? cNL then
        (match r with
         | d :: _ => if negb (d =? cNL) then nl_and_indent else print_nl
         | [] => print_nl
         end) ;; quote_chars fuel r
      else
        let '(a, b) := take_cont r in
        put (if is_blank c then [c] else c :: a) ;; set_last c ;; add_cur 1 ;; quote_chars fuel b
    end
  end.

(** xmq_printer.c:952-1015 print_quote_lines_and_color_uwhitespace *)
Definition reset_line : op := fun s => ([], PR 0 (p_line s) 0 (p_ok s)).
Definition quote_lines (s : bytes) : op :=
  when (starts_with cNL s) print_nl ;;
  quote_chars (List.length s) s ;;
  when (ends_with cNL s)
    (set_line (fun p => p_line p - 1)%Z ;;
     (if all_are cNL s then reset_line ;; ask p_line white_spaces else nl_and_indent) ;;
     set_line (fun p => p_line p + 1)%Z).

(** xmq_printer.c:1017-1117 print_safe_leaf_quote *)
Definition safe_leaf_quote (s : bytes) : op :=
  ask id (fun old =>
    let '(numq, nls, _) := count_necessary_quotes s false in
    let add_nls :=
      if Nat.ltb 0 numq then nls || (p_cur old =? -1)%Z || Nat.leb 4 numq else nls in
    let numq := if Nat.eqb numq 0 then 1%nat else numq in
    if add_nls then
      set_line p_cur ;; print_quotes numq ;; nl_and_indent ;; quote_lines s ;;
      nl_and_indent ;; print_quotes numq ;; set_line (fun _ => p_line old)
    else
      print_quotes numq ;; set_line p_cur ;; quote_lines s ;;
      set_line (fun _ => p_line old) ;; print_quotes numq).

(** xmq_printer.c:1134-1176 find_next_char_that_needs_escape: the number of
    bytes before it. *)
Definition must_escape (c : N) : bool :=
  (escape_newlines C && (c =? cNL)) || (escape_non_7bit C && (126 <? c))
  || ((c <? 32) && negb (c =? cTAB) && negb (c =? cNL))
  || ((c =? cTAB) && escape_tabs C).
Fixpoint next_escape (pre_stop i : nat) (s : bytes) : nat :=
  match s with
  | [] => i
  | c :: r =>
    if (compact C && (c =? cQ) && Nat.eqb i pre_stop) || must_escape c then i
    else next_escape pre_stop (S i) r
  end.
Definition find_next_escape (s : bytes) : nat :=
  if compact C && starts_with cQ s then 0%nat
  else next_escape (List.length s - count_lead cQ (rev s)) 0 s.

(** xmq_printer.c:1269-1322 print the text in pieces; [rec] is the recursive
    call of print_value_internal_text. *)
Fixpoint pieces (fuel : nat) (rec : bytes -> bytes -> op) (l : level) (s aft : bytes) : op :=
  match s with
  | [] => nop
  | _ :: r =>
    match fuel with
    | O => no_fuel
    | S fuel =>
      match find_next_escape s with
      | O =>
        let m := count_lead cNL r in
        space_entity ;; char_entity s ;;
        (fix nls (m : nat) : op :=
           match m with O => nop | S m => space_entity ;; char_entity [cNL] ;; nls m end) m ;;
        pieces fuel rec l (skipn (entity_len s + m) s) aft
      | k =>
        let p := firstn k s in
        let r := skipn k s in
        let '(_, nls, comp) := count_necessary_quotes p false in
        (if negb comp && (negb nls || negb (compact C))
         then space_quote l ;; safe_leaf_quote p
         else rec p (r ++ aft)) ;;
        pieces fuel rec l r aft
      end
    end
  end.

(** xmq_parser.c:428-443 is_xmq_text_value; the byte after the first may be
    the one at stop. *)
Fixpoint all_safe (s : bytes) : bool :=
  match s with [] => true | _ :: r => is_safe_value_char s && all_safe r end.
Definition is_text_value (s aft : bytes) : bool :=
  negb (unsafe_value_start (hd 0 (s ++ aft)) (nth 1 (s ++ aft) 0)) && all_safe s.

Fixpoint times (n : nat) (a : op) : op := match n with O => nop | S n => a ;; times n a end.

(** xmq_printer.c:1178-1328 print_value_internal_text on the text s followed
    in memory by aft.  Text has no NUL. *)
Fixpoint value_text (fuel : nat) (l : level) (s aft : bytes) : op :=
  match fuel with
  | O => no_fuel
  | S fuel =>
    match s with
    | [] => space_quote l ;; print_str [cQ; cQ]
    | _ =>
      if all_are cQ s then space_entity ;; times (List.length s) (print_str (B "&apos;"))
      else if all_are cSP s then space_quote l ;; quoted_spaces (List.length s)
      else if forallb is_xml_whitespace s
              && negb (all_are cNL s && negb (compact C) && Nat.ltb 1 (List.length s))
      then print_all_whitespace l s
      else if is_text_value s aft && match l with LElem | LAttr => true | _ => false end
      then print_range s
      else
        let '(lead, s1) :=
          match has_leading_space_nl s with
          | (Some n, O) => (firstn n s, skipn n s)
          | _ => ([], s)
          end in
        let '(s2, trail) :=
          match has_ending_nl_space s1 with
          | (Some n, O) => let n := (n + count_lead cSP (skipn n s1))%nat in (firstn n s1, skipn n s1)
          | _ => (s1, [])
          end in
        print_all_whitespace l lead ;;
        pieces (List.length s2) (value_text fuel l) l s2 (trail ++ aft) ;;
        print_all_whitespace l trail
    end
  end.
(** The text ends with a NUL. *)
Definition print_text (l : level) (s : bytes) : op := value_text (S (List.length s)) l s [0].

(** xmq_printer.c:178-184 print_entity_node *)
Definition print_entity (name : bytes) : op :=
  space_entity ;; print_str [cAMP] ;; print_str name ;; print_str [cSEMI].

(** xmq_printer.c:1330-1348 print_value_internal *)
Definition print_part (l : level) (p : part) : op :=
  match p with PText t => print_text l t | PRef n => print_entity n end.

(** xmq_printer.c:1350-1397 quote_needs_compounded *)
Definition needs_compounded (s : bytes) : bool :=
  match s with
  | [c] => negb ((c =? cQ) || (c =? cNL) || (c =? cCR) || (c =? cTAB))
           && existsb must_escape s
  | _ =>
    has_mixed_space s
    || (compact C && (has_newlines s || starts_with cQ s || ends_with cQ s))
    || existsb must_escape s
  end.

(** xmq_printer.c:1399-1445 print_value at the levels of values *)
Fixpoint print_parts (l : level) (ps : list part) : op :=
  match ps with [] => nop | p :: r => print_part l p ;; print_parts l r end.
Definition is_compound (ps : list part) : bool :=
  match ps with
  | [] => false
  | [PText t] => needs_compounded t
  | [PRef _] => false
  | _ => true
  end.
Definition print_value (l : level) (ps : list part) : op :=
  ask p_line (fun old =>
    if is_compound ps then
      print_str [cLP] ;; when (negb (compact C)) (white_spaces 1) ;; set_line p_cur ;;
      print_parts (enter_compound l) ps ;;
      when (negb (compact C)) (white_spaces 1) ;; print_str [cRP] ;; set_line (fun _ => old)
    else print_parts l ps ;; set_line (fun _ => old)).

(** xmq_printer.c:859-886 print_attribute; is_single_empty_text_node looks at
    the first child only. *)
Definition has_value (ps : list part) : bool :=
  match ps with [] => false | PText [] :: _ => false | _ => true end.
Definition print_equals (pad : Z) : op :=
  when (negb (compact C)) (white_spaces pad) ;; print_str [cEQ] ;; when (negb (compact C)) (white_spaces 1).
Definition print_attribute (align : nat) (a : attr) : op :=
  space_attribute ;; print_str (fst a) ;;
  when (has_value (snd a))
    (print_equals (1 + Z.of_nat align - Z.of_nat (u_len (fst a))) ;; print_value LAttr (snd a)).

(** xmq_printer.c:924-950 print_attributes *)
Definition attr_width (l : list attr) : nat := fold_right Nat.max 0%nat (map (fun a => u_len (fst a)) l).
Fixpoint attribute_list (align : nat) (l : list attr) : op :=
  match l with [] => nop | a :: r => print_attribute align a ;; attribute_list align r end.
Definition print_attributes (l : list attr) : op :=
  ask p_line (fun old =>
    set_line p_cur ;; attribute_list (if compact C then 0%nat else attr_width l) l ;; set_line (fun _ => old)).

(** xmq_printer.c:119-151 count_necessary_slashes *)
Fixpoint max_slashes (s : bytes) (counting : bool) (curr max : nat) : nat :=
  match s with
  | [] => max
  | c :: r =>
    if counting && (c =? cSLASH) then max_slashes r true (S curr) (Nat.max max (S curr))
    else if c =? cSTAR then max_slashes r true 0 max
    else max_slashes r false curr max
  end.
Definition count_necessary_slashes (s : bytes) : nat := S (max_slashes s false 0 0).

(** xmq_printer.c:191-257 print_comment_lines.  The lines after the first:
    each is preceded by its separator.  An empty text after the last newline
    is not printed. *)
Fixpoint cut_line (s : bytes) : bytes * option bytes :=
  match s with
  | [] => ([], None)
  | c :: r =>
    if c =? cNL then ([], Some r)
    else let '(l, t) := cut_line r in (c :: l, t)
  end.
Fixpoint comment_rest (fuel : nat) (n : nat) (s : bytes) : op :=
  match s with
  | [] => nop
  | _ =>
    match fuel with
    | O => no_fuel
    | S fuel =>
      let '(l, t) := cut_line s in
      (if compact C then slashes [cSTAR] [cSTAR] n
       else match l, t with
            | [], Some (_ :: _) => print_nl
            | _, _ => nl_and_indent
            end) ;;
      print_range l ;;
      match t with Some r => comment_rest fuel n r | None => nop end
    end
  end.
Definition comment_lines (s : bytes) : op :=
  ask id (fun old =>
    let n := count_necessary_slashes s in
    slashes [] [cSTAR] n ;;
    when (negb (compact C) && negb (starts_with cNL s)) (white_spaces 1) ;;
    set_line (fun _ => p_cur old + 1 + Z.of_nat n + (if compact C then 0 else 1))%Z ;;
    print_range (fst (cut_line s)) ;;
    match snd (cut_line s) with Some r => comment_rest (List.length s) n r | None => nop end ;;
    when (negb (compact C)) (white_spaces 1) ;;
    slashes [cSTAR] [] n ;; set_last cSLASH ;; set_line (fun _ => p_line old)).

(** xmq_printer.c:259-286 print_comment_node *)
Definition print_comment (s : bytes) : op :=
  space_comment ;;
  if negb (has_newlines s) then
    if compact C then
      print_str [cSLASH; cSTAR] ;; print_range s ;; print_str [cSTAR; cSLASH] ;; set_last cSLASH
    else print_str (B "// ") ;; print_range s ;; set_last 1
  else comment_lines s ;; set_last cSLASH.

(** xmq_printer.c:288-337 print_element_name_and_attributes, without
    namespaces *)
Definition print_name (name : bytes) (a : list attr) : op :=
  space_key ;; print_str name ;;
  match a with [] => nop | _ => print_str [cLP] ;; print_attributes a ;; print_str [cRP] end.

(** xml.c:153-178 is_key_value_node: the children as parts. *)
Fixpoint as_parts (k : list node) : option (list part) :=
  match k with
  | [] => Some []
  | Part p :: r => match as_parts r with Some ps => Some (p :: ps) | None => None end
  | _ => None
  end.
Definition key_value (k : list node) : option (list part) :=
  match k with [] => None | _ => as_parts k end.

(** xmq_printer.c:389-451 print_doctype, print_pi_node.  The dump of a doctype
    is <!DOCTYPE content>, that of a processing instruction <?name content?>. *)
Definition no_newlines (s : bytes) : bytes := map (fun c => if c =? cNL then cSP else c) s.
Definition print_doctype (s : bytes) : op :=
  space_key ;; print_str (B "!DOCTYPE") ;; print_equals 1 ;;
  print_text LElem (if compact C then no_newlines s else s).
Definition print_pi (name s : bytes) : op :=
  space_key ;; print_str [cQM] ;; print_str name ;; print_equals 1 ;;
  let s := add_spaces s in
  print_text LElem (if compact C then no_newlines s else s).

(** xmq_internals.c:553-577 find_element_key_max_width: the width and after
    how many nodes to look again ([None]: not any more). *)
Definition plain_key (x : node) : option nat :=
  match x with
  | Elem n [] k => match key_value k with Some _ => Some (u_len n) | None => None end
  | _ => None
  end.
Fixpoint key_width (l : list node) : nat * option nat :=
  match l with
  | [] => (0%nat, None)
  | x :: r =>
    match plain_key x with
    | None => (0%nat, Some 0%nat)
    | Some w => let '(m, k) := key_width r in
                (Nat.max w m, match k with Some k => Some (S k) | None => None end)
    end
  end.
Definition find_width (l : list node) : nat * option nat :=
  match key_width l with (m, Some 0%nat) => (m, Some 1%nat) | r => r end.

(** xmq_printer.c:453-499 print_node and 153-171 print_nodes *)
Fixpoint print_node (align : nat) (x : node) : op :=
  match x with
  | Part (PText t) => ask p_line (fun old => print_text LXmq t ;; set_line (fun _ => old))
  | Part (PRef n) => print_entity n
  | Comment t => print_comment t
  | PI n c => print_pi n c
  | Doctype c => print_doctype c
  | Elem n a k =>
    match k with
    | [] => print_name n a
    | _ =>
      match key_value k with
      | Some ps =>
        print_name n a ;;
        ask id (fun s =>
          let len := (p_cur s - p_line s)%Z in
          print_equals (if ((0 <=? len) && (len <? Z.of_nat align))%Z then 1 + Z.of_nat align - len else 1)) ;;
        print_value LElem ps
      | None =>
        print_name n a ;; space_opening_brace ;; print_str [cLB] ;;
        set_line (fun s => p_line s + add_indent C)%Z ;;
        (fix nodes (align : nat) (again : option nat) (l : list node) : op :=
           match l with
           | [] => nop
           | x :: r =>
             let '(align, again) :=
               match again with
               | Some O => if compact C then (align, again) else find_width l
               | _ => (align, again)
               end in
             print_node align x ;;
             nodes align (match again with Some (S m) => Some m | _ => again end) r
           end) 0%nat (Some 0%nat) k ;;
        set_line (fun s => p_line s - add_indent C)%Z ;;
        space_closing_brace ;; print_str [cRB]
      end
    end
  end.
Fixpoint print_nodes (align : nat) (again : option nat) (l : list node) : op :=
  match l with
  | [] => nop
  | x :: r =>
    let '(align, again) :=
      match again with
      | Some O => if compact C then (align, again) else find_width l
      | _ => (align, again)
      end in
    print_node align x ;;
    print_nodes align (match again with Some (S m) => Some m | _ => again end) r
  end.

(** xmq.c:2925-2958 xmq_print_xmq: the output, and whether the model had
    enough fuel. *)
Definition print_doc (d : list node) : bytes * bool :=
  match d with
  | [] => ([], true)
  | _ => let '(o, s) := print_nodes 0 (Some 0%nat) d (PR 0 0 0 true) in (o ++ [cNL], p_ok s)
  end.

End settings.

(** xmq.c:4671-4700 xmqCompactQuote.  explicit_nl is NULL in these settings and
    membuffer_append_region (membuffer.c:84-98) does nothing for a NULL start,
    so the newlines of print_nl are dropped; in compact mode no other newline is
    written.  The length of the result is trimmed to what was written. *)
Definition quote_cfg : cfg := Cfg true true false false 0.
Definition compact_quote (s : bytes) : bytes :=
  filter (fun c => negb (c =? cNL)) (fst (print_value quote_cfg LAttr [PText s] (PR 0 0 0 true))).
