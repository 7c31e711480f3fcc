(** Model of the xmq parser (parts/xmq_parser.c) and of the helpers it uses
    from parts/xmq_internals.c, as driven by xmqTokenizeBuffer (xmq.c:911).

    The source between buffer_start and buffer_stop is a byte list.  The state
    holds the bytes before state->i in reverse ([s_pre]), the bytes from
    state->i up to buffer_stop ([s_rest]) and the readable bytes after that
    ([s_aft]; for a C string this is the terminating NUL).  So [*state->i] is the
    first byte of [s_rest ++ s_aft], undefined behaviour if there is none, and
    [state->i < end] is [s_rest <> []].

    The callbacks are modelled by the list of tokens they are given ([s_toks],
    latest first).  A longjmp to the error handler is [PErr] with the state at
    that time. *)
From Coq Require Import NArith List Bool Arith String.
From Verif Require Import Bytes.
Import ListNotations.
Local Open Scope N_scope.

(** xmq_internals.h:80-109 LIST_OF_XMQ_TOKENS *)
Inductive kind :=
| Kwhitespace | Kequals | Kbrace_left | Kbrace_right | Kapar_left | Kapar_right
| Kcpar_left | Kcpar_right | Kquote | Kentity | Kcomment | Kcomment_continuation
| Kelement_ns | Kelement_name | Kelement_key | Kelement_value_text
| Kelement_value_quote | Kelement_value_entity | Kelement_value_compound_quote
| Kelement_value_compound_entity | Kattr_ns | Kattr_key | Kattr_value_text
| Kattr_value_quote | Kattr_value_entity | Kattr_value_compound_quote
| Kattr_value_compound_entity | Kns_declaration | Kns_colon.

(** The arguments of a callback: line, col, the bytes from start to stop, and
    the bytes from stop to suffix. *)
Record token := Tok { t_kind : kind; t_line : N; t_col : N; t_text : bytes; t_suffix : bytes }.

(** A remembered place: its offset in the buffer, its line and column. *)
Record mark := Mark { m_off : nat; m_line : N; m_col : N }.

(** xmq_internals.h XMQParseState, the fields used by the parser. The
    last_..._start fields are [None] while they are NULL. *)
Record pst := PS {
  s_pre : bytes; s_rest : bytes; s_aft : bytes;
  s_line : N; s_col : N;
  s_toks : list token;
  s_body : option mark; s_attr : option mark; s_quote : option mark;
  s_equals : option mark; s_susp : option mark }.

Inductive pout :=
| POk (s : pst)
| PErr (e : N) (s : pst)
| PUB
| PAbrt
| PNoFuel (s : pst).

Definition pbind (r : pout) (f : pst -> pout) : pout :=
  match r with POk s => f s | _ => r end.
Declare Scope pout_scope.
Delimit Scope pout_scope with pout.
Notation "x <- e ; f" := (pbind e (fun x => f)) (at level 61, e at next level, right associativity) : pout_scope.
Local Open Scope pout_scope.

(** xmq.h:301-332 *)
Definition E_NOT_XMQ : N := 3.
Definition E_QUOTE_NOT_CLOSED : N := 4.
Definition E_ENTITY_NOT_CLOSED : N := 5.
Definition E_COMMENT_NOT_CLOSED : N := 6.
Definition E_TOO_MANY_SLASHES : N := 7.
Definition E_BODY_NOT_CLOSED : N := 8.
Definition E_ATTRIBUTES_NOT_CLOSED : N := 9.
Definition E_COMPOUND_NOT_CLOSED : N := 10.
Definition E_COMPOUND_MAY_NOT_CONTAIN : N := 11.
Definition E_TOO_MANY_QUOTES : N := 12.
Definition E_UNEXPECTED_CLOSING_BRACE : N := 13.
Definition E_EXPECTED_CONTENT : N := 14.
Definition E_UNEXPECTED_TAB : N := 15.
Definition E_INVALID_CHAR : N := 16.
Definition E_VALUE_CANNOT_START_WITH : N := 30.

(** Line and column. *)
Definition pos := (N * N)%type.

(** xmq_internals.c:239-253 increment, the effect on line and column. *)
Definition inc (c : N) (p : pos) : pos :=
  if N.land c 0xc0 =? 0x80 then p
  else if c =? cNL then (fst p + 1, 1) else (fst p, snd p + 1).

(** A local copy of i, line and col inside of the buffer. *)
Record cur := Cur { k_pre : bytes; k_rest : bytes; k_pos : pos }.

Definition cur_of (s : pst) : cur := Cur (s_pre s) (s_rest s) (s_line s, s_col s).
(** state->i = i; state->line = line; state->col = col; *)
Definition set_cur (s : pst) (k : cur) : pst :=
  PS (k_pre k) (k_rest k) (s_aft s) (fst (k_pos k)) (snd (k_pos k)) (s_toks s)
     (s_body s) (s_attr s) (s_quote s) (s_equals s) (s_susp s).

(** *state->i and *(state->i+1) *)
Definition peek (s : pst) : option N := hd_error (s_rest s ++ s_aft s).
Definition peek1 (s : pst) : option N := nth_error (s_rest s ++ s_aft s) 1.

Definition here (s : pst) : mark := Mark (List.length (s_pre s)) (s_line s) (s_col s).

(** increment(c, 1, &state->i, &state->line, &state->col), which may also step
    past buffer_stop. *)
Definition step (c : N) (s : pst) : pst :=
  let '(l, k) := inc c (s_line s, s_col s) in
  match s_rest s, s_aft s with
  | b :: r, a => PS (b :: s_pre s) r a l k (s_toks s) (s_body s) (s_attr s) (s_quote s) (s_equals s) (s_susp s)
  | [], b :: a => PS (b :: s_pre s) [] a l k (s_toks s) (s_body s) (s_attr s) (s_quote s) (s_equals s) (s_susp s)
  | [], [] => s
  end.

(** DO_CALLBACK, xmq_internals.h:675 *)
Definition emit (k : kind) (line col : N) (text suffix : bytes) (s : pst) : pst :=
  PS (s_pre s) (s_rest s) (s_aft s) (s_line s) (s_col s)
     (Tok k line col text suffix :: s_toks s)
     (s_body s) (s_attr s) (s_quote s) (s_equals s) (s_susp s).

(** The bytes between state->i in s and state->i in the later state s'. *)
Definition between (s s' : pst) : bytes :=
  rev (firstn (List.length (s_pre s') - List.length (s_pre s)) (s_pre s')).

(** A callback for everything eaten since [s]. *)
Definition emit_from (k : kind) (s s' : pst) : pst :=
  emit k (s_line s) (s_col s) (between s s') [] s'.

(** xmq_internals.c:135-184 count_whitespace, for i < stop: the text up to
    stop is not empty. *)
Definition count_ws (r : bytes) : nat :=
  match r with
  | [] => 0%nat
  | c :: r1 =>
    if is_xml_whitespace c then 1%nat
    else match r1 with
    | [] => 0%nat
    | cc :: r2 =>
      if (c =? 0xc2) && (cc =? 0xa0) then 2%nat
      else if (c =? 0xe2) && (cc =? 0x80) then
        match r2 with
        | [] => 0%nat
        | ccc :: _ =>
          if (ccc =? 0x80) || (ccc =? 0x81) || (ccc =? 0x82) || (ccc =? 0x83) then 3%nat else 0%nat
        end
      else 0%nat
    end
  end.

(** xmq_internals.c:222-232 the loop of eat_xmq_token_whitespace. *)
Fixpoint ws_loop (pre rest : bytes) (p : pos) : cur :=
  match rest with
  | [] => Cur pre [] p
  | c :: r =>
    match count_ws rest with
    | O => Cur pre rest p
    | 1%nat => if c =? cTAB then Cur pre rest p else ws_loop (c :: pre) r (inc c p)
    | 2%nat => match r with
               | d :: r' => ws_loop (d :: c :: pre) r' (inc c p)
               | [] => Cur pre rest p
               end
    | _ => match r with
           | d :: e :: r' => ws_loop (e :: d :: c :: pre) r' (inc c p)
           | _ => Cur pre rest p
           end
    end
  end.

(** xmq_parser.c:1063-1071 parse_xmq_whitespace and xmq_internals.c:212-237
    eat_xmq_token_whitespace.  It is only called when *state->i is a space, tab,
    carriage return or newline, so that count_whitespace is not 0 and stop is
    always set. *)
Definition parse_whitespace (s : pst) : pst :=
  emit_from Kwhitespace s (set_cur s (ws_loop (s_pre s) (s_rest s) (s_line s, s_col s))).

(** c = *state->i; if (is_xml_whitespace(c)) { parse_xmq_whitespace(state); c = *state->i; } *)
Definition skip_space (s : pst) : pout :=
  match peek s with
  | None => PUB
  | Some c =>
    if is_xml_whitespace c then
      let s := parse_whitespace s in
      match peek s with None => PUB | Some _ => POk s end
    else POk s
  end.
Definition peek_is (c : N) (s : pst) : bool :=
  match peek s with Some d => d =? c | None => false end.

(** xmq_parser.c:24-31 count_xmq_quotes *)
Fixpoint count_quotes (r : bytes) : nat :=
  match r with c :: r' => if c =? cQ then S (count_quotes r') else 0%nat | [] => 0%nat end.

(** while (count > 0) { increment('\'', 1, &i, &line, &col); count--; } *)
Fixpoint eat_n (c : N) (n : nat) (k : cur) : cur :=
  match n with
  | O => k
  | S n' => match k_rest k with
            | b :: r => eat_n c n' (Cur (b :: k_pre k) r (inc c (k_pos k)))
            | [] => k
            end
  end.

(** xmq_parser.c:64-102 find the end of the quote; [skip] quotes are still to
    be skipped after a too short run. *)
Fixpoint quote_loop (depth skip : nat) (pre rest : bytes) (p : pos) : N + cur :=
  match rest with
  | [] => inl E_QUOTE_NOT_CLOSED
  | c :: r =>
    match skip with
    | S skip' => quote_loop depth skip' (c :: pre) r (inc cQ p)
    | O =>
      if negb (c =? cQ) then quote_loop depth 0 (c :: pre) r (inc c p)
      else
        let count := count_quotes rest in
        if Nat.ltb depth count then inl E_TOO_MANY_QUOTES
        else if Nat.ltb count depth then quote_loop depth (count - 1) (c :: pre) r (inc cQ p)
        else inr (eat_n cQ count (Cur pre rest p))
    end
  end.

(** xmq_parser.c:997-1032 possibly_need_more_quotes: state->i - 2, - 1 and
    state->i must be inside of the buffer. *)
Definition need_more_quotes (s : pst) : bool :=
  match s_pre s, s_rest s with
  | c1 :: c0 :: _, c2 :: _ => negb (c0 =? cQ) && negb (c0 =? cSP) && (c1 =? cQ) && negb (c2 =? cQ)
  | _, _ => false
  end.

Definition set_quote (m : option mark) (s : pst) : pst :=
  PS (s_pre s) (s_rest s) (s_aft s) (s_line s) (s_col s) (s_toks s) (s_body s) (s_attr s) m (s_equals s) (s_susp s).
Definition set_susp (m : option mark) (s : pst) : pst :=
  PS (s_pre s) (s_rest s) (s_aft s) (s_line s) (s_col s) (s_toks s) (s_body s) (s_attr s) (s_quote s) (s_equals s) m.
Definition set_equals (m : option mark) (s : pst) : pst :=
  PS (s_pre s) (s_rest s) (s_aft s) (s_line s) (s_col s) (s_toks s) (s_body s) (s_attr s) (s_quote s) m (s_susp s).
Definition set_attr (m : option mark) (s : pst) : pst :=
  PS (s_pre s) (s_rest s) (s_aft s) (s_line s) (s_col s) (s_toks s) (s_body s) m (s_quote s) (s_equals s) (s_susp s).
Definition set_body (m : option mark) (s : pst) : pst :=
  PS (s_pre s) (s_rest s) (s_aft s) (s_line s) (s_col s) (s_toks s) m (s_attr s) (s_quote s) (s_equals s) (s_susp s).

(** xmq_parser.c:33-117 eat_xmq_quote.  When called at buffer_stop (because
    the byte there is a quote) no quote is counted and stop is left
    uninitialised. *)
Definition eat_quote (s : pst) : pout :=
  let depth := count_quotes (s_rest s) in
  let s := set_quote (Some (here s)) s in
  if Nat.eqb depth 0 then PUB
  else
    let k := eat_n cQ depth (cur_of s) in
    if Nat.eqb depth 2 then POk (set_cur s k)
    else
      match quote_loop depth 0 (k_pre k) (k_rest k) (k_pos k) with
      | inl e => PErr e s
      | inr k =>
        let s := set_cur s k in
        if need_more_quotes s then
          POk (set_susp (Some (Mark (List.length (s_pre s) - 1) (s_line s) (s_col s - 1))) s)
        else POk s
      end.

Inductive level := LXmq | LElem | LElemC | LAttr | LAttrC.

(** xmq_parser.c:498-527 parse_xmq_quote *)
Definition quote_kind (l : level) : kind :=
  match l with
  | LXmq => Kquote | LElem => Kelement_value_quote | LElemC => Kelement_value_compound_quote
  | LAttr => Kattr_value_quote | LAttrC => Kattr_value_compound_quote
  end.
Definition parse_quote (l : level) (s : pst) : pout :=
  s' <- eat_quote s ; POk (emit_from (quote_kind l) s s').

(** xmq_parser.c:131-137 the loop of eat_xmq_entity: also the last byte read
    (0 if none) and whether a semicolon is expected. *)
Fixpoint entity_loop (pre rest : bytes) (p : pos) (c : N) (expect : bool) : cur * N * bool :=
  match rest with
  | [] => (Cur pre [] p, c, expect)
  | c :: r =>
    if negb (is_xmq_text_name c) then (Cur pre rest p, c, expect)
    else entity_loop (c :: pre) r (inc c p) c (if is_lowercase_hex c then expect else true)
  end.

(** xmq_parser.c:119-153 eat_xmq_entity.  The read of *i after the semicolon
    is at most at buffer_stop. *)
Definition eat_entity (s : pst) : pout :=
  let s1 := step cAMP s in
  let '(k, c, expect) := entity_loop (s_pre s1) (s_rest s1) (s_line s1, s_col s1) 0 false in
  let s2 := set_cur s1 k in
  if c =? cSEMI then
    let s3 := step cSEMI s2 in
    match peek s3 with None => PUB | Some _ => POk s3 end
  else if expect then PErr E_ENTITY_NOT_CLOSED s
  else POk s2.

(** xmq_parser.c:529-557 parse_xmq_entity *)
Definition entity_kind (l : level) : kind :=
  match l with
  | LXmq => Kentity | LElem => Kelement_value_entity | LElemC => Kelement_value_compound_entity
  | LAttr => Kattr_value_entity | LAttrC => Kattr_value_compound_entity
  end.
Definition parse_entity (l : level) (s : pst) : pout :=
  s' <- eat_entity s ; POk (emit_from (entity_kind l) s s').

(** xmq_parser.c:416-426 count_xmq_slashes: the number of slashes and whether
    an asterisk follows; the byte after the slashes may be at buffer_stop. *)
Fixpoint count_slashes (r aft : bytes) : option (nat * bool) :=
  match r with
  | c :: r' =>
    if c =? cSLASH then
      match count_slashes r' aft with Some (n, b) => Some (S n, b) | None => None end
    else Some (0%nat, c =? cSTAR)
  | [] => match aft with c :: _ => Some (0%nat, c =? cSTAR) | [] => None end
  end.

(** xmq_parser.c:168-173 the loop of eat_xmq_comment_to_eol *)
Fixpoint eol_loop (pre rest : bytes) (p : pos) : cur :=
  match rest with
  | [] => Cur pre [] p
  | c :: r => if c =? cNL then Cur (c :: pre) r (inc c p) else eol_loop (c :: pre) r (inc c p)
  end.

(** xmq_parser.c:155-178 eat_xmq_comment_to_eol; called with two slashes at
    state->i. *)
Definition eat_comment_to_eol (s : pst) : pst :=
  let k := eat_n cSLASH 2 (cur_of s) in
  set_cur s (eol_loop (k_pre k) (k_rest k) (k_pos k)).

Inductive closed :=
| Closed (k : cur) (more : bool)
| NotClosed (e : N)
| CloseUB.

(** xmq_parser.c:210-246 the loop of eat_xmq_comment_to_close; [c] is the
    previous byte.  The [continue] after a too short run of slashes reads the
    same slash again with cc = '/' and therefore eats it. *)
Fixpoint close_loop (num : nat) (c : N) (pre rest aft : bytes) (p : pos) : closed :=
  match rest with
  | [] => NotClosed E_COMMENT_NOT_CLOSED
  | ch :: r =>
    if negb (c =? cSTAR) || negb (ch =? cSLASH) then close_loop num ch (ch :: pre) r aft (inc ch p)
    else
      match count_slashes rest aft with
      | None => CloseUB
      | Some (n, more) =>
        if Nat.ltb n num then close_loop num ch (ch :: pre) r aft (inc ch p)
        else if Nat.ltb num n then NotClosed E_TOO_MANY_SLASHES
        else Closed (eat_n cSLASH n (Cur pre rest p)) more
      end
  end.

(** xmq_parser.c:180-251 eat_xmq_comment_to_close: the new state and
    found_asterisk. *)
Definition eat_comment_to_close (num : nat) (s : pst) : pout * bool :=
  let k :=
    if peek_is cSLASH s then eat_n cSLASH num (cur_of s) else cur_of s in
  let s1 := set_cur s k in
  if negb (peek_is cSTAR s1) then (PAbrt, false)
  else
    let s2 := step cSTAR s1 in
    match close_loop num 0 (s_pre s2) (s_rest s2) (s_aft s2) (s_line s2, s_col s2) with
    | NotClosed e => (PErr e s, false)
    | CloseUB => (PUB, false)
    | Closed k more => (POk (set_cur s2 k), more)
    end.

(** xmq_parser.c:583-593 comment continuations *)
Fixpoint continuations (fuel num : nat) (s : pst) : pout :=
  match fuel with
  | O => PNoFuel s
  | S fuel =>
    let '(r, more) := eat_comment_to_close num s in
    s' <- r ;
    let s' := emit_from Kcomment_continuation s s' in
    if more then continuations fuel num s' else POk s'
  end.

(** xmq_parser.c:559-595 parse_xmq_comment *)
Definition parse_comment (fuel : nat) (s : pst) : pout :=
  match count_slashes (s_rest s) (s_aft s) with
  | None => PUB
  | Some (_, false) => POk (emit_from Kcomment s (eat_comment_to_eol s))
  | Some (n, true) =>
    let '(r, more) := eat_comment_to_close n s in
    s' <- r ;
    let s' := emit_from Kcomment s s' in
    if more then continuations fuel n s' else POk s'
  end.

(** xmq_parser.c:267-273 the loop of eat_xmq_text_name *)
Fixpoint name_loop (pre rest : bytes) (p : pos) : cur :=
  match rest with
  | c :: r => if is_xmq_text_name c then name_loop (c :: pre) r (inc c p) else Cur pre rest p
  | [] => Cur pre [] p
  end.
Definition eat_name (s : pst) : pst := set_cur s (name_loop (s_pre s) (s_rest s) (s_line s, s_col s)).

(** xmq_parser.c:271,275-285 the last colon splits a name: the namespace and
    what follows the colon. *)
Fixpoint split_colon (name : bytes) : option (bytes * bytes) :=
  match name with
  | [] => None
  | c :: r =>
    match split_colon r with
    | Some (ns, n) => Some (c :: ns, n)
    | None => if c =? cCOLON then Some ([], r) else None
    end
  end.

(** xmq_internals.c:602-616 is_safe_value_char *)
Definition is_safe_value_char (r : bytes) : bool :=
  match r with
  | [] => false
  | c :: _ =>
    negb (Nat.ltb 0 (count_ws r) || (c =? cNL) || (c =? cLP) || (c =? cRP) || (c =? cQ)
          || (c =? cDQ) || (c =? cLB) || (c =? cRB) || (c =? cTAB) || (c =? cCR))
  end.
(** xmq_internals.c:597-600 unsafe_value_start *)
Definition unsafe_value_start (c cc : N) : bool :=
  (c =? cEQ) || (c =? cAMP) || ((c =? cSLASH) && ((cc =? cSLASH) || (cc =? cSTAR))).

(** xmq_parser.c:299-304 the loop of eat_xmq_text_value *)
Fixpoint value_loop (pre rest : bytes) (p : pos) : cur :=
  match rest with
  | c :: r => if is_safe_value_char rest then value_loop (c :: pre) r (inc c p) else Cur pre rest p
  | [] => Cur pre [] p
  end.

(** xmq_parser.c:597-615 parse_xmq_text_value *)
Definition parse_text_value (l : level) (s : pst) : pst :=
  emit_from (match l with LAttr => Kattr_value_text | _ => Kelement_value_text end)
            s (set_cur s (value_loop (s_pre s) (s_rest s) (s_line s, s_col s))).

(** xmq_parser.c:376-388 is_xmq_attribute_key_start *)
Definition is_attribute_key_start (c : N) : bool :=
  negb ((c =? cQ) || (c =? cDQ) || (c =? cLP) || (c =? cRP) || (c =? cLB) || (c =? cRB)
        || (c =? cSLASH) || (c =? cEQ) || (c =? cAMP)).
(** xmq_parser.c:390-393 is_xmq_comment_start *)
Definition is_comment_start (c cc : N) : bool :=
  (c =? cSLASH) && ((cc =? cSLASH) || (cc =? cSTAR)).
(** xmq_parser.c:394-400 is_xmq_pi_start *)
Definition is_pi_start (r : bytes) : bool :=
  match r with c :: _ :: _ => c =? cQM | _ => false end.
(** xmq_parser.c:402-414 is_xmq_doctype_start *)
Definition is_doctype_start (r : bytes) : bool :=
  is_prefix (B "!DOCTYPE") r &&
  match skipn 8 r with
  | c :: _ => (c =? cEQ) || (c =? cSP) || (c =? cTAB) || (c =? cNL) || (c =? cCR)
  | [] => false
  end.

(** xmq_parser.c:446-459 peek_xmq_next_is_equal; [c] is the last byte read. *)
Fixpoint next_is_equal (r : bytes) (c : N) : bool :=
  match r with
  | [] => c =? cEQ
  | c :: r' => if is_xml_whitespace c then next_is_equal r' c else c =? cEQ
  end.

(** xmq_parser.c:311-356 eat_xmq_doctype, eat_xmq_pi *)
Definition eat_marked_name (c : N) (s : pst) : pst := eat_name (step c s).

(** xmq_parser.c:942-960 parse_xmq_compound_children *)
Fixpoint compound_children (fuel : nat) (l : level) (s : pst) : pout :=
  match s_rest s with
  | [] => POk s
  | c :: _ =>
    match fuel with
    | O => PNoFuel s
    | S fuel =>
      if is_xml_whitespace c then compound_children fuel l (parse_whitespace s)
      else if c =? cRP then POk s
      else if c =? cQ then s <- parse_quote l s ; compound_children fuel l s
      else if c =? cAMP then s <- parse_entity l s ; compound_children fuel l s
      else PErr E_COMPOUND_MAY_NOT_CONTAIN s
    end
  end.

(** xmq_internals.c:495-499 enter_compound_level *)
Definition enter_compound (l : level) : level :=
  match l with LElem => LElemC | LAttr => LAttrC | _ => l end.

(** One character token: increment and callback. *)
Definition single (k : kind) (c : N) (s : pst) : pst := emit_from k s (step c s).

(** xmq_parser.c:913-940 parse_xmq_compound *)
Definition parse_compound (fuel : nat) (l : level) (s : pst) : pout :=
  let s := single Kcpar_left cLP s in
  s <- compound_children fuel (enter_compound l) s ;
  s <- skip_space s ;
  if negb (peek_is cRP s) then PErr E_COMPOUND_NOT_CLOSED s
  else POk (single Kcpar_right cRP s).

(** xmq_parser.c:617-649 parse_xmq_value *)
Definition parse_value (fuel : nat) (l : level) (s : pst) : pout :=
  s <- skip_space s ;
  if peek_is cQ s then parse_quote l s
  else if peek_is cAMP s then parse_entity l s
  else if peek_is cLP s then parse_compound fuel l s
  else
    match peek s, peek1 s with
    | Some c, Some cc =>
      if unsafe_value_start c cc then PErr E_VALUE_CANNOT_START_WITH s
      else POk (parse_text_value l s)
    | _, _ => PUB
    end.

(** The callbacks for a name with its namespace, xmq_parser.c:683-708 and
    846-888: [col] is start_col; the lengths added to it are byte lengths. *)
Definition blen (b : bytes) : N := N.of_nat (List.length b).
Definition emit_element_name (is_key : bool) (line col : N) (name : bytes) (s : pst) : pst :=
  let k := if is_key then Kelement_key else Kelement_name in
  match split_colon name with
  | None => emit k line col name [] s
  | Some (ns, n) =>
    let s := emit Kelement_ns line col ns [] s in
    let s := emit Kns_colon line (col + blen ns) [cCOLON] [] s in
    emit k line (col + blen ns + 1) n [] s
  end.
Definition emit_attr_name (line col : N) (name : bytes) (s : pst) : pst :=
  match split_colon name with
  | None =>
    emit (if beq name (B "xmlns") then Kns_declaration else Kattr_key) line col name [] s
  | Some (ns, n) =>
    if beq ns (B "xmlns") then
      let s := emit Kns_declaration line col ns (cCOLON :: n) s in
      let s := emit Kns_colon line (col + blen ns) [cCOLON] [] s in
      emit Kattr_ns line (col + blen ns + 1) n [] s
    else
      let s := emit Kattr_ns line col ns [] s in
      let s := emit Kns_colon line (col + blen ns) [cCOLON] [] s in
      emit Kattr_key line (col + blen ns + 1) n [] s
  end.

(** xmq_parser.c:829-911 parse_xmq_attribute *)
Definition parse_attribute (fuel : nat) (s : pst) : pout :=
  let s' := eat_name s in
  let s' := emit_attr_name (s_line s) (s_col s) (between s s') s' in
  s <- skip_space s' ;
  if peek_is cEQ s then parse_value fuel LAttr (single Kequals cEQ s) else POk s.

(** xmq_parser.c:814-827 parse_xmq_attributes *)
Fixpoint attributes (fuel : nat) (s : pst) : pout :=
  match s_rest s with
  | [] => POk s
  | c :: _ =>
    match fuel with
    | O => PNoFuel s
    | S fuel' =>
      if is_xml_whitespace c then attributes fuel' (parse_whitespace s)
      else if c =? cRP then POk s
      else if is_attribute_key_start c then s <- parse_attribute fuel s ; attributes fuel' s
      else POk s
    end
  end.

Inductive ekind := EElement | EDoctype | EPi.

(** xmq_parser.c:651-797 parse_xmq_element_internal; [body] is the recursive
    call of parse_xmq. *)
Definition parse_element (fuel : nat) (body : pst -> pout) (ek : ekind) (s : pst) : pout :=
  let s1 := match ek with
            | EElement => eat_name s
            | EDoctype => eat_marked_name cBANG s
            | EPi => eat_marked_name cQM s
            end in
  let is_key := next_is_equal (s_rest s1) 0 in
  let name := between s s1 in
  let s2 := match ek with
            | EElement => emit_element_name is_key (s_line s) (s_col s) name s1
            | _ => emit (if is_key then Kelement_key else Kelement_name) (s_line s) (s_col s) name [] s1
            end in
  s3 <- skip_space s2 ;
  s4 <- (if peek_is cLP s3 then
           s <- attributes fuel (single Kapar_left cLP (set_attr (Some (here s3)) s3)) ;
           s <- skip_space s ;
           if negb (peek_is cRP s) then PErr E_ATTRIBUTES_NOT_CLOSED s
           else POk (single Kapar_right cRP s)
         else POk s3) ;
  s5 <- skip_space s4 ;
  if peek_is cEQ s5 then
    parse_value fuel LElem (single Kequals cEQ (set_equals (Some (here s5)) s5))
  else if peek_is cLB s5 then
    s <- body (single Kbrace_left cLB (set_body (Some (here s5)) s5)) ;
    s <- skip_space s ;
    if negb (peek_is cRB s) then PErr E_BODY_NOT_CLOSED s
    else POk (single Kbrace_right cRB s)
  else POk s5.

(** xmq_parser.c:962-995 possibly_lost_content_after_equals, on the bytes
    before state->i in reverse (i runs backwards; i == start when one byte is
    left).  [None] is the read before the start of the buffer. *)
Fixpoint back_to_newline (pre : bytes) : option bytes :=
  match pre with
  | [] => None
  | b :: pre' =>
    match pre' with
    | [] => Some pre
    | _ => if negb (b =? cNL) && (is_xmq_text_name b || is_xml_whitespace b)
           then back_to_newline pre' else Some pre
    end
  end.
Fixpoint back_over_space (pre : bytes) : bytes :=
  match pre with
  | [] => []
  | b :: pre' =>
    match pre' with
    | [] => pre
    | _ => if is_xml_whitespace b then back_over_space pre' else pre
    end
  end.
Definition possibly_lost_content (s : pst) : option bool :=
  match peek s with
  | None => None
  | Some c =>
    if negb ((c =? cLB) || (c =? cLP) || (c =? cEQ)) then Some false
    else
      match back_to_newline (s_pre s) with
      | None => None
      | Some ((b :: _ :: _) as p) =>
        if negb (b =? cNL) then Some false
        else match back_over_space p with
             | e :: _ => Some (e =? cEQ)
             | [] => None
             end
      | Some _ => Some false
      end
  end.

(** xmq_parser.c:461-496 parse_xmq *)
Fixpoint parse_xmq (fuel : nat) (s : pst) : pout :=
  match s_rest s with
  | [] => POk s
  | c :: r =>
    match fuel with
    | O => PNoFuel s
    | S fuel' =>
      let cc := if (c =? cSLASH) || (c =? cLP) then hd 0 r else 0 in
      if is_xmq_token_whitespace c then parse_xmq fuel' (parse_whitespace s)
      else if c =? cQ then s <- parse_quote LXmq s ; parse_xmq fuel' s
      else if c =? cAMP then s <- parse_entity LXmq s ; parse_xmq fuel' s
      else if is_comment_start c cc then s <- parse_comment fuel s ; parse_xmq fuel' s
      else if is_xmq_element_start c then
        s <- parse_element fuel (parse_xmq fuel') EElement s ; parse_xmq fuel' s
      else if is_doctype_start (s_rest s) then
        s <- parse_element fuel (parse_xmq fuel') EDoctype s ; parse_xmq fuel' s
      else if is_pi_start (s_rest s) then
        s <- parse_element fuel (parse_xmq fuel') EPi s ; parse_xmq fuel' s
      else if c =? cRB then POk s
      else
        match possibly_lost_content s with
        | None => PUB
        | Some true => PErr E_EXPECTED_CONTENT s
        | Some false =>
          PErr (if c =? cTAB then E_UNEXPECTED_TAB else E_INVALID_CHAR) s
        end
    end
  end.

Definition init (src aft : bytes) : pst := PS [] src aft 1 1 [] None None None None None.

(** xmq.c:929-962 xmqTokenizeBuffer after the content type has been detected:
    the parse and the check for a remaining closing brace.  The tokens are
    those of the state reached. *)
Definition tokenize (fuel : nat) (src aft : bytes) : pout :=
  s <- parse_xmq fuel (init src aft) ;
  match s_rest s with
  | _ :: _ => PErr E_UNEXPECTED_CLOSING_BRACE s
  | [] => POk s
  end.

(** Enough fuel for every source on which the program terminates (theorem
    C18). *)
Definition enough (src : bytes) : nat := S (List.length src).

Definition tokens (s : pst) : list token := rev (s_toks s).

(** xmq_internals.c:12-132 generate_state_error_message, the position it
    reports.  [None] is the use of a NULL pointer: line_stop is NULL, compares
    less than stop, and is dereferenced. *)
Definition error_mark (e : N) (s : pst) : option mark :=
  if e =? E_BODY_NOT_CLOSED then s_body s
  else if e =? E_ATTRIBUTES_NOT_CLOSED then s_attr s
  else if e =? E_QUOTE_NOT_CLOSED then s_quote s
  else if e =? E_EXPECTED_CONTENT then s_equals s
  else Some (here s).
