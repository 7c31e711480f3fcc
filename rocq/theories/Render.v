(** Model of the printer of the xmq format with a theme (parts/xmq_printer.c,
    parts/utf8.c, parts/colors.c and the themes set up in xmq.c:172-577), for
    terminals, html and tex, with namespaces.

    The functions are those of Printer.v and NsPrinter.v, now with every string
    of the theme that is written; what they compute from the text alone is taken
    from there.  A string that is NULL is [None]; the write callbacks ignore NULL
    (xmq.c:793, membuffer.c:87). *)
From Coq Require Import NArith ZArith List Bool Arith String.
From Verif Require Import Bytes Utf8 Quote Parser Dom NsDom Printer NsPrinter.
Import ListNotations.
Local Open Scope N_scope.

(** xmq_internals.h XMQColor *)
Inductive color := CTok (k : kind) | CUnicode | CXsl | CNone.

(** XMQTheme and the strings for white space of XMQOutputSettings.  [esc] is
    needs_escape (xmq_internals.c:281-305) for render_to; [head] and [tail] is
    what xmq_print_xmq writes before and after the nodes. *)
Record theme := Theme {
  strings : color -> option bytes * option bytes;     (* pre and post *)
  esc : N -> option bytes;
  indentation_space : bytes;
  explicit_space : bytes;
  explicit_tab : bytes;
  explicit_nl : bytes;
  head : bytes;
  tail : bytes }.

(** XMQPrintState with replay_active_color_pre and restart_line *)
Record rs := RS { r_p : pr; r_replay : option bytes; r_restart : option bytes }.
Definition rop := rs -> bytes * rs.

Definition rnop : rop := fun s => ([], s).
Definition rput (b : bytes) : rop := fun s => (b, s).
Definition wput (b : option bytes) : rop := rput (match b with Some b => b | None => [] end).
Definition rseq (a b : rop) : rop :=
  fun s => let '(x, s1) := a s in let '(y, s2) := b s1 in (x ++ y, s2).
Declare Scope rop_scope.
Delimit Scope rop_scope with rop.
Notation "a ;; b" := (rseq a b) (at level 61, right associativity) : rop_scope.
Local Open Scope rop_scope.
Definition rwhen (c : bool) (a : rop) : rop := if c then a else rnop.
Definition rask {A} (f : pr -> A) (k : A -> rop) : rop := fun s => k (f (r_p s)) s.
(** A change of the fields current_indent, line_indent and last_char *)
Definition on (a : op) : rop :=
  fun s => let '(o, p) := a (r_p s) in (o, RS p (r_replay s) (r_restart s)).
Fixpoint rtimes (n : nat) (a : rop) : rop := match n with O => rnop | S n => a ;; rtimes n a end.
Fixpoint reach (l : list rop) : rop := match l with [] => rnop | a :: r => a ;; reach r end.

(** The characters of a text: a byte with the continuation bytes after it. *)
Fixpoint chars_of (b : bytes) : list bytes :=
  match b with
  | [] => []
  | c :: r =>
    match r with
    | d :: _ =>
      if is_cont d then
        match chars_of r with g :: gs => (c :: g) :: gs | [] => [[c]] end
      else [c] :: chars_of r
    | [] => [[c]]
    end
  end.

(** xmq_internals.c:272-279 is_unicode_whitespace *)
Definition is_unicode_whitespace (ch : bytes) : bool := Nat.ltb 1 (count_ws ch).

(** xmq_internals.c:496-524 level_to_quote_color, level_to_entity_color *)
Definition quote_color (l : level) : color :=
  CTok match l with
       | LXmq => Kquote
       | LElem => Kelement_value_quote
       | LElemC => Kelement_value_compound_quote
       | Parser.LAttr => Kattr_value_quote
       | LAttrC => Kattr_value_compound_quote
       end.
Definition entity_color (l : level) : color :=
  CTok match l with
       | LXmq => Kentity
       | LElem => Kelement_value_entity
       | LElemC => Kelement_value_compound_entity
       | Parser.LAttr => Kattr_value_entity
       | LAttrC => Kattr_value_compound_entity
       end.

Section settings.
Variable T : theme.
Variable C : cfg.

Definition pre (c : color) : option bytes := fst (strings T c).
Definition post (c : color) : option bytes := snd (strings T c).

(** xmq_internals.c:308-345 print_color_pre, print_color_post *)
Definition color_pre (c : color) : rop := wput (pre c).
Definition color_post (c : color) : rop :=
  fun s => match post c with Some b => rput b s | None => wput (r_replay s) s end.

(** utf8.c:24-48 and 77-107 one character *)
Definition one_char (ch : bytes) : rop :=
  match ch with
  | [] => rnop
  | c :: _ =>
    rwhen (is_unicode_whitespace ch) (color_pre CUnicode) ;;
    rput (if c =? cSP then explicit_space T
          else if c =? cTAB then explicit_tab T
          else match esc T c with Some e => e | None => ch end) ;;
    rwhen (is_unicode_whitespace ch) (color_post CUnicode)
  end.

(** utf8.c:66-112 print_utf8_internal with stop NULL, where every byte is a
    character, and with a stop pointer *)
Definition r_str (b : bytes) : rop :=
  match b with
  | [] => rnop
  | _ => reach (map one_char (map (fun c => [c]) b)) ;; on (add_cur (zlen b)) ;; on (set_last (List.last b 0))
  end.
Definition r_range (b : bytes) : rop :=
  match b with
  | [] => rnop
  | _ => reach (map one_char (chars_of b)) ;; on (add_cur (Z.of_nat (chars b))) ;;
         on (set_last (List.last b 0))
  end.

(** utf8.c:124-163 print_utf8 *)
Definition colored (c : color) (body : rop) : rop :=
  fun s =>
    let '(previous, s1) :=
      match pre c with
      | Some p => (r_replay s, RS (r_p s) (Some p) (r_restart s))
      | None => (None, s)
      end in
    let '(o, s2) := (wput (pre c) ;; body ;; wput (post c)) s1 in
    (o, match previous with
        | Some p => RS (r_p s2) (Some p) (r_restart s2)
        | None => s2
        end).
Definition c_str (c : color) (b : bytes) : rop := colored c (r_str b).

(** xmq_printer.c:501-514 print_white_spaces *)
Definition r_white_spaces (n : Z) : rop :=
  wput (pre (CTok Kwhitespace)) ;; rput (List.concat (repeat (indentation_space T) (Z.to_nat n))) ;;
  on (add_cur n) ;; wput (post (CTok Kwhitespace)).

(** xmq_printer.c:558-575 print_quoted_spaces, always with the color of a
    quote *)
Definition r_quoted_spaces (n : nat) : rop :=
  wput (pre (CTok Kquote)) ;; rput [cQ] ;; rput (List.concat (repeat (explicit_space T) n)) ;;
  on (add_cur (Z.of_nat n)) ;; on (set_last cQ) ;; rput [cQ] ;; wput (post (CTok Kquote)).

(** xmq_printer.c:577-595 print_quotes *)
Definition r_quotes (n : nat) (c : color) : rop :=
  wput (pre c) ;; rput (rep cQ n) ;; on (add_cur (Z.of_nat n)) ;; on (set_last cQ) ;; wput (post c).

(** xmq_printer.c:612-624 print_nl *)
Definition restart : rop := fun s => wput (r_restart s) s.
Definition r_nl (prefix postfix : option bytes) : rop :=
  wput postfix ;; rput (explicit_nl T) ;; on reset_line ;; restart ;; wput prefix.
(** xmq_printer.c:597-610 print_nl_and_indent *)
Definition r_nl_and_indent (prefix postfix : option bytes) : rop :=
  wput postfix ;; rput (explicit_nl T) ;; on reset_line ;; rask p_line r_white_spaces ;;
  restart ;; wput prefix.

(** xmq_printer.c:626-673 print_char_entity *)
Definition r_char_entity (c : color) (s : bytes) : rop :=
  match decode_utf8 s with
  | DecOk uc _ =>
    wput (pre c) ;; c_str CNone (char_ref uc) ;; wput (post c) ;;
    on (set_last cSEMI) ;; on (add_cur (zlen (char_ref uc)))
  | _ => wput (pre c) ;; rput (B "&badutf8;") ;; wput (post c)
  end.

(** xmq_printer.c:675-689 print_slashes *)
Definition r_slashes (a b : bytes) (n : nat) : rop :=
  wput (pre (CTok Kcomment)) ;; rput (a ++ rep cSLASH n ++ b) ;; wput (post (CTok Kcomment)).

(** xmq_printer.c:760-856 check_space_before_... *)
Definition r_nl0 : rop := r_nl_and_indent None None.
Definition r_space_attribute : rop :=
  rask p_last (fun c =>
    if c =? cLP then rnop
    else if negb (compact C) then r_nl0
    else rwhen (sep_attribute c) (r_white_spaces 1)).
Definition r_space_entity : rop :=
  rask p_last (fun c =>
    if c =? cLP then rnop
    else if negb (compact C) && negb (c =? cEQ) then r_nl0
    else rwhen (sep_entity c) (r_white_spaces 1)).
Definition r_space_quote (l : level) : rop :=
  rask p_last (fun c =>
    if c =? 0 then rnop
    else if negb (compact C) && (negb (c =? cEQ) || is_xmq_level l) && negb (c =? cLP) then r_nl0
    else rwhen (sep_quote c) (r_white_spaces 1)).
Definition r_space_key : rop :=
  rask p_last (fun c =>
    if c =? 0 then rnop
    else if negb (compact C) then r_nl0
    else rwhen (sep_element c) (r_white_spaces 1)).
Definition r_space_opening_brace : rop :=
  rask p_last (fun c =>
    rwhen (negb (compact C)) (if c =? cRP then r_nl0 else r_white_spaces 1)).
Definition r_space_closing_brace : rop := rwhen (negb (compact C)) r_nl0.
Definition r_space_comment : rop :=
  rask p_last (fun c =>
    if c =? 0 then rnop
    else if negb (compact C) then r_nl0
    else rwhen (sep_comment c) (r_white_spaces 1)).

(** xmq_printer.c:516-539 print_all_whitespace *)
Fixpoint r_all_whitespace (fuel : nat) (l : level) (s : bytes) : rop :=
  match s with
  | [] => rnop
  | c :: r =>
    match fuel with
    | O => on no_fuel
    | S fuel =>
      if c =? cSP then
        let n := count_lead cSP s in
        r_space_quote l ;; r_quoted_spaces n ;; r_all_whitespace fuel l (skipn n s)
      else
        r_space_entity ;; r_char_entity (entity_color l) s ;; r_all_whitespace fuel l r
    end
  end.
Definition r_print_all_whitespace (l : level) (s : bytes) : rop := r_all_whitespace (List.length s) l s.

(** xmq_printer.c:952-1015 print_quote_lines_and_color_uwhitespace *)
Fixpoint r_quote_chars (fuel : nat) (c0 : color) (s : bytes) : rop :=
  match s with
  | [] => rnop
  | c :: r =>
    match fuel with
    | O => on no_fuel
    | S fuel =>
      if c =? cNL then
        (match r with
         | d :: _ => if negb (d =? cNL) then r_nl_and_indent (pre c0) (post c0) else r_nl (pre c0) (post c0)
         | [] => r_nl (pre c0) (post c0)
         end) ;; r_quote_chars fuel c0 r
      else
        let '(a, b) := take_cont r in
        one_char (c :: a) ;; on (set_last c) ;; on (add_cur 1) ;; r_quote_chars fuel c0 b
    end
  end.
Definition set_restart (x : option bytes) : rop := fun s => ([], RS (r_p s) (r_replay s) x).
Definition r_quote_lines (c0 : color) (s : bytes) : rop :=
  fun s0 =>
    (wput (pre c0) ;;
     set_restart (match post c0 with None => pre c0 | Some _ => None end) ;;
     rwhen (starts_with cNL s) (r_nl (pre c0) (post c0)) ;;
     r_quote_chars (List.length s) c0 s ;;
     rwhen (ends_with cNL s)
       (on (set_line (fun p => p_line p - 1)%Z) ;;
        (if all_are cNL s then on reset_line ;; rask p_line r_white_spaces
         else r_nl_and_indent None (post c0)) ;;
        on (set_line (fun p => p_line p + 1)%Z)) ;;
     rwhen (negb (ends_with cNL s)) (wput (post c0)) ;;
     set_restart (r_restart s0)) s0.

(** xmq_printer.c:1017-1117 print_safe_leaf_quote *)
Definition r_safe_leaf_quote (c : color) (s : bytes) : rop :=
  rask id (fun old =>
    let '(numq, nls, _) := count_necessary_quotes s false in
    let add_nls :=
      if Nat.ltb 0 numq then nls || (p_cur old =? -1)%Z || Nat.leb 4 numq else nls in
    let numq := if Nat.eqb numq 0 then 1%nat else numq in
    if add_nls then
      on (set_line p_cur) ;; r_quotes numq c ;; r_nl0 ;; r_quote_lines c s ;;
      r_nl0 ;; r_quotes numq c ;; on (set_line (fun _ => p_line old))
    else
      r_quotes numq c ;; on (set_line p_cur) ;; r_quote_lines c s ;;
      on (set_line (fun _ => p_line old)) ;; r_quotes numq c).

(** xmq_printer.c:1269-1322 *)
Fixpoint r_newline_entities (l : level) (m : nat) : rop :=
  match m with
  | O => rnop
  | S m => r_space_entity ;; r_char_entity (entity_color l) [cNL] ;; r_newline_entities l m
  end.
Fixpoint r_pieces (fuel : nat) (rec : bytes -> bytes -> rop) (l : level) (s aft : bytes) : rop :=
  match s with
  | [] => rnop
  | _ :: r =>
    match fuel with
    | O => on no_fuel
    | S fuel =>
      match find_next_escape C s with
      | O =>
        let m := count_lead cNL r in
        r_space_entity ;; r_char_entity (entity_color l) s ;; r_newline_entities l m ;;
        r_pieces fuel rec l (skipn (entity_len s + m) s) aft
      | k =>
        let p := firstn k s in
        let r := skipn k s in
        let '(_, nls, comp) := count_necessary_quotes p false in
        (if negb comp && (negb nls || negb (compact C))
         then r_space_quote l ;; r_safe_leaf_quote (quote_color l) p
         else rec p (r ++ aft)) ;;
        r_pieces fuel rec l r aft
      end
    end
  end.

(** xmq_printer.c:1178-1328 print_value_internal_text *)
Fixpoint r_value_text (fuel : nat) (l : level) (s aft : bytes) : rop :=
  match fuel with
  | O => on no_fuel
  | S fuel =>
    match s with
    | [] => r_space_quote l ;; c_str (quote_color l) [cQ; cQ]
    | _ =>
      if all_are cQ s then r_space_entity ;; rtimes (List.length s) (c_str (entity_color l) (B "&apos;"))
      else if all_are cSP s then r_space_quote l ;; r_quoted_spaces (List.length s)
      else if forallb is_xml_whitespace s
              && negb (all_are cNL s && negb (compact C) && Nat.ltb 1 (List.length s))
      then r_print_all_whitespace l s
      else if is_text_value s aft && match l with LElem | Parser.LAttr => true | _ => false end
      then colored (quote_color l) (r_range s)
      else
        let '(lead, s1) :=
          match has_leading_space_nl s with
          | (Some n, O) => (firstn n s, skipn n s)
          | _ => ([], s)
          end in
        let '(s2, trail) :=
          match has_ending_nl_space s1 with
          | (Some n, O) => let n := (n + count_lead cSP (skipn n s1))%nat in (firstn n s1, skipn n s1)
          | _ => (s1, [])
          end in
        r_print_all_whitespace l lead ;;
        r_pieces (List.length s2) (r_value_text fuel l) l s2 (trail ++ aft) ;;
        r_print_all_whitespace l trail
    end
  end.
Definition r_text (l : level) (s : bytes) : rop := r_value_text (S (List.length s)) l s [0].

(** xmq_printer.c:178-184 print_entity_node *)
Definition r_entity (name : bytes) : rop :=
  let c := CTok Kentity in
  r_space_entity ;; c_str c [cAMP] ;; c_str c name ;; c_str c [cSEMI].

(** xmq_printer.c:1330-1348 print_value_internal *)
Definition r_part (l : level) (p : part) : rop :=
  match p with PText t => r_text l t | PRef n => r_entity n end.

(** xmq_printer.c:1399-1445 print_value *)
Fixpoint r_parts (l : level) (ps : list part) : rop :=
  match ps with [] => rnop | p :: r => r_part l p ;; r_parts l r end.
Definition r_value (l : level) (ps : list part) : rop :=
  rask p_line (fun old =>
    if is_compound C ps then
      c_str (CTok Kcpar_left) [cLP] ;; rwhen (negb (compact C)) (r_white_spaces 1) ;; on (set_line p_cur) ;;
      r_parts (enter_compound l) ps ;;
      rwhen (negb (compact C)) (r_white_spaces 1) ;; c_str (CTok Kcpar_right) [cRP] ;;
      on (set_line (fun _ => old))
    else r_parts l ps ;; on (set_line (fun _ => old))).

Definition r_equals (pad : Z) : rop :=
  rwhen (negb (compact C)) (r_white_spaces pad) ;; c_str (CTok Kequals) [cEQ] ;;
  rwhen (negb (compact C)) (r_white_spaces 1).

(** The prefix and its colon *)
Definition r_prefix (c : color) (p : option bytes) : rop :=
  match p with None => rnop | Some p => c_str c p ;; c_str (CTok Kns_colon) [cCOLON] end.

(** xmq_printer.c:859-886 print_attribute *)
Definition r_attribute (align : nat) (a : vattr) : rop :=
  r_space_attribute ;; r_prefix (CTok Kattr_ns) (va_prefix a) ;; c_str (CTok Kattr_key) (va_name a) ;;
  rwhen (has_value (va_value a))
    (r_equals (1 + Z.of_nat align - Z.of_nat (qwidth (va_prefix a) (va_name a))) ;;
     r_value Parser.LAttr (va_value a)).

(** xmq_printer.c:888-922 print_namespace_declaration *)
Definition r_declaration (align : nat) (d : decl) : rop :=
  r_space_attribute ;; c_str (CTok Kns_declaration) (B "xmlns") ;;
  match d_prefix d with
  | None => rnop
  | Some p => c_str (CTok Kns_colon) [cCOLON] ;; c_str (if beq p (B "xsl") then CXsl else CTok Kattr_ns) p
  end ;;
  match d_uri d with
  | None => rnop
  | Some u => r_equals (1 + Z.of_nat align - Z.of_nat (decl_width d)) ;; r_text Parser.LAttr u
  end.

(** xmq_printer.c:924-950 print_attributes *)
Fixpoint r_attribute_list (align : nat) (l : list vattr) : rop :=
  match l with [] => rnop | a :: r => r_attribute align a ;; r_attribute_list align r end.
Fixpoint r_declaration_list (align : nat) (l : list decl) : rop :=
  match l with [] => rnop | a :: r => r_declaration align a ;; r_declaration_list align r end.
Definition r_attributes (l : list vattr) (ds : list decl) : rop :=
  let align := if compact C then 0%nat else v_width l ds in
  rask p_line (fun old =>
    on (set_line p_cur) ;; r_attribute_list align l ;; r_declaration_list align ds ;;
    on (set_line (fun _ => old))).

(** xmq_printer.c:191-257 print_comment_lines *)
Definition c_range (b : bytes) : rop := colored (CTok Kcomment) (r_range b).
Fixpoint r_comment_rest (fuel : nat) (n : nat) (s : bytes) : rop :=
  match s with
  | [] => rnop
  | _ =>
    match fuel with
    | O => on no_fuel
    | S fuel =>
      let '(l, t) := cut_line s in
      (if compact C then r_slashes [cSTAR] [cSTAR] n
       else match l, t with
            | [], Some (_ :: _) => r_nl None None
            | _, _ => r_nl0
            end) ;;
      c_range l ;;
      match t with Some r => r_comment_rest fuel n r | None => rnop end
    end
  end.
Definition r_comment_lines (s : bytes) : rop :=
  rask id (fun old =>
    let n := count_necessary_slashes s in
    r_slashes [] [cSTAR] n ;;
    rwhen (negb (compact C) && negb (starts_with cNL s)) (r_white_spaces 1) ;;
    on (set_line (fun _ => p_cur old + 1 + Z.of_nat n + (if compact C then 0 else 1))%Z) ;;
    c_range (fst (cut_line s)) ;;
    match snd (cut_line s) with Some r => r_comment_rest (List.length s) n r | None => rnop end ;;
    rwhen (negb (compact C)) (r_white_spaces 1) ;;
    r_slashes [cSTAR] [] n ;; on (set_last cSLASH) ;; on (set_line (fun _ => p_line old))).

(** xmq_printer.c:259-286 print_comment_node *)
Definition r_comment (s : bytes) : rop :=
  r_space_comment ;;
  if negb (has_newlines s) then
    if compact C then
      colored (CTok Kcomment) (r_str [cSLASH; cSTAR] ;; r_range s ;; r_str [cSTAR; cSLASH]) ;;
      on (set_last cSLASH)
    else colored (CTok Kcomment) (r_str (B "// ") ;; r_range s) ;; on (set_last 1)
  else r_comment_lines s ;; on (set_last cSLASH).

(** xmq_printer.c:288-337 print_element_name_and_attributes; [key] is whether
    the element is a key with a value *)
Definition r_name (key : bool) (p : option bytes) (name : bytes) (a : list vattr) (ds : list decl) : rop :=
  let c := match p with
           | Some p => if beq p (B "xsl") then Some CXsl else None
           | None => None
           end in
  let c := match c with
           | Some c => c
           | None => CTok (if key && match a with [] => true | _ => false end then Kelement_key else Kelement_name)
           end in
  r_space_key ;; r_prefix (CTok Kelement_ns) p ;; c_str c name ;;
  match a, ds with
  | [], [] => rnop
  | _, _ => c_str (CTok Kapar_left) [cLP] ;; r_attributes a ds ;; c_str (CTok Kapar_right) [cRP]
  end.

(** xmq_printer.c:389-451 print_doctype, print_pi_node *)
Definition r_doctype (s : bytes) : rop :=
  r_space_key ;; c_str (CTok Kelement_key) (B "!DOCTYPE") ;; r_equals 1 ;;
  r_text LElem (if compact C then no_newlines s else s).
Definition r_pi (name s : bytes) : rop :=
  r_space_key ;; colored (CTok Kelement_key) (r_str [cQM] ;; r_str name) ;; r_equals 1 ;;
  let s := add_spaces s in
  r_text LElem (if compact C then no_newlines s else s).

(** xmq_printer.c:453-499 print_node and 153-171 print_nodes *)
Fixpoint r_node (align : nat) (x : vnode) : rop :=
  match x with
  | VPart (PText t) => rask p_line (fun old => r_text LXmq t ;; on (set_line (fun _ => old)))
  | VPart (PRef n) => r_entity n
  | VComment t => r_comment t
  | VPI n c => r_pi n c
  | VDoctype c => r_doctype c
  | VElem p _ n ds a k =>
    match k with
    | [] => r_name false p n a ds
    | _ =>
      match v_key_value k with
      | Some ps =>
        r_name true p n a ds ;;
        rask id (fun s =>
          let len := (p_cur s - p_line s)%Z in
          r_equals (if ((0 <=? len) && (len <? Z.of_nat align))%Z then 1 + Z.of_nat align - len else 1)) ;;
        r_value LElem ps
      | None =>
        r_name false p n a ds ;; r_space_opening_brace ;; c_str (CTok Kbrace_left) [cLB] ;;
        on (set_line (fun s => p_line s + add_indent C)%Z) ;;
        (fix nodes (align : nat) (again : option nat) (l : list vnode) : rop :=
           match l with
           | [] => rnop
           | x :: r =>
             let '(align, again) :=
               match again with
               | Some O => if compact C then (align, again) else v_find_width l
               | _ => (align, again)
               end in
             r_node align x ;;
             nodes align (match again with Some (S m) => Some m | _ => again end) r
           end) 0%nat (Some 0%nat) k ;;
        on (set_line (fun s => p_line s - add_indent C)%Z) ;;
        r_space_closing_brace ;; c_str (CTok Kbrace_right) [cRB]
      end
    end
  end.
Fixpoint r_nodes (align : nat) (again : option nat) (l : list vnode) : rop :=
  match l with
  | [] => rnop
  | x :: r =>
    let '(align, again) :=
      match again with
      | Some O => if compact C then (align, again) else v_find_width l
      | _ => (align, again)
      end in
    r_node align x ;;
    r_nodes align (match again with Some (S m) => Some m | _ => again end) r
  end.

(** xmq.c:2925-2958 xmq_print_xmq *)
Definition render_doc (d : list vnode) : bytes * bool :=
  match d with
  | [] => ([], true)
  | _ => let '(o, s) := r_nodes 0 (Some 0%nat) d (RS (PR 0 0 0 true) None None) in
         (head T ++ o ++ tail T ++ [cNL], p_ok (r_p s))
  end.

End settings.

(** ** The themes *)

(** xmq.c:202-204: nothing is set for XMQ_RENDER_PLAIN, and neither is for a
    terminal without colors (xmq.c:258). *)
Definition plain_theme : theme :=
  Theme (fun _ => (None, None)) (fun _ => None) [cSP] [cSP] [cTAB] [cNL] [] [].

(** The thirteen names of colors (colors.h) *)
Inductive color_name := XC | XQ | XE | XNS | XEN | XEK | XEKV | XAK | XAKV | XCP | XNSD | XUW | XXSL.

(** xmq.c:267-313 setup_terminal_coloring, 404-469 setup_html_coloring and
    536-600 setup_tex_coloring use the same name for each color; the others are
    NULL for html and tex. *)
Definition name_of (c : color) : option color_name :=
  match c with
  | CTok k =>
    match k with
    | Kcomment | Kcomment_continuation => Some XC
    | Kquote => Some XQ
    | Kentity | Kelement_value_entity | Kelement_value_compound_entity
    | Kattr_value_entity | Kattr_value_compound_entity => Some XE
    | Kelement_ns | Kattr_ns => Some XNS
    | Kelement_name => Some XEN
    | Kelement_key => Some XEK
    | Kelement_value_text | Kelement_value_quote | Kelement_value_compound_quote => Some XEKV
    | Kattr_key => Some XAK
    | Kattr_value_text | Kattr_value_quote | Kattr_value_compound_quote => Some XAKV
    | Kcpar_left | Kcpar_right => Some XCP
    | Kns_declaration => Some XNSD
    | Kwhitespace | Kequals | Kbrace_left | Kbrace_right | Kapar_left | Kapar_right | Kns_colon => None
    end
  | CUnicode => Some XUW
  | CXsl => Some XXSL
  | CNone => None
  end.

(** xmq_internals.h:693 NOCOLOR and colors.c:151-195 generate_ansi_color, for a color with
    the given red, green and blue *)
Definition NOCOLOR : bytes := 27 :: B "[0m".
Record color_def := ColorDef { red : N; green : N; blue : N; bold : bool; underline : bool }.
Definition ansi_color (d : color_def) : bytes :=
  27 :: B "[0;" ++ (if bold d then B "1;" else []) ++ (if underline d then B "4;" else []) ++
  B "38;2;" ++ decimal (red d) ++ B ";" ++ decimal (green d) ++ B ";" ++ decimal (blue d) ++ B "m".

(** xmq.c:256-326 setup_terminal_coloring for any definition of the colors *)
Definition terminal_theme (defs : color_name -> color_def) : theme :=
  Theme (fun c => (match name_of c with
                   | Some n => Some (ansi_color (defs n))
                   | None => match c with CTok _ => Some NOCOLOR | _ => None end
                   end, None))
        (fun _ => None) [cSP] [cSP] [cTAB] [cNL] [] NOCOLOR.

(** default_themes.c:34-48 and 66-80 *)
Definition dark (n : color_name) : color_def :=
  match n with
  | XC | XNSD => ColorDef 0x2a 0xa1 0xb3 false false
  | XQ | XEKV => ColorDef 0x26 0xa2 0x69 true false
  | XE | XCP | XXSL => ColorDef 0xc0 0x61 0xcb false false
  | XNS => ColorDef 0xa9 0xa9 0xa9 false false
  | XEN => ColorDef 0xff 0x8c 0x00 false false
  | XEK | XAK => ColorDef 0x88 0xb4 0xf7 false false
  | XAKV => ColorDef 0x61 0x96 0xec false false
  | XUW => ColorDef 0x88 0x00 0x00 false true
  end.
Definition light (n : color_name) : color_def :=
  match n with
  | XC => ColorDef 0x2a 0xa1 0xb3 false false
  | XNSD => ColorDef 0x1a 0x91 0xa3 false false
  | XQ | XEKV => ColorDef 0x26 0xa2 0x69 true false
  | XE | XCP | XXSL => ColorDef 0xc0 0x61 0xcb false false
  | XNS => ColorDef 0x69 0x69 0x69 false false
  | XEN => ColorDef 0xa8 0x6c 0x00 false false
  | XEK | XAK => ColorDef 0x00 0x60 0xfd false false
  | XAKV => ColorDef 0x12 0x48 0x8c false false
  | XUW => ColorDef 0x88 0x00 0x00 false true
  end.

(** colors.c:252-255 colorName *)
Definition name_text (n : color_name) : bytes :=
  match n with
  | XC => B "xmqC" | XQ => B "xmqQ" | XE => B "xmqE" | XNS => B "xmqNS" | XEN => B "xmqEN"
  | XEK => B "xmqEK" | XEKV => B "xmqEKV" | XAK => B "xmqAK" | XAKV => B "xmqAKV" | XCP => B "xmqCP"
  | XNSD => B "xmqNSD" | XUW => B "xmqUW" | XXSL => B "xmqXSL"
  end.

(** xmq_internals.c:283-289 *)
Definition html_escape (c : N) : option bytes :=
  if c =? cAMP then Some (B "&amp;")
  else if c =? cLT then Some (B "&lt;")
  else if c =? cGT then Some (B "&gt;")
  else None.

(** xmq.c:328-470 setup_html_coloring with render_raw, without use_id and
    use_class *)
Definition html_theme (dark_mode : bool) : theme :=
  Theme (fun c => match name_of c with
                  | Some n => (Some ([cLT] ++ name_text n ++ [cGT]), Some ([cLT; cSLASH] ++ name_text n ++ [cGT]))
                  | None => (None, None)
                  end)
        html_escape [cSP] [cSP] [cTAB] [cNL]
        ((B "<pre class=") ++ [cDQ] ++ B "xmq " ++ (if dark_mode then B "xmq_dark" else B "xmq_light")
         ++ [cDQ; cGT])
        (B "</pre>").

(** xmq_internals.c:290-302 *)
Definition tex_escape (c : N) : option bytes :=
  if c =? cBSL then Some (B "\backslash;")
  else if c =? cAMP then Some (B "\&")
  else if c =? cHASH then Some (B "\#")
  else if c =? cLB then Some (B "\{")
  else if c =? cRB then Some (B "\}")
  else if c =? cUND then Some (B "\_")
  else if c =? cQ then Some (B "{'}")
  else None.

(** xmq.c:472-602 setup_tex_coloring with render_raw *)
Definition tex_theme : theme :=
  Theme (fun c => match name_of c with
                  | Some n => (Some ([cBSL] ++ name_text n ++ [cLB]), Some [cRB])
                  | None => (None, None)
                  end)
        tex_escape (B "\xmqI ") [cSP] [cTAB] (B "\linebreak" ++ [cNL])
        (B "\texttt{\flushleft\noindent ") ([cNL] ++ [cRB] ++ [cNL]).
