(** Model of the JSON reader (json.c:82-870 and 1013-1098) and of
    xmq_parse_buffer_json (xmq.c:4287-4322).

    Simplifications.  The byte at buffer_stop is a NUL, as it is for files and
    for buffers given without a stop pointer; lines and columns, which only
    occur in error messages, are left out.  The document is built by the
    callbacks of Dom.v; quotes and comments are taken as they are
    (no_trim_quotes, xmq.c:4299).  As in Dom.v, names with a colon and xmlns
    declarations are not modelled, nor are doctypes and the comments outside of
    the root (keys with an underscore and two slashes). *)
From Coq Require Import NArith ZArith List Bool Arith String.
From Verif Require Import Bytes Outcome Utf8 Quote Parser Detect Dom.
Import ListNotations.
Local Open Scope N_scope.

Definition cLBK : N := 91. (* left bracket *)
Definition cRBK : N := 93. (* right bracket *)
Definition cCOMMA : N := 44.
Definition cBAR : N := 124.

(** xmq.h:319-320 *)
Definition E_JSON_INVALID_ESCAPE : N := 18.
Definition E_JSON_INVALID_CHAR : N := 19.

(** xmq_internals.c:187-210 eat_xml_whitespace: what is left.  [k] more bytes
    belong to a white space character that is already counted. *)
Fixpoint eat_ws (k : nat) (r : bytes) : bytes :=
  match r with
  | [] => []
  | _ :: r' =>
    match k with
    | S k' => eat_ws k' r'
    | O => match count_ws r with O => r | S k' => eat_ws k' r' end
    end
  end.

(** json.c:119-128 the character for a one letter escape *)
Definition json_escape (c : N) : option N :=
  if (c =? cDQ) || (c =? cBSL) then Some c
  else if c =? 98 then Some 8
  else if c =? 102 then Some 12
  else if c =? 110 then Some 10
  else if c =? 114 then Some 13
  else if c =? 116 then Some 9
  else None.

(** json.c:138-149 the number of a four digit escape *)
Definition hex4 (a b c d : N) : option N :=
  match hex_value a, hex_value b, hex_value c, hex_value d with
  | Some a, Some b, Some c, Some d =>
      Some (N.lor (N.lor (N.lor (N.shiftl a 12) (N.shiftl b 8)) (N.shiftl c 4)) d)
  | _, _, _, _ => None
  end.

(** json.c:106-170 eat_json_quote after the first double quote: the text and
    what is left.  A string without a second quote ends at buffer_stop. *)
Fixpoint json_string (r : bytes) : out (bytes * bytes) :=
  match r with
  | [] => Ok ([], [])
  | c :: r1 =>
    if c =? cDQ then Ok ([], r1)
    else if c =? cBSL then
      match r1 with
      | [] => Err E_JSON_INVALID_ESCAPE
      | e :: r2 =>
        match json_escape e with
        | Some x => obind (json_string r2) (fun '(o, z) => Ok (x :: o, z))
        | None =>
          if e =? 117 then
            match r2 with
            | h1 :: h2 :: h3 :: h4 :: r3 =>
              match hex4 h1 h2 h3 h4 with
              | Some u =>
                match encode_utf8 (Z.of_N u) with
                | Some b => obind (json_string r3) (fun '(o, z) => Ok (b ++ o, z))
                | None => Abrt
                end
              | None => Err E_JSON_INVALID_ESCAPE
              end
            | _ => Err E_JSON_INVALID_ESCAPE
            end
          else Err E_JSON_INVALID_ESCAPE
        end
      end
    else obind (json_string r1) (fun '(o, z) => Ok (c :: o, z))
  end.

(** json.c:182-202 trim_index_suffix.  [back_digits] is the loop on the bytes
    before the last one, in reverse order; it stops at the first byte of the
    key. *)
Definition is_digit (c : N) : bool := in_range 48 57 c.
Fixpoint back_digits (r : bytes) : bytes :=
  match r with
  | c :: r' =>
    match r' with
    | [] => r
    | _ => if is_digit c then back_digits r' else r
    end
  | [] => []
  end.
Definition trim_index (k : bytes) : bytes :=
  match rev k with
  | c :: r =>
    if c =? cRBK then
      match back_digits r with
      | b :: p :: r' => if b =? cLBK then rev (p :: r') else k
      | _ => k
      end
    else k
  | [] => k
  end.

(** json.c:501-504 has_number_ended *)
Definition number_ended (c : N) : bool :=
  (c =? cSP) || (c =? cNL) || (c =? cCOMMA) || (c =? cRB) || (c =? cRBK).

(** json.c:517-567 the loop of is_jnumber after the first byte; [i] bytes are
    done.  The result is the number of bytes before the returned pointer. *)
Fixpoint jnumber_loop (found_e found_e_sign leading_zero last_digit found_dot : bool) (i : nat) (s : bytes) : option nat :=
  match s with
  | [] => if last_digit then Some i else None
  | c :: r =>
    if leading_zero then
      if number_ended c then Some i
      else if negb (c =? cDOT) then None
      else jnumber_loop found_e found_e_sign false false true (S i) r
    else if c =? cDOT then
      if found_dot then None
      else jnumber_loop found_e found_e_sign false false true (S i) r
    else if (c =? 101) || (c =? 69) then
      if found_e then None
      else jnumber_loop true found_e_sign false false found_dot (S i) r
    else if found_e && negb found_e_sign then
      if number_ended c then Some i
      else if negb (is_digit c) && negb (c =? cMINUS) && negb (c =? 43) then None
      else if (c =? 43) || (c =? cMINUS) then jnumber_loop found_e true false false found_dot (S i) r
      else jnumber_loop found_e found_e_sign false true found_dot (S i) r
    else
      if number_ended c then Some i
      else if negb (is_digit c) then None
      else jnumber_loop found_e false false true found_dot (S i) r
  end.
(** json.c:506-571 is_jnumber *)
Definition is_jnumber (s : bytes) : option nat :=
  match s with
  | [] => None
  | c :: r =>
    if negb (is_digit c) && negb (c =? cMINUS) then None
    else jnumber_loop false false (c =? 48) (negb (c =? cMINUS)) false 1 r
  end.
(** json.c:1542-1546 json_is_number, and the test at json.c:396 *)
Definition json_is_number (s : bytes) : bool :=
  match is_jnumber s with Some n => Nat.eqb n (List.length s) | None => false end.
(** json.c:1548-1554 json_is_keyword *)
Definition json_is_keyword (s : bytes) : bool :=
  beq s (B "true") || beq s (B "false") || beq s (B "null").

(** text.c:410-425 is_xmq_element_name, and whether it found a colon.  The empty
    text is followed by a NUL. *)
Definition is_element_name (s : bytes) : bool :=
  match s with
  | c :: r => is_xmq_element_start c && forallb is_xmq_text_name r
  | [] => false
  end.
Definition has_colon (s : bytes) : bool := existsb (fun c => c =? cCOLON) s.

(** The element name for a key that is trimmed already, and the key itself if
    it cannot be an element name: json.c:340-356 and the same lines in the
    other functions. *)
Definition name_of_key (k : option bytes) : bytes * option bytes :=
  match k with
  | None | Some [] => ([cUND], None)
  | Some k => if is_element_name k then (k, None) else ([cUND], Some k)
  end.

(** xmq.c:2366-2399 do_attr_key *)
Definition attr_key (n : bytes) (s : bst) : bout :=
  match b_stack s with
  | FElem m a k :: r => BOk (with_stack s (FElem m ((c_str n, []) :: a) k :: r) LastAttr)
  | _ => BUnmodelled
  end.
(** xmq.c:2447-2458 do_attr_value_quote without trimming *)
Definition attr_value (v : bytes) (s : bst) : bout := add_last (PText (c_str v)) s.

(** element_key, then apar_left, attributes and apar_right if there are any
    attributes. *)
Fixpoint put_attrs (l : list (bytes * option bytes)) (s : bst) : bout :=
  match l with
  | [] => BOk s
  | (n, v) :: r =>
    bbind (attr_key n s) (fun s =>
    bbind (match v with Some v => attr_value v s | None => BOk s end) (put_attrs r))
  end.
Definition open_element (root : option bytes) (name : bytes) (l : list (bytes * option bytes)) (s : bst) : bout :=
  if has_colon name then BUnmodelled else
  bbind (create_node root name s) (fun s =>
  match l with
  | [] => BOk s
  | _ => bbind (push_last s) (fun s => bbind (put_attrs l s) pop)
  end).

Definition unsafe_attr (u : option bytes) : list (bytes * option bytes) :=
  match u with Some k => [([cUND], Some k)] | None => [] end.

(** json.c:383-388, 472-487, 630-660 and 700-730: an element with a text. *)
Definition open_text (root : option bytes) (k : option bytes) (more : list (bytes * option bytes)) (v : bytes) (s : bst) : bout :=
  let '(name, unsafe) := name_of_key k in
  bbind (open_element root name (unsafe_attr unsafe ++ more) s) (element_value_text v).

(** xmlNodeSetName on the open element, json.c:294 *)
Definition rename_top (n : bytes) (s : bst) : bout :=
  match b_stack s with
  | FElem _ a k :: r => BOk (with_stack s (FElem n a k :: r) (b_last s))
  | _ => BUnmodelled
  end.

(** json.c:396-400 need_string_type *)
Definition need_string_type (v : bytes) : bool := json_is_keyword v || json_is_number v.

(** json.c:236-427 parse_json_quote on the decoded text v *)
Definition put_string (root : option bytes) (key : option bytes) (v : bytes) (s : bst) : bout :=
  let k := option_map trim_index key in
  let plain :=
    let '(name, unsafe) := name_of_key k in
    if match unsafe, name with None, c :: _ :: _ => c =? cUND | _, _ => false end then
      if has_colon name || is_prefix (B "_xmlns") name then BUnmodelled
      else bbind (attr_key (tl name) s) (attr_value v)
    else open_text root k (if need_string_type v then [([83], None)] else []) v s in
  match k with
  | Some k =>
    if beq k (B "|") then add_top (PText (c_str v)) s
    else if beq k (B "//") then add_node (Comment (c_str v)) LastKid s
    else if beq k (B "_//") then BUnmodelled
    else if beq k (B "_") && is_element_name v then
      if has_colon v then BUnmodelled else rename_top v s
    else if beq k (B "!DOCTYPE") then BUnmodelled
    else plain
  | None => plain
  end.

(** json.c:452-498 parse_json_null *)
Definition put_null (root : option bytes) (key : option bytes) (s : bst) : bout :=
  let k := option_map trim_index key in
  match k with
  | Some (c :: d :: r) => if c =? cUND then attr_key (d :: r) s else open_text root k [] (B "null") s
  | _ => open_text root k [] (B "null") s
  end.

(** json.c:614-663 parse_json_boolean, json.c:690-735 parse_json_number *)
Definition put_word (root : option bytes) (key : option bytes) (v : bytes) (s : bst) : bout :=
  open_text root (option_map trim_index key) [] v s.

(** json.c:773-817 and json.c:1013-1055 the part of parse_json_array and
    parse_json_object before the items *)
Definition open_container (root : option bytes) (key : option bytes) (more : list (bytes * option bytes)) (s : bst) : bout :=
  let '(name, unsafe) := name_of_key (option_map trim_index key) in
  bbind (open_element root name (unsafe_attr unsafe ++ more) s) push_last.

Inductive jout :=
| JOk (rest : bytes) (b : bst)
| JErr (e : N)
| JUB
| JAbrt
| JHang             (* while (c == ',') with no body, json.c:1091 *)
| JUnmodelled
| JNoFuel.
Definition jbind (r : jout) (f : bytes -> bst -> jout) : jout :=
  match r with JOk r b => f r b | _ => r end.
Definition jlift (r : bout) (rest : bytes) : jout :=
  match r with BOk b => JOk rest b | BUB => JUB | BAbrt => JAbrt | BUnmodelled => JUnmodelled end.

(** *state->i *)
Definition at_i (r : bytes) : N := match r with c :: _ => c | [] => 0 end.

(** json.c:837-855 parse_json, json.c:819-834 the items of an array,
    json.c:1057-1097 the items of an object.  The items are entered with c = ','. *)
Fixpoint parse_json (fuel : nat) (root : option bytes) (key : option bytes) (r : bytes) (b : bst) : jout :=
  match fuel with
  | O => JNoFuel
  | S f =>
    let r := eat_ws 0 r in
    let c := at_i r in
    jbind
      (if c =? cDQ then
         match json_string (tl r) with
         | Ok (v, r') => jlift (put_string root key v b) r'
         | Err e => JErr e
         | _ => JAbrt
         end
       else if is_prefix (B "true") r then jlift (put_word root key (B "true") b) (skipn 4 r)
       else if is_prefix (B "false") r then jlift (put_word root key (B "false") b) (skipn 5 r)
       else if is_prefix (B "null") r then jlift (put_null root key b) (skipn 4 r)
       else match is_jnumber r with
       | Some n => jlift (put_word root key (firstn n r) b) (skipn n r)
       | None =>
         if c =? cLB then jbind (jlift (open_container root key [] b) (tl r)) (object_items f root)
         else if c =? cLBK then jbind (jlift (open_container root key [([65], None)] b) (tl r)) (array_items f root)
         else JErr E_JSON_INVALID_CHAR
       end)
      (fun r b => JOk (eat_ws 0 r) b)
  end
with array_items (fuel : nat) (root : option bytes) (r : bytes) (b : bst) : jout :=
  match fuel with
  | O => JNoFuel
  | S f =>
    match r with
    | [] => JAbrt
    | _ =>
      let r := eat_ws 0 r in
      if at_i r =? cRBK then jlift (pop b) (tl r)
      else jbind (parse_json f root None r b) (fun r b =>
        if at_i r =? cCOMMA then array_items f root (tl r) b
        else if at_i r =? cRBK then jlift (pop b) (tl r)
        else JAbrt)
    end
  end
with object_items (fuel : nat) (root : option bytes) (r : bytes) (b : bst) : jout :=
  match fuel with
  | O => JNoFuel
  | S f =>
    match r with
    | [] => JHang
    | _ =>
      let r := eat_ws 0 r in
      if at_i r =? cRB then jlift (pop b) (tl r)
      else if negb (at_i r =? cDQ) then JErr E_JSON_INVALID_CHAR
      else
        match json_string (tl r) with
        | Ok (k, r1) =>
          let r2 := eat_ws 0 r1 in
          if negb (at_i r2 =? cCOLON) then JErr E_JSON_INVALID_CHAR
          else jbind (parse_json f root (Some k) (tl r2) b) (fun r b =>
            if at_i r =? cCOMMA then object_items f root (tl r) b
            else if at_i r =? cRB then jlift (pop b) (tl r)
            else JAbrt)
        | Err e => JErr e
        | _ => JAbrt
        end
    end
  end.

(** json.c:737-771 xmq_tokenize_buffer_json *)
Definition tokenize_json (fuel : nat) (root : option bytes) (src : bytes) : jout :=
  jbind (parse_json fuel root None src (BS [FDoc []] LastNone None false)) (fun r b =>
  match r with [] => JOk r b | _ => JErr E_UNEXPECTED_CLOSING_BRACE end).

Inductive json_result :=
| JDocument (d : list node)
| JError (e : N)
| JUndefined
| JAborts
| JHangs
| JNotModelled
| JRunning.
(** xmq.c:4287-4322 xmq_parse_buffer_json *)
Definition parse_buffer_json (fuel : nat) (root : option bytes) (src : bytes) : json_result :=
  match tokenize_json fuel root src with
  | JOk _ b => match close_all (b_stack b) with Some d => JDocument d | None => JNotModelled end
  | JErr e => JError e
  | JUB => JUndefined
  | JAbrt => JAborts
  | JHang => JHangs
  | JUnmodelled => JNotModelled
  | JNoFuel => JRunning
  end.
