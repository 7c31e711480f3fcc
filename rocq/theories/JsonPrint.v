(** Model of the JSON writer (json.c:863-1010 and 1100-1700), of
    xml_collapse_text (xml.c:210-272), and of xmq_print_json (xmq.c:2733-2758).

    Simplifications.  The output is plain (no terminal colours, tex or html).
    Processing instructions, doctypes and namespaces are not modelled, nor are
    documents with anything but one element at the top. *)
From Coq Require Import NArith ZArith List Bool Arith String.
From Verif Require Import Bytes Outcome Utf8 Quote Parser Dom Json CQuote Printer.
Import ListNotations.
Local Open Scope N_scope.

(** ** xml_collapse_text *)

(** xml.c:274-288 decode_entity_ref, for names without white space and plus
    signs.  strtol on a text starting with a hash is 0; a long is converted to
    an int. *)
Definition decode_entity_ref (n : bytes) : Z :=
  if beq n (B "apos") then 39%Z
  else if beq n (B "gt") then 62%Z
  else if beq n (B "lt") then 60%Z
  else if beq n (B "quot") then 34%Z
  else if beq n (B "nbsp") then 160%Z
  else match n with
  | h :: r =>
    if negb (h =? cHASH) then 0%Z
    else match r with
    | x :: _ => if x =? 120 then 0%Z else to_int (strtol 10 r)
    | [] => to_int (strtol 10 r)
    end
  | [] => 0%Z
  end.

(** xml.c:212-241 the counting loop: texts, entities and bytes, or nothing if
    there is another child *)
Fixpoint collapse_count (l : list node) : option (nat * nat * nat) :=
  match l with
  | [] => Some (0, 0, 0)%nat
  | Part (PText t) :: r =>
      option_map (fun '(nt, ne, len) => (S nt, ne, List.length (c_str t) + len)%nat) (collapse_count r)
  | Part (PRef n) :: r =>
      option_map (fun '(nt, ne, len) => (nt, S ne, 2 + List.length (c_str n) + len)%nat) (collapse_count r)
  | _ => None
  end.
(** xml.c:243-266 the copying loop: the bytes written, or the failing assert in
    encode_utf8 *)
Fixpoint collapse_write (l : list node) : option bytes :=
  match l with
  | Part (PText t) :: r => option_map (app (c_str t)) (collapse_write r)
  | Part (PRef n) :: r =>
      match encode_utf8 (decode_entity_ref (c_str n)) with
      | Some b => option_map (app b) (collapse_write r)
      | None => None
      end
  | _ => Some []
  end.
(** The size of the buffer and the bytes written before the final NUL. *)
Inductive collapsed := NoCollapse | Collapsed (size : nat) (written : bytes) | CollapseAborts.
Definition collapse_text (l : list node) : collapsed :=
  match collapse_count l with
  | None => NoCollapse
  | Some (nt, ne, len) =>
    if Nat.leb nt 1 && Nat.eqb ne 0 then NoCollapse
    else match collapse_write l with
    | Some b => Collapsed (len + 1) b
    | None => CollapseAborts
    end
  end.

(** json.c:1600-1632 fixup_json; [None] is a failing assert. *)
Fixpoint fixup_json (x : node) : option node :=
  match x with
  | Elem n a k =>
    match collapse_text k with
    | Collapsed _ b => Some (Elem n a [Part (PText (c_str b))])
    | CollapseAborts => None
    | NoCollapse =>
      option_map (Elem n a)
        ((fix each (l : list node) : option (list node) :=
            match l with
            | [] => Some []
            | y :: r =>
              match fixup_json y, each r with Some y, Some r => Some (y :: r) | _, _ => None end
            end) k)
    end
  | _ => Some x
  end.

(** ** The printer

    A printing function takes ps->last_char and gives the bytes it writes and
    the new last_char. *)
Inductive jpr :=
| JP (o : bytes) (last : N)
| JPUB
| JPUnmodelled.
Definition jprint := N -> jpr.
Definition jseq (f g : jprint) : jprint := fun c =>
  match f c with
  | JP o c1 => match g c1 with JP o' c2 => JP (o ++ o') c2 | r => r end
  | r => r
  end.
Definition nop : jprint := fun c => JP [] c.
(** print_utf8 of a text, which leaves last_char alone for the empty text; also
    write followed by an assignment to last_char. *)
Definition put (o : bytes) : jprint := fun c => JP o (List.last o c).
(** A text quoted as C by xmq_quote_as_c; the text is followed by a NUL. *)
Definition put_c (s : bytes) (q : bool) : jprint := fun c =>
  match quote_as_c s [0] q with
  | Ok o => JP o (List.last o c)
  | _ => JPUB
  end.
Declare Scope jprint_scope.
Delimit Scope jprint_scope with jprint.
Notation "f ;; g" := (jseq f g) (at level 61, right associativity) : jprint_scope.
Local Open Scope jprint_scope.

(** json.c:1446-1465 json_check_comma, json_print_comma *)
Definition check_comma : jprint := fun c =>
  if c =? 0 then JP [] c
  else if negb (c =? cLB) && negb (c =? cLBK) && negb (c =? cCOMMA) then JP [cCOMMA] cCOMMA
  else JP [] c.

(** xml_get_attribute: the value of an attribute *)
Definition get_attr (n : bytes) (a : list attr) : option (list part) :=
  option_map snd (find (fun x => beq (fst x) n) a).
Definition has_attr (n : bytes) (a : list attr) : bool :=
  match get_attr n a with Some _ => true | None => false end.
(** json.c:927-942 has_attr_other_than_AS_ *)
Definition other_attr (a : list attr) : bool :=
  existsb (fun x => negb (beq (fst x) (B "A")) && negb (beq (fst x) (B "S")) && negb (beq (fst x) (B "_"))) a.

(** xmlNodeListGetString with inLine: texts; references to entities without a
    declaration are written as references. *)
Definition parts_text (l : list part) : bytes :=
  List.concat (map (fun p => match p with PText t => t | PRef n => [cAMP] ++ n ++ [cSEMI] end) l).

(** json.c:1100-1163 json_print_value of the children [l] of an element *)
Definition child_text (x : node) : jprint :=
  match x with
  | Part (PText t) => put_c t false
  | Part (PRef n) => put ([cAMP] ++ n ++ [cSEMI])
  | _ => fun _ => JPUnmodelled
  end.
Definition json_value (l : list node) (force_string : bool) : jprint :=
  match l with
  | [Part (PText t)] =>
    if negb force_string && (json_is_number t || json_is_keyword t) then put t
    else match t with
    | [] => put [cDQ; cDQ]
    | _ => put [cDQ] ;; put_c t false ;; put [cDQ]
    end
  | Part (PText _) :: _ => put [cDQ] ;; fold_right (fun x f => child_text x ;; f) (put [cDQ]) l
  | Part (PRef n) :: _ => fun _ => JPUnmodelled
  | _ => fun _ => JPUnmodelled
  end.

(** json.c:1376-1425 json_print_element_name *)
Definition element_name (n : bytes) (a : list attr) (total used : nat) : jprint :=
  put [cDQ] ;;
  (if negb (beq n [cUND]) then put n
   else match get_attr [cUND] a with
   | Some v => put_c (parts_text v) false
   | None => nop
   end) ;;
  (if Nat.ltb 1 total then put ([cLBK] ++ decimal (N.of_nat used) ++ [cRBK]) else nop) ;;
  put [cDQ].

(** json.c:1206-1243 json_print_attribute *)
Definition attribute (x : attr) : jprint :=
  let '(n, v) := x in
  if beq n [cUND] then nop
  else check_comma ;; put [cDQ; cUND] ;; put_c n false ;; put [cDQ; cCOLON] ;;
    match v with [] => put (B "null") | _ => put_c (parts_text v) true end.
(** json.c:1270-1289 json_print_attributes *)
Definition attributes (a : list attr) : jprint := fold_right (fun x f => attribute x ;; f) nop a.

(** The name of a node: libxml2 calls text nodes text and comments comment. *)
Definition node_name (x : node) : bytes :=
  match x with
  | Elem n _ _ => n
  | Part (PText _) => B "text"
  | Part (PRef n) => n
  | Comment _ => B "comment"
  | PI n _ => n
  | Doctype n => n
  end.
(** json.c:863-887 the number of children of each name, except for the
    underscore, for which it is 1; json.c:889-906 and how many came before.  The
    counters are kept in a hash map in the code (C11). *)
Definition count_name (n : bytes) (l : list node) : nat :=
  List.length (filter (fun x => beq (node_name x) n) l).
Definition total_of (x : node) (all : list node) : nat :=
  if beq (node_name x) [cUND] then 1%nat else count_name (node_name x) all.
Definition used_of (x : node) (before : list node) : nat :=
  if beq (node_name x) [cUND] then 0%nat else count_name (node_name x) before.

Definition is_part (x : node) : bool := match x with Part _ => true | _ => false end.
(** xml.c:153-177 is_key_value_node for an element with the children l *)
Definition is_key_value (l : list node) : bool :=
  match l with [] => false | _ => forallb is_part l end.

(** json.c:1467-1492 json_print_comment_node inside of the root *)
Definition indexed (n : bytes) (total used : nat) : bytes :=
  [cDQ] ++ n ++ (if Nat.ltb 1 total then [cLBK] ++ decimal (N.of_nat used) ++ [cRBK] else []) ++ [cDQ; cCOLON].
Definition comment_node (t : bytes) (total used : nat) : jprint :=
  check_comma ;; put (indexed (B "//") total used) ;; put [cDQ] ;; put_c t false ;; put [cDQ].
(** json.c:1522-1540 json_print_standalone_quote *)
Definition text_node (t : bytes) (total used : nat) : jprint :=
  check_comma ;; put (indexed (B "|") total used) ;; put [cDQ] ;; put_c t false ;; put [cDQ].
(** json.c:1512-1520 json_print_entity_node *)
Definition entity_node (n : bytes) : jprint :=
  check_comma ;; put ([cDQ; cAMP; cDQ; cCOLON; cDQ; cAMP] ++ n ++ [cSEMI; cDQ]).

(** json.c:1556-1598 json_print_leaf_node, which is only called with a
    container *)
Definition leaf_node (n : bytes) (a : list attr) (total used : nat) : jprint :=
  check_comma ;;
  (if beq n [cUND] then nop else element_name n a total used ;; put [cCOLON]) ;;
  (if has_attr (B "A") a then put [cLBK; cRBK]
   else match a with
   | [] => put [cLB; cRB]
   | _ => put [cLB] ;; attributes a ;; put [cRB]
   end).

(** The loops over the children; [before] are those already printed. *)
Fixpoint each (f : list node -> node -> jprint) (before l : list node) : jprint :=
  match l with
  | [] => nop
  | x :: r => f before x ;; each f (before ++ [x]) r
  end.

(** json.c:944-1011 json_print_node; [fuel] is the height of the node.
    [container]: there is a containing element.
    json.c:863-908 json_print_object_nodes, json.c:910-925
    json_print_array_nodes (the content of an element is a null pointer, so that
    is_number and is_keyword are false there), json.c:1165-1204
    json_print_array_with_children, json.c:1291-1374
    json_print_element_with_children, json.c:1427-1444 json_print_key_node. *)
Fixpoint json_node (fuel : nat) (container : bool) (total used : nat) (x : node) : jprint :=
  match fuel with
  | O => fun _ => JPUnmodelled
  | S f =>
    match x with
    | Comment t => comment_node t total used
    | Part (PText t) => text_node t total used
    | Part (PRef n) => entity_node n
    | PI _ _ | Doctype _ => fun _ => JPUnmodelled
    | Elem n a k =>
      let kids := each (fun before y => json_node f true (total_of y k) (used_of y before) y) [] k in
      let items := each (fun _ y =>
        check_comma ;;
        match y with
        | Elem _ b l => if has_attr (B "S") b then json_value l true else json_node f false 1 0 y
        | _ => json_node f false 1 0 y
        end) [] k in
      let key t u := if container then element_name n a t u ;; put [cCOLON] else nop in
      if match k with [] => container | _ => false end then leaf_node n a total used
      else if is_key_value k && negb (other_attr a) then
        check_comma ;; key total used ;; json_value k (has_attr (B "S") a)
      else if has_attr (B "A") a then
        check_comma ;; key 1%nat 0%nat ;; put [cLBK] ;; items ;; put [cRBK]
      else
        check_comma ;; key total used ;; put [cLB] ;;
        (if negb container && negb (beq n [cUND])
         then check_comma ;; put (B """_"":") ;; element_name n a total used else nop) ;;
        attributes a ;; kids ;; put [cRB]
    end
  end.

Fixpoint height (x : node) : nat :=
  match x with
  | Elem _ _ k => S (fold_right (fun y m => Nat.max (height y) m) 0%nat k)
  | _ => 1%nat
  end.
Inductive json_out := JText (o : bytes) | JTUndefined | JTAborts | JTUnmodelled.
(** xmq.c:2733-2758 xmq_print_json of a document with a single element *)
Definition print_json (d : list node) : json_out :=
  match d with
  | [Elem n a k] =>
    match fixup_json (Elem n a k) with
    | None => JTAborts
    | Some x =>
      match (json_node (height x) false 1 0 x ;; put [cNL]) 0 with
      | JP o _ => JText o
      | JPUB => JTUndefined
      | JPUnmodelled => JTUnmodelled
      end
    end
  | _ => JTUnmodelled
  end.
