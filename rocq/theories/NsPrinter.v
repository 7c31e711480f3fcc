(** Model of the printer of the xmq format for documents with namespaces
    (parts/xmq_printer.c), without colors as in Printer.v, whose functions are
    used for everything that does not depend on namespaces. *)
From Coq Require Import NArith ZArith List Bool Arith String.
From Verif Require Import Bytes Utf8 Quote Parser Dom NsDom Printer.
Import ListNotations.
Local Open Scope N_scope.
Local Open Scope op_scope.

(** xmq_internals.c:403-426 attr_strlen_name_prefix and 448-477
    element_strlen_name_prefix: the width of a name with its prefix *)
Definition qwidth (p : option bytes) (n : bytes) : nat :=
  match p with None => u_len n | Some p => (u_len n + u_len p + 1)%nat end.
(** xmq_internals.c:428-446 namespace_strlen_prefix *)
Definition decl_width (d : decl) : nat :=
  match d_prefix d with None => 5%nat | Some p => (5 + u_len p + 1)%nat end.

Section settings.
Variable C : cfg.

(** xmq_printer.c:302-312 and 870-874, the prefix and its colon *)
Definition v_prefix (p : option bytes) : op :=
  match p with None => nop | Some p => print_str p ;; print_str [cCOLON] end.

(** xmq_printer.c:859-886 print_attribute *)
Definition v_attribute (align : nat) (a : vattr) : op :=
  space_attribute C ;; v_prefix (va_prefix a) ;; print_str (va_name a) ;;
  when (has_value (va_value a))
    (print_equals C (1 + Z.of_nat align - Z.of_nat (qwidth (va_prefix a) (va_name a))) ;;
     print_value C Parser.LAttr (va_value a)).

(** xmq_printer.c:888-922 print_namespace_declaration: the uri is not
    compounded. *)
Definition v_declaration (align : nat) (d : decl) : op :=
  space_attribute C ;; print_str (B "xmlns") ;;
  match d_prefix d with None => nop | Some p => print_str [cCOLON] ;; print_str p end ;;
  match d_uri d with
  | None => nop
  | Some u => print_equals C (1 + Z.of_nat align - Z.of_nat (decl_width d)) ;; print_text C Parser.LAttr u
  end.

(** xmq_printer.c:924-950 print_attributes; xmq_internals.c:530-546
    find_attr_key_max_u_width and 582-596 find_namespace_max_u_width *)
Definition v_width (l : list vattr) (ds : list decl) : nat :=
  fold_right Nat.max 0%nat (map (fun a => qwidth (va_prefix a) (va_name a)) l ++ map decl_width ds).
Fixpoint v_attribute_list (align : nat) (l : list vattr) : op :=
  match l with [] => nop | a :: r => v_attribute align a ;; v_attribute_list align r end.
Fixpoint v_declaration_list (align : nat) (l : list decl) : op :=
  match l with [] => nop | a :: r => v_declaration align a ;; v_declaration_list align r end.
Definition v_attributes (l : list vattr) (ds : list decl) : op :=
  let align := if compact C then 0%nat else v_width l ds in
  ask p_line (fun old =>
    set_line p_cur ;; v_attribute_list align l ;; v_declaration_list align ds ;;
    set_line (fun _ => old)).

(** xmq_printer.c:288-337 print_element_name_and_attributes *)
Definition v_name (p : option bytes) (name : bytes) (a : list vattr) (ds : list decl) : op :=
  space_key C ;; v_prefix p ;; print_str name ;;
  match a, ds with
  | [], [] => nop
  | _, _ => print_str [cLP] ;; v_attributes a ds ;; print_str [cRP]
  end.

(** xml.c:153-178 is_key_value_node *)
Fixpoint v_parts (k : list vnode) : option (list part) :=
  match k with
  | [] => Some []
  | VPart p :: r => match v_parts r with Some ps => Some (p :: ps) | None => None end
  | _ => None
  end.
Definition v_key_value (k : list vnode) : option (list part) :=
  match k with [] => None | _ => v_parts k end.

(** xmq_internals.c:553-577 find_element_key_max_width: declarations are not
    attributes here. *)
Definition v_plain_key (x : vnode) : option nat :=
  match x with
  | VElem p _ n _ [] k => match v_key_value k with Some _ => Some (qwidth p n) | None => None end
  | _ => None
  end.
Fixpoint v_key_width (l : list vnode) : nat * option nat :=
  match l with
  | [] => (0%nat, None)
  | x :: r =>
    match v_plain_key x with
    | None => (0%nat, Some 0%nat)
    | Some w => let '(m, k) := v_key_width r in
                (Nat.max w m, match k with Some k => Some (S k) | None => None end)
    end
  end.
Definition v_find_width (l : list vnode) : nat * option nat :=
  match v_key_width l with (m, Some 0%nat) => (m, Some 1%nat) | r => r end.

(** xmq_printer.c:453-499 print_node and 153-171 print_nodes *)
Fixpoint v_node (align : nat) (x : vnode) : op :=
  match x with
  | VPart (PText t) => ask p_line (fun old => print_text C LXmq t ;; set_line (fun _ => old))
  | VPart (PRef n) => print_entity C n
  | VComment t => print_comment C t
  | VPI n c => print_pi C n c
  | VDoctype c => print_doctype C c
  | VElem p _ n ds a k =>
    match k with
    | [] => v_name p n a ds
    | _ =>
      match v_key_value k with
      | Some ps =>
        v_name p n a ds ;;
        ask id (fun s =>
          let len := (p_cur s - p_line s)%Z in
          print_equals C (if ((0 <=? len) && (len <? Z.of_nat align))%Z then 1 + Z.of_nat align - len else 1)) ;;
        print_value C LElem ps
      | None =>
        v_name p n a ds ;; space_opening_brace C ;; print_str [cLB] ;;
        set_line (fun s => p_line s + add_indent C)%Z ;;
        (fix nodes (align : nat) (again : option nat) (l : list vnode) : op :=
           match l with
           | [] => nop
           | x :: r =>
             let '(align, again) :=
               match again with
               | Some O => if compact C then (align, again) else v_find_width l
               | _ => (align, again)
               end in
             v_node align x ;;
             nodes align (match again with Some (S m) => Some m | _ => again end) r
           end) 0%nat (Some 0%nat) k ;;
        set_line (fun s => p_line s - add_indent C)%Z ;;
        space_closing_brace C ;; print_str [cRB]
      end
    end
  end.
Fixpoint v_nodes (align : nat) (again : option nat) (l : list vnode) : op :=
  match l with
  | [] => nop
  | x :: r =>
    let '(align, again) :=
      match again with
      | Some O => if compact C then (align, again) else v_find_width l
      | _ => (align, again)
      end in
    v_node align x ;;
    v_nodes align (match again with Some (S m) => Some m | _ => again end) r
  end.

(** xmq.c:2925-2958 xmq_print_xmq *)
Definition v_print_doc (d : list vnode) : bytes * bool :=
  match d with
  | [] => ([], true)
  | _ => let '(o, s) := v_nodes 0 (Some 0%nat) d (PR 0 0 0 true) in (o ++ [cNL], p_ok s)
  end.

End settings.
