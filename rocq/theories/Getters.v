(** Model of the getters of the API (xmq.c:3747-3955): xmqForeach and
    xmqForeachRel, xmqGetName, xmqGetContent, xmqGetString, xmqGetInt and
    xmqGetLong with their Rel forms.  Not modelled: xmqGetDouble (atof).

    The nodes that an xpath selects are libxml2's business: they are a
    parameter, elements and attributes in the order in which libxml2 gives them.
    [None]/[Some] is the pointer NULL or not. *)
From Coq Require Import NArith ZArith List Bool String.
From Verif Require Import Bytes Outcome Quote Dom Clines.
Import ListNotations.
Local Open Scope N_scope.
Local Open Scope list_scope.

(** What an xpath can select *)
Inductive target := TNode (x : node) | TAttr (a : attr).

(** libxml2: the content of a reference that xmlNewReference made to an
    entity that is predefined; NULL for others. *)
Definition entity_content (n : bytes) : option bytes :=
  if beq n (B "lt") then Some [60]
  else if beq n (B "gt") then Some [62]
  else if beq n (B "amp") then Some [38]
  else if beq n (B "quot") then Some [34]
  else if beq n (B "apos") then Some [39]
  else None.
(** libxml2: the field content of a child *)
Definition part_content (p : part) : option bytes :=
  match p with PText t => Some t | PRef n => entity_content n end.
Definition kid_content (x : node) : option bytes :=
  match x with
  | Elem _ _ _ => None
  | Part p => part_content p
  | Comment t => Some t
  | PI _ c => Some c
  | Doctype _ => None
  end.

(** xmq.c:3799-3807 xmqGetName *)
Definition get_name (t : target) : bytes :=
  match t with
  | TNode (Elem n _ _) | TNode (PI n _) | TNode (Doctype n) => n
  | TNode (Part (PText _)) => B "text"
  | TNode (Part (PRef n)) => n
  | TNode (Comment _) => B "comment"
  | TAttr (k, _) => k
  end.
(** xmq.c:3809-3817 xmqGetContent, and what xmq.c:3819-3831
    catch_single_content stores: the content of the first child. *)
Definition get_content (t : target) : option bytes :=
  match t with
  | TNode (Elem _ _ (k :: _)) => kid_content k
  | TNode (Part (PRef n)) => entity_content n
  | TAttr (_, p :: _) => part_content p
  | _ => None
  end.

(** xmq.c:3759-3797 xmqForeachRel on the nodes that were found: the callback is
    called until it says stop; the number of hits is that of all nodes. *)
Fixpoint foreach_loop {U : Type} (cb : target -> U -> U * bool) (ts : list target) (u : U) : U :=
  match ts with
  | [] => u
  | t :: r => let '(u, stop) := cb t u in if stop then u else foreach_loop cb r u
  end.
Definition foreach {U : Type} (cb : target -> U -> U * bool) (ts : list target) (u : U) : nat * U :=
  (List.length ts, foreach_loop cb ts u).

(** xmq.c:3819-3831 catch_single_content *)
Definition catch_single_content (t : target) (u : option bytes) : option bytes * bool := (get_content t, true).

(** xmq.c:3899-3906 xmqGetStringRel *)
Definition get_string (ts : list target) : option bytes := snd (foreach catch_single_content ts None).

(** The value that strtol finds, before it is cut to the range of long: white
    space, a sign, 0x for base 16, digits. *)
Definition c_isspace (c : N) : bool := in_range 9 13 c || (c =? 32).
Fixpoint skip_spaces (s : bytes) : bytes :=
  match s with c :: r => if c_isspace c then skip_spaces r else s | [] => [] end.
Definition c_value (base : Z) (s : bytes) : Z :=
  match skip_spaces s with
  | c :: r => if c =? cMINUS then (- digits base (skip_0x base r) 0)%Z
              else if c =? 43 then digits base (skip_0x base r) 0
              else digits base (skip_0x base (c :: r)) 0
  | [] => 0%Z
  end.
(** strtol: cut to the range of long *)
Definition c_strtol (base : Z) (s : bytes) : Z := Z.max (Z.min (c_value base s) LONG_MAX) (- LONG_MAX - 1).
Definition INT_MAX : Z := 2147483647.
(** atoi and atol: undefined if the value is not in the range (C11 7.22.1). *)
Definition atoi (s : bytes) : out Z :=
  let v := c_value 10 s in if ((- INT_MAX - 1 <=? v) && (v <=? INT_MAX))%Z%bool then Ok v else UB.
Definition atol (s : bytes) : out Z :=
  let v := c_value 10 s in if ((- LONG_MAX - 1 <=? v) && (v <=? LONG_MAX))%Z%bool then Ok v else UB.

(** xmq.c:3845-3861: the number in a text.  The conversion from int64_t to
    int32_t keeps the low 32 bits. *)
Definition int_of (s : bytes) : out Z :=
  match s with
  | a :: b :: _ =>
    if (a =? 48) && (b =? 120) then Ok (to_int (c_strtol 16 s))
    else if a =? 48 then Ok (to_int (c_strtol 8 s))
    else atoi s
  | [a] => if a =? 48 then Ok (to_int (c_strtol 8 s)) else atoi s
  | [] => atoi s
  end.
(** xmq.c:3874-3890 *)
Definition long_of (s : bytes) : out Z :=
  match s with
  | a :: b :: _ =>
    if (a =? 48) && (b =? 120) then Ok (c_strtol 16 s)
    else if a =? 48 then Ok (c_strtol 8 s)
    else atol s
  | [a] => if a =? 48 then Ok (c_strtol 8 s) else atol s
  | [] => atol s
  end.
(** xmq.c:3838-3861 xmqGetIntRel *)
Definition get_int (ts : list target) : out Z :=
  match snd (foreach catch_single_content ts None) with None => Ok 0%Z | Some s => int_of s end.
(** xmq.c:3868-3890 xmqGetLongRel *)
Definition get_long (ts : list target) : out Z :=
  match snd (foreach catch_single_content ts None) with None => Ok 0%Z | Some s => long_of s end.
