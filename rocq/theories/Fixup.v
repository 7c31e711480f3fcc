(** Model of what is done to a document before it is written as xml or html
    (xmq.c:3239-3322) and after one has been read (xmq.c:3381-3433). *)
From Coq Require Import NArith ZArith List Bool String.
From Verif Require Import Bytes Outcome Detect Dom Getters.
Import ListNotations.
Local Open Scope N_scope.
Local Open Scope list_scope.
Local Open Scope out_scope.

(** strcasecmp with a name in small letters *)
Definition small (c : N) : N := if (65 <=? c) && (c <=? 90) then c + 32 else c.
Definition same_name (n m : bytes) : bool := beq (map small n) m.
(** xmq.c:3291-3297: what is in these is not parsed by browsers. *)
Definition cdata_name (n : bytes) : bool := same_name n (B "style") || same_name n (B "script").
(** libxml2: the field name *)
Definition node_name (x : node) : bytes := get_name (TNode x).

(** xmq.c:3269-3280: the text for a reference; one byte for a number. *)
Definition reference_text (n : bytes) : out bytes :=
  match entity_content n with
  | Some c => Ok c
  | None =>
    match n with
    | h :: r => if h =? cHASH then v <- atoi r ; Ok (let b := Z.to_N (v mod 256) in if b =? 0 then [] else [b])
                else Ok []
    | [] => Ok []
    end
  end.
(** xmq.c:3239-3309 fixup_html *)
Fixpoint fixup_html (inside : bool) (x : node) : out node :=
  match x with
  | Comment t => Ok (Comment (comment_to_xml t))
  | Part (PRef n) => if inside then t <- reference_text n ; Ok (Part (PText t)) else Ok x
  | Elem n ats kids =>
    kids' <- (fix all (l : list node) : out (list node) :=
                match l with
                | [] => Ok []
                | k :: r => k' <- fixup_html (inside || cdata_name (node_name k)) k ; r' <- all r ; Ok (k' :: r')
                end) kids ;
    Ok (Elem n ats kids')
  | _ => Ok x
  end.
(** xmq.c:3311-3322 xmq_fixup_html_before_writeout *)
Fixpoint before_writeout (d : list node) : out (list node) :=
  match d with
  | [] => Ok []
  | k :: r => k' <- fixup_html false k ; r' <- before_writeout r ; Ok (k' :: r')
  end.
(** xmq.c:3381-3416 fixup_comments *)
Fixpoint fixup_comments (x : node) : node :=
  match x with
  | Comment t => Comment (comment_from_xml t)
  | Elem n ats kids => Elem n ats (map fixup_comments kids)
  | _ => x
  end.
(** xmq.c:3418-3432 xmq_fixup_comments_after_readin *)
Definition after_readin (d : list node) : list node := map fixup_comments d.
