(** Model of the commands select (xmq-cli.c:2209-2256) and delete with an xpath
    (2556-2588) of xmq-cli.c, on the nodes that libxml2 selects.

    A place in a document is the path of a node, the indices of its ancestors
    and itself among their siblings in the document as it was loaded, or an
    attribute of the node at a path, by its index.  The empty path is the
    document.  What has been freed is a list of places: to use a node that is
    in a freed node is undefined. *)
From Coq Require Import NArith ZArith List Bool Arith.
From Verif Require Import Bytes Outcome Dom.
Import ListNotations.
Local Open Scope list_scope.
Local Open Scope out_scope.

Definition path := list nat.
Inductive place := AtNode (p : path) | AtAttr (p : path) (k : nat).

Fixpoint path_eqb (p q : path) : bool :=
  match p, q with [], [] => true | i :: p, j :: q => (i =? j)%nat && path_eqb p q | _, _ => false end.
Fixpoint is_prefix (p q : path) : bool :=
  match p, q with [], _ => true | i :: p, j :: q => (i =? j)%nat && is_prefix p q | _, _ => false end.
Definition node_freed (freed : list place) (p : path) : bool :=
  existsb (fun f => match f with AtNode q => path_eqb q p | _ => false end) freed.
Definition attr_freed (freed : list place) (p : path) (k : nat) : bool :=
  existsb (fun f => match f with AtAttr q j => path_eqb q p && (j =? k)%nat | _ => false end) freed.
(** xmlFreeNode frees all that is in a node. *)
Definition gone (freed : list place) (p : path) : bool :=
  existsb (fun f => match f with AtNode q => is_prefix q p | _ => false end) freed.
Definition alive (freed : list place) (f : place) : bool :=
  match f with
  | AtNode p => negb (gone freed p)
  | AtAttr p k => negb (gone freed p) && negb (attr_freed freed p k)
  end.

(** xmlUnlinkNode: what remains of the node at a path; texts are not joined. *)
Fixpoint remain_attrs (freed : list place) (p : path) (k : nat) (ats : list attr) : list attr :=
  match ats with
  | [] => []
  | a :: r => if attr_freed freed p k then remain_attrs freed p (S k) r else a :: remain_attrs freed p (S k) r
  end.
Fixpoint remain (freed : list place) (p : path) (x : node) : node :=
  match x with
  | Elem n ats kids =>
    Elem n (remain_attrs freed p 0 ats)
      ((fix go (i : nat) (l : list node) : list node :=
          match l with
          | [] => []
          | y :: r => if node_freed freed (p ++ [i]) then go (S i) r else remain freed (p ++ [i]) y :: go (S i) r
          end) 0%nat kids)
  | _ => x
  end.
Fixpoint remain_list (freed : list place) (p : path) (i : nat) (l : list node) : list node :=
  match l with
  | [] => []
  | y :: r => if node_freed freed (p ++ [i]) then remain_list freed p (S i) r else remain freed (p ++ [i]) y :: remain_list freed p (S i) r
  end.

(** xmq-cli.c:2575-2582: unlink and free, from the last to the first.  The
    document itself cannot be freed like a node. *)
Fixpoint delete_loop (freed : list place) (l : list place) : out (list place) :=
  match l with
  | [] => Ok freed
  | AtNode [] :: _ => UB
  | f :: r => if alive freed f then delete_loop (f :: freed) r else UB
  end.
(** xmq-cli.c:2556-2588 delete_xpath *)
Definition delete_xpath (d : list node) (sel : list place) : out (list node) :=
  freed <- delete_loop [] (rev sel) ; Ok (remain_list freed [] 0 d).

(** The node at a path *)
Fixpoint at_path (d : list node) (p : path) : option node :=
  match p with
  | [] => None
  | i :: r =>
    match nth_error d i, r with
    | Some x, [] => Some x
    | Some (Elem _ _ kids), _ => at_path kids r
    | _, _ => None
    end
  end.
(** xmq-cli.c:2238-2242: from an attribute, and from what is no element and no
    text, to the element around it; [None]: NULL, behind the document. *)
Definition climb (d : list node) (f : place) : option path :=
  match f with
  | AtAttr p _ => Some p
  | AtNode p =>
    match at_path d p with
    | Some (Elem _ _ _) | Some (Part (PText _)) => Some p
    | Some _ => match removelast p with [] => None | q => Some q end
    | None => None
    end
  end.
(** xmq-cli.c:2232-2248: copy, add the copy behind the last one, unlink and free.
    xml_add_root_child (parts/xml.c:289-303) uses the node unless it is the
    first one. *)
Fixpoint select_loop (d : list node) (freed : list place) (acc : list node) (l : list place) : out (list node) :=
  match l with
  | [] => Ok acc
  | f :: r =>
    if alive freed f then
      match climb d f with
      | None => match acc with [] => select_loop d freed acc r | _ => UB end
      | Some p =>
        match at_path d p with
        | Some x => select_loop d (AtNode p :: freed) (acc ++ [remain freed p x]) r
        | None => UB
        end
      end
    else UB
  end.
(** xmq-cli.c:2209-2256 cmd_select: from the last to the first *)
Definition cmd_select (d : list node) (sel : list place) : out (list node) := select_loop d [] [] (rev sel).
