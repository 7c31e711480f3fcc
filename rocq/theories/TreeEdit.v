(** Model of the commands of xmq-cli.c that change references to entities and
    that count: delete-entity (2511-2553), replace-entity (2590-2691),
    substitute-entity and substitute-char-entities (2693-2762), add-root
    (2339-2363) and statistics (2365-2509).

    A document is the list of its top nodes (Dom.v): no CDATA nodes, no
    namespaces, no declarations in the doctype. *)
From Coq Require Import NArith ZArith List Bool String.
From Verif Require Import Bytes Outcome Utf8 Quote Dom JsonPrint.
Import ListNotations.
Local Open Scope N_scope.
Local Open Scope list_scope.
Local Open Scope out_scope.

(** ** delete-entity *)

(** xmq-cli.c:2511-2531 delete_all_entities: what remains of a node.  Attributes
    are not visited. *)
Fixpoint delete_all_entities (e : bytes) (x : node) : list node :=
  match x with
  | Part (PRef n) => if beq e n then [] else [x]
  | Elem n ats kids => [Elem n ats (flat_map (delete_all_entities e) kids)]
  | _ => [x]
  end.
(** xmq-cli.c:2533-2545 delete_entities *)
Definition delete_entities (e : bytes) (d : list node) : list node := flat_map (delete_all_entities e) d.

(** ** replace-entity *)

(** What the reference is replaced with: a text (the argument content), or a
    copy of a node (the argument node_content). *)
Inductive replacement := RText (t : bytes) | RNode (x : node).
Definition new_node (r : replacement) : node := match r with RText t => Part (PText t) | RNode x => x end.

(** xmq-cli.c:2590-2656 replace_entity for the children of an attribute;
    [rprev] are the siblings before, the nearest first.  xmlTextMerge appends the
    second text to the first.  A node that is not a text among the children of
    an attribute is not a document of the model: [None]. *)
Fixpoint replace_parts (e : bytes) (r : replacement) (rprev l : list part) : option (list part) :=
  match l with
  | [] => Some (rev rprev)
  | PRef n :: l' =>
    if beq n e then
      match new_node r with
      | Part (PText t) =>
        match rprev with
        | PText u :: rp =>
          match l' with
          | PText w :: l'' => replace_parts e r (PText (u ++ t ++ w) :: rp) l''
          | _ => replace_parts e r (PText (u ++ t) :: rp) l'
          end
        | _ => replace_parts e r (PText t :: rprev) l'
        end
      | Part p => replace_parts e r (p :: rprev) l'
      | _ => None
      end
    else replace_parts e r (PRef n :: rprev) l'
  | p :: l' => replace_parts e r (p :: rprev) l'
  end.
Fixpoint replace_attrs (e : bytes) (r : replacement) (ats : list attr) : option (list attr) :=
  match ats with
  | [] => Some []
  | (k, ps) :: ats' =>
    match replace_parts e r [] ps, replace_attrs e r ats' with
    | Some ps', Some ats'' => Some ((k, ps') :: ats'')
    | _, _ => None
    end
  end.
(** xmq-cli.c:2590-2656 replace_entity for a node that is not a reference, with
    the loop over its children. *)
Fixpoint replace_entity (e : bytes) (r : replacement) (x : node) : option node :=
  match x with
  | Elem n ats kids =>
    match replace_attrs e r ats with
    | None => None
    | Some ats' =>
      match (fix go (rprev l : list node) : option (list node) :=
               match l with
               | [] => Some (rev rprev)
               | Part (PRef n) :: l' =>
                 if beq n e then
                   match new_node r with
                   | Part (PText t) =>
                     match rprev with
                     | Part (PText u) :: rp =>
                       match l' with
                       | Part (PText w) :: l'' => go (Part (PText (u ++ t ++ w)) :: rp) l''
                       | _ => go (Part (PText (u ++ t)) :: rp) l'
                       end
                     | _ => go (Part (PText t) :: rprev) l'
                     end
                   | y => go (y :: rprev) l'
                   end
                 else go (Part (PRef n) :: rprev) l'
               | y :: l' => match replace_entity e r y with Some y' => go (y' :: rprev) l' | None => None end
               end) [] kids with
      | Some kids' => Some (Elem n ats' kids')
      | None => None
      end
    end
  | _ => Some x
  end.
(** xmq-cli.c:2658-2668 replace_entities: after a reference at the top has been
    replaced, its link to the next node is used, although it has been freed.
    Without any node nothing happens. *)
Fixpoint replace_entities (e : bytes) (r : replacement) (d : list node) : out (option (list node)) :=
  match d with
  | [] => Ok (Some [])
  | Part (PRef n) :: d' =>
    if beq n e then UB
    else q <- replace_entities e r d' ; Ok (option_map (cons (Part (PRef n))) q)
  | x :: d' =>
    q <- replace_entities e r d' ;
    Ok match replace_entity e r x, q with Some x', Some d'' => Some (x' :: d'') | _, _ => None end
  end.
(** libxml2 xmlDocGetRootElement: is there an element at the top? *)
Definition has_root (d : list node) : bool := existsb (fun x => match x with Elem _ _ _ => true | _ => false end) d.
(** xmq-cli.c:2670-2691 cmd_replace: the root element may not be NULL. *)
Definition cmd_replace (e : bytes) (r : replacement) (d : list node) : out (option (list node)) :=
  if has_root d then replace_entities e r d else UB.

(** ** substitute-entity *)

(** xmq-cli.c:2693-2735 substitute_entity.  A reference is never a content
    node, so that references to named entities stay.  A failing assert in
    encode_utf8 is [None]. *)
Fixpoint substitute_entity (e : option bytes) (x : node) : option node :=
  match x with
  | Part (PRef n) =>
    if match e with None => true | Some e => beq n e end then
      match n with
      | h :: _ => if h =? cHASH then
                    match encode_utf8 (decode_entity_ref n) with
                    | Some b => Some (Part (PText (c_str b)))
                    | None => None
                    end
                  else Some x
      | [] => Some x
      end
    else Some x
  | Elem n ats kids =>
    match (fix go (l : list node) : option (list node) :=
             match l with
             | [] => Some []
             | y :: l' => match substitute_entity e y, go l' with Some y', Some l'' => Some (y' :: l'') | _, _ => None end
             end) kids with
    | Some kids' => Some (Elem n ats kids')
    | None => None
    end
  | _ => Some x
  end.
(** xmq-cli.c:2737-2762 cmd_substitute: only the first node of the document. *)
Definition cmd_substitute (e : option bytes) (d : list node) : out (list node) :=
  if has_root d then
    match d with
    | x :: d' => match substitute_entity e x with Some x' => Ok (x' :: d') | None => Abrt end
    | [] => Ok []
    end
  else UB.

(** ** add-root *)

(** xmq-cli.c:2339-2363 cmd_add_root; xmlAddChild merges a text with a text
    before it. *)
Definition add_child (rkids : list node) (x : node) : list node :=
  match x with Part p => add_part_kid p rkids | _ => x :: rkids end.
Definition cmd_add_root (name : bytes) (d : list node) : list node :=
  [Elem name [] (rev (fold_left add_child d []))].

(** ** statistics *)

(** xmq-cli.c Stats *)
Record stats := Stats {
  num_elements : nat; size_element_names : nat;
  num_text_nodes : nat; size_text_nodes : nat;
  num_attributes : nat; size_attribute_names : nat; size_attribute_content : nat;
  num_comments : nat; size_comments : nat;
  num_entities : nat; size_entities : nat;
  has_doctype : nat; size_doctype : nat }.
Definition no_stats : stats := Stats 0 0 0 0 0 0 0 0 0 0 0 0 0.

(** xmq-cli.c:2453-2460 accumulate_attribute_content *)
Definition accumulate_attribute_content (s : stats) (p : part) : stats :=
  match p with
  | PText t => Stats (num_elements s) (size_element_names s) (num_text_nodes s) (size_text_nodes s) (num_attributes s) (size_attribute_names s)
                 (size_attribute_content s + List.length t) (num_comments s) (size_comments s) (num_entities s) (size_entities s) (has_doctype s) (size_doctype s)
  | PRef _ => s
  end.
(** xmq-cli.c:2384-2397 accumulate_attribute *)
Definition accumulate_attribute (s : stats) (a : attr) : stats :=
  fold_left accumulate_attribute_content (snd a)
    (Stats (num_elements s) (size_element_names s) (num_text_nodes s) (size_text_nodes s) (S (num_attributes s)) (size_attribute_names s + List.length (fst a))
       (size_attribute_content s) (num_comments s) (size_comments s) (num_entities s) (size_entities s) (has_doctype s) (size_doctype s)).
(** xmq-cli.c:2399-2451 accumulate_statistics and 2365-2382 accumulate_children.
    The name of a doctype is its first word; the model keeps the content. *)
Fixpoint accumulate_statistics (s : stats) (x : node) : stats :=
  match x with
  | Elem n ats kids =>
    let s := Stats (S (num_elements s)) (size_element_names s + List.length n) (num_text_nodes s) (size_text_nodes s) (num_attributes s) (size_attribute_names s)
               (size_attribute_content s) (num_comments s) (size_comments s) (num_entities s) (size_entities s) (has_doctype s) (size_doctype s) in
    let s := fold_left accumulate_attribute ats s in
    (fix all (s : stats) (l : list node) : stats := match l with [] => s | y :: l' => all (accumulate_statistics s y) l' end) s kids
  | Part (PText t) =>
    Stats (num_elements s) (size_element_names s) (S (num_text_nodes s)) (size_text_nodes s + List.length t) (num_attributes s) (size_attribute_names s)
      (size_attribute_content s) (num_comments s) (size_comments s) (num_entities s) (size_entities s) (has_doctype s) (size_doctype s)
  | Comment t =>
    Stats (num_elements s) (size_element_names s) (num_text_nodes s) (size_text_nodes s) (num_attributes s) (size_attribute_names s)
      (size_attribute_content s) (S (num_comments s)) (size_comments s + List.length t) (num_entities s) (size_entities s) (has_doctype s) (size_doctype s)
  | Part (PRef n) =>
    Stats (num_elements s) (size_element_names s) (num_text_nodes s) (size_text_nodes s) (num_attributes s) (size_attribute_names s)
      (size_attribute_content s) (num_comments s) (size_comments s) (S (num_entities s)) (size_entities s + List.length n) (has_doctype s) (size_doctype s)
  | Doctype t =>
    Stats (num_elements s) (size_element_names s) (num_text_nodes s) (size_text_nodes s) (num_attributes s) (size_attribute_names s)
      (size_attribute_content s) (num_comments s) (size_comments s) (num_entities s) (size_entities s) (S (has_doctype s)) (size_doctype s + List.length t)
  | PI _ _ => s
  end.
(** xmq-cli.c:2462-2472 count_statistics *)
Definition count_statistics (d : list node) : stats := fold_left accumulate_statistics d no_stats.
