(** Model of build_parse_tree (yaep.c:6640-7161) for one parse without costs, as
    xmqParseBufferWithIXML asks for it, and for rules that all have an abstract node
    with every symbol of the right hand side as a child, as ixml_to_yaep_read_rule
    (ixml.c:1416-1508) hands them over.

    Simplifications: the stack of states is the recursion of [walk]; the children of a
    node are a list instead of the places order[pos], which are pos for these rules; a
    node names its rule, from which the name of the abstract node and its mark come
    (IxmlDoc.v has the marks); the attribute of a terminal node is left out.  At the end
    of every rule order[-1] is read at 6738, before the test at 6741; the value is not
    used, and the read is not modelled. *)
From Coq Require Import NArith ZArith List Bool Arith String.
From Verif Require Import Bytes Outcome Ixml Yaep YaepParse.
Import ListNotations.
Local Open Scope list_scope.
Local Open Scope out_scope.

(** yaep.h YaepTreeNode *)
Inductive dtree := DTerm (t : bytes) | DNode (r : rule) (ks : list dtree).

(** The completions of a symbol in a core (yaep.c:5480-5495) *)
Definition ends_of (s : sset) (x : bytes) : list item := filter (fun i : item => at_end (fst i) && beq (dlhs (fst i)) x) (items s).
(** core_symb_ids_find finds something (yaep.c:5447-5470, 5480-5495) *)
Definition has_vector (s : sset) (x : bytes) : bool := match predicted s x with [] => completed s x | _ => true end.

Section Tree.
Variable y : ystate.
Variable sets : list sset.
(** yaep.c:6837-6913: the first of the completions [l] in the set [k] that
    goes with the rule [r] with its dot before the symbol [x] at [pos], started at
    [from].  The loop goes on up to a second one, which only says that the grammar is
    ambiguous. *)
Fixpoint pick (r : rule) (pos from k : nat) (x : bytes) (l : list item) (found : option (drule * nat)) : out (option (drule * nat)) :=
  match l with
  | [] => Ok found
  | (d, m) :: l =>
    if (k <? m)%nat then UB
    else
      match nth_error sets (k - m) with
      | None => UB
      | Some c =>
        if has_vector c x then
          if existsb (fun e : item => drule_eqb (fst e) (r, pos) && (from + snd e =? k - m)%nat) (predicted c x)
          then match found with None => pick r pos from k x l (Some (d, (k - m)%nat)) | Some _ => Ok found end
          else pick r pos from k x l found
        else Abrt
      end
  end.
(** yaep.c:6720-7109: the symbols of [r] before [pos], from the last one to the first,
    for the text from [from] to [k].  If there are no completions, 6830 reads from a
    null pointer or its assertion fails. *)
Fixpoint walk (fuel : nat) (r : rule) (pos from k : nat) (acc : list dtree) : out (list dtree) :=
  match fuel with
  | O => NoFuel
  | S fuel =>
    match pos with
    | O => Ok acc
    | S pos =>
      match nth_error (snd r) pos with
      | None => UB
      | Some x =>
        if mem x (ys_terms y) then
          match k with
          | O => UB
          | S k => walk fuel r pos from k (DTerm x :: acc)
          end
        else
          match nth_error sets k with
          | None => UB
          | Some s =>
            match ends_of s x with
            | [] => Abrt
            | l =>
              c <- pick r pos from k x l None ;
              match c with
              | None => Abrt
              | Some (d, k') =>
                ks <- walk fuel (fst d) (snd d) k' k [] ;
                walk fuel r pos from k' (DNode (fst d) ks :: acc)
              end
            end
          end
      end
    end
  end.
(** yaep.c:6665-6718 and 7110-7161: the rule for the axiom has no abstract node, and
    only its first symbol is translated (5190-5203, 5273). *)
Definition build_parse_tree (fuel : nat) : out (option dtree) :=
  if has_tree sets then
    match sets with
    | [] => UB
    | s0 :: _ =>
      match s_started (last sets s0) with
      | [] => UB
      | (d, m) :: _ =>
        ks <- walk fuel (fst d) (snd d) 0 (List.length sets - 1)%nat [] ;
        match ks with t :: _ => Ok (Some t) | [] => Abrt end
      end
    end
  else Ok None.
End Tree.
