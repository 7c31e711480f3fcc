(** Model of the flag for ambiguous texts that build_parse_tree sets (yaep.c:6898-6906,
    7224), and of the warning that xmqParseBufferWithIXML prints (xmq.c:4644-4646), for one
    parse.  The walk is the one of YaepTree.v, with the flag beside it
    (YaepAmbProofs.walk_same).  Rules are the same here if their sides are the same; in the
    code a rule that is given twice is two rules (yaep.c:3650-3697), so the model is one of
    the code for grammars that give every rule once. *)
From Coq Require Import NArith ZArith List Bool Arith String.
From Verif Require Import Bytes Outcome Ixml Yaep YaepParse YaepTree.
Import ListNotations.
Local Open Scope list_scope.
Local Open Scope out_scope.

Section Flag.
Variable y : ystate.
Variable sets : list sset.
(** yaep.c:6837-6913: a second candidate sets the flag and ends the loop. *)
Fixpoint pick_flag (r : rule) (pos from k : nat) (x : bytes) (l : list item) (found : option (drule * nat)) : out (option (drule * nat) * bool) :=
  match l with
  | [] => Ok (found, false)
  | (d, m) :: l =>
    if (k <? m)%nat then UB
    else
      match nth_error sets (k - m) with
      | None => UB
      | Some c =>
        if has_vector c x then
          if existsb (fun e : item => drule_eqb (fst e) (r, pos) && (from + snd e =? k - m)%nat) (predicted c x)
          then match found with None => pick_flag r pos from k x l (Some (d, (k - m)%nat)) | Some _ => Ok (found, true) end
          else pick_flag r pos from k x l found
        else Abrt
      end
  end.
(** yaep.c:6720-7109 *)
Fixpoint walk_flag (fuel : nat) (r : rule) (pos from k : nat) (acc : list dtree) : out (list dtree * bool) :=
  match fuel with
  | O => NoFuel
  | S fuel =>
    match pos with
    | O => Ok (acc, false)
    | S pos =>
      match nth_error (snd r) pos with
      | None => UB
      | Some x =>
        if mem x (ys_terms y) then
          match k with
          | O => UB
          | S k => walk_flag fuel r pos from k (DTerm x :: acc)
          end
        else
          match nth_error sets k with
          | None => UB
          | Some s =>
            match ends_of s x with
            | [] => Abrt
            | l =>
              ' (c, b) <- pick_flag r pos from k x l None ;
              match c with
              | None => Abrt
              | Some (d, k') =>
                ' (ks, b1) <- walk_flag fuel (fst d) (snd d) k' k [] ;
                ' (res, b2) <- walk_flag fuel r pos from k' (DNode (fst d) ks :: acc) ;
                Ok (res, b || b1 || b2)
              end
            end
          end
      end
    end
  end.
(** yaep.c:6665-6718, 7110-7161, 7224: the flag is false before. *)
Definition build_flag (fuel : nat) : out (option dtree * bool) :=
  if has_tree sets then
    match sets with
    | [] => UB
    | s0 :: _ =>
      match s_started (last sets s0) with
      | [] => UB
      | (d, m) :: _ =>
        ' (ks, b) <- walk_flag fuel (fst d) (snd d) 0 (List.length sets - 1)%nat [] ;
        match ks with t :: _ => Ok (Some t, b) | [] => Abrt end
      end
    end
  else Ok (None, false).
End Flag.
