(** Model of the table of yaep.c with the sets that were built before: for a set, the
    terminal that is read and the next one, up to three results with the places where
    they were built (YaepStateSetTermLookAhead, yaep.c:2653-2668). *)
From Coq Require Import NArith ZArith List Bool Arith String.
From Verif Require Import Bytes Outcome Ixml Yaep YaepParse.
Import ListNotations.
Local Open Scope list_scope.
Local Open Scope out_scope.

Fixpoint items_eqb (a b : list item) : bool :=
  match a, b with
  | [], [] => true
  | x :: a, z :: b => item_eqb x z && items_eqb a b
  | _, _ => false
  end.
(** Sets are compared by their addresses.  Since they are kept in tables by their
    started dotted rules and the matched lengths of these (yaep.c:4249-4330 set_insert), two have
    the same address if these lists are the same. *)
Definition same_set (a b : sset) : bool := items_eqb (s_started a) (s_started b).
Definition same_look (a b : option bytes) : bool :=
  match a, b with
  | None, None => true
  | Some a, Some b => beq a b
  | _, _ => false
  end.
(** yaep.c:2653-2668.  The slots are those that are filled, at most
    MAX_CACHED_GOTO_RESULTS (2287); [c_curr] is the one that is filled next. *)
Definition MAX_CACHED : nat := 3.
Record centry := CEntry { c_set : sset; c_term : bytes; c_look : option bytes; c_results : list (sset * nat); c_curr : nat }.

(** yaep.c:5919-5934 check_cached_transition_set; an index that is out of range is UB.
    [started] are the started dotted rules from the last one on. *)
Fixpoint check_cached (sets : list sset) (k place : nat) (started : list item) : out bool :=
  match started with
  | [] => Ok true
  | (_, dist) :: rest =>
    if (dist <=? 1)%nat then check_cached sets k place rest
    else if (k + 1 <? dist)%nat || (place + 1 <? dist)%nat then UB
    else
      match nth_error sets (k + 1 - dist), nth_error sets (place + 1 - dist) with
      | Some a, Some b => if same_set a b then check_cached sets k place rest else Ok false
      | _, _ => UB
      end
  end.
(** yaep.c:6003-6018 *)
Fixpoint find_result (sets : list sset) (k : nat) (l : list (sset * nat)) : out (option sset) :=
  match l with
  | [] => Ok None
  | (s, place) :: l => ok <- check_cached sets k place (rev (s_started s)) ; if ok then Ok (Some s) else find_result sets k l
  end.
Definition is_entry (set : sset) (x : bytes) (next : option bytes) (e : centry) : bool :=
  same_set (c_set e) set && beq (c_term e) x && same_look (c_look e) next.
(** yaep.c:5975-6027 lookup_cached_set *)
Definition lookup (table : list centry) (sets : list sset) (k : nat) (set : sset) (x : bytes) (next : option bytes) : out (option sset * list centry) :=
  match find (is_entry set x next) table with
  | Some e => r <- find_result sets k (c_results e) ; Ok (r, table)
  | None => Ok (None, table ++ [CEntry set x next [] 0])
  end.
(** yaep.c:6030-6037 save_cached_set *)
Fixpoint put {A} (i : nat) (x : A) (l : list A) {struct l} : list A :=
  match l, i with
  | [], _ => [x]
  | _ :: l, O => x :: l
  | a :: l, S i => a :: put i x l
  end.
Definition save_in (new : sset) (k : nat) (e : centry) : centry :=
  CEntry (c_set e) (c_term e) (c_look e) (put (c_curr e) (new, k) (c_results e)) ((c_curr e + 1) mod MAX_CACHED).
Fixpoint save (table : list centry) (set : sset) (x : bytes) (next : option bytes) (new : sset) (k : nat) : list centry :=
  match table with
  | [] => []
  | e :: table => if is_entry set x next e then save_in new k e :: table else e :: save table set x next new k
  end.

Section Parse.
Variable y : ystate.
Variable f : flags.
(** yaep.c:6054-6103 with the table; the last part of the result is n_goto_successes (6015). *)
Fixpoint parse_cached (table : list centry) (hits : nat) (sets : list sset) (set : sset) (i : nat) (toks : list bytes) : out ((option nat * list sset) * nat) :=
  match toks with
  | [] => Ok ((None, sets), hits)
  | x :: toks =>
    let next := hd_error toks in
    ' (found, table) <- lookup table sets i set x next ;
    match found with
    | Some new => parse_cached table (S hits) (sets ++ [new]) new (S i) toks
    | None =>
      match predicted set x with
      | [] => Ok ((Some i, sets), hits)
      | _ => new <- next_set y f sets set x next ; parse_cached (save table set x next new i) hits (sets ++ [new]) new (S i) toks
      end
    end
  end.
Definition perform_parse_cached (toks : list bytes) : out ((option nat * list sset) * nat) :=
  s0 <- build_start_set y f ; parse_cached [] 0 [s0] s0 0 toks.
End Parse.
