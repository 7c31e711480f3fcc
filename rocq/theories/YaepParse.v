(** Model of the second half of yaep.c, as far as it decides whether a text is
    accepted: the dotted rules and their lookahead (3791-3910), the state sets
    (4062-4345), expand_new_start_set (5428-5550), build_start_set (5553-5578),
    complete_and_predict_new_state_set (5584-5705), perform_parse (6039-6110), and the
    first test of build_parse_tree (6665-6677).  The table of the sets that were built
    before (5919-5934, 5975-6037) is in YaepCache.v.

    The lookahead level is 1, as yaepNewGrammar sets it (4786), and error recovery is
    off, as xmqParseBufferWithIXML sets it without the flag for it (xmq.c:4624).
    Simplifications: a dotted rule is the rule and the place of the dot, so two rules
    with the same sides are one here; contexts are 0 at this level; the vectors of
    predictions and completions of a core are lookups in the list of its dotted
    rules. *)
From Coq Require Import NArith ZArith List Bool Arith String.
From Verif Require Import Bytes Outcome Ixml Yaep.
Import ListNotations.
Local Open Scope list_scope.
Local Open Scope out_scope.

(** yaep.c:2616-2650 YaepDottedRule *)
Definition drule := (rule * nat)%type.
Definition dlhs (d : drule) : bytes := fst (fst d).
Definition drhs (d : drule) : list bytes := snd (fst d).
Definition after (d : drule) : option bytes := nth_error (drhs d) (snd d).
Definition shift (d : drule) : drule := (fst d, S (snd d)).
Fixpoint names_eqb (a b : list bytes) : bool :=
  match a, b with
  | [], [] => true
  | x :: a, z :: b => beq x z && names_eqb a b
  | _, _ => false
  end.
Definition drule_eqb (a b : drule) : bool :=
  beq (dlhs a) (dlhs b) && names_eqb (drhs a) (drhs b) && (snd a =? snd b)%nat.
Definition after_is (x : bytes) (d : drule) : bool := match after d with Some z => beq z x | None => false end.
Definition at_end (d : drule) : bool := match after d with Some _ => false | None => true end.

(** A started dotted rule with its matched length; a dotted rule with its parent *)
Definition item := (drule * nat)%type.
Definition item_eqb (a b : item) : bool := drule_eqb (fst a) (fst b) && (snd a =? snd b)%nat.
Definition add_item (l : list item) (x : item) : list item := if existsb (item_eqb x) l then l else l ++ [x].

(** yaep.c:2549-2610 YaepStateSet and its core: the started dotted rules with their
    matched lengths, those that are not yet started with the index of their parent
    among the started ones, and the initial ones, that have matched nothing. *)
Record sset := SSet { s_started : list item; s_nys : list item; s_init : list drule }.
(** The dotted rules of a set with their matched lengths, as they are looked up at
    yaep.c:5618-5628 and 5675-5686.  A parent is the index of a started rule
    (YaepParseFacts.ex_nys). *)
Definition items (s : sset) : list item :=
  s_started s ++ map (fun p : item => (fst p, nth (snd p) (map snd (s_started s)) 0%nat)) (s_nys s) ++ map (fun d => (d, 0%nat)) (s_init s).
Definition predicted (s : sset) (x : bytes) : list item := filter (fun i : item => after_is x (fst i)) (items s).
Definition completed (s : sset) (x : bytes) : bool := existsb (fun i : item => at_end (fst i) && beq (dlhs (fst i)) x) (items s).

Section Parse.
Variable y : ystate.
Variable f : flags.
Definition empty_p (x : bytes) : bool := f (KEmpty x).

(** yaep.c:3791-3834 dotted_rule_set_lookahead *)
Fixpoint tail_has (lhs : bytes) (tail : list bytes) (t : bytes) : bool :=
  match tail with
  | [] => f (KFollow lhs t)
  | x :: r => (if mem x (ys_terms y) then beq x t else f (KFirst x t)) || (if empty_p x then tail_has lhs r t else false)
  end.
Definition look_has (d : drule) (t : bytes) : bool := tail_has (dlhs d) (skipn (snd d) (drhs d)) t.
Definition empty_tail (d : drule) : bool := forallb empty_p (skipn (snd d) (drhs d)).
(** yaep.c:5612-5617 and 5668-5675: the dotted rule is not dropped. *)
Definition look_ok (next : option bytes) (d : drule) : bool :=
  match next with None => true | Some t => look_has d t || look_has d TERM_ERROR end.

(** yaep.c:5410-5423 add_predicted_not_yet_started_dotted_rules *)
Fixpoint add_nys (r : rule) (j : nat) (tail : list bytes) (parent : nat) (l : list item) : list item :=
  match tail with
  | x :: tail => if empty_p x then add_nys r (S j) tail parent (add_item l ((r, S j), parent)) else l
  | [] => l
  end.
(** yaep.c:5441-5445 *)
Fixpoint nys_of (id : nat) (ds : list drule) (l : list item) : list item :=
  match ds with
  | [] => l
  | d :: ds => nys_of (S id) ds (add_nys (fst d) (snd d) (skipn (snd d) (drhs d)) id l)
  end.
(** yaep.c:4201-4217 set_add_initial_dotted_rule: it is not added if it is there, also
    as one that is not yet started. *)
Definition add_init (nys : list item) (l : list drule) (d : drule) : list drule :=
  if existsb (drule_eqb d) (map fst nys ++ l) then l else l ++ [d].
(** yaep.c:5447-5487: [seen] are the symbols of this core that have a vector. *)
Fixpoint grow (fuel : nat) (ds : list drule) (nys : list item) (i : nat) (seen : list bytes) (init : list drule) : out (list drule) :=
  match fuel with
  | O => NoFuel
  | S fuel =>
    match nth_error (ds ++ map fst nys ++ init) i with
    | None => Ok init
    | Some d =>
      match after d with
      | None => grow fuel ds nys (S i) seen init
      | Some x =>
        let init := if mem x seen || mem x (ys_terms y) then init
                    else fold_left (add_init nys) (map (fun r => (r, 0%nat)) (rules_of y x)) init in
        let init := if empty_p x && (List.length ds + List.length nys <=? i)%nat then add_init nys init (shift d) else init in
        grow fuel ds nys (S i) (x :: seen) init
      end
    end
  end.
(** The dotted rules there are *)
Definition all_drules : list drule := flat_map (fun r : rule => map (fun j => (r, j)) (seq 0 (S (List.length (snd r))))) (ys_rules y).
(** yaep.c:5428-5550 expand_new_start_set.  It depends on the started dotted rules
    only, not on their matched lengths; so a core that is found in the table (4289-4301)
    is the one that would be built. *)
Definition expand (started : list item) : out sset :=
  let ds := map fst started in
  let nys := nys_of 0 ds [] in
  init <- grow (S (List.length ds + List.length nys + List.length all_drules)) ds nys 0 [] [] ;
  Ok (SSet started nys init).
(** yaep.c:5553-5578 build_start_set *)
Definition build_start_set : out sset := expand (map (fun r => ((r, 0%nat), 0%nat)) (rules_of y AXIOM)).

(** yaep.c:5609-5637 and 5660-5696: the dotted rules of [l] are shifted over the symbol
    behind their dot; the matched length grows by [n]. *)
Definition shift_all (next : option bytes) (n : nat) (l : list item) (acc : list item) : list item :=
  fold_left (fun acc (i : item) => if look_ok next (shift (fst i)) then add_item acc (shift (fst i), snd i + n)%nat else acc) l acc.
(** yaep.c:5639-5698: for the started dotted rules from [i] on, whose rest can be
    empty, the ones that wait for their nonterminal are shifted.  [sets] are the sets
    0, ..., k. *)
Fixpoint complete (fuel : nat) (sets : list sset) (next : option bytes) (i : nat) (started : list item) : out (list item) :=
  match fuel with
  | O => NoFuel
  | S fuel =>
    match nth_error started i with
    | None => Ok started
    | Some (d, m) =>
      if empty_tail d then
        if (List.length sets <? m)%nat then UB
        else
          match nth_error sets (List.length sets - m) with
          | None => UB
          | Some prev =>
            match predicted prev (dlhs d) with
            | [] => if beq (dlhs d) AXIOM && negb (completed prev AXIOM) then complete fuel sets next (S i) started else Abrt
            | l => complete fuel sets next (S i) (shift_all next m l started)
            end
          end
      else complete fuel sets next (S i) started
    end
  end.
(** yaep.c:5584-5705 complete_and_predict_new_state_set *)
Definition next_set (sets : list sset) (set : sset) (x : bytes) (next : option bytes) : out sset :=
  let started := shift_all next 1 (predicted set x) [] in
  started <- complete (S (List.length all_drules * S (List.length sets))) sets next 0 started ;
  expand started.

(** yaep.c:6054-6101: the loop over the tokens from the number [i] on.  The result is
    the number of the token with the error, if there is one, and the sets. *)
Fixpoint parse_loop (sets : list sset) (set : sset) (i : nat) (toks : list bytes) : out (option nat * list sset) :=
  match toks with
  | [] => Ok (None, sets)
  | x :: toks =>
    match predicted set x with
    | [] => Ok (Some i, sets)
    | _ => new <- next_set sets set x (hd_error toks) ; parse_loop (sets ++ [new]) new (S i) toks
    end
  end.
Definition perform_parse (toks : list bytes) : out (option nat * list sset) :=
  s0 <- build_start_set ; parse_loop [s0] s0 0 toks.
(** yaep.c:6665-6677: what has to hold for build_parse_tree to give a tree *)
Definition has_tree (sets : list sset) : bool :=
  match sets with
  | [] => false
  | s0 :: _ =>
    match s_started (last sets s0) with
    | [] => false
    | (d, m) :: _ => (m =? List.length sets - 1)%nat && beq (dlhs d) AXIOM && (snd d =? List.length (drhs d))%nat
    end
  end.
End Parse.
