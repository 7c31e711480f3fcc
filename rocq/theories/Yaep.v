(** Model of the first half of yaep.c: how a grammar is read (yaep_read_grammar,
    5089-5304), and how it is analysed and checked (create_first_follow_sets,
    set_empty_access_derives, set_loop_p, check_grammar, 4852-5069).

    Symbols are their names; the hash tables from names and codes to symbols are
    lookups in lists.  Translations, costs and marks of the rules are not modelled
    here. *)
From Coq Require Import NArith ZArith List Bool Arith String.
From Verif Require Import Bytes Outcome Ixml.
Import ListNotations.
Local Open Scope list_scope.

Definition rule := (bytes * list bytes)%type.
(** The symbols in the order of their numbers (YaepSymbolStorage), and the rules in
    the order in which they were added *)
Record ystate := YState { ys_terms : list bytes; ys_nts : list bytes; ys_rules : list rule }.

Definition mem (x : bytes) (l : list bytes) : bool := existsb (beq x) l.
Definition AXIOM : bytes := B "$S".
Definition END_MARKER : bytes := B "$eof".
Definition TERM_ERROR : bytes := B "error".

(** The errors (yaep.h:69-85), with the name in the message *)
Inductive yres (A : Type) := YOk (a : A) | YError (code : N) (name : bytes).
Arguments YOk {A} a.
Arguments YError {A} code name.
Definition ybind {A C} (r : yres A) (f : A -> yres C) : yres C := match r with YOk a => f a | YError c n => YError c n end.
Definition FIXED_NAME_USAGE : N := 4.
Definition REPEATED_TERM_DECL : N := 5.
Definition NEGATIVE_TERM_CODE : N := 6.
Definition REPEATED_TERM_CODE : N := 7.
Definition NO_RULES : N := 8.
Definition TERM_IN_RULE_LHS : N := 9.
Definition UNACCESSIBLE_NONTERM : N := 14.
Definition NONTERM_DERIVATION : N := 15.
Definition LOOP_NONTERM : N := 16.

(** yaep.c:5117-5136: the terminals *)
Fixpoint read_terminals (l : list (bytes * Z)) (names : list bytes) (codes : list Z) : yres (list bytes) :=
  match l with
  | [] => YOk names
  | (n, c) :: l =>
    if (c <? 0)%Z then YError NEGATIVE_TERM_CODE n
    else if mem n names then YError REPEATED_TERM_DECL n
    else if existsb (Z.eqb c) codes then YError REPEATED_TERM_CODE n
    else read_terminals l (names ++ [n]) (codes ++ [c])
  end.

(** yaep.c:5206-5210: a name that is no symbol yet becomes a nonterminal. *)
Definition find_or_add (s : ystate) (x : bytes) : ystate :=
  if mem x (ys_terms s) || mem x (ys_nts s) then s else YState (ys_terms s) (ys_nts s ++ [x]) (ys_rules s).
Definition add_rule (r : rule) (s : ystate) : ystate := YState (ys_terms s) (ys_nts s) (ys_rules s ++ [r]).

(** yaep.c:5149-5214: a rule; with the first of them the axiom and the end marker
    are added (5174-5200). *)
Definition read_rule (first : bool) (s : ystate) (r : rule) : yres ystate :=
  let '(lhs, rhs) := r in
  if mem lhs (ys_terms s) then YError TERM_IN_RULE_LHS lhs
  else
    let s := find_or_add s lhs in
    ybind (if first then
             if mem AXIOM (ys_terms s) || mem AXIOM (ys_nts s) then YError FIXED_NAME_USAGE AXIOM
             else
               let s := find_or_add s AXIOM in
               if mem END_MARKER (ys_terms s) || mem END_MARKER (ys_nts s) then YError FIXED_NAME_USAGE END_MARKER
               else YOk (add_rule (AXIOM, [lhs; END_MARKER]) (YState (ys_terms s ++ [END_MARKER]) (ys_nts s) (ys_rules s)))
           else YOk s)
      (fun s => YOk (add_rule r (fold_left find_or_add rhs s))).
Fixpoint read_rules (first : bool) (l : list rule) (s : ystate) : yres ystate :=
  match l with
  | [] => YOk s
  | r :: l => ybind (read_rule first s r) (fun s => read_rules false l s)
  end.

(** The rules of a nonterminal: the last one that was added comes first
    (yaep.c:3683-3684). *)
Definition rules_of (s : ystate) (x : bytes) : list rule := filter (fun r => beq x (fst r)) (rev (ys_rules s)).

(** yaep.c:5254-5277: a rule for errors, if the start symbol has none *)
Definition add_error_rule (start : bytes) (s : ystate) : ystate :=
  if existsb (fun r => match snd r with x :: _ => beq x TERM_ERROR | [] => false end) (rules_of s start) then s
  else add_rule (AXIOM, [TERM_ERROR; END_MARKER]) s.

(** * The analysis *)

(** The flags of the symbols: empty_p, derivation_p, access_p, the negation of
    loop_p, and the bits of first and follow. *)
Inductive key :=
| KEmpty (x : bytes) | KDeriv (x : bytes) | KAccess (x : bytes) | KUnloop (x : bytes)
| KFirst (x t : bytes) | KFollow (x t : bytes).
Definition key_eqb (a b : key) : bool :=
  match a, b with
  | KEmpty x, KEmpty y | KDeriv x, KDeriv y | KAccess x, KAccess y | KUnloop x, KUnloop y => beq x y
  | KFirst x t, KFirst y u | KFollow x t, KFollow y u => beq x y && beq t u
  | _, _ => false
  end.
Definition flags := key -> bool.
(** The flags and whether one has changed (the three variables for this of
    set_empty_access_derives are one here) *)
Definition fstate := (flags * bool)%type.
Definition raise (k : key) (s : fstate) : fstate := (fun k' => key_eqb k k' || fst s k', snd s || negb (fst s k)).

(** The loops do ... while (changed_p) *)
Fixpoint iterate (fuel : nat) (pass : fstate -> fstate) (f : flags) : out flags :=
  match fuel with
  | O => NoFuel
  | S fuel => let '(f', changed) := pass (f, false) in if changed then iterate fuel pass f' else Ok f'
  end.

(** The rules in the order of the loops over nonterminals and their rules *)
Definition loop_rules (s : ystate) : list rule := flat_map (rules_of s) (ys_nts s).

(** yaep.c:4949-4959, the loop over the right hand side *)
Fixpoint scan_rhs (lhs : bytes) (rhs : list bytes) (e d : bool) (s : fstate) : bool * bool * fstate :=
  match rhs with
  | [] => (e, d, s)
  | x :: rhs =>
    let s := if fst s (KAccess lhs) then raise (KAccess x) s else s in
    scan_rhs lhs rhs (e && fst s (KEmpty x)) (d && fst s (KDeriv x)) s
  end.
(** yaep.c:4948-4969 *)
Definition ead_rule (s : fstate) (r : rule) : fstate :=
  let '(lhs, rhs) := r in
  let '(e, d, s) := scan_rhs lhs rhs true true s in
  let s := if e then raise (KEmpty lhs) s else s in
  if d then raise (KDeriv lhs) s else s.
(** yaep.c:4925-4973 set_empty_access_derives *)
Definition ead_init (y : ystate) : flags :=
  fun k => match k with KDeriv x => mem x (ys_terms y) | KAccess x => beq x AXIOM | _ => false end.
Definition set_empty_access_derives (fuel : nat) (y : ystate) : out flags :=
  iterate fuel (fun s => fold_left ead_rule (loop_rules y) s) (ead_init y).

(** The places in a right hand side: what is before a symbol, and behind it *)
Fixpoint places (pre rhs : list bytes) : list (list bytes * bytes * list bytes) :=
  match rhs with
  | [] => []
  | x :: post => (pre, x, post) :: places (pre ++ [x]) post
  end.
(** yaep.c:4990-4995, 5013-5018: a nonterminal, and the other symbols are empty *)
Definition stands_alone (y : ystate) (f : flags) (p : list bytes * bytes * list bytes) : bool :=
  let '(pre, x, post) := p in negb (mem x (ys_terms y)) && forallb (fun z => f (KEmpty z)) (pre ++ post).
(** yaep.c:4985-4997 *)
Definition may_loop (y : ystate) (f : flags) (x : bytes) : bool :=
  existsb (fun r => existsb (fun p => beq x (snd (fst p)) && stands_alone y f p) (places [] (snd r))) (ys_rules y).
Definition loop_init (y : ystate) (f : flags) : flags :=
  fun k => match k with KUnloop x => negb (may_loop y f x) | k => f k end.
(** yaep.c:5004-5025, for one nonterminal *)
Definition loop_nt (y : ystate) (s : fstate) (lhs : bytes) : fstate :=
  if fst s (KUnloop lhs) then s
  else if existsb (fun r => existsb (fun p => negb (fst s (KUnloop (snd (fst p)))) && stands_alone y (fst s) p) (places [] (snd r))) (rules_of y lhs)
  then s else raise (KUnloop lhs) s.
(** yaep.c:4976-5028 set_loop_p *)
Definition set_loop_p (fuel : nat) (y : ystate) (f : flags) : out flags :=
  iterate fuel (fun s => fold_left (loop_nt y) (ys_nts y) s) (loop_init y f).

(** terminal_bitset_or and terminal_bitset_up (yaep.c:3462-3500): see YaepBits *)
Definition or_bits (y : ystate) (to from : bytes -> key) (s : fstate) : fstate :=
  fold_left (fun (s : fstate) t => if fst s (from t) then raise (to t) s else s) (ys_terms y) s.

(** yaep.c:4896-4913: what can follow the nonterminal [x] before [rest] *)
Fixpoint follow_loop (y : ystate) (lhs x : bytes) (rest : list bytes) (s : fstate) : fstate :=
  match rest with
  | [] => or_bits y (KFollow x) (KFollow lhs) s
  | z :: rest =>
    let s := if mem z (ys_terms y) then raise (KFollow x z) s else or_bits y (KFollow x) (KFirst z) s in
    if fst s (KEmpty z) then follow_loop y lhs x rest s else s
  end.
(** yaep.c:4876-4919, the loop over the right hand side *)
Fixpoint ff_rhs (y : ystate) (lhs : bytes) (cont : bool) (rhs : list bytes) (s : fstate) : fstate :=
  match rhs with
  | [] => s
  | x :: rest =>
    let s :=
      if mem x (ys_terms y) then if cont then raise (KFirst lhs x) s else s
      else
        let s := if cont then or_bits y (KFirst lhs) (KFirst x) s else s in
        follow_loop y lhs x rest s in
    ff_rhs y lhs (cont && fst s (KEmpty x)) rest s
  end.
(** yaep.c:4854-4921 create_first_follow_sets *)
Definition ff_init (f : flags) : flags := fun k => match k with KFirst _ _ | KFollow _ _ => false | k => f k end.
Definition create_first_follow_sets (fuel : nat) (y : ystate) (f : flags) : out flags :=
  iterate fuel (fun s => fold_left (fun (s : fstate) (r : rule) => ff_rhs y (fst r) true (snd r) s) (loop_rules y) s) (ff_init f).

(** yaep.c:5041-5065: the errors in the order of the nonterminals *)
Fixpoint first_error (l : list bytes) (test : bytes -> option N) : option (N * bytes) :=
  match l with [] => None | x :: l => match test x with Some c => Some (c, x) | None => first_error l test end end.
Definition found_error (strict : bool) (y : ystate) (f : flags) : option (N * bytes) :=
  match
    (if strict then
       first_error (ys_nts y) (fun x => if negb (f (KDeriv x)) then Some NONTERM_DERIVATION
                                        else if negb (f (KAccess x)) then Some UNACCESSIBLE_NONTERM else None)
     else if negb (f (KDeriv AXIOM)) then Some (NONTERM_DERIVATION, AXIOM) else None)
  with
  | Some e => Some e
  | None => first_error (ys_nts y) (fun x => if negb (f (KUnloop x)) then Some LOOP_NONTERM else None)
  end.

(** Passes that are enough for the loops *)
Definition symbols (y : ystate) : nat := List.length (ys_terms y) + List.length (ys_nts y).
Definition passes (y : ystate) : nat := S (3 * symbols y + 2 * (List.length (ys_nts y) * List.length (ys_terms y))).
Local Open Scope out_scope.
(** yaep.c:5032-5069 check_grammar *)
Definition check_grammar (strict : bool) (y : ystate) : out (yres flags) :=
  f <- set_empty_access_derives (passes y) y ;
  f <- set_loop_p (passes y) y f ;
  match found_error strict y f with
  | Some (c, n) => Ok (YError c n)
  | None => f <- create_first_follow_sets (passes y) y f ; Ok (YOk f)
  end.

(** yaep.c:5089-5279 yaep_read_grammar *)
Definition read_symbols (g : ygrammar) : yres ystate :=
  ybind (read_terminals (y_terms g) [] []) (fun ts =>
  if mem TERM_ERROR ts then YError FIXED_NAME_USAGE TERM_ERROR
  else
    ybind (read_rules true (y_rules g) (YState (ts ++ [TERM_ERROR]) [] [])) (fun s =>
    match y_rules g with
    | [] => YError NO_RULES []
    | (start, _) :: _ => YOk (add_error_rule start s)
    end)).
Definition yaep_read_grammar (strict : bool) (g : ygrammar) : out (yres (ystate * flags)) :=
  match read_symbols g with
  | YError c n => Ok (YError c n)
  | YOk y => r <- check_grammar strict y ; Ok match r with YOk f => YOk (y, f) | YError c n => YError c n end
  end.
