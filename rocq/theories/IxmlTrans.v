(** The rules that a grammar is turned into, as a function of the grammar.
    IxmlParse.v shows that reading the text of a grammar gives these rules;
    IxmlLang.v shows what these rules derive. *)
From Coq Require Import NArith ZArith Bool String List.
From Verif Require Import Bytes Ixml IxmlSpec.
Import ListNotations.
Local Open Scope N_scope.
Local Open Scope list_scope.

(** What a piece of the grammar adds: terms to the current rule, new rules,
    nonterminals, terminals, and the counter and the mark after it. *)
Record bout := Bout {
  o_ts : list iterm;
  o_new : list irule;
  o_nts : list inonterm;
  o_codes : list Z;
  o_gen : N;
  o_mark : N
}.

Definition b_chars (m : N) (cs : list Z) : list iterm := map (fun c => ITerm m (term_name c)) cs.
Definition end_hex (e : range_end) : bool := match e with RHex _ => true | _ => false end.
Definition member_hex (m : member) : bool :=
  match m with MHex _ => true | MRange a b => end_hex a || end_hex b | _ => false end.
Definition set_name (tm : N) (ex : bool) (ms : list member) : bytes := charset_name_text (ICharset ex (set_parts ms)) tm.
Definition ins_name (cs : list Z) : bytes := 124 :: 43 :: utf8 cs.
(** the name of the (only) term *)
Definition o_name (o : bout) : bytes := match o_ts o with t :: _ => t_name t | [] => [] end.
Definition nonterm (n : bytes) : inonterm := INonterm n None.
Definition gen_rule (n : bytes) (ts : list iterm) : irule := IRule n None cMINUS ts.

Definition b_opt (t : bytes) (m : N) (n : bytes) : list irule :=
  [gen_rule n [ITerm m t]; gen_rule n []].
Definition b_reps (t : bytes) (m : N) (n : bytes) : list irule :=
  [gen_rule n [ITerm m t]; gen_rule n [ITerm cMINUS n; ITerm m t]].
Definition b_reps0 (t : bytes) (m : N) (n : bytes) : list irule :=
  [gen_rule n []; gen_rule n [ITerm cMINUS n; ITerm m t]].
Definition b_sreps (t : bytes) (m : N) (s : bytes) (sm : N) (n : bytes) : list irule :=
  [gen_rule n [ITerm m t]; gen_rule n [ITerm cMINUS n; ITerm sm s; ITerm m t]].

(** add the generated rule [n] with the alternatives [rs] to [o] *)
Definition b_wrap (o : bout) (n : bytes) (rs : list irule) (m : N) : bout :=
  Bout [ITerm cMINUS n] (o_new o ++ rs) (o_nts o ++ [nonterm n]) (o_codes o) (o_gen o + 1) m.
Definition b_seq (o p : bout) : bout :=
  Bout (o_ts o ++ o_ts p) (o_new o ++ o_new p) (o_nts o ++ o_nts p) (o_codes o ++ o_codes p) (o_gen p) (o_mark p).

Fixpoint b_factor (f : factor) (gen mark : N) : bout :=
  match f with
  | FStr tm [] => Bout [] [] [] [] gen tm
  | FStr tm [c] => Bout [ITerm tm (term_name c)] [] [] [c] gen tm
  | FStr tm cs => Bout [ITerm cMINUS (gname gen)] [gen_rule (gname gen) (b_chars tm cs)] [nonterm (gname gen)] cs (gen + 1) tm
  | FHex tm c => Bout [ITerm tm (term_name c)] [] [] [c] gen tm
  | FSet tm ex ms =>
    Bout [ITerm tm (set_name tm ex ms)] [] [INonterm (set_name tm ex ms) (Some (ICharset ex (set_parts ms)))] [] gen
      (if existsb member_hex ms then 0 else mark)
  | FNt m n _ => Bout [ITerm m n] [] [nonterm n] [] gen m
  | FIns cs => Bout [ITerm 0 (ins_name cs)] [IRule (ins_name cs) None cSP []] [nonterm (ins_name cs)] [] gen mark
  | FGroup a =>
    let n := gname gen in
    let o := b_alts n cMINUS a (gen + 1) mark in
    Bout [ITerm cMINUS n] (gen_rule n (o_ts o) :: o_new o) (nonterm n :: o_nts o) (o_codes o) (o_gen o) (o_mark o)
  | FEmpty => Bout [] [] [] [] gen mark
  end
with b_term (t : term) (gen mark : N) : bout :=
  match t with
  | TOne f => b_factor f gen mark
  | TOpt f =>
    let o := b_factor f gen mark in
    let n := gname (o_gen o) in
    b_wrap o n (b_opt (o_name o) (o_mark o) n) (o_mark o)
  | TStar f =>
    let o := b_factor f gen mark in
    let n := gname (o_gen o) in
    b_wrap o n (b_reps0 (o_name o) (o_mark o) n) (o_mark o)
  | TPlus f =>
    let o := b_factor f gen mark in
    let n := gname (o_gen o) in
    b_wrap o n (b_reps (o_name o) (o_mark o) n) (o_mark o)
  | TPlusSep f s =>
    let o := b_factor f gen mark in
    let p := b_factor s (o_gen o) (o_mark o) in
    let n := gname (o_gen p) in
    b_wrap (b_seq o p) n (b_sreps (o_name o) (o_mark o) (o_name p) (o_mark p) n) (o_mark p)
  | TStarSep f s =>
    let o := b_factor f gen mark in
    let p := b_factor s (o_gen o) (o_mark o) in
    let n := gname (o_gen p) in
    let n2 := gname (o_gen p + 1) in
    b_wrap (b_wrap (b_seq o p) n (b_sreps (o_name o) (o_mark o) (o_name p) (o_mark p) n) (o_mark p))
      n2 (b_opt n cMINUS n2) cMINUS
  end
with b_alt (a : alt) (gen mark : N) : bout :=
  match a with
  | ANil => Bout [] [] [] [] gen mark
  | ACons t a =>
    let o := b_term t gen mark in
    b_seq o (b_alt a (o_gen o) (o_mark o))
  end
(** the alternatives of the rule [n] with the mark [mk]: the terms of the
    first one are added to the current rule *)
with b_alts (n : bytes) (mk : N) (a : alts) (gen mark : N) : bout :=
  match a with
  | AOne a => b_alt a gen mark
  | AMore a r =>
    let o := b_alt a gen mark in
    let p := b_alts n mk r (o_gen o) (o_mark o) in
    Bout (o_ts o) (o_new o ++ IRule n None mk (o_ts p) :: o_new p) (o_nts o ++ o_nts p) (o_codes o ++ o_codes p) (o_gen p) (o_mark p)
  end.

Definition b_rule (r : grule) (gen mark : N) : bout :=
  let o := b_alts (ru_name r) (ru_mark r) (ru_alts r) gen mark in
  Bout [] (IRule (ru_name r) (ru_alias r) (ru_mark r) (o_ts o) :: o_new o) (o_nts o) (o_codes o) (o_gen o) (o_mark o).
Fixpoint b_rules (G : grammar) (gen mark : N) : bout :=
  match G with
  | [] => Bout [] [] [] [] gen mark
  | r :: G =>
    let o := b_rule r gen mark in
    b_seq o (b_rules G (o_gen o) (o_mark o))
  end.
