(** C79: the tree that the parser returns is a tree of a derivation of the text *)
From Coq Require Import NArith ZArith List Bool Arith String Lia.
From Verif Require Import Bytes BytesFacts Outcome Ixml Yaep YaepSpec YaepGram YaepProofs YaepParse YaepParseFacts YaepTrees YaepParseProofs YaepTree YaepTreeSpec YaepTreeProofs PropsYaep PropsYaepParse.
Import ListNotations.
Local Open Scope list_scope.
Local Open Scope nat_scope.

(** * Specification *)
(** The trees of the text [w] for the symbol [x]: YaepTreeSpec.v *)
Definition tree_of_text (g : ygrammar) (x : bytes) (t : dtree) (w : list bytes) : Prop :=
  tree_for (fun t => In t (map fst (y_terms g))) (y_rules g) x t w.
(** No rule starts with two symbols that can both be empty. *)
Definition no_two_empty (g : ygrammar) : Prop :=
  forall x a b r, In (x, a :: b :: r) (y_rules g) -> nullable (y_rules g) a -> nullable (y_rules g) b -> False.

Scheme tree_for_mut := Minimality for tree_for Sort Prop
with trees_for_mut := Minimality for trees_for Sort Prop.
Combined Scheme trees_mut from tree_for_mut, trees_for_mut.

Section G.
Variable g : ygrammar.
Variable start : bytes.
Hypothesis Hst : starts g start.
Hypothesis Hn : names_ok g.
Hypothesis Hp : plain g.
Notation R := (full_rules g).
Lemma own_trees (T : bytes -> Prop) :
  (forall x t w, tree_for T R x t w -> x <> B "$S" -> tokens g w -> tree_of_text g x t w) /\
  (forall l ts w, trees_for T R l ts w -> ~ In (B "$S") l -> tokens g w -> trees_for (fun t => In t (map fst (y_terms g))) (y_rules g) l ts w).
Proof.
  apply trees_mut.
  - intros t _ _ Hw. constructor. unfold tokens in Hw. now inversion Hw.
  - intros x rhs ks w Hr _ IH Hx Hw. constructor.
    + apply (full_in g start Hst) in Hr. destruct Hr as [Hr|[Hr|[Hr _]]]; [|exact Hr|]; exfalso; apply Hx; exact (f_equal fst Hr).
    + apply IH; [|exact Hw]. exact (no_axiom g start Hst Hp x rhs Hr).
  - intros _ _. constructor.
  - intros x rhs t ks v w _ IH1 _ IH2 Hx Hw. unfold tokens in Hw. apply Forall_app in Hw. destruct Hw as [Hv Hw]. constructor; [apply IH1; [|exact Hv] | apply IH2; [|exact Hw]].
    + intros ->. apply Hx. now left.
    + intro A. apply Hx. now right.
Qed.
Lemma cond2_full y : ys_rules y = R -> read_as g y -> no_two_empty g -> cond2 y.
Proof.
  intros E Hy H x a b r Hr Ha Hb. rewrite E in *. apply (full_in g start Hst) in Hr.
  assert (Eof : b = B "$eof" -> False).
  { intros ->. apply (end_fixed g Hn y Hy) in Hb. discriminate Hb. }
  destruct Hr as [Hr|[Hr|[Hr _]]].
  - apply Eof. exact (f_equal (fun p => hd [] (tl (snd p))) Hr).
  - assert (Hs : forall z, In z (a :: b :: r) -> ~ In (B "$S") [z]).
    { intros z Hz [->|[]]. apply (Hp (B "$S")); [now left|]. exists x, (a :: b :: r). split; [exact Hr | right; exact Hz]. }
    apply (H x a b r Hr); apply (full_own g start Hst Hp); try assumption; apply Hs; [now left | right; now left].
  - apply Eof. exact (f_equal (fun p => hd [] (tl (snd p))) Hr).
Qed.
End G.

Lemma no_loops strict g y f : yaep_read_grammar strict g = Ok (YOk (y, f)) -> forall x, ~ derives_itself (full_rules g) x.
Proof. intro H. destruct strict; [apply (C74_taken_strict g) | apply (C74_taken g)]; now exists y, f. Qed.

(** * C79 *)
(** If no error was found, the construction of the tree ends.  There is a tree of the text
    for the first nonterminal, or an assertion fails; this does not happen if no rule starts
    with two symbols that can be empty. *)
Theorem C79_tree_is_derivation_partial : forall strict g y f start w sets, yaep_read_grammar strict g = Ok (YOk (y, f)) -> plain g -> starts g start -> tokens g w ->
  perform_parse y f (text w) = Ok (None, sets) ->
  exists n res, (forall fuel, n <= fuel -> build_parse_tree y sets fuel = res) /\
    (res = Abrt \/ exists t, res = Ok (Some t) /\ tree_of_text g start t w) /\ (no_two_empty g -> res <> Abrt).
Proof.
  intros strict g y f start w sets H Hp Hst Hw Hrun. destruct (C73_analysis strict g y f H) as (A1 & A2 & A3 & _ & _ & A4 & A5). cbv zeta in *. assert (No := no_loops strict g y f H).
  destruct (C75_taken_is_text strict g y f start w sets H Hp Hst Hw Hrun) as [_ Ht].
  unfold yaep_read_grammar in H. destruct (read_symbols g) as [y'|c n] eqn:E; [|discriminate H].
  destruct (read_ok g y' E) as [Hn Hy]. assert (y' = y). { destruct (check_grammar strict y') as [[f'|c n]| | | |]; try discriminate H. cbn [obind] in H. now injection H. }
  subst y'. assert (W := read_wf g y Hn Hy). assert (Rr : ys_rules y = full_rules g) by apply Hy.
  assert (HT : forall t, In t (text w) -> In t (ys_terms y)).
  { intros t Ht'. apply A1. unfold text in Ht'. apply in_app_or in Ht'. destruct Ht' as [Ht'|[<-|[]]]; [|right; now right]. left. unfold tokens in Hw. rewrite Forall_forall in Hw. now apply Hw. }
  assert (HE : forall x, f (KEmpty x) = true <-> nullable (ys_rules y) x) by (rewrite Rr; exact A3).
  assert (HF : forall x t, In x (ys_nts y) -> In t (ys_terms y) -> first (ys_rules y) x t -> f (KFirst x t) = true) by (rewrite Rr; intros x t B1 B2; apply A4; [now apply A2 | now apply A1]).
  assert (HL : forall x t, In x (ys_nts y) -> In t (ys_terms y) -> follow (ys_rules y) x t -> f (KFollow x t) = true) by (rewrite Rr; intros x t B1 B2; apply A5; [now apply A2 | now apply A1]).
  assert (HA : forall x rhs, In (x, rhs) (ys_rules y) -> ~ In AXIOM rhs) by (rewrite Rr; intros x rhs; apply (no_axiom g start Hst Hp)).
  assert (HN : ~ nullable (ys_rules y) AXIOM) by (rewrite Rr; apply (not_empty g start Hst Hn Hp y Hy)).
  assert (No' : forall x, ~ derives_itself (ys_rules y) x) by (rewrite Rr; exact No).
  destruct (parse_ok y f (text w) W HE HF HL HA HT HN) as (e & sets' & P1 & G & P2). rewrite Hrun in P1. injection P1 as <- <-. destruct P2 as [Q1 _].
  assert (M := parse_made y f (text w) HE HA HT No' _ _ Hrun).
  assert (Lt : List.length (text w) = S (List.length w)) by (unfold text; rewrite app_length; cbn [List.length]; lia).
  unfold build_parse_tree. rewrite Ht. unfold has_tree in Ht. destruct sets as [|s0 sets']; [discriminate Ht|]. set (sets := s0 :: sets') in *. set (sl := last sets s0) in *.
  destruct (s_started sl) as [|[d m] l] eqn:Es; [discriminate Ht|]. apply andb_true_iff in Ht. destruct Ht as [Ht E3]. apply andb_true_iff in Ht. destruct Ht as [E1 E2].
  apply beq_eq in E2. apply Nat.eqb_eq in E1, E3. assert (Hin : In (d, m) (items sl)) by (unfold items; rewrite Es; now left).
  assert (Hl : nth_error sets (List.length sets - 1) = Some sl).
  { assert (Z := app_removelast_last s0 (l := sets) ltac:(discriminate)). fold sl in Z. rewrite Z. rewrite app_length, nth_error_app2 by (cbn [List.length]; lia). cbn [List.length].
    match goal with |- nth_error _ ?a = _ => replace a with 0 by lia end. reflexivity. }
  set (K := List.length sets - 1) in *. destruct d as [[L rhs] j]. unfold dlhs, drhs in E2, E3. cbn [fst snd] in E2, E3 |- *. subst L j m.
  destruct (gd_snd _ _ _ G K sl _ Hl Hin) as [B1 B2 B3 _ _]. unfold drhs in B3. cbn [fst snd] in B1, B3. rewrite firstn_all, Nat.sub_diag in B3. cbn [skipn] in B3. rewrite Nat.sub_0_r in B3.
  assert (HK : K = List.length (text w)) by (unfold K; lia). rewrite HK, firstn_all in B3.
  apply all_drules_in in B1. destruct B1 as [B1 _]. assert (Hrule := B1). rewrite Rr in Hrule. apply (full_in g start Hst) in Hrule.
  assert (Erhs : rhs = [start; B "$eof"]).
  { destruct Hrule as [Z|[Z|[Z _]]]; [exact (f_equal snd Z) | |].
    - exfalso. apply (Hp (B "$S")); [now left|]. exists (B "$S"), rhs. split; [exact Z | now left].
    - exfalso. apply (f_equal snd) in Z. cbn [snd] in Z. subst rhs. change [B "error"; B "$eof"] with ([B "error"] ++ [B "$eof"]) in B3. rewrite Rr in B3. apply steps_split in B3.
      destruct B3 as (w1 & w2 & Ew & W1 & _). apply (error_fixed g Hn y Hy) in W1. subst w1. unfold text in Ew. destruct w as [|t0 w]; [apply (f_equal (hd [])) in Ew; vm_compute in Ew; discriminate Ew|].
      assert (Z : t0 = B "error") by exact (f_equal (hd []) Ew). subst t0. apply (reserved_no_token g Hn (B "error")); [now left|]. unfold tokens in Hw. now inversion Hw. }
  destruct (walk_ok y f (text w) W HE HA HT No' sets G M ltac:(lia)) with (span := K) (A := AXIOM) (r := (AXIOM, rhs)) (from := 0) (K := K) (pos := List.length rhs) (k := K) (acc := @nil dtree) as (n & res & N1 & N2 & N3);
    try assumption; try reflexivity; try lia.
  { apply unit_wf. exact No'. }
  { cbn [snd skipn]. rewrite firstn_all, Nat.sub_0_r, HK, firstn_all. exact B3. }
  { cbn [snd]. rewrite skipn_all, Nat.sub_diag. apply steps_refl. }
  assert (Hgood : forall ks, trees_for (fun t => In t (ys_terms y)) (ys_rules y) rhs ks (text w) -> exists t ks', ks = t :: ks' /\ tree_of_text g start t w).
  { intros ks Hks. subst rhs. inversion Hks as [|? ? t ks' v u T1 T2]; subst. exists t, ks'. split; [reflexivity|].
    inversion T2 as [|? ? t2 ks2 v2 u2 T3 T4]; subst. inversion T4; subst. rewrite app_nil_r in *.
    assert (v2 = [B "$eof"]). { inversion T3 as [t0 T5|x0 r0 k0 w0 T5 T6]; subst; [reflexivity|]. exfalso. rewrite Rr in T5. apply (wf_disj y W (B "$eof")); [apply A1; right; now right|]. rewrite <- Rr in T5. exact (wf_lhs y W _ _ T5). }
    subst v2. match goal with Hq : _ = text w |- _ => unfold text in Hq; apply app_inj_tail in Hq; destruct Hq as [-> _] end.
    rewrite Rr in T1. apply (own_trees g start Hst Hp) in T1; [exact T1 | exact (start_plain g start Hst Hp (B "$S") (or_introl eq_refl)) | exact Hw]. }
  assert (Hseg : firstn (K - 0) (skipn 0 (text w)) = text w) by (cbn [skipn]; rewrite Nat.sub_0_r, HK; apply firstn_all).
  exists n. destruct N2 as [->|(ks & -> & N2)].
  - exists Abrt. split; [intros fuel Hf; now rewrite (N1 fuel Hf)|]. split; [now left|]. intro C. exfalso.
    apply (N3 (cond2_full g start Hst Hn Hp y Rr Hy C) sl Hl); [|reflexivity]. rewrite Nat.sub_0_r. exact Hin.
  - cbn [snd] in N2. rewrite Hseg, firstn_all in N2. destruct (Hgood ks N2) as (t & ks' & -> & Ht). exists (Ok (Some t)). split; [intros fuel Hf; now rewrite (N1 fuel Hf)|].
    split; [right; now exists t | discriminate].
Qed.
(** Whatever tree is returned is a tree of the text. *)
Theorem C79_returned_tree : forall strict g y f start w sets fuel t, yaep_read_grammar strict g = Ok (YOk (y, f)) -> plain g -> starts g start -> tokens g w ->
  perform_parse y f (text w) = Ok (None, sets) -> build_parse_tree y sets fuel = Ok (Some t) -> tree_of_text g start t w.
Proof.
  intros strict g y f start w sets fuel t H Hp Hst Hw Hrun Hb. destruct (C79_tree_is_derivation_partial strict g y f start w sets H Hp Hst Hw Hrun) as (n & res & N1 & N2 & _).
  assert (E : build_parse_tree y sets (n + fuel) = Ok (Some t)) by (rewrite <- Hb; apply build_more; [congruence | lia]). rewrite N1 in E by lia. subst res.
  destruct N2 as [N2|(t' & N2 & N3)]; [discriminate N2|]. now injection N2 as <-.
Qed.
(** When an error was found there is no tree. *)
Theorem C79_no_tree : forall strict g y f w j sets fuel, yaep_read_grammar strict g = Ok (YOk (y, f)) -> plain g -> tokens g w ->
  perform_parse y f (text w) = Ok (Some j, sets) -> build_parse_tree y sets fuel = Ok None.
Proof. intros strict g y f w j sets fuel H Hp Hw E. unfold build_parse_tree. now rewrite (C75_no_tree strict g y f w j sets H Hp Hw E). Qed.
(** A tree of a text spells a derivation: the specification says what it should. *)
Theorem C79_trees_are_derivations : forall g x t w, tree_of_text g x t w -> steps (y_rules g) [x] w.
Proof.
  intros g x t w. apply (proj1 (trees_mut (fun t => In t (map fst (y_terms g))) (y_rules g) (fun x _ w => steps (y_rules g) [x] w) (fun l _ w => steps (y_rules g) l w)
    (fun t _ => steps_refl _ [t]) (fun x rhs ks w Hr _ IH => steps_trans _ _ _ _ (steps_rule _ x rhs Hr) IH) (steps_refl _ [])
    (fun x rhs t ks v w _ IH1 _ IH2 => steps_app _ [x] v rhs w IH1 IH2))).
Qed.

(** * Cases *)
Definition build (g : ygrammar) (w : list bytes) : option (option nat * out (option dtree)) :=
  match yaep_read_grammar false g with
  | Ok (YOk (y, f)) => match perform_parse y f (text w) with Ok (e, s) => Some (e, build_parse_tree y s 200) | _ => None end
  | _ => None
  end.
(** In general an assertion fails for a text of the grammar: X can be empty, and it has
    been started with the a before it in the same text. *)
Definition pair_two : ygrammar := YGrammar [(B "a", 1); (B "b", 2); (B "c", 3); (B "d", 4)]%Z
  [(B "S", [B "X"; B "c"]); (B "S", [B "a"; B "X"; B "d"]); (B "X", [B "A"; B "C"]); (B "A", [B "a"]); (B "A", []); (B "C", [B "b"]); (B "C", [])].
Theorem C79_assertion_refuted : exists g y f start w sets, yaep_read_grammar false g = Ok (YOk (y, f)) /\ plain g /\ starts g start /\ tokens g w /\
  steps (y_rules g) [start] w /\ perform_parse y f (text w) = Ok (None, sets) /\ exists n, forall fuel, n <= fuel -> build_parse_tree y sets fuel = Abrt.
Proof.
  destruct (yaep_read_grammar false pair_two) as [[(y & f)|c n]| | | |] eqn:E; try (vm_compute in E; discriminate E).
  assert (Q : match yaep_read_grammar false pair_two with Ok (YOk (y, f)) => match perform_parse y f (text [B "a"; B "d"]) with Ok (None, s) => match build_parse_tree y s 200 with Abrt => true | _ => false end | _ => false end | _ => false end = true) by (vm_compute; reflexivity).
  rewrite E in Q. destruct (perform_parse y f (text [B "a"; B "d"])) as [[[j|] sets]| | | |] eqn:P; try discriminate Q.
  assert (Pl : plain pair_two) by (apply plain_check; vm_compute; reflexivity). assert (St : starts pair_two (B "S")) by (eexists; eexists; reflexivity).
  assert (Tk : tokens pair_two [B "a"; B "d"]) by (unfold tokens; repeat (apply Forall_cons; [vm_compute; auto 10|]); apply Forall_nil).
  exists pair_two, y, f, (B "S"), [B "a"; B "d"], sets. split; [exact E|]. split; [exact Pl|]. split; [exact St|]. split; [exact Tk|].
  split; [exact (proj1 (C75_taken_is_text _ _ _ _ _ _ _ E Pl St Tk P))|]. split; [exact P|].
  exists 200. intros fuel Hf. destruct (build_parse_tree y sets 200) eqn:Eb; try discriminate Q. rewrite <- Eb. apply build_more; [congruence | exact Hf].
Qed.

(** Sums: the hypotheses hold, and a tree *)
Definition x_tree : dtree := DNode (B "T", [B "W"; B "x"]) [DNode (B "W", []) []; DTerm (B "x")].
Example C79_ex_tree : build sums [B "x"; B "+"; B " "; B "x"] =
  Some (None, Ok (Some (DNode (B "E", [B "E"; B "+"; B "T"]) [DNode (B "E", [B "T"]) [x_tree]; DTerm (B "+");
    DNode (B "T", [B "W"; B "x"]) [DNode (B "W", [B "W"; B " "]) [DNode (B "W", []) []; DTerm (B " ")]; DTerm (B "x")]]))).
Proof. vm_compute. reflexivity. Qed.
Example C79_ex_no_tree : build sums [B "x"; B "+"; B "+"] = Some (Some 2, Ok None).
Proof. vm_compute. reflexivity. Qed.
Example C79_ex_hyps : no_two_empty sums.
Proof.
  assert (X : forall u v, steps (y_rules sums) u v -> Exists (fun z => z = B "E" \/ z = B "+" \/ z = B "(" \/ z = B "T" \/ z = B "x" \/ z = B " ") u -> v <> []).
  { induction 1 as [u|u u' v Hs _ IH]; intro A; [intros ->; inversion A|]. apply IH. destruct Hs as [p x r q Hr]. apply Exists_app in A. apply Exists_app.
    destruct A as [A|A]; [now left|]. right. apply Exists_app. inversion A as [? ? A1|? ? A1]; subst; [|now right]. left.
    cbn [sums y_rules In] in Hr. repeat (destruct Hr as [Hr|Hr]; [pose proof (f_equal fst Hr) as H1; pose proof (f_equal snd Hr) as H2; cbn [fst snd] in H1, H2; subst x r;
      first [ now (apply Exists_cons_hd; auto 10) | now (apply Exists_cons_tl, Exists_cons_hd; auto 10) | exfalso; repeat (destruct A1 as [A1|A1]; [vm_compute in A1; discriminate A1|]); vm_compute in A1; discriminate A1 ] |]). destruct Hr. }
  intros x a b r Hr Ha Hb. cbn [sums y_rules In] in Hr.
  repeat (destruct Hr as [Hr|Hr]; [pose proof (f_equal snd Hr) as H2; cbn [snd] in H2; try discriminate H2; injection H2 as <- <- <-;
    first [ exact (X _ _ Ha ltac:(apply Exists_cons_hd; auto 10) eq_refl) | exact (X _ _ Hb ltac:(apply Exists_cons_hd; auto 10) eq_refl) ] |]). destruct Hr.
Qed.
(** The text of the counterexample, and texts around it that have a tree *)
Definition has (o : option (option nat * out (option dtree))) : option bool :=
  match o with Some (_, Ok (Some _)) => Some true | Some (_, Abrt) => Some false | _ => None end.
Example C79_ex_pair : has (build pair_two [B "a"; B "d"]) = Some false /\ has (build pair_two [B "a"; B "c"]) = Some true /\ has (build pair_two [B "a"; B "a"; B "d"]) = Some true.
Proof. repeat split; vm_compute; reflexivity. Qed.
Print Assumptions C79_tree_is_derivation_partial.
Print Assumptions C79_returned_tree.
Print Assumptions C79_no_tree.
Print Assumptions C79_trees_are_derivations.
Print Assumptions C79_assertion_refuted.
