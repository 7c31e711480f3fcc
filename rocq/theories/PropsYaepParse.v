(** C75: the parser for ixml grammars takes texts of the grammar *)
From Coq Require Import NArith ZArith List Bool Arith String Lia.
From Verif Require Import Bytes BytesFacts Outcome Ixml Yaep YaepSpec YaepGram YaepProofs YaepParse YaepParseFacts YaepTrees YaepParseProofs PropsYaep.
Import ListNotations.
Local Open Scope list_scope.
Local Open Scope nat_scope.

(** * Specification *)
(** The names that the parser uses itself do not occur in the rules. *)
Definition plain (g : ygrammar) : Prop := forall n, In n [B "$S"; B "$eof"; B "error"] -> ~ occurs n (y_rules g).
(** The first nonterminal of the grammar *)
Definition starts (g : ygrammar) (s : bytes) : Prop := exists rhs rest, y_rules g = (s, rhs) :: rest.
(** The tokens of a text *)
Definition tokens (g : ygrammar) (w : list bytes) : Prop := Forall (fun t => In t (map fst (y_terms g))) w.
(** No rule starts with two symbols that can both be empty and has a third one. *)
Definition no_empty_pair (g : ygrammar) : Prop :=
  forall x a b c r, In (x, a :: b :: c :: r) (y_rules g) -> nullable (y_rules g) a -> nullable (y_rules g) b -> False.
(** What is parsed: the text and the mark for its end *)
Definition text (w : list bytes) : list bytes := w ++ [B "$eof"].

(** * What holds for the rules with those that are added *)
Section G.
Variable g : ygrammar.
Variable start : bytes.
Hypothesis Hst : starts g start.
Hypothesis Hn : names_ok g.
Hypothesis Hp : plain g.
Notation R := (full_rules g).

Lemma full_in r : In r R <-> r = (B "$S", [start; B "$eof"]) \/ In r (y_rules g) \/ (r = (B "$S", [B "error"; B "$eof"]) /\ existsb (errs start) (y_rules g) = false).
Proof.
  destruct Hst as (rhs & rest & E). unfold full_rules. rewrite E. rewrite <- E. cbn [In]. rewrite in_app_iff. destruct (existsb (errs start) (y_rules g)); cbn [In]; split.
  - intros [<-|[A|[]]]; [now left | right; now left].
  - intros [->|[A|[_ A]]]; [now left | right; now left | discriminate A].
  - intros [<-|[A|[<-|[]]]]; [now left | right; now left | right; right; now split].
  - intros [->|[A|[-> _]]]; [now left | right; now left | right; right; now left].
Qed.
Lemma start_plain n : In n [B "$S"; B "$eof"; B "error"] -> start <> n.
Proof. intros H ->. destruct Hst as (rhs & rest & E). apply (Hp n H). exists n, rhs. split; [rewrite E; now left | now left]. Qed.
Lemma no_axiom x rhs : In (x, rhs) R -> ~ In AXIOM rhs.
Proof.
  intros H A. apply full_in in H. destruct H as [H|[H|[H _]]].
  - injection H as -> ->. destruct A as [A|[A|[]]]; [exact (start_plain _ (or_introl eq_refl) A) | vm_compute in A; discriminate A].
  - apply (Hp (B "$S")); [now left|]. exists x, rhs. split; [exact H | now right].
  - injection H as -> ->. destruct A as [A|[A|[]]]; vm_compute in A; discriminate A.
Qed.
Lemma only_end x rhs : In (x, rhs) R -> In END_MARKER rhs -> x = AXIOM /\ exists r, rhs = r ++ [END_MARKER] /\ ~ In END_MARKER r.
Proof.
  intros H A. apply full_in in H. destruct H as [H|[H|[H _]]].
  - injection H as -> ->. split; [reflexivity|]. exists [start]. split; [reflexivity|]. intros [Z|[]]. exact (start_plain _ (or_intror (or_introl eq_refl)) Z).
  - exfalso. apply (Hp (B "$eof")); [right; now left|]. exists x, rhs. split; [exact H | now right].
  - injection H as -> ->. split; [reflexivity|]. exists [B "error"]. split; [reflexivity|]. intros [Z|[]]. vm_compute in Z. discriminate Z.
Qed.
Lemma axiom_end rhs : In (AXIOM, rhs) R -> exists r, rhs = r ++ [END_MARKER].
Proof.
  intro H. apply full_in in H. destruct H as [H|[H|[H _]]].
  - injection H as ->. now exists [start].
  - exfalso. apply (Hp (B "$S")); [now left|]. exists AXIOM, rhs. split; [exact H | now left].
  - injection H as ->. now exists [B "error"].
Qed.
Lemma full_own u v : steps R u v -> ~ In (B "$S") u -> steps (y_rules g) u v.
Proof.
  intro H. induction H as [u|u u' v Hs _ IH]; intro A; [apply steps_refl|]. destruct Hs as [p x r q Hr].
  assert (Hr' : In (x, r) (y_rules g)).
  { apply full_in in Hr. destruct Hr as [Hr|[Hr|[Hr _]]]; [|exact Hr|]; injection Hr as -> ->; destruct A; apply in_elt. }
  eapply steps_more; [constructor; exact Hr'|]. apply IH. intro D. apply in_app_or in D. destruct D as [D|D].
  - apply A, in_or_app. now left.
  - apply in_app_or in D. destruct D as [D|D].
    + apply (Hp (B "$S")); [now left|]. exists x, r. split; [exact Hr' | now right].
    + apply A, in_or_app. right. now right.
Qed.
Lemma own_full u v : steps (y_rules g) u v -> steps R u v.
Proof.
  intro H. induction H as [u|u u' v Hs _ IH]; [apply steps_refl|]. eapply steps_more; [|exact IH]. destruct Hs as [p x r q Hr]. constructor. apply full_in. right. now left.
Qed.
Lemma cond_full y : ys_rules y = R -> no_empty_pair g -> cond y.
Proof.
  intros E H x a b c r Hr Ha Hb. rewrite E in *. apply full_in in Hr. destruct Hr as [Hr|[Hr|[Hr _]]]; try discriminate Hr.
  assert (Hs : forall z, In z (a :: b :: c :: r) -> ~ In (B "$S") [z]).
  { intros z Hz [->|[]]. apply (Hp (B "$S")); [now left|]. exists x, (a :: b :: c :: r). split; [exact Hr | right; exact Hz]. }
  apply (H x a b c r Hr); apply full_own; try assumption; apply Hs; [now left | right; now left].
Qed.

Variable y : ystate.
Hypothesis Hy : read_as g y.
Lemma end_fixed v : steps R [B "$eof"] v -> v = [B "$eof"].
Proof.
  intro H. assert (W := read_wf g y Hn Hy). assert (Ht := terminal_of_in g y (B "$eof") Hy). destruct Hy as (_ & Rr & _). rewrite <- Rr in H.
  apply (steps_terminal y W) in H; [exact H|]. apply Ht. right. now right.
Qed.
Lemma error_fixed v : steps R [B "error"] v -> v = [B "error"].
Proof.
  intro H. assert (W := read_wf g y Hn Hy). assert (Ht := terminal_of_in g y (B "error") Hy). destruct Hy as (_ & Rr & _). rewrite <- Rr in H.
  apply (steps_terminal y W) in H; [exact H|]. apply Ht. right. now left.
Qed.
Lemma not_empty : ~ nullable R AXIOM.
Proof.
  intro H. unfold nullable in H. remember [AXIOM] as s eqn:Es in H. remember (@nil bytes) as e eqn:Ee in H. destruct H as [s|s u e Hs H]; [congruence|].
  subst. apply step_single, axiom_end in Hs. destruct Hs as (r & ->). apply steps_split in H. destruct H as (w1 & w2 & E & _ & H2).
  apply end_fixed in H2. subst w2. destruct w1; discriminate E.
Qed.
(** forms that start with a piece of the text *)
Lemma reserved_no_token n : In n [B "error"; B "$S"; B "$eof"] -> ~ In n (map fst (y_terms g)).
Proof. destruct Hn as (_ & _ & _ & H4 & _). rewrite Forall_forall in H4. intros Hx A. apply in_map_iff in A. destruct A as (t & <- & A). exact (H4 t A Hx). Qed.
Lemma begins_own w v : tokens g w -> steps R [B "$S"] (w ++ v) -> exists v', steps (y_rules g) [start] (w ++ v').
Proof.
  intros Hw H. destruct w as [|t w]; [exists [start]; apply steps_refl|].
  assert (Ht : In t (map fst (y_terms g))) by (unfold tokens in Hw; rewrite Forall_forall in Hw; apply Hw; now left).
  remember [B "$S"] as s eqn:Es in H. remember ((t :: w) ++ v) as e eqn:Ee in H. destruct H as [s|s u e Hs H].
  - rewrite Es in Ee. assert (Z : B "$S" = t) by exact (f_equal (hd []) Ee). exfalso. apply (reserved_no_token (B "$S")); [right; now left|]. rewrite Z. exact Ht.
  - subst. apply step_single, full_in in Hs. destruct Hs as [Hs|[Hs|[Hs _]]].
    + apply (f_equal snd) in Hs. cbn [snd] in Hs. subst u. change [start; B "$eof"] with ([start] ++ [B "$eof"]) in H. apply steps_split in H.
      destruct H as (w1 & w2 & E & H1 & H2). apply end_fixed in H2. subst w2. apply full_own in H1.
      2: { intros [Z|[]]. exact (start_plain _ (or_introl eq_refl) Z). }
      assert (Hlast : v = [] \/ exists v' z, v = v' ++ [z]) by (destruct v as [|v0 v]; [now left | right; destruct (exists_last (l := v0 :: v)) as (v' & z & E'); [discriminate | now exists v', z]]).
      destruct Hlast as [-> |(v' & z & ->)].
      * exfalso. rewrite app_nil_r in E. destruct (exists_last (l := t :: w)) as (w' & z & E'); [discriminate|]. rewrite E' in E. apply app_inj_tail in E. destruct E as [_ E].
        apply (reserved_no_token (B "$eof")); [right; right; now left|]. unfold tokens in Hw. rewrite Forall_forall in Hw. rewrite <- E. apply Hw. rewrite E'. apply in_or_app. right. now left.
      * rewrite app_assoc in E. apply app_inj_tail in E. destruct E as [E _]. exists v'. rewrite E. exact H1.
    + exfalso. apply (Hp (B "$S")); [now left|]. exists (B "$S"), u. split; [exact Hs | now left].
    + apply (f_equal snd) in Hs. cbn [snd] in Hs. subst u. change [B "error"; B "$eof"] with ([B "error"] ++ [B "$eof"]) in H. apply steps_split in H.
      destruct H as (w1 & w2 & E & H1 & H2). apply error_fixed in H1. subst w1. assert (Z : t = B "error") by exact (f_equal (hd []) E). exfalso. apply (reserved_no_token (B "error")); [now left|]. rewrite <- Z. exact Ht.
Qed.
Lemma own_begins w v : steps (y_rules g) [start] (w ++ v) -> steps R [B "$S"] (w ++ v ++ [B "$eof"]).
Proof.
  intro H. apply own_full in H. eapply steps_more; [apply (step_rule1 _ (B "$S") [start; B "$eof"]), full_in; now left|].
  rewrite app_assoc. apply (steps_app _ [start] _ [B "$eof"] _ H), steps_refl.
Qed.
End G.

(** * C75 *)
Lemma parse_facts strict g y f start w : yaep_read_grammar strict g = Ok (YOk (y, f)) -> plain g -> starts g start -> tokens g w ->
  exists e sets, perform_parse y f (text w) = Ok (e, sets) /\
  match e with
  | None => has_tree sets = true /\ steps (y_rules g) [start] w
  | Some j => has_tree sets = false /\ j <= List.length w /\ (exists v, steps (y_rules g) [start] (firstn j w ++ v)) /\
      (no_empty_pair g -> if j <? List.length w then forall v, ~ steps (y_rules g) [start] (firstn (S j) w ++ v) else ~ steps (y_rules g) [start] w)
  end.
Proof.
  intros H Hp Hst Hw. destruct (C73_analysis strict g y f H) as (A1 & A2 & A3 & _ & _ & A4 & A5). cbv zeta in *.
  unfold yaep_read_grammar in H. destruct (read_symbols g) as [y'|c n] eqn:E; [|discriminate H].
  destruct (read_ok g y' E) as [Hn Hy]. assert (y' = y). { destruct (check_grammar strict y') as [[f'|c n]| | | |]; try discriminate H. cbn [obind] in H. now injection H. }
  subst y'. assert (W := read_wf g y Hn Hy). assert (Rr : ys_rules y = full_rules g) by apply Hy.
  assert (HT : forall t, In t (text w) -> In t (ys_terms y)).
  { intros t Ht. apply A1. unfold text in Ht. apply in_app_or in Ht. destruct Ht as [Ht|[<-|[]]]; [|right; now right]. left. unfold tokens in Hw. rewrite Forall_forall in Hw. now apply Hw. }
  assert (HE : forall x, f (KEmpty x) = true <-> nullable (ys_rules y) x) by (rewrite Rr; exact A3).
  assert (HF : forall x t, In x (ys_nts y) -> In t (ys_terms y) -> first (ys_rules y) x t -> f (KFirst x t) = true) by (rewrite Rr; intros x t B1 B2; apply A4; [now apply A2 | now apply A1]).
  assert (HL : forall x t, In x (ys_nts y) -> In t (ys_terms y) -> follow (ys_rules y) x t -> f (KFollow x t) = true) by (rewrite Rr; intros x t B1 B2; apply A5; [now apply A2 | now apply A1]).
  assert (HA : forall x rhs, In (x, rhs) (ys_rules y) -> ~ In AXIOM rhs) by (rewrite Rr; intros x rhs; apply (no_axiom g start Hst Hp)).
  assert (HN : ~ nullable (ys_rules y) AXIOM) by (rewrite Rr; apply (not_empty g start Hst Hn Hp y Hy)).
  assert (HX : forall x rhs, In (x, rhs) (ys_rules y) -> In END_MARKER rhs -> x = AXIOM /\ exists r, rhs = r ++ [END_MARKER] /\ ~ In END_MARKER r) by (rewrite Rr; intros x rhs; apply (only_end g start Hst Hp)).
  destruct (parse_ok y f (text w) W HE HF HL HA HT HN) as (e & sets & P1 & G & P2). exists e, sets. split; [exact P1|].
  assert (Lt : List.length (text w) = S (List.length w)) by (unfold text; rewrite app_length; cbn [List.length]; lia).
  assert (Hpre : forall j, j <= List.length w -> firstn j (text w) = firstn j w).
  { intros j Hj. unfold text. rewrite firstn_app. replace (j - List.length w) with 0 by lia. cbn [firstn]. apply app_nil_r. }
  assert (Htok : forall j, tokens g (firstn j w)).
  { intro j. unfold tokens in *. rewrite Forall_forall in *. intros t Ht. apply Hw. rewrite <- (firstn_skipn j w). apply in_or_app. now left. }
  destruct e as [j|].
  - destruct P2 as (Q1 & Q2 & Q3 & set & t & Q4 & Q5 & Q6). assert (Hj : j <= List.length w) by lia.
    split; [|split; [exact Hj|split]].
    + destruct (has_tree sets) eqn:Et; [|reflexivity]. exfalso. unfold has_tree in Et. destruct sets as [|s0 sets']; [discriminate Et|].
      set (sl := last (s0 :: sets') s0) in *. assert (Hl : nth_error (s0 :: sets') j = Some sl).
      { assert (Z := app_removelast_last s0 (l := s0 :: sets') ltac:(discriminate)). fold sl in Z. rewrite Z. rewrite nth_error_app2.
        - replace (j - List.length (removelast (s0 :: sets'))) with 0; [reflexivity|]. rewrite Z, app_length in Q2. cbn [List.length] in Q2. lia.
        - rewrite Z, app_length in Q2. cbn [List.length] in Q2. lia. }
      destruct (s_started sl) as [|[d m] l] eqn:Es; [discriminate Et|]. apply andb_true_iff in Et. destruct Et as [Et E3]. apply andb_true_iff in Et. destruct Et as [E1 E2].
      apply beq_eq in E2. apply Nat.eqb_eq in E1, E3. assert (Hin : In (d, m) (items sl)) by (unfold items; rewrite Es; now left).
      destruct (gd_snd _ _ _ G j sl _ Hl Hin) as [B1 B2 B3 _ _]. destruct d as [[lhs rhs] dot]. unfold dlhs, drhs in *. cbn [fst snd] in *. subst lhs dot. rewrite firstn_all in B3.
      apply all_drules_in in B1. destruct B1 as [B1 _]. rewrite Rr in *. destruct (axiom_end g start Hst Hp rhs B1) as (r & ->).
      apply steps_split in B3. destruct B3 as (w1 & w2 & Ew & _ & Hw2). apply (end_fixed g Hn y Hy) in Hw2. subst w2.
      rewrite Q2 in E1. replace m with j in Ew by lia. rewrite Nat.sub_diag in Ew. cbn [skipn] in Ew. rewrite Nat.sub_0_r, (Hpre j Hj) in Ew.
      apply (reserved_no_token g Hn (B "$eof")); [right; right; now left|]. specialize (Htok j). unfold tokens in Htok. rewrite Forall_forall in Htok. apply Htok. rewrite Ew. apply in_or_app. right. now left.
    + destruct (link_viable y f (text w) HE HF HL HA HT sets j G Q3) as (v & Hv). rewrite Rr, (Hpre j Hj) in Hv. exact (begins_own g start Hst Hn Hp y Hy _ v (Htok j) Hv).
    + intro C. assert (Hno := token_found y f (text w) W HE HF HL HA HT sets j set t (cond_full g start Hst Hp y Rr C) G Q4 Q5 Q6). rewrite Rr in Hno.
      destruct (j <? List.length w) eqn:Ej.
      * apply Nat.ltb_lt in Ej. intros v Hv. apply (own_begins g start Hst) in Hv. rewrite <- (Hpre (S j)) in Hv by lia. exact (Hno _ Hv).
      * apply Nat.ltb_ge in Ej. intro Hv. rewrite <- (app_nil_r w) in Hv. apply (own_begins g start Hst) in Hv. apply (Hno []). rewrite firstn_all2 by lia. rewrite app_nil_r. exact Hv.
  - destruct P2 as [Q1 Q2]. destruct (end_tree y f (text w) HE HF HL HA HT HX sets w G eq_refl Q1 Q2) as [T1 T2]. split; [exact T1|].
    destruct Hst as (rhs & rest & Er). apply (C74_same_texts g start rhs rest w Er Hn); [apply (Hp (B "$S")); now left | exact Hw | rewrite <- Rr; exact T2].
Qed.

(** The parser ends, whatever the text: no assertion fails, no set is looked up that is not there. *)
Theorem C75_ends : forall strict g y f w, yaep_read_grammar strict g = Ok (YOk (y, f)) -> plain g -> tokens g w ->
  exists e sets, perform_parse y f (text w) = Ok (e, sets).
Proof.
  intros strict g y f w H Hp Hw. assert (Hs : exists start, starts g start).
  { destruct (y_rules g) as [|[s rhs] rest] eqn:E; [|exists s, rhs, rest; exact E]. exfalso.
    unfold yaep_read_grammar in H. destruct (read_symbols g) as [y'|c n] eqn:Er; [|discriminate H]. destruct (read_ok g y' Er) as [(_ & _ & _ & _ & (s & rhs & rest & E2 & _) & _) _]. congruence. }
  destruct Hs as (start & Hst). destruct (parse_facts strict g y f start w H Hp Hst Hw) as (e & sets & E & _). now exists e, sets.
Qed.
(** A text that is taken derives from the first nonterminal, and it has a tree. *)
Theorem C75_taken_is_text : forall strict g y f start w sets, yaep_read_grammar strict g = Ok (YOk (y, f)) -> plain g -> starts g start -> tokens g w ->
  perform_parse y f (text w) = Ok (None, sets) -> steps (y_rules g) [start] w /\ has_tree sets = true.
Proof.
  intros strict g y f start w sets H Hp Hst Hw E. destruct (parse_facts strict g y f start w H Hp Hst Hw) as (e & s & E2 & A). rewrite E in E2. injection E2 as <- <-. split; apply A.
Qed.
(** There is no tree when an error was found. *)
Theorem C75_no_tree : forall strict g y f w j sets, yaep_read_grammar strict g = Ok (YOk (y, f)) -> plain g -> tokens g w ->
  perform_parse y f (text w) = Ok (Some j, sets) -> has_tree sets = false.
Proof.
  intros strict g y f w j sets H Hp Hw E. assert (Hs : exists start, starts g start).
  { destruct (y_rules g) as [|[s rhs] rest] eqn:Er; [|exists s, rhs, rest; exact Er]. exfalso.
    unfold yaep_read_grammar in H. destruct (read_symbols g) as [y'|c n] eqn:Es; [|discriminate H]. destruct (read_ok g y' Es) as [(_ & _ & _ & _ & (s & rhs & rest & E2 & _) & _) _]. congruence. }
  destruct Hs as (start & Hst). destruct (parse_facts strict g y f start w H Hp Hst Hw) as (e & s & E2 & A). rewrite E in E2. injection E2 as <- <-. apply A.
Qed.
(** What is before the place of an error is the beginning of something that derives
    from the first nonterminal. *)
Theorem C75_before_error : forall strict g y f start w j sets, yaep_read_grammar strict g = Ok (YOk (y, f)) -> plain g -> starts g start -> tokens g w ->
  perform_parse y f (text w) = Ok (Some j, sets) -> j <= List.length w /\ exists v, steps (y_rules g) [start] (firstn j w ++ v).
Proof.
  intros strict g y f start w j sets H Hp Hst Hw E. destruct (parse_facts strict g y f start w H Hp Hst Hw) as (e & s & E2 & A). rewrite E in E2. injection E2 as <- <-. split; apply A.
Qed.
(** If no rule starts with two symbols that can be empty before a third one, the texts
    that are taken are those of the grammar, *)
Theorem C75_exact : forall strict g y f start w, yaep_read_grammar strict g = Ok (YOk (y, f)) -> plain g -> starts g start -> tokens g w -> no_empty_pair g ->
  (exists sets, perform_parse y f (text w) = Ok (None, sets)) <-> steps (y_rules g) [start] w.
Proof.
  intros strict g y f start w H Hp Hst Hw C. destruct (parse_facts strict g y f start w H Hp Hst Hw) as (e & sets & E & A). split.
  - intros (s & E2). rewrite E in E2. injection E2 as -> ->. apply A.
  - intro D. exists sets. rewrite E. destruct e as [j|]; [|reflexivity]. exfalso. destruct A as (_ & A1 & _ & A2). specialize (A2 C). destruct (j <? List.length w) eqn:Ej; [|contradiction].
    apply (A2 (skipn (S j) w)). now rewrite firstn_skipn.
Qed.
(** and the place of an error is the first token after which nothing of the grammar goes on. *)
Theorem C75_error_place : forall strict g y f start w j sets, yaep_read_grammar strict g = Ok (YOk (y, f)) -> plain g -> starts g start -> tokens g w -> no_empty_pair g ->
  perform_parse y f (text w) = Ok (Some j, sets) -> j < List.length w -> forall v, ~ steps (y_rules g) [start] (firstn (S j) w ++ v).
Proof.
  intros strict g y f start w j sets H Hp Hst Hw C E Hj. destruct (parse_facts strict g y f start w H Hp Hst Hw) as (e & s & E2 & A). rewrite E in E2. injection E2 as <- <-.
  destruct A as (_ & _ & _ & A2). specialize (A2 C). apply Nat.ltb_lt in Hj. now rewrite Hj in A2.
Qed.

Lemma plain_check g : forallb (fun r => forallb (fun n => negb (mem n (fst r :: snd r))) [B "$S"; B "$eof"; B "error"]) (y_rules g) = true -> plain g.
Proof.
  intros H n Hn (lhs & rhs & Hr & A). rewrite forallb_forall in H. specialize (H _ Hr). rewrite forallb_forall in H. specialize (H n Hn).
  apply negb_true_iff in H. assert (Z : mem n (lhs :: rhs) = true); [|cbn [fst snd] in H; rewrite H in Z; discriminate Z].
  apply mem_iff. destruct A as [-> |A]; [now left | now right].
Qed.
(** In general a text of the grammar can be refused. *)
Definition two_empty : ygrammar := YGrammar [(B "n", 1); (B "m", 2); (B "p", 3); (B "x", 4); (B "y", 5)]%Z
  [(B "S", [B "A"; B "x"]); (B "S", [B "n"; B "A"; B "y"]); (B "A", [B "N"; B "M"; B "P"]); (B "N", [B "n"]); (B "N", []); (B "M", [B "m"]); (B "M", []); (B "P", [B "p"])].
Theorem C75_all_texts_refuted : exists g y f start w sets, yaep_read_grammar false g = Ok (YOk (y, f)) /\ plain g /\ starts g start /\ tokens g w /\
  steps (y_rules g) [start] w /\ perform_parse y f (text w) = Ok (Some 2, sets).
Proof.
  destruct (yaep_read_grammar false two_empty) as [[(y & f)|c n]| | | |] eqn:E; try (vm_compute in E; discriminate E).
  destruct (perform_parse y f (text [B "n"; B "p"; B "y"])) as [(e & sets)| | | |] eqn:P.
  2-5: exfalso; revert P; assert (Q : match yaep_read_grammar false two_empty with Ok (YOk (y, f)) => match perform_parse y f (text [B "n"; B "p"; B "y"]) with Ok _ => true | _ => false end | _ => false end = true) by (vm_compute; reflexivity); rewrite E in Q; intro P; rewrite P in Q; discriminate Q.
  exists two_empty, y, f, (B "S"), [B "n"; B "p"; B "y"], sets. split; [exact E|].
  split; [apply plain_check; vm_compute; reflexivity|].
  split. { eexists. eexists. reflexivity. }
  split. { unfold tokens. repeat (apply Forall_cons; [vm_compute; auto 10|]). apply Forall_nil. }
  split.
  { eapply steps_more; [apply (step_rule _ [] (B "S") [B "n"; B "A"; B "y"] []); vm_compute; auto 20|].
    eapply steps_more; [apply (step_rule _ [B "n"] (B "A") [B "N"; B "M"; B "P"] [B "y"]); vm_compute; auto 20|].
    eapply steps_more; [apply (step_rule _ [B "n"] (B "N") [] [B "M"; B "P"; B "y"]); vm_compute; auto 20|].
    eapply steps_more; [apply (step_rule _ [B "n"] (B "M") [] [B "P"; B "y"]); vm_compute; auto 20|].
    eapply steps_more; [apply (step_rule _ [B "n"] (B "P") [B "p"] [B "y"]); vm_compute; auto 20|]. apply steps_refl. }
  assert (Q : match yaep_read_grammar false two_empty with Ok (YOk (y, f)) => match perform_parse y f (text [B "n"; B "p"; B "y"]) with Ok (Some 2, _) => true | _ => false end | _ => false end = true) by (vm_compute; reflexivity).
  rewrite E, P in Q. rewrite P. destruct e as [[|[|[|j]]]|]; try discriminate Q. reflexivity.
Qed.

(** Sums: the hypotheses hold, a text is taken, another one refused at its third token. *)
Definition sums : ygrammar := YGrammar [(B "x", 120); (B "+", 43); (B "(", 40); (B ")", 41); (B " ", 32)]%Z
  [(B "E", [B "T"]); (B "E", [B "E"; B "+"; B "T"]); (B "T", [B "W"; B "x"]); (B "T", [B "W"; B "("; B "E"; B ")"]); (B "W", []); (B "W", [B "W"; B " "])].
Definition run (g : ygrammar) (w : list bytes) : option (option nat * bool) :=
  match yaep_read_grammar false g with
  | Ok (YOk (y, f)) => match perform_parse y f (text w) with Ok (e, s) => Some (e, has_tree s) | _ => None end
  | _ => None
  end.
Example C75_ex_taken : run sums [B " "; B "x"; B "+"; B "("; B "x"; B "+"; B " "; B "x"; B ")"] = Some (None, true).
Proof. vm_compute. reflexivity. Qed.
Example C75_ex_refused : run sums [B "x"; B "+"; B "+"] = Some (Some 2, false) /\ run sums [B "x"; B "+"] = Some (Some 2, false).
Proof. split; vm_compute; reflexivity. Qed.
Example C75_ex_hyps : (exists y f, yaep_read_grammar false sums = Ok (YOk (y, f))) /\ plain sums /\ starts sums (B "E") /\ no_empty_pair sums /\ tokens sums [B "x"; B "+"; B "+"].
Proof.
  split. { destruct (yaep_read_grammar false sums) as [[(y & f)|c n]| | | |] eqn:E; try (vm_compute in E; discriminate E). now exists y, f. }
  split; [apply plain_check; vm_compute; reflexivity|]. split; [eexists; eexists; reflexivity|]. split.
  - assert (X : forall u v, steps (y_rules sums) u v -> Exists (fun z => z = B "E" \/ z = B "+" \/ z = B "(" \/ z = B "T" \/ z = B "x") u -> v <> []).
    { induction 1 as [u|u u' v Hs _ IH]; intro A; [intros ->; inversion A|]. apply IH. destruct Hs as [p x r q Hr]. apply Exists_app in A. apply Exists_app.
      destruct A as [A|A]; [now left|]. right. apply Exists_app. inversion A as [? ? A1|? ? A1]; subst; [|now right]. left.
      cbn [sums y_rules In] in Hr. repeat (destruct Hr as [Hr|Hr]; [pose proof (f_equal fst Hr) as H1; pose proof (f_equal snd Hr) as H2; cbn [fst snd] in H1, H2; subst x r;
        first [ now (apply Exists_cons_hd; auto 10) | now (apply Exists_cons_tl, Exists_cons_hd; auto 10) | exfalso; repeat (destruct A1 as [A1|A1]; [vm_compute in A1; discriminate A1|]); vm_compute in A1; discriminate A1 ] |]). destruct Hr. }
    intros x a b c r Hr Ha Hb. cbn [sums y_rules In] in Hr.
    repeat (destruct Hr as [Hr|Hr]; [pose proof (f_equal snd Hr) as H2; cbn [snd] in H2; try discriminate H2; injection H2 as <- <- <- <-;
      first [ exact (X _ _ Ha ltac:(apply Exists_cons_hd; auto 10) eq_refl) | exact (X _ _ Hb ltac:(apply Exists_cons_hd; auto 10) eq_refl) ] |]). destruct Hr.
  - unfold tokens. repeat (apply Forall_cons; [vm_compute; auto 10|]). apply Forall_nil.
Qed.
(** The text of the counterexample is refused, texts around it are taken. *)
Example C75_ex_two_empty : run two_empty [B "n"; B "p"; B "y"] = Some (Some 2, false) /\ run two_empty [B "n"; B "p"; B "x"] = Some (None, true) /\ run two_empty [B "n"; B "m"; B "p"; B "y"] = Some (None, true).
Proof. repeat split; vm_compute; reflexivity. Qed.
Print Assumptions C75_ends.
Print Assumptions C75_taken_is_text.
Print Assumptions C75_no_tree.
Print Assumptions C75_before_error.
Print Assumptions C75_exact.
Print Assumptions C75_error_place.
Print Assumptions C75_all_texts_refuted.
