(** C81: the warning for an ambiguous text is printed exactly if the text has two trees *)
From Coq Require Import NArith ZArith List Bool Arith String Lia.
From Verif Require Import Bytes BytesFacts Outcome Ixml Yaep YaepSpec YaepGram YaepProofs YaepParse YaepParseFacts YaepTrees YaepParseProofs YaepTree YaepTreeSpec YaepTreeProofs YaepAmb YaepAmbProofs PropsYaep PropsYaepParse PropsYaepTree.
Import ListNotations.
Local Open Scope list_scope.
Local Open Scope nat_scope.

(** * Specification *)
(** The text has two different trees (trees of a text: YaepTreeSpec.v). *)
Definition ambiguous (g : ygrammar) (start : bytes) (w : list bytes) : Prop :=
  exists t1 t2, t1 <> t2 /\ tree_of_text g start t1 w /\ tree_of_text g start t2 w.
(** Every rule is given once.  The code takes a rule that is given twice for two rules,
    the model for one. *)
Definition each_once (g : ygrammar) : Prop := NoDup (y_rules g).

(** * Proofs *)
Lemma up_trees (T T' : bytes -> Prop) R R' : (forall t, T t -> T' t) -> (forall r, In r R -> In r R') ->
  (forall x t w, tree_for T R x t w -> tree_for T' R' x t w) /\ (forall l ts w, trees_for T R l ts w -> trees_for T' R' l ts w).
Proof. intros HT HR. apply both_ind; intros; constructor; auto. Qed.

Lemma flag_core strict g y f start w sets : yaep_read_grammar strict g = Ok (YOk (y, f)) -> plain g -> starts g start -> tokens g w ->
  perform_parse y f (text w) = Ok (None, sets) -> forall fuel t b, build_flag y sets fuel = Ok (Some t, b) ->
  if b then ambiguous g start w else no_two_empty g -> forall t', tree_of_text g start t' w -> t' = t.
Proof.
  intros H Hp Hst Hw Hrun fuel t b Hb. destruct (C73_analysis strict g y f H) as (A1 & A2 & A3 & _ & _ & A4 & A5). cbv zeta in *. assert (No := no_loops strict g y f H).
  destruct (C75_taken_is_text strict g y f start w sets H Hp Hst Hw Hrun) as [_ Ht].
  unfold yaep_read_grammar in H. destruct (read_symbols g) as [y'|c n] eqn:E; [|discriminate H].
  destruct (read_ok g y' E) as [Hn Hy]. assert (y' = y). { destruct (check_grammar strict y') as [[f'|c n]| | | |]; try discriminate H. cbn [obind] in H. now injection H. }
  subst y'. assert (W := read_wf g y Hn Hy). assert (Rr : ys_rules y = full_rules g) by apply Hy.
  assert (HT : forall t, In t (text w) -> In t (ys_terms y)).
  { intros t' Ht'. apply A1. unfold text in Ht'. apply in_app_or in Ht'. destruct Ht' as [Ht'|[<-|[]]]; [|right; now right]. left. unfold tokens in Hw. rewrite Forall_forall in Hw. now apply Hw. }
  assert (HE : forall x, f (KEmpty x) = true <-> nullable (ys_rules y) x) by (rewrite Rr; exact A3).
  assert (HF : forall x t, In x (ys_nts y) -> In t (ys_terms y) -> first (ys_rules y) x t -> f (KFirst x t) = true) by (rewrite Rr; intros x t' B1 B2; apply A4; [now apply A2 | now apply A1]).
  assert (HL : forall x t, In x (ys_nts y) -> In t (ys_terms y) -> follow (ys_rules y) x t -> f (KFollow x t) = true) by (rewrite Rr; intros x t' B1 B2; apply A5; [now apply A2 | now apply A1]).
  assert (HA : forall x rhs, In (x, rhs) (ys_rules y) -> ~ In AXIOM rhs) by (rewrite Rr; intros x rhs; apply (no_axiom g start Hst Hp)).
  assert (HN : ~ nullable (ys_rules y) AXIOM) by (rewrite Rr; apply (not_empty g start Hst Hn Hp y Hy)).
  assert (No' : forall x, ~ derives_itself (ys_rules y) x) by (rewrite Rr; exact No).
  destruct (parse_ok y f (text w) W HE HF HL HA HT HN) as (e & sets' & P1 & G & P2). rewrite Hrun in P1. injection P1 as <- <-. destruct P2 as [Q1 _].
  assert (M := parse_made y f (text w) HE HA HT No' _ _ Hrun).
  assert (Lt : List.length (text w) = S (List.length w)) by (unfold text; rewrite app_length; cbn [List.length]; lia).
  unfold build_flag in Hb. rewrite Ht in Hb. unfold has_tree in Ht. destruct sets as [|s0 sets']; [discriminate Ht|]. set (sets := s0 :: sets') in *. set (sl := last sets s0) in *.
  destruct (s_started sl) as [|[d m] l] eqn:Es; [discriminate Ht|]. apply andb_true_iff in Ht. destruct Ht as [Ht E3]. apply andb_true_iff in Ht. destruct Ht as [E1 E2].
  apply beq_eq in E2. apply Nat.eqb_eq in E1, E3. assert (Hin : In (d, m) (items sl)) by (unfold items; rewrite Es; now left).
  assert (Hl : nth_error sets (List.length sets - 1) = Some sl).
  { assert (Z := app_removelast_last s0 (l := sets) ltac:(discriminate)). fold sl in Z. rewrite Z. rewrite app_length, nth_error_app2 by (cbn [List.length]; lia). cbn [List.length].
    match goal with |- nth_error _ ?a = _ => replace a with 0 by lia end. reflexivity. }
  set (K := List.length sets - 1) in *. destruct d as [[L rhs] j]. unfold dlhs, drhs in E2, E3. cbn [fst snd] in E2, E3, Hb. subst L j m.
  destruct (gd_snd _ _ _ G K sl _ Hl Hin) as [B1 B2 B3 _ _]. unfold drhs in B3. cbn [fst snd] in B1, B3. rewrite firstn_all, Nat.sub_diag in B3. cbn [skipn] in B3. rewrite Nat.sub_0_r in B3.
  assert (HK : K = List.length (text w)) by (unfold K; lia). rewrite HK, firstn_all in B3.
  apply all_drules_in in B1. destruct B1 as [B1 _]. assert (Hrule := B1). rewrite Rr in Hrule. apply (full_in g start Hst) in Hrule.
  assert (Erhs : rhs = [start; B "$eof"]).
  { destruct Hrule as [Z|[Z|[Z _]]]; [exact (f_equal snd Z) | |].
    - exfalso. apply (Hp (B "$S")); [now left|]. exists (B "$S"), rhs. split; [exact Z | now left].
    - exfalso. apply (f_equal snd) in Z. cbn [snd] in Z. subst rhs. change [B "error"; B "$eof"] with ([B "error"] ++ [B "$eof"]) in B3. rewrite Rr in B3. apply steps_split in B3.
      destruct B3 as (w1 & w2 & Ew & W1 & _). apply (error_fixed g Hn y Hy) in W1. subst w1. unfold text in Ew. destruct w as [|t0 w]; [apply (f_equal (hd [])) in Ew; vm_compute in Ew; discriminate Ew|].
      assert (Z : t0 = B "error") by exact (f_equal (hd []) Ew). subst t0. apply (reserved_no_token g Hn (B "error")); [now left|]. unfold tokens in Hw. now inversion Hw. }
  assert (Hseg : firstn (K - 0) (skipn 0 (text w)) = text w) by (cbn [skipn]; rewrite Nat.sub_0_r, HK; apply firstn_all).
  assert (Hgood : forall ks, trees_for (fun t => In t (ys_terms y)) (ys_rules y) rhs ks (text w) -> exists t, ks = [t; DTerm (B "$eof")] /\ tree_of_text g start t w).
  { intros ks Hks. subst rhs. inversion Hks as [|? ? t1 ks' v u T1 T2]; subst.
    inversion T2 as [|? ? t2 ks2 v2 u2 T3 T4]; subst. inversion T4; subst. rewrite app_nil_r in *. exists t1.
    assert (Z : v2 = [B "$eof"] /\ t2 = DTerm (B "$eof")). { inversion T3 as [t0 T5|x0 r0 k0 w0 T5 T6]; subst; [now split|]. exfalso. rewrite Rr in T5. apply (wf_disj y W (B "$eof")); [apply A1; right; now right|]. rewrite <- Rr in T5. exact (wf_lhs y W _ _ T5). }
    destruct Z as [-> ->]. split; [reflexivity|]. match goal with Hq : _ = text w |- _ => unfold text in Hq; apply app_inj_tail in Hq; destruct Hq as [-> _] end.
    rewrite Rr in T1. apply (own_trees g start Hst Hp) in T1; [exact T1 | exact (start_plain g start Hst Hp (B "$S") (or_introl eq_refl)) | exact Hw]. }
  destruct (walk_flag y sets fuel (AXIOM, rhs) (List.length rhs) 0 K []) as [[ks b']| | | |] eqn:Ew; try discriminate Hb. cbn [obind] in Hb. destruct ks as [|t0 ks]; [discriminate Hb|].
  assert (b' = b) by congruence. assert (t0 = t) by congruence. subst b' t0. clear Hb. destruct b.
  - assert (X := walk_many y f (text w) W HE HA HT No' sets G M ltac:(lia) fuel (AXIOM, rhs) (List.length rhs) 0 K [] (t :: ks) B1 (le_n _) ltac:(lia) ltac:(unfold K; lia)). cbn [snd] in X. rewrite firstn_all, Hseg in X.
    destruct (X B3 Ew) as (k1 & k2 & Ne & X1 & X2). destruct (Hgood k1 X1) as (t1 & -> & Y1). destruct (Hgood k2 X2) as (t2 & -> & Y2). exists t1, t2. split; [congruence | now split].
  - intros C t' Ht'. assert (Hfull : trees_for (fun t => In t (ys_terms y)) (ys_rules y) rhs [t'; DTerm (B "$eof")] (text w)).
    { subst rhs. unfold text. constructor.
      - unfold tree_of_text in Ht'. eapply (proj1 (up_trees _ (fun t => In t (ys_terms y)) _ (ys_rules y) _ _)); exact Ht'.
      - refine (tf_cons _ _ (B "$eof") [] (DTerm (B "$eof")) [] [B "$eof"] [] _ _); [|constructor]. constructor. apply A1. right. now right. }
    assert (X := walk_one y f (text w) W HE HA HT No' sets G M ltac:(lia) (cond2_full g start Hst Hn Hp y Rr Hy C) fuel (AXIOM, rhs) (List.length rhs) 0 K [] [t'; DTerm (B "$eof")] [] (t :: ks) B1 (le_n _) ltac:(lia) ltac:(unfold K; lia)).
    cbn [snd fst] in X. rewrite firstn_all, Hseg, skipn_all in X. cbn [firstn app] in X. assert (Z := X (steps_refl _ _)). rewrite HK, skipn_all in Z. rewrite <- HK in Z.
    assert (Q := Z (steps_refl _ _) Hfull Ew). congruence.
Unshelve. all: [> intros; cbn beta in *; apply A1; now left | intros; rewrite Rr; now apply (full_in g start Hst); right; left].
Qed.

(** * C81 *)
(** The construction with the flag is the one of C79. *)
Theorem C81_same_tree : forall y sets fuel, obind (build_flag y sets fuel) (fun p => Ok (fst p)) = build_parse_tree y sets fuel.
Proof. intros. apply build_same. Qed.
(** The warning is printed only if the text has two trees. *)
Theorem C81_warning_means_two : forall strict g y f start w sets fuel t, yaep_read_grammar strict g = Ok (YOk (y, f)) -> each_once g -> plain g -> starts g start -> tokens g w ->
  perform_parse y f (text w) = Ok (None, sets) -> build_flag y sets fuel = Ok (Some t, true) -> ambiguous g start w.
Proof. intros strict g y f start w sets fuel t H _ Hp Hst Hw Hrun Hb. exact (flag_core strict g y f start w sets H Hp Hst Hw Hrun fuel t true Hb). Qed.
(** If no rule starts with two symbols that can be empty, the construction ends with a tree
    of the text, and the warning is printed exactly if the text has two trees. *)
Theorem C81_exact_partial : forall strict g y f start w sets, yaep_read_grammar strict g = Ok (YOk (y, f)) -> each_once g -> plain g -> starts g start -> tokens g w ->
  no_two_empty g -> perform_parse y f (text w) = Ok (None, sets) ->
  exists n t b, (forall fuel, n <= fuel -> build_flag y sets fuel = Ok (Some t, b)) /\ tree_of_text g start t w /\ (b = true <-> ambiguous g start w).
Proof.
  intros strict g y f start w sets H _ Hp Hst Hw C Hrun. destruct (C79_tree_is_derivation_partial strict g y f start w sets H Hp Hst Hw Hrun) as (n & res & N1 & N2 & N3).
  destruct N2 as [->|(t & -> & N2)]; [now destruct (N3 C)|]. assert (Hn := N1 n (le_n _)). rewrite <- build_same in Hn. unfold fsts in Hn.
  destruct (build_flag y sets n) as [[o b]| | | |] eqn:Eb; try discriminate Hn. cbn [obind fst] in Hn. injection Hn as ->. exists n, t, b.
  split; [intros fuel Hf; rewrite <- Eb; apply build_flag_more; [congruence | exact Hf]|]. split; [exact N2|].
  assert (X := flag_core strict g y f start w sets H Hp Hst Hw Hrun n t b Eb). destruct b; [now split|]. split; [discriminate|].
  intros (t1 & t2 & Ne & T1 & T2). exfalso. apply Ne. now rewrite (X C t1 T1), (X C t2 T2).
Qed.
(** Without the warning the tree is the only one. *)
Theorem C81_no_warning_means_one_partial : forall strict g y f start w sets fuel t, yaep_read_grammar strict g = Ok (YOk (y, f)) -> each_once g -> plain g -> starts g start -> tokens g w ->
  no_two_empty g -> perform_parse y f (text w) = Ok (None, sets) -> build_flag y sets fuel = Ok (Some t, false) -> forall t', tree_of_text g start t' w <-> t' = t.
Proof.
  intros strict g y f start w sets fuel t H _ Hp Hst Hw C Hrun Hb t'. assert (X := flag_core strict g y f start w sets H Hp Hst Hw Hrun fuel t false Hb C). split; [apply X|].
  intros ->. apply (C79_returned_tree strict g y f start w sets fuel t H Hp Hst Hw Hrun). rewrite <- build_same, Hb. reflexivity.
Qed.

(** * Cases *)
Definition flagged (g : ygrammar) (w : list bytes) : option bool :=
  match yaep_read_grammar false g with
  | Ok (YOk (y, f)) => match perform_parse y f (text w) with Ok (None, s) => match build_flag y s 200 with Ok (Some _, b) => Some b | _ => None end | _ => None end
  | _ => None
  end.
(** In general the warning can be missing: X can be empty by both of its rules. *)
Definition two_empty : ygrammar := YGrammar [(B "a", 1); (B "b", 2); (B "c", 3); (B "d", 4)]%Z
  [(B "S", [B "X"; B "c"]); (B "S", [B "a"; B "X"; B "d"]); (B "X", []); (B "X", [B "A"; B "C"]); (B "A", [B "a"]); (B "A", []); (B "C", [B "b"]); (B "C", [])].
Lemma once_check (l : list (bytes * list bytes)) : (fix go l := match l with [] => true | r :: l => negb (existsb (fun q => beq (fst r) (fst q) && (if list_eq_dec (list_eq_dec N.eq_dec) (snd r) (snd q) then true else false)) l) && go l end) l = true -> NoDup l.
Proof.
  induction l as [|r l IH]; intro H; constructor; apply andb_true_iff in H; destruct H as [H1 H2]; [|now apply IH]. intro Z. apply negb_true_iff in H1.
  assert (Q : existsb (fun q => beq (fst r) (fst q) && (if list_eq_dec (list_eq_dec N.eq_dec) (snd r) (snd q) then true else false)) l = true).
  { apply existsb_exists. exists r. split; [exact Z|]. apply andb_true_iff. split; [now apply beq_eq|]. now destruct (list_eq_dec _ _ _). }
  rewrite Q in H1. discriminate H1.
Qed.
Theorem C81_missing_warning_refuted : exists g y f start w sets t, yaep_read_grammar false g = Ok (YOk (y, f)) /\ each_once g /\ plain g /\ starts g start /\ tokens g w /\
  perform_parse y f (text w) = Ok (None, sets) /\ ambiguous g start w /\ exists n, forall fuel, n <= fuel -> build_flag y sets fuel = Ok (Some t, false).
Proof.
  destruct (yaep_read_grammar false two_empty) as [[(y & f)|c n]| | | |] eqn:E; try (vm_compute in E; discriminate E).
  assert (Q : flagged two_empty [B "a"; B "d"] = Some false) by (vm_compute; reflexivity). unfold flagged in Q.
  rewrite E in Q. destruct (perform_parse y f (text [B "a"; B "d"])) as [[[j|] sets]| | | |] eqn:P; try discriminate Q.
  destruct (build_flag y sets 200) as [[[t|] [|]]| | | |] eqn:Eb; try discriminate Q.
  exists two_empty, y, f, (B "S"), [B "a"; B "d"], sets, t. split; [exact E|]. split; [apply once_check; vm_compute; reflexivity|]. split; [apply plain_check; vm_compute; reflexivity|].
  split; [eexists; eexists; reflexivity|]. split; [unfold tokens; repeat (apply Forall_cons; [vm_compute; auto 10|]); apply Forall_nil|]. split; [exact P|]. split.
  - set (tr := fun x => DNode (B "S", [B "a"; B "X"; B "d"]) [DTerm (B "a"); x; DTerm (B "d")]).
    exists (tr (DNode (B "X", []) [])), (tr (DNode (B "X", [B "A"; B "C"]) [DNode (B "A", []) []; DNode (B "C", []) []])). split; [intro Z; unfold tr in Z; vm_compute in Z; discriminate Z|].
    assert (Hx : forall x, tree_of_text two_empty (B "X") x [] -> tree_of_text two_empty (B "S") (tr x) [B "a"; B "d"]).
    { intros x Hx. unfold tr. constructor; [right; now left|]. change [B "a"; B "d"] with ([B "a"] ++ [] ++ [B "d"] ++ []). constructor; [constructor; now left|]. constructor; [exact Hx|].
      constructor; [constructor; right; right; right; now left | constructor]. }
    split; apply Hx.
    + constructor; [right; right; now left | constructor].
    + constructor; [right; right; right; now left|]. change (@nil bytes) with (@nil bytes ++ @nil bytes ++ @nil bytes). constructor; [constructor; [do 5 right; now left | constructor]|].
      constructor; [constructor; [do 7 right; now left | constructor] | constructor].
  - exists 200. intros fuel Hf. rewrite <- Eb. apply build_flag_more; [congruence | exact Hf].
Qed.
(** S S | a: the hypotheses hold; one tree for aa, two for aaa *)
Definition twos : ygrammar := YGrammar [(B "a", 1)]%Z [(B "S", [B "S"; B "S"]); (B "S", [B "a"])].
Example C81_ex_flag : flagged twos [B "a"; B "a"] = Some false /\ flagged twos [B "a"; B "a"; B "a"] = Some true /\ flagged sums [B "x"; B "+"; B " "; B "x"] = Some false.
Proof. repeat split; vm_compute; reflexivity. Qed.
Example C81_ex_hyps : (exists y f, yaep_read_grammar false twos = Ok (YOk (y, f))) /\ each_once twos /\ plain twos /\ starts twos (B "S") /\ tokens twos [B "a"; B "a"; B "a"] /\ no_two_empty twos.
Proof.
  split; [destruct (yaep_read_grammar false twos) as [[(y & f)|c n]| | | |] eqn:E; try (vm_compute in E; discriminate E); now exists y, f|].
  split; [apply once_check; vm_compute; reflexivity|]. split; [apply plain_check; vm_compute; reflexivity|]. split; [eexists; eexists; reflexivity|].
  split; [unfold tokens; repeat (apply Forall_cons; [vm_compute; auto 10|]); apply Forall_nil|].
  assert (X : forall u v, steps (y_rules twos) u v -> u <> [] -> v <> []).
  { induction 1 as [u|u u' v Hs _ IH]; intro A; [exact A|]. apply IH. destruct Hs as [p x r q Hr]. destruct Hr as [Hr|[Hr|[]]]; apply (f_equal snd) in Hr; cbn [snd] in Hr; subst r; destruct p; discriminate. }
  intros x a b r _ Ha _. exact (X _ _ Ha ltac:(discriminate) eq_refl).
Qed.
Print Assumptions C81_same_tree.
Print Assumptions C81_warning_means_two.
Print Assumptions C81_exact_partial.
Print Assumptions C81_no_warning_means_one_partial.
Print Assumptions C81_missing_warning_refuted.
