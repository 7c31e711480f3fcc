(** C82: without the warning for an ambiguous text, the document is the only one that the
    ixml grammar gives for the text *)
From Coq Require Import NArith ZArith List Bool Arith String Lia.
From Verif Require Import Bytes BytesFacts Outcome Utf8 Utf8Proofs Dom Ixml IxmlSpec IxmlTrans IxmlLang IxmlParse IxmlUse IxmlDoc IxmlDocSpec IxmlTree IxmlWrite Yaep YaepSpec YaepGram YaepProofs YaepParse YaepCache IxmlRun YaepParseFacts YaepTree YaepTreeSpec YaepTreeProofs IxmlWhole YaepAmb YaepAmbProofs IxmlWarn PropsIxmlDoc PropsIxml PropsYaep PropsYaepParse PropsYaepCache PropsIxmlRun PropsYaepTree PropsIxmlWhole PropsYaepAmb.
Import ListNotations.
Local Open Scope list_scope.
Local Open Scope nat_scope.

(** * Proofs *)
Definition named_terms (ts : list (bytes * Z)) : Prop := (forall s c, In (s, c) ts -> s = term_name c) /\ NoDup (map fst ts).
Section Named.
Variable y : ygrammar.
Variable mg : mgrammar.
Variable junk : N -> Prop.
Hypothesis Et : mg_terms mg = y_terms y.
Hypothesis Er : map rule_names (mg_rules mg) = y_rules y.
Hypothesis Ho : named_terms (y_terms y).
Hypothesis He : each_once y.
Hypothesis Hj : forall m, junk m -> m <> 45%N.
Notation TF := (tree_for (fun t => In t (map fst (y_terms y))) (y_rules y)).
Notation TSF := (trees_for (fun t => In t (map fst (y_terms y))) (y_rules y)).
Scheme to_mut := Minimality for tree_of Sort Prop
with tos_mut := Minimality for trees_of Sort Prop.
Combined Scheme to_both from to_mut, tos_mut.
(** The tree below a tree with marks *)
Lemma unmark :
  (forall i T v, tree_of mg junk i T v -> exists t, marked mg junk i t T /\ TF (t_name i) t (map term_name v)) /\
  (forall is Ts v, trees_of mg junk is Ts v -> exists ts, all_marked mg junk is ts Ts /\ TSF (map t_name is) ts (map term_name v)).
Proof.
  apply to_both.
  - intros m s c k Hc Hk. exists (DTerm s). split; [now constructor|]. cbn [t_name map]. rewrite Et in Hc. destruct Ho as [H1 _].
    rewrite <- (H1 s c Hc). constructor. apply in_map_iff. exists (s, c). split; [reflexivity | exact Hc].
  - intros m r ks v Hr _ (ts & M1 & M2). exists (DNode (rule_names r) ts). split; [now constructor|]. cbn [t_name]. unfold rule_names. constructor; [|exact M2]. rewrite <- Er. change (r_name r, map t_name (r_rhs r)) with (rule_names r). now apply in_map.
  - exists []. split; constructor.
  - intros i is k ks v u _ (t & A1 & A2) _ (ts & B1 & B2). exists (t :: ts). split; [now constructor|]. cbn [map]. rewrite map_app. now constructor.
Qed.
Lemma one_rule r r' : In r (mg_rules mg) -> In r' (mg_rules mg) -> rule_names r = rule_names r' -> r = r'.
Proof.
  unfold each_once in He. rewrite <- Er in He. revert He. clear Er. induction (mg_rules mg) as [|a l IH]; intros N1 H1 H2 E; [destruct H1|]. cbn [map] in N1. inversion N1 as [|? ? N2 N3]; subst.
  destruct H1 as [<-|H1], H2 as [<-|H2]; [reflexivity | | | exact (IH N3 H1 H2 E)]; exfalso; apply N2; [rewrite E | rewrite <- E]; now apply in_map.
Qed.
(** The marks of a tree are determined as far as the document depends on them. *)
Lemma same_doc :
  (forall i t T, marked mg junk i t T -> forall T', marked mg junk i t T' -> collect T = collect T' /\ (forall f, gen_dom T f = gen_dom T' f) /\ (forall d, gen_doc T d = gen_doc T' d)) /\
  (forall is ts Ts, all_marked mg junk is ts Ts -> forall Ts', all_marked mg junk is ts Ts' -> collect_all Ts = collect_all Ts' /\ (forall f, gen_all Ts f = gen_all Ts' f) /\ (forall d, gen_docs Ts d = gen_docs Ts' d)).
Proof.
  apply marks_mut.
  - intros m s c k Hc Hk T' H. inversion H as [m' s' c' k' Hc' Hk'|]; subst.
    assert (c = c') by (apply (one_code (y_terms y) s); [apply Ho | rewrite <- Et; exact Hc | rewrite <- Et; exact Hc']). subst c'.
    assert (E : (k =? cMINUS)%N = (k' =? cMINUS)%N).
    { destruct (m =? 0)%N; [|congruence]. apply Hj in Hk, Hk'. apply N.eqb_neq in Hk, Hk'. unfold cMINUS. now rewrite Hk, Hk'. }
    cbn [collect gen_dom gen_doc]. rewrite E. now repeat split.
  - intros m r ts ks Hr _ IH T' H. inversion H as [|m' r' ts' ks' Hr' Ha E1 E2]; subst.
    assert (r' = r) by (apply one_rule; [assumption | assumption | unfold rule_names in *; congruence]). subst r'. destruct (IH ks' Ha) as (I1 & I2 & I3).
    assert (C1 : forall n k, collect (YNode n k ks) = collect (YNode n k ks')) by (intros n k; exact I1).
    assert (C2 : forall n k f, gen_dom (YNode n k ks) f = gen_dom (YNode n k ks') f) by (intros n k f; rewrite !gen_dom_node, C1, !I2; reflexivity).
    split; [apply C1|]. split; [apply C2|]. intro d. now rewrite !gen_doc_node, C1, C2, I3.
  - intros Ts' H. inversion H. now repeat split.
  - intros i is t ts k ks _ IH1 _ IH2 Ts' H. inversion H as [|i' is' t' ts' k' ks' H1 H2]; subst. destruct (IH1 k' H1) as (A1 & A2 & A3). destruct (IH2 ks' H2) as (B1 & B2 & B3). split; [|split].
    + cbn [collect_all]. fold collect_all. now rewrite A1, B1.
    + intro f. cbn [gen_all]. fold gen_all. rewrite A2. destruct (gen_dom k' f); [apply B2 | reflexivity].
    + intro d. cbn [gen_docs]. fold gen_docs. rewrite A3. destruct (gen_doc k' d); [apply B3 | reflexivity].
Qed.
End Named.

Lemma runs G src w : w_grammar G src -> ok_grammar G = true -> Forall code_ok w -> Forall small (w ++ literals G) ->
  exists y g', use_grammar (built G) (utf8 w) = IOk (y, g') /\ named_terms (y_terms y) /\ (forall c, In c w -> In (term_name c, c) (y_terms y)) /\
    exists n, ~ loops y -> exists s f start e sets, yaep_read_grammar false y = Ok (YOk (s, f)) /\ PropsYaepParse.plain y /\ starts y start /\ tokens y (map term_name w) /\
       perform_parse s f (text (map term_name w)) = Ok (e, sets) /\ (describes G w <-> steps (y_rules y) [start] (map term_name w)) /\
       (forall fuel, ixml_tree fuel (built G) (utf8 w) = of_tree (obind (build_parse_tree s sets fuel) (fun t => Ok (true, t)))) /\
       (forall fuel, ixml_warns fuel (built G) (utf8 w) = match build_flag s sets fuel with Ok (_, b) => b | _ => false end) /\
       (forall fuel, n <= fuel -> build_parse_tree s sets fuel <> NoFuel).
Proof.
  intros HG Hok Hw Hs. unfold built.
  destruct (use_spec_more G src w HG Hok Hw) as (y & g' & U1 & U2 & (U3 & U4) & U5a & U5b). assert (U5 : derives y w <-> describes G w) by (split; [apply U5a|apply U5b, incl_refl]). rewrite lit_rules in U3. exists y, g'. split; [exact U1|].
  assert (Hno : names_ok y) by (eapply handed_names; eassumption). assert (Hp : PropsYaepParse.plain y) by (eapply handed_plain; eassumption).
  assert (Hx : exists start, starts y start) by (eapply handed_starts; eassumption). destruct Hx as (start & Hst).
  assert (Hl : loops y <-> exists x, derives_itself (full_rules y) x) by (eapply loops_full; eassumption).
  assert (Hd : derives y w <-> steps (y_rules y) [start] (map term_name w)) by (eapply derives_steps; try eassumption; apply incl_refl).
  split; [split; [intros s c Hc; now apply U3 in Hc | apply U2]|]. split; [intros c Hc; apply U3; auto|].
  pose proof Hst as Hst'. destruct Hst as (rhs & rest & Est).
  assert (He : forall tail, ~ In (start, B "error" :: tail) (y_rules y)). { intros tail H. apply U4 in H. inversion H as [|? ? (A & _) _]; subst. now elim A. }
  pose proof (C74_loops_only y start rhs rest Est Hno He) as Hlo. destruct (C74_ends false y) as (r & E). destruct r as [(s & f)|c m].
  2: { exists 0. intros Hnl. exfalso. destruct (proj2 Hlo) as (s & f & E'); [|rewrite E in E'; discriminate E']. intros x Hx. apply Hnl, Hl. now exists x. }
  assert (Hq : exists lo hi, code_range (coded y) = Some (lo, hi) /\ forall t, In t (coded y) -> (lo <= snd t <= hi)%Z) by (eapply range_ok; eassumption). destruct Hq as (lo & hi & Er & Hr).
  assert (Hrd : read_tokens (coded y) lo hi (w ++ [END_MARKER_CODE]) = Ok (Some (text (map term_name w)))) by (eapply read_w; try eassumption; apply incl_refl).
  assert (Ht : tokens y (map term_name w)) by (eapply handed_tokens; try eassumption; apply incl_refl).
  destruct (parse_facts false y s f start (map term_name w) E Hp Hst' Ht) as (e & sets & P1 & P2).
  destruct (C76_same_sets s f _ e sets P1) as (hits & P3).
  assert (Hn : exists n, forall fuel, n <= fuel -> build_parse_tree s sets fuel <> NoFuel).
  { destruct e as [j|].
    - exists 0. intros fuel _. now rewrite (C79_no_tree false y s f (map term_name w) j sets fuel E Hp Ht P1).
    - destruct (C79_tree_is_derivation_partial false y s f start (map term_name w) sets E Hp Hst' Ht P1) as (n & res & N1 & N2 & _). exists n. intros fuel Hf. rewrite (N1 fuel Hf). destruct N2 as [->|(t & -> & _)]; discriminate. }
  destruct Hn as (n & Hn). exists n. intro Hnl.
  exists s, f, start, e, sets. split; [exact E|]. split; [exact Hp|]. split; [exact Hst'|]. split; [exact Ht|]. split; [exact P1|]. split; [rewrite <- U5; exact Hd|]. split; [|split; [|exact Hn]]; intro fuel.
  - unfold ixml_tree. rewrite U1, scan_spec by (try exact Hw; lia). rewrite E, Er. unfold yaep_tree. rewrite Hrd. cbn [obind]. rewrite P3. reflexivity.
  - unfold ixml_warns. rewrite U1, scan_spec by (try exact Hw; lia). rewrite E, Er. unfold yaep_flag. rewrite Hrd. cbn [obind]. rewrite P3. cbn [obind fst snd].
    destruct (build_flag s sets fuel) as [[o b]| | | |]; reflexivity.
Qed.

(** * C82 *)
(** [gives], [document] and [attrs_plain]: IxmlDocSpec.v; [ambiguous]: PropsYaepAmb.v, for
    the rules that are handed to yaep.

    Full statement: if no warning is printed, the document is the only one that the grammar
    gives for the text.  Missing: as in C80 and C81, and grammars that give a rule twice.

    A warning is printed only if the text has two trees, and exactly then if no rule starts
    with two symbols that can be empty.  In this case, without a warning the document is
    equal to every document that the grammar gives for the text. *)
Theorem C82_no_warning_one_document_partial : forall G src w (junk : N -> Prop),
  w_grammar G src -> ok_grammar G = true -> marks_ok G = true ->
  Forall (fun c => code_ok c /\ c <> 0%Z) w -> Forall small (w ++ literals G) -> junk 0%N -> (forall m, junk m -> m <> 45%N) ->
  exists n, forall fuel, n <= fuel -> exists g y g', ixml_build fuel src = IOk g /\ use_grammar g (utf8 w) = IOk (y, g') /\
    (~ loops y -> each_once y -> exists start, starts y start /\
      (ixml_warns fuel g (utf8 w) = true -> describes G w /\ ambiguous y start (map term_name w)) /\
      (no_two_empty y ->
        (ixml_warns fuel g (utf8 w) = true <-> ambiguous y start (map term_name w)) /\
        (ixml_warns fuel g (utf8 w) = false -> describes G w ->
          exists ds, (forall o, whole fuel junk g (utf8 w) o <-> o = Done true ds) /\
            forall its d, gives G w its -> forallb attrs_plain its = true -> document its d -> ds = [d]))).
Proof.
  intros G src w junk HG Hok Hm Hw Hs J0 Hj. assert (Hc : Forall code_ok w) by (eapply Forall_impl; [|exact Hw]; intros c H; apply H).
  destruct (run_build G src HG Hok) as (n1 & Hb). destruct (runs G src w HG Hok Hc Hs) as (y & g' & U1 & U2 & U3 & U4).
  destruct (C61_document_follows_marks_partial G src w junk HG Hok Hm Hw Hj) as (n2 & H61).
  destruct (H61 (n1 + n2) ltac:(lia)) as (g & mg & B1 & M1 & M2 & M3). rewrite Hb in B1 by lia. injection B1 as <-.
  destruct (same_grammar (built G) (utf8 w) y g' mg U1 M1) as [Et Er].
  destruct (C80_exact G src w junk HG Hok Hm Hw Hs J0 Hj) as (n3 & H80).
  destruct U4 as (n4 & U4). exists (n1 + n3 + n4). intros fuel Hf. exists (built G), y, g'. split; [apply Hb; lia|]. split; [exact U1|]. intros Hnl He.
  destruct (U4 Hnl) as (s & f & start & e & sets & R1 & R2 & R3 & R4 & R5 & R6 & R7 & R8 & R9). exists start. split; [exact R3|]. rewrite (R8 fuel).
  assert (Hnone : forall j, e = Some j -> build_flag s sets fuel = Ok (None, false)).
  { intros j ->. unfold build_flag. now rewrite (C75_no_tree false y s f (map term_name w) j sets R1 R2 R4 R5). }
  assert (Hold : no_two_empty y -> steps (y_rules y) [start] (map term_name w) -> e = None).
  { intros C D. destruct (proj2 (C75_exact false y s f start (map term_name w) R1 R2 R3 R4 (two_pair y C)) D) as (sets' & E'). rewrite R5 in E'. now injection E' as ->. }
  split.
  - intro Hwarn. destruct e as [j|]; [rewrite (Hnone j eq_refl) in Hwarn; discriminate Hwarn|]. split; [apply R6; exact (proj1 (C75_taken_is_text false y s f start (map term_name w) sets R1 R2 R3 R4 R5))|].
    destruct (build_flag s sets fuel) as [[[t|] b]| | | |] eqn:Eb; try discriminate Hwarn.
    + subst b. exact (C81_warning_means_two false y s f start (map term_name w) sets fuel t R1 He R2 R3 R4 R5 Eb).
    + exfalso. assert (Z := build_same s sets fuel). rewrite Eb in Z. unfold fsts in Z. cbn [obind fst] in Z.
      destruct (C79_tree_is_derivation_partial false y s f start (map term_name w) sets R1 R2 R3 R4 R5) as (n & res & N1 & N2 & _).
      assert (Z2 : build_parse_tree s sets (n + fuel) = Ok None) by (rewrite Z; apply build_more; [rewrite <- Z; discriminate | lia]). rewrite N1 in Z2 by lia. subst res. destruct N2 as [N2|(t & N2 & _)]; discriminate N2.
  - intro C. assert (Hex : e = None -> exists t b, build_flag s sets fuel = Ok (Some t, b) /\ tree_of_text y start t (map term_name w) /\ (b = true <-> ambiguous y start (map term_name w)) /\
      (b = false -> forall t', tree_of_text y start t' (map term_name w) <-> t' = t)).
    { intros ->. destruct (C81_exact_partial false y s f start (map term_name w) sets R1 He R2 R3 R4 C R5) as (n & t & b & N1 & N2 & N3).
      assert (Z : build_flag s sets fuel = Ok (Some t, b)).
      { rewrite <- (N1 (n + fuel)) by lia. symmetry. apply build_flag_more; [|lia]. intro Z. apply (R9 fuel ltac:(lia)). rewrite <- build_same, Z. reflexivity. }
      exists t, b. split; [exact Z|]. split; [exact N2|]. split; [exact N3|]. intros -> t'. exact (C81_no_warning_means_one_partial false y s f start (map term_name w) sets fuel t R1 He R2 R3 R4 C R5 Z t'). }
    split.
    + destruct e as [j|].
      * rewrite (Hnone j eq_refl). split; [discriminate|]. intros (t1 & _ & _ & T1 & _). apply C79_trees_are_derivations in T1. specialize (Hold C T1). discriminate Hold.
      * destruct (Hex eq_refl) as (t & b & E1 & _ & E3 & _). now rewrite E1.
    + intros Hno D. assert (e = None) by (apply Hold; [exact C | now apply R6]). subst e. destruct (Hex eq_refl) as (t & b & E1 & E2 & _ & E4). rewrite E1 in Hno. subst b. specialize (E4 eq_refl).
      assert (Hbt : build_parse_tree s sets fuel = Ok (Some t)) by (rewrite <- build_same, E1; reflexivity). assert (Htree := R7 fuel). rewrite Hbt in Htree. cbn [obind of_tree] in Htree.
      assert (Hr0 : exists r rs, mg_rules mg = r :: rs /\ r_name r = start).
      { destruct R3 as (rhs & rest & E). rewrite <- Er in E. destruct (mg_rules mg) as [|r rs]; [discriminate E|]. exists r, rs. split; [reflexivity|]. cbn [map] in E. exact (f_equal (fun l => fst (hd ([], []) l)) E). }
      destruct Hr0 as (r & rs & Emg & Ers). subst start. destruct (H80 fuel ltac:(lia)) as (g2 & y2 & g3 & K1 & K2 & K3). rewrite Hb in K1 by lia. injection K1 as <-. rewrite U1 in K2. injection K2 as <- <-.
      destruct (K3 Hnl C) as ((o & K4) & K5 & _). destruct (K5 D o K4) as (ds & -> & _).
      assert (Hin : forall o, whole fuel junk (built G) (utf8 w) o -> exists d T, o = Done true d /\ marked mg junk (ITerm 0 (r_name r)) t T /\ gen_doc T [] = DOk d).
      { intros o Ho. destruct (K5 D o Ho) as (d & -> & _). inversion Ho as [ret E|ret t' mg' r' rs' T d' E E5 E6 E7 E8|ret t' mg' r' rs' T E E5 E6 E7 E8|E|E|E|E]; subst; rewrite Htree in E; try discriminate E.
        injection E as <-. rewrite M1 in E5. injection E5 as <-. rewrite Emg in E6. injection E6 as <- <-. now exists d, T. }
      destruct (Hin _ K4) as (d0 & T0 & Z & Q1 & Q2). injection Z as <-. exists ds. split.
      * intro o. split; [|intros ->; exact K4]. intro Ho. destruct (Hin o Ho) as (d1 & T1 & -> & Q3 & Q4). destruct (proj1 (same_doc y mg junk Et Er U2 He Hj) _ _ _ Q1 T1 Q3) as (_ & _ & S3). rewrite S3, Q4 in Q2. congruence.
      * intros its d Hg Hp Hd. destruct (M3 J0 its Hg) as (T' & Hpt & Hdoc). specialize (Hdoc Hp d Hd). destruct Hpt as (r1 & rs1 & Em1 & Ht1). rewrite Emg in Em1. injection Em1 as <- <-.
        destruct (proj1 (unmark y mg junk Et Er U2) _ _ _ Ht1) as (t1 & Q3 & Q4). cbn [t_name] in Q4. apply E4 in Q4. subst t1.
        destruct (proj1 (same_doc y mg junk Et Er U2 He Hj) _ _ _ Q1 T' Q3) as (_ & _ & S3). rewrite S3, Hdoc in Q2. congruence.
Qed.

(** * Cases *)
Import PropsIxmlRun.
Local Open Scope string_scope.
Local Open Scope list_scope.
(** s: a | b. a: "x". b: "x". *)
Definition amb_G : grammar :=
  [ru "s" (AMore (PropsIxmlRun.seq [TOne (nt "a")]) (AOne (PropsIxmlRun.seq [TOne (nt "b")])));
   ru "a" (AOne (PropsIxmlRun.seq [TOne (str "x")])); ru "b" (AOne (PropsIxmlRun.seq [TOne (str "x")]))].
Example C82_ex : ixml_warns 100 (built run_G) (utf8 (PropsIxml.w1 "xyy")) = false /\ ixml_warns 100 (built amb_G) (utf8 (PropsIxml.w1 "x")) = true.
Proof. split; vm_compute; reflexivity. Qed.
(** The hypotheses are those of C80_ex_hyps, and every rule is given once. *)
Example C82_ex_hyps : exists y g', use_grammar (built run_G) (utf8 (PropsIxml.w1 "xyy")) = IOk (y, g') /\ ~ loops y /\ no_two_empty y /\ each_once y /\ describes run_G (PropsIxml.w1 "xyy").
Proof.
  destruct C80_ex_hyps as (_ & _ & _ & _ & _ & y & g' & U & L & N0 & D). exists y, g'. split; [exact U|]. split; [exact L|]. split; [exact N0|]. split; [|exact D].
  vm_compute in U. injection U as <- _. apply once_check. vm_compute. reflexivity.
Qed.

(** Without the condition on empty symbols the warning can be missing, though the grammar gives two documents:
    s: x, "c" | "a", x, "d". x: | n, m. n: "a"?. m: "b"?. *)
Definition miss_G : grammar :=
  [ru "s" (AMore (PropsIxmlRun.seq [TOne (nt "x"); TOne (str "c")]) (AOne (PropsIxmlRun.seq [TOne (str "a"); TOne (nt "x"); TOne (str "d")])));
   ru "x" (AMore ANil (AOne (PropsIxmlRun.seq [TOne (nt "n"); TOne (nt "m")])));
   ru "n" (AOne (PropsIxmlRun.seq [TOpt (str "a")])); ru "m" (AOne (PropsIxmlRun.seq [TOpt (str "b")]))].
Lemma ixml_warns_more fuel fuel' g content t : ixml_tree fuel g content = TRan true (Some t) -> fuel <= fuel' -> ixml_warns fuel' g content = ixml_warns fuel g content.
Proof.
  intros H Hf. unfold ixml_tree, yaep_tree, ixml_warns, yaep_flag in *. destruct (use_grammar g content) as [(y & g')| | | | | |]; try reflexivity. destruct (scan_content (List.length content) content) as [codes| | | | | |]; try reflexivity.
  destruct (yaep_read_grammar false y) as [[(s & f)|]| | | |]; try reflexivity. destruct (code_range (coded y)) as [(lo & hi)|]; [|reflexivity].
  destruct (read_tokens (coded y) lo hi (codes ++ [END_MARKER_CODE])) as [[toks|]| | | |]; cbn [obind] in *; try reflexivity. destruct (perform_parse_cached s f toks) as [r| | | |]; cbn [obind] in *; try reflexivity.
  rewrite (build_flag_more s (snd (fst r)) fuel fuel'); [reflexivity| |exact Hf]. intros Z. pose proof (C81_same_tree s (snd (fst r)) fuel) as Q. rewrite Z in Q. cbn [obind] in Q.
  rewrite <- Q in H. discriminate H.
Qed.
Theorem C82_missing_warning_refuted : exists G src w its1 d1 its2 d2, w_grammar G src /\ ok_grammar G = true /\ marks_ok G = true /\
  Forall (fun c => code_ok c /\ c <> 0%Z) w /\ Forall small (w ++ literals G) /\
  gives G w its1 /\ forallb attrs_plain its1 = true /\ document its1 d1 /\ gives G w its2 /\ forallb attrs_plain its2 = true /\ document its2 d2 /\ d1 <> d2 /\
  exists n, forall fuel, n <= fuel -> exists g, ixml_build fuel src = IOk g /\ ixml_warns fuel g (utf8 w) = false.
Proof.
  assert (HG : w_grammar miss_G (p_rules miss_G)) by (apply p_grammar_ok; reflexivity).
  assert (Hw : Forall code_ok (PropsIxml.w1 "ad")) by (apply ok_codes; reflexivity). assert (Hs : Forall small (PropsIxml.w1 "ad" ++ literals miss_G)) by (apply ok_small; reflexivity).
  destruct (ixml_tree 100 (built miss_G) (utf8 (PropsIxml.w1 "ad"))) as [[|] [t|]| | | |] eqn:T; try (vm_compute in T; discriminate T).
  assert (W : ixml_warns 100 (built miss_G) (utf8 (PropsIxml.w1 "ad")) = false) by (vm_compute; reflexivity).
  assert (X : forall i, o_alts miss_G (AMore ANil (AOne (PropsIxmlRun.seq [TOne (nt "n"); TOne (nt "m")]))) [] i -> gives miss_G (PropsIxml.w1 "ad") [IElem (B "s") ([IChar 97] ++ [IElem (B "x") i] ++ [IChar 100] ++ [])]).
  { intros i Hi. eexists; eexists; eexists; eexists. split; [reflexivity|]. split; [left; reflexivity|]. split; [reflexivity|]. split; [|reflexivity].
    apply o_later. apply o_last. change (PropsIxml.w1 "ad") with (PropsIxml.w1 "a" ++ [] ++ PropsIxml.w1 "d" ++ []). unfold PropsIxmlRun.seq. cbn [fold_right].
    apply o_cons; [apply o_one, (o_str miss_G 0 (PropsIxml.w1 "a"))|]. apply o_cons.
    { apply o_one. exact (o_nt miss_G 0 (B "x") None (ru "x" _) [] i (or_intror (or_introl eq_refl)) eq_refl Hi). }
    apply o_cons; [apply o_one, (o_str miss_G 0 (PropsIxml.w1 "d"))|apply o_nil]. }
  exists miss_G, (p_rules miss_G), (PropsIxml.w1 "ad"). eexists. eexists. eexists. eexists. split; [exact HG|]. split; [reflexivity|]. split; [reflexivity|]. split.
  { apply Forall_forall. intros c Hc. rewrite Forall_forall in Hw. split; [now apply Hw|]. vm_compute in Hc. intros ->. repeat (destruct Hc as [Hc|Hc]; [discriminate Hc|]). exact Hc. }
  split; [exact Hs|]. split; [apply (X []); apply o_first, o_nil|]. split; [reflexivity|]. split; [eexists; eexists; split; reflexivity|]. split.
  { apply (X ([IElem (B "n") []] ++ [IElem (B "m") []] ++ [])). apply o_later, o_last. change (@nil Z) with (@nil Z ++ @nil Z ++ @nil Z). unfold PropsIxmlRun.seq. cbn [fold_right]. apply o_cons; [|apply o_cons; [|apply o_nil]]; apply o_one.
    - refine (o_nt miss_G 0 (B "n") None (ru "n" _) [] [] (or_intror (or_intror (or_introl eq_refl))) eq_refl _). apply o_last. exact (o_cons miss_G (TOpt (str "a")) ANil [] [] [] [] (o_opt_no miss_G _) (o_nil miss_G)).
    - refine (o_nt miss_G 0 (B "m") None (ru "m" _) [] [] (or_intror (or_intror (or_intror (or_introl eq_refl)))) eq_refl _). apply o_last. exact (o_cons miss_G (TOpt (str "b")) ANil [] [] [] [] (o_opt_no miss_G _) (o_nil miss_G)). }
  split; [reflexivity|]. split; [eexists; eexists; split; reflexivity|]. split; [vm_compute; discriminate|].
  destruct (run_build miss_G (p_rules miss_G) HG eq_refl) as (n & Hb). exists (n + 100). intros fuel Hf. exists (built miss_G). split; [apply Hb; lia|].
  rewrite <- W. apply (ixml_warns_more 100 fuel _ _ t T). lia.
Qed.
Print Assumptions C82_no_warning_one_document_partial.
Print Assumptions C82_missing_warning_refuted.
