(** C80: a text that is parsed with an ixml grammar gives a document that the grammar
    gives for the text, from the bytes of the grammar and the text to the document. *)
From Coq Require Import NArith ZArith List Bool Arith String Lia.
From Verif Require Import Bytes BytesFacts Outcome Utf8 Utf8Proofs Dom Ixml IxmlSpec IxmlTrans IxmlLang IxmlParse IxmlUse IxmlDoc IxmlDocSpec IxmlTree IxmlWrite Yaep YaepSpec YaepGram YaepProofs YaepParse YaepCache IxmlRun YaepParseFacts YaepTree YaepTreeSpec YaepTreeProofs IxmlWhole PropsIxmlDoc PropsIxml PropsYaep PropsYaepParse PropsYaepCache PropsIxmlRun PropsYaepTree.
Import ListNotations.
Local Open Scope list_scope.

(** * Specification *)
(** [gives], [document] and [attrs_plain] are in IxmlDocSpec.v.  The document [ds] is the
    one that the grammar [G] gives for the text [w]. *)
Definition right_document (G : grammar) (w : word) (ds : list node) : Prop :=
  exists its, gives G w its /\ (forallb attrs_plain its = true -> forall d, document its d -> ds = [d]).

(** * Proofs *)
Section Named.
Variable y : ygrammar.
Variable mg : mgrammar.
Variable junk : N -> Prop.
Hypothesis Et : mg_terms mg = y_terms y.
Hypothesis Er : map rule_names (mg_rules mg) = y_rules y.
Hypothesis Nd : NoDup (map fst (y_terms y)).
Variable w : word.
Hypothesis Hw : forall c, In c w -> In (term_name c, c) (y_terms y).
Notation TF := (tree_for (fun t => In t (map fst (y_terms y))) (y_rules y)).
Notation TSF := (trees_for (fun t => In t (map fst (y_terms y))) (y_rules y)).

Lemma one_code (l : list (bytes * Z)) s c c' : NoDup (map fst l) -> In (s, c) l -> In (s, c') l -> c = c'.
Proof.
  induction l as [|(s0, c0) l IH]; intros Hd H H'; [elim H|]. cbn [map fst] in Hd. inversion Hd as [|? ? N1 N2]; subst.
  destruct H as [H|H], H' as [H'|H']; try (now apply IH); try congruence.
  - exfalso. apply N1. pose proof (f_equal fst H) as F. cbn [fst] in F. subst s0. apply in_map_iff. exists (s, c'). auto.
  - exfalso. apply N1. pose proof (f_equal fst H') as F. cbn [fst] in F. subst s0. apply in_map_iff. exists (s, c). auto.
Qed.
Scheme marked_mut := Minimality for marked Sort Prop
with all_marked_mut := Minimality for all_marked Sort Prop.
Combined Scheme marks_mut from marked_mut, all_marked_mut.
(** Marks put on a tree of the text *)
Lemma marked_tree :
  (forall i t T, marked mg junk i t T -> forall v, incl v w -> TF (t_name i) t (map term_name v) -> tree_of mg junk i T v) /\
  (forall is ts Ts, all_marked mg junk is ts Ts -> forall v, incl v w -> TSF (map t_name is) ts (map term_name v) -> trees_of mg junk is Ts v).
Proof.
  apply marks_mut.
  - intros m s c k Hc Hk v Hv H. cbn [t_name] in H. inversion H as [t Ht E1 E2 E3|]; subst.
    destruct v as [|c' [|c'' v]]; [discriminate E3| |discriminate E3]. cbn [map] in E3.
    assert (c = c'). { apply (one_code (y_terms y) s); [exact Nd|rewrite <- Et; exact Hc|]. pose proof (f_equal (hd []) E3) as F. cbn [hd] in F. rewrite F. apply Hw, Hv. now left. }
    subst c'. now apply to_term with (s := s).
  - intros m r ts ks Hr _ IH v Hv H. apply to_rule; [exact Hr|]. apply IH; [exact Hv|]. cbn [t_name] in H. unfold rule_names in H. inversion H as [|x rhs ks' w' Hx Hk E1 E2 E3]; subst. exact Hk.
  - intros v _ H. inversion H as [E|]; subst. destruct v; [constructor|discriminate].
  - intros i is t ts k ks _ IH1 _ IH2 v Hv H. cbn [map] in H. inversion H as [|x rhs t' ks' u1 u2 H1 H2 E1 E2 E3]; subst.
    symmetry in E3. apply map_eq_app in E3 as (v1 & v2 & -> & <- & <-). apply to_cons; [apply IH1|apply IH2]; try assumption; intros c Hc; apply Hv, in_or_app; auto.
Qed.
(** They can be put on every tree. *)
Lemma can_mark : junk 0%N ->
  (forall x t v, TF x t v -> forall m, exists T, marked mg junk (ITerm m x) t T) /\
  (forall l ts v, TSF l ts v -> forall is, map t_name is = l -> exists Ts, all_marked mg junk is ts Ts).
Proof.
  intros J. apply trees_mut.
  - intros t Ht m. apply in_map_iff in Ht as ((s, c) & E & Ht). cbn [fst] in E. subst s. rewrite <- Et in Ht. exists (YTerm c m). constructor; [exact Ht|]. destruct (m =? 0)%N eqn:Em; [|reflexivity]. apply N.eqb_eq in Em. now subst m.
  - intros x rhs ks v Hr _ IH m. rewrite <- Er in Hr. apply in_map_iff in Hr as (r & E & Hr). unfold rule_names in E. pose proof (f_equal fst E) as E1. pose proof (f_equal snd E) as E2. cbn [fst snd] in E1, E2.
    destruct (IH (r_rhs r) E2) as (Ts & HTs). rewrite <- E1, <- E2. exists (YNode (node_name r) (if (m =? 0)%N then r_mark r else m) Ts). apply (mk_node mg junk m r); assumption.
  - intros is E. destruct is; [|discriminate E]. exists []. constructor.
  - intros x rhs t ks v1 v2 _ IH1 _ IH2 is E. destruct is as [|(m, n) is]; [discriminate E|]. cbn [map t_name] in E. pose proof (f_equal (hd []) E) as E1. pose proof (f_equal (@tl _) E) as E2. cbn [hd tl] in E1, E2. subst n.
    destruct (IH1 m) as (T & HT). destruct (IH2 is E2) as (Ts & HTs). exists (T :: Ts). now constructor.
Qed.
End Named.

(** The document is made without a failing assert. *)
Lemma collect_total T : Forall char_fine (leaves T) -> exists s, collect T = DOk s.
Proof.
  induction T as [c m|n m ks IH] using ytree_ind2; intros Hl.
  - cbn [collect leaves] in *. inversion Hl; subst. destruct (m =? cMINUS)%N; [eauto|]. rewrite char_text_is by assumption. eauto.
  - cbn [leaves] in Hl. apply leaves_fine in Hl. change (collect (YNode n m ks)) with (collect_all ks).
    induction ks as [|k ks IHk]; [eexists; reflexivity|]. inversion IH as [|? ? A1 A2]; subst. inversion Hl as [|? ? B1 B2]; subst. cbn [collect_all]. fold collect_all.
    destruct (A1 B1) as (s & ->). cbn [dbind]. destruct (IHk A2 B2) as (s' & ->). cbn [dbind]. eauto.
Qed.
Lemma gen_dom_total T : Forall char_fine (leaves T) -> forall f, exists f', gen_dom T f = DOk f'.
Proof.
  induction T as [c m|n m ks IH] using ytree_ind2; intros Hl f.
  - cbn [gen_dom leaves] in *. inversion Hl; subst. destruct (m =? cMINUS)%N; [eauto|]. rewrite char_text_is by assumption. cbn [dbind]. eauto.
  - assert (All : forall f, exists f', gen_all ks f = DOk f').
    { clear f. cbn [leaves] in Hl. apply leaves_fine in Hl. induction ks as [|k ks IHk]; intros f; [eexists; reflexivity|].
      inversion IH as [|? ? A1 A2]; subst. inversion Hl as [|? ? B1 B2]; subst. cbn [gen_all]. fold gen_all. destruct (A1 B1 f) as (f1 & ->). cbn [dbind]. now apply IHk. }
    rewrite gen_dom_node. destruct (node_items_cases n m []) as [(s & -> & _)|(Hx & _)]; [eexists; reflexivity|]. rewrite gen_other by exact Hx.
    destruct (m =? cMINUS)%N; [apply All|]. destruct (m =? 64)%N; [destruct (collect_total (YNode n m ks) Hl) as (s & ->); cbn [dbind]; eauto|].
    destruct (All ([], [])) as (f' & ->). cbn [dbind]. eauto.
Qed.
Lemma gen_doc_total T : Forall char_fine (leaves T) -> forall d, exists d', gen_doc T d = DOk d'.
Proof.
  induction T as [c m|n m ks IH] using ytree_ind2; intros Hl d.
  - cbn [gen_doc leaves] in *. inversion Hl; subst. destruct (m =? cMINUS)%N; [eauto|]. rewrite char_text_is by assumption. cbn [dbind]. eauto.
  - assert (All : forall d, exists d', gen_docs ks d = DOk d').
    { clear d. cbn [leaves] in Hl. apply leaves_fine in Hl. induction ks as [|k ks IHk]; intros f; [eexists; reflexivity|].
      inversion IH as [|? ? A1 A2]; subst. inversion Hl as [|? ? B1 B2]; subst. cbn [gen_docs]. fold gen_docs. destruct (A1 B1 f) as (f1 & ->). cbn [dbind]. now apply IHk. }
    rewrite gen_doc_node. destruct (node_items_cases n m []) as [(s & -> & _)|(Hx & _)]; [eexists; reflexivity|]. rewrite gen_other by exact Hx.
    destruct (m =? cMINUS)%N; [apply All|]. destruct (m =? 64)%N; [destruct (collect_total (YNode n m ks) Hl) as (s & ->); cbn [dbind]; eauto|].
    destruct (gen_dom_total (YNode n m ks) Hl ([], [])) as (f' & ->). cbn [dbind]. eauto.
Qed.

Lemma two_pair y : no_two_empty y -> no_empty_pair y.
Proof. intros H x a b c r Hr Ha Hb. exact (H x a b (c :: r) Hr Ha Hb). Qed.
Lemma tree_run G src w : w_grammar G src -> ok_grammar G = true -> Forall code_ok w ->
  exists y g', use_grammar (built G) (utf8 w) = IOk (y, g') /\ NoDup (map fst (y_terms y)) /\ (forall c, In c w -> In (term_name c, c) (y_terms y)) /\
    (Forall small (w ++ literals G) -> exists n, ~ loops y -> exists res, (forall fuel, n <= fuel -> ixml_tree fuel (built G) (utf8 w) = res) /\
       ((exists t start, res = TRan true (Some t) /\ starts y start /\ tree_of_text y start t (map term_name w) /\ describes G w) \/
        (res = TRan true None /\ (no_empty_pair y -> ~ describes G w)) \/
        (res = TAbort /\ describes G w /\ ~ no_two_empty y))) /\
    (~ loops y -> ~ Forall small (w ++ literals G) -> forall fuel, ixml_tree fuel (built G) (utf8 w) = TAbort) /\
    (loops y -> forall fuel, ixml_tree fuel (built G) (utf8 w) = TUB).
Proof.
  intros HG Hok Hw. unfold built.
  destruct (use_spec_more G src w HG Hok Hw) as (y & g' & U1 & U2 & (U3 & U4) & U5a & U5b). assert (U5 : derives y w <-> describes G w) by (split; [apply U5a|apply U5b, incl_refl]). rewrite lit_rules in U3. exists y, g'. split; [exact U1|].
  assert (Hno : names_ok y) by (eapply handed_names; eassumption). assert (Hp : PropsYaepParse.plain y) by (eapply handed_plain; eassumption).
  assert (Hx : exists start, starts y start) by (eapply handed_starts; eassumption). destruct Hx as (start & Hst).
  assert (Hl : loops y <-> exists x, derives_itself (full_rules y) x) by (eapply loops_full; eassumption).
  assert (Hd : derives y w <-> steps (y_rules y) [start] (map term_name w)) by (eapply derives_steps; try eassumption; apply incl_refl).
  split; [apply U2|]. split; [intros c Hc; apply U3; auto|].
  unfold ixml_tree. rewrite U1, scan_spec by (try exact Hw; lia).
  pose proof Hst as Hst'. destruct Hst as (rhs & rest & Est).
  assert (He : forall tail, ~ In (start, B "error" :: tail) (y_rules y)). { intros tail H. apply U4 in H. inversion H as [|? ? (A & _) _]; subst. now elim A. }
  pose proof (C74_loops_only y start rhs rest Est Hno He) as Hlo. split; [|split].
  - intros Hs. destruct (C74_ends false y) as (r & E). rewrite E. destruct r as [(s & f)|c m].
    2: { exists 0. intros Hnl. exfalso. destruct (proj2 Hlo) as (s & f & E'); [|rewrite E in E'; discriminate E']. intros x Hx. apply Hnl, Hl. now exists x. }
    assert (Hq : exists lo hi, code_range (coded y) = Some (lo, hi) /\ forall t, In t (coded y) -> (lo <= snd t <= hi)%Z) by (eapply range_ok; eassumption). destruct Hq as (lo & hi & Er & Hr). rewrite Er. unfold yaep_tree.
    assert (Hrd : read_tokens (coded y) lo hi (w ++ [END_MARKER_CODE]) = Ok (Some (text (map term_name w)))) by (eapply read_w; try eassumption; apply incl_refl). rewrite Hrd. cbn [obind].
    assert (Ht : tokens y (map term_name w)) by (eapply handed_tokens; try eassumption; apply incl_refl).
    destruct (parse_facts false y s f start (map term_name w) E Hp Hst' Ht) as (e & sets & P1 & P2).
    destruct (C76_same_sets s f _ e sets P1) as (hits & P3). rewrite P3. cbn [obind fst snd]. destruct e as [j|].
    + exists 0. intros _. exists (TRan true None). split.
      * intros fuel _. rewrite (C79_no_tree false y s f (map term_name w) j sets fuel E Hp Ht P1). reflexivity.
      * right. left. split; [reflexivity|]. intros C D. destruct (proj2 (C75_exact false y s f start (map term_name w) E Hp Hst' Ht C)) as (sets' & E'); [now apply Hd, U5|]. rewrite P1 in E'. discriminate E'.
    + destruct (C79_tree_is_derivation_partial false y s f start (map term_name w) sets E Hp Hst' Ht P1) as (n & res & N1 & N2 & N3).
      exists n. intros _. exists (of_tree (obind res (fun t => Ok (true, t)))). split; [intros fuel Hf; now rewrite (N1 fuel Hf)|]. assert (D : describes G w) by (apply U5, Hd, P2).
      destruct N2 as [-> |(t & -> & N2)]; [right; right|left].
      * split; [reflexivity|]. split; [exact D|]. intros X. now apply N3.
      * exists t, start. split; [reflexivity|]. auto.
  - intros Hnl Hs fuel. destruct (proj2 Hlo) as (s & f & E). { intros x Hx. apply Hnl, Hl. now exists x. } rewrite E.
    assert (Hq : code_range (coded y) = None) by (eapply range_none; eassumption). now rewrite Hq.
  - intros Hlp fuel. destruct (C74_ends false y) as (r & Er). rewrite Er. destruct r as [(s & f)|c m]; [|reflexivity]. exfalso. apply Hl in Hlp as (x & Hx). apply (proj1 Hlo (ex_intro _ s (ex_intro _ f Er)) x Hx).
Qed.
(** What yaep is told is the same with marks and without. *)
Lemma same_grammar g content y g' mg : use_grammar g content = IOk (y, g') -> use_marks g content = IOk mg -> mg_terms mg = y_terms y /\ map rule_names (mg_rules mg) = y_rules y.
Proof.
  unfold use_grammar, use_marks. destruct (fixup_charsets content g) as [h| | | | | |]; cbn [ibind]; intros H1 H2; try discriminate H1. unfold read_grammar in H1. unfold read_marks in H2.
  assert (E : y = YGrammar (g_terms h) (map rule_names (skipn (g_read h) (g_rules h)))) by congruence. assert (E2 : mg = MGrammar (g_terms h) (skipn (g_read h) (g_rules h))) by congruence. subst y mg. split; reflexivity.
Qed.

(** * C80 *)
(** Full statement: for every grammar and every text, the document that the grammar gives
    for the text is made; if the grammar does not describe the text there is an error and
    no document.  Missing: the grammars that C60, C61 and C77 leave out (marks and aliases
    that the reader loses, names that derive themselves, large characters), and rules that
    start with two symbols that can be empty; and that an error is reported by the value.

    The process comes to an end.  If true is returned with a tree, the grammar describes
    the text, and the document is the one that the grammar gives for it.  Otherwise the
    document is empty, or an assertion failed.  Each of these two needs a rule that starts
    with two symbols that can be empty if the text is described. *)
Theorem C80_text_to_document_partial : forall G src w (junk : N -> Prop),
  w_grammar G src -> ok_grammar G = true -> marks_ok G = true ->
  Forall (fun c => code_ok c /\ c <> 0%Z) w -> Forall small (w ++ literals G) -> junk 0%N -> (forall m, junk m -> m <> 45%N) ->
  exists n, forall fuel, n <= fuel -> exists g y g', ixml_build fuel src = IOk g /\ use_grammar g (utf8 w) = IOk (y, g') /\
    (~ loops y ->
      (exists o, whole fuel junk g (utf8 w) o) /\
      (forall o, whole fuel junk g (utf8 w) o ->
        (describes G w /\ exists ds, o = Done true ds /\ right_document G w ds) \/
        (o = Done true [] /\ (no_empty_pair y -> ~ describes G w)) \/
        (o = DoneAbort /\ describes G w /\ ~ no_two_empty y))) /\
    (loops y -> forall o, whole fuel junk g (utf8 w) o <-> o = DoneUB).
Proof.
  intros G src w junk HG Hok Hm Hw Hs J0 Hj. assert (Hc : Forall code_ok w) by (eapply Forall_impl; [|exact Hw]; intros c H; apply H).
  destruct (run_build G src HG Hok) as (n1 & Hb). destruct (tree_run G src w HG Hok Hc) as (y & g' & U1 & U2 & U3 & U4 & _ & U5).
  destruct (C61_document_follows_marks_partial G src w junk HG Hok Hm Hw Hj) as (n2 & H61).
  destruct (H61 (n1 + n2) ltac:(lia)) as (g & mg & B1 & M1 & M2 & _). rewrite Hb in B1 by lia. injection B1 as <-.
  destruct (same_grammar (built G) (utf8 w) y g' mg U1 M1) as [Et Er].
  destruct (U4 Hs) as (n3 & H3). exists (n1 + n3). intros fuel Hf. exists (built G), y, g'. split; [apply Hb; lia|]. split; [exact U1|]. split.
  - intros Hnl. destruct (H3 Hnl) as (res & R1 & R2). specialize (R1 fuel ltac:(lia)). destruct R2 as [(t & start & R2 & R3 & R4 & R5)|[(R2 & R3)|(R2 & R3 & R4)]]; rewrite R2 in R1.
    + assert (Hr0 : exists r rs, mg_rules mg = r :: rs /\ r_name r = start).
      { destruct R3 as (rhs & rest & E). rewrite <- Er in E. destruct (mg_rules mg) as [|r rs]; [discriminate E|]. exists r, rs. split; [reflexivity|]. cbn [map] in E. exact (f_equal (fun l => fst (hd ([], []) l)) E). }
      destruct Hr0 as (r & rs & Emg & Ers). subst start.
      assert (Hdoc : forall T, marked mg junk (ITerm 0 (r_name r)) t T -> parse_tree mg junk T w).
      { intros T HT. exists r, rs. split; [exact Emg|]. apply (proj1 (marked_tree y mg junk Et U2 w U3) _ _ _ HT w (incl_refl w)). exact R4. }
      assert (Hfine : forall T, marked mg junk (ITerm 0 (r_name r)) t T -> exists d, gen_doc T [] = DOk d).
      { intros T HT. apply gen_doc_total. destruct (Hdoc T HT) as (r1 & rs1 & _ & HT'). rewrite (proj1 (tree_leaves mg junk) _ _ _ HT'). exact Hw. }
      split.
      * destruct (proj1 (can_mark y mg junk Et Er J0) _ _ _ R4 0%N) as (T & HT). destruct (Hfine T HT) as (d & Hd). exists (Done true d). now apply (wh_tree fuel junk (built G) (utf8 w) true t mg r rs T d).
      * intros o Ho. left. split; [exact R5|]. inversion Ho as [ret E|ret t' mg' r' rs' T d E E1 E2 E3 E4|ret t' mg' r' rs' T E E1 E2 E3 E4|E|E|E|E]; subst; rewrite R1 in E; try discriminate E;
          injection E as <- <-; rewrite M1 in E1; injection E1 as <-; rewrite Emg in E2; injection E2 as <- <-.
        -- exists d. split; [reflexivity|]. destruct (M2 T (Hdoc T E3)) as (its & G1 & G2). exists its. split; [exact G1|]. intros Hp d' Hd'. specialize (G2 Hp d' Hd'). rewrite E4 in G2. now injection G2.
        -- destruct (Hfine T E3) as (d & Hd). rewrite E4 in Hd. discriminate Hd.
    + split; [exists (Done true []); now constructor|]. intros o Ho. right. left. inversion Ho as [ret E|ret t' mg' r' rs' T d E E1 E2 E3 E4|ret t' mg' r' rs' T E E1 E2 E3 E4|E|E|E|E]; subst; rewrite R1 in E; try discriminate E. injection E as <-. auto.
    + split; [exists DoneAbort; now constructor|]. intros o Ho. right. right. inversion Ho as [ret E|ret t' mg' r' rs' T d E E1 E2 E3 E4|ret t' mg' r' rs' T E E1 E2 E3 E4|E|E|E|E]; subst; rewrite R1 in E; try discriminate E. auto.
  - intros L o. specialize (U5 L fuel). split; [|intros ->; now apply wh_ub]. intros Ho. inversion Ho as [ret E|ret t' mg' r' rs' T d E E1 E2 E3 E4|ret t' mg' r' rs' T E E1 E2 E3 E4|E|E|E|E]; subst; rewrite U5 in E; try discriminate E. reflexivity.
Qed.
(** If no rule starts with two symbols that can be empty: the document for described
    texts, an empty one for the others. *)
Theorem C80_exact : forall G src w (junk : N -> Prop),
  w_grammar G src -> ok_grammar G = true -> marks_ok G = true ->
  Forall (fun c => code_ok c /\ c <> 0%Z) w -> Forall small (w ++ literals G) -> junk 0%N -> (forall m, junk m -> m <> 45%N) ->
  exists n, forall fuel, n <= fuel -> exists g y g', ixml_build fuel src = IOk g /\ use_grammar g (utf8 w) = IOk (y, g') /\
    (~ loops y -> no_two_empty y ->
      (exists o, whole fuel junk g (utf8 w) o) /\
      (describes G w -> forall o, whole fuel junk g (utf8 w) o -> exists ds, o = Done true ds /\ right_document G w ds) /\
      (~ describes G w -> forall o, whole fuel junk g (utf8 w) o -> o = Done true [])).
Proof.
  intros G src w junk H1 H2 H3 H4 H5 H6 H7. destruct (C80_text_to_document_partial G src w junk H1 H2 H3 H4 H5 H6 H7) as (n & Hn). exists n. intros fuel Hf.
  destruct (Hn fuel Hf) as (g & y & g' & A1 & A2 & A3 & _). exists g, y, g'. split; [exact A1|]. split; [exact A2|]. intros L Ne. destruct (A3 L) as (A4 & A5). split; [exact A4|]. split.
  - intros D o Ho. destruct (A5 o Ho) as [(_ & X)|[(_ & X)|(_ & _ & X)]]; [exact X|exfalso; now apply X; [apply two_pair|]|now elim X].
  - intros D o Ho. destruct (A5 o Ho) as [(X & _)|[(X & _)|(_ & X & _)]]; [now elim D|exact X|now elim D].
Qed.

(** * Cases *)
(** Marks put on a tree with the first rule that fits *)
Fixpoint mark_first (mg : mgrammar) (i : iterm) (t : dtree) {struct t} : option ytree :=
  match t with
  | DTerm s => match find (fun p => beq (fst p) s) (mg_terms mg) with Some (_, c) => if beq (t_name i) s then Some (YTerm c (t_mark i)) else None | None => None end
  | DNode r ts =>
    match find (fun q => beq (r_name q) (t_name i) && beq (fst r) (r_name q) && drule_eqb (rule_names q, 0) (r, 0)) (mg_rules mg) with
    | Some q =>
      match (fix all (is : list iterm) (ts : list dtree) {struct ts} : option (list ytree) :=
        match is, ts with
        | [], [] => Some []
        | i :: is, t :: ts => match mark_first mg i t, all is ts with Some k, Some ks => Some (k :: ks) | _, _ => None end
        | _, _ => None
        end) (r_rhs q) ts with
      | Some ks => Some (YNode (node_name q) (if (t_mark i =? 0)%N then r_mark q else t_mark i) ks)
      | None => None
      end
    | None => None
    end
  end.
Definition mark_list (mg : mgrammar) : list iterm -> list dtree -> option (list ytree) :=
  fix all (is : list iterm) (ts : list dtree) {struct ts} : option (list ytree) :=
    match is, ts with
    | [], [] => Some []
    | i :: is, t :: ts => match mark_first mg i t, all is ts with Some k, Some ks => Some (k :: ks) | _, _ => None end
    | _, _ => None
    end.
Lemma mark_node mg i r ts : mark_first mg i (DNode r ts) =
  match find (fun q => beq (r_name q) (t_name i) && beq (fst r) (r_name q) && drule_eqb (rule_names q, 0) (r, 0)) (mg_rules mg) with
  | Some q => match mark_list mg (r_rhs q) ts with Some ks => Some (YNode (node_name q) (if (t_mark i =? 0)%N then r_mark q else t_mark i) ks) | None => None end
  | None => None
  end.
Proof. reflexivity. Qed.
Section DInd.
Variable P : dtree -> Prop.
Hypothesis P1 : forall s, P (DTerm s).
Hypothesis P2 : forall r ts, Forall P ts -> P (DNode r ts).
Fixpoint dtree_ind2 (t : dtree) : P t :=
  match t with
  | DTerm s => P1 s
  | DNode r ts => P2 r ts ((fix all (l : list dtree) : Forall P l := match l with [] => Forall_nil P | k :: l => Forall_cons k (dtree_ind2 k) (all l) end) ts)
  end.
End DInd.
Lemma mark_first_ok mg t : forall i T, mark_first mg i t = Some T -> marked mg (fun m => m = 0%N) i t T.
Proof.
  induction t as [s|r ts IH] using dtree_ind2; intros (m & n) T H.
  - cbn [mark_first t_name t_mark] in H. destruct (find (fun p => beq (fst p) s) (mg_terms mg)) as [(s', c)|] eqn:F; [|discriminate H]. apply find_some in F as (F1 & F2). cbn [fst] in F2. apply beq_eq in F2. subst s'.
    destruct (beq n s) eqn:Ez; [|discriminate H]. apply beq_eq in Ez. subst n. injection H as <-. constructor; [exact F1|]. destruct (m =? 0)%N eqn:Em; [now apply N.eqb_eq|reflexivity].
  - rewrite mark_node in H. cbn [t_name t_mark] in H. destruct (find _ (mg_rules mg)) as [q|] eqn:F; [|discriminate H]. apply find_some in F as (F1 & F2). apply andb_true_iff in F2 as (F2 & F3). apply andb_true_iff in F2 as (F2 & _). apply beq_eq in F2. subst n.
    apply drule_eqb_eq in F3. pose proof (f_equal fst F3) as F4. cbn [fst] in F4. subst r.
    destruct (mark_list mg (r_rhs q) ts) as [ks|] eqn:A; [|discriminate H]. injection H as <-. apply mk_node; [exact F1|]. clear F1 F3.
    revert A. generalize (r_rhs q) as is. revert ks. induction ts as [|t ts IHt]; intros ks [|i is] A; try discriminate A; [injection A as <-; constructor|].
    inversion IH as [|? ? I1 I2]; subst. cbn [mark_list] in A. fold mark_list in A. destruct (mark_first mg i t) as [k|] eqn:K; [|discriminate A]. destruct (mark_list mg is ts) as [ks'|] eqn:K2; [|discriminate A]. injection A as <-. constructor; [now apply I1|now apply IHt].
Qed.
(** The document for a grammar and a text *)
Definition doc_for (fuel : nat) (g : gst) (content : bytes) : option (list node) :=
  match ixml_tree fuel g content, use_marks g content with
  | TRan true (Some t), IOk mg =>
    match mg_rules mg with
    | r :: _ => match mark_first mg (ITerm 0 (r_name r)) t with Some T => match gen_doc T [] with DOk d => Some d | DUB => None end | None => None end
    | [] => None
    end
  | _, _ => None
  end.
Lemma doc_for_whole fuel g content d : doc_for fuel g content = Some d -> whole fuel (fun m => m = 0%N) g content (Done true d).
Proof.
  unfold doc_for. destruct (ixml_tree fuel g content) as [[|] [t|]| | | |] eqn:A; try discriminate. destruct (use_marks g content) as [mg| | | | | |] eqn:M; try discriminate. destruct (mg_rules mg) as [|r rs] eqn:R; [discriminate|].
  destruct (mark_first mg (ITerm 0 (r_name r)) t) as [T|] eqn:K; [|discriminate]. destruct (gen_doc T []) as [d'|] eqn:D; [|discriminate]. intros H. injection H as <-. apply mark_first_ok in K. now apply (wh_tree fuel _ g content true t mg r rs T d').
Qed.
(** a: "x", b. b: "y"*. *)
Example C80_ex : exists d, d = [Elem (B "a") [] [Part (PText (B "x")); Elem (B "b") [] [Part (PText (B "yy"))]]] /\
  whole 100 (fun m => m = 0%N) (built run_G) (utf8 (w1 "xyy")) (Done true d) /\ whole 100 (fun m => m = 0%N) (built run_G) (utf8 (w1 "xyx")) (Done true []).
Proof. eexists. split; [reflexivity|]. split; [apply doc_for_whole; vm_compute; reflexivity|apply wh_none; vm_compute; reflexivity]. Qed.
(** The grammar of C61: doc>d: @id, -"=", num++(-","|-";"), +"!". id: ["a"-"z"; Lu]+. num: -digit+. digit: ["0"-"9"]. *)
Example C80_ex_marks : whole 100 (fun m => m = 0%N) (built PropsIxmlDoc.ex_G) (utf8 PropsIxmlDoc.ex_w) (Done true [PropsIxmlDoc.ex_doc]).
Proof. apply doc_for_whole. vm_compute. reflexivity. Qed.

(** The hypotheses are met. *)
Lemma not_nullable rules x : (forall rhs, ~ In (x, rhs) rules) -> ~ nullable rules x.
Proof. intros H N0. inversion N0 as [|u v w Hs Hr]; subst. apply step_single in Hs. now apply (H v). Qed.
Example C80_ex_hyps : w_grammar run_G (p_rules run_G) /\ ok_grammar run_G = true /\ marks_ok run_G = true /\
  Forall (fun c => code_ok c /\ c <> 0%Z) (w1 "xyy") /\ Forall small (w1 "xyy" ++ literals run_G) /\
  exists y g', use_grammar (built run_G) (utf8 (w1 "xyy")) = IOk (y, g') /\ ~ loops y /\ no_two_empty y /\ describes run_G (w1 "xyy").
Proof.
  destruct run_meets as (A1 & A2 & A3 & A4). split; [exact A1|]. split; [exact A2|]. split; [reflexivity|]. split.
  - apply Forall_forall. intros c Hc. rewrite Forall_forall in A3. split; [now apply A3|]. vm_compute in Hc. intros ->. repeat (destruct Hc as [Hc|Hc]; [discriminate Hc|]). exact Hc.
  - split; [exact A4|]. meets run_G (w1 "xyy"). destruct H as (y & g' & U & _ & _ & C). exists y, g'. split; [exact U|]. split; [|split].
    + intros L. apply C in L. destruct run_tree as (T & _). rewrite T in L. discriminate L.
    + vm_compute in U. injection U as <- _. intros x a b r Hr Na Nb. cbn [y_rules In] in Hr.
      assert (K : forall c, ~ nullable [([97%N], [[35%N; 55%N; 56%N]; [98%N]]); ([98%N], [[124%N; 48%N]]); ([124%N; 48%N], []); ([124%N; 48%N], [[124%N; 48%N]; [35%N; 55%N; 57%N]])] (35%N :: c)).
      { intros c. apply not_nullable. intros rhs. cbn [In]. intros Q. repeat (destruct Q as [Q|Q]; [discriminate Q|]). exact Q. }
      repeat (destruct Hr as [Hr|Hr]; [first [discriminate Hr | injection Hr as <- <- <- <-; first [now apply (K _ Na) | now apply (K _ Nb)]]|]). exact Hr.
    + apply run_tree.
Qed.

(** A text is described, and the program is aborted: s: x, "c" | "a", x, "d". x: n, m. n: "a"?. m: "b"?. *)
Definition two_G : grammar :=
  [ru "s" (AMore (PropsIxmlRun.seq [TOne (nt "x"); TOne (str "c")]) (AOne (PropsIxmlRun.seq [TOne (str "a"); TOne (nt "x"); TOne (str "d")])));
   ru "x" (AOne (PropsIxmlRun.seq [TOne (nt "n"); TOne (nt "m")])); ru "n" (AOne (PropsIxmlRun.seq [TOpt (str "a")])); ru "m" (AOne (PropsIxmlRun.seq [TOpt (str "b")]))].
Lemma ixml_tree_more fuel fuel' g content : ixml_tree fuel g content <> TFuel -> fuel <= fuel' -> ixml_tree fuel' g content = ixml_tree fuel g content.
Proof.
  intros H Hf. unfold ixml_tree, yaep_tree in *. destruct (use_grammar g content) as [(y & g')| | | | | |]; try reflexivity. destruct (scan_content (List.length content) content) as [codes| | | | | |]; try reflexivity.
  destruct (yaep_read_grammar false y) as [[(s & f)|]| | | |]; try reflexivity. destruct (code_range (coded y)) as [(lo & hi)|]; [|reflexivity].
  destruct (read_tokens (coded y) lo hi (codes ++ [END_MARKER_CODE])) as [[toks|]| | | |]; cbn [obind] in *; try reflexivity. destruct (perform_parse_cached s f toks) as [r| | | |]; cbn [obind] in *; try reflexivity.
  rewrite (build_more s (snd (fst r)) fuel fuel'); [reflexivity| |exact Hf]. intros Z. rewrite Z in H. now apply H.
Qed.
Theorem C80_aborts_refuted : exists G src w, w_grammar G src /\ ok_grammar G = true /\ marks_ok G = true /\
  Forall (fun c => code_ok c /\ c <> 0%Z) w /\ Forall small (w ++ literals G) /\ describes G w /\
  exists n, forall fuel, n <= fuel -> exists g, ixml_build fuel src = IOk g /\ forall junk o, whole fuel junk g (utf8 w) o <-> o = DoneAbort.
Proof.
  assert (HG : w_grammar two_G (p_rules two_G)) by (apply p_grammar_ok; reflexivity).
  assert (Hw : Forall code_ok (w1 "ad")) by (apply ok_codes; reflexivity). assert (Hs : Forall small (w1 "ad" ++ literals two_G)) by (apply ok_small; reflexivity).
  assert (T : ixml_tree 100 (built two_G) (utf8 (w1 "ad")) = TAbort) by (vm_compute; reflexivity).
  exists two_G, (p_rules two_G), (w1 "ad"). split; [exact HG|]. split; [reflexivity|]. split; [reflexivity|]. split; [|split; [exact Hs|split]].
  - apply Forall_forall. intros c Hc. rewrite Forall_forall in Hw. split; [now apply Hw|]. vm_compute in Hc. intros ->. repeat (destruct Hc as [Hc|Hc]; [discriminate Hc|]). exact Hc.
  - destruct (tree_run two_G (p_rules two_G) (w1 "ad") HG eq_refl Hw) as (y & g' & _ & _ & _ & U & _ & L). destruct (U Hs) as (n & U'). destruct U' as (res & R1 & R2).
    { intros X. apply L with (fuel := 100) in X. rewrite T in X. discriminate X. }
    assert (E : res = TAbort). { rewrite <- (R1 (n + 100)) by lia. rewrite <- T. apply ixml_tree_more; [rewrite T; discriminate|lia]. }
    subst res. destruct R2 as [(t & start & R2 & _)|[(R2 & _)|(_ & R2 & _)]]; [discriminate R2|discriminate R2|exact R2].
  - destruct (run_build two_G (p_rules two_G) HG eq_refl) as (n & Hb). exists (n + 100). intros fuel Hf. exists (built two_G). split; [apply Hb; lia|]. intros junk o.
    assert (E : ixml_tree fuel (built two_G) (utf8 (w1 "ad")) = TAbort) by (rewrite <- T; apply ixml_tree_more; [rewrite T; discriminate|lia]).
    split; [|intros ->; now apply wh_abort]. intros Ho. inversion Ho as [ret Q|ret t' mg' r' rs' T0 d Q E1 E2 E3 E4|ret t' mg' r' rs' T0 Q E1 E2 E3 E4|Q|Q|Q|Q]; subst; rewrite E in Q; try discriminate Q. reflexivity.
Qed.
Print Assumptions C80_text_to_document_partial.
Print Assumptions C80_exact.
Print Assumptions C80_aborts_refuted.
