(** Properties C15-C20 and C43: tokenizing an xmq source.

    [tokenize fuel src aft] is xmqTokenizeBuffer on the bytes [src] followed in
    memory by the bytes [aft]; for a C string [aft = 0 :: _].  The result is
    [POk s] or [PErr e s] (the error code and the state in which it is
    reported), [PUB] for undefined behaviour (a read outside of src ++ aft, or
    of an uninitialised variable), [PAbrt] for a failed assert, [PNoFuel s] if
    it is still running after [fuel] rounds. [tokens s] are the callbacks made
    so far. *)
From Coq Require Import NArith List Bool Arith Lia String.
From Verif Require Import Bytes BytesFacts Parser ParserSpec ParserProofs ParserTerm ParserMono ParserAft.
Import ListNotations.
Local Open Scope N_scope.

Lemma tokenize_ok fuel src aft s : tokenize fuel src (0 :: aft) = POk s ->
  inv s /\ texts (tokens s) = src /\ balanced (tokens s).
Proof.
  intros E. pose proof (tokenize_good fuel src (0 :: aft) (init_inv _ _)) as G. rewrite E in G.
  destruct G as (I & T & A & Bl). split; auto. pose proof (adv_toks _ _ _ A) as H. cbn in H. subst T. split; auto.
  pose proof (adv_mem _ _ _ A) as M. rewrite (adv_nul _ _ _ A eq_refl) in M. cbn [init s_rest s_aft] in M.
  rewrite app_assoc in M. apply app_inv_tail in M.
  assert (R : s_rest s = []).
  { unfold tokenize in E. destruct (parse_xmq fuel _) as [s1| | | |]; cbn in E; try discriminate.
    destruct (s_rest s1) eqn:R1; [|discriminate]. now injection E as <-. }
  now rewrite R, app_nil_r in M.
Qed.
Lemma tokenize_stop fuel src aft s r : tokenize fuel src (0 :: aft) = r ->
  (exists e, r = PErr e s) \/ r = PNoFuel s ->
  inv s /\ src = texts (tokens s) ++ s_rest s /\ closable (tokens s).
Proof.
  intros E C. pose proof (tokenize_good fuel src (0 :: aft) (init_inv _ _)) as G. rewrite E in G.
  assert (exists T, inv s /\ adv T (init src (0 :: aft)) s /\ closable T) as (T & I & A & Bl).
  { destruct C as [[e ->]| ->]; cbn in G; destruct G as (I & G).
    - destruct G as ((T & A & Cl) & _). eauto.
    - destruct G as (T & A & Cl). eauto. }
  split; auto. pose proof (adv_toks _ _ _ A) as H. cbn in H. subst T. split; auto.
  pose proof (adv_mem _ _ _ A) as M. rewrite (adv_nul _ _ _ A eq_refl) in M. cbn [init s_rest s_aft] in M.
  rewrite app_assoc in M. now apply app_inv_tail in M.
Qed.

(** C15: on success the texts of the tokens are the source. *)
Theorem C15_tokens_are_the_source : forall fuel src aft s,
  tokenize fuel src (0 :: aft) = POk s -> texts (tokens s) = src.
Proof. intros fuel src aft s E. now apply tokenize_ok in E. Qed.
Print Assumptions C15_tokens_are_the_source.
(** C15: on failure the texts of the tokens are a prefix of the source. *)
Theorem C15_tokens_are_a_prefix : forall fuel src aft e s,
  tokenize fuel src (0 :: aft) = PErr e s -> exists rest, src = texts (tokens s) ++ rest.
Proof. intros fuel src aft e s E. eapply tokenize_stop in E as (_ & H & _); eauto. Qed.
Print Assumptions C15_tokens_are_a_prefix.

(** C16: every token is reported at the line and column where its text
    starts, whether tokenizing succeeds or fails. *)
Theorem C16_token_positions : forall fuel src aft s,
  tokenize fuel src aft = POk s \/ (exists e, tokenize fuel src aft = PErr e s) -> placed (tokens s).
Proof.
  intros fuel src aft s H. pose proof (tokenize_good fuel src aft (init_inv _ _)) as G.
  destruct H as [E|[e E]]; rewrite E in G; destruct G as (I & _); apply (inv_placed _ I).
Qed.
Print Assumptions C16_token_positions.

Lemma balanced_prefix_closable T : balanced T -> forall A C, T = A ++ C -> closable A.
Proof. intros H A C ->. now exists C. Qed.

(** C17: on success the brackets are properly nested and closed, and each
    bracket token is that bracket. *)
Theorem C17_brackets_balanced : forall fuel src aft s,
  tokenize fuel src (0 :: aft) = POk s -> balanced (tokens s) /\ Forall bracket_text (tokens s).
Proof. intros fuel src aft s E. apply tokenize_ok in E as (I & _ & Bl). split; auto. apply (inv_btext _ I). Qed.
Print Assumptions C17_brackets_balanced.
(** C17: at no point (also not before an error) have more brackets been
    closed than opened: what has been reported so far can be completed to a
    balanced list of tokens. *)
Theorem C17_never_too_many_closed : forall fuel src aft s A C,
  tokenize fuel src (0 :: aft) = POk s \/ (exists e, tokenize fuel src (0 :: aft) = PErr e s) ->
  tokens s = A ++ C -> closable A.
Proof.
  intros fuel src aft s A C H E.
  assert (K : closable (tokens s)).
  { destruct H as [H|[e H]].
    - apply tokenize_ok in H as (_ & _ & Bl). exists []. now rewrite app_nil_r.
    - eapply tokenize_stop in H as (_ & _ & Bl); eauto. }
  destruct K as (D & K). exists (C ++ D). now rewrite app_assoc, <- E.
Qed.
Print Assumptions C17_never_too_many_closed.

(** C18: for every source, either tokenizing has the same finished result
    for every number of rounds above the length of the source, or it never
    ends. *)
Theorem C18_finishes_or_loops_partial : forall src aft,
  (exists r, finished r /\ forall fuel, (List.length src < fuel)%nat -> tokenize fuel src (0 :: aft) = r)
  \/ (forall fuel, running (tokenize fuel src (0 :: aft))).
Proof.
  intros src aft. destruct (tokenize_term src (0 :: aft) eq_refl) as (_ & S).
  destruct (tokenize (enough src) src (0 :: aft)) as [s|e s| | |s] eqn:E.
  5:{ right. apply nofuel_forever; [reflexivity|]. exists s. exact E. }
  all: left; eexists; split; [|intros f Hf; destruct (S f Hf) as [<-|[[x Hx] _]]; [reflexivity|discriminate]]; intros x; discriminate.
Qed.
Print Assumptions C18_finishes_or_loops_partial.

Lemma stuck_no_attribute c : stuck_attr c = true -> no_attribute c.
Proof.
  unfold stuck_attr, no_attribute. rewrite orb_true_iff, N.eqb_eq, !andb_true_iff, !negb_true_iff.
  intros [H|[[H1 H2] H3]]; [auto|right]. split; auto. split; auto.
  unfold is_attribute_key_start in H1. apply negb_true_iff in H1. rewrite !orb_false_iff, !N.eqb_neq in H1.
  unfold ends_attributes. cbn. intuition congruence.
Qed.

(** C18: where it never ends: it is at a tab directly inside of the
    parentheses of attributes or of a compound value, or, inside of the
    parentheses of attributes, at a byte that starts no attribute. *)
Theorem C18_loops_only_inside_parentheses_partial : forall fuel src aft s,
  (List.length src < fuel)%nat -> tokenize fuel src (0 :: aft) = PNoFuel s ->
  exists c rest before open between,
    src = texts (tokens s) ++ c :: rest /\ tokens s = before ++ open :: between /\ balanced between /\
    ((t_kind open = Kapar_left /\ no_attribute c) \/ (t_kind open = Kcpar_left /\ c = cTAB)).
Proof.
  intros fuel src aft s L E. eapply tokenize_stop in E as H; eauto. destruct H as (_ & H & _).
  assert (K : term (init src (0 :: aft)) (tokenize fuel src (0 :: aft))).
  { assert (O : okst (init src (0 :: aft))) by (split; [apply init_inv|reflexivity]).
    unfold tokenize. destruct (parse_xmq_term fuel (init src (0 :: aft)) O L) as (K & _).
    apply term_bind; auto using parse_xmq_good. intros s' _ _. destruct (s_rest s'); [apply term_ok|apply term_err]. }
  destruct (K s E) as (T & c & r & H1 & H2 & A & l & C & -> & HB & HC).
  cbn in H1. exists c, r, A, l, C. rewrite <- H2. split; auto. split; auto. split; auto.
  destruct HC as [[HC1 HC2]|[HC1 HC2]]; [left|right]; split; auto using stuck_no_attribute. now apply N.eqb_eq.
Qed.
Print Assumptions C18_loops_only_inside_parentheses_partial.

(** C18: in particular every source without a tab in which all other bytes
    are white space, name characters or xmq punctuation is tokenized in as many
    rounds as it has bytes. *)
Theorem C18_plain_sources_terminate_partial : forall src aft,
  (forall c, In c src -> ~ no_attribute c) ->
  forall fuel, (List.length src < fuel)%nat -> finished (tokenize fuel src (0 :: aft)).
Proof.
  intros src aft H fuel L s E. destruct (C18_loops_only_inside_parentheses_partial _ _ _ _ L E) as (c & r & A & l & C & -> & _ & _ & K).
  apply (H c); [apply in_or_app; right; now left|]. destruct K as [[_ K]|[_ ->]]; auto. now left.
Qed.
Print Assumptions C18_plain_sources_terminate_partial.
(** C18: and so is every source without parentheses. *)
Theorem C18_no_parentheses_terminate_partial : forall src aft, ~ In cLP src ->
  forall fuel, (List.length src < fuel)%nat -> finished (tokenize fuel src (0 :: aft)).
Proof.
  intros src aft H fuel L s E. destruct (C18_loops_only_inside_parentheses_partial _ _ _ _ L E) as (c & r & A & l & C & E1 & E2 & _ & K).
  eapply tokenize_stop in E as (I & _ & _); eauto.
  pose proof (inv_btext _ I) as F. rewrite E2 in F. apply Forall_elt in F. 
  apply H. rewrite E1, E2, texts_app. rewrite <- !app_assoc. apply in_or_app. right. cbn. apply in_or_app. left.
  apply in_or_app. left. destruct K as [[K _]|[K _]]; unfold bracket_text in F; rewrite K in F; rewrite F; now left.
Qed.
Print Assumptions C18_no_parentheses_terminate_partial.

(** C18, refuted in general: a tab or a comma in an attribute list, or a tab
    in a compound value, and tokenizing never ends. *)
Theorem C18_tab_in_attributes_refuted : exists src, forall fuel, running (tokenize fuel src [0]).
Proof. exists (B "a(" ++ [cTAB] ++ B "b)"). apply nofuel_forever; [reflexivity|]. eexists. vm_compute. reflexivity. Qed.
Theorem C18_comma_in_attributes_refuted : forall fuel, running (tokenize fuel (B "a(b,c)") [0]).
Proof. apply nofuel_forever; [reflexivity|]. eexists. vm_compute. reflexivity. Qed.
Theorem C18_tab_in_compound_refuted : exists src, forall fuel, running (tokenize fuel src [0]).
Proof. exists (B "a=(" ++ [cTAB] ++ B "'b')"). apply nofuel_forever; [reflexivity|]. eexists. vm_compute. reflexivity. Qed.
Print Assumptions C18_tab_in_attributes_refuted.
Print Assumptions C18_comma_in_attributes_refuted.
Print Assumptions C18_tab_in_compound_refuted.

(** C19: tokenizing reads only the source and its terminating NUL, unless
    the source starts with a bracket or an equals sign, or ends with an equals
    sign; and it never fails an assert. *)
Theorem C19_reads_only_the_buffer_partial : forall fuel src,
  tokenize fuel src [0] <> PAbrt /\
  (tokenize fuel src [0] = PUB -> starts_with_value src \/ ends_with_equals src).
Proof.
  intros fuel src. split.
  - intros E. pose proof (tokenize_good fuel src [0] (init_inv _ _)) as G. rewrite E in G. apply G. reflexivity.
  - intros E. destruct (tokenize_rel [0; 0] 0 [] eq_refl fuel src []) as [H|(_ & _ & H)]; [|right; exact H].
    left. rewrite E in H. cbn in H. pose proof (tokenize_good fuel src [0; 0] (init_inv _ _)) as G. rewrite H in G.
    destruct (G eq_refl) as (_ & c & r & R & L); [cbn; lia|]. exists c, r. split; auto.
    unfold lost_start in L. rewrite !orb_true_iff, !N.eqb_eq in L. cbn. intuition congruence.
Qed.
Print Assumptions C19_reads_only_the_buffer_partial.
(** C19: with one more readable byte after the NUL only the read before the
    start remains. *)
Theorem C19_reads_with_one_more_byte_partial : forall fuel src b aft,
  tokenize fuel src (0 :: b :: aft) = PUB -> starts_with_value src.
Proof.
  intros fuel src b aft H. pose proof (tokenize_good fuel src (0 :: b :: aft) (init_inv _ _)) as G. rewrite H in G.
  destruct (G eq_refl) as (_ & c & r & R & L); [cbn; lia|]. exists c, r. split; auto.
  unfold lost_start in L. rewrite !orb_true_iff, !N.eqb_eq in L. cbn. intuition congruence.
Qed.
Print Assumptions C19_reads_with_one_more_byte_partial.
(** C19, refuted in general: a value missing at the end of the source reads
    the byte after the NUL; a source that starts with a bracket reads the byte
    before the source. *)
Theorem C19_missing_value_reads_past_nul_refuted : tokenize 10 (B "a=") [0] = PUB.
Proof. reflexivity. Qed.
Theorem C19_bracket_first_reads_before_start_refuted : forall aft, tokenize 10 (B "(a)") (0 :: aft) = PUB.
Proof. reflexivity. Qed.
Print Assumptions C19_missing_value_reads_past_nul_refuted.
Print Assumptions C19_bracket_first_reads_before_start_refuted.

(** C20: with a NUL after the source the result does not depend on the
    bytes that follow it (two bytes are read at most). *)
Theorem C20_independent_of_following_bytes_partial : forall fuel src b aft b' aft',
  same_result (tokenize fuel src (0 :: b :: aft)) (tokenize fuel src (0 :: b' :: aft')).
Proof.
  intros fuel src b aft b' aft'.
  destruct (tokenize_rel (0 :: b' :: aft') b' aft' eq_refl fuel src (b :: aft)) as [->|(_ & H & _)]; [|discriminate].
  destruct (tokenize fuel src (0 :: b :: aft)); cbn; auto.
Qed.
Print Assumptions C20_independent_of_following_bytes_partial.
(** C20, refuted without the NUL: the byte after stop is looked at and even
    becomes part of a token. *)
Theorem C20_byte_after_stop_refuted : exists src a a', 
  ~ same_result (tokenize 20 src a) (tokenize 20 src a')
  /\ (exists s, tokenize 20 src a = POk s) /\ exists s, tokenize 20 src a' = POk s /\ texts (tokens s) <> src.
Proof.
  exists (B "a"), [0; 0], [cEQ; 120; 0; 0]. split; [|split].
  - vm_compute. discriminate.
  - eexists. vm_compute. reflexivity.
  - eexists. split; [vm_compute; reflexivity|]. vm_compute. discriminate.
Qed.
Theorem C20_comment_before_star_refuted : exists src s e s',
  tokenize 20 src [0] = POk s /\ tokenize 20 src [cSTAR; 0] = PErr e s'.
Proof. exists (B "/*a*/"). do 3 eexists. split; vm_compute; reflexivity. Qed.
Print Assumptions C20_byte_after_stop_refuted.
Print Assumptions C20_comment_before_star_refuted.

(** C43: the reported place of an error is a place in the text covered by
    the tokens so far (so everything before it is covered and its line and column
    are right), except that the place of a lost value may be missing. *)
Theorem C43_error_place_partial : forall fuel src aft e s,
  tokenize fuel src (0 :: aft) = PErr e s ->
  (exists m, error_mark e s = Some m /\ mark_in (texts (tokens s)) m /\ mark_in src m)
  \/ (e = E_EXPECTED_CONTENT /\ error_mark e s = None).
Proof.
  intros fuel src aft e s E. pose proof (tokenize_good fuel src (0 :: aft) (init_inv _ _)) as G. rewrite E in G.
  destruct G as (I & _ & K). eapply tokenize_stop in E as (_ & E2 & _); eauto.
  destruct (error_mark e s) as [m|] eqn:M.
  - left. exists m. split; auto.
    assert (mark_in (texts (tokens s)) m).
    { rewrite (inv_texts _ I). revert M. unfold error_mark. pose proof (inv_marks _ I) as Im. unfold marks_in, s_marks in Im.
      repeat match goal with |- context [if ?b then _ else _] => destruct b end; intros M; try (apply Im; rewrite M; cbn; tauto).
      injection M as <-. exists (rev (s_pre s)), []. rewrite app_nil_r. cbn. rewrite rev_length.
      pose proof (inv_pos _ I) as P. unfold s_pos, pos_after in P. injection P as -> ->. auto. }
    split; auto. rewrite E2. now apply mark_in_app.
  - right. split; auto. destruct (N.eq_dec e E_EXPECTED_CONTENT) as [->|Ne]; auto. now apply K in Ne.
Qed.
Print Assumptions C43_error_place_partial.
(** C43, refuted in general: a line comment ending with an equals sign makes
    the error message use a place that was never set (a NULL pointer). *)
Theorem C43_lost_value_without_place_refuted : exists src s,
  tokenize 20 src [0; 0] = PErr E_EXPECTED_CONTENT s /\ error_mark E_EXPECTED_CONTENT s = None.
Proof. exists (B "//=" ++ [cNL] ++ B "(a"). eexists. split; vm_compute; reflexivity. Qed.
Print Assumptions C43_lost_value_without_place_refuted.

(** The hypotheses are met by ordinary sources. *)
Definition sample : bytes := B "// c" ++ [cNL] ++ B "a(b=c x:y='1') {" ++ [cNL] ++ B "  e = ('x' &#10;) /*d*/ 'q'" ++ [cNL] ++ B "}".
Example sample_tokenizes : exists s, tokenize (enough sample) sample [0] = POk s /\ List.length (tokens s) = 31%nat
  /\ texts (tokens s) = sample.
Proof. eexists. split; [vm_compute; reflexivity|]. split; reflexivity. Qed.
Example sample_fails : exists s m, tokenize 99 (sample ++ B " x{ y='") [0] = PErr E_QUOTE_NOT_CLOSED s
  /\ error_mark E_QUOTE_NOT_CLOSED s = Some m /\ m_line m = 4 /\ m_col m = 8.
Proof. do 2 eexists. split; [vm_compute; reflexivity|]. split; [reflexivity|]. split; reflexivity. Qed.
Example sample_terminates : forall c, In c (B "a(b=c)='x' { d }") -> ~ no_attribute c.
Proof.
  intros c H [->|(H1 & H2 & H3)]; vm_compute in H.
  - repeat (destruct H as [H|H]; [discriminate H|]). destruct H.
  - repeat (destruct H as [H|H]; [subst c; first [discriminate | exfalso; apply H3; vm_compute; tauto]|]). destruct H.
Qed.
