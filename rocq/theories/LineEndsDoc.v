(** Proofs about line ends: the document does not depend on them. *)
From Coq Require Import NArith ZArith List Bool Arith Lia String.
From Verif Require Import Bytes BytesFacts Detect DetectProofs Outcome Quote QuoteSpec Parser ParserSpec ParserProofs Dom Grammar RespaceDoc LineEnds LineEndsText LineEndsLex.
From Verif Require PropsParser.
Import ListNotations.
Local Open Scope N_scope.

(* ---------- tokens ---------- *)
Lemma Forall2_tsim l l' : Forall2 tsim l l' -> Forall2 same_token l l'.
Proof. induction 1 as [|x y l l' H _ IH]; constructor; auto. apply H. Qed.
Lemma Forall2_rev {A B} (R : A -> B -> Prop) l l' : Forall2 R l l' -> Forall2 R (rev l) (rev l').
Proof. induction 1 as [|x y l l' H _ IH]; cbn; [constructor|]. apply Forall2_app; auto. Qed.
Lemma sim_tokens s s' : sim s s' -> Forall2 tsim (tokens s) (tokens s').
Proof. intros H. apply Forall2_rev. apply H. Qed.
Lemma sim_where e s s' : sim s s' -> same_where (error_mark e s) (error_mark e s').
Proof.
  intros H. unfold error_mark. repeat match goal with |- context [if ?b then _ else _] => destruct b end; try apply H.
  cbn. split; apply H.
Qed.
Lemma psim_reading r r' : psim r r' -> same_reading r r'.
Proof.
  intros [s s' H|e s s' H| | |s s' H]; cbn; auto using Forall2_tsim, sim_tokens, sim_where.
Qed.

(* ---------- the callbacks ---------- *)
Lemma vsame_value r r' f : vsame r r' -> with_value r f = with_value r' f.
Proof. intros H. apply H. Qed.
Lemma count_lead_slash : forall r r', rle r r' -> count_lead cSLASH r' = count_lead cSLASH r.
Proof. induction 1 as [|c p p' H IH|p p' H IH]; cbn [count_lead]; auto. now rewrite IH. Qed.

Lemma callback_le root t t' aft aft' s : tsim t t' -> plain (t_text t) ->
  callback root t aft s = callback root t' aft' s.
Proof.
  intros [[E1 _ E3 H] Ho] Hp. unfold callback. rewrite E1, E3.
  assert (Q : forall f, with_value (quote_value (t_col t) (t_text t) aft) f = with_value (quote_value (t_col t) (t_text t') aft') f).
  { apply un_quote_le; auto. }
  assert (C : forall f, with_value (comment_value (t_col t) (t_text t) aft) f = with_value (comment_value (t_col t) (t_text t') aft') f).
  { apply un_comment_le; auto. }
  assert (C2 : forall f, with_value (continuation_value (t_col t) (t_text t) aft) f = with_value (continuation_value (t_col t) (t_text t') aft') f).
  { unfold continuation_value. rewrite (count_lead_slash _ _ (le_rle _ _ H)). apply un_comment_le.
    - destruct Hp as [H1 H2]. split; intros I; apply in_app_iff in I as [I|I]; auto; apply repeat_spec in I; discriminate.
    - apply le_app; auto. apply le_refl. }
  destruct (t_kind t); try rewrite (Ho eq_refl); rewrite ?Q, ?C, ?C2; reflexivity.
Qed.
Lemma build_le root T T' : Forall2 tsim T T' -> (forall t, In t T -> plain (t_text t)) ->
  forall aft aft' s, build root T aft s = build root T' aft' s.
Proof.
  induction 1 as [|t t' T T' H _ IH]; intros Hp aft aft' s; auto. cbn [build].
  rewrite (callback_le root t t' _ (List.concat (map t_text T') ++ aft') s H) by (apply Hp; now left).
  destruct (callback root t' _ s); cbn [bbind]; auto. apply IH. intros x I. apply Hp. now right.
Qed.
Lemma in_texts t T c : In t T -> In c (t_text t) -> In c (texts T).
Proof. intros H I. unfold texts. apply in_concat. exists (t_text t). split; auto. now apply in_map. Qed.
Lemma plain_tokens src T r : plain src -> src = texts T ++ r -> forall t, In t T -> plain (t_text t).
Proof. intros [H1 H2] -> t I. split; intros J; [apply H1|apply H2]; apply in_app_iff; left; eapply in_texts; eauto. Qed.

(* ---------- detection ---------- *)
Lemma drop_ws_le : forall s s', line_ends s s' -> line_ends (drop_ws s) (drop_ws s').
Proof.
  induction 1 as [|c s s' H IH|s s' H IH]; cbn [drop_ws]; [constructor| |].
  - destruct (is_xml_whitespace c); auto. now constructor.
  - change (is_xml_whitespace cNL) with true. change (is_xml_whitespace cCR) with true. cbv iota. exact IH.
Qed.
Lemma le_no_cr s s' : line_ends s s' -> ~ In cCR s' -> s = s'.
Proof.
  induction 1 as [|c s s' H IH|s s' H IH]; intros N; auto.
  - rewrite IH; auto. intros I. apply N. now right.
  - exfalso. apply N. now left.
Qed.
Lemma drop_ws_first s c r : drop_ws s = c :: r -> is_xml_whitespace c = false.
Proof. induction s as [|d s IH]; cbn [drop_ws]; [discriminate|]. destruct (is_xml_whitespace d) eqn:E; auto. intros Q. injection Q as <- _. auto. Qed.
Lemma detect_le s s' aft : line_ends s s' -> detect_content_type s (0 :: aft) = DOk CXMQ -> detect_content_type s' (0 :: aft) = DOk CXMQ.
Proof.
  intros L H. pose proof (drop_ws_le _ _ L) as D.
  assert (NL : forall r, drop_ws s <> cLT :: r) by (intros r E; now apply (xmq_not_lt _ (0 :: aft) r) in E).
  rewrite (detect_spec_general _ _ (or_intror NL)) in H. unfold detect_spec in H.
  destruct (drop_ws s) as [|c r] eqn:Es.
  - apply le_nil in D. rewrite detect_spec_general by (right; rewrite D; discriminate). unfold detect_spec. now rewrite D.
  - pose proof (drop_ws_first _ _ _ Es) as W. apply le_cons in D as (r' & Es' & D); [|intros ->; discriminate].
    assert (C : c <> cLT) by (intros ->; apply (NL _ eq_refl)).
    rewrite detect_spec_general by (right; intros x; rewrite Es'; congruence). unfold detect_spec. rewrite Es'.
    destruct (N.eqb_spec c cLT); [contradiction|]. destruct (existsb (N.eqb c) _); [discriminate|].
    destruct (existsb (beq (c :: r')) _) eqn:J; [|reflexivity]. exfalso.
    assert (N : ~ In cCR (c :: r')).
    { apply existsb_exists in J as (u & Hu & Bu). apply beq_eq in Bu. rewrite Bu. cbn [In] in Hu.
      repeat destruct Hu as [<-|Hu]; try destruct Hu; vm_compute; intuition discriminate. }
    assert (E : c :: r = c :: r') by (apply le_no_cr; auto; now constructor). rewrite E, J in H. discriminate.
Qed.

(* ---------- the document ---------- *)
Lemma parse_le fuel root src src' aft : plain src -> line_ends src src' -> detect_content_type src (0 :: aft) = DOk CXMQ ->
  parse_buffer fuel root src' (0 :: aft) = parse_buffer fuel root src (0 :: aft).
Proof.
  intros Hp L D. unfold parse_buffer. rewrite D, (detect_le _ _ _ L D).
  pose proof (tokenize_sim fuel src src' aft L) as P.
  remember (tokenize fuel src (0 :: aft)) as r eqn:E. remember (tokenize fuel src' (0 :: aft)) as r' eqn:E'. symmetry in E.
  destruct P as [s s' S|e s s' S| | |s s' S]; auto.
  - assert (T : src = texts (tokens s) ++ []) by (rewrite app_nil_r; symmetry; eapply PropsParser.C15_tokens_are_the_source; eauto).
    rewrite (build_le root (tokens s) (tokens s') (sim_tokens _ _ S) (plain_tokens src _ [] Hp T) _ (s_rest s' ++ s_aft s')). auto.
  - destruct (PropsParser.C15_tokens_are_a_prefix _ _ _ _ _ E) as (r & Er).
    rewrite (build_le root (tokens s) (tokens s') (sim_tokens _ _ S) (plain_tokens src _ r Hp Er) _ (s_rest s' ++ s_aft s')). auto.
Qed.

(** Rounds. *)
Lemma le_length s s' : line_ends s s' -> (List.length s <= List.length s')%nat.
Proof. induction 1; cbn; lia. Qed.
Lemma same_rounds src aft f f' : (List.length src < f)%nat -> (f <= f')%nat ->
  tokenize f src (0 :: aft) = tokenize f' src (0 :: aft) \/ (running (tokenize f src (0 :: aft)) /\ running (tokenize f' src (0 :: aft))).
Proof.
  intros H G. destruct (PropsParser.C18_finishes_or_loops_partial src aft) as [(r & _ & R)|R]; [left|right; auto].
  rewrite !R by lia. reflexivity.
Qed.
Lemma parse_rounds src root aft f f' : (List.length src < f)%nat -> (f <= f')%nat ->
  parse_buffer f root src (0 :: aft) = parse_buffer f' root src (0 :: aft).
Proof.
  intros H G. unfold parse_buffer. destruct (detect_content_type src (0 :: aft)) as [[]|]; auto.
  destruct (same_rounds src aft f f' H G) as [->|[(s & ->) (s' & ->)]]; auto.
Qed.
Theorem parse_line_ends root src src' aft : plain src -> line_ends src src' -> detect_content_type src (0 :: aft) = DOk CXMQ ->
  parse_buffer (enough src') root src' (0 :: aft) = parse_buffer (enough src) root src (0 :: aft).
Proof.
  intros Hp L D. rewrite (parse_rounds src root aft (enough src) (enough src')); [now apply parse_le| |];
    pose proof (le_length _ _ L); unfold enough; lia.
Qed.
Lemma crlf_le s : line_ends s (crlf s).
Proof. induction s as [|c s IH]; cbn [crlf]; [constructor|]. destruct (N.eqb_spec c cNL) as [->|]; [now apply le_crlf|now constructor]. Qed.
