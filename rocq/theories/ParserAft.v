(** What the parser model does does not depend on the bytes after the source
    as long as the first of them is a NUL; and the only read past that NUL is
    the one of a value that is missing at the end of the source. *)
From Coq Require Import NArith List Bool Arith Lia.
From Verif Require Import Bytes BytesFacts Parser ParserSpec ParserProofs ParserTerm.
Import ListNotations.
Local Open Scope N_scope.
Local Open Scope pout_scope.

(** The same state with other bytes after the source. *)
Definition wa (y : bytes) (s : pst) : pst :=
  PS (s_pre s) (s_rest s) y (s_line s) (s_col s) (s_toks s) (s_body s) (s_attr s) (s_quote s) (s_equals s) (s_susp s).
Definition wap (y : bytes) (r : pout) : pout :=
  match r with
  | POk s => POk (wa y s) | PErr e s => PErr e (wa y s) | PNoFuel s => PNoFuel (wa y s)
  | PUB => PUB | PAbrt => PAbrt
  end.

Notation ends_eq := ends_with_equals.
Definition source (s : pst) : bytes := rev (s_pre s) ++ s_rest s.

Definition rel (y : bytes) (s : pst) (r r' : pout) : Prop :=
  r' = wap y r \/ (r = PUB /\ s_aft s = [0] /\ ends_eq (source s)).

Section Aft.
Variables (y : bytes) (b0 : N) (y0 : bytes).
Hypothesis Hy : y = 0 :: b0 :: y0.

Lemma good_source s s' : good s (POk s') -> okst s -> later s s' /\ source s' = source s /\ s_aft s' = s_aft s.
Proof.
  intros G O. split; [now apply good_later|]. destruct O as [I N]. destruct (G I) as (I' & T & A & _).
  split; [|now apply (adv_nul _ _ _ A)].
  pose proof (adv_mem _ _ _ A) as M. rewrite (adv_nul _ _ _ A N) in M. rewrite app_assoc in M. apply app_inv_tail in M.
  unfold source. rewrite <- (inv_texts _ I), <- (inv_texts _ I'), (adv_toks _ _ _ A), texts_app, M. now rewrite app_assoc.
Qed.

Lemma rel_ok s s' : rel y s (POk s') (POk (wa y s')).
Proof. now left. Qed.
Lemma rel_err e s s' : rel y s (PErr e s') (PErr e (wa y s')).
Proof. now left. Qed.
Lemma rel_bind s r r' f g : okst s -> good s r -> rel y s r r' -> (forall s', okst s' -> rel y s' (f s') (g (wa y s'))) ->
  rel y s (pbind r f) (pbind r' g).
Proof.
  intros O G [-> |(-> & H)] K; [|right; cbn; auto].
  destruct r as [s1|e s1| | |s1]; cbn; try (now left).
  destruct (good_source _ _ G O) as (L & E1 & E2). destruct (K s1 (later_ok _ _ L)) as [-> |(-> & A & B)]; [now left|].
  right. rewrite <- E1, <- E2. auto.
Qed.
Lemma rel_pre s s1 r r' : good s (POk s1) -> okst s -> (okst s1 -> rel y s1 r r') -> rel y s r r'.
Proof.
  intros G O H. destruct (good_source _ _ G O) as (L & E1 & E2). destruct (H (later_ok _ _ L)) as [-> |(-> & A & B)]; [now left|].
  right. rewrite <- E1, <- E2. auto.
Qed.

Lemma nul_aft s : okst s -> exists x, s_aft s = 0 :: x.
Proof. intros [_ N]. unfold nul_after in N. destruct (s_aft s) as [|a x]; [discriminate|]. injection N as ->. eauto. Qed.

Lemma peek_wa s : okst s -> peek (wa y s) = peek s.
Proof. intros O. destruct (nul_aft s O) as (x & E). unfold peek. cbn. rewrite E, Hy. now destruct (s_rest s). Qed.
Lemma peek_is_wa c s : okst s -> peek_is c (wa y s) = peek_is c s.
Proof. intros O. unfold peek_is. now rewrite peek_wa. Qed.

Lemma step_wa c s : okst s -> peek_is c s = true -> c <> 0 -> step c (wa y s) = wa y (step c s).
Proof.
  intros O P Hc. destruct (nul_peek s c (ok_nul _ O) P Hc) as (r & R). unfold step. cbn. rewrite R.
  destruct (inc c _). reflexivity.
Qed.
Lemma single_wa k c s : okst s -> peek_is c s = true -> c <> 0 -> single k c (wa y s) = wa y (single k c s).
Proof. intros O P Hc. unfold single. rewrite step_wa; auto. Qed.

Lemma skip_space_wa s : okst s -> skip_space (wa y s) = wap y (skip_space s).
Proof.
  intros O. unfold skip_space. rewrite peek_wa by auto. destruct (peek s) as [c|]; [|reflexivity].
  destruct (is_xml_whitespace c); [|reflexivity].
  change (parse_whitespace (wa y s)) with (wa y (parse_whitespace s)).
  rewrite peek_wa by (eapply later_ok, whitespace_later; eauto).
  destruct (peek (parse_whitespace s)); reflexivity.
Qed.
Lemma skip_space_rel s : okst s -> rel y s (skip_space s) (skip_space (wa y s)).
Proof. intros O. left. now apply skip_space_wa. Qed.

Lemma parse_quote_wa l s : parse_quote l (wa y s) = wap y (parse_quote l s).
Proof.
  unfold parse_quote, eat_quote. cbn [wa s_rest]. destruct (Nat.eqb _ 0); [reflexivity|].
  destruct (Nat.eqb _ 2); [reflexivity|]. cbn [set_quote cur_of s_pre s_rest s_line s_col].
  destruct (quote_loop _ _ _ _ _) as [e|k]; [reflexivity|].
  unfold need_more_quotes. cbn [set_cur s_pre s_rest].
  destruct (k_pre k) as [|c1 [|c0 p]]; try reflexivity. destruct (k_rest k) as [|c2 r]; try reflexivity.
  destruct (_ && _); reflexivity.
Qed.

Lemma entity_loop_semi rest : forall pre p c0 e k c ex, entity_loop pre rest p c0 e = (k, c, ex) ->
  (c0 =? cSEMI) = false -> (c =? cSEMI) = true -> exists q, k_rest k = cSEMI :: q.
Proof.
  induction rest as [|d q IH]; intros pre p c0 e k c ex; cbn [entity_loop].
  - intros [= <- <- <-]. congruence.
  - destruct (is_xmq_text_name d) eqn:Hd; cbn [negb].
    + intros E _. apply (IH _ _ _ _ _ _ _ E). apply N.eqb_neq. intros ->. discriminate.
    + intros [= <- <- <-] _ Es. apply N.eqb_eq in Es. subst d. cbn. eauto.
Qed.

Lemma parse_entity_wa l s : okst s -> peek_is cAMP s = true -> parse_entity l (wa y s) = wap y (parse_entity l s).
Proof.
  intros O P. destruct (nul_peek s cAMP (ok_nul _ O) P) as (r & R); [discriminate|].
  unfold parse_entity, eat_entity. rewrite step_wa by (auto; discriminate).
  cbn [wa s_pre s_rest s_line s_col]. set (s1 := step cAMP s).
  destruct (entity_loop _ _ _ _ _) as [[k c] ex] eqn:E.
  destruct (c =? cSEMI) eqn:Es; [|destruct ex; reflexivity].
  change (set_cur (wa y s1) k) with (wa y (set_cur s1 k)).
  assert (A1 : s_aft s1 = s_aft s) by (eapply step_aft_in; eauto).
  (* the byte at the end of the loop is the semicolon *)
  assert (K : exists q, k_rest k = cSEMI :: q).
  { eapply entity_loop_semi; eauto. }
  destruct K as (q & K).
  assert (S : step cSEMI (wa y (set_cur s1 k)) = wa y (step cSEMI (set_cur s1 k))).
  { unfold step. cbn [wa set_cur s_rest s_pre s_line s_col]. rewrite K. destruct (inc _ _). reflexivity. }
  rewrite S. set (s3 := step cSEMI (set_cur s1 k)).
  assert (A3 : s_aft s3 = s_aft s).
  { unfold s3. rewrite (step_aft_in cSEMI (set_cur s1 k) cSEMI q K). exact A1. }
  destruct (nul_aft s O) as (x & Ex).
  assert (P3 : peek (wa y s3) = peek s3).
  { unfold peek. cbn [wa s_rest s_aft]. rewrite A3, Ex, Hy. now destruct (s_rest s3). }
  rewrite P3. destruct (peek s3); reflexivity.
Qed.

Lemma count_slashes_wa r x : count_slashes r y = count_slashes r (0 :: x).
Proof. induction r as [|c r IH]; cbn; [now rewrite Hy|]. destruct (c =? cSLASH); auto. now rewrite IH. Qed.

Lemma close_loop_wa num x : forall r c pre p, close_loop num c pre r y p = close_loop num c pre r (0 :: x) p.
Proof.
  induction r as [|ch r IH]; intros c pre p; cbn [close_loop]; [reflexivity|].
  rewrite (count_slashes_wa _ x), !IH. reflexivity.
Qed.

Lemma eat_close_wa num s : okst s -> (peek_is cSLASH s = true -> exists n, count_slashes (s_rest s) (s_aft s) = Some (n, true) /\ n = num) ->
  eat_comment_to_close num (wa y s) = let '(r, m) := eat_comment_to_close num s in (wap y r, m).
Proof.
  intros O Hs. unfold eat_comment_to_close. rewrite peek_is_wa by auto.
  change (cur_of (wa y s)) with (cur_of s).
  set (k := if peek_is cSLASH s then _ else _).
  change (set_cur (wa y s) k) with (wa y (set_cur s k)).
  assert (P : peek_is cSTAR (wa y (set_cur s k)) = peek_is cSTAR (set_cur s k)).
  { destruct (nul_aft s O) as (x & Ex). unfold peek_is, peek. cbn [wa set_cur s_rest s_aft]. rewrite Ex, Hy. now destruct (k_rest k). }
  rewrite P. destruct (peek_is cSTAR (set_cur s k)) eqn:E; [|reflexivity]. cbn [negb].
  assert (N1 : nul_after (set_cur s k)) by exact (ok_nul _ O).
  destruct (nul_peek _ _ N1 E) as (r & R); [discriminate|].
  assert (S : step cSTAR (wa y (set_cur s k)) = wa y (step cSTAR (set_cur s k))).
  { unfold step. cbn [wa set_cur s_rest s_pre s_line s_col]. cbn in R. rewrite R. destruct (inc _ _). reflexivity. }
  rewrite S. set (s2 := step cSTAR _).
  assert (A : s_aft s2 = s_aft s) by (unfold s2; rewrite (step_aft_in _ _ _ _ R); reflexivity).
  cbn [wa s_pre s_rest s_aft s_line s_col]. destruct (nul_aft s O) as (x & Ex). rewrite A, Ex, (close_loop_wa _ x).
  destruct (close_loop _ _ _ _ _ _); reflexivity.
Qed.

Lemma continuations_wa num : (1 <= num)%nat -> forall f s, okst s -> peek_is cSTAR s = true ->
  continuations f num (wa y s) = wap y (continuations f num s).
Proof.
  intros Hn. induction f as [|f IH]; intros s O P; cbn [continuations]; [reflexivity|].
  rewrite eat_close_wa; auto.
  2:{ intros Q. exfalso. unfold peek_is in *. destruct (peek s); [|discriminate]. apply N.eqb_eq in P, Q. subst. discriminate. }
  pose proof (eat_comment_to_close_spec num s Hn (or_intror (or_intror P))) as H.
  destruct (eat_comment_to_close num s) as [[s1|e s1| | |s1] more]; cbn [pbind wap]; try reflexivity.
  destruct H as (t & M & Lt & Mo).
  change (emit_from Kcomment_continuation (wa y s) (wa y s1)) with (wa y (emit_from Kcomment_continuation s s1)).
  destruct more; [|reflexivity]. apply IH.
  - assert (G : good s (POk (emit_from Kcomment_continuation s s1))) by (eapply ok_moved; eauto; discriminate).
    eapply later_ok, good_later; eauto.
  - exact (Mo eq_refl).
Qed.

Lemma parse_comment_wa f s r c : okst s -> s_rest s = cSLASH :: c :: r -> c = cSLASH \/ c = cSTAR ->
  parse_comment f (wa y s) = wap y (parse_comment f s).
Proof.
  intros O Hr Hc. unfold parse_comment. destruct (nul_aft s O) as (x & Ex).
  assert (Ec : count_slashes (s_rest (wa y s)) (s_aft (wa y s)) = count_slashes (s_rest s) (s_aft s)).
  { cbn [wa s_rest s_aft]. rewrite Ex. apply count_slashes_wa. }
  rewrite Ec. destruct (count_slashes (s_rest s) (s_aft s)) as [[n more]|] eqn:E; [|reflexivity].
  destruct more; [|reflexivity].
  pose proof (count_slashes_split _ _ _ _ E) as (u & Hu & Hm).
  assert (Hn : (1 <= n)%nat) by (destruct n; [|lia]; cbn in Hu; subst u; rewrite Hr in Hm; cbn in Hm; destruct Hm as [_ Hm]; exfalso; apply Hm; [discriminate|reflexivity]).
  assert (A : at_comment n s).
  { destruct u as [|z u]; cbn in Hm.
    - right. left. destruct (s_aft s) as [|z a] eqn:Ea; [tauto|]. destruct Hm as [Hm _]. symmetry in Hm. apply N.eqb_eq in Hm. subst z.
      exists a. rewrite app_nil_r in Hu. auto.
    - left. destruct Hm as [Hm _]. symmetry in Hm. apply N.eqb_eq in Hm. subst z. eauto. }
  rewrite eat_close_wa by eauto.
  pose proof (eat_comment_to_close_spec n s Hn A) as H.
  destruct (eat_comment_to_close n s) as [[s1|e s1| | |s1] more]; cbn [pbind wap]; try reflexivity.
  destruct H as (t & M & Lt & Mo).
  change (emit_from Kcomment (wa y s) (wa y s1)) with (wa y (emit_from Kcomment s s1)).
  destruct more; [|reflexivity].
  assert (G : good s (POk (emit_from Kcomment s s1))) by (eapply ok_moved; eauto; discriminate).
  apply continuations_wa; [exact Hn| |exact (Mo eq_refl)]. eapply later_ok, good_later; eauto.
Qed.

Lemma compound_children_rel l : forall f s, okst s -> rel y s (compound_children f l s) (compound_children f l (wa y s)).
Proof.
  induction f as [|f IH]; intros s O; cbn [compound_children]; change (s_rest (wa y s)) with (s_rest s);
    destruct (s_rest s) as [|c r] eqn:R; try (now left).
  - destruct (is_xml_whitespace c).
    { change (parse_whitespace (wa y s)) with (wa y (parse_whitespace s)).
      eapply rel_pre; [apply parse_whitespace_good|auto|]. apply IH. }
    destruct (c =? cRP); [apply rel_ok|].
    destruct (c =? cQ) eqn:Eq.
    { apply rel_bind; auto.
      - apply parse_quote_good. eapply rest_peek; eauto. now apply N.eqb_eq.
      - left. apply parse_quote_wa. }
    destruct (c =? cAMP) eqn:Ea.
    { assert (P : peek_is cAMP s = true) by (eapply rest_peek; eauto; now apply N.eqb_eq).
      apply rel_bind; auto using parse_entity_good.
      left. now apply parse_entity_wa. }
    apply rel_err.
Qed.

(** Closing a bracket. *)
Lemma close_rel e k c s : okst s -> c <> 0 ->
  rel y s (s1 <- skip_space s ; if negb (peek_is c s1) then PErr e s1 else POk (single k c s1))
          (s1 <- skip_space (wa y s) ; if negb (peek_is c s1) then PErr e s1 else POk (single k c s1)).
Proof.
  intros O Hc. apply rel_bind; auto using skip_space_good, skip_space_rel.
  intros s1 O1. rewrite peek_is_wa by auto. destruct (peek_is c s1) eqn:P; [|apply rel_err].
  cbn [negb]. rewrite single_wa; auto. apply rel_ok.
Qed.

(** An opening bracket is one more byte. *)
Lemma single_source k c s : okst s -> peek_is c s = true -> c <> 0 -> bracket_text (Tok k 0 0 [c] []) ->
  okst (single k c s) /\ source (single k c s) = source s /\ s_aft (single k c s) = s_aft s.
Proof.
  intros O P Hc Hb. destruct (single_okst k c s O P Hc Hb) as (O1 & _ & _). split; auto.
  destruct (nul_peek s c (ok_nul _ O) P Hc) as (r & R).
  unfold single, source, step. destruct (inc _ _). rewrite R. cbn. rewrite <- app_assoc. auto.
Qed.
Lemma rel_source s s1 r r' : source s1 = source s -> s_aft s1 = s_aft s -> rel y s1 r r' -> rel y s r r'.
Proof. intros E1 E2 [-> |(-> & A & B)]; [now left|]. right. now rewrite <- E1, <- E2. Qed.

Lemma parse_compound_rel l f s : okst s -> peek_is cLP s = true ->
  rel y s (parse_compound f l s) (parse_compound f l (wa y s)).
Proof.
  intros O P. unfold parse_compound. rewrite single_wa by (auto; discriminate).
  destruct (single_source Kcpar_left cLP s O P) as (O1 & E1 & E2); [discriminate|reflexivity|].
  eapply rel_source; eauto. apply rel_bind; auto using compound_children_good, compound_children_rel.
  intros s1 O2. apply close_rel; auto. discriminate.
Qed.

Lemma parse_value_rel l f s : okst s -> hd_error (s_pre s) = Some cEQ ->
  rel y s (parse_value f l s) (parse_value f l (wa y s)).
Proof.
  intros O H. unfold parse_value. rewrite skip_space_wa by auto.
  assert (W : forall s1, skip_space s = POk s1 -> exists w, ws_text w /\ s_rest s = w ++ s_rest s1).
  { intros s1. unfold skip_space. destruct (peek s); [|discriminate]. destruct (is_xml_whitespace n).
    - destruct (peek (parse_whitespace s)); [|discriminate]. intros [= <-].
      destruct (parse_whitespace_moved s) as (t & M & Ht). exists t. split; auto.
      pose proof (mv_mem _ _ _ M) as E. rewrite (mv_nul _ _ _ M (ok_nul _ O)), app_assoc in E. apply app_inv_tail in E. exact E.
    - intros [= <-]. exists []. split; auto. constructor. }
  pose proof (skip_space_good s) as G.
  destruct (skip_space s) as [s1|e s1| | |s1]; cbn [pbind wap]; try (now left).
  destruct (good_source _ _ G O) as (L & E1 & E2). pose proof (later_ok _ _ L) as O1.
  eapply rel_source; eauto.
  rewrite !peek_is_wa by auto.
  destruct (peek_is cQ s1); [left; apply parse_quote_wa|].
  destruct (peek_is cAMP s1) eqn:PA; [left; now apply parse_entity_wa|].
  destruct (peek_is cLP s1) eqn:PL; [now apply parse_compound_rel|].
  rewrite peek_wa by auto. destruct (nul_aft s1 O1) as (x & Ex).
  destruct (s_rest s1) as [|c r] eqn:R.
  - destruct x as [|b x].
    + right. unfold peek, peek1. rewrite R, Ex. split; auto. split; auto.
      destruct (W s1 eq_refl) as (w & Hw & Ew). rewrite E1. rewrite R, app_nil_r in Ew. unfold source. rewrite Ew.
      destruct (s_pre s) as [|q p]; [discriminate|]. injection H as ->. cbn.
      exists (rev p), w. rewrite <- app_assoc. auto.
    + left. unfold peek, peek1. cbn [wa s_rest s_aft]. rewrite R, Ex, Hy. reflexivity.
  - left. assert (peek1 (wa y s1) = peek1 s1) as ->.
    { unfold peek1. cbn [wa s_rest s_aft]. rewrite R, Ex, Hy. now destruct r. }
    destruct (peek s1); [|reflexivity]. destruct (peek1 s1); [|reflexivity]. destruct (unsafe_value_start _ _); reflexivity.
Qed.

Lemma single_pre k c s : peek_is c s = true -> c <> 0 -> okst s -> hd_error (s_pre (single k c s)) = Some c.
Proof.
  intros P Hc O. destruct (nul_peek s c (ok_nul _ O) P Hc) as (r & R).
  unfold single, step. destruct (inc _ _). rewrite R. reflexivity.
Qed.

Lemma emit_attr_wa l c n s : emit_attr_name l c n (wa y s) = wa y (emit_attr_name l c n s).
Proof. unfold emit_attr_name. destruct (split_colon n) as [[]|]; [destruct (beq _ _)|]; reflexivity. Qed.
Lemma emit_element_wa k l c n s : emit_element_name k l c n (wa y s) = wa y (emit_element_name k l c n s).
Proof. unfold emit_element_name. destruct (split_colon n) as [[]|]; reflexivity. Qed.

Lemma equals_value_rel l f s : okst s -> peek_is cEQ s = true ->
  rel y s (parse_value f l (single Kequals cEQ s)) (parse_value f l (single Kequals cEQ (wa y s))).
Proof.
  intros O P. rewrite single_wa by (auto; discriminate).
  destruct (single_source Kequals cEQ s O P) as (O1 & E1 & E2); [discriminate|reflexivity|].
  eapply rel_source; eauto. apply parse_value_rel; auto. apply single_pre; auto. discriminate.
Qed.

Lemma parse_attribute_rel f s : okst s -> rel y s (parse_attribute f s) (parse_attribute f (wa y s)).
Proof.
  intros O. unfold parse_attribute.
  change (eat_name (wa y s)) with (wa y (eat_name s)).
  change (between (wa y s) (wa y (eat_name s))) with (between s (eat_name s)).
  change (s_line (wa y s)) with (s_line s). change (s_col (wa y s)) with (s_col s).
  rewrite emit_attr_wa.
  assert (G : good s (POk (emit_attr_name (s_line s) (s_col s) (between s (eat_name s)) (eat_name s)))).
  { destruct (eat_name_moved s) as (t & M & H & _). rewrite (between_moved _ _ _ M). now apply attr_name_good. }
  eapply rel_pre; [exact G|auto|]. set (s1 := emit_attr_name _ _ _ _). intros O1.
  apply rel_bind; auto using skip_space_good, skip_space_rel.
  intros s2 O2. rewrite peek_is_wa by auto. destruct (peek_is cEQ s2) eqn:P; [|apply rel_ok].
  now apply equals_value_rel.
Qed.

Lemma wa_eta s c r : s_rest s = c :: r ->
  PS (s_pre s) (c :: r) y (s_line s) (s_col s) (s_toks s) (s_body s) (s_attr s) (s_quote s) (s_equals s) (s_susp s) = wa y s.
Proof. intros R. unfold wa. now rewrite R. Qed.

Lemma attributes_rel : forall f s, okst s -> rel y s (attributes f s) (attributes f (wa y s)).
Proof.
  induction f as [|f IH]; intros s O; cbn [attributes]; change (s_rest (wa y s)) with (s_rest s);
    destruct (s_rest s) as [|c r] eqn:R; try (now left).
  destruct (is_xml_whitespace c).
  { change (parse_whitespace (wa y s)) with (wa y (parse_whitespace s)).
    eapply rel_pre; [apply parse_whitespace_good|auto|]. apply IH. }
  destruct (c =? cRP); [apply rel_ok|].
  destruct (is_attribute_key_start c); [|apply rel_ok].
  apply rel_bind; auto using parse_attribute_good, parse_attribute_rel.
Qed.

Lemma element_tail_rel f body s : (forall s, good s (body s)) -> (forall s, okst s -> rel y s (body s) (body (wa y s))) ->
  okst s -> rel y s (element_tail f body s) (element_tail f body (wa y s)).
Proof.
  intros Hg Hb O. unfold element_tail.
  apply rel_bind; auto using skip_space_good, skip_space_rel. clear s O. intros s3 O.
  apply rel_bind; auto.
  - destruct (peek_is cLP s3) eqn:P; [|apply good_self].
    eapply good_pre_ok; [apply good_marks, set_attr_marks|].
    apply (bracket_good Kapar_left cLP Kapar_right cRP E_ATTRIBUTES_NOT_CLOSED (attributes f)); auto; try discriminate; try reflexivity.
    + unfold opens. auto.
    + intros s' K. unfold error_mark. cbn. unfold keeps, s_marks in K. cbn in K.
      inversion K as [|? ? ? ? _ K2]; subst. inversion K2 as [|? ? ? ? K3 _]; subst. apply K3. discriminate.
    + apply attributes_good.
  - rewrite peek_is_wa by auto. destruct (peek_is cLP s3) eqn:P; [|apply rel_ok].
    change (here (wa y s3)) with (here s3). change (set_attr (Some (here s3)) (wa y s3)) with (wa y (set_attr (Some (here s3)) s3)).
    destruct (marks_okst _ _ (set_attr_marks s3) O) as (O6 & R6 & T6).
    apply (rel_source s3 (set_attr (Some (here s3)) s3)); try reflexivity.
    set (s6 := set_attr (Some (here s3)) s3) in *.
    assert (P6 : peek_is cLP s6 = true) by now rewrite (peek_same _ s3).
    rewrite single_wa by (auto; discriminate).
    destruct (single_source Kapar_left cLP s6 O6 P6) as (O7 & E1 & E2); [discriminate|reflexivity|].
    eapply rel_source; eauto. apply rel_bind; auto using attributes_good, attributes_rel.
    intros s1 O2. apply close_rel; auto. discriminate.
  - clear s3 O. intros s4 O. apply rel_bind; auto using skip_space_good, skip_space_rel. clear s4 O. intros s5 O.
    rewrite !peek_is_wa by auto. change (here (wa y s5)) with (here s5).
    destruct (peek_is cEQ s5) eqn:P.
    + change (set_equals (Some (here s5)) (wa y s5)) with (wa y (set_equals (Some (here s5)) s5)).
      destruct (marks_okst _ _ (set_equals_marks s5) O) as (O6 & R6 & T6).
      apply (rel_source s5 (set_equals (Some (here s5)) s5)); try reflexivity.
      apply equals_value_rel; auto.
    + destruct (peek_is cLB s5) eqn:P2; [|apply rel_ok].
      change (set_body (Some (here s5)) (wa y s5)) with (wa y (set_body (Some (here s5)) s5)).
      destruct (marks_okst _ _ (set_body_marks s5) O) as (O6 & R6 & T6).
      apply (rel_source s5 (set_body (Some (here s5)) s5)); try reflexivity.
      set (s6 := set_body (Some (here s5)) s5) in *.
      assert (P6 : peek_is cLB s6 = true) by now rewrite (peek_same _ s5).
      rewrite single_wa by (auto; discriminate).
      destruct (single_source Kbrace_left cLB s6 O6 P6) as (O7 & E1 & E2); [discriminate|reflexivity|].
      eapply rel_source; eauto. apply rel_bind; auto.
      intros s1 O2. apply close_rel; auto. discriminate.
Qed.

Lemma parse_element_rel f body ek s : (forall s, good s (body s)) -> (forall s, okst s -> rel y s (body s) (body (wa y s))) ->
  okst s -> ek_at ek s -> rel y s (parse_element f body ek s) (parse_element f body ek (wa y s)).
Proof.
  intros Hg Hb O A. rewrite !parse_element_eq.
  assert (element_head ek (wa y s) = wa y (element_head ek s)) as ->.
  { destruct ek; unfold element_head.
    - change (eat_name (wa y s)) with (wa y (eat_name s)). rewrite <- emit_element_wa. reflexivity.
    - destruct A as (r & R). unfold eat_marked_name. rewrite step_wa; [reflexivity|exact O|eapply rest_peek; eauto|discriminate].
    - destruct A as (r & R). unfold eat_marked_name. rewrite step_wa; [reflexivity|exact O|eapply rest_peek; eauto|discriminate]. }
  apply (rel_pre _ (element_head ek s)); [now apply element_head_good|auto|]. intros O1. now apply element_tail_rel.
Qed.

Lemma parse_xmq_rel : forall f s, okst s -> rel y s (parse_xmq f s) (parse_xmq f (wa y s)).
Proof.
  induction f as [|f IH]; intros s O; cbn [parse_xmq]; change (s_rest (wa y s)) with (s_rest s);
    destruct (s_rest s) as [|c r] eqn:R; try (now left).
  destruct (is_xmq_token_whitespace c).
  { change (parse_whitespace (wa y s)) with (wa y (parse_whitespace s)).
    eapply rel_pre; [apply parse_whitespace_good|auto|]. apply IH. }
  destruct (c =? cQ) eqn:Eq.
  { apply rel_bind; auto.
    - apply parse_quote_good. eapply rest_peek; eauto. now apply N.eqb_eq.
    - left. apply parse_quote_wa. }
  destruct (c =? cAMP) eqn:Ea.
  { assert (P : peek_is cAMP s = true) by (eapply rest_peek; eauto; now apply N.eqb_eq).
    apply rel_bind; auto using parse_entity_good. left. now apply parse_entity_wa. }
  destruct (is_comment_start c _) eqn:C.
  { assert (exists d r', r = d :: r' /\ c = cSLASH /\ (d = cSLASH \/ d = cSTAR)) as (d & r' & -> & -> & Hd).
    { unfold is_comment_start in C. apply andb_true_iff in C as [C1 C2]. rewrite C1 in C2. cbn [orb] in C2.
      apply N.eqb_eq in C1. subst c. destruct r as [|d r]; [discriminate|]. cbn [hd] in C2.
      apply orb_true_iff in C2. rewrite !N.eqb_eq in C2. eauto 10. }
    apply rel_bind; auto; [eapply parse_comment_good; eauto|]. left. eapply parse_comment_wa; eauto. }
  assert (Ge : forall ek, ek_at ek s ->
     rel y s (s' <- parse_element (S f) (parse_xmq f) ek s ; parse_xmq f s')
             (s' <- parse_element (S f) (parse_xmq f) ek (wa y s) ; parse_xmq f s')).
  { intros ek Ek. apply rel_bind; auto; [|apply parse_element_rel; auto using parse_xmq_good].
    rewrite parse_element_eq. apply (good_pre_ok _ (element_head ek s)); [now apply element_head_good|]. apply element_tail_good, parse_xmq_good. }
  destruct (is_xmq_element_start c) eqn:Es; [apply (Ge EElement); cbn; eauto using element_start_name|].
  destruct (is_doctype_start (c :: r)) eqn:D; [apply (Ge EDoctype); apply doctype_head in D as ->; cbn; eauto|].
  destruct (is_pi_start (c :: r)) eqn:Pi; [apply (Ge EPi); apply pi_head in Pi as ->; cbn; eauto|].
  destruct (c =? cRB); [apply rel_ok|].
  left. unfold possibly_lost_content. rewrite peek_wa by auto. cbn [wa s_pre].
  destruct (peek s); [|reflexivity]. destruct (negb _); [reflexivity|].
  destruct (back_to_newline (s_pre s)) as [[|b [|b' p]]|]; try reflexivity.
  destruct (negb _); [reflexivity|]. destruct (back_over_space _); [reflexivity|]. destruct (n0 =? cEQ); reflexivity.
Qed.

Lemma tokenize_rel f src x : rel y (init src (0 :: x)) (tokenize f src (0 :: x)) (tokenize f src y).
Proof.
  assert (O : okst (init src (0 :: x))) by (split; [apply init_inv|reflexivity]).
  unfold tokenize. change (init src y) with (wa y (init src (0 :: x))).
  apply rel_bind; auto using parse_xmq_good, parse_xmq_rel.
  intros s' O'. change (s_rest (wa y s')) with (s_rest s'). destruct (s_rest s'); [apply rel_ok|apply rel_err].
Qed.
End Aft.
