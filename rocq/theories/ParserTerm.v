(** Termination of the parser model: with more fuel than there are bytes left
    the only way to run out of fuel is to be stuck at a byte inside of
    parentheses, and then every amount of fuel runs out. *)
From Coq Require Import NArith List Bool Arith Lia.
From Verif Require Import Bytes BytesFacts Parser ParserSpec ParserProofs.
Import ListNotations.
Local Open Scope N_scope.
Local Open Scope pout_scope.

(** The bytes the parser cannot get past in an attribute list: not a name
    character and not a byte that ends the list. *)
Definition stuck_attr (c : N) : bool :=
  (c =? cTAB) || (is_attribute_key_start c && negb (is_xmq_text_name c) && negb (is_xml_whitespace c)).
(** In a compound value only a tab. *)
Definition stuck_comp (c : N) : bool := c =? cTAB.

Definition is_nofuel (r : pout) : Prop := exists s, r = PNoFuel s.

(** Inside of an open parenthesis. *)
Definition inside (T : list token) (c : N) : Prop :=
  exists A l C, T = A ++ l :: C /\ balanced C
    /\ ((t_kind l = Kapar_left /\ stuck_attr c = true) \/ (t_kind l = Kcpar_left /\ stuck_comp c = true)).

Definition stuck_at (s s' : pst) : Prop :=
  exists T c r, tokens s' = tokens s ++ T /\ s_rest s' = c :: r /\ inside T c.
(** Stuck directly at this level, or deeper. *)
Definition stuck_here (f : N -> bool) (s s' : pst) : Prop :=
  stuck_at s s' \/
  exists T c r, tokens s' = tokens s ++ T /\ s_rest s' = c :: r /\ balanced T /\ f c = true.

Definition sim (r r' : pout) : Prop := r = r' \/ (is_nofuel r /\ is_nofuel r').
Definition term (s : pst) (r : pout) : Prop := forall s', r = PNoFuel s' -> stuck_at s s'.
Definition term_here (f : N -> bool) (s : pst) (r : pout) : Prop := forall s', r = PNoFuel s' -> stuck_here f s s'.

Lemma sim_refl r : sim r r.
Proof. now left. Qed.
Lemma sim_bind r r' f g : sim r r' -> (forall s, r = POk s -> sim (f s) (g s)) -> sim (pbind r f) (pbind r' g).
Proof.
  intros [->|[[s ->] [s' ->]]] H.
  - destruct r'; cbn; auto using sim_refl.
  - right. cbn. split; eexists; reflexivity.
Qed.

Lemma inside_app A T c : inside T c -> inside (A ++ T) c.
Proof. intros (B & l & C & -> & H). exists (A ++ B), l, C. rewrite app_assoc. auto. Qed.

Lemma stuck_at_pre T s s' s'' : tokens s' = tokens s ++ T -> stuck_at s' s'' -> stuck_at s s''.
Proof.
  intros E (U & c & r & H1 & H2 & H3). exists (T ++ U), c, r. rewrite H1, E, app_assoc. split; auto. split; auto.
  now apply inside_app.
Qed.
Lemma stuck_here_pre f T s s' s'' : tokens s' = tokens s ++ T -> balanced T -> stuck_here f s' s'' -> stuck_here f s s''.
Proof.
  intros E Hb [H|(U & c & r & H1 & H2 & H3 & H4)]; [left; eapply stuck_at_pre; eauto|].
  right. exists (T ++ U), c, r. rewrite H1, E, app_assoc. split; auto. split; auto. split; auto. now apply bal_app.
Qed.

(** What the states have in common while parsing a source that ends with a
    NUL. *)
Record okst (s : pst) : Prop := OkSt { ok_inv : inv s; ok_nul : nul_after s }.

(** From s to s', both fine, s' not before s. *)
Definition later (s s' : pst) : Prop :=
  okst s' /\ (length (s_rest s') <= length (s_rest s))%nat /\ exists T, tokens s' = tokens s ++ T /\ balanced T.

Lemma good_later s s' : good s (POk s') -> okst s -> later s s'.
Proof.
  intros G [I N]. destruct (G I) as (I' & T & A & B). split; [split; auto; eapply adv_nul_after; eauto|].
  pose proof (adv_mem _ _ _ A) as M. rewrite (adv_nul _ _ _ A N) in M. rewrite app_assoc in M. apply app_inv_tail in M.
  split; [rewrite M, app_length; lia|]. exists T. split; auto. apply (adv_toks _ _ _ A).
Qed.

Lemma later_ok s s' : later s s' -> okst s'.
Proof. now intros [H _]. Qed.
Lemma later_trans s s' s'' : later s s' -> later s' s'' -> later s s''.
Proof.
  intros (_ & L & T & E & B1) (O & L' & U & E' & B2). split; auto. split; [lia|]. exists (T ++ U).
  rewrite E', E, app_assoc. split; auto. now apply bal_app.
Qed.
Lemma later_refl s : okst s -> later s s.
Proof. intros O. split; auto. split; auto. exists []. rewrite app_nil_r. split; auto. constructor. Qed.

Lemma term_bind s r f : okst s -> good s r -> term s r -> (forall s', r = POk s' -> later s s' -> term s' (f s')) -> term s (pbind r f).
Proof.
  intros O G H K s' E. destruct r as [s1|e s1| | |s1]; cbn in E; try discriminate.
  - pose proof (good_later _ _ G O) as L. specialize (K s1 eq_refl L s' E).
    destruct L as (_ & _ & T & ET & _). eapply stuck_at_pre; eauto.
  - injection E as <-. now apply H.
Qed.
Lemma term_here_bind g s r f : okst s -> good s r -> term s r -> (forall s', r = POk s' -> later s s' -> term_here g s' (f s')) -> term_here g s (pbind r f).
Proof.
  intros O G H K s' E. destruct r as [s1|e s1| | |s1]; cbn in E; try discriminate.
  - pose proof (good_later _ _ G O) as L. specialize (K s1 eq_refl L s' E).
    destruct L as (_ & _ & T & ET & HB). eapply stuck_here_pre; eauto.
  - injection E as <-. left. now apply H.
Qed.
Lemma term_here_later g s s' r : later s s' -> term_here g s' r -> term_here g s r.
Proof. intros (_ & _ & T & ET & HB) H s2 E. eapply stuck_here_pre; eauto. Qed.
Lemma term_later s s' r : later s s' -> term s' r -> term s r.
Proof. intros (_ & _ & T & ET & HB) H s2 E. eapply stuck_at_pre; eauto. Qed.

Lemma term_not s r : (forall s', r <> PNoFuel s') -> term s r.
Proof. intros H s' E. now apply H in E. Qed.
Lemma term_ok s s' : term s (POk s').
Proof. intros s2 E. discriminate. Qed.
Lemma term_err s e s' : term s (PErr e s').
Proof. intros s2 E. discriminate. Qed.

(* ---------- progress ---------- *)
Lemma moved_len t s s' : nul_after s -> moved t s s' -> length (s_rest s) = (length t + length (s_rest s'))%nat.
Proof.
  intros N M. pose proof (mv_mem _ _ _ M) as E. rewrite (mv_nul _ _ _ M N), app_assoc in E. apply app_inv_tail in E.
  rewrite E. apply app_length.
Qed.

Lemma token_ws_xml c : is_xmq_token_whitespace c = true -> is_xml_whitespace c = true /\ c <> cTAB.
Proof.
  unfold is_xmq_token_whitespace, is_xml_whitespace. rewrite !orb_true_iff, !N.eqb_eq. intros H. split; [tauto|].
  intros ->. destruct H as [[H|H]|H]; discriminate.
Qed.

Lemma whitespace_progress s c r : s_rest s = c :: r -> is_xml_whitespace c = true -> c <> cTAB ->
  (length (s_rest (parse_whitespace s)) < length (s_rest s))%nat.
Proof.
  intros R W Nt. unfold parse_whitespace. cbn [emit_from emit s_rest set_cur]. rewrite R. cbn [ws_loop].
  assert (count_ws (c :: r) = 1%nat) as -> by now apply count_ws_1.
  apply N.eqb_neq in Nt. rewrite Nt.
  destruct (ws_loop_eaten (length r) (c :: s_pre s) r (inc c (s_line s, s_col s))) as (t & (H1 & H2 & H3) & _); auto.
  cbn [k_rest] in H2. cbn [length]. apply (f_equal (@length N)) in H2. rewrite app_length in H2. lia.
Qed.

Lemma whitespace_stuck s r : s_rest s = cTAB :: r -> s_rest (parse_whitespace s) = cTAB :: r.
Proof. intros R. unfold parse_whitespace. cbn [emit_from emit s_rest set_cur]. rewrite R. reflexivity. Qed.

Lemma quote_progress l s s' : okst s -> parse_quote l s = POk s' -> (length (s_rest s') < length (s_rest s))%nat.
Proof.
  intros [I N] H. unfold parse_quote in H. pose proof (eat_quote_spec s) as E.
  destruct (eat_quote s) as [s1| | | |]; cbn in H; try discriminate. injection H as <-.
  destruct E as (t & M & L). apply (moved_len _ _ _ N) in M. cbn. lia.
Qed.
Lemma entity_progress l s s' : okst s -> peek_is cAMP s = true -> parse_entity l s = POk s' -> (length (s_rest s') < length (s_rest s))%nat.
Proof.
  intros [I N] P H. unfold parse_entity in H. pose proof (eat_entity_spec s P) as E.
  destruct (eat_entity s) as [s1| | | |]; cbn in H; try discriminate. injection H as <-.
  destruct E as (t & M & L). apply (moved_len _ _ _ N) in M. cbn. lia.
Qed.

Lemma quote_not_nofuel l s s' : parse_quote l s <> PNoFuel s'.
Proof.
  unfold parse_quote. pose proof (eat_quote_spec s) as E. destruct (eat_quote s); cbn; try discriminate. tauto.
Qed.
Lemma entity_not_nofuel l s s' : peek_is cAMP s = true -> parse_entity l s <> PNoFuel s'.
Proof.
  intros P. unfold parse_entity. pose proof (eat_entity_spec s P) as E. destruct (eat_entity s); cbn; try discriminate. tauto.
Qed.
Lemma skip_space_not_nofuel s s' : skip_space s <> PNoFuel s'.
Proof.
  unfold skip_space. destruct (peek s); [|discriminate]. destruct (is_xml_whitespace n); [|discriminate].
  destruct (peek (parse_whitespace s)); discriminate.
Qed.

(* ---------- comments ---------- *)
Lemma nul_star_rest s : nul_after s -> peek_is cSTAR s = true -> exists r, s_rest s = cSTAR :: r.
Proof. intros N P. apply (nul_peek _ _ N P). discriminate. Qed.

Lemma continuations_total num : (1 <= num)%nat -> forall f s, okst s -> peek_is cSTAR s = true -> (length (s_rest s) <= f)%nat ->
  (forall s', continuations f num s <> PNoFuel s') /\
  (forall f', (length (s_rest s) <= f')%nat -> continuations f' num s = continuations f num s) /\
  (forall s', continuations f num s = POk s' -> (length (s_rest s') < length (s_rest s))%nat).
Proof.
  intros Hn. induction f as [|f IH]; intros s O P L.
  - destruct (nul_star_rest s (ok_nul _ O) P) as (r & R). rewrite R in L. cbn in L. lia.
  - assert (Lf : forall f', (length (s_rest s) <= f')%nat -> exists f2, f' = S f2).
    { intros f' H. destruct (nul_star_rest s (ok_nul _ O) P) as (r & R). rewrite R in H. cbn in H. destruct f'; [lia|eauto]. }
    pose proof (eat_comment_to_close_spec num s Hn (or_intror (or_intror P))) as H.
    cbn [continuations].
    assert (Ef : forall f', (length (s_rest s) <= f')%nat -> exists f2, f' = S f2 /\ continuations f' num s =
       (let '(r, more) := eat_comment_to_close num s in
        s' <- r ; let s' := emit_from Kcomment_continuation s s' in if more then continuations f2 num s' else POk s')).
    { intros f' Hf. destruct (Lf f' Hf) as (f2 & ->). exists f2. auto. }
    destruct (eat_comment_to_close num s) as [[s1|e s1| | |s1] more]; cbn [pbind] in *; try tauto.
    + destruct H as (t & M & Lt & Mo). pose proof (moved_len _ _ _ (ok_nul _ O) M) as Ls.
      set (s2 := emit_from Kcomment_continuation s s1) in *.
      assert (Ls2 : length (s_rest s2) = length (s_rest s1)) by reflexivity.
      assert (G : good s (POk s2)) by (eapply ok_moved; eauto; discriminate).
      destruct (good_later _ _ G O) as (O2 & _ & _).
      destruct more.
      * assert (P2 : peek_is cSTAR s2 = true) by exact (Mo eq_refl).
        destruct (IH s2 O2 P2) as (H1 & H2 & H3); [lia|].
        split; auto. split.
        -- intros f' Hf. destruct (Ef f' Hf) as (f2 & -> & ->). apply H2. lia.
        -- intros s' E. apply H3 in E. lia.
      * split; [discriminate|]. split.
        -- intros f' Hf. destruct (Ef f' Hf) as (f2 & -> & ->). reflexivity.
        -- intros s' [= <-]. lia.
    + split; [discriminate|]. split; [|discriminate]. intros f' Hf. destruct (Ef f' Hf) as (f2 & -> & ->). reflexivity.
    + split; [discriminate|]. split; [|discriminate]. intros f' Hf. destruct (Ef f' Hf) as (f2 & -> & ->). reflexivity.
Qed.

Lemma parse_comment_total f s r c : okst s -> s_rest s = cSLASH :: c :: r -> c = cSLASH \/ c = cSTAR ->
  (length (s_rest s) <= f)%nat ->
  (forall s', parse_comment f s <> PNoFuel s') /\
  (forall f', (length (s_rest s) <= f')%nat -> parse_comment f' s = parse_comment f s) /\
  (forall s', parse_comment f s = POk s' -> (length (s_rest s') < length (s_rest s))%nat).
Proof.
  intros O Hr Hc L. unfold parse_comment. destruct (count_slashes (s_rest s) (s_aft s)) as [[n more]|] eqn:E;
    [|repeat split; discriminate].
  pose proof (count_slashes_split _ _ _ _ E) as (u & Hu & Hm).
  assert (Hn : (1 <= n)%nat) by (destruct n; [|lia]; cbn in Hu; subst u; rewrite Hr in Hm; cbn in Hm; destruct Hm as [_ Hm]; exfalso; apply Hm; [discriminate|reflexivity]).
  destruct more.
  - assert (A : at_comment n s).
    { destruct u as [|x u]; cbn in Hm.
      - right. left. destruct (s_aft s) as [|x a] eqn:Ea; [tauto|]. destruct Hm as [Hm _]. symmetry in Hm. apply N.eqb_eq in Hm. subst x.
        exists a. rewrite app_nil_r in Hu. auto.
      - left. destruct Hm as [Hm _]. symmetry in Hm. apply N.eqb_eq in Hm. subst x. eauto. }
    pose proof (eat_comment_to_close_spec n s Hn A) as H.
    destruct (eat_comment_to_close n s) as [[s1|e s1| | |s1] more]; cbn [pbind]; try tauto; [|repeat split; discriminate..].
    destruct H as (t & M & Lt & Mo). pose proof (moved_len _ _ _ (ok_nul _ O) M) as Ls.
    set (s2 := emit_from Kcomment s s1) in *.
    assert (Ls2 : length (s_rest s2) = length (s_rest s1)) by reflexivity.
    assert (G : good s (POk s2)) by (eapply ok_moved; eauto; discriminate).
    destruct (good_later _ _ G O) as (O2 & _ & _).
    destruct more.
    + assert (P2 : peek_is cSTAR s2 = true) by exact (Mo eq_refl).
      destruct (continuations_total n Hn f s2 O2 P2) as (H1 & H2 & H3); [lia|].
      split; auto. split; [intros; apply H2; lia|]. intros s' E2. apply H3 in E2. lia.
    + split; [discriminate|]. split; auto. intros s' [= <-]. lia.
  - split; [discriminate|]. split; auto. intros s' [= <-].
    assert (Hn2 : (2 <= n)%nat).
    { destruct n as [|[|n]]; try lia. exfalso. rewrite Hr in Hu. cbn in Hu. injection Hu as Hu. subst u. cbn in Hm.
      destruct Hm as [Hm1 Hm2]. destruct Hc as [-> | ->]; [apply Hm2; [discriminate|reflexivity]|discriminate]. }
    destruct (eat_comment_to_eol_moved _ _ _ E Hn2) as (t & M & Lt).
    pose proof (moved_len _ _ _ (ok_nul _ O) M) as Ls.
    change (length (s_rest (eat_comment_to_eol s)) < length (s_rest s))%nat. lia.
Qed.

(* ---------- compounds ---------- *)
Lemma compound_tab f l : forall s r, s_rest s = cTAB :: r -> is_nofuel (compound_children f l s).
Proof.
  induction f as [|f IH]; intros s r R; cbn [compound_children]; rewrite R.
  - eexists; reflexivity.
  - cbn [is_xml_whitespace]. change (is_xml_whitespace cTAB) with true. cbn iota.
    apply (IH _ r). now apply whitespace_stuck.
Qed.

Lemma whitespace_later s : okst s -> later s (parse_whitespace s).
Proof. apply good_later, parse_whitespace_good. Qed.

Lemma compound_children_term l : forall f s, okst s -> (length (s_rest s) < f)%nat ->
  term_here stuck_comp s (compound_children f l s) /\
  forall f', (length (s_rest s) < f')%nat -> sim (compound_children f l s) (compound_children f' l s).
Proof.
  induction f as [|f IH]; intros s O L; [lia|].
  destruct (s_rest s) as [|c r] eqn:R.
  { split.
    - cbn [compound_children]. rewrite R. intros s' E. discriminate.
    - intros f' _. destruct f'; cbn [compound_children]; rewrite R; apply sim_refl. }
  destruct (N.eqb_spec c cTAB) as [->|Nt].
  { split.
    - intros s' E. right.
      assert (forall f s, okst s -> s_rest s = cTAB :: r -> forall s', compound_children f l s = PNoFuel s' ->
        exists T, tokens s' = tokens s ++ T /\ s_rest s' = cTAB :: r /\ balanced T).
      { clear. induction f as [|f IH]; intros s O R s'; cbn [compound_children]; rewrite R.
        - intros [= <-]. exists []. rewrite app_nil_r. split; auto. split; auto. constructor.
        - change (is_xml_whitespace cTAB) with true. cbn iota. intros E.
          destruct (whitespace_later s O) as (O2 & _ & T & ET & BT).
          apply IH in E; auto using whitespace_stuck. destruct E as (U & E1 & E2 & E3).
          exists (T ++ U). rewrite E1, ET, app_assoc. split; auto. split; auto. now apply bal_app. }
      destruct (H _ _ O R _ E) as (T & E1 & E2 & E3). exists T, cTAB, r. auto.
    - intros f' _. right. split; eapply compound_tab; eauto. }
  assert (Lf : forall f', (length (c :: r) < f')%nat -> exists f2, f' = S f2 /\ (length r < f2)%nat).
  { intros f' H. destruct f'; [lia|]. cbn in H. exists f'. split; auto; lia. }
  cbn [length] in L.
  cbn [compound_children]. rewrite R.
  destruct (is_xml_whitespace c) eqn:W.
  { assert (P := whitespace_progress s c r R W Nt). rewrite R in P. cbn [length] in P.
    pose proof (whitespace_later s O) as La.
    destruct (IH (parse_whitespace s) (later_ok _ _ La)) as (H1 & H2); [lia|].
    split; [eapply term_here_later; eauto|].
    intros f' Hf. destruct (Lf f' Hf) as (f2 & -> & Hf2). cbn [compound_children]. rewrite R, W. apply H2. lia. }
  destruct (N.eqb_spec c cRP).
  { split; [intros s' E; discriminate|].
    intros f' Hf. destruct (Lf f' Hf) as (f2 & -> & Hf2). cbn [compound_children]. rewrite R, W. apply N.eqb_eq in e. rewrite e. apply sim_refl. }
  destruct (N.eqb_spec c cQ).
  { assert (P : peek_is cQ s = true) by (eapply rest_peek; eauto).
    split.
    - apply term_here_bind; auto using parse_quote_good.
      + apply term_not. intros s'. apply quote_not_nofuel.
      + intros s' E La. apply (IH s' (later_ok _ _ La)). apply (quote_progress _ _ _ O) in E. rewrite R in E. cbn in E. lia.
    - intros f' Hf. destruct (Lf f' Hf) as (f2 & -> & Hf2). cbn [compound_children]. rewrite R, W.
      apply N.eqb_neq in n. rewrite n. apply N.eqb_eq in e. rewrite e. apply sim_bind; [apply sim_refl|].
      intros s' E. pose proof (quote_progress _ _ _ O E) as Pq. rewrite R in Pq. cbn in Pq.
      assert (Gq := parse_quote_good l s P). rewrite E in Gq. pose proof (good_later _ _ Gq O) as La.
      apply (IH s' (later_ok _ _ La)); lia. }
  destruct (N.eqb_spec c cAMP).
  { assert (P : peek_is cAMP s = true) by (eapply rest_peek; eauto).
    split.
    - apply term_here_bind; auto using parse_entity_good.
      + apply term_not. intros s'. now apply entity_not_nofuel.
      + intros s' E La. apply (IH s' (later_ok _ _ La)). apply (entity_progress _ _ _ O P) in E. rewrite R in E. cbn in E. lia.
    - intros f' Hf. destruct (Lf f' Hf) as (f2 & -> & Hf2). cbn [compound_children]. rewrite R, W.
      apply N.eqb_neq in n. rewrite n. apply N.eqb_neq in n0. rewrite n0. apply N.eqb_eq in e. rewrite e. apply sim_bind; [apply sim_refl|].
      intros s' E. pose proof (entity_progress _ _ _ O P E) as Pq. rewrite R in Pq. cbn in Pq.
      assert (Gq := parse_entity_good l s P). rewrite E in Gq. pose proof (good_later _ _ Gq O) as La.
      apply (IH s' (later_ok _ _ La)); lia. }
  split; [intros s' E; discriminate|].
  intros f' Hf. destruct (Lf f' Hf) as (f2 & -> & Hf2). cbn [compound_children]. rewrite R, W.
  apply N.eqb_neq in n, n0, n1. rewrite n, n0, n1. apply sim_refl.
Qed.

(** Opening a parenthesis. *)
Lemma single_okst k c s : okst s -> peek_is c s = true -> c <> 0 -> bracket_text (Tok k 0 0 [c] []) ->
  okst (single k c s) /\ (length (s_rest (single k c s)) < length (s_rest s))%nat
  /\ tokens (single k c s) = tokens s ++ [Tok k (s_line s) (s_col s) [c] []].
Proof.
  intros [I N] P Hc Hb. destruct (single_spec k c s P Hc Hb I) as [I' A]. split; [split; auto; eapply adv_nul_after; eauto|].
  split; [|apply (adv_toks _ _ _ A)].
  pose proof (adv_mem _ _ _ A) as M. rewrite (adv_nul _ _ _ A N), app_assoc in M. apply app_inv_tail in M.
  rewrite M, app_length. cbn. lia.
Qed.

Lemma stuck_open f k s s1 s' l : tokens s1 = tokens s ++ [l] -> t_kind l = k ->
  (k = Kapar_left /\ f = stuck_attr \/ k = Kcpar_left /\ f = stuck_comp) ->
  stuck_here f s1 s' -> stuck_at s s'.
Proof.
  intros E Hk Hf [H|(T & c & r & H1 & H2 & H3 & H4)].
  - eapply stuck_at_pre; eauto.
  - exists ([l] ++ T), c, r. rewrite H1, E, app_assoc. split; auto. split; auto.
    exists [], l, T. split; auto. split; auto. destruct Hf as [[-> ->]|[-> ->]]; auto.
Qed.

Lemma sim_close s1 s2 e k c : sim s1 s2 ->
  sim (s <- s1 ; s <- skip_space s ; if negb (peek_is c s) then PErr e s else POk (single k c s))
      (s <- s2 ; s <- skip_space s ; if negb (peek_is c s) then PErr e s else POk (single k c s)).
Proof. intros H. apply sim_bind; auto. intros; apply sim_refl. Qed.

Lemma close_not_nofuel s e k c s' : (s1 <- skip_space s ; if negb (peek_is c s1) then PErr e s1 else POk (single k c s1)) <> PNoFuel s'.
Proof.
  pose proof (skip_space_not_nofuel s) as H.
  destruct (skip_space s); cbn; try discriminate; [|apply H]. destruct (negb _); discriminate.
Qed.

Lemma term_close f k e kr c s r s1 l : tokens s1 = tokens s ++ [l] -> t_kind l = k ->
  (k = Kapar_left /\ f = stuck_attr \/ k = Kcpar_left /\ f = stuck_comp) ->
  term_here f s1 r ->
  term s (s <- r ; s <- skip_space s ; if negb (peek_is c s) then PErr e s else POk (single kr c s)).
Proof.
  intros E Hk Hf H s' E'. eapply stuck_open; eauto. apply H.
  destruct r; cbn in E'; try discriminate; auto. exfalso. eapply close_not_nofuel; eauto.
Qed.

Lemma parse_compound_term l f s : okst s -> peek_is cLP s = true -> (length (s_rest s) <= f)%nat ->
  term s (parse_compound f l s) /\
  forall f', (length (s_rest s) <= f')%nat -> sim (parse_compound f l s) (parse_compound f' l s).
Proof.
  intros O P L. destruct (single_okst Kcpar_left cLP s O P) as (O1 & L1 & E1); [discriminate|reflexivity|].
  destruct (compound_children_term (enter_compound l) f (single Kcpar_left cLP s) O1) as (H1 & H2); [lia|].
  unfold parse_compound. split.
  - eapply term_close; eauto.
  - intros f' Hf. apply sim_close, H2. lia.
Qed.

Lemma parse_value_term l f s : okst s -> (length (s_rest s) <= f)%nat ->
  term s (parse_value f l s) /\
  forall f', (length (s_rest s) <= f')%nat -> sim (parse_value f l s) (parse_value f' l s).
Proof.
  intros O L. unfold parse_value.
  assert (K : forall s1, okst s1 -> (length (s_rest s1) <= length (s_rest s))%nat ->
    let V f := (if peek_is cQ s1 then parse_quote l s1
                else if peek_is cAMP s1 then parse_entity l s1
                else if peek_is cLP s1 then parse_compound f l s1
                else match peek s1, peek1 s1 with
                     | Some c, Some cc => if unsafe_value_start c cc then PErr E_VALUE_CANNOT_START_WITH s1
                                          else POk (parse_text_value l s1)
                     | _, _ => PUB end) in
    term s1 (V f) /\ forall f', (length (s_rest s) <= f')%nat -> sim (V f) (V f')).
  { intros s1 O1 L1. cbn zeta.
    destruct (peek_is cQ s1); [split; [apply term_not; intros; apply quote_not_nofuel|intros; apply sim_refl]|].
    destruct (peek_is cAMP s1) eqn:PA; [split; [apply term_not; intros; now apply entity_not_nofuel|intros; apply sim_refl]|].
    destruct (peek_is cLP s1) eqn:PL.
    - destruct (parse_compound_term l f s1 O1 PL) as (H1 & H2); [lia|]. split; auto. intros. apply H2. lia.
    - split; [|intros; apply sim_refl]. apply term_not. intros s'. destruct (peek s1); [|discriminate].
      destruct (peek1 s1); [|discriminate]. destruct (unsafe_value_start _ _); discriminate. }
  split.
  - apply term_bind; auto using skip_space_good.
    + apply term_not. intros. apply skip_space_not_nofuel.
    + intros s1 _ (O1 & L1 & _). now apply K.
  - intros f' Hf. apply sim_bind; [apply sim_refl|]. intros s1 E.
    assert (G := skip_space_good s). rewrite E in G. apply good_later in G; auto. destruct G as (O1 & L1 & _). now apply K.
Qed.

(* ---------- attributes ---------- *)
Lemma eat_name_nop s c r : s_rest s = c :: r -> is_xmq_text_name c = false -> eat_name s = s.
Proof. intros R H. unfold eat_name. rewrite R. cbn [name_loop]. rewrite H. unfold set_cur. cbn. rewrite <- R. now destruct s. Qed.

Lemma emit_attr_rest l c n s : s_rest (emit_attr_name l c n s) = s_rest s /\ s_aft (emit_attr_name l c n s) = s_aft s.
Proof. unfold emit_attr_name. destruct (split_colon n) as [[]|]; [destruct (beq _ _)|]; split; reflexivity. Qed.

Lemma stuck_attribute f s c r : s_rest s = c :: r -> c <> cTAB -> stuck_attr c = true -> exists s', parse_attribute f s = POk s' /\ s_rest s' = c :: r.
Proof.
  intros R Nt H. unfold stuck_attr in H. apply N.eqb_neq in Nt. rewrite Nt in H. cbn [orb] in H.
  rewrite !andb_true_iff, !negb_true_iff in H. destruct H as [[K Nn] Nw].
  unfold parse_attribute. rewrite (eat_name_nop s c r R Nn).
  set (s1 := emit_attr_name _ _ _ s). destruct (emit_attr_rest (s_line s) (s_col s) (between s s) s) as [E1 E2]. fold s1 in E1, E2.
  assert (P : peek s1 = Some c) by (unfold peek; now rewrite E1, R).
  unfold skip_space. rewrite P, Nw. cbn [pbind]. unfold peek_is. rewrite P.
  assert (c =? cEQ = false) as ->.
  { unfold is_attribute_key_start in K. rewrite negb_true_iff in K. rewrite !orb_false_iff in K. tauto. }
  exists s1. split; auto. now rewrite E1, R.
Qed.

Lemma stuck_attr_spec c : stuck_attr c = true -> c <> cRP /\ is_xml_whitespace c = (c =? cTAB) /\ is_attribute_key_start c = true.
Proof.
  unfold stuck_attr. rewrite orb_true_iff, N.eqb_eq. intros [->|H]; [repeat split; discriminate|].
  rewrite !andb_true_iff, !negb_true_iff in H. destruct H as [[K Nn] Nw]. rewrite Nw, K. repeat split.
  - intros ->. discriminate.
  - symmetry. apply N.eqb_neq. intros ->. discriminate.
Qed.

Lemma attributes_stuck f : forall s c r, s_rest s = c :: r -> stuck_attr c = true -> is_nofuel (attributes f s).
Proof.
  induction f as [|f IH]; intros s c r R H; cbn [attributes]; rewrite R.
  - eexists; reflexivity.
  - destruct (stuck_attr_spec c H) as (Nr & W & K). rewrite W. destruct (N.eqb_spec c cTAB) as [->|Nt].
    + apply (IH _ cTAB r); auto. now apply whitespace_stuck.
    + apply N.eqb_neq in Nr. rewrite Nr, K.
      destruct (stuck_attribute (S f) s c r R Nt H) as (s' & -> & R'). cbn [pbind]. now apply (IH s' c r).
Qed.

Lemma parse_attribute_term f s : okst s -> (length (s_rest s) <= f)%nat ->
  term s (parse_attribute f s) /\
  forall f', (length (s_rest s) <= f')%nat -> sim (parse_attribute f s) (parse_attribute f' s).
Proof.
  intros O L. unfold parse_attribute.
  set (s1 := emit_attr_name _ _ _ _).
  assert (La : later s s1).
  { apply good_later; auto. destruct (eat_name_moved s) as (t & M & H & _). unfold s1. rewrite (between_moved _ _ _ M). now apply attr_name_good. }
  destruct La as (O1 & L1 & T & ET & BT).
  assert (La : later s s1) by (split; auto; split; eauto).
  assert (K : forall s2, okst s2 -> (length (s_rest s2) <= length (s_rest s))%nat ->
    let V f := (if peek_is cEQ s2 then parse_value f LAttr (single Kequals cEQ s2) else POk s2) in
    term s2 (V f) /\ forall f', (length (s_rest s) <= f')%nat -> sim (V f) (V f')).
  { intros s2 O2 L2. cbn zeta. destruct (peek_is cEQ s2) eqn:P; [|split; [apply term_ok|intros; apply sim_refl]].
    destruct (single_okst Kequals cEQ s2 O2 P) as (O3 & L3 & E3); [discriminate|reflexivity|].
    destruct (parse_value_term LAttr f (single Kequals cEQ s2) O3) as (H1 & H2); [lia|].
    split; [|intros; apply H2; lia]. intros s' E. eapply stuck_at_pre; eauto. }
  split.
  - eapply term_later; eauto. apply term_bind; auto using skip_space_good.
    + apply term_not. intros. apply skip_space_not_nofuel.
    + intros s2 _ (O2 & L2 & _). apply K; auto. lia.
  - intros f' Hf. apply sim_bind; [apply sim_refl|]. intros s2 E.
    assert (G := skip_space_good s1). rewrite E in G. apply good_later in G; auto. destruct G as (O2 & L2 & _). apply K; auto. lia.
Qed.

Lemma name_progress s c r : okst s -> s_rest s = c :: r -> is_xmq_text_name c = true -> (length (s_rest (eat_name s)) < length (s_rest s))%nat.
Proof.
  intros O R H. unfold eat_name. cbn [set_cur s_rest]. rewrite R. cbn [name_loop]. rewrite H.
  destruct (name_loop_eaten r (c :: s_pre s) (inc c (s_line s, s_col s))) as (t & (_ & E & _) & _). cbn [k_rest] in E.
  apply (f_equal (@length N)) in E. rewrite app_length in E. cbn. lia.
Qed.

Lemma attribute_progress f s c r s' : okst s -> s_rest s = c :: r -> is_xmq_text_name c = true ->
  parse_attribute f s = POk s' -> (length (s_rest s') < length (s_rest s))%nat.
Proof.
  intros O R H E. pose proof (name_progress s c r O R H) as P.
  unfold parse_attribute in E. destruct (eat_name_moved s) as (t & M & Hn & _). rewrite (between_moved _ _ _ M) in E.
  pose proof (attr_name_good _ _ _ M Hn) as G. apply good_later in G; auto. destruct G as (O1 & L1 & _).
  destruct (emit_attr_rest (s_line s) (s_col s) t (eat_name s)) as [E1 _].
  set (s1 := emit_attr_name _ _ _ _) in *.
  assert (G2 : good s1 (s2 <- skip_space s1 ; if peek_is cEQ s2 then parse_value f LAttr (single Kequals cEQ s2) else POk s2)).
  { apply good_bind; [apply skip_space_good|]. intros s2. destruct (peek_is cEQ s2) eqn:Pe; [|apply good_self].
    eapply good_pre_ok; [now apply single_equals_good|apply parse_value_good]. }
  rewrite E in G2. apply good_later in G2; auto. destruct G2 as (_ & L2 & _). rewrite E1 in L2. lia.
Qed.

Lemma attributes_term : forall f s, okst s -> (length (s_rest s) < f)%nat ->
  term_here stuck_attr s (attributes f s) /\
  forall f', (length (s_rest s) < f')%nat -> sim (attributes f s) (attributes f' s).
Proof.
  induction f as [|f IH]; intros s O L; [lia|].
  destruct (s_rest s) as [|c r] eqn:R.
  { split.
    - cbn [attributes]. rewrite R. intros s' E. discriminate.
    - intros f' _. destruct f'; cbn [attributes]; rewrite R; apply sim_refl. }
  destruct (stuck_attr c) eqn:St.
  { split.
    - intros s' E. right.
      assert (forall f s, okst s -> s_rest s = c :: r -> forall s', attributes f s = PNoFuel s' ->
        exists T, tokens s' = tokens s ++ T /\ s_rest s' = c :: r /\ balanced T).
      { destruct (stuck_attr_spec c St) as (Nr & W & K).
        clear -St Nr W K. induction f as [|f IH]; intros s O R s'; cbn [attributes]; rewrite R.
        - intros [= <-]. exists []. rewrite app_nil_r. split; auto. split; auto. constructor.
        - rewrite W. destruct (N.eqb_spec c cTAB) as [->|Nt].
          + intros E. destruct (whitespace_later s O) as (O2 & _ & T & ET & BT).
            apply IH in E; auto using whitespace_stuck. destruct E as (U & E1 & E2 & E3).
            exists (T ++ U). rewrite E1, ET, app_assoc. split; auto. split; auto. now apply bal_app.
          + apply N.eqb_neq in Nr. rewrite Nr, K.
            destruct (stuck_attribute (S f) s c r R Nt St) as (s1 & E1 & R1). rewrite E1. cbn [pbind]. intros E.
            pose proof (parse_attribute_good (S f) s) as G. rewrite E1 in G. apply good_later in G; auto.
            destruct G as (O2 & _ & T & ET & BT).
            apply IH in E; auto. destruct E as (U & E3 & E4 & E5).
            exists (T ++ U). rewrite E3, ET, app_assoc. split; auto. split; auto. now apply bal_app. }
      destruct (H _ _ O R _ E) as (T & E1 & E2 & E3). exists T, c, r. auto.
    - intros f' _. right. split; eapply attributes_stuck; eauto. }
  assert (Lf : forall f', (length (c :: r) < f')%nat -> exists f2, f' = S f2 /\ (length r < f2)%nat).
  { intros f' H. destruct f'; [lia|]. cbn in H. exists f'. split; auto; lia. }
  cbn [length] in L.
  cbn [attributes]. rewrite R.
  unfold stuck_attr in St. apply orb_false_iff in St as [Nt St].
  destruct (is_xml_whitespace c) eqn:W.
  { apply N.eqb_neq in Nt. assert (P := whitespace_progress s c r R W Nt). rewrite R in P. cbn [length] in P.
    pose proof (whitespace_later s O) as La.
    destruct (IH (parse_whitespace s) (later_ok _ _ La)) as (H1 & H2); [lia|].
    split; [eapply term_here_later; eauto|].
    intros f' Hf. destruct (Lf f' Hf) as (f2 & -> & Hf2). cbn [attributes]. rewrite R, W. apply H2. lia. }
  destruct (c =? cRP) eqn:Er.
  { split; [intros s' E; discriminate|].
    intros f' Hf. destruct (Lf f' Hf) as (f2 & -> & Hf2). cbn [attributes]. rewrite R, W, Er. apply sim_refl. }
  destruct (is_attribute_key_start c) eqn:K.
  2:{ split; [intros s' E; discriminate|].
    intros f' Hf. destruct (Lf f' Hf) as (f2 & -> & Hf2). cbn [attributes]. rewrite R, W, Er, K. apply sim_refl. }
  cbn [andb negb] in St. rewrite andb_true_r in St. apply negb_false_iff in St.
  destruct (parse_attribute_term (S f) s O) as (A1 & A2); [rewrite R; cbn; lia|].
  split.
  - apply term_here_bind; auto using parse_attribute_good.
    intros s' E La. apply (IH s' (later_ok _ _ La)).
    apply (attribute_progress _ _ c r) in E; auto. rewrite R in E. cbn in E. lia.
  - intros f' Hf. destruct (Lf f' Hf) as (f2 & -> & Hf2). cbn [attributes]. rewrite R, W, Er, K.
    apply sim_bind; [apply A2; rewrite R; cbn; lia|].
    intros s' E. pose proof (attribute_progress _ _ c r _ O R St E) as Pq. rewrite R in Pq. cbn in Pq.
    pose proof (parse_attribute_good (S f) s) as G. rewrite E in G. apply good_later in G; auto.
    apply (IH s' (later_ok _ _ G)); lia.
Qed.

(* ---------- elements ---------- *)
Lemma marks_okst s s' : same_but_marks s s' -> okst s -> okst s' /\ s_rest s' = s_rest s /\ tokens s' = tokens s.
Proof.
  intros M O. pose proof (good_marks _ _ M) as G. apply good_later in G; auto. destruct G as (O' & _ & _).
  destruct M as (_ & H2 & _ & _ & _ & H6 & _). split; auto. split; auto. unfold tokens. now rewrite H6.
Qed.

Lemma peek_same c s s' : s_rest s' = s_rest s -> s_aft s' = s_aft s -> peek_is c s' = peek_is c s.
Proof. unfold peek_is, peek. now intros -> ->. Qed.

(** The part of an element that follows its name. *)
Definition element_tail (fuel : nat) (body : pst -> pout) (s2 : pst) : pout :=
  s3 <- skip_space s2 ;
  s4 <- (if peek_is cLP s3 then
           s <- attributes fuel (single Kapar_left cLP (set_attr (Some (here s3)) s3)) ;
           s <- skip_space s ;
           if negb (peek_is cRP s) then PErr E_ATTRIBUTES_NOT_CLOSED s
           else POk (single Kapar_right cRP s)
         else POk s3) ;
  s5 <- skip_space s4 ;
  if peek_is cEQ s5 then
    parse_value fuel LElem (single Kequals cEQ (set_equals (Some (here s5)) s5))
  else if peek_is cLB s5 then
    s <- body (single Kbrace_left cLB (set_body (Some (here s5)) s5)) ;
    s <- skip_space s ;
    if negb (peek_is cRB s) then PErr E_BODY_NOT_CLOSED s
    else POk (single Kbrace_right cRB s)
  else POk s5.

Definition element_head (ek : ekind) (s : pst) : pst :=
  let s1 := match ek with
            | EElement => eat_name s
            | EDoctype => eat_marked_name cBANG s
            | EPi => eat_marked_name cQM s
            end in
  let is_key := next_is_equal (s_rest s1) 0 in
  let name := between s s1 in
  match ek with
  | EElement => emit_element_name is_key (s_line s) (s_col s) name s1
  | _ => emit (if is_key then Kelement_key else Kelement_name) (s_line s) (s_col s) name [] s1
  end.

Lemma parse_element_eq fuel body ek s : parse_element fuel body ek s = element_tail fuel body (element_head ek s).
Proof. destruct ek; reflexivity. Qed.

Lemma emit_element_rest k l c n s : s_rest (emit_element_name k l c n s) = s_rest s.
Proof. unfold emit_element_name. destruct (split_colon n) as [[]|]; reflexivity. Qed.

Definition ek_at (ek : ekind) (s : pst) : Prop :=
  match ek with
  | EElement => exists c r, s_rest s = c :: r /\ is_xmq_text_name c = true
  | EDoctype => exists r, s_rest s = cBANG :: r
  | EPi => exists r, s_rest s = cQM :: r
  end.

Lemma element_head_good ek s : ek_at ek s -> good s (POk (element_head ek s)).
Proof.
  intros A. unfold element_head. destruct ek; cbn in A.
  - destruct (eat_name_moved s) as (t & M & H & _). rewrite (between_moved _ _ _ M). now apply element_name_good.
  - destruct A as (r & R).
    pose proof (moved_step cBANG s (rest_peek _ _ _ _ R eq_refl) ltac:(discriminate)) as M1.
    destruct (eat_name_moved (step cBANG s)) as (t & M & H & _).
    pose proof (moved_trans _ _ _ _ _ M1 M) as M2. eapply ok_moved; [exact M2| |];
      destruct (next_is_equal _ _); try reflexivity; discriminate.
  - destruct A as (r & R).
    pose proof (moved_step cQM s (rest_peek _ _ _ _ R eq_refl) ltac:(discriminate)) as M1.
    destruct (eat_name_moved (step cQM s)) as (t & M & H & _).
    pose proof (moved_trans _ _ _ _ _ M1 M) as M2. eapply ok_moved; [exact M2| |];
      destruct (next_is_equal _ _); try reflexivity; discriminate.
Qed.

Lemma element_head_progress ek s : okst s -> ek_at ek s -> (length (s_rest (element_head ek s)) < length (s_rest s))%nat.
Proof.
  intros O A. destruct ek; cbn in A.
  - destruct A as (c & r & R & H). unfold element_head. rewrite emit_element_rest. eapply name_progress; eauto.
  - destruct A as (r & R). unfold element_head, eat_marked_name. cbn [emit s_rest].
    destruct (eat_name_moved (step cBANG s)) as (t & M & _ & _).
    pose proof (moved_step cBANG s (rest_peek _ _ _ _ R eq_refl) ltac:(discriminate)) as M1.
    pose proof (moved_len _ _ _ (ok_nul _ O) (moved_trans _ _ _ _ _ M1 M)) as E. cbn [length app] in E. lia.
  - destruct A as (r & R). unfold element_head, eat_marked_name. cbn [emit s_rest].
    destruct (eat_name_moved (step cQM s)) as (t & M & _ & _).
    pose proof (moved_step cQM s (rest_peek _ _ _ _ R eq_refl) ltac:(discriminate)) as M1.
    pose proof (moved_len _ _ _ (ok_nul _ O) (moved_trans _ _ _ _ _ M1 M)) as E. cbn [length app] in E. lia.
Qed.

Lemma element_tail_good fuel body s : (forall s, good s (body s)) -> good s (element_tail fuel body s).
Proof.
  intros Hb. unfold element_tail. apply good_bind; [apply skip_space_good|]. clear -Hb. intros s3.
  apply good_bind.
  - destruct (peek_is cLP s3) eqn:E; [|apply good_self].
    eapply good_pre_ok; [apply good_marks, set_attr_marks|].
    apply (bracket_good Kapar_left cLP Kapar_right cRP E_ATTRIBUTES_NOT_CLOSED (attributes fuel)); auto; try discriminate; try reflexivity.
    + unfold opens. auto.
    + intros s' K. unfold error_mark. cbn. unfold keeps, s_marks in K. cbn in K.
      inversion K as [|? ? ? ? _ K2]; subst. inversion K2 as [|? ? ? ? K3 _]; subst. apply K3. discriminate.
    + apply attributes_good.
  - clear s3. intros s4. apply good_bind; [apply skip_space_good|]. clear s4. intros s5.
    destruct (peek_is cEQ s5) eqn:E1.
    + eapply good_pre_ok; [apply good_marks, set_equals_marks|].
      eapply good_pre_ok; [now apply single_equals_good|apply parse_value_good].
    + destruct (peek_is cLB s5) eqn:E2; [|apply good_self].
      eapply good_pre_ok; [apply good_marks, set_body_marks|].
      apply (bracket_good Kbrace_left cLB Kbrace_right cRB E_BODY_NOT_CLOSED body); auto; try discriminate; try reflexivity.
      * unfold opens. auto.
      * intros s' K. unfold error_mark. cbn. unfold keeps, s_marks in K. cbn in K.
        inversion K as [|? ? ? ? K3 _]; subst. apply K3. discriminate.
Qed.

Definition body_ok (n : nat) (f f' : nat) (b b' : pst -> pout) : Prop :=
  forall s, okst s -> (length (s_rest s) < n)%nat -> term s (b s) /\ sim (b s) (b' s).

Lemma element_tail_term n f f' body body' s : (forall s, good s (body s)) ->
  body_ok n f f' body body' -> okst s -> (length (s_rest s) <= n)%nat -> (n <= f)%nat -> (n <= f')%nat ->
  term s (element_tail f body s) /\ sim (element_tail f body s) (element_tail f' body' s).
Proof.
  intros Hg Hb O L Hf Hf'.
  assert (K5 : forall s5, okst s5 -> (length (s_rest s5) <= n)%nat ->
    let V f (body : pst -> pout) := (if peek_is cEQ s5 then
      parse_value f LElem (single Kequals cEQ (set_equals (Some (here s5)) s5))
     else if peek_is cLB s5 then
      s <- body (single Kbrace_left cLB (set_body (Some (here s5)) s5)) ;
      s <- skip_space s ;
      if negb (peek_is cRB s) then PErr E_BODY_NOT_CLOSED s
      else POk (single Kbrace_right cRB s)
     else POk s5) in
    term s5 (V f body) /\ sim (V f body) (V f' body')).
  { intros s5 O5 L5. cbn zeta. destruct (peek_is cEQ s5) eqn:P.
    - destruct (marks_okst _ _ (set_equals_marks s5) O5) as (O6 & R6 & T6).
      set (s6 := set_equals _ s5) in *.
      destruct (single_okst Kequals cEQ s6 O6) as (O7 & L7 & E7); [now rewrite (peek_same _ s5)|discriminate|reflexivity|].
      rewrite R6 in L7.
      destruct (parse_value_term LElem f (single Kequals cEQ s6) O7) as (H1 & H2); [lia|].
      split; [|apply H2; lia]. intros s' E. eapply stuck_at_pre; [|apply H1; exact E]. rewrite E7, T6. reflexivity.
    - destruct (peek_is cLB s5) eqn:P2; [|split; [apply term_ok|apply sim_refl]].
      destruct (marks_okst _ _ (set_body_marks s5) O5) as (O6 & R6 & T6).
      set (s6 := set_body _ s5) in *.
      destruct (single_okst Kbrace_left cLB s6 O6) as (O7 & L7 & E7); [now rewrite (peek_same _ s5)|discriminate|reflexivity|].
      rewrite R6 in L7. destruct (Hb (single Kbrace_left cLB s6) O7) as (H1 & H2); [lia|].
      split; [|now apply sim_close].
      intros s' E. eapply stuck_at_pre; [rewrite E7, T6; reflexivity|]. apply H1.
      destruct (body _); cbn in E; try discriminate; auto. exfalso. eapply close_not_nofuel; eauto. }
  assert (K4 : forall s4, okst s4 -> (length (s_rest s4) <= n)%nat ->
    let W f body := (s5 <- skip_space s4 ;
       if peek_is cEQ s5 then
      parse_value f LElem (single Kequals cEQ (set_equals (Some (here s5)) s5))
     else if peek_is cLB s5 then
      s <- body (single Kbrace_left cLB (set_body (Some (here s5)) s5)) ;
      s <- skip_space s ;
      if negb (peek_is cRB s) then PErr E_BODY_NOT_CLOSED s
      else POk (single Kbrace_right cRB s)
     else POk s5) in
    term s4 (W f body) /\ sim (W f body) (W f' body')).
  { intros s4 O4 L4. cbn zeta. split.
    - apply term_bind; auto using skip_space_good.
      + apply term_not. intros. apply skip_space_not_nofuel.
      + intros s5 _ (O5 & L5 & _). apply K5; auto. lia.
    - apply sim_bind; [apply sim_refl|]. intros s5 E.
      assert (G := skip_space_good s4). rewrite E in G. apply good_later in G; auto. destruct G as (O5 & L5 & _). apply K5; auto. lia. }
  assert (K3 : forall s3, okst s3 -> (length (s_rest s3) <= n)%nat ->
    let A f := (if peek_is cLP s3 then
           s <- attributes f (single Kapar_left cLP (set_attr (Some (here s3)) s3)) ;
           s <- skip_space s ;
           if negb (peek_is cRP s) then PErr E_ATTRIBUTES_NOT_CLOSED s
           else POk (single Kapar_right cRP s)
         else POk s3) in
    good s3 (A f) /\ term s3 (A f) /\ sim (A f) (A f')).
  { intros s3 O3 L3. cbn zeta. destruct (peek_is cLP s3) eqn:P; [|split; [apply good_self|split; [apply term_ok|apply sim_refl]]].
    split.
    { eapply good_pre_ok; [apply good_marks, set_attr_marks|].
      apply (bracket_good Kapar_left cLP Kapar_right cRP E_ATTRIBUTES_NOT_CLOSED (attributes f)); auto; try discriminate; try reflexivity.
      + unfold opens. auto.
      + intros s' K. unfold error_mark. cbn. unfold keeps, s_marks in K. cbn in K.
        inversion K as [|? ? ? ? _ K2]; subst. inversion K2 as [|? ? ? ? K3 _]; subst. apply K3. discriminate.
      + apply attributes_good. }
    destruct (marks_okst _ _ (set_attr_marks s3) O3) as (O6 & R6 & T6).
    set (s6 := set_attr _ s3) in *.
    destruct (single_okst Kapar_left cLP s6 O6) as (O7 & L7 & E7); [now rewrite (peek_same _ s3)|discriminate|reflexivity|].
    rewrite R6 in L7. destruct (attributes_term f (single Kapar_left cLP s6) O7) as (H1 & H2); [lia|].
    split; [|apply sim_close, H2; lia].
    intros s' E. eapply stuck_at_pre; [rewrite T6, app_nil_r; reflexivity|]. revert s' E.
    eapply (term_close stuck_attr Kapar_left); eauto. }
  unfold element_tail. split.
  - apply term_bind; auto using skip_space_good; [apply term_not; intros; apply skip_space_not_nofuel|].
    intros s3 _ (O3 & L3 & _). destruct (K3 s3 O3) as (G3 & T3 & S3); [lia|].
    apply term_bind; auto. intros s4 _ (O4 & L4 & _). apply K4; auto. lia.
  - apply sim_bind; [apply sim_refl|]. intros s3 E.
    assert (G := skip_space_good s). rewrite E in G. apply good_later in G; auto. destruct G as (O3 & L3 & _).
    destruct (K3 s3 O3) as (G3 & T3 & S3); [lia|].
    apply sim_bind; auto. intros s4 E4. rewrite E4 in G3. apply good_later in G3; auto. destruct G3 as (O4 & L4 & _).
    apply K4; auto. lia.
Qed.

Lemma element_start_name c : is_xmq_element_start c = true -> is_xmq_text_name c = true.
Proof.
  unfold is_xmq_element_start, is_xmq_text_name. rewrite !orb_true_iff. tauto.
Qed.
Lemma doctype_head c r : is_doctype_start (c :: r) = true -> c = cBANG.
Proof.
  unfold is_doctype_start. intros D. apply andb_true_iff in D as [D _]. cbn in D. apply andb_true_iff in D as [D _].
  destruct c as [|q]; [discriminate|]. apply Pos.eqb_eq in D. now subst.
Qed.
Lemma pi_head c r : is_pi_start (c :: r) = true -> c = cQM.
Proof. cbn. destruct r; [discriminate|]. now intros ?%N.eqb_eq. Qed.

Lemma parse_xmq_term : forall f s, okst s -> (length (s_rest s) < f)%nat ->
  term s (parse_xmq f s) /\
  forall f', (length (s_rest s) < f')%nat -> sim (parse_xmq f s) (parse_xmq f' s).
Proof.
  induction f as [|f IH]; intros s O L; [lia|].
  destruct (s_rest s) as [|c r] eqn:R.
  { split.
    - cbn [parse_xmq]. rewrite R. intros s' E. discriminate.
    - intros f' _. destruct f'; cbn [parse_xmq]; rewrite R; apply sim_refl. }
  assert (Lf : forall f', (length (c :: r) < f')%nat -> exists f2, f' = S f2 /\ (length r < f2)%nat).
  { intros f' H. destruct f'; [lia|]. cbn in H. exists f'. split; auto; lia. }
  cbn [length] in L.
  (* a step that makes progress and goes on *)
  assert (Go : forall (g : nat -> pout), good s (g f) -> term s (g f) -> 
     (forall f2, (length r < f2)%nat -> sim (g f) (g f2)) ->
     (forall s', g f = POk s' -> (length (s_rest s') < length (s_rest s))%nat) ->
     term s (s' <- g f ; parse_xmq f s') /\
     forall f2, (length r < f2)%nat -> sim (s' <- g f ; parse_xmq f s') (s' <- g f2 ; parse_xmq f2 s')).
  { intros g Gg Tg Sg Pg. rewrite R in Pg. cbn [length] in Pg. split.
    - apply term_bind; auto. intros s' E La. apply (IH s' (later_ok _ _ La)). apply Pg in E. lia.
    - intros f2 Hf2. apply sim_bind; auto. intros s' E. pose proof (Pg s' E). rewrite E in Gg.
      apply good_later in Gg; auto. apply (IH s' (later_ok _ _ Gg)); lia. }
  assert (Ge : forall ek, ek_at ek s ->
     term s (s' <- parse_element (S f) (parse_xmq f) ek s ; parse_xmq f s') /\
     forall f2, (length r < f2)%nat -> sim (s' <- parse_element (S f) (parse_xmq f) ek s ; parse_xmq f s')
       (s' <- parse_element (S f2) (parse_xmq f2) ek s ; parse_xmq f2 s')).
  { intros ek Ek. pose proof (element_head_good ek s Ek) as Gh. pose proof (good_later _ _ Gh O) as Lh.
    pose proof (element_head_progress ek s O Ek) as Ph. rewrite R in Ph. cbn [length] in Ph.
    apply (Go (fun f => parse_element (S f) (parse_xmq f) ek s)).
    - rewrite parse_element_eq. eapply good_pre_ok; eauto. apply element_tail_good. apply parse_xmq_good.
    - rewrite parse_element_eq. eapply term_later; eauto.
      apply (element_tail_term (length r) (S f) (S f) (parse_xmq f) (parse_xmq f)); auto using parse_xmq_good; try lia.
      + intros s1 O1 L1. split; [|apply sim_refl]. apply IH; auto. lia.
      + eapply later_ok; eauto.
    - intros f2 Hf2. rewrite !parse_element_eq.
      apply (element_tail_term (length r) (S f) (S f2) (parse_xmq f) (parse_xmq f2)); auto using parse_xmq_good; try lia.
      + intros s1 O1 L1. destruct (IH s1 O1) as (H1 & H2); [lia|]. split; auto. apply H2. lia.
      + eapply later_ok; eauto.
    - intros s' E. rewrite parse_element_eq in E.
      pose proof (element_tail_good (S f) (parse_xmq f) (element_head ek s) (parse_xmq_good f)) as G. rewrite E in G.
      apply good_later in G; [|eapply later_ok; eauto]. destruct G as (_ & L2 & _). rewrite R. cbn [length]. lia. }
  cbn [parse_xmq]. rewrite R.
  assert (Ef : forall f', (length (c :: r) < f')%nat -> exists f2, f' = S f2 /\ (length r < f2)%nat) by exact Lf.
  destruct (is_xmq_token_whitespace c) eqn:W.
  { destruct (token_ws_xml c W) as [W1 W2].
    assert (P := whitespace_progress s c r R W1 W2). rewrite R in P. cbn [length] in P.
    pose proof (whitespace_later s O) as La.
    destruct (IH (parse_whitespace s) (later_ok _ _ La)) as (H1 & H2); [lia|].
    split; [eapply term_later; eauto|].
    intros f' Hf. destruct (Lf f' Hf) as (f2 & -> & Hf2). cbn [parse_xmq]. rewrite R, W. apply H2. lia. }
  destruct (c =? cQ) eqn:Eq.
  { assert (P : peek_is cQ s = true) by (eapply rest_peek; eauto; now apply N.eqb_eq).
    destruct (Go (fun _ => parse_quote LXmq s)) as (H1 & H2); auto using parse_quote_good.
    - apply term_not. intros. apply quote_not_nofuel.
    - intros. apply sim_refl.
    - intros s'. now apply quote_progress.
    - split; auto. intros f' Hf. destruct (Lf f' Hf) as (f2 & -> & Hf2). cbn [parse_xmq]. rewrite R, W, Eq. now apply H2. }
  destruct (c =? cAMP) eqn:Ea.
  { assert (P : peek_is cAMP s = true) by (eapply rest_peek; eauto; now apply N.eqb_eq).
    destruct (Go (fun _ => parse_entity LXmq s)) as (H1 & H2); auto using parse_entity_good.
    - apply term_not. intros. now apply entity_not_nofuel.
    - intros. apply sim_refl.
    - intros s'. now apply entity_progress.
    - split; auto. intros f' Hf. destruct (Lf f' Hf) as (f2 & -> & Hf2). cbn [parse_xmq]. rewrite R, W, Eq, Ea. now apply H2. }
  destruct (is_comment_start c _) eqn:C.
  { assert (exists d r', r = d :: r' /\ c = cSLASH /\ (d = cSLASH \/ d = cSTAR)) as (d & r' & -> & -> & Hd).
    { unfold is_comment_start in C. apply andb_true_iff in C as [C1 C2]. rewrite C1 in C2. cbn [orb] in C2.
      apply N.eqb_eq in C1. subst c. destruct r as [|d r]; [discriminate|]. cbn [hd] in C2.
      apply orb_true_iff in C2. rewrite !N.eqb_eq in C2. eauto 10. }
    destruct (parse_comment_total (S f) s r' d O R Hd) as (T1 & T2 & T3); [rewrite R; cbn [length] in *; lia|].
    destruct (Go (fun f => parse_comment (S f) s)) as (H1 & H2); auto.
    - eapply parse_comment_good; eauto.
    - now apply term_not.
    - intros f2 Hf2. left. symmetry. apply T2. rewrite R. cbn [length] in *. lia.
    - split; auto. intros f' Hf. destruct (Lf f' Hf) as (f2 & -> & Hf2). cbn [parse_xmq]. rewrite R, W, Eq, Ea, C. now apply H2. }
  destruct (is_xmq_element_start c) eqn:Es.
  { destruct (Ge EElement) as (H1 & H2); [cbn; eauto using element_start_name|]. split; auto.
    intros f' Hf. destruct (Lf f' Hf) as (f2 & -> & Hf2). cbn [parse_xmq]. rewrite R, W, Eq, Ea, C, Es. now apply H2. }
  destruct (is_doctype_start (c :: r)) eqn:D.
  { destruct (Ge EDoctype) as (H1 & H2); [apply doctype_head in D as ->; cbn; eauto|]. split; auto.
    intros f' Hf. destruct (Lf f' Hf) as (f2 & -> & Hf2). cbn [parse_xmq]. rewrite R, W, Eq, Ea, C, Es, D. now apply H2. }
  destruct (is_pi_start (c :: r)) eqn:Pi.
  { destruct (Ge EPi) as (H1 & H2); [apply pi_head in Pi as ->; cbn; eauto|]. split; auto.
    intros f' Hf. destruct (Lf f' Hf) as (f2 & -> & Hf2). cbn [parse_xmq]. rewrite R, W, Eq, Ea, C, Es, D, Pi. now apply H2. }
  split.
  - apply term_not. intros s'. destruct (c =? cRB); [discriminate|]. destruct (possibly_lost_content s) as [[|]|]; discriminate.
  - intros f' Hf. destruct (Lf f' Hf) as (f2 & -> & Hf2). cbn [parse_xmq]. rewrite R, W, Eq, Ea, C, Es, D, Pi. apply sim_refl.
Qed.
