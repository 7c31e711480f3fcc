(** Invariants of the parser model. *)
From Coq Require Import NArith List Bool Arith Lia.
From Verif Require Import Bytes BytesFacts Parser ParserSpec.
Import ListNotations.
Local Open Scope N_scope.
Local Open Scope pout_scope.

(* ---------- places ---------- *)
Lemma filter_snoc {A} (f : A -> bool) b c : filter f (b ++ [c]) = filter f b ++ (if f c then [c] else []).
Proof. rewrite filter_app. cbn. now destruct (f c). Qed.

Lemma last_line_nonl b : existsb (fun d => d =? cNL) b = false -> last_line b = b.
Proof. destruct b as [|c r]; auto. intros H. cbn [last_line]. now rewrite H. Qed.

Lemma last_line_snoc b c : last_line (b ++ [c]) = if c =? cNL then [] else last_line b ++ [c].
Proof.
  induction b as [|x b IH].
  - cbn. destruct (c =? cNL); reflexivity.
  - cbn [app]. cbn [last_line]. rewrite IH.
    cbn [existsb]. rewrite existsb_app. cbn [existsb]. rewrite orb_false_r.
    destruct (c =? cNL) eqn:E.
    + now rewrite !orb_true_r.
    + rewrite orb_false_r. destruct ((x =? cNL) || existsb (fun d => d =? cNL) b); auto.
Qed.

Definition pos_after (b : bytes) : pos := (line_after b, col_after b).

Lemma land_nl : N.land cNL 0xc0 =? 0x80 = false.
Proof. reflexivity. Qed.

Lemma pos_snoc b c : pos_after (b ++ [c]) = inc c (pos_after b).
Proof.
  unfold pos_after, inc, line_after, col_after. rewrite filter_snoc, last_line_snoc.
  destruct (N.eqb_spec c cNL) as [->|Hn].
  - rewrite land_nl. rewrite app_length. cbn [length fst filter]. f_equal; lia.
  - rewrite filter_snoc. unfold starts_char at 2. cbn [fst snd].
    destruct (N.land c 0xc0 =? 0x80); cbn [negb]; rewrite ?app_length; cbn [length]; f_equal; lia.
Qed.

Fixpoint incs (t : bytes) (p : pos) : pos := match t with [] => p | c :: t' => incs t' (inc c p) end.

Lemma pos_app b t : pos_after (b ++ t) = incs t (pos_after b).
Proof.
  revert b. induction t as [|c t IH]; intros b; cbn [incs]; [now rewrite app_nil_r|].
  rewrite <- pos_snoc, <- IH. now rewrite <- app_assoc.
Qed.

Lemma incs_app t u p : incs (t ++ u) p = incs u (incs t p).
Proof. revert p; induction t; intros; cbn; auto. Qed.

(* ---------- cursors ---------- *)
(** k' is k after eating the text t. *)
Definition eaten (t : bytes) (k k' : cur) : Prop :=
  k_pre k' = rev t ++ k_pre k /\ k_rest k = t ++ k_rest k' /\ k_pos k' = incs t (k_pos k).

Lemma eaten_nil k : eaten [] k k.
Proof. repeat split. Qed.
Lemma eaten_cons c t pre r p k' : eaten t (Cur (c :: pre) r (inc c p)) k' -> eaten (c :: t) (Cur pre (c :: r) p) k'.
Proof.
  intros (H1 & H2 & H3). cbn in *. repeat split; cbn; auto.
  - now rewrite H1, <- app_assoc.
  - now rewrite H2.
Qed.
Lemma eaten_app t u k k' k'' : eaten t k k' -> eaten u k' k'' -> eaten (t ++ u) k k''.
Proof.
  intros (H1 & H2 & H3) (G1 & G2 & G3). repeat split.
  - now rewrite G1, H1, rev_app_distr, app_assoc.
  - now rewrite H2, G2, app_assoc.
  - now rewrite G3, H3, incs_app.
Qed.

Lemma cur_eta k : Cur (k_pre k) (k_rest k) (k_pos k) = k.
Proof. now destruct k. Qed.

Lemma count_ws_2 c r : count_ws (c :: r) = 2%nat -> exists d r', r = d :: r' /\ c = 0xc2 /\ d = 0xa0.
Proof.
  cbn. destruct (is_xml_whitespace c); [discriminate|]. destruct r as [|d r]; [discriminate|].
  destruct ((c =? 0xc2) && (d =? 0xa0)) eqn:E.
  - apply andb_true_iff in E as [E1 E2]. apply N.eqb_eq in E1, E2. eauto.
  - destruct ((c =? 0xe2) && (d =? 0x80)); [|discriminate]. destruct r; [discriminate|].
    destruct (_ || _); discriminate.
Qed.
Lemma count_ws_3 c r n : count_ws (c :: r) = S (S (S n)) -> exists d e r', r = d :: e :: r' /\ c = 0xe2 /\ d = 0x80
   /\ (e = 0x80 \/ e = 0x81 \/ e = 0x82 \/ e = 0x83) /\ n = 0%nat.
Proof.
  cbn. destruct (is_xml_whitespace c); [discriminate|]. destruct r as [|d r]; [discriminate|].
  destruct ((c =? 0xc2) && (d =? 0xa0)); [discriminate|].
  destruct ((c =? 0xe2) && (d =? 0x80)) eqn:E; [|discriminate]. destruct r as [|e r]; [discriminate|].
  apply andb_true_iff in E as [E1 E2]. apply N.eqb_eq in E1, E2.
  destruct (_ || _) eqn:E; [|discriminate]. intros [= <-].
  exists d, e, r. repeat split; auto.
  rewrite !orb_true_iff, !N.eqb_eq in E. tauto.
Qed.
Lemma count_ws_1 c r : count_ws (c :: r) = 1%nat <-> is_xml_whitespace c = true.
Proof.
  cbn. destruct (is_xml_whitespace c); [tauto|]. split; [|discriminate].
  destruct r as [|d r]; [discriminate|].
  destruct ((c =? 0xc2) && (d =? 0xa0)); [discriminate|].
  destruct ((c =? 0xe2) && (d =? 0x80)); [|discriminate]. destruct r as [|e r]; [discriminate|].
  destruct (_ || _); discriminate.
Qed.

(** Texts of whitespace tokens. *)
Lemma ws_loop_eaten n : forall pre rest p, (length rest <= n)%nat ->
  exists t, eaten t (Cur pre rest p) (ws_loop pre rest p) /\ ws_text t.
Proof.
  induction n as [|n IH]; intros pre rest p Hn.
  - destruct rest; [|cbn in Hn; lia]. exists []. split; [apply eaten_nil|constructor].
  - destruct rest as [|c r]; [exists []; split; [apply eaten_nil|constructor]|].
    cbn [ws_loop]. destruct (count_ws (c :: r)) as [|[|[|k]]] eqn:E.
    + exists []. split; [apply eaten_nil|constructor].
    + destruct (N.eqb_spec c cTAB); [exists []; split; [apply eaten_nil|constructor]|].
      destruct (IH (c :: pre) r (inc c p)) as (t & H1 & H2); [cbn in Hn; lia|].
      exists (c :: t). split; [now apply eaten_cons|]. constructor; auto.
      apply count_ws_1 in E. unfold is_xml_whitespace in E. unfold is_xmq_token_whitespace.
      rewrite !orb_true_iff, !N.eqb_eq in *. tauto.
    + destruct (count_ws_2 _ _ E) as (d & r' & -> & -> & ->).
      destruct (IH (0xa0 :: 0xc2 :: pre) r' (inc 0xc2 p)) as (t & H1 & H2); [cbn in Hn; lia|].
      exists (0xc2 :: 0xa0 :: t). split; [|now constructor]. apply eaten_cons, eaten_cons. exact H1.
    + destruct (count_ws_3 _ _ _ E) as (d & e & r' & -> & -> & -> & He & _).
      destruct (IH (e :: 0x80 :: 0xe2 :: pre) r' (inc 0xe2 p)) as (t & H1 & H2); [cbn in Hn; lia|].
      exists (0xe2 :: 0x80 :: e :: t). split; [|now constructor]. apply eaten_cons, eaten_cons, eaten_cons.
      replace (inc e _) with (inc 0xe2 p); [exact H1|].
      destruct He as [-> | [-> | [-> | ->]]]; reflexivity.
Qed.

Lemma eat_n_eaten c n : forall k u, k_rest k = rep c n ++ u -> exists t, t = rep c n /\ eaten t k (eat_n c n k).
Proof.
  induction n as [|n IH]; intros [pre rest p] u H; cbn in *.
  - exists []. split; auto. apply eaten_nil.
  - subst rest. destruct (IH (Cur (c :: pre) (rep c n ++ u) (inc c p)) u) as (t & -> & Ht); auto.
    exists (c :: rep c n). split; auto. now apply eaten_cons.
Qed.

Lemma count_quotes_split r : exists u, r = rep cQ (count_quotes r) ++ u /\ hd_error u <> Some cQ.
Proof.
  induction r as [|c r IH]; [exists []; split; auto; discriminate|]. cbn.
  destruct (N.eqb_spec c cQ) as [->|H].
  - destruct IH as (u & H1 & H2). exists u. split; auto. cbn. f_equal. exact H1.
  - exists (c :: r). split; auto. cbn. congruence.
Qed.

Lemma quote_loop_eaten depth : forall rest skip pre p k, (skip <= count_quotes rest)%nat ->
  quote_loop depth skip pre rest p = inr k -> exists t, eaten t (Cur pre rest p) k.
Proof.
  induction rest as [|c r IH]; intros skip pre p k Hs H; [discriminate|]. cbn [quote_loop] in H.
  destruct skip as [|skip].
  - destruct (N.eqb_spec c cQ) as [->|Hc]; cbn [negb] in H.
    + destruct (Nat.ltb depth _); [discriminate|]. destruct (Nat.ltb _ depth) eqn:E.
      * apply IH in H; [|cbn; lia]. destruct H as (t & H). exists (cQ :: t). now apply eaten_cons.
      * injection H as <-. destruct (count_quotes_split (cQ :: r)) as (u & Hu & _).
        destruct (eat_n_eaten cQ (count_quotes (cQ :: r)) (Cur pre (cQ :: r) p) u) as (t & _ & Ht); eauto.
    + apply IH in H; [|lia]. destruct H as (t & H). exists (c :: t). now apply eaten_cons.
  - cbn in Hs. destruct (N.eqb_spec c cQ) as [->|Hc]; [|lia].
    apply IH in H; [|lia]. destruct H as (t & H). exists (cQ :: t). now apply eaten_cons.
Qed.

Lemma name_loop_eaten : forall rest pre p, exists t, eaten t (Cur pre rest p) (name_loop pre rest p)
  /\ forallb is_xmq_text_name t = true
  /\ match k_rest (name_loop pre rest p) with [] => True | c :: _ => is_xmq_text_name c = false end.
Proof.
  induction rest as [|c r IH]; intros pre p; cbn [name_loop].
  - exists []. repeat split.
  - destruct (is_xmq_text_name c) eqn:E.
    + destruct (IH (c :: pre) (inc c p)) as (t & H1 & H2 & H3). exists (c :: t). split; [now apply eaten_cons|].
      split; auto. cbn. now rewrite E.
    + exists []. repeat split. cbn. auto.
Qed.

Lemma value_loop_eaten : forall rest pre p, exists t, eaten t (Cur pre rest p) (value_loop pre rest p).
Proof.
  induction rest as [|c r IH]; intros pre p; cbn [value_loop].
  - exists []. repeat split.
  - destruct (is_safe_value_char (c :: r)) eqn:E.
    + destruct (IH (c :: pre) (inc c p)) as (t & H1). exists (c :: t). now apply eaten_cons.
    + exists []. repeat split.
Qed.

Lemma entity_loop_eaten : forall rest pre p c e k c' e',
  entity_loop pre rest p c e = (k, c', e') ->
  exists t, eaten t (Cur pre rest p) k /\ forallb is_xmq_text_name t = true
    /\ match k_rest k with [] => c' = last t c | d :: _ => c' = d /\ is_xmq_text_name d = false end.
Proof.
  induction rest as [|d r IH]; intros pre p c e k c' e' H; cbn [entity_loop] in H.
  - injection H as <- <- <-. exists []. repeat split.
  - destruct (is_xmq_text_name d) eqn:E; cbn [negb] in H.
    + apply IH in H. destruct H as (t & H1 & H2 & H3). exists (d :: t). split; [now apply eaten_cons|].
      split; [cbn; now rewrite E|]. destruct (k_rest k); auto. rewrite H3. destruct t; auto.
      cbn. clear. revert n. induction t; intros; cbn; auto.
    + injection H as <- <- <-. exists []. repeat split. auto.
Qed.

Lemma eol_loop_eaten : forall rest pre p, exists t, eaten t (Cur pre rest p) (eol_loop pre rest p).
Proof.
  induction rest as [|c r IH]; intros pre p; cbn [eol_loop].
  - exists []. repeat split.
  - destruct (c =? cNL).
    + exists [c]. repeat split.
    + destruct (IH (c :: pre) (inc c p)) as (t & H1). exists (c :: t). now apply eaten_cons.
Qed.

Lemma count_slashes_split r aft n b : count_slashes r aft = Some (n, b) ->
  exists u, r = rep cSLASH n ++ u
   /\ match u ++ aft with c :: _ => b = (c =? cSTAR) /\ (u <> [] -> c <> cSLASH) | [] => False end.
Proof.
  revert n b. induction r as [|c r IH]; intros n b; cbn.
  - destruct aft as [|c aft]; [discriminate|]. intros [= <- <-]. exists []. split; auto. split; auto.
  - destruct (N.eqb_spec c cSLASH) as [->|Hc].
    + destruct (count_slashes r aft) as [[m b']|]; [|discriminate]. intros [= <- <-].
      destruct (IH _ _ eq_refl) as (u & H1 & H2). exists u. split; auto. cbn. f_equal. exact H1.
    + intros [= <- <-]. exists (c :: r). split; auto. cbn. auto.
Qed.

Lemma close_loop_eaten num : forall rest c pre aft p k more,
  close_loop num c pre rest aft p = Closed k more -> exists t, eaten t (Cur pre rest p) k
    /\ (num <= length t)%nat
    /\ match k_rest k ++ aft with d :: _ => more = (d =? cSTAR) | [] => False end.
Proof.
  induction rest as [|d r IH]; intros c pre aft p k more H; [discriminate|]. cbn [close_loop] in H.
  destruct (negb (c =? cSTAR) || negb (d =? cSLASH)).
  - apply IH in H. destruct H as (t & H & L & M). exists (d :: t). split; [now apply eaten_cons|]. split; auto. cbn; lia.
  - destruct (count_slashes (d :: r) aft) as [[n b]|] eqn:E; [|discriminate].
    destruct (Nat.ltb_spec n num).
    + apply IH in H. destruct H as (t & H & L & M). exists (d :: t). split; [now apply eaten_cons|]. split; auto. cbn; lia.
    + destruct (Nat.ltb_spec num n); [discriminate|]. injection H as <- <-.
      destruct (count_slashes_split _ _ _ _ E) as (u & Hu & Hm).
      destruct (eat_n_eaten cSLASH n (Cur pre (d :: r) p) u) as (t & Ht & He); auto.
      exists t. split; auto. split; [subst t; unfold rep; rewrite repeat_length; lia|].
      destruct He as (_ & He & _). cbn [k_rest] in He. rewrite Ht in He. apply (eq_trans (eq_sym Hu)), app_inv_head in He.
      rewrite <- He. destruct (u ++ aft); auto. tauto.
Qed.

(* ---------- balanced ---------- *)
Lemma bal_app A C : balanced A -> balanced C -> balanced (A ++ C).
Proof.
  intros H HC. induction H; cbn; auto.
  - now constructor.
  - rewrite <- app_assoc. cbn. now apply bal_nest.
Qed.
Lemma bal_one t : is_bracket (t_kind t) = false -> balanced [t].
Proof. intros; constructor; auto; constructor. Qed.
Lemma closable_bal A : balanced A -> closable A.
Proof. intros; exists []; now rewrite app_nil_r. Qed.
Lemma closable_app A C : balanced A -> closable C -> closable (A ++ C).
Proof. intros H (D & HD). exists D. rewrite <- app_assoc. now apply bal_app. Qed.
Lemma closable_open l A k : opens (t_kind l) k -> closable A -> closable (l :: A).
Proof.
  intros H (D & HD). exists (D ++ [Tok k 0 0 [] []]). cbn. rewrite app_assoc. apply bal_nest; auto. constructor.
Qed.

Lemma texts_app A C : texts (A ++ C) = texts A ++ texts C.
Proof. unfold texts. now rewrite map_app, concat_app. Qed.
Lemma texts_one t : texts [t] = t_text t.
Proof. unfold texts. cbn. now rewrite app_nil_r. Qed.

Lemma placed_snoc A t : placed A -> t_line t = line_after (texts A) -> t_col t = col_after (texts A) -> placed (A ++ [t]).
Proof.
  intros H Hl Hc before u after E.
  destruct after as [|v after] using rev_ind.
  - apply app_inj_tail in E as [-> ->]. auto.
  - clear IHafter. rewrite app_comm_cons, app_assoc in E. apply app_inj_tail in E as [E _]. apply (H before u after E).
Qed.

(* ---------- states ---------- *)
Definition nul_after (s : pst) : Prop := hd_error (s_aft s) = Some 0.
Definition s_pos (s : pst) : pos := (s_line s, s_col s).
Definition s_marks (s : pst) : list (option mark) := [s_body s; s_attr s; s_quote s; s_equals s; s_susp s].

Definition marks_in (s : pst) : Prop := forall m, In (Some m) (s_marks s) -> mark_in (rev (s_pre s)) m.

Record inv (s : pst) : Prop := Inv {
  inv_texts : texts (tokens s) = rev (s_pre s);
  inv_pos : s_pos s = pos_after (rev (s_pre s));
  inv_placed : placed (tokens s);
  inv_marks : marks_in s;
  inv_btext : Forall bracket_text (tokens s) }.

Definition keeps (s s' : pst) : Prop :=
  Forall2 (fun a b => a <> None -> b <> None) (s_marks s) (s_marks s').

Lemma keeps_refl s : keeps s s.
Proof. unfold keeps, s_marks. repeat constructor; auto. Qed.
Lemma keeps_trans s s' s'' : keeps s s' -> keeps s' s'' -> keeps s s''.
Proof.
  unfold keeps, s_marks. intros H G.
  repeat match goal with H : Forall2 _ (_ :: _) (_ :: _) |- _ => inversion H; clear H; subst end.
  repeat constructor; auto.
Qed.

Record adv (T : list token) (s s' : pst) : Prop := Adv {
  adv_toks : tokens s' = tokens s ++ T;
  adv_mem : s_rest s ++ s_aft s = texts T ++ s_rest s' ++ s_aft s';
  adv_nul : nul_after s -> s_aft s' = s_aft s;
  adv_keeps : keeps s s' }.

Lemma adv_refl s : adv [] s s.
Proof. constructor; auto using keeps_refl. now rewrite app_nil_r. Qed.
Lemma adv_trans T U s s' s'' : adv T s s' -> adv U s' s'' -> adv (T ++ U) s s''.
Proof.
  intros [H1 H2 H3 H4] [G1 G2 G3 G4]. constructor.
  - now rewrite G1, H1, app_assoc.
  - now rewrite H2, G2, texts_app, app_assoc.
  - intros N. rewrite G3; auto. unfold nul_after in *. now rewrite H3.
  - eauto using keeps_trans.
Qed.

(** s' is s with i moved over the text t, nothing emitted yet. *)
Record moved (t : bytes) (s s' : pst) : Prop := Moved {
  mv_toks : s_toks s' = s_toks s;
  mv_pre : s_pre s' = rev t ++ s_pre s;
  mv_mem : s_rest s ++ s_aft s = t ++ s_rest s' ++ s_aft s';
  mv_nul : nul_after s -> s_aft s' = s_aft s;
  mv_pos : s_pos s' = incs t (s_pos s);
  mv_marks : s_pos s = pos_after (rev (s_pre s)) -> marks_in s -> marks_in s';
  mv_keeps : keeps s s' }.

Lemma between_moved t s s' : moved t s s' -> between s s' = t.
Proof.
  intros H. unfold between. rewrite (mv_pre _ _ _ H), app_length, Nat.add_sub.
  rewrite firstn_app, Nat.sub_diag, firstn_O, app_nil_r, firstn_all. apply rev_involutive.
Qed.

Lemma mark_in_app b z m : mark_in b m -> mark_in (b ++ z) m.
Proof. intros (a & y & -> & H). exists a, (y ++ z). now rewrite app_assoc. Qed.

Lemma marks_in_same t s s' : s_marks s' = s_marks s -> s_pre s' = rev t ++ s_pre s -> marks_in s -> marks_in s'.
Proof.
  intros H1 H2 H m Hm. rewrite H1 in Hm. rewrite H2, rev_app_distr, rev_involutive. now apply mark_in_app, H.
Qed.

Lemma moved_set_cur t s k : eaten t (cur_of s) k -> moved t s (set_cur s k).
Proof.
  intros (H1 & H2 & H3). cbn in *. constructor; cbn; auto.
  - now rewrite H2, app_assoc.
  - unfold s_pos. cbn. rewrite <- H3. now destruct (k_pos k).
  - intros _. apply (marks_in_same t); auto.
  - exact (keeps_refl s).
Qed.

Lemma moved_refl s : moved [] s s.
Proof. constructor; auto using keeps_refl. Qed.

Lemma moved_trans t u s s' s'' : moved t s s' -> moved u s' s'' -> moved (t ++ u) s s''.
Proof.
  intros [H1 H2 H3 H4 H5 H6 H7] [G1 G2 G3 G4 G5 G6 G7]. constructor.
  - congruence.
  - now rewrite G2, H2, rev_app_distr, app_assoc.
  - now rewrite H3, G3, app_assoc.
  - intros N. rewrite G4; auto. unfold nul_after in *. now rewrite H4.
  - now rewrite G5, H5, incs_app.
  - intros P M. apply G6; auto. rewrite H5, H2, rev_app_distr, rev_involutive, pos_app. now rewrite P.
  - eauto using keeps_trans.
Qed.

Lemma step_marks c s : s_marks (step c s) = s_marks s.
Proof. unfold step. destruct (inc c _) as [l k]. destruct (s_rest s); [destruct (s_aft s)|]; reflexivity. Qed.

Lemma moved_step c s : peek_is c s = true -> c <> 0 -> moved [c] s (step c s).
Proof.
  unfold peek_is, peek. intros H Hc.
  assert (M : marks_in s -> s_pre (step c s) = rev [c] ++ s_pre s -> marks_in (step c s)).
  { intros Hm Hp. apply (marks_in_same [c] s); auto. apply step_marks. }
  assert (K : keeps s (step c s)) by (unfold keeps; rewrite step_marks; exact (keeps_refl s)).
  revert M. unfold step in *. destruct (inc c (s_line s, s_col s)) as [l k] eqn:E.
  destruct (s_rest s) as [|b r] eqn:Er; cbn in H.
  - destruct (s_aft s) as [|b a] eqn:Ea; cbn in H; [discriminate|]. apply N.eqb_eq in H. subst b.
    intros M. constructor; cbn; rewrite ?Er, ?Ea; auto.
    unfold nul_after. rewrite Ea. cbn. congruence.
  - apply N.eqb_eq in H. subst b. intros M. constructor; cbn; rewrite ?Er; auto.
Qed.

(** Emitting the eaten text keeps the invariant. *)
Lemma emit_tokens k l c t x s : tokens (emit k l c t x s) = tokens s ++ [Tok k l c t x].
Proof. reflexivity. Qed.

Lemma inv_emit_from k t s s' : moved t s s' -> (is_bracket k = false /\ k <> Kequals \/ bracket_text (Tok k 0 0 t [])) ->
  inv s -> inv (emit_from k s s') /\ adv [Tok k (s_line s) (s_col s) t []] s (emit_from k s s').
Proof.
  intros M Hb [I1 I2 I3 I4 I5]. pose proof (between_moved _ _ _ M) as E. unfold emit_from. rewrite E.
  assert (Ht : tokens s' = tokens s) by (unfold tokens; now rewrite (mv_toks _ _ _ M)).
  split.
  - constructor.
    + rewrite emit_tokens, texts_app, texts_one, Ht, I1. cbn. rewrite (mv_pre _ _ _ M), rev_app_distr, rev_involutive. reflexivity.
    + change (s_pos s' = pos_after (rev (s_pre s'))).
      rewrite (mv_pos _ _ _ M), (mv_pre _ _ _ M), rev_app_distr, rev_involutive, pos_app. now rewrite I2.
    + rewrite emit_tokens, Ht. unfold s_pos, pos_after in I2. injection I2 as P1 P2.
      apply placed_snoc; auto; rewrite I1; cbn; auto.
    + apply (mv_marks _ _ _ M I2) in I4. exact I4.
    + rewrite emit_tokens, Ht. apply Forall_app. split; auto. constructor; auto.
      destruct Hb as [[Hb He]|Hb]; [|exact Hb]. unfold bracket_text. cbn. destruct k; auto; try discriminate. congruence.
  - constructor.
    + rewrite emit_tokens. now rewrite Ht.
    + rewrite texts_one. cbn. apply (mv_mem _ _ _ M).
    + cbn. apply (mv_nul _ _ _ M).
    + exact (mv_keeps _ _ _ M).
Qed.

(* ---------- good outcomes ---------- *)
(** The reads before the buffer: an opening bracket or equals as the first
    byte. *)
Definition lost_start (c : N) : bool := (c =? cLB) || (c =? cLP) || (c =? cEQ).
Definition starts_lost (s : pst) : Prop :=
  s_pre s = [] /\ exists c r, s_rest s = c :: r /\ lost_start c = true.

Definition good (s : pst) (r : pout) : Prop := inv s ->
  match r with
  | POk s' => inv s' /\ exists T, adv T s s' /\ balanced T
  | PErr e s' => inv s' /\ (exists T, adv T s s' /\ closable T) /\ (e <> E_EXPECTED_CONTENT -> error_mark e s' <> None)
  | PNoFuel s' => inv s' /\ exists T, adv T s s' /\ closable T
  | PUB => nul_after s -> (2 <= length (s_aft s))%nat -> starts_lost s
  | PAbrt => nul_after s -> False
  end.

Lemma adv_nul_after T s s' : adv T s s' -> nul_after s -> nul_after s'.
Proof. intros H N. unfold nul_after. now rewrite (adv_nul _ _ _ H). Qed.

Lemma adv_starts_lost T s s' : inv s -> inv s' -> adv T s s' -> nul_after s -> starts_lost s' -> starts_lost s.
Proof.
  intros I I' A N (P & c & r & R & L).
  pose proof (inv_texts _ I') as E. rewrite P, (adv_toks _ _ _ A), texts_app in E. cbn in E. apply app_eq_nil in E as [E1 E2].
  pose proof (adv_mem _ _ _ A) as M. rewrite E2, (adv_nul _ _ _ A N) in M. cbn in M. apply app_inv_tail in M.
  split.
  - rewrite (inv_texts _ I) in E1. destruct (s_pre s); auto. cbn in E1. destruct (rev l); discriminate.
  - exists c, r. now rewrite M.
Qed.

(** Prefixing a balanced advance. *)
Lemma good_pre T s s' r : (inv s -> inv s' /\ adv T s s') -> balanced T -> good s' r -> good s r.
Proof.
  intros H B G I. destruct (H I) as [I' A]. specialize (G I').
  destruct r as [s2|e s2| | |s2].
  - destruct G as (I2 & U & AU & BU). split; auto. exists (T ++ U). split; [eapply adv_trans; eauto|now apply bal_app].
  - destruct G as (I2 & (U & AU & BU) & HE). split; auto. split; auto. exists (T ++ U). split; [eapply adv_trans; eauto|now apply closable_app].
  - intros N L. rewrite <- (adv_nul _ _ _ A N) in L. eapply adv_starts_lost; eauto. apply G; auto. eapply adv_nul_after; eauto.
  - intros N. apply G. eapply adv_nul_after; eauto.
  - destruct G as (I2 & U & AU & BU). split; auto. exists (T ++ U). split; [eapply adv_trans; eauto|now apply closable_app].
Qed.

Lemma good_ok T s s' : (inv s -> inv s' /\ adv T s s') -> balanced T -> good s (POk s').
Proof. intros H B I. destruct (H I). split; eauto. Qed.

Lemma good_bind s r f : good s r -> (forall s', good s' (f s')) -> good s (pbind r f).
Proof.
  intros G F. destruct r as [s1| | | |]; cbn [pbind]; auto.
  intros I. destruct (G I) as (I1 & T & A & B).
  apply (good_pre T s s1); auto.
Qed.

Lemma good_err e s : (e <> E_EXPECTED_CONTENT -> error_mark e s <> None) -> good s (PErr e s).
Proof. intros H I. split; auto. split; auto. exists []. split; [apply adv_refl|]. apply closable_bal. constructor. Qed.
Lemma good_nofuel s : good s (PNoFuel s).
Proof. intros I. split; auto. exists []. split; [apply adv_refl|]. apply closable_bal. constructor. Qed.

Lemma ok_moved k t s s' : moved t s s' -> is_bracket k = false -> k <> Kequals -> good s (POk (emit_from k s s')).
Proof.
  intros M Hb He. eapply good_ok.
  - intros I. apply (inv_emit_from k t s s'); auto.
  - now apply bal_one.
Qed.

Lemma parse_whitespace_moved s : exists t, moved t s (set_cur s (ws_loop (s_pre s) (s_rest s) (s_line s, s_col s))) /\ ws_text t.
Proof.
  destruct (ws_loop_eaten (length (s_rest s)) (s_pre s) (s_rest s) (s_line s, s_col s)) as (t & H & W); auto.
  exists t. split; auto. now apply moved_set_cur.
Qed.
Lemma parse_whitespace_good s : good s (POk (parse_whitespace s)).
Proof. destruct (parse_whitespace_moved s) as (t & M & _). eapply ok_moved; eauto; discriminate. Qed.

Lemma good_pre_ok s s' r : good s (POk s') -> good s' r -> good s r.
Proof. intros G H I. destruct (G I) as (I1 & T & A & B). apply (good_pre T s s'); auto. Qed.

Lemma peek_none s : peek s = None -> s_rest s = [] /\ s_aft s = [].
Proof. unfold peek. destruct (s_rest s), (s_aft s); cbn; intros; auto; discriminate. Qed.
Lemma good_peek_none s : peek s = None -> good s PUB.
Proof. intros H I N. apply peek_none in H as [_ H]. unfold nul_after in N. rewrite H in N. discriminate. Qed.

Lemma good_self s : good s (POk s).
Proof. eapply (good_ok []); [intros; split; auto using adv_refl|constructor]. Qed.

Lemma skip_space_good s : good s (skip_space s).
Proof.
  unfold skip_space. destruct (peek s) as [c|] eqn:E; [|now apply good_peek_none].
  destruct (is_xml_whitespace c); [|apply good_self].
  apply (good_pre_ok s (parse_whitespace s)); [apply parse_whitespace_good|].
  destruct (peek (parse_whitespace s)) eqn:E2; [apply good_self|now apply good_peek_none].
Qed.

Lemma nul_peek s c : nul_after s -> peek_is c s = true -> c <> 0 -> exists r, s_rest s = c :: r.
Proof.
  unfold nul_after, peek_is, peek. destruct (s_rest s) as [|b r]; cbn.
  - destruct (s_aft s); cbn; [discriminate|]. intros [= ->] H. apply N.eqb_eq in H. congruence.
  - intros _ H _. apply N.eqb_eq in H. subst. eauto.
Qed.

Lemma moved_set_quote s : moved [] s (set_quote (Some (here s)) s).
Proof.
  constructor; auto; cbn.
  - intros P M m Hm. cbn in *. destruct Hm as [Hm|[Hm|[Hm|[Hm|[Hm|Hm]]]]];
      try (apply M; unfold s_marks; rewrite <- Hm; cbn; auto 10; fail); [|tauto].
    injection Hm as <-. exists (rev (s_pre s)), []. rewrite app_nil_r, rev_length. unfold pos_after, s_pos in P.
    injection P as P1 P2. cbn. auto.
  - unfold keeps, s_marks. cbn. repeat constructor; auto; discriminate.
Qed.

Lemma inc_quote p : inc cQ p = (fst p, snd p + 1).
Proof. reflexivity. Qed.

Lemma eat_quote_spec s :
  match eat_quote s with
  | POk s' => exists t, moved t s s' /\ (1 <= length t)%nat
  | PErr e s' => moved [] s s' /\ s_quote s' <> None /\ (e = E_QUOTE_NOT_CLOSED \/ e = E_TOO_MANY_QUOTES)
  | PUB => count_quotes (s_rest s) = 0%nat
  | PAbrt | PNoFuel _ => False
  end.
Proof.
  unfold eat_quote. set (s1 := set_quote (Some (here s)) s).
  pose proof (moved_set_quote s : moved [] s s1) as M1.
  destruct (Nat.eqb_spec (count_quotes (s_rest s)) 0) as [H|H]; [assumption|].
  destruct (count_quotes_split (s_rest s)) as (u & Hu & _).
  destruct (eat_n_eaten cQ (count_quotes (s_rest s)) (cur_of s1) u) as (t & Ht & He); [exact Hu|].
  assert (Hl : (1 <= length t)%nat) by (subst t; unfold rep; rewrite repeat_length; lia).
  set (k := eat_n cQ (count_quotes (s_rest s)) (cur_of s1)) in *.
  destruct (Nat.eqb _ 2).
  - exists t. split; auto. change t with ([] ++ t). eapply moved_trans; eauto. now apply moved_set_cur.
  - destruct (quote_loop _ 0 _ _ _) as [e|k2] eqn:E.
    + split; auto. split; [discriminate|].
      assert (G : forall d r sk p q, quote_loop d sk p r q = inl e -> e = E_QUOTE_NOT_CLOSED \/ e = E_TOO_MANY_QUOTES).
      { clear. intros d r. induction r as [|c r IH]; intros sk p q; cbn [quote_loop]; [intros [= <-]; auto|].
        destruct sk; [|apply IH]. destruct (negb _); [apply IH|]. destruct (Nat.ltb d _); [intros [= <-]; auto|].
        destruct (Nat.ltb _ d); [apply IH|discriminate]. }
      eauto.
    + apply quote_loop_eaten in E; [|lia]. destruct E as (t2 & E).
      rewrite cur_eta in E. pose proof (eaten_app _ _ _ _ _ He E) as E2.
      pose proof (moved_set_cur _ s1 _ E2) as M2.
      pose proof (moved_trans _ _ _ _ _ M1 M2) as M3. cbn [app] in M3.
      assert (L : (1 <= length (t ++ t2))%nat) by (rewrite app_length; lia).
      destruct (need_more_quotes (set_cur s1 k2)) eqn:Q.
      * exists (t ++ t2). split; auto. destruct M3 as [A1 A2 A3 A4 A5 A6 A7]. constructor; auto.
        -- intros P M m Hm. specialize (A6 P M).
           assert (P3 : s_pos (set_cur s1 k2) = pos_after (rev (s_pre (set_cur s1 k2)))).
           { rewrite A5, A2, rev_app_distr, rev_involutive, pos_app. now rewrite P. }
           cbn [set_susp s_pre]. cbn [s_marks set_susp s_body s_attr s_quote s_equals s_susp] in Hm.
           destruct Hm as [Hm|[Hm|[Hm|[Hm|[Hm|[]]]]]]; try (apply A6; unfold s_marks; rewrite <- Hm; cbn; auto 10; fail).
           injection Hm as <-. unfold need_more_quotes in Q. set (s3 := set_cur s1 k2) in *.
           destruct (s_pre s3) as [|c1 [|c0 pre]] eqn:Ep; try discriminate.
           destruct (s_rest s3); [discriminate|]. rewrite !andb_true_iff in Q. destruct Q as [[_ Q] _]. apply N.eqb_eq in Q. subst c1.
           exists (rev (c0 :: pre)), [cQ]. split; [reflexivity|].
           change (rev (cQ :: c0 :: pre)) with (rev (c0 :: pre) ++ [cQ]) in P3. rewrite pos_snoc, inc_quote in P3.
           pose proof (f_equal fst P3 : s_line s3 = line_after (rev (c0 :: pre))) as P4.
           pose proof (f_equal snd P3 : s_col s3 = col_after (rev (c0 :: pre)) + 1) as P5. cbn [m_off m_line m_col length].
           change ((length (s_pre s3) - 1)%nat = length (rev (c0 :: pre)) /\ s_line s3 = line_after (rev (c0 :: pre)) /\ s_col s3 - 1 = col_after (rev (c0 :: pre))).
           rewrite Ep, P4, P5, rev_length. cbn [length]. split; [lia|]. split; [reflexivity|lia].
        -- eapply keeps_trans; [exact A7|]. unfold keeps, s_marks. cbn. repeat constructor; auto; discriminate.
      * exists (t ++ t2). auto.
Qed.

Lemma parse_quote_good l s : peek_is cQ s = true -> good s (parse_quote l s).
Proof.
  intros Hp. unfold parse_quote. pose proof (eat_quote_spec s) as H.
  destruct (eat_quote s) as [s'|e s'| | |s']; cbn [pbind]; try tauto.
  - destruct H as (t & M & _). eapply ok_moved; eauto; destruct l; try reflexivity; discriminate.
  - destruct H as (M & Hq & He). intros I.
    assert (inv s' /\ adv [] s s') as [I' A].
    { destruct M as [M1 M2 M3 M4 M5 M6 M7]. destruct I as [I1 I2 I3 I4 I5].
      assert (Ht : tokens s' = tokens s) by (unfold tokens; now rewrite M1).
      split; constructor; rewrite ?Ht, ?M2, ?app_nil_r; auto.
      now rewrite M5. }
    split; auto. split.
    + exists []. split; auto. apply closable_bal. constructor.
    + intros _. destruct He as [-> | ->]; unfold error_mark; cbn; auto. discriminate.
  - intros _ N. destruct (nul_peek _ _ N Hp) as (r & Hr); [discriminate|]. rewrite Hr in H. cbn in H. discriminate.
Qed.

Lemma step_aft_in c s b q : s_rest s = b :: q -> s_aft (step c s) = s_aft s.
Proof. intros H. unfold step. rewrite H. now destruct (inc _ _). Qed.
Lemma step_rest_in c s b q : s_rest s = b :: q -> s_rest (step c s) = q.
Proof. intros H. unfold step. rewrite H. now destruct (inc _ _). Qed.
Lemma step_rest_out c s : s_rest s = [] -> s_rest (step c s) = [].
Proof. intros H. unfold step. rewrite H. destruct (inc _ _). now destruct (s_aft s). Qed.

Lemma eat_entity_spec s : peek_is cAMP s = true ->
  match eat_entity s with
  | POk s' => exists t, moved t s s' /\ (1 <= length t)%nat
  | PErr e s' => s' = s /\ e = E_ENTITY_NOT_CLOSED
  | PUB => s_aft s = []
  | PAbrt | PNoFuel _ => False
  end.
Proof.
  intros Hp. unfold eat_entity. pose proof (moved_step cAMP s Hp ltac:(discriminate)) as M1.
  set (s1 := step cAMP s) in *.
  destruct (entity_loop _ _ _ _ _) as [[k c] e] eqn:E. apply entity_loop_eaten in E.
  destruct E as (t & E1 & E2 & E3).
  pose proof (moved_trans _ _ _ _ _ M1 (moved_set_cur t s1 k E1)) as M2. set (s2 := set_cur s1 k) in *.
  destruct (N.eqb_spec c cSEMI) as [->|Hc].
  - assert (R : exists r, k_rest k = cSEMI :: r).
    { destruct (k_rest k) as [|d r]; [exfalso|destruct E3 as [-> _]; eauto].
      destruct t as [|a t _] using rev_ind; [discriminate|]. rewrite last_last in E3. subst a.
      rewrite forallb_app in E2. cbn in E2. rewrite andb_false_r in E2. discriminate. }
    destruct R as (r & R).
    assert (R2 : s_rest s2 = cSEMI :: r) by exact R.
    assert (P : peek_is cSEMI s2 = true) by (unfold peek_is, peek; now rewrite R2).
    pose proof (moved_trans _ _ _ _ _ M2 (moved_step cSEMI s2 P ltac:(discriminate))) as M3.
    destruct (peek (step cSEMI s2)) eqn:Q.
    + exists (([cAMP] ++ t) ++ [cSEMI]). split; auto. rewrite !app_length. cbn. lia.
    + apply peek_none in Q as [_ Q]. rewrite (step_aft_in _ _ _ _ R2) in Q. change (s_aft s1 = []) in Q.
      destruct (s_rest s) as [|b q] eqn:Rs.
      * exfalso. destruct E1 as (_ & E1 & _). cbn [k_rest] in E1. unfold s1 in E1. rewrite (step_rest_out _ _ Rs), R in E1.
        destruct t; discriminate.
      * unfold s1 in Q. now rewrite (step_aft_in _ _ _ _ Rs) in Q.
  - destruct e; [auto|]. exists ([cAMP] ++ t). split; auto. rewrite !app_length. cbn. lia.
Qed.

Lemma parse_entity_good l s : peek_is cAMP s = true -> good s (parse_entity l s).
Proof.
  intros Hp. unfold parse_entity. pose proof (eat_entity_spec s Hp) as H.
  destruct (eat_entity s) as [s'|e s'| | |s']; cbn [pbind]; try tauto.
  - destruct H as (t & M & _). eapply ok_moved; eauto; destruct l; try reflexivity; discriminate.
  - destruct H as (-> & ->). apply good_err. discriminate.
  - intros _ N. unfold nul_after in N. rewrite H in N. discriminate.
Qed.

Lemma eat_comment_to_eol_moved s n b : count_slashes (s_rest s) (s_aft s) = Some (n, b) -> (2 <= n)%nat ->
  exists t, moved t s (eat_comment_to_eol s) /\ (2 <= length t)%nat.
Proof.
  intros H Hn. unfold eat_comment_to_eol. apply count_slashes_split in H. destruct H as (u & Hu & _).
  destruct n as [|[|n]]; try lia.
  destruct (eat_n_eaten cSLASH 2 (cur_of s) (rep cSLASH n ++ u)) as (t & Ht & He); [exact Hu|].
  set (k := eat_n cSLASH 2 (cur_of s)) in *.
  destruct (eol_loop_eaten (k_rest k) (k_pre k) (k_pos k)) as (t2 & E2). rewrite cur_eta in E2.
  exists (t ++ t2). split; [|subst t; rewrite app_length; cbn; lia].
  apply moved_set_cur. eapply eaten_app; eauto.
Qed.

(** Why a comment can be closed: it starts with its slashes, or it is a
    continuation and starts with an asterisk. *)
Definition at_comment (num : nat) (s : pst) : Prop :=
  (exists u, s_rest s = rep cSLASH num ++ cSTAR :: u /\ (1 <= num)%nat)
  \/ (exists u, s_rest s = rep cSLASH num /\ s_aft s = cSTAR :: u /\ (1 <= num)%nat)
  \/ peek_is cSTAR s = true.

Lemma eat_comment_to_close_spec num s : (1 <= num)%nat -> at_comment num s ->
  match eat_comment_to_close num s with
  | (POk s', more) => exists t, moved t s s' /\ (num + 1 <= length t)%nat /\ (more = true -> peek_is cSTAR s' = true)
  | (PErr e s', _) => s' = s /\ error_mark e s <> None
  | (PUB, _) => s_aft s = []
  | (PAbrt, _) | (PNoFuel _, _) => False
  end.
Proof.
  intros Hnum Hat. unfold eat_comment_to_close.
  set (k := if peek_is cSLASH s then eat_n cSLASH num (cur_of s) else cur_of s).
  assert (A : exists t, moved t s (set_cur s k) /\ peek_is cSTAR (set_cur s k) = true).
  { unfold k. destruct Hat as [(u & Hu & Hn)|[(u & Hu & Ha & Hn)|Hs]].
    - destruct num as [|n]; [lia|].
      replace (peek_is cSLASH s) with true by (unfold peek_is, peek; now rewrite Hu).
      destruct (eat_n_eaten cSLASH (S n) (cur_of s) (cSTAR :: u)) as (t & Ht & He); [exact Hu|].
      exists t. split; [now apply moved_set_cur|].
      destruct He as (_ & He & _). cbn [k_rest cur_of] in He. rewrite Ht in He.
      apply (eq_trans (eq_sym Hu)), app_inv_head in He. unfold peek_is, peek. cbn [set_cur s_rest s_aft]. now rewrite <- He.
    - destruct num as [|n]; [lia|].
      replace (peek_is cSLASH s) with true by (unfold peek_is, peek; now rewrite Hu).
      destruct (eat_n_eaten cSLASH (S n) (cur_of s) []) as (t & Ht & He); [rewrite app_nil_r; exact Hu|].
      exists t. split; [now apply moved_set_cur|].
      destruct He as (_ & He & _). cbn [k_rest cur_of] in He. rewrite Ht in He.
      rewrite Hu in He. rewrite <- (app_nil_r (rep cSLASH (S n))) in He at 1. apply app_inv_head in He.
      unfold peek_is, peek. cbn [set_cur s_rest s_aft]. rewrite <- He, Ha. reflexivity.
    - assert (peek_is cSLASH s = false) as ->.
      { unfold peek_is in *. destruct (peek s); [|discriminate]. apply N.eqb_eq in Hs. now subst. }
      exists []. split; [|].
      + apply moved_set_cur, eaten_nil.
      + exact Hs. }
  destruct A as (t & M & P). rewrite P. cbn [negb].
  pose proof (moved_trans _ _ _ _ _ M (moved_step cSTAR _ P ltac:(discriminate))) as M2.
  set (s2 := step cSTAR (set_cur s k)) in *.
  destruct (close_loop _ _ _ _ _ _) as [k2 more|e|] eqn:E.
  - apply close_loop_eaten in E. destruct E as (t2 & E & L & Mo).
    exists ((t ++ [cSTAR]) ++ t2). split; [|split].
    + eapply moved_trans; eauto. now apply moved_set_cur.
    + rewrite !app_length. cbn. lia.
    + intros ->. unfold peek_is, peek. cbn [set_cur s_rest s_aft]. destruct (k_rest k2 ++ s_aft s2); [tauto|]. cbn. now rewrite <- Mo.
  - split; auto.
    assert (G : forall r num c pre aft p, close_loop num c pre r aft p = NotClosed e -> e = E_COMMENT_NOT_CLOSED \/ e = E_TOO_MANY_SLASHES).
    { clear. intros r. induction r as [|d r IH]; intros num c pre aft p; cbn [close_loop]; [intros [= <-]; auto|].
      destruct (_ || _); [apply IH|]. destruct (count_slashes _ _) as [[n b]|]; [|discriminate].
      destruct (Nat.ltb n num); [apply IH|]. destruct (Nat.ltb num n); [intros [= <-]; auto|discriminate]. }
    apply G in E. destruct E as [-> | ->]; discriminate.
  - assert (G : forall r num c pre aft p, close_loop num c pre r aft p = CloseUB -> aft = [] /\ r <> []).
    { clear. intros r. induction r as [|d r IH]; intros num c pre aft p; cbn [close_loop]; [discriminate|].
      destruct (_ || _); [intros H; apply IH in H; split; [tauto|discriminate]|].
      destruct (count_slashes _ _) as [[n b]|] eqn:E.
      - destruct (Nat.ltb n num); [intros H; apply IH in H; split; [tauto|discriminate]|]. destruct (Nat.ltb num n); discriminate.
      - intros _. split; [|discriminate]. revert E. generalize (d :: r). intros l. induction l as [|x l IHl]; cbn.
        + destruct aft; auto; discriminate.
        + destruct (x =? cSLASH); [|discriminate]. destruct (count_slashes l aft) as [[]|]; [discriminate|auto]. }
    apply G in E. destruct E as [E1 E2].
    destruct (s_rest (set_cur s k)) as [|b q] eqn:R.
    + exfalso. apply E2. unfold s2. now apply step_rest_out.
    + unfold s2 in E1. now rewrite (step_aft_in _ _ _ _ R) in E1.
Qed.

Lemma continuations_good fuel num : forall s, (1 <= num)%nat -> peek_is cSTAR s = true -> good s (continuations fuel num s).
Proof.
  induction fuel as [|fuel IH]; intros s Hn Hp; cbn [continuations]; [apply good_nofuel|].
  pose proof (eat_comment_to_close_spec num s Hn (or_intror (or_intror Hp))) as H.
  destruct (eat_comment_to_close num s) as [[s'|e s'| | |s'] more]; cbn [pbind]; try tauto.
  - destruct H as (t & M & L & Mo).
    assert (G : good s (POk (emit_from Kcomment_continuation s s'))) by (eapply ok_moved; eauto; discriminate).
    destruct more; [|exact G]. eapply good_pre_ok; [exact G|]. apply IH; auto; exact (Mo eq_refl).
  - destruct H as (-> & H). apply good_err. auto.
  - intros _ N. unfold nul_after in N. rewrite H in N. discriminate.
Qed.

Lemma count_slashes_none r aft : count_slashes r aft = None -> aft = [].
Proof.
  induction r as [|x l IH]; cbn.
  - destruct aft; auto; discriminate.
  - destruct (x =? cSLASH); [|discriminate]. destruct (count_slashes l aft) as [[]|]; [discriminate|auto].
Qed.

Lemma parse_comment_good fuel s r c : s_rest s = cSLASH :: c :: r -> c = cSLASH \/ c = cSTAR ->
  good s (parse_comment fuel s).
Proof.
  intros Hr Hc. unfold parse_comment. destruct (count_slashes (s_rest s) (s_aft s)) as [[n more]|] eqn:E.
  - pose proof (count_slashes_split _ _ _ _ E) as (u & Hu & Hm).
    assert (Hn : (1 <= n)%nat) by (destruct n; [|lia]; cbn in Hu; subst u; rewrite Hr in Hm; cbn in Hm; destruct Hm as [_ Hm]; exfalso; apply Hm; [discriminate|reflexivity]).
    destruct more.
    + assert (A : at_comment n s).
      { destruct u as [|x u]; cbn in Hm.
        - right. left. destruct (s_aft s) as [|x a] eqn:Ea; [tauto|]. destruct Hm as [Hm _]. symmetry in Hm. apply N.eqb_eq in Hm. subst x.
          exists a. rewrite app_nil_r in Hu. auto.
        - left. destruct Hm as [Hm _]. symmetry in Hm. apply N.eqb_eq in Hm. subst x. eauto. }
      pose proof (eat_comment_to_close_spec n s Hn A) as H.
      destruct (eat_comment_to_close n s) as [[s'|e s'| | |s'] more]; cbn [pbind]; try tauto.
      * destruct H as (t & M & L & Mo).
        assert (G : good s (POk (emit_from Kcomment s s'))) by (eapply ok_moved; eauto; discriminate).
        destruct more; [|exact G]. eapply good_pre_ok; [exact G|]. apply continuations_good; auto; exact (Mo eq_refl).
      * destruct H as (-> & H). apply good_err. auto.
      * intros _ N. unfold nul_after in N. rewrite H in N. discriminate.
    + assert (Hn2 : (2 <= n)%nat).
      { destruct n as [|[|n]]; try lia. exfalso. rewrite Hr in Hu. cbn in Hu. injection Hu as Hu. subst u. cbn in Hm.
        destruct Hm as [Hm1 Hm2]. destruct Hc as [-> | ->]; [apply Hm2; [discriminate|reflexivity]|discriminate]. }
      destruct (eat_comment_to_eol_moved _ _ _ E Hn2) as (t & M & _). eapply ok_moved; eauto; discriminate.
  - intros _ N. apply count_slashes_none in E. unfold nul_after in N. rewrite E in N. discriminate.
Qed.

Lemma parse_text_value_good l s : good s (POk (parse_text_value l s)).
Proof.
  destruct (value_loop_eaten (s_rest s) (s_pre s) (s_line s, s_col s)) as (t & H).
  unfold parse_text_value. eapply ok_moved; [apply moved_set_cur; exact H| |]; destruct l; try reflexivity; discriminate.
Qed.

Lemma single_spec k c s : peek_is c s = true -> c <> 0 -> bracket_text (Tok k 0 0 [c] []) ->
  inv s -> inv (single k c s) /\ adv [Tok k (s_line s) (s_col s) [c] []] s (single k c s).
Proof. intros Hp Hc Hb I. apply (inv_emit_from k [c]); auto. now apply moved_step. Qed.

Lemma single_equals_good s : peek_is cEQ s = true -> good s (POk (single Kequals cEQ s)).
Proof.
  intros H. eapply good_ok; [apply single_spec; auto; [discriminate|reflexivity]|]. now apply bal_one.
Qed.

(** An opening token, something balanced, and the closing token. *)
Lemma bracket_good kl cl kr cr e (f : pst -> pout) s :
  opens kl kr -> cl <> 0 -> cr <> 0 -> bracket_text (Tok kl 0 0 [cl] []) -> bracket_text (Tok kr 0 0 [cr] []) ->
  peek_is cl s = true ->
  (forall s', keeps s s' -> error_mark e s' <> None) ->
  good (single kl cl s) (f (single kl cl s)) ->
  good s (s1 <- f (single kl cl s) ; s2 <- skip_space s1 ;
          if negb (peek_is cr s2) then PErr e s2 else POk (single kr cr s2)).
Proof.
  intros Ho Hl Hr Bl Br Hp He Hf I.
  destruct (single_spec kl cl s Hp Hl Bl I) as [I1 A1]. specialize (Hf I1).
  set (sl := single kl cl s) in *. set (tl := Tok kl (s_line s) (s_col s) [cl] []) in *.
  assert (NE : s_pre s = [] -> False -> True) by auto.
  assert (UB1 : forall s', nul_after s -> (2 <= length (s_aft s))%nat -> adv s' s sl -> starts_lost sl -> starts_lost s).
  { intros; eapply adv_starts_lost; eauto. }
  destruct (f sl) as [s1|e1 s1| | |s1]; cbn [pbind].
  - destruct Hf as (I2 & T & A2 & B2). pose proof (skip_space_good s1 I2) as Hs.
    destruct (skip_space s1) as [s2|e2 s2| | |s2]; cbn [pbind].
    + destruct Hs as (I3 & U & A3 & B3).
      pose proof (adv_trans _ _ _ _ _ A1 (adv_trans _ _ _ _ _ A2 A3)) as A4.
      destruct (peek_is cr s2) eqn:P2; cbn [negb].
      * destruct (single_spec kr cr s2 P2 Hr Br I3) as [I5 A5].
        split; auto. exists (([tl] ++ T ++ U) ++ [Tok kr (s_line s2) (s_col s2) [cr] []]). split; [eapply adv_trans; eauto|].
        cbn [app]. apply bal_nest; auto; [now apply bal_app|constructor].
      * split; auto. split.
        -- exists ([tl] ++ T ++ U). split; auto. cbn [app]. apply (closable_open tl _ kr); auto. apply closable_bal. now apply bal_app.
        -- intros _. apply He. apply (adv_keeps _ _ _ A4).
    + destruct Hs as (I3 & (U & A3 & B3) & E3). split; auto. split; auto.
      exists ([tl] ++ T ++ U). split; [eapply adv_trans; [eassumption|eapply adv_trans; eassumption]|].
      apply (closable_open tl _ kr); auto. now apply closable_app.
    + intros N L. pose proof (adv_trans _ _ _ _ _ A1 A2) as A. apply (adv_starts_lost _ _ _ I I2 A N).
      apply Hs; [eapply adv_nul_after; eauto|]. now rewrite (adv_nul _ _ _ A N).
    + intros N. apply Hs. eapply adv_nul_after; [|eassumption]. eapply adv_trans; eassumption.
    + destruct Hs as (I3 & U & A3 & B3). split; auto.
      exists ([tl] ++ T ++ U). split; [eapply adv_trans; [eassumption|eapply adv_trans; eassumption]|].
      apply (closable_open tl _ kr); auto. now apply closable_app.
  - destruct Hf as (I3 & (U & A3 & B3) & E3). split; auto. split; auto.
    exists ([tl] ++ U). split; [eapply adv_trans; eassumption|]. apply (closable_open tl _ kr); auto.
  - intros N L. eapply UB1; eauto. apply Hf; [eapply adv_nul_after; eauto|]. now rewrite (adv_nul _ _ _ A1 N).
  - intros N. apply Hf. eapply adv_nul_after; eassumption.
  - destruct Hf as (I3 & U & A3 & B3). split; auto.
    exists ([tl] ++ U). split; [eapply adv_trans; eassumption|]. apply (closable_open tl _ kr); auto.
Qed.

Lemma compound_children_good fuel l : forall s, good s (compound_children fuel l s).
Proof.
  induction fuel as [|fuel IH]; intros s; cbn [compound_children]; destruct (s_rest s) as [|c r] eqn:R;
    try apply good_self; try apply good_nofuel.
  destruct (is_xml_whitespace c); [eapply good_pre_ok; [apply parse_whitespace_good|apply IH]|].
  destruct (c =? cRP); [apply good_self|].
  destruct (c =? cQ) eqn:E1; [apply good_bind; auto; apply parse_quote_good; unfold peek_is, peek; now rewrite R|].
  destruct (c =? cAMP) eqn:E2; [apply good_bind; auto; apply parse_entity_good; unfold peek_is, peek; now rewrite R|].
  apply good_err. discriminate.
Qed.

Lemma parse_compound_good fuel l s : peek_is cLP s = true -> good s (parse_compound fuel l s).
Proof.
  intros H. unfold parse_compound. apply bracket_good; auto; try discriminate; try reflexivity.
  - unfold opens. auto.
  - apply compound_children_good.
Qed.

(** The value: the byte after the NUL is read when the value is missing at
    the end of the source. *)
Lemma parse_value_good fuel l s : good s (parse_value fuel l s).
Proof.
  unfold parse_value. apply good_bind; [apply skip_space_good|]. clear s. intros s.
  destruct (peek_is cQ s) eqn:E1; [now apply parse_quote_good|].
  destruct (peek_is cAMP s) eqn:E2; [now apply parse_entity_good|].
  destruct (peek_is cLP s) eqn:E3; [now apply parse_compound_good|].
  destruct (peek s) as [c|] eqn:P; [|now apply good_peek_none].
  destruct (peek1 s) as [cc|] eqn:P1.
  - destruct (unsafe_value_start c cc); [apply good_err; discriminate|]. apply parse_text_value_good.
  - intros _ N L. exfalso. unfold peek1 in P1. apply nth_error_None in P1. rewrite app_length in P1. lia.
Qed.

Lemma split_colon_eq name ns n : split_colon name = Some (ns, n) -> name = ns ++ cCOLON :: n.
Proof.
  revert ns n. induction name as [|c r IH]; intros ns n; cbn; [discriminate|].
  destruct (split_colon r) as [[a b]|].
  - intros [= <- <-]. cbn. f_equal. now apply IH.
  - destruct (N.eqb_spec c cCOLON) as [->|]; [|discriminate]. intros [= <- <-]. reflexivity.
Qed.

Lemma ascii_starts_char c : is_xmq_text_name c = true -> (N.land c 0xc0 =? 0x80) = false /\ c <> cNL.
Proof.
  intros H. assert (L : c < 128).
  { unfold is_xmq_text_name, in_range in H. rewrite !orb_true_iff, !andb_true_iff, !N.leb_le, !N.eqb_eq in H.
    unfold cMINUS, cUND, cDOT, cCOLON, cHASH in H. lia. }
  split.
  - apply N.eqb_neq. intros E. assert (N.testbit (N.land c 0xc0) 7 = true) by now rewrite E.
    rewrite N.land_spec in H0. apply andb_true_iff in H0 as [H0 _].
    rewrite N.testbit_true in H0. change (2 ^ 7) with 128 in H0. rewrite N.div_small in H0 by lia. discriminate.
  - intros ->. discriminate.
Qed.

Lemma incs_name t p : forallb is_xmq_text_name t = true -> incs t p = (fst p, snd p + blen t).
Proof.
  revert p. induction t as [|c t IH]; intros p H; cbn [incs].
  - unfold blen. cbn. rewrite N.add_0_r. now destruct p.
  - cbn in H. apply andb_true_iff in H as [H1 H2]. rewrite IH by auto.
    destruct (ascii_starts_char c H1) as [A1 A2]. unfold inc. rewrite A1. apply N.eqb_neq in A2. rewrite A2.
    cbn [fst snd]. unfold blen. cbn [length]. f_equal. lia.
Qed.

(** Emitting a list of tokens that together cover the eaten text. *)
Definition emits (T : list token) (s : pst) : pst :=
  PS (s_pre s) (s_rest s) (s_aft s) (s_line s) (s_col s) (rev T ++ s_toks s)
     (s_body s) (s_attr s) (s_quote s) (s_equals s) (s_susp s).

Fixpoint run_placed (p : pos) (T : list token) : Prop :=
  match T with
  | [] => True
  | t :: T' => t_line t = fst p /\ t_col t = snd p /\ run_placed (incs (t_text t) p) T'
  end.

Lemma placed_app A T : placed A -> run_placed (pos_after (texts A)) T -> placed (A ++ T).
Proof.
  revert A. induction T as [|t T IH]; intros A HA HT; [now rewrite app_nil_r|].
  destruct HT as (H1 & H2 & H3). change (t :: T) with ([t] ++ T). rewrite app_assoc. apply IH.
  - now apply placed_snoc.
  - now rewrite texts_app, texts_one, pos_app.
Qed.

Lemma emits_good T t s s' : moved t s s' -> texts T = t -> run_placed (s_pos s) T -> Forall bracket_text T ->
  Forall (fun t => is_bracket (t_kind t) = false) T -> good s (POk (emits T s')).
Proof.
  intros M Ht Hp Hb Hn. apply (good_ok T).
  - intros [I1 I2 I3 I4 I5].
    assert (E : tokens (emits T s') = tokens s ++ T).
    { unfold tokens. cbn. rewrite rev_app_distr, rev_involutive, (mv_toks _ _ _ M). reflexivity. }
    split; constructor; rewrite ?E.
    + rewrite texts_app, I1, Ht. cbn. rewrite (mv_pre _ _ _ M), rev_app_distr, rev_involutive. reflexivity.
    + change (s_pos s' = pos_after (rev (s_pre s'))).
      rewrite (mv_pos _ _ _ M), (mv_pre _ _ _ M), rev_app_distr, rev_involutive, pos_app. now rewrite I2.
    + apply placed_app; auto. now rewrite I1, <- I2.
    + exact (mv_marks _ _ _ M I2 I4).
    + apply Forall_app. auto.
    + reflexivity.
    + rewrite Ht. apply (mv_mem _ _ _ M).
    + apply (mv_nul _ _ _ M).
    + exact (mv_keeps _ _ _ M).
  - clear -Hn. induction Hn; constructor; auto.
Qed.

Lemma eat_name_moved s : exists t, moved t s (eat_name s) /\ forallb is_xmq_text_name t = true
  /\ match s_rest (eat_name s) with [] => True | c :: _ => is_xmq_text_name c = false end.
Proof.
  destruct (name_loop_eaten (s_rest s) (s_pre s) (s_line s, s_col s)) as (t & H1 & H2 & H3).
  exists t. split; [now apply moved_set_cur|]. auto.
Qed.

Lemma name_split name ns n : forallb is_xmq_text_name name = true -> split_colon name = Some (ns, n) ->
  forallb is_xmq_text_name ns = true.
Proof. intros H E. apply split_colon_eq in E. subst. rewrite forallb_app in H. now apply andb_true_iff in H. Qed.

Lemma emit_emits k l c t x T s : emit k l c t x (emits T s) = emits (T ++ [Tok k l c t x]) s.
Proof. unfold emit, emits. cbn. f_equal. rewrite rev_app_distr. reflexivity. Qed.
Lemma emit_emits0 k l c t x s : emit k l c t x s = emits [Tok k l c t x] s.
Proof. reflexivity. Qed.

Lemma blen_colon l c ns : incs [cCOLON] (l, c + blen ns) = (l, c + blen ns + 1).
Proof. reflexivity. Qed.

Lemma element_name_good key s s' name : moved name s s' -> forallb is_xmq_text_name name = true ->
  good s (POk (emit_element_name key (s_line s) (s_col s) name s')).
Proof.
  intros M H. unfold emit_element_name. destruct (split_colon name) as [[ns n]|] eqn:E.
  - rewrite (emit_emits0 Kelement_ns), !emit_emits. cbn [app]. eapply emits_good; eauto.
    + cbn. rewrite app_nil_r. now apply split_colon_eq in E.
    + unfold s_pos. cbn [run_placed t_line t_col t_text].
      rewrite (incs_name ns) by (eapply name_split; eauto). cbn [fst snd]. rewrite blen_colon. cbn. auto 10.
    + repeat constructor. destruct key; cbn; auto.
    + repeat constructor. destruct key; reflexivity.
  - rewrite emit_emits0. eapply emits_good; eauto.
    + cbn. apply app_nil_r.
    + cbn. auto.
    + repeat constructor. destruct key; cbn; auto.
    + repeat constructor. destruct key; reflexivity.
Qed.

Lemma attr_name_good s s' name : moved name s s' -> forallb is_xmq_text_name name = true ->
  good s (POk (emit_attr_name (s_line s) (s_col s) name s')).
Proof.
  intros M H. unfold emit_attr_name. destruct (split_colon name) as [[ns n]|] eqn:E.
  - destruct (beq ns _); [rewrite (emit_emits0 Kns_declaration), !emit_emits|rewrite (emit_emits0 Kattr_ns), !emit_emits]; cbn [app]; eapply emits_good; eauto;
      try (cbn; rewrite app_nil_r; now apply split_colon_eq in E);
      try (unfold s_pos; cbn [run_placed t_line t_col t_text];
           rewrite (incs_name ns) by (eapply name_split; eauto); cbn [fst snd]; rewrite blen_colon; cbn; auto 10);
      repeat constructor.
  - rewrite emit_emits0. eapply emits_good; eauto.
    + cbn. apply app_nil_r.
    + cbn. auto.
    + repeat constructor. destruct (beq _ _); cbn; auto.
    + repeat constructor. destruct (beq _ _); reflexivity.
Qed.

Lemma parse_attribute_good fuel s : good s (parse_attribute fuel s).
Proof.
  unfold parse_attribute. destruct (eat_name_moved s) as (t & M & H & _). rewrite (between_moved _ _ _ M).
  eapply good_pre_ok; [apply attr_name_good; eauto|].
  apply good_bind; [apply skip_space_good|]. intros s1.
  destruct (peek_is cEQ s1) eqn:E; [|apply good_self].
  eapply good_pre_ok; [now apply single_equals_good|apply parse_value_good].
Qed.

Lemma attributes_good fuel : forall s, good s (attributes fuel s).
Proof.
  induction fuel as [|fuel IH]; intros s; cbn [attributes]; destruct (s_rest s) as [|c r] eqn:R;
    try apply good_self; try apply good_nofuel.
  destruct (is_xml_whitespace c); [eapply good_pre_ok; [apply parse_whitespace_good|apply IH]|].
  destruct (c =? cRP); [apply good_self|].
  destruct (is_attribute_key_start c); [|apply good_self].
  apply good_bind; auto. apply parse_attribute_good.
Qed.

(** Remembering the current place. *)
Definition same_but_marks (s s' : pst) : Prop :=
  s_pre s' = s_pre s /\ s_rest s' = s_rest s /\ s_aft s' = s_aft s /\ s_line s' = s_line s /\ s_col s' = s_col s
  /\ s_toks s' = s_toks s /\ keeps s s'
  /\ (forall m, In (Some m) (s_marks s') -> In (Some m) (s_marks s) \/ m = here s).

Lemma good_marks s s' : same_but_marks s s' -> good s (POk s').
Proof.
  intros (H1 & H2 & H3 & H4 & H5 & H6 & H7 & H8). apply (good_ok []); [|constructor].
  intros [I1 I2 I3 I4 I5]. assert (E : tokens s' = tokens s) by (unfold tokens; now rewrite H6).
  assert (P : s_pos s' = s_pos s) by (unfold s_pos; now rewrite H4, H5).
  split; constructor; rewrite ?E, ?H1, ?H2, ?H3, ?app_nil_r; auto.
  - now rewrite P.
  - intros m Hm. rewrite H1. apply H8 in Hm. destruct Hm as [Hm| ->]; [now apply I4|].
    exists (rev (s_pre s)), []. rewrite app_nil_r. unfold here. cbn. rewrite rev_length.
    unfold s_pos, pos_after in I2. injection I2 as P1 P2. auto.
Qed.

Ltac marks := unfold same_but_marks, keeps, s_marks; cbn; repeat split; auto;
  [repeat constructor; auto; discriminate
  |intros m Hm; repeat (destruct Hm as [Hm|Hm]; [first [injection Hm as <-; auto; fail | rewrite <- Hm; auto 10]|]); tauto].
Lemma set_attr_marks s : same_but_marks s (set_attr (Some (here s)) s).
Proof. marks. Qed.
Lemma set_body_marks s : same_but_marks s (set_body (Some (here s)) s).
Proof. marks. Qed.
Lemma set_equals_marks s : same_but_marks s (set_equals (Some (here s)) s).
Proof. marks. Qed.

Lemma parse_element_good fuel body ek s :
  (forall s, good s (body s)) ->
  (ek = EDoctype -> peek_is cBANG s = true) -> (ek = EPi -> peek_is cQM s = true) ->
  good s (parse_element fuel body ek s).
Proof.
  intros Hb Hd Hp. unfold parse_element.
  set (s1 := match ek with EElement => eat_name s | EDoctype => eat_marked_name cBANG s | EPi => eat_marked_name cQM s end).
  assert (G : good s (POk (match ek with
            | EElement => emit_element_name (next_is_equal (s_rest s1) 0) (s_line s) (s_col s) (between s s1) s1
            | _ => emit (if next_is_equal (s_rest s1) 0 then Kelement_key else Kelement_name) (s_line s) (s_col s) (between s s1) [] s1
            end))).
  { destruct ek.
    - destruct (eat_name_moved s) as (t & M & H & _). unfold s1. rewrite (between_moved _ _ _ M). apply element_name_good; [exact M|exact H].
    - pose proof (moved_step cBANG s (Hd eq_refl) ltac:(discriminate)) as M1.
      destruct (eat_name_moved (step cBANG s)) as (t & M & H & _).
      pose proof (moved_trans _ _ _ _ _ M1 M) as M2. eapply ok_moved; [exact M2| |];
      destruct (next_is_equal _ _); try reflexivity; discriminate.
    - pose proof (moved_step cQM s (Hp eq_refl) ltac:(discriminate)) as M1.
      destruct (eat_name_moved (step cQM s)) as (t & M & H & _).
      pose proof (moved_trans _ _ _ _ _ M1 M) as M2. eapply ok_moved; [exact M2| |];
      destruct (next_is_equal _ _); try reflexivity; discriminate. }
  eapply good_pre_ok; [exact G|].
  apply good_bind; [apply skip_space_good|]. clear -Hb. intros s3.
  apply good_bind.
  - destruct (peek_is cLP s3) eqn:E; [|apply good_self].
    eapply good_pre_ok; [apply good_marks, set_attr_marks|].
    apply (bracket_good Kapar_left cLP Kapar_right cRP E_ATTRIBUTES_NOT_CLOSED (attributes fuel)); auto; try discriminate; try reflexivity.
    + unfold opens. auto.
    + intros s' K. unfold error_mark. cbn. unfold keeps, s_marks in K. cbn in K.
      inversion K as [|? ? ? ? _ K2]; subst. inversion K2 as [|? ? ? ? K3 _]; subst. apply K3. discriminate.
    + apply attributes_good.
  - clear s3. intros s4. apply good_bind; [apply skip_space_good|]. clear s4. intros s5.
    destruct (peek_is cEQ s5) eqn:E1.
    + eapply good_pre_ok; [apply good_marks, set_equals_marks|].
      eapply good_pre_ok; [now apply single_equals_good|apply parse_value_good].
    + destruct (peek_is cLB s5) eqn:E2; [|apply good_self].
      eapply good_pre_ok; [apply good_marks, set_body_marks|].
      apply (bracket_good Kbrace_left cLB Kbrace_right cRB E_BODY_NOT_CLOSED body); auto; try discriminate; try reflexivity.
      * unfold opens. auto.
      * intros s' K. unfold error_mark. cbn. unfold keeps, s_marks in K. cbn in K.
        inversion K as [|? ? ? ? K3 _]; subst. apply K3. discriminate.
Qed.

Lemma rest_peek c r s d : s_rest s = c :: r -> c = d -> peek_is d s = true.
Proof. intros H ->. unfold peek_is, peek. rewrite H. cbn. apply N.eqb_refl. Qed.

Lemma back_to_newline_none pre : back_to_newline pre = None -> pre = [].
Proof.
  induction pre as [|b [|c pre] IH]; auto; cbn [back_to_newline]; [discriminate|].
  destruct (negb _ && _); [|discriminate]. intros H. apply IH in H. discriminate.
Qed.
Lemma back_over_space_ne pre : pre <> [] -> back_over_space pre <> [].
Proof.
  induction pre as [|b pre IH]; intros H; [congruence|]. destruct pre as [|c pre]; [discriminate|].
  change (back_over_space (b :: c :: pre)) with (if is_xml_whitespace b then back_over_space (c :: pre) else b :: c :: pre).
  destruct (is_xml_whitespace b); [apply IH|]; discriminate.
Qed.

Lemma lost_none s c r : s_rest s = c :: r -> possibly_lost_content s = None -> starts_lost s.
Proof.
  intros R. unfold possibly_lost_content, peek. rewrite R. cbn [app hd_error].
  destruct (_ || _ || _) eqn:E; cbn [negb]; [|discriminate].
  destruct (back_to_newline (s_pre s)) as [[|b [|x p]]|] eqn:Bk; try discriminate.
  - destruct (b =? cNL); cbn [negb]; [|discriminate].
    pose proof (back_over_space_ne (b :: x :: p) ltac:(discriminate)) as Ne.
    destruct (back_over_space (b :: x :: p)); [congruence|discriminate].
  - intros _. apply back_to_newline_none in Bk. split; auto. exists c, r. auto.
Qed.

Lemma parse_xmq_good fuel : forall s, good s (parse_xmq fuel s).
Proof.
  induction fuel as [|fuel IH]; intros s; cbn [parse_xmq]; destruct (s_rest s) as [|c r] eqn:R;
    try apply good_self; try apply good_nofuel.
  destruct (is_xmq_token_whitespace c); [eapply good_pre_ok; [apply parse_whitespace_good|apply IH]|].
  destruct (N.eqb_spec c cQ); [apply good_bind; auto; apply parse_quote_good; eapply rest_peek; eauto|].
  destruct (N.eqb_spec c cAMP); [apply good_bind; auto; apply parse_entity_good; eapply rest_peek; eauto|].
  destruct (is_comment_start c _) eqn:C.
  { apply good_bind; auto. unfold is_comment_start in C. apply andb_true_iff in C as [C1 C2]. rewrite C1 in C2. cbn [orb] in C2.
    apply N.eqb_eq in C1. subst c. destruct r as [|d r]; [discriminate|]. cbn [hd] in C2.
    apply orb_true_iff in C2. rewrite !N.eqb_eq in C2. eapply parse_comment_good; eauto. }
  destruct (is_xmq_element_start c).
  { apply good_bind; auto. apply parse_element_good; auto; discriminate. }
  destruct (is_doctype_start (c :: r)) eqn:D.
  { apply good_bind; auto. apply parse_element_good; auto; [|discriminate]. intros _. eapply rest_peek; eauto.
    unfold is_doctype_start in D. apply andb_true_iff in D as [D _]. cbn in D. apply andb_true_iff in D as [D _]. destruct c as [|q]; [discriminate|]. apply Pos.eqb_eq in D. now subst. }
  destruct (is_pi_start (c :: r)) eqn:P.
  { apply good_bind; auto. apply parse_element_good; auto; [discriminate|]. intros _. eapply rest_peek; eauto.
    cbn in P. destruct r; [discriminate|]. now apply N.eqb_eq. }
  destruct (c =? cRB); [apply good_self|].
  destruct (possibly_lost_content s) as [[|]|] eqn:L.
  - apply good_err. congruence.
  - apply good_err. destruct (c =? cTAB); discriminate.
  - intros _ _ _. eapply lost_none; eauto.
Qed.

Lemma init_inv src aft : inv (init src aft).
Proof.
  constructor; cbn; auto.
  - intros [|] ? ? E; discriminate.
  - intros m Hm. cbn in Hm. repeat (destruct Hm as [Hm|Hm]; [discriminate|]). tauto.
Qed.

Lemma tokenize_good fuel src aft : good (init src aft) (tokenize fuel src aft).
Proof.
  unfold tokenize. apply good_bind; [apply parse_xmq_good|]. intros s.
  destruct (s_rest s); [apply good_self|]. apply good_err. discriminate.
Qed.
