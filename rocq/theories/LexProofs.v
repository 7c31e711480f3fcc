(** The parser model reads every text of the grammar: which tokens it emits
    for each construct. *)
From Coq Require Import NArith ZArith List Bool Arith Lia.
From Verif Require Import Bytes BytesFacts Parser ParserSpec ParserProofs Dom Grammar.
Import ListNotations.
Local Open Scope N_scope.
Local Open Scope pout_scope.

Definition shape (t : token) : kind * bytes := (t_kind t, t_text t).

(** s' is s after the text t has been read and tokens of the shapes sh have
    been emitted. *)
Record ate (t : bytes) (sh : list (kind * bytes)) (s s' : pst) : Prop := Ate {
  a_pre : s_pre s' = rev t ++ s_pre s;
  a_rest : s_rest s = t ++ s_rest s';
  a_aft : s_aft s' = s_aft s;
  a_toks : exists T, s_toks s' = rev T ++ s_toks s /\ map shape T = sh }.

Lemma ate_nil s : ate [] [] s s.
Proof. constructor; auto. exists []. auto. Qed.
Lemma ate_trans t u a b s s' s'' : ate t a s s' -> ate u b s' s'' -> ate (t ++ u) (a ++ b) s s''.
Proof.
  intros [H1 H2 H3 (T & H4 & H5)] [G1 G2 G3 (U & G4 & G5)]. constructor.
  - now rewrite G1, H1, rev_app_distr, app_assoc.
  - now rewrite H2, G2, app_assoc.
  - congruence.
  - exists (T ++ U). rewrite G4, H4, rev_app_distr, app_assoc, map_app. split; congruence.
Qed.
Lemma ate_rest t sh s s' y : ate t sh s s' -> s_rest s = t ++ y -> s_rest s' = y.
Proof. intros H E. rewrite (a_rest _ _ _ _ H) in E. now apply app_inv_head in E. Qed.
Lemma ate_nul t sh s s' : ate t sh s s' -> nul_after s -> nul_after s'.
Proof. intros H. unfold nul_after. now rewrite (a_aft _ _ _ _ H). Qed.

Lemma between_ate t sh s s' : ate t sh s s' -> between s s' = t.
Proof.
  intros H. unfold between. rewrite (a_pre _ _ _ _ H), app_length, Nat.add_sub.
  rewrite firstn_app, Nat.sub_diag, firstn_O, app_nil_r, firstn_all. apply rev_involutive.
Qed.
Lemma ate_emit_from k t s s' : ate t [] s s' -> ate t [(k, t)] s (emit_from k s s').
Proof.
  intros H. unfold emit_from. rewrite (between_ate _ _ _ _ H). destruct H as [H1 H2 H3 (T & H4 & H5)].
  destruct T; [|discriminate]. constructor; cbn; auto.
  exists [Tok k (s_line s) (s_col s) t []]. cbn. rewrite H4. auto.
Qed.
Lemma ate_set_cur t s k : k_pre k = rev t ++ s_pre s -> s_rest s = t ++ k_rest k -> ate t [] s (set_cur s k).
Proof. intros. constructor; cbn; auto. exists []. auto. Qed.
Lemma ate_step c s r : s_rest s = c :: r -> ate [c] [] s (step c s).
Proof.
  intros H. unfold step. destruct (inc c _) as [l k]. rewrite H. constructor; cbn; auto. exists []. auto.
Qed.
Lemma ate_single k c s r : s_rest s = c :: r -> ate [c] [(k, [c])] s (single k c s).
Proof. intros H. apply ate_emit_from. eapply ate_step; eauto. Qed.

Lemma peek_rest s c r : s_rest s = c :: r -> peek s = Some c.
Proof. unfold peek. now intros ->. Qed.
Lemma peek_is_rest s c r d : s_rest s = c :: r -> peek_is d s = (c =? d).
Proof. unfold peek_is. intros H. now rewrite (peek_rest _ _ _ H). Qed.
Lemma peek_is_nil s d : nul_after s -> s_rest s = [] -> peek_is d s = (0 =? d).
Proof. unfold peek_is, peek, nul_after. intros N H. rewrite H. destruct (s_aft s); cbn in *; [discriminate|]. now injection N as ->. Qed.
Lemma peek_not s y c : nul_after s -> s_rest s = y -> ~ starts (is c) y -> c <> 0 -> peek_is c s = false.
Proof.
  intros N E H Hc. destruct y as [|d r].
  - rewrite peek_is_nil by auto. apply N.eqb_neq. congruence.
  - rewrite (peek_is_rest _ _ _ _ E). apply N.eqb_neq. intros ->. apply H. exists c, r. split; auto. apply N.eqb_refl.
Qed.

(* ---------- white space ---------- *)

Lemma solid_count y : ~ begins_white y <-> count_ws y = 0%nat.
Proof.
  split.
  - intros H. destruct y as [|c r]; auto. destruct (count_ws (c :: r)) as [|[|[|n]]] eqn:E; auto; exfalso; apply H.
    + apply count_ws_1 in E. now constructor.
    + apply count_ws_2 in E. destruct E as (d & r' & -> & -> & ->). apply bw_2.
    + apply count_ws_3 in E. destruct E as (d & e & r' & -> & -> & -> & E & _). apply bw_3. cbn. intuition auto.
  - intros E H. destruct H as [c r H|r|e r H].
    + apply count_ws_1 with (r := r) in H. lia.
    + discriminate.
    + cbn in H. destruct H as [<-|[<-|[<-|[<-|[]]]]]; discriminate.
Qed.

Lemma ws_loop_exact w y : ws_text w -> ~ begins_white y -> forall pre p,
  exists q, ws_loop pre (w ++ y) p = Cur (rev w ++ pre) y q.
Proof.
  intros H Hy. apply solid_count in Hy. induction H as [|c t Hc _ IH|t _ IH|e t He _ IH]; intros pre p.
  - cbn [app rev]. destruct y as [|c r]; [eexists; reflexivity|]. cbn [ws_loop]. rewrite Hy. eexists; reflexivity.
  - cbn [app]. assert (Hx : is_xml_whitespace c = true).
    { unfold is_xmq_token_whitespace in Hc. unfold is_xml_whitespace. destruct (c =? cSP), (c =? cNL), (c =? cCR), (c =? cTAB); auto. }
    assert (E : count_ws (c :: t ++ y) = 1%nat) by now apply count_ws_1.
    cbn [ws_loop]. rewrite E. replace (c =? cTAB) with false.
    + destruct (IH (c :: pre) (inc c p)) as (q & ->). exists q. f_equal. cbn [rev]. now rewrite <- app_assoc.
    + symmetry. apply N.eqb_neq. intros ->. discriminate.
  - cbn [app]. change (ws_loop pre (0xc2 :: 0xa0 :: t ++ y) p) with (ws_loop (0xa0 :: 0xc2 :: pre) (t ++ y) (inc 0xc2 p)).
    destruct (IH (0xa0 :: 0xc2 :: pre) (inc 0xc2 p)) as (q & ->). exists q. f_equal. cbn [rev]. now rewrite <- !app_assoc.
  - cbn [app].
    assert (E : ws_loop pre (0xe2 :: 0x80 :: e :: t ++ y) p = ws_loop (e :: 0x80 :: 0xe2 :: pre) (t ++ y) (inc 0xe2 p)).
    { destruct He as [-> |[-> |[-> | ->]]]; reflexivity. }
    rewrite E. destruct (IH (e :: 0x80 :: 0xe2 :: pre) (inc 0xe2 p)) as (q & ->). exists q. f_equal. cbn [rev]. now rewrite <- !app_assoc.
Qed.

Lemma xmq_ws_xml c : is_xmq_token_whitespace c = true -> is_xml_whitespace c = true.
Proof.
  unfold is_xmq_token_whitespace, is_xml_whitespace. destruct (c =? cSP), (c =? cNL), (c =? cCR), (c =? cTAB); auto.
Qed.

Definition wsh (w : bytes) : list (kind * bytes) := match w with [] => [] | _ => [(Kwhitespace, w)] end.

Lemma lex_ws s c t y : s_rest s = (c :: t) ++ y -> gap (c :: t) y ->
  ate (c :: t) [(Kwhitespace, c :: t)] s (parse_whitespace s).
Proof.
  intros E ([W|(c' & t' & W & H1 & H2)] & Hy); [discriminate|]. injection W as <- <-.
  unfold parse_whitespace. apply ate_emit_from.
  assert (WT : ws_text (c :: t)) by now constructor.
  destruct (ws_loop_exact (c :: t) y WT Hy (s_pre s) (s_line s, s_col s)) as (q & H). rewrite E, H.
  apply ate_set_cur; cbn; auto.
Qed.

Lemma gap_first w y : gap w y -> w = [] \/ exists c t, w = c :: t /\ is_xmq_token_whitespace c = true.
Proof. intros ([->|(c & t & -> & H & _)] & _); eauto. Qed.

Lemma solid_not_xml c r : ~ begins_white (c :: r) -> is_xml_whitespace c = false.
Proof. intros H. destruct (is_xml_whitespace c) eqn:E; auto. exfalso. apply H. now constructor. Qed.

Lemma lex_skip s w y : nul_after s -> s_rest s = w ++ y -> gap w y ->
  exists s', skip_space s = POk s' /\ ate w (wsh w) s s'.
Proof.
  intros N E G. destruct (gap_first _ _ G) as [->|(c & t & -> & Hc)].
  - cbn in E. exists s. split; [|apply ate_nil]. unfold skip_space. destruct y as [|c r].
    + unfold peek. rewrite E. unfold nul_after in N. destruct (s_aft s) as [|a q]; [discriminate|]. cbn in *.
      injection N as ->. reflexivity.
    + rewrite (peek_rest _ _ _ E). now rewrite (solid_not_xml c r) by apply G.
  - exists (parse_whitespace s). pose proof (lex_ws s c t y E G) as A. split; [|exact A].
    unfold skip_space. rewrite (peek_rest s c (t ++ y)) by exact E. rewrite (xmq_ws_xml _ Hc).
    pose proof (ate_nul _ _ _ _ A N) as N'. unfold nul_after in N'.
    unfold peek. destruct (s_rest (parse_whitespace s)) as [|a q]; [|reflexivity].
    destruct (s_aft (parse_whitespace s)); [discriminate|reflexivity].
Qed.

(* ---------- quotes ---------- *)

Lemma count_quotes_app d y : ~ starts (is cQ) y -> count_quotes (rep cQ d ++ y) = d.
Proof.
  intros H. induction d as [|d IH]; cbn.
  - destruct y as [|c r]; auto. cbn. destruct (N.eqb_spec c cQ) as [->|]; auto. exfalso. apply H. exists cQ, r. auto.
  - now f_equal.
Qed.
Lemma eat_n_exact c n : forall pre y p, exists q, eat_n c n (Cur pre (rep c n ++ y) p) = Cur (rev (rep c n) ++ pre) y q.
Proof.
  induction n as [|n IH]; intros pre y p; cbn; [eexists; reflexivity|].
  fold (rep c n). destruct (IH (c :: pre) y (inc c p)) as (q & ->). exists q. f_equal. now rewrite <- app_assoc.
Qed.

Lemma not_starts_cons c r p : ~ starts p (c :: r) -> p c = false.
Proof. intros H. destruct (p c) eqn:E; auto. exfalso. apply H. exists c, r. auto. Qed.

(** The loop over the body of a quote. *)
Lemma quote_loop_exact d z : ~ starts (is cQ) z -> (1 <= d)%nat -> forall b sk,
  (sk <= count_quotes (b ++ rep cQ d ++ z))%nat ->
  ~ starts (is cQ) (rev b) -> (b = [] -> sk = 0%nat) ->
  (forall x k y, b = x ++ rep cQ k ++ y -> (k < d)%nat) ->
  forall pre p, exists q,
  quote_loop d sk pre (b ++ rep cQ d ++ z) p = inr (Cur (rev (b ++ rep cQ d) ++ pre) z q).
Proof.
  intros Hz Hd. induction b as [|c b IH]; intros sk Hs Hl He Hr pre p.
  - rewrite He by auto. cbn [app]. destruct d as [|d]; [lia|]. cbn [rep repeat app quote_loop].
    change (cQ =? cQ) with true. cbn [negb]. change (cQ :: repeat cQ d ++ z) with (rep cQ (S d) ++ z).
    rewrite count_quotes_app by auto. rewrite Nat.ltb_irrefl.
    destruct (eat_n_exact cQ (S d) pre z p) as (q & ->). exists q. reflexivity.
  - assert (Hl' : ~ starts (is cQ) (rev b)).
    { intros (x & r & E & Hx). apply Hl. cbn [rev]. rewrite E. exists x, (r ++ [c]). auto. }
    assert (Hr' : forall x k y, b = x ++ rep cQ k ++ y -> (k < d)%nat).
    { intros x k y ->. apply (Hr (c :: x) k y). reflexivity. }
    assert (F : forall pre p sk, (sk <= count_quotes (b ++ rep cQ d ++ z))%nat -> (b = [] -> sk = 0%nat) ->
       exists q, quote_loop d sk (c :: pre) (b ++ rep cQ d ++ z) p = inr (Cur (rev ((c :: b) ++ rep cQ d) ++ pre) z q)).
    { intros pre' p' sk' H1 H2. destruct (IH sk' H1 Hl' H2 Hr' (c :: pre') p') as (q & ->). exists q. f_equal. f_equal.
      cbn [app rev]. now rewrite <- app_assoc. }
    cbn [app]. cbn [quote_loop]. destruct sk as [|sk].
    + destruct (N.eqb_spec c cQ) as [->|Hc]; cbn [negb].
      * set (n := count_quotes (cQ :: b ++ rep cQ d ++ z)).
        assert (Hn : (n < d)%nat).
        { destruct (count_quotes_split (cQ :: b)) as (u & Eu & Hu).
          destruct u as [|a u].
          - exfalso. apply Hl. rewrite Eu, app_nil_r. unfold rep. 
            assert (Hrr : forall m, (0 < m)%nat -> starts (is cQ) (rev (repeat cQ m))).
            { intros m Hm. destruct m; [lia|]. change (S m) with (1 + m)%nat. rewrite Nat.add_comm, repeat_app, rev_app_distr.
              exists cQ, (rev (repeat cQ m)). auto. }
            apply Hrr. cbn. lia.
          - assert (Ea : n = count_quotes (cQ :: b)).
            { unfold n. change (cQ :: b ++ rep cQ d ++ z) with ((cQ :: b) ++ rep cQ d ++ z). rewrite Eu at 1.
              rewrite <- app_assoc. apply count_quotes_app. intros (x & r & Ex & Hx). injection Ex as -> _.
              apply N.eqb_eq in Hx. apply Hu. cbn. congruence. }
            rewrite Ea. apply (Hr [] _ (a :: u)). exact Eu. }
        replace (Nat.ltb d n) with false by (symmetry; apply Nat.ltb_ge; lia).
        replace (Nat.ltb n d) with true by (symmetry; apply Nat.ltb_lt; lia).
        apply F.
        -- unfold n. cbn [count_quotes]. change (cQ =? cQ) with true. cbn iota. lia.
        -- intros ->. exfalso. apply Hl. exists cQ, []. auto.
      * apply F; auto. lia.
    + apply F.
      * cbn [count_quotes app] in Hs. destruct (c =? cQ); lia.
      * intros ->. cbn [app count_quotes] in Hs. destruct (N.eqb_spec c cQ) as [->|Hc]; [|lia].
        exfalso. apply Hl. exists cQ, []. auto.
Qed.

Lemma starts_rep c d y : (1 <= d)%nat -> starts (is c) (rep c d ++ y).
Proof. intros H. destruct d; [lia|]. exists c, (rep c d ++ y). split; auto. apply N.eqb_refl. Qed.

(** A quote with d quotes around b. *)
Lemma lex_delimited s d b z : (1 <= d)%nat -> d <> 2%nat -> quote_body d b -> ~ starts (is cQ) z ->
  s_rest s = (rep cQ d ++ b ++ rep cQ d) ++ z -> exists s', eat_quote s = POk s' /\ ate (rep cQ d ++ b ++ rep cQ d) [] s s'.
Proof.
  intros H1 H2 (B1 & B2 & B3 & B4) Hz E. unfold eat_quote.
  rewrite E, <- !app_assoc. rewrite count_quotes_app.
  2:{ intros (c & r & Ec & Hc). apply B2. destruct b as [|x b]; [congruence|]. injection Ec as -> _. exists c, b. auto. }
  replace (Nat.eqb d 0) with false by (symmetry; apply Nat.eqb_neq; lia).
  replace (Nat.eqb d 2) with false by (symmetry; apply Nat.eqb_neq; lia).
  unfold cur_of. cbn [s_pre s_rest set_quote]. rewrite E, <- !app_assoc.
  match goal with |- context [eat_n cQ d (Cur ?a _ ?p)] => destruct (eat_n_exact cQ d a (b ++ rep cQ d ++ z) p) as (q & ->) end.
  cbn [k_pre k_rest k_pos].
  destruct (quote_loop_exact d z Hz H1 b 0%nat) with (pre := rev (rep cQ d) ++ s_pre s) (p := q) as (q' & ->); auto; [lia|].
  set (s1 := set_cur _ _).
  assert (A : ate (rep cQ d ++ b ++ rep cQ d) [] s s1).
  { constructor; cbn; auto.
    - now rewrite !rev_app_distr, <- !app_assoc.
    - exists []; auto. }
  destruct (need_more_quotes s1); eexists; split; try reflexivity; auto.
  destruct A. constructor; auto.
Qed.
Lemma lex_eat_quote s pre q z v : s_rest s = q ++ z -> quote pre q z v ->
  exists s', eat_quote s = POk s' /\ ate q [] s s'.
Proof.
  intros E H. destruct H as [z Hz|d b z H1 H2 Hb Hp Hz]; [|now apply lex_delimited with (z := z)]. unfold eat_quote.
  rewrite E. change ([cQ; cQ] ++ z) with (rep cQ 2 ++ z). rewrite count_quotes_app by auto. cbn [Nat.eqb].
  eexists. split; [reflexivity|]. unfold cur_of. cbn [s_pre s_rest set_quote]. rewrite E.
  change ([cQ; cQ] ++ z) with (rep cQ 2 ++ z).
  match goal with |- context [eat_n cQ 2 (Cur ?a _ ?p)] => destruct (eat_n_exact cQ 2 a z p) as (q & ->) end.
  constructor; cbn; auto. exists []; auto.
Qed.

Lemma lex_quote l s pre q z v : s_rest s = q ++ z -> quote pre q z v ->
  exists s', parse_quote l s = POk s' /\ ate q [(quote_kind l, q)] s s'.
Proof.
  intros E H. destruct (lex_eat_quote s pre q z v E H) as (s' & Es & A). unfold parse_quote. rewrite Es.
  eexists. split; [reflexivity|]. now apply ate_emit_from.
Qed.

(* ---------- entities ---------- *)

Lemma entity_loop_exact n : forallb is_xmq_text_name n = true -> forall pre z p c e,
  exists q e', entity_loop pre (n ++ cSEMI :: z) p c e = (Cur (rev n ++ pre) (cSEMI :: z) q, cSEMI, e').
Proof.
  induction n as [|d n IH]; intros H pre z p c e.
  - exists p, e. reflexivity.
  - cbn in H. apply andb_true_iff in H as [H1 H2]. cbn [app entity_loop]. rewrite H1. cbn [negb].
    destruct (IH H2 (d :: pre) z (inc d p) d (if is_lowercase_hex d then e else true)) as (q & e' & ->).
    exists q, e'. cbn [rev]. now rewrite <- app_assoc.
Qed.

Lemma entity_form e p : entity e p -> exists n, e = cAMP :: n ++ [cSEMI] /\ forallb is_xmq_text_name n = true.
Proof.
  assert (D : forall n a u, number 10 dec_digit n a = Some u -> forallb is_xmq_text_name n = true).
  { induction n as [|c n IH]; intros a u H; auto. cbn in *. destruct (dec_digit c) eqn:E; [|discriminate].
    apply IH in H. rewrite H, andb_true_r. unfold dec_digit in E. destruct (in_range 48 57 c) eqn:R; [|discriminate].
    unfold is_xmq_text_name. rewrite R. now rewrite !orb_true_r. }
  assert (X : forall n a u, number 16 hex_digit n a = Some u -> forallb is_xmq_text_name n = true).
  { induction n as [|c n IH]; intros a u H; auto. cbn in *. destruct (hex_digit c) eqn:E; [|discriminate].
    apply IH in H. rewrite H, andb_true_r. unfold hex_digit in E. unfold is_xmq_text_name, in_range in *.
    destruct ((48 <=? c) && (c <=? 57)); [now rewrite !orb_true_r|].
    destruct ((97 <=? c) && (c <=? 102)) eqn:F.
    - bsplit. replace (97 <=? c) with true by (symmetry; apply N.leb_le; lia). replace (c <=? 122) with true by (symmetry; apply N.leb_le; lia). reflexivity.
    - destruct ((65 <=? c) && (c <=? 70)) eqn:G; [|discriminate].
      bsplit. replace (65 <=? c) with true by (symmetry; apply N.leb_le; lia). replace (c <=? 90) with true by (symmetry; apply N.leb_le; lia). now rewrite !orb_true_r. }
  intros [n [H1 H2] H3|n u H1 H2 H3|n u H1 H2 H3].
  - exists n. auto.
  - exists (cHASH :: n). split; [reflexivity|]. cbn. eauto.
  - exists (cHASH :: 120 :: n). split; [reflexivity|]. cbn. eauto.
Qed.

Lemma peek_some s : nul_after s -> exists c, peek s = Some c.
Proof.
  unfold nul_after, peek. intros N. destruct (s_rest s) as [|c r]; [|eexists; reflexivity].
  destruct (s_aft s); [discriminate|]. eexists; reflexivity.
Qed.

Lemma lex_entity l s e z p : nul_after s -> s_rest s = e ++ z -> entity e p ->
  exists s', parse_entity l s = POk s' /\ ate e [(entity_kind l, e)] s s'.
Proof.
  intros N E H. destruct (entity_form _ _ H) as (n & -> & Hn). unfold parse_entity.
  assert (X : exists s', eat_entity s = POk s' /\ ate (cAMP :: n ++ [cSEMI]) [] s s').
  { cbn [app] in E. rewrite <- app_assoc in E. cbn [app] in E. unfold eat_entity.
    pose proof (ate_step cAMP s _ E) as A1. set (s1 := step cAMP s) in *.
    pose proof (ate_rest _ _ _ _ (n ++ cSEMI :: z) A1 E) as R1. rewrite R1.
    destruct (entity_loop_exact n Hn (s_pre s1) z (s_line s1, s_col s1) 0 false) as (q & e' & ->).
    change (cSEMI =? cSEMI) with true. cbn iota. set (s2 := set_cur s1 _).
    assert (A2 : ate n [] s1 s2) by (apply ate_set_cur; auto).
    pose proof (ate_rest _ _ _ _ (cSEMI :: z) A2 R1) as R2.
    pose proof (ate_step cSEMI s2 _ R2) as A3.
    pose proof (ate_trans _ _ _ _ _ _ _ A1 (ate_trans _ _ _ _ _ _ _ A2 A3)) as A.
    destruct (peek_some (step cSEMI s2)) as (c & ->); [eapply ate_nul; eauto|].
    eexists. split; [reflexivity|exact A]. }
  destruct X as (s' & -> & A). eexists. split; [reflexivity|]. now apply ate_emit_from.
Qed.

Lemma quote_form pre q z v : quote pre q z v -> exists r, q = cQ :: r.
Proof. intros [|d b z' H]; [eexists; reflexivity|]. destruct d; [lia|]. eexists. reflexivity. Qed.

(* ---------- values ---------- *)

Lemma safe_end z : is_safe_value_char z = true <-> ~ value_end z.
Proof.
  unfold value_end. destruct z as [|c r]; [split; [discriminate|intros H; exfalso; auto]|].
  unfold is_safe_value_char. rewrite negb_true_iff. split.
  - intros H. rewrite !orb_false_iff in H. destruct H as (((((((((H1 & H2) & H3) & H4) & H5) & H6) & H7) & H8) & H9) & H10).
    intros [X|[X|X]]; [discriminate| |].
    + apply Nat.ltb_ge in H1. assert (count_ws (c :: r) = 0%nat) by lia. now apply solid_count in H.
    + destruct X as (d & q & X & Y). injection X as -> ->. unfold one_of, ends_value in Y. cbn [existsb] in Y.
      rewrite H3, H4, H5, H6, H7, H8 in Y. discriminate.
  - intros H. assert (S : ~ begins_white (c :: r)) by tauto. pose proof (solid_not_xml _ _ S) as X. apply solid_count in S. rewrite S.
    assert (O : one_of ends_value c = false). { destruct (one_of ends_value c) eqn:O; auto. exfalso. apply H. right. right. exists c, r. auto. }
    unfold one_of, ends_value in O. cbn [existsb] in O. unfold is_xml_whitespace in X.
    change (Nat.ltb 0 0) with false.
    destruct (c =? cNL), (c =? cLP), (c =? cRP), (c =? cQ), (c =? cDQ), (c =? cLB), (c =? cRB), (c =? cTAB), (c =? cCR); cbn in *; auto;
      rewrite ?orb_true_r in *; discriminate.
Qed.
Lemma unsafe_end z : value_end z -> is_safe_value_char z = false.
Proof. intros H. destruct (is_safe_value_char z) eqn:E; auto. apply safe_end in E. contradiction. Qed.

Lemma value_loop_exact z : value_end z -> forall t, (forall x y, t = x ++ y -> y <> [] -> ~ value_end (y ++ z)) ->
  forall pre p, exists q, value_loop pre (t ++ z) p = Cur (rev t ++ pre) z q.
Proof.
  intros Hz. induction t as [|c t IH]; intros H pre p.
  - cbn [app rev]. destruct z as [|c r]; cbn [value_loop]; [eexists; reflexivity|]. rewrite (unsafe_end _ Hz). eexists; reflexivity.
  - cbn [app value_loop]. assert (S : is_safe_value_char (c :: t ++ z) = true).
    { apply safe_end. apply (H [] (c :: t)); auto. discriminate. }
    rewrite S. destruct (IH) with (pre := c :: pre) (p := inc c p) as (q & ->).
    + intros x y -> Hy. apply (H (c :: x) y); auto.
    + exists q. cbn [rev]. now rewrite <- app_assoc.
Qed.

Definition value_kind (l : level) : kind := match l with LAttr => Kattr_value_text | _ => Kelement_value_text end.

Lemma lex_bare l s t z : s_rest s = t ++ z -> bare t z -> ate t [(value_kind l, t)] s (parse_text_value l s).
Proof.
  intros E (_ & _ & _ & Hz & Ht). unfold parse_text_value. apply ate_emit_from. rewrite E.
  destruct (value_loop_exact z Hz t Ht (s_pre s) (s_line s, s_col s)) as (q & ->). apply ate_set_cur; auto.
Qed.

Lemma lex_piece l s pre t z p : nul_after s -> s_rest s = t ++ z -> piece pre t z p ->
  exists s' k, (if peek_is cQ s then parse_quote l s else parse_entity l s) = POk s' /\ ate t [(k, t)] s s'
    /\ ((peek_is cQ s = true /\ k = quote_kind l /\ exists v, p = PText v /\ quote pre t z v)
        \/ (peek_is cQ s = false /\ peek_is cAMP s = true /\ k = entity_kind l /\ entity t p)).
Proof.
  intros N E H. destruct H as [t z v H|t z p H].
  - destruct (quote_form _ _ _ _ H) as (r & Hr). assert (P : peek_is cQ s = true).
    { rewrite (peek_is_rest s cQ (r ++ z)); [reflexivity|]. rewrite E, Hr. reflexivity. }
    rewrite P. destruct (lex_quote l s pre t z v E H) as (s' & -> & A). exists s', (quote_kind l). split; auto. split; auto.
    left. repeat split; auto. eauto.
  - destruct (entity_form _ _ H) as (n & Hn & _). assert (R : s_rest s = cAMP :: (n ++ [cSEMI]) ++ z).
    { rewrite E, Hn. reflexivity. }
    rewrite !(peek_is_rest _ _ _ _ R). change (cAMP =? cQ) with false. cbn iota.
    destruct (lex_entity l s t z p N E H) as (s' & -> & A). exists s', (entity_kind l). split; [reflexivity|]. split; [exact A|]. right. repeat split; auto.
Qed.

