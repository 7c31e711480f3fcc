(** Proofs about line ends: the tokens do not depend on them. *)
From Coq Require Import NArith List Bool Arith Lia String.
From Verif Require Import Bytes BytesFacts Parser ParserSpec LineEnds LineEndsText.
Import ListNotations.
Local Open Scope N_scope.

(** Tokens whose text has no line ends. *)
Definition one_line (k : kind) : bool :=
  match k with
  | Kwhitespace | Kquote | Kcomment | Kcomment_continuation | Kelement_value_quote | Kelement_value_compound_quote
  | Kattr_value_quote | Kattr_value_compound_quote => false
  | _ => true
  end.
Record tsim (t t' : token) : Prop := {
  ts_same : same_token t t';
  ts_text : one_line (t_kind t) = true -> t_text t' = t_text t }.

Record sim (s s' : pst) : Prop := {
  m_pre : line_ends (rev (s_pre s)) (rev (s_pre s'));
  m_rest : line_ends (s_rest s) (s_rest s');
  m_aft : s_aft s' = s_aft s;
  m_nul : exists a, s_aft s = 0 :: a;
  m_line : s_line s' = s_line s;
  m_col : s_col s' = s_col s;
  m_toks : Forall2 tsim (s_toks s) (s_toks s');
  m_body : same_where (s_body s) (s_body s');
  m_attr : same_where (s_attr s) (s_attr s');
  m_quote : same_where (s_quote s) (s_quote s');
  m_equals : same_where (s_equals s) (s_equals s') }.

Inductive psim : pout -> pout -> Prop :=
| ps_ok s s' : sim s s' -> psim (POk s) (POk s')
| ps_err e s s' : sim s s' -> psim (PErr e s) (PErr e s')
| ps_ub : psim PUB PUB
| ps_abrt : psim PAbrt PAbrt
| ps_fuel s s' : sim s s' -> psim (PNoFuel s) (PNoFuel s').

Lemma psim_bind r r' f f' : psim r r' -> (forall s s', sim s s' -> psim (f s) (f' s')) -> psim (pbind r f) (pbind r' f').
Proof. intros H Hf. destruct H; cbn [pbind]; auto; constructor; auto. Qed.

(* ---------- the next byte ---------- *)
(** Equal, or the start of a line end. *)
Definition cc (c c' : N) : Prop := c' = c \/ (c = cNL /\ c' = cCR).
Lemma cc_eq q c c' : cc c c' -> q <> cNL -> q <> cCR -> (c' =? q) = (c =? q).
Proof.
  intros [-> |[-> ->]] H1 H2; auto. rewrite (proj2 (N.eqb_neq cCR q)), (proj2 (N.eqb_neq cNL q)); auto.
Qed.
Lemma cc_ws c c' : cc c c' -> is_xml_whitespace c' = is_xml_whitespace c.
Proof. intros [-> |[-> ->]]; auto. Qed.
Lemma le_hd c r z : line_ends (c :: r) z -> exists c' r', z = c' :: r' /\ cc c c'.
Proof. intros H. inversion H; subst; eexists; eexists; split; eauto; [now left|right; auto]. Qed.
Lemma le_cons c r z : c <> cNL -> line_ends (c :: r) z -> exists r', z = c :: r' /\ line_ends r r'.
Proof. intros Hc H. inversion H; subst; [eauto|congruence]. Qed.

Lemma sim_peek s s' : sim s s' -> exists c c', peek s = Some c /\ peek s' = Some c' /\ cc c c'.
Proof.
  intros H. unfold peek. rewrite (m_aft _ _ H). destruct (m_nul _ _ H) as (a & ->).
  pose proof (m_rest _ _ H) as R. destruct (s_rest s) as [|c r].
  - apply le_nil in R as ->. exists 0, 0. repeat split; auto. now left.
  - apply le_hd in R as (c' & r' & -> & Hc). exists c, c'. auto.
Qed.
Lemma sim_peek_is q s s' : sim s s' -> q <> cNL -> q <> cCR -> peek_is q s' = peek_is q s.
Proof.
  intros H H1 H2. destruct (sim_peek _ _ H) as (c & c' & E & E' & Hc). unfold peek_is. rewrite E, E'. now apply cc_eq.
Qed.
Lemma peek_is_rest c s s' : sim s s' -> c <> 0 -> peek_is c s = true -> exists r, s_rest s = c :: r.
Proof.
  intros H Hc P. unfold peek_is, peek in P. destruct (m_nul _ _ H) as (a & Ea). rewrite Ea in P.
  destruct (s_rest s) as [|d r]; cbn in P.
  - destruct c; [congruence|discriminate].
  - apply N.eqb_eq in P. subst d. eauto.
Qed.

(* ---------- moving ---------- *)
Record went (pre rest pre' rest' : bytes) (k k' : cur) (t t' : bytes) : Prop := {
  w_pre : k_pre k = rev t ++ pre;
  w_pre' : k_pre k' = rev t' ++ pre';
  w_rest : rest = t ++ k_rest k;
  w_rest' : rest' = t' ++ k_rest k';
  w_text : line_ends t t';
  w_left : line_ends (k_rest k) (k_rest k');
  w_pos : k_pos k' = k_pos k }.

Lemma went_here pre rest pre' rest' p : line_ends rest rest' -> went pre rest pre' rest' (Cur pre rest p) (Cur pre' rest' p) [] [].
Proof. intros H. constructor; cbn; auto. constructor. Qed.
Lemma went_more a a' pre rest pre' rest' k k' t t' : line_ends a a' ->
  went (rev a ++ pre) rest (rev a' ++ pre') rest' k k' t t' -> went pre (a ++ rest) pre' (a' ++ rest') k k' (a ++ t) (a' ++ t').
Proof.
  intros Ha [H1 H2 H3 H4 H5 H6 H7]. constructor; auto.
  - rewrite H1, rev_app_distr, app_assoc. auto.
  - rewrite H2, rev_app_distr, app_assoc. auto.
  - rewrite H3 at 1. now rewrite app_assoc.
  - rewrite H4 at 1. now rewrite app_assoc.
  - now apply le_app.
Qed.
Lemma went_byte c pre rest pre' rest' k k' t t' :
  went (c :: pre) rest (c :: pre') rest' k k' t t' -> went pre (c :: rest) pre' (c :: rest') k k' (c :: t) (c :: t').
Proof. intros H. apply (went_more [c] [c] pre rest pre' rest' k k' t t'); auto. apply le_refl. Qed.
Lemma went_crlf pre rest pre' rest' k k' t t' :
  went (cNL :: pre) rest (cNL :: cCR :: pre') rest' k k' t t' -> went pre (cNL :: rest) pre' (cCR :: cNL :: rest') k k' (cNL :: t) (cCR :: cNL :: t').
Proof. intros H. apply (went_more [cNL] [cCR; cNL] pre rest pre' rest' k k' t t'); auto. apply le_crlf, le_end. Qed.
Lemma inc_crlf p : inc cNL (inc cCR p) = inc cNL p.
Proof. reflexivity. Qed.

Lemma sim_cur s s' k k' t t' : sim s s' -> went (s_pre s) (s_rest s) (s_pre s') (s_rest s') k k' t t' -> sim (set_cur s k) (set_cur s' k').
Proof.
  intros H W. destruct W as [H1 H2 H3 H4 H5 H6 H7]. constructor; cbn; try apply H; auto.
  - rewrite H1, H2, !rev_app_distr, !rev_involutive. apply le_app; auto. apply H.
  - now rewrite H7.
  - now rewrite H7.
Qed.

(** What has been eaten. *)
Record moved (s s' s1 s1' : pst) (t t' : bytes) : Prop := {
  v_pre : s_pre s1 = rev t ++ s_pre s;
  v_pre' : s_pre s1' = rev t' ++ s_pre s';
  v_text : line_ends t t' }.
Lemma between_rev (s s1 : pst) t : s_pre s1 = rev t ++ s_pre s -> between s s1 = t.
Proof.
  intros H. unfold between. rewrite H, app_length, rev_length. replace (_ - _)%nat with (List.length (rev t)) by (rewrite rev_length; lia).
  rewrite firstn_app, firstn_all, Nat.sub_diag. cbn. now rewrite app_nil_r, rev_involutive.
Qed.
Lemma went_moved s s' k k' t t' : went (s_pre s) (s_rest s) (s_pre s') (s_rest s') k k' t t' -> moved s s' (set_cur s k) (set_cur s' k') t t'.
Proof. intros H. constructor; apply H. Qed.

Lemma sim_emit k l c x x' s s' : sim s s' -> line_ends x x' -> (one_line k = true -> x' = x) ->
  sim (emit k l c x [] s) (emit k l c x' [] s').
Proof.
  intros H Hx Ho. constructor; cbn; try apply H. constructor; [|apply H]. constructor; cbn; auto. constructor; auto.
Qed.
Lemma sim_emit_same k l c x y s s' : sim s s' -> sim (emit k l c x y s) (emit k l c x y s').
Proof.
  intros H. constructor; cbn; try apply H. constructor; [|apply H]. constructor; cbn; auto. constructor; auto. apply le_refl.
Qed.
Lemma emit_from_sim k s s' s1 s1' t t' : sim s s' -> sim s1 s1' -> moved s s' s1 s1' t t' -> (one_line k = true -> ~ In cNL t) ->
  sim (emit_from k s s1) (emit_from k s' s1').
Proof.
  intros H H1 V Ho. unfold emit_from. rewrite (between_rev s s1 t), (between_rev s' s1' t') by apply V.
  rewrite (m_line _ _ H), (m_col _ _ H). apply sim_emit; auto; [apply V|]. intros E. apply le_single; [apply V|auto].
Qed.

(* ---------- white space ---------- *)
Lemma count_ws_le r r' : line_ends r r' -> count_ws r' = count_ws r.
Proof.
  intros H. inversion H as [|c s s' H1|s s' H1]; subst; auto. cbn [count_ws].
  destruct (is_xml_whitespace c); auto. inversion H1 as [|d u u' H2|u u' H2]; subst; auto.
  - destruct ((c =? 0xc2) && (d =? 0xa0)); auto. destruct ((c =? 0xe2) && (d =? 0x80)); auto.
    inversion H2; subst; auto.
  - change (cNL =? 0xa0) with false. change (cCR =? 0xa0) with false. change (cNL =? 0x80) with false. change (cCR =? 0x80) with false.
    rewrite !andb_false_r. auto.
Qed.
Lemma ws_loop_eq pre c r p : ws_loop pre (c :: r) p =
    match count_ws (c :: r) with
    | O => Cur pre (c :: r) p
    | 1%nat => if c =? cTAB then Cur pre (c :: r) p else ws_loop (c :: pre) r (inc c p)
    | 2%nat => match r with
               | d :: r' => ws_loop (d :: c :: pre) r' (inc c p)
               | [] => Cur pre (c :: r) p
               end
    | _ => match r with
           | d :: e :: r' => ws_loop (e :: d :: c :: pre) r' (inc c p)
           | _ => Cur pre (c :: r) p
           end
    end.
Proof. reflexivity. Qed.
Lemma count_ws_2 c r : count_ws (c :: r) = 2%nat -> exists r', r = 0xa0 :: r'.
Proof.
  cbn [count_ws]. destruct (is_xml_whitespace c); [discriminate|]. destruct r as [|d r]; [discriminate|].
  destruct ((c =? 0xc2) && (d =? 0xa0)) eqn:E.
  - apply andb_true_iff in E as [_ E]. apply N.eqb_eq in E. subst d. eauto.
  - clear E. intros E. destruct ((c =? 0xe2) && (d =? 0x80)); [|discriminate E]. destruct r as [|e r]; [discriminate E|]. destruct (_ || (e =? 0x83)); discriminate E.
Qed.
Lemma count_ws_3 c r n : count_ws (c :: r) = S (S (S n)) -> exists e r', r = 0x80 :: e :: r' /\ e <> cNL.
Proof.
  cbn [count_ws]. destruct (is_xml_whitespace c); [discriminate|]. destruct r as [|d r]; [discriminate|].
  destruct ((c =? 0xc2) && (d =? 0xa0)); [discriminate|].
  destruct ((c =? 0xe2) && (d =? 0x80)) eqn:E; [|discriminate]. apply andb_true_iff in E as [_ E]. apply N.eqb_eq in E. subst d.
  destruct r as [|e r]; [discriminate|]. destruct (_ || (e =? 0x83)) eqn:D; [|discriminate]. exists e, r. split; auto. intros ->. discriminate.
Qed.
Lemma ws_loop_le : forall n r r' pre pre' p, (List.length r <= n)%nat -> line_ends r r' ->
  exists t t', went pre r pre' r' (ws_loop pre r p) (ws_loop pre' r' p) t t'.
Proof.
  induction n as [|n IH]; intros r r' pre pre' p Hn H.
  { destruct r; [|cbn in Hn; lia]. apply le_nil in H as ->. exists [], []. apply went_here. constructor. }
  pose proof (count_ws_le _ _ H) as Cw. inversion H as [|c s s' H1|s s' H1]; subst.
  - exists [], []. apply went_here. constructor.
  - rewrite !ws_loop_eq, Cw. cbn [List.length] in Hn. destruct (count_ws (c :: s)) as [|[|[|m]]] eqn:Ec.
    + exists [], []. now apply went_here.
    + destruct (c =? cTAB); [exists [], []; now apply went_here|].
      destruct (IH s s' (c :: pre) (c :: pre') (inc c p) ltac:(lia) H1) as (t & t' & W). exists (c :: t), (c :: t'). now apply went_byte.
    + destruct (count_ws_2 _ _ Ec) as (r & ->). apply le_cons in H1 as (r' & -> & H1); [|discriminate].
      destruct (IH r r' (0xa0 :: c :: pre) (0xa0 :: c :: pre') (inc c p) ltac:(cbn in Hn; lia) H1) as (t & t' & W).
      exists (c :: 0xa0 :: t), (c :: 0xa0 :: t'). now apply went_byte, went_byte.
    + destruct (count_ws_3 _ _ _ Ec) as (e & r & -> & He). apply le_cons in H1 as (r1 & -> & H1); [|discriminate]. apply le_cons in H1 as (r' & -> & H1); auto.
      destruct (IH r r' (e :: 0x80 :: c :: pre) (e :: 0x80 :: c :: pre') (inc c p) ltac:(cbn in Hn; lia) H1) as (t & t' & W).
      exists (c :: 0x80 :: e :: t), (c :: 0x80 :: e :: t'). now apply went_byte, went_byte, went_byte.
  - cbn [List.length] in Hn. destruct (IH s s' (cNL :: pre) (cNL :: cCR :: pre') (inc cNL p) ltac:(lia) H1) as (t & t' & W).
    exists (cNL :: t), (cCR :: cNL :: t'). apply went_crlf.
    change (ws_loop pre (cNL :: s) p) with (ws_loop (cNL :: pre) s (inc cNL p)).
    change (ws_loop pre' (cCR :: cNL :: s') p) with (ws_loop (cNL :: cCR :: pre') s' (inc cNL (inc cCR p))).
    now rewrite inc_crlf.
Qed.
Lemma whitespace_sim s s' : sim s s' -> sim (parse_whitespace s) (parse_whitespace s').
Proof.
  intros H. unfold parse_whitespace. rewrite (m_line _ _ H), (m_col _ _ H).
  destruct (ws_loop_le (List.length (s_rest s)) (s_rest s) (s_rest s') (s_pre s) (s_pre s') (s_line s, s_col s) ltac:(lia) (m_rest _ _ H)) as (t & t' & W).
  eapply emit_from_sim; eauto; [eapply sim_cur; eauto|apply went_moved; eauto|discriminate].
Qed.
Lemma skip_sim s s' : sim s s' -> psim (skip_space s) (skip_space s').
Proof.
  intros H. unfold skip_space. destruct (sim_peek _ _ H) as (c & c' & E & E' & Hc). rewrite E, E', (cc_ws _ _ Hc).
  destruct (is_xml_whitespace c); [|now constructor]. pose proof (whitespace_sim _ _ H) as H1. cbv zeta.
  destruct (sim_peek _ _ H1) as (d & d' & E1 & E1' & _). rewrite E1, E1'. now constructor.
Qed.

(* ---------- single bytes ---------- *)
Lemma step_cur c s r : s_rest s = c :: r -> step c s = set_cur s (Cur (c :: s_pre s) r (inc c (s_line s, s_col s))).
Proof. intros E. unfold step. rewrite E. destruct (inc c (s_line s, s_col s)); reflexivity. Qed.
Lemma step_went c s s' r : sim s s' -> c <> cNL -> s_rest s = c :: r -> sim (step c s) (step c s') /\ moved s s' (step c s) (step c s') [c] [c].
Proof.
  intros H Hc E. pose proof (m_rest _ _ H) as R. rewrite E in R. apply le_cons in R as (r' & E' & R); auto.
  rewrite (step_cur _ _ _ E), (step_cur _ _ _ E'). rewrite (m_line _ _ H), (m_col _ _ H).
  assert (W : went (s_pre s) (s_rest s) (s_pre s') (s_rest s') (Cur (c :: s_pre s) r (inc c (s_line s, s_col s))) (Cur (c :: s_pre s') r' (inc c (s_line s, s_col s))) [c] [c]).
  { rewrite E, E'. apply went_byte. now apply went_here. }
  split; [eapply sim_cur; eauto|now apply went_moved].
Qed.
Lemma single_sim k c s s' : sim s s' -> c <> cNL -> c <> 0 -> peek_is c s = true -> sim (single k c s) (single k c s').
Proof.
  intros H Hc H0 P. destruct (peek_is_rest _ _ _ H H0 P) as (r & E). destruct (step_went c s s' r H Hc E) as [S M].
  unfold single. eapply emit_from_sim; eauto. intros _ [I|[]]. auto.
Qed.

(* ---------- marks ---------- *)
Lemma here_same s s' : sim s s' -> same_where (Some (here s)) (Some (here s')).
Proof. intros H. cbn. split; apply H. Qed.
Lemma set_quote_sim s s' m m' : sim s s' -> same_where m m' -> sim (set_quote m s) (set_quote m' s').
Proof. intros H G. constructor; cbn; try apply H. auto. Qed.
Lemma susp_l s s' m : sim s s' -> sim (set_susp m s) s'.
Proof. intros H. constructor; cbn; apply H. Qed.
Lemma susp_r s s' m : sim s s' -> sim s (set_susp m s').
Proof. intros H. constructor; cbn; apply H. Qed.
Lemma set_equals_sim s s' m m' : sim s s' -> same_where m m' -> sim (set_equals m s) (set_equals m' s').
Proof. intros H G. constructor; cbn; try apply H. auto. Qed.
Lemma set_attr_sim s s' m m' : sim s s' -> same_where m m' -> sim (set_attr m s) (set_attr m' s').
Proof. intros H G. constructor; cbn; try apply H. auto. Qed.
Lemma set_body_sim s s' m m' : sim s s' -> same_where m m' -> sim (set_body m s) (set_body m' s').
Proof. intros H G. constructor; cbn; try apply H. auto. Qed.

(* ---------- quotes ---------- *)
Lemma count_quotes_le r r' : line_ends r r' -> count_quotes r' = count_quotes r.
Proof. induction 1 as [|c s s' H IH|s s' H IH]; cbn [count_quotes]; auto. destruct (c =? cQ); auto. Qed.
(** Eating n copies of q. *)
Lemma count_quotes_split r : forall n, (n <= count_quotes r)%nat -> exists z, r = rep cQ n ++ z.
Proof.
  induction r as [|c r IH]; intros n Hn; cbn [count_quotes] in Hn.
  - exists []. now replace n with 0%nat by lia.
  - destruct (N.eqb_spec c cQ) as [->|]; [|exists (c :: r); now replace n with 0%nat by lia].
    destruct n as [|n]; [exists (cQ :: r); auto|]. destruct (IH n) as (z & ->); [lia|]. now exists z.
Qed.
Lemma eat_n_le q n : q <> cNL -> forall z z' pre pre' p, line_ends z z' ->
  went pre (rep q n ++ z) pre' (rep q n ++ z') (eat_n q n (Cur pre (rep q n ++ z) p)) (eat_n q n (Cur pre' (rep q n ++ z') p)) (rep q n) (rep q n).
Proof.
  intros Hq. induction n as [|n IH]; intros z z' pre pre' p H; cbn [eat_n rep repeat app].
  - now apply went_here.
  - cbn [k_rest k_pre k_pos]. apply went_byte. now apply IH.
Qed.
Lemma went_then pre rest pre' rest' k k' t t' K K' u u' : went pre rest pre' rest' k k' t t' ->
  went (k_pre k) (k_rest k) (k_pre k') (k_rest k') K K' u u' -> went pre rest pre' rest' K K' (t ++ u) (t' ++ u').
Proof.
  intros [H1 H2 H3 H4 H5 H6 H7] [G1 G2 G3 G4 G5 G6 G7]. constructor; auto.
  - rewrite G1, H1, rev_app_distr, app_assoc. auto.
  - rewrite G2, H2, rev_app_distr, app_assoc. auto.
  - rewrite H3, G3 at 1. now rewrite app_assoc.
  - rewrite H4, G4 at 1. now rewrite app_assoc.
  - now apply le_app.
Qed.

Inductive ksim (pre rest pre' rest' : bytes) : N + cur -> N + cur -> Prop :=
| ks_err e : ksim pre rest pre' rest' (inl e) (inl e)
| ks_ok k k' t t' : went pre rest pre' rest' k k' t t' -> ksim pre rest pre' rest' (inr k) (inr k').
Lemma ksim_byte c pre rest pre' rest' r r' : ksim (c :: pre) rest (c :: pre') rest' r r' -> ksim pre (c :: rest) pre' (c :: rest') r r'.
Proof. intros H. destruct H; [constructor|]. econstructor. apply went_byte. eauto. Qed.
Lemma ksim_crlf pre rest pre' rest' r r' : ksim (cNL :: pre) rest (cNL :: cCR :: pre') rest' r r' -> ksim pre (cNL :: rest) pre' (cCR :: cNL :: rest') r r'.
Proof. intros H. destruct H; [constructor|]. econstructor. apply went_crlf. eauto. Qed.

Lemma quote_loop_eq depth skip pre c r p : quote_loop depth skip pre (c :: r) p =
    match skip with
    | S skip' => quote_loop depth skip' (c :: pre) r (inc cQ p)
    | O =>
      if negb (c =? cQ) then quote_loop depth 0 (c :: pre) r (inc c p)
      else
        if Nat.ltb depth (count_quotes (c :: r)) then inl E_TOO_MANY_QUOTES
        else if Nat.ltb (count_quotes (c :: r)) depth then quote_loop depth (count_quotes (c :: r) - 1) (c :: pre) r (inc cQ p)
        else inr (eat_n cQ (count_quotes (c :: r)) (Cur pre (c :: r) p))
    end.
Proof. reflexivity. Qed.
Lemma quote_loop_le depth : forall r r', line_ends r r' -> forall skip pre pre' p, (skip <= count_quotes r)%nat ->
  ksim pre r pre' r' (quote_loop depth skip pre r p) (quote_loop depth skip pre' r' p).
Proof.
  intros r r' H. induction H as [|c s s' H IH|s s' H IH]; intros skip pre pre' p Hs.
  - constructor.
  - rewrite !quote_loop_eq. assert (Cq : count_quotes (c :: s') = count_quotes (c :: s)) by (apply count_quotes_le; now constructor).
    rewrite Cq. destruct skip as [|skip].
    + destruct (N.eqb_spec c cQ) as [->|Hc]; cbn [negb].
      * assert (Cs : count_quotes (cQ :: s) = S (count_quotes s)) by reflexivity.
        destruct (Nat.ltb depth _); [constructor|]. destruct (Nat.ltb _ depth).
        { apply ksim_byte. apply IH. rewrite Cs. lia. }
        destruct (count_quotes_split (cQ :: s) (count_quotes (cQ :: s)) (le_n _)) as (z & E).
        assert (Hz : line_ends (rep cQ (count_quotes (cQ :: s)) ++ z) (cQ :: s')) by (rewrite <- E; now constructor).
        apply le_split in Hz as (a' & z' & E' & Ha & Hz). apply le_rep in Ha as ->; [|discriminate].
        remember (count_quotes (cQ :: s)) as n. rewrite E, E'. econstructor. apply eat_n_le; [discriminate|auto].
      * apply ksim_byte. apply IH. lia.
    + cbn [count_quotes] in Hs. destruct (c =? cQ); [|lia]. apply ksim_byte. apply IH. lia.
  - cbn [count_quotes] in Hs. change (cNL =? cQ) with false in Hs. cbv iota in Hs. assert (skip = 0%nat) as -> by lia.
    apply ksim_crlf. specialize (IH 0%nat (cNL :: pre) (cNL :: cCR :: pre') (inc cNL p) ltac:(lia)).
    change (quote_loop depth 0 pre (cNL :: s) p) with (quote_loop depth 0 (cNL :: pre) s (inc cNL p)).
    change (quote_loop depth 0 pre' (cCR :: cNL :: s') p) with (quote_loop depth 0 (cNL :: cCR :: pre') s' (inc cNL (inc cCR p))).
    now rewrite inc_crlf.
Qed.

Lemma eat_quote_sim s s' : sim s s' ->
  (eat_quote s = PUB /\ eat_quote s' = PUB)
  \/ (exists e s1 s1', eat_quote s = PErr e s1 /\ eat_quote s' = PErr e s1' /\ sim s1 s1')
  \/ (exists s1 s1' t t', eat_quote s = POk s1 /\ eat_quote s' = POk s1' /\ sim s1 s1' /\ moved s s' s1 s1' t t').
Proof.
  intros H. unfold eat_quote. rewrite (count_quotes_le _ _ (m_rest _ _ H)).
  set (d := count_quotes (s_rest s)). set (q := set_quote (Some (here s)) s). set (q' := set_quote (Some (here s')) s').
  assert (Hq : sim q q') by (apply set_quote_sim; auto; now apply here_same).
  destruct (Nat.eqb d 0); [auto|].
  destruct (count_quotes_split (s_rest s) d (le_n _)) as (z & E).
  pose proof (m_rest _ _ H) as R. rewrite E in R. apply le_split in R as (a' & z' & E' & Ha & Hz). apply le_rep in Ha as ->; [|discriminate].
  assert (W : went (s_pre s) (s_rest s) (s_pre s') (s_rest s') (eat_n cQ d (cur_of q)) (eat_n cQ d (cur_of q')) (rep cQ d) (rep cQ d)).
  { unfold cur_of. cbn [q q' set_quote s_pre s_rest s_line s_col]. rewrite (m_line _ _ H), (m_col _ _ H). rewrite E, E'. apply eat_n_le; [discriminate|auto]. }
  cbv zeta. destruct (Nat.eqb d 2).
  { right. right. eexists; eexists; eexists; eexists. split; [reflexivity|]. split; [reflexivity|]. split.
    - eapply sim_cur; eauto.
    - constructor; apply W. }
  set (k := eat_n cQ d (cur_of q)) in *. set (k' := eat_n cQ d (cur_of q')) in *.
  pose proof (quote_loop_le d (k_rest k) (k_rest k') (w_left _ _ _ _ _ _ _ _ W) 0 (k_pre k) (k_pre k') (k_pos k) ltac:(lia)) as L.
  rewrite (w_pos _ _ _ _ _ _ _ _ W). destruct L as [e|K K' t t' W2].
  { right. left. eexists; eexists; eexists. split; [reflexivity|]. split; [reflexivity|]. auto. }
  right. right. pose proof (went_then _ _ _ _ _ _ _ _ _ _ _ _ W W2) as W3.
  assert (S : sim (set_cur q K) (set_cur q' K')) by (eapply sim_cur; eauto).
  assert (V : moved s s' (set_cur q K) (set_cur q' K') (rep cQ d ++ t) (rep cQ d ++ t')) by (constructor; apply W3).
  destruct (need_more_quotes (set_cur q K)), (need_more_quotes (set_cur q' K')); eexists; eexists; eexists; eexists; (split; [reflexivity|]); (split; [reflexivity|]); split; auto using susp_l, susp_r;
    (destruct V as [V1 V2 V3]; constructor; eauto).
Qed.
Lemma quote_sim l s s' : sim s s' -> psim (parse_quote l s) (parse_quote l s').
Proof.
  intros H. unfold parse_quote. destruct (eat_quote_sim s s' H) as [[-> ->]|[(e & s1 & s1' & -> & -> & S)|(s1 & s1' & t & t' & -> & -> & S & V)]]; cbn [pbind]; constructor; auto.
  eapply emit_from_sim; eauto. destruct l; discriminate.
Qed.

(* ---------- entities ---------- *)
Lemma name_char_nl : is_xmq_text_name cNL = false. Proof. reflexivity. Qed.
Lemma name_char_cr : is_xmq_text_name cCR = false. Proof. reflexivity. Qed.
Lemma entity_loop_le : forall r r', line_ends r r' -> forall pre pre' p c e,
  let '(k, d, b) := entity_loop pre r p c e in let '(k', d', b') := entity_loop pre' r' p c e in
  b' = b /\ (d' =? cSEMI) = (d =? cSEMI) /\ (d =? cSEMI = true -> c <> cSEMI -> exists z, k_rest k = cSEMI :: z) /\ exists t t', went pre r pre' r' k k' t t' /\ ~ In cNL t.
Proof.
  intros r r' H. induction H as [|c0 s s' H IH|s s' H IH]; intros pre pre' p c e; cbn [entity_loop].
  - repeat split; auto; [intros E F; apply N.eqb_eq in E; congruence|]. exists [], []. split; [apply went_here; constructor|auto].
  - destruct (is_xmq_text_name c0) eqn:En; cbn [negb].
    + assert (N0 : c0 <> cSEMI) by (intros ->; discriminate).
      specialize (IH (c0 :: pre) (c0 :: pre') (inc c0 p) c0 (if is_lowercase_hex c0 then e else true)).
      destruct (entity_loop (c0 :: pre) s _ _ _) as [[k d] b]. destruct (entity_loop (c0 :: pre') s' _ _ _) as [[k' d'] b'].
      destruct IH as (I1 & I2 & I3 & t & t' & W & Nt). repeat split; auto. exists (c0 :: t), (c0 :: t'). split; [now apply went_byte|].
      intros [G|G]; auto. subst c0. discriminate.
    + repeat split; auto. { intros E _. apply N.eqb_eq in E. subst c0. cbn. eauto. } exists [], []. split; [apply went_here; now constructor|auto].
  - rewrite name_char_nl, name_char_cr. cbn [negb]. repeat split; auto. { intros E. discriminate. } exists [], []. split; [apply went_here; now apply le_crlf|auto].
Qed.
Lemma eat_entity_sim s s' : sim s s' -> peek_is cAMP s = true ->
  (eat_entity s = PUB /\ eat_entity s' = PUB)
  \/ (exists e s1 s1', eat_entity s = PErr e s1 /\ eat_entity s' = PErr e s1' /\ sim s1 s1')
  \/ (exists s1 s1' t t', eat_entity s = POk s1 /\ eat_entity s' = POk s1' /\ sim s1 s1' /\ moved s s' s1 s1' t t' /\ ~ In cNL t).
Proof.
  intros H P. destruct (peek_is_rest cAMP s s' H ltac:(discriminate) P) as (r & E).
  destruct (step_went cAMP s s' r H ltac:(discriminate) E) as [S M]. unfold eat_entity. cbv zeta.
  set (s1 := step cAMP s) in *. set (s1' := step cAMP s') in *.
  pose proof (entity_loop_le _ _ (m_rest _ _ S) (s_pre s1) (s_pre s1') (s_line s1, s_col s1) 0 false) as L.
  rewrite (m_line _ _ S), (m_col _ _ S).
  destruct (entity_loop (s_pre s1) _ _ _ _) as [[k d] b]. destruct (entity_loop (s_pre s1') _ _ _ _) as [[k' d'] b'].
  destruct L as (-> & -> & L3 & t & t' & W & Nt).
  pose proof (sim_cur _ _ _ _ _ _ S W) as S2. pose proof (went_moved _ _ _ _ _ _ W) as M2.
  assert (N2 : ~ In cNL ([cAMP] ++ t)) by (intros [G|G]; [discriminate|auto]).
  destruct (d =? cSEMI).
  - destruct (L3 eq_refl ltac:(discriminate)) as (z & Ez).
    destruct (step_went cSEMI (set_cur s1 k) (set_cur s1' k') z S2 ltac:(discriminate) Ez) as [S3 M3].
    destruct (sim_peek _ _ S3) as (x & x' & -> & -> & _). right. right.
    eexists; eexists; exists (([cAMP] ++ t) ++ [cSEMI]), (([cAMP] ++ t') ++ [cSEMI]). split; [reflexivity|]. split; [reflexivity|]. split; auto. split.
    + constructor.
      * rewrite (v_pre _ _ _ _ _ _ M3), (v_pre _ _ _ _ _ _ M2), (v_pre _ _ _ _ _ _ M), !rev_app_distr, <- !app_assoc. reflexivity.
      * rewrite (v_pre' _ _ _ _ _ _ M3), (v_pre' _ _ _ _ _ _ M2), (v_pre' _ _ _ _ _ _ M), !rev_app_distr, <- !app_assoc. reflexivity.
      * apply le_app; [apply le_app; [apply le_refl|apply M2]|apply le_refl].
    + intros G. apply in_app_iff in G as [G|[G|[]]]; [auto|discriminate].
  - destruct b; [right; left; eexists; eexists; eexists; split; [reflexivity|]; split; [reflexivity|auto]|].
    right. right. eexists; eexists; exists ([cAMP] ++ t), ([cAMP] ++ t'). split; [reflexivity|]. split; [reflexivity|]. split; auto. split; auto.
    constructor.
    + rewrite (v_pre _ _ _ _ _ _ M2), (v_pre _ _ _ _ _ _ M), !rev_app_distr, <- !app_assoc. reflexivity.
    + rewrite (v_pre' _ _ _ _ _ _ M2), (v_pre' _ _ _ _ _ _ M), !rev_app_distr, <- !app_assoc. reflexivity.
    + apply le_app; [apply le_refl|apply M2].
Qed.
Lemma entity_sim l s s' : sim s s' -> peek_is cAMP s = true -> psim (parse_entity l s) (parse_entity l s').
Proof.
  intros H P. unfold parse_entity. destruct (eat_entity_sim s s' H P) as [[-> ->]|[(e & s1 & s1' & -> & -> & S)|(s1 & s1' & t & t' & -> & -> & S & V & Nt)]]; cbn [pbind]; constructor; auto.
  eapply emit_from_sim; eauto.
Qed.

(* ---------- comments ---------- *)
Lemma count_slashes_le aft : forall r r', line_ends r r' -> count_slashes r' aft = count_slashes r aft.
Proof. induction 1 as [|c s s' H IH|s s' H IH]; cbn [count_slashes]; auto. now rewrite IH. Qed.
Lemma count_slashes_split aft : forall r n b, count_slashes r aft = Some (n, b) ->
  exists z, r = rep cSLASH n ++ z /\ (hd_error (z ++ aft) = Some cSTAR <-> b = true) /\ hd_error (z ++ aft) <> Some cSLASH \/ (r = rep cSLASH n /\ z = [] /\ exists a x, aft = a :: x /\ b = (a =? cSTAR)).
Proof.
  induction r as [|c r IH]; intros n b; cbn [count_slashes].
  - destruct aft as [|a x]; [discriminate|]. intros E. injection E as <- <-. exists []. right. repeat split; auto. eauto.
  - destruct (N.eqb_spec c cSLASH) as [->|Hc].
    + destruct (count_slashes r aft) as [[m d]|]; [|discriminate]. intros E. injection E as <- <-.
      destruct (IH m d eq_refl) as (z & [(-> & H1 & H2)|(-> & H1 & H2)]).
      * exists z. left. auto.
      * exists z. right. auto.
    + intros E. injection E as <- <-. exists (c :: r). left. repeat split; cbn.
      * intros E. injection E as ->. reflexivity.
      * intros E. apply N.eqb_eq in E. now subst.
      * intros E. injection E as ->. auto.
Qed.
Lemma eol_loop_le : forall r r', line_ends r r' -> forall pre pre' p,
  exists t t', went pre r pre' r' (eol_loop pre r p) (eol_loop pre' r' p) t t'.
Proof.
  induction 1 as [|c s s' H IH|s s' H IH]; intros pre pre' p; cbn [eol_loop].
  - exists [], []. apply went_here. constructor.
  - destruct (c =? cNL).
    + exists [c], [c]. apply went_byte. now apply went_here.
    + destruct (IH (c :: pre) (c :: pre') (inc c p)) as (t & t' & W). exists (c :: t), (c :: t'). now apply went_byte.
  - change (cNL =? cNL) with true. change (cCR =? cNL) with false. cbv iota.
    exists [cNL], [cCR; cNL]. apply went_crlf. rewrite inc_crlf. now apply went_here.
Qed.
Lemma eol_sim s s' : sim s s' -> (exists z, s_rest s = rep cSLASH 2 ++ z) ->
  sim (emit_from Kcomment s (eat_comment_to_eol s)) (emit_from Kcomment s' (eat_comment_to_eol s')).
Proof.
  intros H (z & E). pose proof (m_rest _ _ H) as R. rewrite E in R. apply le_split in R as (a' & z' & E' & Ha & Hz). apply le_rep in Ha as ->; [|discriminate].
  unfold eat_comment_to_eol. cbv zeta.
  assert (W : went (s_pre s) (s_rest s) (s_pre s') (s_rest s') (eat_n cSLASH 2 (cur_of s)) (eat_n cSLASH 2 (cur_of s')) (rep cSLASH 2) (rep cSLASH 2)).
  { unfold cur_of. rewrite (m_line _ _ H), (m_col _ _ H). rewrite E, E'. apply eat_n_le; [discriminate|auto]. }
  set (k := eat_n cSLASH 2 (cur_of s)) in *. set (k' := eat_n cSLASH 2 (cur_of s')) in *.
  destruct (eol_loop_le (k_rest k) (k_rest k') (w_left _ _ _ _ _ _ _ _ W) (k_pre k) (k_pre k') (k_pos k)) as (t & t' & W2).
  rewrite (w_pos _ _ _ _ _ _ _ _ W). pose proof (went_then _ _ _ _ _ _ _ _ _ _ _ _ W W2) as W3.
  eapply emit_from_sim; eauto; [eapply sim_cur; eauto|apply went_moved; eauto|discriminate].
Qed.

Inductive csim (aft pre rest pre' rest' : bytes) : closed -> closed -> Prop :=
| cs_err e : csim aft pre rest pre' rest' (NotClosed e) (NotClosed e)
| cs_ub : csim aft pre rest pre' rest' CloseUB CloseUB
| cs_ok k k' b t t' : went pre rest pre' rest' k k' t t' -> (b = true -> exists z, k_rest k = cSTAR :: z) -> csim aft pre rest pre' rest' (Closed k b) (Closed k' b).
Lemma csim_byte c aft pre rest pre' rest' r r' : csim aft (c :: pre) rest (c :: pre') rest' r r' -> csim aft pre (c :: rest) pre' (c :: rest') r r'.
Proof. intros H. destruct H; [constructor|constructor|]. econstructor; [apply went_byte; eauto|auto]. Qed.
Lemma csim_crlf aft pre rest pre' rest' r r' : csim aft (cNL :: pre) rest (cNL :: cCR :: pre') rest' r r' -> csim aft pre (cNL :: rest) pre' (cCR :: cNL :: rest') r r'.
Proof. intros H. destruct H; [constructor|constructor|]. econstructor; [apply went_crlf; eauto|auto]. Qed.
Lemma close_loop_eq num c pre ch r aft p : close_loop num c pre (ch :: r) aft p =
    if negb (c =? cSTAR) || negb (ch =? cSLASH) then close_loop num ch (ch :: pre) r aft (inc ch p)
    else
      match count_slashes (ch :: r) aft with
      | None => CloseUB
      | Some (n, more) =>
        if Nat.ltb n num then close_loop num ch (ch :: pre) r aft (inc ch p)
        else if Nat.ltb num n then NotClosed E_TOO_MANY_SLASHES
        else Closed (eat_n cSLASH n (Cur pre (ch :: r) p)) more
      end.
Proof. reflexivity. Qed.
Lemma close_loop_le num aft : (exists a, aft = 0 :: a) -> forall r r', line_ends r r' -> forall c pre pre' p,
  csim aft pre r pre' r' (close_loop num c pre r aft p) (close_loop num c pre' r' aft p).
Proof.
  intros Ha r r' H. induction H as [|ch s s' H IH|s s' H IH]; intros c pre pre' p.
  - constructor.
  - rewrite !close_loop_eq. rewrite (count_slashes_le aft (ch :: s) (ch :: s')) by now constructor.
    destruct (_ || _); [now apply csim_byte|].
    destruct (count_slashes (ch :: s) aft) as [[n more]|] eqn:Es; [|constructor].
    destruct (Nat.ltb n num); [now apply csim_byte|]. destruct (Nat.ltb num n); [constructor|].
    assert (exists z, ch :: s = rep cSLASH n ++ z /\ (more = true -> exists y, z = cSTAR :: y)) as (z & E & Hm).
    { destruct (count_slashes_split aft _ _ _ Es) as (z & [(E & H1 & _)|(E & -> & a & x & E1 & E2)]).
      - exists z. split; auto. intros M. apply H1 in M. destruct z as [|y z]; cbn in M.
        + destruct Ha as (a & ->). discriminate.
        + injection M as ->. eauto.
      - exists []. rewrite app_nil_r. split; auto. destruct Ha as (a' & Ea). rewrite Ea in E1. injection E1 as <- <-. rewrite E2. discriminate. }
    assert (Hz : line_ends (rep cSLASH n ++ z) (ch :: s')) by (rewrite <- E; now constructor).
    apply le_split in Hz as (a' & z' & E' & Hr & Hz). apply le_rep in Hr as ->; [|discriminate].
    rewrite E, E'. econstructor; [apply eat_n_le; [discriminate|auto]|].
    intros M. destruct (Hm M) as (y & Ey). exists y. rewrite <- Ey.
    pose proof (w_rest _ _ _ _ _ _ _ _ (eat_n_le cSLASH n ltac:(discriminate) z z' pre pre' p Hz)) as Q. apply app_inv_head in Q. auto.
  - apply csim_crlf. specialize (IH cNL (cNL :: pre) (cNL :: cCR :: pre') (inc cNL p)).
    assert (E1 : close_loop num c pre (cNL :: s) aft p = close_loop num cNL (cNL :: pre) s aft (inc cNL p)).
    { rewrite close_loop_eq. change (cNL =? cSLASH) with false. now rewrite orb_true_r. }
    assert (E2 : close_loop num c pre' (cCR :: cNL :: s') aft p = close_loop num cNL (cNL :: cCR :: pre') s' aft (inc cNL p)).
    { rewrite close_loop_eq. change (cCR =? cSLASH) with false. cbn [negb]. rewrite orb_true_r.
      rewrite close_loop_eq. change (cNL =? cSLASH) with false. cbn [negb]. now rewrite orb_true_r, inc_crlf. }
    now rewrite E1, E2.
Qed.

Lemma to_close_sim num s s' : sim s s' -> (peek_is cSLASH s = true -> exists z, s_rest s = rep cSLASH num ++ z) ->
  exists b, snd (eat_comment_to_close num s) = b /\ snd (eat_comment_to_close num s') = b /\
  ((fst (eat_comment_to_close num s) = PUB /\ fst (eat_comment_to_close num s') = PUB)
   \/ (fst (eat_comment_to_close num s) = PAbrt /\ fst (eat_comment_to_close num s') = PAbrt)
   \/ (exists e s1 s1', fst (eat_comment_to_close num s) = PErr e s1 /\ fst (eat_comment_to_close num s') = PErr e s1' /\ sim s1 s1')
   \/ (exists s1 s1' t t', fst (eat_comment_to_close num s) = POk s1 /\ fst (eat_comment_to_close num s') = POk s1' /\ sim s1 s1' /\ moved s s' s1 s1' t t'
         /\ (b = true -> exists z, s_rest s1 = cSTAR :: z))).
Proof.
  intros H P. unfold eat_comment_to_close. cbv zeta. rewrite (sim_peek_is cSLASH s s' H) by discriminate.
  set (k := if peek_is cSLASH s then eat_n cSLASH num (cur_of s) else cur_of s). set (k' := if peek_is cSLASH s then eat_n cSLASH num (cur_of s') else cur_of s').
  assert (exists t, went (s_pre s) (s_rest s) (s_pre s') (s_rest s') k k' t t) as (t & W).
  { unfold k, k'. destruct (peek_is cSLASH s).
    - destruct (P eq_refl) as (z & E). pose proof (m_rest _ _ H) as R. rewrite E in R. apply le_split in R as (a' & z' & E' & Ha & Hz). apply le_rep in Ha as ->; [|discriminate].
      exists (rep cSLASH num). unfold cur_of. rewrite (m_line _ _ H), (m_col _ _ H). rewrite E, E'. apply eat_n_le; [discriminate|auto].
    - exists []. unfold cur_of. rewrite (m_line _ _ H), (m_col _ _ H). apply went_here. apply H. }
  pose proof (sim_cur _ _ _ _ _ _ H W) as S1. pose proof (went_moved _ _ _ _ _ _ W) as M1.
  rewrite (sim_peek_is cSTAR (set_cur s k) (set_cur s' k') S1) by discriminate.
  destruct (peek_is cSTAR (set_cur s k)) eqn:Ps; cbn [negb].
  2:{ exists false. cbn. repeat split; auto. }
  destruct (peek_is_rest cSTAR _ _ S1 ltac:(discriminate) Ps) as (r & Er).
  destruct (step_went cSTAR _ _ r S1 ltac:(discriminate) Er) as [S2 M2].
  set (s2 := step cSTAR (set_cur s k)) in *. set (s2' := step cSTAR (set_cur s' k')) in *.
  pose proof (close_loop_le num (s_aft s2) (m_nul _ _ S2) _ _ (m_rest _ _ S2) 0 (s_pre s2) (s_pre s2') (s_line s2, s_col s2)) as L.
  rewrite (m_aft _ _ S2), (m_line _ _ S2), (m_col _ _ S2).
  destruct L as [e| |K K' b u u' W3 Hb]; cbn [fst snd].
  - exists false. repeat split; auto. right. right. left. eauto 10.
  - exists false. repeat split; auto.
  - exists b. repeat split; auto. right. right. right. exists (set_cur s2 K), (set_cur s2' K'), (t ++ [cSTAR] ++ u), (t ++ [cSTAR] ++ u').
    split; [reflexivity|]. split; [reflexivity|]. split; [eapply sim_cur; eauto|]. split; [constructor|auto].
    + change (s_pre (set_cur s2 K)) with (k_pre K). rewrite (w_pre _ _ _ _ _ _ _ _ W3), (v_pre _ _ _ _ _ _ M2), (v_pre _ _ _ _ _ _ M1), !rev_app_distr, <- !app_assoc. reflexivity.
    + change (s_pre (set_cur s2' K')) with (k_pre K'). rewrite (w_pre' _ _ _ _ _ _ _ _ W3), (v_pre' _ _ _ _ _ _ M2), (v_pre' _ _ _ _ _ _ M1), !rev_app_distr, <- !app_assoc. reflexivity.
    + apply le_app; [apply M1|apply le_app; [apply le_refl|apply W3]].
Qed.
Lemma star_no_slash s num : (exists z, s_rest s = cSTAR :: z) -> peek_is cSLASH s = true -> exists z, s_rest s = rep cSLASH num ++ z.
Proof. intros (z & E) P. unfold peek_is, peek in P. rewrite E in P. discriminate. Qed.
Lemma emit_rest k s s1 : s_rest (emit_from k s s1) = s_rest s1.
Proof. reflexivity. Qed.
Lemma continuations_sim num : forall fuel s s', sim s s' -> (exists z, s_rest s = cSTAR :: z) -> psim (continuations fuel num s) (continuations fuel num s').
Proof.
  induction fuel as [|fuel IH]; intros s s' H Z; cbn [continuations]; [now constructor|].
  destruct (to_close_sim num s s' H (star_no_slash s num Z)) as (b & B1 & B2 & C).
  destruct (eat_comment_to_close num s) as [r x], (eat_comment_to_close num s') as [r' x']. cbn [fst snd] in *. subst x x'.
  destruct C as [[-> ->]|[[-> ->]|[(e & s1 & s1' & -> & -> & S)|(s1 & s1' & t & t' & -> & -> & S & M & Hb)]]]; cbn [pbind]; try (constructor; auto; fail).
  assert (S2 : sim (emit_from Kcomment_continuation s s1) (emit_from Kcomment_continuation s' s1')) by (eapply emit_from_sim; eauto; discriminate).
  destruct b; [|now constructor]. apply IH; auto.
Qed.
Lemma comment_sim fuel s s' : sim s s' -> (exists d z, s_rest s = cSLASH :: d :: z /\ (d = cSLASH \/ d = cSTAR)) -> psim (parse_comment fuel s) (parse_comment fuel s').
Proof.
  intros H (d & z & E & Hd). unfold parse_comment. rewrite (m_aft _ _ H), (count_slashes_le (s_aft s) _ _ (m_rest _ _ H)).
  destruct (count_slashes (s_rest s) (s_aft s)) as [[n [|]]|] eqn:Es; [| |constructor].
  - assert (P : peek_is cSLASH s = true -> exists z, s_rest s = rep cSLASH n ++ z).
    { intros _. destruct (count_slashes_split _ _ _ _ Es) as (y & [(-> & _)|(-> & -> & _)]); [eauto|exists []; now rewrite app_nil_r]. }
    destruct (to_close_sim n s s' H P) as (b & B1 & B2 & C).
    destruct (eat_comment_to_close n s) as [r x], (eat_comment_to_close n s') as [r' x']. cbn [fst snd] in *. subst x x'.
    destruct C as [[-> ->]|[[-> ->]|[(e & s1 & s1' & -> & -> & S)|(s1 & s1' & t & t' & -> & -> & S & M & Hb)]]]; cbn [pbind]; try (constructor; auto; fail).
    assert (S2 : sim (emit_from Kcomment s s1) (emit_from Kcomment s' s1')) by (eapply emit_from_sim; eauto; discriminate).
    destruct b; [|now constructor]. apply continuations_sim; auto.
  - constructor. apply eol_sim; auto. rewrite E in *. destruct Hd as [-> | ->]; [exists z; reflexivity|]. cbn in Es. discriminate.
Qed.

(* ---------- names and values ---------- *)
Lemma name_loop_le : forall r r', line_ends r r' -> forall pre pre' p,
  exists t, went pre r pre' r' (name_loop pre r p) (name_loop pre' r' p) t t /\ ~ In cNL t.
Proof.
  induction 1 as [|c s s' H IH|s s' H IH]; intros pre pre' p; cbn [name_loop].
  - exists []. split; [apply went_here; constructor|auto].
  - destruct (is_xmq_text_name c) eqn:En; [|exists []; split; [apply went_here; now constructor|auto]].
    destruct (IH (c :: pre) (c :: pre') (inc c p)) as (t & W & Nt). exists (c :: t). split; [now apply went_byte|].
    intros [G|G]; auto. subst c. discriminate.
  - rewrite name_char_nl, name_char_cr. exists []. split; [apply went_here; now apply le_crlf|auto].
Qed.
Lemma safe_char_le r r' : line_ends r r' -> is_safe_value_char r' = is_safe_value_char r.
Proof.
  intros H. pose proof (count_ws_le _ _ H) as Cw. inversion H; subst; auto. cbn [is_safe_value_char]. now rewrite Cw.
Qed.
Lemma value_loop_le : forall r r', line_ends r r' -> forall pre pre' p,
  exists t, went pre r pre' r' (value_loop pre r p) (value_loop pre' r' p) t t /\ ~ In cNL t.
Proof.
  induction 1 as [|c s s' H IH|s s' H IH]; intros pre pre' p.
  - exists []. split; [apply went_here; constructor|auto].
  - cbn [value_loop]. rewrite (safe_char_le (c :: s) (c :: s')) by now constructor.
    destruct (is_safe_value_char (c :: s)) eqn:En; [|exists []; split; [apply went_here; now constructor|auto]].
    destruct (IH (c :: pre) (c :: pre') (inc c p)) as (t & W & Nt). exists (c :: t). split; [now apply went_byte|].
    intros [G|G]; auto. subst c. discriminate.
  - exists []. split; [apply went_here; now apply le_crlf|auto].
Qed.
Lemma eat_name_sim s s' : sim s s' -> exists t, sim (eat_name s) (eat_name s') /\ moved s s' (eat_name s) (eat_name s') t t /\ ~ In cNL t.
Proof.
  intros H. unfold eat_name. rewrite (m_line _ _ H), (m_col _ _ H).
  destruct (name_loop_le _ _ (m_rest _ _ H) (s_pre s) (s_pre s') (s_line s, s_col s)) as (t & W & Nt).
  exists t. split; [eapply sim_cur; eauto|]. split; [now apply went_moved|auto].
Qed.
Lemma marked_name_sim c s s' r : sim s s' -> c <> cNL -> s_rest s = c :: r ->
  exists t, sim (eat_marked_name c s) (eat_marked_name c s') /\ moved s s' (eat_marked_name c s) (eat_marked_name c s') t t.
Proof.
  intros H Hc E. destruct (step_went c s s' r H Hc E) as [S M]. unfold eat_marked_name.
  destruct (eat_name_sim _ _ S) as (t & S2 & M2 & _). exists (c :: t). split; auto. constructor.
  - rewrite (v_pre _ _ _ _ _ _ M2), (v_pre _ _ _ _ _ _ M). cbn [rev app]. now rewrite <- app_assoc.
  - rewrite (v_pre' _ _ _ _ _ _ M2), (v_pre' _ _ _ _ _ _ M). cbn [rev app]. now rewrite <- app_assoc.
  - apply le_refl.
Qed.
Lemma text_value_sim l s s' : sim s s' -> sim (parse_text_value l s) (parse_text_value l s').
Proof.
  intros H. unfold parse_text_value. rewrite (m_line _ _ H), (m_col _ _ H).
  destruct (value_loop_le _ _ (m_rest _ _ H) (s_pre s) (s_pre s') (s_line s, s_col s)) as (t & W & Nt).
  eapply emit_from_sim; eauto; [eapply sim_cur; eauto|apply went_moved; eauto].
Qed.
Lemma compound_children_sim : forall fuel l s s', sim s s' -> psim (compound_children fuel l s) (compound_children fuel l s').
Proof.
  induction fuel as [|fuel IH]; intros l s s' H; cbn [compound_children]; pose proof (m_rest _ _ H) as R.
  - destruct (s_rest s) as [|c r] eqn:E; [apply le_nil in R as ->; now constructor|]. apply le_hd in R as (c' & r' & -> & _). now constructor.
  - destruct (s_rest s) as [|c r] eqn:E; [apply le_nil in R as ->; now constructor|]. apply le_hd in R as (c' & r' & -> & Hc).
    rewrite (cc_ws _ _ Hc), (cc_eq cRP _ _ Hc), (cc_eq cQ _ _ Hc), (cc_eq cAMP _ _ Hc) by discriminate.
    destruct (is_xml_whitespace c); [apply IH; now apply whitespace_sim|].
    destruct (c =? cRP); [now constructor|]. destruct (c =? cQ); [apply psim_bind; auto; now apply quote_sim|].
    destruct (c =? cAMP) eqn:Ea; [|now constructor]. apply psim_bind; auto. apply entity_sim; auto.
    unfold peek_is, peek. rewrite E. exact Ea.
Qed.
Lemma compound_sim fuel l s s' : sim s s' -> peek_is cLP s = true -> psim (parse_compound fuel l s) (parse_compound fuel l s').
Proof.
  intros H P. unfold parse_compound. cbv zeta. apply psim_bind.
  { apply compound_children_sim. apply single_sim; auto; discriminate. }
  intros a a' Ha. apply psim_bind; [now apply skip_sim|]. intros b b' Hb. rewrite (sim_peek_is cRP _ _ Hb) by discriminate.
  destruct (peek_is cRP b) eqn:Pb; cbn [negb]; [|now constructor]. constructor. apply single_sim; auto; discriminate.
Qed.
Lemma peek1_le s s' : sim s s' -> (peek1 s = None /\ peek1 s' = None)
  \/ exists c c' d d', peek s = Some c /\ peek s' = Some c' /\ cc c c' /\ peek1 s = Some d /\ peek1 s' = Some d' /\ (c' = c -> c <> cNL -> cc d d').
Proof.
  intros H. unfold peek, peek1. rewrite (m_aft _ _ H). destruct (m_nul _ _ H) as (a & ->). pose proof (m_rest _ _ H) as R.
  inversion R as [E E'|c r r' R1 E E'|r r' R1 E E']; cbn.
  - destruct a as [|x a]; cbn; [auto|]. right. exists 0, 0, x, x. repeat split; auto; now left.
  - right. destruct r as [|d r].
    + apply le_nil in R1 as ->. cbn. exists c, c, 0, 0. repeat split; auto; now left.
    + apply le_hd in R1 as (d' & q & -> & Hd). cbn. exists c, c, d, d'. repeat split; auto. now left.
  - right. destruct r as [|d r]; cbn.
    + exists cNL, cCR, 0, cNL. repeat split; auto; [now right|]. discriminate.
    + exists cNL, cCR, d, cNL. repeat split; auto; [now right|]. discriminate.
Qed.
Lemma value_sim fuel l s s' : sim s s' -> psim (parse_value fuel l s) (parse_value fuel l s').
Proof.
  intros H. unfold parse_value. apply psim_bind; [now apply skip_sim|]. intros a a' Ha.
  rewrite (sim_peek_is cQ _ _ Ha), (sim_peek_is cAMP _ _ Ha), (sim_peek_is cLP _ _ Ha) by discriminate.
  destruct (peek_is cQ a); [now apply quote_sim|]. destruct (peek_is cAMP a) eqn:P1; [now apply entity_sim|].
  destruct (peek_is cLP a) eqn:P2; [now apply compound_sim|].
  destruct (peek1_le _ _ Ha) as [[-> ->]|(c & c' & d & d' & -> & -> & Hc & -> & -> & Hd)].
  { destruct (peek a), (peek a'); constructor. }
  assert (U : unsafe_value_start c' d' = unsafe_value_start c d).
  { destruct Hc as [-> |[-> ->]]; [|reflexivity]. unfold unsafe_value_start. destruct (N.eqb_spec c cNL) as [->|Hn]; [reflexivity|].
    rewrite (cc_eq cSLASH d d'), (cc_eq cSTAR d d'); auto; discriminate. }
  rewrite U. destruct (unsafe_value_start c d); constructor; auto. now apply text_value_sim.
Qed.

(* ---------- attributes, elements ---------- *)
Lemma emit_element_name_sim b l c n s s' : sim s s' -> sim (emit_element_name b l c n s) (emit_element_name b l c n s').
Proof. intros H. unfold emit_element_name. destruct (split_colon n) as [[x y]|]; repeat apply sim_emit_same; auto. Qed.
Lemma emit_attr_name_sim l c n s s' : sim s s' -> sim (emit_attr_name l c n s) (emit_attr_name l c n s').
Proof. intros H. unfold emit_attr_name. destruct (split_colon n) as [[x y]|]; [destruct (beq x _)|]; repeat apply sim_emit_same; auto. Qed.
Lemma attribute_sim fuel s s' : sim s s' -> psim (parse_attribute fuel s) (parse_attribute fuel s').
Proof.
  intros H. unfold parse_attribute. cbv zeta. destruct (eat_name_sim _ _ H) as (t & S & M & Nt).
  rewrite (between_rev s (eat_name s) t), (between_rev s' (eat_name s') t) by apply M. rewrite (m_line _ _ H), (m_col _ _ H).
  apply psim_bind; [apply skip_sim; now apply emit_attr_name_sim|]. intros a a' Ha. rewrite (sim_peek_is cEQ _ _ Ha) by discriminate.
  destruct (peek_is cEQ a) eqn:P; [|now constructor]. apply value_sim. apply single_sim; auto; discriminate.
Qed.
Lemma key_start_le c c' : cc c c' -> is_attribute_key_start c' = is_attribute_key_start c.
Proof. intros [-> |[-> ->]]; reflexivity. Qed.
Lemma attributes_sim : forall fuel s s', sim s s' -> psim (attributes fuel s) (attributes fuel s').
Proof.
  induction fuel as [|fuel IH]; intros s s' H; cbn [attributes]; pose proof (m_rest _ _ H) as R.
  - destruct (s_rest s) as [|c r] eqn:E; [apply le_nil in R as ->; now constructor|]. apply le_hd in R as (c' & r' & -> & _). now constructor.
  - destruct (s_rest s) as [|c r] eqn:E; [apply le_nil in R as ->; now constructor|]. apply le_hd in R as (c' & r' & -> & Hc).
    rewrite (cc_ws _ _ Hc), (cc_eq cRP _ _ Hc), (key_start_le _ _ Hc) by discriminate.
    destruct (is_xml_whitespace c); [apply IH; now apply whitespace_sim|].
    destruct (c =? cRP); [now constructor|]. destruct (is_attribute_key_start c); [|now constructor].
    apply psim_bind; auto. now apply attribute_sim.
Qed.
Lemma next_is_equal_le : forall r r', line_ends r r' -> forall c, next_is_equal r' c = next_is_equal r c.
Proof. induction 1 as [|c s s' H IH|s s' H IH]; intros d; cbn [next_is_equal]; auto; [destruct (is_xml_whitespace c); auto|].
  change (is_xml_whitespace cCR) with true. change (is_xml_whitespace cNL) with true. apply IH.
Qed.
Lemma element_sim fuel body ek s s' : sim s s' ->
  (ek = EDoctype -> exists r, s_rest s = cBANG :: r) -> (ek = EPi -> exists r, s_rest s = cQM :: r) ->
  (forall a a', sim a a' -> psim (body a) (body a')) ->
  psim (parse_element fuel body ek s) (parse_element fuel body ek s').
Proof.
  intros H Hd Hp Hb. unfold parse_element. cbv zeta.
  set (s1 := match ek with EElement => eat_name s | EDoctype => eat_marked_name cBANG s | EPi => eat_marked_name cQM s end).
  set (s1' := match ek with EElement => eat_name s' | EDoctype => eat_marked_name cBANG s' | EPi => eat_marked_name cQM s' end).
  assert (exists t, sim s1 s1' /\ moved s s' s1 s1' t t) as (t & S & M).
  { unfold s1, s1'. destruct ek.
    - destruct (eat_name_sim _ _ H) as (t & S & M & _). eauto.
    - destruct (Hd eq_refl) as (r & E). eapply marked_name_sim; eauto. discriminate.
    - destruct (Hp eq_refl) as (r & E). eapply marked_name_sim; eauto. discriminate. }
  rewrite (between_rev s s1 t), (between_rev s' s1' t) by apply M. rewrite (m_line _ _ H), (m_col _ _ H), (next_is_equal_le _ _ (m_rest _ _ S)).
  apply psim_bind.
  { apply skip_sim. destruct ek; [now apply emit_element_name_sim| |]; now apply sim_emit_same. }
  intros a a' Ha. rewrite (sim_peek_is cLP _ _ Ha) by discriminate. apply psim_bind.
  { destruct (peek_is cLP a) eqn:P; [|now constructor]. apply psim_bind.
    - apply attributes_sim. apply single_sim; [|discriminate|discriminate|exact P]. apply set_attr_sim; auto. now apply here_same.
    - intros b b' Hbb. apply psim_bind; [now apply skip_sim|]. intros x x' Hx. rewrite (sim_peek_is cRP _ _ Hx) by discriminate.
      destruct (peek_is cRP x) eqn:Px; cbn [negb]; [|now constructor]. constructor. apply single_sim; auto; discriminate. }
  intros b b' Hbb. apply psim_bind; [now apply skip_sim|]. intros x x' Hx. rewrite (sim_peek_is cEQ _ _ Hx), (sim_peek_is cLB _ _ Hx) by discriminate.
  destruct (peek_is cEQ x) eqn:P1.
  { apply value_sim. apply single_sim; [|discriminate|discriminate|exact P1]. apply set_equals_sim; auto. now apply here_same. }
  destruct (peek_is cLB x) eqn:P2; [|now constructor]. apply psim_bind.
  { apply Hb. apply single_sim; [|discriminate|discriminate|exact P2]. apply set_body_sim; auto. now apply here_same. }
  intros y y' Hy. apply psim_bind; [now apply skip_sim|]. intros z z' Hz. rewrite (sim_peek_is cRB _ _ Hz) by discriminate.
  destruct (peek_is cRB z) eqn:P3; cbn [negb]; [|now constructor]. constructor. apply single_sim; auto; discriminate.
Qed.

(* ---------- the byte that cannot start anything ---------- *)
(** The bytes before, in reverse. *)
Inductive rle : bytes -> bytes -> Prop :=
| rl_nil : rle [] []
| rl_byte c p p' : rle p p' -> rle (c :: p) (c :: p')
| rl_crlf p p' : rle p p' -> rle (cNL :: p) (cNL :: cCR :: p').
Lemma rle_app a a' b b' : rle a a' -> rle b b' -> rle (a ++ b) (a' ++ b').
Proof. intros Ha Hb. induction Ha; cbn; auto; now constructor. Qed.
Lemma le_rle r r' : line_ends r r' -> rle (rev r) (rev r').
Proof.
  induction 1 as [|c s s' H IH|s s' H IH]; cbn [rev]; [constructor| |].
  - apply rle_app; auto. repeat constructor.
  - rewrite <- app_assoc. apply rle_app; auto. apply rl_crlf, rl_nil.
Qed.
Lemma rle_nil p' : rle [] p' -> p' = [].
Proof. inversion 1; auto. Qed.
Lemma rle_cons c p p' : rle (c :: p) p' -> exists q, p' = c :: q.
Proof. inversion 1; subst; eauto. Qed.
Lemma back_over_le p p' : rle p p' -> forall d, (hd d (back_over_space p') =? cEQ) = (hd d (back_over_space p) =? cEQ) /\ (back_over_space p = [] <-> back_over_space p' = []).
Proof.
  induction 1 as [|c p p' H IH|p p' H IH]; intros d; cbn [back_over_space]; [split; [auto|tauto]| |].
  - destruct p as [|b p]; [apply rle_nil in H as ->; split; [auto|tauto]|]. destruct (rle_cons _ _ _ H) as (q & E). subst p'.
    destruct (is_xml_whitespace c); [apply IH|]. split; auto. split; discriminate.
  - change (is_xml_whitespace cNL) with true. cbv iota. destruct p as [|b p].
    + apply rle_nil in H as ->. cbn. split; auto. split; discriminate.
    + destruct (rle_cons _ _ _ H) as (q & E). subst p'. change (is_xml_whitespace cCR) with true. cbv iota. apply IH.
Qed.
Definition lost_of (o : option bytes) : option bool :=
      match o with
      | None => None
      | Some ((b :: _ :: _) as p) =>
        if negb (b =? cNL) then Some false
        else match back_over_space p with
             | e :: _ => Some (e =? cEQ)
             | [] => None
             end
      | Some _ => Some false
      end.
Lemma lost_of_nl p p' : rle (cNL :: p) p' -> lost_of (Some p') = lost_of (Some (cNL :: p)).
Proof.
  intros H. destruct (back_over_le _ _ H 0) as [H1 H2]. destruct p as [|b p].
  - inversion H as [|c q q' G|q q' G]; subst; apply rle_nil in G as ->; reflexivity.
  - assert (exists x y, p' = cNL :: x :: y) as (x & y & ->).
    { inversion H as [|c q q' G|q q' G]; subst; destruct (rle_cons _ _ _ G) as (z & ->); eauto. }
    cbn [lost_of]. change (negb (cNL =? cNL)) with false. cbv iota. remember (back_over_space (cNL :: b :: p)) as u. remember (back_over_space (cNL :: x :: y)) as v.
    clear Hequ Heqv. destruct u as [|e u], v as [|e' v]; auto.
    + destruct H2 as [H2 _]. discriminate (H2 eq_refl).
    + destruct H2 as [_ H2]. discriminate (H2 eq_refl).
    + cbn in H1. now rewrite H1.
Qed.
Lemma lost_le p p' : rle p p' -> lost_of (back_to_newline p') = lost_of (back_to_newline p).
Proof.
  induction 1 as [|c p p' H IH|p p' H IH]; [reflexivity| |].
  - cbn [back_to_newline]. destruct p as [|b p]; [apply rle_nil in H as ->; reflexivity|]. destruct (rle_cons _ _ _ H) as (q & E). subst p'.
    destruct (N.eqb_spec c cNL) as [->|Hc]; cbn [negb andb].
    + apply lost_of_nl. now constructor.
    + destruct (_ || _); auto. cbn [lost_of]. apply N.eqb_neq in Hc. now rewrite Hc.
  - assert (E1 : back_to_newline (cNL :: p) = Some (cNL :: p)) by (destruct p; reflexivity).
    rewrite E1. change (back_to_newline (cNL :: cCR :: p')) with (Some (cNL :: cCR :: p')). apply lost_of_nl. now apply rl_crlf.
Qed.
Lemma lost_sim s s' : sim s s' -> possibly_lost_content s' = possibly_lost_content s.
Proof.
  intros H. unfold possibly_lost_content. destruct (sim_peek _ _ H) as (c & c' & -> & -> & Hc).
  rewrite (cc_eq cLB _ _ Hc), (cc_eq cLP _ _ Hc), (cc_eq cEQ _ _ Hc) by discriminate. destruct (negb _); auto.
  apply lost_le. pose proof (m_pre _ _ H) as L. rewrite <- (rev_involutive (s_pre s)), <- (rev_involutive (s_pre s')). now apply le_rle.
Qed.

(* ---------- the parser ---------- *)
Lemma prefix_le a : ~ In cNL a -> ~ In cCR a -> forall r r', line_ends r r' ->
  is_prefix a r' = is_prefix a r /\ (is_prefix a r = true -> line_ends (skipn (List.length a) r) (skipn (List.length a) r')).
Proof.
  intros Ha Hb. induction a as [|x a IH]; intros r r' H; [now split|].
  assert (Ha' : ~ In cNL a) by (intros I; apply Ha; now right). assert (Hx : x <> cNL) by (intros ->; apply Ha; now left).
  assert (Hb' : ~ In cCR a) by (intros I; apply Hb; now right). assert (Hy : x <> cCR) by (intros ->; apply Hb; now left).
  inversion H as [|c s s' H1|s s' H1]; subst; cbn [is_prefix List.length skipn]; [split; auto; discriminate| |].
  - destruct (IH Ha' Hb' _ _ H1) as [-> I]. split; auto. intros E. apply I. now apply andb_true_iff in E as [_ E].
  - rewrite (proj2 (N.eqb_neq x cNL)), (proj2 (N.eqb_neq x cCR)) by auto. cbn [andb]. split; auto; discriminate.
Qed.
Lemma doctype_le r r' : line_ends r r' -> is_doctype_start r' = is_doctype_start r.
Proof.
  intros H. unfold is_doctype_start.
  destruct (prefix_le (B "!DOCTYPE") ltac:(cbn; intuition discriminate) ltac:(cbn; intuition discriminate) _ _ H) as [-> I].
  destruct (is_prefix (B "!DOCTYPE") r); [|reflexivity]. specialize (I eq_refl). change (List.length (B "!DOCTYPE")) with 8%nat in I. cbn [andb].
  destruct I; reflexivity.
Qed.
Lemma doctype_first r : is_doctype_start r = true -> exists z, r = cBANG :: z.
Proof.
  unfold is_doctype_start. intros E. apply andb_true_iff in E as [E _]. destruct r as [|c z]; [discriminate|].
  change (B "!DOCTYPE") with (cBANG :: B "DOCTYPE") in E. cbn [is_prefix] in E. apply andb_true_iff in E as [E _].
  apply N.eqb_eq in E. subst c. eauto.
Qed.
Lemma pi_le r r' : line_ends r r' -> is_pi_start r' = is_pi_start r.
Proof. intros H. inversion H as [|c s s' H1|s s' H1]; subst; auto; [inversion H1; auto|]. now destruct s. Qed.
Lemma pi_first r : is_pi_start r = true -> exists z, r = cQM :: z.
Proof. destruct r as [|c [|d r]]; cbn; try discriminate. intros E. apply N.eqb_eq in E. subst. eauto. Qed.

Theorem parse_sim : forall fuel s s', sim s s' -> psim (parse_xmq fuel s) (parse_xmq fuel s').
Proof.
  induction fuel as [|fuel IH]; intros s s' H; cbn [parse_xmq]; pose proof (m_rest _ _ H) as R.
  - destruct (s_rest s) as [|c r] eqn:E; [apply le_nil in R as ->; now constructor|]. apply le_hd in R as (c' & r' & -> & _). now constructor.
  - destruct (s_rest s) as [|c r] eqn:E; [apply le_nil in R as ->; now constructor|].
    destruct (N.eqb_spec c cNL) as [->|Hn].
    { assert (W : forall z, s_rest s' = cNL :: z \/ s_rest s' = cCR :: z -> psim (parse_xmq (S fuel) s) (parse_xmq (S fuel) s')).
      { intros z Hz. cbn [parse_xmq]. rewrite E. change (is_xmq_token_whitespace cNL) with true. cbv iota.
        destruct Hz as [-> | ->]; [change (is_xmq_token_whitespace cNL) with true|change (is_xmq_token_whitespace cCR) with true]; cbv iota; apply IH; now apply whitespace_sim. }
      apply le_hd in R as (c' & r' & E' & Hc). specialize (W r'). cbn [parse_xmq] in W. rewrite E in W. apply W. destruct Hc as [-> |[_ ->]]; auto. }
    destruct (le_cons _ _ _ Hn R) as (r' & E' & R'). rewrite E'.
    rewrite (doctype_le (c :: r) (c :: r')), (pi_le (c :: r) (c :: r')) by now constructor.
    assert (Hcc : is_comment_start c (if (c =? cSLASH) || (c =? cLP) then hd 0 r' else 0) = is_comment_start c (if (c =? cSLASH) || (c =? cLP) then hd 0 r else 0)).
    { unfold is_comment_start. destruct (c =? cSLASH); cbn [andb orb]; auto.
      destruct r as [|d r]; [apply le_nil in R' as ->; auto|]. apply le_hd in R' as (d' & q & -> & Hd). cbn [hd].
      rewrite (cc_eq cSLASH _ _ Hd), (cc_eq cSTAR _ _ Hd); auto; discriminate. }
    cbv zeta. rewrite Hcc. clear Hcc.
    destruct (is_xmq_token_whitespace c); [apply IH; now apply whitespace_sim|].
    destruct (c =? cQ); [apply psim_bind; auto; now apply quote_sim|].
    destruct (c =? cAMP) eqn:Ea.
    { apply psim_bind; auto. apply entity_sim; auto. unfold peek_is, peek. rewrite E. exact Ea. }
    destruct (is_comment_start c _) eqn:Ec.
    { apply psim_bind; auto. apply comment_sim; auto. unfold is_comment_start in Ec. apply andb_true_iff in Ec as [E1 E2]. rewrite E1 in E2. cbn [orb] in E2.
      apply N.eqb_eq in E1. subst c. destruct r as [|d r]; [discriminate|]. cbn [hd] in E2. exists d, r. split; auto.
      apply orb_true_iff in E2 as [E2|E2]; apply N.eqb_eq in E2; auto. }
    destruct (is_xmq_element_start c).
    { apply psim_bind; auto. apply element_sim; auto; discriminate. }
    destruct (is_doctype_start (c :: r)) eqn:Ed.
    { apply psim_bind; auto. apply element_sim; auto; [|discriminate]. intros _. rewrite E. now apply doctype_first. }
    destruct (is_pi_start (c :: r)) eqn:Ep.
    { apply psim_bind; auto. apply element_sim; auto; [discriminate|]. intros _. rewrite E. now apply pi_first. }
    destruct (c =? cRB); [now constructor|]. rewrite (lost_sim _ _ H). destruct (possibly_lost_content s) as [[|]|]; now constructor.
Qed.

Theorem tokenize_sim fuel src src' aft : line_ends src src' -> psim (tokenize fuel src (0 :: aft)) (tokenize fuel src' (0 :: aft)).
Proof.
  intros H. unfold tokenize. apply psim_bind.
  - apply parse_sim. constructor; cbn; auto; try constructor. eauto.
  - intros s s' S. pose proof (m_rest _ _ S) as R. destruct (s_rest s) as [|c r]; [apply le_nil in R as ->; now constructor|].
    apply le_hd in R as (c' & r' & -> & _). now constructor.
Qed.
