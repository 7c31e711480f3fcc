(** The texts that the functions of the parser eat for one token. *)
From Coq Require Import NArith List Bool Lia Arith String.
From Verif Require Import Bytes BytesFacts Parser ParserSpec ParserProofs TokenSpec.
From Verif Require Grammar LexProofs.
Import ListNotations.
Local Open Scope N_scope.

(** ** Quotes *)
Lemma count_quotes_run k y : (k <= count_quotes (rep cQ k ++ y))%nat.
Proof. induction k as [|k IH]; cbn; [lia|]. unfold rep in IH. lia. Qed.
Lemma count_quotes_mono a y : (count_quotes a <= count_quotes (a ++ y))%nat.
Proof. induction a as [|c a IH]; cbn; [lia|]. destruct (c =? cQ); lia. Qed.

(** Every run of quotes in x is shorter than d. *)
Definition runs_below (d : nat) (x : bytes) : Prop := forall a k y, x = a ++ rep cQ k ++ y -> (k < d)%nat.
Lemma runs_cons d c x z : runs_below d x -> (count_quotes (c :: x ++ z) < d)%nat -> runs_below d (c :: x).
Proof.
  intros R H a k y E. destruct a as [|b a]; cbn in E.
  - change (c :: x ++ z) with ((c :: x) ++ z) in H. pose proof (count_quotes_mono (c :: x) z). rewrite E in H, H0.
    pose proof (count_quotes_run k y). lia.
  - injection E as -> E. exact (R a k y E).
Qed.
Definition no_last_quote (x : bytes) : Prop := forall y, x <> y ++ [cQ].
Lemma no_last_cons c x : no_last_quote x -> x <> [] \/ c <> cQ -> no_last_quote (c :: x).
Proof.
  intros H1 H2 [|b y] E; cbn in E.
  - injection E as -> ->. destruct H2 as [H2|H2]; congruence.
  - injection E as -> E. exact (H1 y E).
Qed.

Lemma quote_loop_shape d : (1 <= d)%nat -> forall rest sk pre p k, sk = 0%nat \/ (count_quotes rest = sk /\ sk < d)%nat ->
  quote_loop d sk pre rest p = inr k ->
  exists x z, eaten (x ++ rep cQ d) (Cur pre rest p) k /\ rest = x ++ rep cQ d ++ z /\
    runs_below d x /\ no_last_quote x.
Proof.
  intros Hd. induction rest as [|c r IH]; intros sk pre p k Hs E; [discriminate|]. cbn [quote_loop] in E.
  destruct sk as [|sk].
  - destruct (N.eqb_spec c cQ) as [->|Hc]; cbn [negb] in E.
    + destruct (Nat.ltb d _) eqn:L1; [discriminate|]. destruct (Nat.ltb _ d) eqn:L2.
      * apply Nat.ltb_lt in L2. cbn [count_quotes] in E, L2. rewrite N.eqb_refl in E, L2. cbn [Nat.sub] in E. rewrite Nat.sub_0_r in E.
        apply IH in E; [|destruct (count_quotes r); [now left|right; split; [reflexivity|lia]]].
        destruct E as (x & z & E1 & E2 & E3 & E4). exists (cQ :: x), z.
        split; [now apply eaten_cons|]. split; [cbn; now rewrite E2|]. split.
        -- apply (runs_cons d cQ x (rep cQ d ++ z)); [exact E3|]. rewrite <- E2. cbn. lia.
        -- apply no_last_cons; [exact E4|]. left. intros ->. cbn [app] in E2. rewrite E2 in L2. pose proof (count_quotes_run d z). lia.
      * apply Nat.ltb_ge in L1, L2. assert (Hq : count_quotes (cQ :: r) = d) by lia. rewrite Hq in E.
        apply (f_equal (fun x => match x with inr y => y | inl _ => k end)) in E. cbv beta iota in E. rewrite <- E. clear E.
        destruct (count_quotes_split (cQ :: r)) as (u & Hu & _). rewrite Hq in Hu.
        destruct (eat_n_eaten cQ d (Cur pre (cQ :: r) p) u) as (t & -> & Ht); [exact Hu|].
        exists [], u. split; [exact Ht|]. split; [exact Hu|]. split.
        -- intros a m y E. symmetry in E. apply app_eq_nil in E as [_ E]. apply app_eq_nil in E as [E _]. destruct m; [lia|discriminate].
        -- intros y E. destruct y; discriminate.
    + apply IH in E; [|now left]. destruct E as (x & z & E1 & E2 & E3 & E4). exists (c :: x), z.
      split; [now apply eaten_cons|]. split; [cbn; now rewrite E2|]. split.
      * apply (runs_cons d c x (rep cQ d ++ z)); [exact E3|]. cbn. apply N.eqb_neq in Hc. rewrite Hc. lia.
      * apply no_last_cons; auto.
  - destruct Hs as [Hs|[Hs Hlt]]; [discriminate|]. cbn [count_quotes] in Hs. destruct (N.eqb_spec c cQ) as [->|Hc]; [|discriminate].
    injection Hs as Hs. apply IH in E; [|destruct sk; [now left|right; split; [exact Hs|lia]]].
    destruct E as (x & z & E1 & E2 & E3 & E4). exists (cQ :: x), z.
    split; [now apply eaten_cons|]. split; [cbn; now rewrite E2|]. split.
    + apply (runs_cons d cQ x (rep cQ d ++ z)); [exact E3|]. rewrite <- E2. cbn. rewrite Hs. lia.
    + apply no_last_cons; [exact E4|]. left. intros ->. cbn [app] in E2. rewrite E2 in Hs. pose proof (count_quotes_run d z). lia.
Qed.

Lemma eat_quote_text s s' : eat_quote s = POk s' -> exists t, moved t s s' /\ quote_text t.
Proof.
  intros E. pose proof (eat_quote_spec s) as Sp. rewrite E in Sp. destruct Sp as (t & M & _).
  exists t. split; [exact M|]. pose proof (mv_pre _ _ _ M) as Mp. unfold eat_quote in E.
  set (s1 := set_quote (Some (here s)) s) in E.
  destruct (Nat.eqb_spec (count_quotes (s_rest s)) 0) as [H|H]; [discriminate|].
  destruct (count_quotes_split (s_rest s)) as (u & Hu & Hq). set (d := count_quotes (s_rest s)) in *.
  destruct (eat_n_eaten cQ d (cur_of s1) u) as (t0 & Ht & He); [exact Hu|].
  set (k := eat_n cQ d (cur_of s1)) in *.
  destruct (Nat.eqb_spec d 2) as [D|D].
  - injection E as <-. cbn [set_cur s_pre] in Mp. destruct He as (He & _ & _). rewrite He in Mp. cbn [cur_of k_pre] in Mp.
    apply app_inv_tail in Mp. apply (f_equal (@rev N)) in Mp. rewrite !rev_involutive in Mp. subst t t0. rewrite D. constructor.
  - destruct (quote_loop d 0 _ _ _) as [e|k2] eqn:Q; [discriminate|].
    apply quote_loop_shape in Q; [|lia|now left]. destruct Q as (x & z & Q1 & Q2 & Q3 & Q4).
    rewrite cur_eta in Q1. pose proof (eaten_app _ _ _ _ _ He Q1) as (E2 & _ & _).
    assert (Pre : s_pre s' = k_pre k2) by (destruct (need_more_quotes (set_cur s1 k2)); injection E as <-; reflexivity).
    rewrite Pre, E2 in Mp. cbn [cur_of k_pre] in Mp. apply app_inv_tail in Mp. apply (f_equal (@rev N)) in Mp.
    rewrite !rev_involutive in Mp. subst t t0.
    assert (Hr : k_rest k = u).
    { destruct He as (_ & He & _). cbn [cur_of k_rest] in He. change (s_rest s1) with (s_rest s) in He. rewrite Hu in He at 1.
      now apply app_inv_head in He. }
    assert (Xne : x <> []).
    { intros ->. rewrite Hr in Q2. cbn [app] in Q2. rewrite Q2 in Hq. destruct d; [congruence|]. now apply Hq. }
    apply qt_text; [lia|exact D|]. split; [exact Xne|]. split; [|split; [|exact Q3]].
    + intros (c & r & Ex & Hc). apply N.eqb_eq in Hc. subst x c. rewrite Hr in Q2. rewrite Q2 in Hq. now apply Hq.
    + intros (c & r & Ex & Hc). apply N.eqb_eq in Hc. subst c. apply (Q4 (rev r)). apply (f_equal (@rev N)) in Ex.
      rewrite rev_involutive in Ex. exact Ex.
Qed.

(** ** Entities *)
Lemma entity_loop_hex : forall rest pre p c e k c', entity_loop pre rest p c e = (k, c', false) ->
  exists t, eaten t (Cur pre rest p) k /\ forallb is_lowercase_hex t = true /\ e = false.
Proof.
  induction rest as [|d r IH]; intros pre p c e k c' E; cbn [entity_loop] in E.
  - injection E as <- <- ->. exists []. split; [apply eaten_nil|]. auto.
  - destruct (is_xmq_text_name d); cbn [negb] in E.
    + apply IH in E. destruct E as (t & E1 & E2 & E3). destruct (is_lowercase_hex d) eqn:Hx; [|discriminate].
      exists (d :: t). split; [now apply eaten_cons|]. cbn. rewrite Hx. auto.
    + injection E as <- <- ->. exists []. split; [apply eaten_nil|]. auto.
Qed.
Lemma eat_entity_text s s' : peek_is cAMP s = true -> eat_entity s = POk s' -> exists t, moved t s s' /\ entity_text t.
Proof.
  intros Hp. unfold eat_entity. pose proof (moved_step cAMP s Hp ltac:(discriminate)) as M1.
  set (s1 := step cAMP s) in *.
  destruct (entity_loop _ _ _ _ _) as [[k c] e] eqn:E. pose proof (entity_loop_eaten _ _ _ _ _ _ _ _ E) as (t & E1 & E2 & E3).
  pose proof (moved_trans _ _ _ _ _ M1 (moved_set_cur t s1 k E1)) as M2. set (s2 := set_cur s1 k) in *.
  destruct (N.eqb_spec c cSEMI) as [->|Hc].
  - assert (R : exists r, k_rest k = cSEMI :: r).
    { destruct (k_rest k) as [|d r]; [exfalso|destruct E3 as [-> _]; eauto].
      destruct t as [|a t _] using rev_ind; [discriminate|]. rewrite last_last in E3. subst a.
      rewrite forallb_app in E2. cbn in E2. rewrite andb_false_r in E2. discriminate. }
    destruct R as (r & R).
    assert (P : peek_is cSEMI s2 = true) by (unfold peek_is, peek; change (s_rest s2) with (k_rest k); now rewrite R).
    pose proof (moved_trans _ _ _ _ _ M2 (moved_step cSEMI s2 P ltac:(discriminate))) as M3.
    destruct (peek (step cSEMI s2)); [|discriminate]. intros [= <-].
    exists (([cAMP] ++ t) ++ [cSEMI]). split; [exact M3|]. apply (et_closed t E2).
  - destruct e; [discriminate|]. intros [= <-]. exists ([cAMP] ++ t). split; [exact M2|].
    apply entity_loop_hex in E. destruct E as (t' & E4 & E5 & _). apply (et_open t).
    replace t with t'; [exact E5|]. destruct E1 as (E1 & _). destruct E4 as (E4 & _). rewrite E1 in E4. apply app_inv_tail in E4.
    apply (f_equal (@rev N)) in E4. now rewrite !rev_involutive in E4.
Qed.

(** ** Comments *)
Lemma eol_loop_shape : forall rest pre p, exists b e, eaten (b ++ e) (Cur pre rest p) (eol_loop pre rest p) /\
  ~ In cNL b /\ (e = [] \/ e = [cNL]).
Proof.
  induction rest as [|c r IH]; intros pre p; cbn [eol_loop].
  - exists [], []. split; [apply eaten_nil|]. cbn. auto.
  - destruct (N.eqb_spec c cNL) as [->|Hc].
    + exists [], [cNL]. split; [repeat split|]. cbn. auto.
    + destruct (IH (c :: pre) (inc c p)) as (b & e & H1 & H2 & H3). exists (c :: b), e.
      split; [now apply eaten_cons|]. split; [|exact H3]. intros [E|E]; [congruence|auto].
Qed.
Lemma eat_eol_text s n b : count_slashes (s_rest s) (s_aft s) = Some (n, b) -> (2 <= n)%nat ->
  exists t, moved t s (eat_comment_to_eol s) /\ line_comment t.
Proof.
  intros H Hn. unfold eat_comment_to_eol. apply count_slashes_split in H. destruct H as (u & Hu & _).
  destruct n as [|[|n]]; try lia.
  destruct (eat_n_eaten cSLASH 2 (cur_of s) (rep cSLASH n ++ u)) as (t & Ht & He); [exact Hu|].
  set (k := eat_n cSLASH 2 (cur_of s)) in *.
  destruct (eol_loop_shape (k_rest k) (k_pre k) (k_pos k)) as (t2 & e & E2 & E3 & E4). rewrite cur_eta in E2.
  exists (t ++ t2 ++ e). split; [|subst t; exact (lc_line t2 e E3 E4)].
  apply moved_set_cur. eapply eaten_app; eauto.
Qed.

Lemma count_slashes_run k y aft n b : count_slashes (rep cSLASH k ++ y) aft = Some (n, b) -> (k <= n)%nat.
Proof.
  revert n b. induction k as [|k IH]; intros n b; cbn; [lia|]. unfold rep in IH.
  destruct (count_slashes (repeat cSLASH k ++ y) aft) as [[m b']|]; [|discriminate]. intros [= <- <-]. specialize (IH _ _ eq_refl). lia.
Qed.
(** In x every asterisk is followed by less than n slashes. *)
Definition stars_below (n : nat) (x : bytes) : Prop := forall a k y, x = a ++ [cSTAR] ++ rep cSLASH k ++ y -> (k < n)%nat.
Lemma close_loop_shape num : (1 <= num)%nat -> forall rest c pre aft p k more,
  close_loop num c pre rest aft p = Closed k more ->
  exists u z, eaten (u ++ rep cSLASH num) (Cur pre rest p) k /\ rest = u ++ rep cSLASH num ++ z /\
    stars_below num (c :: u) /\ exists v, c :: u = v ++ [cSTAR].
Proof.
  intros Hn. induction rest as [|d r IH]; intros c pre aft p k more H; [discriminate|]. cbn [close_loop] in H.
  assert (Step : (forall m y, c = cSTAR -> d :: r = rep cSLASH m ++ y -> (m < num)%nat) ->
    close_loop num d (d :: pre) r aft (inc d p) = Closed k more ->
    exists u z, eaten (u ++ rep cSLASH num) (Cur pre (d :: r) p) k /\ d :: r = u ++ rep cSLASH num ++ z /\
      stars_below num (c :: u) /\ exists v, c :: u = v ++ [cSTAR]).
  { intros Hs E. apply IH in E. destruct E as (u & z & E1 & E2 & E3 & v & E4). exists (d :: u), z.
    split; [now apply eaten_cons|]. split; [cbn; now rewrite E2|]. split; [|exists (c :: v); cbn; now rewrite E4].
    intros a m y E. destruct a as [|b a]; cbn in E.
    - injection E as -> E. apply (Hs m (y ++ rep cSLASH num ++ z)); [reflexivity|].
      rewrite E2. change (d :: u ++ rep cSLASH num ++ z) with ((d :: u) ++ rep cSLASH num ++ z). rewrite E, <- app_assoc. reflexivity.
    - injection E as _ E. exact (E3 a m y E). }
  destruct (negb (c =? cSTAR) || negb (d =? cSLASH)) eqn:C.
  - apply Step; [|exact H]. intros m y -> E. rewrite N.eqb_refl in C. cbn in C. apply negb_true_iff, N.eqb_neq in C.
    destruct m; [lia|]. cbn in E. congruence.
  - apply orb_false_iff in C as [C1 C2]. apply negb_false_iff, N.eqb_eq in C1, C2. subst c d.
    destruct (count_slashes (cSLASH :: r) aft) as [[n b]|] eqn:E; [|discriminate].
    destruct (Nat.ltb_spec n num) as [L|L].
    + apply Step; [|exact H]. intros m y _ Em. rewrite Em in E. apply count_slashes_run in E. lia.
    + destruct (Nat.ltb_spec num n) as [L2|L2]; [discriminate|]. assert (n = num) by lia. subst n. injection H as <- <-.
      destruct (count_slashes_split _ _ _ _ E) as (z & Hz & _).
      destruct (eat_n_eaten cSLASH num (Cur pre (cSLASH :: r) p) z) as (t & -> & Ht); [exact Hz|].
      exists [], z. split; [exact Ht|]. split; [exact Hz|]. split; [|now exists []].
      intros a m y Em. destruct a as [|x [|x' a]]; cbn in Em; try discriminate. destruct m; [lia|discriminate].
Qed.

Lemma eat_close_text num s s' more : (1 <= num)%nat -> at_comment num s -> eat_comment_to_close num s = (POk s', more) ->
  exists t, moved t s s' /\ (comment_part num t \/ block_comment num t) /\ (peek_is cSTAR s = true -> comment_part num t)
    /\ (peek_is cSTAR s = false -> block_comment num t) /\ (more = true -> peek_is cSTAR s' = true).
Proof.
  intros Hn At E. pose proof (eat_comment_to_close_spec num s Hn At) as Sp. rewrite E in Sp. destruct Sp as (t & M & _ & More).
  unfold eat_comment_to_close in E.
  set (k := if peek_is cSLASH s then eat_n cSLASH num (cur_of s) else cur_of s) in E.
  assert (A : exists f, k_pre k = rev f ++ s_pre s /\ (peek_is cSTAR s = true /\ f = [] \/ peek_is cSTAR s = false /\ f = rep cSLASH num)).
  { unfold k. destruct At as [(u & Hu & _)|[(u & Hu & Ha & _)|Hs]].
    - destruct num as [|n]; [lia|].
      replace (peek_is cSLASH s) with true by (unfold peek_is, peek; now rewrite Hu).
      replace (peek_is cSTAR s) with false by (unfold peek_is, peek; now rewrite Hu).
      destruct (eat_n_eaten cSLASH (S n) (cur_of s) (cSTAR :: u)) as (f & -> & He & _); [exact Hu|]. exists (rep cSLASH (S n)). auto.
    - destruct num as [|n]; [lia|].
      replace (peek_is cSLASH s) with true by (unfold peek_is, peek; now rewrite Hu).
      replace (peek_is cSTAR s) with false by (unfold peek_is, peek; now rewrite Hu).
      destruct (eat_n_eaten cSLASH (S n) (cur_of s) []) as (f & -> & He & _); [rewrite app_nil_r; exact Hu|]. exists (rep cSLASH (S n)). auto.
    - assert (peek_is cSLASH s = false) as ->.
      { unfold peek_is in *. destruct (peek s); [|discriminate]. apply N.eqb_eq in Hs. now subst. }
      exists []. auto. }
  destruct A as (f & Af & Ac).
  destruct (peek_is cSTAR (set_cur s k)) eqn:P; cbn [negb] in E; [|discriminate].
  pose proof (moved_step cSTAR _ P ltac:(discriminate)) as M2.
  set (s2 := step cSTAR (set_cur s k)) in *.
  destruct (close_loop _ _ _ _ _ _) as [k2 more'|e|] eqn:C; try discriminate. injection E as <- <-.
  apply close_loop_shape in C; [|exact Hn]. destruct C as (u & z & C1 & C2 & C3 & v & C4).
  destruct v as [|c v]; cbn in C4; [discriminate|]. injection C4 as <- C4. subst u.
  pose proof (mv_pre _ _ _ M) as Mp. cbn [set_cur s_pre] in Mp. destruct C1 as (C1 & _ & _). rewrite C1 in Mp. cbn [k_pre] in Mp.
  rewrite (mv_pre _ _ _ M2) in Mp. cbn [set_cur s_pre] in Mp. rewrite Af in Mp.
  replace (rev ((v ++ [cSTAR]) ++ rep cSLASH num) ++ rev [cSTAR] ++ rev f ++ s_pre s)
    with (rev (f ++ [cSTAR] ++ v ++ [cSTAR] ++ rep cSLASH num) ++ s_pre s) in Mp
    by (rewrite !rev_app_distr, <- !app_assoc; reflexivity).
  apply app_inv_tail in Mp. apply (f_equal (@rev N)) in Mp. rewrite !rev_involutive in Mp. subst t.
  assert (Pt : comment_part num ([cSTAR] ++ v ++ [cSTAR] ++ rep cSLASH num)).
  { apply cp_part. intros x m y Ex. apply (C3 (0 :: x) m y). cbn. f_equal. exact Ex. }
  exists (f ++ [cSTAR] ++ v ++ [cSTAR] ++ rep cSLASH num). split; [exact M|].
  destruct Ac as [[Ac ->]|[Ac ->]]; rewrite Ac.
  - split; [left; exact Pt|]. split; [intros _; exact Pt|]. split; [discriminate|exact More].
  - assert (Bl : block_comment num (rep cSLASH num ++ [cSTAR] ++ v ++ [cSTAR] ++ rep cSLASH num)) by (eexists; split; [reflexivity|exact Pt]).
    split; [right; exact Bl|]. split; [discriminate|]. split; [intros _; exact Bl|exact More].
Qed.

(** ** Values without quotes *)
Lemma value_loop_shape : forall rest pre p, exists t z, eaten t (Cur pre rest p) (value_loop pre rest p) /\ rest = t ++ z /\
  Forall (fun c => is_xml_whitespace c = false /\ ~ In c Grammar.ends_value) t.
Proof.
  induction rest as [|c r IH]; intros pre p; cbn [value_loop].
  - exists [], []. split; [apply eaten_nil|]. auto.
  - destruct (is_safe_value_char (c :: r)) eqn:E.
    + destruct (IH (c :: pre) (inc c p)) as (t & z & H1 & H2 & H3). exists (c :: t), z. split; [now apply eaten_cons|].
      split; [cbn; now rewrite H2|]. constructor; [|exact H3].
      apply LexProofs.safe_end in E. split.
      * destruct (is_xml_whitespace c) eqn:W; [|reflexivity]. exfalso. apply E. right. left. now constructor.
      * intros I. apply E. right. right. exists c, r. split; [reflexivity|]. unfold Grammar.one_of. apply existsb_exists.
        exists c. split; [exact I|apply N.eqb_refl].
    + exists [], (c :: r). split; [apply eaten_nil|]. auto.
Qed.
Lemma text_value_shape s c cc : peek s = Some c -> peek1 s = Some cc -> unsafe_value_start c cc = false ->
  exists t, moved t s (set_cur s (value_loop (s_pre s) (s_rest s) (s_line s, s_col s))) /\ bare_text t.
Proof.
  intros P P1 U. destruct (value_loop_shape (s_rest s) (s_pre s) (s_line s, s_col s)) as (t & z & H1 & H2 & H3).
  exists t. split; [now apply moved_set_cur|]. split; [|exact H3].
  unfold peek in P. unfold peek1 in P1. rewrite H2 in P, P1. unfold unsafe_value_start in U.
  apply orb_false_iff in U as [U U3]. apply orb_false_iff in U as [U1 U2].
  intros [(b & r & -> & Hb)|(r & [-> | ->])]; cbn in P, P1; injection P as <-.
  - cbn in Hb. rewrite U1, U2 in Hb. discriminate.
  - injection P1 as <-. discriminate.
  - injection P1 as <-. discriminate.
Qed.

(** ** Names *)
Lemma split_colon_none n : split_colon n = None -> ~ In cCOLON n.
Proof.
  induction n as [|c r IH]; cbn; [tauto|]. destruct (split_colon r) as [[a b]|]; [discriminate|].
  destruct (N.eqb_spec c cCOLON); [discriminate|]. intros _ [H|H]; [congruence|now apply IH].
Qed.
Lemma split_colon_last n a b : split_colon n = Some (a, b) -> ~ In cCOLON b.
Proof.
  revert a b. induction n as [|c r IH]; intros a b; cbn; [discriminate|]. destruct (split_colon r) as [[x y]|] eqn:E.
  - intros [= <- <-]. eauto.
  - destruct (N.eqb_spec c cCOLON); [|discriminate]. intros [= <- <-]. now apply split_colon_none.
Qed.
Lemma split_colon_names n a b : name_chars n -> split_colon n = Some (a, b) -> name_chars a /\ simple_name b.
Proof.
  intros H E. pose proof (split_colon_last _ _ _ E). apply split_colon_eq in E. subst n. unfold name_chars in H.
  rewrite forallb_app in H. cbn in H. apply andb_true_iff in H as [H1 H2]. split; [exact H1|]. split; assumption.
Qed.
