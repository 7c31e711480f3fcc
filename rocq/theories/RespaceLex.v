(** Proofs for C36: reading one token does not depend on what follows it, as
    long as that does not continue the token. *)
From Coq Require Import NArith ZArith List Bool Arith Lia String.
From Verif Require Import Bytes BytesFacts Parser ParserSpec ParserProofs Dom Grammar LexProofs Respace.
Import ListNotations.
Local Open Scope N_scope.
Local Open Scope pout_scope.

(* ---------- quotes ---------- *)

Lemma eat_n_rep c n : forall pre u p, exists q, eat_n c n (Cur pre (rep c n ++ u) p) = Cur (rev (rep c n) ++ pre) u q.
Proof.
  induction n as [|n IH]; intros pre u p; [exists p; reflexivity|]. cbn [eat_n rep repeat app k_rest k_pre k_pos].
  destruct (IH (c :: pre) u (inc c p)) as (q & H). unfold rep in *. rewrite H. exists q. f_equal.
  cbn [rev]. now rewrite <- app_assoc.
Qed.

Lemma count_quotes_app t z : ~ starts (is cQ) z -> forall z', ~ starts (is cQ) z' ->
  count_quotes (t ++ z) = count_quotes (t ++ z').
Proof.
  intros H z' H'. induction t as [|c t IH]; cbn [app count_quotes].
  - assert (G : forall z, ~ starts (is cQ) z -> count_quotes z = 0%nat).
    { clear. intros [|c r] H; auto. cbn. destruct (c =? cQ) eqn:E; auto. exfalso. apply H. exists c, r. auto. }
    now rewrite !G.
  - now rewrite IH.
Qed.

Lemma quotes_not_starts r : forall u, r = rep cQ (count_quotes r) ++ u -> hd_error u <> Some cQ -> ~ starts (is cQ) u.
Proof. intros u _ H (c & q & -> & E). apply N.eqb_eq in E. subst. now apply H. Qed.

Lemma quote_loop_local d : forall rest sk pre p k, (sk <= count_quotes rest)%nat -> quote_loop d sk pre rest p = inr k ->
  exists t, rest = t ++ k_rest k /\ k_pre k = rev t ++ pre /\ ~ starts (is cQ) (k_rest k)
   /\ forall z' pre' p', ~ starts (is cQ) z' ->
        exists q, quote_loop d sk pre' (t ++ z') p' = inr (Cur (rev t ++ pre') z' q).
Proof.
  induction rest as [|c r IH]; intros sk pre p k Hs H; [discriminate|]. cbn [quote_loop] in H.
  destruct sk as [|sk].
  - destruct (N.eqb_spec c cQ) as [->|Hc]; cbn [negb] in H.
    + destruct (Nat.ltb d _) eqn:E1; [discriminate|]. destruct (Nat.ltb _ d) eqn:E.
      * apply IH in H; [|cbn; lia]. destruct H as (t & H1 & H2 & H3 & H4). exists (cQ :: t).
        split; [cbn; now f_equal|]. split; [cbn [rev]; now rewrite <- app_assoc|]. split; auto.
        intros z' pre' p' Hz. cbn [app quote_loop]. change (negb (cQ =? cQ)) with false. cbn iota.
        assert (C : count_quotes (cQ :: r) = count_quotes (cQ :: t ++ z')).
        { rewrite H1. change (cQ :: t ++ k_rest k) with ((cQ :: t) ++ k_rest k). change (cQ :: t ++ z') with ((cQ :: t) ++ z').
          apply count_quotes_app; auto. }
        rewrite <- C, E1, E. destruct (H4 z' (cQ :: pre') (inc cQ p') Hz) as (q & ->). exists q. do 2 f_equal.
        cbn [rev]. now rewrite <- app_assoc.
      * destruct (count_quotes_split (cQ :: r)) as (u & Hu & Hh). remember (count_quotes (cQ :: r)) as n eqn:En.
        assert (Hn : ~ starts (is cQ) u) by (apply (quotes_not_starts (cQ :: r)); congruence).
        assert (K : k = eat_n cQ n (Cur pre (cQ :: r) p)) by congruence. rewrite Hu in K.
        destruct (eat_n_rep cQ n pre u p) as (q & Hq). rewrite Hq in K. subst k. cbn [k_rest k_pre].
        exists (rep cQ n). split; [exact Hu|]. split; auto. split; auto.
        intros z' pre' p' Hz. destruct n as [|n]; [discriminate|].
        unfold rep at 1. cbn [repeat app quote_loop]. change (negb (cQ =? cQ)) with false. cbn iota.
        change (cQ :: repeat cQ n ++ z') with (rep cQ (S n) ++ z').
        assert (C : count_quotes (rep cQ (S n) ++ z') = S n).
        { rewrite (count_quotes_app (rep cQ (S n)) z' Hz u Hn). unfold rep in *. rewrite <- Hu. now symmetry. }
        rewrite C, E1, E. destruct (eat_n_rep cQ (S n) pre' z' p') as (q' & ->). exists q'. reflexivity.
    + apply IH in H; [|lia]. destruct H as (t & H1 & H2 & H3 & H4). exists (c :: t).
      split; [cbn; now f_equal|]. split; [cbn [rev]; now rewrite <- app_assoc|]. split; auto.
      intros z' pre' p' Hz. cbn [app quote_loop]. apply N.eqb_neq in Hc. rewrite Hc. cbn [negb].
      destruct (H4 z' (c :: pre') (inc c p') Hz) as (q & ->). exists q. do 2 f_equal. cbn [rev]. now rewrite <- app_assoc.
  - cbn in Hs. destruct (N.eqb_spec c cQ) as [->|Hc]; [|lia].
    apply IH in H; [|lia]. destruct H as (t & H1 & H2 & H3 & H4). exists (cQ :: t).
    split; [cbn; now f_equal|]. split; [cbn [rev]; now rewrite <- app_assoc|]. split; auto.
    intros z' pre' p' Hz. cbn [app quote_loop].
    destruct (H4 z' (cQ :: pre') (inc cQ p') Hz) as (q & ->). exists q. do 2 f_equal. cbn [rev]. now rewrite <- app_assoc.
Qed.

Lemma count_rep n u : ~ starts (is cQ) u -> count_quotes (rep cQ n ++ u) = n.
Proof.
  intros H. induction n as [|n IH]; cbn [rep repeat app count_quotes].
  - destruct u as [|c r]; auto. cbn. destruct (c =? cQ) eqn:E; auto. exfalso. apply H. exists c, r. auto.
  - change (cQ =? cQ) with true. cbn iota. f_equal. exact IH.
Qed.

Lemma quote_local l s s1 : parse_quote l s = POk s1 ->
  exists t, ate t [(quote_kind l, t)] s s1 /\ ~ starts (is cQ) (s_rest s1) /\ t <> []
   /\ forall s' z', s_rest s' = t ++ z' -> ~ starts (is cQ) z' ->
        exists s1', parse_quote l s' = POk s1' /\ ate t [(quote_kind l, t)] s' s1'.
Proof.
  unfold parse_quote. intros H. destruct (eat_quote s) as [s2| | | |] eqn:E; try discriminate. cbn [pbind] in H.
  assert (H1 : s1 = emit_from (quote_kind l) s s2) by congruence. subst s1. clear H.
  assert (X : exists t, ate t [] s s2 /\ ~ starts (is cQ) (s_rest s2) /\ t <> []
    /\ forall s' z', s_rest s' = t ++ z' -> ~ starts (is cQ) z' -> exists s2', eat_quote s' = POk s2' /\ ate t [] s' s2').
  { unfold eat_quote in E. destruct (Nat.eqb (count_quotes (s_rest s)) 0) eqn:E0; [discriminate|].
    destruct (count_quotes_split (s_rest s)) as (u & Hu & Hh). set (d := count_quotes (s_rest s)) in *.
    pose proof (quotes_not_starts (s_rest s) u Hu Hh) as Hn. unfold cur_of in E. cbn [set_quote s_pre s_rest s_line s_col] in E. rewrite Hu in E.
    match type of E with context [eat_n cQ d (Cur ?a ?b ?c)] => destruct (eat_n_rep cQ d (s_pre s) u c) as (q & Hq) end.
    rewrite Hq in E. clear Hq. destruct (Nat.eqb d 2) eqn:E2.
    - injection E as <-. exists (rep cQ d). apply Nat.eqb_eq in E2. split; [|split; [exact Hn|split]].
      + constructor; cbn; auto. exists []. auto.
      + rewrite E2. discriminate.
      + intros s' z' R Hz. unfold eat_quote. rewrite R, (count_rep d z' Hz). rewrite E0. apply Nat.eqb_eq in E2. rewrite E2.
        unfold cur_of. cbn [set_quote s_pre s_rest s_line s_col]. rewrite R.
        destruct (eat_n_rep cQ d (s_pre s') z' (s_line s', s_col s')) as (q' & ->). eexists. split; [reflexivity|].
        constructor; cbn; auto. exists []. auto.
    - cbn [k_pre k_rest k_pos] in E. destruct (quote_loop _ 0 _ _ _) as [e|k2] eqn:L; [discriminate|].
      apply quote_loop_local in L; [|lia]. destruct L as (t & H1 & H2 & H3 & H4).
      assert (B : ate (rep cQ d ++ t) [] s s2 /\ s_rest s2 = k_rest k2).
      { destruct (need_more_quotes _); injection E as <-; cbn; (split; [|reflexivity]);
          (constructor; cbn; [rewrite H2, rev_app_distr; now rewrite <- app_assoc| rewrite <- app_assoc, <- H1; exact Hu|reflexivity|exists []; auto]). }
      destruct B as [B Br]. clear E. assert (D : (d <> 0)%nat) by now apply Nat.eqb_neq.
      exists (rep cQ d ++ t). split; [exact B|]. split; [now rewrite Br|]. split; [destruct d; [congruence|discriminate]|].
      intros s' z' R Hz. unfold eat_quote.
      assert (C : count_quotes (s_rest s') = d).
      { rewrite R. rewrite (count_quotes_app _ z' Hz (k_rest k2) H3), <- app_assoc, <- H1, <- Hu. reflexivity. }
      rewrite C, E0, E2. unfold cur_of. cbn [set_quote s_pre s_rest s_line s_col]. rewrite R, <- app_assoc.
      destruct (eat_n_rep cQ d (s_pre s') (t ++ z') (s_line s', s_col s')) as (q' & ->). cbn [k_pre k_rest k_pos].
      destruct (H4 z' (rev (rep cQ d) ++ s_pre s') q' Hz) as (q2 & ->).
      assert (G : forall m, ate (rep cQ d ++ t) [] s' (set_susp m (set_cur (set_quote (Some (here s')) s') (Cur (rev t ++ rev (rep cQ d) ++ s_pre s') z' q2)))
                /\ ate (rep cQ d ++ t) [] s' (set_cur (set_quote (Some (here s')) s') (Cur (rev t ++ rev (rep cQ d) ++ s_pre s') z' q2))).
      { intros m. split; (constructor; cbn; [rewrite rev_app_distr; now rewrite <- app_assoc|exact R|reflexivity|exists []; auto]). }
      destruct (need_more_quotes _); eexists; (split; [reflexivity|]); [exact (proj1 (G _))|exact (proj2 (G None))]. }
  destruct X as (t & A & Hn & Ht & L). exists t. split; [now apply ate_emit_from|]. split; [exact Hn|]. split; [exact Ht|].
  intros s' z' R Hz. destruct (L s' z' R Hz) as (s2' & -> & A'). cbn [pbind]. eexists. split; [reflexivity|]. now apply ate_emit_from.
Qed.

(* ---------- entities ---------- *)

Definition expects (n : bytes) (e : bool) : bool := fold_left (fun e c => if is_lowercase_hex c then e else true) n e.

Lemma entity_loop_local : forall n z pre p c e, forallb is_xmq_text_name n = true -> ~ starts is_xmq_text_name z ->
  exists q, entity_loop pre (n ++ z) p c e = (Cur (rev n ++ pre) z q, (match z with [] => List.last n c | d :: _ => d end), expects n e).
Proof.
  induction n as [|a n IH]; intros z pre p c e H Hz; cbn [app].
  - exists p. destruct z as [|d r]; [reflexivity|]. cbn [entity_loop]. destruct (is_xmq_text_name d) eqn:E; [|reflexivity].
    exfalso. apply Hz. exists d, r. auto.
  - cbn in H. apply andb_true_iff in H. destruct H as [H1 H2]. cbn [entity_loop]. rewrite H1. cbn [negb].
    destruct (IH z (a :: pre) (inc a p) a (if is_lowercase_hex a then e else true) H2 Hz) as (q & ->). exists q.
    f_equal. f_equal; [f_equal; cbn [rev]; now rewrite <- app_assoc|].
    destruct z; auto. destruct n; auto. cbn [List.last]. clear. revert n. induction n0 as [|b n0 IH]; intros; cbn; auto.
Qed.

Lemma entity_local l s s1 : nul_after s -> peek_is cAMP s = true -> parse_entity l s = POk s1 ->
  exists t, ate t [(entity_kind l, t)] s s1 /\ t <> []
   /\ forall s' z', nul_after s' -> s_rest s' = t ++ z' ->
        (~ starts is_xmq_text_name (s_rest s1) -> ~ starts is_xmq_text_name z') ->
        (~ starts (is cSEMI) (s_rest s1) -> ~ starts (is cSEMI) z') ->
        exists s1', parse_entity l s' = POk s1' /\ ate t [(entity_kind l, t)] s' s1'.
Proof.
  unfold parse_entity. intros N P H. destruct (eat_entity s) as [s2| | | |] eqn:E; try discriminate. cbn [pbind] in H.
  assert (H1 : s1 = emit_from (entity_kind l) s s2) by congruence. subst s1. clear H.
  change (s_rest (emit_from (entity_kind l) s s2)) with (s_rest s2).
  destruct (nul_peek _ _ N P ltac:(discriminate)) as (r & R).
  assert (X : exists t, ate t [] s s2 /\ t <> [] /\ forall s' z', nul_after s' -> s_rest s' = t ++ z' ->
     (~ starts is_xmq_text_name (s_rest s2) -> ~ starts is_xmq_text_name z') ->
     (~ starts (is cSEMI) (s_rest s2) -> ~ starts (is cSEMI) z') -> exists s2', eat_entity s' = POk s2' /\ ate t [] s' s2').
  { unfold eat_entity in E. pose proof (ate_step cAMP s r R) as A1. set (s1 := step cAMP s) in *.
    pose proof (ate_rest _ _ _ _ r A1 R) as R1.
    destruct (entity_loop (s_pre s1) (s_rest s1) (s_line s1, s_col s1) 0 false) as [[k c] e] eqn:EL.
    pose proof (entity_loop_eaten _ _ _ _ _ _ _ _ EL) as (n & E1 & E2 & E3).
    destruct E1 as (Kp & Kr & _). cbn [k_pre k_rest] in Kp, Kr.
    assert (Z : ~ starts is_xmq_text_name (k_rest k)).
    { intros (d & q & Q & G). rewrite Q in E3. destruct E3 as [_ E3]. congruence. }
    rewrite Kr in EL. destruct (entity_loop_local n (k_rest k) (s_pre s1) (s_line s1, s_col s1) 0 false E2 Z) as (q & EL2).
    rewrite EL2 in EL. assert (He : expects n false = e) by congruence. assert (Hc : c = match k_rest k with [] => List.last n 0 | d :: _ => d end) by congruence. clear EL EL2.
    assert (A2 : ate n [] s1 (set_cur s1 k)) by (apply ate_set_cur; auto).
    pose proof (ate_trans _ _ _ _ _ _ _ A1 A2) as A12. cbn [app] in A12. set (sm := set_cur s1 k) in *.
    assert (Rm : s_rest sm = k_rest k) by reflexivity.
    assert (SEMI : forall z, (match z with [] => List.last n 0 | d :: _ => d end =? cSEMI) = true <-> starts (is cSEMI) z).
    { intros z. split.
      - intros G. destruct z as [|d u]; [|exists d, u; auto]. exfalso. apply N.eqb_eq in G.
        destruct n as [|a n' _] using rev_ind; [discriminate|]. rewrite last_last in G. subst a.
        rewrite forallb_app in E2. cbn in E2. rewrite andb_false_r in E2. discriminate.
      - intros (d & u & -> & G). exact G. }
    destruct (c =? cSEMI) eqn:C.
    - rewrite Hc in C. apply SEMI in C. destruct C as (d & u & Q & G). apply N.eqb_eq in G. subst d.
      assert (Ru : s_rest sm = cSEMI :: u) by now rewrite Rm.
      pose proof (ate_trans _ _ _ _ _ _ _ A12 (ate_step cSEMI sm u Ru)) as A3. cbn [app] in A3.
      destruct (peek (step cSEMI sm)) eqn:Pk; [|discriminate]. injection E as <-.
      exists (cAMP :: n ++ [cSEMI]). split; [exact A3|]. split; [discriminate|].
      intros s' z' N' R' _ _. unfold eat_entity.
      rewrite <- app_comm_cons, <- app_assoc in R'. cbn [app] in R'.
      pose proof (ate_step cAMP s' _ R') as B1. set (s1' := step cAMP s') in *. pose proof (ate_rest _ _ _ _ _ B1 R') as RB1. rewrite RB1.
      destruct (entity_loop_local n (cSEMI :: z') (s_pre s1') (s_line s1', s_col s1') 0 false E2) as (q' & EL).
      { intros (d & v & V & G). injection V as <- <-. discriminate. }
      rewrite EL. change (cSEMI =? cSEMI) with true. cbn iota.
      set (sm' := set_cur s1' _).
      assert (B2 : ate n [] s1' sm') by (apply ate_set_cur; cbn; auto).
      pose proof (ate_trans _ _ _ _ _ _ _ (ate_trans _ _ _ _ _ _ _ B1 B2) (ate_step cSEMI sm' z' eq_refl)) as B3. cbn [app] in B3.
      pose proof (ate_nul _ _ _ _ B3 N') as NB. unfold peek, nul_after in *. 
      destruct (s_rest (step cSEMI sm') ++ s_aft (step cSEMI sm')) eqn:PP.
      + apply app_eq_nil in PP. destruct PP as [_ PP]. rewrite PP in NB. discriminate.
      + eexists. split; [reflexivity|exact B3].
    - destruct e; [discriminate|]. injection E as <-. exists (cAMP :: n). split; [exact A12|]. split; [discriminate|].
      intros s' z' N' R' Hz1 Hz2. unfold eat_entity. rewrite <- app_comm_cons in R'.
      pose proof (ate_step cAMP s' _ R') as B1. set (s1' := step cAMP s') in *. pose proof (ate_rest _ _ _ _ _ B1 R') as RB1. rewrite RB1.
      destruct (entity_loop_local n z' (s_pre s1') (s_line s1', s_col s1') 0 false E2) as (q' & EL); [apply Hz1; now rewrite Rm|].
      rewrite EL. destruct (match z' with [] => List.last n 0 | d :: _ => d end =? cSEMI) eqn:C2.
      { exfalso. apply SEMI in C2. revert C2. apply Hz2. rewrite Rm. intros G. apply SEMI in G. rewrite <- Hc in G. congruence. }
      rewrite He. eexists. split; [reflexivity|].
      assert (B2 : ate n [] s1' (set_cur s1' (Cur (rev n ++ s_pre s1') z' q'))) by (apply ate_set_cur; cbn; auto).
      exact (ate_trans _ _ _ _ _ _ _ B1 B2). }
  destruct X as (t & A & Ht & L). exists t. split; [now apply ate_emit_from|]. split; [exact Ht|].
  intros s' z' N' R' H1 H2. destruct (L s' z' N' R' H1 H2) as (s2' & -> & A'). cbn [pbind]. eexists. split; [reflexivity|]. now apply ate_emit_from.
Qed.

(* ---------- comments ---------- *)

Fixpoint slashes (r : bytes) : nat :=
  match r with c :: r' => if c =? cSLASH then S (slashes r') else 0%nat | [] => 0%nat end.
Definition starb (z : bytes) : bool := match z with d :: _ => d =? cSTAR | [] => false end.

Lemma count_slashes_val r aft : hd_error aft = Some 0 -> count_slashes r aft = Some (slashes r, starb (skipn (slashes r) r)).
Proof.
  intros H. induction r as [|c r IH]; cbn [count_slashes slashes].
  - destruct aft; [discriminate|]. injection H as ->. reflexivity.
  - destruct (c =? cSLASH) eqn:E; [|reflexivity]. rewrite IH. reflexivity.
Qed.
Lemma slashes_none z : ~ starts (is cSLASH) z -> slashes z = 0%nat.
Proof. intros H. destruct z as [|c r]; auto. cbn. destruct (c =? cSLASH) eqn:E; auto. exfalso. apply H. exists c, r. auto. Qed.
Lemma slashes_app t z z' : ~ starts (is cSLASH) z -> ~ starts (is cSLASH) z' -> slashes (t ++ z) = slashes (t ++ z').
Proof.
  intros H H'. induction t as [|c t IH]; cbn [app slashes].
  - now rewrite !slashes_none.
  - now rewrite IH.
Qed.
Lemma slashes_rep n z : ~ starts (is cSLASH) z -> slashes (rep cSLASH n ++ z) = n.
Proof.
  intros H. induction n as [|n IH]; cbn [rep repeat app slashes]; [now apply slashes_none|].
  change (cSLASH =? cSLASH) with true. cbn iota. f_equal. exact IH.
Qed.
Lemma slashes_split r : exists u, r = rep cSLASH (slashes r) ++ u /\ ~ starts (is cSLASH) u.
Proof.
  induction r as [|c r IH]; cbn [slashes].
  - exists []. split; auto. intros (c & q & H & _). discriminate.
  - destruct (N.eqb_spec c cSLASH) as [->|H].
    + destruct IH as (u & H1 & H2). exists u. split; auto. cbn. f_equal. exact H1.
    + exists (c :: r). split; auto. intros (d & q & E & G). injection E as <- <-. apply N.eqb_eq in G. contradiction.
Qed.
Lemma skipn_rep n z : skipn n (rep cSLASH n ++ z) = z.
Proof. induction n; auto. Qed.

Lemma close_loop_local num : forall rest c pre aft p k more, hd_error aft = Some 0 ->
  close_loop num c pre rest aft p = Closed k more ->
  exists t, rest = t ++ k_rest k /\ k_pre k = rev t ++ pre /\ ~ starts (is cSLASH) (k_rest k) /\ more = starb (k_rest k)
   /\ forall z' pre' aft' p', hd_error aft' = Some 0 -> ~ starts (is cSLASH) z' ->
        exists q, close_loop num c pre' (t ++ z') aft' p' = Closed (Cur (rev t ++ pre') z' q) (starb z').
Proof.
  induction rest as [|d r IH]; intros c pre aft p k more N H; [discriminate|]. cbn [close_loop] in H.
  destruct (negb (c =? cSTAR) || negb (d =? cSLASH)) eqn:E0.
  - apply IH in H; auto. destruct H as (t & H1 & H2 & H3 & H4 & H5). exists (d :: t).
    split; [cbn; now f_equal|]. split; [cbn [rev]; now rewrite <- app_assoc|]. do 2 (split; [assumption|]).
    intros z' pre' aft' p' N' Hz. cbn [app close_loop]. rewrite E0.
    destruct (H5 z' (d :: pre') aft' (inc d p') N' Hz) as (q & ->). exists q. f_equal. f_equal. cbn [rev]. now rewrite <- app_assoc.
  - rewrite (count_slashes_val _ _ N) in H.
    destruct (Nat.ltb (slashes (d :: r)) num) eqn:E1.
    + apply IH in H; auto. destruct H as (t & H1 & H2 & H3 & H4 & H5). exists (d :: t).
      split; [cbn; now f_equal|]. split; [cbn [rev]; now rewrite <- app_assoc|]. do 2 (split; [assumption|]).
      intros z' pre' aft' p' N' Hz. cbn [app close_loop]. rewrite E0, (count_slashes_val _ _ N').
      assert (C : slashes (d :: r) = slashes (d :: t ++ z')).
      { rewrite H1. exact (slashes_app (d :: t) _ _ H3 Hz). }
      rewrite <- C, E1.
      destruct (H5 z' (d :: pre') aft' (inc d p') N' Hz) as (q & ->). exists q. f_equal. f_equal. cbn [rev]. now rewrite <- app_assoc.
    + destruct (Nat.ltb num (slashes (d :: r))) eqn:E2; [discriminate|].
      destruct (slashes_split (d :: r)) as (u & Hu & Hn). remember (slashes (d :: r)) as n eqn:En.
      assert (n <> 0)%nat.
      { intros ->. rewrite orb_false_iff in E0. destruct E0 as [_ E0]. apply negb_false_iff, N.eqb_eq in E0. subst d. discriminate. }
      rewrite Hu in H. destruct (eat_n_rep cSLASH n pre u p) as (q & Hq). rewrite Hq, skipn_rep in H.
      injection H as <- <-. cbn [k_rest k_pre]. exists (rep cSLASH n).
      split; [exact Hu|]. split; [reflexivity|]. split; [exact Hn|]. split; [reflexivity|].
      intros z' pre' aft' p' N' Hz. destruct n as [|n]; [congruence|]. injection Hu as -> Hr.
      change (rep cSLASH (S n) ++ z') with (cSLASH :: (rep cSLASH n ++ z')). cbn [close_loop]. rewrite E0, (count_slashes_val _ _ N').
      change (cSLASH :: (rep cSLASH n ++ z')) with (rep cSLASH (S n) ++ z'). rewrite (slashes_rep (S n) z' Hz), E1, E2.
      destruct (eat_n_rep cSLASH (S n) pre' z' p') as (q' & ->). rewrite skipn_rep. exists q'. reflexivity.
Qed.

Definition comment_head (num : nat) (h : bytes) : Prop := h = [] \/ (h = rep cSLASH num /\ (1 <= num)%nat).

Lemma close_entry num h s u : comment_head num h -> s_rest s = h ++ cSTAR :: u ->
  let k := if peek_is cSLASH s then eat_n cSLASH num (cur_of s) else cur_of s in
  k_rest k = cSTAR :: u /\ k_pre k = rev h ++ s_pre s.
Proof.
  intros [-> |[-> Hn]] R k; unfold k.
  - rewrite (peek_is_rest _ _ _ _ R). change (cSTAR =? cSLASH) with false. cbn. split; auto.
  - destruct num as [|n]; [lia|]. rewrite (peek_is_rest s cSLASH (rep cSLASH n ++ cSTAR :: u)) by exact R.
    change (cSLASH =? cSLASH) with true. unfold cur_of. rewrite R.
    destruct (eat_n_rep cSLASH (S n) (s_pre s) (cSTAR :: u) (s_line s, s_col s)) as (q & ->). split; reflexivity.
Qed.

Lemma close_local num h u s s1 more : nul_after s -> comment_head num h -> s_rest s = h ++ cSTAR :: u ->
  eat_comment_to_close num s = (POk s1, more) ->
  exists t, ate (h ++ cSTAR :: t) [] s s1 /\ ~ starts (is cSLASH) (s_rest s1) /\ more = starb (s_rest s1)
   /\ forall s' z', nul_after s' -> s_rest s' = (h ++ cSTAR :: t) ++ z' -> ~ starts (is cSLASH) z' ->
        exists s1', eat_comment_to_close num s' = (POk s1', starb z') /\ ate (h ++ cSTAR :: t) [] s' s1'.
Proof.
  intros N Hh R H. unfold eat_comment_to_close in H. destruct (close_entry num h s u Hh R) as [K1 K2].
  set (k := if peek_is cSLASH s then _ else _) in *. cbn zeta in K1, K2.
  assert (A1 : ate h [] s (set_cur s k)) by (apply ate_set_cur; [exact K2|now rewrite K1]).
  set (sa := set_cur s k) in *. assert (Ra : s_rest sa = cSTAR :: u) by exact K1.
  rewrite (peek_is_rest _ _ _ _ Ra) in H. change (negb (cSTAR =? cSTAR)) with false in H. cbn iota in H.
  pose proof (ate_trans _ _ _ _ _ _ _ A1 (ate_step cSTAR sa u Ra)) as A2. cbn [app] in A2. set (s2 := step cSTAR sa) in *.
  pose proof (ate_nul _ _ _ _ A2 N) as N2.
  destruct (close_loop num 0 (s_pre s2) (s_rest s2) (s_aft s2) (s_line s2, s_col s2)) as [k2 m|e|] eqn:E; try discriminate.
  injection H as <- <-. apply close_loop_local in E; [|exact N2]. destruct E as (t & H1 & H2 & H3 & H4 & H5). exists t.
  split; [|split; [exact H3|split; [exact H4|]]].
  - assert (A3 : ate t [] s2 (set_cur s2 k2)) by (apply ate_set_cur; auto).
    pose proof (ate_trans _ _ _ _ _ _ _ A2 A3) as A. rewrite <- app_assoc in A. exact A.
  - intros s' z' N' R' Hz. rewrite <- app_assoc in R'. cbn [app] in R'. unfold eat_comment_to_close.
    destruct (close_entry num h s' (t ++ z') Hh R') as [K1' K2'].
    set (k' := if peek_is cSLASH s' then _ else _) in *. cbn zeta in K1', K2'.
    assert (B1 : ate h [] s' (set_cur s' k')) by (apply ate_set_cur; [exact K2'|now rewrite K1']).
    set (sa' := set_cur s' k') in *. assert (Ra' : s_rest sa' = cSTAR :: t ++ z') by exact K1'.
    rewrite (peek_is_rest _ _ _ _ Ra'). change (negb (cSTAR =? cSTAR)) with false. cbn iota.
    pose proof (ate_step cSTAR sa' _ Ra') as B1s. pose proof (ate_rest _ _ _ _ _ B1s Ra') as R2'.
    pose proof (ate_trans _ _ _ _ _ _ _ B1 B1s) as B2. cbn [app] in B2. set (s2' := step cSTAR sa') in *.
    pose proof (ate_nul _ _ _ _ B2 N') as N2'. rewrite R2'.
    destruct (H5 z' (s_pre s2') (s_aft s2') (s_line s2', s_col s2') N2' Hz) as (q & ->).
    eexists. split; [reflexivity|].
    assert (B3 : ate t [] s2' (set_cur s2' (Cur (rev t ++ s_pre s2') z' q))) by (apply ate_set_cur; cbn; auto).
    pose proof (ate_trans _ _ _ _ _ _ _ B2 B3) as B. rewrite <- app_assoc in B. exact B.
Qed.

(** A line comment: either a newline ends it, or the end of the source. *)
Lemma eol_local : forall rest pre p, exists t, rest = t ++ k_rest (eol_loop pre rest p)
  /\ k_pre (eol_loop pre rest p) = rev t ++ pre
  /\ (~ In cNL t /\ k_rest (eol_loop pre rest p) = []
      \/ (In cNL t /\ forall z' pre' p', exists q, eol_loop pre' (t ++ z') p' = Cur (rev t ++ pre') z' q)).
Proof.
  induction rest as [|c r IH]; intros pre p; cbn [eol_loop].
  - exists []. split; auto.
  - destruct (N.eqb_spec c cNL) as [->|Hc].
    + exists [cNL]. split; auto. split; auto. right. split; [left; auto|]. intros z' pre' p'. eexists. cbn. reflexivity.
    + destruct (IH (c :: pre) (inc c p)) as (t & H1 & H2 & H3). exists (c :: t). split; [cbn; now f_equal|].
      split; [cbn [rev]; now rewrite <- app_assoc|]. destruct H3 as [[H3 H4]|[H3 H4]].
      * left. split; auto. cbn. intros [G|G]; auto.
      * right. split; [right; auto|]. intros z' pre' p'. apply N.eqb_neq in Hc. cbn [app eol_loop]. rewrite Hc.
        destruct (H4 z' (c :: pre') (inc c p')) as (q & ->). exists q. f_equal. cbn [rev]. now rewrite <- app_assoc.
Qed.

Lemma eol_open : forall t pre p, ~ In cNL t -> exists q, eol_loop pre t p = Cur (rev t ++ pre) [] q.
Proof.
  induction t as [|c t IH]; intros pre p H; [eexists; reflexivity|]. cbn [eol_loop].
  replace (c =? cNL) with false by (symmetry; apply N.eqb_neq; intros ->; apply H; left; auto).
  destruct (IH (c :: pre) (inc c p) (fun G => H (or_intror G))) as (q & ->). exists q. f_equal. cbn [rev]. now rewrite <- app_assoc.
Qed.

Lemma slashes_eol t z : In cNL t -> forall z', slashes (t ++ z) = slashes (t ++ z')
  /\ starb (skipn (slashes (t ++ z)) (t ++ z)) = starb (skipn (slashes (t ++ z')) (t ++ z')).
Proof.
  intros H z'. induction t as [|c t IH]; [destruct H|]. cbn [app slashes]. destruct (c =? cSLASH) eqn:E.
  - destruct H as [->|H]; [discriminate|]. destruct (IH H) as [I1 I2]. split; [now rewrite I1|]. exact I2.
  - split; reflexivity.
Qed.

Lemma line_comment_local s r b : nul_after s -> s_rest s = cSLASH :: cSLASH :: r ->
  count_slashes (s_rest s) (s_aft s) = Some (b, false) ->
  exists t, ate t [(Kcomment, t)] s (emit_from Kcomment s (eat_comment_to_eol s))
   /\ (exists r', t = cSLASH :: cSLASH :: r')
   /\ (~ In cNL t /\ s_rest (eat_comment_to_eol s) = [] /\ (forall n u, t <> rep cSLASH n ++ cSTAR :: u)
         /\ (forall s', nul_after s' -> s_rest s' = t ->
             exists s1', (forall f, parse_comment f s' = POk s1') /\ ate t [(Kcomment, t)] s' s1')
       \/ (In cNL t /\ forall s' z', nul_after s' -> s_rest s' = t ++ z' ->
             exists s1', (forall f, parse_comment f s' = POk s1') /\ ate t [(Kcomment, t)] s' s1')).
Proof.
  intros N R C. unfold eat_comment_to_eol. unfold cur_of. rewrite R. cbn [eat_n k_rest k_pre k_pos].
  set (pre2 := cSLASH :: cSLASH :: s_pre s). set (p2 := inc _ _).
  destruct (eol_local r pre2 p2) as (t & H1 & H2 & H3). exists (cSLASH :: cSLASH :: t).
  split; [|split; [eauto|]].
  - apply ate_emit_from, ate_set_cur.
    + rewrite H2. unfold pre2. cbn [rev]. now rewrite <- !app_assoc.
    + cbn [app]. rewrite <- H1. exact R.
  - destruct H3 as [[H3 H4]|[H3 H4]].
    + left. split; [intros [G|[G|G]]; try discriminate; auto|]. split; [exact H4|]. split.
      2:{ intros s' N' R'. rewrite H4, app_nil_r in H1. subst t.
          assert (C' : count_slashes (s_rest s') (s_aft s') = Some (b, false)).
          { rewrite (count_slashes_val _ _ N) in C. rewrite (count_slashes_val _ _ N'), R', <- R. exact C. }
          exists (emit_from Kcomment s' (eat_comment_to_eol s')). split; [intros f; unfold parse_comment; now rewrite C'|].
          apply ate_emit_from. unfold eat_comment_to_eol, cur_of. rewrite R'. cbn [app eat_n k_rest k_pre k_pos].
          destruct (eol_open r (cSLASH :: cSLASH :: s_pre s') (inc cSLASH (inc cSLASH (s_line s', s_col s'))) H3) as (q & ->).
          apply ate_set_cur; cbn [k_pre k_rest]; [|rewrite app_nil_r; exact R']. cbn [rev]. now rewrite <- !app_assoc. }
      intros n u E. rewrite H4, app_nil_r in H1. rewrite (count_slashes_val _ _ N), R, H1, E in C.
      assert (Ns : ~ starts (is cSLASH) (cSTAR :: u)) by (intros (c & q & X & Y); injection X as <- <-; discriminate).
      rewrite (slashes_rep n (cSTAR :: u) Ns) in C. rewrite skipn_rep in C. discriminate.
    + right. split; [right; right; auto|]. intros s' z' N' R'.
      assert (C' : count_slashes (s_rest s') (s_aft s') = Some (b, false)).
      { rewrite (count_slashes_val _ _ N) in C. rewrite (count_slashes_val _ _ N').
        destruct (slashes_eol (cSLASH :: cSLASH :: t) (k_rest (eol_loop pre2 r p2)) (or_intror (or_intror H3)) z') as [G1 G2].
        rewrite R'. rewrite R, H1 in C. cbn [app] in *. rewrite <- G2, <- G1. exact C. }
      exists (emit_from Kcomment s' (eat_comment_to_eol s')). split; [intros f; unfold parse_comment; now rewrite C'|].
      apply ate_emit_from. unfold eat_comment_to_eol, cur_of. rewrite R'. cbn [app eat_n k_rest k_pre k_pos].
      destruct (H4 z' (cSLASH :: cSLASH :: s_pre s') (inc cSLASH (inc cSLASH (s_line s', s_col s')))) as (q & ->).
      apply ate_set_cur; cbn [k_pre k_rest]; [|exact R']. cbn [rev]. now rewrite <- !app_assoc.
Qed.

(* ---------- names ---------- *)

Lemma name_loop_local : forall n z pre p, forallb is_xmq_text_name n = true -> ~ starts is_xmq_text_name z ->
  exists q, name_loop pre (n ++ z) p = Cur (rev n ++ pre) z q.
Proof.
  induction n as [|a n IH]; intros z pre p H Hz; cbn [app].
  - exists p. destruct z as [|d r]; [reflexivity|]. cbn [name_loop]. destruct (is_xmq_text_name d) eqn:E; [|reflexivity].
    exfalso. apply Hz. exists d, r. auto.
  - cbn in H. apply andb_true_iff in H. destruct H as [H1 H2]. cbn [name_loop]. rewrite H1.
    destruct (IH z (a :: pre) (inc a p) H2 Hz) as (q & ->). exists q. f_equal. cbn [rev]. now rewrite <- app_assoc.
Qed.

Lemma name_local s : exists n, ate n [] s (eat_name s) /\ forallb is_xmq_text_name n = true
  /\ ~ starts is_xmq_text_name (s_rest (eat_name s))
  /\ forall s' z', s_rest s' = n ++ z' -> ~ starts is_xmq_text_name z' -> ate n [] s' (eat_name s').
Proof.
  unfold eat_name. destruct (name_loop_eaten (s_rest s) (s_pre s) (s_line s, s_col s)) as (n & (H1 & H2 & _) & H3 & H4).
  exists n. split; [apply ate_set_cur; auto|]. split; auto. split.
  - cbn [set_cur s_rest]. intros (c & r & E & G). rewrite E in H4. congruence.
  - intros s' z' R Hz. destruct (name_loop_local n z' (s_pre s') (s_line s', s_col s') H3 Hz) as (q & Hq).
    rewrite R, Hq. apply ate_set_cur; cbn; auto.
Qed.

Definition attr_shapes (name : bytes) : list (kind * bytes) :=
  match split_colon name with
  | None => [(if beq name (B "xmlns") then Kns_declaration else Kattr_key, name)]
  | Some (ns, n) =>
    if beq ns (B "xmlns") then [(Kns_declaration, ns); (Kns_colon, [cCOLON]); (Kattr_ns, n)]
    else [(Kattr_ns, ns); (Kns_colon, [cCOLON]); (Kattr_key, n)]
  end.
Definition elem_shapes (key : bool) (name : bytes) : list (kind * bytes) :=
  let k := if key then Kelement_key else Kelement_name in
  match split_colon name with
  | None => [(k, name)]
  | Some (ns, n) => [(Kelement_ns, ns); (Kns_colon, [cCOLON]); (k, n)]
  end.

Lemma ate_emits T t s s' : ate t [] s s' -> ate t (map shape T) s (emits T s').
Proof.
  intros [H1 H2 H3 (U & H4 & H5)]. destruct U; [|discriminate]. constructor; cbn; auto. exists T. rewrite H4. auto.
Qed.
Lemma ate_attr l c name t s s' : ate t [] s s' -> ate t (attr_shapes name) s (emit_attr_name l c name s').
Proof.
  intros A. unfold emit_attr_name, attr_shapes. destruct (split_colon name) as [[ns n]|].
  - destruct (beq ns _); [rewrite (emit_emits0 Kns_declaration), !emit_emits|rewrite (emit_emits0 Kattr_ns), !emit_emits];
      match goal with |- ate _ _ _ (emits ?T _) => exact (ate_emits T t s s' A) end.
  - rewrite emit_emits0. match goal with |- ate _ _ _ (emits ?T _) => exact (ate_emits T t s s' A) end.
Qed.
Lemma ate_elem key l c name t s s' : ate t [] s s' -> ate t (elem_shapes key name) s (emit_element_name key l c name s').
Proof.
  intros A. unfold emit_element_name, elem_shapes. destruct (split_colon name) as [[ns n]|].
  - rewrite (emit_emits0 Kelement_ns), !emit_emits. match goal with |- ate _ _ _ (emits ?T _) => exact (ate_emits T t s s' A) end.
  - rewrite emit_emits0. match goal with |- ate _ _ _ (emits ?T _) => exact (ate_emits T t s s' A) end.
Qed.

(* ---------- white space and values ---------- *)

(** What follows starts a character, or nothing follows. *)
Definition char_next (u : bytes) : Prop := match u with [] => True | c :: _ => starts_char c = true end.

Lemma count_ws_local p u u' : p <> [] -> char_next u -> char_next u' -> count_ws (p ++ u) = count_ws (p ++ u').
Proof.
  intros Hp Hu Hu'.
  assert (K : forall u c, char_next (c :: u) -> (c =? 0xa0) = false /\ (c =? 0x80) = false /\ (c =? 0x81) = false /\ (c =? 0x82) = false /\ (c =? 0x83) = false).
  { clear. intros u c H. cbn in H. repeat split; apply N.eqb_neq; intros ->; discriminate. }
  destruct p as [|a [|b [|c p]]]; [congruence| | |reflexivity]; cbn [app count_ws]; destruct (is_xml_whitespace a); auto.
  - assert (G : forall u, char_next u -> match u with [] => 0%nat | cc :: r2 => if (a =? 0xc2) && (cc =? 0xa0) then 2%nat
       else if (a =? 0xe2) && (cc =? 0x80) then match r2 with [] => 0%nat | ccc :: _ =>
          if (ccc =? 0x80) || (ccc =? 0x81) || (ccc =? 0x82) || (ccc =? 0x83) then 3%nat else 0%nat end else 0%nat end = 0%nat).
    { intros [|c v] H; auto. destruct (K _ _ H) as (-> & -> & _). now rewrite !andb_false_r. }
    rewrite (G u), (G u'); auto.
  - destruct ((a =? 0xc2) && (b =? 0xa0)); auto. destruct ((a =? 0xe2) && (b =? 0x80)); auto.
    assert (G : forall u, char_next u -> match u with [] => 0%nat | ccc :: _ =>
          if (ccc =? 0x80) || (ccc =? 0x81) || (ccc =? 0x82) || (ccc =? 0x83) then 3%nat else 0%nat end = 0%nat).
    { intros [|c v] H; auto. destruct (K _ _ H) as (_ & -> & -> & -> & ->). reflexivity. }
    rewrite (G u), (G u'); auto.
Qed.

Lemma safe_local p u u' : p <> [] -> char_next u -> char_next u' -> is_safe_value_char (p ++ u) = is_safe_value_char (p ++ u').
Proof.
  intros Hp Hu Hu'. destruct p as [|c p]; [congruence|]. unfold is_safe_value_char. cbn [app].
  change (c :: p ++ u) with ((c :: p) ++ u). change (c :: p ++ u') with ((c :: p) ++ u').
  now rewrite (count_ws_local _ u u' Hp Hu Hu').
Qed.

(** The white space read does not depend on the position. *)
Lemma ws_loop_uniform n : forall rest, (List.length rest <= n)%nat -> exists t z, rest = t ++ z
  /\ forall pre' p', exists q, ws_loop pre' rest p' = Cur (rev t ++ pre') z q.
Proof.
  induction n as [|n IH]; intros rest L.
  { destruct rest; [|cbn in L; lia]. exists [], []. split; auto. intros. eexists. reflexivity. }
  destruct rest as [|c r]; [exists [], []; split; auto; intros; eexists; reflexivity|].
  cbn in L. destruct (count_ws (c :: r)) as [|[|[|m]]] eqn:E.
  - exists [], (c :: r). split; auto. intros. cbn [ws_loop]. rewrite E. eexists; reflexivity.
  - destruct (N.eqb_spec c cTAB) as [->|Hc].
    + exists [], (cTAB :: r). split; auto. intros. cbn [ws_loop]. rewrite E. eexists; reflexivity.
    + destruct (IH r ltac:(lia)) as (t & z & H1 & H2). exists (c :: t), z. split; [cbn; now f_equal|].
      intros pre' p'. cbn [ws_loop]. rewrite E. apply N.eqb_neq in Hc. rewrite Hc.
      destruct (H2 (c :: pre') (inc c p')) as (q & ->). exists q. f_equal. cbn [rev]. now rewrite <- app_assoc.
  - apply count_ws_2 in E as X. destruct X as (d & r' & -> & _). cbn in L.
    destruct (IH r' ltac:(lia)) as (t & z & H1 & H2). exists (c :: d :: t), z. split; [cbn; now do 2 f_equal|].
    intros pre' p'. cbn [ws_loop]. rewrite E.
    destruct (H2 (d :: c :: pre') (inc c p')) as (q & ->). exists q. f_equal. cbn [rev]. now rewrite <- !app_assoc.
  - apply count_ws_3 in E as X. destruct X as (d & e & r' & -> & _). cbn in L.
    destruct (IH r' ltac:(lia)) as (t & z & H1 & H2). exists (c :: d :: e :: t), z. split; [cbn; now do 3 f_equal|].
    intros pre' p'. cbn [ws_loop]. rewrite E.
    destruct (H2 (e :: d :: c :: pre') (inc c p')) as (q & ->). exists q. f_equal. cbn [rev]. now rewrite <- !app_assoc.
Qed.

Lemma ws_loop_spaces w y : spaces w -> forall pre p, exists q, ws_loop pre (w ++ y) p = ws_loop (rev w ++ pre) y q.
Proof.
  induction w as [|a w IH]; intros H pre p; [exists p; reflexivity|]. cbn [app].
  assert (A : a = cSP \/ a = cNL) by (apply H; left; auto).
  destruct (IH (fun d D => H d (or_intror D)) (a :: pre) (inc a p)) as (q & Hq).
  exists q. cbn [rev]. rewrite <- app_assoc. cbn [app]. rewrite <- Hq.
  destruct A as [-> | ->]; reflexivity.
Qed.

Lemma ws_loop_insert w y : spaces w -> char_next y -> char_next (w ++ y) -> forall n p, (List.length p <= n)%nat ->
  (exists t p', p = t ++ p' /\ p' <> []
     /\ (forall pre q, exists q2, ws_loop pre (p ++ y) q = Cur (rev t ++ pre) (p' ++ y) q2)
     /\ (forall pre q, exists q2, ws_loop pre (p ++ w ++ y) q = Cur (rev t ++ pre) (p' ++ w ++ y) q2))
  \/ (exists t z, y = t ++ z
     /\ (forall pre q, exists q2, ws_loop pre (p ++ y) q = Cur (rev (p ++ t) ++ pre) z q2)
     /\ (forall pre q, exists q2, ws_loop pre (p ++ w ++ y) q = Cur (rev (p ++ w ++ t) ++ pre) z q2)).
Proof.
  intros Hw Hy Hwy. induction n as [|n IH]; intros p L.
  - destruct p as [|? ?]; [|cbn in L; lia]. right. destruct (ws_loop_uniform (List.length y) y (le_n _)) as (t & z & H1 & H2).
    exists t, z. split; auto. cbn [app]. split; [exact H2|]. intros pre q. destruct (ws_loop_spaces w y Hw pre q) as (q1 & ->).
    destruct (H2 (rev w ++ pre) q1) as (q2 & ->). exists q2. f_equal. now rewrite rev_app_distr, app_assoc.
  - destruct p as [|c p]; [apply IH; cbn; lia|]. cbn in L.
    pose proof (count_ws_local (c :: p) y (w ++ y) ltac:(discriminate) Hy Hwy) as C. cbn [app] in C.
    assert (STEP : forall h p2, (List.length p2 <= n)%nat -> c :: p = h ++ p2 ->
       (forall z pre q, (z = y \/ z = w ++ y) -> exists q2, ws_loop pre (h ++ p2 ++ z) q = ws_loop (rev h ++ pre) (p2 ++ z) q2) ->
       (exists t p', c :: p = t ++ p' /\ p' <> []
         /\ (forall pre q, exists q2, ws_loop pre ((c :: p) ++ y) q = Cur (rev t ++ pre) (p' ++ y) q2)
         /\ (forall pre q, exists q2, ws_loop pre ((c :: p) ++ w ++ y) q = Cur (rev t ++ pre) (p' ++ w ++ y) q2))
      \/ (exists t z, y = t ++ z
         /\ (forall pre q, exists q2, ws_loop pre ((c :: p) ++ y) q = Cur (rev ((c :: p) ++ t) ++ pre) z q2)
         /\ (forall pre q, exists q2, ws_loop pre ((c :: p) ++ w ++ y) q = Cur (rev ((c :: p) ++ w ++ t) ++ pre) z q2))).
    { intros h p2 L2 -> S. destruct (IH p2 L2) as [(t & p' & -> & Hp & A1 & A2)|(t & z & E & A1 & A2)].
      - left. exists (h ++ t), p'. split; [now rewrite app_assoc|]. split; auto. split; intros pre q; rewrite <- (app_assoc h).
        + destruct (S y pre q (or_introl eq_refl)) as (q1 & ->). destruct (A1 (rev h ++ pre) q1) as (q2 & ->). exists q2. f_equal.
          now rewrite rev_app_distr, app_assoc.
        + destruct (S (w ++ y) pre q (or_intror eq_refl)) as (q1 & ->). destruct (A2 (rev h ++ pre) q1) as (q2 & ->). exists q2. f_equal.
          now rewrite rev_app_distr, app_assoc.
      - right. exists t, z. split; auto. split; intros pre q; rewrite <- !(app_assoc h).
        + destruct (S y pre q (or_introl eq_refl)) as (q1 & ->). destruct (A1 (rev h ++ pre) q1) as (q2 & ->). exists q2. f_equal.
          now rewrite (rev_app_distr h), app_assoc.
        + destruct (S (w ++ y) pre q (or_intror eq_refl)) as (q1 & ->). destruct (A2 (rev h ++ pre) q1) as (q2 & ->). exists q2. f_equal.
          now rewrite (rev_app_distr h), app_assoc. }
    assert (STOP : (forall z pre q, (z = y \/ z = w ++ y) -> exists q2, ws_loop pre (c :: p ++ z) q = Cur pre (c :: p ++ z) q2) ->
       exists t p', c :: p = t ++ p' /\ p' <> []
         /\ (forall pre q, exists q2, ws_loop pre ((c :: p) ++ y) q = Cur (rev t ++ pre) (p' ++ y) q2)
         /\ (forall pre q, exists q2, ws_loop pre ((c :: p) ++ w ++ y) q = Cur (rev t ++ pre) (p' ++ w ++ y) q2)).
    { intros H. exists [], (c :: p). split; auto. split; [discriminate|]. split; intros pre q; apply H; auto. }
    assert (CC : forall z, z = y \/ z = w ++ y -> count_ws (c :: p ++ z) = count_ws (c :: p ++ y)) by (intros z [-> | ->]; auto).
    destruct (count_ws (c :: p ++ y)) as [|[|[|m]]] eqn:E.
    + left. apply STOP. intros z pre q Z. cbn [ws_loop]. rewrite (CC z Z). eexists; reflexivity.
    + destruct (N.eqb_spec c cTAB) as [->|Hc].
      * left. apply STOP. intros z pre q Z. cbn [ws_loop]. rewrite (CC z Z). eexists; reflexivity.
      * apply (STEP [c] p); [lia|reflexivity|]. intros z pre q Z. cbn [app ws_loop]. rewrite (CC z Z). apply N.eqb_neq in Hc. rewrite Hc.
        eexists. reflexivity.
    + apply count_ws_2 in E as X. destruct X as (d & r' & X & -> & ->).
      destruct p as [|d p2]; [cbn in X; rewrite X in Hy; discriminate|]. injection X as -> X.
      cbn in L. apply (STEP [0xc2; 0xa0] p2); [lia|reflexivity|]. intros z pre q Z. eexists. reflexivity.
    + apply count_ws_3 in E as X. destruct X as (d & e & r' & X & -> & -> & He & _).
      destruct p as [|d [|f p2]].
      * cbn in X. rewrite X in Hy. discriminate.
      * cbn in X. injection X as _ X. rewrite X in Hy. destruct He as [-> |[-> |[-> | ->]]]; discriminate.
      * injection X as -> -> X. cbn in L. apply (STEP [0xe2; 0x80; e] p2); [lia|reflexivity|]. intros z pre q Z.
        destruct He as [-> |[-> |[-> | ->]]]; eexists; reflexivity.
Qed.

Lemma next_is_equal_last r c d : c <> cEQ -> d <> cEQ -> next_is_equal r c = next_is_equal r d.
Proof.
  intros Hc Hd. destruct r as [|e r]; cbn [next_is_equal]; auto.
  apply N.eqb_neq in Hc. apply N.eqb_neq in Hd. congruence.
Qed.
Lemma next_is_equal_spaces w y c : spaces w -> c <> cEQ -> next_is_equal (w ++ y) c = next_is_equal y c.
Proof.
  revert c. induction w as [|a w IH]; intros c H Hc; auto. cbn [app next_is_equal].
  assert (A : a = cSP \/ a = cNL) by (apply H; left; auto).
  replace (is_xml_whitespace a) with true by (destruct A as [-> | ->]; reflexivity).
  assert (Ha : a <> cEQ) by (destruct A as [-> | ->]; discriminate).
  rewrite IH; [|intros d D; apply H; right; auto|exact Ha]. now apply next_is_equal_last.
Qed.
Lemma next_is_equal_insert p w y c : spaces w -> c <> cEQ -> next_is_equal (p ++ w ++ y) c = next_is_equal (p ++ y) c.
Proof.
  revert c. induction p as [|a p IH]; intros c H Hc; cbn [app]; [now apply next_is_equal_spaces|].
  cbn [next_is_equal]. destruct (is_xml_whitespace a) eqn:E; auto. apply IH; auto. intros ->. discriminate.
Qed.
