(** Proofs about Quote.v: xmq_trim_quote computes text_block. *)
From Coq Require Import NArith List Bool Arith Lia.
From Verif Require Import Bytes BytesFacts Outcome Quote QuoteSpec.
Import ListNotations.
Local Open Scope N_scope.

(** A line: neither newline nor carriage return. *)
Definition line_ok (l : bytes) : Prop := ~ In cNL l /\ ~ In cCR l.

Lemma is_sp_tab_hspace c : is_sp_tab c = is_hspace c.
Proof. reflexivity. Qed.

Lemma hspace_cases c : is_hspace c = true -> c = cSP \/ c = cTAB.
Proof. unfold is_hspace. intros H. apply orb_true_iff in H. destruct H as [H|H]; apply N.eqb_eq in H; auto. Qed.

Lemma line_ok_cons c l : line_ok (c :: l) <-> c <> cNL /\ c <> cCR /\ line_ok l.
Proof. unfold line_ok; cbn. intuition congruence. Qed.

Lemma line_ok_nil : line_ok [].
Proof. split; intros []. Qed.

Lemma line_ok_app a b : line_ok (a ++ b) <-> line_ok a /\ line_ok b.
Proof. unfold line_ok. rewrite !in_app_iff. tauto. Qed.

(** ** rstrip *)
Lemma blank_cons c l : blank (c :: l) = is_hspace c && blank l.
Proof. reflexivity. Qed.
Arguments blank : simpl never.

Lemma rstrip_blank l : rstrip l = [] <-> blank l = true.
Proof.
  induction l as [|c r IH]; cbn; [tauto|]. rewrite blank_cons.
  destruct (rstrip r) as [|x y] eqn:E.
  - destruct IH as [IH1 IH2]. specialize (IH1 eq_refl).
    rewrite IH1, andb_true_r.
    destruct (is_hspace c); split; congruence.
  - split; [discriminate|]. intros H. apply andb_true_iff in H. destruct H as [_ H].
    apply IH in H. discriminate.
Qed.

Lemma rstrip_split l : exists w, l = rstrip l ++ w /\ blank w = true.
Proof.
  induction l as [|c r [w [E Hw]]]; [exists []; auto|].
  cbn. destruct (rstrip r) as [|x y] eqn:R.
  - destruct (is_hspace c) eqn:Hc.
    + exists (c :: r). split; auto. rewrite blank_cons, Hc. cbn. apply rstrip_blank; auto.
    + exists w. split; auto. cbn. rewrite E at 1. reflexivity.
  - exists w. split; auto. rewrite E at 1. reflexivity.
Qed.

Lemma rstrip_len l : (List.length (rstrip l) <= List.length l)%nat.
Proof. destruct (rstrip_split l) as [w [E _]]. rewrite E at 2. rewrite app_length. lia. Qed.

Lemma firstn_rstrip l r : firstn (List.length (rstrip l)) (l ++ r) = rstrip l.
Proof.
  destruct (rstrip_split l) as [w [E _]]. rewrite E at 2. rewrite <- app_assoc.
  rewrite firstn_app, Nat.sub_diag, firstn_all. cbn. apply app_nil_r.
Qed.

Lemma blank_app a b : blank (a ++ b) = blank a && blank b.
Proof. apply forallb_app. Qed.

Lemma rstrip_snoc l c : is_hspace c = false -> rstrip (l ++ [c]) = l ++ [c].
Proof.
  intros H. induction l as [|x l IH]; cbn; [rewrite H; auto|].
  rewrite IH. destruct l; reflexivity.
Qed.

Lemma rstrip_app_blank l w : blank w = true -> rstrip (l ++ w) = rstrip l.
Proof.
  intros H. induction l as [|x l IH]; cbn; [apply rstrip_blank; auto|]. now rewrite IH.
Qed.

Lemma rstrip_idem l : rstrip (rstrip l) = rstrip l.
Proof.
  destruct (rstrip_split l) as [w [E Hw]]. rewrite E at 2. rewrite rstrip_app_blank; auto.
Qed.

(** ** find_line on a line *)
Lemma fl_skip_spec s : forall i n,
  exists w r, s = w ++ r /\ blank w = true /\ fl_skip s i n = ((i + List.length w)%nat, (n + columns s)%nat, r)
    /\ (match r with [] => True | c :: _ => is_hspace c = false end).
Proof.
  induction s as [|c s IH]; intros i n; cbn.
  - exists [], []. cbn. rewrite !Nat.add_0_r. auto.
  - destruct (N.eqb_spec c cSP) as [->|Hs].
    + destruct (IH (S i) (S n)) as (w & r & -> & Hw & E & Hr).
      exists (cSP :: w), r. rewrite E. rewrite blank_cons, Hw. cbn. repeat split; auto.
      f_equal; f_equal; lia.
    + destruct (N.eqb_spec c cTAB) as [->|Ht].
      * destruct (IH (S i) (n + 8)%nat) as (w & r & -> & Hw & E & Hr).
        exists (cTAB :: w), r. rewrite E. rewrite blank_cons, Hw. cbn. repeat split; auto.
        f_equal; f_equal; lia.
      * exists [], (c :: s). cbn. rewrite !Nat.add_0_r. repeat split; auto.
        unfold is_hspace. rewrite (proj2 (N.eqb_neq _ _) Hs), (proj2 (N.eqb_neq _ _) Ht). reflexivity.
Qed.

Definition last_text (i lnws : nat) (l : bytes) : nat :=
  match rstrip l with [] => lnws | t => (i + List.length t)%nat end.

Lemma fl_scan_line l : line_ok l -> forall r aft i lnws,
  fl_scan (l ++ cNL :: r) aft i lnws = Ok (true, last_text i lnws l, S (i + List.length l)).
Proof.
  induction l as [|c l IH]; intros Hl r aft i lnws; cbn.
  - unfold last_text; cbn. repeat f_equal; lia.
  - apply line_ok_cons in Hl. destruct Hl as (H1 & H2 & Hl).
    rewrite (proj2 (N.eqb_neq _ _) H1), (proj2 (N.eqb_neq _ _) H2). rewrite IH; auto.
    do 2 f_equal; [f_equal|]; [|lia]. unfold last_text. cbn.
    change (is_sp_tab c) with (is_hspace c).
    destruct (rstrip l) eqn:E; cbn [List.length]; [destruct (is_hspace c); cbn; lia|lia].
Qed.

Lemma fl_scan_last l : line_ok l -> forall aft i lnws,
  fl_scan l aft i lnws = Ok (false, last_text i lnws l, (i + List.length l)%nat).
Proof.
  induction l as [|c l IH]; intros Hl aft i lnws; cbn.
  - unfold last_text; cbn. repeat f_equal; lia.
  - apply line_ok_cons in Hl. destruct Hl as (H1 & H2 & Hl).
    rewrite (proj2 (N.eqb_neq _ _) H1), (proj2 (N.eqb_neq _ _) H2). rewrite IH; auto.
    do 2 f_equal; [f_equal|]; [|lia]. unfold last_text. cbn.
    change (is_sp_tab c) with (is_hspace c).
    destruct (rstrip l) eqn:E; cbn [List.length]; [destruct (is_hspace c); cbn; lia|lia].
Qed.

Lemma rstrip_skip_blank w r : blank w = true -> blank r = false -> rstrip (w ++ r) = w ++ rstrip r.
Proof.
  intros Hw Hr. induction w as [|c w IH]; cbn; auto.
  rewrite blank_cons in Hw. apply andb_true_iff in Hw. destruct Hw as [Hc Hw]. rewrite IH; auto.
  destruct (rstrip r) as [|x y] eqn:E; [apply rstrip_blank in E; congruence|].
  destruct w; reflexivity.
Qed.

Lemma columns_app_nl l r : columns (l ++ cNL :: r) = columns l.
Proof. induction l as [|c l IH]; cbn; auto. rewrite IH; reflexivity. Qed.

Lemma find_line_nl l r aft : line_ok l ->
  find_line (l ++ cNL :: r) aft
  = Ok (FL true (columns l) (List.length (rstrip l)) (S (List.length l))).
Proof.
  intros Hl. unfold find_line.
  destruct (fl_skip_spec (l ++ cNL :: r) 0 0) as (w & q & E & Hw & -> & Hq).
  rewrite columns_app_nl.
  assert (exists l', l = w ++ l' /\ q = l' ++ cNL :: r) as (l' & -> & ->).
  { revert l Hl E Hw. clear. induction w as [|x w IH]; intros l Hl E Hw; [exists l; auto|].
    rewrite blank_cons in Hw. apply andb_true_iff in Hw. destruct Hw as [Hx Hw].
    destruct l as [|y l]; cbn in E; injection E as E1 E2.
    - subst x. discriminate.
    - subst y. apply line_ok_cons in Hl. destruct (IH l) as (l' & -> & ->); try tauto.
      exists l'. auto. }
  apply line_ok_app in Hl. destruct Hl as [_ Hl].
  rewrite fl_scan_line; auto. cbn. repeat f_equal; [|rewrite app_length; lia].
  unfold last_text. destruct l' as [|c l'].
  - cbn. rewrite app_nil_r. symmetry. rewrite (proj2 (rstrip_blank w)); auto.
  - cbn in Hq. assert (Hb : blank (c :: l') = false) by (rewrite blank_cons, Hq; auto).
    rewrite rstrip_skip_blank by auto.
    destruct (rstrip (c :: l')) eqn:Er; [apply rstrip_blank in Er; congruence|].
    rewrite app_length. reflexivity.
Qed.

Lemma find_line_last l aft : line_ok l ->
  find_line l aft = Ok (FL false (columns l) (List.length (rstrip l)) (List.length l)).
Proof.
  intros Hl. unfold find_line.
  destruct (fl_skip_spec l 0 0) as (w & q & E & Hw & -> & Hq).
  subst l. apply line_ok_app in Hl. destruct Hl as [_ Hl].
  rewrite fl_scan_last; auto. cbn. repeat f_equal; [|rewrite app_length; lia].
  unfold last_text. destruct q as [|c q].
  - cbn. rewrite app_nil_r. symmetry. rewrite (proj2 (rstrip_blank w)); auto.
  - cbn in Hq. assert (Hb : blank (c :: q) = false) by (rewrite blank_cons, Hq; auto).
    rewrite rstrip_skip_blank by auto.
    destruct (rstrip (c :: q)) eqn:Er; [apply rstrip_blank in Er; congruence|].
    rewrite app_length. reflexivity.
Qed.

(** ** Joining and splitting *)
Lemma join_cons l r : r <> [] -> join_lines (l :: r) = l ++ cNL :: join_lines r.
Proof. destruct r; [congruence|reflexivity]. Qed.

Lemma split_lines_ne s : split_lines s <> [].
Proof. destruct s as [|c s]; cbn; [discriminate|]. destruct (c =? cNL); [discriminate|]. destruct (split_lines s); discriminate. Qed.

Lemma join_split s : join_lines (split_lines s) = s.
Proof.
  induction s as [|c s IH]; cbn; auto.
  destruct (N.eqb_spec c cNL) as [->|H].
  - rewrite join_cons by apply split_lines_ne. rewrite IH. reflexivity.
  - destruct (split_lines s) as [|l ls] eqn:E; [exfalso; now apply (split_lines_ne s)|].
    destruct ls; cbn in *; rewrite IH; reflexivity.
Qed.

Lemma split_nl_free s : Forall (fun l => ~ In cNL l) (split_lines s).
Proof.
  induction s as [|c s IH]; cbn; [constructor; auto|].
  destruct (N.eqb_spec c cNL) as [->|H]; [constructor; auto|].
  destruct (split_lines s) as [|l ls]; inversion IH; subst.
  - constructor; auto. cbn. intuition.
  - constructor; auto. cbn. intuition congruence.
Qed.

Lemma split_join ls : ls <> [] -> Forall (fun l => ~ In cNL l) ls -> split_lines (join_lines ls) = ls.
Proof.
  assert (H1 : forall l, ~ In cNL l -> split_lines l = [l]).
  { induction l as [|c l IH]; cbn; intros H; auto.
    destruct (N.eqb_spec c cNL) as [->|Hc]; [tauto|]. rewrite IH; tauto. }
  assert (H2 : forall l r, ~ In cNL l -> split_lines (l ++ cNL :: r) = l :: split_lines r).
  { induction l as [|c l IH]; cbn; intros r H; auto.
    destruct (N.eqb_spec c cNL) as [->|Hc]; [tauto|]. rewrite IH; tauto. }
  induction ls as [|l ls IH]; intros Hne HF; [congruence|].
  inversion HF; subst. destruct ls as [|l2 ls]; [cbn; auto|].
  rewrite join_cons by discriminate. rewrite H2 by auto. f_equal. apply IH; auto. discriminate.
Qed.

Lemma split_line_ok s : ~ In cCR s -> Forall line_ok (split_lines s).
Proof.
  intros H. pose proof (split_nl_free s) as HF. rewrite Forall_forall in *.
  intros l Hl. split; [apply HF; auto|]. intros Hc. apply H.
  clear HF H. revert l Hl Hc. induction s as [|c s IH]; cbn; intros l Hl Hc.
  - destruct Hl as [<-|[]]. destruct Hc.
  - destruct (N.eqb_spec c cNL) as [->|Hn].
    + destruct Hl as [<-|Hl]; [destruct Hc|]. right. eapply IH; eauto.
    + destruct (split_lines s) as [|l1 ls] eqn:E.
      * destruct Hl as [<-|[]]. destruct Hc as [Hc|[]]. auto.
      * destruct Hl as [<-|Hl].
        { destruct Hc as [Hc|Hc]; auto. right. apply (IH l1); auto. left; auto. }
        { right. apply (IH l); auto. right; auto. }
Qed.

Lemma join_app a b : a <> [] -> b <> [] -> join_lines (a ++ b) = join_lines a ++ cNL :: join_lines b.
Proof.
  intros Ha Hb. induction a as [|x a IH]; [congruence|].
  destruct a as [|y a].
  - cbn [app]. rewrite join_cons by auto. reflexivity.
  - cbn [app]. rewrite join_cons by discriminate. cbn [app] in IH. rewrite IH by discriminate.
    rewrite (join_cons x (y :: a)) by discriminate. rewrite <- app_assoc. reflexivity.
Qed.

Lemma join_snoc a l : a <> [] -> join_lines (a ++ [l]) = join_lines a ++ cNL :: l.
Proof. intros H. rewrite join_app by (auto; discriminate). reflexivity. Qed.

Lemma join_repeat_nil n ls : ls <> [] -> join_lines (repeat [] n ++ ls) = rep cNL n ++ join_lines ls.
Proof.
  intros H. induction n as [|n IH]; cbn [repeat app]; auto.
  rewrite join_cons by (destruct n; [auto|discriminate]). rewrite IH. reflexivity.
Qed.

Lemma join_repeat_nil_end n ls : ls <> [] -> join_lines (ls ++ repeat [] n) = join_lines ls ++ rep cNL n.
Proof.
  revert ls. induction n as [|n IH]; cbn [repeat]; intros ls H; [now rewrite !app_nil_r|].
  replace (ls ++ [] :: repeat [] n) with ((ls ++ [[]]) ++ repeat [] n) by (rewrite <- app_assoc; auto).
  rewrite IH by (destruct ls; discriminate). rewrite join_snoc by auto.
  rewrite <- app_assoc. cbn. reflexivity.
Qed.

(** ** The minimum indentation *)
Fixpoint min_loop (ls : list bytes) (first ignore : bool) (inc : option nat) : option nat :=
  match ls with
  | [] => inc
  | l :: r =>
    if blank l then min_loop r first ignore inc
    else
      let smaller := match inc with None => true | Some n => Nat.ltb (columns l) n end in
      min_loop r false ignore (if smaller && (negb first || ignore) then Some (columns l) else inc)
  end.

Lemma rstrip_len0 l : Nat.eqb (List.length (rstrip l)) 0 = blank l.
Proof.
  destruct (blank l) eqn:E.
  - apply rstrip_blank in E. rewrite E. reflexivity.
  - destruct (rstrip l) eqn:R; [apply rstrip_blank in R; congruence|reflexivity].
Qed.

Lemma skipn_line (l r : bytes) : skipn (S (List.length l)) (l ++ cNL :: r) = r.
Proof. induction l; cbn; auto. Qed.

Lemma min_indent_eq fuel s aft first ignore inc : s <> [] ->
  min_indent (S fuel) s aft first ignore inc
  = obind (find_line s aft) (fun f =>
      if Nat.eqb (fl_text f) 0 then
        min_indent fuel (skipn (fl_eol f) s) aft first ignore inc
      else
        let smaller := match inc with None => true | Some n => Nat.ltb (fl_indent f) n end in
        let inc := if smaller && (negb first || ignore) then Some (fl_indent f) else inc in
        min_indent fuel (skipn (fl_eol f) s) aft false ignore inc).
Proof. destruct s; [congruence|reflexivity]. Qed.

Lemma min_indent_spec ls : Forall line_ok ls -> forall fuel aft first ignore inc,
  (List.length (join_lines ls) <= fuel)%nat ->
  min_indent fuel (join_lines ls) aft first ignore inc = Ok (min_loop ls first ignore inc).
Proof.
  induction ls as [|l ls IH]; intros HF fuel aft first ignore inc Hfuel.
  - cbn. destruct fuel; reflexivity.
  - inversion HF; subst. destruct ls as [|l2 ls].
    + cbn [join_lines min_loop]. cbn [join_lines] in Hfuel.
      destruct l as [|c l]; [destruct fuel; reflexivity|].
      destruct fuel as [|fuel]; [cbn in Hfuel; lia|].
      rewrite min_indent_eq by discriminate.
      rewrite find_line_last by auto. cbn [obind fl_text fl_eol fl_indent].
      rewrite rstrip_len0, skipn_all.
      destruct (blank (c :: l)); destruct fuel; reflexivity.
    + remember (l2 :: ls) as r eqn:Er. assert (r <> []) by (subst; discriminate).
      rewrite join_cons in * by auto. rewrite app_length in Hfuel. cbn in Hfuel.
      destruct fuel as [|fuel]; [lia|].
      rewrite min_indent_eq by (destruct l; discriminate).
      rewrite find_line_nl by auto. cbn [obind fl_text fl_eol fl_indent].
      rewrite rstrip_len0, skipn_line. cbn [min_loop].
      destruct (blank l); apply IH; auto; lia.
Qed.

(** ** Skipping indentation *)
Lemma skip_cols_0 m : skip_cols 0 m = Ok 0%nat.
Proof. destruct m; reflexivity. Qed.

Lemma skip_cols_eq n c m : skip_cols (S n) (c :: m) =
  (if c =? cSP then obind (skip_cols n m) (fun k => Ok (S k))
   else if c =? cTAB then
     if Nat.leb 8 (S n) then obind (skip_cols (S n - 8) m) (fun k => Ok (S k)) else Ok 1%nat
   else obind (skip_cols (S n) m) (fun k => Ok (S k))).
Proof. reflexivity. Qed.

Lemma skip_cols_mono m : forall n n', (n' <= n)%nat -> (exists k, skip_cols n m = Ok k) -> exists k, skip_cols n' m = Ok k.
Proof.
  induction m as [|c m IH]; intros n n' Hn [k Hk].
  - destruct n; [|discriminate]. replace n' with 0%nat by lia. cbn; eauto.
  - destruct n' as [|n']; [cbn; eauto|]. destruct n as [|n]; [lia|].
    rewrite skip_cols_eq in *.
    destruct (c =? cSP).
    { destruct (skip_cols n m) eqn:E; try discriminate.
      destruct (IH n n') as [k' ->]; eauto; [lia|cbn; eauto]. }
    destruct (c =? cTAB).
    { destruct (Nat.leb_spec 8 (S n')); [|eauto].
      destruct (Nat.leb_spec 8 (S n)); [|lia].
      destruct (skip_cols (S n - 8) m) eqn:E; try discriminate.
      destruct (IH (S n - 8) (S n' - 8))%nat as [k' ->]; eauto; [lia|cbn; eauto]. }
    destruct (skip_cols (S n) m) eqn:E; try discriminate.
    destruct (IH (S n) (S n')) as [k' ->]; eauto; cbn; eauto.
Qed.

Lemma skip_cols_cons n c m : (exists k, skip_cols n m = Ok k) -> exists k, skip_cols n (c :: m) = Ok k.
Proof.
  intros [k Hk]. destruct n as [|n]; [cbn; eauto|]. rewrite skip_cols_eq.
  destruct (c =? cSP).
  { destruct (skip_cols_mono m (S n) n) as [k' ->]; eauto; cbn; eauto. }
  destruct (c =? cTAB).
  { destruct (Nat.leb_spec 8 (S n)); eauto.
    destruct (skip_cols_mono m (S n) (S n - 8)%nat) as [k' ->]; eauto; [lia|cbn; eauto]. }
  rewrite Hk. cbn; eauto.
Qed.

Lemma skip_cols_app n a m : (exists k, skip_cols n m = Ok k) -> exists k, skip_cols n (a ++ m) = Ok k.
Proof. intros H. induction a; cbn [app]; auto. now apply skip_cols_cons. Qed.

Lemma drop_columns_eq n c r : drop_columns (S n) (c :: r) =
  (if c =? cSP then drop_columns n r
   else if c =? cTAB then (if Nat.leb 8 (S n) then drop_columns (S n - 8) r else r)
   else c :: r).
Proof. reflexivity. Qed.

(** On a line that is indented far enough. *)
Lemma skip_cols_line l : forall n r, (n <= columns l)%nat ->
  exists k, skip_cols n (l ++ r) = Ok k /\ drop_columns n l = skipn k l
            /\ (k <= List.length l)%nat
            /\ (blank l = false -> (k < List.length (rstrip l))%nat /\ drop_columns n (rstrip l) = skipn k (rstrip l)).
Proof.
  induction l as [|c l IH]; intros n r Hn.
  - cbn in Hn. assert (n = 0%nat) by lia. subst. exists 0%nat. split; [apply skip_cols_0|]. split; [reflexivity|]. split; [reflexivity|]. intros Hf; discriminate Hf.
  - destruct n as [|n].
    { exists 0%nat. split; [apply skip_cols_0|]. split; [reflexivity|]. split; [lia|].
      intros Hb. split; [|destruct (rstrip (c :: l)); reflexivity].
      destruct (rstrip (c :: l)) eqn:E; [apply rstrip_blank in E; congruence|cbn; lia]. }
    cbn [columns] in Hn. cbn [app]. rewrite skip_cols_eq.
    assert (Hhead : is_hspace c = true -> forall k, (k <= List.length l)%nat ->
       (blank l = false -> (k < List.length (rstrip l))%nat) ->
       blank (c :: l) = false -> rstrip (c :: l) = c :: rstrip l /\ blank l = false).
    { intros Hc k _ Hk Hb. rewrite blank_cons, Hc in Hb. cbn in Hb. split; auto.
      cbn. destruct (rstrip l) eqn:E; auto. apply rstrip_blank in E. congruence. }
    destruct (N.eqb_spec c cSP) as [->|Hs].
    { destruct (IH n r) as (k & E & D & L & R); [lia|]. rewrite E. exists (S k). cbn [obind].
      split; [reflexivity|]. split; [rewrite drop_columns_eq; exact D|].
      split; [cbn; lia|]. intros Hb.
      destruct (Hhead eq_refl k L (fun h => proj1 (R h)) Hb) as [-> Hb']. destruct (R Hb') as [R1 R2].
      split; [cbn; lia|]. rewrite drop_columns_eq. exact R2. }
    destruct (N.eqb_spec c cTAB) as [->|Ht]; [|lia].
    destruct (Nat.leb_spec 8 (S n)).
    { destruct (IH (S n - 8)%nat r) as (k & E & D & L & R); [lia|]. rewrite E. exists (S k). cbn [obind].
      split; [reflexivity|]. split.
      { rewrite drop_columns_eq. cbn [N.eqb]. change (cTAB =? cSP) with false. change (cTAB =? cTAB) with true.
        destruct (Nat.leb_spec 8 (S n)); [exact D|lia]. }
      split; [cbn; lia|]. intros Hb.
      destruct (Hhead eq_refl k L (fun h => proj1 (R h)) Hb) as [-> Hb']. destruct (R Hb') as [R1 R2].
      split; [cbn; lia|]. rewrite drop_columns_eq. change (cTAB =? cSP) with false. change (cTAB =? cTAB) with true.
      destruct (Nat.leb_spec 8 (S n)); [exact R2|lia]. }
    exists 1%nat. split; auto. split.
    { rewrite drop_columns_eq. change (cTAB =? cSP) with false. change (cTAB =? cTAB) with true.
      destruct (Nat.leb_spec 8 (S n)); [lia|reflexivity]. }
    split; [cbn; lia|]. intros Hb.
    assert (Hb' : blank l = false) by (rewrite blank_cons in Hb; exact Hb).
    assert (E : rstrip (cTAB :: l) = cTAB :: rstrip l).
    { cbn. destruct (rstrip l) eqn:E; auto. apply rstrip_blank in E. congruence. }
    rewrite E. split.
    { destruct (rstrip l) eqn:E2; [apply rstrip_blank in E2; congruence|cbn; lia]. }
    rewrite drop_columns_eq. change (cTAB =? cSP) with false. change (cTAB =? cTAB) with true.
    destruct (Nat.leb_spec 8 (S n)); [lia|reflexivity].
Qed.

(** ** Copying *)
Definition deep (n : nat) (ls : list bytes) : Prop :=
  Forall (fun l => blank l = false -> (n <= columns l)%nat) ls.

Lemma skip_cols_lines n ls aft : deep n ls -> ls <> [] -> blank (last ls []) = false ->
  exists k, skip_cols n (join_lines ls ++ aft) = Ok k.
Proof.
  intros HD Hne Hb. induction ls as [|l ls IH]; [congruence|].
  inversion HD; subst. destruct ls as [|l2 ls].
  - cbn in *. destruct (skip_cols_line l n aft) as (k & E & _); eauto.
  - rewrite join_cons by discriminate. rewrite <- app_assoc. apply skip_cols_app.
    cbn [app]. apply skip_cols_cons. apply IH; auto. discriminate.
Qed.

Lemma copy_lines_eq fuel s aft first ignore inc : s <> [] ->
  copy_lines (S fuel) s aft first ignore inc
  = obind (find_line s aft) (fun f =>
    obind (if negb first || ignore then skip_incidental inc (s ++ aft) else Ok 0%nat) (fun k =>
      let text := skipn k (firstn (fl_text f) s) in
      let tail := if fl_nl f then [cNL] else skipn (Nat.max k (fl_text f)) s in
      obind (copy_lines fuel (skipn (fl_eol f) s) aft false ignore inc) (fun rest =>
      Ok (text ++ tail ++ rest)))).
Proof. destruct s; [congruence|reflexivity]. Qed.

Lemma copy_nil fuel aft first ignore inc : copy_lines fuel [] aft first ignore inc = Ok [].
Proof. destruct fuel; reflexivity. Qed.

Lemma firstn_app_le {A} n (a b : list A) : (n <= List.length a)%nat -> firstn n (a ++ b) = firstn n a.
Proof. intros H. rewrite firstn_app. replace (n - List.length a)%nat with 0%nat by lia. cbn. apply app_nil_r. Qed.

Lemma text_and_tail k l : (k <= List.length (rstrip l))%nat ->
  skipn k (firstn (List.length (rstrip l)) l) ++ skipn (Nat.max k (List.length (rstrip l))) l = skipn k l.
Proof.
  intros H. replace (Nat.max k (List.length (rstrip l))) with (List.length (rstrip l)) by lia.
  pose proof (rstrip_len l) as Hl. set (q := List.length (rstrip l)) in *. clearbody q.
  transitivity (skipn k (firstn q l ++ skipn q l)); [|now rewrite firstn_skipn].
  rewrite skipn_app, firstn_length. replace (k - Nat.min q (List.length l))%nat with 0%nat by lia. reflexivity.
Qed.

Lemma clean_cons n keep l r : r <> [] -> clean_lines n keep (l :: r) = clean_line n l :: clean_lines n keep r.
Proof. destruct r; [congruence|reflexivity]. Qed.

Lemma clean_ne n keep ls : ls <> [] -> clean_lines n keep ls <> [].
Proof. destruct ls as [|l [|l2 ls]]; cbn; congruence. Qed.

Lemma copy_lines_spec n aft ignore ls : Forall line_ok ls -> deep n ls -> ls <> [] -> blank (last ls []) = false ->
  forall fuel first, (List.length (join_lines ls) <= fuel)%nat -> negb first || ignore = true ->
  copy_lines fuel (join_lines ls) aft first ignore (Some n) = Ok (join_lines (clean_lines n true ls)).
Proof.
  intros HF HD Hne Hb. induction ls as [|l ls IH]; [congruence|]. intros fuel first Hfuel Hfi.
  inversion HF; subst. inversion HD; subst. destruct ls as [|l2 ls].
  - cbn [join_lines last clean_lines] in *.
    assert (l <> []) by (intros ->; discriminate).
    destruct fuel as [|fuel]; [destruct l; [congruence|cbn in Hfuel; lia]|].
    rewrite copy_lines_eq by auto. rewrite find_line_last by auto. cbn [obind fl_text fl_nl fl_eol].
    rewrite Hfi. cbn [skip_incidental].
    destruct (skip_cols_line l n aft) as (k & E & D & L & R); [auto|]. rewrite E. cbn [obind].
    rewrite skipn_all, copy_nil. cbn [obind]. rewrite app_nil_r.
    destruct (R Hb) as [R1 R2]. rewrite text_and_tail by lia. rewrite D. reflexivity.
  - remember (l2 :: ls) as r eqn:Er. assert (Hr : r <> []) by (subst; discriminate).
    rewrite clean_cons by auto. rewrite (join_cons (clean_line n l)) by (now apply clean_ne).
    assert (Hlast : last (l :: r) [] = last r []) by (subst r; reflexivity). rewrite Hlast in Hb.
    pose proof (skip_cols_lines n (l :: r) aft HD ltac:(discriminate) ltac:(now rewrite Hlast)) as [k0 E0].
    rewrite join_cons in * by auto. rewrite app_length in Hfuel. cbn in Hfuel.
    destruct fuel as [|fuel]; [lia|].
    rewrite copy_lines_eq by (destruct l; discriminate).
    rewrite find_line_nl by auto. cbn [obind fl_text fl_nl fl_eol].
    rewrite Hfi. cbn [skip_incidental]. rewrite E0. cbn [obind].
    rewrite skipn_line, firstn_rstrip. rewrite IH; auto; [|lia]. cbn [obind].
    do 2 f_equal. unfold clean_line. destruct (blank l) eqn:Hbl.
    + apply rstrip_blank in Hbl. rewrite Hbl. now destruct k0.
    + rewrite <- app_assoc in E0.
      destruct (skip_cols_line l n ((cNL :: join_lines r) ++ aft)) as (k & E & D & L & R); [auto|].
      rewrite E in E0. injection E0 as ->. destruct (R Hbl) as [_ ->]. reflexivity.
Qed.

(** The first line, directly after the opening quote. *)
Lemma copy_first_spec n aft l ls : Forall line_ok (l :: ls) -> deep n ls ->
  blank l = false -> blank (last (l :: ls) []) = false ->
  copy_lines (List.length (join_lines (l :: ls))) (join_lines (l :: ls)) aft true false (Some n)
  = Ok (join_lines (match ls with [] => [l] | _ => rstrip l :: clean_lines n true ls end)).
Proof.
  intros HF HD Hbl Hb. inversion HF; subst. destruct ls as [|l2 ls].
  - cbn [join_lines last] in *. destruct l as [|c l]; [discriminate|].
    remember (c :: l) as q. assert (q <> []) by (subst; discriminate).
    destruct (List.length q) eqn:E; [subst; discriminate|].
    rewrite copy_lines_eq by auto. rewrite find_line_last by auto. cbn [obind fl_text fl_nl fl_eol negb orb].
    rewrite skipn_all, copy_nil. cbn [obind]. rewrite app_nil_r.
    rewrite text_and_tail by lia. reflexivity.
  - remember (l2 :: ls) as r eqn:Er. assert (Hr : r <> []) by (subst; discriminate).
    assert (Hlast : last (l :: r) [] = last r []) by (subst r; reflexivity). rewrite Hlast in Hb.
    rewrite join_cons by auto.
    rewrite (join_cons (rstrip l)) by (now apply clean_ne).
    rewrite app_length. cbn [List.length]. rewrite Nat.add_succ_r.
    rewrite copy_lines_eq by (destruct l; discriminate).
    rewrite find_line_nl by auto. cbn [obind fl_text fl_nl fl_eol negb orb].
    rewrite skipn_line, firstn_rstrip. rewrite (copy_lines_spec n aft false r) by (auto; lia).
    destruct r; [congruence|]. reflexivity.
Qed.

(** ** Whitespace at the end *)
Definition count_nl (s : bytes) : nat := List.length (filter (fun c => c =? cNL) s).

Lemma strip_end_ws w : forallb is_xml_whitespace w = true -> forall r acc n,
  strip_end (w ++ r) acc n = strip_end r (rev w ++ acc) (n + count_nl w)%nat.
Proof.
  unfold count_nl. induction w as [|c w IH]; intros Hw r acc n; cbn; [f_equal; lia|].
  cbn in Hw. apply andb_true_iff in Hw. destruct Hw as [Hc Hw]. rewrite Hc, IH; auto.
  rewrite <- app_assoc. cbn. f_equal. destruct (c =? cNL); cbn; lia.
Qed.

Definition ends_nonws (s : bytes) : Prop := s = [] \/ exists x c, s = x ++ [c] /\ is_xml_whitespace c = false.

Lemma count_nl_rev w : count_nl (rev w) = count_nl w.
Proof.
  unfold count_nl. induction w as [|c w IH]; auto. cbn [rev]. rewrite filter_app, app_length, IH. cbn.
  destruct (c =? cNL); cbn; lia.
Qed.

Lemma forallb_rev {A} (f : A -> bool) l : forallb f (rev l) = forallb f l.
Proof. induction l; cbn; auto. rewrite forallb_app, IHl. cbn. rewrite andb_true_r. apply andb_comm. Qed.

Lemma strip_end_spec x w : ends_nonws x -> forallb is_xml_whitespace w = true ->
  strip_end (rev (x ++ w)) [] 0 = (x, w, count_nl w).
Proof.
  intros Hx Hw. rewrite rev_app_distr. rewrite strip_end_ws by (now rewrite forallb_rev).
  rewrite rev_involutive, app_nil_r, count_nl_rev. cbn [Nat.add].
  destruct Hx as [->|(y & c & -> & Hc)]; [reflexivity|].
  rewrite rev_app_distr. cbn [rev app strip_end].
  rewrite Hc. destruct (N.eqb_spec c cNL); [subst; discriminate|].
  cbn [rev]. rewrite rev_involutive. reflexivity.
Qed.

Lemma skip_nls_spec s : forall n, exists k r, s = rep cNL k ++ r /\ skip_nls s n = ((n + k)%nat, r)
  /\ (match r with c :: _ => c <> cNL | [] => True end).
Proof.
  induction s as [|c s IH]; intros n; cbn.
  - exists 0%nat, []. cbn. rewrite Nat.add_0_r. auto.
  - destruct (N.eqb_spec c cNL) as [->|H].
    + destruct (IH (S n)) as (k & r & -> & -> & Hr). exists (S k), r. cbn. rewrite Nat.add_succ_r. auto.
    + exists 0%nat, (c :: s). cbn. rewrite Nat.add_0_r. auto.
Qed.

Lemma skip_ws_spec w : forallb is_xml_whitespace w = true -> forall r i b,
  (match r with c :: _ => is_xml_whitespace c = false | [] => True end) ->
  skip_ws (w ++ r) i b = ((i + List.length w)%nat, b || negb (Nat.eqb (count_nl w) 0)).
Proof.
  unfold count_nl. induction w as [|c w IH]; intros Hw r i b Hr; cbn.
  - destruct r as [|c r]; cbn; rewrite orb_false_r, Nat.add_0_r; auto.
    rewrite Hr. destruct (N.eqb_spec c cNL); [subst; discriminate|reflexivity].
  - cbn in Hw. apply andb_true_iff in Hw. destruct Hw as [Hc Hw]. rewrite Hc, IH; auto.
    f_equal; [lia|]. destruct (c =? cNL); cbn; [now rewrite orb_true_r|reflexivity].
Qed.

Lemma count_nl_app a b : count_nl (a ++ b) = (count_nl a + count_nl b)%nat.
Proof. unfold count_nl. now rewrite filter_app, app_length. Qed.

Lemma count_nl_rep k : count_nl (rep cNL k) = k.
Proof. unfold count_nl, rep. induction k; cbn; auto. Qed.

(** Leading whitespace w before a text r. *)
Lemma has_leading_spec w r : forallb is_xml_whitespace w = true ->
  (match r with c :: _ => is_xml_whitespace c = false | [] => True end) ->
  fst (has_leading_space_nl (w ++ r)) = if Nat.eqb (count_nl w) 0 then None else Some (List.length w).
Proof.
  intros Hw Hr. unfold has_leading_space_nl.
  destruct (skip_nls_spec w 0) as (k & w2 & E & _ & Hw2).
  assert (E2 : skip_nls (w ++ r) 0 = (k, w2 ++ r)).
  { subst w. rewrite <- app_assoc.
    assert (forall n, skip_nls (rep cNL k ++ w2 ++ r) n = ((n + k)%nat, w2 ++ r)) as H.
    { clear Hw; induction k as [|k IH]; intros n; cbn [rep repeat app].
      - rewrite Nat.add_0_r. destruct w2 as [|c w2]; cbn.
        + destruct r as [|c r]; auto. cbn. destruct (N.eqb_spec c cNL); [subst; discriminate|reflexivity].
        + destruct (N.eqb_spec c cNL); [congruence|reflexivity].
      - cbn [skip_nls]. change (cNL =? cNL) with true. cbv iota.
        unfold rep in IH. rewrite IH. f_equal. lia. }
    apply H. }
  rewrite E2. subst w. rewrite forallb_app in Hw. apply andb_true_iff in Hw. destruct Hw as [_ Hw].
  rewrite skip_ws_spec by auto. rewrite count_nl_app, count_nl_rep, app_length.
  unfold rep. rewrite repeat_length.
  destruct k as [|k]; cbn [Nat.ltb Nat.leb orb Nat.add].
  - destruct (Nat.eqb (count_nl w2) 0); reflexivity.
  - reflexivity.
Qed.

Lemma has_ending_spec x w : ends_nonws x -> forallb is_xml_whitespace w = true ->
  fst (has_ending_nl_space (x ++ w)) = if Nat.eqb (count_nl w) 0 then None else Some (List.length x).
Proof.
  intros Hx Hw.
  assert (H : has_ending_nl_space (x ++ w) =
    (let '(o, k) := has_leading_space_nl (rev (x ++ w)) in
     (match o with Some i => Some (List.length (x ++ w) - i)%nat | None => None end, k))).
  { unfold has_ending_nl_space, has_leading_space_nl. destruct (skip_nls (rev (x ++ w)) 0) as [n r].
    destruct (skip_ws r n (Nat.ltb 0 n)) as [i f]. destruct f; reflexivity. }
  rewrite H. clear H. rewrite rev_app_distr.
  destruct (has_leading_space_nl (rev w ++ rev x)) as [o k] eqn:E.
  assert (E' : fst (has_leading_space_nl (rev w ++ rev x)) = o) by (rewrite E; auto).
  rewrite has_leading_spec in E'; [|now rewrite forallb_rev|].
  2:{ destruct Hx as [->|(y & c & -> & Hc)]; cbn; auto. rewrite rev_app_distr. cbn. auto. }
  rewrite count_nl_rev, rev_length in E'. subst o. cbn [fst].
  destruct (Nat.eqb (count_nl w) 0); auto. rewrite app_length. f_equal. lia.
Qed.

(** ** Putting it together *)
Lemma lead_blank_split ls : exists a b, ls = a ++ b /\ Forall (fun l => blank l = true) a
  /\ List.length a = lead_blank ls /\ (match b with [] => True | l :: _ => blank l = false end).
Proof.
  induction ls as [|l ls IH].
  - exists [], []. cbn. auto.
  - cbn. destruct (blank l) eqn:E.
    + destruct IH as (a & b & -> & Ha & Hl & Hb). exists (l :: a), b. cbn. repeat split; auto.
    + exists [], (l :: ls). cbn. auto.
Qed.

Lemma blank_ws l : blank l = true -> forallb is_xml_whitespace l = true.
Proof.
  unfold blank. induction l as [|c l IH]; cbn; auto. intros H. apply andb_true_iff in H. destruct H as [H1 H2].
  rewrite IH by auto. apply hspace_cases in H1. destruct H1; subst; reflexivity.
Qed.

Lemma blank_count l : blank l = true -> count_nl l = 0%nat.
Proof.
  unfold blank, count_nl. induction l as [|c l IH]; cbn; auto. intros H. apply andb_true_iff in H. destruct H as [H1 H2].
  apply hspace_cases in H1. destruct H1; subst; cbn; auto.
Qed.

Lemma join_blank_ws ls : Forall (fun l => blank l = true) ls -> forallb is_xml_whitespace (join_lines ls) = true.
Proof.
  induction 1 as [|l ls Hl HF IH]; auto. destruct ls as [|l2 ls]; [cbn; now apply blank_ws|].
  rewrite join_cons by discriminate. rewrite forallb_app, (blank_ws l Hl). cbn [forallb].
  rewrite IH. reflexivity.
Qed.

Lemma join_blank_count ls : Forall (fun l => blank l = true) ls -> count_nl (join_lines ls) = (List.length ls - 1)%nat.
Proof.
  induction 1 as [|l ls Hl HF IH]; auto. destruct ls as [|l2 ls]; [cbn; now apply blank_count|].
  rewrite join_cons by discriminate. rewrite count_nl_app, (blank_count l Hl).
  change (cNL :: join_lines (l2 :: ls)) with ([cNL] ++ join_lines (l2 :: ls)). rewrite count_nl_app, IH. cbn. lia.
Qed.

Fixpoint strip_last (ls : list bytes) : list bytes :=
  match ls with [] => [] | [l] => [rstrip l] | l :: r => l :: strip_last r end.

Lemma strip_last_cons l r : r <> [] -> strip_last (l :: r) = l :: strip_last r.
Proof. destruct r; [congruence|reflexivity]. Qed.
Lemma strip_last_ne ls : ls <> [] -> strip_last ls <> [].
Proof. destruct ls as [|l [|l2 ls]]; cbn; congruence. Qed.

Lemma last_cons {A} (x : A) r d : r <> [] -> last (x :: r) d = last r d.
Proof. destruct r; [congruence|reflexivity]. Qed.

Lemma strip_last_clean n ls : blank (last ls []) = false -> clean_lines n true (strip_last ls) = clean_lines n false ls.
Proof.
  induction ls as [|l ls IH]; auto. destruct ls as [|l2 ls].
  - cbn. intros H. unfold clean_line. rewrite H. reflexivity.
  - rewrite last_cons by discriminate. intros H. rewrite strip_last_cons by discriminate.
    rewrite !clean_cons by (try apply strip_last_ne; discriminate). now rewrite IH.
Qed.

Lemma columns_rstrip l : blank l = false -> columns (rstrip l) = columns l.
Proof.
  induction l as [|c l IH]; cbn; auto. rewrite blank_cons. intros H.
  destruct (rstrip l) as [|x y] eqn:E.
  - apply rstrip_blank in E. rewrite E, andb_true_r in H. unfold is_hspace in H. rewrite E || idtac.
    apply orb_false_iff in H. destruct H as [H1 H2]. unfold is_hspace. rewrite H1, H2. cbn. rewrite H1, H2. reflexivity.
  - assert (Hb : blank l = false).
    { destruct (blank l) eqn:E2; auto. apply rstrip_blank in E2. congruence. }
    cbn [columns]. rewrite <- (IH Hb). reflexivity.
Qed.

Lemma blank_rstrip l : blank l = false -> blank (rstrip l) = false.
Proof.
  intros H. destruct (blank (rstrip l)) eqn:E; auto. apply rstrip_blank in E. rewrite rstrip_idem in E.
  apply rstrip_blank in E. congruence.
Qed.

Lemma used_cons l r : used_columns (l :: r) = if blank l then used_columns r else columns l :: used_columns r.
Proof. unfold used_columns. cbn. destruct (blank l); reflexivity. Qed.

Lemma strip_last_used ls : blank (last ls []) = false -> used_columns (strip_last ls) = used_columns ls.
Proof.
  induction ls as [|l ls IH]; auto. destruct ls as [|l2 ls].
  - cbn [last strip_last]. intros H. rewrite !used_cons, H, blank_rstrip, columns_rstrip by auto. reflexivity.
  - rewrite last_cons by discriminate. intros H. rewrite strip_last_cons by discriminate.
    rewrite used_cons, IH by auto. symmetry. apply used_cons.
Qed.

Lemma strip_last_last ls : ls <> [] -> last (strip_last ls) [] = rstrip (last ls []).
Proof.
  induction ls as [|l ls IH]; [congruence|]. intros _. destruct ls as [|l2 ls]; auto.
  rewrite strip_last_cons, !last_cons by (try apply strip_last_ne; discriminate). apply IH. discriminate.
Qed.

Lemma strip_last_len ls : List.length (strip_last ls) = List.length ls.
Proof. induction ls as [|l ls IH]; auto. destruct ls; auto. rewrite strip_last_cons by discriminate. cbn [List.length] in *. now rewrite IH. Qed.

Lemma strip_last_app a b : b <> [] -> strip_last (a ++ b) = a ++ strip_last b.
Proof.
  intros H. induction a as [|x a IH]; auto. cbn [app]. rewrite strip_last_cons by (destruct a; [auto|discriminate]).
  now rewrite IH.
Qed.

Lemma rstrip_line_ok l : line_ok l -> line_ok (rstrip l).
Proof. intros H. destruct (rstrip_split l) as [w [E _]]. rewrite E in H. apply line_ok_app in H. tauto. Qed.

Lemma strip_last_ok ls : Forall line_ok ls -> Forall line_ok (strip_last ls).
Proof.
  induction 1 as [|l ls Hl HF IH]; [constructor|]. destruct ls as [|l2 ls].
  - cbn. constructor; auto. now apply rstrip_line_ok.
  - rewrite strip_last_cons by discriminate. constructor; auto.
Qed.

Lemma join_strip_last ls : ls <> [] -> exists w, join_lines ls = join_lines (strip_last ls) ++ w /\ blank w = true.
Proof.
  induction ls as [|l ls IH]; [congruence|]. intros _. destruct ls as [|l2 ls].
  - cbn. apply rstrip_split.
  - destruct IH as (w & E & Hw); [discriminate|]. exists w. split; auto.
    rewrite strip_last_cons by discriminate. rewrite (join_cons l (l2 :: ls)) by discriminate.
    rewrite (join_cons l (strip_last (l2 :: ls))) by (apply strip_last_ne; discriminate).
    rewrite E, <- app_assoc. reflexivity.
Qed.

(** A line that is not blank ends (after stripping) with a character that is
    not whitespace. *)
Lemma rstrip_ends l : line_ok l -> blank l = false -> exists x c, rstrip l = x ++ [c] /\ is_xml_whitespace c = false.
Proof.
  intros Hl Hb. destruct (exists_last (l := rstrip l)) as (x & c & E).
  { intros E. apply rstrip_blank in E. congruence. }
  exists x, c. split; auto.
  assert (Hc : is_hspace c = false).
  { destruct (is_hspace c) eqn:Hc; auto. pose proof (rstrip_idem l) as H. rewrite E in H.
    rewrite rstrip_app_blank in H by (rewrite blank_cons, Hc; auto).
    pose proof (rstrip_len x). rewrite H in H0. rewrite app_length in H0. cbn in H0. lia. }
  pose proof (rstrip_line_ok _ Hl) as Ho. rewrite E in Ho. apply line_ok_app in Ho. destruct Ho as [_ Ho].
  apply line_ok_cons in Ho. destruct Ho as (H1 & H2 & _).
  unfold is_hspace in Hc. apply orb_false_iff in Hc. destruct Hc as [Hc1 Hc2].
  unfold is_xml_whitespace. rewrite Hc1, Hc2. rewrite (proj2 (N.eqb_neq _ _) H1), (proj2 (N.eqb_neq _ _) H2). reflexivity.
Qed.

Lemma join_ends_with ls : ls <> [] -> exists p, join_lines ls = p ++ last ls [].
Proof.
  induction ls as [|l ls IH]; [congruence|]. intros _. destruct ls as [|l2 ls]; [exists []; auto|].
  destruct IH as [p E]; [discriminate|]. rewrite join_cons, last_cons by discriminate. rewrite E.
  exists (l ++ cNL :: p). rewrite <- app_assoc. reflexivity.
Qed.

Lemma join_strip_ends ls : ls <> [] -> Forall line_ok ls -> blank (last ls []) = false ->
  ends_nonws (join_lines (strip_last ls)).
Proof.
  intros Hne HF Hb. right.
  destruct (join_ends_with (strip_last ls)) as [p E]; [now apply strip_last_ne|].
  rewrite strip_last_last in E by auto.
  destruct (rstrip_ends (last ls [])) as (x & c & E2 & Hc); auto.
  { destruct (exists_last Hne) as (q & y & ->). rewrite last_last. apply Forall_app in HF. destruct HF as [_ HF]. now inversion HF. }
  exists (p ++ x), c. split; auto. rewrite E, E2, app_assoc. reflexivity.
Qed.

(** A line that is not blank starts, after its indentation, with a character
    that is not whitespace. *)
Lemma line_lead l : line_ok l -> blank l = false -> exists w c r, l = w ++ c :: r /\ blank w = true /\ is_xml_whitespace c = false.
Proof.
  induction l as [|c l IH]; intros Hl Hb; [discriminate|].
  apply line_ok_cons in Hl. destruct Hl as (H1 & H2 & Hl). rewrite blank_cons in Hb.
  destruct (is_hspace c) eqn:Hc.
  - destruct (IH Hl Hb) as (w & d & r & -> & Hw & Hd). exists (c :: w), d, r.
    rewrite blank_cons, Hc, Hw. auto.
  - exists [], c, l. repeat split; auto. unfold is_hspace in Hc. apply orb_false_iff in Hc. destruct Hc as [Hc1 Hc2].
    unfold is_xml_whitespace. rewrite Hc1, Hc2. rewrite (proj2 (N.eqb_neq _ _) H1), (proj2 (N.eqb_neq _ _) H2). reflexivity.
Qed.

Lemma strip_lead_blank w : blank w = true -> forall r cur n, strip_lead (w ++ r) cur n = strip_lead r cur n.
Proof.
  induction w as [|c w IH]; intros Hw r cur n; auto. rewrite blank_cons in Hw. apply andb_true_iff in Hw.
  destruct Hw as [Hc Hw]. cbn [app strip_lead]. apply hspace_cases in Hc. destruct Hc; subst; cbn; auto.
Qed.

Lemma strip_lead_spec a : Forall (fun l => blank l = true) a -> forall l b n, line_ok l -> blank l = false ->
  strip_lead (join_lines (a ++ l :: b)) (join_lines (a ++ l :: b)) n = (join_lines (l :: b), (n + List.length a)%nat).
Proof.
  induction 1 as [|x a Hx HF IH]; intros l b n Hl Hb.
  - cbn [app List.length]. rewrite Nat.add_0_r.
    destruct (line_lead l Hl Hb) as (w & c & r & E & Hw & Hc).
    assert (E2 : exists r', join_lines (l :: b) = w ++ c :: r').
    { destruct b; [exists r; now rewrite E|]. rewrite join_cons by discriminate. rewrite E, <- app_assoc. cbn [app]. eauto. }
    destruct E2 as [r' E2]. remember (join_lines (l :: b)) as s. rewrite E2 at 1. rewrite strip_lead_blank by auto.
    cbn [strip_lead]. rewrite Hc. destruct (N.eqb_spec c cNL); [subst; discriminate|reflexivity].
  - cbn [app List.length]. rewrite join_cons by (destruct a; discriminate).
    rewrite strip_lead_blank by auto. cbn [strip_lead]. change (cNL =? cNL) with true. cbv iota.
    rewrite IH by auto. f_equal. lia.
Qed.

(** min_loop and the minimum of the columns. *)
Lemma min_list_const d e l : l <> [] -> min_list d l = min_list e l.
Proof. destruct l; [congruence|reflexivity]. Qed.

Lemma fold_min_swap a b l : (Nat.min a (fold_right Nat.min b l) = Nat.min b (fold_right Nat.min a l))%nat.
Proof. induction l; cbn; lia. Qed.

Lemma min_list_cons d x l : min_list d (x :: l) = fold_right Nat.min x l.
Proof.
  cbn [min_list]. clear d. revert x. induction l as [|z l IH]; intros x; cbn [min_list fold_right]; [lia|].
  rewrite IH. apply fold_min_swap.
Qed.

Lemma min_loop_some ls : forall ignore n, min_loop ls false ignore (Some n) = Some (fold_right Nat.min n (used_columns ls)).
Proof.
  induction ls as [|l ls IH]; intros ignore n; auto. cbn [min_loop]. rewrite used_cons.
  destruct (blank l); auto. cbn [negb orb]. rewrite andb_true_r. cbn [fold_right].
  destruct (Nat.ltb_spec (columns l) n); rewrite IH; f_equal.
  - assert (H1 : forall a l, (fold_right Nat.min a l <= a)%nat) by (clear; intros a l; induction l; cbn; lia).
    pose proof (fold_min_swap (columns l) n (used_columns ls)).
    specialize (H1 (columns l) (used_columns ls)). lia.
  - assert (H1 : forall a l, (fold_right Nat.min a l <= a)%nat) by (clear; intros a l; induction l; cbn; lia).
    specialize (H1 n (used_columns ls)). lia.
Qed.


Lemma min_loop_first l ls n : blank l = false ->
  min_loop (l :: ls) true false (Some n) = Some (min_list 0 (n :: used_columns ls)).
Proof.
  intros H. cbn [min_loop]. rewrite H. rewrite min_list_cons. cbn [negb orb]. rewrite andb_false_r.
  apply min_loop_some.
Qed.

Lemma min_loop_ignore l ls : blank l = false ->
  min_loop (l :: ls) true true None = Some (min_list 0 (used_columns (l :: ls))).
Proof.
  intros H. cbn [min_loop]. rewrite used_cons, H. rewrite min_list_cons. cbn [negb orb andb].
  apply min_loop_some.
Qed.

Lemma min_list_le d l x : In x l -> (min_list d l <= x)%nat.
Proof.
  revert d. induction l as [|y l IH]; intros d []; cbn; [subst; lia|]. specialize (IH y H). lia.
Qed.

Lemma deep_min d cols ls : incl (used_columns ls) cols -> deep (min_list d cols) ls.
Proof.
  intros H. apply Forall_forall. intros l Hl Hb. apply min_list_le. apply H.
  unfold used_columns. apply in_map. apply filter_In. rewrite Hb. auto.
Qed.

Lemma drop_columns_spaces n k l : (n <= k)%nat -> drop_columns n (rep cSP k ++ l) = rep cSP (k - n) ++ l.
Proof.
  revert k. induction n as [|n IH]; intros k H.
  - rewrite Nat.sub_0_r. destruct (rep cSP k ++ l); reflexivity.
  - destruct k as [|k]; [lia|]. cbn [rep repeat app]. rewrite drop_columns_eq. change (cSP =? cSP) with true.
    cbv iota. unfold rep in *. rewrite IH by lia. reflexivity.
Qed.

Lemma drop_columns_len l : forall n, (List.length (drop_columns n l) <= List.length l)%nat.
Proof.
  induction l as [|c l IH]; intros n; destruct n as [|n]; auto.
  rewrite drop_columns_eq. cbn [List.length].
  destruct (c =? cSP); [specialize (IH n); lia|]. destruct (c =? cTAB); [|cbn [List.length]; lia].
  destruct (Nat.leb 8 (S n)); [specialize (IH (S n - 8)%nat); lia|lia].
Qed.

Lemma clean_lines_len n keep ls : (List.length (join_lines (clean_lines n keep ls)) <= List.length (join_lines ls))%nat.
Proof.
  assert (H : forall l, (List.length (clean_line n l) <= List.length l)%nat).
  { intros l. unfold clean_line. destruct (blank l); [cbn; lia|].
    pose proof (drop_columns_len (rstrip l) n). pose proof (rstrip_len l). lia. }
  induction ls as [|l ls IH]; auto. destruct ls as [|l2 ls].
  - cbn [clean_lines join_lines]. destruct keep; auto. apply drop_columns_len.
  - rewrite clean_cons by discriminate. rewrite (join_cons l (l2 :: ls)) by discriminate.
    rewrite (join_cons _ (clean_lines n keep (l2 :: ls))) by (apply clean_ne; discriminate).
    rewrite !app_length. cbn [List.length]. specialize (H l). lia.
Qed.

(** The part of xmq_trim_quote after trimming the end. *)
Definition trim_body (indent : nat) (space : N) (eol : nat) (s1 aft : bytes) (append : nat) : out (nat * bytes) :=
  let '(s2, prepend, ignore) :=
    match fst (has_leading_space_nl s1) with
    | Some _ =>
      let '(s2, p) := strip_lead (skipn eol s1) (skipn eol s1) 0 in (s2, p, true)
    | None => (s1, 0%nat, false)
    end in
  obind (min_indent (List.length s2) s2 aft true ignore (if ignore then None else Some indent)) (fun inc =>
  let spaces :=
    match ignore, inc with
    | false, Some n => (if Nat.leb n indent then indent - n else 0)%nat
    | _, _ => 0%nat
    end in
  obind (copy_lines (List.length s2) s2 aft true ignore inc) (fun body =>
  Ok ((List.length s2 + spaces + prepend + append + 1)%nat,
      (if space =? 0 then [] else rep space spaces) ++ rep cNL prepend ++ body ++ rep cNL append))).

Definition block_of (indent : nat) (keep : bool) (core : list bytes) : list bytes :=
  let top := lead_blank core in
  let body := skipn top core in
  let '(cols, placed) :=
    if Nat.eqb top 0 then
      (indent :: used_columns (tl body), (rep cSP indent ++ hd [] body) :: tl body)
    else (used_columns body, body) in
  repeat [] (top - 1) ++ clean_lines (min_list 0 cols) keep placed.

Lemma rep_len c n : List.length (rep c n) = n.
Proof. apply repeat_length. Qed.

Lemma skipn_app_exact {A} (a b : list A) : skipn (List.length a) (a ++ b) = b.
Proof. rewrite skipn_app, skipn_all, Nat.sub_diag. reflexivity. Qed.

Lemma rstrip_spaces n l : blank l = false -> rstrip (rep cSP n ++ l) = rep cSP n ++ rstrip l.
Proof.
  intros H. apply rstrip_skip_blank; auto. clear H. unfold rep. induction n; auto.
Qed.

Lemma blank_spaces n l : blank (rep cSP n ++ l) = blank l.
Proof. induction n; auto. Qed.

Lemma trim_body_spec core indent eol aft append :
  Forall line_ok core -> core <> [] -> blank (last core []) = false ->
  (blank (hd [] core) = true -> eol = S (List.length (hd [] core))) ->
  exists n, trim_body indent cSP eol (join_lines core) aft append
            = Ok (n, join_lines (block_of indent true core) ++ rep cNL append)
            /\ (List.length (join_lines (block_of indent true core)) + append < n)%nat.
Proof.
  intros HF Hne Hb Heol. unfold trim_body, block_of.
  destruct (lead_blank_split core) as (a & b & E & Ha & Hlen & Hhd).
  rewrite <- Hlen. destruct b as [|l b].
  { exfalso. rewrite app_nil_r in E. subst core. destruct (exists_last Hne) as (q & y & E2). rewrite E2, last_last in Hb.
    rewrite E2 in Ha. apply Forall_app in Ha. destruct Ha as [_ Ha]. inversion Ha; congruence. }
  assert (HF' := HF). rewrite E in HF'. apply Forall_app in HF'. destruct HF' as [HFa HFb].
  inversion HFb as [|? ? Hl HFb']; subst.
  assert (Hlast : last (a ++ l :: b) [] = last (l :: b) []).
  { clear. induction a as [|x a IH]; auto. cbn [app]. rewrite last_cons by (destruct a; discriminate). apply IH. }
  rewrite Hlast in Hb. rewrite skipn_app_exact.
  destruct (line_lead l Hl Hhd) as (w & c & r & El & Hw & Hc).
  destruct a as [|x a].
  - (* the first line follows the opening quote *)
    cbn [app List.length Nat.eqb repeat Nat.sub hd tl].
    assert (El2 : exists r', join_lines (l :: b) = w ++ c :: r').
    { destruct b; [exists r; now rewrite El|]. rewrite join_cons by discriminate. rewrite El, <- app_assoc. cbn [app]. eauto. }
    destruct El2 as [r' El2].
    assert (Hlead : fst (has_leading_space_nl (join_lines (l :: b))) = None).
    { rewrite El2. rewrite has_leading_spec; auto; [|now apply blank_ws].
      rewrite blank_count by auto. reflexivity. }
    rewrite Hlead. rewrite min_indent_spec by auto. cbn [obind].
    rewrite min_loop_first by auto. set (n := min_list 0 (indent :: used_columns b)).
    assert (Hn : (n <= indent)%nat) by (apply min_list_le; left; auto).
    rewrite copy_first_spec; auto; [|apply deep_min; intros q Hq; right; auto].
    cbn [obind]. destruct (Nat.leb_spec n indent); [|lia].
    eexists. split.
    + do 2 f_equal. change (cSP =? 0) with false. cbv iota. cbn [rep repeat app].
      rewrite app_assoc. f_equal.
      destruct b as [|l2 b].
      * cbn [clean_lines join_lines]. rewrite drop_columns_spaces by auto. reflexivity.
      *
        change (clean_lines n true ((rep cSP indent ++ l) :: l2 :: b)) with (clean_line n (rep cSP indent ++ l) :: clean_lines n true (l2 :: b)). unfold clean_line at 1. rewrite blank_spaces, Hhd, rstrip_spaces by auto.
        rewrite drop_columns_spaces by auto.
        rewrite !(join_cons _ (clean_lines n true (l2 :: b))) by (apply clean_ne; discriminate).
        rewrite <- app_assoc. reflexivity.
    + destruct b as [|l2 b].
      * cbn [clean_lines join_lines]. rewrite drop_columns_spaces by auto. rewrite app_length, rep_len. lia.
      * change (clean_lines n true ((rep cSP indent ++ l) :: l2 :: b)) with (clean_line n (rep cSP indent ++ l) :: clean_lines n true (l2 :: b)). unfold clean_line at 1. rewrite blank_spaces, Hhd, rstrip_spaces by auto.
        rewrite drop_columns_spaces by auto.
        rewrite !(join_cons _ (clean_lines n true (l2 :: b))) by (apply clean_ne; discriminate).
        rewrite !(join_cons _ (l2 :: b)) by discriminate.
        rewrite !app_length. cbn [List.length]. rewrite rep_len. pose proof (rstrip_len l).
        pose proof (clean_lines_len n true (l2 :: b)). lia.
  - (* blank lines at the top *)
    assert (Hx := Forall_inv Ha). assert (Ha' := Forall_inv_tail Ha). cbn beta in Hx. cbn [List.length Nat.eqb].
    cbn [app hd] in Heol. specialize (Heol Hx). subst eol. cbn [app].
    rewrite join_cons by (destruct a; discriminate).
    assert (Hlead : exists i, fst (has_leading_space_nl (x ++ cNL :: join_lines (a ++ l :: b))) = Some i).
    { assert (El2 : exists w2 r', join_lines (a ++ l :: b) = w2 ++ c :: r' /\ forallb is_xml_whitespace w2 = true).
      { clear -El Ha' Hw. induction Ha' as [|y a Hy Ha IH].
        - exists w. destruct b; [exists r; rewrite El; split; auto; now apply blank_ws|].
          cbn [app]. rewrite join_cons by discriminate. rewrite El, <- app_assoc. cbn [app]. eexists. split; [reflexivity|now apply blank_ws].
        - destruct IH as (w2 & r' & E & Hw2). exists (y ++ cNL :: w2), r'. cbn [app].
          rewrite join_cons by (destruct a; discriminate). rewrite E, <- app_assoc. split; auto.
          rewrite forallb_app, (blank_ws y Hy). cbn. auto. }
      destruct El2 as (w2 & r' & -> & Hw2).
      replace (x ++ cNL :: w2 ++ c :: r') with ((x ++ cNL :: w2) ++ c :: r') by (rewrite <- app_assoc; auto).
      rewrite has_leading_spec; auto.
      - rewrite count_nl_app. change (cNL :: w2) with ([cNL] ++ w2). rewrite count_nl_app. cbn [count_nl filter N.eqb List.length].
        rewrite Nat.add_succ_r. cbn [Nat.eqb]. eauto.
      - rewrite forallb_app, (blank_ws x Hx). cbn. auto. }
    destruct Hlead as [i ->]. rewrite skipn_line.
    rewrite strip_lead_spec by auto. cbn [Nat.add].
    rewrite min_indent_spec by auto. cbn [obind].
    rewrite min_loop_ignore by auto. set (n := min_list 0 (used_columns (l :: b))).
    rewrite copy_lines_spec; auto; [|apply deep_min; intros q Hq; auto|discriminate].
    cbn [obind]. eexists. split.
    + do 2 f_equal. change (cSP =? 0) with false. cbv iota. cbn [rep repeat app].
      replace (S (List.length a) - 1)%nat with (List.length a) by lia.
      rewrite join_repeat_nil by (apply clean_ne; discriminate). rewrite app_assoc. reflexivity.
    + replace (S (List.length a) - 1)%nat with (List.length a) by lia.
      rewrite join_repeat_nil by (apply clean_ne; discriminate). rewrite app_length, rep_len.
      pose proof (clean_lines_len n true (l :: b)). lia.
Qed.

Lemma block_of_ne indent keep core : core <> [] -> blank (last core []) = false -> block_of indent keep core <> [].
Proof.
  intros Hne Hb. unfold block_of.
  destruct (lead_blank_split core) as (a & b & E & Ha & Hlen & Hhd). rewrite <- Hlen. subst core.
  rewrite skipn_app_exact. destruct b as [|l b].
  { exfalso. rewrite app_nil_r in *. destruct (exists_last Hne) as (q & y & E2). rewrite E2, last_last in Hb.
    rewrite E2 in Ha. apply Forall_app in Ha. destruct Ha as [_ Ha]. inversion Ha; congruence. }
  destruct a; cbn [Nat.eqb List.length tl]; intros E; apply app_eq_nil in E; destruct E as [_ E];
    revert E; apply clean_ne; discriminate.
Qed.

Lemma block_of_strip indent core : core <> [] -> blank (last core []) = false ->
  block_of indent true (strip_last core) = block_of indent false core.
Proof.
  intros Hne Hb. unfold block_of.
  destruct (lead_blank_split core) as (a & b & E & Ha & Hlen & Hhd). rewrite <- Hlen. subst core.
  rewrite skipn_app_exact. destruct b as [|l b].
  { exfalso. rewrite app_nil_r in *. destruct (exists_last Hne) as (q & y & E2). rewrite E2, last_last in Hb.
    rewrite E2 in Ha. apply Forall_app in Ha. destruct Ha as [_ Ha]. inversion Ha; congruence. }
  assert (Hlast : last (a ++ l :: b) [] = last (l :: b) []).
  { clear. induction a as [|x a IH]; auto. cbn [app]. rewrite last_cons by (destruct a; discriminate). apply IH. }
  assert (Hb' : blank (last (l :: b) []) = false) by (rewrite <- Hlast; exact Hb). clear Hb. rename Hb' into Hb.
  rewrite strip_last_app by discriminate.
  assert (Hl : lead_blank (a ++ strip_last (l :: b)) = List.length a).
  { clear -Ha Hhd. induction Ha as [|x a Hx Ha IH]; cbn [app lead_blank List.length].
    - destruct b; cbn; [rewrite blank_rstrip; auto|rewrite Hhd; auto].
    - rewrite Hx, IH. reflexivity. }
  rewrite Hl, skipn_app_exact.
  destruct a as [|x a]; cbn [Nat.eqb List.length].
  - f_equal. destruct b as [|l2 b].
    + cbn [strip_last hd tl last clean_lines] in *. unfold clean_line. rewrite blank_spaces, Hhd, rstrip_spaces by auto. reflexivity.
    + rewrite strip_last_cons by discriminate. cbn [hd tl]. rewrite last_cons in Hb by discriminate.
      rewrite strip_last_used by auto.
      rewrite !clean_cons by (try apply strip_last_ne; discriminate).
      rewrite strip_last_clean by auto. reflexivity.
  - f_equal. rewrite strip_last_used, strip_last_clean by auto. reflexivity.
Qed.

Lemma lead_blank_rev_split ls : exists core bl, ls = core ++ bl /\ Forall (fun l => blank l = true) bl
  /\ List.length bl = lead_blank (rev ls) /\ (core = [] \/ blank (last core []) = false).
Proof.
  destruct (lead_blank_split (rev ls)) as (a & b & E & Ha & Hlen & Hhd).
  exists (rev b), (rev a). rewrite <- rev_app_distr, <- E, rev_involutive, rev_length.
  repeat split; auto.
  - apply Forall_rev. auto.
  - destruct b as [|l b]; auto. right. cbn [rev]. rewrite last_last. auto.
Qed.

Theorem trim_quote_text_block indent s aft : ~ In cCR s -> ~ In 0 s ->
  exists n, trim_quote indent cSP s aft = Ok (n, text_block indent s)
            /\ (List.length (text_block indent s) < n)%nat.
Proof.
  intros Hcr H0. pose proof (split_line_ok s Hcr) as HF. pose proof (split_lines_ne s) as Hne.
  unfold trim_quote, second_line_indent. change (cSP =? 0) with false. rewrite andb_false_r. cbn [obind].
  unfold text_block. remember (split_lines s) as ls eqn:Els.
  assert (Es : s = join_lines ls) by (subst; now rewrite join_split).
  destruct ls as [|l0 ls]; [congruence|]. assert (Hl0 := Forall_inv HF). assert (HFr := Forall_inv_tail HF).
  destruct ls as [|l1 ls].
  { cbn [List.length Nat.eqb join_lines] in *. rewrite Es. rewrite find_line_last by auto. cbn [obind fl_nl negb].
    assert (Hc : c_str s = s).
    { clear -H0. induction s as [|c s IH]; auto. cbn in *. destruct (N.eqb_spec c 0); [subst; tauto|]. rewrite IH; tauto. }
    rewrite <- Es, Hc. eexists. split; eauto. }
  remember (l1 :: ls) as rest eqn:Erest. assert (Hrest : rest <> []) by (subst; discriminate).
  assert (Hlen2 : (2 <= List.length (l0 :: rest))%nat) by (subst; cbn; lia).
  destruct (Nat.eqb_spec (List.length (l0 :: rest)) 1); [lia|].
  assert (Efl : find_line s aft = Ok (FL true (columns l0) (List.length (rstrip l0)) (S (List.length l0)))).
  { rewrite Es. rewrite join_cons by auto. apply find_line_nl. auto. }
  rewrite Efl. cbn [obind fl_nl negb fl_eol].
  destruct (lead_blank_rev_split (l0 :: rest)) as (core & bl & E & Hbl & Hlbl & Hcore).
  rewrite <- Hlbl.
  assert (Hlen : List.length (l0 :: rest) = (List.length core + List.length bl)%nat) by (rewrite E; apply app_length).
  destruct core as [|c0 core].
  { (* nothing but whitespace *)
    cbn [app List.length] in E, Hlen. rewrite E in *.
    rewrite Nat.eqb_refl.
    assert (Hends : ends_nonws []) by (left; auto).
    assert (Hws : forallb is_xml_whitespace s = true) by (rewrite Es; now apply join_blank_ws).
    pose proof (has_ending_spec [] s Hends Hws) as H1. cbn [app] in H1. rewrite H1.
    assert (Hc : count_nl s = (List.length bl - 1)%nat) by (rewrite Es; now apply join_blank_count).
    rewrite Hc. destruct (Nat.eqb_spec (List.length bl - 1) 0); [lia|].
    pose proof (strip_end_spec [] s Hends Hws) as H2. cbn [app] in H2. rewrite H2, Hc.
    eexists. split; [do 2 f_equal; f_equal; lia|]. rewrite rep_len. lia. }
  destruct Hcore as [Hcore|Hcore]; [discriminate|].
  remember (c0 :: core) as cs eqn:Ecs. assert (Hcs : cs <> []) by (subst; discriminate).
  destruct (Nat.eqb_spec (List.length bl) (List.length (l0 :: rest))) as [Hbad|_].
  { rewrite Hlen in Hbad. subst cs. cbn in Hbad. lia. }
  rewrite Hlen. replace (List.length cs + List.length bl - List.length bl)%nat with (List.length cs) by lia.
  rewrite E. rewrite firstn_app, Nat.sub_diag, firstn_all. cbn [firstn]. rewrite app_nil_r.
  assert (HFcs : Forall line_ok cs).
  { rewrite E in HF. apply Forall_app in HF. tauto. }
  assert (Hhdcs : hd [] cs = l0) by (subst cs; cbn [app] in E; injection E; auto).
  assert (Hspec : (let top := lead_blank cs in
                   let body := skipn top cs in
                   let '(cols, placed) :=
                     if Nat.eqb top 0 then
                       (indent :: used_columns (tl body), (rep cSP indent ++ hd [] body) :: tl body)
                     else (used_columns body, body) in
                   join_lines (repeat [] (top - 1)
                     ++ clean_lines (min_list 0 cols) (Nat.eqb (List.length bl) 0) placed
                     ++ repeat [] (List.length bl - 1)))
                  = join_lines (block_of indent (Nat.eqb (List.length bl) 0) cs) ++ rep cNL (List.length bl - 1)).
  { rewrite <- join_repeat_nil_end by (now apply block_of_ne). unfold block_of. cbv zeta.
    destruct (Nat.eqb (lead_blank cs) 0); rewrite <- app_assoc; reflexivity. }
  cbv zeta in Hspec. cbv zeta. rewrite Hspec. clear Hspec.
  destruct bl as [|b0 bl].
  - (* the closing quote is on the last line *)
    rewrite app_nil_r in E. cbn [List.length Nat.eqb Nat.sub rep repeat]. rewrite app_nil_r.
    assert (Hend : fst (has_ending_nl_space s) = None).
    { rewrite Es, E. destruct (join_strip_last cs Hcs) as (w & Ew & Hw). rewrite Ew.
      rewrite has_ending_spec; [|now apply join_strip_ends|now apply blank_ws]. rewrite blank_count by auto. reflexivity. }
    rewrite Hend. cbn [app Nat.pred].
    assert (Hs : s <> []).
    { rewrite Es, E. intros H. destruct (join_ends_with cs Hcs) as [p Ep]. rewrite H in Ep. symmetry in Ep. apply app_eq_nil in Ep.
      destruct Ep as [_ Ep]. rewrite Ep in Hcore. discriminate. }
    destruct (trim_body_spec cs indent (S (List.length l0)) aft 0) as (n' & T1 & T2); auto.
    { intros _. rewrite Hhdcs. auto. }
    exists n'. rewrite <- E, <- Es in T1. unfold trim_body in T1. rewrite <- E. 
    destruct s as [|sc s']; [congruence|]. cbn [rep repeat] in T1. rewrite app_nil_r in T1. 
    rewrite E in *. split; [exact T1|lia].
  - remember (b0 :: bl) as bs eqn:Ebs. assert (Hbs : bs <> []) by (subst; discriminate).
    assert (Hbl0 : Nat.eqb (List.length bs) 0 = false) by (subst; reflexivity).
    destruct (join_strip_last cs Hcs) as (w & Ew & Hw).
    assert (Es2 : s = join_lines (strip_last cs) ++ (w ++ cNL :: join_lines bs)).
    { rewrite Es, E, join_app by auto. rewrite Ew, <- app_assoc. reflexivity. }
    assert (Hws : forallb is_xml_whitespace (w ++ cNL :: join_lines bs) = true).
    { rewrite forallb_app, blank_ws by auto. cbn. now apply join_blank_ws. }
    assert (Hcnt : count_nl (w ++ cNL :: join_lines bs) = List.length bs).
    { rewrite count_nl_app, blank_count by auto. change (cNL :: join_lines bs) with ([cNL] ++ join_lines bs).
      rewrite count_nl_app, join_blank_count by auto. subst bs. cbn. lia. }
    assert (Hen : ends_nonws (join_lines (strip_last cs))) by (now apply join_strip_ends).
    rewrite Es2. rewrite has_ending_spec by auto. rewrite Hcnt, Hbl0.
    rewrite strip_end_spec by auto. rewrite Hcnt.
    assert (Hs1 : join_lines (strip_last cs) <> []).
    { intros H. destruct (join_ends_with (strip_last cs)) as [p Ep]; [now apply strip_last_ne|].
      rewrite H in Ep. symmetry in Ep. apply app_eq_nil in Ep. destruct Ep as [_ Ep].
      rewrite strip_last_last in Ep by auto. apply rstrip_blank in Ep. congruence. }
    destruct (trim_body_spec (strip_last cs) indent (S (List.length l0)) ((w ++ cNL :: join_lines bs) ++ aft) (Nat.pred (List.length bs)))
      as (n' & T1 & T2); auto.
    { now apply strip_last_ok. }
    { now apply strip_last_ne. }
    { rewrite strip_last_last by auto. now apply blank_rstrip. }
    { intros Hb. destruct cs as [|x [|y cs]]; [congruence| |].
      - cbn [strip_last hd last] in *. rewrite blank_rstrip in Hb by auto. discriminate.
      - rewrite strip_last_cons in * by discriminate. cbn [hd] in *. subst; reflexivity. }
    rewrite block_of_strip in T1, T2 by auto.
    exists n'. replace (List.length bs - 1)%nat with (Nat.pred (List.length bs)) by lia.
    split; [|rewrite app_length, rep_len; exact T2].
    unfold trim_body in T1. destruct (join_lines (strip_last cs)) as [|sc s']; [congruence|]. exact T1.
Qed.
