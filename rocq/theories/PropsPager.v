(** Property C68: the pager stays in the text, at starts of lines.

    [page width height s aft ks] is the position after the keys [ks] in the
    text [s], with the readable bytes [aft] behind it. *)
From Coq Require Import NArith ZArith List Bool Arith Lia String.
From Verif Require Import Bytes BytesFacts Outcome Pager.
Import ListNotations.
Local Open Scope N_scope.
Local Open Scope list_scope.

(** A line starts at k: at the start of the text or after a newline. *)
Definition line_start (s : bytes) (k : nat) : Prop := k = 0%nat \/ exists a b, s = a ++ [cNL] ++ b /\ List.length a = (k - 1)%nat /\ (0 < k)%nat.
Definition inside (s : bytes) (p : position) : Prop := (fst p <= snd p <= List.length s)%nat.

Lemma nl_at s i : nth_error s i = Some cNL -> line_start s (S i).
Proof. intros H. destruct (nth_error_split s i H) as (a & b & -> & L). right. exists a, b. split; [reflexivity|]. lia. Qed.
Lemma line_start_nl s k : line_start s (S k) -> nth_error s k = Some cNL.
Proof.
  intros [H|(a & b & -> & L & _)]; [discriminate H|]. rewrite nth_error_app2 by lia. replace (k - List.length a)%nat with 0%nat by lia. reflexivity.
Qed.

Lemma skipn_nth (s : bytes) i c r : skipn i s = c :: r -> nth_error s i = Some c /\ skipn (S i) s = r /\ (i < List.length s)%nat.
Proof.
  revert i. induction s as [|x s IH]; intros i H; [rewrite skipn_nil in H; discriminate H|]. destruct i as [|i].
  - cbn [skipn] in *. injection H as -> ->. cbn. repeat split. lia.
  - cbn [skipn] in H. destruct (IH i H) as (A & B & C). cbn [nth_error skipn List.length]. repeat split; auto. lia.
Qed.
Lemma scan_inside width aft s : aft <> [] -> forall l m i col, skipn i s = l -> (i <= List.length s)%nat ->
  exists r, next_scan width aft m l i col = Ok r /\
  match r with None => True | Some (nl, q) => (i <= q <= List.length s)%nat /\ (nl = true -> line_start s q) end.
Proof.
  intros A. induction l as [|c l IH]; intros m i col E L.
  - exists None. split; [|exact I]. destruct m, aft; cbn; congruence.
  - destruct (skipn_nth _ _ _ _ E) as (En & Er & Li).
    assert (G : forall m col, exists r, next_scan width aft m l (S i) col = Ok r /\ match r with None => True | Some (nl, q) => (i <= q <= List.length s)%nat /\ (nl = true -> line_start s q) end).
    { intros m' col'. destruct (IH m' (S i) col' Er Li) as (r & E1 & E2). exists r. split; [exact E1|]. destruct r as [(nl & q)|]; [|exact I]. destruct E2 as (E2 & E3). split; [lia|exact E3]. }
    assert (B : exists r, (if c =? cNL then Ok (Some (true, S i)) else if (width <=? S col)%nat then Ok (Some (false, i)) else next_scan width aft MLoop l (S i) (S col)) = Ok r
      /\ match r with None => True | Some (nl, q) => (i <= q <= List.length s)%nat /\ (nl = true -> line_start s q) end).
    { destruct (N.eqb_spec c cNL) as [->|_].
      - eexists. split; [reflexivity|]. split; [lia|]. intros _. now apply nl_at.
      - destruct (width <=? S col)%nat; [|apply G]. eexists. split; [reflexivity|]. split; [lia|discriminate]. }
    destruct m; cbn [next_scan]; [destruct (c =? cESC); [apply G|exact B]|apply G|exact B].
Qed.
Lemma next_inside width s aft p : aft <> [] -> inside s p ->
  exists q, next_line width s aft p = Ok q /\ inside s q /\ (line_start s (fst p) -> line_start s (fst q)).
Proof.
  intros A. destruct p as (lo & ilo). unfold inside. cbn [fst snd]. intros H. unfold next_line.
  destruct (scan_inside width aft s A (skipn ilo s) MLoop ilo 0%nat eq_refl ltac:(lia)) as (r & E & X). rewrite E. cbn [obind].
  destruct r as [([|] & q)|]; eexists; (split; [reflexivity|]); cbn [fst snd]; [split; [lia|]; intros _; now apply X|split; [lia|auto]|split; [lia|auto]].
Qed.
Lemma back_inside s : forall i, (i < List.length s)%nat \/ i = 0%nat -> exists q, search_back s i = Ok q /\ (q <= S i)%nat /\ line_start s q.
Proof.
  induction i as [|i IH]; intros L; [exists 0%nat; split; [reflexivity|]; split; [lia|now left]|]. destruct L as [L|L]; [|discriminate L]. cbn [search_back].
  destruct (nth_error s (S i)) as [c|] eqn:E; [|apply nth_error_None in E; lia]. destruct (N.eqb_spec c cNL) as [->|_].
  - eexists. split; [reflexivity|]. split; [lia|]. now apply nl_at.
  - destruct (IH ltac:(lia)) as (q & E1 & E2 & E3). exists q. split; [exact E1|]. split; [lia|exact E3].
Qed.
Lemma skip_inside s aft lo q : forall i width, (i < List.length (s ++ aft))%nat -> (q <= i)%nat ->
  (line_start s q \/ q = lo /\ (q < i)%nat) -> exists r, skip_back (s ++ aft) lo i width = Ok r /\ (q <= r <= i)%nat.
Proof.
  induction i as [|i IH]; intros width L Q H; [exists 0%nat; split; [reflexivity|lia]|]. cbn [skip_back].
  destruct (nth_error (s ++ aft) (S i)) as [x|] eqn:E1; [|apply nth_error_None in E1; lia].
  destruct (nth_error (s ++ aft) i) as [c|] eqn:E2; [|apply nth_error_None in E2; lia].
  destruct (N.eqb_spec c cNL) as [->|Hc]; [eexists; split; [reflexivity|lia]|].
  assert (Qi : (q <= i)%nat).
  { destruct (Nat.eq_dec q (S i)) as [->|]; [|lia]. exfalso. destruct H as [H|(_ & H)]; [|lia]. apply line_start_nl in H.
    rewrite nth_error_app1 in E2 by (apply nth_error_Some; congruence). congruence. }
  destruct (Nat.eqb_spec i lo) as [->|Hl]; [eexists; split; [reflexivity|lia]|].
  destruct width as [|[|w]]; [eexists; split; [reflexivity|lia]..|].
  destruct (IH (S w) ltac:(lia) Qi) as (r & E & R); [destruct H as [H|(H1 & H2)]; [now left|right; split; [exact H1|lia]]|]. exists r. split; [exact E|lia].
Qed.
Lemma prev_inside width s aft p : (0 < width)%nat -> aft <> [] -> inside s p ->
  exists q, prev_line width s aft p = Ok q /\ inside s q /\ (line_start s (fst p) -> line_start s (fst q)).
Proof.
  intros W A. destruct p as (lo & ilo). unfold inside. cbn [fst snd]. intros H. unfold prev_line, find_prev_line_start.
  assert (LA : (List.length s < List.length (s ++ aft))%nat) by (rewrite app_length; destruct aft; [congruence|cbn; lia]).
  assert (P : exists q, (if (lo <? ilo)%nat then Ok lo else search_back s (lo - 2)) = Ok q /\ (q <= ilo)%nat /\ (line_start s q \/ q = lo /\ (q < ilo)%nat) /\ (line_start s lo -> line_start s q)).
  { destruct (Nat.ltb_spec lo ilo); [exists lo; split; [reflexivity|]; split; [lia|]; split; [right; lia|auto]|].
    destruct (back_inside s (lo - 2)) as (q & E & Q & Hq); [lia|]. exists q. split; [exact E|]. split; [|split; [now left|auto]].
    destruct (Nat.le_gt_cases q ilo); [lia|]. destruct lo as [|[|lo]]; cbn in Q, E; try lia; injection E as <-; lia. }
  destruct P as (q & -> & Q & Hq & Hs). cbn [obind]. destruct (width <? _)%nat.
  - destruct width as [|w]; [lia|]. destruct (skip_inside s aft lo q ilo (S w)) as (r & E & R); [lia|exact Q|exact Hq|]. rewrite E. cbn [obind]. eexists. split; [reflexivity|]. cbn [fst snd]. split; [lia|exact Hs].
  - eexists. split; [reflexivity|]. cbn [fst snd]. split; [lia|exact Hs].
Qed.
Lemma times_inside (s : bytes) (f : position -> out position) n : forall p,
  (forall p, inside s p -> exists q, f p = Ok q /\ inside s q /\ (line_start s (fst p) -> line_start s (fst q))) ->
  inside s p -> exists q, times n f p = Ok q /\ inside s q /\ (line_start s (fst p) -> line_start s (fst q)).
Proof.
  induction n as [|n IH]; intros p F H; [exists p; split; [reflexivity|auto]|]. cbn [times]. destruct (F p H) as (q & -> & Hq & Sq). cbn [obind].
  destruct (IH q F Hq) as (r & E & Hr & Sr). exists r. split; [exact E|]. auto.
Qed.

(** C68: whatever keys are pressed, the pager stays inside of the text and
    reads nothing outside of it, if a byte behind the text is readable and the
    text has at least 100 bytes or the key for its end is not pressed. *)
Theorem C68_inside_partial : forall width height s aft ks, (0 < width)%nat -> aft <> [] -> ((100 <= List.length s)%nat \/ ~ In ToEnd ks) ->
  exists lo ilo, page width height s aft ks = Ok (lo, ilo) /\ (lo <= ilo <= List.length s)%nat.
Proof.
  intros width height s aft ks W A H. assert (G : forall ks p, (100 <= List.length s)%nat \/ ~ In ToEnd ks -> inside s p -> exists q, pressed width height s aft ks p = Ok q /\ inside s q).
  { clear ks H. induction ks as [|k ks IH]; intros p H I; [now exists p|]. cbn [pressed].
    assert (S1 : exists q, press width height s aft k p = Ok q /\ inside s q).
    { destruct k; cbn [press].
      - destruct (next_inside width s aft p A I) as (q & E & Q & _). eauto.
      - destruct (prev_inside width s aft p W A I) as (q & E & Q & _). eauto.
      - destruct (times_inside s (next_line width s aft) height p) as (q & E & Q & _); eauto. intros; now apply next_inside.
      - destruct (times_inside s (prev_line width s aft) height p) as (q & E & Q & _); eauto. intros; now apply prev_inside.
      - exists (0, 0)%nat. split; [reflexivity|]. unfold inside. cbn. lia.
      - destruct (Nat.ltb_spec (List.length s) 100) as [L|L]; [exfalso; destruct H as [H|H]; [lia|apply H; now left]|]. eexists. split; [reflexivity|]. unfold inside. cbn [fst snd]. lia. }
    destruct S1 as (q & -> & Q). cbn [obind]. apply IH; [|exact Q]. destruct H as [H|H]; [now left|right; intros X; apply H; now right]. }
  destruct (G ks (0, 0)%nat H) as ((lo & ilo) & E & I); [unfold inside; cbn; lia|]. exists lo, ilo. split; [exact E|exact I].
Qed.
Print Assumptions C68_inside_partial.
(** C68: without the key for the end, what is shown starts at the start of a
    line. *)
Theorem C68_at_line_start_partial : forall width height s aft ks, (0 < width)%nat -> aft <> [] -> ~ In ToEnd ks ->
  exists lo ilo, page width height s aft ks = Ok (lo, ilo) /\ line_start s lo.
Proof.
  intros width height s aft ks W A H. assert (G : forall ks p, ~ In ToEnd ks -> inside s p -> line_start s (fst p) -> exists q, pressed width height s aft ks p = Ok q /\ inside s q /\ line_start s (fst q)).
  { clear ks H. induction ks as [|k ks IH]; intros p H I L; [now exists p|]. cbn [pressed].
    assert (S1 : exists q, press width height s aft k p = Ok q /\ inside s q /\ line_start s (fst q)).
    { destruct k; cbn [press].
      - destruct (next_inside width s aft p A I) as (q & E & Q & X). eauto.
      - destruct (prev_inside width s aft p W A I) as (q & E & Q & X). eauto.
      - destruct (times_inside s (next_line width s aft) height p) as (q & E & Q & X); eauto. intros; now apply next_inside.
      - destruct (times_inside s (prev_line width s aft) height p) as (q & E & Q & X); eauto. intros; now apply prev_inside.
      - exists (0, 0)%nat. split; [reflexivity|]. split; [unfold inside; cbn; lia|now left].
      - exfalso. apply H. now left. }
    destruct S1 as (q & -> & Q & X). cbn [obind]. apply IH; auto. intros Y. apply H. now right. }
  destruct (G ks (0, 0)%nat H) as ((lo & ilo) & E & I & L); [unfold inside; cbn; lia|now left|]. exists lo, ilo. split; [exact E|exact L].
Qed.
Print Assumptions C68_at_line_start_partial.

(** ** Lines *)
(** The text is [pre], then a line, then [post]. *)
Definition ends_line (pre : bytes) : Prop := pre = [] \/ exists p, pre = p ++ [cNL].
Definition a_line (l : bytes) : Prop := ~ In cNL l /\ ~ In cESC l.

Lemma skipn_pre (a b : bytes) : skipn (List.length a) (a ++ b) = b.
Proof. induction a; [reflexivity|assumption]. Qed.
Lemma scan_line width aft : forall l post i col, a_line l -> (col + List.length l < width)%nat ->
  next_scan width aft MLoop (l ++ cNL :: post) i col = Ok (Some (true, (i + List.length l + 1)%nat)).
Proof.
  induction l as [|c l IH]; intros post i col (H1 & H2) W.
  - cbn [app next_scan]. change (cNL =? cESC) with false. change (cNL =? cNL) with true. cbn iota. do 3 f_equal. cbn. lia.
  - cbn [app next_scan]. destruct (N.eqb_spec c cESC) as [->|_]; [exfalso; apply H2; now left|]. destruct (N.eqb_spec c cNL) as [->|_]; [exfalso; apply H1; now left|].
    cbn [List.length] in W. destruct (Nat.leb_spec width (S col)); [lia|]. rewrite IH; [do 3 f_equal; cbn [List.length]; lia| |lia]. split; intros X; [apply H1|apply H2]; now right.
Qed.
Lemma nth_line (pre l post : bytes) i : (List.length pre <= i < List.length pre + List.length l)%nat -> exists c, nth_error (pre ++ l ++ post) i = Some c /\ In c l.
Proof.
  intros H. rewrite nth_error_app2 by lia. rewrite nth_error_app1 by lia. destruct (nth_error l (i - List.length pre)) as [c|] eqn:E; [|apply nth_error_None in E; lia]. exists c. split; [reflexivity|]. eapply nth_error_In; eauto.
Qed.
Lemma back_line pre l post : ends_line pre -> pre <> [cNL] -> ~ In cNL l -> forall k, (k <= List.length l)%nat ->
  search_back (pre ++ l ++ post) (List.length pre + k - 1) = Ok (List.length pre).
Proof.
  intros E P L. induction k as [|k IH]; intros K.
  - destruct E as [->|(p & ->)]; [reflexivity|]. rewrite app_length. cbn [List.length]. replace (List.length p + 1 + 0 - 1)%nat with (List.length p) by lia.
    destruct p as [|x p]; [exfalso; now apply P|]. cbn [search_back List.length].
    assert (N : nth_error (((x :: p) ++ [cNL]) ++ l ++ post) (S (List.length p)) = Some cNL).
    { rewrite <- app_assoc. rewrite nth_error_app2 by (cbn [List.length]; lia). cbn [List.length]. rewrite Nat.sub_diag. reflexivity. }
    rewrite N. change (cNL =? cNL) with true. cbn iota. f_equal. lia.
  - destruct (List.length pre + S k - 1)%nat as [|m] eqn:Em.
    + cbn [search_back]. f_equal. lia.
    + cbn [search_back]. destruct (nth_line pre l post (S m)) as (c & -> & I); [lia|]. destruct (N.eqb_spec c cNL) as [->|_]; [contradiction|]. replace m with (List.length pre + k - 1)%nat by lia. apply IH. lia.
Qed.
Lemma count_line l : ~ In cESC l -> count_non_ansi_chars l = List.length l.
Proof. induction l as [|c l IH]; [reflexivity|]. intros H. cbn [count_non_ansi_chars List.length]. destruct (N.eqb_spec c cESC) as [->|_]; [exfalso; apply H; now left|]. rewrite IH; [reflexivity|]. intros X. apply H. now right. Qed.
Lemma slice_line (pre l post : bytes) : slice (pre ++ l ++ cNL :: post) (List.length pre) (List.length pre + List.length l + 1) = l ++ [cNL].
Proof.
  unfold slice. rewrite skipn_pre. replace (List.length pre + List.length l + 1 - List.length pre)%nat with (List.length (l ++ [cNL])) by (rewrite app_length; cbn; lia).
  change (cNL :: post) with ([cNL] ++ post). rewrite app_assoc, firstn_app, firstn_all, Nat.sub_diag. cbn. now rewrite app_nil_r.
Qed.
(** C68: down goes to the next line, if the line is not as long as the screen is
    wide, *)
Theorem C68_down_partial : forall width height pre l post aft, ends_line pre -> a_line l -> (List.length l < width)%nat ->
  let here := List.length pre in let there := (List.length pre + List.length l + 1)%nat in
  press width height (pre ++ l ++ cNL :: post) aft Down (here, here) = Ok (there, there).
Proof.
  intros width height pre l post aft E L W here there. cbn [press]. unfold next_line. subst here. rewrite skipn_pre, scan_line by auto. reflexivity.
Qed.
Print Assumptions C68_down_partial.
(** and up goes back to where it started. *)
Theorem C68_up_partial : forall width height pre l post aft, ends_line pre -> pre <> [cNL] -> a_line l -> (List.length l < width)%nat ->
  let here := List.length pre in let there := (List.length pre + List.length l + 1)%nat in
  press width height (pre ++ l ++ cNL :: post) aft Up (there, there) = Ok (here, here).
Proof.
  intros width height pre l post aft E P L W here there. cbn [press]. unfold prev_line, find_prev_line_start. rewrite Nat.ltb_irrefl.
  replace (there - 2)%nat with (List.length pre + List.length l - 1)%nat by (subst there; lia). rewrite back_line; auto; [|apply L]. cbn [obind].
  subst there. rewrite slice_line, count_line by (intros X; apply in_app_or in X as [X|[X|[]]]; [now apply L|discriminate X]). rewrite app_length. cbn [List.length].
  destruct (Nat.ltb_spec width (List.length l + 1)); [lia|]. reflexivity.
Qed.
Print Assumptions C68_up_partial.
Example C68_ex : page 10 3 (B "one" ++ [10] ++ B "two" ++ [10] ++ B "three" ++ [10]) [0] [Down; Down; Up; PageDown; PageUp] = Ok (0, 0)%nat
  /\ ends_line (B "one" ++ [10]) /\ a_line (B "two") /\ page 10 3 (B "one" ++ [10] ++ B "two" ++ [10]) [0] [Down] = Ok (4, 4)%nat.
Proof.
  split; [vm_compute; reflexivity|]. split; [right; now exists (B "one")|]. split; [|vm_compute; reflexivity]. split; intros X; repeat (destruct X as [X|X]; [discriminate X|]); destruct X.
Qed.

(** Up is stuck behind a line that is at least as long as the screen is wide:
    the position does not change any more, however often up is pressed. *)
Theorem C68_long_line_refuted : forall width height pre l post aft n, (0 < width)%nat -> ends_line pre -> pre <> [cNL] -> a_line l -> (width <= List.length l)%nat -> post ++ aft <> [] ->
  let there := (List.length pre + List.length l + 1)%nat in
  pressed width height (pre ++ l ++ cNL :: post) aft (repeat Up (S n)) (there, there) = Ok (List.length pre, there).
Proof.
  intros width height pre l post aft n W0 E P L W Hp there. set (s := pre ++ l ++ cNL :: post).
  assert (SK : forall lo, skip_back (s ++ aft) lo there width = Ok there).
  { intros lo. unfold there. rewrite Nat.add_1_r. cbn [skip_back].
    assert (N1 : nth_error (s ++ aft) (List.length pre + List.length l) = Some cNL).
    { unfold s. rewrite <- !app_assoc. rewrite nth_error_app2 by lia. rewrite nth_error_app2 by lia. replace (_ - _ - _)%nat with 0%nat by lia. reflexivity. }
    assert (N2 : exists c, nth_error (s ++ aft) (S (List.length pre + List.length l)) = Some c).
    { unfold s. rewrite <- !app_assoc. rewrite nth_error_app2 by lia. rewrite nth_error_app2 by lia. replace (_ - _ - _)%nat with 1%nat by lia. cbn [app nth_error]. destruct (post ++ aft) as [|c q]; [congruence|]. now exists c. }
    destruct N2 as (c & N2). rewrite N1, N2. change (cNL =? cNL) with true. reflexivity. }
  assert (C : (width <? count_non_ansi_chars (slice s (List.length pre) there))%nat = true).
  { unfold s, there. rewrite slice_line, count_line by (intros X; apply in_app_or in X as [X|[X|[]]]; [now apply L|discriminate X]). rewrite app_length. cbn [List.length]. apply Nat.ltb_lt. lia. }
  assert (U : forall lo, lo = there \/ lo = List.length pre -> press width height s aft Up (lo, there) = Ok (List.length pre, there)).
  { intros lo H. cbn [press]. unfold prev_line, find_prev_line_start.
    assert (F : (if (lo <? there)%nat then Ok lo else search_back s (lo - 2)) = Ok (List.length pre)).
    { destruct H as [->| ->].
      - rewrite Nat.ltb_irrefl. replace (there - 2)%nat with (List.length pre + List.length l - 1)%nat by (subst there; lia). unfold s. rewrite back_line; auto. apply L.
      - destruct (Nat.ltb_spec (List.length pre) there); [reflexivity|]. subst there. lia. }
    rewrite F. cbn [obind]. rewrite C. destruct width as [|w]; [lia|]. now rewrite SK. }
  cbn [repeat pressed]. rewrite U by now left. cbn [obind]. induction n as [|n IH]; [reflexivity|]. cbn [repeat pressed]. rewrite U by now right. cbn [obind]. exact IH.
Qed.
Print Assumptions C68_long_line_refuted.
Example C68_long_line_ex : let s := B "start" ++ [10] ++ B "a line of some length" ++ [10] ++ B "end" in
  page 20 5 s [] [Down; Down; Down; Up; Up; Up; Up; Up; Up] = Ok (6, 28)%nat.
Proof. vm_compute. reflexivity. Qed.
(** The key for the end of a short text reads before its start; *)
Theorem C68_end_refuted : forall width height s aft, (List.length s < 100)%nat -> page width height s aft [ToEnd] = UB.
Proof. intros width height s aft H. unfold page. cbn [pressed press]. apply Nat.ltb_lt in H. now rewrite H. Qed.
(** down in the last line of a text that ends in an escape sequence, and up
    behind a long last line, read the byte behind the text; *)
Theorem C68_read_behind_refuted : page 80 24 (B "a" ++ [27] ++ B "[0m") [] [Down] = UB /\ page 4 24 (B "aaaa" ++ [10]) [] [Down; Down; Up] = UB.
Proof. split; vm_compute; reflexivity. Qed.
(** and up skips the second line, if the first one is empty. *)
Theorem C68_empty_first_line_refuted : let s := [10] ++ B "two" ++ [10] ++ B "three" in page 80 24 s [] [Down; Down; Up] = Ok (0, 0)%nat /\ page 80 24 s [] [Down] = Ok (1, 1)%nat.
Proof. split; vm_compute; reflexivity. Qed.
Print Assumptions C68_end_refuted.
