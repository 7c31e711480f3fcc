(** Proofs about Quote.v that hold for all texts, with carriage returns. *)
From Coq Require Import NArith List Bool Arith Lia.
From Verif Require Import Bytes BytesFacts Outcome Quote QuoteSpec QuoteProofs QuoteProofs2.
Import ListNotations.
Local Open Scope N_scope.

Lemma fl_scan_bounds r aft : forall i lnws nl t e, (lnws <= i)%nat ->
  fl_scan r aft i lnws = Ok (nl, t, e) ->
  (t <= i + List.length r)%nat
  /\ (nl = true -> (t < i + List.length r /\ t < e /\ i < e)%nat)
  /\ (nl = false -> e = (i + List.length r)%nat).
Proof.
  induction r as [|c r IH]; intros i lnws nl t e Hi E; cbn [fl_scan] in E.
  - injection E as <- <- <-. cbn. repeat split; try discriminate; lia.
  - destruct (c =? cNL).
    { injection E as <- <- <-. cbn. repeat split; try discriminate; lia. }
    destruct (c =? cCR).
    { destruct (r ++ aft) as [|d q]; [discriminate|].
      destruct (d =? cNL); injection E as <- <- <-; cbn; repeat split; try discriminate; lia. }
    apply IH in E; [|destruct (is_sp_tab c); lia]. cbn [List.length].
    destruct E as (E1 & E2 & E3). split; [lia|]. split; intros H; [apply E2 in H|apply E3 in H]; lia.
Qed.

Lemma fl_scan_no_fuel r aft : forall i lnws, fl_scan r aft i lnws <> NoFuel /\ fl_scan r aft i lnws <> Abrt
  /\ (forall e, fl_scan r aft i lnws <> Err e).
Proof.
  induction r as [|c r IH]; intros i lnws; cbn [fl_scan]; [repeat split; discriminate|].
  destruct (c =? cNL); [repeat split; discriminate|]. destruct (c =? cCR); [|apply IH].
  destruct (r ++ aft) as [|d q]; [repeat split; discriminate|]. destruct (d =? cNL); repeat split; discriminate.
Qed.

Lemma find_line_bounds s aft f : find_line s aft = Ok f ->
  (fl_text f <= List.length s)%nat
  /\ (fl_nl f = true -> (fl_text f < List.length s /\ fl_text f < fl_eol f)%nat)
  /\ (fl_nl f = false -> fl_eol f = List.length s)
  /\ (s <> [] -> 0 < fl_eol f)%nat.
Proof.
  unfold find_line. destruct (fl_skip_spec s 0 0) as (w & r & -> & Hw & -> & Hr).
  destruct (fl_scan r aft (0 + List.length w) 0) as [[[nl t] e]| | | |] eqn:E; try discriminate. cbn [obind].
  intros H. injection H as <-. cbn [fl_text fl_nl fl_eol]. apply fl_scan_bounds in E; [|lia].
  rewrite app_length. destruct E as (E1 & E2 & E3). cbn [Nat.add] in *.
  split; [lia|]. split; [intros H; apply E2 in H; lia|]. split; [intros H; apply E3 in H; lia|].
  intros H. destruct nl; [specialize (E2 eq_refl); lia|]. specialize (E3 eq_refl).
  destruct w, r; cbn in *; try lia. congruence.
Qed.

Lemma find_line_clean s aft : find_line s aft <> NoFuel /\ find_line s aft <> Abrt /\ (forall e, find_line s aft <> Err e).
Proof.
  unfold find_line. destruct (fl_skip s 0 0) as [[i nd] r]. pose proof (fl_scan_no_fuel r aft i 0) as (H1 & H2 & H3).
  destruct (fl_scan r aft i 0) as [[[? ?] ?]| | | |]; cbn; repeat split; try discriminate; try congruence.
Qed.

Definition plain {A} (r : out A) : Prop := r <> NoFuel /\ r <> Abrt /\ (forall e, r <> Err e).

Lemma plain_ok {A} (a : A) : plain (Ok a).
Proof. repeat split; discriminate. Qed.
Lemma plain_ub {A} : plain (@UB A).
Proof. repeat split; discriminate. Qed.
Lemma plain_bind {A B} (r : out A) (f : A -> out B) : plain r -> (forall a, r = Ok a -> plain (f a)) -> plain (obind r f).
Proof.
  intros (H1 & H2 & H3) Hf. destruct r as [a|e| | |]; cbn; auto; try congruence.
  apply plain_ub.
Qed.

Lemma min_indent_plain fuel : forall s aft first ignore inc, (List.length s <= fuel)%nat ->
  plain (min_indent fuel s aft first ignore inc).
Proof.
  induction fuel as [|fuel IH]; intros s aft first ignore inc H.
  - destruct s; [apply plain_ok|cbn in H; lia].
  - destruct s as [|c s]; [apply plain_ok|]. rewrite min_indent_eq by discriminate.
    apply plain_bind; [apply find_line_clean|]. intros f Hf. apply find_line_bounds in Hf. destruct Hf as (_ & _ & _ & Hf).
    specialize (Hf ltac:(discriminate)).
    assert (Hl : (List.length (skipn (fl_eol f) (c :: s)) <= fuel)%nat) by (rewrite skipn_length; cbn [List.length] in *; lia).
    destruct (Nat.eqb (fl_text f) 0); apply IH; exact Hl.
Qed.

Lemma skip_cols_plain m : forall n, plain (skip_cols n m).
Proof.
  induction m as [|c m IH]; intros n; destruct n as [|n]; try apply plain_ok; try apply plain_ub.
  rewrite skip_cols_eq. destruct (c =? cSP); [apply plain_bind; auto; intros; apply plain_ok|].
  destruct (c =? cTAB); [destruct (Nat.leb 8 (S n)); [apply plain_bind; auto; intros|]; apply plain_ok|].
  apply plain_bind; auto; intros; apply plain_ok.
Qed.

Lemma copy_lines_plain fuel : forall s aft first ignore inc, (List.length s <= fuel)%nat ->
  plain (copy_lines fuel s aft first ignore inc).
Proof.
  induction fuel as [|fuel IH]; intros s aft first ignore inc H.
  - destruct s; [apply plain_ok|cbn in H; lia].
  - destruct s as [|c s]; [apply plain_ok|]. rewrite copy_lines_eq by discriminate.
    apply plain_bind; [apply find_line_clean|]. intros f Hf. apply find_line_bounds in Hf. destruct Hf as (_ & _ & _ & Hf).
    specialize (Hf ltac:(discriminate)).
    assert (Hl : (List.length (skipn (fl_eol f) (c :: s)) <= fuel)%nat) by (rewrite skipn_length; cbn [List.length] in *; lia).
    apply plain_bind.
    { destruct (negb first || ignore); [|apply plain_ok]. destruct inc; cbn [skip_incidental]; [apply skip_cols_plain|apply plain_ub]. }
    intros k _. apply plain_bind; [apply IH; exact Hl|]. intros. apply plain_ok.
Qed.

Lemma copy_lines_len fuel : forall s aft first ignore inc o,
  copy_lines fuel s aft first ignore inc = Ok o -> (List.length o <= List.length s)%nat.
Proof.
  induction fuel as [|fuel IH]; intros s aft first ignore inc o.
  - destruct s; [|discriminate]. intros H. injection H as <-. auto.
  - destruct s as [|c s]; [intros H; injection H as <-; auto|]. rewrite copy_lines_eq by discriminate.
    remember (c :: s) as q. assert (Hq : q <> []) by (subst; discriminate). clear Heqq c s.
    destruct (find_line q aft) as [f| | | |] eqn:Hf; try discriminate. cbn [obind].
    destruct (if negb first || ignore then _ else _) as [k| | | |]; try discriminate. cbn [obind].
    destruct (copy_lines fuel (skipn (fl_eol f) q) aft false ignore inc) as [rest| | | |] eqn:E; try discriminate.
    cbn [obind]. intros H. injection H as <-. apply IH in E. apply find_line_bounds in Hf.
    destruct Hf as (F1 & F2 & F3 & F4). specialize (F4 Hq). rewrite skipn_length in E.
    rewrite !app_length, skipn_length, firstn_length.
    destruct (fl_nl f).
    + specialize (F2 eq_refl). cbn [List.length]. lia.
    + specialize (F3 eq_refl). rewrite skipn_length. lia.
Qed.

(** Whatever the text, the output fits in the allocated buffer. *)
Lemma c_str_len s : (List.length (c_str s) <= List.length s)%nat.
Proof. induction s as [|c s IH]; cbn; auto. destruct (c =? 0); cbn; lia. Qed.

Theorem trim_quote_fits indent space s aft n v : trim_quote indent space s aft = Ok (n, v) -> (List.length v < n)%nat.
Proof.
  unfold trim_quote. destruct (second_line_indent s aft indent space) as [ind| | | |]; try discriminate. cbn [obind].
  destruct (find_line s aft) as [f| | | |]; try discriminate. cbn [obind].
  destruct (negb (fl_nl f)). { intros H. injection H as <- <-. lia. }
  destruct (match fst (has_ending_nl_space s) with Some _ => _ | None => _ end) as [[s1 cut] nls].
  destruct s1 as [|c s1]. { intros H. injection H as <- <-. rewrite rep_len. lia. }
  destruct (match fst (has_leading_space_nl (c :: s1)) with Some _ => _ | None => _ end) as [[s2 prepend] ignore].
  destruct (min_indent _ _ _ _ _ _) as [inc| | | |]; try discriminate. cbn [obind].
  destruct (copy_lines _ _ _ _ _ _) as [body| | | |] eqn:E; try discriminate. cbn [obind].
  apply copy_lines_len in E. intros H. injection H as <- <-.
  rewrite !app_length, !rep_len. destruct (space =? 0); cbn [List.length]; rewrite ?rep_len; lia.
Qed.

(** It always ends, and fails an assert only in the special case of indent 0
    and space 0. *)
Theorem trim_quote_plain indent space s aft : indent <> 0%nat \/ space <> 0 -> plain (trim_quote indent space s aft).
Proof.
  intros Hs. unfold trim_quote, second_line_indent.
  assert (Nat.eqb indent 0 && (space =? 0) = false) as ->.
  { destruct Hs as [Hs|Hs]; [apply Nat.eqb_neq in Hs; now rewrite Hs|]. apply N.eqb_neq in Hs. rewrite Hs. apply andb_false_r. }
  cbn [obind]. apply plain_bind; [apply find_line_clean|]. intros f _.
  destruct (negb (fl_nl f)); [apply plain_ok|].
  destruct (match fst (has_ending_nl_space s) with Some _ => _ | None => _ end) as [[s1 cut] nls].
  destruct s1 as [|c s1]; [apply plain_ok|].
  destruct (match fst (has_leading_space_nl (c :: s1)) with Some _ => _ | None => _ end) as [[s2 prepend] ignore].
  apply plain_bind; [apply min_indent_plain; lia|]. intros inc _.
  apply plain_bind; [apply copy_lines_plain; lia|]. intros body _. apply plain_ok.
Qed.

Lemma shift_app k a b : shift_right k (a ++ b) = shift_right k a ++ shift_right k b.
Proof. induction a as [|c a IH]; cbn; auto. rewrite IH. destruct (c =? cNL); cbn; [now rewrite <- app_assoc|reflexivity]. Qed.

Lemma shift_no_nl k l : ~ In cNL l -> shift_right k l = l.
Proof.
  induction l as [|c l IH]; cbn; auto. intros H. destruct (N.eqb_spec c cNL); [subst; tauto|]. rewrite IH; tauto.
Qed.

Lemma shift_join k l ls : Forall (fun l => ~ In cNL l) (l :: ls) ->
  shift_right k (join_lines (l :: ls)) = join_lines (l :: map (fun l => rep cSP k ++ l) ls).
Proof.
  intros HF. revert l HF. induction ls as [|m ls IH]; intros l HF; inversion HF; subst.
  - cbn. now apply shift_no_nl.
  - rewrite join_cons by discriminate. rewrite shift_app, shift_no_nl by auto.
    change (shift_right k (cNL :: join_lines (m :: ls))) with (cNL :: rep cSP k ++ shift_right k (join_lines (m :: ls))).
    rewrite IH by auto. rewrite (join_cons l) by discriminate. do 2 f_equal.
    destruct ls as [|x ls]; auto. cbn [map]. rewrite (join_cons m), (join_cons (rep cSP k ++ m)) by discriminate. now rewrite <- app_assoc.
Qed.

Lemma in_shift c k s : In c (shift_right k s) -> In c s \/ c = cSP.
Proof.
  induction s as [|x s IH]; cbn; auto. destruct (x =? cNL); cbn; rewrite ?in_app_iff; intros H.
  - destruct H as [H|[H|H]]; auto. + apply repeat_spec in H. auto. + tauto.
  - tauto.
Qed.

Lemma first_is_shift c k s : first_is c (shift_right k s) = first_is c s.
Proof. destruct s as [|x s]; auto. cbn. destruct (x =? cNL); reflexivity. Qed.

Lemma last_is_shift k s : last_is cQ (shift_right k s) = last_is cQ s.
Proof.
  destruct s as [|x s _] using rev_ind; auto. unfold last_is. rewrite shift_app, !rev_app_distr.
  cbn. destruct (N.eqb_spec x cNL) as [->|]; auto. cbn. rewrite app_nil_r.
  destruct k as [|k]; auto. assert (E : rep cSP (S k) = rep cSP k ++ [cSP]).
  { unfold rep. replace (S k) with (k + 1)%nat by lia. rewrite repeat_app. reflexivity. }
  rewrite E, rev_app_distr. reflexivity.
Qed.
