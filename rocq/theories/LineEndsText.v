(** Proofs about line ends: the value of a quote or comment does not depend on
    them. *)
From Coq Require Import NArith List Bool Arith Lia.
From Verif Require Import Bytes BytesFacts Outcome Quote QuoteSpec QuoteProofs QuoteProofs2 QuoteProofs3 Parser Dom Grammar BuildProofs RespaceDoc LineEnds.
Import ListNotations.
Local Open Scope N_scope.

Lemma le_refl s : line_ends s s.
Proof. induction s; constructor; auto. Qed.
Lemma le_app a a' b b' : line_ends a a' -> line_ends b b' -> line_ends (a ++ b) (a' ++ b').
Proof. induction 1; intros Hb; cbn [app]; [auto|constructor; auto|apply le_crlf; auto]. Qed.
Lemma le_split a : forall b z, line_ends (a ++ b) z -> exists a' b', z = a' ++ b' /\ line_ends a a' /\ line_ends b b'.
Proof.
  induction a as [|c a IH]; intros b z H; cbn [app] in H.
  - exists [], z. split; [auto|]. split; [constructor|auto].
  - inversion H as [|? ? z' H'|? z' H']; subst.
    + destruct (IH _ _ H') as (a' & b' & -> & Ha & Hb). exists (c :: a'), b'. repeat split; auto. now constructor.
    + destruct (IH _ _ H') as (a' & b' & -> & Ha & Hb). exists (cCR :: cNL :: a'), b'. repeat split; auto. now apply le_crlf.
Qed.
Lemma le_single s s' : line_ends s s' -> ~ In cNL s -> s' = s.
Proof.
  induction 1 as [|c s s' H IH|s s' H IH]; intros Hn; auto.
  - f_equal. apply IH. intros I. apply Hn. now right.
  - exfalso. apply Hn. now left.
Qed.
Lemma le_len s s' : line_ends s s' -> (List.length s <= List.length s')%nat.
Proof. induction 1; cbn; lia. Qed.
Lemma le_nil s' : line_ends [] s' -> s' = [].
Proof. inversion 1; auto. Qed.
Lemma le_nil_r s : line_ends s [] -> s = [].
Proof. inversion 1; auto. Qed.
Lemma le_rep c n z : c <> cNL -> line_ends (rep c n) z -> z = rep c n.
Proof. intros Hc H. apply le_single in H; auto. intros I. apply repeat_spec in I. auto. Qed.

(** The end of a line. *)
Definition eol (e : bytes) : Prop := e = [cNL] \/ e = [cCR; cNL].
Lemma le_line l r z : ~ In cNL l -> line_ends (l ++ cNL :: r) z ->
  exists e r', z = l ++ e ++ r' /\ eol e /\ line_ends r r'.
Proof.
  intros Hl H. apply le_split in H as (l' & b' & -> & Ha & Hb). apply le_single in Ha as ->; auto.
  inversion Hb as [|? ? r' H'|? r' H']; subst.
  - exists [cNL], r'. split; [auto|]. split; [now left|auto].
  - exists [cCR; cNL], r'. split; [auto|]. split; [now right|auto].
Qed.
Lemma first_line s : (exists l r, s = l ++ cNL :: r /\ ~ In cNL l) \/ ~ In cNL s.
Proof.
  induction s as [|c s IH]; [right; auto|]. destruct (N.eq_dec c cNL) as [->|Hc].
  - left. exists [], s. auto.
  - destruct IH as [(l & r & -> & Hl)|IH].
    + left. exists (c :: l), r. split; auto. intros [H|H]; auto.
    + right. intros [H|H]; auto.
Qed.

(* ---------- find_line ---------- *)
Lemma fl_scan_crlf l : line_ok l -> forall r aft i lnws,
  fl_scan (l ++ cCR :: cNL :: r) aft i lnws = Ok (true, last_text i lnws l, S (S (i + List.length l))).
Proof.
  induction l as [|c l IH]; intros Hl r aft i lnws; cbn.
  - unfold last_text; cbn. repeat f_equal; lia.
  - apply line_ok_cons in Hl. destruct Hl as (H1 & H2 & Hl).
    rewrite (proj2 (N.eqb_neq _ _) H1), (proj2 (N.eqb_neq _ _) H2). rewrite IH; auto.
    do 2 f_equal; [f_equal|]; [|lia]. unfold last_text. cbn.
    change (is_sp_tab c) with (is_hspace c).
    destruct (rstrip l) eqn:E; cbn [List.length]; [destruct (is_hspace c); cbn; lia|lia].
Qed.
Lemma columns_app_cr l r : columns (l ++ cCR :: r) = columns l.
Proof. induction l as [|c l IH]; cbn; auto. rewrite IH; reflexivity. Qed.
Lemma find_line_crlf l r aft : line_ok l ->
  find_line (l ++ cCR :: cNL :: r) aft
  = Ok (FL true (columns l) (List.length (rstrip l)) (S (S (List.length l)))).
Proof.
  intros Hl. unfold find_line.
  destruct (fl_skip_spec (l ++ cCR :: cNL :: r) 0 0) as (w & q & E & Hw & -> & Hq).
  rewrite columns_app_cr.
  assert (exists l', l = w ++ l' /\ q = l' ++ cCR :: cNL :: r) as (l' & -> & ->).
  { revert l Hl E Hw. clear. induction w as [|x w IH]; intros l Hl E Hw; [exists l; auto|].
    rewrite blank_cons in Hw. apply andb_true_iff in Hw. destruct Hw as [Hx Hw].
    destruct l as [|y l]; cbn in E; injection E as E1 E2.
    - subst x. discriminate.
    - subst y. apply line_ok_cons in Hl. destruct (IH l) as (l' & -> & ->); try tauto.
      exists l'. auto. }
  apply line_ok_app in Hl. destruct Hl as [_ Hl].
  rewrite fl_scan_crlf; auto. cbn. repeat f_equal; [|rewrite app_length; lia].
  unfold last_text. destruct l' as [|c l'].
  - cbn. rewrite app_nil_r. symmetry. rewrite (proj2 (rstrip_blank w)); auto.
  - cbn in Hq. assert (Hb : blank (c :: l') = false) by (rewrite blank_cons, Hq; auto).
    rewrite rstrip_skip_blank by auto.
    destruct (rstrip (c :: l')) eqn:Er; [apply rstrip_blank in Er; congruence|].
    rewrite app_length. reflexivity.
Qed.

Lemma find_line_eol l e r aft : line_ok l -> eol e ->
  find_line (l ++ e ++ r) aft = Ok (FL true (columns l) (List.length (rstrip l)) (List.length (l ++ e))).
Proof.
  intros Hl [-> | ->]; cbn [app].
  - rewrite find_line_nl by auto. rewrite app_length. cbn. do 2 f_equal. lia.
  - rewrite find_line_crlf by auto. rewrite app_length. cbn. do 2 f_equal. lia.
Qed.
Lemma skipn_eol (l e r : bytes) : skipn (List.length (l ++ e)) (l ++ e ++ r) = r.
Proof. rewrite app_assoc. apply skipn_app_exact. Qed.
Lemma firstn_text (l r : bytes) : firstn (List.length (rstrip l)) (l ++ r) = rstrip l.
Proof. apply firstn_rstrip. Qed.
Lemma ne_eol l e r : eol e -> l ++ e ++ r <> [].
Proof. intros [-> | ->]; destruct l; discriminate. Qed.
Lemma no_cr_line l r : ~ In cCR (l ++ r) -> ~ In cNL l -> line_ok l.
Proof. intros H Hl. split; auto. intros I. apply H. apply in_app_iff. auto. Qed.

(* ---------- the smallest indentation ---------- *)
Lemma min_nil f aft first ig inc : min_indent f [] aft first ig inc = Ok inc.
Proof. destruct f; reflexivity. Qed.
Lemma min_indent_le : forall k s s' f f' aft aft' first ig inc, (List.length s < k)%nat -> line_ends s s' -> ~ In cCR s ->
  (List.length s <= f)%nat -> (List.length s' <= f')%nat ->
  min_indent f' s' aft' first ig inc = min_indent f s aft first ig inc.
Proof.
  induction k as [|k IH]; intros s s' f f' aft aft' first ig inc Hk Hle Hc Hf Hf'; [lia|].
  destruct (first_line s) as [(l & r & -> & Hl)|Hn].
  - destruct (le_line _ _ _ Hl Hle) as (e & r' & -> & He & Hr). pose proof (no_cr_line _ _ Hc Hl) as Ho.
    rewrite !app_length in *. cbn [List.length] in *.
    destruct f as [|f]; [lia|]. destruct f' as [|f']; [exfalso; destruct He as [-> | ->]; cbn in *; lia|].
    rewrite !min_indent_eq by (try (apply ne_eol; auto); destruct l; discriminate).
    rewrite find_line_eol, find_line_nl by auto. cbn [obind fl_text fl_eol fl_indent]. rewrite skipn_eol, skipn_line.
    assert (~ In cCR r) by (intros I; apply Hc; apply in_app_iff; right; now right).
    assert (List.length r' <= f')%nat by (destruct He as [-> | ->]; cbn in *; lia).
    destruct (Nat.eqb _ 0); apply IH; auto; lia.
  - apply le_single in Hle as ->; auto.
    assert (Ho : line_ok s) by (split; auto).
    destruct s as [|c s]; [now rewrite !min_nil|].
    destruct f as [|f]; [cbn in *; lia|]. destruct f' as [|f']; [cbn in *; lia|].
    rewrite !min_indent_eq by discriminate. rewrite !find_line_last by auto. cbn [obind fl_text fl_eol fl_indent].
    rewrite skipn_all, !min_nil. reflexivity.
Qed.

(* ---------- copying ---------- *)
Lemma skip_over_byte n c m : is_hspace c = false -> skip_cols (S n) (c :: m) = obind (skip_cols (S n) m) (fun k => Ok (S k)).
Proof. intros H. unfold is_hspace in H. apply orb_false_iff in H as [H1 H2]. now rewrite skip_cols_eq, H1, H2. Qed.
(** Where the skipping of columns ends. *)
Lemma skip_cols_le : forall m m', line_ends m m' -> forall n k z, skip_cols n m = Ok k ->
  exists k', skip_cols n (m' ++ z) = Ok k' /\ (k <= k')%nat
    /\ forall l q, m = l ++ q -> ~ In cNL l -> (k <= List.length l)%nat -> k' = k.
Proof.
  intros m m' H. induction H as [|c s s' H IH|s s' H IH]; intros n k z E.
  - destruct n as [|n]; [|discriminate]. cbn in E. injection E as <-. exists 0%nat. rewrite skip_cols_0. auto.
  - destruct n as [|n]; [cbn in E; injection E as <-; exists 0%nat; rewrite skip_cols_0; auto|].
    cbn [app]. rewrite skip_cols_eq in *.
    assert (Q : forall j, obind (skip_cols j s) (fun k => Ok (S k)) = Ok k ->
      exists k', obind (skip_cols j (s' ++ z)) (fun k => Ok (S k)) = Ok k' /\ (k <= k')%nat
        /\ forall l q, c :: s = l ++ q -> ~ In cNL l -> (k <= List.length l)%nat -> k' = k).
    { intros j Ej. destruct (skip_cols j s) as [k0| | | |] eqn:E0; try discriminate. cbn in Ej. injection Ej as <-.
      destruct (IH _ _ z E0) as (k' & -> & L & U). exists (S k'). cbn. split; auto. split; [lia|].
      intros l q El Hl Hk. destruct l as [|x l]; [cbn in Hk; lia|]. cbn [app] in El. injection El as -> El.
      f_equal. apply (U l q); auto. intros I; apply Hl; now right. cbn in Hk. lia. }
    destruct (c =? cSP); [now apply Q|]. destruct (c =? cTAB); [|now apply Q].
    destruct (Nat.leb 8 (S n)); [now apply Q|]. injection E as <-. exists 1%nat. auto.
  - destruct n as [|n]; [cbn in E; injection E as <-; exists 0%nat; rewrite skip_cols_0; auto|].
    rewrite skip_over_byte in E by reflexivity.
    destruct (skip_cols (S n) s) as [k0| | | |] eqn:E0; try discriminate. cbn [obind] in E. injection E as <-.
    destruct (IH _ _ z E0) as (k' & E1 & L & U). exists (S (S k')).
    cbn [app]. rewrite (skip_over_byte n cCR) by reflexivity. rewrite (skip_over_byte n cNL) by reflexivity. rewrite E1. cbn [obind].
    split; auto. split; [lia|]. intros l q El Hl Hk. destruct l as [|x l]; [cbn in Hk; lia|].
    cbn [app] in El. injection El as El0 El. subst x. exfalso. apply Hl. now left.
Qed.

Lemma skipn_over {A} k (l : list A) : (List.length l <= k)%nat -> skipn k l = [].
Proof. intros H. apply skipn_all2. auto. Qed.

Lemma copy_lines_le : forall k s s' f f' aft a1 z first ig inc b, (List.length s < k)%nat -> line_ends s s' -> ~ In cCR s ->
  line_ends aft a1 -> (List.length s' <= f')%nat ->
  copy_lines f s aft first ig inc = Ok b -> copy_lines f' s' (a1 ++ z) first ig inc = Ok b.
Proof.
  induction k as [|k IH]; intros s s' f f' aft a1 z first ig inc b Hk Hle Hc Ha Hf' E; [lia|].
  assert (K : forall l q, s = l ++ q -> ~ In cNL l -> forall c0,
    (if negb first || ig then skip_incidental inc (s ++ aft) else Ok 0%nat) = Ok c0 ->
    exists c1, (if negb first || ig then skip_incidental inc (s' ++ a1 ++ z) else Ok 0%nat) = Ok c1
      /\ (c1 = c0 \/ (List.length l < c0 /\ List.length l < c1)%nat)).
  { intros l q El Hl c0 Ec. destruct (negb first || ig); [|exists 0%nat; injection Ec as <-; auto].
    destruct inc as [n|]; [|discriminate]. cbn [skip_incidental] in *. rewrite app_assoc.
    destruct (skip_cols_le (s ++ aft) (s' ++ a1)) with (n := n) (k := c0) (z := z) as (c1 & E1 & L & U); auto.
    { now apply le_app. }
    exists c1. split; auto. destruct (le_lt_dec c0 (List.length l)) as [G|G].
    - left. apply (U l (q ++ aft)); auto. rewrite El, app_assoc. auto.
    - right. lia. }
  destruct (first_line s) as [(l & r & -> & Hl)|Hn].
  - destruct (le_line _ _ _ Hl Hle) as (e & r' & -> & He & Hr). pose proof (no_cr_line _ _ Hc Hl) as Ho.
    destruct f as [|f]; [destruct l; discriminate|].
    rewrite !app_length in *. cbn [List.length] in *.
    destruct f' as [|f']; [exfalso; destruct He as [-> | ->]; cbn in *; lia|].
    rewrite copy_lines_eq in E by (destruct l; discriminate).
    rewrite copy_lines_eq by (apply ne_eol; auto).
    rewrite find_line_nl in E by auto. rewrite find_line_eol by auto. cbn [obind fl_text fl_nl fl_eol] in *.
    rewrite skipn_line, firstn_rstrip in E. rewrite skipn_eol, firstn_rstrip.
    destruct (if negb first || ig then _ else _) as [c0| | | |] eqn:E0 in E; try discriminate.
    destruct (K l (cNL :: r) eq_refl Hl c0 E0) as (c1 & -> & D). cbn [obind] in *.
    destruct (copy_lines f r aft false ig inc) as [b0| | | |] eqn:Eb; try discriminate. cbn [obind] in E.
    rewrite (IH r r' f f' aft a1 z false ig inc b0); auto; try lia.
    + cbn [obind]. rewrite <- E. do 2 f_equal. pose proof (rstrip_len l).
      destruct D as [-> |[D1 D2]]; auto. rewrite !skipn_over by lia. auto.
    + intros I; apply Hc; apply in_app_iff; right; now right.
    + destruct He as [-> | ->]; cbn in *; lia.
  - apply le_single in Hle as ->; auto. assert (Ho : line_ok s) by (split; auto).
    destruct s as [|c s]; [rewrite copy_nil in *; auto|].
    destruct f as [|f]; [discriminate|]. destruct f' as [|f']; [cbn in Hf'; lia|].
    rewrite copy_lines_eq in * by discriminate. rewrite find_line_last in * by auto. cbn [obind fl_text fl_nl fl_eol] in *.
    rewrite skipn_all, copy_nil in *.
    destruct (if negb first || ig then _ else _) as [c0| | | |] eqn:E0 in E; try discriminate.
    destruct (K (c :: s) [] ltac:(now rewrite app_nil_r) Hn c0 E0) as (c1 & -> & D). cbn [obind] in *.
    rewrite <- E. f_equal. pose proof (rstrip_len (c :: s)).
    destruct D as [-> |[D1 D2]]; auto.
    rewrite !skipn_over by (rewrite ?firstn_length; lia). auto.
Qed.

(* ---------- white space at both ends ---------- *)
Lemma nl_ws : is_xml_whitespace cNL = true. Proof. reflexivity. Qed.
Lemma cr_ws : is_xml_whitespace cCR = true. Proof. reflexivity. Qed.
Lemma le_ws w w' : line_ends w w' -> forallb is_xml_whitespace w' = forallb is_xml_whitespace w.
Proof. induction 1 as [|c s s' H IH|s s' H IH]; cbn; rewrite ?IH; auto. Qed.
Lemma le_count w w' : line_ends w w' -> count_nl w' = count_nl w.
Proof. unfold count_nl. induction 1 as [|c s s' H IH|s s' H IH]; cbn; [auto| |now rewrite IH]. destruct (c =? cNL); cbn; now rewrite IH. Qed.
Lemma le_snoc x c z : c <> cNL -> line_ends (x ++ [c]) z -> exists x', z = x' ++ [c] /\ line_ends x x'.
Proof.
  intros Hc H. apply le_split in H as (x' & b' & -> & Hx & Hb). exists x'. split; auto.
  f_equal. apply le_single in Hb; auto. intros [I|[]]. auto.
Qed.
Lemma le_ends x x' : line_ends x x' -> ends_nonws x -> ends_nonws x'.
Proof.
  intros H [-> |(y & c & -> & Hc)]; [left; now apply le_nil|].
  apply le_snoc in H as (y' & -> & _); [right; eauto|]. intros ->. discriminate.
Qed.
Lemma end_split s : exists x w, s = x ++ w /\ ends_nonws x /\ forallb is_xml_whitespace w = true.
Proof.
  induction s as [|c s IH] using rev_ind.
  - exists [], []. split; auto. split; [now left|auto].
  - destruct (is_xml_whitespace c) eqn:Hc.
    + destruct IH as (x & w & -> & Hx & Hw). exists x, (w ++ [c]). rewrite app_assoc. split; auto. split; auto.
      rewrite forallb_app, Hw. cbn. now rewrite Hc.
    + exists (s ++ [c]), []. rewrite app_nil_r. split; auto. split; [right; eauto|auto].
Qed.
Lemma front_split s : exists w r, s = w ++ r /\ forallb is_xml_whitespace w = true
  /\ (match r with c :: _ => is_xml_whitespace c = false | [] => True end).
Proof.
  induction s as [|c s IH]; [exists [], []; auto|]. destruct (is_xml_whitespace c) eqn:Hc.
  - destruct IH as (w & r & -> & Hw & Hr). exists (c :: w), r. cbn. rewrite Hc. auto.
  - exists [], (c :: s). auto.
Qed.
Lemma le_front r r' : line_ends r r' -> (match r with c :: _ => is_xml_whitespace c = false | [] => True end) ->
  (match r' with c :: _ => is_xml_whitespace c = false | [] => True end).
Proof. intros H. inversion H; subst; auto. Qed.

Lemma strip_lead_le : forall r r', line_ends r r' -> forall cur cur' n, line_ends cur cur' ->
  line_ends (fst (strip_lead r cur n)) (fst (strip_lead r' cur' n)) /\ snd (strip_lead r' cur' n) = snd (strip_lead r cur n).
Proof.
  induction 1 as [|c s s' H IH|s s' H IH]; intros cur cur' n Hc; cbn [strip_lead].
  - auto.
  - destruct (c =? cNL); [now apply IH|]. destruct (is_xml_whitespace c); [now apply IH|auto].
  - change (cNL =? cNL) with true. change (cCR =? cNL) with false. change (is_xml_whitespace cCR) with true. cbv iota. now apply IH.
Qed.
Lemma strip_lead_suffix : forall r cur n, (exists p, cur = p ++ r) -> exists p, cur = p ++ fst (strip_lead r cur n).
Proof.
  induction r as [|c r IH]; intros cur n (p & ->); cbn [strip_lead].
  - exists []. auto.
  - destruct (c =? cNL).
    + destruct (IH r (S n)) as (q & Eq); [now exists []|]. exists (p ++ c :: q). rewrite <- app_assoc. cbn [app]. now rewrite <- Eq.
    + destruct (is_xml_whitespace c); [|exists []; auto].
      apply IH. exists (p ++ [c]). now rewrite <- app_assoc.
Qed.

(* ---------- trimming ---------- *)
Lemma trim_le i s s' aft' n v : line_ends s s' -> ~ In cCR s ->
  trim_quote i cSP s [] = Ok (n, v) -> exists n', trim_quote i cSP s' aft' = Ok (n', v).
Proof.
  intros Hle Hc. unfold trim_quote, second_line_indent. change (cSP =? 0) with false. rewrite andb_false_r. cbn [obind].
  destruct (first_line s) as [(l & r & Es & Hl)|Hn].
  2:{ apply le_single in Hle as ->; auto. rewrite !find_line_last by (split; auto). cbn [obind fl_nl negb].
      intros E. injection E as _ <-. eauto. }
  pose proof (no_cr_line l (cNL :: r) ltac:(now rewrite <- Es) Hl) as Ho.
  assert (Hle2 : line_ends (l ++ cNL :: r) s') by (now rewrite <- Es).
  destruct (le_line _ _ _ Hl Hle2) as (e & r' & Es' & He & Hr).
  assert (F1 : find_line s [] = Ok (FL true (columns l) (List.length (rstrip l)) (S (List.length l)))) by (rewrite Es; now apply find_line_nl).
  assert (F2 : find_line s' aft' = Ok (FL true (columns l) (List.length (rstrip l)) (List.length (l ++ e)))) by (rewrite Es'; now apply find_line_eol).
  rewrite F1, F2. cbn [obind fl_nl negb fl_eol]. clear F1 F2.
  destruct (end_split s) as (x & w & Ew & Hx & Hw).
  assert (Hle3 : line_ends (x ++ w) s') by (now rewrite <- Ew).
  destruct (le_split _ _ _ Hle3) as (x' & w' & Ew' & Hxx & Hww).
  pose proof (le_ends _ _ Hxx Hx) as Hx'. pose proof (le_ws _ _ Hww) as Hw'. rewrite Hw in Hw'.
  (* both ends *)
  assert (S1 : match fst (has_ending_nl_space s) with Some _ => strip_end (rev s) [] 0 | None => (s, [], 0%nat) end
    = if Nat.eqb (count_nl w) 0 then (s, [], 0%nat) else (x, w, count_nl w)).
  { rewrite Ew, has_ending_spec by auto. destruct (Nat.eqb _ 0); auto. now rewrite strip_end_spec. }
  assert (S2 : match fst (has_ending_nl_space s') with Some _ => strip_end (rev s') [] 0 | None => (s', [], 0%nat) end
    = if Nat.eqb (count_nl w) 0 then (s', [], 0%nat) else (x', w', count_nl w)).
  { rewrite Ew', has_ending_spec by auto. rewrite (le_count _ _ Hww). destruct (Nat.eqb _ 0); auto.
    rewrite strip_end_spec by auto. now rewrite (le_count _ _ Hww). }
  rewrite S1, S2. clear S1 S2.
  assert (exists s1 cut nls s1' cut', (if Nat.eqb (count_nl w) 0 then (s, [], 0%nat) else (x, w, count_nl w)) = (s1, cut, nls)
    /\ (if Nat.eqb (count_nl w) 0 then (s', [], 0%nat) else (x', w', count_nl w)) = (s1', cut', nls)
    /\ line_ends s1 s1' /\ line_ends cut cut' /\ s = s1 ++ cut /\ s' = s1' ++ cut' /\ forallb is_xml_whitespace cut = true
    /\ (Nat.eqb (count_nl w) 0 = true \/ ends_nonws s1)) as (s1 & cut & nls & s1' & cut' & -> & -> & H1 & H2 & Ea & Ea' & Hcut & Hend).
  { destruct (Nat.eqb (count_nl w) 0) eqn:E0.
    - exists s, [], 0%nat, s', []. rewrite !app_nil_r. repeat split; auto. constructor.
    - exists x, w, (count_nl w), x', w'. repeat split; auto. }
  assert (Hc1 : ~ In cCR s1) by (intros I; apply Hc; rewrite Ea; apply in_app_iff; auto).
  destruct s1 as [|a0 t1].
  { apply le_nil in H1 as ->. intros E. injection E as _ <-. eauto. }
  destruct s1' as [|a0' t1']; [apply le_nil_r in H1; discriminate|].
  remember (a0 :: t1) as s1 eqn:E1. remember (a0' :: t1') as s1' eqn:E1'.
  destruct (front_split s1) as (fw & fr & Ef & Hfw & Hfr).
  assert (Hle4 : line_ends (fw ++ fr) s1') by (now rewrite <- Ef).
  destruct (le_split _ _ _ Hle4) as (fw' & fr' & Ef' & Hff & Hrr).
  pose proof (le_front _ _ Hrr Hfr) as Hfr'. pose proof (le_ws _ _ Hff) as Hfw'. rewrite Hfw in Hfw'.
  assert (S1 : fst (has_leading_space_nl s1) = if Nat.eqb (count_nl fw) 0 then None else Some (List.length fw)).
  { rewrite Ef. now apply has_leading_spec. }
  assert (S2 : fst (has_leading_space_nl s1') = if Nat.eqb (count_nl fw) 0 then None else Some (List.length fw')).
  { rewrite Ef', <- (le_count _ _ Hff). now apply has_leading_spec. }
  rewrite S1, S2. clear S1 S2.
  assert (exists s2 p ig s2',
    (match (if Nat.eqb (count_nl fw) 0 then None else Some (List.length fw)) with
     | Some _ => let '(s2, p) := strip_lead (skipn (S (List.length l)) s1) (skipn (S (List.length l)) s1) 0 in (s2, p, true)
     | None => (s1, 0%nat, false) end) = (s2, p, ig)
    /\ (match (if Nat.eqb (count_nl fw) 0 then None else Some (List.length fw')) with
     | Some _ => let '(s2, p) := strip_lead (skipn (List.length (l ++ e)) s1') (skipn (List.length (l ++ e)) s1') 0 in (s2, p, true)
     | None => (s1', 0%nat, false) end) = (s2', p, ig)
    /\ line_ends s2 s2' /\ ~ In cCR s2) as (s2 & p & ig & s2' & -> & -> & H3 & Hc2).
  { destruct (Nat.eqb (count_nl fw) 0) eqn:E0.
    - exists s1, 0%nat, false, s1'. auto.
    - (* the first line is blank and ends inside of s1 *)
      assert (exists r1, s1 = l ++ cNL :: r1) as (r1 & El).
      { assert (In cNL fw) as I.
        { apply Nat.eqb_neq in E0. destruct (in_dec N.eq_dec cNL fw) as [|G]; auto. exfalso. apply E0.
          unfold count_nl. clear -G. induction fw as [|y fw IH]; auto. cbn.
          destruct (N.eqb_spec y cNL) as [->|]; [exfalso; apply G; now left|]. apply IH. intros I; apply G; now right. }
        destruct (first_line s1) as [(l1 & r1 & El & Hl1)|G]; [|exfalso; apply G; rewrite Ef; apply in_app_iff; auto].
        exists r1. rewrite El. f_equal.
        assert (Q : l ++ cNL :: r = l1 ++ cNL :: (r1 ++ cut)) by (rewrite <- Es, Ea, El, <- app_assoc; reflexivity).
        clear -Hl1 Q Hl. revert l1 Hl1 Q Hl. induction l as [|y l IH]; intros l1 Hl1 Q Hl; destruct l1 as [|y1 l1]; auto; cbn [app] in Q.
        - injection Q as Q1 _. exfalso. apply Hl1. now left.
        - injection Q as Q1 _. exfalso. apply Hl. now left.
        - injection Q as -> Q. f_equal. apply IH; auto; intros I; [apply Hl1|apply Hl]; now right. }
      assert (H1b : line_ends (l ++ cNL :: r1) s1') by (now rewrite <- El).
      destruct (le_line _ _ _ Hl H1b) as (e1 & r1' & El' & He1 & Hr1).
      assert (e1 = e).
      { assert (Q : l ++ e ++ r' = l ++ e1 ++ (r1' ++ cut')) by (rewrite <- Es', Ea', El', <- !app_assoc; reflexivity).
        apply app_inv_head in Q. destruct He as [-> | ->], He1 as [-> | ->]; cbn in Q; try discriminate; auto. }
      subst e1. rewrite El, skipn_line. rewrite El', skipn_eol.
      pose proof (strip_lead_le r1 r1' Hr1 r1 r1' 0 Hr1) as [Q1 Q2].
      destruct (strip_lead_suffix r1 r1 0 ltac:(now exists [])) as (pp & Ep).
      destruct (strip_lead r1 r1 0) as [s2 p], (strip_lead r1' r1' 0) as [s2' p']. cbn [fst snd] in *. subst p'.
      exists s2, p, true, s2'. repeat split; auto.
      intros I. apply Hc1. rewrite El, Ep. apply in_app_iff. right. right. apply in_app_iff. auto. }
  rewrite app_nil_r.
  rewrite (min_indent_le (S (List.length s2)) s2 s2' (List.length s2) (List.length s2') cut (cut' ++ aft')) by auto.
  destruct (min_indent _ s2 cut true ig _) as [inc| | | |]; try discriminate. cbn [obind].
  destruct (copy_lines (List.length s2) s2 cut true ig inc) as [b| | | |] eqn:Eb; try discriminate.
  rewrite (copy_lines_le (S (List.length s2)) s2 s2' (List.length s2) (List.length s2') cut cut' aft' true ig inc b) by auto.
  cbn [obind]. intros E. injection E as _ <-. eauto.
Qed.

Theorem trim_text_block_le i s s' aft' : line_ends s s' -> ~ In cCR s -> ~ In 0 s ->
  exists n, trim_quote i cSP s' aft' = Ok (n, text_block i s).
Proof.
  intros H Hc H0. destruct (trim_quote_text_block i s [] Hc H0) as (n & E & _). eapply trim_le; eauto.
Qed.

(* ---------- quotes ---------- *)
Lemma trim_vsame i s s' aft aft' : plain s -> line_ends s s' -> vsame (trim_quote i cSP s aft) (trim_quote i cSP s' aft').
Proof.
  intros [H0 Hc] H f. destruct (trim_quote_text_block i s aft Hc H0) as (n & -> & _).
  destruct (trim_text_block_le i s s' aft' H Hc H0) as (n' & ->). reflexivity.
Qed.

Lemma lead_split q t : exists a r, t = rep q a ++ r /\ first_is q r = false.
Proof.
  induction t as [|c t IH]; [exists 0%nat, []; auto|]. destruct (N.eqb_spec c q) as [->|Hc].
  - destruct IH as (a & r & -> & Hr). exists (S a), r. auto.
  - exists 0%nat, (c :: t). cbn. split; auto. now apply N.eqb_neq.
Qed.
Lemma tail_split q t : exists b r, t = r ++ rep q b /\ last_is q r = false.
Proof.
  destruct (lead_split q (rev t)) as (a & r & E & Hr). exists a, (rev r). split.
  - rewrite <- (rev_involutive t), E, rev_app_distr. now rewrite rev_rep.
  - unfold last_is. now rewrite rev_involutive.
Qed.
Lemma in_rep c q n : In c (rep q n) -> c = q.
Proof. apply repeat_spec. Qed.
(** A text with a newline between leading and trailing q. *)
Lemma nl_split q t : q <> cNL -> In cNL t -> exists a m b, t = rep q a ++ m ++ rep q b /\ first_is q m = false /\ last_is q m = false /\ In cNL m.
Proof.
  intros Hq I. destruct (lead_split q t) as (a & r & -> & Hr). destruct (tail_split q r) as (b & m & -> & Hm).
  exists a, m, b. repeat split; auto.
  - destruct m as [|x m]; auto.
  - apply in_app_iff in I as [I|I]; [apply in_rep in I; congruence|].
    apply in_app_iff in I as [I|I]; auto. apply in_rep in I; congruence.
Qed.
Lemma le_first q m m' : q <> cNL -> q <> cCR -> line_ends m m' -> first_is q m' = first_is q m.
Proof.
  intros H1 H2 H. inversion H; subst; auto. unfold first_is.
  rewrite (proj2 (N.eqb_neq cCR q)), (proj2 (N.eqb_neq cNL q)); auto.
Qed.
Lemma le_last q m m' : q <> cNL -> line_ends m m' -> last_is q m' = last_is q m.
Proof.
  intros Hq. induction 1 as [|c s s' H IH|s s' H IH]; auto.
  - unfold last_is in *. cbn [rev]. destruct (rev s) as [|x y] eqn:E.
    + apply (f_equal (@rev N)) in E. rewrite rev_involutive in E. cbn in E. subst s. apply le_nil in H as ->. reflexivity.
    + destruct (rev s') as [|x' y'] eqn:E'; [|exact IH].
      apply (f_equal (@rev N)) in E'. rewrite rev_involutive in E'. cbn in E'. subst s'. apply le_nil_r in H as ->. discriminate.
  - unfold last_is in *. cbn [rev]. destruct (rev s) as [|x y] eqn:E.
    + apply (f_equal (@rev N)) in E. rewrite rev_involutive in E. cbn in E. subst s. apply le_nil in H as ->. reflexivity.
    + destruct (rev s') as [|x' y'] eqn:E'; [|exact IH].
      apply (f_equal (@rev N)) in E'. rewrite rev_involutive in E'. cbn in E'. subst s'. apply le_nil_r in H as ->. discriminate.
Qed.
Lemma le_middle q a m b z : q <> cNL -> line_ends (rep q a ++ m ++ rep q b) z -> exists m', z = rep q a ++ m' ++ rep q b /\ line_ends m m'.
Proof.
  intros Hq H. apply le_split in H as (x & y & -> & Ha & H). apply le_split in H as (m' & w & -> & Hm & Hb).
  apply le_rep in Ha as ->; auto. apply le_rep in Hb as ->; auto. eauto.
Qed.

(** What is between equally many q on both sides. *)
Lemma even_split q a m b : first_is q m = false -> last_is q m = false -> m <> [] ->
  let d := Nat.min a b in let s := rep q (a - d) ++ m ++ rep q (b - d) in
  rep q a ++ m ++ rep q b = rep q d ++ s ++ rep q d /\ first_is q s && last_is q s = false /\ s <> [].
Proof.
  intros H1 H2 Hm d s.
  assert (Ea : rep q a = rep q d ++ rep q (a - d)) by (unfold rep; rewrite <- repeat_app; f_equal; lia).
  assert (Eb : rep q b = rep q (b - d) ++ rep q d) by (unfold rep; rewrite <- repeat_app; f_equal; lia).
  split; [rewrite Ea, Eb; unfold s; now rewrite <- !app_assoc|]. split.
  - unfold s. destruct (Nat.le_ge_cases a b).
    + replace (a - d)%nat with 0%nat by lia. cbn [rep repeat app]. destruct m as [|x m]; [congruence|]. cbn [app first_is] in *. now rewrite H1.
    + replace (b - d)%nat with 0%nat by lia. cbn [rep repeat]. rewrite app_nil_r. apply andb_false_iff. right.
      unfold last_is in *. rewrite rev_app_distr. destruct (rev m) as [|x y] eqn:E; [|exact H2].
      apply (f_equal (@rev N)) in E. rewrite rev_involutive in E. cbn in E. congruence.
  - unfold s. destruct (rep q (a - d)); [|discriminate]. destruct m; [congruence|discriminate].
Qed.

Lemma un_quote_even i d s aft : first_is cQ s && last_is cQ s = false -> s <> [] ->
  un_quote i cSP (rep cQ d ++ s ++ rep cQ d) aft true = trim_quote (i + d) cSP s (rep cQ d ++ aft).
Proof.
  intros H Hs. destruct d as [|d]; [|apply un_quote_trim; auto; lia].
  cbn [rep repeat app]. rewrite app_nil_r. unfold un_quote. rewrite peel_none by auto. cbn [obind].
  rewrite Nat.sub_0_r. cbn [Nat.ltb Nat.leb]. unfold slice. rewrite Nat.sub_0_r. cbn [skipn]. rewrite firstn_all, skipn_all. reflexivity.
Qed.

Lemma un_quote_le i t t' aft aft' : plain t -> line_ends t t' -> vsame (un_quote i cSP t aft true) (un_quote i cSP t' aft' true).
Proof.
  intros Hp H. destruct (in_dec N.eq_dec cNL t) as [I|I].
  2:{ apply le_single in H as ->; auto. apply un_quote_same; auto. }
  destruct (nl_split cQ t ltac:(discriminate) I) as (a & m & b & -> & H1 & H2 & Im).
  destruct (le_middle cQ a m b _ ltac:(discriminate) H) as (m' & -> & Hm).
  assert (Hne : m <> []) by (intros ->; destruct Im).
  assert (Hne' : m' <> []) by (intros ->; apply le_nil_r in Hm; auto).
  pose proof (le_first cQ _ _ ltac:(discriminate) ltac:(discriminate) Hm) as F. rewrite H1 in F.
  pose proof (le_last cQ _ _ ltac:(discriminate) Hm) as L. rewrite H2 in L.
  destruct (even_split cQ a m b H1 H2 Hne) as (E1 & E2 & E3).
  destruct (even_split cQ a m' b F L Hne') as (E1' & E2' & E3').
  assert (Hp2 : plain (rep cQ (a - Nat.min a b) ++ m ++ rep cQ (b - Nat.min a b))).
  { rewrite E1 in Hp. rewrite !plain_app in *. tauto. }
  rewrite E1, E1', !un_quote_even by auto. apply trim_vsame; auto.
  apply le_app; [apply le_refl|]. apply le_app; [auto|apply le_refl].
Qed.

(* ---------- comments ---------- *)
Lemma drop_sp_spec A x e : last_is cSP x = false -> x <> [] ->
  drop_sp (List.length A) (List.length (A ++ x ++ rep cSP e)) (A ++ x ++ rep cSP e) = List.length (A ++ x).
Proof.
  intros Hx Hne. rewrite app_assoc. set (y := A ++ x).
  assert (forall k b, (b <= e)%nat -> k = (List.length y + b)%nat -> drop_sp (List.length A) k (y ++ rep cSP e) = List.length y) as D.
  { assert (Hy : (List.length A < List.length y)%nat) by (unfold y; rewrite app_length; destruct x; [congruence|cbn; lia]).
    intros k b. revert k. induction b as [|b IH]; intros k Hb ->.
    - rewrite Nat.add_0_r. destruct (@exists_last _ x Hne) as (x0 & c & Ex).
      destruct (List.length y) as [|k] eqn:Ek; [lia|]. cbn [drop_sp]. destruct (Nat.ltb_spec (List.length A) (S k)); [|lia].
      assert (nth_error (y ++ rep cSP e) k = Some c) as ->.
      { rewrite nth_error_app1 by lia. unfold y. rewrite Ex, app_assoc. rewrite nth_error_app2.
        - unfold y in Ek. rewrite Ex, app_assoc, app_length in Ek. cbn in Ek. replace (k - _)%nat with 0%nat by lia. reflexivity.
        - unfold y in Ek. rewrite Ex, app_assoc, app_length in Ek. cbn in Ek. lia. }
      unfold last_is in Hx. rewrite Ex, rev_app_distr in Hx. cbn in Hx. now rewrite Hx.
    - rewrite Nat.add_succ_r. cbn [drop_sp]. destruct (Nat.ltb_spec (List.length A) (S (List.length y + b))); [|lia].
      assert (nth_error (y ++ rep cSP e) (List.length y + b) = Some cSP) as ->.
      { rewrite nth_error_app2 by lia. replace (_ - _)%nat with b by lia. unfold rep. apply nth_error_repeat. lia. }
      rewrite N.eqb_refl. apply IH; auto. lia. }
  rewrite app_length, rep_len. apply (D _ e); auto.
Qed.

(** A comment to the end of the line. *)
Lemma un_comment_eol i a c u x e aft : c <> cSLASH -> c <> cSTAR -> (c :: u) = (if c =? cSP then [cSP] else []) ++ x ++ rep cSP e ->
  last_is cSP x = false -> x <> [] ->
  exists aft', un_comment i cSP (rep cSLASH a ++ c :: u) aft = trim_quote i cSP x aft'.
Proof.
  intros H1 H2 E Hx Hne. set (t := rep cSLASH a ++ c :: u). unfold un_comment.
  destruct (Nat.eqb_spec (List.length t) 0) as [L|L]; [unfold t in L; rewrite app_length in L; cbn in L; lia|].
  assert (C : count_lead cSLASH t = a) by (unfold t; apply count_lead_rep; cbn; now apply N.eqb_neq).
  rewrite C. assert (nth_error t a = Some c) as ->.
  { unfold t. rewrite nth_error_app2 by (rewrite rep_len; lia). now rewrite rep_len, Nat.sub_diag. }
  rewrite (proj2 (N.eqb_neq _ _) H2). cbn [negb].
  set (A := rep cSLASH a ++ (if c =? cSP then [cSP] else [])).
  assert (Et : t = A ++ x ++ rep cSP e) by (unfold t, A; rewrite E, <- app_assoc; reflexivity).
  assert (LA : (if c =? cSP then S a else a) = List.length A).
  { unfold A. rewrite app_length, rep_len. destruct (c =? cSP); cbn; lia. }
  assert (D : drop_sp (List.length A) (List.length t) t = List.length (A ++ x)) by (rewrite Et; now apply drop_sp_spec).
  rewrite LA, D.
  destruct (Nat.ltb_spec (List.length (A ++ x)) (List.length A)) as [G|G]; [rewrite app_length in G; lia|].
  assert (Sl : slice (List.length A) (List.length (A ++ x)) t = x) by (rewrite Et; apply slice_eq; rewrite ?app_length; auto).
  rewrite Sl. eauto.
Qed.

Lemma un_comment_eol_le i a c u z aft aft' : c <> cSLASH -> c <> cSTAR -> In cNL (c :: u) -> plain (c :: u) -> line_ends (c :: u) z ->
  vsame (un_comment i cSP (rep cSLASH a ++ c :: u) aft) (un_comment i cSP (rep cSLASH a ++ z) aft').
Proof.
  intros H1 H2 I Hp H.
  assert (exists c' u' x x' e, z = c' :: u' /\ c' <> cSLASH /\ c' <> cSTAR
    /\ c :: u = (if c =? cSP then [cSP] else []) ++ x ++ rep cSP e /\ c' :: u' = (if c' =? cSP then [cSP] else []) ++ x' ++ rep cSP e
    /\ line_ends x x' /\ last_is cSP x = false /\ x <> []) as (c' & u' & x & x' & e & -> & H1' & H2' & E & E' & Hx & Lx & Nx).
  { assert (T : forall y y', In cNL y -> line_ends y y' -> exists x x' e, y = x ++ rep cSP e /\ y' = x' ++ rep cSP e
      /\ line_ends x x' /\ last_is cSP x = false /\ x <> []).
    { intros y y' Iy Hy. destruct (tail_split cSP y) as (e & x & -> & Lx). apply le_split in Hy as (x' & w & -> & Hx & Hw).
      apply le_rep in Hw as ->; [|discriminate]. exists x, x', e. repeat split; auto. intros ->. cbn in Iy. apply in_rep in Iy. discriminate. }
    inversion H as [|? ? u' H'|? u' H']; subst.
    - destruct (N.eqb_spec c cSP) as [->|Hc].
      + destruct (T u u') as (x & x' & e & E1 & E2 & E3 & E4 & E5); [destruct I as [I|I]; [discriminate|auto]|auto|].
        exists cSP, u', x, x', e. rewrite E1, E2. repeat split; auto.
      + destruct (T (c :: u) (c :: u')) as (x & x' & e & E1 & E2 & E3 & E4 & E5); auto.
        exists c, u', x, x', e. rewrite (proj2 (N.eqb_neq _ _) Hc). repeat split; auto.
    - destruct (T (cNL :: u) (cCR :: cNL :: u')) as (x & x' & e & E1 & E2 & E3 & E4 & E5); auto.
      exists cCR, (cNL :: u'), x, x', e. repeat split; auto; discriminate. }
  assert (Px : plain x) by (rewrite E, !plain_app in Hp; tauto).
  destruct (un_comment_eol i a c u x e aft H1 H2 E Lx Nx) as (af & ->).
  assert (Lx' : last_is cSP x' = false) by (rewrite <- Lx; apply le_last; [discriminate|auto]).
  assert (Nx' : x' <> []) by (intros ->; apply le_nil_r in Hx; auto).
  destruct (un_comment_eol i a c' u' x' e aft' H1' H2' E' Lx' Nx') as (af' & ->).
  now apply trim_vsame.
Qed.

(** A comment that is not closed properly. *)
Lemma un_comment_abort i d s aft : let t := rep cSLASH d ++ s ++ rep cSLASH d in
  first_is cSLASH s && last_is cSLASH s = false -> s <> [] -> nth_error t (count_lead cSLASH t) = Some cSTAR ->
  first_is cSTAR s && last_is cSTAR s = false -> un_comment i cSP t aft = Abrt.
Proof.
  intros t H1 Hs H2 H3. unfold un_comment.
  assert (L : List.length t = (d + List.length s + d)%nat) by (unfold t; rewrite !app_length, !rep_len; lia).
  assert (Ls : (0 < List.length s)%nat) by (destruct s; [congruence|cbn; lia]).
  destruct (Nat.eqb_spec (List.length t) 0); [lia|]. rewrite H2. change (cSTAR =? cSTAR) with true. cbn [negb].
  assert (P : peel (S (S (List.length t))) cSLASH t 0 = Ok d) by (unfold t at 2; apply peel_all; auto; lia).
  rewrite P. cbn [obind].
  destruct (@exists_last _ s Hs) as (s0 & y & Ey). destruct s as [|x s1]; [congruence|].
  assert (nth_error t d = Some x) as ->.
  { unfold t. rewrite nth_error_app2 by (rewrite rep_len; lia). rewrite rep_len, Nat.sub_diag. reflexivity. }
  replace (List.length t - d)%nat with (S (d + List.length s0)) by (rewrite L, Ey, app_length; cbn; lia).
  assert (nth_error t (d + List.length s0) = Some y) as ->.
  { unfold t. rewrite nth_error_app2 by (rewrite rep_len; lia). rewrite rep_len. replace (d + List.length s0 - d)%nat with (List.length s0) by lia.
    rewrite Ey, <- app_assoc. rewrite nth_error_app2 by lia. now rewrite Nat.sub_diag. }
  cbn [first_is] in H3. unfold last_is in H3. rewrite Ey, rev_app_distr in H3. cbn [rev app first_is] in H3. rewrite H3. reflexivity.
Qed.

Lemma strip_front_le b b' : line_ends b b' -> fst (strip_front b') = fst (strip_front b) /\ line_ends (snd (strip_front b)) (snd (strip_front b')).
Proof.
  intros H. inversion H as [|c s s' H'|s s' H']; subst; cbn [strip_front]; auto.
  destruct (c =? cSP); cbn [fst snd]; auto.
Qed.
Lemma strip_back_snoc y c : strip_back (y ++ [c]) = if c =? cSP then y else y ++ [c].
Proof. unfold strip_back. rewrite rev_app_distr. cbn [rev app]. now rewrite rev_involutive. Qed.
Lemma strip_back_le b b' : line_ends b b' -> line_ends (strip_back b) (strip_back b').
Proof.
  intros H. destruct (list_eq_dec N.eq_dec b []) as [->|Hb]; [apply le_nil in H as ->; constructor|].
  assert (Hb' : b' <> []) by (intros ->; apply le_nil_r in H; auto).
  destruct (@exists_last _ b Hb) as (y & c & ->). destruct (@exists_last _ b' Hb') as (y' & c' & ->).
  rewrite !strip_back_snoc.
  pose proof (le_last cSP _ _ ltac:(discriminate) H) as L. unfold last_is in L. rewrite !rev_app_distr in L. cbn [rev app first_is] in L.
  rewrite L. destruct (N.eqb_spec c cSP) as [->|]; auto.
  apply le_snoc in H as (z & E & Hz); [|discriminate]. apply app_inj_tail in E as [-> _]. auto.
Qed.
Lemma last_app_ne c x y : y <> [] -> last_is c (x ++ y) = last_is c y.
Proof.
  intros H. unfold last_is. rewrite rev_app_distr. destruct (rev y) as [|a r] eqn:E; auto.
  apply (f_equal (@rev N)) in E. rewrite rev_involutive in E. cbn in E. congruence.
Qed.

Lemma un_comment_le i t t' aft aft' : plain t -> line_ends t t' -> vsame (un_comment i cSP t aft) (un_comment i cSP t' aft').
Proof.
  intros Hp H. destruct (in_dec N.eq_dec cNL t) as [I|I].
  2:{ apply le_single in H as ->; auto. apply un_comment_same; auto. }
  destruct (nl_split cSLASH t ltac:(discriminate) I) as (a & m & b & -> & H1 & H2 & Im).
  destruct (le_middle cSLASH a m b _ ltac:(discriminate) H) as (m' & -> & Hm).
  assert (Hne : m <> []) by (intros ->; destruct Im).
  assert (Hne' : m' <> []) by (intros ->; apply le_nil_r in Hm; auto).
  pose proof (le_first cSLASH _ _ ltac:(discriminate) ltac:(discriminate) Hm) as F. rewrite H1 in F.
  pose proof (le_last cSLASH _ _ ltac:(discriminate) Hm) as L. rewrite H2 in L.
  pose proof (le_first cSTAR _ _ ltac:(discriminate) ltac:(discriminate) Hm) as F2.
  pose proof (le_last cSTAR _ _ ltac:(discriminate) Hm) as L2.
  assert (Pm : plain m) by (rewrite !plain_app in Hp; tauto).
  destruct (first_is cSTAR m) eqn:Fs.
  2:{ destruct m as [|c m0]; [congruence|]. cbn [first_is] in H1, Fs. apply N.eqb_neq in H1, Fs.
      cbn [app]. apply un_comment_eol_le; auto.
      - destruct Im as [Im|Im]; [now left|]. right. apply in_app_iff. auto.
      - change (c :: m0 ++ rep cSLASH b) with ((c :: m0) ++ rep cSLASH b). rewrite !plain_app in *. tauto.
      - change (c :: m0 ++ rep cSLASH b) with ((c :: m0) ++ rep cSLASH b). apply le_app; [auto|apply le_refl]. }
  assert (Nth : forall m, first_is cSTAR m = true -> let t := rep cSLASH a ++ m ++ rep cSLASH b in nth_error t (count_lead cSLASH t) = Some cSTAR).
  { intros m1 F1 t. destruct m1 as [|c m1]; [discriminate|]. cbn [first_is] in F1. apply N.eqb_eq in F1. subst c.
    unfold t. rewrite count_lead_rep by reflexivity. rewrite nth_error_app2 by (rewrite rep_len; lia). now rewrite rep_len, Nat.sub_diag. }
  destruct (Nat.eqb a b && last_is cSTAR m) eqn:Cl.
  - (* closed *)
    apply andb_true_iff in Cl as [Eab Lm]. apply Nat.eqb_eq in Eab. subst b.
    assert (W : forall m, first_is cSTAR m = true -> last_is cSTAR m = true -> (2 <= List.length m)%nat -> exists w, m = [cSTAR] ++ w ++ [cSTAR]).
    { intros m1 G1 G2 G3. destruct m1 as [|c m1]; [discriminate|]. cbn [first_is] in G1. apply N.eqb_eq in G1. subst c.
      destruct m1 as [|c1 m1]; [cbn in G3; lia|]. destruct (@exists_last _ (c1 :: m1) ltac:(discriminate)) as (w & y & Ew).
      rewrite Ew in *. exists w. unfold last_is in G2. cbn [rev] in G2. rewrite rev_app_distr in G2. cbn in G2. apply N.eqb_eq in G2. subst y. reflexivity. }
    assert (Lm2 : (2 <= List.length m)%nat).
    { destruct m as [|c [|c1 m]]; cbn; try lia; [congruence|]. cbn [first_is] in Fs. apply N.eqb_eq in Fs. subst c. destruct Im as [Im|[]]. discriminate. }
    destruct (W m Fs Lm Lm2) as (w & Ew). subst m.
    apply le_split in Hm as (s1 & r1 & -> & Hs & Hm). apply le_single in Hs as ->; [|intros [Q|[]]; discriminate].
    apply le_snoc in Hm as (w' & -> & Hw); [|discriminate].
    destruct (un_comment_trim i a w aft) as (af & E). unfold segment in E.
    destruct (un_comment_trim i a w' aft') as (af' & E'). unfold segment in E'.
    rewrite <- !app_assoc. rewrite E, E'. clear E E'.
    destruct (strip_front_le _ _ Hw) as [-> Q]. apply trim_vsame; [|now apply strip_back_le].
    assert (Pw : plain w) by (rewrite !plain_app in Pm; tauto).
    destruct (strip_front_app w) as (x & Ex & _). destruct (strip_back_app (snd (strip_front w))) as (y & Ey & _).
    rewrite Ex, Ey in Pw. rewrite !plain_app in Pw. tauto.
  - (* not closed *)
    destruct (even_split cSLASH a m b H1 H2 Hne) as (E1 & E2 & E3).
    destruct (even_split cSLASH a m' b F L Hne') as (E1' & E2' & E3').
    assert (X : forall m, m <> [] -> Nat.eqb a b && last_is cSTAR m = false ->
      let d := Nat.min a b in let s := rep cSLASH (a - d) ++ m ++ rep cSLASH (b - d) in first_is cSTAR s && last_is cSTAR s = false).
    { intros m1 N1 C1 d s. destruct (lt_eq_lt_dec a b) as [[G|G]|G].
      - apply andb_false_iff. right. unfold s. rewrite app_assoc. replace (b - d)%nat with (S (b - a - 1)) by lia.
        rewrite last_app_ne by discriminate. unfold last_is. rewrite rev_rep. reflexivity.
      - subst b. rewrite Nat.eqb_refl in C1. cbn [andb] in C1. unfold s, d. rewrite Nat.min_id, Nat.sub_diag. cbn [rep repeat app]. rewrite app_nil_r, C1. apply andb_false_r.
      - unfold s. replace (a - d)%nat with (S (a - b - 1)) by lia. reflexivity. }
    pose proof (Nth m Fs) as N1. pose proof (Nth m' F2) as N2. cbv zeta in N1, N2.
    rewrite E1 in N1. rewrite E1' in N2. rewrite E1, E1'.
    rewrite (un_comment_abort i _ _ aft E2 E3 N1) by (apply X; auto).
    rewrite (un_comment_abort i _ _ aft' E2' E3' N2) by (apply X; auto; now rewrite L2).
    intros f. reflexivity.
Qed.
