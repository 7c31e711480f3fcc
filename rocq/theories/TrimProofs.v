(** Proofs about Trim.v. *)
From Coq Require Import NArith List Bool Arith Lia.
From Verif Require Import Bytes BytesFacts Outcome Quote QuoteSpec QuoteProofs Trim TrimSpec.
Import ListNotations.
Local Open Scope N_scope.

(** The lines of the trimmed text, before the newlines at the bottom. *)
Definition block0 (indent : nat) (keep : bool) (core : list bytes) : list bytes :=
  let top := lead_blank core in
  repeat [] (top - 1) ++
  if Nat.eqb top 0 then
    match core with
    | [l] => [if keep then l else rstrip l]
    | l :: r => rstrip l :: clean_lines (min_list 0 (indent :: used_columns r)) keep r
    | [] => []
    end
  else clean_lines (min_list 0 (used_columns (skipn top core))) keep (skipn top core).

Lemma trim_body0_spec core indent eol aft append :
  Forall line_ok core -> core <> [] -> blank (last core []) = false ->
  (blank (hd [] core) = true -> eol = S (List.length (hd [] core))) ->
  exists n, trim_body indent 0 eol (join_lines core) aft append
            = Ok (n, join_lines (block0 indent true core) ++ rep cNL append).
Proof.
  intros HF Hne Hb Heol. 
  destruct (lead_blank_split core) as (a & b & E & Ha & Hlen & Hhd).
  destruct b as [|l b].
  { exfalso. rewrite app_nil_r in E. subst core. destruct (exists_last Hne) as (q & y & E2). rewrite E2, last_last in Hb.
    rewrite E2 in Ha. apply Forall_app in Ha. destruct Ha as [_ Ha]. inversion Ha; congruence. }
  destruct a as [|x a].
  - unfold trim_body, block0. rewrite <- Hlen. cbn [app] in E. subst core.
    inversion HF as [|? ? Hl HFb']; subst.
    destruct (line_lead l Hl Hhd) as (w & c & r & El & Hw & Hc).
    cbn [app List.length Nat.eqb repeat Nat.sub hd tl].
    assert (El2 : exists r', join_lines (l :: b) = w ++ c :: r').
    { destruct b; [exists r; now rewrite El|]. rewrite join_cons by discriminate. rewrite El, <- app_assoc. cbn [app]. eauto. }
    destruct El2 as [r' El2].
    assert (Hlead : fst (has_leading_space_nl (join_lines (l :: b))) = None).
    { rewrite El2. rewrite has_leading_spec; auto; [|now apply blank_ws].
      rewrite blank_count by auto. reflexivity. }
    rewrite Hlead. rewrite min_indent_spec by auto. cbn [obind].
    rewrite min_loop_first by auto. set (n := min_list 0 (indent :: used_columns b)).
    rewrite copy_first_spec; auto; [|apply deep_min; intros q Hq; right; auto].
    cbn [obind]. eexists. do 2 f_equal.
  - (* blank lines at the top *)
    unfold trim_body, block0. rewrite <- Hlen. subst core.
    assert (HF' := HF). apply Forall_app in HF'. destruct HF' as [HFa HFb].
    inversion HFb as [|? ? Hl HFb']; subst.
    assert (Hlast : last ((x :: a) ++ l :: b) [] = last (l :: b) []).
    { clear. generalize (x :: a) as q. induction q as [|y q IH]; auto. cbn [app]. rewrite last_cons by (destruct q; discriminate). apply IH. }
    rewrite Hlast in Hb. rewrite skipn_app_exact.
    destruct (line_lead l Hl Hhd) as (w & c & r & El & Hw & Hc).
    assert (Hx := Forall_inv Ha). assert (Ha' := Forall_inv_tail Ha). cbn beta in Hx. cbn [List.length Nat.eqb].
    cbn [app hd] in Heol. specialize (Heol Hx). subst eol. cbn [app].
    rewrite join_cons by (destruct a; discriminate).
    assert (Hlead : exists i, fst (has_leading_space_nl (x ++ cNL :: join_lines (a ++ l :: b))) = Some i).
    { assert (El2 : exists w2 r', join_lines (a ++ l :: b) = w2 ++ c :: r' /\ forallb is_xml_whitespace w2 = true).
      { clear -El Ha' Hw. induction Ha' as [|y a Hy Ha IH].
        - exists w. destruct b; [exists r; rewrite El; split; auto; now apply blank_ws|].
          cbn [app]. rewrite join_cons by discriminate. rewrite El, <- app_assoc. cbn [app]. eexists. split; [reflexivity|now apply blank_ws].
        - destruct IH as (w2 & r' & E & Hw2). exists (y ++ cNL :: w2), r'. cbn [app].
          rewrite join_cons by (destruct a; discriminate). rewrite E, <- app_assoc. split; auto.
          rewrite forallb_app, (blank_ws y Hy). cbn. auto. }
      destruct El2 as (w2 & r' & -> & Hw2).
      replace (x ++ cNL :: w2 ++ c :: r') with ((x ++ cNL :: w2) ++ c :: r') by (rewrite <- app_assoc; auto).
      rewrite has_leading_spec; auto.
      - rewrite count_nl_app. change (cNL :: w2) with ([cNL] ++ w2). rewrite count_nl_app. cbn [count_nl filter N.eqb List.length].
        rewrite Nat.add_succ_r. cbn [Nat.eqb]. eauto.
      - rewrite forallb_app, (blank_ws x Hx). cbn. auto. }
    destruct Hlead as [i ->]. rewrite skipn_line.
    rewrite strip_lead_spec by auto. cbn [Nat.add].
    rewrite min_indent_spec by auto. cbn [obind].
    rewrite min_loop_ignore by auto. set (n := min_list 0 (used_columns (l :: b))).
    rewrite copy_lines_spec; auto; [|apply deep_min; intros q Hq; auto|discriminate].
    cbn [obind]. eexists. do 2 f_equal. change (0 =? 0) with true. cbv iota.
      cbn [rep repeat app].
      replace (S (List.length a) - 1)%nat with (List.length a) by lia.
      rewrite join_repeat_nil by (apply clean_ne; discriminate). rewrite app_assoc. reflexivity.
Qed.

Lemma block0_ne indent keep core : core <> [] -> blank (last core []) = false -> block0 indent keep core <> [].
Proof.
  intros Hne Hb. unfold block0.
  destruct (lead_blank_split core) as (a & b & E & Ha & Hlen & Hhd). rewrite <- Hlen. subst core.
  rewrite skipn_app_exact. destruct b as [|l b].
  { exfalso. rewrite app_nil_r in *. destruct (exists_last Hne) as (q & y & E2). rewrite E2, last_last in Hb.
    rewrite E2 in Ha. apply Forall_app in Ha. destruct Ha as [_ Ha]. inversion Ha; congruence. }
  destruct a; cbn [Nat.eqb List.length app]; intros E; apply app_eq_nil in E; destruct E as [_ E].
  - destruct b; discriminate.
  - revert E; apply clean_ne; discriminate.
Qed.

Lemma block0_strip indent core : core <> [] -> blank (last core []) = false ->
  block0 indent true (strip_last core) = block0 indent false core.
Proof.
  intros Hne Hb. 
  destruct (lead_blank_split core) as (a & b & E & Ha & Hlen & Hhd). destruct b as [|l b].
  { exfalso. subst core. rewrite app_nil_r in *. destruct (exists_last Hne) as (q & y & E2). rewrite E2, last_last in Hb.
    rewrite E2 in Ha. apply Forall_app in Ha. destruct Ha as [_ Ha]. inversion Ha; congruence. }
  destruct a as [|x a].
  - cbn [app] in E. subst core. unfold block0.
    destruct b as [|l2 b].
    + cbn [strip_last lead_blank]. rewrite blank_rstrip, Hhd by auto. reflexivity.
    + rewrite strip_last_cons by discriminate. cbn [lead_blank]. rewrite Hhd. cbn [Nat.eqb Nat.sub repeat app].
      rewrite last_cons in Hb by discriminate.
      destruct (strip_last (l2 :: b)) eqn:Es; [exfalso; revert Es; apply strip_last_ne; discriminate|].
      rewrite <- Es, strip_last_used, strip_last_clean by auto. reflexivity.
  - pose proof (block_of_strip indent core Hne Hb) as H. revert H. unfold block_of, block0.
    assert (Hl2 : lead_blank (strip_last core) = lead_blank core).
    { subst core. rewrite strip_last_app by discriminate. clear -Ha Hhd.
      induction Ha as [|y q Hy Ha IH]; cbn [app lead_blank].
      - destruct b; cbn; [rewrite blank_rstrip, Hhd; auto|rewrite Hhd; auto].
      - rewrite Hy, IH. reflexivity. }
    rewrite Hl2, <- Hlen. cbn [List.length Nat.eqb]. auto.
Qed.

Lemma c_str_id s : ~ In 0 s -> c_str s = s.
Proof.
  induction s as [|c s IH]; intros H0; auto. cbn in *. destruct (N.eqb_spec c 0); [subst; tauto|]. rewrite IH; tauto.
Qed.

Lemma second_line s aft l0 l1 ls : ~ In cCR s -> split_lines s = l0 :: l1 :: ls ->
  second_line_indent s aft 0 0 = Ok (columns l1).
Proof.
  intros Hcr E. pose proof (split_line_ok s Hcr) as HF. rewrite E in HF.
  inversion HF as [|? ? H0 HF1]; subst. inversion HF1 as [|? ? H1 HF2]; subst.
  assert (Es : s = l0 ++ cNL :: join_lines (l1 :: ls)).
  { rewrite <- (join_split s), E. apply join_cons. discriminate. }
  unfold second_line_indent. change (Nat.eqb 0 0 && (0 =? 0)) with true. cbv iota.
  rewrite Es, find_line_nl by auto. cbn [obind fl_nl fl_eol andb].
  rewrite app_length. cbn [List.length].
  destruct (Nat.eqb_spec (S (List.length l0)) (List.length l0 + S (List.length (join_lines (l1 :: ls))))) as [H|H]; cbn [negb].
  - assert (Hz : List.length (join_lines (l1 :: ls)) = 0%nat) by lia.
    apply length_zero_iff_nil in Hz. destruct ls as [|l2 ls].
    + cbn in Hz. subst. reflexivity.
    + rewrite join_cons in Hz by discriminate. destruct l1; discriminate.
  - destruct (Nat.ltb_spec (List.length l0 + S (List.length (join_lines (l1 :: ls)))) (S (List.length l0))); [lia|].
    rewrite skipn_line. destruct ls as [|l2 ls].
    + cbn [join_lines]. rewrite find_line_last by auto. reflexivity.
    + rewrite join_cons by discriminate. rewrite find_line_nl by auto. reflexivity.
Qed.

Theorem trim_quote_dedent s aft : ~ In cCR s -> ~ In 0 s ->
  exists n, trim_quote 0 0 s aft = Ok (n, dedent s).
Proof.
  intros Hcr H0. pose proof (split_line_ok s Hcr) as HF. pose proof (split_lines_ne s) as Hne.
  unfold trim_quote, dedent. remember (split_lines s) as ls eqn:Els.
  assert (Es : s = join_lines ls) by (subst; now rewrite join_split).
  destruct ls as [|l0 ls]; [congruence|]. assert (Hl0 := Forall_inv HF). assert (HFr := Forall_inv_tail HF).
  destruct ls as [|l1 ls].
  { cbn [List.length Nat.eqb join_lines] in *. rewrite Es. rewrite find_line_last by auto. cbn [obind fl_nl negb].
    unfold second_line_indent. change (Nat.eqb 0 0 && (0 =? 0)) with true. cbv iota.
    rewrite find_line_last by auto. cbn [obind fl_nl andb]. rewrite <- Es, c_str_id by auto. eexists; reflexivity. }
  rewrite (second_line s aft l0 l1 ls Hcr (eq_sym Els)). cbn [obind nth].
  set (ind := columns l1).
  remember (l1 :: ls) as rest eqn:Erest. assert (Hrest : rest <> []) by (subst; discriminate).
  assert (Hlen2 : (2 <= List.length (l0 :: rest))%nat) by (subst; cbn; lia).
  destruct (Nat.eqb_spec (List.length (l0 :: rest)) 1); [lia|].
  assert (Efl : find_line s aft = Ok (FL true (columns l0) (List.length (rstrip l0)) (S (List.length l0)))).
  { rewrite Es. rewrite join_cons by auto. apply find_line_nl. auto. }
  rewrite Efl. cbn [obind fl_nl negb fl_eol].
  destruct (lead_blank_rev_split (l0 :: rest)) as (core & bl & E & Hbl & Hlbl & Hcore).
  rewrite <- Hlbl.
  assert (Hlen : List.length (l0 :: rest) = (List.length core + List.length bl)%nat) by (rewrite E; apply app_length).
  destruct core as [|c0 core].
  { (* nothing but whitespace *)
    cbn [app List.length] in E, Hlen. rewrite E in *.
    rewrite Nat.eqb_refl.
    assert (Hends : ends_nonws []) by (left; auto).
    assert (Hws : forallb is_xml_whitespace s = true) by (rewrite Es; now apply join_blank_ws).
    pose proof (has_ending_spec [] s Hends Hws) as H1. cbn [app] in H1. rewrite H1.
    assert (Hc : count_nl s = (List.length bl - 1)%nat) by (rewrite Es; now apply join_blank_count).
    rewrite Hc. destruct (Nat.eqb_spec (List.length bl - 1) 0); [lia|].
    pose proof (strip_end_spec [] s Hends Hws) as H2. cbn [app] in H2. rewrite H2, Hc.
    eexists. do 2 f_equal. unfold rep. f_equal. lia. }
  destruct Hcore as [Hcore|Hcore]; [discriminate|].
  remember (c0 :: core) as cs eqn:Ecs. assert (Hcs : cs <> []) by (subst; discriminate).
  destruct (Nat.eqb_spec (List.length bl) (List.length (l0 :: rest))) as [Hbad|_].
  { rewrite Hlen in Hbad. subst cs. cbn in Hbad. lia. }
  rewrite Hlen. replace (List.length cs + List.length bl - List.length bl)%nat with (List.length cs) by lia.
  rewrite E. rewrite firstn_app, Nat.sub_diag, firstn_all. cbn [firstn]. rewrite app_nil_r.
  assert (HFcs : Forall line_ok cs).
  { rewrite E in HF. apply Forall_app in HF. tauto. }
  assert (Hhdcs : hd [] cs = l0) by (subst cs; cbn [app] in E; injection E; auto).
  match goal with |- exists n, _ = Ok (n, ?t) =>
    assert (Hspec : t = join_lines (block0 ind (Nat.eqb (List.length bl) 0) cs) ++ rep cNL (List.length bl - 1)) end.
  { rewrite <- join_repeat_nil_end by (now apply block0_ne). unfold block0. rewrite <- app_assoc. do 2 f_equal. f_equal.
    destruct (Nat.eqb_spec (lead_blank cs) 0); [|reflexivity].
    destruct cs as [|c1 [|c2 cs']]; [congruence| |reflexivity].
    destruct bl as [|b0 bl]; [exfalso; cbn in Hlen, Hlen2; lia|]. reflexivity. }
  rewrite Hspec. clear Hspec.
  destruct bl as [|b0 bl].
  - (* the closing quote is on the last line *)
    rewrite app_nil_r in E. cbn [List.length Nat.eqb Nat.sub rep repeat]. rewrite app_nil_r.
    assert (Hend : fst (has_ending_nl_space s) = None).
    { rewrite Es, E. destruct (join_strip_last cs Hcs) as (w & Ew & Hw). rewrite Ew.
      rewrite has_ending_spec; [|now apply join_strip_ends|now apply blank_ws]. rewrite blank_count by auto. reflexivity. }
    rewrite Hend. cbn [app Nat.pred].
    assert (Hs : s <> []).
    { rewrite Es, E. intros H. destruct (join_ends_with cs Hcs) as [p Ep]. rewrite H in Ep. symmetry in Ep. apply app_eq_nil in Ep.
      destruct Ep as [_ Ep]. rewrite Ep in Hcore. discriminate. }
    destruct (trim_body0_spec cs ind (S (List.length l0)) aft 0) as (n' & T1); auto.
    { intros _. rewrite Hhdcs. auto. }
    exists n'. rewrite <- E, <- Es in T1. unfold trim_body in T1. rewrite <- E. 
    destruct s as [|sc s']; [congruence|]. cbn [rep repeat] in T1. rewrite app_nil_r in T1. 
    rewrite E in *. exact T1.
  - remember (b0 :: bl) as bs eqn:Ebs. assert (Hbs : bs <> []) by (subst; discriminate).
    assert (Hbl0 : Nat.eqb (List.length bs) 0 = false) by (subst; reflexivity).
    destruct (join_strip_last cs Hcs) as (w & Ew & Hw).
    assert (Es2 : s = join_lines (strip_last cs) ++ (w ++ cNL :: join_lines bs)).
    { rewrite Es, E, join_app by auto. rewrite Ew, <- app_assoc. reflexivity. }
    assert (Hws : forallb is_xml_whitespace (w ++ cNL :: join_lines bs) = true).
    { rewrite forallb_app, blank_ws by auto. cbn. now apply join_blank_ws. }
    assert (Hcnt : count_nl (w ++ cNL :: join_lines bs) = List.length bs).
    { rewrite count_nl_app, blank_count by auto. change (cNL :: join_lines bs) with ([cNL] ++ join_lines bs).
      rewrite count_nl_app, join_blank_count by auto. subst bs. cbn. lia. }
    assert (Hen : ends_nonws (join_lines (strip_last cs))) by (now apply join_strip_ends).
    rewrite Es2. rewrite has_ending_spec by auto. rewrite Hcnt, Hbl0.
    rewrite strip_end_spec by auto. rewrite Hcnt.
    assert (Hs1 : join_lines (strip_last cs) <> []).
    { intros H. destruct (join_ends_with (strip_last cs)) as [p Ep]; [now apply strip_last_ne|].
      rewrite H in Ep. symmetry in Ep. apply app_eq_nil in Ep. destruct Ep as [_ Ep].
      rewrite strip_last_last in Ep by auto. apply rstrip_blank in Ep. congruence. }
    destruct (trim_body0_spec (strip_last cs) ind (S (List.length l0)) ((w ++ cNL :: join_lines bs) ++ aft) (Nat.pred (List.length bs)))
      as (n' & T1); auto.
    { now apply strip_last_ok. }
    { now apply strip_last_ne. }
    { rewrite strip_last_last by auto. now apply blank_rstrip. }
    { intros Hb. destruct cs as [|x [|y cs]]; [congruence| |].
      - cbn [strip_last hd last] in *. rewrite blank_rstrip in Hb by auto. discriminate.
      - rewrite strip_last_cons in * by discriminate. cbn [hd] in *. subst; reflexivity. }
    rewrite block0_strip in T1 by auto.
    exists n'. replace (List.length bs - 1)%nat with (Nat.pred (List.length bs)) by lia.
    unfold trim_body in T1. destruct (join_lines (strip_last cs)) as [|sc s']; [congruence|]. exact T1.
Qed.

(** ** The trimmed text *)
Lemma drop_front_eq s : drop_front s = lstrip_spaces s.
Proof. induction s as [|c s IH]; cbn; auto. Qed.

Lemma lstrip_split s : exists k, s = rep cSP k ++ lstrip_spaces s /\ (lstrip_spaces s = [] \/ hd 0 (lstrip_spaces s) <> cSP).
Proof.
  induction s as [|c s IH]; [exists 0%nat; auto|]. cbn [lstrip_spaces].
  destruct (N.eqb_spec c cSP) as [->|H].
  - destruct IH as (k & E & H). exists (S k). cbn [rep repeat app]. split; auto. f_equal. exact E.
  - exists 0%nat. auto.
Qed.

Lemma rev_spaces k : rev (rep cSP k) = rep cSP k.
Proof.
  unfold rep. induction k as [|k IH]; auto. cbn [repeat rev]. rewrite IH. clear. induction k; cbn; auto. f_equal. auto.
Qed.

Lemma rstrip_spaces_split s : exists k, s = rstrip_spaces s ++ rep cSP k.
Proof.
  unfold rstrip_spaces. destruct (lstrip_split (rev s)) as (k & E & _). exists k.
  rewrite <- (rev_involutive s) at 1. rewrite E at 1. rewrite rev_app_distr, rev_spaces. reflexivity.
Qed.

Lemma rstrip_spaces_end s : rstrip_spaces s = [] \/ exists p c, rstrip_spaces s = p ++ [c] /\ c <> cSP.
Proof.
  unfold rstrip_spaces. destruct (lstrip_split (rev s)) as (k & _ & H). destruct (lstrip_spaces (rev s)) as [|c r]; auto.
  right. exists (rev r), c. cbn [rev]. split; auto. destruct H; [discriminate|]. exact H.
Qed.

Lemma drop_sp_spec p c k : c <> cSP -> drop_sp 0 (List.length ((p ++ [c]) ++ rep cSP k)) ((p ++ [c]) ++ rep cSP k) = S (List.length p).
Proof.
  intros Hc. rewrite app_length, rep_len, app_length. cbn [List.length].
  assert (H : forall j, (j <= k)%nat -> drop_sp 0 (List.length p + 1 + j) ((p ++ [c]) ++ rep cSP k) = S (List.length p)).
  { induction j as [|j IH]; intros Hj.
    - rewrite Nat.add_0_r, Nat.add_1_r. cbn [drop_sp]. cbn [Nat.ltb Nat.leb].
      rewrite nth_error_app1 by (rewrite app_length; cbn; lia). rewrite nth_error_app2, Nat.sub_diag by lia. cbn [nth_error].
      destruct (N.eqb_spec c cSP); [congruence|reflexivity].
    - rewrite Nat.add_succ_r. cbn [drop_sp]. cbn [Nat.ltb Nat.leb].
      rewrite nth_error_app2 by (rewrite app_length; cbn; lia). rewrite app_length. cbn [List.length].
      replace (List.length p + 1 + j - (List.length p + 1))%nat with j by lia.
      assert (En : nth_error (rep cSP k) j = Some cSP).
      { unfold rep. apply nth_error_repeat. lia. }
      rewrite En. change (cSP =? cSP) with true. cbv iota. apply IH. lia. }
  apply H. lia.
Qed.

Lemma ws_forall s : is_all_xml_whitespace s = forallb (fun c => (c =? cSP) || (c =? cTAB) || (c =? cNL) || (c =? cCR)) s.
Proof.
  unfold is_all_xml_whitespace. induction s as [|c s IH]; auto. cbn [forallb]. rewrite IH. f_equal.
  unfold is_xml_whitespace. unfold cSP, cTAB, cNL, cCR. destruct (c =? 32), (c =? 9), (c =? 10), (c =? 13); reflexivity.
Qed.

Theorem trim_text_spec s : ~ In cCR s -> ~ In 0 s ->
  trim_text_node s = Ok (match trimmed s with [] => None | t => Some t end).
Proof.
  intros Hcr H0. unfold trim_text_node, trimmed. rewrite <- ws_forall.
  destruct (is_all_xml_whitespace s) eqn:Ews; [reflexivity|].
  rewrite drop_front_eq. destruct (lstrip_split s) as (k & E & Hh).
  set (u := lstrip_spaces s) in *. destruct (rstrip_spaces_split u) as (j & Ej).
  destruct (rstrip_spaces_end u) as [En|(p & c & En & Hc)].
  { exfalso. rewrite En in Ej. cbn [app] in Ej. rewrite Ej in E. rewrite E in Ews. unfold is_all_xml_whitespace in Ews.
    rewrite forallb_app in Ews. apply andb_false_iff in Ews. 
    assert (Hr : forall n, forallb is_xml_whitespace (rep cSP n) = true) by (induction n; auto).
    rewrite !Hr in Ews. destruct Ews; discriminate. }
  assert (Eb : drop_sp 0 (List.length u) u = List.length (rstrip_spaces u)).
  { rewrite En at 1. rewrite Ej, En. rewrite drop_sp_spec by auto. rewrite app_length. cbn. lia. }
  cbv zeta. rewrite Eb.
  assert (Ef : firstn (List.length (rstrip_spaces u)) u = rstrip_spaces u).
  { rewrite Ej at 2. rewrite firstn_app, Nat.sub_diag, firstn_all. cbn. apply app_nil_r. }
  rewrite Ef. unfold un_quote. cbn [obind Nat.add]. rewrite Nat.sub_0_r. cbn [Nat.ltb Nat.leb].
  unfold slice. rewrite Nat.sub_0_r. cbn [skipn]. rewrite firstn_all.
  assert (Hin : forall x, In x (rstrip_spaces u) -> In x s).
  { intros x Hx. rewrite E, Ej. apply in_or_app. right. apply in_or_app. auto. }
  destruct (trim_quote_dedent (rstrip_spaces u) (skipn (List.length (rstrip_spaces u)) (rstrip_spaces u) ++ skipn (List.length (rstrip_spaces u)) u ++ [0])) as (n & T).
  { auto. } { auto. }
  rewrite T. cbn [obind]. destruct (dedent (rstrip_spaces u)); reflexivity.
Qed.

(** ** Only whitespace is removed *)
Lemma lw_refl s : less_white s s.
Proof. induction s; constructor; auto. Qed.

Lemma lw_app a b c d : less_white a b -> less_white c d -> less_white (a ++ c) (b ++ d).
Proof. induction 1; intros; cbn [app]; [auto|constructor; auto|apply LW_drop; auto]. Qed.

Lemma lw_trans a b : less_white a b -> forall c, less_white b c -> less_white a c.
Proof.
  induction 1 as [|x s t H IH|x s t Hx H IH]; intros c Hc; auto.
  - inversion Hc; subst; [constructor; auto|apply LW_drop; auto].
  - apply LW_drop; auto.
Qed.

Lemma lw_blank w : blank w = true -> less_white w [].
Proof.
  induction w as [|c w IH]; intros H; [constructor|]. rewrite blank_cons in H. apply andb_true_iff in H. destruct H as [Hc H].
  apply LW_drop; auto. apply hspace_cases in Hc. cbn. destruct Hc; auto.
Qed.

Lemma lw_rstrip l : less_white l (rstrip l).
Proof.
  destruct (rstrip_split l) as (w & E & Hw). rewrite E at 1. rewrite <- (app_nil_r (rstrip l)) at 2.
  apply lw_app; [apply lw_refl|now apply lw_blank].
Qed.

Lemma lw_drop_columns l : forall n, less_white l (drop_columns n l).
Proof.
  induction l as [|c l IH]; intros [|n]; try apply lw_refl. rewrite drop_columns_eq.
  destruct (N.eqb_spec c cSP); [apply LW_drop; [subst; cbn; auto|auto]|].
  destruct (N.eqb_spec c cTAB); [|apply lw_refl].
  apply LW_drop; [subst; cbn; auto|]. destruct (Nat.leb 8 (S n)); [auto|apply lw_refl].
Qed.

Lemma lw_clean n l : less_white l (clean_line n l).
Proof.
  unfold clean_line. destruct (blank l) eqn:Hb; [now apply lw_blank|].
  eapply lw_trans; [apply lw_rstrip|apply lw_drop_columns].
Qed.

Lemma lw_clean_lines n keep ls : Forall2 less_white ls (clean_lines n keep ls).
Proof.
  induction ls as [|l [|l2 ls] IH]; [constructor| |].
  - cbn. constructor; [|constructor]. destruct keep; [apply lw_drop_columns|apply lw_clean].
  - rewrite clean_cons by discriminate. constructor; auto. apply lw_clean.
Qed.

Lemma lw_join ls ls' : Forall2 less_white ls ls' -> less_white (join_lines ls) (join_lines ls').
Proof.
  induction 1 as [|l l' ls ls' H HF IH]; [constructor|]. destruct HF as [|x y xs ys Hxy HF].
  - exact H.
  - rewrite !join_cons by discriminate. apply lw_app; auto. constructor. exact IH.
Qed.

Lemma lw_blanks bl : Forall (fun l => blank l = true) bl -> Forall2 less_white bl (repeat [] (List.length bl)).
Proof. induction 1; cbn; constructor; auto. now apply lw_blank. Qed.

Lemma lw_bottom ls ls' y : ls <> [] -> Forall2 less_white ls ls' -> blank y = true -> less_white (join_lines (ls ++ [y])) (join_lines ls').
Proof.
  intros Hne H Hy. rewrite join_snoc by auto. rewrite <- (app_nil_r (join_lines ls')).
  apply lw_app; [now apply lw_join|]. apply LW_drop; [cbn; auto|now apply lw_blank].
Qed.

Lemma lw_top x ls ls' : ls <> [] -> blank x = true -> less_white (join_lines ls) ls' -> less_white (join_lines (x :: ls)) ls'.
Proof.
  intros Hne Hx H. rewrite join_cons by auto. change ls' with ([] ++ ls').
  apply lw_app; [now apply lw_blank|]. apply LW_drop; [cbn; auto|exact H].
Qed.

Lemma Forall2_app2 {A B} (R : A -> B -> Prop) a b c d : Forall2 R a b -> Forall2 R c d -> Forall2 R (a ++ c) (b ++ d).
Proof. apply Forall2_app. Qed.

Lemma lw_dedent s : less_white s (dedent s).
Proof.
  pose proof (split_lines_ne s) as Hne. pose proof (join_split s) as Es. 
  unfold dedent. remember (split_lines s) as ls eqn:Els. 
  destruct (Nat.eqb_spec (List.length ls) 1) as [H1|H1]; [apply lw_refl|].
  rewrite <- Es. clear Els Es s.
  destruct (lead_blank_rev_split ls) as (core & bl & E & Hbl & Hlbl & Hcore).
  rewrite <- Hlbl.
  assert (Hlen : List.length ls = (List.length core + List.length bl)%nat) by (rewrite E; apply app_length).
  destruct core as [|c0 core].
  { cbn [app List.length Nat.add] in E, Hlen. subst ls. rewrite Nat.eqb_refl.
    destruct bl as [|x [|y bl]]; [congruence|cbn in H1; congruence|].
    apply lw_top; [discriminate|exact (Forall_inv Hbl)|].
    assert (E : rep cNL (List.length (x :: y :: bl) - 2) = join_lines (repeat [] (List.length (y :: bl)))).
    { cbn [List.length]. replace (S (S (List.length bl)) - 2)%nat with (List.length bl) by lia.
      change (repeat [] (S (List.length bl))) with (@nil N :: repeat [] (List.length bl)).
      change (@nil N :: repeat [] (List.length bl)) with ([@nil N] ++ repeat [] (List.length bl)).
      rewrite join_repeat_nil_end by discriminate. reflexivity. }
    rewrite E. apply lw_join, lw_blanks. exact (Forall_inv_tail Hbl). }
  destruct Hcore as [Hcore|Hcore]; [discriminate|].
  remember (c0 :: core) as cs eqn:Ecs. assert (Hcs : cs <> []) by (subst; discriminate).
  destruct (Nat.eqb_spec (List.length bl) (List.length ls)) as [Hbad|_].
  { rewrite Hlen in Hbad. subst cs. cbn in Hbad. lia. }
  rewrite Hlen. replace (List.length cs + List.length bl - List.length bl)%nat with (List.length cs) by lia.
  assert (Ef : firstn (List.length cs) ls = cs).
  { rewrite E, firstn_app, Nat.sub_diag, firstn_all. cbn [firstn]. apply app_nil_r. }
  rewrite Ef. clear Hlbl Hlen.
  (* the bottom *)
  set (keep := Nat.eqb (List.length bl) 0). clearbody keep.
  assert (Hbot : forall u v, u <> [] -> Forall2 less_white u v -> less_white (join_lines (u ++ bl)) (join_lines (v ++ repeat [] (List.length bl - 1)))).
  { intros u v Hu HF. destruct bl as [|b0 bl] using rev_ind.
    - cbn [List.length Nat.sub repeat]. rewrite !app_nil_r. now apply lw_join.
    - clear IHbl. apply Forall_app in Hbl. destruct Hbl as [Hbl Hb0].
      rewrite app_length. cbn [List.length]. rewrite Nat.add_sub. rewrite app_assoc. apply lw_bottom.
      + destruct u; [congruence|discriminate].
      + apply Forall2_app; [exact HF|now apply lw_blanks].
      + exact (Forall_inv Hb0). }
  assert (Htop : forall u v, cs = u ++ v -> List.length u = lead_blank cs -> v <> [] -> Forall (fun l => blank l = true) u ->
            forall v', Forall2 less_white v v' ->
            less_white (join_lines ls) (join_lines (repeat [] (lead_blank cs - 1) ++ v' ++ repeat [] (List.length bl - 1)))).
  { intros u v Ev Hu Hv Hub v' Hv'. rewrite <- Hu, E. destruct u as [|x u].
    - cbn [List.length Nat.sub repeat app]. apply Hbot; [exact Hcs|]. rewrite Ev. exact Hv'.
    - cbn [List.length Nat.sub]. rewrite Nat.sub_0_r, Ev. cbn [app]. apply lw_top.
      + destruct u; [destruct v; [congruence|discriminate]|discriminate].
      + exact (Forall_inv Hub).
      + rewrite app_assoc. apply Hbot; [destruct u; [destruct v; [congruence|discriminate]|discriminate]|].
        apply Forall2_app; [|exact Hv']. apply lw_blanks. exact (Forall_inv_tail Hub). }
  destruct (lead_blank_split cs) as (a & b & Eab & Ha & Hlena & Hhd).
  assert (Hb : b <> []).
  { intros ->. rewrite app_nil_r in Eab. subst cs. destruct (exists_last Hcs) as (q & y & E2). rewrite E2, last_last in Hcore.
    rewrite Eab in Hcs, E2. rewrite <- Eab, E2 in Ha || (rewrite E2 in Ha). apply Forall_app in Ha. destruct Ha as [_ Ha]. inversion Ha; congruence. }
  apply (Htop a b Eab Hlena Hb Ha).
  destruct (Nat.eqb_spec (lead_blank cs) 0) as [Hz|Hz].
  - rewrite Hz in Hlena. destruct a; [|discriminate]. cbn [app] in Eab. rewrite <- Eab.
    rewrite Ecs. constructor; [apply lw_rstrip|apply lw_clean_lines].
  - rewrite Eab at 1. rewrite <- Hlena, Eab, skipn_app_exact. apply lw_clean_lines.
Qed.

Lemma lw_spaces k : less_white (rep cSP k) [].
Proof. apply lw_blank. induction k; auto. Qed.

Lemma lw_ws s : is_all_xml_whitespace s = true -> less_white s [].
Proof.
  unfold is_all_xml_whitespace. induction s as [|c s IH]; intros H; [constructor|]. cbn in H. apply andb_true_iff in H. destruct H as [Hc H].
  apply LW_drop; auto. unfold is_xml_whitespace in Hc. rewrite !orb_true_iff, !N.eqb_eq in Hc. cbn. intuition.
Qed.

Theorem lw_trimmed s : less_white s (trimmed s).
Proof.
  unfold trimmed. rewrite <- ws_forall. destruct (is_all_xml_whitespace s) eqn:E; [now apply lw_ws|].
  eapply lw_trans; [|apply lw_dedent].
  destruct (lstrip_split s) as (k & Es & _). destruct (rstrip_spaces_split (lstrip_spaces s)) as (j & Ej).
  rewrite Es at 1. change (rstrip_spaces (lstrip_spaces s)) with ([] ++ rstrip_spaces (lstrip_spaces s)).
  apply lw_app; [apply lw_spaces|]. rewrite Ej at 1. rewrite <- (app_nil_r (rstrip_spaces _)) at 2.
  apply lw_app; [apply lw_refl|apply lw_spaces].
Qed.

Lemma lw_length s t : less_white s t -> (List.length t <= List.length s)%nat.
Proof. induction 1; cbn; lia. Qed.

Lemma lw_same s t : less_white s t -> List.length t = List.length s -> t = s.
Proof.
  induction 1 as [|c s t H IH|c s t Hc H IH]; cbn; intros E; auto.
  - f_equal. apply IH. lia.
  - apply lw_length in H. lia.
Qed.

Lemma lw_words s t : less_white s t ->
  filter (fun c => negb (is_xml_whitespace c)) t = filter (fun c => negb (is_xml_whitespace c)) s.
Proof.
  induction 1 as [|c s t H IH|c s t Hc H IH]; cbn [filter]; auto.
  - rewrite IH. reflexivity.
  - replace (is_xml_whitespace c) with true; auto. cbn in Hc. 
    destruct Hc as [<-|[<-|[<-|[<-|[]]]]]; reflexivity.
Qed.

Lemma lw_in s t c : less_white s t -> In c t -> In c s.
Proof. induction 1; cbn; intuition. Qed.

Lemma iter_stable {A} (f : A -> A) n : forall x, f (iter n f x) = iter n f (f x).
Proof. induction n; intros x; cbn; auto. f_equal. auto. Qed.

Theorem trimming_settles s : exists k, (k <= List.length s)%nat /\ trimmed (iter k trimmed s) = iter k trimmed s.
Proof.
  remember (List.length s) as m eqn:Em. revert s Em. induction m as [m IH] using lt_wf_ind. intros s ->.
  pose proof (lw_trimmed s) as H. pose proof (lw_length _ _ H) as Hl.
  destruct (Nat.eq_dec (List.length (trimmed s)) (List.length s)) as [E|E].
  - exists 0%nat. split; [lia|]. cbn. now apply lw_same.
  - destruct (IH (List.length (trimmed s))) with (s := trimmed s) as (k & Hk & Hs); [lia|reflexivity|].
    exists (S k). split; [lia|]. cbn. rewrite iter_stable. exact Hs.
Qed.

(** ** Texts that settle at once *)
Lemma columns_drop l : columns (drop_columns (columns l) l) = 0%nat.
Proof.
  induction l as [|c l IH]; auto. cbn [columns]. destruct (N.eqb_spec c cSP) as [->|H1].
  - cbn [drop_columns]. change (cSP =? cSP) with true. exact IH.
  - destruct (N.eqb_spec c cTAB) as [->|H2].
    + cbn [Nat.add drop_columns]. change (cTAB =? cSP) with false. change (cTAB =? cTAB) with true. cbv iota.
      cbn [Nat.leb Nat.sub]. rewrite Nat.sub_0_r. exact IH.
    + cbn [drop_columns columns]. destruct (N.eqb_spec c cSP); [congruence|]. destruct (N.eqb_spec c cTAB); [congruence|reflexivity].
Qed.

Lemma drop_columns_suffix l : forall n, exists w, l = w ++ drop_columns n l /\ blank w = true.
Proof.
  induction l as [|c l IH]; intros [|n]; try (exists []; split; reflexivity).
  rewrite drop_columns_eq. destruct (N.eqb_spec c cSP) as [->|H1].
  - destruct (IH n) as (w & E & Hw). exists (cSP :: w). cbn [app]. rewrite <- E. auto.
  - destruct (N.eqb_spec c cTAB) as [->|H2].
    + destruct (Nat.leb 8 (S n)).
      * destruct (IH (S n - 8)%nat) as (w & E & Hw). exists (cTAB :: w). cbn [app]. rewrite <- E. auto.
      * exists [cTAB]. auto.
    + exists []. auto.
Qed.

Lemma drop_columns_blank l n : blank (drop_columns n l) = blank l.
Proof. destruct (drop_columns_suffix l n) as (w & E & Hw). rewrite E at 2. rewrite blank_app, Hw. reflexivity. Qed.

Lemma rstrip_suffix w l : blank l = false -> rstrip (w ++ l) = w ++ rstrip l.
Proof.
  intros Hl. destruct (rstrip_split l) as (v & E & Hv).
  induction w as [|c w IH]; auto. cbn [app rstrip]. rewrite IH.
  destruct (w ++ rstrip l) eqn:En; auto.
  apply app_eq_nil in En. destruct En as [_ En]. apply rstrip_blank in En. congruence.
Qed.


Lemma rstrip_drop_fix n l : rstrip l = l -> rstrip (drop_columns n l) = drop_columns n l.
Proof.
  intros H. destruct (blank l) eqn:Hb.
  - apply rstrip_blank in Hb. rewrite H in Hb. subst. destruct n; reflexivity.
  - destruct (drop_columns_suffix l n) as (w & E & Hw).
    assert (Hb2 : blank (drop_columns n l) = false) by (rewrite drop_columns_blank; auto).
    rewrite E in H at 1. rewrite rstrip_suffix in H by auto. rewrite E in H at 2. apply app_inv_head in H. exact H.
Qed.

(** No common indentation is left. *)
Definition level (rest : list bytes) : Prop :=
  columns (hd [] rest) = 0%nat \/ Exists (fun l => blank l = false /\ columns l = 0%nat) rest.

Lemma min_list_zero l : In 0%nat l -> min_list 0 l = 0%nat.
Proof. intros H. pose proof (min_list_le 0 l 0 H). lia. Qed.

Lemma level_min rest : rest <> [] -> level rest -> min_list 0 (columns (hd [] rest) :: used_columns rest) = 0%nat.
Proof.
  intros Hne [H|H]; apply min_list_zero; [left; exact H|right].
  unfold used_columns. apply Exists_exists in H. destruct H as (l & Hl & Hb & Hc). rewrite <- Hc. apply in_map.
  apply filter_In. rewrite Hb. auto.
Qed.

Lemma clean_zero ls : ls <> [] -> Forall (fun l => rstrip l = l) (removelast ls) -> clean_lines 0 true ls = ls.
Proof.
  induction ls as [|l [|l2 ls] IH]; intros Hne H; [congruence|destruct l; reflexivity|].
  rewrite clean_cons by discriminate. change (removelast (l :: l2 :: ls)) with (l :: removelast (l2 :: ls)) in H.
  rewrite IH; [|discriminate|exact (Forall_inv_tail H)]. f_equal.
  pose proof (Forall_inv H) as E. cbn beta in E. unfold clean_line. destruct (blank l) eqn:Hb; [|rewrite E; destruct l; reflexivity].
  apply rstrip_blank in Hb. congruence.
Qed.

Lemma lead_blank_zero l ls : blank l = false -> lead_blank (l :: ls) = 0%nat.
Proof. intros H. cbn. rewrite H. reflexivity. Qed.

Lemma rev_last (ls : list bytes) : ls <> [] -> exists r, rev ls = last ls [] :: r.
Proof. intros H. destruct (exists_last H) as (q & y & ->). exists (rev q). rewrite rev_app_distr, last_last. reflexivity. Qed.

Lemma rstrip_spaces_fix p c : c <> cSP -> rstrip_spaces (p ++ [c]) = p ++ [c].
Proof.
  intros H. unfold rstrip_spaces. rewrite rev_app_distr. cbn [rev app lstrip_spaces].
  destruct (N.eqb_spec c cSP); [congruence|]. cbn [rev]. rewrite rev_involutive. reflexivity.
Qed.

Lemma not_all_ws l r : line_ok l -> blank l = false -> is_all_xml_whitespace (l ++ r) = false.
Proof.
  intros Hl Hb. destruct (line_lead l Hl Hb) as (w & c & q & -> & Hw & Hc). unfold is_all_xml_whitespace.
  rewrite !forallb_app. cbn. rewrite Hc. cbn. rewrite andb_false_r. reflexivity.
Qed.

Lemma stable_text s l0 rest p c : ~ In cCR s -> split_lines s = l0 :: rest ->
  blank l0 = false -> hd 0 l0 <> cSP -> s = p ++ [c] -> c <> cSP ->
  (rest <> [] -> rstrip l0 = l0 /\ Forall (fun l => rstrip l = l) (removelast rest) /\ blank (last rest []) = false /\ level rest) ->
  trimmed s = s.
Proof.
  intros Hcr E Hb Hhd Ep Hc Hrest.
  pose proof (split_line_ok s Hcr) as HF. rewrite E in HF.
  assert (Es : s = join_lines (l0 :: rest)) by (rewrite <- E, join_split; auto).
  assert (Hs0 : exists r, s = l0 ++ r).
  { rewrite Es. destruct rest; [exists []; now rewrite app_nil_r|rewrite join_cons by discriminate; eauto]. }
  unfold trimmed. rewrite <- ws_forall.
  assert (Hw : is_all_xml_whitespace s = false).
  { destruct Hs0 as [r ->]. apply not_all_ws; auto. exact (Forall_inv HF). }
  rewrite Hw.
  assert (Hl : lstrip_spaces s = s).
  { destruct Hs0 as [r ->]. destruct l0 as [|x l0]; [discriminate|]. cbn [app lstrip_spaces hd] in *.
    destruct (N.eqb_spec x cSP); [congruence|reflexivity]. }
  rewrite Hl. replace (rstrip_spaces s) with s by (rewrite Ep; symmetry; now apply rstrip_spaces_fix).
  unfold dedent. rewrite E. destruct rest as [|l1 rest]; [reflexivity|].
  destruct (Hrest ltac:(discriminate)) as (Hr0 & Hr & Hlast & Hlev). clear Hrest.
  destruct (Nat.eqb_spec (List.length (l0 :: l1 :: rest)) 1) as [Hn|_]; [discriminate|].
  assert (Hz : lead_blank (rev (l0 :: l1 :: rest)) = 0%nat).
  { destruct (rev_last (l0 :: l1 :: rest)) as [r ->]; [discriminate|]. apply lead_blank_zero. exact Hlast. }
  rewrite Hz. cbn [Nat.eqb List.length]. rewrite Nat.sub_0_r.
  change (S (S (List.length rest))) with (List.length (l0 :: l1 :: rest)). rewrite firstn_all.
  rewrite lead_blank_zero by auto. cbn [Nat.eqb Nat.sub repeat app]. cbn [nth].
  change l1 with (hd [] (l1 :: rest)) at 1. rewrite level_min by (discriminate || auto).
  rewrite clean_zero by (discriminate || auto). rewrite Hr0, app_nil_r. symmetry. exact Es.
Qed.

Lemma min_list_in l : forall d, l <> [] -> In (min_list d l) l.
Proof.
  induction l as [|x l IH]; intros d Hne; [congruence|]. cbn [min_list]. destruct l as [|y l].
  - cbn. left. lia.
  - destruct (Nat.min_dec x (min_list x (y :: l))) as [E|E]; rewrite E; [left; auto|right; apply IH; discriminate].
Qed.

Lemma clean_length n keep ls : List.length (clean_lines n keep ls) = List.length ls.
Proof. induction ls as [|l [|l2 ls] IH]; [reflexivity|reflexivity|]. rewrite clean_cons by discriminate. cbn [List.length]. rewrite IH. reflexivity. Qed.

Lemma clean_last n keep ls : ls <> [] -> last (clean_lines n keep ls) [] = if keep then drop_columns n (last ls []) else clean_line n (last ls []).
Proof.
  induction ls as [|l [|l2 ls] IH]; intros Hne; [congruence|reflexivity|].
  rewrite clean_cons by discriminate. rewrite (last_cons (clean_line n l)) by (apply clean_ne; discriminate). rewrite IH by discriminate.
  rewrite (last_cons l) by discriminate. reflexivity.
Qed.

Lemma clean_line_stripped n l : rstrip (clean_line n l) = clean_line n l.
Proof. unfold clean_line. destruct (blank l); [reflexivity|]. apply rstrip_drop_fix, rstrip_idem. Qed.

Lemma clean_stripped n keep ls : Forall (fun l => rstrip l = l) (removelast (clean_lines n keep ls)).
Proof.
  induction ls as [|l [|l2 ls] IH]; [constructor|constructor|].
  rewrite clean_cons by discriminate. 
  pose proof (clean_ne n keep (l2 :: ls) ltac:(discriminate)) as Hne.
  destruct (clean_lines n keep (l2 :: ls)) as [|x xs]; [congruence|].
  change (removelast (clean_line n l :: x :: xs)) with (clean_line n l :: removelast (x :: xs)).
  constructor; [apply clean_line_stripped|exact IH].
Qed.

(** The image of a line. *)
Definition clean1 (n : nat) (l l' : bytes) : Prop :=
  l' = clean_line n l \/ l' = drop_columns n l.

Lemma clean_images n keep ls : blank (last ls []) = false -> Forall2 (fun l l' => (blank l = true -> l' = []) /\ (blank l = false -> blank l' = false /\ (columns l = n -> columns l' = 0%nat)))
   ls (clean_lines n keep ls).
Proof.
  assert (H : forall l, (blank l = true -> clean_line n l = []) /\
    (blank l = false -> blank (clean_line n l) = false /\ (columns l = n -> columns (clean_line n l) = 0%nat))).
  { intros l. unfold clean_line. destruct (blank l) eqn:Hb; split; intros E; try discriminate; auto.
    rewrite drop_columns_blank, blank_rstrip by auto. split; auto. intros <-.
    rewrite <- (columns_rstrip l Hb). apply columns_drop. }
  induction ls as [|l [|l2 ls] IH]; intros Hlast; [constructor| |].
  - cbn. constructor; [|constructor]. destruct keep; [|apply H]. cbn in Hlast. split; intros E; [congruence|].
    rewrite drop_columns_blank. split; auto. intros <-. apply columns_drop.
  - rewrite clean_cons by discriminate. rewrite last_cons in Hlast by discriminate. constructor; [apply H|auto].
Qed.

Lemma level_clean keep rest : rest <> [] -> blank (last rest []) = false ->
  level (clean_lines (min_list 0 (columns (hd [] rest) :: used_columns rest)) keep rest).
Proof.
  intros Hne Hlast. set (n := min_list _ _).
  pose proof (clean_images n keep rest Hlast) as HF.
  assert (Hn : In n (columns (hd [] rest) :: used_columns rest)) by (apply min_list_in; discriminate).
  clearbody n. destruct Hn as [Hn|Hn].
  - left. destruct HF as [|l l' ls ls' (H1 & H2) HF]; [congruence|]. cbn [hd] in *.
    destruct (blank l) eqn:Hb; [rewrite H1 by auto; reflexivity|]. apply H2; auto.
  - right. unfold used_columns in Hn. apply in_map_iff in Hn. destruct Hn as (l & El & Hl).
    apply filter_In in Hl. destruct Hl as [Hl Hb]. apply negb_true_iff in Hb.
    clear -HF El Hl Hb. induction HF as [|x x' ls ls' (H1 & H2) HF IH]; [destruct Hl|].
    destruct Hl as [<-|Hl]; [apply Exists_cons_hd|apply Exists_cons_tl; auto].
    destruct (H2 Hb) as [H3 H4]. split; auto.
Qed.

Lemma split_front w v l ls : ~ In cNL w -> split_lines v = l :: ls -> split_lines (w ++ v) = (w ++ l) :: ls.
Proof.
  intros Hw E. induction w as [|c w IH]; [exact E|]. cbn [app split_lines].
  destruct (N.eqb_spec c cNL); [subst; exfalso; apply Hw; left; auto|]. rewrite IH; auto. intros H; apply Hw; right; auto.
Qed.

Lemma split_back u w : ~ In cNL w -> forall init x, split_lines u = init ++ [x] -> split_lines (u ++ w) = init ++ [x ++ w].
Proof.
  intros Hw init x E. rewrite <- (join_split (u ++ w)) at 1. 
  pose proof (split_nl_free u) as HF. rewrite E in HF. apply Forall_app in HF. destruct HF as [HFi HFx].
  assert (Eu : u ++ w = join_lines (init ++ [x ++ w])).
  { rewrite <- (join_split u), E. destruct init as [|i init]; [reflexivity|].
    rewrite !join_snoc by discriminate. rewrite <- app_assoc. reflexivity. }
  rewrite join_split, Eu. apply split_join; [destruct init; discriminate|].
  apply Forall_app. split; auto. constructor; [|constructor]. intros H. apply in_app_or in H. destruct H; [exact (Forall_inv HFx H)|auto].
Qed.

Lemma spaces_no_nl k : ~ In cNL (rep cSP k).
Proof. intros H. unfold rep in H. apply repeat_spec in H. discriminate. Qed.

Lemma spaces_blank k : blank (rep cSP k) = true.
Proof. induction k; auto. Qed.

Lemma settles_strip s : settles s -> settles (rstrip_spaces (lstrip_spaces s)).
Proof.
  intros H.
  assert (H1 : settles (lstrip_spaces s)).
  { destruct (lstrip_split s) as (k & E & _). set (v := lstrip_spaces s) in *. unfold settles in *. cbv zeta in *.
    destruct (split_lines v) as [|l ls] eqn:Ev; [exfalso; revert Ev; apply split_lines_ne|].
    rewrite E, (split_front _ _ _ _ (spaces_no_nl k) Ev) in H. cbn [hd] in *.
    destruct H as [Ha Hb]. rewrite blank_app, spaces_blank in Ha. cbn [andb] in Ha. split; auto.
    destruct ls as [|x ls] using rev_ind.
    - cbn [rev app lead_blank]. rewrite Ha. lia.
    - clear IHls. rewrite !app_comm_cons, !rev_app_distr in *. cbn [rev app lead_blank] in *.
      destruct (blank x); [|lia].
      destruct (rev ls) as [|y q] eqn:Eq; cbn [app lead_blank] in *.
      + rewrite blank_app, spaces_blank in Hb. exact Hb.
      + destruct (blank y); lia. }
  set (u := lstrip_spaces s) in *. clearbody u. clear H s.
  destruct (rstrip_spaces_split u) as (k & E). set (v := rstrip_spaces u) in *. clearbody v.
  unfold settles in *. cbv zeta in *.
  destruct (exists_last (split_lines_ne v)) as (init & x & Ev). rewrite E, (split_back _ _ (spaces_no_nl k) _ _ Ev) in H1.
  rewrite Ev. rewrite !rev_app_distr in *. cbn [rev app lead_blank] in *. rewrite blank_app, spaces_blank, andb_true_r in H1.
  destruct init as [|i init]; cbn [app hd] in *.
  - rewrite blank_app, spaces_blank, andb_true_r in H1. exact H1.
  - exact H1.
Qed.

Lemma clean_ok n keep ls : Forall line_ok ls -> Forall line_ok (clean_lines n keep ls).
Proof.
  intros H. pose proof (lw_clean_lines n keep ls) as HF. induction HF as [|l l' ls0 ls' Hl HF IH]; constructor.
  - inversion H as [|? ? [Ha Hb] _]; subst. split; intros Hi; [apply Ha|apply Hb]; eapply lw_in; eauto.
  - apply IH. inversion H; auto.
Qed.

Theorem settles_trimmed s : ~ In cCR s -> settles s -> trimmed (trimmed s) = trimmed s.
Proof.
  intros Hcr0 Hset0. unfold trimmed at 2 3. rewrite <- ws_forall.
  destruct (is_all_xml_whitespace s) eqn:Ews; [reflexivity|].
  set (u := rstrip_spaces (lstrip_spaces s)).
  assert (Hset : settles u) by (apply settles_strip; auto).
  assert (Hcr : ~ In cCR u).
  { intros H. apply Hcr0. destruct (lstrip_split s) as (k & E & _). destruct (rstrip_spaces_split (lstrip_spaces s)) as (j & Ej).
    rewrite E, Ej. apply in_or_app. right. apply in_or_app. auto. }
  assert (Hfront : u = [] \/ hd 0 u <> cSP).
  { unfold u. destruct (lstrip_split s) as (k & _ & H). destruct (rstrip_spaces_split (lstrip_spaces s)) as (j & Ej).
    destruct (rstrip_spaces (lstrip_spaces s)) as [|x q]; auto. right. rewrite Ej in H. destruct H; [discriminate|]. exact H. }
  assert (Hend : u = [] \/ exists p c, u = p ++ [c] /\ c <> cSP) by apply rstrip_spaces_end.
  clearbody u. clear Ews Hset0 Hcr0 s.
  pose proof (split_line_ok u Hcr) as HF. pose proof (join_split u) as Eu.
  destruct Hset as [Hb Hbot].
  destruct (split_lines u) as [|l0 rest] eqn:Es; [exfalso; revert Es; apply split_lines_ne|]. cbn [hd] in Hb.
  assert (Hu : u <> []) by (intros ->; cbn in Es; injection Es as <- <-; discriminate).
  destruct Hfront as [|Hfront]; [congruence|]. destruct Hend as [|(p & c & Ep & Hc)]; [congruence|].
  assert (Hl0 : hd 0 l0 <> cSP).
  { destruct l0 as [|x l0]; [discriminate|]. cbn [hd]. rewrite <- Eu in Hfront.
    destruct rest; [exact Hfront|rewrite join_cons in Hfront by discriminate; exact Hfront]. }
  destruct rest as [|l1 rest].
  { assert (Ed : dedent u = u) by (unfold dedent; rewrite Es; reflexivity).
    rewrite Ed. apply (stable_text u l0 [] p c); auto. congruence. }
  assert (HF0 := Forall_inv HF). assert (HFr := Forall_inv_tail HF).
  (* the first line of the result *)
  assert (Hr0 : blank (rstrip l0) = false) by now apply blank_rstrip.
  assert (Hrh : hd 0 (rstrip l0) <> cSP).
  { destruct (rstrip_split l0) as (w & E & _). destruct (rstrip l0) as [|x q]; [discriminate|]. rewrite E in Hl0. exact Hl0. }
  assert (Hrok : line_ok (rstrip l0)) by now apply rstrip_line_ok.
  assert (Hone : trimmed (rstrip l0) = rstrip l0).
  { destruct (rstrip_ends l0 HF0 Hb) as (x & d & E & Hd).
    apply (stable_text (rstrip l0) (rstrip l0) [] x d); auto.
    - apply Hrok.
    - rewrite <- (split_join [rstrip l0]); [reflexivity|discriminate|]. constructor; [apply Hrok|constructor].
    - intros ->. discriminate.
    - congruence. }
  (* general case *)
  assert (Hmany : forall core keep, core <> [] -> Forall line_ok core -> blank (last core []) = false -> hd [] core = l1 ->
     (keep = true -> exists q e, last core [] = q ++ [e] /\ e <> cSP) ->
     trimmed (join_lines (rstrip l0 :: clean_lines (min_list 0 (columns l1 :: used_columns core)) keep core))
     = join_lines (rstrip l0 :: clean_lines (min_list 0 (columns l1 :: used_columns core)) keep core)).
  { intros core keep Hne HFc Hlast Hh Hk. rewrite <- Hh. set (n := min_list _ _).
    set (ls := clean_lines n keep core).
    assert (Hlsne : ls <> []) by (apply clean_ne; auto).
    assert (Hlsok : Forall line_ok (rstrip l0 :: ls)) by (constructor; auto; apply clean_ok; auto).
    assert (Hl : last ls [] = if keep then drop_columns n (last core []) else clean_line n (last core [])) by (apply clean_last; auto).
    assert (Hlb : blank (last ls []) = false).
    { rewrite Hl. unfold clean_line. rewrite Hlast. destruct keep; rewrite drop_columns_blank; auto. now apply blank_rstrip. }
    assert (He : exists q e, last ls [] = q ++ [e] /\ e <> cSP).
    { assert (Hsuf : forall y m, blank y = false -> (exists q e, y = q ++ [e] /\ e <> cSP) -> exists q e, drop_columns m y = q ++ [e] /\ e <> cSP).
      { intros y m Hy (q & e & Ey & He). destruct (drop_columns_suffix y m) as (w & E & Hw).
        destruct (drop_columns m y) as [|z zs] using rev_ind.
        - rewrite app_nil_r in E. subst. congruence.
        - exists zs, z. split; auto. rewrite Ey, app_assoc in E. apply app_inj_tail in E. destruct E; congruence. }
      rewrite Hl. destruct keep.
      - apply Hsuf; auto.
      - unfold clean_line. rewrite Hlast. apply Hsuf; [now apply blank_rstrip|].
        assert (Hok : line_ok (last core [])).
        { destruct (exists_last Hne) as (q & y & E). rewrite E in HFc |- *. rewrite last_last. apply Forall_app in HFc. destruct HFc as [_ HFc]. exact (Forall_inv HFc). }
        destruct (rstrip_ends _ Hok Hlast) as (x & d & E & Hd). exists x, d. split; auto. intros ->. discriminate. }
    destruct He as (q & e & Eq & He).
    destruct (join_ends_with (rstrip l0 :: ls)) as [pp Epp]; [discriminate|].
    rewrite last_cons, Eq, app_assoc in Epp by auto.
    apply (stable_text _ (rstrip l0) ls (pp ++ q) e); auto.
    - intros Hin. clear -Hlsok Hin. revert Hin. generalize dependent (rstrip l0 :: ls). intros L HL Hin.
      induction HL as [|x L [H1 H2] HL IH]; [destruct Hin|]. destruct L as [|y L]; [exact (H2 Hin)|].
      rewrite join_cons in Hin by discriminate. apply in_app_or in Hin. destruct Hin as [Hin|[Hin|Hin]]; auto. discriminate.
    - apply split_join; [discriminate|]. eapply Forall_impl; [|exact Hlsok]. intros x Hx. apply Hx.
    - intros _. split; [apply rstrip_idem|]. split; [apply clean_stripped|]. split; auto.
      apply level_clean; auto. }
  unfold dedent. rewrite Es.
  destruct (Nat.eqb_spec (List.length (l0 :: l1 :: rest)) 1) as [Hn|_]; [discriminate|].
  destruct (exists_last (l := l1 :: rest) ltac:(discriminate)) as (init & y & Ei).
  rewrite Ei in *. rewrite app_comm_cons, rev_app_distr in *. cbn [rev app lead_blank] in *.
  assert (Hlen : List.length (l0 :: init ++ [y]) = S (S (List.length init))) by (cbn; rewrite app_length; cbn; lia).
  rewrite Hlen. cbn [nth].
  assert (Hnth : nth 0 (init ++ [y]) [] = l1) by (rewrite <- Ei; reflexivity). rewrite Hnth.
  destruct (blank y) eqn:Hy.
  - (* one blank line at the bottom *)
    destruct (lead_blank (rev init ++ [l0])) eqn:Eb; [|lia]. cbn [Nat.eqb].
    replace (S (S (List.length init)) - 1)%nat with (S (List.length init)) by lia. cbn [firstn].
    rewrite firstn_app, Nat.sub_diag, firstn_all. cbn [firstn]. rewrite app_nil_r.
    rewrite lead_blank_zero by auto. cbn [Nat.eqb Nat.sub repeat app]. rewrite app_nil_r.
    destruct init as [|i init].
    + cbn [clean_lines join_lines]. exact Hone.
    + apply Hmany.
      * discriminate.
      * apply Forall_app in HFr. tauto.
      * destruct (rev_last (i :: init)) as [r Er]; [discriminate|]. rewrite Er in Eb. cbn [app lead_blank] in Eb.
        destruct (blank (last (i :: init) [])); [discriminate|reflexivity].
      * exact Hnth.
      * discriminate.
  - cbn [Nat.eqb]. rewrite Nat.sub_0_r. rewrite <- Hlen, firstn_all.
    rewrite lead_blank_zero by auto. cbn [Nat.eqb Nat.sub repeat app]. rewrite app_nil_r.
    apply Hmany.
    + destruct init; discriminate.
    + exact HFr.
    + rewrite last_last. exact Hy.
    + rewrite <- Hnth. destruct init; reflexivity.
    + intros _. rewrite last_last. rewrite app_comm_cons in Eu. rewrite join_snoc in Eu by discriminate. rewrite Ep in Eu.
      destruct y as [|z zs] using rev_ind; [discriminate|]. exists zs, z. split; auto.
      rewrite app_comm_cons, app_assoc in Eu. apply app_inj_tail in Eu. destruct Eu; congruence.
Qed.
