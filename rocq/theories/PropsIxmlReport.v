(** C78: the report of a text that is not parsed with an ixml grammar. *)
From Coq Require Import NArith ZArith List Bool Arith String Lia.
From Verif Require Import Bytes BytesFacts Outcome Utf8 Utf8Proofs Printer Ixml IxmlSpec IxmlTrans IxmlLang IxmlParse IxmlUse IxmlWrite Yaep YaepSpec YaepGram YaepProofs YaepParse YaepCache IxmlRun IxmlReport PropsIxml PropsYaep PropsYaepParse PropsYaepCache PropsIxmlRun.
Import ListNotations.
Local Open Scope list_scope.

(** * Specification *)
(** The lines that end before the character number n (from 0), and the characters of its line before it *)
Definition lines_before (w : word) (n : nat) : nat := count_occ Z.eq_dec (firstn n w) 10%Z.
Inductive in_line : word -> nat -> Prop :=
| line_first l : ~ In 10%Z l -> in_line l (List.length l)
| line_later p l : ~ In 10%Z l -> in_line (p ++ 10%Z :: l) (List.length l).
(** The line that is printed first *)
Definition heading (line col : nat) : bytes :=
  B "ixml:" ++ decimal (N.of_nat line) ++ B ":" ++ decimal (N.of_nat col) ++ B ": syntax error" ++ [10%N].
(** The mark below the text *)
Definition caret (spaces : nat) : bytes := repeat 32%N spaces ++ B "^" ++ [10%N].

(** * Proofs *)
Definition col_of (lines k : nat) : N := N.of_nat (if (lines =? 0)%nat then S k else k).
Lemma line_col w : Forall code_ok w -> forall n p k, n <= List.length w -> in_line p k ->
  exists j, in_line (p ++ firstn n w) j /\
  find_line_col n (utf8 w) (N.of_nat (S (count_occ Z.eq_dec p 10%Z))) (col_of (count_occ Z.eq_dec p 10%Z) k) =
    Ok (N.of_nat (S (count_occ Z.eq_dec (p ++ firstn n w) 10%Z)), col_of (count_occ Z.eq_dec (p ++ firstn n w) 10%Z) j).
Proof.
  induction 1 as [|c w Hc Hw IH]; intros n p k Hl Hp.
  - exists k. rewrite firstn_nil, app_nil_r. split; [exact Hp|]. destruct n; reflexivity.
  - destruct n as [|n]; [exists k; cbn [firstn]; rewrite app_nil_r; split; [exact Hp|reflexivity]|]. cbn [firstn List.length] in *. unfold code_ok in Hc.
    assert (D : decode_utf8 (utf8_spec (Z.to_N c) ++ utf8 w) = DecOk (Z.to_N c) (List.length (utf8_spec (Z.to_N c)))) by (apply decode_spec; lia).
    assert (Eu : utf8 (c :: w) = utf8_spec (Z.to_N c) ++ utf8 w) by reflexivity.
    assert (K : skipn (List.length (utf8_spec (Z.to_N c))) (utf8_spec (Z.to_N c) ++ utf8 w) = utf8 w) by (rewrite skipn_app, skipn_all, Nat.sub_diag; reflexivity).
    rewrite Eu. cbn [find_line_col]. destruct (utf8_spec (Z.to_N c) ++ utf8 w) as [|b s] eqn:Es; [discriminate D|]. rewrite D, K. clear Es D K Eu.
    replace (p ++ c :: firstn n w) with ((p ++ [c]) ++ firstn n w) by now rewrite <- app_assoc.
    destruct (Z.to_N c =? 10)%N eqn:E.
    + assert (c = 10%Z) by (apply N.eqb_eq in E; lia). subst c. destruct (IH n (p ++ [10%Z]) 0%nat) as (j & J1 & J2); [lia|apply (line_later p []); intros []|]. exists j. split; [exact J1|].
      assert (Ec : count_occ Z.eq_dec (p ++ [10%Z]) 10%Z = S (count_occ Z.eq_dec p 10%Z)) by (rewrite count_occ_app; cbn; lia).
      etransitivity; [|exact J2]. rewrite Ec. unfold col_of. cbn [Nat.eqb]. f_equal. lia.
    + assert (Hn : c <> 10%Z) by (apply N.eqb_neq in E; lia). destruct (IH n (p ++ [c]) (S k)) as (j & J1 & J2); [lia| |].
      { destruct Hp as [l Hl'|q l Hl'].
        - replace (S (List.length l)) with (List.length (l ++ [c])) by (rewrite app_length; cbn [List.length]; lia). apply line_first. rewrite in_app_iff. intros [X|[X|[]]]; auto.
        - rewrite <- app_assoc. cbn [app]. replace (S (List.length l)) with (List.length (l ++ [c])) by (rewrite app_length; cbn [List.length]; lia). apply line_later. rewrite in_app_iff. intros [X|[X|[]]]; auto. }
      exists j. split; [exact J1|].
      assert (Ec : count_occ Z.eq_dec (p ++ [c]) 10%Z = count_occ Z.eq_dec p 10%Z) by (rewrite count_occ_app, (count_occ_cons_neq Z.eq_dec [] Hn); cbn; lia).
      etransitivity; [|exact J2]. rewrite Ec. f_equal. unfold col_of. destruct (_ =? 0)%nat; lia.
Qed.
Lemma place w n : Forall code_ok w -> n <= List.length w -> exists j, in_line (firstn n w) j /\
  find_line_col n (utf8 w) 1%N 1%N = Ok (N.of_nat (S (lines_before w n)), col_of (lines_before w n) j).
Proof. intros Hw Hn. destruct (line_col w Hw n [] 0%nat Hn) as (j & J1 & J2); [apply (line_first []); intros []|]. exists j. split; [exact J1|exact J2]. Qed.
Lemma show_ok n : forall mem aft, exists s, shown_from n (mem ++ 0%N :: aft) = Ok s.
Proof. induction n as [|n IH]; intros mem aft; [now exists []|]. destruct mem as [|b mem]; [now exists []|]. cbn [app shown_from]. destruct (b =? 0)%N; [now exists []|]. destruct (IH mem aft) as (s & ->). now exists (b :: s). Qed.
Lemma show_bytes n : forall mem aft, ~ In 0%N mem -> shown_from n (mem ++ 0%N :: aft) = Ok (firstn n mem).
Proof.
  induction n as [|n IH]; intros mem aft H; [reflexivity|]. destruct mem as [|b mem]; [reflexivity|]. cbn [app shown_from firstn]. destruct (b =? 0)%N eqn:E; [elim H; left; apply N.eqb_eq in E; auto|]. rewrite IH by (intros X; apply H; right; exact X). reflexivity.
Qed.
Lemma skipn_past n (c aft : bytes) : n <= List.length c -> skipn n (c ++ aft) = skipn n c ++ aft.
Proof. intros H. rewrite skipn_app. replace (n - List.length c) with 0 by lia. reflexivity. Qed.
Lemma around (w : word) n : n <= List.length w -> firstn (n + 20 - (n - 20)) (skipn (n - 20) w) = skipn (n - 20) (firstn n w) ++ firstn 20 (skipn n w).
Proof.
  intros Hn. rewrite <- (firstn_skipn n w) at 1. assert (L : List.length (firstn n w) = n) by (rewrite firstn_length; lia).
  rewrite skipn_app, L. replace (n - 20 - n) with 0 by lia. rewrite skipn_O, firstn_app, skipn_length, L.
  rewrite firstn_all2 by (rewrite skipn_length, L; lia). do 2 f_equal. lia.
Qed.
Lemma utf8_length w : List.length w <= List.length (utf8 w).
Proof.
  induction w as [|c w IH]; [apply le_n|]. unfold utf8 in *. cbn [map List.concat List.length]. rewrite app_length.
  assert (L : (1 <= List.length (utf8_spec (Z.to_N c)))%nat) by (unfold utf8_spec; repeat match goal with |- context[if ?b then _ else _] => destruct b end; cbn [List.length]; lia). lia.
Qed.
Definition ascii (c : Z) : Prop := (0 < c < 128)%Z.
Lemma ascii_utf8 w : Forall ascii w -> utf8 w = map Z.to_N w /\ ~ In 0%N (utf8 w).
Proof.
  induction 1 as [|c w Hc _ (IH1 & IH2)]; [split; [reflexivity|intros []]|]. unfold ascii in Hc. unfold utf8 in *. cbn [map List.concat].
  assert (E : utf8_spec (Z.to_N c) = [Z.to_N c]). { unfold utf8_spec. destruct (Z.to_N c <? 128)%N eqn:X; [reflexivity|]. apply N.ltb_ge in X. lia. }
  rewrite E. cbn [app]. split; [now rewrite IH1|]. intros [X|X]; [lia|contradiction].
Qed.

(** What the parser says of the place *)
Lemma error_spec G src w n : w_grammar G src -> ok_grammar G = true -> Forall code_ok w -> error_token (built G) (utf8 w) = Some n ->
  exists y g', use_grammar (built G) (utf8 w) = IOk (y, g') /\ n <= List.length w /\
  (no_empty_pair y -> (n < List.length w -> forall v, incl v w -> ~ describes G (firstn (S n) w ++ v)) /\ ~ describes G w).
Proof.
  intros HG Hok Hw He. unfold built in *. destruct (use_spec_more G src w HG Hok Hw) as (y & g' & U1 & U2 & (U3 & U4) & U5a & U5b). rewrite lit_rules in U3. exists y, g'. split; [exact U1|].
  assert (Hno : names_ok y) by (eapply handed_names; eassumption). assert (Hp : plain y) by (eapply handed_plain; eassumption).
  assert (Hx : exists start, starts y start) by (eapply handed_starts; eassumption). destruct Hx as (start & Hst).
  assert (Hd : forall v, incl v w -> (derives y v <-> steps (y_rules y) [start] (map term_name v))) by (intros v Hv; eapply derives_steps; eassumption).
  unfold error_token in He. rewrite U1, scan_spec in He by (try exact Hw; lia). destruct (yaep_read_grammar false y) as [[(s & f)|]| | | |] eqn:E; try discriminate He.
  destruct (code_range (coded y)) as [(lo & hi)|] eqn:Er; [|discriminate He].
  assert (Hsm : Forall small (w ++ literals G)). { destruct (Forall_dec small (fun c => Z_lt_dec c 199998) (w ++ literals G)) as [X|X]; [exact X|]. exfalso. assert (code_range (coded y) = None) by (eapply range_none; eassumption). congruence. }
  assert (Hq : exists lo hi, code_range (coded y) = Some (lo, hi) /\ forall t, In t (coded y) -> (lo <= snd t <= hi)%Z) by (eapply range_ok; eassumption). destruct Hq as (lo' & hi' & Er' & Hr). rewrite Er in Er'. injection Er' as <- <-.
  assert (Hrd : read_tokens (coded y) lo hi (w ++ [END_MARKER_CODE]) = Ok (Some (text (map term_name w)))) by (eapply read_w; try eassumption; apply incl_refl). rewrite Hrd in He.
  assert (Ht : tokens y (map term_name w)) by (eapply handed_tokens; try eassumption; apply incl_refl).
  destruct (parse_facts false y s f start (map term_name w) E Hp Hst Ht) as (e & sets & P1 & P2). destruct (C76_same_sets s f _ e sets P1) as (hits & P3). rewrite P3 in He. subst e. rewrite map_length in P2. destruct P2 as (_ & P2 & _ & P4). split; [exact P2|].
  intros C. specialize (P4 C). split.
  - intros Hl v Hv Dg. replace (n <? List.length w) with true in P4 by (symmetry; now apply Nat.ltb_lt). apply (P4 (map term_name v)).
    assert (Hi : incl (firstn (S n) w ++ v) w). { intros c Hc. apply in_app_iff in Hc as [Hc|Hc]; [|now apply Hv]. rewrite <- (firstn_skipn (S n) w). apply in_app_iff. now left. }
    rewrite firstn_map, <- map_app. apply Hd; [exact Hi|]. now apply U5b.
  - intros Dg. apply (U5b w (incl_refl w)) in Dg. apply (Hd w (incl_refl w)) in Dg. destruct (n <? List.length w) eqn:El; [|contradiction].
    apply (P4 (map term_name (skipn (S n) w))). rewrite firstn_map, <- map_app, firstn_skipn. exact Dg.
Qed.

(** * C78 *)
(** Full statement: when a text is not parsed, the line and the column of the first
    character that cannot be part of any text with the same start are printed, and the
    text around it with a mark below it.  Missing: the column is one less in all lines but the first; the text that is
    shown is the one around the place if it has one byte for each character; and the place is the first one if no rule starts with
    two symbols that can be empty.

    The line is that of the error, and the column is that in the first line; no text of
    the characters of the content that starts like the content up to and with the one
    at this place is described. *)
Theorem C78_place_partial : forall G src w aft n,
  w_grammar G src -> ok_grammar G = true -> Forall code_ok w ->
  exists fuel0, forall fuel g, fuel0 <= fuel -> ixml_build fuel src = IOk g -> error_token g (utf8 w) = Some n ->
  exists k y g', in_line (firstn n w) k /\ n <= List.length w /\ use_grammar g (utf8 w) = IOk (y, g') /\
    (forall out, report g (utf8 w) aft = Ok out ->
      exists rest, out = heading (S (lines_before w n)) (if (lines_before w n =? 0)%nat then S k else k) ++ rest) /\
    (no_empty_pair y -> ~ describes G w /\ (n < List.length w -> forall v, incl v w -> ~ describes G (firstn (S n) w ++ v))).
Proof.
  intros G src w aft n HG Hok Hw. destruct (run_build G src HG Hok) as (fuel0 & Hb). exists fuel0. intros fuel g Hf Eg He. rewrite (Hb fuel Hf) in Eg. injection Eg as <-. destruct (error_spec G src w n HG Hok Hw He) as (y & g' & U & Hn & A). destruct (place w n Hw Hn) as (k & K1 & K2). exists k, y, g'. split; [exact K1|]. split; [exact Hn|]. split; [exact U|]. split.
  - intros out Ho. unfold report in Ho. rewrite He in Ho. unfold syntax_error in Ho. rewrite K2 in Ho. cbn [obind] in Ho. destruct (shown_from _ _) as [s| | | |]; try discriminate Ho. cbn [obind] in Ho. injection Ho as <-. eexists. unfold heading, col_of. rewrite <- !app_assoc. reflexivity.
  - intros C. destruct (A C) as (A1 & A2). auto.
Qed.
(** With a zero behind the content there is always a report; *)
Theorem C78_ends : forall G src w aft,
  w_grammar G src -> ok_grammar G = true -> Forall code_ok w ->
  exists fuel0, forall fuel g, fuel0 <= fuel -> ixml_build fuel src = IOk g -> exists out, report g (utf8 w) (0%N :: aft) = Ok out.
Proof.
  intros G src w aft HG Hok Hw. destruct (run_build G src HG Hok) as (fuel0 & Hb). exists fuel0. intros fuel g Hf Eg. rewrite (Hb fuel Hf) in Eg. injection Eg as <-. unfold report. destruct (error_token (built G) (utf8 w)) as [n|] eqn:He; [|now exists []]. destruct (error_spec G src w n HG Hok Hw He) as (y & g' & _ & Hn & _). destruct (place w n Hw Hn) as (k & _ & K2).
  unfold syntax_error. rewrite K2. cbn [obind]. pose proof (utf8_length w). rewrite skipn_past by lia. destruct (show_ok (n + 20 - (n - 20)) (skipn (n - 20) (utf8 w)) aft) as (s & ->). cbn [obind]. eexists. reflexivity.
Qed.
(** and for a text of ascii characters it shows up to 20 characters before the place
    and up to 20 from it on, with the mark below the one at the place. *)
Theorem C78_shown : forall G src w aft n,
  w_grammar G src -> ok_grammar G = true -> Forall ascii w ->
  exists fuel0, forall fuel g, fuel0 <= fuel -> ixml_build fuel src = IOk g -> error_token g (utf8 w) = Some n ->
  exists head before after, report g (utf8 w) (0%N :: aft) = Ok (head ++ before ++ after ++ [10%N] ++ caret (List.length before)) /\
    (exists line col, head = heading line col) /\
    before = map Z.to_N (skipn (n - 20) (firstn n w)) /\ after = map Z.to_N (firstn 20 (skipn n w)).
Proof.
  intros G src w aft n HG Hok Ha. destruct (run_build G src HG Hok) as (fuel0 & Hb). exists fuel0. intros fuel g Hf Eg He. rewrite (Hb fuel Hf) in Eg. injection Eg as <-. assert (Hw : Forall code_ok w) by (eapply Forall_impl; [|exact Ha]; intros c Hc; unfold ascii in Hc; unfold code_ok; lia).
  destruct (error_spec G src w n HG Hok Hw He) as (y & g' & _ & Hn & _). destruct (place w n Hw Hn) as (k & _ & K2). destruct (ascii_utf8 w Ha) as (Eu & Hz).
  exists (heading (S (lines_before w n)) (if (lines_before w n =? 0)%nat then S k else k)), (map Z.to_N (skipn (n - 20) (firstn n w))), (map Z.to_N (firstn 20 (skipn n w))). split; [|split; [eexists _, _; reflexivity|split; reflexivity]].
  unfold report. rewrite He. unfold syntax_error. rewrite K2. cbn [obind]. pose proof (utf8_length w) as Lw. rewrite skipn_past by lia.
  rewrite show_bytes by (intros X; apply Hz; rewrite <- (firstn_skipn (n - 20) (utf8 w)); apply in_app_iff; right; exact X). cbn [obind].
  assert (Es : firstn (n + 20 - (n - 20)) (skipn (n - 20) (utf8 w)) = map Z.to_N (skipn (n - 20) (firstn n w)) ++ map Z.to_N (firstn 20 (skipn n w))).
  { rewrite Eu, skipn_map, firstn_map, around by exact Hn. apply map_app. }
  rewrite Es. unfold heading, caret, col_of. rewrite <- !app_assoc. rewrite map_length, skipn_length, firstn_length. replace (Nat.min n (List.length w) - (n - 20)) with (n - (n - 20)) by lia. reflexivity.
Qed.

(** * Cases *)
(** a: "x", #a, "y"*. *)
Definition two_G : grammar := [ru "a" (AOne (seq [TOne (str "x"); TOne (FHex 0 10); TStar (str "y")]))].
(** a: #e9, "x". *)
Definition acute_G : grammar := [ru "a" (AOne (seq [TOne (FHex 0 233); TOne (str "x")]))].
Definition two_text : word := w1 "x" ++ [10%Z] ++ w1 "yzy".
Example two_meets : w_grammar two_G (p_rules two_G) /\ ok_grammar two_G = true /\ Forall code_ok two_text /\ error_token (built two_G) (utf8 two_text) = Some 3.
Proof. split; [apply p_grammar_ok; reflexivity|]. split; [reflexivity|]. split; [apply ok_codes; reflexivity|vm_compute; reflexivity]. Qed.
Example two_ascii : Forall ascii two_text.
Proof. unfold two_text, ascii. vm_compute. repeat (apply Forall_cons; [split; reflexivity|]). apply Forall_nil. Qed.
(** The report of the first line is right: line 1, column 3 *)
Example first_line : report (built run_G) (utf8 (w1 "xyx")) [0%N] = Ok (heading 1 3 ++ B "xyx" ++ [10%N] ++ caret 2) /\ error_token (built run_G) (utf8 (w1 "xyx")) = Some 2.
Proof. split; vm_compute; reflexivity. Qed.
(** In the second line the z is in column 2, and column 1 is printed. *)
Theorem C78_column_refuted : exists G src w n k,
  w_grammar G src /\ ok_grammar G = true /\ Forall code_ok w /\ in_line (firstn n w) k /\
  exists fuel0, forall fuel g, fuel0 <= fuel -> ixml_build fuel src = IOk g -> error_token g (utf8 w) = Some n /\
    exists rest, report g (utf8 w) [0%N] = Ok (heading 2 k ++ rest) /\ forall r, heading 2 k ++ rest <> heading 2 (S k) ++ r.
Proof.
  exists two_G, (p_rules two_G), two_text, 3, 1. destruct two_meets as (M1 & M2 & M3 & M4). split; [exact M1|]. split; [exact M2|]. split; [exact M3|]. split; [apply (line_later (w1 "x") (w1 "y")); intros [X|[]]; discriminate X|].
  destruct (run_build two_G _ M1 M2) as (f0 & Hb). exists f0. intros fuel g Hf Eg. rewrite (Hb fuel Hf) in Eg. injection Eg as <-. split; [exact M4|]. exists (B "x" ++ [10%N] ++ B "yzy" ++ [10%N] ++ caret 3). split; [vm_compute; reflexivity|].
  intros r E. vm_compute in E. discriminate E.
Qed.
(** Without a zero behind the content memory behind it is read. *)
Theorem C78_overrun_refuted : exists G src w,
  w_grammar G src /\ ok_grammar G = true /\ Forall code_ok w /\
  exists fuel0, forall fuel g, fuel0 <= fuel -> ixml_build fuel src = IOk g -> report g (utf8 w) [] = UB.
Proof.
  exists two_G, (p_rules two_G), two_text. destruct two_meets as (M1 & M2 & M3 & M4). split; [exact M1|]. split; [exact M2|]. split; [exact M3|].
  destruct (run_build two_G _ M1 M2) as (f0 & Hb). exists f0. intros fuel g Hf Eg. rewrite (Hb fuel Hf) in Eg. injection Eg as <-. vm_compute. reflexivity.
Qed.
(** Characters of more than one byte: the mark is below the x, the second character
    of three, and the error is at the third, y: what is shown before the mark is not
    the text before the error. *)
Theorem C78_mark_refuted : exists G src w n line col,
  w_grammar G src /\ ok_grammar G = true /\ Forall code_ok w /\ ~ Forall ascii w /\
  exists fuel0, forall fuel g, fuel0 <= fuel -> ixml_build fuel src = IOk g -> error_token g (utf8 w) = Some n /\
    report g (utf8 w) [0%N] = Ok (heading line col ++ utf8 w ++ [10%N] ++ caret 2) /\
    firstn 2 (utf8 w) <> utf8 (firstn n w) /\ nth 2 (utf8 w) 0%N = 120%N /\ nth n w 0%Z = 121%Z.
Proof.
  exists acute_G, (p_rules acute_G), ([233%Z] ++ w1 "xy"), 2, 1, 3. pose proof (p_grammar_ok acute_G eq_refl) as M1. split; [exact M1|]. split; [reflexivity|]. split; [apply ok_codes; reflexivity|].
  split; [intros X; inversion X as [|? ? Y _]; subst; unfold ascii in Y; lia|].
  destruct (run_build acute_G _ M1 eq_refl) as (f0 & Hb). exists f0. intros fuel g Hf Eg. rewrite (Hb fuel Hf) in Eg. injection Eg as <-. split; [vm_compute; reflexivity|]. split; [vm_compute; reflexivity|]. split; [vm_compute; discriminate|]. split; reflexivity.
Qed.

Print Assumptions C78_place_partial.
Print Assumptions C78_ends.
Print Assumptions C78_shown.
Print Assumptions C78_column_refuted.
Print Assumptions C78_overrun_refuted.
Print Assumptions C78_mark_refuted.
