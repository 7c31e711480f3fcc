(** Proofs about quoting as a C string. *)
From Coq Require Import NArith ZArith List Bool Arith Lia.
From Verif Require Import Bytes BytesFacts Utf8 Utf8Proofs Outcome Parser CQuote ParserSpec ParserProofs.
Import ListNotations.
Local Open Scope N_scope.

(** ** Specification: what the inside of a C string denotes *)
Definition c_escapes : list (N * N) := [(cBSL, cBSL); (cDQ, cDQ); (97, 7); (98, 8); (116, 9); (110, 10); (118, 11); (102, 12); (114, 13)].
Definition hex_val (c : N) : option N := if in_range 48 57 c then Some (c - 48) else if in_range 65 70 c then Some (c - 55) else None.
Inductive c_string : bytes -> bytes -> Prop :=
| cs_nil : c_string [] []
| cs_plain c o s : 32 <= c <= 126 \/ 128 <= c -> c <> cDQ -> c <> cBSL -> c_string o s -> c_string (c :: o) (c :: s)
| cs_escape e c o s : In (e, c) c_escapes -> c_string o s -> c_string (cBSL :: e :: o) (c :: s)
| cs_hex h l a b o s : hex_val h = Some a -> hex_val l = Some b -> c_string o s ->
    c_string (cBSL :: 120 :: h :: l :: o) (a * 16 + b :: s).

(** A string denotes one text only. *)
Lemma escapes_fun e c c' : In (e, c) c_escapes -> In (e, c') c_escapes -> c = c'.
Proof. intros H H'. unfold c_escapes, cBSL, cDQ in *. cbn in H, H'. repeat destruct H as [H|H]; try contradiction; injection H as <- <-; repeat destruct H' as [H'|H']; try contradiction; congruence. Qed.
Lemma escape_x c : ~ In (120, c) c_escapes.
Proof. intros H. cbn in H. repeat destruct H as [H|H]; try discriminate H. exact H. Qed.
Theorem c_string_unique o s : c_string o s -> forall s', c_string o s' -> s = s'.
Proof.
  induction 1 as [|c o s Hc N1 N2 H IH|e c o s He H IH|h l a b o s Ha Hb H IH]; intros s' H'; inversion H'; subst; try congruence.
  - f_equal. auto.
  - f_equal; [eapply escapes_fun; eauto|auto].
  - exfalso. eapply escape_x. eassumption.
  - exfalso. eapply escape_x. eassumption.
  - rewrite Ha in *. rewrite Hb in *. repeat match goal with E : Some _ = Some _ |- _ => injection E as <- end. f_equal. auto.
Qed.
(** No control character, and each quote has a backslash before it. *)
Lemma c_string_printable o s : c_string o s -> forall c, In c o -> 32 <= c <= 126 \/ 128 <= c.
Proof.
  assert (X : forall h a, hex_val h = Some a -> 32 <= h <= 126).
  { unfold hex_val, in_range. intros h a. destruct ((48 <=? h) && (h <=? 57)) eqn:E; [rewrite andb_true_iff, !N.leb_le in E; lia|].
    destruct ((65 <=? h) && (h <=? 70)) eqn:E2; [rewrite andb_true_iff, !N.leb_le in E2; lia|discriminate]. }
  induction 1 as [|c o s Hc N1 N2 H IH|e c o s He H IH|h l a b o s Ha Hb H IH]; intros d I.
  - destruct I.
  - destruct I as [<-|I]; auto.
  - destruct I as [<-|[<-|I]]; auto; [unfold cBSL; lia|]. left. cbn in He. unfold cBSL, cDQ in He. repeat destruct He as [He|He]; try contradiction; injection He as <- <-; lia.
  - destruct I as [<-|[<-|[<-|[<-|I]]]]; auto; [unfold cBSL; lia|lia| |]; left; eauto.
Qed.

(** ** Quoting *)
Lemma hex_spec n : n < 16 -> hex_val (to_hex n) = Some n.
Proof.
  intros H. unfold to_hex, hex_val, in_range. destruct (N.leb_spec n 9).
  - replace (48 <=? 48 + n) with true by (symmetry; apply N.leb_le; lia). replace (48 + n <=? 57) with true by (symmetry; apply N.leb_le; lia). cbn [andb]. f_equal. lia.
  - replace (65 - 10 + n <=? 57) with false by (symmetry; apply N.leb_gt; lia). rewrite andb_false_r.
    replace (65 <=? 65 - 10 + n) with true by (symmetry; apply N.leb_le; lia). replace (65 - 10 + n <=? 70) with true by (symmetry; apply N.leb_le; lia). cbn [andb]. f_equal. lia.
Qed.
Lemma escape_spec c o s : c < 128 -> c_string o s -> c_string (escape_c c ++ o) (c :: s).
Proof.
  intros Hc H. unfold escape_c.
  destruct ((32 <=? c) && (c <=? 126) && negb (c =? cDQ) && negb (c =? cBSL)) eqn:E.
  { rewrite !andb_true_iff, !N.leb_le, !negb_true_iff, !N.eqb_neq in E. apply cs_plain; auto; [lia|tauto|tauto]. }
  repeat match goal with |- context [if c =? ?d then _ else _] => destruct (N.eqb_spec c d) as [->|]; [apply cs_escape; [cbn; tauto|assumption]|] end.
  cbn [app]. replace c with (N.land (N.shiftr c 4) 15 * 16 + N.land c 15) at 3.
  - apply cs_hex; auto; apply hex_spec; rewrite land_0f; apply N.mod_lt; lia.
  - rewrite !land_0f. rewrite N.shiftr_div_pow2. change (2 ^ 4) with 16. rewrite (N.mod_small (c / 16)); [|apply N.div_lt_upper_bound; lia].
    rewrite N.mul_comm. symmetry. apply N.div_mod. lia.
Qed.
Lemma high_copy t o s : Forall (fun c => 128 <= c) t -> c_string o s -> c_string (t ++ o) (t ++ s).
Proof. induction 1 as [|c t Hc Ht IH]; intros H; [exact H|]. cbn [app]. apply cs_plain; auto; unfold cDQ, cBSL; lia. Qed.

Lemma loop_skip t r aft : quote_c_loop (List.length t) (t ++ r) aft = quote_c_loop 0 r aft.
Proof. induction t as [|c t IH]; [reflexivity|]. exact IH. Qed.

Lemma peek_spec u rest : u <= 0x10ffff -> exists c t, utf8_spec u = c :: t /\ peek_utf8_char c (t ++ rest) = Ok (S (List.length t))
  /\ (u < 128 -> t = [] /\ c = u) /\ (128 <= u -> Forall (fun c => 128 <= c) (c :: t) /\ t <> []).
Proof.
  intros H. unfold utf8_spec. destruct (N.ltb_spec u 0x80) as [H1|H1].
  - exists u, []. split; [reflexivity|]. split; [|split; [auto|lia]]. unfold peek_utf8_char, num_utf8_bytes. now rewrite lead1.
  - assert (M : forall x, 128 <= 128 + x mod 64) by (intros; lia).
    destruct (N.ltb_spec u 0x800) as [H2|H2]; [|destruct (N.ltb_spec u 0x10000) as [H3|H3]]; eexists _, _.
    all: split; [reflexivity|]; split; [|split; [lia|]]; [|intros _; split; [repeat constructor; lia|discriminate]].
    + unfold peek_utf8_char, num_utf8_bytes. destruct (lead2 (u / 64)) as (-> & -> & _); [apply N.div_lt_upper_bound; lia|]. reflexivity.
    + unfold peek_utf8_char, num_utf8_bytes. destruct (lead3 (u / 4096)) as (-> & -> & -> & _); [apply N.div_lt_upper_bound; lia|]. reflexivity.
    + unfold peek_utf8_char, num_utf8_bytes. destruct (lead4 (u / 262144)) as (-> & -> & -> & -> & _); [apply N.div_lt_upper_bound; lia|]. reflexivity.
Qed.

(** The quoted form of a character. *)
Definition quoted_char (u : N) : bytes := if u <? 128 then escape_c u else utf8_spec u.
Theorem quote_c_out us : Forall (fun u => 0 < u <= 0x10ffff) us -> forall aft,
  quote_c_loop 0 (concat (map utf8_spec us)) aft = Ok (concat (map quoted_char us)).
Proof.
  induction 1 as [|u us Hu Hus IH]; intros aft; [reflexivity|].
  cbn [map concat]. specialize (IH aft). destruct (peek_spec u (concat (map utf8_spec us) ++ aft)) as (c & t & Eu & P & L & Hi); [lia|].
  rewrite Eu. cbn [app quote_c_loop]. rewrite <- app_assoc, P. cbn [obind]. unfold quoted_char at 1. destruct (N.ltb_spec u 128) as [Hl|Hl].
  - destruct (L Hl) as (-> & ->). cbn [List.length Nat.ltb Nat.leb app]. destruct (N.eqb_spec u 0); [lia|]. rewrite IH. reflexivity.
  - destruct (Hi Hl) as (F & Ht). replace (Nat.ltb 1 (S (List.length t))) with true by (destruct t; [congruence|reflexivity]).
    rewrite Nat.sub_1_r. cbn [Nat.pred]. rewrite loop_skip, IH. cbn [obind]. rewrite Eu.
    change (c :: t ++ concat (map utf8_spec us) ++ aft) with ((c :: t) ++ concat (map utf8_spec us) ++ aft).
    rewrite firstn_app. replace (S (List.length t) - List.length (c :: t))%nat with 0%nat by (cbn; lia). cbn [firstn]. now rewrite firstn_all, app_nil_r.
Qed.
Theorem quoted_denotes us : Forall (fun u => 0 < u <= 0x10ffff) us -> c_string (concat (map quoted_char us)) (concat (map utf8_spec us)).
Proof.
  induction 1 as [|u us Hu Hus IH]; [constructor|]. cbn [map concat]. destruct (peek_spec u []) as (c & t & Eu & _ & L & Hi); [lia|].
  unfold quoted_char at 1. destruct (N.ltb_spec u 128) as [Hl|Hl].
  - rewrite Eu. destruct (L Hl) as (-> & ->). cbn [app]. now apply escape_spec.
  - rewrite Eu. destruct (Hi Hl) as (F & Ht). now apply high_copy.
Qed.

(** ** The size of the buffer *)
Lemma escape_len c : (List.length (escape_c c) <= 4)%nat.
Proof. unfold escape_c. repeat match goal with |- context [if ?b then _ else _] => destruct b; [cbn; lia|] end. cbn. lia. Qed.
Lemma peek_max c r n : peek_utf8_char c r = Ok n -> (n <= 4)%nat.
Proof.
  unfold peek_utf8_char, num_utf8_bytes. destruct (Nat.leb _ _); [|discriminate]. intros E. injection E as <-.
  repeat match goal with |- context [if ?b then _ else _] => destruct b; [cbn; lia|] end. cbn. lia.
Qed.
Lemma loop_len s : forall skip aft o, quote_c_loop skip s aft = Ok o -> (List.length o <= 4 * List.length s)%nat.
Proof.
  induction s as [|c s IH]; intros skip aft o E; cbn [quote_c_loop] in E; [injection E as <-; cbn; lia|].
  destruct skip as [|k]; [|apply IH in E; cbn [List.length]; lia].
  destruct (peek_utf8_char c (s ++ aft)) as [n|e| | |] eqn:P; try discriminate E. cbn [obind] in E. apply peek_max in P.
  destruct (Nat.ltb 1 n).
  - destruct (quote_c_loop (n - 1) s aft) as [x|e| | |] eqn:Q; try discriminate E. cbn [obind] in E. apply (f_equal (fun r => match r with Ok o => o | _ => [] end)) in E. subst o. apply IH in Q.
    rewrite app_length, firstn_length. cbn [List.length]. lia.
  - destruct (c =? 0).
    + apply (f_equal (fun r => match r with Ok o => o | _ => [] end)) in E. subst o. pose proof (escape_len c). cbn [List.length]. lia.
    + destruct (quote_c_loop 0 s aft) as [x|e| | |] eqn:Q; try discriminate E. cbn [obind] in E. apply (f_equal (fun r => match r with Ok o => o | _ => [] end)) in E. subst o. apply IH in Q.
      pose proof (escape_len c). rewrite app_length. cbn [List.length]. lia.
Qed.
Theorem quote_c_fits s aft q o : s <> [] -> quote_as_c s aft q = Ok o -> (S (List.length o) <= quote_c_size s)%nat.
Proof.
  intros Hs E. unfold quote_as_c in E. destruct s as [|c s]; [congruence|]. destruct (quote_c_loop 0 (c :: s) aft) as [x|e| | |] eqn:Q; try discriminate E.
  cbn [obind] in E. injection E as <-. apply loop_len in Q. unfold quote_c_size. rewrite !app_length. destruct q; cbn [List.length] in *; lia.
Qed.

(** ** Unquoting *)
Lemma unquote_len q s : (List.length (fst (unquote_c_loop q s)) <= List.length s)%nat.
Proof.
  assert (U : forall c, (List.length (unescape_c c) <= 1)%nat).
  { intros c. unfold unescape_c. repeat match goal with |- context [if ?b then _ else _] => destruct b; [cbn; lia|] end. cbn. lia. }
  assert (X : forall n s, (List.length s <= n)%nat -> (List.length (fst (unquote_c_loop q s)) <= List.length s)%nat).
  { induction n as [|n IH]; intros [|c r] L; cbn [unquote_c_loop]; try (cbn in *; lia).
    destruct (q && (c =? cDQ)); [cbn; lia|]. destruct (c =? cBSL).
    - destruct r as [|e r]; [cbn; lia|]. specialize (IH r). destruct (unquote_c_loop q r) as [o x]. cbn [fst] in *. rewrite app_length.
      specialize (U e). cbn [List.length] in *. lia.
    - specialize (IH r). destruct (unquote_c_loop q r) as [o x]. cbn [fst List.length] in *. lia. }
  now apply (X (List.length s)).
Qed.

(** A character whose escape is known to xmq_unquote_as_c. *)
Definition unquotable (c : N) : Prop := (32 <= c <= 126 \/ 128 <= c \/ 7 <= c <= 13) /\ c <> cBSL.
Lemma unquote_char c o q : unquotable c -> c < 128 -> unquote_c_loop q (escape_c c ++ o) = let '(u, x) := unquote_c_loop q o in (c :: u, x).
Proof.
  intros (Hc & Hb) H.
  unfold escape_c. destruct ((32 <=? c) && (c <=? 126) && negb (c =? cDQ) && negb (c =? cBSL)) eqn:E.
  - rewrite !andb_true_iff, !N.leb_le, !negb_true_iff in E. destruct E as ((E & Eq) & Eb). cbn [app unquote_c_loop]. rewrite Eq, Eb, andb_false_r.
    reflexivity.
  - destruct (N.eqb_spec c cBSL); [contradiction|].
    destruct (N.eqb_spec c cDQ) as [->|]; [cbn; rewrite andb_false_r; reflexivity|].
    repeat match goal with |- context [if c =? ?d then _ else _] => destruct (N.eqb_spec c d) as [->|]; [cbn; rewrite andb_false_r; reflexivity|] end.
    exfalso. cbn [negb] in E. rewrite !andb_true_r, andb_false_iff, !N.leb_gt in E. lia.
Qed.
Lemma unquote_high t o q : Forall (fun c => 128 <= c) t -> unquote_c_loop q (t ++ o) = let '(u, x) := unquote_c_loop q o in (t ++ u, x).
Proof.
  induction 1 as [|c t Hc Ht IH]; [cbn; now destruct (unquote_c_loop q o)|]. cbn [app unquote_c_loop]. rewrite IH.
  replace (c =? cDQ) with false by (symmetry; apply N.eqb_neq; unfold cDQ; lia). replace (c =? cBSL) with false by (symmetry; apply N.eqb_neq; unfold cBSL; lia).
  rewrite andb_false_r. now destruct (unquote_c_loop q o).
Qed.
Lemma unquote_all q z us : Forall (fun u => u <= 0x10ffff /\ unquotable u) us -> (z = [] \/ q = true /\ exists z', z = cDQ :: z') ->
  unquote_c_loop q (concat (map quoted_char us) ++ z) = (concat (map utf8_spec us), z).
Proof.
  intros F Hz. induction F as [|u us (Hu & U) Hus IH].
  - cbn [map concat app]. destruct Hz as [->|(-> & z' & ->)]; reflexivity.
  - cbn [map concat]. rewrite <- app_assoc. destruct (peek_spec u []) as (c & t & Eu & _ & L & Hi); [exact Hu|]. unfold quoted_char at 1. rewrite Eu.
    destruct (N.ltb_spec u 128) as [Hl|Hl].
    + destruct (L Hl) as (-> & ->). rewrite unquote_char by auto. now rewrite IH.
    + destruct (Hi Hl) as (F & _). rewrite unquote_high by auto. now rewrite IH.
Qed.

(** ** Lines and columns *)
Lemma incs_char u p : u <= 0x10ffff -> incs (utf8_spec u) p = if u =? 10 then (fst p + 1, 1) else (fst p, snd p + 1).
Proof.
  intros H. destruct p as [l c]. assert (K : forall x q, inc (128 + x mod 64) q = q).
  { intros x [l' c']. unfold inc. pose proof (is_cont_128 (x mod 64)) as E. unfold is_cont in E. rewrite E by (apply N.mod_lt; lia). reflexivity. }
  assert (Ld : forall x, 192 <= x < 256 -> inc x (l, c) = (l, c + 1)).
  { intros x Hx. unfold inc. replace x with (192 + (x - 192)) by lia. pose proof (is_cont_lead (x - 192)) as E. unfold is_cont in E. rewrite E by lia.
    cbn [fst snd]. destruct (N.eqb_spec (192 + (x - 192)) cNL) as [E2|_]; [unfold cNL in E2; lia|]. reflexivity. }
  unfold utf8_spec. destruct (N.ltb_spec u 128) as [H1|H1].
  - cbn [incs]. unfold inc. pose proof (is_cont_small u H1) as E. unfold is_cont in E. rewrite E. reflexivity.
  - replace (u =? 10) with false by (symmetry; apply N.eqb_neq; lia).
    assert (D1 : u / 64 < u) by (apply N.div_lt; lia). assert (D3 : u / 262144 < 5) by (apply N.div_lt_upper_bound; lia).
    destruct (N.ltb_spec u 2048) as [H2|H2]; [|destruct (N.ltb_spec u 65536) as [H3|H3]]; cbn [incs]; rewrite Ld, ?K; try reflexivity.
    + assert (u / 64 < 32) by (apply N.div_lt_upper_bound; lia). lia.
    + assert (u / 4096 < 16) by (apply N.div_lt_upper_bound; lia). lia.
    + lia.
Qed.
Lemma line_col_step us : Forall (fun u => u <= 0x10ffff) us -> forall k l c cc, 1 <= l -> 1 <= c ->
  cc = (if l =? 1 then c else c - 1) ->
  find_line_col k (concat (map utf8_spec us)) l cc
  = let '(l', c') := incs (concat (map utf8_spec (firstn k us))) (l, c) in Ok (l', if l' =? 1 then c' else c' - 1).
Proof.
  induction 1 as [|u us Hu Hus IH]; intros k l c cc Hl Hc E.
  - rewrite firstn_nil. cbn [map concat incs]. destruct k; cbn [find_line_col]; now rewrite E.
  - destruct k as [|k].
    + cbn [firstn map concat incs]. rewrite <- E. destruct (utf8_spec u ++ concat (map utf8_spec us)); reflexivity.
    + cbn [firstn map concat]. rewrite incs_app, incs_char by exact Hu. destruct (peek_spec u []) as (x & t & Eu & _); [exact Hu|].
      pose proof (decode_spec u (concat (map utf8_spec us)) Hu) as D. pose proof Eu as Eu'.
      assert (Sk : skipn (List.length (utf8_spec u)) (utf8_spec u ++ concat (map utf8_spec us)) = concat (map utf8_spec us)).
      { rewrite skipn_app, skipn_all, Nat.sub_diag. reflexivity. }
      rewrite Eu at 1. cbn [app find_line_col]. change (x :: t ++ concat (map utf8_spec us)) with ((x :: t) ++ concat (map utf8_spec us)).
      rewrite <- Eu, D, Sk. cbn [fst snd]. destruct (N.eqb_spec u 10) as [->|Hn].
      * apply (IH k (l + 1) 1 0); [lia|lia|]. destruct (N.eqb_spec (l + 1) 1); [lia|reflexivity].
      * apply (IH k l (c + 1) (cc + 1)); [lia|lia|]. rewrite E. destruct (l =? 1); lia.
Qed.
Theorem find_line_col_spec us k : Forall (fun u => u <= 0x10ffff) us ->
  let before := concat (map utf8_spec (firstn k us)) in
  find_line_col k (concat (map utf8_spec us)) 1 1
  = Ok (line_after before, if line_after before =? 1 then col_after before else col_after before - 1).
Proof.
  intros H before. rewrite (line_col_step us H k 1 1 1) by (reflexivity || lia). fold before. pose proof (pos_app [] before) as P. cbn [app] in P.
  unfold pos_after in P. change (line_after [], col_after []) with ((1, 1) : pos) in P. rewrite <- P. reflexivity.
Qed.
