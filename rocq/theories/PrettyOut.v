(** Printing in the default form: what is written for a value, and at which
    columns. *)
From Coq Require Import NArith ZArith List Bool Arith Lia String.
From Verif Require Import Bytes BytesFacts Outcome Utf8 Utf8Proofs Quote QuoteSpec QuoteProofs QuoteProofs2 Parser ParserSpec ParserProofs Dom Printer Grammar
  LexProofs BuildProofs GrammarProofs Compact Stray CompactProofs CompactDoc LeafQuote BlockProofs Pretty LeafBlock PrettyProofs.
Import ListNotations.
Local Open Scope N_scope.
Local Open Scope op_scope.

(** ** Columns *)
Fixpoint adv (z : Z) (o : bytes) : Z :=
  match o with [] => z | c :: r => adv (if c =? cNL then 0%Z else if is_cont c then z else (z + 1)%Z) r end.
Lemma adv_app a b : forall z, adv z (a ++ b) = adv (adv z a) b.
Proof. induction a as [|c a IH]; intros z; [reflexivity|]. cbn [app adv]. apply IH. Qed.
Lemma adv_nl z a b : adv z (a ++ cNL :: b) = adv 0 b.
Proof. rewrite adv_app. reflexivity. Qed.
Lemma adv_flat o : forall z, (forall c, In c o -> c <> cNL /\ is_cont c = false) -> adv z o = (z + zlen o)%Z.
Proof.
  induction o as [|c o IH]; intros z H; [unfold zlen; cbn; lia|]. cbn [adv]. destruct (H c (or_introl eq_refl)) as (H1 & H2).
  apply N.eqb_neq in H1. rewrite H1, H2, IH by (intros d I; apply H; now right). unfold zlen. cbn [List.length]. lia.
Qed.
Lemma adv_rep c z n : c <> cNL -> is_cont c = false -> adv z (rep c n) = (z + Z.of_nat n)%Z.
Proof.
  intros H1 H2. rewrite adv_flat; [|intros d I; apply in_rep in I; now subst]. unfold zlen, rep. now rewrite repeat_length.
Qed.
Lemma adv_nonneg o : forall z, (0 <= z)%Z -> (0 <= adv z o)%Z.
Proof. induction o as [|c o IH]; intros z H; [exact H|]. cbn [adv]. apply IH. destruct (c =? cNL); [lia|]. destruct (is_cont c); lia. Qed.
Lemma adv_line z n : adv z (cNL :: rep cSP n) = Z.of_nat n.
Proof. change (cNL :: rep cSP n) with ([] ++ cNL :: rep cSP n). rewrite adv_nl, adv_rep by (discriminate || reflexivity). lia. Qed.
Lemma column_snoc b c : column (b ++ [c]) = if c =? cNL then 0%nat else if is_cont c then column b else S (column b).
Proof.
  unfold column, col_after. rewrite last_line_snoc. destruct (c =? cNL); [reflexivity|].
  rewrite filter_app, app_length. cbn [filter]. unfold starts_char at 2. change (N.land c 0xc0 =? 0x80) with (is_cont c). destruct (is_cont c); cbn [negb List.length]; lia.
Qed.
Lemma column_adv o : forall pre, Z.of_nat (column (pre ++ o)) = adv (Z.of_nat (column pre)) o.
Proof.
  induction o as [|c o IH]; intros pre; [now rewrite app_nil_r|]. cbn [adv]. change (c :: o) with ([c] ++ o). rewrite app_assoc, IH, column_snoc.
  destruct (c =? cNL); [reflexivity|]. destruct (is_cont c); [reflexivity|]. f_equal. lia.
Qed.
Lemma column_line pre n : column (pre ++ cNL :: rep cSP n) = n.
Proof. apply Nat2Z.inj. rewrite column_adv. apply adv_line. Qed.

(** The printer counts what it writes. *)
Definition tracks (a : op) (st : pr) : Prop := p_cur (snd (a st)) = adv (p_cur st) (fst (a st)).
Lemma tracks_seq a b st : tracks a st -> tracks b (snd (a st)) -> tracks (a ;; b) st.
Proof.
  unfold tracks, seq. destruct (a st) as [x s1]. cbn [fst snd]. intros H1 H2. destruct (b s1) as [y s2]. cbn [fst snd] in *. now rewrite adv_app, H2, H1.
Qed.
Lemma tracks_nop st : tracks nop st.
Proof. reflexivity. Qed.
Lemma tracks_line f st : tracks (set_line f) st.
Proof. reflexivity. Qed.
Lemma tracks_white n st : (0 <= n)%Z -> tracks (white_spaces n) st.
Proof. intros H. unfold tracks. rewrite white_out. cbn [fst snd p_cur]. rewrite adv_rep by (discriminate || reflexivity). lia. Qed.
Lemma tracks_nl st : (0 <= p_line st)%Z -> tracks nl_and_indent st.
Proof. intros H. unfold tracks. rewrite nl_out. cbn [fst snd p_cur]. rewrite adv_line. lia. Qed.
Lemma tracks_print_nl st : tracks print_nl st.
Proof. reflexivity. Qed.
Lemma tracks_quotes n st : tracks (print_quotes n) st.
Proof. unfold tracks. rewrite quotes_out. cbn [fst snd p_cur]. now rewrite adv_rep by (discriminate || reflexivity). Qed.
Lemma str_out b st : b <> [] -> print_str b st = (b, PR (p_cur st + zlen b) (p_line st) (List.last b 0) (p_ok st)).
Proof. intros H. destruct b as [|c r]; [congruence|]. unfold print_str, put, seq, add_cur, set_last. cbn [p_cur p_line p_last p_ok]. now rewrite app_nil_r. Qed.
Lemma tracks_str b st : (forall c, In c b -> c <> cNL /\ is_cont c = false) -> tracks (print_str b) st.
Proof.
  intros H. destruct b as [|c r]; [apply tracks_nop|]. unfold tracks. rewrite str_out by discriminate. cbn [fst snd p_cur]. now rewrite adv_flat.
Qed.
Lemma name_flat n : forallb is_xmq_text_name n = true -> forall c, In c n -> c <> cNL /\ is_cont c = false.
Proof.
  rewrite forallb_forall. intros H c I. specialize (H c I). split; [intros ->; discriminate|]. revert c H I. intros c H _. revert c H. apply name_not. reflexivity.
Qed.
Lemma prange_out b st : b <> [] -> print_range b st = (written b, PR (p_cur st + Z.of_nat (chars b)) (p_line st) (List.last b 0) (p_ok st)).
Proof. intros H. destruct b as [|c r]; [congruence|]. unfold print_range, put, seq, add_cur, set_last. cbn [p_cur p_line p_last p_ok]. now rewrite app_nil_r. Qed.
Lemma bare_out b z st : bare b z -> print_range b st = (b, PR (p_cur st + Z.of_nat (chars b)) (p_line st) (List.last b 0) (p_ok st)).
Proof. intros H. rewrite prange_out by apply H. now rewrite written_id by (eapply bare_stray; exact H). Qed.
Lemma adv_u_len o : forall z, ~ In cNL o -> adv z o = (z + Z.of_nat (u_len o))%Z.
Proof.
  induction o as [|c o IH]; intros z H; [cbn; lia|]. cbn [adv u_len]. destruct (N.eqb_spec c cNL) as [-> |]; [exfalso; apply H; now left|].
  rewrite IH by (intros I; apply H; now right). destruct (is_cont c); lia.
Qed.
Lemma steady_first c r : steady (c :: r) -> is_cont c = false.
Proof. intros H. destruct (is_cont c) eqn:E; auto. destruct (H [] c r eq_refl E) as (X & _). congruence. Qed.
Lemma u_len_written b : forall bl, u_len (written_after bl b) = u_len b.
Proof.
  induction b as [|c b IH]; intros bl; [reflexivity|]. cbn [written_after]. destruct bl, (is_cont c) eqn:Ec; cbn [andb u_len]; rewrite ?Ec, IH; reflexivity.
Qed.
Lemma tracks_range b st : steady b -> ~ In cNL b -> tracks (print_range b) st.
Proof.
  intros S N. destruct b as [|c r]; [apply tracks_nop|]. unfold tracks. rewrite prange_out by discriminate. cbn [fst snd p_cur]. rewrite adv_u_len by (intros I; eapply N, written_in; exact I).
  unfold written. rewrite u_len_written. cbn [u_len chars]. now rewrite (steady_first _ _ S).
Qed.

(** ** Quotes *)
Lemma steady_nl r : steady (cNL :: r) -> steady r.
Proof.
  intros H x c y E K. destruct (H (cNL :: x) c y) as (_ & X); [cbn; now rewrite E|exact K|]. destruct x as [|d x]; [exfalso; now apply X|]. split; [discriminate|exact X].
Qed.
Lemma steady_skip a b : a <> [] -> steady (a ++ b) -> match b with c :: _ => is_cont c = false | [] => True end -> steady b.
Proof.
  intros Ha H F x c y E K. destruct x as [|d x].
  - exfalso. subst b. cbn in F. congruence.
  - split; [discriminate|]. destruct (H (a ++ d :: x) c y) as (_ & X); [rewrite E; now rewrite <- app_assoc|exact K|]. intros Y. apply X. rewrite <- Y.
    destruct (exists_last (l := d :: x)) as (x' & e & ->); [discriminate|]. now rewrite app_assoc, !last_last.
Qed.
Lemma take_cont_next r : forall a b, take_cont r = (a, b) -> match b with c :: _ => is_cont c = false | [] => True end.
Proof.
  induction r as [|c r IH]; intros a b E; cbn [take_cont] in E; [injection E as <- <-; exact I|]. destruct (is_cont c) eqn:K.
  - destruct (take_cont r) as [a' b']. injection E as <- <-. now apply (IH a').
  - injection E as <- <-. exact K.
Qed.
Lemma adv_conts a : forall z, Forall (fun c => is_cont c = true) a -> adv z a = z.
Proof.
  induction a as [|c a IH]; intros z F; [reflexivity|]. inversion F; subst. cbn [adv]. destruct (N.eqb_spec c cNL) as [-> |]; [discriminate|]. rewrite H1. now apply IH.
Qed.
Lemma quote_chars_state f : forall s st, (0 <= p_cur st)%Z -> (0 <= p_line st)%Z -> (List.length s <= f)%nat ->
  (0 <= p_cur (snd (quote_chars f s st)))%Z /\ (steady s -> tracks (quote_chars f s) st).
Proof.
  assert (Q : forall a b st, (a ;; b) st = (fst (a st) ++ fst (b (snd (a st))), snd (b (snd (a st))))).
  { intros a b st. unfold seq. destruct (a st) as [x s1]. cbn [fst snd]. now destruct (b s1). }
  induction f as [|f IH]; intros s st H1 H2 L.
  - destruct s; [|cbn in L; lia]. split; [exact H1|intros _; apply tracks_nop].
  - destruct s as [|c r]; [split; [exact H1|intros _; apply tracks_nop]|]. cbn [quote_chars]. cbn [List.length] in L. destruct (N.eqb_spec c cNL) as [-> |Hc].
    + set (a := match r with d :: _ => if negb (d =? cNL) then nl_and_indent else print_nl | [] => print_nl end).
      assert (A : (0 <= p_cur (snd (a st)))%Z /\ p_line (snd (a st)) = p_line st /\ tracks a st).
      { subst a. assert (A1 : (0 <= p_cur (snd (nl_and_indent st)))%Z /\ p_line (snd (nl_and_indent st)) = p_line st /\ tracks nl_and_indent st).
        { split; [|split; [|now apply tracks_nl]]; rewrite nl_out; cbn [snd p_cur p_line]; [lia|reflexivity]. }
        assert (A2 : (0 <= p_cur (snd (print_nl st)))%Z /\ p_line (snd (print_nl st)) = p_line st /\ tracks print_nl st) by (cbn; repeat split; lia).
        destruct r as [|d r]; [exact A2|]. destruct (negb (d =? cNL)); [exact A1|exact A2]. }
      destruct A as (A1 & A2 & A3). clearbody a. destruct (IH r (snd (a st))) as (B1 & B2); [exact A1|lia|lia|]. split.
      * rewrite Q. exact B1.
      * intros S. apply tracks_seq; auto. apply B2. now apply steady_nl.
    + destruct (take_cont r) as [a b] eqn:T. pose proof (take_cont_app _ _ _ T) as ->. rewrite app_length in L.
      set (st1 := PR (p_cur st + 1) (p_line st) c (p_ok st)). destruct (IH b st1) as (B1 & B2); [cbn; lia|exact H2|lia|].
      assert (E : forall g, (put (if is_blank c then [c] else c :: a) ;; set_last c ;; add_cur 1 ;; g) st = ((if is_blank c then [c] else c :: a) ++ fst (g st1), snd (g st1))).
      { intros g. rewrite !Q. reflexivity. }
      split; [rewrite E; exact B1|]. intros S. unfold tracks. rewrite E. cbn [fst snd]. rewrite adv_app. rewrite B2.
      * f_equal. destruct (is_blank c); cbn [adv p_cur st1]; (destruct (N.eqb_spec c cNL); [contradiction|]); rewrite (steady_first _ _ S); [reflexivity|]. now rewrite adv_conts by (eapply take_cont_cont; eauto).
      * apply (steady_skip (c :: a)); [discriminate|exact S|]. eapply take_cont_next; eauto.
Qed.
Lemma seq_state a b st : (a ;; b) st = (fst (a st) ++ fst (b (snd (a st))), snd (b (snd (a st)))).
Proof. unfold seq. destruct (a st) as [x s1]. cbn [fst snd]. now destruct (b s1). Qed.
Lemma quote_lines_state s st : (0 <= p_cur st)%Z -> (1 <= p_line st)%Z ->
  (0 <= p_cur (snd (quote_lines s st)))%Z /\ (steady s -> tracks (quote_lines s) st).
Proof.
  intros H1 H2. unfold quote_lines. rewrite !seq_state. cbn [fst snd].
  set (a := when (starts_with cNL s) print_nl).
  assert (A : (0 <= p_cur (snd (a st)))%Z /\ p_line (snd (a st)) = p_line st /\ tracks a st).
  { subst a. destruct (starts_with cNL s); cbn; repeat split; lia. }
  destruct A as (A1 & A2 & A3). clearbody a. set (st1 := snd (a st)) in *.
  destruct (quote_chars_state (List.length s) s st1) as (B1 & B2); [exact A1|lia|lia|].
  destruct (quote_chars_out (List.length s) s st1 (le_n _)) as (st2 & E2 & L2 & _).
  set (b := quote_chars (List.length s) s) in *.
  assert (X : forall st2, p_line st2 = p_line st -> (0 <= p_cur st2)%Z -> (ends_with cNL s = true -> all_are cNL s = true -> p_cur st2 = 0%Z) ->
    let g := when (ends_with cNL s) (set_line (fun p => p_line p - 1)%Z ;; (if all_are cNL s then reset_line ;; ask p_line white_spaces else nl_and_indent) ;; set_line (fun p => p_line p + 1)%Z) in
    (0 <= p_cur (snd (g st2)))%Z /\ tracks g st2).
  { clear -H2. intros st2 L P Z. cbv zeta. destruct (ends_with cNL s); [|split; [exact P|apply tracks_nop]]. cbn [when].
    destruct (all_are cNL s).
    - specialize (Z eq_refl eq_refl). split.
      + rewrite !seq_state. unfold ask, set_line, reset_line. cbn [snd p_line]. rewrite white_out. cbn [snd p_cur p_line]. lia.
      + apply tracks_seq; [reflexivity|]. apply tracks_seq; [|reflexivity]. apply tracks_seq.
        * unfold tracks. cbn. now rewrite Z.
        * unfold tracks, ask. apply tracks_white. cbn. lia.
    - split.
      + rewrite !seq_state, nl_out. cbn [snd set_line p_cur p_line]. lia.
      + apply tracks_seq; [reflexivity|]. apply tracks_seq; [|reflexivity]. apply tracks_nl. cbn. lia. }
  specialize (X (snd (b st1))). cbv zeta in X. fold b in E2. rewrite E2 in X, B1. cbn [snd] in X, B1. destruct X as (X1 & X2); [lia|exact B1| |].
  { intros Hn Ha. assert (S : steady s).
    { intros x c y E K. apply all_are_only in Ha. specialize (Ha c). rewrite E in Ha. assert (I : In c (x ++ c :: y)) by (apply in_or_app; right; now left).
      specialize (Ha I). apply N.eqb_eq in Ha. subst c. discriminate. }
    specialize (B2 S). unfold tracks in B2. rewrite E2 in B2. cbn [fst snd] in B2. rewrite B2.
    destruct (snoc_cases s) as (r & c & Es). { intros ->. discriminate. }
    rewrite Es, ends_snoc in Hn. apply N.eqb_eq in Hn. subst c. rewrite Es. destruct (written_last r cNL) as (x & e & -> & [-> |[_ X0]]); [|discriminate X0]. destruct (hang_last (Z.to_nat (p_line st1)) x cNL) as (y & ->). now rewrite adv_nl. }
  rewrite E2. cbn [snd]. split; [exact X1|]. intros S. apply tracks_seq; [exact A3|]. fold st1. apply tracks_seq; [now apply B2|]. fold b. rewrite E2. exact X2.
Qed.
Lemma leaf_state s st : (0 <= p_cur st)%Z ->
  (0 <= p_cur (snd (safe_leaf_quote s st)))%Z /\ p_last (snd (safe_leaf_quote s st)) = cQ /\ (steady s -> tracks (safe_leaf_quote s) st).
Proof.
  intros H0. unfold tracks, safe_leaf_quote, ask, id. destruct (count_necessary_quotes s false) as [[numq nls] comp]. set (d := if Nat.eqb numq 0 then 1%nat else numq).
  assert (Hd : (1 <= d)%nat) by (subst d; destruct (Nat.eqb_spec numq 0); lia).
  match goal with |- context [if ?b then set_line p_cur ;; _ else _] => destruct b end.
  - destruct (quote_lines_out s (PR (0 + p_cur st) (p_cur st) 0 (p_ok st))) as (s4 & E4 & L4 & K4). cbn [p_line p_ok] in *.
    assert (E : exists o, (set_line p_cur ;; print_quotes d ;; nl_and_indent ;; quote_lines s ;; nl_and_indent ;; print_quotes d ;; set_line (fun _ => p_line st)) st
       = (o ++ cNL :: rep cSP (Z.to_nat (p_cur st)) ++ rep cQ d, PR (0 + p_cur st + Z.of_nat d) (p_line st) cQ (p_ok s4))).
    { eexists. eapply out_eq.
      - eapply seq_out; [reflexivity|]. eapply seq_out; [apply quotes_out|]. eapply seq_out; [apply nl_out|]. cbn [p_line p_ok p_cur].
        eapply seq_out; [exact E4|]. eapply seq_out; [apply nl_out|]. eapply seq_out; [apply quotes_out|]. cbn [p_line p_cur p_ok]. rewrite L4. reflexivity.
      - cbn [app]. rewrite app_nil_r. change (cNL :: rep cSP (Z.to_nat (p_cur st))) with ([cNL] ++ rep cSP (Z.to_nat (p_cur st))).
        rewrite !app_comm_cons, !app_assoc. rewrite L4. reflexivity. }
    destruct E as (o & ->). cbn [fst snd p_cur p_last]. split; [lia|]. split; [reflexivity|]. intros _. rewrite adv_nl, adv_app, !adv_rep by (discriminate || reflexivity). lia.
  - rewrite !seq_state. rewrite quotes_out. cbn [snd fst set_line p_cur p_line p_last p_ok].
    destruct (quote_lines_state s (PR (p_cur st + Z.of_nat d) (p_cur st + Z.of_nat d) cQ (p_ok st))) as (Q1 & Q2); [cbn; lia|cbn; lia|].
    rewrite quotes_out. cbn [snd fst p_cur p_line p_last p_ok] in *. split; [lia|]. split; [reflexivity|]. intros S. specialize (Q2 S). unfold tracks in Q2. cbn [p_cur] in Q2.
    rewrite Q2. cbn [app]. rewrite !adv_app, !adv_rep by (discriminate || reflexivity). reflexivity.
Qed.

(** ** Tokens *)
Definition good (st : pr) : Prop := p_ok st = true /\ (0 <= p_cur st)%Z /\ (0 <= p_line st)%Z.
Definition ktracked (t : ptok) : Prop := match t with KLeaf s => steady s | KEmpty | KRef _ => True | _ => False end.
Definition klast (t : ptok) : N := if pquote t then cQ else cSEMI.
Lemma raw_out t st : good st -> ptok_ok t -> exists st', raw t st = (ptok_bytes (Z.to_nat (p_cur st)) t, st') /\ good st' /\ p_line st' = p_line st
  /\ p_last st' = klast t /\ (ktracked t -> tracks (raw t) st).
Proof.
  intros (G1 & G2 & G3) O. destruct t as [s|n| |u|n]; cbn [raw ptok_bytes klast pquote ktracked].
  - destruct (leaf_out s st G2) as (st' & E & L & K). destruct (leaf_state s st G2) as (S1 & S2 & S3). rewrite E in S1, S2. cbn [snd] in *.
    exists st'. split; auto. split; [split; [congruence|split; [exact S1|lia]]|]. auto.
  - eexists. split; [unfold quoted_spaces; rewrite !seq_state; cbn; now rewrite app_nil_r|]. split; [split; [exact G1|split; cbn; lia]|]. repeat split; intros [].
  - eexists. split; [apply str_out; discriminate|]. split; [split; [exact G1|split; cbn; lia]|]. split; [reflexivity|]. split; [reflexivity|]. intros _. apply tracks_str.
    intros c [<-|[<-|[]]]; split; discriminate || reflexivity.
  - eexists. split; [rewrite !seq_state, str_out by discriminate; cbn [fst snd set_last add_cur]; now rewrite !app_nil_r|].
    split; [split; [exact G1|split; cbn [p_cur p_line]; unfold zlen; lia]|]. repeat split; intros [].
  - destruct O as ((N1 & N2) & _). eexists. split.
    + rewrite !seq_state. rewrite str_out by discriminate. cbn [fst snd]. rewrite (str_out n) by assumption. cbn [fst snd]. rewrite str_out by discriminate. reflexivity.
    + split; [split; [exact G1|split; cbn [fst snd p_cur p_line]; unfold zlen; lia]|]. split; [reflexivity|]. split; [reflexivity|]. intros _.
      apply tracks_seq; [apply tracks_str|apply tracks_seq; apply tracks_str].
      * intros c [<-|[]]; split; discriminate || reflexivity.
      * now apply name_flat.
      * intros c [<-|[]]; split; discriminate || reflexivity.
Qed.

Section pretty.
Variable C : cfg.
Hypothesis HC : compact C = false.

Definition kfresh (l : level) (t : ptok) (c : N) : bool :=
  if pquote t then negb (c =? 0) && negb (c =? cLP) && (negb (c =? cEQ) || is_xmq_level l)
  else negb (c =? cLP) && negb (c =? cEQ).
Lemma sep_nop l t st : kfresh l t (p_last st) = false -> psep C l t st = ([], st).
Proof.
  unfold kfresh, psep, space_quote, space_entity, ask. rewrite HC. cbn [negb andb]. destruct (pquote t).
  - destruct (p_last st =? 0); [reflexivity|]. cbn [negb andb]. destruct (N.eqb_spec (p_last st) cLP) as [-> |]; cbn [negb andb].
    + rewrite andb_false_r. reflexivity.
    + rewrite andb_true_r. intros H. rewrite H. destruct (N.eqb_spec (p_last st) cEQ) as [-> |]; [reflexivity|discriminate].
  - destruct (p_last st =? cLP); [reflexivity|]. cbn [negb andb]. intros H. rewrite H. apply negb_false_iff, N.eqb_eq in H. rewrite H. reflexivity.
Qed.
Lemma sep_nl l t st : kfresh l t (p_last st) = true -> psep C l t st = nl_and_indent st.
Proof.
  unfold kfresh, psep, space_quote, space_entity, ask. rewrite HC. cbn [negb andb]. destruct (pquote t).
  - intros H. apply andb_true_iff in H as [H H3]. apply andb_true_iff in H as [H1 H2]. apply negb_true_iff in H1. rewrite H1, H2, H3. reflexivity.
  - intros H. apply andb_true_iff in H as [H1 H2]. apply negb_true_iff in H1. rewrite H1, H2. reflexivity.
Qed.
Definition line_of (st : pr) : bytes := cNL :: rep cSP (Z.to_nat (p_line st)).
(** One token: in place, or on a new line. *)
Lemma emit_out l t st : good st -> ptok_ok t -> exists st', emit C l t st =
    ((if kfresh l t (p_last st) then line_of st ++ ptok_bytes (Z.to_nat (p_line st)) t else ptok_bytes (Z.to_nat (p_cur st)) t), st')
  /\ good st' /\ p_line st' = p_line st /\ p_last st' = klast t /\ (ktracked t -> tracks (emit C l t) st).
Proof.
  intros G O. unfold emit. destruct (kfresh l t (p_last st)) eqn:F.
  - set (st1 := PR (0 + p_line st) (p_line st) 0 (p_ok st)). assert (G1 : good st1) by (destruct G as (? & ? & ?); repeat split; cbn; auto; lia).
    destruct (raw_out t st1 G1 O) as (st' & E & G' & L & K & T). exists st'. split; [|split; [exact G'|split; [exact L|split; [exact K|]]]].
    + unfold seq. rewrite sep_nl, nl_out by exact F. fold st1. rewrite E. unfold line_of. reflexivity.
    + intros Kt. apply tracks_seq.
      * unfold tracks. rewrite sep_nl by exact F. apply tracks_nl, G.
      * rewrite sep_nl, nl_out by exact F. cbn [snd]. now apply T.
  - destruct (raw_out t st G O) as (st' & E & G' & L & K & T). exists st'. split; [|split; [exact G'|split; [exact L|split; [exact K|]]]].
    + unfold seq. rewrite sep_nop by exact F. rewrite E. reflexivity.
    + intros Kt. apply tracks_seq; [unfold tracks; rewrite sep_nop by exact F; reflexivity|]. rewrite sep_nop by exact F. now apply T.
Qed.
Fixpoint tail_bytes (k : nat) (ts : list ptok) : bytes :=
  match ts with [] => [] | t :: r => (cNL :: rep cSP k) ++ ptok_bytes k t ++ tail_bytes k r end.
Lemma fresh_last l t c : c = cQ \/ c = cSEMI -> kfresh l t c = true.
Proof. unfold kfresh. intros [-> | ->]; destruct (pquote t); reflexivity. Qed.
Lemma klast_cases t : klast t = cQ \/ klast t = cSEMI.
Proof. unfold klast. destruct (pquote t); auto. Qed.
Lemma emits_tail l ts : forall st, good st -> Forall ptok_ok ts -> p_last st = cQ \/ p_last st = cSEMI -> exists st', emits C l ts st = (tail_bytes (Z.to_nat (p_line st)) ts, st')
  /\ good st' /\ p_line st' = p_line st /\ (p_last st' = cQ \/ p_last st' = cSEMI) /\ (Forall ktracked ts -> tracks (emits C l ts) st).
Proof.
  induction ts as [|t ts IH]; intros st G F K; cbn [emits tail_bytes].
  - exists st. split; [reflexivity|]. split; auto. split; auto. split; auto. intros _. apply tracks_nop.
  - inversion F; subst. destruct (emit_out l t st G H1) as (s1 & E1 & G1 & L1 & K1 & T1). rewrite (fresh_last l t _ K) in E1.
    destruct (IH s1 G1 H2) as (s2 & E2 & G2 & L2 & K2 & T2); [rewrite K1; apply klast_cases|]. exists s2. split; [|split; [exact G2|split; [congruence|split; [exact K2|]]]].
    + eapply out_eq; [eapply seq_out; eassumption|]. rewrite L1. unfold line_of. now rewrite <- !app_assoc.
    + intros Ft. inversion Ft; subst. apply tracks_seq; [now apply T1|]. rewrite E1. cbn [snd]. now apply T2.
Qed.
(** A list of tokens. *)
Lemma emits_out l t ts st : good st -> ptok_ok t -> Forall ptok_ok ts -> exists st', emits C l (t :: ts) st =
    ((if kfresh l t (p_last st) then line_of st ++ ptok_bytes (Z.to_nat (p_line st)) t else ptok_bytes (Z.to_nat (p_cur st)) t) ++ tail_bytes (Z.to_nat (p_line st)) ts, st')
  /\ good st' /\ p_line st' = p_line st /\ (p_last st' = cQ \/ p_last st' = cSEMI) /\ (ktracked t -> Forall ktracked ts -> tracks (emits C l (t :: ts)) st).
Proof.
  intros G O F. destruct (emit_out l t st G O) as (s1 & E1 & G1 & L1 & K1 & T1).
  destruct (emits_tail l ts s1 G1 F) as (s2 & E2 & G2 & L2 & K2 & T2); [rewrite K1; apply klast_cases|]. exists s2. cbn [emits].
  split; [|split; [exact G2|split; [congruence|split; [exact K2|]]]].
  - eapply seq_out; [exact E1|]. rewrite <- L1. exact E2.
  - intros Kt Ft. apply tracks_seq; [now apply T1|]. rewrite E1. cbn [snd]. now apply T2.
Qed.

End pretty.

(** ** Tokens as pieces of the grammar *)
Lemma ptok_first t k z : ptok_ok t -> exists r, ptok_bytes k t ++ z = (if pquote t then cQ else cAMP) :: r.
Proof.
  destruct t as [s|n| |u|n]; cbn [ptok_ok ptok_bytes pquote]; intros H; cbn; eauto.
  unfold leaf. destruct (quotes_for_spec s) as (D & _). destruct (quotes_for s); [lia|]. cbn. eauto.
Qed.
Lemma ptok_white t k z : ptok_ok t -> ~ begins_white (ptok_bytes k t ++ z).
Proof. intros H. destruct (ptok_first t k z H) as (r & ->). destruct (pquote t); apply solid_ascii; reflexivity. Qed.
Lemma plain_leaf k s : plain s -> plain (leaf_text k s).
Proof.
  intros (P0 & P1). assert (X : forall c, c <> cSP -> c <> cNL -> c <> cTAB -> In c (leaf_text k s) -> In c s).
  { intros c H1 H2 H3 I. apply List.in_split in I as (x & y & E). pose proof (pd_leaf_text k s) as P. rewrite E in P. change (c :: y) with ([c] ++ y) in P.
    apply pd_part in P as (x' & y' & ->); [apply in_or_app; right; now left|]. intros d [<-|[]]. auto. }
  split; intros I; [apply P0|apply P1]; apply X; auto; discriminate.
Qed.
Lemma ptok_piece pre k t z : ptok_ok t -> column pre = k \/ ~ In cNL (ptok_text t) -> (pquote t = true -> ~ starts (is cQ) z) -> piece pre (ptok_bytes k t) z (ptok_part t).
Proof.
  destruct t as [s|n| |u|n]; cbn [ptok_ok ptok_bytes pquote ptok_part ptok_text]; intros H Hk Hz.
  - destruct H as (H1 & H2 & H3 & H4). apply pc_quote. destruct (quotes_for_spec s) as (D1 & D2 & _).
    assert (E : text_block (column pre + quotes_for s) (leaf_text k s) = s).
    { destruct Hk as [Hk|Hk]; [subst k; now apply leaf_block|]. apply leaf_block_line; auto. }
    rewrite <- E at 2. unfold leaf. apply q_text; auto; [now apply leaf_body|now apply plain_leaf].
  - apply pc_quote. assert (N : ~ In cNL (rep cSP n)) by (intros I; apply in_rep in I; discriminate).
    rewrite <- (text_block_single (column pre + 1) (rep cSP n)) at 2 by assumption. apply (q_text pre 1); auto; try lia.
    + split; [destruct n; [lia|discriminate]|]. split; [|split].
      * intros (c & r & E & Hc). destruct n; [lia|]. injection E as <- _. discriminate.
      * intros (c & r & E & Hc). rewrite BuildProofs.rev_rep in E. destruct n; [lia|]. injection E as <- _. discriminate.
      * intros x m y E. destruct m; [lia|]. exfalso. assert (I : In cQ (rep cSP n)) by (rewrite E; apply in_or_app; right; now left). apply in_rep in I. discriminate.
    + split; intros I; apply in_rep in I; discriminate.
  - apply pc_quote. apply q_empty. auto.
  - apply pc_entity. now apply (char_ref_entity some_cfg).
  - destruct H. apply pc_entity. now apply e_named.
Qed.
Definition nlw (e : bytes) : Prop := exists k, e = cNL :: rep cSP k.
Lemma nlw_space e : nlw e -> space e.
Proof.
  intros (k & ->). right. exists cNL, (rep cSP k). split; auto. split; [reflexivity|]. induction k; [constructor|]. cbn [rep repeat]. now constructor.
Qed.
Lemma nlw_gap e y : nlw e -> ~ begins_white y -> gap e y.
Proof. intros H Hy. split; auto. now apply nlw_space. Qed.
Lemma sp_gap y : ~ begins_white y -> gap [cSP] y.
Proof. intros H. apply (sepb_gap true y H). Qed.
Lemma nlw_not p e y : nlw e -> p cNL = false -> ~ starts p (e ++ y).
Proof. intros (k & ->) H. cbn. rewrite starts_cons. rewrite H. discriminate. Qed.

Lemma tail_pieces ts : Forall ptok_ok ts -> forall t k n pre z, ptok_ok t -> column pre = k \/ ~ In cNL (ptok_text t) -> starts (is cRP) z ->
  Grammar.pieces pre ((ptok_bytes k t ++ tail_bytes n ts) ++ [cSP]) z (map ptok_part (t :: ts)).
Proof.
  induction ts as [|u ts IH]; intros F t k n pre z O Hk Hz; cbn [tail_bytes map].
  - rewrite app_nil_r. rewrite <- (app_nil_r [cSP]). apply ps_cons.
    + apply ptok_piece; auto. intros _. cbn. rewrite starts_cons. discriminate.
    + apply sp_gap. now apply rp_solid.
    + now apply ps_end.
  - inversion F; subst. replace ((ptok_bytes k t ++ (cNL :: rep cSP n) ++ ptok_bytes n u ++ tail_bytes n ts) ++ [cSP])
      with (ptok_bytes k t ++ (cNL :: rep cSP n) ++ ((ptok_bytes n u ++ tail_bytes n ts) ++ [cSP])) by now rewrite <- !app_assoc.
    assert (W : nlw (cNL :: rep cSP n)) by now exists n. apply ps_cons.
    + apply ptok_piece; auto. intros _. apply nlw_not; auto.
    + apply nlw_gap; auto. rewrite <- !app_assoc. now apply ptok_white.
    + apply IH; auto. left. rewrite app_assoc. apply column_line.
Qed.
