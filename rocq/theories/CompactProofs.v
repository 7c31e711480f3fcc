(** Compact printing gives a text of the grammar that denotes the document. *)
From Coq Require Import NArith ZArith List Bool Arith Lia String.
From Verif Require HashSortProofs.
From Verif Require Import Bytes BytesFacts Outcome Utf8 Utf8Proofs Quote QuoteSpec Parser ParserSpec Dom Printer Grammar
  QuoteProofs LexProofs BuildProofs GrammarProofs Compact Stray.
Import ListNotations.
Local Open Scope N_scope.
Local Open Scope op_scope.

(** In compact mode the output depends on the last character only. *)
Definition writes (a : op) (c : N) (o : bytes) (c' : N) : Prop :=
  forall s, p_last s = c -> p_ok s = true -> (0 <= p_cur s)%Z ->
  exists s', a s = (o, s') /\ p_last s' = c' /\ p_ok s' = true /\ (0 <= p_cur s')%Z.

Lemma writes_seq a b c c' c'' o o' : writes a c o c' -> writes b c' o' c'' -> writes (a ;; b) c (o ++ o') c''.
Proof.
  intros H1 H2 s E K P. destruct (H1 s E K P) as (s1 & E1 & L1 & K1 & P1). destruct (H2 s1 L1 K1 P1) as (s2 & E2 & L2).
  exists s2. unfold seq. rewrite E1, E2. auto.
Qed.
Lemma writes_nop c : writes nop c [] c.
Proof. intros s E K P. exists s. auto. Qed.
Lemma writes_when b a c o c' : writes a c o c' -> writes (when b a) c (if b then o else []) (if b then c' else c).
Proof. destruct b; auto. intros _. apply writes_nop. Qed.
Lemma writes_ask {A} (f : pr -> A) k c o c' : (forall s, p_last s = c -> p_ok s = true -> (0 <= p_cur s)%Z -> writes (k (f s)) c o c') -> writes (ask f k) c o c'.
Proof. intros H s E K P. unfold ask. now apply H. Qed.
Lemma writes_last k c o c' : writes (k c) c o c' -> writes (ask p_last k) c o c'.
Proof. intros H. apply writes_ask. intros s E K P. now rewrite E. Qed.
Lemma writes_put b c : writes (put b) c b c.
Proof. intros s E K P. exists s. auto. Qed.
Lemma writes_cur n c : (0 <= n)%Z -> writes (add_cur n) c [] c.
Proof. intros H s E K P. eexists. split; [reflexivity|]. cbn. repeat split; auto. lia. Qed.
Lemma writes_set c c' : writes (set_last c') c [] c'.
Proof. intros s E K P. eexists. split; [reflexivity|]. cbn. auto. Qed.
Lemma writes_line f c : writes (set_line f) c [] c.
Proof. intros s E K P. eexists. split; [reflexivity|]. cbn. auto. Qed.
Lemma writes_eq a c o o' c' c'' : writes a c o c' -> o = o' -> c' = c'' -> writes a c o' c''.
Proof. now intros H <- <-. Qed.

Lemma writes_str b c : b <> [] -> writes (print_str b) c b (List.last b 0).
Proof.
  intros H. destruct b as [|d r]; [congruence|]. unfold print_str. eapply writes_eq.
  - eapply writes_seq; [apply writes_put|]. eapply writes_seq; [apply writes_cur; unfold zlen; lia|apply writes_set].
  - now rewrite app_nil_r.
  - reflexivity.
Qed.
Lemma writes_range b c : no_stray b -> writes (print_range b) c b (match b with [] => c | _ => List.last b 0 end).
Proof.
  intros Hb. destruct b as [|d r]; [apply writes_nop|]. unfold print_range. rewrite written_id by assumption. eapply writes_eq.
  - eapply writes_seq; [apply writes_put|]. eapply writes_seq; [apply writes_cur; lia|apply writes_set].
  - now rewrite app_nil_r.
  - reflexivity.
Qed.
Lemma writes_spaces n c : (0 <= n)%Z -> writes (white_spaces n) c (rep cSP (Z.to_nat n)) c.
Proof.
  intros H. unfold white_spaces. eapply writes_eq; [eapply writes_seq; [apply writes_put|now apply writes_cur]| |reflexivity].
  now rewrite app_nil_r.
Qed.
Lemma writes_quotes n c : writes (print_quotes n) c (rep cQ n) cQ.
Proof.
  unfold print_quotes. eapply writes_eq; [eapply writes_seq; [apply writes_put|]; eapply writes_seq; [apply writes_cur; lia|apply writes_set]| |reflexivity].
  now rewrite app_nil_r.
Qed.
Lemma writes_slashes a b n c : writes (slashes a b n) c (a ++ rep cSLASH n ++ b) c.
Proof. apply writes_put. Qed.

Section compact.
Variable C : cfg.
Hypothesis HC : compact C = true.

Lemma esc_nl : escape_newlines C = true.
Proof. unfold escape_newlines. now rewrite HC. Qed.

(** Separators. *)
Definition sepb (b : bool) : bytes := if b then [cSP] else [].
Lemma writes_sep b c : writes (when b (white_spaces 1)) c (sepb b) c.
Proof. destruct b; [apply (writes_spaces 1); lia|apply writes_nop]. Qed.
Lemma writes_space_attribute c : writes (space_attribute C) c (sepb (sep_attribute c)) c.
Proof.
  apply writes_last. rewrite HC. destruct (N.eqb_spec c cLP) as [-> |H]; [apply writes_nop|]. cbn [negb]. apply writes_sep.
Qed.
Lemma writes_space_entity c : writes (space_entity C) c (sepb (sep_entity c)) c.
Proof.
  apply writes_last. rewrite HC. destruct (N.eqb_spec c cLP) as [-> |H]; [apply writes_nop|]. cbn [negb andb]. apply writes_sep.
Qed.
Lemma writes_space_quote l c : writes (space_quote C l) c (sepb (c =? cQ)) c.
Proof.
  apply writes_last. rewrite HC. destruct (N.eqb_spec c 0) as [-> |H]; [apply writes_nop|]. cbn [negb andb]. apply writes_sep.
Qed.
Lemma writes_space_key c : writes (space_key C) c (sepb (sep_element c)) c.
Proof.
  apply writes_last. rewrite HC. destruct (N.eqb_spec c 0) as [-> |H]; [apply writes_nop|]. cbn [negb andb]. apply writes_sep.
Qed.
Lemma writes_space_comment c : writes (space_comment C) c (sepb (sep_comment c)) c.
Proof.
  apply writes_last. rewrite HC. destruct (N.eqb_spec c 0) as [-> |H]; [apply writes_nop|]. cbn [negb andb]. apply writes_sep.
Qed.

(** ** Tokens of a text: quotes and entities *)
Inductive tok := TQ (d : nat) (b : bytes) | T0 | TE (u : N) | TR (n : bytes).
Definition tok_bytes (t : tok) : bytes :=
  match t with
  | TQ d b => rep cQ d ++ b ++ rep cQ d
  | T0 => [cQ; cQ]
  | TE u => char_ref u
  | TR n => [cAMP] ++ n ++ [cSEMI]
  end.
Definition tok_part (t : tok) : part :=
  match t with TQ _ b => PText b | T0 => PText [] | TE u => PText (utf8_spec u) | TR n => PRef n end.
Definition is_quote (t : tok) : bool := match t with TQ _ _ | T0 => true | _ => false end.
Definition tok_last (t : tok) : N := if is_quote t then cQ else cSEMI.
Definition tok_sep (t : tok) (c : N) : bytes := sepb (if is_quote t then c =? cQ else sep_entity c).
Definition tok_ok (t : tok) : Prop :=
  match t with
  | TQ d b => (1 <= d)%nat /\ d <> 2%nat /\ quote_body d b /\ plain b /\ ~ In cNL b
  | T0 => True
  | TE u => 0 < u <= 0x10ffff
  | TR n => is_name n /\ ~ starts (is cHASH) n
  end.
Definition tok_text (t : tok) : bytes :=
  match t with TQ _ b => b | T0 => [] | TE u => utf8_spec u | TR _ => [] end.
Definition text_tok (t : tok) : Prop := match t with TR _ => False | _ => True end.

Fixpoint toks (c : N) (l : list tok) : bytes :=
  match l with [] => [] | t :: r => tok_sep t c ++ tok_bytes t ++ toks (tok_last t) r end.
Fixpoint end_of (c : N) (l : list tok) : N := match l with [] => c | t :: r => end_of (tok_last t) r end.
Lemma toks_app c a b : toks c (a ++ b) = toks c a ++ toks (end_of c a) b.
Proof. revert c. induction a as [|t a IH]; intros c; [reflexivity|]. cbn. now rewrite IH, <- !app_assoc. Qed.
Lemma end_app c a b : end_of c (a ++ b) = end_of (end_of c a) b.
Proof. revert c. induction a as [|t a IH]; intros c; [reflexivity|]. cbn. now rewrite IH. Qed.

(** The operation prints the tokens, whatever comes before. *)
Definition prints (a : op) (l : list tok) : Prop := forall c, writes a c (toks c l) (end_of c l).
Lemma prints_seq a b l m : prints a l -> prints b m -> prints (a ;; b) (l ++ m).
Proof. intros H1 H2 c. rewrite toks_app, end_app. eapply writes_seq; eauto. Qed.
Lemma prints_nop : prints nop [].
Proof. intros c. apply writes_nop. Qed.
Lemma prints_cons a b t m : prints a [t] -> prints b m -> prints (a ;; b) (t :: m).
Proof. apply (prints_seq a b [t] m). Qed.

Definition texts_of (l : list tok) : bytes := List.concat (map tok_text l).
Lemma texts_of_app a b : texts_of (a ++ b) = texts_of a ++ texts_of b.
Proof. unfold texts_of. now rewrite map_app, concat_app. Qed.

(** The tokens that print the text s. *)
Definition shows (a : op) (s : bytes) : Prop :=
  exists l, prints a l /\ Forall tok_ok l /\ Forall text_tok l /\ texts_of l = s.
Lemma shows_seq a b s t : shows a s -> shows b t -> shows (a ;; b) (s ++ t).
Proof.
  intros (l & P1 & O1 & T1 & <-) (m & P2 & O2 & T2 & <-). exists (l ++ m).
  repeat split; auto using prints_seq; try now apply Forall_app. now rewrite texts_of_app.
Qed.
Lemma shows_nop : shows nop [].
Proof. exists []. repeat split; auto using prints_nop. Qed.
Lemma shows_one a t : prints a [t] -> tok_ok t -> text_tok t -> shows a (tok_text t).
Proof. intros P O T. exists [t]. repeat split; auto. unfold texts_of. cbn. now rewrite app_nil_r. Qed.

(** Decimal numbers. *)
Lemma number_app base digit a : forall acc b u, number base digit a acc = Some u -> number base digit (a ++ b) acc = number base digit b u.
Proof.
  induction a as [|c a IH]; intros acc b u H; cbn in *; [congruence|]. destruct (digit c); [|discriminate]. now apply IH.
Qed.
Lemma dec_digit_mod n : dec_digit (48 + n mod 10) = Some (n mod 10) /\ is_xmq_text_name (48 + n mod 10) = true.
Proof.
  assert (H : n mod 10 < 10) by (apply N.mod_lt; lia). revert H. generalize (n mod 10). intros m H.
  assert (X : forall P : N -> bool, forallb P (map N.of_nat (List.seq 0 10)) = true -> P m = true).
  { intros P HP. apply (below_spec 10 P HP). exact H. }
  split.
  - specialize (X (fun m => match dec_digit (48 + m) with Some d => d =? m | None => false end) eq_refl). cbn beta in X.
    destruct (dec_digit (48 + m)); [|discriminate]. apply N.eqb_eq in X. congruence.
  - apply (X (fun m => is_xmq_text_name (48 + m)) eq_refl).
Qed.
Lemma decimal_loop_spec f : forall n acc, (N.to_nat (N.log2 n) < f)%nat ->
  exists ds, decimal_loop f n acc = ds ++ acc /\ ds <> [] /\ number 10 dec_digit ds 0 = Some n /\ forallb is_xmq_text_name ds = true.
Proof.
  induction f as [|f IH]; intros n acc H; [lia|]. cbn [decimal_loop]. destruct (dec_digit_mod n) as (D & T). destruct (N.ltb_spec n 10) as [L|L].
  - exists [48 + n mod 10]. split; [reflexivity|]. split; [discriminate|]. split.
    + cbn [number]. rewrite D. cbn [number]. f_equal. rewrite N.mod_small by lia. lia.
    + cbn [forallb]. now rewrite T.
  - assert (L2 : N.log2 (n / 10) < N.log2 n).
    { assert (N.log2 (n / 10) <= N.log2 (n / 2)).
      { apply N.log2_le_mono. apply N.div_le_lower_bound; [lia|]. pose proof (N.mul_div_le n 10). nia. }
      assert (E : N.log2 (n / 2) = N.pred (N.log2 n)).
      { rewrite <- N.div2_div, N.div2_spec. rewrite N.log2_shiftr. lia. }
      assert (0 < N.log2 n) by (apply N.log2_pos; lia). lia. }
    destruct (IH (n / 10) ((48 + n mod 10) :: acc)) as (ds & E & Hn & N1 & T1); [lia|].
    exists (ds ++ [48 + n mod 10]). split; [rewrite E, <- app_assoc; reflexivity|]. split; [now destruct ds|]. split.
    + rewrite (number_app _ _ _ _ _ _ N1). cbn [number]. rewrite D. cbn [number]. f_equal. rewrite (N.div_mod n 10) at 3 by lia. lia.
    + now rewrite forallb_app, T1; cbn [forallb]; rewrite T.
Qed.
Lemma decimal_spec n : decimal n <> [] /\ number 10 dec_digit (decimal n) 0 = Some n /\ forallb is_xmq_text_name (decimal n) = true.
Proof.
  unfold decimal. destruct (decimal_loop_spec (S (N.to_nat (N.log2 n))) n []) as (ds & -> & H); [lia|]. now rewrite app_nil_r.
Qed.
Lemma char_ref_entity u : 0 < u <= 0x10ffff -> entity (char_ref u) (PText (utf8_spec u)).
Proof. intros H. destruct (decimal_spec u) as (H1 & H2 & H3). unfold char_ref. cbn [app]. now apply e_dec. Qed.

(** A character that is escaped. *)
Lemma last_char_ref u : List.last (char_ref u) 0 = cSEMI.
Proof. unfold char_ref. rewrite app_assoc. apply last_last. Qed.
Lemma prints_entity u n s : decode_utf8 s = DecOk u n -> prints (space_entity C ;; char_entity s) [TE u].
Proof.
  intros D c. cbn [toks end_of]. rewrite app_nil_r. eapply writes_seq.
  - apply writes_space_entity.
  - unfold char_entity. rewrite D. eapply writes_eq.
    + eapply writes_seq; [apply writes_str; discriminate|]. eapply writes_seq; [apply writes_set|apply writes_cur; unfold zlen; lia].
    + cbn [tok_bytes]. now rewrite app_nil_r.
    + reflexivity.
Qed.
Lemma decode_ascii c r : c < 128 -> decode_utf8 (c :: r) = DecOk c 1.
Proof. intros H. cbn [decode_utf8]. now rewrite lead1. Qed.
Lemma utf8_ascii c : c < 128 -> utf8_spec c = [c].
Proof. intros H. unfold utf8_spec. destruct (N.ltb_spec c 128); [reflexivity|lia]. Qed.
Lemma shows_ascii c r : 0 < c < 128 -> shows (space_entity C ;; char_entity (c :: r)) [c].
Proof.
  intros H. rewrite <- (utf8_ascii c) by lia. change (utf8_spec c) with (tok_text (TE c)). apply shows_one.
  - eapply prints_entity. apply decode_ascii. lia.
  - cbn. lia.
  - exact I.
Qed.

(** ** Quotes *)
Lemma take_cont_app r : forall a b, take_cont r = (a, b) -> r = a ++ b.
Proof.
  induction r as [|c r IH]; intros a b E; cbn [take_cont] in E; [now injection E as <- <-|].
  destruct (is_cont c); [|now injection E as <- <-]. destruct (take_cont r) as [a' b']. injection E as <- <-. cbn. f_equal. now apply IH.
Qed.
Lemma writes_quote_chars f : forall s, (List.length s <= f)%nat -> ~ In cNL s -> no_stray s -> forall c, exists c', writes (quote_chars f s) c s c'.
Proof.
  induction f as [|f IH]; intros s L N T c; destruct s as [|d r]; cbn [quote_chars]; try (exists c; apply writes_nop); [cbn in L; lia|].
  assert (Hd : d =? cNL = false) by (apply N.eqb_neq; intros ->; apply N; now left). rewrite Hd.
  destruct (take_cont r) as [a b] eqn:E. rewrite (take_cont_stray d r a b E T). apply take_cont_app in E.
  destruct (IH b) with (c := d) as (c' & W).
  - subst r. cbn in L. rewrite app_length in L. lia.
  - intros I. apply N. right. subst r. apply in_or_app. now right.
  - subst r. now apply (stray_app (d :: a) b).
  - exists c'. eapply writes_eq; [eapply writes_seq; [apply writes_put|]; eapply writes_seq; [apply writes_set|]; eapply writes_seq; [apply writes_cur; lia|exact W]| |reflexivity].
    subst r. reflexivity.
Qed.
Lemma starts_with_not c s : ~ In c s -> starts_with c s = false.
Proof. destruct s as [|d r]; [reflexivity|]. cbn. intros H. apply N.eqb_neq. intros ->. apply H. now left. Qed.
Lemma ends_with_not c s : ~ In c s -> ends_with c s = false.
Proof. intros H. apply starts_with_not. now rewrite <- in_rev. Qed.
Lemma writes_quote_lines s c : ~ In cNL s -> no_stray s -> exists c', writes (quote_lines s) c s c'.
Proof.
  intros N T. unfold quote_lines. rewrite (starts_with_not _ _ N), (ends_with_not _ _ N).
  destruct (writes_quote_chars (List.length s) s (le_n _) N T c) as (c' & W). exists c'.
  eapply writes_eq; [eapply writes_seq; [apply writes_nop|]; eapply writes_seq; [exact W|apply writes_nop]| |reflexivity].
  now rewrite app_nil_r.
Qed.

Lemma scan_max s : forall max curr safe m sf, scan_quotes s max curr safe = (m, sf) -> (max <= m)%nat /\
  (forall k y, (1 <= k)%nat -> s = rep cQ k ++ y -> (curr + k <= m)%nat) /\ (forall x k y, s = x ++ rep cQ k ++ y -> (k <= m)%nat).
Proof.
  induction s as [|c s IH]; intros max curr safe m sf E; cbn [scan_quotes] in E.
  - injection E as <- <-. split; [lia|]. split.
    + intros k y K H. destruct k; [lia|discriminate].
    + intros x k y H. destruct x; [|discriminate]. destruct k; [lia|discriminate].
  - destruct (N.eqb_spec c cQ) as [-> |Hc].
    + destruct (IH _ _ _ _ _ E) as (H1 & H2 & H3). split; [lia|]. split.
      * intros k y K H. destruct k as [|k]; [lia|]. cbn [rep repeat app] in H. injection H as H.
        destruct k as [|k]; [lia|]. specialize (H2 (S k) y ltac:(lia) H). lia.
      * intros x k y H. destruct x as [|d x]; [|injection H as _ H; eauto].
        destruct k as [|k]; [lia|]. cbn [rep repeat app] in H. injection H as H.
        destruct k as [|k]; [lia|]. specialize (H2 (S k) y ltac:(lia) H). lia.
    + destruct (IH _ _ _ _ _ E) as (H1 & H2 & H3). split; [lia|]. split.
      * intros k y K H. destruct k as [|k]; [lia|]. cbn [rep repeat app] in H. injection H as H _. congruence.
      * intros x k y H. destruct x as [|d x]; [|injection H as _ H; eauto].
        destruct k as [|k]; [lia|]. cbn [rep repeat app] in H. injection H as H _. congruence.
Qed.
Lemma scan_few s : forall max curr safe m sf, scan_quotes s max curr safe = (m, sf) -> (max <= 2)%nat -> (curr <= 2)%nat ->
  few_quotes (rep cQ curr ++ s) -> (m <= 2)%nat.
Proof.
  induction s as [|c s IH]; intros max curr safe m sf E Hm Hc F; cbn [scan_quotes] in E.
  - now injection E as <- <-.
  - destruct (N.eqb_spec c cQ) as [-> |Hd].
    + assert (Hc1 : (curr <= 1)%nat).
      { destruct curr as [|[|[|]]]; try lia. exfalso. apply (F [] s). reflexivity. }
      eapply IH; eauto; try lia.
      intros x y H. apply (F x y). rewrite <- H. rewrite <- (rep_snoc cQ curr). now rewrite <- app_assoc.
    + eapply IH; eauto; try lia. intros x y H. cbn [rep repeat app] in H. apply (F (rep cQ curr ++ [c] ++ x) y).
      rewrite H. now rewrite <- !app_assoc.
Qed.

Lemma first_starts c s : starts_with c s = false <-> ~ starts (is c) s.
Proof.
  destruct s as [|d r]; cbn.
  - split; auto. intros _ (? & ? & H & _). discriminate.
  - split.
    + intros H (e & r' & E & He). injection E as <- <-. unfold is in He. congruence.
    + intros H. destruct (d =? c) eqn:E; auto. exfalso. apply H. exists d, r. split; auto.
Qed.

(** The quotes that are chosen (C24). *)
Lemma quotes_delimit b numq nls comp : count_necessary_quotes b false = (numq, nls, comp) -> b <> [] ->
  ~ starts (is cQ) b -> ~ starts (is cQ) (rev b) ->
  let d := if Nat.eqb numq 0 then 1%nat else numq in
  (1 <= d)%nat /\ d <> 2%nat /\ quote_body d b /\ nls = false /\ (few_quotes b -> (d <= 3)%nat).
Proof.
  intros E Hb H1 H2 d. unfold count_necessary_quotes in E.
  cbv zeta in E. destruct (scan_quotes b 0 0 _) as [m sf] eqn:Sc. injection E as E1 E2 _.
  destruct (scan_max _ _ _ _ _ _ Sc) as (_ & _ & M).
  assert (F : few_quotes b -> (m <= 2)%nat) by (intros F; eapply scan_few; eauto; lia).
  assert (X : numq = 0%nat /\ m = 0%nat \/ numq = 1%nat /\ m = 0%nat \/ numq = 3%nat /\ m = 1%nat \/ numq = S m /\ (2 <= m)%nat).
  { rewrite <- E1. destruct m as [|[|m]]; cbn; [|auto|right; right; right; lia]. destruct sf; cbn; auto. }
  assert (Y : (1 <= d)%nat /\ d <> 2%nat /\ (m < d)%nat /\ ((m <= 2)%nat -> (d <= 3)%nat)).
  { subst d. destruct (Nat.eqb_spec numq 0); lia. }
  repeat split; try lia; auto.
  - intros x k y E. specialize (M x k y E). lia.
  - apply first_starts in H1. apply first_starts in H2. rewrite <- E2. unfold ends_with. now rewrite H1, H2.
Qed.
Lemma prints_leaf l p : p <> [] -> ~ starts (is cQ) p -> ~ starts (is cQ) (rev p) -> few_quotes p -> no_stray p -> ~ In cNL p ->
  exists d, (1 <= d)%nat /\ d <> 2%nat /\ quote_body d p /\ prints (space_quote C l ;; safe_leaf_quote p) [TQ d p].
Proof.
  intros Hp H1 H2 F T N. destruct (count_necessary_quotes p false) as [[numq nls] comp] eqn:E.
  destruct (quotes_delimit _ _ _ _ E Hp H1 H2) as (D1 & D2 & D3 & -> & D5).
  set (d := if Nat.eqb numq 0 then 1%nat else numq) in *. exists d. repeat split; auto; try apply D3.
  intros c. cbn [toks end_of]. rewrite app_nil_r. eapply writes_seq; [apply writes_space_quote|].
  unfold safe_leaf_quote. apply writes_ask. intros s _ _ Hs. rewrite E.
  assert (A : (if Nat.ltb 0 numq then false || (p_cur (id s) =? -1)%Z || Nat.leb 4 numq else false) = false).
  { destruct (Nat.ltb_spec 0 numq) as [L|L]; auto. cbn [orb]. apply orb_false_iff. split.
    - apply Z.eqb_neq. unfold id. lia.
    - apply Nat.leb_gt. specialize (D5 F). unfold d in D5. destruct (Nat.eqb_spec numq 0); lia. }
  rewrite A. fold d. destruct (writes_quote_lines p cQ N T) as (c' & W).
  eapply writes_eq.
  - eapply writes_seq; [apply writes_quotes|]. eapply writes_seq; [apply writes_line|]. eapply writes_seq; [exact W|].
    eapply writes_seq; [apply writes_line|]. apply writes_quotes.
  - reflexivity.
  - reflexivity.
Qed.

Lemma seq_assoc a b c s : (a ;; b ;; c) s = ((a ;; b) ;; c) s.
Proof.
  unfold seq. destruct (a s) as [x s1]. destruct (b s1) as [y s2]. destruct (c s2) as [z s3]. now rewrite app_assoc.
Qed.
Lemma shows_assoc a b c s : shows ((a ;; b) ;; c) s -> shows (a ;; b ;; c) s.
Proof.
  intros (l & P & H). exists l. split; auto. intros d st E K Q. rewrite seq_assoc. now apply P.
Qed.

(** ** White space *)
Lemma xml_ws c : is_xml_whitespace c = true -> c = cSP \/ (c = cTAB \/ c = cNL \/ c = cCR) /\ c <> cSP /\ 0 < c < 128.
Proof.
  unfold is_xml_whitespace. rewrite !orb_true_iff, !N.eqb_eq. intros H.
  destruct H as [[[-> | ->]| ->]| ->]; auto; right; (split; [auto|split; [discriminate|split; reflexivity]]).
Qed.
Lemma lead_split c s : s = rep c (count_lead c s) ++ skipn (count_lead c s) s /\ ~ starts (is c) (skipn (count_lead c s) s).
Proof.
  induction s as [|d s IH]; cbn [count_lead].
  - split; [reflexivity|]. intros (? & ? & H & _). discriminate.
  - destruct (N.eqb_spec d c) as [-> |H].
    + cbn [rep repeat skipn app]. destruct IH as [IH1 IH2]. split; [f_equal; exact IH1|exact IH2].
    + cbn. split; [reflexivity|]. intros (e & r & E & He). injection E as <- <-. apply N.eqb_eq in He. congruence.
Qed.
Lemma in_rep c d n : In c (rep d n) -> c = d.
Proof. intros H. now apply repeat_spec in H. Qed.
Lemma spaces_tok n : (1 <= n)%nat -> tok_ok (TQ 1 (rep cSP n)).
Proof.
  intros H. cbn. destruct n as [|n]; [lia|]. repeat split; auto; try lia.
  - discriminate.
  - intros (? & ? & E & He). injection E as <- <-. discriminate.
  - rewrite rev_rep. intros (? & ? & E & He). injection E as <- <-. discriminate.
  - intros x k y E. destruct k as [|k]; [lia|]. exfalso. assert (I : In cQ (rep cSP (S n))) by (rewrite E; apply in_or_app; right; now left).
    apply in_rep in I. discriminate.
  - intros I. apply in_rep in I. discriminate.
  - intros I. apply in_rep in I. discriminate.
  - intros I. apply in_rep in I. discriminate.
Qed.
Lemma shows_quoted_spaces l n : (1 <= n)%nat -> shows (space_quote C l ;; quoted_spaces n) (rep cSP n).
Proof.
  intros H. change (rep cSP n) with (tok_text (TQ 1 (rep cSP n))). apply shows_one; [|now apply spaces_tok|exact I].
  intros c. cbn [toks end_of]. rewrite app_nil_r. eapply writes_seq; [apply writes_space_quote|].
  unfold quoted_spaces. eapply writes_eq; [eapply writes_seq; [apply writes_put|]; eapply writes_seq; [apply writes_cur; lia|apply writes_set]| |reflexivity].
  cbn [tok_bytes]. now rewrite app_nil_r.
Qed.
Lemma shows_whitespace l f : forall s, (List.length s <= f)%nat -> forallb is_xml_whitespace s = true -> shows (all_whitespace C f l s) s.
Proof.
  induction f as [|f IH]; intros s L W; destruct s as [|c r]; cbn [all_whitespace]; try apply shows_nop; [cbn in L; lia|].
  cbn [forallb] in W. apply andb_true_iff in W as [W1 W2].
  destruct (N.eqb_spec c cSP) as [-> |Hc].
  - destruct (lead_split cSP (cSP :: r)) as (E & _). set (n := count_lead cSP (cSP :: r)) in *. rewrite E at 2.
    assert (Hn : (1 <= n)%nat) by (subst n; cbn; lia).
    apply shows_assoc, shows_seq; [now apply shows_quoted_spaces|]. apply IH.
    + rewrite skipn_length. cbn in L |- *. lia.
    + assert (X : forallb is_xml_whitespace (cSP :: r) = true) by (cbn; exact W2). rewrite E, forallb_app in X. now apply andb_true_iff in X.
  - destruct (xml_ws c W1) as [|(_ & _ & H)]; [contradiction|]. change (c :: r) with ([c] ++ r) at 2.
    apply shows_assoc, shows_seq; [now apply shows_ascii|]. apply IH; auto. cbn in L. lia.
Qed.
Lemma shows_all_whitespace l s : forallb is_xml_whitespace s = true -> shows (print_all_whitespace C l s) s.
Proof. apply shows_whitespace. lia. Qed.

(** ** Texts in pieces *)
Definition utf8_text (s : bytes) : Prop := exists us, s = List.concat (map utf8_spec us) /\ Forall (fun u => u <= 0x10ffff) us.
(** The part of text_ok that is inherited by the rest of a text. *)
Definition tidy (s : bytes) : Prop := few_quotes s /\ no_stray s.
Definition piece_ok (s : bytes) : Prop := ~ In 0 s /\ tidy s /\ (escape_non_7bit C = true -> utf8_text s).

Lemma few_app a b : few_quotes (a ++ b) -> few_quotes a /\ few_quotes b.
Proof.
  intros H. split; intros x y E.
  - apply (H x (y ++ b)). rewrite E, <- !app_assoc. reflexivity.
  - apply (H (a ++ x) y). rewrite E, <- !app_assoc. reflexivity.
Qed.
Lemma tidy_app a b : tidy (a ++ b) -> tidy a /\ tidy b.
Proof. intros [H1 H2]. apply few_app in H1 as [? ?]. apply stray_app in H2 as [? ?]. repeat split; assumption. Qed.

Lemma next_escape_spec ps s : forall i n, next_escape C ps i s = n -> exists k, n = (i + k)%nat /\ (k <= List.length s)%nat /\
  (forall c, In c (firstn k s) -> must_escape C c = false) /\
  (skipn k s = [] \/ exists c r, skipn k s = c :: r /\ (must_escape C c = true \/ c = cQ /\ n = ps)) /\
  (forall j c r, (j < k)%nat -> skipn j s = c :: r -> c = cQ -> (i + j)%nat <> ps).
Proof.
  induction s as [|c s IH]; intros i n E; cbn [next_escape] in E.
  - exists 0%nat. subst n. repeat split; auto; try lia. now cbn.
  - rewrite HC in E. cbn [andb] in E. destruct (((c =? cQ) && Nat.eqb i ps) || must_escape C c)%bool eqn:X.
    + exists 0%nat. subst n. repeat split; auto; try lia; [now cbn|]. right. exists c, s. split; [reflexivity|].
      apply orb_true_iff in X as [X|X]; auto. apply andb_true_iff in X as [X1 X2]. apply N.eqb_eq in X1. apply Nat.eqb_eq in X2. auto.
    + apply orb_false_iff in X as [X1 X2]. destruct (IH _ _ E) as (k & -> & K1 & K2 & K3 & K4). exists (S k). repeat split; try lia.
      * cbn. lia.
      * cbn [firstn]. intros d [<-|I]; auto.
      * cbn [skipn]. destruct K3 as [K3|(d & r & K3 & K5)]; auto. right. exists d, r. split; auto.
      * intros j d r Hj Es Ed. destruct j as [|j].
        -- cbn in Es. injection Es as -> ->. subst d. rewrite N.eqb_refl in X1. cbn [andb] in X1. apply Nat.eqb_neq in X1. lia.
        -- cbn in Es. specialize (K4 j d r ltac:(lia) Es Ed). lia.
Qed.

Lemma ws_prefix s i b : exists k, fst (skip_ws s i b) = (i + k)%nat /\ forallb is_xml_whitespace (firstn k s) = true /\ (k <= List.length s)%nat
  /\ (snd (skip_ws s i b) = true -> b = true \/ In cNL s).
Proof.
  revert i b. induction s as [|c r IH]; intros i b; cbn [skip_ws].
  - exists 0%nat. cbn. repeat split; auto; lia.
  - destruct (is_xml_whitespace c) eqn:W.
    + destruct (IH (S i) (if c =? cNL then true else b)) as (k & E & F & L & X). exists (S k). rewrite E. cbn [firstn forallb List.length].
      rewrite W, F. repeat split; try lia. intros H. destruct (X H) as [Y|Y]; [|right; now right].
      destruct (N.eqb_spec c cNL) as [-> |]; auto. right. now left.
    + exists 0%nat. cbn. repeat split; auto; try lia. intros H. destruct (N.eqb_spec c cNL) as [-> |]; auto.
Qed.
Lemma nl_ws n : forallb is_xml_whitespace (rep cNL n) = true.
Proof. induction n; auto. Qed.
Lemma leading_ws s n k : has_leading_space_nl s = (Some n, k) -> forallb is_xml_whitespace (firstn n s) = true.
Proof.
  unfold has_leading_space_nl. destruct (skip_nls_spec s 0) as (j & r & -> & E & _). rewrite E.
  destruct (ws_prefix r (0 + j) (Nat.ltb 0 (0 + j))) as (i & Ei & F & _). destruct (skip_ws r _ _) as [i' f]. cbn in Ei. subst i'.
  destruct f; [|discriminate]. intros H. injection H as <- _. rewrite firstn_app, rep_length, forallb_app.
  rewrite firstn_all2 by (rewrite rep_length; lia). rewrite nl_ws. replace (j + i - j)%nat with i by lia. exact F.
Qed.
Lemma ending_ws s n k : has_ending_nl_space s = (Some n, k) -> forallb is_xml_whitespace (skipn n s) = true.
Proof.
  unfold has_ending_nl_space. destruct (skip_nls_spec (rev s) 0) as (j & r & Er & E & _). rewrite E.
  destruct (ws_prefix r (0 + j) (Nat.ltb 0 (0 + j))) as (i & Ei & F & L & _). destruct (skip_ws r _ _) as [i' f]. cbn in Ei. subst i'.
  destruct f; [|discriminate]. intros H. injection H as <- _.
  assert (Es : s = rev (skipn i r) ++ rev (rep cNL j ++ firstn i r)).
  { rewrite <- rev_app_distr, <- app_assoc, firstn_skipn, <- Er. now rewrite rev_involutive. }
  assert (X : skipn (List.length s - (0 + j + i)) s = rev (rep cNL j ++ firstn i r)).
  { rewrite Es at 2. rewrite skipn_app.
    assert (Y : (List.length s - (0 + j + i) = List.length (rev (skipn i r)))%nat).
    { rewrite Es, app_length, !rev_length, app_length, rep_length, firstn_length, skipn_length. lia. }
    rewrite Y, skipn_all, Nat.sub_diag. reflexivity. }
  cbn [Nat.add] in X |- *. rewrite X. apply forallb_forall. intros c I. apply in_rev in I. apply in_app_or in I as [I|I].
  - apply in_rep in I. now subst.
  - rewrite forallb_forall in F. auto.
Qed.
Lemma no_nl_lead s : ~ In cNL s -> fst (has_leading_space_nl s) = None.
Proof.
  intros H. unfold has_leading_space_nl. destruct (skip_nls_spec s 0) as (j & r & E & -> & _).
  destruct j as [|j]; [|exfalso; apply H; rewrite E; now left].
  destruct (ws_prefix r 0 (Nat.ltb 0 0)) as (i & _ & _ & _ & X). cbn in E. subst r.
  change (0 + 0)%nat with 0%nat. destruct (skip_ws s 0 _) as [i' f]. destruct f; auto. destruct (X eq_refl) as [Y|Y]; [discriminate|contradiction].
Qed.
Lemma no_nl_end s : ~ In cNL s -> fst (has_ending_nl_space s) = None.
Proof.
  intros H. assert (H' : ~ In cNL (rev s)) by now rewrite <- in_rev. apply no_nl_lead in H'.
  unfold has_ending_nl_space. unfold has_leading_space_nl in H'. destruct (skip_nls (rev s) 0) as [n r].
  destruct (skip_ws r n _) as [i f]. destruct f; [discriminate|reflexivity].
Qed.
Lemma no_nl_mixed s : ~ In cNL s -> has_mixed_space s = false.
Proof.
  intros H. unfold has_mixed_space. cbv zeta. pose proof (no_nl_lead s H) as A. pose proof (no_nl_end s H) as D.
  destruct (has_leading_space_nl s) as [x a]. destruct (has_ending_nl_space s) as [y b]. cbn in A, D. now subst.
Qed.

(** Characters that are not escaped. *)
Definition calm (s : bytes) : Prop := forall c, In c s -> must_escape C c = false.
Lemma calm_nl s : calm s -> ~ In cNL s.
Proof. intros H I. specialize (H _ I). unfold must_escape in H. rewrite esc_nl in H. discriminate. Qed.
Lemma calm_cr s : calm s -> ~ In cCR s.
Proof. intros H I. specialize (H _ I). unfold must_escape in H. rewrite esc_nl in H. cbn in H. rewrite !orb_true_r in H. discriminate. Qed.
Lemma calm_ascii s : calm s -> escape_non_7bit C = true -> forall c, In c s -> c < 128.
Proof.
  intros H E c I. specialize (H _ I). unfold must_escape in H. rewrite E in H. cbn [andb] in H. apply orb_false_iff in H as [H _].
  apply orb_false_iff in H as [H _]. apply orb_false_iff in H as [_ H]. apply N.ltb_ge in H. lia.
Qed.
Lemma calm_app a b : calm (a ++ b) -> calm a /\ calm b.
Proof. intros H. split; intros c I; apply H, in_or_app; auto. Qed.

Lemma utf8_text_cons c s : utf8_text (c :: s) -> c <> 0 ->
  exists u s', c :: s = utf8_spec u ++ s' /\ 0 < u <= 0x10ffff /\ utf8_text s'.
Proof.
  intros (us & E & F) Hc. destruct us as [|u us]; [discriminate|]. cbn in E. exists u, (List.concat (map utf8_spec us)).
  inversion F; subst. split; [exact E|]. split; [|exists us; auto]. split; [|assumption].
  destruct (N.eq_dec u 0) as [-> |]; [|lia]. cbn in E. injection E as -> _. contradiction.
Qed.
Lemma utf8_spec_cases u : u < 128 /\ utf8_spec u = [u] \/ 128 <= u /\ exists a b r, utf8_spec u = a :: b :: r /\ 192 <= a /\ 128 <= b.
Proof.
  unfold utf8_spec. destruct (N.ltb_spec u 128); [auto|]. right. split; auto.
  destruct (N.ltb_spec u 2048); [|destruct (N.ltb_spec u 65536)]; do 3 eexists; (split; [reflexivity|]); split; lia.
Qed.
Lemma utf8_text_ascii c s : utf8_text (c :: s) -> 0 < c < 128 -> utf8_text s.
Proof.
  intros H Hc. destruct (utf8_text_cons _ _ H) as (u & s' & E & Hu & T); [lia|].
  destruct (utf8_spec_cases u) as [(L & X)|(L & a & b & r & X & La & Lb)]; rewrite X in E; cbn in E; injection E as -> E; subst; auto. lia.
Qed.
Lemma utf8_text_skip a s : (forall c, In c a -> 0 < c < 128) -> utf8_text (a ++ s) -> utf8_text s.
Proof.
  induction a as [|c a IH]; intros H T; auto. apply IH; [intros d I; apply H; now right|]. eapply utf8_text_ascii; [exact T|]. apply H. now left.
Qed.

Lemma piece_ok_app a b : piece_ok (a ++ b) -> (escape_non_7bit C = true -> forall c, In c a -> c < 128) -> piece_ok b.
Proof.
  intros (N & F & U) A. split; [|split].
  - intros I. apply N, in_or_app. auto.
  - now apply tidy_app in F.
  - intros E. apply (utf8_text_skip a); auto. intros c I. split; [|now apply A].
    destruct (N.eq_dec c 0) as [-> |]; [|lia]. exfalso. apply N, in_or_app. auto.
Qed.

(** One escaped character and the newlines after it. *)
Lemma shows_nls m : shows ((fix nls (m : nat) : op := match m with O => nop | S m => space_entity C ;; char_entity [cNL] ;; nls m end) m) (rep cNL m).
Proof.
  induction m as [|m IH]; [apply shows_nop|]. change (rep cNL (S m)) with ([cNL] ++ rep cNL m). apply shows_assoc, shows_seq; auto.
  apply shows_ascii. split; reflexivity.
Qed.
Lemma shows_char c r : piece_ok (c :: r) -> (must_escape C c = true \/ c = cQ) ->
  let m := count_lead cNL r in
  exists t r', c :: r = t ++ rep cNL m ++ r' /\ shows (space_entity C ;; char_entity (c :: r)) t /\ skipn (entity_len (c :: r) + m) (c :: r) = r' /\ piece_ok r'
  /\ (c < 128 -> t = [c]).
Proof.
  intros (N & F & U) M m. assert (Hc : c <> 0) by (intros ->; apply N; now left).
  destruct (N.ltb_spec c 128) as [L|L].
  - destruct (lead_split cNL r) as (E & _). exists [c], (skipn m r). unfold entity_len. rewrite decode_ascii by assumption. cbn [plus skipn]. fold m in E.
    split; [cbn; f_equal; exact E|]. split; [apply shows_ascii; lia|]. split; [reflexivity|]. split; [|auto].
    apply (piece_ok_app (c :: rep cNL m)).
    + cbn [app]. rewrite <- E. split; auto.
    + intros _ d [<-|I]; auto. apply in_rep in I. now subst.
  - destruct (escape_non_7bit C) eqn:E7.
    + destruct (utf8_text_cons c r) as (u & r' & E & Hu & T); auto.
      destruct (utf8_spec_cases u) as [(Lu & X)|(Lu & a & b & x & X & La & Lb)].
      { rewrite X in E. cbn in E. injection E as -> _. lia. }
      assert (Em : m = 0%nat).
      { rewrite X in E. cbn in E. injection E as -> ->. subst m. cbn. destruct (N.eqb_spec b cNL) as [-> |]; auto. unfold cNL in Lb. lia. }
      exists (utf8_spec u), r'. rewrite Em. cbn [rep repeat app]. split; [exact E|].
      assert (D : decode_utf8 (c :: r) = DecOk u (List.length (utf8_spec u))) by (rewrite E; apply decode_spec; lia).
      split; [|split].
      * change (utf8_spec u) with (tok_text (TE u)). apply shows_one; [eapply prints_entity, D|exact Hu|exact I].
      * unfold entity_len. rewrite D, E, Nat.add_0_r, skipn_app, skipn_all, Nat.sub_diag. reflexivity.
      * split; [|lia]. rewrite E in N, F. split; [intros I; apply N, in_or_app; auto|]. split; auto. now apply tidy_app in F.
    + exfalso. destruct M as [M| ->]; [|unfold cQ in L; lia]. unfold must_escape in M. rewrite E7 in M. cbn [andb] in M.
      assert (c =? cNL = false) by (apply N.eqb_neq; unfold cNL; lia). assert (c =? cTAB = false) by (apply N.eqb_neq; unfold cTAB; lia).
      assert (c <? 32 = false) by (apply N.ltb_ge; lia). rewrite H, H0, H1, andb_false_r in M. discriminate.
Qed.

Lemma calm_piece a b : piece_ok (a ++ b) -> calm a -> piece_ok a.
Proof.
  intros (N & F & _) K. split; [|split].
  - intros I. apply N, in_or_app. auto.
  - now apply tidy_app in F.
  - intros E. pose proof (calm_ascii _ K E) as A. exists a. split.
    + clear -A HC. induction a as [|c a IH]; [reflexivity|]. cbn. rewrite utf8_ascii by (apply A; now left). cbn. f_equal. apply IH.
      intros d I. apply A. now right.
    + apply Forall_forall. intros c I. specialize (A c I). lia.
Qed.
Lemma ends_split c s : exists x, s = x ++ rep c (count_lead c (rev s)) /\ ~ starts (is c) (rev x).
Proof.
  destruct (lead_split c (rev s)) as (E & H). exists (rev (skipn (count_lead c (rev s)) (rev s))). split.
  - rewrite <- (rev_involutive s) at 1. rewrite E at 1. now rewrite rev_app_distr, rev_rep.
  - now rewrite rev_involutive.
Qed.

Lemma escape_step s : s <> [] -> ~ starts (is cQ) s ->
  let k := find_next_escape C s in
  (k <= List.length s)%nat /\ calm (firstn k s) /\
  (skipn k s = [] /\ ~ starts (is cQ) (rev (firstn k s)) \/
   exists c y, skipn k s = c :: y /\ (must_escape C c = true \/ c = cQ /\ (0 < k)%nat /\ ~ starts (is cQ) (rev (firstn k s)))).
Proof.
  intros Hs Hq k. apply first_starts in Hq as Hq'.
  assert (Ek : k = next_escape C (List.length s - count_lead cQ (rev s)) 0 s) by (unfold k, find_next_escape; now rewrite Hq', andb_false_r).
  clearbody k. symmetry in Ek. set (ps := (List.length s - count_lead cQ (rev s))%nat) in *. destruct (ends_split cQ s) as (x & E & Hx).
  set (q := count_lead cQ (rev s)) in *.
  assert (Lx : List.length x = ps). { unfold ps. rewrite E at 1. rewrite app_length, rep_length. lia. }
  destruct (next_escape_spec ps s 0 k Ek) as (k' & -> & L & K & N & Q). cbn [Nat.add] in *. clear Ek.
  split; [exact L|]. split; [exact K|]. destruct N as [N|(c & y & N & M)].
  - left. split; auto. assert (Lk : k' = List.length s).
    { assert (X : List.length (skipn k' s) = 0%nat) by now rewrite N. rewrite skipn_length in X. lia. }
    rewrite Lk, firstn_all. assert (q = 0%nat).
    { destruct q as [|q'] eqn:Eq; auto. exfalso. apply (Q ps cQ (rep cQ q')); auto.
      - unfold ps. rewrite E, app_length, rep_length in *. lia.
      - rewrite <- Lx. rewrite E at 1. rewrite skipn_app, skipn_all, Nat.sub_diag. reflexivity. }
    assert (Es : s = x) by (rewrite E, H; cbn; now rewrite app_nil_r). now rewrite Es.
  - right. exists c, y. split; auto. destruct M as [M|(-> & M)]; auto. right. split; auto.
    assert (X : firstn k' s = x). { rewrite M, <- Lx. rewrite E at 1. rewrite firstn_app, Nat.sub_diag, firstn_all. cbn. now rewrite app_nil_r. }
    rewrite X. split; auto. destruct k' as [|k']; [|lia]. exfalso. cbn in N. apply Hq. rewrite N. exists cQ, y. auto.
Qed.

Lemma shows_pieces l rec f : forall s aft, (List.length s <= f)%nat -> piece_ok s ->
  (forall p c y x0 x, s = x0 ++ p ++ c :: y -> must_escape C c = true -> p <> [] -> calm p -> ~ starts (is cQ) p -> starts (is cQ) (rev p) ->
     piece_ok p -> shows (rec p x) p) ->
  shows (Printer.pieces C f rec l s aft) s.
Proof.
  induction f as [|f IH]; intros s aft L P R; destruct s as [|c r]; cbn [Printer.pieces]; try apply shows_nop; [cbn in L; lia|].
  assert (Z : forall m, (must_escape C c = true \/ c = cQ) -> m = count_lead cNL r ->
    shows (space_entity C ;; char_entity (c :: r) ;;
        (fix nls (m : nat) : op :=
           match m with O => nop | S m => space_entity C ;; char_entity [cNL] ;; nls m end) m ;;
        Printer.pieces C f rec l (skipn (entity_len (c :: r) + m) (c :: r)) aft) (c :: r)).
  { intros m M ->. destruct (shows_char c r P M) as (t & r' & E & S1 & E2 & P2 & _). rewrite E2. rewrite E at 2.
    apply shows_assoc, shows_seq; auto. apply shows_seq; [apply shows_nls|]. apply IH; auto.
    - apply (f_equal (@List.length N)) in E2. rewrite skipn_length in E2. cbn [List.length] in E2, L. 
      assert (1 <= entity_len (c :: r))%nat; [|lia]. unfold entity_len. pose proof S1 as S1'. clear -P M HC. destruct (decode_utf8 (c :: r)) as [u n| | ] eqn:D; auto.
      destruct P as (N & F & U). destruct (N.ltb_spec c 128) as [X|X].
      + rewrite decode_ascii in D by assumption. injection D as <- <-. auto.
      + destruct n; [|lia]. exfalso. clear -D X HC. cbn [decode_utf8] in D.
        repeat match type of D with (if ?b then _ else _) = _ => destruct b | match ?b with _ => _ end = _ => destruct b end; discriminate.
    - intros p d y x0 x Er. apply (R p d y (t ++ rep cNL (count_lead cNL r) ++ x0)). rewrite E, Er, <- !app_assoc. reflexivity. }
  destruct (starts_with cQ (c :: r)) eqn:Sq.
  { unfold find_next_escape. rewrite HC, Sq. cbn [andb]. apply Z; auto. right. now apply N.eqb_eq. }
  apply first_starts in Sq. destruct (escape_step (c :: r) ltac:(discriminate) Sq) as (Lk & K & N). set (k := find_next_escape C (c :: r)) in *.
  destruct k as [|k'] eqn:Ek.
  { apply Z; auto. destruct N as [(N & _)|(d & y & N & M)]; [discriminate|]. cbn in N. injection N as <- <-.
    destruct M as [M|(M & _ & _)]; auto. }
  set (p := firstn (S k') (c :: r)) in *. set (r' := skipn (S k') (c :: r)) in *.
  assert (E : c :: r = p ++ r') by (symmetry; apply firstn_skipn).
  assert (Hp : p <> []) by discriminate.
  assert (Hsp : ~ starts (is cQ) p). { intros (d & z & X & Y). apply Sq. rewrite E, X. exists d, (z ++ r'). auto. }
  rewrite E in P. pose proof (calm_piece _ _ P K) as Pp.
  destruct (count_necessary_quotes p false) as [[numq nls] comp] eqn:Q.
  assert (comp = false /\ nls = (starts_with cQ p || ends_with cQ p)%bool) as [-> ->].
  { unfold count_necessary_quotes in Q. cbv zeta in Q. destruct (scan_quotes p 0 0 _). injection Q as _ <- <-.
    rewrite andb_false_r. cbn [orb negb]. rewrite andb_true_r. split; auto. apply no_nl_mixed. now apply calm_nl. }
  rewrite HC. cbn [negb andb]. rewrite orb_false_r. apply first_starts in Hsp as Hsp'. rewrite Hsp'. cbn [orb].
  assert (S2 : shows (Printer.pieces C f rec l r' aft) r').
  { apply IH.
    - apply (f_equal (@List.length _)) in E. rewrite app_length in E. assert (1 <= List.length p)%nat by (unfold p; cbn; lia). cbn [List.length] in E, L. lia.
    - eapply piece_ok_app; eauto. intros E7 d I. eapply calm_ascii; eauto.
    - intros p0 d y x0 x Er. apply (R p0 d y (p ++ x0)). rewrite E, Er, <- !app_assoc. reflexivity. }
  rewrite E. destruct (ends_with cQ p) eqn:Ee; cbn [negb].
  - apply shows_seq; auto. destruct N as [(_ & N)|(d & y & N & M)].
    + exfalso. unfold ends_with in Ee. apply first_starts in N. congruence.
    + assert (He : starts (is cQ) (rev p)).
      { unfold ends_with in Ee. destruct (rev p) as [|e z] eqn:Er; [discriminate|]. exists e, z. auto. }
      destruct M as [M|(_ & _ & M)]; [|contradiction]. eapply (R p d y []); auto. rewrite E. cbn [app]. now rewrite N.
  - unfold ends_with in Ee. apply first_starts in Ee. apply shows_seq; auto.
    destruct (prints_leaf l p) as (dd & D1 & D2 & D3 & D4); auto; [apply Pp|apply Pp|now apply calm_nl|].
    change p with (tok_text (TQ dd p)) at 2. apply shows_one; auto; [|exact I]. unfold tok_ok. split; auto. split; auto. split; auto. split; [|now apply calm_nl].
    split; [apply Pp|now apply calm_cr].
Qed.

(** ** Values without quotes *)
Lemma all_safe_spec s : all_safe s = true <-> forall x y, s = x ++ y -> y <> [] -> ~ value_end y.
Proof.
  induction s as [|c s IH]; cbn [all_safe].
  - split; auto. intros _ x y E. destruct x; [|discriminate]. cbn in E. now subst.
  - rewrite andb_true_iff, safe_end, IH. split.
    + intros [H1 H2] x y E Hy. destruct x as [|d x]; [cbn in E; now subst|]. injection E as _ E. eauto.
    + intros H. split; [apply (H []); [reflexivity|discriminate]|]. intros x y E Hy. apply (H (c :: x)); auto. now rewrite E.
Qed.
Lemma bad_start_spec t z : t <> [] -> ~ In 0 t ->
  unsafe_value_start (hd 0 (t ++ 0 :: z)) (nth 1 (t ++ 0 :: z) 0) = true <-> bad_start t.
Proof.
  intros Ht N. unfold unsafe_value_start, bad_start. destruct t as [|c t]; [congruence|]. cbn [app hd].
  rewrite !orb_true_iff, andb_true_iff, orb_true_iff. split.
  - intros [[H|H]|[H1 H2]].
    + left. exists c, t. split; auto. cbn. now rewrite H.
    + left. exists c, t. split; auto. cbn. rewrite H, orb_true_r. reflexivity.
    + apply N.eqb_eq in H1. subst c. right. destruct t as [|d t]; [cbn in H2; destruct H2; discriminate|]. exists t. cbn in H2.
      rewrite !N.eqb_eq in H2. destruct H2 as [-> | ->]; auto.
  - intros [(d & r & E & H)|(r & [E|E])].
    + injection E as <- <-. cbn in H. rewrite !orb_true_iff in H. destruct H as [H|[H|H]]; [auto|auto|discriminate].
    + injection E as -> ->. right. cbn. auto.
    + injection E as -> ->. right. cbn. auto.
Qed.
Lemma text_value_bare t z : t <> [] -> ~ In 0 t -> is_text_value t (0 :: z) = true <-> bare t [].
Proof.
  intros Ht N. unfold is_text_value, bare. rewrite andb_true_iff, negb_true_iff, all_safe_spec. rewrite <- not_true_iff_false, bad_start_spec by assumption.
  split.
  - intros [H1 H2]. repeat split; auto; [now left|]. intros x y E Hy. rewrite app_nil_r. eauto.
  - intros (_ & _ & H1 & _ & H2). split; auto. intros x y E Hy. specialize (H2 x y E Hy). now rewrite app_nil_r in H2.
Qed.
Lemma bare_stray t z : bare t z -> no_stray t.
Proof.
  intros (_ & _ & _ & _ & H). apply no_blank_stray; intros I; apply List.in_split in I as (x & y & ->).
  - apply (H x (cSP :: y)); [reflexivity|discriminate|]. right. left. now apply bw_1.
  - apply (H x (cTAB :: y)); [reflexivity|discriminate|]. right. left. now apply bw_1.
Qed.
Lemma bare_after t z : bare t [] -> z = [] \/ starts (one_of (cSP :: cNL :: ends_value)) z -> bare t z.
Proof.
  intros (H1 & H2 & H3 & _ & H5) Hz. repeat split; auto.
  - destruct Hz as [-> |(c & r & -> & Hc)]; [now left|]. right.
    destruct (is_xml_whitespace c) eqn:W; [left; now apply bw_1|right]. exists c, r. split; auto.
    change (one_of (cSP :: cNL :: ends_value) c) with ((c =? cSP) || ((c =? cNL) || one_of ends_value c))%bool in Hc.
    destruct (N.eqb_spec c cSP) as [-> |]; [discriminate|]. destruct (N.eqb_spec c cNL) as [-> |]; [discriminate|]. exact Hc.
  - intros x y E Hy V. apply (H5 x y E Hy). rewrite app_nil_r. destruct y as [|d y]; [congruence|].
    destruct V as [V|[V|V]]; [discriminate| |].
    + right. left. cbn [app] in V. remember (d :: y ++ z) as q eqn:Eq. destruct V as [c r Hc|r|e r He]; injection Eq as <- H0; [now apply bw_1| |].
      * destruct y as [|f y]; [|injection H0 as <- _; apply bw_2]. exfalso. cbn in H0. subst z.
        destruct Hz as [Hz|(c & r' & Hz & Hc)]; [discriminate|]. injection Hz as <- <-. discriminate.
      * destruct y as [|f y].
        { exfalso. cbn in H0. subst z. destruct Hz as [Hz|(c & r' & Hz & Hc)]; [discriminate|]. injection Hz as <- <-. discriminate. }
        injection H0 as <- H0. destruct y as [|g y]; [|injection H0 as <- _; now apply bw_3]. exfalso. cbn in H0. subst z.
        destruct Hz as [Hz|(c & r' & Hz & Hc)]; [discriminate|]. injection Hz as <- <-.
        cbn in He. destruct He as [<-|[<-|[<-|[<-|[]]]]]; discriminate.
    + right. right. destruct V as (c & r & V & Hc). cbn in V. injection V as <- _. exists d, y. auto.
Qed.
Lemma all_are_only c s : all_are c s = true <-> only (is c) s.
Proof. unfold all_are, only, is. apply forallb_forall. Qed.
Lemma all_are_rep c s : all_are c s = true -> s = rep c (List.length s).
Proof.
  induction s as [|d s IH]; [reflexivity|]. cbn. rewrite andb_true_iff, N.eqb_eq. intros [-> H]. f_equal. auto.
Qed.

(** ** Texts *)
Definition allows_bare (l : level) : bool := match l with LElem | LAttr => true | _ => false end.
Lemma quote_unsafe s : In cQ s -> all_safe s = false.
Proof.
  intros I. apply not_true_iff_false. rewrite all_safe_spec. intros H. apply List.in_split in I as (x & y & ->).
  apply (H x (cQ :: y)); [reflexivity|discriminate|]. right. right. exists cQ, y. auto.
Qed.
Lemma shows_rec f l p aft : p <> [] -> calm p -> ~ starts (is cQ) p -> starts (is cQ) (rev p) -> piece_ok p -> shows (value_text C (S f) l p aft) p.
Proof.
  intros Hp K H1 (q & z & E & Hq) P. apply N.eqb_eq in Hq. subst q.
  assert (I : In cQ p) by (apply in_rev; rewrite E; now left).
  cbn [value_text]. destruct p as [|c r] eqn:Ep; [congruence|]. rewrite <- Ep in *.
  assert (A1 : all_are cQ p = false). { apply not_true_iff_false. rewrite all_are_only. intros O. apply H1. exists c, r. split; auto. apply O. rewrite Ep. now left. }
  assert (A2 : all_are cSP p = false). { apply not_true_iff_false. rewrite all_are_only. intros O. discriminate (O _ I). }
  assert (A3 : forallb is_xml_whitespace p = false). { apply not_true_iff_false. rewrite forallb_forall. intros O. discriminate (O _ I). }
  assert (A4 : is_text_value p aft = false). { unfold is_text_value. rewrite (quote_unsafe _ I). apply andb_false_r. }
  rewrite A1, A2, A3, A4. cbn [andb]. pose proof (calm_nl _ K) as N. pose proof (no_nl_lead _ N) as L1. pose proof (no_nl_end _ N) as L2.
  destruct (has_leading_space_nl p) as [x a]. cbn in L1. subst x. destruct (has_ending_nl_space p) as [x b]. cbn in L2. subst x.
  assert (Epp : p = [] ++ p ++ []) by now rewrite app_nil_r. rewrite Epp at 3. clear Epp.
  apply shows_seq; [apply shows_all_whitespace; reflexivity|]. apply shows_seq; [|apply shows_all_whitespace; reflexivity].
  apply shows_pieces; auto. intros p0 d y x0 x E' M. exfalso. specialize (K d). rewrite K in M; [discriminate|].
  rewrite E'. apply in_or_app. right. apply in_or_app. right. now left.
Qed.
Lemma ws_ascii s : forallb is_xml_whitespace s = true -> forall c, In c s -> c < 128.
Proof.
  intros W c I. rewrite forallb_forall in W. specialize (W c I). destruct (xml_ws c W) as [-> |(_ & _ & H)]; [reflexivity|lia].
Qed.
Lemma skipn_suffix {A} n (s : list A) : exists x, s = x ++ skipn n s.
Proof. exists (firstn n s). symmetry. apply firstn_skipn. Qed.
Lemma piece_ok_prefix a b : piece_ok (a ++ b) -> forallb is_xml_whitespace b = true -> piece_ok a.
Proof.
  intros (N & F & U) W. split; [|split].
  - intros I. apply N, in_or_app. auto.
  - now apply tidy_app in F.
  - intros E. specialize (U E). clear E. pose proof (ws_ascii _ W) as A. clear W. destruct U as (us & E & Fu).
    assert (X : forall us a b, a ++ b = List.concat (map utf8_spec us) -> Forall (fun u => u <= 0x10ffff) us -> (forall c, In c b -> c < 128) -> utf8_text a).
    { clear -HC. induction us as [|u us IH]; intros a b E F A.
      - cbn in E. apply app_eq_nil in E as [-> _]. exists []. auto.
      - cbn in E. inversion F; subst. destruct a as [|c a]; [exists []; auto|]. 
        assert (L : (List.length (utf8_spec u) <= List.length (c :: a))%nat).
        { destruct (Nat.le_gt_cases (List.length (utf8_spec u)) (List.length (c :: a))) as [|L]; auto. exfalso.
          pose proof (f_equal (firstn (List.length (utf8_spec u))) E) as E'. rewrite firstn_app, (firstn_app _ (utf8_spec u)) in E'.
          rewrite Nat.sub_diag, firstn_all in E'. cbn [firstn] in E'. rewrite app_nil_r in E'. rewrite firstn_all2 in E' by lia.
          assert (Z : forall d, In d (skipn (List.length (c :: a)) (utf8_spec u)) -> d < 128).
          { intros d I. rewrite <- E', skipn_app, skipn_all, Nat.sub_diag in I. cbn in I. apply A.
            rewrite <- (firstn_skipn (List.length (utf8_spec u) - S (List.length a)) b). apply in_or_app. now left. }
          clear -Z L HC. unfold utf8_spec in *.
          repeat match goal with |- context [if ?b then _ else _] => destruct b eqn:? | H : context [if ?b then _ else _] |- _ => destruct b end;
            destruct a as [|? [|? [|? [|? ?]]]]; cbn [List.length skipn] in *; try lia;
            match type of Z with forall d, In d (?x :: ?r) -> _ => specialize (Z x (or_introl eq_refl)); lia end. }
        assert (Ea : c :: a = utf8_spec u ++ skipn (List.length (utf8_spec u)) (c :: a)).
        { pose proof (f_equal (firstn (List.length (utf8_spec u))) E) as E'. rewrite !firstn_app in E'. rewrite Nat.sub_diag, firstn_all in E'.
          replace (List.length (utf8_spec u) - List.length (c :: a))%nat with 0%nat in E' by lia. cbn [firstn] in E'. rewrite !app_nil_r in E'.
          rewrite <- E' at 1. symmetry. apply firstn_skipn. }
        rewrite Ea in E. rewrite <- app_assoc in E. apply app_inv_head in E. destruct (IH _ _ E H2 A) as (vs & Ev & Fv).
        exists (u :: vs). split; [rewrite Ea, Ev; reflexivity|]. now constructor. }
    apply (X us a b); auto.
Qed.
Lemma shows_text f l s aft : piece_ok s -> s = [] \/ all_are cQ s = false -> (is_text_value s aft && allows_bare l = false)%bool \/ s = [] \/ forallb is_xml_whitespace s = true ->
  shows (value_text C (S (S f)) l s aft) s.
Proof.
  intros P Q H. remember (S f) as f1. cbn [value_text]. destruct s as [|c r] eqn:Es.
  { change (@nil N) with (tok_text T0). apply shows_one; [|exact I|exact I]. intros d. cbn [toks end_of]. rewrite app_nil_r.
    eapply writes_seq; [apply writes_space_quote|]. apply (writes_str [cQ; cQ] d). discriminate. }
  rewrite <- Es in *. destruct Q as [Q|Q]; [congruence|]. rewrite Q. destruct (all_are cSP s) eqn:A2.
  { rewrite (all_are_rep _ _ A2) at 2. apply shows_quoted_spaces. rewrite Es. cbn. lia. }
  rewrite HC. cbn [negb]. rewrite andb_false_r, andb_false_l. cbn [negb]. rewrite andb_true_r.
  destruct (forallb is_xml_whitespace s) eqn:A3; [now apply shows_all_whitespace|].
  assert (A4 : (is_text_value s aft && match l with LElem | LAttr => true | _ => false end)%bool = false).
  { destruct H as [H|[H|H]]; [exact H|congruence|congruence]. }
  rewrite A4.
  destruct (match has_leading_space_nl s with (Some n, O) => (firstn n s, skipn n s) | _ => ([], s) end) as [lead s1] eqn:EL.
  assert (X1 : s = lead ++ s1 /\ forallb is_xml_whitespace lead = true).
  { destruct (has_leading_space_nl s) as [[n|] [|k]] eqn:EH; injection EL as <- <-; split; auto; [symmetry; apply firstn_skipn|].
    now apply leading_ws in EH. }
  destruct X1 as [E1 W1].
  match goal with |- context [let '(_, _) := ?x in _] => destruct x as [s2 trail] eqn:ET end.
  assert (X2 : s1 = s2 ++ trail /\ forallb is_xml_whitespace trail = true).
  { destruct (has_ending_nl_space s1) as [[n|] [|k]] eqn:EH; injection ET as <- <-; try (split; [now rewrite app_nil_r|reflexivity]).
    split; [symmetry; apply firstn_skipn|]. apply ending_ws in EH.
    destruct (skipn_suffix (count_lead cSP (skipn n s1)) (skipn n s1)) as (x & Ex).
    rewrite HashSortProofs.skipn_add, Nat.add_comm in Ex. rewrite Ex, forallb_app in EH. now apply andb_true_iff in EH. }
  destruct X2 as [E2 W2]. rewrite E1, E2. apply shows_seq; [now apply shows_all_whitespace|]. apply shows_seq; [|now apply shows_all_whitespace].
  assert (P2 : piece_ok s2).
  { apply (piece_ok_prefix s2 trail); auto. rewrite <- E2. apply (piece_ok_app lead); [now rewrite <- E1|]. intros _. now apply ws_ascii. }
  apply shows_pieces; auto. intros p d y x0 x _ _ Hp K H1 H2 Pp. subst f1. now apply shows_rec.
Qed.

Lemma text_piece t : text_ok C t -> piece_ok t.
Proof. intros []. split; [|split; [split|]]; auto. Qed.
Lemma text_not_quotes t : text_ok C t -> t = [] \/ all_are cQ t = false.
Proof. intros [_ _ _ H _]. destruct H; auto. right. apply not_true_iff_false. now rewrite all_are_only. Qed.

(** A text that is printed without quotes, or as one quote. *)
Lemma calm_text f l t : t <> [] -> text_ok C t -> calm t -> ~ starts (is cQ) t -> ~ starts (is cQ) (rev t) -> ~ tabbed C t -> t <> [cTAB] ->
  (bare t [] /\ (l = LElem \/ l = LAttr) /\ value_text C (S f) l t [0] = print_range t)
  \/ exists d, prints (value_text C (S f) l t [0]) [TQ d t] /\ tok_ok (TQ d t).
Proof.
  intros Ht T K Q1 Q2 Tb Tt. destruct (text_not_quotes t T) as [|AQ]; [congruence|]. pose proof (text_piece t T) as P.
  cbn [value_text]. destruct t as [|c r] eqn:Es; [congruence|]. rewrite <- Es in *. rewrite AQ.
  destruct (all_are cSP t) eqn:A2.
  { right. exists 1%nat. assert (L : (1 <= List.length t)%nat) by (rewrite Es; cbn; lia). rewrite (all_are_rep _ _ A2) at 2 3. split; [|now apply spaces_tok].
    intros d. cbn [toks end_of]. rewrite app_nil_r. eapply writes_seq; [apply writes_space_quote|].
    unfold quoted_spaces. eapply writes_eq; [eapply writes_seq; [apply writes_put|]; eapply writes_seq; [apply writes_cur; lia|apply writes_set]| |reflexivity].
    cbn [tok_bytes]. now rewrite app_nil_r. }
  assert (A3 : forallb is_xml_whitespace t = false).
  { apply not_true_iff_false. intros W. rewrite forallb_forall in W.
    assert (X : forall d, In d t -> d = cSP \/ d = cTAB).
    { intros d I. destruct (xml_ws d (W d I)) as [|([H|[H|H]] & _)]; auto; exfalso; subst d; [now apply (calm_nl _ K)|now apply (calm_cr _ K)]. }
    assert (IT : In cTAB t).
    { clear -A2 X HC. induction t as [|d t IH]; [discriminate|]. cbn in A2. destruct (X d (or_introl eq_refl)) as [-> | ->]; [|now left].
      right. apply IH; [exact A2|]. intros e I. apply X. now right. }
    assert (ET : escape_tabs C = false). { specialize (K _ IT). unfold must_escape in K. apply orb_false_iff in K as [_ K]. exact K. }
    destruct t as [|d [|e t]]; [now cbn in IT|destruct IT as [-> |[]]; congruence|]. apply Tb. repeat split; auto; [cbn; lia|].
    intros g I. destruct (X g I) as [-> | ->]; reflexivity. }
  rewrite A3. cbn [andb]. pose proof (text_value_bare t [] Ht (proj1 P)) as TB.
  destruct (is_text_value t [0] && match l with LElem | LAttr => true | _ => false end)%bool eqn:A4.
  { left. apply andb_true_iff in A4 as [A4 A5]. split; [now apply TB|]. split; auto. destruct l; try discriminate; auto. }
  right. pose proof (calm_nl _ K) as N. pose proof (no_nl_lead _ N) as L1. pose proof (no_nl_end _ N) as L2.
  destruct (has_leading_space_nl t) as [x a]. cbn in L1. subst x. destruct (has_ending_nl_space t) as [x b]. cbn in L2. subst x.
  destruct (prints_leaf l t Ht Q1 Q2 (proj1 (proj1 (proj2 P))) (proj2 (proj1 (proj2 P))) N) as (d & D1 & D2 & D3 & D4). exists d. split.
  - apply (prints_seq _ _ [] [TQ d t]); [apply prints_nop|]. apply (prints_seq _ _ [TQ d t] []); [|apply prints_nop].
    destruct (escape_step t Ht Q1) as (Lk & _ & X).
    assert (Ek : find_next_escape C t = List.length t).
    { destruct X as [(X & _)|(e & y & X & M)].
      - apply (f_equal (@List.length _)) in X. rewrite skipn_length in X. cbn in X. lia.
      - exfalso. assert (I : In e t). { rewrite <- (firstn_skipn (find_next_escape C t) t), X. apply in_or_app. right. now left. }
        destruct M as [M|(-> & Hk & _)]; [rewrite (K e I) in M; discriminate|].
        revert X Hk. unfold find_next_escape. apply first_starts in Q1 as Q1'. rewrite Q1', andb_false_r.
        assert (Z : count_lead cQ (rev t) = 0%nat). { apply first_starts in Q2. destruct (rev t) as [|g z]; auto. cbn in Q2 |- *. now rewrite Q2. }
        rewrite Z, Nat.sub_0_r. destruct (next_escape_spec (List.length t) t 0 _ eq_refl) as (k & -> & Lk' & K' & N' & _). intros X _. cbn [Nat.add] in X.
        destruct N' as [N'|(g & z & N' & M)]; [congruence|]. rewrite N' in X. injection X as -> ->.
        destruct M as [M|(_ & M)]; [rewrite (K _ I) in M; discriminate|]. cbn [Nat.add] in M. rewrite M, skipn_all in N'. discriminate. }
    rewrite Es. cbn [List.length Printer.pieces]. rewrite <- Es. rewrite Ek. replace (List.length t) with (S (List.length r)) by (rewrite Es; reflexivity).
    cbv zeta. rewrite (firstn_all2 (n := S (List.length r)) t) by (rewrite Es; cbn; lia). rewrite (skipn_all2 (n := S (List.length r)) t) by (rewrite Es; cbn; lia).
    destruct (count_necessary_quotes t false) as [[numq nls] comp] eqn:Q.
    assert (comp = false /\ nls = false) as [-> ->].
    { unfold count_necessary_quotes in Q. cbv zeta in Q. destruct (scan_quotes t 0 0 _). injection Q as _ <- <-.
      rewrite andb_false_r. cbn [orb negb]. rewrite andb_true_r. apply first_starts in Q1, Q2. unfold ends_with. rewrite Q1, Q2. split; auto. now apply no_nl_mixed. }
    cbn [negb andb orb]. apply (prints_seq _ _ [TQ d t] []); [exact D4|]. destruct r; apply prints_nop.
  - cbn. split; auto. split; auto. split; auto. split; auto. split; [apply P|now apply calm_cr].
Qed.

Lemma calm_not_escape s : existsb (must_escape C) s = false <-> calm s.
Proof.
  unfold calm. rewrite <- not_true_iff_false, existsb_exists. split.
  - intros H c I. destruct (must_escape C c) eqn:E; auto. exfalso. apply H. eauto.
  - intros H (c & I & E). rewrite (H c I) in E. discriminate.
Qed.
(** A text on its own. *)
Lemma single_text l t : text_ok C t -> ~ tabbed C t -> needs_compounded C t = false -> (l = LElem \/ l = LAttr) ->
  (bare t [] /\ print_text C l t = print_range t) \/
  exists k, prints (print_text C l t) [k] /\ tok_ok k /\ tok_part k = PText t.
Proof.
  intros T Tb NC Hl. unfold print_text. destruct t as [|c r].
  - right. exists T0. split; [|split; [exact I|reflexivity]]. cbn [List.length value_text]. intros d. cbn [toks end_of]. rewrite app_nil_r.
    eapply writes_seq; [apply writes_space_quote|]. apply (writes_str [cQ; cQ] d). discriminate.
  - assert (G : calm (c :: r) -> ~ starts (is cQ) (c :: r) -> ~ starts (is cQ) (rev (c :: r)) -> c :: r <> [cTAB] ->
       bare (c :: r) [] /\ value_text C (S (List.length (c :: r))) l (c :: r) [0] = print_range (c :: r) \/
       (exists k, prints (value_text C (S (List.length (c :: r))) l (c :: r) [0]) [k] /\ tok_ok k /\ tok_part k = PText (c :: r))).
    { intros K Q1 Q2 Tt. destruct (calm_text (List.length (c :: r)) l (c :: r)) as [(H1 & _ & H2)|(d & H1 & H2)]; auto; [discriminate|].
      right. exists (TQ d (c :: r)). auto. }
    destruct r as [|c2 r].
    + cbn [needs_compounded] in NC. destruct ((c =? cNL) || (c =? cCR) || (c =? cTAB))%bool eqn:E.
      * right. assert (W : is_xml_whitespace c = true /\ c <> cSP /\ c <> cQ /\ 0 < c < 128).
        { rewrite !orb_true_iff, !N.eqb_eq in E. destruct E as [[-> | ->]| ->]; (split; [reflexivity|]); split; [discriminate| | discriminate | |discriminate|];
            (split; [discriminate|split; reflexivity]). }
        destruct W as (W & S1 & S2 & B1). exists (TE c). split; [|split; [cbn; lia|cbn; now rewrite utf8_ascii by lia]].
        cbn [List.length value_text all_are forallb]. apply N.eqb_neq in S1. apply N.eqb_neq in S2. rewrite S1, S2, W. cbn [andb]. rewrite HC. cbn [negb]. rewrite andb_false_r. cbn [negb andb].
        unfold print_all_whitespace. cbn [List.length all_whitespace]. rewrite S1. intros d. cbn [andb].
        assert (Pe : prints (space_entity C ;; char_entity [c]) [TE c]) by (eapply prints_entity, decode_ascii; lia).
        pose proof (prints_seq _ _ _ _ Pe prints_nop d) as X. cbn [app] in X. intros s E1 E2 E3. rewrite seq_assoc. now apply X.
      * assert (E' : (c =? cQ) = false).
        { apply N.eqb_neq. intros ->. destruct (text_not_quotes _ T) as [X|X]; discriminate. }
        rewrite !orb_false_iff in E. destruct E as [[E1 E2] E3]. rewrite E', E1, E2, E3 in NC. cbn [orb negb andb] in NC.
        apply G.
        -- now apply calm_not_escape.
        -- apply first_starts. exact E'.
        -- apply first_starts. exact E'.
        -- intros X. injection X as ->. discriminate.
    + cbn [needs_compounded] in NC. rewrite HC in NC. cbn [andb] in NC. rewrite !orb_false_iff in NC. destruct NC as [[NC1 [[NC2 NC3] NC4]] NC5].
      apply G; [now apply calm_not_escape|now apply first_starts|now apply first_starts|discriminate].
Qed.
End compact.
