(** Compact output is one line, for every document without three quotes in a
    row in a text. *)
From Coq Require Import NArith ZArith List Bool Arith Lia String.
From Verif Require HashSortProofs.
From Verif Require Import Bytes BytesFacts QuoteSpec Utf8 Quote Parser ParserSpec Dom Printer Grammar Compact CompactProofs CompactDoc LeafQuote.
Import ListNotations.
Local Open Scope N_scope.
Local Open Scope op_scope.

Definition no_nl (b : bytes) : Prop := ~ In cNL b.
Definition attr_line (a : attr) : Prop :=
  no_nl (fst a) /\ Forall (fun p => match p with PText t => few_quotes t | PRef n => no_nl n end) (snd a).
Fixpoint node_line (x : node) : Prop :=
  match x with
  | Part (PText t) => few_quotes t
  | Part (PRef n) => no_nl n
  | Comment _ => True
  | PI n t => no_nl n /\ few_quotes t
  | Doctype t => few_quotes t
  | Elem n l k => no_nl n /\ Forall attr_line l /\ (fix all (k : list node) : Prop := match k with [] => True | x :: r => node_line x /\ all r end) k
  end.

Section line.
Variable C : cfg.
Hypothesis HC : compact C = true.

Definition quiet (a : op) : Prop := forall st, (0 <= p_cur st)%Z -> no_nl (fst (a st)) /\ (0 <= p_cur (snd (a st)))%Z.

Lemma q_nop : quiet nop.
Proof. intros st H. split; [intros []|exact H]. Qed.
Lemma q_seq a b : quiet a -> quiet b -> quiet (a ;; b).
Proof.
  intros A B st H. unfold seq. specialize (A st H). destruct (a st) as [x s1]. cbn [fst snd] in A. destruct A as [A1 A2].
  specialize (B s1 A2). destruct (b s1) as [y s2]. cbn [fst snd] in *. destruct B as [B1 B2]. split; auto.
  intros I. apply in_app_or in I as [I|I]; contradiction.
Qed.
Lemma q_when c a : quiet a -> quiet (when c a).
Proof. destruct c; auto. intros _. apply q_nop. Qed.
Lemma q_if (c : bool) a b : quiet a -> quiet b -> quiet (if c then a else b).
Proof. destruct c; auto. Qed.
Lemma q_ask {A} (f : pr -> A) k : (forall st, (0 <= p_cur st)%Z -> quiet (k (f st))) -> quiet (ask f k).
Proof. intros H st P. unfold ask. now apply H. Qed.
Lemma q_put b : no_nl b -> quiet (put b).
Proof. intros H st P. now split. Qed.
Lemma q_last c : quiet (set_last c).
Proof. intros st H. split; [intros []|exact H]. Qed.
Lemma q_line f : quiet (set_line f).
Proof. intros st H. split; [intros []|exact H]. Qed.
Lemma q_cur n : (0 <= n)%Z -> quiet (add_cur n).
Proof. intros N st H. split; [intros []|]. cbn. lia. Qed.
Lemma nn_app a b : no_nl a -> no_nl b -> no_nl (a ++ b).
Proof. intros A B I. apply in_app_or in I as [I|I]; contradiction. Qed.
Lemma nn_rep c n : c <> cNL -> no_nl (rep c n).
Proof. intros H I. apply repeat_spec in I. congruence. Qed.
Lemma q_fuel : quiet no_fuel.
Proof. intros st H. split; [intros []|exact H]. Qed.

Lemma q_str b : no_nl b -> quiet (print_str b).
Proof. intros H. destruct b as [|c b]; [apply q_nop|]. unfold print_str. apply q_seq; [now apply q_put|]. apply q_seq; [apply q_cur; unfold zlen; lia|apply q_last]. Qed.
Lemma nn_written b : forall k, no_nl b -> no_nl (written_after k b).
Proof.
  induction b as [|c b IH]; intros k H; [exact H|]. cbn [written_after].
  assert (Hb : no_nl b) by (intros I; apply H; now right). destruct (k && is_cont c)%bool; [now apply IH|].
  intros [E|I]; [apply H; now left|]. now apply (IH (is_blank c) Hb).
Qed.
Lemma q_range b : no_nl b -> quiet (print_range b).
Proof. intros H. destruct b as [|c b]; [apply q_nop|]. unfold print_range. apply q_seq; [now apply q_put, nn_written|]. apply q_seq; [apply q_cur; lia|apply q_last]. Qed.
Lemma q_spaces n : (0 <= n)%Z -> quiet (white_spaces n).
Proof. intros H. apply q_seq; [apply q_put, nn_rep; discriminate|now apply q_cur]. Qed.
Lemma q_quotes n : quiet (print_quotes n).
Proof. apply q_seq; [apply q_put, nn_rep; discriminate|]. apply q_seq; [apply q_cur; lia|apply q_last]. Qed.
Lemma q_slashes a b n : no_nl a -> no_nl b -> quiet (slashes a b n).
Proof. intros A B. apply q_put. apply nn_app; auto. apply nn_app; auto. apply nn_rep. discriminate. Qed.
Lemma nn_lit b : forallb (fun c => negb (c =? cNL)) b = true -> no_nl b.
Proof. intros H I. rewrite forallb_forall in H. specialize (H _ I). discriminate H. Qed.

Ltac space := intros; unfold space_attribute, space_entity, space_quote, space_key, space_comment; apply q_ask; intros st _; rewrite HC; cbn [negb andb];
  repeat (apply q_if; [apply q_nop|]); apply q_when, q_spaces; lia.
Lemma q_space_attribute : quiet (space_attribute C). Proof. space. Qed.
Lemma q_space_entity : quiet (space_entity C). Proof. space. Qed.
Lemma q_space_quote l : quiet (space_quote C l). Proof. space. Qed.
Lemma q_space_key : quiet (space_key C). Proof. space. Qed.
Lemma q_space_comment : quiet (space_comment C). Proof. space. Qed.

Lemma nn_ref u : no_nl (char_ref u).
Proof.
  unfold char_ref. apply nn_app; [now apply nn_lit|]. apply nn_app; [|now apply nn_lit].
  destruct (decimal_spec C HC u) as (_ & _ & H). intros I. rewrite forallb_forall in H. specialize (H _ I). discriminate H.
Qed.
Lemma q_char_entity s : quiet (char_entity s).
Proof.
  unfold char_entity. destruct (decode_utf8 s); try (apply q_put; now apply nn_lit).
  apply q_seq; [apply q_str, nn_ref|]. apply q_seq; [apply q_last|apply q_cur; unfold zlen; lia].
Qed.
Lemma q_whitespace l f : forall s, quiet (all_whitespace C f l s).
Proof.
  induction f as [|f IH]; intros [|c s]; cbn [all_whitespace]; try apply q_nop; try apply q_fuel.
  apply q_if.
  - apply q_seq; [apply q_space_quote|]. apply q_seq; [|apply IH].
    apply q_seq; [apply q_put|apply q_seq; [apply q_cur; lia|apply q_last]]. apply nn_app; [now apply nn_lit|]. apply nn_app; [apply nn_rep; discriminate|now apply nn_lit].
  - apply q_seq; [apply q_space_entity|]. apply q_seq; [apply q_char_entity|apply IH].
Qed.

Lemma q_quote_chars f : forall s, no_nl s -> quiet (quote_chars f s).
Proof.
  induction f as [|f IH]; intros [|c s] H; cbn [quote_chars]; try apply q_nop; try apply q_fuel.
  destruct (N.eqb_spec c cNL) as [->|Hc]; [exfalso; apply H; now left|].
  destruct (take_cont s) as [a b] eqn:T. apply take_cont_app in T. subst s.
  apply q_seq; [apply q_put|]. { destruct (is_blank c); intros [I|I]; [congruence|destruct I|congruence|]. apply H. right. apply in_or_app. now left. }
  apply q_seq; [apply q_last|]. apply q_seq; [apply q_cur; lia|]. apply IH. intros I. apply H. right. apply in_or_app. now right.
Qed.
Lemma q_leaf p : no_nl p -> few_quotes p -> snd (fst (count_necessary_quotes p false)) = false -> quiet (safe_leaf_quote p).
Proof.
  intros N F E. unfold safe_leaf_quote. apply q_ask. intros st P. unfold id.
  destruct (count_necessary_quotes p false) as [[numq nls] comp] eqn:Q. cbn [fst snd] in E. subst nls.
  assert (L : (numq <= 3)%nat).
  { unfold count_necessary_quotes in Q. cbv zeta in Q. destruct (scan_quotes p 0 0 _) as [m sf] eqn:Sc.
    assert (M : (m <= 2)%nat) by (eapply (scan_few C HC); eauto; lia).
    injection Q as Q _ _. rewrite <- Q. destruct m as [|[|[|m]]]; cbn; try lia. destruct sf; cbn; lia. }
  assert (A : (if Nat.ltb 0 numq then false || (p_cur st =? -1)%Z || Nat.leb 4 numq else false) = false).
  { destruct (Nat.ltb 0 numq); auto. cbn [orb]. apply orb_false_iff. split; [lia|]. apply Nat.leb_gt. lia. }
  rewrite A. apply q_seq; [apply q_quotes|]. apply q_seq; [apply q_line|]. apply q_seq; [|apply q_seq; [apply q_line|apply q_quotes]].
  unfold quote_lines. rewrite starts_with_not, ends_with_not by exact N. cbn [when].
  apply q_seq; [apply q_nop|]. apply q_seq; [now apply q_quote_chars|apply q_nop].
Qed.

Lemma few_firstn k s : few_quotes s -> few_quotes (firstn k s).
Proof. intros F. rewrite <- (firstn_skipn k s) in F. now apply few_app in F. Qed.
Lemma few_skipn k s : few_quotes s -> few_quotes (skipn k s).
Proof. intros F. rewrite <- (firstn_skipn k s) in F. now apply few_app in F. Qed.

Lemma escape_free s k : find_next_escape C s = k -> no_nl (firstn k s).
Proof.
  unfold find_next_escape. destruct (compact C && starts_with cQ s); [intros <-; intros []|]. intros E.
  destruct (next_escape_spec C HC _ _ _ _ E) as (k' & -> & _ & K & _). cbn [Nat.add].
  change (calm C (firstn k' s)) in K. now apply (calm_nl C HC).
Qed.
Lemma q_pieces f rec l : (forall p aft, no_nl p -> few_quotes p -> quiet (rec p aft)) -> forall s aft, few_quotes s -> quiet (Printer.pieces C f rec l s aft).
Proof.
  intros R. induction f as [|f IH]; intros [|c s] aft F; cbn [Printer.pieces]; try apply q_nop; try apply q_fuel.
  destruct (find_next_escape C (c :: s)) as [|k] eqn:E.
  - apply q_seq; [apply q_space_entity|]. apply q_seq; [apply q_char_entity|]. apply q_seq; [|apply IH; now apply few_skipn].
    generalize (count_lead cNL s). induction n as [|n IHn]; [apply q_nop|].
    apply q_seq; [apply q_space_entity|]. apply q_seq; [apply q_char_entity|apply IHn].
  - pose proof (escape_free _ _ E) as N. set (p := firstn (S k) (c :: s)) in *. assert (Fp : few_quotes p) by now apply few_firstn.
    destruct (count_necessary_quotes p false) as [[numq nls] comp] eqn:Q. apply q_seq; [|apply IH; now apply few_skipn].
    destruct (negb comp && (negb nls || negb (compact C)))%bool eqn:X; [|now apply R].
    apply q_seq; [apply q_space_quote|]. apply q_leaf; auto. rewrite Q. cbn [fst snd].
    rewrite HC in X. destruct comp, nls; cbn in X; congruence.
Qed.

Lemma safe_no_nl s : all_safe s = true -> no_nl s.
Proof.
  induction s as [|c s IH]; intros H; [intros []|]. cbn [all_safe] in H. apply andb_true_iff in H as [H1 H2].
  intros [->|I]; [|now apply IH]. unfold is_safe_value_char in H1. discriminate H1.
Qed.
Lemma q_times n a : quiet a -> quiet (times n a).
Proof. intros H. induction n; [apply q_nop|now apply q_seq]. Qed.

Lemma q_value_text f l : forall s aft, few_quotes s -> quiet (value_text C f l s aft).
Proof.
  induction f as [|f IH]; intros s aft F; [apply q_fuel|]. cbn [value_text]. destruct s as [|c r] eqn:Es.
  { apply q_seq; [apply q_space_quote|apply q_str; now apply nn_lit]. }
  rewrite <- Es in *. clear Es.
  destruct (all_are cQ s). { apply q_seq; [apply q_space_entity|]. apply q_times, q_str. now apply nn_lit. }
  destruct (all_are cSP s).
  { apply q_seq; [apply q_space_quote|]. apply q_seq; [apply q_put|apply q_seq; [apply q_cur; lia|apply q_last]].
    apply nn_app; [now apply nn_lit|]. apply nn_app; [apply nn_rep; discriminate|now apply nn_lit]. }
  destruct (forallb is_xml_whitespace s && _); [apply q_whitespace|].
  destruct (is_text_value s aft && _) eqn:T.
  { apply q_range. unfold is_text_value in T. rewrite !andb_true_iff in T. now apply safe_no_nl. }
  assert (X : forall lead s1 , few_quotes s1 -> quiet (let '(s2, trail) :=
          match has_ending_nl_space s1 with
          | (Some n, O) => let n := (n + count_lead cSP (skipn n s1))%nat in (firstn n s1, skipn n s1)
          | _ => (s1, [])
          end in
        print_all_whitespace C l lead ;;
        Printer.pieces C (List.length s2) (value_text C f l) l s2 (trail ++ aft) ;;
        print_all_whitespace C l trail)).
  { intros lead s1 F1.
    assert (Y : forall s2 trail, few_quotes s2 -> quiet (print_all_whitespace C l lead ;; Printer.pieces C (List.length s2) (value_text C f l) l s2 (trail ++ aft) ;; print_all_whitespace C l trail)).
    { intros s2 trail F2. apply q_seq; [apply q_whitespace|]. apply q_seq; [|apply q_whitespace]. apply q_pieces; auto. }
    destruct (has_ending_nl_space s1) as [[n|] [|m]]; cbv zeta; apply Y; auto. now apply few_firstn. }
  destruct (has_leading_space_nl s) as [[n|] [|m]]; apply X; auto. now apply few_skipn.
Qed.

Lemma q_entity n : no_nl n -> quiet (print_entity C n).
Proof. intros H. apply q_seq; [apply q_space_entity|]. apply q_seq; [apply q_str; now apply nn_lit|]. apply q_seq; [now apply q_str|apply q_str; now apply nn_lit]. Qed.
Definition part_line (p : part) : Prop := match p with PText t => few_quotes t | PRef n => no_nl n end.
Lemma q_part l p : part_line p -> quiet (print_part C l p).
Proof. destruct p; [apply q_value_text|apply q_entity]. Qed.
Lemma q_parts l ps : Forall part_line ps -> quiet (print_parts C l ps).
Proof. induction 1; [apply q_nop|]. apply q_seq; [now apply q_part|auto]. Qed.
Lemma q_value l ps : Forall part_line ps -> quiet (print_value C l ps).
Proof.
  intros H. unfold print_value. apply q_ask. intros st _. rewrite HC. cbn [negb when]. apply q_if.
  - apply q_seq; [apply q_str; now apply nn_lit|]. apply q_seq; [apply q_nop|]. apply q_seq; [apply q_line|]. apply q_seq; [now apply q_parts|].
    apply q_seq; [apply q_nop|]. apply q_seq; [apply q_str; now apply nn_lit|apply q_line].
  - apply q_seq; [now apply q_parts|apply q_line].
Qed.
Lemma q_equals n : quiet (print_equals C n).
Proof. unfold print_equals. rewrite HC. cbn [negb when]. apply q_seq; [apply q_nop|]. apply q_seq; [apply q_str; now apply nn_lit|apply q_nop]. Qed.
Lemma q_attribute n a : attr_line a -> quiet (print_attribute C n a).
Proof.
  intros (A & P). apply q_seq; [apply q_space_attribute|]. apply q_seq; [now apply q_str|]. apply q_when. apply q_seq; [apply q_equals|]. now apply q_value.
Qed.
Lemma q_name n l : no_nl n -> Forall attr_line l -> quiet (print_name C n l).
Proof.
  intros N L. apply q_seq; [apply q_space_key|]. apply q_seq; [now apply q_str|]. destruct l as [|a l]; [apply q_nop|].
  apply q_seq; [apply q_str; now apply nn_lit|]. apply q_seq; [|apply q_str; now apply nn_lit].
  unfold print_attributes. apply q_ask. intros st _. apply q_seq; [apply q_line|]. apply q_seq; [|apply q_line].
  generalize (if compact C then 0%nat else attr_width (a :: l)). intros m. induction L; [apply q_nop|]. apply q_seq; [now apply q_attribute|auto].
Qed.
Lemma q_comment_rest f n : forall s, quiet (comment_rest C f n s).
Proof.
  induction f as [|f IH]; intros [|c s]; cbn [comment_rest]; try apply q_nop; try apply q_fuel.
  rewrite HC. pose proof (cut_line_spec (c :: s)) as X. destruct (cut_line (c :: s)) as [l t].
  apply q_seq; [apply q_slashes; now apply nn_lit|]. apply q_seq; [apply q_range; destruct t; apply X|]. destruct t; [apply IH|apply q_nop].
Qed.
Lemma q_comment s : quiet (print_comment C s).
Proof.
  apply q_seq; [apply q_space_comment|]. rewrite HC. destruct (has_newlines s) eqn:E; cbn [negb].
  - apply q_seq; [|apply q_last]. unfold comment_lines. apply q_ask. intros st _. rewrite HC. cbn [negb andb when].
    apply q_seq; [apply q_slashes; now apply nn_lit|]. apply q_seq; [apply q_nop|]. apply q_seq; [apply q_line|].
    pose proof (cut_line_spec s) as X. destruct (cut_line s) as [l t]. cbn [fst snd].
    apply q_seq; [apply q_range; destruct t; apply X|]. apply q_seq; [destruct t; [apply q_comment_rest|apply q_nop]|].
    apply q_seq; [apply q_nop|]. apply q_seq; [apply q_slashes; now apply nn_lit|]. apply q_seq; [apply q_last|apply q_line].
  - apply q_seq; [apply q_str; now apply nn_lit|]. apply q_seq; [apply q_range; now apply nl_free|]. apply q_seq; [apply q_str; now apply nn_lit|apply q_last].
Qed.

Lemma few_map s : few_quotes s -> few_quotes (no_newlines s).
Proof.
  intros F x y E. unfold no_newlines in E.
  assert (M : forall c, (if c =? cNL then cSP else c) = cQ -> c = cQ). { intros c. destruct (c =? cNL); [discriminate|auto]. }
  apply map_eq_app in E as (x' & r & -> & <- & E). destruct r as [|a [|b [|c r]]]; try discriminate E. injection E as E1 E2 E3 E4.
  apply M in E1, E2, E3. subst a b c. now apply (F x' r).
Qed.
Lemma few_cons c s : c <> cQ -> few_quotes s -> few_quotes (c :: s).
Proof. intros H F x y E. destruct x as [|d x]; [injection E; congruence|]. injection E as _ E. now apply (F x y). Qed.
Lemma few_rev s : few_quotes s -> few_quotes (rev s).
Proof. intros F x y E. apply (F (rev y) (rev x)). rewrite <- (rev_involutive s), E, !rev_app_distr. cbn. now rewrite <- !app_assoc. Qed.
Lemma few_snoc c s : c <> cQ -> few_quotes s -> few_quotes (s ++ [c]).
Proof. intros H F. rewrite <- (rev_involutive (s ++ [c])), rev_app_distr. apply few_rev. cbn [rev app]. apply few_cons; auto. now apply few_rev. Qed.
Lemma few_add s : few_quotes s -> few_quotes (add_spaces s).
Proof.
  intros F. unfold add_spaces.
  assert (G : forall t, few_quotes t -> few_quotes (match s with c :: _ => if c =? cQ then [cSP] else [] | [] => [] end ++ t)).
  { intros t Ft. destruct s as [|c s]; [exact Ft|]. destruct (c =? cQ); [|exact Ft]. apply few_cons; [discriminate|exact Ft]. }
  apply G. destruct (rev s) as [|c r]; [now rewrite app_nil_r|]. destruct (c =? cQ); [|now rewrite app_nil_r]. apply few_snoc; [discriminate|exact F].
Qed.

(** All children. *)
Definition lines (k : list node) : Prop := (fix all (k : list node) : Prop := match k with [] => True | x :: r => node_line x /\ all r end) k.
Lemma parts_line k ps : lines k -> as_parts k = Some ps -> Forall part_line ps.
Proof.
  revert ps. induction k as [|x k IH]; intros ps L E; cbn [as_parts] in E; [injection E as <-; constructor|].
  destruct x; try discriminate. destruct (as_parts k); [|discriminate]. injection E as <-. destruct L as [L1 L2]. constructor; auto.
Qed.

Fixpoint size (x : node) : nat :=
  match x with Elem _ _ k => S ((fix sum (k : list node) : nat := match k with [] => 0 | x :: r => size x + sum r end) k) | _ => 1 end%nat.
Definition sizes (k : list node) : nat := (fix sum (k : list node) : nat := match k with [] => 0 | x :: r => size x + sum r end)%nat k.

Lemma q_nodes m : forall k, (sizes k < m)%nat -> lines k -> forall al again, quiet (print_nodes C al again k).
Proof.
  induction m as [|m IHm]; [lia|]. induction k as [|x k IHk]; intros Sz L al again; [apply q_nop|].
  cbn [print_nodes]. destruct (match again with Some O => _ | _ => _ end) as [al' again'].
  destruct L as [Lx Lk]. cbn [sizes] in Sz. fold (sizes k) in Sz.
  assert (Px : (1 <= size x)%nat) by (destruct x; cbn; lia).
  apply q_seq; [|apply IHk; [unfold sizes in *; lia|exact Lk]].
  destruct x as [n l kids|[t|n]|t|n t|t].
  - destruct Lx as (L1 & L2 & L3). change (lines kids) in L3. destruct (as_parts kids) as [ps|] eqn:E.
    + pose proof (parts_line _ _ L3 E) as P. cbn [print_node]. destruct kids as [|y kids].
      * now apply q_name.
      * unfold key_value. rewrite E. apply q_seq; [now apply q_name|]. apply q_seq; [apply q_ask; intros; apply q_equals|]. now apply q_value.
    + rewrite print_body by exact E. apply q_seq; [now apply q_name|]. unfold space_opening_brace, space_closing_brace. rewrite HC. cbn [negb when].
      apply q_seq; [apply q_ask; intros; apply q_nop|]. apply q_seq; [apply q_str; now apply nn_lit|]. apply q_seq; [apply q_line|].
      apply q_seq; [apply IHm; [|exact L3]|].
      { cbn [size] in Sz. fold (sizes kids) in Sz. unfold sizes in *. lia. }
      apply q_seq; [apply q_line|]. apply q_seq; [apply q_nop|]. apply q_str; now apply nn_lit.
  - cbn [print_node]. apply q_ask. intros st _. apply q_seq; [|apply q_line]. now apply q_value_text.
  - now apply q_entity.
  - apply q_comment.
  - destruct Lx as (L1 & L2). cbn [print_node]. unfold print_pi. apply q_seq; [apply q_space_key|]. apply q_seq; [apply q_str; now apply nn_lit|].
    apply q_seq; [now apply q_str|]. apply q_seq; [apply q_equals|]. apply q_value_text. rewrite HC. now apply few_map, few_add.
  - cbn [print_node]. unfold print_doctype. apply q_seq; [apply q_space_key|]. apply q_seq; [apply q_str; now apply nn_lit|].
    apply q_seq; [apply q_equals|]. apply q_value_text. rewrite HC. now apply few_map.
Qed.

Theorem compact_line d : d <> [] -> Forall node_line d -> exists o, fst (print_doc C d) = o ++ [cNL] /\ no_nl o.
Proof.
  intros Hd L. assert (L' : lines d) by (induction L; [exact I|split; [assumption|]]; destruct l; [exact I|now apply IHL]).
  pose proof (q_nodes _ d (Nat.lt_succ_diag_r _) L' 0%nat (Some 0%nat) (PR 0 0 0 true) (Z.le_refl 0)) as (Q & _).
  unfold print_doc. destruct d as [|x d]; [congruence|].
  destruct (print_nodes C 0 (Some 0%nat) (x :: d) (PR 0 0 0 true)) as [o s]. exists o. split; [reflexivity|exact Q].
Qed.
End line.
