(** The quote of a text in the default form, and a comment over several lines,
    mean the text again. *)
From Coq Require Import NArith ZArith List Bool Arith Lia String.
From Verif Require Import Bytes BytesFacts QuoteSpec QuoteProofs QuoteProofs2 Quote Parser ParserSpec Dom Printer Grammar GrammarProofs Compact Stray CompactProofs
  CompactDoc LeafQuote BlockProofs Pretty.
Import ListNotations.
Local Open Scope N_scope.

Lemma hang_lines K ls : ls <> [] -> Forall nl_free ls -> hang K (join_lines ls) = join_lines (hd [] ls :: map (indl K) (tl ls)).
Proof.
  induction ls as [|l ls IH]; [congruence|]. intros _ F. inversion F as [|? ? Fl Fs]; subst. destruct ls as [|m r].
  - cbn. now apply hang_none.
  - specialize (IH ltac:(discriminate) Fs). rewrite join_cons by discriminate. rewrite hang_plain by exact Fl. cbn [hang]. change (cNL =? cNL) with true. cbn iota.
    rewrite IH. cbn [hd tl map]. rewrite (join_cons l) by discriminate. f_equal. f_equal. inversion Fs as [|? ? Fm Fr]; subst.
    destruct m as [|c m].
    + destruct r as [|? ?]; [reflexivity|]. now rewrite join_cons by discriminate.
    + assert (E : exists x, join_lines ((c :: m) :: r) = c :: x) by (destruct r; [now exists m|rewrite join_cons by discriminate; eexists; reflexivity]).
      destruct E as (x & ->). destruct (N.eqb_spec c cNL) as [->|_]; [exfalso; apply Fm; now left|].
      change (indl K (c :: m)) with (rep cSP K ++ c :: m). destruct r as [|? ?]; [reflexivity|]. cbn [map]. rewrite join_cons by discriminate. symmetry. etransitivity; [apply join_cons; discriminate|]. now rewrite <- app_assoc.
Qed.

(** ** Unmixed texts by lines *)
Lemma only_forallb p s : forallb p s = true <-> only p s.
Proof. apply forallb_forall. Qed.
Lemma unmixed_rev q : unmixed q -> unmixed (rev q).
Proof.
  intros H w r E W I d Id. assert (X : q = rev w ++ rev r \/ q = rev r ++ rev w).
  { destruct E as [E|E]; apply (f_equal (@rev _)) in E; rewrite rev_involutive, rev_app_distr in E; auto. }
  destruct (H (rev w) (rev r)) with (c := d); auto; try now rewrite <- in_rev.
  - intros c Ic. apply W. now rewrite in_rev.
Qed.

Lemma blank_only l : blank l = true -> only is_xml_whitespace l.
Proof. intros H. apply only_forallb. now apply blank_ws. Qed.
Lemma columns_zero l : ~ starts is_hspace l -> columns l = 0%nat.
Proof.
  destruct l as [|c l]; [reflexivity|]. rewrite starts_cons. unfold is_hspace. cbn [columns]. destruct (c =? cSP); cbn; [congruence|]. destruct (c =? cTAB); congruence.
Qed.
Lemma all_nl_lines a : Forall (fun l => blank l = true) a -> a <> [] -> only (is cNL) (join_lines a ++ [cNL]) -> a = repeat [] (List.length a).
Proof.
  induction 1 as [|l a H F IH]; [congruence|]. intros _ O. cbn [List.length repeat].
  assert (El : l = []).
  { destruct l as [|c l]; auto. exfalso. assert (X : is cNL c = true) by (apply O; destruct a; [now left|rewrite join_cons by discriminate; now left]).
    apply N.eqb_eq in X. subst c. discriminate H. }
  subst l. f_equal. destruct a as [|m a]; [reflexivity|]. apply IH; [discriminate|]. intros c I. apply O. rewrite join_cons by discriminate. cbn. now right.
Qed.
Lemma join_split_app a b : a <> [] -> b <> [] -> join_lines (a ++ b) = (join_lines a ++ [cNL]) ++ join_lines b.
Proof. intros A B. rewrite join_app by assumption. now rewrite <- app_assoc. Qed.
Lemma join_hd l r : exists x, join_lines (l :: r) = l ++ x.
Proof. destruct r; [exists []; now rewrite app_nil_r|rewrite join_cons by discriminate; eauto]. Qed.

Lemma unmixed_top q a b l r : unmixed q -> q = join_lines (a ++ l :: b) -> Forall (fun l => blank l = true) a -> a <> [] -> r = List.length a ->
  a = repeat [] r /\ ~ starts is_hspace l.
Proof.
  intros U E F Ha ->. rewrite join_split_app in E by (auto; discriminate).
  assert (W : only is_xml_whitespace (join_lines a ++ [cNL])).
  { apply only_app; [apply only_forallb; now apply join_blank_ws|now apply only_one]. }
  assert (I : In cNL (join_lines a ++ [cNL])) by (apply in_or_app; right; now left).
  split; [apply all_nl_lines; auto; eapply U; eauto|].
  intros (c & r & -> & Hc). destruct (join_hd (c :: r) b) as (x & Ex). rewrite Ex in E. cbn [app] in E.
  assert (O : only (is cNL) ((join_lines a ++ [cNL]) ++ [c])).
  { apply (U _ (r ++ x)).
    - left. rewrite E. now rewrite <- !app_assoc.
    - apply only_app; auto. apply only_one. apply hspace_cases in Hc as [-> | ->]; reflexivity.
    - apply in_or_app. now left. }
  specialize (O c ltac:(apply in_or_app; right; now left)). apply N.eqb_eq in O. subst c. discriminate Hc.
Qed.
Lemma rstrip_ends_ok l : ~ starts is_hspace (rev l) -> rstrip l = l.
Proof.
  intros H. destruct (list_eq_dec N.eq_dec l []) as [->|Hl]; [reflexivity|]. destruct (exists_last Hl) as (x & c & ->).
  apply rstrip_snoc. rewrite rev_app_distr in H. cbn in H. rewrite starts_cons in H. now destruct (is_hspace c).
Qed.
Lemma unmixed_bottom q a b l : unmixed q -> q = join_lines (a ++ l :: b) -> Forall (fun l => blank l = true) b -> b <> [] ->
  b = repeat [] (List.length b) /\ rstrip l = l.
Proof.
  intros U E F Hb. assert (Ej : join_lines (a ++ l :: b) = join_lines (a ++ [l]) ++ [cNL] ++ join_lines b).
  { change (a ++ l :: b) with (a ++ [l] ++ b). rewrite app_assoc, join_split_app, <- app_assoc; auto. now destruct a. }
  rewrite Ej in E.
  assert (W : only is_xml_whitespace ([cNL] ++ join_lines b)).
  { apply only_app; [now apply only_one|apply only_forallb; now apply join_blank_ws]. }
  assert (I : In cNL ([cNL] ++ join_lines b)) by now left.
  split.
  - apply all_nl_lines; auto. assert (O : only (is cNL) ([cNL] ++ join_lines b)) by (eapply U; eauto).
    apply only_app; [intros c Ic; apply O; now right|now apply only_one].
  - apply rstrip_ends_ok. intros (c & r & Er & Hc). apply (f_equal (@rev _)) in Er. rewrite rev_involutive in Er. cbn in Er.
    assert (Ex : exists x, join_lines (a ++ [l]) = x ++ [c]).
    { destruct a as [|? ?]; [exists (rev r); exact Er|]. rewrite join_snoc by discriminate. rewrite Er. eexists. rewrite app_comm_cons, app_assoc. reflexivity. }
    destruct Ex as (x & Ex). rewrite Ex in E.
    assert (O : only (is cNL) ([c] ++ [cNL] ++ join_lines b)).
    { apply (U _ x).
      - right. rewrite E. now rewrite <- !app_assoc.
      - apply only_app; auto. apply only_one. apply hspace_cases in Hc as [-> | ->]; reflexivity.
      - apply in_or_app. now right. }
    specialize (O c (or_introl eq_refl)). apply N.eqb_eq in O. subst c. discriminate Hc.
Qed.

(** An unmixed text: newlines, lines with text at both ends, newlines. *)
Record shape (q : bytes) (j : nat) (body : list bytes) (b : nat) : Prop := {
  sh_eq : q = join_lines (repeat [] j ++ body ++ repeat [] b);
  sh_free : Forall nl_free body;
  sh_ne : body <> [];
  sh_first : blank (hd [] body) = false;
  sh_last : blank (List.last body []) = false;
  sh_top : (0 < j)%nat -> ~ starts is_hspace (hd [] body);
  sh_bottom : (0 < b)%nat -> rstrip (List.last body []) = List.last body [] }.
Lemma shape_of q : unmixed q -> ~ only is_xml_whitespace q -> exists j body b, shape q j body b.
Proof.
  intros U N. destruct (lead_blank_split (split_lines q)) as (a & rest & E & Fa & _ & Hr).
  assert (Hrest : rest <> []).
  { intros ->. rewrite app_nil_r in E. apply N. apply only_forallb. rewrite <- (join_split q), E. now apply join_blank_ws. }
  destruct (lead_blank_rev_split rest) as (core & bl & E2 & Fb & _ & Hc).
  assert (Hcore : core <> []).
  { intros ->. cbn in E2. subst bl. destruct rest; [congruence|]. inversion Fb; subst. congruence. }
  destruct Hc as [Hc|Hc]; [contradiction|].
  assert (Eq : q = join_lines (a ++ core ++ bl)) by (rewrite <- E2, <- E; symmetry; apply join_split).
  assert (Ff : Forall nl_free (a ++ core ++ bl)) by (rewrite <- E2, <- E; apply split_nl_free).
  assert (H1 : blank (hd [] core) = false) by (destruct core; [congruence|]; rewrite E2 in Hr; exact Hr).
  assert (Ea : a = repeat [] (List.length a) /\ (a <> [] -> ~ starts is_hspace (hd [] core))).
  { destruct a as [|x a]; [split; [reflexivity|congruence]|]. destruct core as [|l core]; [congruence|].
    destruct (unmixed_top q (x :: a) (core ++ bl) l _ U Eq Fa ltac:(discriminate) eq_refl) as [Y Z]. split; auto. }
  assert (Eb : bl = repeat [] (List.length bl) /\ (bl <> [] -> rstrip (List.last core []) = List.last core [])).
  { destruct bl as [|x bl]; [split; [reflexivity|congruence]|]. destruct (exists_last Hcore) as (c' & l & El). rewrite El in *. rewrite last_last.
    destruct (unmixed_bottom q (a ++ c') (x :: bl) l) as [Y Z]; auto; [|discriminate].
    rewrite Eq. now rewrite <- !app_assoc. }
  destruct Ea as [Ea Ta]. destruct Eb as [Eb Tb]. exists (List.length a), core, (List.length bl).
  apply Forall_app in Ff as [_ Ff]. apply Forall_app in Ff as [Ff _]. constructor; auto.
  - rewrite <- Ea, <- Eb. exact Eq.
  - intros L. apply Ta. intros ->. cbn in L. lia.
  - intros L. apply Tb. intros ->. cbn in L. lia.
Qed.

Lemma clean_ends_lines ls : Forall nl_free ls -> clean_ends (join_lines ls) -> Forall (fun l => rstrip l = l) (removelast ls).
Proof.
  induction ls as [|l ls IH]; intros F H; [constructor|]. destruct ls as [|m ls]; [constructor|]. inversion F as [|? ? Fl Fs]; subst.
  rewrite join_cons in H by discriminate. cbn [removelast]. constructor.
  - apply rstrip_ends_ok. intros (c & r & Er & Hc). apply (f_equal (@rev _)) in Er. rewrite rev_involutive in Er. cbn in Er. subst l.
    rewrite (H (rev r) c (join_lines (m :: ls))) in Hc; [discriminate|]. now rewrite <- app_assoc.
  - apply IH; auto. intros x c y E. apply (H (l ++ [cNL] ++ x) c y). rewrite E. now rewrite <- !app_assoc.
Qed.
Lemma removelast_mid {A} (a b c : list A) : b <> [] -> exists r, removelast (a ++ b ++ c) = a ++ removelast b ++ r.
Proof.
  intros H. rewrite removelast_app by (destruct b; [congruence|discriminate]). destruct c as [|x c].
  - exists []. now rewrite !app_nil_r.
  - rewrite removelast_app by discriminate. destruct (exists_last H) as (y & z & ->). rewrite removelast_last. exists ([z] ++ removelast (x :: c)). now rewrite <- !app_assoc.
Qed.
Lemma shape_free q j body b : shape q j body b -> Forall nl_free (repeat [] j ++ body ++ repeat [] b).
Proof.
  intros [_ F _ _ _ _ _]. assert (Z : forall n, Forall nl_free (repeat [] n)) by (intros n; apply Forall_forall; intros l I; apply repeat_spec in I; subst; intros []).
  apply Forall_app; split; [apply Z|]. apply Forall_app; split; [exact F|apply Z].
Qed.
Lemma shape_clean q j body b : shape q j body b -> clean_ends q -> Forall (fun l => rstrip l = l) (removelast body).
Proof.
  intros H Hc. pose proof (shape_free _ _ _ _ H) as F. destruct H as [E _ Hn _ _ _ _]. rewrite E in Hc. apply clean_ends_lines in Hc; auto.
  destruct (removelast_mid (repeat [] j) body (repeat [] b) Hn) as (r & Er). rewrite Er in Hc.
  apply Forall_app in Hc as [_ Hc]. now apply Forall_app in Hc as [Hc _].
Qed.
Lemma blank_repeat n : Forall (fun l => blank l = true) (repeat [] n).
Proof. apply Forall_forall. intros l I. apply repeat_spec in I. now subst. Qed.

(** ** Quotes *)
Lemma starts_with_join l r : blank l = false -> nl_free l -> starts_with cNL (join_lines (l :: r)) = false.
Proof. intros B F. destruct (join_hd l r) as (x & ->). destruct l as [|d l]; [discriminate|]. cbn. apply N.eqb_neq. intros ->. apply F. now left. Qed.
Lemma shape_starts q j body b : shape q j body b -> starts_with cNL q = Nat.ltb 0 j.
Proof.
  intros [E F Hn H1 _ _ _]. subst q. rewrite join_repeat_nil by (destruct body; [congruence|discriminate]). destruct j as [|j]; [|reflexivity].
  cbn [rep repeat app Nat.ltb Nat.leb]. destruct body as [|l body]; [congruence|]. cbn in H1. inversion F; subst.
  now apply starts_with_join.
Qed.
Lemma shape_ends q j body b : shape q j body b -> ends_with cNL q = Nat.ltb 0 b.
Proof.
  intros [E F Hn _ H1 _ _]. subst q. rewrite app_assoc, join_repeat_nil_end by (intros X; apply app_eq_nil in X as [_ X]; contradiction).
  destruct b as [|b].
  - cbn [rep repeat Nat.ltb Nat.leb]. rewrite app_nil_r. destruct (exists_last Hn) as (x & l & ->). rewrite last_last in H1.
    rewrite app_assoc. apply Forall_app in F as [_ F]. inversion F as [|? ? Fl _]; subst.
    assert (Hl : l <> []) by (intros ->; discriminate). destruct (exists_last Hl) as (y & c & ->).
    assert (Ex : exists z, join_lines ((repeat [] j ++ x) ++ [y ++ [c]]) = z ++ [c]).
    { destruct (repeat [] j ++ x) as [|? ?]; [exists y; reflexivity|]. rewrite join_snoc by discriminate. eexists. rewrite app_comm_cons, app_assoc. reflexivity. }
    destruct Ex as (z & ->). rewrite ends_snoc. apply N.eqb_neq. intros ->. apply Fl. apply in_or_app. right. now left.
  - cbn [Nat.ltb Nat.leb]. rewrite <- (rep_snoc cNL b). rewrite app_assoc. now rewrite ends_snoc.
Qed.
Lemma shape_not_nl q j body b : shape q j body b -> all_are cNL q = false.
Proof.
  intros [E F Hn H1 _ _ _]. apply not_true_iff_false. rewrite all_are_only. intros O. destruct body as [|l body]; [congruence|]. cbn in H1.
  destruct l as [|c l]; [discriminate|]. inversion F as [|? ? Fl _]; subst. apply Fl. left. apply N.eqb_eq. apply O.
  rewrite join_repeat_nil by discriminate. apply in_or_app. right. destruct (join_hd (c :: l) (body ++ repeat [] b)) as (x & Ex).
  change ((c :: l) :: body ++ repeat [] b) with (((c :: l) :: body) ++ repeat [] b) in Ex. rewrite Ex. now left.
Qed.

(** What is printed for such a text, by lines. *)
Lemma map_repeat {A B} (f : A -> B) x n : map f (repeat x n) = repeat (f x) n.
Proof. induction n; cbn; congruence. Qed.
Lemma quote_text_lines K q j body b : no_stray q -> shape q j body b ->
  quote_text K q = join_lines ((match j with O => [] | S _ => repeat [] (S j) end) ++ placed_lines K (match j with O => [] | S _ => repeat [] (S j) end) body
    ++ (match b with O => [] | S _ => repeat [] b ++ [rep cSP (K - 1)] end)).
Proof.
  intros Hy H. pose proof (shape_starts _ _ _ _ H) as Hs. pose proof (shape_ends _ _ _ _ H) as He. pose proof (shape_not_nl _ _ _ _ H) as Ha. pose proof (shape_free _ _ _ _ H) as Ff.
  destruct H as [E F Hn _ _ _ _]. unfold quote_text. rewrite (written_id q Hy), Hs, He, Ha.
  assert (Eh : hang K q = join_lines ((repeat [] j ++ placed_lines K (repeat [] j) body) ++ repeat [] b)).
  { rewrite E, hang_lines by first [exact Ff|destruct j; [destruct body; [congruence|discriminate]|discriminate]]. f_equal. destruct j as [|j].
    - cbn [repeat app placed_lines]. destruct body as [|l body]; [congruence|]. cbn [app hd tl]. now rewrite map_app, map_repeat.
    - cbn [repeat app hd tl placed_lines]. f_equal. now rewrite !map_app, !map_repeat, <- app_assoc. }
  assert (Hp : placed_lines K (repeat [] j) body <> []).
  { unfold placed_lines. destruct j; [discriminate|]. cbn. destruct body; [congruence|discriminate]. }
  rewrite Eh. assert (Eb : join_lines ((repeat [] j ++ placed_lines K (repeat [] j) body) ++ repeat [] b)
      ++ (if Nat.ltb 0 b then [cNL] ++ rep cSP (K - 1) else [])
    = join_lines ((repeat [] j ++ placed_lines K (repeat [] j) body) ++ match b with O => [] | S _ => repeat [] b ++ [rep cSP (K - 1)] end)).
  { destruct b as [|b]; [cbn; now rewrite !app_nil_r|]. cbn [Nat.ltb Nat.leb]. rewrite (app_assoc _ _ [rep cSP (K - 1)]), join_snoc; [reflexivity|].
    intros X. apply app_eq_nil in X as [_ X]. discriminate. }
  rewrite Eb. destruct j as [|j]; [reflexivity|]. cbn [Nat.ltb Nat.leb]. rewrite <- app_assoc. reflexivity.
Qed.

(** ** All of it *)
Lemma nl_block K n : (1 <= n)%nat -> text_block K (quote_text K (rep cNL n)) = rep cNL n.
Proof.
  intros H. assert (Eq : quote_text K (rep cNL n) = join_lines (repeat [] (S n) ++ [rep cSP (K - 1)])).
  { unfold quote_text. assert (A : all_are cNL (rep cNL n) = true) by (apply all_are_only; intros c I; apply repeat_spec in I; subst; reflexivity).
    rewrite A. replace (starts_with cNL (rep cNL n)) with true by (destruct n; [lia|reflexivity]).
    replace (ends_with cNL (rep cNL n)) with true by (destruct n; [lia|]; rewrite <- rep_snoc; now rewrite ends_snoc).
    assert (Ew : written (rep cNL n) = rep cNL n) by (apply written_id, no_blank_stray; intros I; apply repeat_spec in I; discriminate I).
    rewrite Ew. assert (Eh : hang K (rep cNL n) = rep cNL n).
    { clear. induction n as [|n IH]; [reflexivity|]. change (rep cNL (S n)) with (cNL :: rep cNL n). cbn [hang]. change (cNL =? cNL) with true. cbn iota. rewrite IH. destruct n; reflexivity. }
    rewrite Eh. rewrite join_repeat_nil by discriminate. reflexivity. }
  rewrite Eq. unfold text_block. cbv zeta. rewrite split_join.
  - rewrite app_length, repeat_length. cbn [List.length]. destruct (Nat.eqb_spec (S n + 1) 1); [lia|].
    assert (Eb : lead_blank (rev (repeat [] (S n) ++ [rep cSP (K - 1)])) = (S n + 1)%nat).
    { rewrite <- (app_nil_r (rev _)). rewrite lead_blank_app.
      - rewrite rev_length, app_length, repeat_length. cbn [List.length lead_blank]. lia.
      - apply Forall_rev. apply Forall_app. split; [apply blank_repeat|]. constructor; [apply spaces_blank|constructor]. }
    rewrite Eb, Nat.eqb_refl. f_equal. lia.
  - discriminate.
  - apply Forall_app. split; [apply Forall_forall; intros l I; apply repeat_spec in I; subst; intros []|]. constructor; [apply spaces_nl_free|constructor].
Qed.

Lemma blank_first_line l : blank l = false -> ~ starts is_hspace l -> columns l = 0%nat.
Proof. intros _. apply columns_zero. Qed.
Lemma shape_block K q j body b : no_stray q -> shape q j body b -> clean_ends q -> text_block K (quote_text K q) = q.
Proof.
  intros Hy H Hc. rewrite (quote_text_lines K q j body b Hy H). pose proof (shape_clean _ _ _ _ H Hc) as Hr. pose proof (shape_free _ _ _ _ H) as Ff.
  destruct H as [E F Hn H1 H2 Ht Hb].
  set (tops := match j with O => [] | S _ => repeat [] (S j) end). set (bots := match b with O => [] | S _ => repeat [] b ++ [rep cSP (K - 1)] end).
  rewrite (block_lines K K tops body bots).
  - rewrite E. f_equal. unfold tops, bots. f_equal; [|f_equal].
    + destruct j as [|j]; [reflexivity|]. rewrite repeat_length. f_equal; lia.
    + destruct b as [|b]; [reflexivity|]. rewrite app_length, repeat_length. f_equal; cbn; lia.
  - unfold tops. destruct j; [constructor|apply blank_repeat].
  - unfold bots. destruct b; [constructor|]. apply Forall_app. split; [apply blank_repeat|]. constructor; [apply spaces_blank|constructor].
  - apply Forall_app. split; [|apply Forall_app; split; auto].
    + unfold tops. destruct j; [constructor|]. apply Forall_forall. intros l I. apply repeat_spec in I. subst. intros [].
    + unfold bots. destruct b; [constructor|]. apply Forall_app. split; [apply Forall_forall; intros l I; apply repeat_spec in I; subst; intros []|]. constructor; [apply spaces_nl_free|constructor].
  - exact Hn.
  - exact H1.
  - exact H2.
  - exact Hr.
  - unfold bots. destruct b; [congruence|]. intros _. apply Hb. lia.
  - reflexivity.
  - unfold tops. destruct j; [congruence|]. intros _. exists (hd [] body). split; [destruct body; [congruence|now left]|]. split; auto. apply columns_zero, Ht. lia.
Qed.

(** Texts of white space only. *)
Lemma unmixed_white q : unmixed q -> only is_xml_whitespace q -> nl_free q \/ q = rep cNL (List.length q).
Proof.
  intros U W. destruct (in_dec N.eq_dec cNL q) as [I|I]; [right|now left]. apply all_are_rep, all_are_only. apply (U q []); auto using app_nil_r.
Qed.
Lemma white_dec q : only is_xml_whitespace q \/ ~ only is_xml_whitespace q.
Proof. destruct (forallb is_xml_whitespace q) eqn:E; [left; now apply only_forallb|right]. intros H. apply only_forallb in H. congruence. Qed.

Lemma quote_text_single K q : no_stray q -> nl_free q -> quote_text K q = q.
Proof. intros Hy H. unfold quote_text. rewrite (written_id q Hy), (starts_with_not _ _ H), (ends_with_not _ _ H), hang_none by exact H. cbn. now rewrite app_nil_r. Qed.

Theorem unframed_block K q : q <> [] -> no_stray q -> unmixed q -> clean_ends q -> text_block K (quote_text K q) = q.
Proof.
  intros Hq Hy U Hc. destruct (white_dec q) as [W|W].
  - destruct (unmixed_white q U W) as [H| ->]; [rewrite quote_text_single by assumption; now apply text_block_single|].
    apply nl_block. destruct q; [congruence|cbn; lia].
  - destruct (shape_of q U W) as (j & body & b & H). eapply shape_block; eauto.
Qed.

Lemma starts_with_starts c s : starts_with c s = true <-> starts (is c) s.
Proof. destruct s as [|d s]; cbn; [split; [discriminate|intros H; now apply starts_nil in H]|]. now rewrite starts_cons. Qed.
Theorem framed_block K k q : no_stray q -> unmixed q -> ~ only is_xml_whitespace q -> clean_ends q -> frame_ok q ->
  text_block K ([cNL] ++ rep cSP k ++ quote_text k q ++ [cNL] ++ rep cSP k) = q.
Proof.
  intros Hy U W Hc (F1 & F2 & l & Il & Hl & Hs). destruct (shape_of q U W) as (j & body & b & H).
  pose proof (shape_starts _ _ _ _ H) as S1. pose proof (shape_ends _ _ _ _ H) as S2.
  assert (j = 0%nat) as ->.
  { destruct j; auto. exfalso. apply F1. now apply starts_with_starts. }
  assert (b = 0%nat) as ->.
  { destruct b; auto. exfalso. apply F2. unfold ends_with in S2. apply starts_with_starts in S2 as (c & r & -> & Ec). apply N.eqb_eq in Ec. subst c. now apply starts_cons. }
  rewrite (quote_text_lines k q _ _ _ Hy H). pose proof (shape_clean _ _ _ _ H Hc) as Hr.
  destruct H as [E Fb Hn H1 H2 _ _]. cbn [app repeat placed_lines]. rewrite app_nil_r. cbn [repeat app] in E. rewrite app_nil_r in E.
  assert (Es : split_lines q = body) by (rewrite E; now apply split_join). rewrite Es in Il.
  assert (Rl : rstrip (List.last body []) = List.last body []).
  { apply rstrip_ends_ok. intros S3. apply F2. assert (Ex : exists x, q = x ++ List.last body []) by (rewrite E; now apply join_ends_with).
    destruct Ex as (x & ->). rewrite rev_app_distr. apply starts_app. destruct S3 as (c & r & -> & Ec). exists c, r. split; auto.
    apply hspace_cases in Ec as [-> | ->]; reflexivity. }
  assert (Et : cNL :: rep cSP k ++ join_lines (hd [] body :: map (indl k) (tl body)) ++ cNL :: rep cSP k
     = join_lines ([[]] ++ placed_lines k [[]] body ++ [rep cSP k])).
  { cbn [app placed_lines]. rewrite (join_cons []) by (destruct body; [congruence|discriminate]). cbn [app]. f_equal.
    rewrite join_snoc by (destruct body; [congruence|discriminate]). rewrite app_assoc. f_equal.
    destruct body as [|f r]; [congruence|]. cbn [hd tl map] in *. rewrite indl_ne by assumption.
    destruct r; [reflexivity|]. cbn [map]. rewrite join_cons by discriminate. symmetry. etransitivity; [apply join_cons; discriminate|]. now rewrite <- app_assoc. }
  rewrite Et, (block_lines K k [[]] body [rep cSP k]); auto.
  - cbn [List.length Nat.sub repeat app]. rewrite app_nil_r. now symmetry.
  - constructor; [apply spaces_blank|constructor].
  - cbn [app]. constructor; [intros []|]. apply Forall_app. split; auto. constructor; [apply spaces_nl_free|constructor].
  - discriminate.
  - intros _. exists l. split; auto. split; [|now apply columns_zero]. destruct l as [|c l]; [congruence|]. rewrite starts_cons in Hs. rewrite blank_cons. now destruct (is_hspace c).
Qed.

(** ** The frame *)
Lemma scan_runs s : forall max curr safe m sf, scan_quotes s max curr safe = (m, sf) -> (curr <= max)%nat ->
  m = max \/ (exists x k y, rep cQ curr ++ s = x ++ rep cQ k ++ y /\ (m <= k)%nat).
Proof.
  induction s as [|c s IH]; intros max curr safe m sf E L; cbn [scan_quotes] in E; [injection E as <- _; now left|].
  destruct (N.eqb_spec c cQ) as [->|Hc].
  - destruct (IH _ _ _ _ _ E) as [H|(x & k & y & H & Hk)]; [lia| |].
    + destruct (Nat.max_spec max (S curr)) as [[_ M]|[_ M]]; [right|left; lia]. exists [], (S curr), s. split; [|lia].
      rewrite <- (rep_snoc cQ curr). now rewrite <- app_assoc.
    + right. exists x, k, y. split; auto. rewrite <- H, <- (rep_snoc cQ curr). now rewrite <- app_assoc.
  - destruct (IH _ _ _ _ _ E) as [H|(x & k & y & H & Hk)]; [lia|now left|]. right. exists (rep cQ curr ++ [c] ++ x), k, y. split; auto. cbn in H. rewrite H. now rewrite <- !app_assoc.
Qed.
Lemma framed_needs q : framed q = true -> needs_frame q.
Proof.
  unfold framed, count_necessary_quotes. cbv zeta. destruct (scan_quotes q 0 0 _) as [m sf] eqn:Sc. rewrite andb_true_r. intros H.
  apply orb_true_iff in H as [H|H].
  - apply orb_true_iff in H as [H|H]; [left; now apply starts_with_starts|right; left; now apply starts_with_starts].
  - right. right. destruct (scan_runs _ _ _ _ _ _ Sc) as [X|(x & k & y & X & Hk)]; [lia| |].
    + subst m. exfalso. cbn in H. destruct sf; cbn in H; discriminate H.
    + assert (3 <= m)%nat. { destruct m as [|[|[|m]]]; try lia; exfalso; cbn in H; [destruct sf|..]; cbn in H; discriminate H. }
      destruct k as [|[|[|k]]]; try lia. exists x, (rep cQ k ++ y). cbn in X. now rewrite X.
Qed.
Lemma needs_frame_text q : needs_frame q -> ~ only is_xml_whitespace q.
Proof.
  intros H O. assert (I : In cQ q).
  { destruct H as [(c & r & -> & E)|[(c & r & Er & E)|(x & y & ->)]].
    - apply N.eqb_eq in E. subst. now left.
    - apply N.eqb_eq in E. subst. apply in_rev. rewrite Er. now left.
    - apply in_or_app. right. now left. }
  discriminate (O _ I).
Qed.

(** The text of a quote that starts at column k. *)
Theorem leaf_block k q : q <> [] -> unmixed q -> leaf_ok q -> text_block (k + quotes_for q) (leaf_text k q) = q.
Proof.
  intros Hq U (H0 & H1 & H2). unfold leaf_text. destruct (framed q) eqn:E; [|now apply unframed_block].
  apply framed_needs in E. apply framed_block; auto. now apply needs_frame_text.
Qed.
(** Without newlines the column does not matter. *)
Theorem leaf_block_line k n q : q <> [] -> nl_free q -> leaf_ok q -> text_block n (leaf_text k q) = q.
Proof.
  intros Hq F (H0 & H1 & H2). unfold leaf_text. destruct (framed q) eqn:E.
  - apply framed_needs in E. apply framed_block; auto; [|now apply needs_frame_text].
    intros w r [Ew|Ew] _ I; exfalso; apply F; rewrite Ew; apply in_or_app; auto.
  - rewrite quote_text_single by assumption. now apply text_block_single.
Qed.

(** ** Comments *)
Theorem comment_block k s : no_stray s -> has_newlines s = true -> clean_ends s -> blank (hd [] (split_lines s)) = false -> blank (List.last (split_lines s) []) = false ->
  comment_text (k + count_necessary_slashes s + 1) (comment_inside k s) = s.
Proof.
  intros Hy Hn Hc B1 B2. set (n := count_necessary_slashes s). pose proof (split_lines_ne s) as Hl. pose proof (split_nl_free s) as F.
  assert (Hs : starts_with cNL s = false).
  { rewrite <- (join_split s). destruct (split_lines s) as [|l r] eqn:E; [congruence|]. cbn in B1. inversion F; subst. now apply starts_with_join. }
  unfold comment_text, comment_inside. rewrite (written_id s Hy), Hs. fold n. cbn [app strip_front fst snd]. change (cSP =? cSP) with true. cbn iota. cbn [fst snd].
  assert (Eb : strip_back (hang (k + n + 2) s ++ [cSP]) = hang (k + n + 2) s).
  { unfold strip_back. rewrite rev_app_distr. cbn. now rewrite rev_involutive. }
  rewrite Eb. replace (k + n + 1 + 1)%nat with (k + n + 2)%nat by lia. set (K := (k + n + 2)%nat).
  rewrite <- (join_split s) at 1 2. rewrite hang_lines by auto. set (body := split_lines s) in *.
  assert (Hr : Forall (fun l => rstrip l = l) (removelast body)).
  { apply clean_ends_lines; auto. unfold body. now rewrite join_split. }
  pose proof (block_lines K K [] body [] (Forall_nil _) (Forall_nil _)) as X. cbn [app placed_lines List.length Nat.sub repeat] in X.
  rewrite !app_nil_r in X. rewrite X; auto; congruence.
Qed.

(** ** Mixed space *)
Lemma lead_unmixed s : (match has_leading_space_nl s with (Some _, O) => true | _ => false end) = false ->
  forall w r, s = w ++ r -> only is_xml_whitespace w -> In cNL w -> only (is cNL) w.
Proof.
  unfold has_leading_space_nl. intros H w r E W I. destruct (skip_nls_spec s 0) as (j & t & Es & Ej & Ht). rewrite Ej in H. cbn [Nat.add] in H.
  assert (Hnl : forall n, only (is cNL) (rep cNL n)) by (intros n c Ic; apply repeat_spec in Ic; subst; reflexivity).
  assert (Hw : (exists n, w = rep cNL n) \/ exists c v, w = rep cNL j ++ c :: v /\ c <> cNL).
  { clear -Es E Ht. rewrite E in Es. clear E. revert w Es. induction j as [|j IH]; intros w Es.
    - destruct w as [|c w]; [left; now exists 0%nat|]. cbn in Es. subst t. right. exists c, w. auto.
    - destruct w as [|c w]; [left; now exists 0%nat|]. cbn in Es. injection Es as -> Es. destruct (IH _ Es) as [(n & ->)|(d & v & -> & Hd)].
      + left. now exists (S n).
      + right. exists d, v. auto. }
  destruct Hw as [(n & ->)|(c & v & -> & Hc)]; [apply Hnl|]. exfalso.
  assert (Et : t = c :: v ++ r) by (rewrite E, <- app_assoc in Es; now apply app_inv_head in Es).
  assert (Wv : only is_xml_whitespace (c :: v)) by (intros d Id; apply W; apply in_or_app; now right).
  assert (Inl : (0 < j)%nat \/ In cNL (c :: v)).
  { apply in_app_or in I as [I|I]; auto. left. destruct j; [destruct I|lia]. }
  assert (X : forall u i b, only is_xml_whitespace u -> (i + List.length u <= fst (skip_ws (u ++ r) i b))%nat /\ (b = true \/ In cNL u -> snd (skip_ws (u ++ r) i b) = true)).
  { clear. assert (Y : forall r i b, (i <= fst (skip_ws r i b))%nat /\ (b = true -> snd (skip_ws r i b) = true)).
    { intros z. induction z as [|d z IH]; intros i b; cbn [skip_ws]; [auto|]. destruct (is_xml_whitespace d).
      - destruct (IH (S i) (if d =? cNL then true else b)) as [A B]. split; [lia|]. intros ->. apply B. now destruct (d =? cNL).
      - cbn. split; [lia|]. intros ->. now destruct (d =? cNL). }
    induction u as [|d u IH]; intros i b W; cbn [app].
    - destruct (Y r i b) as [A B]. split; [cbn; lia|]. intros [->|[]]. now apply B.
    - cbn [skip_ws]. rewrite (W d (or_introl eq_refl)). destruct (IH (S i) (if d =? cNL then true else b)) as [A B]; [intros e Ie; apply W; now right|]. split; [cbn [List.length]; lia|].
      intros H. apply B. destruct H as [->|[->|H]]; [left; now destruct (d =? cNL)|left; now rewrite N.eqb_refl|now right]. }
  destruct (X (c :: v) j (Nat.ltb 0 j) Wv) as [X1 X2]. cbn [app] in X1, X2. rewrite <- Et in X1, X2. cbn [List.length] in X1.
  destruct (skip_ws t j (Nat.ltb 0 j)) as [i f]. cbn [fst snd] in *.
  assert (f = true) as ->. { apply X2. destruct Inl as [L|L]; [left; now apply Nat.ltb_lt|now right]. }
  destruct (Nat.eqb_spec i j); [lia|discriminate].
Qed.
Lemma ending_leading s : (match has_ending_nl_space s with (Some _, O) => true | _ => false end) = (match has_leading_space_nl (rev s) with (Some _, O) => true | _ => false end).
Proof. unfold has_ending_nl_space, has_leading_space_nl. destruct (skip_nls (rev s) 0) as [n r]. destruct (skip_ws r n _) as [i f]. destruct f; reflexivity. Qed.
Theorem not_mixed s : has_mixed_space s = false -> unmixed s.
Proof.
  unfold has_mixed_space. cbv zeta. intros H. apply orb_false_iff in H as [H1 H2]. rewrite ending_leading in H2. intros w r [E|E] W I.
  - exact (lead_unmixed s H1 w r E W I).
  - intros c Ic. apply (lead_unmixed (rev s) H2 (rev w) (rev r)).
    + rewrite E. apply rev_app_distr.
    + intros d Id. apply W. now rewrite in_rev.
    + now rewrite <- in_rev.
    + now rewrite <- in_rev.
Qed.
