(** Reading the text of a grammar gives the rules of IxmlTrans.v. *)
From Coq Require Import NArith ZArith Bool String List Lia.
From Coq Require Import ZifyBool ZifyNat ZifyN.
From Verif Require Import Bytes BytesFacts Utf8 Utf8Proofs Ixml IxmlSpec IxmlNames IxmlTrans IxmlLex.
Import ListNotations.
Local Open Scope N_scope.
Local Open Scope list_scope.

Scheme w_factor_mind := Minimality for w_factor Sort Prop
  with w_term_mind := Minimality for w_term Sort Prop
  with w_alt_mind := Minimality for w_alt Sort Prop
  with w_alts_mind := Minimality for w_alts Sort Prop.
Combined Scheme written_ind from w_factor_mind, w_term_mind, w_alt_mind, w_alts_mind.

(** ** What a piece does to the state *)
Definition put_codes (cs : list Z) (ts : list (bytes * Z)) : list (bytes * Z) := fold_left (fun l c => put_term (term_name c, c) l) cs ts.
Definition app_out (i : nat) (o : bout) (g : gst) : gst :=
  Gst (upd i (add_rhs (o_ts o)) (g_rules g) ++ o_new o) (Some i) (g_stack g) (g_nts g ++ o_nts o) (put_codes (o_codes o) (g_terms g)) None (o_gen o) (o_mark o) (g_read g).
Definition ready (i : nat) (g : gst) : Prop := g_cur g = Some i /\ (i < length (g_rules g))%nat /\ g_tmp g = None.

Lemma upd_length {A} (f : A -> A) : forall l i, length (upd i f l) = length l.
Proof. induction l as [|a l IH]; intros [|i]; cbn [upd length]; auto. Qed.
Lemma upd_app {A} (f : A -> A) : forall l m i, (i < length l)%nat -> upd i f (l ++ m) = upd i f l ++ m.
Proof. induction l as [|a l IH]; intros m [|i] H; cbn [upd app length] in *; try lia; [reflexivity|]. now rewrite IH by lia. Qed.
Lemma upd_last {A} (f : A -> A) : forall l a m, upd (length l) f (l ++ a :: m) = l ++ f a :: m.
Proof. induction l as [|b l IH]; intros a m; cbn [upd app length]; [reflexivity|]. now rewrite IH. Qed.
Lemma upd_upd {A} (f h : A -> A) : forall l i, upd i f (upd i h l) = upd i (fun a => f (h a)) l.
Proof. induction l as [|a l IH]; intros [|i]; cbn [upd]; auto. now rewrite IH. Qed.
Lemma upd_ext {A} (f h : A -> A) : (forall a, f a = h a) -> forall l i, upd i f l = upd i h l.
Proof. intros H. induction l as [|a l IH]; intros [|i]; cbn [upd]; rewrite ?H, ?IH; auto. Qed.
Lemma upd_id {A} (f : A -> A) : (forall a, f a = a) -> forall l i, upd i f l = l.
Proof. intros H. induction l as [|a l IH]; intros [|i]; cbn [upd]; rewrite ?H, ?IH; auto. Qed.
Lemma nth_upd {A} (f : A -> A) : forall l i r, nth_error l i = Some r -> nth_error (upd i f l) i = Some (f r).
Proof. induction l as [|a l IH]; intros [|i] r H; cbn [upd nth_error] in *; try discriminate; [congruence|auto]. Qed.
Lemma upd_set {A} (f : A -> A) : forall l i r, nth_error l i = Some r -> f r = r -> upd i f l = l.
Proof. induction l as [|a l IH]; intros [|i] r H E; cbn [upd nth_error] in *; try discriminate; [injection H as ->; now rewrite E|]. f_equal. eauto. Qed.
Lemma upd_same {A} (f h : A -> A) : forall l i r, nth_error l i = Some r -> f r = h r -> upd i f l = upd i h l.
Proof. induction l as [|a l IH]; intros [|i] r H E; cbn [upd nth_error] in *; try discriminate; [injection H as ->; now rewrite E|]. f_equal. eauto. Qed.
Lemma add_rhs_app a b r : add_rhs b (add_rhs a r) = add_rhs (a ++ b) r.
Proof. unfold add_rhs, set_rhs. cbn [r_rhs r_name r_alias r_mark]. now rewrite app_assoc. Qed.
Lemma add_rhs_nil r : add_rhs [] r = r.
Proof. destruct r as [rn ra rm rr]. unfold add_rhs, set_rhs. cbn [r_rhs r_name r_alias r_mark]. now rewrite app_nil_r. Qed.
Lemma put_codes_app a b ts : put_codes (a ++ b) ts = put_codes b (put_codes a ts).
Proof. apply fold_left_app. Qed.

Lemma ready_out i o g : ready i g -> ready i (app_out i o g).
Proof.
  intros (H1 & H2 & H3). split; [reflexivity|]. split; [|reflexivity]. cbn [app_out g_rules]. rewrite app_length, upd_length. lia.
Qed.
Lemma out_seq i o p g : ready i g -> app_out i p (app_out i o g) = app_out i (b_seq o p) g.
Proof.
  intros (H1 & H2 & H3). unfold app_out. cbn [g_rules g_stack g_nts g_terms g_gen g_mark g_read b_seq o_ts o_new o_nts o_codes o_gen o_mark]. f_equal.
  - rewrite upd_app by (rewrite upd_length; exact H2). rewrite upd_upd, <- app_assoc. f_equal. apply upd_ext. intros a. apply add_rhs_app.
  - now rewrite app_assoc.
  - now rewrite put_codes_app.
Qed.
Lemma out_nil i g : ready i g -> app_out i (Bout [] [] [] [] (g_gen g) (g_mark g)) g = g.
Proof.
  intros (H1 & H2 & H3). destruct g as [x1 x2 x3 x4 x5 x6 x7 x8 x9]. cbn [g_cur g_rules g_tmp] in *. subst. unfold app_out. cbn [g_rules g_stack g_nts g_terms g_gen g_mark g_read o_ts o_new o_nts o_codes o_gen o_mark].
  rewrite !app_nil_r. rewrite upd_id by apply add_rhs_nil. reflexivity.
Qed.

(** ** Building rules *)
Lemma add_at l m i st nts ts tmp gen mark rd tm n : (i < length l)%nat ->
  add_term tm n (Gst (l ++ m) (Some i) st nts ts tmp gen mark rd) = IOk (Gst (upd i (add_rhs [ITerm tm n]) l ++ m) (Some i) st nts ts tmp gen mark rd).
Proof.
  intros H. unfold add_term. cbn [g_cur g_rules set_rules g_stack g_nts g_terms g_tmp g_gen g_mark g_read].
  assert (E : Nat.ltb i (length (l ++ m)) = true) by (apply Nat.ltb_lt; rewrite app_length; lia). rewrite E. now rewrite upd_app.
Qed.
Lemma add_here l i st nts ts tmp gen mark rd tm n : (i < length l)%nat ->
  add_term tm n (Gst l (Some i) st nts ts tmp gen mark rd) = IOk (Gst (upd i (add_rhs [ITerm tm n]) l) (Some i) st nts ts tmp gen mark rd).
Proof. intros H. pose proof (add_at l [] i st nts ts tmp gen mark rd tm n H) as X. now rewrite !app_nil_r in X. Qed.
Lemma add_last l r st nts ts tmp gen mark rd tm n :
  add_term tm n (Gst (l ++ [r]) (Some (length l)) st nts ts tmp gen mark rd) = IOk (Gst (l ++ [add_rhs [ITerm tm n] r]) (Some (length l)) st nts ts tmp gen mark rd).
Proof. rewrite add_here by (rewrite app_length; cbn [length]; lia). now rewrite upd_last. Qed.
Lemma pop_eq l m i st nts ts tmp gen mark rd us u : (i < length l)%nat ->
  pop_term (Gst (upd i (add_rhs (us ++ [u])) l ++ m) (Some i) st nts ts tmp gen mark rd) = IOk (u, Gst (upd i (add_rhs us) l ++ m) (Some i) st nts ts tmp gen mark rd).
Proof.
  intros H. unfold pop_term. cbn [g_cur g_rules]. destruct (nth_error l i) as [r|] eqn:E; [|apply nth_error_None in E; lia].
  rewrite nth_error_app1 by (rewrite upd_length; exact H). rewrite (nth_upd _ _ _ _ E). unfold add_rhs at 1. cbn [set_rhs r_rhs]. rewrite app_assoc, rev_app_distr. cbn [rev app].
  unfold set_rules. cbn [g_cur g_rules g_stack g_nts g_terms g_tmp g_gen g_mark g_read]. rewrite upd_app by (rewrite upd_length; exact H). rewrite upd_upd. do 4 f_equal.
  apply (upd_same _ _ _ _ r E). rewrite rev_involutive. reflexivity.
Qed.
Lemma pop_one l m i st nts ts tmp gen mark rd u : (i < length l)%nat ->
  pop_term (Gst (upd i (add_rhs [u]) l ++ m) (Some i) st nts ts tmp gen mark rd) = IOk (u, Gst (l ++ m) (Some i) st nts ts tmp gen mark rd).
Proof. intros H. pose proof (pop_eq l m i st nts ts tmp gen mark rd [] u H) as X. rewrite (upd_id (add_rhs [])) in X by apply add_rhs_nil. exact X. Qed.
Ltac gsimp := unfold next_name, add_nt, push_cur, push_rule, pop_cur, set_rules, set_cur, set_stack, set_nts, set_terms, set_tmp, set_gen, set_mark;
  cbn [g_cur g_rules g_stack g_nts g_terms g_tmp g_gen g_mark g_read ibind].
Lemma o_name_one o t : o_ts o = [t] -> o_name o = t_name t.
Proof. intros E. unfold o_name. now rewrite E. Qed.
Lemma optional_spec i o g t : ready i g -> o_ts o = [t] ->
  make_optional (app_out i o g) = IOk (app_out i (b_wrap o (gname (o_gen o)) (b_opt (o_name o) (o_mark o) (gname (o_gen o))) (o_mark o)) g).
Proof.
  intros (H1 & H2 & H3) E. unfold make_optional, app_out. rewrite E, (o_name_one o t E). rewrite pop_one by exact H2. gsimp.
  rewrite add_at by exact H2. gsimp. rewrite add_last. gsimp. unfold b_wrap. cbn [o_ts o_new o_nts o_codes o_gen o_mark]. rewrite <- !app_assoc. reflexivity.
Qed.
Lemma repeat_spec i o g t : ready i g -> o_ts o = [t] ->
  make_repeat (o_mark o) (app_out i o g) = IOk (app_out i (b_wrap o (gname (o_gen o)) (b_reps (o_name o) (o_mark o) (gname (o_gen o))) (o_mark o)) g).
Proof.
  intros (H1 & H2 & H3) E. unfold make_repeat, app_out. rewrite E, (o_name_one o t E). rewrite pop_one by exact H2. gsimp.
  rewrite add_at by exact H2. gsimp. rewrite add_last. gsimp. rewrite add_last. gsimp. rewrite add_last. gsimp. unfold b_wrap. cbn [o_ts o_new o_nts o_codes o_gen o_mark]. rewrite <- !app_assoc. reflexivity.
Qed.
Lemma repeat_zero_spec i o g t : ready i g -> o_ts o = [t] ->
  make_repeat_zero (o_mark o) (app_out i o g) = IOk (app_out i (b_wrap o (gname (o_gen o)) (b_reps0 (o_name o) (o_mark o) (gname (o_gen o))) (o_mark o)) g).
Proof.
  intros (H1 & H2 & H3) E. unfold make_repeat_zero, app_out. rewrite E, (o_name_one o t E). rewrite pop_one by exact H2. gsimp.
  rewrite add_at by exact H2. gsimp. rewrite add_last. gsimp. rewrite add_last. gsimp. unfold b_wrap. cbn [o_ts o_new o_nts o_codes o_gen o_mark]. rewrite <- !app_assoc. reflexivity.
Qed.
Lemma repeat_infix_spec i o p g t s : ready i g -> o_ts o = [t] -> o_ts p = [s] ->
  make_repeat_infix (o_mark o) (o_mark p) (app_out i (b_seq o p) g) =
  IOk (app_out i (b_wrap (b_seq o p) (gname (o_gen p)) (b_sreps (o_name o) (o_mark o) (o_name p) (o_mark p) (gname (o_gen p))) (o_mark p)) g).
Proof.
  intros (H1 & H2 & H3) E Ep. unfold make_repeat_infix, app_out. cbn [b_seq o_ts o_new o_nts o_codes o_gen o_mark]. rewrite E, Ep, (o_name_one o t E), (o_name_one p s Ep).
  rewrite pop_eq by exact H2. gsimp. rewrite pop_one by exact H2. gsimp.
  rewrite add_at by exact H2. gsimp. rewrite add_last. gsimp. rewrite add_last. gsimp. rewrite add_last. gsimp. rewrite add_last. gsimp. unfold b_wrap. cbn [b_seq o_ts o_new o_nts o_codes o_gen o_mark]. rewrite <- !app_assoc. reflexivity.
Qed.
Lemma set_mark_out i o g m : set_mark m (app_out i o g) = app_out i (Bout (o_ts o) (o_new o) (o_nts o) (o_codes o) (o_gen o) m) g.
Proof. reflexivity. Qed.
Lemma repeat_zero_infix_spec i o p g t s : ready i g -> o_ts o = [t] -> o_ts p = [s] ->
  make_repeat_zero_infix (o_mark o) (o_mark p) (app_out i (b_seq o p) g) =
  IOk (app_out i (b_wrap (b_wrap (b_seq o p) (gname (o_gen p)) (b_sreps (o_name o) (o_mark o) (o_name p) (o_mark p) (gname (o_gen p))) (o_mark p))
        (gname (o_gen p + 1)) (b_opt (gname (o_gen p)) cMINUS (gname (o_gen p + 1))) cMINUS) g).
Proof.
  intros Hr E Ep. unfold make_repeat_zero_infix. rewrite (repeat_infix_spec i o p g t s) by assumption. cbn [ibind]. rewrite set_mark_out.
  rewrite (optional_spec i _ g (ITerm cMINUS (gname (o_gen p)))) by (exact Hr || reflexivity). reflexivity.
Qed.

Lemma add_tmps_at m cs : forall l r i st nts ts tmp gen mark rd, (i < length l)%nat ->
  add_tmps m (map (fun c => (term_name c, c)) cs) (Gst (l ++ r) (Some i) st nts ts tmp gen mark rd) =
  IOk (Gst (upd i (add_rhs (b_chars m cs)) l ++ r) (Some i) st nts (put_codes cs ts) tmp gen mark rd).
Proof.
  induction cs as [|c cs IH]; intros l r i st nts ts tmp gen mark rd Hi.
  - cbn [map add_tmps b_chars put_codes fold_left]. rewrite upd_id by apply add_rhs_nil. reflexivity.
  - cbn [map add_tmps fst]. gsimp. rewrite add_at by exact Hi. cbn [ibind]. rewrite IH by (rewrite upd_length; exact Hi). rewrite upd_upd. do 3 f_equal.
    apply upd_ext. intros a. rewrite add_rhs_app. reflexivity.
Qed.
Lemma add_tmps_last m cs l r st nts ts tmp gen mark rd :
  add_tmps m (map (fun c => (term_name c, c)) cs) (Gst (l ++ [r]) (Some (length l)) st nts ts tmp gen mark rd) =
  IOk (Gst (l ++ [add_rhs (b_chars m cs) r]) (Some (length l)) st nts (put_codes cs ts) tmp gen mark rd).
Proof.
  pose proof (add_tmps_at m cs (l ++ [r]) [] (length l) st nts ts tmp gen mark rd) as X. rewrite !app_nil_r in X. rewrite X by (rewrite app_length; cbn [length]; lia). now rewrite upd_last.
Qed.
Lemma add_tmp_all_spec cs : forall g l, g_tmp g = Some l -> add_tmp_all cs g = IOk (set_tmp (Some (l ++ map (fun c => (term_name c, c)) cs)) g).
Proof.
  induction cs as [|c cs IH]; intros g l H; cbn [add_tmp_all map].
  - rewrite app_nil_r, <- H. destruct g. reflexivity.
  - unfold add_tmp. rewrite H. cbn [ibind]. rewrite (IH _ (l ++ [(term_name c, c)])) by reflexivity. rewrite <- app_assoc. destruct g. reflexivity.
Qed.

(** ** Factors *)
Definition after_factor (c : N) : Prop := c = 44 \/ c = 59 \/ c = 124 \/ c = 46 \/ c = 41 \/ c = 63 \/ c = 42 \/ c = 43.
Lemma after_factor_facts c : after_factor c -> ix_ws c = false /\ ix_hex c = false /\ ix_quote c = false /\ after_name c.
Proof. unfold after_name. intros [-> |[-> |[-> |[-> |[-> |[-> |[-> | ->]]]]]]]; repeat split; reflexivity. Qed.

Lemma literal_string m t cs s r : w_tmark m t -> w_string cs s -> literal_start (t ++ s ++ r) = true /\ quoted_start (t ++ s ++ r) = true.
Proof.
  intros Ht Hs. destruct (string_first cs s Hs) as (q & l & -> & Hq). unfold literal_start, quoted_start. rewrite (skip_tmark_spec m t) by (try exact Ht; cbn [app peek hd]; charb).
  cbn [app peek hd]. rewrite Hq. auto.
Qed.
Lemma literal_hex m t c s r : w_tmark m t -> w_hex c s -> literal_start (t ++ s ++ r) = true /\ quoted_start (t ++ s ++ r) = false.
Proof.
  intros Ht Hs. destruct (hex_first c s Hs) as (l & ->). unfold literal_start, quoted_start, encoded_start. rewrite (skip_tmark_spec m t) by (try exact Ht; reflexivity).
  cbn [app peek hd]. auto.
Qed.
Definition set_open (ex : bool) (x : bytes) : Prop := if ex then exists b, x = 126 :: b /\ blanks b else x = [].
Lemma literal_set m t ex x r : w_tmark m t -> set_open ex x ->
  literal_start (t ++ x ++ 91 :: r) = false /\ charset_start (t ++ x ++ 91 :: r) = true.
Proof.
  intros Ht Hx. assert (E : skip_tmark (t ++ x ++ 91 :: r) = x ++ 91 :: r).
  { apply (skip_tmark_spec m t); [exact Ht| |]; destruct ex; cbn [set_open] in Hx; [destruct Hx as (b & -> & _)|subst x|destruct Hx as (b & -> & _)|subst x]; reflexivity. }
  unfold literal_start, quoted_start, encoded_start, charset_start. rewrite E. destruct ex; cbn [set_open] in Hx.
  - destruct Hx as (b & -> & Hb). cbn [app peek hd tl]. change (126 =? 126) with true. cbn iota zeta. rewrite (drop_blanks b (91 :: r) Hb eq_refl). auto.
  - subst x. cbn [app peek hd]. auto.
Qed.
Lemma terminal_string m t cs s z k g : w_tmark m t -> w_string cs s -> w_ws z -> ix_ws (peek k) = false -> ix_quote (peek k) = false -> g_tmp g = Some [] ->
  parse_terminal (t ++ s ++ z ++ k) g = IOk (k, set_tmp (Some (map (fun c => (term_name c, c)) cs)) (set_mark m g)).
Proof.
  intros Ht Hs Hz K1 K2 Hg. unfold parse_terminal. destruct (literal_string m t cs s (z ++ k) Ht Hs) as (-> & ->). unfold parse_quoted.
  destruct (string_first cs s Hs) as (q & l & E & Hq).
  destruct (tmark_spec m t (s ++ z ++ k) Ht) as (T1 & T2); [subst s; cbn [app peek hd]; charb|subst s; cbn [app peek hd]; charb|]. rewrite T1, T2. cbn [ibind].
  rewrite (parse_string_spec cs); [|exact Hs|apply ws_then; [exact Hz|apply ws_not_quote|exact K2]]. cbn [ibind].
  rewrite (add_tmp_all_spec cs _ []) by (destruct g; exact Hg). cbn [ibind]. rewrite parse_ws_spec by assumption. reflexivity.
Qed.
Lemma terminal_hex m t c s z k g : w_tmark m t -> w_hex c s -> w_ws z -> ix_ws (peek k) = false -> ix_hex (peek k) = false -> g_tmp g = Some [] ->
  parse_terminal (t ++ s ++ z ++ k) g = IOk (k, set_tmp (Some [(term_name c, c)]) (set_mark m g)).
Proof.
  intros Ht Hs Hz K1 K2 Hg. unfold parse_terminal. destruct (literal_hex m t c s (z ++ k) Ht Hs) as (-> & ->). unfold parse_encoded_terminal.
  rewrite (parse_encoded_spec m t c) by assumption. cbn [ibind]. unfold add_tmp. replace (g_tmp (set_mark m g)) with (Some (@nil (bytes * Z))) by (destruct g; symmetry; exact Hg). reflexivity.
Qed.
Lemma set_fits_name tm ex ms : set_fits tm ex ms = true -> charset_name (ICharset ex (set_parts ms)) tm = IOk (set_name tm ex ms).
Proof. unfold set_fits, charset_name, set_name. intros ->. reflexivity. Qed.
Lemma terminal_set m t (ex : bool) x z1 ms s l nts ts i st tmp gen mark rd r : w_tmark m t -> set_open ex x -> w_ws z1 -> w_members ms s -> set_fits m ex ms = true -> (i < length l)%nat ->
  parse_terminal (t ++ x ++ 91 :: z1 ++ s ++ 93 :: r) (Gst l (Some i) st nts ts tmp gen mark rd) =
  IOk (r, Gst (upd i (add_rhs [ITerm m (set_name m ex ms)]) l) (Some i) st (nts ++ [INonterm (set_name m ex ms) (Some (ICharset ex (set_parts ms)))]) ts tmp gen (if existsb member_hex ms then 0 else mark) rd).
Proof.
  intros Ht Hx Hz Hs Hfit Hi. unfold parse_terminal. destruct (literal_set m t ex x (z1 ++ s ++ 93 :: r) Ht Hx) as (-> & ->). unfold parse_charset.
  destruct (tmark_spec m t (x ++ 91 :: z1 ++ s ++ 93 :: r) Ht) as (T1 & T2).
  { destruct ex; cbn [set_open] in Hx; [destruct Hx as (b & -> & _)|subst x]; reflexivity. }
  { destruct ex; cbn [set_open] in Hx; [destruct Hx as (b & -> & _)|subst x]; reflexivity. }
  rewrite T1, T2. cbn [ibind]. cbv zeta.
  assert (E : (peek (x ++ 91 :: z1 ++ s ++ 93 :: r) =? 126) = ex) by (destruct ex; cbn [set_open] in Hx; [destruct Hx as (b & -> & _)|subst x]; reflexivity). rewrite E.
  assert (E2 : (if ex then parse_ws (tl (x ++ 91 :: z1 ++ s ++ 93 :: r)) else IOk (x ++ 91 :: z1 ++ s ++ 93 :: r)) = IOk (91 :: z1 ++ s ++ 93 :: r)).
  { destruct ex; cbn [set_open] in Hx; [destruct Hx as (b & -> & Hb)|subst x; reflexivity]. cbn [app tl]. apply parse_ws_spec; [now apply blanks_ws|reflexivity]. }
  rewrite E2. cbn [ibind peek hd]. change (91 =? 91) with true. cbn [negb tl]. destruct (members_first ms s r Hs) as (W & _). rewrite parse_ws_spec by assumption. cbn [ibind].
  rewrite (parts_loop_spec ms s Hs) by (rewrite app_length; lia). cbn [ibind]. rewrite set_fits_name by exact Hfit. cbn [ibind]. unfold members_mark.
  destruct (existsb member_hex ms); gsimp; (rewrite add_here by exact Hi); reflexivity.
Qed.
Lemma encode_all_spec cs : Forall char_ok cs -> encode_all cs = IOk (utf8 cs).
Proof.
  induction 1 as [|c cs Hc Hcs IH]; [reflexivity|]. cbn [encode_all]. destruct (char_n c Hc) as (C1 & C2).
  replace (encode_utf8 c) with (Some (utf8_spec (Z.to_N c))); [rewrite IH; reflexivity|]. rewrite <- C2 at 2. symmetry. apply encode_matches_spec. lia.
Qed.

Lemma factor_first f s : w_factor f s -> exists c r, s = c :: r /\ ix_alt_start c = true.
Proof.
  assert (X : forall m t s, w_tmark m t -> (exists c r, s = c :: r /\ ix_alt_start c = true) -> exists c r, t ++ s = c :: r /\ ix_alt_start c = true).
  { intros m t s0 Ht (c & r & -> & Hc). destruct (w_tmark_cases m t Ht) as [(_ & ->)|(b & -> & Hm & _)]; [exists c, r; auto|]. exists m, (b ++ c :: r). split; [reflexivity|charb]. }
  destruct 1 as [tm cs t s z Ht Hs Hz|tm c t s z Ht Hs Hz|tm ex ms t x z1 s z2 Ht Hx Hz1 Hs Hz2|m n al t s Ht Hs|cs z1 s z2 Hz1 Hs Hz2|a z1 s z2 Hne Hz1 Hs Hz2|z1 z2 Hz1 Hz2].
  - apply (X tm); [exact Ht|]. destruct (string_first cs s Hs) as (q & l & -> & Hq). exists q, (l ++ z). split; [reflexivity|charb].
  - apply (X tm); [exact Ht|]. destruct (hex_first c s Hs) as (l & ->). exists 35, (l ++ z). split; reflexivity.
  - apply (X tm); [exact Ht|]. destruct ex; [destruct Hx as (b & -> & _)|subst x]; eexists _, _; (split; [reflexivity|reflexivity]).
  - assert (N1 : exists c r, s = c :: r /\ ix_name_start c = true).
    { destruct Hs as [n z Hn _|n a z1 z2 z3 Hn _ _ _ _]; destruct (name_first n Hn) as (c & l & -> & Hc); eexists _, _; (split; [reflexivity|exact Hc]). }
    destruct N1 as (c & r & -> & Hc). destruct (w_mark_cases m t Ht) as [(_ & ->)|(b & -> & Hm & _)]; eexists _, _; (split; [reflexivity|]); charb.
  - eexists _, _. split; reflexivity.
  - eexists _, _. split; reflexivity.
  - eexists _, _. split; reflexivity.
Qed.
Lemma naming_starts m n al t s r : w_mark m t -> w_naming n al s -> terminal_start (t ++ s ++ r) = false /\ ix_naming (peek (t ++ s ++ r)) = true.
Proof.
  intros Ht Hs. assert (N1 : exists c l, s ++ r = c :: l /\ ix_name_start c = true).
  { destruct Hs as [n z Hn _|n a z1 z2 z3 Hn _ _ _ _]; destruct (name_first n Hn) as (c & l & -> & Hc); eexists _, _; (split; [reflexivity|exact Hc]). }
  destruct N1 as (c & l & E & Hc). rewrite E. unfold terminal_start, literal_start, quoted_start, encoded_start, charset_start.
  assert (X : forall c l, ix_name_start c = true \/ c = 64 -> (peek (c :: l) =? cHASH) || (ix_quote (peek (c :: l)) || (peek (c :: l) =? cHASH))
     || (peek (drop_while ix_ws (if peek (c :: l) =? 126 then tl (c :: l) else c :: l)) =? 91) = false).
  { intros d k Hd. cbn [peek hd tl]. replace (d =? 126) with false by (destruct Hd as [Hd| ->]; [charb|reflexivity]). cbn [drop_while]. replace (ix_ws d) with false by (destruct Hd as [Hd| ->]; [charb|reflexivity]).
    cbn [peek hd]. destruct Hd as [Hd| ->]; [charb|reflexivity]. }
  destruct (w_mark_cases m t Ht) as [(-> & ->)|(b & -> & Hm & Hb)].
  - cbn [app]. assert (Es : skip_tmark (c :: l) = c :: l) by (unfold skip_tmark; cbn [peek hd]; replace (ix_tmark c) with false by charb; reflexivity). rewrite Es.
    split; [apply X; auto|]. cbn [peek hd]. charb.
  - split; [|cbn [app peek hd]; charb]. destruct (ix_tmark m) eqn:Em.
    + assert (Es : skip_tmark ((m :: b) ++ c :: l) = c :: l). { unfold skip_tmark. cbn [app peek hd tl]. rewrite Em. apply drop_blanks; [exact Hb|cbn [peek hd]; charb]. }
      rewrite Es. apply X; auto.
    + assert (Es : skip_tmark ((m :: b) ++ c :: l) = m :: b ++ c :: l). { unfold skip_tmark. cbn [app peek hd tl]. now rewrite Em. }
      rewrite Es. apply X. right. charb.
Qed.

Lemma factor_adds f gen mark : adds f = true -> exists t, o_ts (b_factor f gen mark) = [t].
Proof. destruct f as [tm [|c [|c2 cs]]| | | | | |]; intros H; try discriminate H; cbn [b_factor o_ts]; eauto. Qed.
Definition p_factor (f : factor) (s : bytes) : Prop := ok_factor f = true -> forall k g i, ready i g -> after_factor (peek k) ->
  exists n, forall fuel, (n <= fuel)%nat -> parse_factor fuel (s ++ k) g = IOk (k, app_out i (b_factor f (g_gen g) (g_mark g)) g).
Definition after_term (c : N) : Prop := c = 44 \/ c = 59 \/ c = 124 \/ c = 46 \/ c = 41.
Definition p_term (t : term) (s : bytes) : Prop := ok_term t = true -> forall k g i, ready i g -> after_term (peek k) ->
  exists n, forall fuel, (n <= fuel)%nat -> parse_term fuel (s ++ k) g = IOk (k, app_out i (b_term t (g_gen g) (g_mark g)) g).
Definition after_alt (c : N) : Prop := c = 59 \/ c = 124 \/ c = 46 \/ c = 41.
Definition p_alt (a : alt) (s : bytes) : Prop := ok_alt a = true -> forall k g i, ready i g -> after_alt (peek k) ->
  exists n, forall fuel, (n <= fuel)%nat -> parse_alt fuel (s ++ k) g = IOk (k, app_out i (b_alt a (g_gen g) (g_mark g)) g).
Definition after_alts (c : N) : Prop := c = 46 \/ c = 41.
Definition p_alts (a : alts) (s : bytes) : Prop := ok_alts a = true -> forall k g i r, ready i g -> nth_error (g_rules g) i = Some r -> after_alts (peek k) ->
  exists n j, forall fuel, (n <= fuel)%nat -> parse_alts fuel (s ++ k) g = IOk (k, set_cur (Some j) (app_out i (b_alts (r_name r) (r_mark r) a (g_gen g) (g_mark g)) g)).

Lemma terminal_factor_start s : literal_start s = true \/ charset_start s = true -> terminal_start s = true /\ factor_start s = true.
Proof. unfold factor_start, terminal_start. intros [-> | ->]; rewrite ?orb_true_r; auto. Qed.
Lemma g_eta i g : ready i g -> g = Gst (g_rules g) (Some i) (g_stack g) (g_nts g) (g_terms g) None (g_gen g) (g_mark g) (g_read g).
Proof. intros (H1 & _ & H3). destruct g. cbn in *. now subst. Qed.
Lemma string_factor tm cs t s z k g i : w_tmark tm t -> w_string cs s -> w_ws z -> ready i g -> after_factor (peek k) ->
  terminal_factor (t ++ s ++ z ++ k) g = IOk (k, app_out i (b_factor (FStr tm cs) (g_gen g) (g_mark g)) g).
Proof.
  intros Ht Hs Hz Hg Hk. destruct (after_factor_facts _ Hk) as (K1 & K2 & K3 & _). pose proof Hg as (G1 & G2 & G3). rewrite (g_eta i g Hg). unfold terminal_factor, alloc_tmp. gsimp.
  rewrite (terminal_string tm t cs) by (assumption || reflexivity). gsimp. destruct cs as [|c1 [|c2 cs]].
  - cbn [map ibind]. unfold app_out. cbn [b_factor o_ts o_new o_nts o_codes o_gen o_mark g_rules g_stack g_nts g_terms g_gen g_mark g_read]. rewrite !app_nil_r. rewrite upd_id by apply add_rhs_nil. reflexivity.
  - pose proof (add_tmps_at tm [c1] (g_rules g) [] i (g_stack g) (g_nts g) (g_terms g) (Some [(term_name c1, c1)]) (g_gen g) tm (g_read g) G2) as X. rewrite !app_nil_r in X. cbn [map] in *. rewrite X. cbn [ibind].
    unfold app_out. gsimp. cbn [b_factor o_ts o_new o_nts o_codes o_gen o_mark]. rewrite !app_nil_r. reflexivity.
  - cbn [map]. cbv iota beta zeta. rewrite add_here by exact G2. gsimp. rewrite (add_tmps_last tm (c1 :: c2 :: cs)). gsimp. unfold app_out. gsimp.
    cbn [b_factor o_ts o_new o_nts o_codes o_gen o_mark]. reflexivity.
Qed.
Lemma hex_factor tm c t s z k g i : w_tmark tm t -> w_hex c s -> w_ws z -> ready i g -> after_factor (peek k) ->
  terminal_factor (t ++ s ++ z ++ k) g = IOk (k, app_out i (b_factor (FHex tm c) (g_gen g) (g_mark g)) g).
Proof.
  intros Ht Hs Hz Hg Hk. destruct (after_factor_facts _ Hk) as (K1 & K2 & K3 & _). pose proof Hg as (G1 & G2 & G3). rewrite (g_eta i g Hg). unfold terminal_factor, alloc_tmp. gsimp.
  rewrite (terminal_hex tm t c) by (assumption || reflexivity). gsimp.
  pose proof (add_tmps_at tm [c] (g_rules g) [] i (g_stack g) (g_nts g) (g_terms g) (Some [(term_name c, c)]) (g_gen g) tm (g_read g) G2) as X. rewrite !app_nil_r in X. cbn [map] in *. rewrite X. cbn [ibind].
  unfold app_out. gsimp. cbn [b_factor o_ts o_new o_nts o_codes o_gen o_mark]. rewrite !app_nil_r. reflexivity.
Qed.

Lemma fuel_1 (P : nat -> Prop) n : (forall f, (n <= f)%nat -> P (S f)) -> exists m, forall fuel, (m <= fuel)%nat -> P fuel.
Proof. intros H. exists (S n). intros [|f] Hf; [lia|]. apply H. lia. Qed.
Lemma after_term_factor c : after_term c -> after_factor c. Proof. unfold after_term, after_factor. tauto. Qed.
Lemma after_alt_term c : after_alt c -> after_term c. Proof. unfold after_term, after_alt. tauto. Qed.
Lemma after_alts_alt c : after_alts c -> after_alt c. Proof. unfold after_alts, after_alt. tauto. Qed.
Lemma alt_start_not_ws c : ix_alt_start c = true -> ix_ws c = false. Proof. charb. Qed.
Lemma term_first t s : w_term t s -> exists c r, s = c :: r /\ ix_alt_start c = true.
Proof.
  assert (X : forall f s r, w_factor f s -> exists c l, s ++ r = c :: l /\ ix_alt_start c = true).
  { intros f0 s0 r H. destruct (factor_first f0 s0 H) as (c & l & -> & Hc). exists c, (l ++ r). auto. }
  destruct 1; try (eapply X; eassumption). eapply factor_first; eassumption.
Qed.
Lemma alt_first a s : w_alt a s -> exists c r, s = c :: r /\ ix_alt_start c = true.
Proof.
  destruct 1 as [t s H|t a s z r H Hz Ha]; destruct (term_first t s H) as (c & l & -> & Hc); eexists _, _; (split; [reflexivity|exact Hc]).
Qed.
Lemma alts_first a s : w_alts a s -> starts_empty a = false -> exists c r, s = c :: r /\ ix_alt_start c = true.
Proof.
  destruct 1 as [a s H| |a r s c z t H Hc Hz Hr|r z t Hz Hr]; intros Hn; try discriminate.
  - now apply alt_first in H.
  - destruct (alt_first a s H) as (x & l & -> & Hx). eexists _, _. split; [reflexivity|exact Hx].
Qed.
Lemma alts_peek a s k : w_alts a s -> after_alts (peek k) -> ix_ws (peek (s ++ k)) = false.
Proof.
  intros H Hk. destruct H as [a s H| |a r s c z t H Hc Hz Hr|r z t Hz Hr].
  - destruct (alt_first a s H) as (x & l & -> & Hx). cbn [app peek hd]. now apply alt_start_not_ws.
  - cbn [app]. destruct Hk as [-> | ->]; reflexivity.
  - destruct (alt_first a s H) as (x & l & -> & Hx). cbn [app peek hd]. now apply alt_start_not_ws.
  - reflexivity.
Qed.
Lemma ws_not_char c d : ix_ws c = true -> ix_ws d = false -> (c =? d) = false.
Proof. intros Hc Hd. destruct (N.eqb_spec c d) as [-> |]; [congruence|reflexivity]. Qed.

Lemma written : (forall f s, w_factor f s -> p_factor f s) /\ (forall t s, w_term t s -> p_term t s) /\ (forall a s, w_alt a s -> p_alt a s) /\ (forall a s, w_alts a s -> p_alts a s).
Proof.
  apply written_ind.
  - intros tm cs t s z Ht Hs Hz Ho k g i Hg Hk. apply (fuel_1 _ 0). intros f _. rewrite <- !app_assoc. cbn [parse_factor].
    destruct (literal_string tm t cs s (z ++ k) Ht Hs) as (L & _). destruct (terminal_factor_start _ (or_introl L)) as (T & F). rewrite F, T. cbn [negb].
    rewrite (string_factor tm cs t s z k g i) by assumption. cbn [ibind]. rewrite parse_ws_id by now apply after_factor_facts. reflexivity.
  - intros tm c t s z Ht Hs Hz Ho k g i Hg Hk. apply (fuel_1 _ 0). intros f _. rewrite <- !app_assoc. cbn [parse_factor].
    destruct (literal_hex tm t c s (z ++ k) Ht Hs) as (L & _). destruct (terminal_factor_start _ (or_introl L)) as (T & F). rewrite F, T. cbn [negb].
    rewrite (hex_factor tm c t s z k g i) by assumption. cbn [ibind]. rewrite parse_ws_id by now apply after_factor_facts. reflexivity.
  - intros tm ex ms t x z1 s z2 Ht Hx Hz1 Hs Hz2 Ho k g i Hg Hk. apply (fuel_1 _ 0). intros f _. rewrite <- !app_assoc. change (B "[") with [91]. change (B "]") with [93]. cbn [app parse_factor].
    destruct (literal_set tm t ex x (z1 ++ s ++ 93 :: z2 ++ k) Ht Hx) as (_ & C). destruct (terminal_factor_start _ (or_intror C)) as (T & F). rewrite F, T. cbn [negb].
    pose proof Hg as (G1 & G2 & G3). rewrite (g_eta i g Hg) at 1. unfold terminal_factor, alloc_tmp. gsimp. rewrite (terminal_set tm t ex x z1 ms s) by assumption. gsimp.
    rewrite parse_ws_spec; [|exact Hz2|now apply after_factor_facts]. cbn [ibind]. unfold app_out. cbn [b_factor o_ts o_new o_nts o_codes o_gen o_mark]. rewrite !app_nil_r. reflexivity.
  - intros m n al t s Ht Hs Ho k g i Hg Hk. apply (fuel_1 _ 0). intros f _. rewrite <- !app_assoc. cbn [parse_factor].
    destruct (naming_starts m n al t s k Ht Hs) as (T & Np). unfold factor_start. rewrite T, Np. cbn [orb negb].
    rewrite (parse_naming_spec m n al) by (try assumption; now apply after_factor_facts). cbn [ibind].
    pose proof Hg as (G1 & G2 & G3). rewrite (g_eta i g Hg) at 1. gsimp. rewrite add_here by exact G2. cbn [ibind]. rewrite parse_ws_id by now apply after_factor_facts. cbn [ibind].
    unfold app_out. cbn [b_factor o_ts o_new o_nts o_codes o_gen o_mark]. rewrite !app_nil_r. reflexivity.
  - intros cs z1 s z2 Hz1 Hs Hz2 Ho k g i Hg Hk. apply (fuel_1 _ 0). intros f _. rewrite <- !app_assoc. change (B "+") with [43]. cbn [app parse_factor].
    assert (E : forall r, factor_start (43 :: r) = true /\ terminal_start (43 :: r) = false) by (intros r; split; reflexivity). destruct (E (z1 ++ s ++ z2 ++ k)) as (E1 & E2). rewrite E1, E2.
    cbn [negb peek hd]. change (ix_naming 43) with false. change (43 =? 43) with true. cbn iota. unfold parse_insertion. cbn [tl].
    destruct (string_first cs s Hs) as (q & l & Es & Hq). assert (Pq : ix_quote (peek (s ++ z2 ++ k)) = true) by (subst s; exact Hq).
    rewrite parse_ws_spec; [|exact Hz1|revert Pq; generalize (peek (s ++ z2 ++ k)); intros; charb]. cbn [ibind]. rewrite Pq.
    rewrite (parse_string_spec cs); [|exact Hs|apply ws_then; [exact Hz2|apply ws_not_quote|now apply after_factor_facts]]. cbn [ibind].
    rewrite encode_all_spec by (destruct Hs as [q' cs' Hq' Hcs]; exact Hcs). cbn [ibind]. unfold add_insertion. cbv zeta.
    pose proof Hg as (G1 & G2 & G3). gsimp. rewrite G1, G3. rewrite add_at by exact G2. cbn [ibind]. rewrite parse_ws_spec; [|exact Hz2|now apply after_factor_facts]. cbn [ibind].
    unfold app_out. cbn [b_factor o_ts o_new o_nts o_codes o_gen o_mark]. reflexivity.
  - intros a z1 s z2 Hne Hz1 Hs IH Hz2 Ho k g i Hg Hk. pose proof Hg as (G1 & G2 & G3).
    set (g1 := Gst (upd i (add_rhs [ITerm cMINUS (gname (g_gen g))]) (g_rules g) ++ [IRule (gname (g_gen g)) None cMINUS []]) (Some (length (g_rules g)))
                 (Some i :: g_stack g) (g_nts g ++ [nonterm (gname (g_gen g))]) (g_terms g) None (g_gen g + 1) (g_mark g) (g_read g)).
    assert (Ln : length (g_rules g) = length (upd i (add_rhs [ITerm cMINUS (gname (g_gen g))]) (g_rules g))) by now rewrite upd_length.
    assert (R1 : ready (length (g_rules g)) g1). { split; [reflexivity|]. split; [|reflexivity]. cbn [g1 g_rules]. rewrite app_length, upd_length. cbn [length]. lia. }
    assert (Nt : nth_error (g_rules g1) (length (g_rules g)) = Some (IRule (gname (g_gen g)) None cMINUS [])).
    { cbn [g1 g_rules]. rewrite Ln, nth_error_app2, Nat.sub_diag by lia. reflexivity. }
    destruct (IH Ho (41 :: z2 ++ k) g1 (length (g_rules g)) _ R1 Nt (or_intror eq_refl)) as (n & j & H). exists (S (S n)). intros [|[|f]] Hf; [lia|lia|]. specialize (H f ltac:(lia)).
    rewrite <- !app_assoc. change (B "(") with [40]. change (B ")") with [41]. cbn [app].
    change (parse_factor (S (S f)) (40 :: z1 ++ s ++ 41 :: z2 ++ k) g) with (ido (s, g) <- parse_group (S f) (40 :: z1 ++ s ++ 41 :: z2 ++ k) g; ido s <- parse_ws s; IOk (s, g)).
    destruct (alts_first a s Hs Hne) as (c & l & Es & Hc).
    assert (Pc : ix_alt_start (peek (s ++ 41 :: z2 ++ k)) = true) by (subst s; exact Hc).
    cbn [parse_group tl]. rewrite parse_ws_spec; [|exact Hz1|now apply alt_start_not_ws]. cbn [ibind]. rewrite Pc. rewrite (g_eta i g Hg) at 1. gsimp.
    rewrite add_here by exact G2. gsimp. rewrite upd_length. change (INonterm (gname (g_gen g)) None) with (nonterm (gname (g_gen g))). fold g1. rewrite H. unfold app_out, g1. gsimp.
    change (peek (41 :: z2 ++ k) =? cRP) with true. cbn [negb tl]. rewrite parse_ws_spec; [|exact Hz2|now apply after_factor_facts]. cbn [ibind]. rewrite parse_ws_id by now apply after_factor_facts. cbn [ibind].
    unfold app_out, g1. cbn [b_factor o_ts o_new o_nts o_codes o_gen o_mark g_rules g_stack g_nts g_terms g_gen g_mark g_read r_name r_mark]. rewrite Ln at 1. rewrite upd_last. rewrite <- !app_assoc. reflexivity.
  - intros z1 z2 Hz1 Hz2 Ho k g i Hg Hk. exists 2%nat. intros [|[|f]] Hf; [lia|lia|]. rewrite <- !app_assoc. change (B "(") with [40]. change (B ")") with [41]. cbn [app].
    change (parse_factor (S (S f)) (40 :: z1 ++ 41 :: z2 ++ k) g) with (ido (s, g) <- parse_group (S f) (40 :: z1 ++ 41 :: z2 ++ k) g; ido s <- parse_ws s; IOk (s, g)).
    cbn [parse_group tl]. rewrite parse_ws_spec; [|exact Hz1|reflexivity]. cbn [ibind]. change (ix_alt_start (peek (41 :: z2 ++ k))) with false. change (peek (41 :: z2 ++ k) =? cRP) with true. cbn [negb ibind].
    change (peek (41 :: z2 ++ k) =? cRP) with true. cbn [negb tl]. rewrite parse_ws_spec; [|exact Hz2|now apply after_factor_facts]. cbn [ibind]. rewrite parse_ws_id by now apply after_factor_facts. cbn [ibind].
    change (b_factor FEmpty (g_gen g) (g_mark g)) with (Bout [] [] [] [] (g_gen g) (g_mark g)). now rewrite out_nil.
  - (* one *) intros f s Hs IH Ho k g i Hg Hk. destruct (IH Ho k g i Hg (after_term_factor _ Hk)) as (n & H). apply (fuel_1 _ n). intros fu Hf. cbn [parse_term]. rewrite H by exact Hf. cbn [ibind].
    replace (peek k =? cQM) with false by (unfold after_term in Hk; charb). replace ((peek k =? cSTAR) || (peek k =? 43)) with false by (unfold after_term in Hk; charb). cbn [ibind].
    rewrite parse_ws_id by now apply after_factor_facts, after_term_factor. reflexivity.
  - (* ? *) intros f s z Hs IH Hz Ho k g i Hg Hk. cbn [ok_term] in Ho. apply andb_true_iff in Ho as (Ha & Ho). change (B "?") with [63]. rewrite <- !app_assoc. cbn [app].
    destruct (IH Ho (63 :: z ++ k) g i Hg) as (n & H); [cbn [peek hd]; unfold after_factor; tauto|]. apply (fuel_1 _ n). intros fu Hf. cbn [parse_term]. rewrite H by exact Hf. cbn [ibind peek hd tl].
    change (63 =? cQM) with true. cbn iota. assert (W : ix_ws (peek k) = false) by now apply after_factor_facts, after_term_factor. rewrite parse_ws_spec by assumption. cbn [ibind].
    destruct (factor_adds f (g_gen g) (g_mark g) Ha) as (t & E). rewrite (optional_spec i _ g t) by assumption. cbn [ibind]. rewrite parse_ws_id by exact W. reflexivity.
  - (* * *) intros f s z Hs IH Hz Ho k g i Hg Hk. cbn [ok_term] in Ho. apply andb_true_iff in Ho as (Ha & Ho). change (B "*") with [42]. rewrite <- !app_assoc. cbn [app].
    destruct (IH Ho (42 :: z ++ k) g i Hg) as (n & H); [cbn [peek hd]; unfold after_factor; tauto|]. apply (fuel_1 _ n). intros fu Hf. cbn [parse_term]. rewrite H by exact Hf. cbn [ibind peek hd tl].
    change (42 =? cQM) with false. change ((42 =? cSTAR) || (42 =? 43)) with true. cbn iota zeta. assert (W : ix_ws (peek k) = false) by now apply after_factor_facts, after_term_factor.
    assert (Nz : (42 =? peek (z ++ k)) = false). { rewrite N.eqb_sym. apply (ws_then (fun c => c =? 42)); [exact Hz|intros; now apply ws_not_char|unfold after_term in Hk; charb]. }
    fold (peek (z ++ k)). rewrite Nz. change (42 =? 43) with false. cbn iota. 
    destruct (factor_adds f (g_gen g) (g_mark g) Ha) as (t & E). change (g_mark (app_out i (b_factor f (g_gen g) (g_mark g)) g)) with (o_mark (b_factor f (g_gen g) (g_mark g))).
    rewrite (repeat_zero_spec i _ g t) by assumption. cbn [ibind]. rewrite parse_ws_spec by assumption. cbn [ibind]. rewrite parse_ws_id by exact W. reflexivity.
  - (* + *) intros f s z Hs IH Hz Ho k g i Hg Hk. cbn [ok_term] in Ho. apply andb_true_iff in Ho as (Ha & Ho). change (B "+") with [43]. rewrite <- !app_assoc. cbn [app].
    destruct (IH Ho (43 :: z ++ k) g i Hg) as (n & H); [cbn [peek hd]; unfold after_factor; tauto|]. apply (fuel_1 _ n). intros fu Hf. cbn [parse_term]. rewrite H by exact Hf. cbn [ibind peek hd tl].
    change (43 =? cQM) with false. change ((43 =? cSTAR) || (43 =? 43)) with true. cbn iota zeta. assert (W : ix_ws (peek k) = false) by now apply after_factor_facts, after_term_factor.
    assert (Nz : (43 =? peek (z ++ k)) = false). { rewrite N.eqb_sym. apply (ws_then (fun c => c =? 43)); [exact Hz|intros; now apply ws_not_char|unfold after_term in Hk; charb]. }
    fold (peek (z ++ k)). rewrite Nz. change (43 =? 43) with true. cbn iota. 
    destruct (factor_adds f (g_gen g) (g_mark g) Ha) as (t & E). change (g_mark (app_out i (b_factor f (g_gen g) (g_mark g)) g)) with (o_mark (b_factor f (g_gen g) (g_mark g))).
    rewrite (repeat_spec i _ g t) by assumption. cbn [ibind]. rewrite parse_ws_spec by assumption. cbn [ibind]. rewrite parse_ws_id by exact W. reflexivity.
  - (* ** *) intros f g0 s z r Hs IH Hz Hr IHr Ho k g i Hg Hk. cbn [ok_term] in Ho. apply andb_true_iff in Ho as (Ho & Hor). apply andb_true_iff in Ho as (Ha & Ho). apply andb_true_iff in Hor as (Har & Hor).
    change (B "**") with [42; 42]. rewrite <- !app_assoc. cbn [app]. set (o := b_factor f (g_gen g) (g_mark g)) in *.
    destruct (IH Ho (42 :: 42 :: z ++ r ++ k) g i Hg) as (n & H); [cbn [peek hd]; unfold after_factor; tauto|].
    destruct (IHr Hor k (app_out i o g) i (ready_out i o g Hg) (after_term_factor _ Hk)) as (n2 & H2).
    apply (fuel_1 _ (n + n2)). intros fu Hf. cbn [parse_term]. rewrite H by lia. cbn [ibind peek hd tl].
    change (42 =? cQM) with false. change ((42 =? cSTAR) || (42 =? 43)) with true. cbn iota zeta. change (42 =? 42) with true. change (42 =? 43) with false. cbn iota. assert (W : ix_ws (peek k) = false) by now apply after_factor_facts, after_term_factor.
    destruct (factor_first g0 r Hr) as (c & l & Er & Hc). rewrite parse_ws_spec; [|exact Hz|subst r; cbn [app peek hd]; now apply alt_start_not_ws]. cbn [ibind]. rewrite H2 by lia. cbn [ibind]. fold o. rewrite out_seq by exact Hg.
    set (p := b_factor g0 (o_gen o) (o_mark o)). change (b_factor g0 (g_gen (app_out i o g)) (g_mark (app_out i o g))) with p.
    destruct (factor_adds f (g_gen g) (g_mark g) Ha) as (t1 & E1). destruct (factor_adds g0 (o_gen o) (o_mark o) Har) as (t2 & E2).
    change (g_mark (app_out i o g)) with (o_mark o). change (g_mark (app_out i (b_seq o p) g)) with (o_mark p).
    rewrite (repeat_zero_infix_spec i o p g t1 t2) by assumption. cbn [ibind]. rewrite parse_ws_id by exact W. cbn [ibind]. rewrite parse_ws_id by exact W. reflexivity.
  - (* ++ *) intros f g0 s z r Hs IH Hz Hr IHr Ho k g i Hg Hk. cbn [ok_term] in Ho. apply andb_true_iff in Ho as (Ho & Hor). apply andb_true_iff in Ho as (Ha & Ho). apply andb_true_iff in Hor as (Har & Hor).
    change (B "++") with [43; 43]. rewrite <- !app_assoc. cbn [app]. set (o := b_factor f (g_gen g) (g_mark g)) in *.
    destruct (IH Ho (43 :: 43 :: z ++ r ++ k) g i Hg) as (n & H); [cbn [peek hd]; unfold after_factor; tauto|].
    destruct (IHr Hor k (app_out i o g) i (ready_out i o g Hg) (after_term_factor _ Hk)) as (n2 & H2).
    apply (fuel_1 _ (n + n2)). intros fu Hf. cbn [parse_term]. rewrite H by lia. cbn [ibind peek hd tl].
    change (43 =? cQM) with false. change ((43 =? cSTAR) || (43 =? 43)) with true. cbn iota zeta. change (43 =? 43) with true. cbn iota. assert (W : ix_ws (peek k) = false) by now apply after_factor_facts, after_term_factor.
    destruct (factor_first g0 r Hr) as (c & l & Er & Hc). rewrite parse_ws_spec; [|exact Hz|subst r; cbn [app peek hd]; now apply alt_start_not_ws]. cbn [ibind]. rewrite H2 by lia. cbn [ibind]. fold o. rewrite out_seq by exact Hg.
    set (p := b_factor g0 (o_gen o) (o_mark o)). change (b_factor g0 (g_gen (app_out i o g)) (g_mark (app_out i o g))) with p.
    destruct (factor_adds f (g_gen g) (g_mark g) Ha) as (t1 & E1). destruct (factor_adds g0 (o_gen o) (o_mark o) Har) as (t2 & E2).
    change (g_mark (app_out i o g)) with (o_mark o). change (g_mark (app_out i (b_seq o p) g)) with (o_mark p).
    rewrite (repeat_infix_spec i o p g t1 t2) by assumption. cbn [ibind]. rewrite parse_ws_id by exact W. cbn [ibind]. rewrite parse_ws_id by exact W. reflexivity.
  - (* one term *) intros t s Hs IH Ho k g i Hg Hk. cbn [ok_alt] in Ho. rewrite andb_true_r in Ho. destruct (IH Ho k g i Hg (after_alt_term _ Hk)) as (n & H). apply (fuel_1 _ n). intros fu Hf. cbn [parse_alt].
    destruct (term_first t s Hs) as (c & l & Es & Hc). assert (P : ix_alt_start (peek (s ++ k)) = true) by (subst s; exact Hc). rewrite P. cbn [negb]. rewrite H by exact Hf. cbn [ibind].
    rewrite parse_ws_id by now apply after_factor_facts, after_term_factor, after_alt_term. cbn [ibind]. replace (ix_alt_end (peek k) || (peek k =? cRP) || (peek k =? cDOT)) with true by (unfold after_alt in Hk; charb).
    cbn [b_alt]. do 2 f_equal. unfold b_seq. cbn [o_ts o_new o_nts o_codes o_gen o_mark]. rewrite !app_nil_r. destruct (b_term t (g_gen g) (g_mark g)). reflexivity.
  - (* more terms *) intros t a s z r Hs IH Hz Ha IHa Ho k g i Hg Hk. cbn [ok_alt] in Ho. apply andb_true_iff in Ho as (Ho & Hoa). change (B ",") with [44]. rewrite <- !app_assoc. cbn [app].
    set (o := b_term t (g_gen g) (g_mark g)) in *. destruct (IH Ho (44 :: z ++ r ++ k) g i Hg) as (n & H); [left; reflexivity|].
    destruct (IHa Hoa k (app_out i o g) i (ready_out i o g Hg) Hk) as (n2 & H2). apply (fuel_1 _ (n + n2)). intros fu Hf. cbn [parse_alt].
    destruct (term_first t s Hs) as (c & l & Es & Hc). assert (P : ix_alt_start (peek (s ++ 44 :: z ++ r ++ k)) = true) by (subst s; exact Hc). rewrite P. cbn [negb]. rewrite H by lia. cbn [ibind].
    rewrite parse_ws_id by reflexivity. cbn [ibind peek hd tl]. change (ix_alt_end 44 || (44 =? cRP) || (44 =? cDOT)) with false. change (44 =? 44) with true. cbn iota.
    destruct (alt_first a r Ha) as (c2 & l2 & Er & Hc2). rewrite parse_ws_spec; [|exact Hz|subst r; cbn [app peek hd]; now apply alt_start_not_ws]. cbn [ibind]. rewrite H2 by lia. fold o. now rewrite out_seq.
  - (* one alternative *) intros a s Hs IH Ho k g i r0 Hg Hn Hk. destruct (IH Ho k g i Hg (after_alts_alt _ Hk)) as (n & H). exists (S n), i. intros [|fu] Hf; [lia|]. cbn [parse_alts].
    destruct (alt_first a s Hs) as (c & l & Es & Hc). assert (P : ix_alt_start (peek (s ++ k)) = true) by (subst s; exact Hc). assert (Pk : peek (s ++ k) = c) by (subst s; reflexivity).
    rewrite parse_ws_id by now apply alt_start_not_ws. cbn [ibind]. unfold eob. rewrite Pk. replace ((c =? 0) || (c =? cDOT) || (c =? cRP)) with false by charb. replace (c =? 124) with false by charb. rewrite Hc. cbn [negb].
    rewrite H by lia. cbn [ibind]. rewrite parse_ws_id by now apply after_factor_facts, after_term_factor, after_alt_term, after_alts_alt. cbn [ibind].
    replace ((peek k =? cDOT) || (peek k =? cRP)) with true by (unfold after_alts in Hk; charb). reflexivity.
  - (* none *) intros Ho k g i r0 Hg Hn Hk. exists 1%nat, i. intros [|fu] Hf; [lia|]. cbn [app parse_alts]. rewrite parse_ws_id by now apply after_factor_facts, after_term_factor, after_alt_term, after_alts_alt. cbn [ibind].
    replace (eob k || (peek k =? cDOT) || (peek k =? cRP)) with true by (unfold after_alts in Hk; charb). cbn [b_alts b_alt]. rewrite out_nil by exact Hg. unfold set_cur. destruct Hg as (G1 & G2 & G3). rewrite <- G1. destruct g. reflexivity.
  - (* more *) intros a r s c z t Hs IH Hc Hz Ht IHr Ho k g i r0 Hg Hn Hk. cbn [ok_alts] in Ho. apply andb_true_iff in Ho as (Ho & Hor). rewrite <- !app_assoc. cbn [app]. rewrite <- !app_assoc.
    set (o := b_alt a (g_gen g) (g_mark g)) in *. destruct (IH Ho (c :: z ++ t ++ k) g i Hg) as (n & H); [cbn [peek hd]; unfold sep in Hc; unfold after_alt; tauto|]. fold o in H.
    set (g1 := app_out i o g) in *. set (g2 := push_rule (r_name r0) (r_mark r0) g1).
    assert (R2 : ready (length (g_rules g1)) g2). { split; [reflexivity|]. split; [|reflexivity]. cbn [g2 push_rule set_cur set_rules g_rules]. rewrite app_length. cbn [length]. lia. }
    assert (N2 : nth_error (g_rules g2) (length (g_rules g1)) = Some (IRule (r_name r0) None (r_mark r0) [])).
    { cbn [g2 push_rule set_cur set_rules g_rules]. rewrite nth_error_app2, Nat.sub_diag by lia. reflexivity. }
    destruct (IHr Hor k g2 _ _ R2 N2 Hk) as (n2 & j & H2). exists (S (n + n2)), j. intros [|fu] Hf; [lia|]. cbn [parse_alts].
    destruct (alt_first a s Hs) as (d & l & Es & Hd). assert (P : ix_alt_start (peek (s ++ c :: z ++ t ++ k)) = true) by (subst s; exact Hd). assert (Pk : peek (s ++ c :: z ++ t ++ k) = d) by (subst s; reflexivity).
    rewrite parse_ws_id by now apply alt_start_not_ws. cbn [ibind]. unfold eob. rewrite Pk. replace ((d =? 0) || (d =? cDOT) || (d =? cRP)) with false by charb. replace (d =? 124) with false by charb. rewrite Hd. cbn [negb].
    rewrite H by lia. cbn [ibind]. rewrite parse_ws_id by (cbn [peek hd]; unfold sep in Hc; charb). cbn [ibind peek hd tl].
    replace ((c =? cDOT) || (c =? cRP)) with false by (unfold sep in Hc; charb). replace (ix_alt_end c) with true by (unfold sep in Hc; charb). cbn [negb].
    rewrite parse_ws_spec; [|exact Hz|now apply (alts_peek r)]. cbn [ibind]. change (g_cur g1) with (Some i). cbn iota.
    assert (N1 : nth_error (g_rules g1) i = Some (add_rhs (o_ts o) r0)). { cbn [g1 app_out g_rules]. destruct Hg as (G1 & G2 & G3). rewrite nth_error_app1 by (rewrite upd_length; exact G2). now apply nth_upd. }
    rewrite N1. cbn [add_rhs set_rhs r_name r_mark]. fold g2. rewrite H2 by lia. do 2 f_equal. cbn [r_name r_mark b_alts]. fold o.
    unfold set_cur, app_out. cbn [g2 push_rule set_cur set_rules g1 app_out g_rules g_stack g_nts g_terms g_gen g_mark g_read o_ts o_new o_nts o_codes o_gen o_mark].
    rewrite upd_last, <- !app_assoc. rewrite put_codes_app. reflexivity.
  - (* empty, more *) intros r z t Hz Ht IHr Ho k g i r0 Hg Hn Hk. cbn [ok_alts ok_alt andb] in Ho. change (B "|") with [124]. rewrite <- !app_assoc. cbn [app].
    set (g2 := push_rule (r_name r0) (r_mark r0) g). pose proof Hg as (G1 & G2 & G3).
    assert (R2 : ready (length (g_rules g)) g2). { split; [reflexivity|]. split; [|exact G3]. cbn [g2 push_rule set_cur set_rules g_rules]. rewrite app_length. cbn [length]. lia. }
    assert (N2 : nth_error (g_rules g2) (length (g_rules g)) = Some (IRule (r_name r0) None (r_mark r0) [])).
    { cbn [g2 push_rule set_cur set_rules g_rules]. rewrite nth_error_app2, Nat.sub_diag by lia. reflexivity. }
    destruct (IHr Ho k g2 _ _ R2 N2 Hk) as (n2 & j & H2). exists (S n2), j. intros [|fu] Hf; [lia|]. cbn [parse_alts].
    rewrite parse_ws_id by reflexivity. cbn [ibind peek hd tl]. change (eob (124 :: z ++ t ++ k) || (124 =? cDOT) || (124 =? cRP)) with false. cbn iota. change (124 =? 124) with true. cbn [ibind peek hd tl].
    change ((124 =? cDOT) || (124 =? cRP)) with false. change (ix_alt_end 124) with true. cbn [negb]. rewrite parse_ws_spec; [|exact Hz|now apply (alts_peek r)]. cbn [ibind]. rewrite G1. rewrite Hn. fold g2. rewrite H2 by lia.
    do 2 f_equal. cbn [r_name r_mark b_alts b_alt o_gen o_mark]. unfold set_cur, app_out. cbn [g2 push_rule set_cur set_rules g_rules g_stack g_nts g_terms g_gen g_mark g_read o_ts o_new o_nts o_codes o_gen o_mark].
    rewrite upd_last, <- !app_assoc. cbn [app]. rewrite upd_id by apply add_rhs_nil. reflexivity.
Qed.

(** ** Rules and grammars *)
Definition add_out (o : bout) (g : gst) : gst :=
  Gst (g_rules g ++ o_new o) (g_cur g) (g_stack g) (g_nts g ++ o_nts o) (put_codes (o_codes o) (g_terms g)) None (o_gen o) (o_mark o) (g_read g).
Lemma naming_first m n al t s : w_mark m t -> w_naming n al s -> exists c l, t ++ s = c :: l /\ ix_naming c = true.
Proof.
  intros Ht Hs. assert (N1 : exists c r, s = c :: r /\ ix_name_start c = true).
  { destruct Hs as [n z Hn _|n a z1 z2 z3 Hn _ _ _ _]; destruct (name_first n Hn) as (c & l & -> & Hc); eexists _, _; (split; [reflexivity|exact Hc]). }
  destruct N1 as (c & r & -> & Hc). destruct (w_mark_cases m t Ht) as [(_ & ->)|(b & -> & Hm & _)]; eexists _, _; (split; [reflexivity|]); charb.
Qed.
Lemma rule_first r s : w_rule r s -> exists c l, s = c :: l /\ ix_naming c = true.
Proof.
  destruct 1 as [m n al a t s c z1 z2 l Ht Hs Hc Hz1 Ha Hz2]. destruct (naming_first m n al t s Ht Hs) as (d & k & E & Hd). rewrite app_assoc, E. exists d. eexists. split; [reflexivity|exact Hd].
Qed.
Lemma rule_spec r s : w_rule r s -> ok_alts (ru_alts r) = true -> forall k g, g_tmp g = None -> ix_ws (peek k) = false ->
  exists n, forall fuel, (n <= fuel)%nat -> parse_rule fuel (s ++ k) g = IOk (k, add_out (b_rule r (g_gen g) (g_mark g)) g).
Proof.
  destruct 1 as [m n al a t s c z1 z2 l Ht Hs Hc Hz1 Ha Hz2]. cbn [ru_alts]. intros Ho k g Hg Hk.
  set (g1 := Gst (g_rules g ++ [IRule n al m []]) (Some (length (g_rules g))) (g_cur g :: g_stack g) (g_nts g) (g_terms g) None (g_gen g) (g_mark g) (g_read g)).
  assert (R1 : ready (length (g_rules g)) g1). { split; [reflexivity|]. split; [|reflexivity]. cbn [g1 g_rules]. rewrite app_length. cbn [length]. lia. }
  assert (N1 : nth_error (g_rules g1) (length (g_rules g)) = Some (IRule n al m [])). { cbn [g1 g_rules]. rewrite nth_error_app2, Nat.sub_diag by lia. reflexivity. }
  destruct (proj2 (proj2 (proj2 written)) a l Ha Ho (46 :: z2 ++ k) g1 _ _ R1 N1 (or_introl eq_refl)) as (f & j & H).
  exists f. intros fuel Hf. specialize (H fuel Hf). unfold parse_rule. change (B ".") with [46]. rewrite <- !app_assoc. cbn [app]. rewrite <- !app_assoc. cbn [app].
  rewrite (parse_naming_spec m n al); [|exact Ht|exact Hs|destruct Hc as [-> | ->]; repeat split; reflexivity]. gsimp. rewrite Hg. fold g1.
  rewrite parse_ws_id by (destruct Hc as [-> | ->]; reflexivity). cbn [ibind]. replace ((peek (c :: z1 ++ l ++ 46 :: z2 ++ k) =? cEQ) || (peek (c :: z1 ++ l ++ 46 :: z2 ++ k) =? cCOLON)) with true by (destruct Hc as [-> | ->]; reflexivity).
  cbn [negb tl]. rewrite parse_ws_spec; [|exact Hz1|apply (alts_peek a); [exact Ha|left; reflexivity]]. cbn [ibind]. rewrite H. unfold app_out, g1. gsimp.
  change (peek (46 :: z2 ++ k) =? cDOT) with true. cbn [negb tl]. rewrite parse_ws_spec by assumption. gsimp.
  unfold add_out. cbn [b_rule ru_name ru_mark ru_alts ru_alias o_new o_nts o_codes o_gen o_mark r_name r_mark]. rewrite upd_last, <- !app_assoc. reflexivity.
Qed.
Lemma add_out_seq o p g : add_out p (add_out o g) = add_out (b_seq o p) g.
Proof. unfold add_out. cbn [b_seq o_new o_nts o_codes o_gen o_mark g_rules g_cur g_stack g_nts g_terms g_gen g_mark g_read]. now rewrite put_codes_app, !app_assoc. Qed.
Lemma rules_first G s : w_rules G s -> exists c l, s = c :: l /\ ix_naming c = true.
Proof.
  destruct 1 as [r s H|r rs s t H Hr]; [now apply rule_first in H|]. destruct (rule_first r s H) as (c & l & -> & Hc). exists c, (l ++ t). auto.
Qed.
Lemma naming_not_ws c : ix_naming c = true -> ix_ws c = false. Proof. charb. Qed.
Lemma rules_spec G s : w_rules G s -> forallb (fun r => ok_alts (ru_alts r)) G = true -> forall g, g_tmp g = None ->
  exists n, forall fuel, (n <= fuel)%nat -> rules_loop fuel s g = IOk ([], add_out (b_rules G (g_gen g) (g_mark g)) g).
Proof.
  induction 1 as [r s H|r rs s t H Hr IH]; cbn [forallb]; intros Ho g Hg; apply andb_true_iff in Ho as (Ho & Hor).
  - destruct (rule_spec r s H Ho [] g Hg eq_refl) as (n & Hn). rewrite app_nil_r in Hn. exists (S (S n)). intros [|[|f]] Hf; [lia|lia|].
    change (rules_loop (S (S f)) s g) with (if ix_naming (peek s) then ido (s, g) <- parse_rule (S f) s g; (if ix_naming (peek s) then ido (s, g) <- parse_rule f s g; rules_loop f s g else IOk (s, g)) else IOk (s, g)).
    destruct (rule_first r s H) as (c & l & E & Hc). assert (P : ix_naming (peek s) = true) by (subst s; exact Hc). rewrite P. rewrite Hn by lia. cbn [ibind]. change (ix_naming (peek [])) with false. cbn iota.
    do 2 f_equal. cbn [b_rules]. unfold add_out. cbn [b_seq o_new o_nts o_codes o_gen o_mark]. rewrite !app_nil_r. reflexivity.
  - destruct (rules_first rs t Hr) as (c2 & l2 & E2 & Hc2). assert (W : ix_ws (peek t) = false) by (subst t; now apply naming_not_ws).
    destruct (rule_spec r s H Ho t g Hg W) as (n & Hn). destruct (IH Hor (add_out (b_rule r (g_gen g) (g_mark g)) g) eq_refl) as (n2 & H2). exists (S (n + n2)). intros [|f] Hf; [lia|]. cbn [rules_loop].
    destruct (rule_first r s H) as (c & l & E & Hc). assert (P : ix_naming (peek (s ++ t)) = true) by (subst s; exact Hc). rewrite P. rewrite Hn by lia. cbn [ibind]. rewrite H2 by lia.
    rewrite add_out_seq. reflexivity.
Qed.

Lemma naming_text n al s : w_naming n al s -> name_ok n /\ exists r, s = n ++ r /\ (r = [] \/ ix_name_follower (peek r) = false).
Proof.
  destruct 1 as [n z Hn Hz|n a z1 z2 z3 Hn Ha H1 H2 H3]; (split; [exact Hn|]); (eexists; split; [reflexivity|]).
  - destruct (ws_first z Hz) as [-> |(c & r & -> & Hc)]; [left; reflexivity|right; now apply ws_not_follower].
  - right. apply ws_then; [exact H1|apply ws_not_follower|reflexivity].
Qed.
Lemma name_chars n : name_ok n -> forallb ix_name_follower n = true.
Proof. intros Hn. apply name_is in Hn as (c & r & -> & H1 & H2). cbn [forallb]. rewrite H2, andb_true_r. charb. Qed.
Lemma not_prolog G s : w_rules G s -> (forall r rs, G = r :: rs -> ru_name r <> B "ixml") -> prolog_start s = false.
Proof.
  intros Hs Hn. assert (X : exists r s1 t, w_rule r s1 /\ s = s1 ++ t /\ ru_name r <> B "ixml").
  { destruct Hs as [r s H|r rs s t H Hr]; [exists r, s, []; rewrite app_nil_r|exists r, s, t]; (split; [exact H|]); (split; [reflexivity|]); eapply Hn; reflexivity. }
  destruct X as (r & s1 & t & H & -> & Hne). clear Hs Hn. destruct H as [m n al a t0 s c z1 z2 l Ht Hs Hc Hz1 Ha Hz2]. cbn [ru_name] in Hne.
  unfold prolog_start. destruct (beq _ (B "ixml")) eqn:Eb; [|reflexivity]. apply beq_eq in Eb. cbn [andb]. destruct (ix_ws _) eqn:Ew; [|reflexivity]. exfalso.
  destruct (w_mark_cases m t0 Ht) as [(-> & ->)|(b & -> & Hm & Hb)].
  2: { cbn [app firstn] in Eb. injection Eb as E _. subst m. discriminate Hm. }
  cbn [app] in *. destruct (naming_text n al s Hs) as (Hn & r & -> & Hr). apply name_chars in Hn.
  change (B "ixml") with [105; 120; 109; 108] in *. change (B ".") with [46] in *.
  assert (X : exists d k, ((n ++ r) ++ c :: z1 ++ l ++ [46] ++ z2) ++ t = n ++ d :: k /\ ix_name_follower d = false).
  { rewrite <- !app_assoc. destruct r as [|d r].
    - cbn [app]. exists c. eexists. split; [reflexivity|]. destruct Hc as [-> | ->]; reflexivity.
    - cbn [app]. exists d. eexists. split; [reflexivity|]. destruct Hr as [Hr|Hr]; [discriminate|exact Hr]. }
  destruct X as (d & k & E & Hd). rewrite E in Eb, Ew. clear E.
  destruct n as [|a1 [|a2 [|a3 [|a4 [|a5 n]]]]]; cbn [app firstn] in Eb; try (injection Eb; intros; subst; discriminate Hd).
  - apply Hne. exact Eb.
  - cbn [app skipn peek hd] in Ew. cbn [forallb] in Hn. repeat (apply andb_true_iff in Hn as (? & Hn)). apply ws_not_follower in Ew. congruence.
Qed.
Lemma prolog_spec v k : w_prolog v -> prolog_start (v ++ k) = true /\ parse_prolog (v ++ k) = IOk k.
Proof.
  destruct 1 as [cs z1 z2 s z3 Hz1 N1 Hz2 N2 Hs Hz3]. change (B "ixml") with [105; 120; 109; 108]. change (B "version") with [118; 101; 114; 115; 105; 111; 110]. change (B ".") with [46].
  destruct (ws_first z1 Hz1) as [-> |(c1 & l1 & E1 & W1)]; [now elim N1|]. destruct (ws_first z2 Hz2) as [-> |(c2 & l2 & E2 & W2)]; [now elim N2|].
  rewrite <- !app_assoc. split.
  - unfold prolog_start. cbn [app firstn skipn]. change (beq [105; 120; 109; 108] (B "ixml")) with true. subst z1. cbn [app peek hd andb]. exact W1.
  - unfold parse_prolog. cbn [app skipn]. rewrite parse_ws_spec; [|exact Hz1|reflexivity]. cbn [ibind firstn skipn]. change (beq [118; 101; 114; 115; 105; 111; 110] (B "version")) with true. cbn [negb].
    assert (P : ix_ws (peek (z2 ++ s ++ z3 ++ 46 :: k)) = true) by (subst z2; exact W2). rewrite P. cbn [negb].
    destruct (string_first cs s Hs) as (q & l & Es & Hq). assert (Pq : ix_quote (peek (s ++ z3 ++ 46 :: k)) = true) by (subst s; exact Hq).
    rewrite parse_ws_spec; [|exact Hz2|revert Pq; generalize (peek (s ++ z3 ++ 46 :: k)); intros; charb]. cbn [ibind]. rewrite Pq. cbn [negb].
    rewrite (parse_string_spec cs); [|exact Hs|apply ws_then; [exact Hz3|apply ws_not_quote|reflexivity]]. cbn [ibind]. rewrite parse_ws_spec; [|exact Hz3|reflexivity]. cbn [ibind peek hd tl]. reflexivity.
Qed.
Lemma rules_nonempty G s : w_rules G s -> G <> []. Proof. destruct 1; discriminate. Qed.
Theorem build_spec G src : w_grammar G src -> forallb (fun r => ok_alts (ru_alts r)) G = true ->
  exists n, forall fuel, (n <= fuel)%nat -> ixml_build fuel src = IOk (add_out (b_rules G 0 0) gst0).
Proof.
  intros H Ho. destruct H as [G z s Hz Hs Hn|G z1 v z2 s Hz1 Hv Hz2 Hs]; destruct (rules_spec G s Hs Ho gst0 eq_refl) as (n & H); exists n; intros fuel Hf; unfold ixml_build, parse_ixml;
    destruct (rules_first G s Hs) as (c & l & E & Hc); assert (P : ix_naming (peek s) = true) by (subst s; exact Hc); pose proof (naming_not_ws _ P) as W.
  - rewrite parse_ws_spec by assumption. cbn [ibind]. rewrite (not_prolog G s Hs Hn). cbn [ibind]. rewrite P. cbn [negb]. rewrite H by exact Hf. reflexivity.
  - destruct (prolog_spec v (z2 ++ s) Hv) as (V1 & V2). rewrite parse_ws_spec; [|exact Hz1|]. 2: { destruct Hv; reflexivity. }
    cbn [ibind]. rewrite V1, V2. cbn [ibind]. rewrite parse_ws_spec by assumption. cbn [ibind]. rewrite P. cbn [negb]. rewrite H by exact Hf. reflexivity.
Qed.
