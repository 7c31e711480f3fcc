(** C77: reading a text with an ixml grammar gives a tree for texts that the grammar
    describes. *)
From Coq Require Import NArith ZArith List Bool Arith String Lia.
From Verif Require Import Bytes BytesFacts Outcome Utf8 Ixml IxmlSpec IxmlTrans IxmlLang IxmlParse IxmlUse IxmlWrite Yaep YaepSpec YaepGram YaepProofs YaepParse YaepCache IxmlRun PropsIxml PropsYaep PropsYaepParse PropsYaepCache.
Import ListNotations.
Local Open Scope list_scope.

(** * Specification *)
(** The characters that are written in the grammar outside of sets *)
Fixpoint lit_factor (f : factor) : word :=
  match f with FStr _ cs => cs | FHex _ c => [c] | FGroup a => lit_alts a | _ => [] end
with lit_term (t : term) : word :=
  match t with
  | TOne f | TOpt f | TStar f | TPlus f => lit_factor f
  | TStarSep f s | TPlusSep f s => lit_factor f ++ lit_factor s
  end
with lit_alt (a : alt) : word := match a with ANil => [] | ACons t a => lit_term t ++ lit_alt a end
with lit_alts (a : alts) : word := match a with AOne a => lit_alt a | AMore a r => lit_alt a ++ lit_alts r end.
Definition literals (G : grammar) : word := flat_map (fun r => lit_alts (ru_alts r)) G.
(** Characters that the parser has room for *)
Definition small (c : Z) : Prop := (c < 199998)%Z.
(** A name derives itself. *)
Definition loops (y : ygrammar) : Prop := exists x, derives_itself (y_rules y) x.

(** * Proofs *)
Lemma lit_codes :
  (forall f gen mark, o_codes (b_factor f gen mark) = lit_factor f) /\
  (forall t gen mark, o_codes (b_term t gen mark) = lit_term t) /\
  (forall a gen mark, o_codes (b_alt a gen mark) = lit_alt a) /\
  (forall a n mk gen mark, o_codes (b_alts n mk a gen mark) = lit_alts a).
Proof.
  apply grammar_ind; intros; cbn [b_factor b_term b_alt b_alts b_wrap b_seq o_codes lit_factor lit_term lit_alt lit_alts]; try reflexivity; try congruence; auto.
  - destruct cs as [|c [|d cs]]; reflexivity.
Qed.
Lemma lit_rules G : forall gen mark, o_codes (b_rules G gen mark) = literals G.
Proof.
  induction G as [|r G IH]; intros gen mark; [reflexivity|]. cbn [b_rules b_seq o_codes b_rule literals flat_map]. rewrite IH. f_equal. apply lit_codes.
Qed.

Section Handed.
Variable y : ygrammar.
Variable w lits : word.
Hypothesis Hn : yaep_names_ok y.
Hypothesis HT : forall s c, In (s, c) (y_terms y) <-> s = term_name c /\ (In c w \/ In c lits).
Hypothesis HP : forall n rhs, In (n, rhs) (y_rules y) -> Forall no_yaep rhs.

Lemma handed_names : names_ok y.
Proof.
  destruct Hn as (A1 & A2 & A3 & A4 & A5 & A6).
  assert (X : Forall (fun t => ~ In (fst t) [B "error"; B "$S"; B "$eof"]) (y_terms y)).
  { apply Forall_forall. intros (s, c) H. apply HT in H as (-> & _). cbn [fst]. intros [E|[E|[E|[]]]]; discriminate E. }
  split; [exact A3|]. split; [exact A1|]. split; [exact A2|]. split; [exact X|]. rewrite Forall_forall in A6. split.
  - destruct (y_rules y) as [|(s, rhs) rest] eqn:E; [now elim A5|]. exists s, rhs, rest. split; [reflexivity|]. intros ->. apply (A6 (B "$S", rhs)); [left; reflexivity|]. cbn [fst In]. tauto.
  - apply Forall_forall. intros (s, rhs) H [D|[D|D]]; cbn [fst] in *; apply (A6 (s, rhs) H); cbn [fst In]; [tauto|left; symmetry; exact D|right; left; symmetry; exact D].
Qed.
Lemma handed_plain : plain y.
Proof.
  intros n Hx (lhs & rhs & Hr & Ho). destruct Hn as (_ & _ & _ & _ & _ & A6). rewrite Forall_forall in A6. specialize (A6 _ Hr). cbn [fst] in A6. specialize (HP _ _ Hr). rewrite Forall_forall in HP.
  destruct Ho as [-> |Ho].
  - apply A6. destruct Hx as [<- |[<- |[<- |[]]]]; cbn [In]; tauto.
  - destruct (HP n Ho) as (P1 & P2). destruct Hx as [<- |[<- |[<- |[]]]]; [apply P2; reflexivity|apply P2; reflexivity|apply P1; reflexivity].
Qed.
Lemma handed_starts : exists start, starts y start.
Proof. destruct Hn as (_ & _ & _ & _ & A5 & _). destruct (y_rules y) as [|(s, rhs) rest] eqn:E; [now elim A5|]. exists s, rhs, rest. exact E. Qed.
Lemma handed_tokens v : incl v w -> tokens y (map term_name v).
Proof. intros Hv. apply Forall_forall. intros t Ht. apply in_map_iff in Ht as (c & <- & Hc). apply in_map_iff. exists (term_name c, c). split; [reflexivity|]. apply HT. split; [reflexivity|]. left. now apply Hv. Qed.

(** Derivations of the two kinds *)
Lemma yields_steps :
  (forall s v, yields y s v -> steps (y_rules y) [s] (map term_name v)) /\ (forall rhs v, yields_all y rhs v -> steps (y_rules y) rhs (map term_name v)).
Proof.
  apply yields_ind2.
  - intros s c H. apply HT in H as (-> & _). apply steps_refl.
  - intros s rhs v H _ IH. eapply steps_more; [|exact IH]. pose proof (step_rule (y_rules y) [] s rhs [] H) as X. cbn [app] in X. now rewrite app_nil_r in X.
  - apply steps_refl.
  - intros s rhs v u _ IH1 _ IH2. rewrite map_app. apply (steps_app _ [s] _ rhs _ IH1 IH2).
Qed.
Lemma yields_all_app a : forall b v, yields_all y (a ++ b) v -> exists v1 v2, v = v1 ++ v2 /\ yields_all y a v1 /\ yields_all y b v2.
Proof.
  induction a as [|s a IH]; intros b v H; [exists [], v; split; [reflexivity|]; split; [apply y_nil|exact H]|]. cbn [app] in H. inversion H as [|? ? v1 v2 H1 H2]; subst.
  destruct (IH b v2 H2) as (u1 & u2 & -> & U1 & U2). exists (v1 ++ u1), u2. split; [now rewrite app_assoc|]. split; [now apply y_cons|exact U2].
Qed.
Lemma yields_all_join a : forall b v u, yields_all y a v -> yields_all y b u -> yields_all y (a ++ b) (v ++ u).
Proof. induction a as [|s a IH]; intros b v u Ha Hb; inversion Ha; subst; [exact Hb|]. cbn [app]. rewrite <- app_assoc. apply y_cons; auto. Qed.
Lemma steps_yields u v : steps (y_rules y) u v -> forall t, yields_all y v t -> yields_all y u t.
Proof.
  induction 1 as [u|u u' v Hs _ IH]; intros t Ht; [exact Ht|]. specialize (IH t Ht). destruct Hs as [p x rhs q Hr]. apply yields_all_app in IH as (v1 & v2 & -> & H1 & H2).
  apply yields_all_app in H2 as (v3 & v4 & -> & H3 & H4). apply yields_all_join; [exact H1|]. apply y_cons; [|exact H4]. now apply y_rule with (rhs := rhs).
Qed.
Lemma chars_yield v : incl v w -> yields_all y (map term_name v) v.
Proof.
  induction v as [|c v IH]; intros Hv; [apply y_nil|]. change (c :: v) with ([c] ++ v) at 2. cbn [map]. apply y_cons; [|apply IH; intros d Hd; apply Hv; right; exact Hd].
  apply y_term, HT. split; [reflexivity|]. left. apply Hv. left. reflexivity.
Qed.
Lemma derives_steps start v : incl v w -> starts y start -> (derives y v <-> steps (y_rules y) [start] (map term_name v)).
Proof.
  intros Hv (rhs & rest & E). split.
  - intros (s & r & rs & E2 & H). assert (s = start) by congruence. subst s. exact (proj1 yields_steps start v H).
  - intros H. exists start, rhs, rest. split; [exact E|]. apply steps_yields with (t := v) in H; [|now apply chars_yield]. inversion H as [|? ? v' u H1 H2]; subst. inversion H2; subst. now rewrite app_nil_r.
Qed.

(** Loops are those of the rules that were handed over. *)
Lemma loops_full : loops y <-> exists x, derives_itself (full_rules y) x.
Proof.
  destruct handed_starts as (start & Hst). pose proof handed_names as Hno. pose proof handed_plain as Hp. split.
  - intros (x & u & H1 & H2). exists x, u. split; [|now apply (own_full y start Hst)]. apply step_single in H1. apply step_rule1. apply (full_in y start Hst). right. left. exact H1.
  - intros (x & u & H1 & H2). apply step_single in H1.
    destruct (read_accepts y Hno) as (s & _ & Hy).
    assert (K : forall v, steps (full_rules y) (v ++ [B "$eof"]) [x] -> x = B "$eof").
    { intros v H. apply steps_split in H as (w1 & w2 & E & _ & H). apply (end_fixed y Hno s Hy) in H. subst w2. destruct w1 as [|a w1]; [cbn [app] in E; congruence|]. apply (f_equal (@List.length bytes)) in E. cbn [List.length app] in E. rewrite app_length in E. cbn [List.length] in E. lia. }
    assert (Ne : B "$S" <> B "$eof") by (vm_compute; discriminate).
    apply (full_in y start Hst) in H1 as [H1|[H1|(H1 & _)]].
    + pose proof (f_equal fst H1) as E1. pose proof (f_equal snd H1) as E2. cbn [fst snd] in E1, E2. subst x u. elim Ne. apply (K [start]). exact H2.
    + exists x, u. split; [apply step_rule1; exact H1|]. apply (full_own y start Hst Hp) in H2; [exact H2|]. intros D. apply (Hp (B "$S")); [left; reflexivity|]. exists x, u. auto.
    + pose proof (f_equal fst H1) as E1. pose proof (f_equal snd H1) as E2. cbn [fst snd] in E1, E2. subst x u. elim Ne. apply (K [B "error"]). exact H2.
Qed.

(** The codes *)
Lemma fold_min l : forall a, In (fold_left Z.min l a) (a :: l) /\ forall c, In c (a :: l) -> (fold_left Z.min l a <= c)%Z.
Proof.
  induction l as [|b l IH]; intros a; cbn [fold_left].
  - split; [left; reflexivity|]. intros c [<- |[]]. lia.
  - destruct (IH (Z.min a b)) as (I1 & I2). split.
    + destruct I1 as [<- |I1]; [|right; right; exact I1]. destruct (Z.min_spec a b) as [(_ & ->)|(_ & ->)]; [left; reflexivity|right; left; reflexivity].
    + intros c [<- |[<- |Hc]]; [transitivity (Z.min a b); [apply I2; left; reflexivity|lia]|transitivity (Z.min a b); [apply I2; left; reflexivity|lia]|apply I2; right; exact Hc].
Qed.
Lemma fold_max l : forall a, In (fold_left Z.max l a) (a :: l) /\ forall c, In c (a :: l) -> (c <= fold_left Z.max l a)%Z.
Proof.
  induction l as [|b l IH]; intros a; cbn [fold_left].
  - split; [left; reflexivity|]. intros c [<- |[]]. lia.
  - destruct (IH (Z.max a b)) as (I1 & I2). split.
    + destruct I1 as [<- |I1]; [|right; right; exact I1]. destruct (Z.max_spec a b) as [(_ & ->)|(_ & ->)]; [right; left; reflexivity|left; reflexivity].
    + intros c [<- |[<- |Hc]]; [transitivity (Z.max a b); [lia|apply I2; left; reflexivity]|transitivity (Z.max a b); [lia|apply I2; left; reflexivity]|apply I2; right; exact Hc].
Qed.
Lemma coded_in t : In t (coded y) <-> In t (y_terms y) \/ t = (B "error", (-2)%Z) \/ t = (B "$eof", (-1)%Z).
Proof. unfold coded. rewrite in_app_iff. cbn [In]. split; [intros [H|[H|[H|[]]]]|intros [H|[H|H]]]; auto. Qed.
Lemma range_ok : Forall small (w ++ lits) -> exists lo hi, code_range (coded y) = Some (lo, hi) /\ forall t, In t (coded y) -> (lo <= snd t <= hi)%Z.
Proof.
  intros Hs. assert (X : forall t, In t (coded y) -> (-2 <= snd t < 199998)%Z).
  { intros (s, c) H. apply coded_in in H as [H|[H|H]]; [|injection H as _ ->; cbn [snd]; lia|injection H as _ ->; cbn [snd]; lia].
    destruct Hn as (_ & _ & A3 & _). rewrite Forall_forall in A3. pose proof (A3 _ H) as A. apply HT in H as (_ & H). apply in_app_iff in H. rewrite Forall_forall in Hs. apply Hs in H. unfold small in H. cbn [snd] in *. lia. }
  unfold code_range. destruct (map snd (coded y)) as [|c cs] eqn:E; [apply map_eq_nil in E; unfold coded in E; destruct (y_terms y); discriminate E|].
  destruct (fold_min cs c) as (M1 & M2). destruct (fold_max cs c) as (N1 & N2). rewrite <- E in *.
  assert (Y : forall z, In z (map snd (coded y)) -> (-2 <= z < 199998)%Z) by (intros z Hz; apply in_map_iff in Hz as (t & <- & Ht); now apply X).
  pose proof (Y _ M1). pose proof (Y _ N1). unfold MAX_CODES. destruct (Z.ltb_spec (fold_left Z.max cs c - fold_left Z.min cs c) 200000) as [_|L]; [|lia].
  eexists _, _. split; [reflexivity|]. intros t Ht. split; [apply M2, in_map, Ht|apply N2, in_map, Ht].
Qed.
Lemma range_none : ~ Forall small (w ++ lits) -> code_range (coded y) = None.
Proof.
  intros Hs. assert (X : exists c, In c (w ++ lits) /\ (199998 <= c)%Z).
  { apply Exists_exists. apply neg_Forall_Exists_neg in Hs; [|intros c; unfold small; destruct (Z_lt_dec c 199998); auto]. eapply Exists_impl; [|exact Hs]. intros c Hc. unfold small in Hc. lia. }
  destruct X as (c & Hc & L). assert (Ic : In c (map snd (coded y))). { apply in_map_iff. exists (term_name c, c). split; [reflexivity|]. apply coded_in. left. apply HT. split; [reflexivity|]. now apply in_app_iff. }
  assert (Ie : In (-2)%Z (map snd (coded y))). { apply in_map_iff. exists (B "error", (-2)%Z). split; [reflexivity|]. apply coded_in. auto. }
  unfold code_range. destruct (map snd (coded y)) as [|a cs] eqn:E; [reflexivity|]. destruct (fold_min cs a) as (_ & M2). destruct (fold_max cs a) as (_ & N2).
  apply N2 in Ic. apply M2 in Ie. unfold MAX_CODES. destruct (Z.ltb_spec (fold_left Z.max cs a - fold_left Z.min cs a) 200000); [lia|reflexivity].
Qed.
Lemma find_code lo hi s c : (forall t, In t (coded y) -> (lo <= snd t <= hi)%Z) -> In (s, c) (coded y) -> find_by_code (coded y) lo hi c = Symb s.
Proof.
  intros Hr H. pose proof (Hr _ H) as L. cbn [snd] in L. unfold find_by_code.
  replace ((c <? lo)%Z) with false by (symmetry; apply Z.ltb_ge; lia). replace ((hi + 1 <=? c)%Z) with false by (symmetry; apply Z.leb_gt; lia). cbn [orb].
  destruct (find (fun t => (snd t =? c)%Z) (rev (coded y))) as [(s', c')|] eqn:F.
  - apply find_some in F as (F1 & F2). apply in_rev in F1. cbn [fst snd] in *. apply Z.eqb_eq in F2. subst c'. f_equal.
    destruct Hn as (_ & _ & A3 & _). rewrite Forall_forall in A3. apply coded_in in H, F1.
    assert (Kt : forall n z, In (n, z) (y_terms y) -> (0 <= z)%Z) by (intros n z Hz; exact (A3 _ Hz)).
    assert (Ke : forall n z m k, (n, z) = (m, k) :> bytes * Z -> n = m /\ z = k) by (intros n z m k E; split; [exact (f_equal fst E)|exact (f_equal snd E)]).
    destruct H as [H|[H|H]], F1 as [F1|[F1|F1]]; try (apply Ke in H as (H & Hc)); try (apply Ke in F1 as (F1 & Fc)); try congruence;
      try (apply Kt in H; lia); try (apply Kt in F1; lia); try lia.
    apply HT in H as (-> & _). apply HT in F1 as (-> & _). reflexivity.
  - exfalso. apply in_rev in H. apply (find_none _ _ F) in H. cbn [snd] in H. rewrite Z.eqb_refl in H. discriminate H.
Qed.
Lemma read_w lo hi : (forall t, In t (coded y) -> (lo <= snd t <= hi)%Z) -> forall v, incl v w ->
  read_tokens (coded y) lo hi (v ++ [END_MARKER_CODE]) = Ok (Some (text (map term_name v))).
Proof.
  intros Hr. induction v as [|c v IH]; intros Hv.
  - cbn [app read_tokens map]. rewrite (find_code lo hi (B "$eof")) by (try assumption; apply coded_in; auto). reflexivity.
  - cbn [app read_tokens map]. rewrite (find_code lo hi (term_name c)); [|exact Hr|apply coded_in; left; apply HT; split; [reflexivity|left; apply Hv; left; reflexivity]].
    rewrite IH by (intros d Hd; apply Hv; right; exact Hd). reflexivity.
Qed.
End Handed.

Definition built (G : grammar) : gst := add_out (b_rules G 0 0) gst0.
Lemma run_build G src : w_grammar G src -> ok_grammar G = true -> exists n, forall fuel, (n <= fuel)%nat -> ixml_build fuel src = IOk (built G).
Proof.
  intros HG Hok. apply (build_spec G src HG). unfold ok_grammar in Hok. rewrite forallb_forall in Hok |- *. intros r Hr. specialize (Hok r Hr). apply andb_true_iff in Hok. tauto.
Qed.
Lemma run_spec G src w : w_grammar G src -> ok_grammar G = true -> Forall code_ok w ->
  exists y g', use_grammar (built G) (utf8 w) = IOk (y, g') /\
    (~ loops y -> Forall small (w ++ literals G) -> exists tree, parse_with_ixml (built G) (utf8 w) = Ran true tree /\ (tree = true -> describes G w) /\ (no_empty_pair y -> describes G w -> tree = true)) /\
    (~ loops y -> ~ Forall small (w ++ literals G) -> parse_with_ixml (built G) (utf8 w) = RanAbort) /\
    (loops y -> parse_with_ixml (built G) (utf8 w) = RanUB).
Proof.
  intros HG Hok Hw. unfold built.
  destruct (use_spec_more G src w HG Hok Hw) as (y & g' & U1 & U2 & (U3 & U4) & U5a & U5b). assert (U5 : derives y w <-> describes G w) by (split; [apply U5a|apply U5b, incl_refl]). rewrite lit_rules in U3. exists y, g'. split; [exact U1|].
  assert (Hno : names_ok y) by (eapply handed_names; eassumption). assert (Hp : plain y) by (eapply handed_plain; eassumption).
  assert (Hx : exists start, starts y start) by (eapply handed_starts; eassumption). destruct Hx as (start & Hst).
  assert (Hl : loops y <-> exists x, derives_itself (full_rules y) x) by (eapply loops_full; eassumption).
  assert (Hd : derives y w <-> steps (y_rules y) [start] (map term_name w)) by (eapply derives_steps; try eassumption; apply incl_refl).
  unfold parse_with_ixml. rewrite U1, scan_spec by (try exact Hw; lia).
  pose proof Hst as Hst'. destruct Hst as (rhs & rest & Est).
  assert (He : forall tail, ~ In (start, B "error" :: tail) (y_rules y)). { intros tail H. apply U4 in H. inversion H as [|? ? (A & _) _]; subst. now elim A. }
  pose proof (C74_loops_only y start rhs rest Est Hno He) as Hlo. split; [|split].
  - intros Hnl Hs. destruct (proj2 Hlo) as (s & f & E). { intros x Hx. apply Hnl, Hl. now exists x. } rewrite E.
    assert (Hq : exists lo hi, code_range (coded y) = Some (lo, hi) /\ forall t, In t (coded y) -> (lo <= snd t <= hi)%Z) by (eapply range_ok; eassumption). destruct Hq as (lo & hi & Er & Hr). rewrite Er. unfold yaep_parse.
    assert (Hrd : read_tokens (coded y) lo hi (w ++ [END_MARKER_CODE]) = Ok (Some (text (map term_name w)))) by (eapply read_w; try eassumption; apply incl_refl). rewrite Hrd. cbn [obind].
    assert (Ht : tokens y (map term_name w)) by (eapply handed_tokens; try eassumption; apply incl_refl).
    destruct (parse_facts false y s f start (map term_name w) E Hp Hst' Ht) as (e & sets & P1 & P2).
    destruct (C76_same_sets s f _ e sets P1) as (hits & P3). rewrite P3. cbn [obind of_out fst snd]. exists (has_tree sets). split; [reflexivity|]. split.
    + intros Tt. apply U5, Hd. destruct e as [j|]; [destruct P2 as (P2 & _); rewrite P2 in Tt; discriminate Tt|apply P2].
    + intros C Dg. destruct e as [j|]; [|apply P2]. exfalso. destruct (proj2 (C75_exact false y s f start (map term_name w) E Hp Hst' Ht C)) as (sets' & E'); [now apply Hd, U5|]. rewrite P1 in E'. discriminate E'.
  - intros Hnl Hs. destruct (proj2 Hlo) as (s & f & E). { intros x Hx. apply Hnl, Hl. now exists x. } rewrite E.
    assert (Hq : code_range (coded y) = None) by (eapply range_none; eassumption). now rewrite Hq.
  - intros Hlp. destruct (C74_ends false y) as (r & Er). rewrite Er. destruct r as [(s & f)|c m]; [|reflexivity]. exfalso. apply Hl in Hlp as (x & Hx). apply (proj1 Hlo (ex_intro _ s (ex_intro _ f Er)) x Hx).
Qed.

(** * C77 *)
(** Full statement: for every grammar and every text there is a tree if and only if the
    grammar describes the text.  Missing: large characters, grammars in which a name
    derives itself, and two symbols at the start of a rule that can be empty; there it is
    refuted below.

    A grammar and a text, both without large characters: the rules that are made of
    them are handed to the parser; if no name in them derives itself, true is
    returned, and there is a tree for texts that the grammar describes only.  There is
    one for all of these if no rule starts with two symbols that can be empty and has a
    third one.  If a name derives itself, what happens is undefined. *)
Theorem C77_text_is_parsed_partial : forall G src w,
  w_grammar G src -> ok_grammar G = true -> Forall code_ok w -> Forall small (w ++ literals G) ->
  exists n, forall fuel, (n <= fuel)%nat -> exists g y g', ixml_build fuel src = IOk g /\ use_grammar g (utf8 w) = IOk (y, g') /\
    (~ loops y -> exists tree, parse_with_ixml g (utf8 w) = Ran true tree /\ (tree = true -> describes G w) /\ (no_empty_pair y -> describes G w -> tree = true)) /\
    (loops y -> parse_with_ixml g (utf8 w) = RanUB).
Proof.
  intros G src w HG Hok Hw Hs. destruct (run_build G src HG Hok) as (n & Hb). destruct (run_spec G src w HG Hok Hw) as (y & g' & U & A & _ & C). exists n. intros fuel Hf. exists (built G), y, g'. auto 6.
Qed.
(** If there is a large character in the text or in the grammar, the program is aborted. *)
Theorem C77_large_character_aborts : forall G src w,
  w_grammar G src -> ok_grammar G = true -> Forall code_ok w -> ~ Forall small (w ++ literals G) ->
  exists n, forall fuel, (n <= fuel)%nat -> exists g y g', ixml_build fuel src = IOk g /\ use_grammar g (utf8 w) = IOk (y, g') /\
    (~ loops y -> parse_with_ixml g (utf8 w) = RanAbort).
Proof.
  intros G src w HG Hok Hw Hs. destruct (run_build G src HG Hok) as (n & Hb). destruct (run_spec G src w HG Hok Hw) as (y & g' & U & _ & A & _). exists n. intros fuel Hf. exists (built G), y, g'. auto 6.
Qed.

(** * Cases *)
Definition nt (s : string) : factor := FNt 0 (B s) None.
Definition str (s : string) : factor := FStr 0 (w1 s).
Definition ru (s : string) (a : alts) : grule := GRule 0 (B s) None a.
Definition seq (l : list term) : alt := fold_right ACons ANil l.
(** a: "x", b. b: "y"*. *)
Definition run_G : grammar := [ru "a" (AOne (seq [TOne (str "x"); TOne (nt "b")])); ru "b" (AOne (seq [TStar (str "y")]))].
(** a: b*. b: "x"?. *)
Definition loop_G : grammar := [ru "a" (AOne (seq [TStar (nt "b")])); ru "b" (AOne (seq [TOpt (str "x")]))].
(** s: a, "x" | "n", a, "y". a: n, m, "p". n: "n"?. m: "m"?. *)
Definition pair_G : grammar :=
  [ru "s" (AMore (seq [TOne (nt "a"); TOne (str "x")]) (AOne (seq [TOne (str "n"); TOne (nt "a"); TOne (str "y")])));
   ru "a" (AOne (seq [TOne (nt "n"); TOne (nt "m"); TOne (str "p")])); ru "n" (AOne (seq [TOpt (str "n")])); ru "m" (AOne (seq [TOpt (str "m")]))].
(** a: #30D3E. *)
Definition big_G : grammar := [ru "a" (AOne (seq [TOne (FHex 0 199998)]))].

Lemma ok_codes w : forallb code_okb w = true -> Forall code_ok w.
Proof. intros H. apply Forall_forall. intros c Hc. rewrite forallb_forall in H. specialize (H c Hc). unfold code_okb in H. apply andb_true_iff in H as (H1 & H2). apply Z.leb_le in H1. apply Z.ltb_lt in H2. unfold code_ok. lia. Qed.
Lemma ok_small w : forallb (fun c => (c <? 199998)%Z) w = true -> Forall small w.
Proof. intros H. apply Forall_forall. intros c Hc. rewrite forallb_forall in H. specialize (H c Hc). apply Z.ltb_lt in H. exact H. Qed.
Ltac meets G w := pose proof (run_spec G (p_rules G) w (p_grammar_ok G eq_refl) eq_refl (ok_codes w eq_refl)).

(** The hypotheses are met, with a tree and without one: what is computed tells that
    the grammar describes the one text and not the other. *)
Example run_meets : w_grammar run_G (p_rules run_G) /\ ok_grammar run_G = true /\ Forall code_ok (w1 "xyy") /\ Forall small (w1 "xyy" ++ literals run_G).
Proof. split; [apply p_grammar_ok; reflexivity|]. split; [reflexivity|]. split; [apply ok_codes; reflexivity|apply ok_small; reflexivity]. Qed.
Example run_tree : parse_with_ixml (built run_G) (utf8 (w1 "xyy")) = Ran true true /\ describes run_G (w1 "xyy").
Proof.
  assert (E : parse_with_ixml (built run_G) (utf8 (w1 "xyy")) = Ran true true) by (vm_compute; reflexivity). split; [exact E|].
  meets run_G (w1 "xyy"). destruct H as (y & g' & U & A & _ & C). destruct A as (tree & A1 & A2 & _); [intros L; apply C in L; congruence|apply ok_small; reflexivity|]. apply A2. congruence.
Qed.
Example run_no_tree : parse_with_ixml (built run_G) (utf8 (w1 "xyx")) = Ran true false /\ ~ describes run_G (w1 "xyx").
Proof.
  assert (E : parse_with_ixml (built run_G) (utf8 (w1 "xyx")) = Ran true false) by (vm_compute; reflexivity). split; [exact E|]. intros D.
  meets run_G (w1 "xyx"). destruct H as (y & g' & U & A & _ & C). destruct A as (tree & A1 & _ & A3); [intros L; apply C in L; congruence|apply ok_small; reflexivity|].
  assert (tree = true); [|congruence]. apply A3; [|exact D]. clear - U. intros x a b c r Hr _ _. vm_compute in U. injection U as <- _. cbn [y_rules In] in Hr.
  repeat (destruct Hr as [Hr|Hr]; [discriminate Hr|]). exact Hr.
Qed.

(** The value that is returned does not tell whether the grammar describes the text. *)
Theorem C77_returned_value_refuted : exists G src w,
  w_grammar G src /\ ok_grammar G = true /\ Forall code_ok w /\ Forall small (w ++ literals G) /\ ~ describes G w /\
  exists n, forall fuel, (n <= fuel)%nat -> exists g, ixml_build fuel src = IOk g /\ parse_with_ixml g (utf8 w) = Ran true false.
Proof.
  exists run_G, (p_rules run_G), (w1 "xyx"). pose proof (p_grammar_ok run_G eq_refl) as W. split; [exact W|]. split; [reflexivity|]. split; [apply ok_codes; reflexivity|]. split; [apply ok_small; reflexivity|].
  split; [apply run_no_tree|]. destruct (run_build run_G _ W eq_refl) as (n & Hn). exists n. intros fuel Hf. exists (built run_G). split; [now apply Hn|apply run_no_tree].
Qed.
Lemma loop_described : describes loop_G (w1 "x").
Proof.
  eexists _, _, _. split; [reflexivity|]. split; [left; reflexivity|]. split; [reflexivity|]. cbn [ru ru_alts seq fold_right]. apply m_last. refine (m_cons _ _ _ (w1 "x") [] _ (m_nil _)).
  apply m_star_some, m_reps_one. eapply m_nt; [right; left; reflexivity|reflexivity|]. cbn [ru ru_alts seq fold_right]. apply m_last. refine (m_cons _ _ _ (w1 "x") [] _ (m_nil _)). apply m_opt_yes, m_str.
Qed.
(** A repetition of what can be empty: a text that is described, and undefined behaviour *)
Theorem C77_repeated_empty_refuted : exists G src w,
  w_grammar G src /\ ok_grammar G = true /\ Forall code_ok w /\ Forall small (w ++ literals G) /\ describes G w /\
  exists n, forall fuel, (n <= fuel)%nat -> exists g, ixml_build fuel src = IOk g /\ parse_with_ixml g (utf8 w) = RanUB.
Proof.
  exists loop_G, (p_rules loop_G), (w1 "x"). pose proof (p_grammar_ok loop_G eq_refl) as W. split; [exact W|]. split; [reflexivity|]. split; [apply ok_codes; reflexivity|]. split; [apply ok_small; reflexivity|].
  split; [exact loop_described|]. destruct (run_build loop_G _ W eq_refl) as (n & Hn). exists n. intros fuel Hf. exists (built loop_G). split; [now apply Hn|vm_compute; reflexivity].
Qed.
Lemma pair_described : describes pair_G (w1 "npy").
Proof.
  eexists _, _, _. split; [reflexivity|]. split; [left; reflexivity|]. split; [reflexivity|]. cbn [ru ru_alts seq fold_right]. apply m_later, m_last. refine (m_cons _ _ _ (w1 "n") (w1 "py") (m_one _ _ _ (m_str _ _ _)) _).
  refine (m_cons _ _ _ (w1 "p") (w1 "y") (m_one _ _ _ _) (m_cons _ _ _ (w1 "y") [] (m_one _ _ _ (m_str _ _ _)) (m_nil _))).
  eapply m_nt; [right; left; reflexivity|reflexivity|]. cbn [ru ru_alts seq fold_right]. apply m_last. refine (m_cons _ _ _ [] (w1 "p") (m_one _ _ _ _) (m_cons _ _ _ [] (w1 "p") (m_one _ _ _ _) (m_cons _ _ _ (w1 "p") [] (m_one _ _ _ (m_str _ _ _)) (m_nil _)))).
  - eapply m_nt; [right; right; left; reflexivity|reflexivity|]. apply m_last. exact (m_cons _ _ _ [] [] (m_opt_no _ _) (m_nil _)).
  - eapply m_nt; [right; right; right; left; reflexivity|reflexivity|]. apply m_last. exact (m_cons _ _ _ [] [] (m_opt_no _ _) (m_nil _)).
Qed.
(** Two symbols at the start of a rule that can be empty: a text that is described, and no tree *)
Theorem C77_two_empty_refuted : exists G src w,
  w_grammar G src /\ ok_grammar G = true /\ Forall code_ok w /\ Forall small (w ++ literals G) /\ describes G w /\
  exists n, forall fuel, (n <= fuel)%nat -> exists g, ixml_build fuel src = IOk g /\ parse_with_ixml g (utf8 w) = Ran true false.
Proof.
  exists pair_G, (p_rules pair_G), (w1 "npy"). pose proof (p_grammar_ok pair_G eq_refl) as W. split; [exact W|]. split; [reflexivity|]. split; [apply ok_codes; reflexivity|]. split; [apply ok_small; reflexivity|].
  split; [exact pair_described|]. destruct (run_build pair_G _ W eq_refl) as (n & Hn). exists n. intros fuel Hf. exists (built pair_G). split; [now apply Hn|vm_compute; reflexivity].
Qed.
(** A large character in the grammar, or in a text with any grammar; one less is small. *)
Example big_aborts : parse_with_ixml (built big_G) (utf8 [199998%Z]) = RanAbort /\ parse_with_ixml (built run_G) (utf8 [199998%Z]) = RanAbort /\
  ~ Forall small ([199998%Z] ++ literals run_G) /\ parse_with_ixml (built run_G) (utf8 [199997%Z]) = Ran true false.
Proof. split; [vm_compute; reflexivity|]. split; [vm_compute; reflexivity|]. split; [|vm_compute; reflexivity]. intros H. inversion H as [|? ? X _]; subst. unfold small in X. lia. Qed.

Print Assumptions C77_text_is_parsed_partial.
Print Assumptions C77_large_character_aborts.
Print Assumptions C77_returned_value_refuted.
Print Assumptions C77_repeated_empty_refuted.
Print Assumptions C77_two_empty_refuted.
