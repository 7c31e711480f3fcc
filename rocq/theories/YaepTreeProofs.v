(** Proofs about the tree of a parse *)
From Coq Require Import NArith ZArith List Bool Arith String Lia.
From Verif Require Import Bytes BytesFacts Outcome Ixml Yaep YaepSpec YaepGram YaepProofs YaepParse YaepParseFacts YaepTrees YaepParseProofs YaepTree YaepTreeSpec.
Import ListNotations.
Local Open Scope list_scope.
Local Open Scope nat_scope.

(** * What a symbol derives alone, in one step or more *)
Section Unit.
Variable R : list (bytes * list bytes).
Definition unit (x z : bytes) : Prop := exists u, step R [z] u /\ steps R u [x].
Lemma unit_trans a b c : unit a b -> unit b c -> unit a c.
Proof.
  intros (u & H1 & H2) (v & H3 & H4). exists v. split; [exact H3|]. eapply steps_trans; [exact H4|]. eapply steps_more; eassumption.
Qed.
Lemma unit_lhs x z : unit x z -> In z (map fst R).
Proof. intros (u & H & _). apply step_single in H. apply (in_map fst) in H. exact H. Qed.
Lemma unit_acc (No : forall x, ~ derives_itself R x) : forall n l z, NoDup l -> incl l (map fst R) -> (forall a, In a l -> unit z a) ->
  List.length (map fst R) <= n + List.length l -> Acc unit z.
Proof.
  induction n as [|n IH]; intros l z H1 H2 H3 Hn; constructor; intros x Hx.
  - exfalso. assert (Hz := unit_lhs _ _ Hx). assert (~ In z l) by (intro A; exact (No z (H3 z A))).
    assert (L : List.length (z :: l) <= List.length (map fst R)).
    { apply NoDup_incl_length; [now constructor|]. intros a [<-|A]; [exact Hz | now apply H2]. }
    cbn [List.length] in L. lia.
  - assert (Hz := unit_lhs _ _ Hx). apply (IH (z :: l)).
    + constructor; [|exact H1]. intro A. exact (No z (H3 z A)).
    + intros a [<-|A]; [exact Hz | now apply H2].
    + intros a [<-|A]; [exact Hx|]. exact (unit_trans _ _ _ Hx (H3 a A)).
    + cbn [List.length]. lia.
Qed.
Lemma unit_wf (No : forall x, ~ derives_itself R x) z : Acc unit z.
Proof. apply (unit_acc No (List.length (map fst R)) []); [constructor | intros a [] | intros a [] | lia]. Qed.
End Unit.

(** * More fuel *)
Lemma walk_more y sets : forall fuel r pos from k acc, walk y sets fuel r pos from k acc <> NoFuel ->
  forall fuel', fuel <= fuel' -> walk y sets fuel' r pos from k acc = walk y sets fuel r pos from k acc.
Proof.
  induction fuel as [|fuel IH]; intros r pos from k acc H fuel' Hf; [now destruct H|]. destruct fuel' as [|fuel']; [lia|]. apply le_S_n in Hf.
  cbn [walk] in H |- *. destruct pos as [|pos]; [reflexivity|]. destruct (nth_error (snd r) pos) as [x|]; [|reflexivity].
  destruct (mem x (ys_terms y)). { destruct k as [|k]; [reflexivity|]. now apply IH. }
  destruct (nth_error sets k) as [s|]; [|reflexivity]. destruct (ends_of s x) as [|i0 l0]; [reflexivity|].
  destruct (pick sets r pos from k x (i0 :: l0) None) as [[[d k']|]| | | |]; try reflexivity. cbn [obind] in *.
  assert (H1 : walk y sets fuel (fst d) (snd d) k' k [] <> NoFuel) by (intro Z; rewrite Z in H; now apply H).
  rewrite (IH _ _ _ _ _ H1 fuel' Hf). destruct (walk y sets fuel (fst d) (snd d) k' k []) as [ks| | | |]; try reflexivity. cbn [obind] in *. now apply IH.
Qed.
Lemma build_more y sets fuel fuel' : build_parse_tree y sets fuel <> NoFuel -> fuel <= fuel' -> build_parse_tree y sets fuel' = build_parse_tree y sets fuel.
Proof.
  unfold build_parse_tree. intros H Hf. destruct (has_tree sets); [|reflexivity]. destruct sets as [|s0 l]; [reflexivity|]. destruct (s_started _) as [|[d m] z]; [reflexivity|].
  rewrite (walk_more y _ fuel) with (fuel' := fuel'); [reflexivity | | exact Hf]. intro Z. rewrite Z in H. now apply H.
Qed.

Section S.
Variable y : ystate.
Variable f : flags.
Variable toks : list bytes.
Notation R := (ys_rules y).
Notation AX := AXIOM.
Hypothesis W : wf y.
Hypothesis HE : forall x, f (KEmpty x) = true <-> nullable R x.
Hypothesis HA : forall x rhs, In (x, rhs) R -> ~ In AX rhs.
Hypothesis HT : forall t, In t toks -> In t (ys_terms y).
Hypothesis No : forall x, ~ derives_itself R x.
Notation seg i k := (firstn (k - i) (skipn i toks)).
Notation D := (all_drules y).

(** No rule starts with two symbols that can be empty. *)
Definition cond2 : Prop := forall x a b r, In (x, a :: b :: r) R -> nullable R a -> nullable R b -> False.

(** * How the sets were made *)
Lemma complete_from sets next : forall fuel i st st', complete y f fuel sets next i st = Ok st' -> (exists z, st' = st ++ z) /\
  forall q, In q st' -> In q st \/ exists d m prev e, In (d, m) st' /\ empty_tail f d = true /\ nth_error sets (List.length sets - m) = Some prev /\
    In e (predicted prev (dlhs d)) /\ q = (shift (fst e), snd e + m).
Proof.
  induction fuel as [|fuel IH]; intros i st st' H; cbn [complete] in H; [discriminate H|].
  destruct (nth_error st i) as [[d m]|] eqn:En.
  2: { injection H as <-. split; [exists []; now rewrite app_nil_r | intros q Hq; now left]. }
  destruct (empty_tail f d) eqn:Et; [|now apply IH in H].
  destruct (List.length sets <? m) eqn:El; [discriminate H|].
  destruct (nth_error sets (List.length sets - m)) as [prev|] eqn:Ep; [|discriminate H].
  assert (Hsh : forall l, predicted prev (dlhs d) = l -> complete y f fuel sets next (S i) (shift_all y f next m l st) = Ok st' ->
    (exists z, st' = st ++ z) /\ forall q, In q st' -> In q st \/ exists d m prev e, In (d, m) st' /\ empty_tail f d = true /\ nth_error sets (List.length sets - m) = Some prev /\
    In e (predicted prev (dlhs d)) /\ q = (shift (fst e), snd e + m)).
  { intros l El' H'. apply IH in H'. destruct H' as [(z & Hz) H']. destruct (shift_all_ext y f next m l st) as (z2 & Hz2).
    split; [exists (z2 ++ z); rewrite Hz, Hz2, app_assoc; reflexivity|]. intros q Hq. destruct (H' q Hq) as [A|A]; [|now right].
    apply shift_all_in in A. destruct A as [A|(e & A & _ & ->)]; [now left|]. right. exists d, m, prev, e. split.
    - rewrite Hz, Hz2. rewrite !in_app_iff. left. left. eapply nth_error_In; exact En.
    - split; [exact Et|]. split; [exact Ep|]. split; [rewrite El'; exact A | reflexivity]. }
  destruct (predicted prev (dlhs d)) as [|e0 l0] eqn:Epr.
  - destruct (beq (dlhs d) AX && negb (completed prev AX)); [now apply IH in H | discriminate H].
  - apply (Hsh (e0 :: l0)); [reflexivity | exact H].
Qed.
Definition made (sets : list sset) : Prop := forall k s, nth_error sets k = Some s ->
  (k = 0 /\ build_start_set y f = Ok s) \/
  exists p set x next fuel st, k = S p /\ nth_error sets p = Some set /\ nth_error toks p = Some x /\
    complete y f fuel (firstn k sets) next 0 (shift_all y f next 1 (predicted set x) []) = Ok st /\ expand y f st = Ok s.
Lemma loop_made : forall rest sets set i r sets', made sets -> List.length sets = S i -> nth_error sets i = Some set -> rest = skipn i toks ->
  parse_loop y f sets set i rest = Ok (r, sets') -> made sets'.
Proof.
  induction rest as [|x rest IH]; intros sets set i r sets' M Hl Hs Hr H; cbn [parse_loop] in H; [injection H as _ <-; exact M|].
  destruct (predicted set x) as [|e0 l0] eqn:Ep; [injection H as _ <-; exact M|].
  destruct (next_set y f sets set x (hd_error rest)) as [new| | | |] eqn:En; try discriminate H. cbn [obind] in H.
  assert (Hx : nth_error toks i = Some x) by (rewrite <- (hd_skipn toks), <- Hr; reflexivity).
  apply IH in H; [exact H | | | |].
  - intros k s Hk. destruct (Nat.lt_ge_cases k (List.length sets)) as [L|L].
    + rewrite nth_error_app1 in Hk by exact L. destruct (M k s Hk) as [A|(p & set' & x' & next & fuel & st & A1 & A2 & A3 & A4 & A5)]; [now left|].
      right. exists p, set', x', next, fuel, st. split; [exact A1|]. split; [rewrite nth_error_app1 by lia; exact A2|]. split; [exact A3|]. split; [|exact A5].
      rewrite firstn_app. replace (k - List.length sets) with 0 by lia. cbn [firstn]. rewrite app_nil_r. exact A4.
    + assert (k = List.length sets). { assert (Z : k < List.length (sets ++ [new])) by (apply nth_error_Some; congruence). rewrite app_length in Z. cbn [List.length] in Z. lia. }
      subst k. rewrite nth_error_app2, Nat.sub_diag in Hk by lia. injection Hk as <-. right.
      unfold next_set in En. destruct (complete y f _ sets _ 0 _) as [st| | | |] eqn:Ec in En; try discriminate En. cbn [obind] in En.
      eexists i, set, x, (hd_error rest), _, st. split; [exact Hl|]. split; [rewrite nth_error_app1 by lia; exact Hs|]. split; [exact Hx|].
      split; [|exact En]. rewrite firstn_app, Nat.sub_diag, firstn_all. cbn [firstn]. rewrite app_nil_r. exact Ec.
  - rewrite app_length. cbn [List.length]. lia.
  - rewrite nth_error_app2 by lia. now rewrite Hl, Nat.sub_diag.
  - rewrite (skipn_nth toks _ _ Hx) in Hr. now injection Hr.
Qed.
Lemma parse_made r sets : perform_parse y f toks = Ok (r, sets) -> made sets.
Proof.
  unfold perform_parse. intro H. destruct (build_start_set y f) as [s0| | | |] eqn:E; try discriminate H. cbn [obind] in H.
  eapply loop_made; [| | | |exact H]; try reflexivity. intros [|k] s Hk; [|destruct k; discriminate Hk]. injection Hk as <-. left. now split.
Qed.

(** * Every dotted rule comes from the one with its dot one place before *)
Section Sets.
Variable sets : list sset.
Hypothesis G : good y toks sets.
Hypothesis M : made sets.

Lemma set_expanded k s : nth_error sets k = Some s -> exists st, expanded y f st s /\
  (forall d m, In (d, m) st -> (k = 0 /\ snd d = 0 /\ dlhs d = AX) \/
    1 <= k /\ exists e m', d = shift e /\
      ((exists prev x, nth_error sets (k - 1) = Some prev /\ nth_error toks (k - 1) = Some x /\ In (e, m') (items prev) /\ after e = Some x /\ m = m' + 1) \/
       (exists d2 m2 prev, In (d2, m2) st /\ empty_tail f d2 = true /\ 1 <= m2 <= k /\ nth_error sets (k - m2) = Some prev /\ In (e, m') (items prev) /\ after e = Some (dlhs d2) /\ m = m' + m2))).
Proof.
  intro Hk. assert (Hlen : k < List.length sets) by (apply nth_error_Some; congruence).
  assert (HD : forall i, In i (items s) -> In (fst i) D) by (intros i Hi; exact (sn_in _ _ _ _ _ (gd_snd _ _ _ G k s i Hk Hi))).
  assert (Hex : forall st, expand y f st = Ok s -> expanded y f st s).
  { intros st E. assert (Es : s_started s = st). { unfold expand in E. destruct (grow _ _ _ _ _ _ _ _) as [init| | | |] in E; try discriminate E. cbn [obind] in E. injection E as <-. reflexivity. }
    destruct (expand_ok y f st) as (s' & E1 & E2).
    { intros i Hi. apply HD. unfold items. rewrite Es. apply in_app_iff. now left. }
    rewrite E in E1. injection E1 as <-. exact E2. }
  destruct (M k s Hk) as [[-> E]|(p & set & x & next & fuel & st & -> & A2 & A3 & A4 & A5)].
  - unfold build_start_set in E. eexists. split; [apply Hex; exact E|]. intros d m Hd. left. apply in_map_iff in Hd. destruct Hd as (r & Er & Hr).
    injection Er as <- <-. apply rules_of_in in Hr. split; [reflexivity|]. split; [reflexivity | apply Hr].
  - exists st. split; [now apply Hex|]. intros d m Hd. right. split; [lia|]. apply complete_from in A4. destruct A4 as [_ A4]. destruct (A4 _ Hd) as [B|(d2 & m2 & prev & e & B1 & B2 & B3 & B4 & B5)].
    + apply shift_all_in in B. destruct B as [[]|(e & B1 & _ & B2)]. apply predicted_in in B1. destruct B1 as [B1 B3]. destruct e as [e m']. injection B2 as -> ->. cbn [fst snd] in *.
      exists e, m'. split; [reflexivity|]. left. exists set, x. replace (S p - 1) with p by lia. now repeat split.
    + destruct e as [e m']. injection B5 as -> ->. cbn [fst snd] in *. apply predicted_in in B4. destruct B4 as [B4 B6]. cbn [fst] in B6.
      rewrite firstn_length, Nat.min_l in B3 by lia.
      assert (Hm : S p - m2 < S p) by (apply (f_equal (fun o => match o with Some _ => true | None => false end)) in B3; destruct (Nat.lt_ge_cases (S p - m2) (S p)) as [L|L]; [exact L|];
        exfalso; assert (Z : nth_error (firstn (S p) sets) (S p - m2) = None) by (apply nth_error_None; rewrite firstn_length; lia); rewrite Z in B3; discriminate B3).
      exists e, m'. split; [reflexivity|]. right. exists d2, m2, prev. split; [exact B1|]. split; [exact B2|].
      assert (Hle : m2 <= S p).
      { assert (Q : In (d2, m2) (items s)). { unfold items. assert (X := Hex st A5). rewrite (ex_started _ _ _ _ X). apply in_app_iff. now left. }
        exact (sn_le _ _ _ _ _ (gd_snd _ _ _ G (S p) s _ Hk Q)). }
      split; [lia|]. split; [|now repeat split].
      rewrite <- B3. rewrite <- (firstn_skipn (S p) sets) at 1. rewrite nth_error_app1; [reflexivity|]. rewrite firstn_length. lia.
Qed.

Lemma nt_not_term x : In x (ys_terms y) -> ~ nullable R x.
Proof. intros Hx H. apply (term_steps y W _ _ Hx) in H. discriminate H. Qed.

(** A symbol that can be empty is completed where it is expected. *)
Lemma empty_ends (C : cond2) k s d x : nth_error sets k = Some s -> (exists m, In (d, m) (items s)) -> after d = Some x -> nullable R x -> x <> AX ->
  exists e, In (e, 0) (items s) /\ at_end e = true /\ dlhs e = x.
Proof.
  intros Hk Hd Ha Hx Nx. destruct (set_expanded k s Hk) as (st & E & Hst).
  assert (Hn : forall e, In e (map fst (s_nys s)) -> snd e = 0 \/ (snd e = 1 /\ dlhs e <> AX) -> False).
  { intros e He Hs. apply in_map_iff in He. destruct He as ([e' p] & <- & He). cbn [fst] in *. apply (ex_nys _ _ _ _ E) in He. destruct He as (p' & e & n & H & Hn & _ & Eq).
    injection Eq as -> ->. cbn [snd] in Hs. apply nth_map_inv in H. destruct H as ([e2 m] & H & He). cbn [fst] in He. subst e2. apply nth_error_In in H.
    destruct (Hst e m H) as [(_ & B1 & B2)|(_ & e0 & m' & -> & _)].
    - destruct Hs as [Hs|[_ Hs]]; [lia | exact (Hs B2)].
    - unfold shift in Hs. cbn [snd] in Hs. lia. }
  assert (Hnt : ~ In x (ys_terms y)) by (intro T; exact (nt_not_term x T Hx)).
  assert (Hr : exists g, In (x, g) R /\ steps R g []).
  { inversion Hx as [|? u ? H1 H2]. apply step_single in H1. now exists u. }
  destruct Hr as (g & Hr & Hg). apply (map_items y f toks HA _ _ _ E) in Hd.
  assert (X : In ((x, g), 0) (s_init s)).
  { assert (Z := ex_rules _ _ _ _ E d x (x, g) Hd Ha Hnt Hr eq_refl). apply in_app_iff in Z. destruct Z as [Z|Z]; [|exact Z]. exfalso. apply (Hn _ Z). now left. }
  assert (Hg2 := steps_nil_all R g Hg). destruct g as [|c [|c2 g]].
  - exists ((x, []), 0). split; [|now split]. apply (items_in y f toks HA st s); [exact E|]. right. right. now split.
  - inversion Hg2 as [|? ? H1 _]; subst. assert (Z : In (shift ((x, [c]), 0)) (map fst (s_nys s) ++ s_init s)) by (apply (ex_shift _ _ _ _ E _ c X); [reflexivity | now apply HE]).
    unfold shift in Z. cbn [fst snd] in Z. exists ((x, [c]), 1). split; [|now split]. apply (items_in y f toks HA st s); [exact E|]. right. right. split; [|reflexivity]. cbn [fst].
    apply in_app_iff in Z. destruct Z as [Z|Z]; [|exact Z]. exfalso. apply (Hn _ Z). right. split; [reflexivity | exact Nx].
  - exfalso. inversion Hg2 as [|? ? H1 H2]; subst. inversion H2 as [|? ? H3 _]; subst. exact (C x c c2 g Hr H1 H3).
Qed.

Lemma back (C : cond2) k s r p m x : nth_error sets k = Some s -> In ((r, S p), m) (items s) -> nth_error (snd r) p = Some x ->
  (In x (ys_terms y) -> 1 <= k /\ exists prev m', nth_error sets (k - 1) = Some prev /\ In ((r, p), m') (items prev) /\ m = m' + 1) /\
  (~ In x (ys_terms y) -> exists e m2 prev m', In (e, m2) (items s) /\ at_end e = true /\ dlhs e = x /\ nth_error sets (k - m2) = Some prev /\ In ((r, p), m') (items prev) /\ m = m' + m2).
Proof.
  intros Hk Hi Hx. destruct (set_expanded k s Hk) as (st & E & Hst).
  assert (HD := sn_in _ _ _ _ _ (gd_snd _ _ _ G k s _ Hk Hi)). cbn [fst] in HD. apply all_drules_in in HD. destruct HD as [HD _].
  assert (NAX : x <> AX). { intros ->. destruct r as [A rhs]. exact (HA A rhs HD (nth_error_In _ _ Hx)). }
  assert (Hempty : nullable R x -> forall m0, In ((r, p), m0) (items s) -> m = m0 ->
    (In x (ys_terms y) -> 1 <= k /\ exists prev m', nth_error sets (k - 1) = Some prev /\ In ((r, p), m') (items prev) /\ m = m' + 1) /\
    (~ In x (ys_terms y) -> exists e m2 prev m', In (e, m2) (items s) /\ at_end e = true /\ dlhs e = x /\ nth_error sets (k - m2) = Some prev /\ In ((r, p), m') (items prev) /\ m = m' + m2)).
  { intros Hn m0 H0 ->. split; [intro T; exfalso; exact (nt_not_term x T Hn)|]. intros _.
    destruct (empty_ends C k s (r, p) x Hk (ex_intro _ m0 H0)) as (e & E1 & E2 & E3); [unfold after, drhs; cbn [fst snd]; exact Hx | exact Hn | exact NAX |].
    exists e, 0, s, m0. rewrite Nat.sub_0_r, Nat.add_0_r. now repeat split. }
  apply (items_in y f toks HA _ _ _ E) in Hi. cbn [fst snd] in Hi. destruct Hi as [Hi|[Hi|[Hi ->]]].
  - destruct (Hst _ _ Hi) as [(_ & B & _)|(K1 & e & m' & B1 & B2)]; [discriminate B|]. destruct e as [r' j]. unfold shift in B1. cbn [fst snd] in B1. injection B1 as <- <-.
    destruct B2 as [(prev & z & B2 & B3 & B4 & B5 & ->)|(d2 & m2 & prev & B2 & B3 & B4 & B5 & B6 & B7 & ->)].
    + unfold after, drhs in B5. cbn [fst snd] in B5. rewrite Hx in B5. injection B5 as ->. split; [intros _; split; [exact K1|]; exists prev, m'; now repeat split|].
      intro T. exfalso. apply T, HT. eapply nth_error_In; exact B3.
    + unfold after, drhs in B7. cbn [fst snd] in B7. rewrite Hx in B7. injection B7 as ->.
      assert (Hd2 : In (d2, m2) (items s)) by (apply (items_in y f toks HA st s); [exact E | now left]).
      assert (Hd2D := sn_in _ _ _ _ _ (gd_snd _ _ _ G k s _ Hk Hd2)). cbn [fst] in Hd2D. destruct d2 as [r2 j2]. apply all_drules_in in Hd2D. destruct Hd2D as [Hr2 Hj2].
      split. { intro T. exfalso. destruct r2 as [A rhs]. unfold dlhs in T. cbn [fst] in T. apply (wf_disj y W A T). exact (wf_lhs y W _ _ Hr2). }
      intros _. exists (r2, List.length (snd r2)), m2, prev, m'.
      assert (H2 : In ((r2, List.length (snd r2)), m2) (items s)).
      { destruct (Nat.eq_dec j2 (List.length (snd r2))) as [->|Ne]; [exact Hd2|]. apply (items_in y f toks HA st s); [exact E|]. right. left. cbn [fst snd].
        apply (nys_in y f st s _ _ E). exists (r2, j2), (List.length (snd r2) - j2). unfold drhs. cbn [fst snd]. rewrite skipn_length. split; [exact B2|]. split; [lia|].
        split; [|f_equal; lia]. unfold empty_tail, drhs in B3. cbn [fst snd] in B3. unfold nullb. rewrite firstn_all2 by (rewrite skipn_length; lia). exact B3. }
      split; [exact H2|]. split; [|now repeat split]. unfold at_end, after, drhs. cbn [fst snd]. now rewrite (proj2 (nth_error_None (snd r2) (List.length (snd r2)))).
  - apply (nys_in y f st s _ _ E) in Hi. destruct Hi as (e & n & Hi & Hn & Hb & Eq). destruct e as [r' j]. cbn [fst snd] in *. unfold drhs in *. cbn [fst snd] in *. rewrite skipn_length in Hn.
    assert (Er : r' = r) by exact (eq_sym (f_equal fst Eq)). assert (Ej : S p = j + n) by exact (f_equal snd Eq). subst r'.
    destruct n as [|n]; [lia|]. assert (p = j + n) by lia. subst p.
    assert (Hx2 : nth_error (skipn j (snd r)) n = Some x). { rewrite <- Hx. rewrite <- (firstn_skipn j (snd r)) at 2. rewrite nth_error_app2; rewrite firstn_length, Nat.min_l by lia; [f_equal; lia | lia]. }
    rewrite (nth_error_firstn _ _ _ Hx2) in Hb. unfold nullb in Hb. rewrite forallb_app in Hb. apply andb_true_iff in Hb. destruct Hb as [Hb1 Hb2]. cbn [forallb] in Hb2. rewrite andb_true_r in Hb2. apply HE in Hb2.
    apply (Hempty Hb2 m); [|reflexivity]. apply (items_in y f toks HA st s); [exact E|]. cbn [fst snd]. destruct n as [|n]; [left; rewrite Nat.add_0_r; exact Hi|].
    right. left. apply (nys_in y f st s _ _ E). exists (r, j), (S n). unfold drhs. cbn [fst snd]. split; [exact Hi|]. rewrite skipn_length. split; [lia|]. split; [exact Hb1 | reflexivity].
  - destruct (ex_init _ _ _ _ E _ Hi) as (B1 & B2 & e & B3 & B4 & _). unfold drhs, dlhs in *. cbn [fst snd] in *.
    assert (Hp : p = 0 /\ nullable R x).
    { apply (nullb_iff y f HE) in B2. rewrite (nth_error_firstn _ _ _ Hx) in B2. apply steps_nil_all in B2. apply Forall_app in B2. destruct B2 as [B2 B5]. inversion B5 as [|? ? B6 _]; subst.
      split; [|exact B6]. destruct p as [|p]; [reflexivity|]. exfalso. destruct r as [A [|a1 rhs]]; [discriminate Hx|]. cbn [snd firstn nth_error] in *. inversion B2 as [|? ? B7 B8]; subst.
      destruct rhs as [|a2 rhs]; [destruct p; discriminate Hx|]. apply (C A a1 a2 rhs HD B7). destruct p as [|p]; [injection Hx as ->; exact B6|]. cbn [firstn] in B8. now inversion B8. }
    destruct Hp as [-> Hn]. apply (Hempty Hn 0); [|reflexivity].
    assert (Z : In (r, 0) (map fst (s_nys s) ++ s_init s)).
    { apply (ex_rules _ _ _ _ E e (fst r) r B3 B4); [|exact HD|reflexivity]. intro T. destruct r as [A rhs]. cbn [fst] in T. apply (wf_disj y W A T). exact (wf_lhs y W _ _ HD). }
    apply in_app_iff in Z. apply (items_in y f toks HA st s); [exact E|]. right. right. cbn [fst snd]. split; [|reflexivity]. destruct Z as [Z|Z]; [|exact Z]. exfalso.
    apply in_map_iff in Z. destruct Z as ([e' q] & Ee & Z). cbn [fst] in Ee. subst e'. apply (ex_nys _ _ _ _ E) in Z. destruct Z as (p' & e' & n & _ & Hn' & _ & Eq). apply (f_equal (fun a => snd (fst a))) in Eq. cbn [fst snd] in Eq. lia.
Qed.

(** * The choice of a completion *)
Lemma ends_of_in s x i : In i (ends_of s x) <-> In i (items s) /\ at_end (fst i) = true /\ dlhs (fst i) = x.
Proof. unfold ends_of. rewrite filter_In, andb_true_iff, beq_eq. tauto. Qed.
Definition fits (r : rule) (pos from k : nat) (m : nat) : Prop := exists c e, nth_error sets (k - m) = Some c /\ In e (items c) /\ fst e = (r, pos) /\ from + snd e = k - m.
Lemma pick_ok r pos from k x (Hx : nth_error (snd r) pos = Some x) : forall l found,
  (forall d m, In (d, m) l -> m <= k /\ exists c, nth_error sets (k - m) = Some c /\ has_vector c x = true) ->
  exists res, pick sets r pos from k x l found = Ok res /\
  match found with
  | Some c => res = Some c
  | None =>
    match res with
    | Some (d, k') => exists m, In (d, m) l /\ k' = k - m /\ fits r pos from k m
    | None => forall d m, In (d, m) l -> ~ fits r pos from k m
    end
  end.
Proof.
  induction l as [|[d m] l IH]; intros found H; cbn [pick].
  - exists found. split; [reflexivity|]. destruct found; [reflexivity|]. intros d m [].
  - destruct (H d m) as (Hm & c & Hc & Hv); [now left|]. rewrite (proj2 (Nat.ltb_ge k m) Hm), Hc, Hv.
    assert (H' : forall d m, In (d, m) l -> m <= k /\ exists c, nth_error sets (k - m) = Some c /\ has_vector c x = true) by (intros d' m' A; apply (H d' m'); now right).
    destruct (existsb _ (predicted c x)) eqn:Ex.
    + assert (Hf : fits r pos from k m).
      { apply existsb_exists in Ex. destruct Ex as (e & E1 & E2). apply andb_true_iff in E2. destruct E2 as [E2 E3]. apply drule_eqb_eq in E2. apply Nat.eqb_eq in E3.
        apply predicted_in in E1. exists c, e. split; [exact Hc|]. split; [apply E1|]. now split. }
      destruct found as [c0|]; [exists (Some c0); now split|]. destruct (IH (Some (d, k - m)) H') as (res & E1 & ->). exists (Some (d, k - m)). split; [exact E1|].
      exists m. split; [now left|]. split; [reflexivity | exact Hf].
    + assert (Hf : ~ fits r pos from k m).
      { intros (c' & e & F1 & F2 & F3 & F4). rewrite Hc in F1. injection F1 as <-. assert (Z : existsb (fun e : item => drule_eqb (fst e) (r, pos) && (from + snd e =? k - m)) (predicted c x) = true).
        { apply existsb_exists. exists e. split; [|apply andb_true_iff; split; [now apply drule_eqb_eq | now apply Nat.eqb_eq]]. apply predicted_in. split; [exact F2|]. rewrite F3. exact Hx. }
        assert (Q := eq_trans (eq_sym Z) Ex); discriminate Q. }
      destruct (IH found H') as (res & E1 & E2). exists res. split; [exact E1|]. destruct found as [c0|]; [exact E2|]. destruct res as [[d0 k0]|].
      * destruct E2 as (m0 & A & B1). exists m0. split; [now right | exact B1].
      * intros d0 m0 [A|A]; [injection A as <- <-; exact Hf | now apply (E2 d0)].
Qed.

(** * The walk *)
Notation T := (fun t => In t (ys_terms y)).
Lemma trees_app a : forall ks u b js v, trees_for T R a ks u -> trees_for T R b js v -> trees_for T R (a ++ b) (ks ++ js) (u ++ v).
Proof.
  induction a as [|x a IH]; intros ks u b js v H1 H2; inversion H1; subst; cbn [app]; [exact H2|]. rewrite <- app_assoc. constructor; [assumption | now apply IH].
Qed.
Hypothesis Hlen : List.length sets <= S (List.length toks).
Definition goes (r : rule) (pos from k : nat) (acc : list dtree) : Prop := exists n res,
  (forall fuel, n <= fuel -> walk y sets fuel r pos from k acc = res) /\
  (res = Abrt \/ exists ks, res = Ok (ks ++ acc) /\ trees_for T R (firstn pos (snd r)) ks (seg from k)) /\
  (cond2 -> forall s, nth_error sets k = Some s -> In ((r, pos), k - from) (items s) -> res <> Abrt).
Lemma seg_len i k : i <= k <= List.length toks -> List.length (seg i k) = k - i.
Proof. intro H. rewrite firstn_length, skipn_length. lia. Qed.
Lemma walk_ok : forall span A, Acc (unit R) A -> forall r from K, fst r = A -> In r R -> from <= K -> K - from = span -> K < List.length sets ->
  forall pos k acc, pos <= List.length (snd r) -> from <= k <= K -> steps R (firstn pos (snd r)) (seg from k) -> steps R (skipn pos (snd r)) (seg k K) -> goes r pos from k acc.
Proof.
  induction span as [span IHs] using lt_wf_ind. intros A HAcc. induction HAcc as [A _ IHA]. intros r from K EA Hr HfK Hsp HK.
  induction pos as [|pos IHp]; intros k acc Hpos Hk Hs1 Hs2.
  - cbn [firstn] in Hs1. apply steps_from_nil in Hs1. exists 1, (Ok acc). split; [intros [|fuel] Hf; [lia|]; destruct fuel; reflexivity|]. split.
    + right. exists []. split; [reflexivity|]. rewrite Hs1. constructor.
    + discriminate.
  - destruct (nth_error (snd r) pos) as [x|] eqn:Ex; [|apply nth_error_None in Ex; lia].
    assert (Hsplit := nth_split3 _ _ _ Ex). assert (Hskip : skipn pos (snd r) = x :: skipn (S pos) (snd r)).
    { rewrite Hsplit at 1. rewrite skipn_app. rewrite firstn_length, Nat.min_l by lia. rewrite Nat.sub_diag. rewrite skipn_all2 by (rewrite firstn_length; lia). reflexivity. }
    rewrite (nth_error_firstn _ _ _ Ex) in Hs1. destruct (nth_error sets k) as [s|] eqn:Es; [|apply nth_error_None in Es; lia].
    assert (Hrest : forall j, from <= j <= k -> steps R [x] (seg j k) -> steps R (skipn pos (snd r)) (seg j K)).
    { intros j Hj Hx. rewrite Hskip. rewrite <- (seg_app y toks HA j k K) by lia. apply (steps_app R [x] _ (skipn (S pos) (snd r)) _ Hx Hs2). }
    destruct (mem x (ys_terms y)) eqn:Em.
    + apply mem_iff in Em. apply steps_split in Hs1. destruct Hs1 as (w1 & w2 & Ew & H1 & H2). apply (term_steps y W _ _ Em) in H2. subst w2.
      destruct (seg_parts y toks HA from k w1 [x]) as (j & Hj & -> & Ej); [lia | exact Ew|].
      assert (Hkj : k = S j). { apply (f_equal (@List.length _)) in Ej. cbn [List.length] in Ej. rewrite seg_len in Ej by lia. lia. }
      destruct (IHp j (DTerm x :: acc)) as (n & res & N1 & N2 & N3); [lia | lia | exact H1 | |].
      { apply Hrest; [lia|]. rewrite <- Ej. apply steps_refl. }
      exists (S n), res. split; [|split].
      * intros [|fuel] Hf; [lia|]. cbn [walk]. rewrite Ex. apply mem_iff in Em. rewrite Em. rewrite Hkj. apply N1. lia.
      * destruct N2 as [N2|(ks & N2 & N4)]; [now left|]. right. exists (ks ++ [DTerm x]). split; [rewrite <- app_assoc; exact N2|].
        rewrite (nth_error_firstn _ _ _ Ex). rewrite Ew. apply trees_app; [exact N4|]. change [x] with ([x] ++ []) at 2. constructor; [now constructor | constructor].
      * intros C s' Hs' Hin. assert (s' = s) by congruence. subst s'. destruct (back C k s r pos _ x Hs' Hin Ex) as [B1 _]. destruct (B1 Em) as (_ & prev & m' & B2 & B3 & B4).
        apply (N3 C prev); [replace j with (k - 1) by lia; exact B2|]. replace (j - from) with m' by lia. exact B3.
    + assert (Nt : ~ In x (ys_terms y)) by (intro Z; apply mem_iff in Z; congruence).
      assert (NAX : x <> AX). { intros ->. destruct r as [L rhs]. exact (HA L rhs Hr (nth_error_In _ _ Ex)). }
      assert (Hbk : cond2 -> In ((r, S pos), k - from) (items s) -> exists e m2, In (e, m2) (ends_of s x) /\ fits r pos from k m2).
      { intros C Hin. destruct (back C k s r pos _ x Es Hin Ex) as [_ B]. destruct (B Nt) as (e & m2 & prev & m' & B1 & B2 & B3 & B4 & B5 & B6).
        exists e, m2. split; [apply ends_of_in; cbn [fst]; now repeat split|]. exists prev, ((r, pos), m'). split; [exact B4|]. split; [exact B5|]. split; [reflexivity|]. cbn [snd]. lia. }
      assert (Hpre : forall d m, In (d, m) (ends_of s x) -> m <= k /\ exists c, nth_error sets (k - m) = Some c /\ has_vector c x = true).
      { intros d m Hd. apply ends_of_in in Hd. destruct Hd as (D1 & D2 & D3). destruct (gd_snd _ _ _ G k s _ Es D1) as [A1 A2 A3 A4 A5]. cbn [fst snd] in *. split; [exact A2|].
        destruct A5 as [[A5 _]|(c & e & A5 & A6 & A7)]; [exfalso; apply NAX; congruence|]. exists c. split; [exact A5|]. unfold has_vector. rewrite D3 in A7.
        destruct (predicted c x) eqn:Ep; [|reflexivity]. exfalso. assert (Z : In e (predicted c x)) by (apply predicted_in; now split). rewrite Ep in Z. destruct Z. }
      destruct (ends_of s x) as [|i0 l0] eqn:Ee.
      { exists 1, Abrt. split; [|split; [now left|]].
        - intros [|fuel] Hf; [lia|]. cbn [walk]. now rewrite Ex, Em, Es, Ee.
        - intros C s' Hs' Hin. assert (s' = s) by congruence. subst s'. destruct (Hbk C Hin) as (e & m2 & [] & _). }
      rewrite <- Ee in *. destruct (pick_ok r pos from k x Ex (ends_of s x) None Hpre) as (res & P1 & P2).
      assert (Hwalk : forall fuel, walk y sets (S fuel) r (S pos) from k acc =
        match res with None => Abrt | Some (d, k') => obind (walk y sets fuel (fst d) (snd d) k' k []) (fun ks => walk y sets fuel r pos from k' (DNode (fst d) ks :: acc)) end).
      { intro fuel. cbn [walk]. rewrite Ex, Em, Es. rewrite Ee in P1 |- *. rewrite P1. cbn [obind]. now destruct res as [[d k']|]. }
      destruct res as [[d k']|].
      2: { exists 1, Abrt. split; [intros [|fuel] Hf; [lia | apply Hwalk]|]. split; [now left|].
           intros C s' Hs' Hin. assert (s' = s) by congruence. subst s'. destruct (Hbk C Hin) as (e & m2 & Z1 & Z2). exfalso. exact (P2 e m2 Z1 Z2). }
      destruct P2 as (m & P2 & -> & c & e & P3 & P4 & P5 & P6). apply ends_of_in in P2. destruct P2 as (Q1 & Q2 & Q3). cbn [fst] in Q2, Q3.
      destruct (gd_snd _ _ _ G k s _ Es Q1) as [A1 A2 A3 _ _]. cbn [fst snd] in *. destruct d as [[L rhs] j]. unfold dlhs, drhs in *. cbn [fst snd] in *. subst L.
      apply all_drules_in in A1. destruct A1 as [A1 Hj]. cbn [snd] in Hj.
      assert (j = List.length rhs). { unfold at_end, after, drhs in Q2. cbn [fst snd] in Q2. destruct (nth_error rhs j) eqn:Ej; [discriminate Q2|]. apply nth_error_None in Ej. lia. } subst j.
      rewrite firstn_all in A3. set (k' := k - m) in *.
      destruct (gd_snd _ _ _ G k' c _ P3 P4) as [_ E2 E3 _ _]. rewrite P5 in E3. unfold drhs in E3. cbn [fst snd] in E3. replace (k' - snd e) with from in E3 by lia.
      assert (Hxk : steps R [x] (seg k' k)) by (eapply steps_trans; [apply steps_rule; exact A1 | exact A3]).
      assert (Hchild : goes (x, rhs) (List.length rhs) k' k []).
      { assert (F1 : steps R (firstn (List.length rhs) (snd (x, rhs))) (seg k' k)) by (cbn [snd]; rewrite firstn_all; exact A3).
        assert (F2 : steps R (skipn (List.length rhs) (snd (x, rhs))) (seg k k)) by (cbn [snd]; rewrite skipn_all, Nat.sub_diag; apply steps_refl).
        destruct (Nat.lt_ge_cases (k - k') span) as [L|L].
        - apply (IHs (k - k') L x (unit_wf R No x) (x, rhs) k' k); try assumption; try reflexivity; try (cbn [snd]; lia); lia.
        - assert (k = K /\ k' = from) by lia. destruct H as [EK Ef]. apply (IHA x) with (K := k); try assumption; try reflexivity; try (cbn [snd]; lia); try lia.
          destruct r as [A' rhs0]. cbn [fst snd] in *. subst A'. exists rhs0. split; [now apply step_rule1|]. rewrite Hsplit.
          rewrite Ef, Nat.sub_diag in E3. rewrite EK, Nat.sub_diag in Hs2. cbn [firstn] in E3, Hs2.
          change [x] with ([] ++ [x]). apply steps_app; [exact E3|]. change (x :: skipn (S pos) rhs0) with ([x] ++ skipn (S pos) rhs0). change [x] with ([x] ++ []) at 2. apply steps_app; [apply steps_refl | exact Hs2]. }
      destruct Hchild as (n1 & res1 & C1 & C2 & C3). destruct C2 as [->|(ks1 & -> & C4)].
      * exists (S n1), Abrt. split; [intros [|fuel] Hf; [lia|]; rewrite Hwalk, C1 by lia; reflexivity|]. split; [now left|].
        intros C s' Hs' Hin. assert (s' = s) by congruence. subst s'. exfalso. apply (C3 C s Hs'); [|reflexivity]. replace (k - k') with m by lia. exact Q1.
      * rewrite app_nil_r in C1. destruct (IHp k' (DNode (x, rhs) ks1 :: acc)) as (n2 & res2 & N1 & N2 & N3); [lia | lia | exact E3 | apply Hrest; [lia | exact Hxk]|].
        exists (S (n1 + n2)), res2. split; [intros [|fuel] Hf; [lia|]; rewrite Hwalk, C1 by lia; cbn [obind]; apply N1; lia|]. split.
        -- destruct N2 as [N2|(ks & N2 & N4)]; [now left|]. right. exists (ks ++ [DNode (x, rhs) ks1]). split; [rewrite <- app_assoc; exact N2|].
           rewrite (nth_error_firstn _ _ _ Ex). rewrite <- (seg_app y toks HA from k' k) by lia. apply trees_app; [exact N4|].
           replace (seg k' k) with (seg k' k ++ []) by apply app_nil_r. constructor; [|constructor]. constructor; [exact A1|]. cbn [snd] in C4. rewrite firstn_all in C4. exact C4.
        -- intros C s' Hs' Hin. apply (N3 C c P3). replace (k' - from) with (snd e) by lia. rewrite <- P5. now destruct e.
Qed.
End Sets.
End S.
