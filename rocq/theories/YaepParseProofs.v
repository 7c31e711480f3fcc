(** The sets of YaepParse and derivations *)
From Coq Require Import NArith ZArith List Bool Arith String Lia.
From Verif Require Import Bytes BytesFacts Outcome Ixml Yaep YaepSpec YaepGram YaepProofs YaepParse YaepParseFacts YaepTrees.
Import ListNotations.
Local Open Scope list_scope.
Local Open Scope nat_scope.

Lemma nth_error_firstn {A} (l : list A) j x : nth_error l j = Some x -> firstn (S j) l = firstn j l ++ [x].
Proof.
  revert j. induction l as [|a l IH]; intros [|j] E; cbn [nth_error] in E; try discriminate E.
  - injection E as ->. reflexivity.
  - cbn [firstn app]. f_equal. now apply IH.
Qed.

Lemma skipn_skip {A} (l : list A) n m : skipn n (skipn m l) = skipn (m + n) l.
Proof. revert l. induction m as [|m IH]; intro l; [reflexivity|]. destruct l as [|a l]; [cbn; now rewrite skipn_nil|]. cbn [skipn Nat.add]. apply IH. Qed.
Lemma app_inj2 {A} (a b c d : list A) : List.length a = List.length c -> a ++ b = c ++ d -> a = c /\ b = d.
Proof.
  revert c. induction a as [|x a IH]; intros [|z c] L E; try discriminate L; [now split|].
  injection L as L. cbn [app] in E. injection E as -> E. destruct (IH c L E) as [-> ->]. now split.
Qed.
Lemma firstn_more {A} (l : list A) n m : firstn (n + m) l = firstn n l ++ firstn m (skipn n l).
Proof. revert l. induction n as [|n IH]; intro l; [reflexivity|]. destruct l as [|a l]; [cbn; now rewrite firstn_nil|]. cbn [firstn skipn Nat.add app]. now rewrite IH. Qed.
Lemma nth_split3 {A} (l : list A) j x : nth_error l j = Some x -> l = firstn j l ++ x :: skipn (S j) l.
Proof.
  revert j. induction l as [|a l IH]; intros [|j] E; cbn [nth_error] in E; try discriminate E; [injection E as ->; reflexivity|].
  cbn [firstn skipn app]. f_equal. now apply IH.
Qed.

Lemma nth_map_inv {A C} (g : A -> C) l p d : nth_error (map g l) p = Some d -> exists i, nth_error l p = Some i /\ g i = d.
Proof. rewrite nth_error_map. destruct (nth_error l p) as [i|]; cbn [option_map]; intro H; [|discriminate H]. injection H as <-. now exists i. Qed.
Lemma nth_map_some {A C} (g : A -> C) l p i : nth_error l p = Some i -> nth_error (map g l) p = Some (g i).
Proof. intro H. rewrite nth_error_map, H. reflexivity. Qed.

Section S.
Variable y : ystate.
Variable f : flags.
Variable toks : list bytes.
Notation R := (ys_rules y).
Notation AX := AXIOM.
Hypothesis W : wf y.
Hypothesis HE : forall x, f (KEmpty x) = true <-> nullable R x.
Hypothesis HF : forall x t, In x (ys_nts y) -> In t (ys_terms y) -> first R x t -> f (KFirst x t) = true.
Hypothesis HL : forall x t, In x (ys_nts y) -> In t (ys_terms y) -> follow R x t -> f (KFollow x t) = true.
Hypothesis HA : forall x rhs, In (x, rhs) R -> ~ In AX rhs.
Hypothesis HT : forall t, In t toks -> In t (ys_terms y).
Notation pre k := (firstn k toks).
Notation seg i k := (firstn (k - i) (skipn i toks)).
Notation viable u := (steps R [AX] u).

(** ** Parts of the text *)
Lemma seg_app i j k : i <= j <= k -> seg i j ++ seg j k = seg i k.
Proof.
  intro H. replace (k - i) with ((j - i) + (k - j)) by lia. rewrite <- (firstn_skipn (j - i) (firstn (j - i + (k - j)) (skipn i toks))).
  rewrite firstn_firstn, skipn_firstn_comm. replace (min (j - i) (j - i + (k - j))) with (j - i) by lia. f_equal.
  replace (j - i + (k - j) - (j - i)) with (k - j) by lia. rewrite skipn_skip. f_equal. f_equal. lia.
Qed.
Lemma pre_seg i k : i <= k -> pre i ++ seg i k = pre k.
Proof. intro H. assert (A := seg_app 0 i k). rewrite !Nat.sub_0_r in A. cbn [skipn] in A. apply A. lia. Qed.
Lemma seg_nil k : seg k k = [].
Proof. now rewrite Nat.sub_diag. Qed.
Lemma skipn_nth k x : nth_error toks k = Some x -> skipn k toks = x :: skipn (S k) toks.
Proof.
  clear. revert k. induction toks as [|a l IH]; intros [|k] E; cbn [nth_error] in E; try discriminate E.
  - injection E as ->. reflexivity.
  - cbn [skipn]. now apply IH.
Qed.
Lemma seg_one k x : nth_error toks k = Some x -> seg k (S k) = [x].
Proof. intro H. rewrite (skipn_nth _ _ H). replace (S k - k) with 1 by lia. reflexivity. Qed.
Lemma seg_length i k : i <= k <= List.length toks -> List.length (seg i k) = k - i.
Proof. intro H. rewrite firstn_length, skipn_length. lia. Qed.
Lemma seg_head i k : i < k <= List.length toks -> exists t u, nth_error toks i = Some t /\ seg i k = t :: u.
Proof.
  intro H. destruct (nth_error toks i) as [t|] eqn:E; [|apply nth_error_None in E; lia].
  exists t. rewrite (skipn_nth _ _ E). replace (k - i) with (S (k - i - 1)) by lia. cbn [firstn]. eexists. split; reflexivity.
Qed.
(** parts of [pre k] *)
Lemma pre_parts k u1 u2 : k <= List.length toks -> pre k = u1 ++ u2 -> exists i, i <= k /\ u1 = pre i /\ u2 = seg i k.
Proof.
  intros Hk E. assert (El : k = List.length u1 + List.length u2) by (rewrite <- app_length, <- E, firstn_length; lia).
  exists (List.length u1). split; [lia|]. assert (A := pre_seg (List.length u1) k). rewrite E in A.
  assert (A1 : List.length (pre (List.length u1)) = List.length u1) by (rewrite firstn_length; lia).
  assert (Q := A ltac:(lia)). apply app_inj2 in Q; [|exact A1]. destruct Q as [Q1 Q2]. now rewrite Q1, Q2.
Qed.
Lemma seg_parts i k u1 u2 : i <= k <= List.length toks -> seg i k = u1 ++ u2 -> exists j, i <= j <= k /\ u1 = seg i j /\ u2 = seg j k.
Proof.
  intros Hk E. assert (El : k - i = List.length u1 + List.length u2) by (rewrite <- app_length, <- E, seg_length; lia).
  exists (i + List.length u1). split; [lia|]. assert (A := seg_app i (i + List.length u1) k ltac:(lia)). rewrite E in A.
  apply app_inj2 in A; [|rewrite seg_length; lia]. destruct A as [A1 A2]. now rewrite A1, A2.
Qed.

(** ** Grammar *)
Lemma term_steps t u : In t (ys_terms y) -> steps R [t] u -> u = [t].
Proof.
  intros Ht H. inversion H as [|a b c Hs]; [reflexivity|]. subst. apply step_single in Hs. apply (wf_lhs y W) in Hs. exfalso. now apply (wf_disj y W t).
Qed.
Lemma sym_kind x rhs z : In (x, rhs) R -> In z rhs -> In z (ys_terms y) \/ In z (ys_nts y).
Proof. apply (wf_rhs y W). Qed.
Lemma nullb_iff l : nullb f l = true <-> steps R l [].
Proof.
  unfold nullb. rewrite forallb_forall. split.
  - intro H. apply nullables. apply Forall_forall. intros x Hx. apply HE. now apply H.
  - intros H x Hx. apply HE. apply steps_nil_all in H. rewrite Forall_forall in H. now apply H.
Qed.
Lemma viable_axiom u v : viable (u ++ AX :: v) -> u = [] /\ v = [].
Proof.
  intro H. apply steps_stepsn in H. destruct H as (n & H). apply origin in H. destruct H as [(A & _ & C)|(m & b & g & d & u1 & u2 & v2 & _ & Hb & _)]; [now split|].
  exfalso. apply (HA _ _ Hb). apply in_app_iff. right. now left.
Qed.
Lemma viable_rule u x rhs v : In (x, rhs) R -> viable (u ++ x :: v) -> viable (u ++ rhs ++ v).
Proof. intros H A. eapply steps_trans; [exact A|]. apply steps_one. now constructor. Qed.

Definition fut (k : nat) (u : list bytes) : Prop := forall t, nth_error toks k = Some t -> exists v, steps R u (t :: v).
Lemma fut_steps k u v : steps R u v -> fut k v -> fut k u.
Proof. intros H A t Ht. destruct (A t Ht) as (w & E). exists w. eapply steps_trans; eassumption. Qed.

Lemma look_tail A v u : viable (u ++ A :: v) -> In A (ys_nts y) -> forall g t v', (forall z, In z g -> In z (ys_terms y) \/ In z (ys_nts y)) -> In t (ys_terms y) ->
  steps R (g ++ v) (t :: v') -> tail_has y f A g t = true.
Proof.
  intros Hv HAn. induction g as [|x g IH]; intros t v' Hg Ht H; cbn [tail_has app] in *.
  - apply HL; [exact HAn | exact Ht|]. assert (X : viable (u ++ A :: t :: v')).
    { eapply steps_trans; [exact Hv|]. assert (C := steps_app R (u ++ [A]) (u ++ [A]) v (t :: v') (steps_refl _ _) H). now rewrite <- !app_assoc in C. }
    assert (In1 : exists rhs, In (AX, rhs) R).
    { inversion Hv as [z E0 E|a b c Hs]; [|exists b; now apply step_single].
      symmetry in E. assert (E2 : u = [] /\ v = []). { destruct u as [|z' u]; cbn [app] in E; [injection E as _ E; now split | destruct u; discriminate E]. }
      destruct E2 as [_ ->]. apply steps_from_nil in H. discriminate H. }
    destruct In1 as (rhs & Hr). exists AX, rhs, u, v'. now split.
  - apply (steps_split R [x] (g ++ v)) in H. destruct H as (w1 & w2 & E & H1 & H2). destruct w1 as [|t' w1].
    + cbn [app] in E. subst w2. unfold empty_p. rewrite (proj2 (HE x) H1). apply orb_true_iff. right.
      apply (IH t v'); [intros z Hz; apply Hg; now right | exact Ht | exact H2].
    + injection E as <- _. apply orb_true_iff. left. destruct (mem x (ys_terms y)) eqn:Em.
      * apply mem_iff in Em. apply term_steps in H1; [|exact Em]. injection H1 as -> _. now apply beq_eq.
      * apply HF; [|exact Ht|exists w1; exact H1]. destruct (Hg x (or_introl eq_refl)) as [C|C]; [|exact C]. apply mem_iff in C. congruence.
Qed.
Lemma drule_parts (A : bytes) (a g : list bytes) : dlhs ((A, a ++ g), List.length a) = A /\ skipn (List.length a) (drhs ((A, a ++ g), List.length a)) = g /\ firstn (List.length a) (drhs ((A, a ++ g), List.length a)) = a.
Proof.
  unfold dlhs, drhs. cbn [fst snd]. split; [reflexivity|]. rewrite skipn_app, firstn_app, Nat.sub_diag, skipn_all, firstn_all, app_nil_r. now split.
Qed.
Lemma look_pass A a g j v k : In (A, a ++ g) R -> viable (pre j ++ A :: v) -> fut k (g ++ v) -> look_ok y f (nth_error toks k) ((A, a ++ g), List.length a) = true.
Proof.
  intros Hr Hv Hf. unfold look_ok. destruct (nth_error toks k) as [t|] eqn:E; [|reflexivity]. apply orb_true_iff. left.
  destruct (Hf t E) as (v' & Hs). unfold look_has. cbn [snd]. destruct (drule_parts A a g) as (-> & Q & _). unfold drule, rule in *. rewrite Q. clear Q.
  apply (look_tail A v (pre j) Hv (wf_lhs y W _ _ Hr) g t v'); [|apply HT; eapply nth_error_In; exact E|exact Hs].
  intros z Hz. apply (sym_kind _ _ _ Hr). apply in_app_iff. now right.
Qed.

(** ** What holds for the sets *)
Notation D := (all_drules y).
Definition cond : Prop := forall x a b c r, In (x, a :: b :: c :: r) R -> nullable R a -> nullable R b -> False.

Record snd_item (sets : list sset) (k : nat) (i : item) : Prop := {
  sn_in : In (fst i) D;
  sn_le : snd i <= k;
  sn_steps : steps R (firstn (snd (fst i)) (drhs (fst i))) (seg (k - snd i) k);
  sn_viable : exists v, viable (pre (k - snd i) ++ dlhs (fst i) :: v);
  sn_origin : (dlhs (fst i) = AX /\ snd i = k) \/ exists s e, nth_error sets (k - snd i) = Some s /\ In e (items s) /\ after (fst e) = Some (dlhs (fst i)) }.
Definition cpl (k : nat) (s : sset) : Prop := forall A a g j v, In (A, a ++ g) R -> j <= k -> viable (pre j ++ A :: v) -> steps R a (seg j k) -> fut k (g ++ v) ->
  (j < k \/ g <> []) -> In (((A, a ++ g), List.length a), k - j) (items s).
Record good (sets : list sset) : Prop := {
  gd_snd : forall k s i, nth_error sets k = Some s -> In i (items s) -> snd_item sets k i;
  gd_cpl : cond -> forall k s, nth_error sets k = Some s -> cpl k s }.

Lemma items_in started s i : expanded y f started s ->
  In i (items s) <-> In i started \/ (exists p, In (fst i, p) (s_nys s) /\ nth_error (map snd started) p = Some (snd i)) \/ (In (fst i) (s_init s) /\ snd i = 0).
Proof.
  intro E. unfold items. rewrite (ex_started _ _ _ _ E), !in_app_iff, !in_map_iff.
  assert (Hp : forall d p, In (d, p) (s_nys s) -> exists m, nth_error (map snd started) p = Some m).
  { intros d p H. apply (ex_nys _ _ _ _ E) in H. destruct H as (p' & e & n & H & _ & _ & Eq). injection Eq as _ ->.
    destruct (nth_error (map snd started) p') as [m|] eqn:Em; [now exists m|]. apply nth_error_None in Em. rewrite map_length in Em.
    assert (X : p' < List.length (map fst started)) by (apply nth_error_Some; congruence). rewrite map_length in X. lia. }
  split.
  - intros [H|[([d p] & <- & H)|(d & <- & H)]]; [now left | right; left | right; right; now split].
    exists p. cbn [fst snd]. split; [exact H|]. destruct (Hp d p H) as (m & Hm). rewrite Hm. f_equal. symmetry. now apply nth_error_nth.
  - intros [H|[(p & H & Hm)|[H Hm]]]; [now left | right; left | right; right].
    + exists (fst i, p). split; [|exact H]. cbn [fst snd]. rewrite (nth_error_nth _ _ _ Hm). now destruct i.
    + exists (fst i). split; [|exact H]. rewrite <- Hm. now destruct i.
Qed.
Lemma nys_in started s d m : expanded y f started s -> (exists p, In (d, p) (s_nys s) /\ nth_error (map snd started) p = Some m) <->
  exists e n, In (e, m) started /\ 1 <= n <= List.length (skipn (snd e) (drhs e)) /\ nullb f (firstn n (skipn (snd e) (drhs e))) = true /\ d = (fst e, snd e + n).
Proof.
  intro E. split.
  - intros (p & H & Hm). apply (ex_nys _ _ _ _ E) in H. destruct H as (p' & e & n & H & Hn & Hb & Eq). injection Eq as -> ->.
    exists e, n. split; [|now repeat split]. apply nth_map_inv in H. destruct H as ([e' m'] & H & He). apply nth_map_inv in Hm. destruct Hm as (i & Hi & Em).
    rewrite H in Hi. injection Hi as <-. cbn [fst snd] in *. subst. eapply nth_error_In; exact H.
  - intros (e & n & H & Hn & Hb & ->). apply In_nth_error in H. destruct H as (p & Hp). exists p. split; [|exact (nth_map_some snd _ _ _ Hp)].
    apply (ex_nys _ _ _ _ E). exists p, e, n. split; [exact (nth_map_some fst _ _ _ Hp)|]. now repeat split.
Qed.
Lemma map_items started s e : expanded y f started s -> In e (map fst started ++ map fst (s_nys s) ++ s_init s) <-> exists m, In (e, m) (items s).
Proof.
  intro E. rewrite !in_app_iff, !in_map_iff. split.
  - intros [([d m] & <- & H)|[([d p] & <- & H)|H]].
    + exists m. apply (items_in started s); [exact E | now left].
    + cbn [fst]. destruct (nth_error (map snd started) p) as [m|] eqn:Em.
      * exists m. apply (items_in started s); [exact E|]. right. left. exists p. now split.
      * exfalso. apply (ex_nys _ _ _ _ E) in H. destruct H as (p' & e & n & H & _ & _ & Eq). injection Eq as _ ->. apply nth_error_None in Em. rewrite map_length in Em.
        assert (X : p' < List.length (map fst started)) by (apply nth_error_Some; congruence). rewrite map_length in X. lia.
    + exists 0. apply (items_in started s); [exact E|]. right. right. now split.
  - intros (m & H). apply (items_in started s) in H; [|exact E]. cbn [fst snd] in H. destruct H as [H|[(p & H & _)|[H _]]]; [left; now exists (e, m) | right; left; now exists (e, p) | right; now right].
Qed.

(** A dotted rule that is sound says what may follow. *)
Lemma after_viable d m k : In d D -> m <= k -> steps R (firstn (snd d) (drhs d)) (seg (k - m) k) -> forall v, viable (pre (k - m) ++ dlhs d :: v) ->
  forall x, after d = Some x -> viable (pre k ++ x :: skipn (S (snd d)) (drhs d) ++ v).
Proof.
  intros H1 H2 H3 v H4 x Hx. destruct d as [[A rhs] j]. unfold after, drhs, dlhs in *. cbn [fst snd] in *.
  apply all_drules_in in H1. destruct H1 as [H1 _]. apply nth_split3 in Hx.
  apply (viable_rule _ _ _ _ H1) in H4. rewrite Hx in H4. eapply steps_trans; [exact H4|].
  rewrite <- !app_assoc. cbn [app].
  rewrite <- (pre_seg (k - m) k) by lia. rewrite <- !app_assoc. apply steps_app; [apply steps_refl|]. apply steps_app; [exact H3 | apply steps_refl].
Qed.
Lemma snd_after sets k i : snd_item sets k i -> forall x, after (fst i) = Some x -> exists v, viable (pre k ++ x :: v).
Proof. intros [H1 H2 H3 (v & H4) _] x Hx. eexists. eapply after_viable; eassumption. Qed.

Lemma expand_sound sets started s k : expanded y f started s -> List.length sets = k ->
  (forall i, In i started -> snd_item (sets ++ [s]) k i) -> forall i, In i (items s) -> snd_item (sets ++ [s]) k i.
Proof.
  intros E Hk Hs.
  assert (Hs2 : forall d m, In (d, m) started \/ (exists p, In (d, p) (s_nys s) /\ nth_error (map snd started) p = Some m) -> snd_item (sets ++ [s]) k (d, m)).
  { intros d m [H|H]; [now apply Hs|]. apply (nys_in _ _ _ _ E) in H. destruct H as (e & n & H & Hn & Hb & ->).
    apply Hs in H. destruct H as [A1 A2 A3 A4 A5]. destruct e as [r j]. unfold dlhs, drhs in *. cbn [fst snd] in *. rewrite skipn_length in Hn. constructor; cbn [fst snd]; try assumption.
    - apply all_drules_in in A1. apply all_drules_in. split; [apply A1 | lia].
    - unfold drhs. cbn [fst snd]. rewrite firstn_more. rewrite <- (app_nil_r (seg (k - m) k)). apply steps_app; [exact A3|]. now apply nullb_iff. }
  assert (Hlast : nth_error (sets ++ [s]) k = Some s). { rewrite nth_error_app2 by lia. rewrite Hk, Nat.sub_diag. reflexivity. }
  assert (Hr : forall e, reach y f (map fst started) (s_nys s) e -> forall x, after e = Some x -> exists v, viable (pre k ++ x :: v)).
  { induction 1 as [e He|e d He IH Ha Hd Hn]; intros x Hx.
    - rewrite in_app_iff, !in_map_iff in He. destruct He as [([d m] & <- & H)|([d p] & <- & H)].
      + apply (snd_after (sets ++ [s]) k (d, m)); [now apply Hs | exact Hx].
      + cbn [fst] in *. assert (Hp : exists m, nth_error (map snd started) p = Some m).
        { assert (H' := H). apply (ex_nys _ _ _ _ E) in H'. destruct H' as (p' & e & n & H' & _ & _ & Eq). injection Eq as _ ->.
          destruct (nth_error (map snd started) p') as [m|] eqn:Em; [now exists m|]. apply nth_error_None in Em. rewrite map_length in Em.
          assert (X : p' < List.length (map fst started)) by (apply nth_error_Some; congruence). rewrite map_length in X. ulia. }
        destruct Hp as (m & Hm). apply (snd_after (sets ++ [s]) k (d, m)); [|exact Hx]. apply Hs2. right. exists p. now split.
    - destruct (IH _ Ha) as (v & Hv). eexists. apply (after_viable d 0 k Hd); [lia | | rewrite Nat.sub_0_r; exact Hv | exact Hx].
      rewrite Nat.sub_0_r, seg_nil. now apply nullb_iff. }
  intros [d m] H. apply (items_in _ _ _ E) in H. cbn [fst snd] in H. destruct H as [H|[H|[H ->]]]; [apply Hs2; now left | apply Hs2; now right |].
  destruct (ex_init _ _ _ _ E d H) as (B1 & B2 & e & B3 & B4 & B5). apply (map_items _ _ _ E) in B3. destruct B3 as (m & B3).
  constructor; cbn [fst snd].
  - exact B1.
  - lia.
  - rewrite Nat.sub_0_r, seg_nil. now apply nullb_iff.
  - rewrite Nat.sub_0_r. now apply (Hr e).
  - right. exists s, (e, m). rewrite Nat.sub_0_r. split; [exact Hlast|]. now split.
Qed.

(** ** Nothing is missing *)
Lemma after_parts (A x : bytes) (a g : list bytes) : after ((A, a ++ x :: g), List.length a) = Some x.
Proof. unfold after, drhs. cbn [fst snd]. rewrite nth_error_app2 by lia. now rewrite Nat.sub_diag. Qed.
Lemma shift_parts (A x : bytes) (a g : list bytes) : shift ((A, a ++ x :: g), List.length a) = ((A, (a ++ [x]) ++ g), List.length (a ++ [x])).
Proof. unfold shift. cbn [fst snd]. rewrite <- app_assoc, app_length, Nat.add_1_r. reflexivity. Qed.
Lemma empty_tail_nil (A : bytes) (a g : list bytes) : steps R g [] -> empty_tail f ((A, a ++ g), List.length a) = true.
Proof.
  intro H. unfold empty_tail. cbn [snd]. destruct (drule_parts A a g) as (_ & Q & _). unfold drule, rule in *. rewrite Q. now apply nullb_iff.
Qed.
Lemma in_items_D sets k s : good sets -> nth_error sets k = Some s -> forall i, In i (items s) -> In (fst i) D.
Proof. intros G H i Hi. exact (sn_in _ _ _ (gd_snd _ G k s i H Hi)). Qed.

Section Next.
Variable sets : list sset.
Variable started : list item.
Variable s : sset.
Notation k := (List.length sets).
Hypothesis C : cond.
Hypothesis E : expanded y f started s.
Hypothesis G : good sets.
Hypothesis Hk : k <= List.length toks.

(** the initial ones *)
Lemma init_in (Hn : forall d, In d (map fst (s_nys s)) -> dlhs d = AX \/ 2 <= snd d) e A a g :
  (exists m, In (e, m) (items s)) -> after e = Some A -> A <> AX -> In (A, a ++ g) R -> g <> [] -> steps R a [] -> In (((A, a ++ g), List.length a), 0) (items s).
Proof.
  intros He Ha Hx Hr Hg Hs. apply (map_items _ _ _ E) in He.
  assert (X : In ((A, a ++ g), 0) (s_init s)).
  { assert (Q := ex_rules _ _ _ _ E e A (A, a ++ g) He Ha). assert (Z : In ((A, a ++ g), 0) (map fst (s_nys s) ++ s_init s)).
    { apply Q; [|exact Hr|reflexivity]. intro T. apply (wf_disj y W A T). exact (wf_lhs y W _ _ Hr). }
    apply in_app_iff in Z. destruct Z as [Z|Z]; [|exact Z]. apply Hn in Z. unfold dlhs in Z. cbn [fst snd] in Z. destruct Z as [Z|Z]; [contradiction | lia]. }
  apply (items_in _ _ _ E). right. right. cbn [fst snd]. split; [|reflexivity].
  destruct a as [|a1 [|a2 a]]; [exact X | |].
  - cbn [app List.length] in *. assert (Z : In (shift ((A, a1 :: g), 0)) (map fst (s_nys s) ++ s_init s)).
    { apply (ex_shift _ _ _ _ E _ a1 X); [reflexivity|]. now apply HE. }
    unfold shift in Z. cbn [fst snd] in Z. apply in_app_iff in Z. destruct Z as [Z|Z]; [|exact Z]. apply Hn in Z. unfold dlhs in Z. cbn [fst snd] in Z. destruct Z as [Z|Z]; [contradiction | lia].
  - exfalso. destruct g as [|g1 g]; [now apply Hg|]. apply steps_nil_all in Hs. inversion Hs as [|? ? H1 H2]; subst. inversion H2 as [|? ? H3 H4]; subst.
    cbn [app] in Hr. destruct (a ++ g1 :: g) as [|c r] eqn:Ec; [now destruct a|]. exact (C A a1 a2 c r Hr H1 H3).
Qed.

Hypothesis Hk1 : 1 <= k.
Hypothesis Hscan : forall set e x, nth_error sets (k - 1) = Some set -> nth_error toks (k - 1) = Some x -> In e (items set) -> after (fst e) = Some x ->
  look_ok y f (nth_error toks k) (shift (fst e)) = true -> In (shift (fst e), snd e + 1) started.
Hypothesis Hcomp : forall d m prev e, In (d, m) started -> empty_tail f d = true -> nth_error sets (k - m) = Some prev ->
  In e (predicted prev (dlhs d)) -> look_ok y f (nth_error toks k) (shift (fst e)) = true -> In (shift (fst e), snd e + m) started.
Hypothesis Hdot : forall d m, In (d, m) started -> 1 <= snd d.

Lemma set_at i : i < k -> exists si, nth_error sets i = Some si /\ cpl i si.
Proof.
  intro H. destruct (nth_error sets i) as [si|] eqn:Ei; [|apply nth_error_None in Ei; lia]. exists si. split; [reflexivity|]. now apply (gd_cpl _ G C).
Qed.

Lemma started_in : forall n A a X g j i v, In (A, a ++ X :: g) R -> j <= i < k -> viable (pre j ++ A :: v) -> steps R a (seg j i) -> yl R [X] (seg i k) n -> fut k (g ++ v) ->
  In (((A, (a ++ [X]) ++ g), List.length (a ++ [X])), k - j) started.
Proof.
  induction n as [n IH] using lt_wf_ind. intros A a X g j i v Hr Hi Hv Ha Hx Hf.
  assert (Hr' : In (A, (a ++ [X]) ++ g) R) by now rewrite <- app_assoc.
  assert (Hlook : look_ok y f (nth_error toks k) (shift ((A, a ++ X :: g), List.length a)) = true).
  { rewrite shift_parts. now apply (look_pass A (a ++ [X]) g j v k). }
  assert (Hi2 : i < List.length toks) by lia.
  destruct (set_at i) as (si & Esi & Hcpl); [lia|].
  assert (Hitem : In (((A, a ++ X :: g), List.length a), i - j) (items si)).
  { apply (Hcpl A a (X :: g) j v Hr); [lia | exact Hv | exact Ha | | right; discriminate].
    intros t Ht. destruct (seg_head i k) as (t' & u & Et & Eu); [lia|]. rewrite Ht in Et. injection Et as <-.
    exists (u ++ g ++ v). change ((X :: g) ++ v) with ([X] ++ (g ++ v)). change (t :: u ++ g ++ v) with ((t :: u) ++ (g ++ v)).
    apply steps_app; [rewrite <- Eu; eapply yl_steps; exact Hx | apply steps_refl]. }
  apply yl_single in Hx. destruct Hx as [Hx|(rhs & m & Hrhs & Hy & Hm)].
  - (* a token *)
    assert (Ei : i = k - 1). { assert (L := f_equal (@List.length _) Hx). rewrite seg_length in L by lia. cbn [List.length] in L. lia. }
    subst i. destruct (seg_head (k - 1) k) as (t & u & Et & Eu); [lia|]. rewrite Hx in Eu. injection Eu as <- <-.
    rewrite <- shift_parts. assert (Z := Hscan si _ X Esi Et Hitem (after_parts A X a g) Hlook). cbn [fst snd] in Z.
    replace (k - j) with (k - 1 - j + 1) by lia. exact Z.
  - apply yl_last in Hy; [|intro Z; assert (L := f_equal (@List.length _) Z); rewrite seg_length in L by lia; cbn [List.length] in L; lia].
    destruct Hy as (r1 & Z & r2 & u1 & u2 & m' & -> & Eu & N2 & S1 & Y & Hm' & S2).
    apply seg_parts in Eu; [|lia]. destruct Eu as (i2 & Hi3 & -> & ->).
    assert (Hlt : i2 < k). { destruct (Nat.eq_dec i2 k) as [-> |]; [|lia]. rewrite seg_nil in N2. now destruct N2. }
    assert (Hv2 : viable (pre i ++ X :: g ++ v)).
    { apply (viable_rule _ _ _ _ Hr) in Hv. eapply steps_trans; [exact Hv|]. rewrite <- app_assoc. cbn [app]. rewrite <- (pre_seg j i) by lia. rewrite <- app_assoc.
      apply steps_app; [apply steps_refl|]. apply steps_app; [exact Ha | apply steps_refl]. }
    assert (Hst : In (((X, (r1 ++ [Z]) ++ r2), List.length (r1 ++ [Z])), k - i) started).
    { apply (IH m' ltac:(lia) X r1 Z r2 i i2 (g ++ v)); try assumption; [lia|].
      apply (fut_steps k (r2 ++ g ++ v) (g ++ v)); [|exact Hf]. apply (steps_app R r2 [] (g ++ v) (g ++ v)); [exact S2 | apply steps_refl]. }
    rewrite <- shift_parts. replace (k - j) with (snd ((((A, a ++ X :: g), List.length a), i - j) : item) + (k - i)) by (cbn [snd]; lia).
    refine (Hcomp _ (k - i) si (((A, a ++ X :: g), List.length a), i - j) Hst _ _ _ Hlook).
    + now apply empty_tail_nil.
    + replace (k - (k - i)) with i by lia. exact Esi.
    + apply predicted_in. split; [exact Hitem|]. cbn [fst]. rewrite (proj1 (drule_parts X (r1 ++ [Z]) r2)). apply after_parts.
Qed.

Lemma long_in A a g j v : In (A, a ++ g) R -> j < k -> viable (pre j ++ A :: v) -> steps R a (seg j k) -> fut k (g ++ v) -> In (((A, a ++ g), List.length a), k - j) (items s).
Proof.
  intros Hr Hj Hv Ha Hf. apply steps_yl in Ha. destruct Ha as (n & Ha).
  apply yl_last in Ha; [|intro Z; assert (L := f_equal (@List.length _) Z); rewrite seg_length in L by lia; cbn [List.length] in L; lia].
  destruct Ha as (a1 & X & a2 & u1 & u2 & m & -> & Eu & N2 & S1 & Y & Hm & S2).
  apply seg_parts in Eu; [|lia]. destruct Eu as (i & Hi & -> & ->).
  assert (Hlt : i < k). { destruct (Nat.eq_dec i k) as [-> |]; [|lia]. rewrite seg_nil in N2. now destruct N2. }
  rewrite <- app_assoc in Hr. cbn [app] in Hr.
  assert (Hst := started_in m A a1 X (a2 ++ g) j i v Hr ltac:(lia) Hv S1 Y).
  rewrite <- app_assoc in Hst. assert (Hst' : In (((A, (a1 ++ [X]) ++ a2 ++ g), List.length (a1 ++ [X])), k - j) started).
  { apply Hst. apply (fut_steps k _ (g ++ v)); [|exact Hf]. apply (steps_app R a2 [] (g ++ v) (g ++ v)); [exact S2 | apply steps_refl]. }
  apply (items_in _ _ _ E).
  replace ((a1 ++ X :: a2) ++ g) with ((a1 ++ [X]) ++ a2 ++ g) by (rewrite <- !app_assoc; reflexivity).
  destruct a2 as [|z a2].
  - left. cbn [app] in *. exact Hst'.
  - right. left. cbn [fst snd]. apply (nys_in _ _ _ _ E). exists ((A, (a1 ++ [X]) ++ (z :: a2) ++ g), List.length (a1 ++ [X])), (List.length (z :: a2)).
    cbn [fst snd]. destruct (drule_parts A (a1 ++ [X]) ((z :: a2) ++ g)) as (_ & Q & _). unfold drule, rule in *. rewrite Q.
    split; [exact Hst'|]. split; [rewrite app_length; cbn [List.length]; lia|].
    split; [rewrite firstn_app, Nat.sub_diag, firstn_all; cbn [firstn]; rewrite app_nil_r; now apply nullb_iff|].
    f_equal. rewrite !app_length. cbn [List.length]. lia.
Qed.

Lemma nys_dots d : In d (map fst (s_nys s)) -> dlhs d = AX \/ 2 <= snd d.
Proof.
  intro H. apply in_map_iff in H. destruct H as ([d' p] & <- & H). apply (ex_nys _ _ _ _ E) in H. destruct H as (p' & e & n & H & Hn & _ & Eq).
  injection Eq as -> ->. cbn [fst snd]. right. apply nth_map_inv in H. destruct H as ([e' m] & H & <-). apply nth_error_In, Hdot in H. cbn [fst] in *. ulia.
Qed.

Lemma predict_in : forall n A v, stepsn R [AX] n (pre k ++ A :: v) -> fut k (A :: v) -> exists e m, In (e, m) (items s) /\ after e = Some A.
Proof.
  induction n as [n IH] using lt_wf_ind. intros A v H Hf. apply origin in H.
  destruct H as [(H & _)|(m & b & g & d & u1 & u2 & v2 & Hm & Hr & Eu & Hs & Hg & Hd)].
  - exfalso. assert (L := f_equal (@List.length _) H). rewrite firstn_length in L. cbn [List.length] in L. lia.
  - apply pre_parts in Eu; [|exact Hk]. destruct Eu as (i & Hi & -> & ->).
    assert (Hf2 : fut k ((A :: d) ++ v2)).
    { apply (fut_steps k _ (A :: v)); [|exact Hf]. apply (steps_app R [A] [A] (d ++ v2) v); [apply steps_refl | exact Hd]. }
    exists ((b, g ++ A :: d), List.length g), (k - i). split; [|apply after_parts].
    destruct (Nat.eq_dec i k) as [-> |Hne].
    + rewrite Nat.sub_diag. rewrite seg_nil in Hg.
      destruct (IH m Hm b v2 Hs) as (e & m' & He & Hea).
      { apply (fut_steps k _ ((A :: d) ++ v2)); [|exact Hf2]. apply (steps_app R [b] (A :: d) v2 v2); [|apply steps_refl].
        eapply steps_trans; [apply steps_rule; exact Hr|]. apply (steps_app R g [] (A :: d) (A :: d)); [exact Hg | apply steps_refl]. }
      apply (init_in nys_dots e); try assumption; [now exists m' | | discriminate].
      intros ->. assert (S2 := stepsn_steps _ _ _ _ Hs). apply viable_axiom in S2. destruct S2 as [S2 _].
      assert (L := f_equal (@List.length _) S2). rewrite firstn_length in L. cbn [List.length] in L. lia.
    + apply (long_in b g (A :: d) i v2); try assumption; [lia|]. eapply stepsn_steps; exact Hs.
Qed.

Lemma next_cpl : cpl k s.
Proof.
  intros A a g j v Hr Hj Hv Ha Hf Hor. destruct (Nat.eq_dec j k) as [-> |Hne]; [|apply (long_in A a g j v); try assumption; lia].
  destruct Hor as [Hor|Hor]; [lia|]. rewrite Nat.sub_diag. rewrite seg_nil in Ha.
  assert (Hv' := Hv). apply steps_stepsn in Hv'. destruct Hv' as (n & Hn).
  destruct (predict_in n A v Hn) as (e & m & He & Hea).
  { apply (fut_steps k _ (g ++ v)); [|exact Hf]. apply (steps_app R [A] g v v); [|apply steps_refl]. eapply steps_trans; [apply steps_rule; exact Hr|].
    apply (steps_app R a [] g g); [exact Ha | apply steps_refl]. }
  apply (init_in nys_dots e); try assumption; [now exists m|].
  intros ->. apply viable_axiom in Hv. destruct Hv as [S2 _].
  assert (L := f_equal (@List.length _) S2). rewrite firstn_length in L. cbn [List.length] in L. lia.
Qed.
End Next.

(** ** The sets are built *)
Lemma snd_mono sets n k i : snd_item sets k i -> snd_item (sets ++ [n]) k i.
Proof.
  intros [A1 A2 A3 A4 A5]. constructor; try assumption. destruct A5 as [A5|(s & e & A5 & A6)]; [now left|]. right. exists s, e. split; [|exact A6].
  rewrite nth_error_app1; [exact A5|]. apply nth_error_Some. congruence.
Qed.
Lemma good_snoc sets s : good sets -> (forall i, In i (items s) -> snd_item (sets ++ [s]) (List.length sets) i) -> (cond -> cpl (List.length sets) s) -> good (sets ++ [s]).
Proof.
  intros [G1 G2] H1 H2. constructor.
  - intros k t i Hk Hi. destruct (Nat.lt_ge_cases k (List.length sets)) as [L|L].
    + rewrite nth_error_app1 in Hk by exact L. apply snd_mono. now apply (G1 k t).
    + assert (k = List.length sets). { assert (Z : k < List.length (sets ++ [s])) by (apply nth_error_Some; congruence). rewrite app_length in Z. cbn [List.length] in Z. lia. }
      subst k. rewrite nth_error_app2, Nat.sub_diag in Hk by lia. injection Hk as <-. now apply H1.
  - intros C k t Hk. destruct (Nat.lt_ge_cases k (List.length sets)) as [L|L].
    + rewrite nth_error_app1 in Hk by exact L. now apply G2.
    + assert (k = List.length sets). { assert (Z : k < List.length (sets ++ [s])) by (apply nth_error_Some; congruence). rewrite app_length in Z. cbn [List.length] in Z. lia. }
      subst k. rewrite nth_error_app2, Nat.sub_diag in Hk by lia. injection Hk as <-. now apply H2.
Qed.

Lemma start_ok : exists s0, build_start_set y f = Ok s0 /\ good [s0].
Proof.
  unfold build_start_set. set (started := map (fun r => ((r, 0), 0)) (rules_of y AX)).
  assert (St : forall i, In i started <-> exists r, In r R /\ fst r = AX /\ i = ((r, 0), 0)).
  { intro i. unfold started. rewrite in_map_iff. split.
    - intros (r & <- & H). apply rules_of_in in H. exists r. now split.
    - intros (r & H1 & H2 & ->). exists r. split; [reflexivity|]. now apply rules_of_in. }
  destruct (expand_ok y f started) as (s0 & E0 & E).
  { intros i H. apply St in H. destruct H as (r & H1 & H2 & ->). cbn [fst]. apply all_drules_in. split; [exact H1 | lia]. }
  exists s0. split; [exact E0|]. apply (good_snoc []).
  - constructor; [intros k s i H; destruct k; discriminate H | intros _ k s H; destruct k; discriminate H].
  - apply (expand_sound [] started s0 0 E eq_refl). intros i H. apply St in H. destruct H as (r & H1 & H2 & ->). constructor; cbn [fst snd].
    + apply all_drules_in. split; [exact H1 | lia].
    + lia.
    + apply steps_refl.
    + exists []. unfold dlhs. cbn [fst]. rewrite H2. apply steps_refl.
    + left. now split.
  - intro C. cbn [List.length].
    assert (Hn : forall d, In d (map fst (s_nys s0)) -> dlhs d = AX \/ 2 <= snd d).
    { intros d H. apply in_map_iff in H. destruct H as ([d' p] & <- & H). apply (ex_nys _ _ _ _ E) in H. destruct H as (p' & e & n & H & _ & _ & Eq).
      injection Eq as -> ->. left. apply nth_map_inv in H. destruct H as (i & H & <-). apply nth_error_In, St in H. destruct H as (r & _ & H & ->). exact H. }
    assert (Hax : forall a g, In (AX, a ++ g) R -> steps R a [] -> In (((AX, a ++ g), List.length a), 0) (items s0)).
    { intros a g Hr Ha. apply (items_in _ _ _ E). cbn [fst snd]. destruct a as [|z a]; [left; apply St; exists (AX, g); now split|].
      right. left. apply (nys_in _ _ _ _ E). exists ((AX, (z :: a) ++ g), 0), (List.length (z :: a)). unfold drhs. cbn [fst snd skipn].
      split; [apply St; eexists; now repeat split|]. split; [rewrite app_length; cbn [List.length]; lia|]. split; [|reflexivity].
      rewrite firstn_app, Nat.sub_diag, firstn_all. cbn [firstn]. rewrite app_nil_r. now apply nullb_iff. }
    assert (Hp : forall n A v, A <> AX -> stepsn R [AX] n (A :: v) -> exists e m, In (e, m) (items s0) /\ after e = Some A).
    { induction n as [n IH] using lt_wf_ind. intros A v HAx H. apply (origin R AX n [] A v) in H.
      destruct H as [(_ & H & _)|(m & b & g & d & u1 & u2 & v2 & Hm & Hr & Eu & Hs & Hg & Hd)]; [contradiction|].
      symmetry in Eu. apply app_eq_nil in Eu. destruct Eu as [-> ->].
      exists ((b, g ++ A :: d), List.length g), 0. split; [|apply after_parts].
      destruct (beq b AX) eqn:Eb; [apply beq_eq in Eb; subst b; now apply Hax|].
      assert (Nb : b <> AX) by (intro Z; apply beq_eq in Z; congruence).
      destruct (IH m Hm b v2 Nb Hs) as (e & m' & He & Hea).
      apply (init_in [] started s0 C E (Nat.le_0_l _) Hn e); try assumption; [now exists m' | discriminate]. }
    intros A a g j v Hr Hj Hv Ha Hf Hor. assert (j = 0) by lia. subst j. destruct Hor as [Hor|Hor]; [lia|]. cbn [Nat.sub firstn app] in *.
    destruct (beq A AX) eqn:Eb; [apply beq_eq in Eb; subst A; now apply Hax|].
    assert (Nb : A <> AX) by (intro Z; apply beq_eq in Z; congruence).
    apply steps_stepsn in Hv. destruct Hv as (n & Hv). destruct (Hp n A v Nb Hv) as (e & m & He & Hea).
    apply (init_in [] started s0 C E (Nat.le_0_l _) Hn e); try assumption. now exists m.
Qed.

Hypothesis HN : ~ nullable R AX.

Lemma next_ok sets set x i : good sets -> List.length sets = S i -> nth_error toks i = Some x -> nth_error sets i = Some set ->
  exists new z, next_set y f sets set x (nth_error toks (S i)) = Ok new /\ good (sets ++ [new]) /\
    s_started new = shift_all y f (nth_error toks (S i)) 1 (predicted set x) [] ++ z.
Proof.
  intros G Hl Hx Hset. unfold next_set. set (next := nth_error toks (S i)). set (st0 := shift_all y f next 1 (predicted set x) []).
  assert (Hi : i < List.length toks) by (apply nth_error_Some; congruence).
  set (P := fun q : item => snd_item sets (S i) q /\ 1 <= snd q /\ 1 <= snd (fst q)).
  assert (Hsh : forall k0 prev e w, k0 <= S i -> 1 <= S i - k0 -> nth_error sets k0 = Some prev -> In e (items prev) -> after (fst e) = Some w -> steps R [w] (seg k0 (S i)) ->
    P (shift (fst e), snd e + (S i - k0))).
  { intros k0 prev e w H1 H1' H2 H3 H4 H5. destruct (gd_snd _ G k0 prev e H2 H3) as [A1 A2 A3 A4 A5]. destruct e as [[r d] m]. unfold P, shift, dlhs, drhs, after in *. cbn [fst snd] in *.
    replace (S i - (m + (S i - k0))) with (k0 - m) in * by lia.
    split; [|lia]. constructor; cbn [fst snd].
    - apply all_drules_in in A1. apply all_drules_in. split; [apply A1|]. apply Nat.le_succ_l. apply nth_error_Some. unfold drhs in H4. cbn [fst snd] in H4. congruence.
    - lia.
    - unfold drhs in *. cbn [fst snd] in *. rewrite (nth_error_firstn _ _ _ H4). replace (S i - (m + (S i - k0))) with (k0 - m) by lia.
      rewrite <- (seg_app (k0 - m) k0 (S i)) by lia. apply steps_app; [exact A3 | exact H5].
    - replace (S i - (m + (S i - k0))) with (k0 - m) by lia. exact A4.
    - replace (S i - (m + (S i - k0))) with (k0 - m) by lia. destruct A5 as [[A5 A6]|A5]; [left; split; [exact A5 | lia] | right; exact A5]. }
  assert (H0 : forall q, In q st0 -> P q).
  { intros q Hq. apply shift_all_in in Hq. destruct Hq as [[]|(e & He & _ & ->)]. apply predicted_in in He. destruct He as [He1 He2].
    replace 1 with (S i - i) by lia. apply (Hsh i set e x); try assumption; try lia. rewrite (seg_one _ _ Hx). apply steps_refl. }
  destruct (complete_ok y f sets next P) with (fuel := S (List.length D * S (List.length sets))) (i := 0) (started := st0) as (st & C1 & C2 & (z & C3) & C4).
  - intros q [Hq1 Hq2]. split; [apply (sn_in _ _ _ Hq1)|]. rewrite Hl. apply (sn_le _ _ _ Hq1).
  - intros d m [[A1 A2 A3 A4 A5] [A6 A7]] Et. cbn [fst snd] in *. rewrite Hl.
    assert (Hd : steps R [dlhs d] (seg (S i - m) (S i))).
    { destruct d as [r j]. unfold dlhs, empty_tail, drhs in *. cbn [fst snd] in *. apply all_drules_in in A1. destruct A1 as [A1 _].
      destruct r as [lhs rhs]. cbn [fst snd] in *. eapply steps_trans; [apply steps_rule; exact A1|]. rewrite <- (firstn_skipn j rhs).
      rewrite <- (app_nil_r (seg _ _)). apply steps_app; [exact A3|]. now apply nullb_iff. }
    destruct (nth_error sets (S i - m)) as [prev|] eqn:Ep; [|apply nth_error_None in Ep; lia].
    exists prev. split; [lia|]. split; [reflexivity|]. split.
    + intro Hnil. destruct A5 as [[A5 A8]|(s & e & A5 & A8 & A9)].
      * split; [exact A5|]. destruct (completed prev AX) eqn:Ec; [|reflexivity]. exfalso. unfold completed in Ec. apply existsb_exists in Ec.
        destruct Ec as (q & Q1 & Q2). apply andb_true_iff in Q2. destruct Q2 as [Q2 Q3]. apply beq_eq in Q3.
        destruct (gd_snd _ G _ _ _ Ep Q1) as [B1 B2 B3 _ _]. rewrite A8, Nat.sub_diag in *. destruct q as [[[lhs rhs] j] m']. unfold at_end, dlhs, drhs in *. cbn [fst snd] in *.
        apply HN. apply all_drules_in in B1. destruct B1 as [B1 B4]. cbn [fst snd] in B4. subst lhs. eapply steps_trans; [apply steps_rule; exact B1|].
        unfold after, drhs in Q2. cbn [fst snd] in Q2. destruct (nth_error rhs j) eqn:Ej; [discriminate Q2|]. apply nth_error_None in Ej.
        rewrite firstn_all2 in B3 by exact Ej. assert (m' = 0) by lia. subst m'. exact B3.
      * exfalso. assert (prev = s) by congruence. subst s. assert (Z : In e (predicted prev (dlhs d))) by (apply predicted_in; now split). rewrite Hnil in Z. destruct Z.
    + intros e He _. apply predicted_in in He. destruct He as [He1 He2].
      replace m with (S i - (S i - m)) at 1 by lia. apply (Hsh (S i - m) prev e (dlhs d)); try assumption; lia.
  - exact H0.
  - unfold st0. apply shift_all_nodup. constructor.
  - lia.
  - intros d m prev e [].
  - lia.
  - rewrite C1. cbn [obind]. destruct (expand_ok y f st) as (new & N1 & N2).
    { intros q Hq. apply C2 in Hq. destruct Hq as [Hq _]. apply (sn_in _ _ _ Hq). }
    exists new, z. split; [exact N1|]. split; [|rewrite (ex_started _ _ _ _ N2); exact C3].
    apply good_snoc; [exact G | |].
    + rewrite Hl. apply (expand_sound sets st new (S i) N2 Hl). intros q Hq. apply snd_mono. now apply C2.
    + intro Cd. apply (next_cpl sets st new Cd N2 G); rewrite ?Hl.
      * lia.
      * lia.
      * replace (S i - 1) with i by lia. intros set' e x' Q1 Q2 Q3 Q4 Q5. rewrite Hset in Q1. injection Q1 as <-. rewrite Hx in Q2. injection Q2 as <-.
        rewrite C3. apply in_app_iff. left. apply shift_all_in. right. exists e. split; [apply predicted_in; now split | now split].
      * rewrite Hl in C4. exact C4.
      * intros d m Hq. apply C2 in Hq. apply Hq.
Qed.

(** ** The loop *)
Lemma hd_skipn j : hd_error (skipn j toks) = nth_error toks j.
Proof.
  clear. revert j. induction toks as [|a l IH]; intros [|j]; try reflexivity. cbn [skipn nth_error]. apply IH.
Qed.
Definition link (sets : list sset) (i : nat) : Prop := i = 0 \/ exists p set t cur z, i = S p /\ nth_error toks p = Some t /\ nth_error sets p = Some set /\
  predicted set t <> [] /\ nth_error sets i = Some cur /\ s_started cur = shift_all y f (nth_error toks i) 1 (predicted set t) [] ++ z.

Lemma loop_ok : forall rest sets set i, good sets -> List.length sets = S i -> nth_error sets i = Some set -> rest = skipn i toks -> i <= List.length toks -> link sets i ->
  exists r sets', parse_loop y f sets set i rest = Ok (r, sets') /\ good sets' /\
  match r with
  | None => List.length sets' = S (List.length toks) /\ link sets' (List.length toks)
  | Some j => j < List.length toks /\ List.length sets' = S j /\ link sets' j /\
      exists set t, nth_error sets' j = Some set /\ nth_error toks j = Some t /\ predicted set t = []
  end.
Proof.
  induction rest as [|x rest IH]; intros sets set i G Hl Hs Hr Hi Lk; cbn [parse_loop].
  - assert (i = List.length toks). { assert (Z := f_equal (@List.length _) Hr). rewrite skipn_length in Z. cbn [List.length] in Z. lia. }
    exists None, sets. subst i. split; [reflexivity|]. split; [exact G|]. split; [exact Hl | exact Lk].
  - assert (Hx : nth_error toks i = Some x) by (rewrite <- hd_skipn, <- Hr; reflexivity).
    assert (Hlt : i < List.length toks) by (apply nth_error_Some; congruence).
    destruct (predicted set x) as [|e0 l0] eqn:Ep.
    + exists (Some i), sets. split; [reflexivity|]. split; [exact G|]. split; [exact Hlt|]. split; [exact Hl|]. split; [exact Lk|]. exists set, x. split; [exact Hs|]. split; [exact Hx | exact Ep].
    + assert (Hrest : rest = skipn (S i) toks). { rewrite (skipn_nth _ _ Hx) in Hr. now injection Hr. }
      assert (Hh : hd_error rest = nth_error toks (S i)) by (rewrite Hrest; apply hd_skipn). rewrite Hh. destruct (next_ok sets set x i G Hl Hx Hs) as (new & z & N1 & N2 & N3). rewrite N1. cbn [obind].
      apply IH; try assumption.
      * rewrite app_length. cbn [List.length]. lia.
      * rewrite nth_error_app2 by lia. rewrite Hl, Nat.sub_diag. reflexivity.
      * right. exists i, set, x, new, z. split; [reflexivity|]. split; [exact Hx|]. split; [rewrite nth_error_app1 by lia; exact Hs|].
        split; [rewrite Ep; discriminate|]. split; [rewrite nth_error_app2 by lia; rewrite Hl, Nat.sub_diag; reflexivity | exact N3].
Qed.

Lemma parse_ok : exists r sets, perform_parse y f toks = Ok (r, sets) /\ good sets /\
  match r with
  | None => List.length sets = S (List.length toks) /\ link sets (List.length toks)
  | Some j => j < List.length toks /\ List.length sets = S j /\ link sets j /\
      exists set t, nth_error sets j = Some set /\ nth_error toks j = Some t /\ predicted set t = []
  end.
Proof.
  unfold perform_parse. destruct start_ok as (s0 & E & G). rewrite E. cbn [obind]. apply loop_ok; try reflexivity; [exact G | lia | now left].
Qed.

Lemma link_viable sets j : good sets -> link sets j -> exists v, viable (pre j ++ v).
Proof.
  intros G [-> |(p & set & t & cur & z & -> & Ht & Hs & Hp & _)]; [exists [AX]; apply steps_refl|].
  destruct (predicted set t) as [|e l] eqn:E; [now destruct Hp|]. assert (He : In e (predicted set t)) by (rewrite E; now left). apply predicted_in in He. destruct He as [He1 He2].
  destruct (snd_after sets p e (gd_snd _ G p set e Hs He1) t He2) as (v & Hv). exists v. rewrite (nth_error_firstn _ _ _ Ht), <- app_assoc. exact Hv.
Qed.

(** A token that may be there is found. *)
Lemma token_found sets j set t : cond -> good sets -> nth_error sets j = Some set -> nth_error toks j = Some t -> predicted set t = [] -> forall v, ~ viable (pre (S j) ++ v).
Proof.
  intros C G Hs Ht Hp v Hv. rewrite (nth_error_firstn _ _ _ Ht), <- app_assoc in Hv. cbn [app] in Hv. apply steps_stepsn in Hv. destruct Hv as (n & Hv).
  assert (Hlt : j < List.length toks) by (apply nth_error_Some; congruence).
  apply origin in Hv. destruct Hv as [(_ & H & _)|(m & b & g & d & u1 & u2 & v2 & _ & Hr & Eu & Hb & Hg & Hd)].
  - subst t. exfalso. apply (wf_disj y W AX); [apply HT; eapply nth_error_In; exact Ht | apply (wf_axiom y W)].
  - apply pre_parts in Eu; [|lia]. destruct Eu as (i & Hi & -> & ->).
    assert (Z : In (((b, g ++ t :: d), List.length g), j - i) (items set)).
    { apply (gd_cpl _ G C j set Hs b g (t :: d) i v2 Hr Hi); [eapply stepsn_steps; exact Hb | exact Hg | | right; discriminate].
      intros t' Ht'. rewrite Ht in Ht'. injection Ht' as <-. exists (d ++ v2). apply steps_refl. }
    assert (Q : In (((b, g ++ t :: d), List.length g), j - i) (predicted set t)) by (apply predicted_in; split; [exact Z | apply after_parts]).
    rewrite Hp in Q. destruct Q.
Qed.

(** The end of the text *)
Hypothesis HX : forall x rhs, In (x, rhs) R -> In END_MARKER rhs -> x = AX /\ exists r, rhs = r ++ [END_MARKER] /\ ~ In END_MARKER r.
Lemma end_tree sets w : good sets -> toks = w ++ [END_MARKER] -> List.length sets = S (List.length toks) -> link sets (List.length toks) -> has_tree sets = true /\ viable toks.
Proof.
  intros G Hw Hl Lk. assert (Hn : List.length toks = S (List.length w)) by (rewrite Hw, app_length; cbn [List.length]; lia).
  destruct Lk as [Lk|(p & set & t & cur & z & Ep & Ht & Hs & Hp & Hc & Hst)]; [lia|].
  assert (p = List.length w) by lia. subst p. assert (t = END_MARKER).
  { rewrite Hw, nth_error_app2, Nat.sub_diag in Ht by lia. cbn [nth_error] in Ht. now injection Ht. }
  subst t. destruct (predicted set END_MARKER) as [|e l] eqn:E; [now destruct Hp|].
  assert (He : In e (predicted set END_MARKER)) by (rewrite E; now left). apply predicted_in in He. destruct He as [He1 He2].
  assert (Hnone : nth_error toks (List.length toks) = None) by (apply nth_error_None; lia). rewrite Hnone in Hst.
  assert (Hfirst : exists z', s_started cur = (shift (fst e), snd e + 1) :: z').
  { rewrite Hst. change (shift_all y f None 1 (e :: l) []) with (shift_all y f None 1 l (add_item [] (shift (fst e), snd e + 1))).
    destruct (shift_all_ext y f None 1 l (add_item [] (shift (fst e), snd e + 1))) as (z' & Ez). rewrite Ez. cbn [add_item existsb app]. eexists. reflexivity. }
  destruct Hfirst as (z' & Hf).
  assert (Hin : In (shift (fst e), snd e + 1) (items cur)) by (unfold items; rewrite Hf; now left).
  destruct (gd_snd _ G _ _ _ Hc Hin) as [B1 B2 B3 (v & B4) _]. destruct e as [[[lhs rhs] j] m]. unfold shift, dlhs, drhs, after in *. cbn [fst snd] in *.
  apply all_drules_in in B1. destruct B1 as [B1 B1']. cbn [fst snd] in B1'. unfold drhs in He2. cbn [fst snd] in He2.
  destruct (HX _ _ B1 (nth_error_In _ _ He2)) as [-> (r & -> & Hr)].
  assert (Hj : S j = List.length (r ++ [END_MARKER])).
  { destruct (Nat.lt_ge_cases j (List.length r)) as [Lj|Lj].
    - rewrite nth_error_app1 in He2 by exact Lj. apply nth_error_In in He2. contradiction.
    - rewrite app_length in *. cbn [List.length] in *. lia. }
  apply viable_axiom in B4. destruct B4 as [B4 _].
  assert (Hm : m + 1 = List.length toks). { assert (Lz := f_equal (@List.length _) B4). rewrite firstn_length in Lz. cbn [List.length] in Lz. lia. }
  split.
  - destruct sets as [|s0 sets']; [discriminate Hl|]. unfold has_tree.
    assert (Hlast : last (s0 :: sets') s0 = cur).
    { assert (Q : nth_error (s0 :: sets') (List.length (s0 :: sets') - 1) = Some (last (s0 :: sets') s0)).
      { clear. rewrite (app_removelast_last s0 (l := s0 :: sets')) at 1 by discriminate. rewrite nth_error_app2.
        - replace (List.length (s0 :: sets') - 1 - List.length (removelast (s0 :: sets'))) with 0; [reflexivity|]. rewrite (app_removelast_last s0 (l := s0 :: sets')) at 1 by discriminate. rewrite app_length. cbn [List.length]. lia.
        - rewrite (app_removelast_last s0 (l := s0 :: sets')) at 2 by discriminate. rewrite app_length. cbn [List.length]. lia. }
      rewrite Hl in Q. replace (S (List.length toks) - 1) with (List.length toks) in Q by lia. rewrite Hc in Q. injection Q as Q. now symmetry. }
    rewrite Hlast, Hf. unfold dlhs, drhs. cbn [fst snd]. rewrite Hl. rewrite Hj, Nat.eqb_refl, Hm. replace (S (List.length toks) - 1) with (List.length toks) by lia. rewrite Nat.eqb_refl. reflexivity.
  - eapply steps_trans; [apply steps_rule; exact B1|]. unfold drhs in B3. cbn [fst snd] in B3. rewrite Hj, firstn_all in B3. rewrite Hm, Nat.sub_diag in B3. cbn [skipn] in B3. rewrite Nat.sub_0_r, firstn_all in B3. exact B3.
Qed.
End S.
