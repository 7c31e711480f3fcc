(** Proofs about the flag for ambiguous texts *)
From Coq Require Import NArith ZArith List Bool Arith String Lia.
From Verif Require Import Bytes BytesFacts Outcome Ixml Yaep YaepSpec YaepGram YaepProofs YaepParse YaepParseFacts YaepTrees YaepParseProofs YaepTree YaepTreeSpec YaepTreeProofs YaepAmb.
Import ListNotations.
Local Open Scope list_scope.
Local Open Scope nat_scope.

(** * The walk with the flag is the walk *)
Definition fsts {A} (o : out (A * bool)) : out A := obind o (fun p => Ok (fst p)).
Lemma pick_same sets r pos from k x : forall l found, fsts (pick_flag sets r pos from k x l found) = pick sets r pos from k x l found.
Proof.
  induction l as [|[d m] l IH]; intro found; [reflexivity|]. cbn [pick_flag pick]. destruct (k <? m); [reflexivity|]. destruct (nth_error sets (k - m)) as [c|]; [|reflexivity].
  destruct (has_vector c x); [|reflexivity]. destruct (existsb _ (predicted c x)); [|apply IH]. destruct found; [reflexivity | apply IH].
Qed.
Lemma walk_same y sets : forall fuel r pos from k acc, fsts (walk_flag y sets fuel r pos from k acc) = walk y sets fuel r pos from k acc.
Proof.
  induction fuel as [|fuel IH]; intros r pos from k acc; [reflexivity|]. cbn [walk_flag walk]. destruct pos as [|pos]; [reflexivity|]. destruct (nth_error (snd r) pos) as [x|]; [|reflexivity].
  destruct (mem x (ys_terms y)). { destruct k as [|k]; [reflexivity | apply IH]. }
  destruct (nth_error sets k) as [s|]; [|reflexivity]. destruct (ends_of s x) as [|i0 l0]; [reflexivity|]. rewrite <- pick_same.
  destruct (pick_flag sets r pos from k x (i0 :: l0) None) as [[[[d k']|] b]| | | |]; try reflexivity. unfold fsts. cbn [obind fst]. rewrite <- !IH. unfold fsts.
  destruct (walk_flag y sets fuel (fst d) (snd d) k' k []) as [[ks b1]| | | |]; try reflexivity. cbn [obind fst]. rewrite <- IH. unfold fsts.
  destruct (walk_flag y sets fuel r pos from k' (DNode (fst d) ks :: acc)) as [[res b2]| | | |]; reflexivity.
Qed.
Lemma build_same y sets fuel : fsts (build_flag y sets fuel) = build_parse_tree y sets fuel.
Proof.
  unfold build_flag, build_parse_tree. destruct (has_tree sets); [|reflexivity]. destruct sets as [|s0 l]; [reflexivity|]. destruct (s_started (last (s0 :: l) s0)) as [|[d m] z]; [reflexivity|].
  rewrite <- walk_same. unfold fsts. destruct (walk_flag _ _ _ _ _ _ _ _) as [[ks b]| | | |]; try reflexivity. cbn [obind fst]. destruct ks; reflexivity.
Qed.
Lemma walk_flag_more y sets : forall fuel r pos from k acc, walk_flag y sets fuel r pos from k acc <> NoFuel -> forall fuel', fuel <= fuel' ->
  walk_flag y sets fuel' r pos from k acc = walk_flag y sets fuel r pos from k acc.
Proof.
  induction fuel as [|fuel IH]; intros r pos from k acc H fuel' Hf; [now destruct H|]. destruct fuel' as [|fuel']; [lia|]. apply le_S_n in Hf.
  cbn [walk_flag] in H |- *. destruct pos as [|pos]; [reflexivity|]. destruct (nth_error (snd r) pos) as [x|]; [|reflexivity].
  destruct (mem x (ys_terms y)). { destruct k as [|k]; [reflexivity|]. now apply IH. }
  destruct (nth_error sets k) as [s|]; [|reflexivity]. destruct (ends_of s x) as [|i0 l0]; [reflexivity|].
  destruct (pick_flag sets r pos from k x (i0 :: l0) None) as [[[[d k']|] b]| | | |]; try reflexivity. cbn [obind] in *.
  assert (H1 : walk_flag y sets fuel (fst d) (snd d) k' k [] <> NoFuel) by (intro Z; rewrite Z in H; now apply H).
  rewrite (IH _ _ _ _ _ H1 fuel' Hf). destruct (walk_flag y sets fuel (fst d) (snd d) k' k []) as [[ks b1]| | | |]; try reflexivity. cbn [obind] in *.
  assert (H2 : walk_flag y sets fuel r pos from k' (DNode (fst d) ks :: acc) <> NoFuel) by (intro Z; rewrite Z in H; now apply H). now rewrite (IH _ _ _ _ _ H2 fuel' Hf).
Qed.
Lemma build_flag_more y sets fuel fuel' : build_flag y sets fuel <> NoFuel -> fuel <= fuel' -> build_flag y sets fuel' = build_flag y sets fuel.
Proof.
  unfold build_flag. intros H Hf. destruct (has_tree sets); [|reflexivity]. destruct sets as [|s0 l]; [reflexivity|]. destruct (s_started _) as [|[d m] z]; [reflexivity|].
  rewrite (walk_flag_more y _ fuel) with (fuel' := fuel'); [reflexivity | | exact Hf]. intro Z. rewrite Z in H. now apply H.
Qed.

(** * Lists *)
Lemma filter_two {A} (p : A -> bool) l : forall l1 a l2 b l3, filter p l = l1 ++ a :: l2 ++ b :: l3 -> exists z1 z2 z3, l = z1 ++ a :: z2 ++ b :: z3.
Proof.
  assert (One : forall l b l3 l2, filter p l = l2 ++ b :: l3 -> exists z2 z3, l = z2 ++ b :: z3).
  { clear l. induction l as [|c l IH]; intros b l3 l2 H; [destruct l2; discriminate H|]. cbn [filter] in H. destruct (p c).
    - destruct l2 as [|c' l2]; cbn [app] in H; injection H as E H.
      + subst c. now exists [], l.
      + destruct (IH _ _ _ H) as (z2 & z3 & ->). now exists (c :: z2), z3.
    - destruct (IH _ _ _ H) as (z2 & z3 & ->). now exists (c :: z2), z3. }
  induction l as [|c l IH]; intros l1 a l2 b l3 H; [destruct l1; discriminate H|]. cbn [filter] in H. destruct (p c).
  - destruct l1 as [|c' l1]; cbn [app] in H; injection H as E H.
    + subst c. destruct (One _ _ _ _ H) as (z2 & z3 & ->). now exists [], z2, z3.
    + destruct (IH _ _ _ _ _ H) as (z1 & z2 & z3 & ->). now exists (c :: z1), z2, z3.
  - destruct (IH _ _ _ _ _ H) as (z1 & z2 & z3 & ->). now exists (c :: z1), z2, z3.
Qed.
Definition twice {A} (a : A) (l : list A) : Prop := exists z1 z2 z3, l = z1 ++ a :: z2 ++ a :: z3.
Lemma twice_nodup {A} (a : A) l : twice a l -> ~ NoDup l.
Proof. intros (z1 & z2 & z3 & ->) H. apply NoDup_remove_2 in H. apply H. rewrite !in_app_iff. right. right. now left. Qed.
Lemma twice_in {A} (a : A) l : twice a l -> In a l.
Proof. intros (z1 & z2 & z3 & ->). apply in_app_iff. right. now left. Qed.
Lemma twice_app {A} (a : A) l1 : forall l2, twice a (l1 ++ l2) -> twice a l1 \/ (In a l1 /\ In a l2) \/ twice a l2.
Proof.
  induction l1 as [|b l1 IH]; intros l2 (z1 & z2 & z3 & H); [right; right; now exists z1, z2, z3|]. destruct z1 as [|c z1]; cbn [app] in H; injection H as E H.
  - subst b. assert (Z : In a (l1 ++ l2)) by (rewrite H; apply in_app_iff; right; now left). apply in_app_iff in Z. destruct Z as [Z|Z].
    + left. apply in_split in Z. destruct Z as (u & v & ->). now exists [], u, v.
    + right. left. split; [now left | exact Z].
  - subst c. destruct (IH l2) as [(u1 & u2 & u3 & ->)|[[B1 B2]|B1]]; [now exists z1, z2, z3 | left; now exists (b :: u1), u2, u3 | right; left; split; [now right | exact B2] | now right; right].
Qed.
Lemma twice_map {A C} (g : A -> C) a l : twice a (map g l) -> NoDup l -> exists i j, In i l /\ In j l /\ i <> j /\ g i = a /\ g j = a.
Proof.
  intros (z1 & z2 & z3 & H) Hd. apply map_eq_app in H. destruct H as (l1 & l2 & -> & <- & H). destruct l2 as [|i l2]; [discriminate H|]. cbn [map] in H. injection H as E1 H.
  apply map_eq_app in H. destruct H as (l3 & l4 & -> & <- & H). destruct l4 as [|j l4]; [discriminate H|]. cbn [map] in H. injection H as E2 H.
  exists i, j. split; [apply in_app_iff; right; now left|]. split; [apply in_app_iff; right; right; apply in_app_iff; right; now left|]. split; [|now split].
  intros ->. apply NoDup_remove_2 in Hd. apply Hd. rewrite !in_app_iff. right. right. now left.
Qed.

(** * The text of a tree *)
Fixpoint spell (t : dtree) : list bytes := match t with DTerm t => [t] | DNode _ ks => flat_map spell ks end.
Scheme tree_ind2 := Minimality for tree_for Sort Prop
with trees_ind2 := Minimality for trees_for Sort Prop.
Combined Scheme both_ind from tree_ind2, trees_ind2.
Lemma spells (T : bytes -> Prop) R : (forall x t w, tree_for T R x t w -> spell t = w) /\ (forall l ts w, trees_for T R l ts w -> flat_map spell ts = w).
Proof.
  apply both_ind; intros; cbn [spell flat_map]; try reflexivity; try assumption. congruence.
Qed.
Lemma tree_steps (T : bytes -> Prop) R : (forall x t w, tree_for T R x t w -> steps R [x] w) /\ (forall l ts w, trees_for T R l ts w -> steps R l w).
Proof.
  apply both_ind; intros.
  - apply steps_refl.
  - eapply steps_trans; [apply steps_rule; eassumption | assumption].
  - apply steps_refl.
  - now apply (steps_app R [x] v rhs w).
Qed.
Lemma trees_split (T : bytes -> Prop) R a : forall b ks w, trees_for T R (a ++ b) ks w -> exists k1 k2 u v, ks = k1 ++ k2 /\ w = u ++ v /\ trees_for T R a k1 u /\ trees_for T R b k2 v.
Proof.
  induction a as [|x a IH]; intros b ks w H; cbn [app] in H.
  - exists [], ks, [], w. split; [reflexivity|]. split; [reflexivity|]. split; [constructor | exact H].
  - inversion H as [|? ? t ks' v1 v2 H1 H2]; subst. destruct (IH b ks' v2 H2) as (k1 & k2 & u & v & -> & -> & H3 & H4). exists (t :: k1), k2, (v1 ++ u), v.
    split; [reflexivity|]. split; [now rewrite app_assoc|]. split; [now constructor | exact H4].
Qed.

Section S.
Variable y : ystate.
Variable f : flags.
Variable toks : list bytes.
Notation R := (ys_rules y).
Notation AX := AXIOM.
Hypothesis W : wf y.
Hypothesis HE : forall x, f (KEmpty x) = true <-> nullable R x.
Hypothesis HA : forall x rhs, In (x, rhs) R -> ~ In AX rhs.
Hypothesis HT : forall t, In t toks -> In t (ys_terms y).
Hypothesis No : forall x, ~ derives_itself R x.
Notation seg i k := (firstn (k - i) (skipn i toks)).
Notation D := (all_drules y).
Notation T := (fun t => In t (ys_terms y)).

(** * Lists of symbols with a tree, and with two *)
Definition one (l u : list bytes) : Prop := exists ks, trees_for T R l ks u.
Definition many (l u : list bytes) : Prop := exists k1 k2, k1 <> k2 /\ trees_for T R l k1 u /\ trees_for T R l k2 u.
Lemma one_app a b u v : one a u -> one b v -> one (a ++ b) (u ++ v).
Proof. intros (k1 & H1) (k2 & H2). exists (k1 ++ k2). now apply trees_app. Qed.
Lemma many_l a b u v : many a u -> one b v -> many (a ++ b) (u ++ v).
Proof.
  intros (k1 & k2 & Ne & H1 & H2) (k & H). exists (k1 ++ k), (k2 ++ k). split; [|split; now apply trees_app]. intro E. apply Ne. now apply app_inv_tail in E.
Qed.
Lemma many_r a b u v : one a u -> many b v -> many (a ++ b) (u ++ v).
Proof.
  intros (k & H) (k1 & k2 & Ne & H1 & H2). exists (k ++ k1), (k ++ k2). split; [|split; now apply trees_app]. intro E. apply Ne. now apply app_inv_head in E.
Qed.
Lemma many_rule x rhs u : In (x, rhs) R -> many rhs u -> many [x] u.
Proof.
  intros Hr (k1 & k2 & Ne & H1 & H2). rewrite <- (app_nil_r u). exists [DNode (x, rhs) k1], [DNode (x, rhs) k2]. split; [congruence|]. split; (constructor; [now constructor | constructor]).
Qed.
Lemma yl_one l u n : yl R l u n -> (forall t, In t u -> In t (ys_terms y)) -> one l u.
Proof.
  induction 1 as [|x l u n H IH|x rhs u l v n m Hr H1 IH1 H2 IH2]; intro Hu.
  - exists []. constructor.
  - change (x :: u) with ([x] ++ u). change (x :: l) with ([x] ++ l). apply one_app; [|apply IH; intros t Ht; apply Hu; now right].
    exists [DTerm x]. change [x] with ([x] ++ []) at 2. constructor; [|constructor]. constructor. apply Hu. now left.
  - change (x :: l) with ([x] ++ l). apply one_app; [|apply IH2; intros t Ht; apply Hu, in_app_iff; now right].
    destruct IH1 as (ks & K); [intros t Ht; apply Hu, in_app_iff; now left|]. rewrite <- (app_nil_r u). exists [DNode (x, rhs) ks]. constructor; [now constructor | constructor].
Qed.
Lemma seg_terms i k t : In t (seg i k) -> In t (ys_terms y).
Proof. intro H. apply HT. assert (Z : In t (skipn i toks)) by (rewrite <- (firstn_skipn (k - i) (skipn i toks)); apply in_app_iff; now left). rewrite <- (firstn_skipn i toks). apply in_app_iff. now right. Qed.
Lemma steps_one_seg l i k : steps R l (seg i k) -> one l (seg i k).
Proof. intro H. apply steps_yl in H. destruct H as (n & H). apply (yl_one _ _ _ H). intro t. apply seg_terms. Qed.
Lemma slen i k : i <= k <= List.length toks -> List.length (seg i k) = k - i.
Proof. intro H. rewrite firstn_length, skipn_length. lia. Qed.
(** Two ways to divide a text between a list and a last symbol *)
Lemma many_split a x from k j1 j2 : from <= j1 <= k -> from <= j2 <= k -> k <= List.length toks -> j1 <> j2 ->
  steps R a (seg from j1) -> steps R [x] (seg j1 k) -> steps R a (seg from j2) -> steps R [x] (seg j2 k) -> many (a ++ [x]) (seg from k).
Proof.
  intros H1 H2 Hk Ne A1 X1 A2 X2. apply steps_one_seg in A1, X1, A2, X2. destruct A1 as (p1 & A1), X1 as (q1 & X1), A2 as (p2 & A2), X2 as (q2 & X2).
  exists (p1 ++ q1), (p2 ++ q2). split.
  - intro E. inversion X1 as [|? ? t1 z1 v1 w1 T1 T2 Q1 Q2 Q3]; subst. inversion T2; subst. inversion X2 as [|? ? t2 z2 v2 w2 T3 T4 Q4 Q5 Q6]; subst. inversion T4; subst.
    apply app_inj_tail in E. destruct E as [_ E]. subst t2. rewrite app_nil_r in *. apply (proj1 (spells _ _)) in T1, T3.
    assert (L : List.length (seg j1 k) = List.length (seg j2 k)) by congruence. rewrite !slen in L by lia. lia.
  - rewrite <- (seg_app y toks HA from j1 k) at 1 by lia. split; [now apply trees_app|]. rewrite <- (seg_app y toks HA from j2 k) by lia. now apply trees_app.
Qed.

Section Sets.
Variable sets : list sset.
Hypothesis G : good y toks sets.
Hypothesis M : made y f toks sets.
Hypothesis Hlen : List.length sets <= S (List.length toks).

(** * A dotted rule that is twice in a set *)
Lemma nys_nodup ds : forall id l, NoDup l -> NoDup (nys_of f id ds l).
Proof.
  assert (N1 : forall tail r j parent l, NoDup l -> NoDup (add_nys f r j tail parent l)).
  { induction tail as [|x tail IH]; intros r j parent l H; [exact H|]. cbn [add_nys]. destruct (empty_p f x); [|exact H]. now apply IH, add_item_nodup. }
  induction ds as [|d ds IH]; intros id l H; [exact H|]. cbn [nys_of]. now apply IH, N1.
Qed.
Lemma grow_nodup ds nys : forall fuel i seen init init', NoDup init -> grow y f fuel ds nys i seen init = Ok init' -> NoDup init'.
Proof.
  assert (F1 : forall l init, NoDup init -> NoDup (fold_left (add_init nys) l init)).
  { induction l as [|d l IH]; intros init H; [exact H|]. cbn [fold_left]. now apply IH, add_init_nodup. }
  induction fuel as [|fuel IH]; intros i seen init init' H E; cbn [grow] in E; [discriminate E|].
  destruct (nth_error (ds ++ map fst nys ++ init) i) as [d|]; [|injection E as <-; exact H]. destruct (after d) as [x|]; [|now apply IH in E].
  apply IH in E; [exact E|]. assert (H1 : NoDup (if mem x seen || mem x (ys_terms y) then init else fold_left (add_init nys) (map (fun r => (r, 0)) (rules_of y x)) init)) by (destruct (_ || _); [exact H | now apply F1]).
  destruct (empty_p f x && _); [now apply add_init_nodup | exact H1].
Qed.
Lemma complete_nodup ss next : forall fuel i st st', NoDup st -> complete y f fuel ss next i st = Ok st' -> NoDup st'.
Proof.
  induction fuel as [|fuel IH]; intros i st st' H E; cbn [complete] in E; [discriminate E|]. destruct (nth_error st i) as [[d m]|]; [|injection E as <-; exact H].
  destruct (empty_tail f d); [|now apply IH in E]. destruct (_ <? m); [discriminate E|]. destruct (nth_error ss _) as [prev|]; [|discriminate E].
  destruct (predicted prev (dlhs d)); [destruct (_ && _); [now apply IH in E | discriminate E]|]. apply IH in E; [exact E|]. now apply shift_all_nodup.
Qed.
Lemma set_nodup k s : 1 <= k -> nth_error sets k = Some s -> NoDup (s_started s) /\ NoDup (s_nys s) /\ NoDup (s_init s).
Proof.
  intros Hk Hs. destruct (M k s Hs) as [[-> _]|(p & set & x & next & fuel & st & -> & A2 & A3 & A4 & A5)]; [lia|].
  apply complete_nodup in A4; [|apply shift_all_nodup; constructor]. unfold expand in A5. destruct (grow _ _ _ _ _ _ _ _) as [init| | | |] eqn:Eg in A5; try discriminate A5. cbn [obind] in A5.
  injection A5 as <-. cbn [s_started s_nys s_init]. split; [exact A4|]. split; [apply nys_nodup; constructor|]. eapply grow_nodup; [|exact Eg]. constructor.
Qed.
Lemma two_ways k s st r j n m : nth_error sets k = Some s -> expanded y f st s ->
  (forall d m, In (d, m) st -> (k = 0 /\ snd d = 0 /\ dlhs d = AX) \/
    1 <= k /\ exists e m', d = shift e /\
      ((exists prev x, nth_error sets (k - 1) = Some prev /\ nth_error toks (k - 1) = Some x /\ In (e, m') (items prev) /\ after e = Some x /\ m = m' + 1) \/
       (exists d2 m2 prev, In (d2, m2) st /\ empty_tail f d2 = true /\ 1 <= m2 <= k /\ nth_error sets (k - m2) = Some prev /\ In (e, m') (items prev) /\ after e = Some (dlhs d2) /\ m = m' + m2))) ->
  In ((r, j), m) st -> In ((r, j + n), m) st -> 1 <= n -> nullb f (firstn n (skipn j (snd r))) = true -> many (firstn (j + n) (snd r)) (seg (k - m) k).
Proof.
  intros Hs E Hst H1 H2 Hn Hb. assert (Hk : k < List.length sets) by (apply nth_error_Some; congruence).
  assert (I1 : In ((r, j), m) (items s)) by (apply (items_in y f toks HA st s); [exact E | now left]). assert (I2 : In ((r, j + n), m) (items s)) by (apply (items_in y f toks HA st s); [exact E | now left]).
  destruct (gd_snd _ _ _ G k s _ Hs I1) as [_ B2 B3 _ _]. destruct (gd_snd _ _ _ G k s _ Hs I2) as [C1 _ _ _ _]. unfold drhs in *. cbn [fst snd] in *. apply all_drules_in in C1. destruct C1 as [C1 C2].
  destruct (Hst _ _ H2) as [(_ & Z & _)|(K1 & e & m' & Ee & B)]; [cbn [snd] in Z; lia|]. destruct e as [r' p]. unfold shift in Ee. cbn [fst snd] in Ee. injection Ee as <- Ep.
  destruct n as [|n]; [lia|]. assert (p = j + n) by lia. subst p. destruct (nth_error (snd r) (j + n)) as [x|] eqn:Ex; [|apply nth_error_None in Ex; lia].
  assert (Hx2 : nth_error (skipn j (snd r)) n = Some x). { rewrite <- Ex. rewrite <- (firstn_skipn j (snd r)) at 2. rewrite nth_error_app2; rewrite firstn_length, Nat.min_l by lia; [f_equal; lia | lia]. }
  rewrite (nth_error_firstn _ _ _ Hx2) in Hb. unfold nullb in Hb. rewrite forallb_app in Hb. apply andb_true_iff in Hb. destruct Hb as [Hb1 Hb2]. cbn [forallb] in Hb2. rewrite andb_true_r in Hb2. apply HE in Hb2.
  apply (nullb_iff y f HE) in Hb1. rewrite Nat.add_succ_r, (nth_error_firstn _ _ _ Ex).
  assert (Hfull : steps R (firstn (j + n) (snd r)) (seg (k - m) k)).
  { rewrite firstn_more. rewrite <- (app_nil_r (seg (k - m) k)). now apply steps_app. }
  destruct B as [(prev & z & B4 & B5 & B6 & B7 & _)|(d2 & m2 & prev & B4 & B5 & B6 & B7 & B8 & B9 & Em)].
  - exfalso. unfold after, drhs in B7. cbn [fst snd] in B7. rewrite Ex in B7. injection B7 as ->. apply (nt_not_term y W z); [apply HT; eapply nth_error_In; exact B5 | exact Hb2].
  - unfold after, drhs in B9. cbn [fst snd] in B9. rewrite Ex in B9. injection B9 as ->.
    assert (I3 : In (d2, m2) (items s)) by (apply (items_in y f toks HA st s); [exact E | now left]).
    destruct (gd_snd _ _ _ G k s _ Hs I3) as [D1 _ D3 _ _]. destruct (gd_snd _ _ _ G (k - m2) prev _ B7 B8) as [_ E2 E3 _ _]. unfold drhs in E3. cbn [fst snd] in *.
    replace (k - m2 - m') with (k - m) in E3 by lia.
    assert (Hx3 : steps R [dlhs d2] (seg (k - m2) k)).
    { destruct d2 as [[L rhs] j2]. unfold dlhs, drhs, empty_tail in *. cbn [fst snd] in *. apply all_drules_in in D1. destruct D1 as [D1 _]. eapply steps_trans; [apply steps_rule; exact D1|].
      rewrite <- (firstn_skipn j2 rhs). rewrite <- (app_nil_r (seg (k - m2) k)). apply steps_app; [exact D3|]. now apply (nullb_iff y f HE). }
    apply (many_split _ _ _ _ (k - m2) k); try lia; try assumption. rewrite Nat.sub_diag. exact Hb2.
Qed.
Lemma twice_many k s r m x : nth_error sets k = Some s -> twice ((r, List.length (snd r)), m) (items s) -> fst r = x -> x <> AX -> many (snd r) (seg (k - m) k).
Proof.
  intros Hs H Ex Nx. destruct (set_expanded y f toks HE HA HT No sets G M k s Hs) as (st & E & Hst).
  assert (Z0 : forall d m, In (d, m) st -> k = 0 \/ m = 0 -> dlhs d = AX).
  { intros d m0 Hd Hz. destruct (Hst d m0 Hd) as [(_ & _ & Z)|(K1 & e & m' & _ & [(prev & z & _ & _ & _ & _ & ->)|(d2 & m2 & prev & _ & _ & Q & _ & _ & _ & ->)])]; [exact Z | lia | lia]. }
  assert (Hny : forall d p, In (d, p) (s_nys s) -> exists e n, nth_error st p = Some (e, nth p (map snd st) 0) /\ 1 <= n <= List.length (skipn (snd e) (drhs e)) /\
    nullb f (firstn n (skipn (snd e) (drhs e))) = true /\ d = (fst e, snd e + n)).
  { intros d p Hd. apply (ex_nys _ _ _ _ E) in Hd. destruct Hd as (p' & e & n & A1 & A2 & A3 & A4). assert (d = (fst e, snd e + n)) by exact (f_equal fst A4). assert (p = p') by exact (f_equal snd A4). subst d p'.
    apply nth_map_inv in A1. destruct A1 as ([e' m'] & A1 & A5). cbn [fst] in A5. subst e'. exists e, n. rewrite (nth_error_nth _ _ _ (nth_map_some snd _ _ _ A1)). now repeat split. }
  assert (K1 : 1 <= k).
  { destruct k as [|k]; [|lia]. exfalso. apply Nx. rewrite <- Ex.
    assert (Hd : forall d m, In (d, m) st \/ (exists p, In (d, p) (s_nys s) /\ nth_error (map snd st) p = Some m) -> dlhs d = AX).
    { intros d m0 [Hd|(p & Hd & _)]; [now apply (Z0 d m0 Hd); left|]. destruct (Hny d p Hd) as (e & n & A1 & _ & _ & ->). apply nth_error_In in A1. apply (Z0 _ _ A1). now left. }
    unfold items in H. rewrite (ex_started _ _ _ _ E), app_assoc in H. destruct (twice_app _ _ _ H) as [B|[[B _]|B]].
    - apply twice_in in B as Q.
      apply in_app_iff in Q. destruct Q as [Q|Q]; [exact (Hd _ _ (or_introl Q))|]. apply in_map_iff in Q. destruct Q as ([d p] & Q1 & Q2). cbn [fst snd] in Q1. assert (Qd : d = (r, List.length (snd r))) by exact (f_equal fst Q1). subst d.
      destruct (Hny _ p Q2) as (e & n & A1 & _ & _ & A4). apply nth_error_In in A1. assert (Q3 := Z0 _ _ A1 (or_introl eq_refl)). unfold dlhs in Q3. rewrite <- (f_equal fst A4 : r = fst e) in Q3. exact Q3.
    - apply in_app_iff in B. destruct B as [Q|Q]; [exact (Hd _ _ (or_introl Q))|]. apply in_map_iff in Q. destruct Q as ([d p] & Q1 & Q2). cbn [fst snd] in Q1. assert (Qd : d = (r, List.length (snd r))) by exact (f_equal fst Q1). subst d.
      destruct (Hny _ p Q2) as (e & n & A1 & _ & _ & A4). apply nth_error_In in A1. assert (Q3 := Z0 _ _ A1 (or_introl eq_refl)). unfold dlhs in Q3. rewrite <- (f_equal fst A4 : r = fst e) in Q3. exact Q3.
    - exfalso. unfold build_start_set in *. destruct (M 0 s Hs) as [[_ A]|(p & set & z & next & fuel & st' & A & _)]; [|discriminate A].
      unfold build_start_set, expand in A. destruct (grow _ _ _ _ _ _ _ _) as [init| | | |] eqn:Eg in A; try discriminate A. cbn [obind] in A. injection A as <-. cbn [s_init] in B.
      apply grow_nodup in Eg; [|constructor]. apply twice_map in B; [|exact Eg]. destruct B as (i1 & i2 & _ & _ & Ne & B1 & B2). apply Ne. exact (eq_trans (f_equal fst B1) (eq_sym (f_equal fst B2))). }
  destruct (set_nodup k s K1 Hs) as (N1 & N2 & N3). unfold items in H. rewrite (ex_started _ _ _ _ E) in *. set (d0 := (r, List.length (snd r))) in *.
  assert (Hm0 : forall d p, In (d, p) (s_nys s) -> dlhs d <> AX -> nth p (map snd st) 0 <> 0).
  { intros d p Hd Nd Z. destruct (Hny d p Hd) as (e & n & A1 & _ & _ & ->). apply nth_error_In in A1. apply Nd. exact (Z0 _ _ A1 (or_intror Z)). }
  assert (Nd0 : dlhs d0 <> AX) by (unfold dlhs, d0; cbn [fst]; congruence).
  destruct (twice_app _ _ _ H) as [B|[[B1 B2]|B]].
  - exfalso. exact (twice_nodup _ _ B N1).
  - apply in_app_iff in B2. destruct B2 as [B2|B2].
    + apply in_map_iff in B2. destruct B2 as ([d p] & Q1 & Q2). cbn [fst snd] in Q1. assert (Qd : d = d0) by exact (f_equal fst Q1). assert (Qm : nth p (map snd st) 0 = m) by exact (f_equal snd Q1). subst d m.
      destruct (Hny _ p Q2) as ([r' j] & n & A1 & A2 & A3 & A4). unfold drhs in *. cbn [fst snd] in *. apply nth_error_In in A1. assert (r = r') by exact (f_equal fst A4). subst r'. assert (El : List.length (snd r) = j + n) by exact (f_equal snd A4).
      rewrite <- (firstn_all (snd r)). rewrite El. apply (two_ways k s st); try assumption; [|lia]. rewrite <- El. exact B1.
    + exfalso. apply in_map_iff in B2. destruct B2 as (d & Q1 & Q2). assert (m = 0) by exact (eq_sym (f_equal snd Q1)). apply Nd0. apply (Z0 _ _ B1). now right.
  - destruct (twice_app _ _ _ B) as [C|[[C1 C2]|C]].
    + apply twice_map in C; [|exact N2]. destruct C as ([d p] & [d' q] & Q1 & Q2 & Ne & Q3 & Q4). cbn [fst snd] in *.
      assert (d = d0) by exact (f_equal fst Q3). assert (d' = d0) by exact (f_equal fst Q4). assert (Qp : nth p (map snd st) 0 = m) by exact (f_equal snd Q3). assert (Qq : nth q (map snd st) 0 = m) by exact (f_equal snd Q4). subst d d'.
      destruct (Hny _ p Q1) as ([r1 j1] & n1 & A1 & A2 & A3 & A4). destruct (Hny _ q Q2) as ([r2 j2] & n2 & C1 & C2 & C3 & C4). unfold drhs in *. cbn [fst snd] in *. rewrite Qp in A1. rewrite Qq in C1.
      assert (r = r1) by exact (f_equal fst A4). assert (r = r2) by exact (f_equal fst C4). subst r1 r2. assert (E1 : List.length (snd r) = j1 + n1) by exact (f_equal snd A4). assert (E2 : List.length (snd r) = j2 + n2) by exact (f_equal snd C4).
      assert (Gen : forall j n n', j + n + n' = List.length (snd r) -> 1 <= n -> In ((r, j), m) st -> In ((r, j + n), m) st -> nullb f (firstn (n + n') (skipn j (snd r))) = true -> many (snd r) (seg (k - m) k)).
      { intros j n n' L Hn G1 G2 G3. unfold nullb in G3. rewrite firstn_more, forallb_app in G3. apply andb_true_iff in G3. destruct G3 as [G3 G4].
        assert (G5 := two_ways k s st r j n m Hs E Hst G1 G2 Hn G3). rewrite <- (firstn_skipn (j + n) (snd r)). rewrite <- (app_nil_r (seg (k - m) k)). apply many_l; [exact G5|].
        rewrite skipn_skip in G4. rewrite firstn_all2 in G4 by (rewrite skipn_length; lia). apply (nullb_iff y f HE) in G4. apply steps_yl in G4. destruct G4 as (w & G4). apply (yl_one _ _ _ G4). intros t []. }
      apply nth_error_In in A1 as A1'. apply nth_error_In in C1 as C1'. destruct (lt_eq_lt_dec j1 j2) as [[L|L]|L].
      * apply (Gen j1 (j2 - j1) n2); try lia; [exact A1' | replace (j1 + (j2 - j1)) with j2 by lia; exact C1' | replace (j2 - j1 + n2) with n1 by lia; exact A3].
      * exfalso. apply Ne. f_equal. subst j2. apply (proj1 (NoDup_nth_error st) N1); [|unfold item, drule, rule in *; congruence]. apply nth_error_Some. intro Z. assert (Q := eq_trans (eq_sym A1) Z). discriminate Q.
      * apply (Gen j2 (j1 - j2) n1); try lia; [exact C1' | replace (j2 + (j1 - j2)) with j1 by lia; exact A1' | replace (j1 - j2 + n1) with n2 by lia; exact C3].
    + exfalso. apply in_map_iff in C1, C2. destruct C1 as ([d p] & Q1 & Q2). destruct C2 as (d' & Q3 & Q4). cbn [fst snd] in Q1. assert (d = d0) by exact (f_equal fst Q1). subst d.
      apply (Hm0 _ _ Q2 Nd0). exact (eq_trans (f_equal snd Q1) (eq_sym (f_equal snd Q3))).
    + exfalso. apply twice_map in C; [|exact N3]. destruct C as (i1 & i2 & _ & _ & Ne & C1 & C2). apply Ne. exact (eq_trans (f_equal fst C1) (eq_sym (f_equal fst C2))).
Qed.

(** * The choice of a completion *)
Notation fits := (fits sets).
Lemma pick_flag_ok r pos from k x (Hx : nth_error (snd r) pos = Some x) : forall l found,
  (forall d m, In (d, m) l -> m <= k /\ exists c, nth_error sets (k - m) = Some c /\ has_vector c x = true) ->
  exists res b, pick_flag sets r pos from k x l found = Ok (res, b) /\
  match found with
  | Some c => res = Some c /\ if b then exists l1 j l2, l = l1 ++ j :: l2 /\ fits r pos from k (snd j) else forall i, In i l -> ~ fits r pos from k (snd i)
  | None =>
    if b then exists l1 i l2 j l3, l = l1 ++ i :: l2 ++ j :: l3 /\ fits r pos from k (snd i) /\ fits r pos from k (snd j)
    else forall i, In i l -> fits r pos from k (snd i) -> res = Some (fst i, k - snd i)
  end.
Proof.
  induction l as [|[d m] l IH]; intros found H; cbn [pick_flag].
  - exists found, false. split; [reflexivity|]. destruct found; [split; [reflexivity|]|]; intros i [].
  - destruct (H d m) as (Hm & c & Hc & Hv); [now left|]. rewrite (proj2 (Nat.ltb_ge k m) Hm), Hc, Hv.
    assert (H' : forall d m, In (d, m) l -> m <= k /\ exists c, nth_error sets (k - m) = Some c /\ has_vector c x = true) by (intros d' m' A; apply (H d' m'); now right).
    destruct (existsb _ (predicted c x)) eqn:Ex.
    + assert (Hf : fits r pos from k m).
      { apply existsb_exists in Ex. destruct Ex as (e & E1 & E2). apply andb_true_iff in E2. destruct E2 as [E2 E3]. apply drule_eqb_eq in E2. apply Nat.eqb_eq in E3.
        apply predicted_in in E1. exists c, e. split; [exact Hc|]. split; [apply E1|]. now split. }
      destruct found as [c0|].
      * exists (Some c0), true. split; [reflexivity|]. split; [reflexivity|]. exists [], (d, m), l. now split.
      * destruct (IH (Some (d, k - m)) H') as (res & b & E1 & -> & E2). exists (Some (d, k - m)), b. split; [exact E1|]. destruct b.
        -- destruct E2 as (l1 & j & l2 & -> & E2). exists [], (d, m), l1, j, l2. now split.
        -- intros i [<-|Hi] Hi2; [reflexivity|]. exfalso. exact (E2 i Hi Hi2).
    + assert (Hf : ~ fits r pos from k m).
      { intros (c' & e & F1 & F2 & F3 & F4). rewrite Hc in F1. injection F1 as <-. assert (Z : existsb (fun e : item => drule_eqb (fst e) (r, pos) && (from + snd e =? k - m)) (predicted c x) = true).
        { apply existsb_exists. exists e. split; [|apply andb_true_iff; split; [now apply drule_eqb_eq | now apply Nat.eqb_eq]]. apply predicted_in. split; [exact F2|]. rewrite F3. exact Hx. }
        assert (Q := eq_trans (eq_sym Z) Ex); discriminate Q. }
      destruct (IH found H') as (res & b & E1 & E2). exists res, b. split; [exact E1|]. destruct found as [c0|].
      * destruct E2 as [-> E2]. split; [reflexivity|]. destruct b.
        -- destruct E2 as (l1 & j & l2 & -> & E2). now exists ((d, m) :: l1), j, l2.
        -- intros i [<-|Hi]; [exact Hf | now apply E2].
      * destruct b.
        -- destruct E2 as (l1 & i & l2 & j & l3 & -> & E2). now exists ((d, m) :: l1), i, l2, j, l3.
        -- intros i [<-|Hi] Hi2; [now destruct Hf | now apply E2].
Qed.
Lemma vectors k s x : nth_error sets k = Some s -> x <> AX -> forall d m, In (d, m) (ends_of s x) -> m <= k /\ exists c, nth_error sets (k - m) = Some c /\ has_vector c x = true.
Proof.
  intros Es NAX d m Hd. apply ends_of_in in Hd. destruct Hd as (D1 & D2 & D3). destruct (gd_snd _ _ _ G k s _ Es D1) as [A1 A2 A3 A4 A5]. cbn [fst snd] in *. split; [exact A2|].
  destruct A5 as [[A5 _]|(c & e & A5 & A6 & A7)]; [exfalso; apply NAX; congruence|]. exists c. split; [exact A5|]. unfold has_vector. rewrite D3 in A7.
  destruct (predicted c x) eqn:Ep; [|reflexivity]. exfalso. assert (Z : In e (predicted c x)) by (apply predicted_in; now split). rewrite Ep in Z. destruct Z.
Qed.
Lemma cand k s x r pos from i : nth_error sets k = Some s -> In i (ends_of s x) -> fits r pos from k (snd i) ->
  exists rhs m, i = (((x, rhs), List.length rhs), m) /\ In (x, rhs) R /\ m <= k /\ from <= k - m /\ steps R rhs (seg (k - m) k) /\ steps R (firstn pos (snd r)) (seg from (k - m)).
Proof.
  intros Es Hi (c & e & P3 & P4 & P5 & P6). apply ends_of_in in Hi. destruct Hi as (Q1 & Q2 & Q3). destruct (gd_snd _ _ _ G k s _ Es Q1) as [A1 A2 A3 _ _].
  destruct i as [[[L rhs] j] m]. unfold dlhs, drhs in *. cbn [fst snd] in *. subst L. apply all_drules_in in A1. destruct A1 as [A1 Hj]. cbn [snd] in Hj.
  assert (j = List.length rhs). { unfold at_end, after, drhs in Q2. cbn [fst snd] in Q2. destruct (nth_error rhs j) eqn:Ej; [discriminate Q2|]. apply nth_error_None in Ej. lia. } subst j.
  rewrite firstn_all in A3. destruct (gd_snd _ _ _ G (k - m) c _ P3 P4) as [_ E2 E3 _ _]. rewrite P5 in E3. unfold drhs in E3. cbn [fst snd] in E3. replace (k - m - snd e) with from in E3 by lia.
  exists rhs, m. split; [reflexivity|]. split; [exact A1|]. split; [exact A2|]. split; [lia|]. now split.
Qed.

(** * If the flag is set there are two trees *)
Lemma walk_many : forall fuel r pos from k acc ks, In r R -> pos <= List.length (snd r) -> from <= k -> k < List.length sets -> steps R (firstn pos (snd r)) (seg from k) ->
  walk_flag y sets fuel r pos from k acc = Ok (ks, true) -> many (firstn pos (snd r)) (seg from k).
Proof.
  induction fuel as [|fuel IH]; intros r pos from k acc ks Hr Hpos Hk HK Hs H; [discriminate H|]. cbn [walk_flag] in H. destruct pos as [|pos]; [discriminate H|].
  destruct (nth_error (snd r) pos) as [x|] eqn:Ex; [|discriminate H]. rewrite (nth_error_firstn _ _ _ Ex) in Hs |- *. destruct (mem x (ys_terms y)) eqn:Em.
  - apply mem_iff in Em. apply steps_split in Hs. destruct Hs as (w1 & w2 & Ew & H1 & H2). apply (term_steps y W _ _ Em) in H2. subst w2.
    destruct (seg_parts y toks HA from k w1 [x]) as (j & Hj & -> & Ej); [lia | exact Ew|].
    assert (Hkj : k = S j). { apply (f_equal (@List.length _)) in Ej. cbn [List.length] in Ej. rewrite slen in Ej by lia. lia. }
    subst k. apply IH in H; [|exact Hr | lia | lia | lia | exact H1]. rewrite Ew. apply many_l; [exact H|]. rewrite Ej. apply steps_one_seg. rewrite <- Ej. apply steps_refl.
  - destruct (nth_error sets k) as [s|] eqn:Es; [|discriminate H]. destruct (ends_of s x) as [|i0 l0] eqn:Ee; [discriminate H|]. rewrite <- Ee in H.
    assert (NAX : x <> AX). { intros ->. destruct r as [L rhs]. exact (HA L rhs Hr (nth_error_In _ _ Ex)). }
    destruct (pick_flag_ok r pos from k x Ex (ends_of s x) None (vectors k s x Es NAX)) as (res & b & P1 & P2).
    assert (P3 := pick_ok sets r pos from k x Ex (ends_of s x) None (vectors k s x Es NAX)). destruct P3 as (res' & P3 & P4). rewrite <- pick_same, P1 in P3. unfold fsts in P3. cbn [obind fst] in P3. injection P3 as <-.
    rewrite P1 in H. cbn [obind] in H. destruct res as [[d k']|]; [|discriminate H]. destruct P4 as (m & P4 & -> & P5).
    destruct (cand k s x r pos from (d, m) Es P4 P5) as (rhs & m' & Ei & C1 & C2 & C3 & C4 & C5). injection Ei as -> <-. cbn [fst snd] in H.
    assert (Hx : steps R [x] (seg (k - m) k)) by (eapply steps_trans; [apply steps_rule; exact C1 | exact C4]).
    destruct (walk_flag y sets fuel (x, rhs) (List.length rhs) (k - m) k []) as [[ks1 b1]| | | |] eqn:E1; try discriminate H. cbn [obind] in H.
    destruct (walk_flag y sets fuel r pos from (k - m) (DNode (x, rhs) ks1 :: acc)) as [[ks2 b2]| | | |] eqn:E2; try discriminate H. cbn [obind] in H. injection H as _ Hb.
    destruct b.
    + destruct P2 as (l1 & i & l2 & j & l3 & El & F1 & F2).
      assert (Hi : In i (ends_of s x)) by (rewrite El; apply in_app_iff; right; now left). assert (Hj : In j (ends_of s x)) by (rewrite El; apply in_app_iff; right; right; apply in_app_iff; right; now left).
      destruct (cand k s x r pos from i Es Hi F1) as (ra & ma & -> & A1 & A2 & A3 & A4 & A5). destruct (cand k s x r pos from j Es Hj F2) as (rb & mb & -> & B1 & B2 & B3 & B4 & B5).
      destruct (Nat.eq_dec ma mb) as [<-|Ne].
      * rewrite <- (seg_app y toks HA from (k - ma) k) by lia. apply many_r; [now apply steps_one_seg|]. destruct (list_eq_dec (list_eq_dec N.eq_dec) ra rb) as [<-|Ne].
        -- apply (many_rule x ra); [exact A1|]. unfold ends_of in El. apply filter_two in El. destruct El as (z1 & z2 & z3 & El).
           apply (twice_many k s (x, ra) ma x Es); [now exists z1, z2, z3 | reflexivity | exact NAX].
        -- apply steps_one_seg in A4, B4. destruct A4 as (ka & A4), B4 as (kb & B4). rewrite <- (app_nil_r (seg (k - ma) k)). exists [DNode (x, ra) ka], [DNode (x, rb) kb].
           split; [intro Z; apply Ne; congruence|]. split; (constructor; [now constructor | constructor]).
      * apply (many_split _ _ from k (k - ma) (k - mb)); try lia; try assumption; [exact (steps_trans _ _ _ _ (steps_rule _ _ _ A1) A4) | exact (steps_trans _ _ _ _ (steps_rule _ _ _ B1) B4)].
    + rewrite <- (seg_app y toks HA from (k - m) k) by lia. destruct b1; cbn [orb] in Hb.
      * apply many_r; [now apply steps_one_seg|]. apply (many_rule x rhs); [exact C1|]. apply IH in E1; [|exact C1 | cbn [snd]; lia | lia | exact HK | cbn [snd]; rewrite firstn_all; exact C4].
        cbn [snd] in E1. rewrite firstn_all in E1. exact E1.
      * subst b2. apply many_l; [|now apply steps_one_seg]. apply IH in E2; [exact E2 | exact Hr | lia | lia | lia | exact C5].
Qed.

(** * If the flag is not set there is one tree *)
Notation viable l := (steps R [AX] l).
Notation pre j := (firstn j toks).
Lemma empty_all (C : cond2 y) k s d x g : nth_error sets k = Some s -> (exists m, In (d, m) (items s)) -> after d = Some x -> x <> AX -> In (x, g) R -> steps R g [] ->
  In (((x, g), List.length g), 0) (items s).
Proof.
  intros Hk Hd Ha Nx Hr Hg. destruct (set_expanded y f toks HE HA HT No sets G M k s Hk) as (st & E & Hst).
  assert (Hn : forall e, In e (map fst (s_nys s)) -> snd e = 0 \/ (snd e = 1 /\ dlhs e <> AX) -> False).
  { intros e He Hs. apply in_map_iff in He. destruct He as ([e' p] & <- & He). cbn [fst] in *. apply (ex_nys _ _ _ _ E) in He. destruct He as (p' & e & n & H & Hn & _ & Eq).
    injection Eq as -> ->. cbn [snd] in Hs. apply nth_map_inv in H. destruct H as ([e2 m] & H & He). cbn [fst] in He. subst e2. apply nth_error_In in H.
    destruct (Hst e m H) as [(_ & B1 & B2)|(_ & e0 & m' & -> & _)].
    - destruct Hs as [Hs|[_ Hs]]; [lia | exact (Hs B2)].
    - unfold shift in Hs. cbn [snd] in Hs. lia. }
  assert (Hnt : ~ In x (ys_terms y)) by (intro Z; exact (wf_disj y W x Z (wf_lhs y W _ _ Hr))).
  apply (map_items y f toks HA _ _ _ E) in Hd.
  assert (X : In ((x, g), 0) (s_init s)).
  { assert (Z := ex_rules _ _ _ _ E d x (x, g) Hd Ha Hnt Hr eq_refl). apply in_app_iff in Z. destruct Z as [Z|Z]; [|exact Z]. exfalso. apply (Hn _ Z). now left. }
  assert (Hg2 := steps_nil_all R g Hg). destruct g as [|c [|c2 g]].
  - apply (items_in y f toks HA st s); [exact E|]. right. right. now split.
  - inversion Hg2 as [|? ? H1 _]; subst. assert (Z : In (shift ((x, [c]), 0)) (map fst (s_nys s) ++ s_init s)) by (apply (ex_shift _ _ _ _ E _ c X); [reflexivity | now apply HE]).
    unfold shift in Z. cbn [fst snd] in Z. apply (items_in y f toks HA st s); [exact E|]. right. right. split; [|reflexivity]. cbn [fst].
    apply in_app_iff in Z. destruct Z as [Z|Z]; [|exact Z]. exfalso. apply (Hn _ Z). right. split; [reflexivity | exact Nx].
  - exfalso. inversion Hg2 as [|? ? H1 H2]; subst. inversion H2 as [|? ? H3 _]; subst. exact (C x c c2 g Hr H1 H3).
Qed.
Lemma seg_skip j k : j <= k -> seg j k ++ skipn k toks = skipn j toks.
Proof. intro H. rewrite <- (firstn_skipn (k - j) (skipn j toks)) at 2. f_equal. rewrite skipn_skip. f_equal. lia. Qed.
Lemma fut_of k u : steps R u (skipn k toks) -> fut y toks k u.
Proof. intros H t Ht. rewrite (skipn_nth toks _ _ Ht) in H. now exists (skipn (S k) toks). Qed.
Lemma walk_one (C : cond2 y) : forall fuel r pos from k acc ks v res, In r R -> pos <= List.length (snd r) -> from <= k -> k < List.length sets ->
  viable (pre from ++ fst r :: v) -> steps R (skipn pos (snd r) ++ v) (skipn k toks) -> trees_for T R (firstn pos (snd r)) ks (seg from k) ->
  walk_flag y sets fuel r pos from k acc = Ok (res, false) -> res = ks ++ acc.
Proof.
  assert (C0 : cond y) by (intros x0 a0 b0 c0 r0; apply C).
  induction fuel as [|fuel IH]; intros r pos from k acc ks v res Hr Hpos Hk HK Hv Hf Ht H; [discriminate H|]. cbn [walk_flag] in H. destruct pos as [|pos].
  { injection H as <-. cbn [firstn] in Ht. inversion Ht. reflexivity. }
  destruct (nth_error (snd r) pos) as [x|] eqn:Ex; [|discriminate H]. rewrite (nth_error_firstn _ _ _ Ex) in Ht.
  assert (Hsplit := nth_split3 _ _ _ Ex). assert (Hskip : skipn pos (snd r) = x :: skipn (S pos) (snd r)).
  { rewrite Hsplit at 1. rewrite skipn_app. rewrite firstn_length, Nat.min_l by lia. rewrite Nat.sub_diag. rewrite skipn_all2 by (rewrite firstn_length; lia). reflexivity. }
  destruct (trees_split _ _ _ _ _ _ Ht) as (k1 & k2 & u & u2 & -> & Eu & T1 & T2). destruct (seg_parts y toks HA from k u u2) as (j & Hj & -> & ->); [lia | exact Eu|].
  inversion T2 as [|? ? t z v1 v2 T3 T4 Q1 Q2 Q3]; subst. inversion T4; subst. rewrite app_nil_r in *. subst v1. clear T2 T4.
  assert (Hx := proj1 (tree_steps _ _) _ _ _ T3). assert (Hp := proj2 (tree_steps _ _) _ _ _ T1).
  assert (Hrest : steps R (skipn pos (snd r) ++ v) (skipn j toks)).
  { rewrite Hskip. rewrite <- (seg_skip j k) by lia. exact (steps_app R [x] _ (skipn (S pos) (snd r) ++ v) _ Hx Hf). }
  destruct (mem x (ys_terms y)) eqn:Em.
  - apply mem_iff in Em. assert (Q := term_steps y W _ _ Em Hx). assert (Hkj : k = S j). { apply (f_equal (@List.length _)) in Q. cbn [List.length] in Q. rewrite slen in Q by lia. lia. }
    subst k. apply IH with (ks := k1) (v := v) in H; try assumption; try lia. rewrite H. rewrite <- app_assoc. cbn [app]. f_equal. f_equal.
    inversion T3 as [t0 T5|x0 r0 ks0 w0 T5 T6]; subst; [reflexivity|]. exfalso. exact (wf_disj y W x Em (wf_lhs y W _ _ T5)).
  - assert (Nt : ~ In x (ys_terms y)) by (intro Z; apply mem_iff in Z; congruence). assert (NAX : x <> AX). { intros ->. destruct r as [L rhs]. exact (HA L rhs Hr (nth_error_In _ _ Ex)). }
    destruct (nth_error sets k) as [s|] eqn:Es; [|discriminate H]. destruct (ends_of s x) as [|i0 l0] eqn:Ee; [discriminate H|]. rewrite <- Ee in H.
    inversion T3 as [t0 T5|x0 rhs ks1 w0 T5 T6]; subst; [now destruct Nt|].
    assert (Hrhs := proj2 (tree_steps _ _) _ _ _ T6).
    assert (Hv' : viable (pre j ++ x :: skipn (S pos) (snd r) ++ v)).
    { eapply steps_trans; [exact Hv|]. destruct r as [L rr]. cbn [fst snd] in *. eapply steps_trans; [apply steps_app; [apply steps_refl|]; apply (steps_app R [L] rr v v); [now apply steps_rule | apply steps_refl]|].
      assert (Z : pre j = pre from ++ seg from j) by (replace j with (from + (j - from)) at 1 by lia; apply firstn_more). rewrite Z, <- app_assoc. apply steps_app; [apply steps_refl|].
      rewrite Hsplit at 1. rewrite <- app_assoc. apply steps_app; [exact Hp | apply steps_refl]. }
    assert (Hat : forall i c, from <= i -> nth_error sets i = Some c -> steps R (firstn pos (snd r)) (seg from i) -> steps R (skipn pos (snd r) ++ v) (skipn i toks) -> In ((r, pos), i - from) (items c)).
    { intros i c Hi Hc Hs1 Hs2. destruct r as [L rr]. cbn [fst snd] in *.
      assert (Z := gd_cpl _ _ _ G C0 i c Hc L (firstn pos rr) (skipn pos rr) from v). rewrite firstn_skipn in Z. rewrite firstn_length, Nat.min_l in Z by lia. apply Z; try assumption.
      - now apply fut_of.
      - right. rewrite Hskip. discriminate. }
    destruct (nth_error sets j) as [c|] eqn:Ec; [|apply nth_error_None in Ec; lia].
    assert (Hfit : fits r pos from k (k - j)).
    { exists c, ((r, pos), j - from). replace (k - (k - j)) with j by lia. split; [exact Ec|]. split; [now apply Hat|]. split; [reflexivity | cbn [snd]; lia]. }
    assert (Hin : In (((x, rhs), List.length rhs), k - j) (items s)).
    { destruct (Nat.eq_dec j k) as [->|Ne].
      - rewrite Nat.sub_diag. rewrite Nat.sub_diag in Hrhs. apply (empty_all C k s (r, pos)); try assumption. exists (k - from). apply Hat; assumption.
      - assert (Z := gd_cpl _ _ _ G C0 k s Es x rhs [] j (skipn (S pos) (snd r) ++ v)). rewrite app_nil_r in Z. apply Z; try assumption; [lia | now apply fut_of | left; lia]. }
    destruct (pick_flag_ok r pos from k x Ex (ends_of s x) None (vectors k s x Es NAX)) as (res0 & b & P1 & P2). rewrite P1 in H. cbn [obind] in H. destruct res0 as [[d k']|]; [|discriminate H].
    destruct (walk_flag y sets fuel (fst d) (snd d) k' k []) as [[kc b1]| | | |] eqn:E1; try discriminate H. cbn [obind] in H.
    destruct (walk_flag y sets fuel r pos from k' (DNode (fst d) kc :: acc)) as [[kd b2]| | | |] eqn:E2; try discriminate H. cbn [obind] in H. assert (Er : kd = res) by congruence. subst kd.
    assert (Hb : b || b1 || b2 = false) by congruence. apply orb_false_iff in Hb. destruct Hb as [Hb ->]. apply orb_false_iff in Hb. destruct Hb as [-> ->].
    assert (Hpick : Some (d, k') = Some (((x, rhs), List.length rhs), k - (k - j))).
    { refine (P2 (((x, rhs), List.length rhs), k - j) _ Hfit). apply ends_of_in. split; [exact Hin|]. split; [|reflexivity]. unfold at_end, after, drhs. cbn [fst snd].
      now rewrite (proj2 (nth_error_None rhs (List.length rhs))). }
    injection Hpick as -> ->. replace (k - (k - j)) with j in E1, E2 by lia. cbn [fst snd] in E1, E2.
    apply IH with (ks := ks1) (v := skipn (S pos) (snd r) ++ v) in E1; [|exact T5 | cbn [snd]; lia | lia | exact HK | exact Hv' | cbn [snd]; rewrite skipn_all; exact Hf | cbn [snd]; rewrite firstn_all; exact T6].
    rewrite app_nil_r in E1. subst kc. apply IH with (ks := k1) (v := v) in E2; try assumption; try lia. rewrite E2. now rewrite <- app_assoc.
Qed.
End Sets.
End S.
