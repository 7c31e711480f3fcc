(** The loops of YaepParse: what they build, without what it means *)
From Coq Require Import NArith ZArith List Bool Arith String Lia.
From Verif Require Import Bytes BytesFacts Outcome Ixml Yaep YaepParse.
Import ListNotations.
Local Open Scope list_scope.
Local Open Scope nat_scope.

Ltac ulia := unfold item, drule, rule in *; lia.

Lemma names_eqb_eq a b : names_eqb a b = true <-> a = b.
Proof.
  revert b. induction a as [|x a IH]; intros [|z b]; cbn [names_eqb]; split; intro H; try discriminate H; try reflexivity.
  - apply andb_true_iff in H. destruct H as [H1 H2]. apply beq_eq in H1. apply IH in H2. now subst.
  - injection H as <- <-. apply andb_true_iff. split; [now apply beq_eq | now apply IH].
Qed.
Lemma drule_eqb_eq a b : drule_eqb a b = true <-> a = b.
Proof.
  destruct a as [[x r] n], b as [[z q] m]. unfold drule_eqb, dlhs, drhs. cbn [fst snd]. rewrite !andb_true_iff, names_eqb_eq, Nat.eqb_eq. split.
  - intros [[H1 ->] ->]. apply beq_eq in H1. now subst.
  - intro H. injection H as <- <- <-. repeat split. now apply beq_eq.
Qed.
Lemma item_eqb_eq a b : item_eqb a b = true <-> a = b.
Proof.
  destruct a as [d n], b as [e m]. unfold item_eqb. cbn [fst snd]. rewrite andb_true_iff, drule_eqb_eq, Nat.eqb_eq. split.
  - intros [-> ->]. reflexivity.
  - intro H. injection H as <- <-. now split.
Qed.
Lemma existsb_item x l : existsb (item_eqb x) l = true <-> In x l.
Proof. rewrite existsb_exists. split; [intros (z & H & E); apply item_eqb_eq in E; now subst | intro H; exists x; split; [exact H | now apply item_eqb_eq]]. Qed.
Lemma existsb_drule x l : existsb (drule_eqb x) l = true <-> In x l.
Proof. rewrite existsb_exists. split; [intros (z & H & E); apply drule_eqb_eq in E; now subst | intro H; exists x; split; [exact H | now apply drule_eqb_eq]]. Qed.
Lemma after_is_iff x d : after_is x d = true <-> after d = Some x.
Proof.
  unfold after_is. destruct (after d) as [z|]; split; intro H; try discriminate H.
  - apply beq_eq in H. now subst.
  - injection H as ->. now apply beq_eq.
Qed.
Lemma mem_iff x l : mem x l = true <-> In x l.
Proof. unfold mem. rewrite existsb_exists. split; [intros (z & H & E); apply beq_eq in E; now subst | intro H; exists x; split; [exact H | now apply beq_eq]]. Qed.
Lemma after_lt d x : after d = Some x -> snd d < List.length (drhs d).
Proof. unfold after. intro H. apply nth_error_Some. congruence. Qed.
Lemma predicted_in s x i : In i (predicted s x) <-> In i (items s) /\ after (fst i) = Some x.
Proof. unfold predicted. rewrite filter_In, after_is_iff. reflexivity. Qed.

(** add_item: a list without duplicates *)
Lemma add_item_in l x z : In z (add_item l x) <-> In z l \/ z = x.
Proof.
  unfold add_item. destruct (existsb (item_eqb x) l) eqn:E.
  - apply existsb_item in E. split; [now left | intros [H| ->]; assumption].
  - rewrite in_app_iff. cbn [In]. split; [intros [H|[<-|[]]]; [now left | now right] | intros [H| ->]; [now left | right; now left]].
Qed.
Lemma NoDup_snoc {A} (l : list A) x : NoDup l -> ~ In x l -> NoDup (l ++ [x]).
Proof.
  intros H N. induction H as [|a l Ha H IH]; cbn [app].
  - constructor; [intros [] | constructor].
  - constructor.
    + rewrite in_app_iff. intros [A1|[<-|[]]]; [contradiction|]. apply N. now left.
    + apply IH. intro A1. apply N. now right.
Qed.
Lemma add_item_nodup l x : NoDup l -> NoDup (add_item l x).
Proof.
  intro H. unfold add_item. destruct (existsb (item_eqb x) l) eqn:E; [exact H|].
  apply NoDup_snoc; [exact H|]. intro A. apply existsb_item in A. congruence.
Qed.
Lemma add_item_ext l x : exists z, add_item l x = l ++ z.
Proof. unfold add_item. destruct (existsb _ l); [exists []; now rewrite app_nil_r | now exists [x]]. Qed.

Section P.
Variable y : ystate.
Variable f : flags.
Notation D := (all_drules y).

Lemma all_drules_in r j : In (r, j) D <-> In r (ys_rules y) /\ j <= List.length (snd r).
Proof.
  unfold all_drules. rewrite in_flat_map. split.
  - intros (r' & H & E). apply in_map_iff in E. destruct E as (j' & E & Hj). injection E as -> ->. split; [exact H|].
    apply in_seq in Hj. lia.
  - intros [H Hj]. exists r. split; [exact H|]. apply in_map. apply in_seq. lia.
Qed.
Lemma rules_of_in x r : In r (rules_of y x) <-> In r (ys_rules y) /\ fst r = x.
Proof. unfold rules_of. rewrite filter_In, <- in_rev. split; intros [H E]; (split; [exact H|]); [apply beq_eq in E; now symmetry | apply beq_eq; now symmetry]. Qed.

(** ** Those that are not yet started *)
Definition nullb (l : list bytes) : bool := forallb (empty_p f) l.
Lemma add_nys_in r tail : forall j parent l i, In i (add_nys f r j tail parent l) <->
  In i l \/ exists n, 1 <= n <= List.length tail /\ nullb (firstn n tail) = true /\ i = ((r, j + n), parent).
Proof.
  induction tail as [|x tail IH]; intros j parent l i; cbn [add_nys List.length].
  - split; [now left | intros [H|(n & H & _)]; [exact H | lia]].
  - destruct (empty_p f x) eqn:E.
    + rewrite IH, add_item_in. split.
      * intros [[H| ->]|(n & Hn & Hb & ->)]; [now left | right | right].
        -- exists 1. split; [lia|]. split; [cbn [firstn]; unfold nullb; cbn [forallb]; now rewrite E|]. do 2 f_equal. lia.
        -- exists (S n). split; [lia|]. split; [cbn [firstn]; unfold nullb in *; cbn [forallb]; now rewrite E|]. do 2 f_equal. lia.
      * intros [H|(n & Hn & Hb & ->)]; [left; now left|].
        destruct n as [|[|n]]; [lia | left; right; do 2 f_equal; lia | right].
        exists (S n). split; [lia|]. split; [unfold nullb in *; cbn [firstn forallb] in Hb |- *; now rewrite E in Hb|]. do 2 f_equal. lia.
    + split; [now left|]. intros [H|(n & Hn & Hb & _)]; [exact H|]. destruct n as [|n]; [lia|].
      unfold nullb in Hb. cbn [firstn forallb] in Hb. now rewrite E in Hb.
Qed.
Lemma nys_of_in ds : forall id l i, In i (nys_of f id ds l) <->
  In i l \/ exists p d n, nth_error ds p = Some d /\ 1 <= n <= List.length (skipn (snd d) (drhs d)) /\
    nullb (firstn n (skipn (snd d) (drhs d))) = true /\ i = ((fst d, snd d + n), id + p).
Proof.
  induction ds as [|d ds IH]; intros id l i; cbn [nys_of].
  - split; [now left | intros [H|(p & e & n & H & _)]; [exact H | now destruct p]].
  - rewrite IH, add_nys_in. split.
    + intros [[H|(n & H1 & H2 & ->)]|(p & e & n & H0 & H1 & H2 & ->)]; [now left | right | right].
      * exists 0, d, n. split; [reflexivity|]. split; [exact H1|]. split; [exact H2|]. f_equal. lia.
      * exists (S p), e, n. split; [exact H0|]. split; [exact H1|]. split; [exact H2|]. f_equal. lia.
    + intros [H|(p & e & n & H0 & H1 & H2 & ->)]; [left; now left|]. destruct p as [|p]; cbn [nth_error] in H0.
      * injection H0 as <-. left. right. exists n. split; [exact H1|]. split; [exact H2|]. f_equal. lia.
      * right. exists p, e, n. split; [exact H0|]. split; [exact H1|]. split; [exact H2|]. f_equal. lia.
Qed.

(** ** The initial ones *)
Section Grow.
Variable ds : list drule.
Variable nys : list item.
Notation base := (List.length ds + List.length nys).
Notation L init := (ds ++ map fst nys ++ init).
Notation M init := (map fst nys ++ init).

Lemma add_init_in l d e : In e (add_init nys l d) <-> In e l \/ (e = d /\ ~ In d (M l)).
Proof.
  unfold add_init. destruct (existsb (drule_eqb d) (M l)) eqn:E.
  - apply existsb_drule in E. split; [now left | intros [H|[_ H]]; [exact H | contradiction]].
  - assert (N : ~ In d (M l)) by (intro A; apply existsb_drule in A; congruence).
    rewrite in_app_iff. cbn [In]. split; [intros [H|[<-|[]]]; [now left | right; now split] | intros [H|[-> _]]; [now left | right; now left]].
Qed.
Lemma add_init_has l d : In d (M (add_init nys l d)).
Proof.
  unfold add_init. destruct (existsb (drule_eqb d) (M l)) eqn:E.
  - now apply existsb_drule in E.
  - rewrite !in_app_iff. right. right. now left.
Qed.
Lemma add_init_nodup l d : NoDup l -> NoDup (add_init nys l d).
Proof.
  intro H. unfold add_init. destruct (existsb (drule_eqb d) (M l)) eqn:E; [exact H|].
  apply NoDup_snoc; [exact H|]. intro A. assert (X : In d (M l)) by (apply in_or_app; now right). apply existsb_drule in X. congruence.
Qed.
Lemma add_init_ext l d : exists z, add_init nys l d = l ++ z.
Proof. unfold add_init. destruct (existsb _ _); [exists []; now rewrite app_nil_r | now exists [d]]. Qed.

Inductive reach : drule -> Prop :=
  | reach_base e : In e (ds ++ map fst nys) -> reach e
  | reach_step e d : reach e -> after e = Some (dlhs d) -> In d D -> nullb (firstn (snd d) (drhs d)) = true -> reach d.
Definition derived (init : list drule) (d : drule) : Prop :=
  In d D /\ nullb (firstn (snd d) (drhs d)) = true /\ exists e, In e (L init) /\ after e = Some (dlhs d) /\ reach e.
Definition has_rules (init : list drule) (x : bytes) : Prop := In x (ys_terms y) \/ forall r, In r (ys_rules y) -> fst r = x -> In (r, 0) (M init).
Record ginv (i : nat) (seen : list bytes) (init : list drule) : Prop := {
  gi_nodup : NoDup init;
  gi_derived : forall d, In d init -> derived init d;
  gi_seen : forall x, In x seen -> has_rules init x;
  gi_done : forall i' e x, i' < i -> nth_error (L init) i' = Some e -> after e = Some x ->
    has_rules init x /\ (empty_p f x = true -> base <= i' -> In (shift e) (M init));
  gi_le : i <= List.length (L init) }.

Lemma derived_ext init z d : derived init d -> derived (init ++ z) d.
Proof.
  intros (H1 & H2 & e & H3 & H4). split; [exact H1|]. split; [exact H2|]. exists e. split; [|exact H4].
  repeat rewrite in_app_iff in H3; repeat rewrite in_app_iff; tauto.
Qed.
Lemma has_rules_ext init z x : has_rules init x -> has_rules (init ++ z) x.
Proof. intros [H|H]; [now left|]. right. intros r Hr E. specialize (H r Hr E). repeat rewrite in_app_iff in H; repeat rewrite in_app_iff; tauto. Qed.
Lemma M_ext init z d : In d (M init) -> In d (M (init ++ z)).
Proof. rewrite !in_app_iff. tauto. Qed.

(** adding keeps what is there *)
Definition step_ok (init init' : list drule) : Prop :=
  (exists z, init' = init ++ z) /\ (NoDup init -> NoDup init') /\ ((forall d, In d init -> derived init d) -> forall d, In d init' -> derived init' d).
Lemma step_ok_refl init : step_ok init init.
Proof. split; [exists []; now rewrite app_nil_r|]. split; auto. Qed.
Lemma step_ok_trans a b c : step_ok a b -> step_ok b c -> step_ok a c.
Proof.
  intros ((z1 & ->) & A2 & A3) ((z2 & ->) & B2 & B3). split; [exists (z1 ++ z2); now rewrite app_assoc|]. split; auto.
Qed.
Lemma add_init_step init d : derived init d -> step_ok init (add_init nys init d).
Proof.
  intro H. destruct (add_init_ext init d) as (z & E). split; [now exists z|]. split; [apply add_init_nodup|].
  intros A e He. apply add_init_in in He. rewrite E. apply derived_ext. destruct He as [He|[-> _]]; [now apply A | exact H].
Qed.
Lemma fold_add_step l : forall init, (forall d, In d l -> derived init d) ->
  step_ok init (fold_left (add_init nys) l init) /\ forall d, In d l -> In d (M (fold_left (add_init nys) l init)).
Proof.
  induction l as [|d l IH]; intros init H; cbn [fold_left].
  - split; [apply step_ok_refl | intros d []].
  - assert (S1 := add_init_step init d (H d (or_introl eq_refl))).
    destruct S1 as ((z & E) & S2 & S3).
    destruct (IH (add_init nys init d)) as [I1 I2].
    { intros e He. rewrite E. apply derived_ext. apply H. now right. }
    split; [eapply step_ok_trans; [|exact I1]; split; [now exists z | now split]|].
    intros e [<-|He]; [|now apply I2]. destruct I1 as ((z2 & E2) & _). rewrite E2. apply M_ext. apply add_init_has.
Qed.

Lemma grow_ok (Hd : forall d, In d ds -> In d D) (Hn : forall d, In d (map fst nys) -> In d D) :
  forall fuel i seen init, ginv i seen init -> base + List.length D < i + fuel ->
  exists init', grow y f fuel ds nys i seen init = Ok init' /\ ginv (List.length (L init')) [] init'.
Proof.
  induction fuel as [|fuel IH]; intros i seen init G Hf.
  - exfalso. assert (A := gi_le _ _ _ G). rewrite !app_length, map_length in A.
    assert (C : List.length init <= List.length D).
    { apply NoDup_incl_length; [apply (gi_nodup _ _ _ G)|]. intros d H. now apply (gi_derived _ _ _ G). }
    clear - Hf A C. unfold item, drule, rule in *. lia.
  - cbn [grow]. destruct (nth_error (L init) i) as [d|] eqn:E.
    2: { exists init. split; [reflexivity|]. assert (A : i = List.length (L init)). { apply nth_error_None in E. assert (X := gi_le _ _ _ G). lia. }
         rewrite <- A. destruct G as [G1 G2 G3 G4 G5]. constructor; try assumption. intros x []. }
    assert (Hin : In d (L init)) by (eapply nth_error_In; exact E).
    assert (HD : In d D). { rewrite !in_app_iff in Hin. destruct Hin as [A|[A|A]]; [now apply Hd | now apply Hn | now apply (gi_derived _ _ _ G)]. }
    assert (Hre : reach d).
    { rewrite app_assoc, in_app_iff in Hin. destruct Hin as [A|A]; [now apply reach_base|].
      destruct (gi_derived _ _ _ G d A) as (A1 & A2 & e & _ & A3 & A4). now apply (reach_step e). }
    assert (Hlt : i < List.length (L init)) by (apply nth_error_Some; congruence).
    destruct (after d) as [x|] eqn:Ea.
    2: { apply IH; [|lia]. destruct G as [G1 G2 G3 G4 G5]. constructor; try assumption.
         intros i' e x Hi He Hx. destruct (Nat.eq_dec i' i) as [-> |Hne]; [congruence|]. apply (G4 i'); [lia | exact He | exact Hx]. }
    set (i1 := if mem x seen || mem x (ys_terms y) then init else fold_left (add_init nys) (map (fun r => (r, 0)) (rules_of y x)) init).
    set (i2 := if empty_p f x && (base <=? i) then add_init nys i1 (shift d) else i1).
    assert (S1 : step_ok init i1 /\ has_rules i1 x).
    { unfold i1. destruct (mem x seen) eqn:E1; cbn [orb].
      - split; [apply step_ok_refl|]. apply (gi_seen _ _ _ G). now apply mem_iff.
      - destruct (mem x (ys_terms y)) eqn:E2.
        + split; [apply step_ok_refl|]. left. now apply mem_iff.
        + destruct (fold_add_step (map (fun r => (r, 0)) (rules_of y x)) init) as [A1 A2].
          { intros e He. apply in_map_iff in He. destruct He as (r & <- & Hr). apply rules_of_in in Hr. destruct Hr as [Hr <-].
            split; [apply all_drules_in; split; [exact Hr | lia]|]. split; [reflexivity|]. exists d. now repeat split. }
          split; [exact A1|]. right. intros r Hr Ex. apply A2. apply (in_map (fun r => (r, 0))). now apply rules_of_in. }
    destruct S1 as [S1 Hr].
    assert (S2 : step_ok i1 i2 /\ (empty_p f x = true -> base <= i -> In (shift d) (M i2))).
    { unfold i2. destruct (empty_p f x) eqn:E1; cbn [andb].
      2: { split; [apply step_ok_refl | discriminate]. }
      destruct (base <=? i) eqn:E2.
      2: { split; [apply step_ok_refl|]. intros _ A. apply Nat.leb_nle in E2. contradiction. }
      apply Nat.leb_le in E2. split; [|intros _ _; apply add_init_has]. apply add_init_step.
      assert (Hi : In d init).
      { rewrite nth_error_app2 in E by lia. rewrite nth_error_app2 in E by (rewrite map_length; clear - E2; unfold item, drule, rule in *; lia). eapply nth_error_In; exact E. }
      destruct (gi_derived _ _ _ G d Hi) as (D1 & D2 & e & D3 & D4). destruct d as [r j]. unfold shift, dlhs, drhs in *. cbn [fst snd] in *.
      apply all_drules_in in D1. assert (Hj := after_lt _ _ Ea). unfold drhs in Hj. cbn [fst snd] in Hj.
      split; [apply all_drules_in; split; [apply D1 | lia]|]. split.
      - unfold drhs. cbn [fst snd]. assert (En : nth_error (snd r) j = Some x) by exact Ea.
        assert (X : firstn (S j) (snd r) = firstn j (snd r) ++ [x]).
        { clear - En. revert j En. induction (snd r) as [|a l IHl]; intros [|j] En; cbn [nth_error] in En; try discriminate En.
          - injection En as ->. reflexivity.
          - cbn [firstn app]. f_equal. now apply IHl. }
        rewrite X. unfold nullb. rewrite forallb_app. apply andb_true_iff. split; [exact D2|]. cbn [forallb]. rewrite E1. reflexivity.
      - exists e. split; [|exact D4]. destruct S1 as ((z & ->) & _). repeat rewrite in_app_iff in D3; repeat rewrite in_app_iff; tauto. }
    destruct S2 as [S2 Hs].
    assert (S3 := step_ok_trans _ _ _ S1 S2). destruct S3 as ((z & Ez) & S4 & S5).
    apply IH; [|lia]. destruct S2 as ((z2 & Ez2) & _).
    constructor.
    + apply S4, (gi_nodup _ _ _ G).
    + apply S5, (gi_derived _ _ _ G).
    + intros x' [<-|Hx]; [rewrite Ez2; now apply has_rules_ext|]. rewrite Ez. apply has_rules_ext. now apply (gi_seen _ _ _ G).
    + intros i' e x' Hi He Hx. rewrite Ez, !app_assoc in He. rewrite <- !app_assoc in He.
      destruct (Nat.eq_dec i' i) as [-> |Hne].
      * assert (e = d).
        { rewrite Ez in *. assert (X : nth_error (L init ++ z) i = Some e) by (rewrite <- !app_assoc; exact He). rewrite nth_error_app1 in X by exact Hlt. congruence. }
        subst e. assert (x' = x) by congruence. subst x'. split; [rewrite Ez2; now apply has_rules_ext | exact Hs].
      * assert (X : nth_error (L init) i' = Some e).
        { assert (X : nth_error (L init ++ z) i' = Some e) by (rewrite <- !app_assoc; exact He). rewrite nth_error_app1 in X by lia. exact X. }
        destruct (gi_done _ _ _ G i' e x') as [A1 A2]; [lia | exact X | exact Hx |].
        split; [rewrite Ez; now apply has_rules_ext|]. intros B1 B2. rewrite Ez. apply M_ext. now apply A2.
    + rewrite Ez. rewrite !app_length in *. lia.
Qed.
End Grow.

(** ** The whole set *)
Record expanded (started : list item) (s : sset) : Prop := {
  ex_started : s_started s = started;
  ex_nys : forall i, In i (s_nys s) <-> exists p d n, nth_error (map fst started) p = Some d /\ 1 <= n <= List.length (skipn (snd d) (drhs d)) /\
    nullb (firstn n (skipn (snd d) (drhs d))) = true /\ i = ((fst d, snd d + n), p);
  ex_init : forall d, In d (s_init s) -> In d D /\ nullb (firstn (snd d) (drhs d)) = true /\
    exists e, In e (map fst started ++ map fst (s_nys s) ++ s_init s) /\ after e = Some (dlhs d) /\ reach (map fst started) (s_nys s) e;
  ex_rules : forall e x r, In e (map fst started ++ map fst (s_nys s) ++ s_init s) -> after e = Some x -> ~ In x (ys_terms y) ->
    In r (ys_rules y) -> fst r = x -> In (r, 0) (map fst (s_nys s) ++ s_init s);
  ex_shift : forall e x, In e (s_init s) -> after e = Some x -> empty_p f x = true -> In (shift e) (map fst (s_nys s) ++ s_init s) }.

Lemma expand_ok started : (forall i, In i started -> In (fst i) D) -> exists s, expand y f started = Ok s /\ expanded started s.
Proof.
  intro H. unfold expand. set (ds := map fst started). set (nys := nys_of f 0 ds []).
  assert (Hd : forall d, In d ds -> In d D). { intros d A. apply in_map_iff in A. destruct A as (i & <- & A). now apply H. }
  assert (Hn0 : forall i, In i nys <-> exists p d n, nth_error ds p = Some d /\ 1 <= n <= List.length (skipn (snd d) (drhs d)) /\
    nullb (firstn n (skipn (snd d) (drhs d))) = true /\ i = ((fst d, snd d + n), p)).
  { intro i. unfold nys. rewrite nys_of_in. split; [intros [[]|A]; exact A | intro A; now right]. }
  assert (Hn : forall d, In d (map fst nys) -> In d D).
  { intros d A. apply in_map_iff in A. destruct A as (i & <- & A). apply Hn0 in A. destruct A as (p & e & n & A1 & A2 & _ & ->). cbn [fst].
    apply nth_error_In in A1. apply Hd in A1. destruct e as [r j]. unfold drhs in A2. cbn [fst snd] in *. apply all_drules_in in A1. rewrite skipn_length in A2. apply all_drules_in. split; [apply A1 | lia]. }
  destruct (grow_ok ds nys Hd Hn (S (List.length ds + List.length nys + List.length D)) 0 [] []) as (init & E & G).
  { constructor; [constructor | intros d [] | intros x [] | intros; lia | lia]. }
  { lia. }
  rewrite E. cbn [obind]. eexists. split; [reflexivity|]. destruct G as [G1 G2 G3 G4 G5]. constructor; cbn [s_started s_nys s_init].
  - reflexivity.
  - exact Hn0.
  - exact G2.
  - intros e x r He Hx Ht Hr Er. apply In_nth_error in He. destruct He as (i & Hi).
    destruct (G4 i e x) as [[A|A] _]; [apply nth_error_Some; intro Z; assert (Q := eq_trans (eq_sym Hi) Z); discriminate Q | exact Hi | exact Hx | contradiction | now apply A].
  - intros e x He Hx Hb. apply In_nth_error in He. destruct He as (i & Hi).
    destruct (G4 (List.length ds + (List.length nys + i)) e x) as [_ A].
    + rewrite !app_length, map_length. assert (i < List.length init) by (apply nth_error_Some; congruence). ulia.
    + rewrite nth_error_app2 by ulia. rewrite nth_error_app2 by (rewrite map_length; ulia). rewrite map_length. rewrite <- Hi. f_equal. ulia.
    + exact Hx.
    + apply A; [exact Hb | ulia].
Qed.

(** ** Completion *)
Lemma shift_all_in next n l : forall acc i, In i (shift_all y f next n l acc) <->
  In i acc \/ exists e, In e l /\ look_ok y f next (shift (fst e)) = true /\ i = (shift (fst e), snd e + n).
Proof.
  induction l as [|e l IH]; intros acc i; unfold shift_all in *; cbn [fold_left].
  - split; [now left | intros [H|(e & [] & _)]; exact H].
  - rewrite IH. destruct (look_ok y f next (shift (fst e))) eqn:E.
    + rewrite add_item_in. split.
      * intros [[H| ->]|(e' & H1 & H2 & ->)]; [now left | right; exists e; split; [now left | now split] | right; exists e'; split; [now right | now split]].
      * intros [H|(e' & [<-|H1] & H2 & ->)]; [left; now left | left; now right | right; exists e'; now repeat split].
    + split.
      * intros [H|(e' & H1 & H2 & ->)]; [now left | right; exists e'; split; [now right | now split]].
      * intros [H|(e' & [<-|H1] & H2 & ->)]; [now left | congruence | right; exists e'; now repeat split].
Qed.
Lemma shift_all_nodup next n l : forall acc, NoDup acc -> NoDup (shift_all y f next n l acc).
Proof.
  induction l as [|e l IH]; intros acc H; unfold shift_all in *; cbn [fold_left]; [exact H|]. apply IH. destruct (look_ok _ _ _ _); [now apply add_item_nodup | exact H].
Qed.
Lemma shift_all_ext next n l : forall acc, exists z, shift_all y f next n l acc = acc ++ z.
Proof.
  induction l as [|e l IH]; intros acc; unfold shift_all in *; cbn [fold_left]; [exists []; now rewrite app_nil_r|].
  destruct (look_ok _ _ _ _); [|apply IH]. destruct (add_item_ext acc (shift (fst e), snd e + n)) as (z & ->).
  destruct (IH (acc ++ z)) as (z2 & ->). exists (z ++ z2). now rewrite app_assoc.
Qed.

Lemma complete_ok (sets : list sset) next (P : item -> Prop)
  (HP : forall i, P i -> In (fst i) D /\ snd i <= List.length sets)
  (Hstep : forall d m, P (d, m) -> empty_tail f d = true -> exists prev, m <= List.length sets /\ nth_error sets (List.length sets - m) = Some prev /\
     (predicted prev (dlhs d) = [] -> dlhs d = AXIOM /\ completed prev AXIOM = false) /\
     forall e, In e (predicted prev (dlhs d)) -> look_ok y f next (shift (fst e)) = true -> P (shift (fst e), snd e + m)) :
  forall fuel i started, (forall x, In x started -> P x) -> NoDup started -> i <= List.length started ->
  (forall d m prev e, In (d, m) (firstn i started) -> empty_tail f d = true -> nth_error sets (List.length sets - m) = Some prev ->
     In e (predicted prev (dlhs d)) -> look_ok y f next (shift (fst e)) = true -> In (shift (fst e), snd e + m) started) ->
  List.length D * S (List.length sets) < i + fuel ->
  exists started', complete y f fuel sets next i started = Ok started' /\ (forall x, In x started' -> P x) /\ (exists z, started' = started ++ z) /\
  (forall d m prev e, In (d, m) started' -> empty_tail f d = true -> nth_error sets (List.length sets - m) = Some prev ->
     In e (predicted prev (dlhs d)) -> look_ok y f next (shift (fst e)) = true -> In (shift (fst e), snd e + m) started').
Proof.
  induction fuel as [|fuel IH]; intros i started H1 H2 H3 H4 Hf.
  - exfalso. assert (C : List.length started <= List.length (list_prod D (seq 0 (S (List.length sets))))).
    { apply NoDup_incl_length; [exact H2|]. intros [d m] A. apply in_prod_iff. apply H1, HP in A. cbn [fst snd] in A. split; [apply A|]. apply in_seq. lia. }
    rewrite prod_length, seq_length in C. lia.
  - cbn [complete]. destruct (nth_error started i) as [[d m]|] eqn:E.
    2: { exists started. split; [reflexivity|]. split; [exact H1|]. split; [exists []; now rewrite app_nil_r|].
         intros d m prev e A. apply H4. rewrite firstn_all2; [exact A|]. now apply nth_error_None. }
    assert (Hin : In (d, m) started) by (eapply nth_error_In; exact E).
    assert (Hlt : i < List.length started) by (apply nth_error_Some; congruence).
    assert (Hfs : forall l z, started = firstn i started ++ z -> l = started -> True) by (intros; exact I). clear Hfs.
    assert (F : forall q, In q (firstn (S i) started) -> In q (firstn i started) \/ q = (d, m)).
    { intros q A. assert (X : firstn (S i) started = firstn i started ++ [(d, m)]).
      { clear - E. revert i E. induction started as [|a l IHl]; intros [|i] E; cbn [nth_error] in E; try discriminate E.
        - injection E as ->. reflexivity.
        - cbn [firstn app]. f_equal. now apply IHl. }
      rewrite X in A. apply in_app_iff in A. destruct A as [A|[<-|[]]]; auto. }
    destruct (empty_tail f d) eqn:Et.
    + destruct (Hstep d m (H1 _ Hin) Et) as (prev & Hm & Ep & Hax & Hcl).
      assert (Em : (List.length sets <? m) = false) by (apply Nat.ltb_nlt; lia). rewrite Em, Ep.
      destruct (predicted prev (dlhs d)) as [|e0 l0] eqn:El.
      * destruct (Hax eq_refl) as [A1 A2]. rewrite A2, (proj2 (beq_eq _ _) A1). cbn [negb andb].
        apply IH; [exact H1 | exact H2 | lia | | lia].
        intros d' m' prev' e Hq Ht Hp He Hl. apply F in Hq. destruct Hq as [Hq|Hq]; [exact (H4 d' m' prev' e Hq Ht Hp He Hl)|].
        injection Hq as -> ->. assert (prev' = prev) by congruence. subst prev'. rewrite El in He. destruct He.
      * rewrite <- El in *. assert (Hex := shift_all_ext next m (predicted prev (dlhs d)) started). destruct Hex as (z & Ez).
        destruct (IH (S i) (shift_all y f next m (predicted prev (dlhs d)) started)) as (st' & R1 & R2 & (z2 & R3) & R4).
        -- intros x Hx. apply shift_all_in in Hx. destruct Hx as [Hx|(e & He & Hl & ->)]; [now apply H1 | now apply Hcl].
        -- now apply shift_all_nodup.
        -- rewrite Ez, app_length. lia.
        -- intros d' m' prev' e Hq Ht Hp He Hl. rewrite Ez in Hq. rewrite firstn_app in Hq. replace (S i - List.length started) with 0 in Hq by lia.
           rewrite firstn_O, app_nil_r in Hq. apply F in Hq. apply shift_all_in. destruct Hq as [Hq|Hq]; [left; exact (H4 d' m' prev' e Hq Ht Hp He Hl)|].
           injection Hq as -> ->. right. exists e. assert (prev' = prev) by congruence. subst prev'. now repeat split.
        -- lia.
        -- exists st'. split; [exact R1|]. split; [exact R2|]. split; [|exact R4]. exists (z ++ z2). now rewrite R3, Ez, app_assoc.
    + apply IH; [exact H1 | exact H2 | lia | | lia].
      intros d' m' prev' e Hq Ht Hp He Hl. apply F in Hq. destruct Hq as [Hq|Hq]; [exact (H4 d' m' prev' e Hq Ht Hp He Hl)|]. injection Hq as -> ->. congruence.
Qed.
End P.
