(** The analysis of a grammar by yaep: proofs. *)
From Coq Require Import NArith ZArith List Bool Arith Lia String.
From Verif Require Import Bytes BytesFacts Outcome Ixml Yaep YaepSpec YaepFix YaepGram.
Import ListNotations.
Local Open Scope list_scope.

Record wf (y : ystate) : Prop := Wf {
  wf_lhs : forall x rhs, In (x, rhs) (ys_rules y) -> In x (ys_nts y);
  wf_rhs : forall x rhs z, In (x, rhs) (ys_rules y) -> In z rhs -> In z (ys_terms y) \/ In z (ys_nts y);
  wf_disj : forall x, In x (ys_terms y) -> ~ In x (ys_nts y);
  wf_axiom : In AXIOM (ys_nts y) }.

Lemma forallb_same (f g : flags) (K : bytes -> key) l : same f g -> forallb (fun x => f (K x)) l = forallb (fun x => g (K x)) l.
Proof. intro H. induction l as [|x l IH]; [reflexivity|]. cbn [forallb]. now rewrite IH, H. Qed.
Lemma forallb_Forall (p : bytes -> bool) l : forallb p l = true <-> Forall (fun x => p x = true) l.
Proof. rewrite forallb_forall, Forall_forall. reflexivity. Qed.

Section Y.
Variable y : ystate.
Hypothesis W : wf y.
Notation R := (ys_rules y).

Lemma loop_rules_in r : In r (loop_rules y) <-> In r R.
Proof.
  unfold loop_rules. rewrite in_flat_map. split.
  - intros (x & _ & H). unfold rules_of in H. apply filter_In in H. destruct H as [H _]. now apply in_rev.
  - intro H. destruct r as [x rhs]. exists x. split; [now apply (wf_lhs _ W _ rhs)|].
    apply filter_In. split; [now apply in_rev in H|]. apply beq_refl'.
Qed.
Lemma rules_of_in x r : In r (rules_of y x) <-> In r R /\ fst r = x.
Proof.
  unfold rules_of. rewrite filter_In, <- in_rev. split; intros [A C]; (split; [exact A|]).
  - apply beq_eq in C. now symmetry.
  - rewrite C. apply beq_refl'.
Qed.
Lemma lhs_not_term x rhs : In (x, rhs) R -> ~ In x (ys_terms y).
Proof. intros H A. apply (wf_lhs _ W) in H. now apply (wf_disj _ W x). Qed.

(** * empty, derivation, access *)
Definition touch (lhs : bytes) (s : fstate) (x : bytes) : fstate := if fst s (KAccess lhs) then raise (KAccess x) s else s.
Definition p1 (lhs : bytes) (rhs : list bytes) (s : fstate) := fold_left (touch lhs) rhs s.
Definition p2 (lhs : bytes) (rhs : list bytes) (s : fstate) : fstate :=
  if forallb (fun x => fst s (KEmpty x)) rhs then raise (KEmpty lhs) s else s.
Definition p3 (lhs : bytes) (rhs : list bytes) (s : fstate) : fstate :=
  if forallb (fun x => fst s (KDeriv x)) rhs then raise (KDeriv lhs) s else s.

Lemma touch_empty lhs s x z : fst (touch lhs s x) (KEmpty z) = fst s (KEmpty z).
Proof. unfold touch. destruct (fst s (KAccess lhs)); reflexivity. Qed.
Lemma touch_deriv lhs s x z : fst (touch lhs s x) (KDeriv z) = fst s (KDeriv z).
Proof. unfold touch. destruct (fst s (KAccess lhs)); reflexivity. Qed.
Lemma p1_empty lhs rhs s z : fst (p1 lhs rhs s) (KEmpty z) = fst s (KEmpty z).
Proof. revert s. induction rhs as [|x rhs IH]; intro s; [reflexivity|]. unfold p1 in *. cbn [fold_left]. now rewrite IH, touch_empty. Qed.
Lemma p1_deriv lhs rhs s z : fst (p1 lhs rhs s) (KDeriv z) = fst s (KDeriv z).
Proof. revert s. induction rhs as [|x rhs IH]; intro s; [reflexivity|]. unfold p1 in *. cbn [fold_left]. now rewrite IH, touch_deriv. Qed.
Lemma scan_alt lhs rhs e d s : scan_rhs lhs rhs e d s =
  (e && forallb (fun x => fst s (KEmpty x)) rhs, d && forallb (fun x => fst s (KDeriv x)) rhs, p1 lhs rhs s).
Proof.
  revert e d s. induction rhs as [|x rhs IH]; intros e d s; cbn [scan_rhs forallb].
  - now rewrite !andb_true_r.
  - fold (touch lhs s x). rewrite IH. unfold p1. cbn [fold_left].
    assert (E1 : forallb (fun z => fst (touch lhs s x) (KEmpty z)) rhs = forallb (fun z => fst s (KEmpty z)) rhs)
      by (clear; induction rhs as [|z l IH]; [reflexivity|]; cbn [forallb]; now rewrite IH, touch_empty).
    assert (E2 : forallb (fun z => fst (touch lhs s x) (KDeriv z)) rhs = forallb (fun z => fst s (KDeriv z)) rhs)
      by (clear; induction rhs as [|z l IH]; [reflexivity|]; cbn [forallb]; now rewrite IH, touch_deriv).
    rewrite E1, E2, touch_empty, touch_deriv, !andb_assoc. reflexivity.
Qed.
Lemma ead_alt lhs rhs s : ead_rule s (lhs, rhs) = p3 lhs rhs (p2 lhs rhs (p1 lhs rhs s)).
Proof.
  unfold ead_rule. rewrite scan_alt. cbn [andb].
  assert (E1 : forall l, forallb (fun z => fst (p1 lhs rhs s) (KEmpty z)) l = forallb (fun z => fst s (KEmpty z)) l).
  { induction l as [|z l IH]; [reflexivity|]. cbn [forallb]. now rewrite IH, p1_empty. }
  assert (E2 : forall l, forallb (fun z => fst (p2 lhs rhs (p1 lhs rhs s)) (KDeriv z)) l = forallb (fun z => fst s (KDeriv z)) l).
  { induction l as [|z l IH]; [reflexivity|]. cbn [forallb]. rewrite IH. f_equal.
    unfold p2. destruct (forallb _ rhs); unfold raise; cbn [fst key_eqb orb]; apply p1_deriv. }
  unfold p3. rewrite E2. unfold p2. rewrite E1. reflexivity.
Qed.

Definition U1 : list key :=
  map KAccess (ys_terms y ++ ys_nts y) ++ map KEmpty (ys_nts y) ++ map KDeriv (ys_nts y).
Lemma U1_access x : In x (ys_terms y) \/ In x (ys_nts y) -> In (KAccess x) U1.
Proof. intro H. apply in_or_app. left. apply in_map, in_or_app, H. Qed.
Lemma U1_empty x : In x (ys_nts y) -> In (KEmpty x) U1.
Proof. intro H. apply in_or_app. right. apply in_or_app. left. now apply in_map. Qed.
Lemma U1_deriv x : In x (ys_nts y) -> In (KDeriv x) U1.
Proof. intro H. apply in_or_app. right. apply in_or_app. right. now apply in_map. Qed.

Lemma p1_growing lhs rhs : In (lhs, rhs) R -> growing U1 (p1 lhs rhs).
Proof.
  intro H. apply growing_fold. intros x Hx.
  apply (growing_if U1 (fun s => fst s (KAccess lhs)) (raise (KAccess x)) (fun s => s)); [|apply growing_id].
  apply growing_raise, U1_access. now apply (wf_rhs _ W lhs rhs).
Qed.
Lemma p2_growing lhs rhs : In (lhs, rhs) R -> growing U1 (p2 lhs rhs).
Proof.
  intro H. apply (growing_if U1 (fun s => forallb (fun x => fst s (KEmpty x)) rhs) (raise (KEmpty lhs)) (fun s => s)); [|apply growing_id].
  apply growing_raise, U1_empty. now apply (wf_lhs _ W lhs rhs).
Qed.
Lemma p3_growing lhs rhs : In (lhs, rhs) R -> growing U1 (p3 lhs rhs).
Proof.
  intro H. apply (growing_if U1 (fun s => forallb (fun x => fst s (KDeriv x)) rhs) (raise (KDeriv lhs)) (fun s => s)); [|apply growing_id].
  apply growing_raise, U1_deriv. now apply (wf_lhs _ W lhs rhs).
Qed.
Lemma ead_growing r : In r (loop_rules y) -> growing U1 (fun s => ead_rule s r).
Proof.
  intro H. apply (proj1 (loop_rules_in r)) in H. destruct r as [lhs rhs].
  apply (growing_ext _ (fun s => p3 lhs rhs (p2 lhs rhs (p1 lhs rhs s)))); [intro s; symmetry; apply ead_alt|].
  apply (growing_comp U1 (fun s => p2 lhs rhs (p1 lhs rhs s)) (p3 lhs rhs)); [|now apply p3_growing].
  apply (growing_comp U1 (p1 lhs rhs) (p2 lhs rhs)); [now apply p1_growing | now apply p2_growing].
Qed.
Lemma ead_pass_growing : growing U1 (fun s => fold_left ead_rule (loop_rules y) s).
Proof. apply growing_fold. exact ead_growing. Qed.

Definition ead_closed (f : flags) : Prop := forall lhs rhs, In (lhs, rhs) R ->
  (f (KAccess lhs) = true -> Forall (fun x => f (KAccess x) = true) rhs) /\
  (Forall (fun x => f (KEmpty x) = true) rhs -> f (KEmpty lhs) = true) /\
  (Forall (fun x => f (KDeriv x) = true) rhs -> f (KDeriv lhs) = true).

Lemma quiet_p1 lhs rhs s : In (lhs, rhs) R -> snd (p1 lhs rhs s) = false -> fst s (KAccess lhs) = true ->
  Forall (fun x => fst s (KAccess x) = true) rhs.
Proof.
  intros H Q A. apply Forall_forall. intros x Hx.
  destruct (quiet_fold U1 (touch lhs) rhs s) with (x := x) as (s' & E & Q'); [| exact Q | exact Hx |].
  - intros z Hz. apply (growing_if U1 (fun s => fst s (KAccess lhs)) (raise (KAccess z)) (fun s => s)); [|apply growing_id].
    apply growing_raise, U1_access. now apply (wf_rhs _ W lhs rhs).
  - unfold touch in Q'. rewrite E, A in Q'. apply quiet_raise in Q'. now rewrite E in Q'.
Qed.
Lemma ead_closes fuel f g : iterate fuel (fun s => fold_left ead_rule (loop_rules y) s) f = Ok g -> ead_closed g.
Proof.
  intros H lhs rhs Hr. apply (iterate_quiet U1) in H; [|apply ead_pass_growing]. destruct H as (s & E & Q).
  destruct (quiet_fold U1 ead_rule (loop_rules y) s ead_growing Q (lhs, rhs)) as (s' & E' & Q'); [now apply loop_rules_in|].
  rewrite ead_alt in Q'.
  assert (E'' : same (fst s') g) by (eapply same_trans; eassumption).
  destruct (quiet_comp U1 (fun s => p2 lhs rhs (p1 lhs rhs s)) (p3 lhs rhs) s') as [Q2 S2];
    [apply (growing_comp U1 (p1 lhs rhs) (p2 lhs rhs)); [now apply p1_growing | now apply p2_growing] | now apply p3_growing | exact Q' |].
  destruct (quiet_comp U1 (p1 lhs rhs) (p2 lhs rhs) s') as [Q1 S1]; [now apply p1_growing | now apply p2_growing | exact Q2 |].
  split; [|split].
  - intro A. rewrite <- E'' in A. generalize (quiet_p1 _ _ _ Hr Q1 A). apply Forall_impl. intros x Hx. now rewrite <- E''.
  - intro A. unfold p2 in Q2. assert (C : forallb (fun x => fst (p1 lhs rhs s') (KEmpty x)) rhs = true).
    { apply forallb_Forall. revert A. apply Forall_impl. intros x Hx. now rewrite S1, E''. }
    rewrite C in Q2. apply quiet_raise in Q2. now rewrite S1, E'' in Q2.
  - intro A. unfold p3 in Q'. assert (C : forallb (fun x => fst (p2 lhs rhs (p1 lhs rhs s')) (KDeriv x)) rhs = true).
    { apply forallb_Forall. revert A. apply Forall_impl. intros x Hx. now rewrite S2, E''. }
    rewrite C in Q'. apply quiet_raise in Q'. now rewrite S2, E'' in Q'.
Qed.

(** What the flags mean *)
Definition terminal (x : bytes) : Prop := In x (ys_terms y).
Definition Sem (k : key) : Prop :=
  match k with
  | KEmpty x => nullable R x
  | KDeriv x => productive R terminal x
  | KAccess x => reachable R AXIOM x
  | KFirst x t => first R x t
  | KFollow x t => follow R x t
  | KUnloop _ => True
  end.
Lemma productives l : Forall (productive R terminal) l -> exists w, Forall terminal w /\ steps R l w.
Proof.
  induction 1 as [|x l (w & A & C) _ (w' & A' & C')].
  - exists []. split; [constructor | apply steps_refl].
  - exists (w ++ w'). split; [now apply Forall_app|]. now apply (steps_app R [x] w l w').
Qed.
Lemma ead_sound r s : In r R -> sound Sem (fst s) -> sound Sem (fst (ead_rule s r)).
Proof.
  destruct r as [lhs rhs]. intros Hr H. rewrite ead_alt.
  assert (H1 : sound Sem (fst (p1 lhs rhs s))).
  { unfold p1. apply (fold_keeps (sound Sem)); [|exact H]. intros x s' Hx H'. unfold touch.
    destruct (fst s' (KAccess lhs)) eqn:E; [|exact H']. apply raise_sound; [|exact H'].
    destruct (H' _ E) as (u & v & A). cbn [Sem]. destruct (in_split _ _ Hx) as (r1 & r2 & ->).
    exists (u ++ r1), (r2 ++ v). apply (steps_trans R _ _ _ A).
    generalize (steps_ctx R u v _ _ (steps_rule R _ _ Hr)). cbn [app]. now rewrite <- !app_assoc. }
  assert (H2 : sound Sem (fst (p2 lhs rhs (p1 lhs rhs s)))).
  { unfold p2. destruct (forallb _ rhs) eqn:E; [|exact H1]. apply raise_sound; [|exact H1].
    apply (proj1 (forallb_Forall _ _)) in E. cbn [Sem]. unfold nullable. eapply steps_trans; [apply steps_rule, Hr|].
    apply nullables. revert E. apply Forall_impl. intros x Hx. exact (H1 _ Hx). }
  unfold p3. destruct (forallb _ rhs) eqn:E; [|exact H2]. apply raise_sound; [|exact H2].
  apply (proj1 (forallb_Forall _ _)) in E. destruct (productives rhs) as (w & A & C).
  { revert E. apply Forall_impl. intros x Hx. exact (H2 _ Hx). }
  exists w. split; [exact A|]. eapply steps_trans; [apply steps_rule, Hr | exact C].
Qed.

Lemma steps_terminal t w : terminal t -> steps R [t] w -> w = [t].
Proof.
  intros Ht H. remember [t] as s eqn:E in H. destruct H as [s|s v w Hs _]; [exact E|]. subst s. apply step_single in Hs.
  now apply lhs_not_term in Hs.
Qed.
Section Closed.
Variable f : flags.
Hypothesis C : ead_closed f.
Hypothesis S0 : sound Sem f.
Lemma empty_all u : steps R u [] -> Forall (fun x => f (KEmpty x) = true) u.
Proof.
  intro H. remember [] as w eqn:E. induction H as [u|u v w Hs _ IH]; [rewrite E; constructor|]. specialize (IH E).
  destruct Hs as [p x rhs q Hr]. apply Forall_app in IH. destruct IH as [I1 I2]. apply Forall_app in I2. destruct I2 as [I2 I3].
  apply Forall_app. split; [exact I1|]. constructor; [|exact I3]. now apply (proj1 (proj2 (C _ _ Hr))).
Qed.
Lemma empty_iff x : f (KEmpty x) = true <-> nullable R x.
Proof. split; [apply (S0 (KEmpty x))|]. intro H. apply empty_all in H. now inversion H. Qed.
Lemma deriv_iff x : (forall t, terminal t -> f (KDeriv t) = true) -> f (KDeriv x) = true <-> productive R terminal x.
Proof.
  intro Ht. split; [apply (S0 (KDeriv x))|]. intros (w & Hw & H).
  enough (A : Forall (fun x => f (KDeriv x) = true) [x]) by now inversion A.
  revert Hw. induction H as [u|u v w Hs _ IH]; intro Hw.
  - revert Hw. apply Forall_impl. exact Ht.
  - specialize (IH Hw). destruct Hs as [p z rhs q Hr]. apply Forall_app in IH. destruct IH as [I1 I2]. apply Forall_app in I2. destruct I2 as [I2 I3].
    apply Forall_app. split; [exact I1|]. constructor; [|exact I3]. now apply (proj2 (proj2 (C _ _ Hr))).
Qed.
Lemma access_iff x : f (KAccess AXIOM) = true -> f (KAccess x) = true <-> reachable R AXIOM x.
Proof.
  intro Ha. split; [apply (S0 (KAccess x))|]. intros (u & v & H).
  assert (A : Forall (fun x => f (KAccess x) = true) [AXIOM]) by (constructor; [exact Ha | constructor]).
  assert (D : Forall (fun x => f (KAccess x) = true) (u ++ x :: v)).
  { revert A. induction H as [w|w w' w'' Hs _ IH]; intro A; [exact A|]. apply IH. destruct Hs as [p z rhs q Hr].
    apply Forall_app in A. destruct A as [A1 A2]. inversion A2 as [|? ? A3 A4]. apply Forall_app. split; [exact A1|].
    apply Forall_app. split; [|exact A4]. now apply (proj1 (C _ _ Hr)). }
  apply Forall_app in D. destruct D as [_ D]. now inversion D.
Qed.
End Closed.

Lemma ead_init_sound : sound Sem (ead_init y).
Proof.
  intros k H. destruct k as [x|x|x|x|x t|x t]; cbn [ead_init] in H; try discriminate H; cbn [Sem].
  - apply mem_in in H. exists [x]. split; [constructor; [exact H | constructor] | apply steps_refl].
  - apply beq_eq in H. exists [], []. rewrite H. apply steps_refl.
Qed.
Lemma U1_length : List.length U1 <= 3 * symbols y.
Proof. unfold U1, symbols. rewrite !app_length, !map_length, app_length. lia. Qed.
Lemma ead_result : exists f, set_empty_access_derives (passes y) y = Ok f /\
  (forall x, f (KEmpty x) = true <-> nullable R x) /\
  (forall x, f (KDeriv x) = true <-> productive R terminal x) /\
  (forall x, f (KAccess x) = true <-> reachable R AXIOM x).
Proof.
  destruct (iterate_ends U1 (fun s => fold_left ead_rule (loop_rules y) s) (passes y) (ead_init y)) as (f & E).
  { apply ead_pass_growing. }
  { unfold passes. generalize (low_le U1 (ead_init y)), U1_length. lia. }
  exists f. split; [exact E|].
  assert (Hs : sound Sem f).
  { refine (iterate_keeps (sound Sem) _ _ _ _ _ ead_init_sound E). intros s Hs. apply (fold_keeps (sound Sem)); [|exact Hs].
    intros r s' Hr. apply ead_sound. now apply loop_rules_in. }
  assert (Hc := ead_closes _ _ _ E).
  assert (Hup : forall k, ead_init y k = true -> f k = true).
  { intros k Hk. refine (iterate_keeps (fun f => f k = true) _ _ _ _ _ Hk E). intros s Hk'. now apply (gr_up _ _ ead_pass_growing). }
  split; [|split]; intro x.
  - now apply empty_iff.
  - apply deriv_iff; [exact Hc | exact Hs |]. intros t Ht. apply Hup. cbn [ead_init]. now apply mem_in.
  - apply access_iff; [exact Hc | exact Hs |]. apply Hup. cbn [ead_init]. apply beq_refl'.
Qed.

(** * Loops *)
Lemma places_in pre rhs a z b : In (a, z, b) (places pre rhs) <-> exists c, a = pre ++ c /\ rhs = c ++ z :: b.
Proof.
  revert pre. induction rhs as [|x rhs IH]; intro pre; cbn [places In].
  - split; [intros []|]. intros (c & _ & E). destruct c; discriminate E.
  - rewrite IH. split.
    + intros [E|(c & -> & ->)].
      * injection E as -> -> ->. exists []. now rewrite app_nil_r.
      * exists (x :: c). now rewrite <- app_assoc.
    + intros (c & -> & E). destruct c as [|c0 c]; cbn [app] in E; injection E as -> E.
      * left. now rewrite app_nil_r, E.
      * right. exists c. now rewrite E, <- app_assoc.
Qed.
(** A step that leaves only [z] *)
Definition edge (x z : bytes) : Prop :=
  exists pre post, In (x, pre ++ z :: post) R /\ ~ terminal z /\ Forall (nullable R) (pre ++ post).
Inductive path : bytes -> bytes -> Prop :=
| path_one x z : edge x z -> path x z
| path_more x z w : edge x z -> path z w -> path x w.
Lemma path_trans a b c : path a b -> path b c -> path a c.
Proof. induction 1; intro; [eapply path_more; eassumption|]. eapply path_more; [eassumption | auto]. Qed.
Lemma path_end a b : path a b -> exists c, edge c b.
Proof. induction 1; [eexists; eassumption | assumption]. Qed.
Lemma path_from a b : path a b -> exists c, edge a c /\ (c = b \/ path c b).
Proof. destruct 1; eexists; split; try eassumption; [now left | now right]. Qed.
Lemma edge_steps x z : edge x z -> exists u, step R [x] u /\ steps R u [z].
Proof.
  intros (pre & post & Hr & _ & Hn). exists (pre ++ z :: post). split; [now apply step_rule1|].
  apply Forall_app in Hn. destruct Hn as [N1 N2]. apply nullables in N1. apply nullables in N2.
  apply (steps_app R pre [] (z :: post) [z] N1). apply (steps_app R [z] [z] post [] (steps_refl R _) N2).
Qed.
Lemma path_steps x z : path x z -> exists u, step R [x] u /\ steps R u [z].
Proof.
  induction 1 as [x z H|x z w H _ (u & A & D)]; [now apply edge_steps|].
  destruct (edge_steps _ _ H) as (v & A' & D'). exists v. split; [exact A'|]. eapply steps_trans; [exact D'|].
  eapply steps_more; eassumption.
Qed.
Lemma to_single u w z : steps R u w -> w = [z] -> ~ terminal z ->
  exists a b d, u = a ++ b :: d /\ Forall (nullable R) (a ++ d) /\ ~ terminal b /\ (b = z \/ path b z).
Proof.
  intros H E Hz. induction H as [u|u v w Hs _ IH].
  - exists [], z, []. rewrite E. repeat split; [constructor | exact Hz | now left].
  - destruct (IH E) as (a & b & d & Ev & Hn & Hb & Hp). destruct Hs as [p x rhs q Hr].
    assert (Nx : Forall (nullable R) rhs -> nullable R x).
    { intro A. unfold nullable. eapply steps_trans; [apply steps_rule, Hr | now apply nullables]. }
    apply Forall_app in Hn. destruct Hn as [Ha Hd].
    destruct (split_mid _ _ _ _ _ Ev) as [(r & Ep & Ed)|(r & Ea & Eq)].
    + exists a, b, (r ++ x :: q). split; [rewrite Ep, <- app_assoc; reflexivity|].
      split; [|now split]. rewrite Ed in Hd. apply Forall_app in Hd. destruct Hd as [D1 D2]. apply Forall_app in D2. destruct D2 as [D2 D3].
      apply Forall_app. split; [exact Ha|]. apply Forall_app. split; [exact D1|]. constructor; [now apply Nx | exact D3].
    + destruct (split_mid _ _ _ _ _ Eq) as [(r' & Er & Ed)|(r' & Er & Eq')].
      * rewrite Ea in Ha. apply Forall_app in Ha. destruct Ha as [A1 A2]. rewrite Ed in Hd. apply Forall_app in Hd. destruct Hd as [D1 D2].
        exists p, x, q. split; [reflexivity|]. split; [now apply Forall_app|].
        assert (Ex : edge x b).
        { exists r, r'. rewrite <- Er. split; [exact Hr|]. split; [exact Hb | now apply Forall_app]. }
        split; [now apply lhs_not_term in Hr|]. right. destruct Hp as [<-|Hp]; [now apply path_one | now apply path_more with b].
      * rewrite Ea, Er in Ha. apply Forall_app in Ha. destruct Ha as [A1 A2]. apply Forall_app in A2. destruct A2 as [A2 A3].
        exists (p ++ x :: r'), b, d. split; [rewrite Eq', <- app_assoc; reflexivity|]. split; [|now split].
        apply Forall_app. split; [|exact Hd]. apply Forall_app. split; [exact A1|]. constructor; [now apply Nx | exact A3].
Qed.
Lemma derives_itself_path x : derives_itself R x <-> path x x.
Proof.
  split.
  - intros (u & Hs & H). apply step_single in Hs. assert (Hx := lhs_not_term _ _ Hs).
    destruct (to_single _ _ x H eq_refl Hx) as (a & b & d & Eu & Hn & Hb & Hp).
    assert (Ex : edge x b) by (exists a, d; rewrite <- Eu; now split).
    destruct Hp as [<-|Hp]; [now apply path_one | now apply path_more with b].
  - intro H. apply path_steps in H. exact H.
Qed.

Definition U2 : list key := map KUnloop (ys_nts y).
Lemma loop_nt_growing x : In x (ys_nts y) -> growing U2 (fun s => loop_nt y s x).
Proof.
  intro H. unfold loop_nt.
  apply (growing_if U2 (fun s => fst s (KUnloop x)) (fun s => s) _ (growing_id U2)).
  apply (growing_if U2 (fun s => existsb (fun r => existsb (fun p => negb (fst s (KUnloop (snd (fst p)))) && stands_alone y (fst s) p) (places [] (snd r))) (rules_of y x))
           (fun s => s) (raise (KUnloop x)) (growing_id U2)).
  apply growing_raise. now apply in_map.
Qed.
Lemma loop_pass_growing : growing U2 (fun s => fold_left (loop_nt y) (ys_nts y) s).
Proof. apply growing_fold. exact loop_nt_growing. Qed.

Section Loop.
Variable f0 : flags.
Hypothesis E0 : forall x, f0 (KEmpty x) = true <-> nullable R x.

Lemma alone_iff f pre z post : (forall x, f (KEmpty x) = f0 (KEmpty x)) ->
  stands_alone y f (pre, z, post) = true <-> ~ terminal z /\ Forall (nullable R) (pre ++ post).
Proof.
  intro Hf. unfold stands_alone. rewrite andb_true_iff, negb_true_iff, mem_not_in, forallb_Forall, !Forall_forall.
  split; intros [A D]; (split; [exact A|]); intros x Hx; specialize (D x Hx).
  - rewrite Hf in D. now apply E0.
  - rewrite Hf. now apply E0.
Qed.
Lemma may_loop_iff z : may_loop y f0 z = true <-> exists x, edge x z.
Proof.
  unfold may_loop. rewrite existsb_exists. split.
  - intros ((x & rhs) & Hr & A). apply existsb_exists in A. destruct A as (((pre & z') & post) & A & D).
    apply andb_true_iff in D. destruct D as [D1 D2]. cbn [fst snd] in *. apply beq_eq in D1. subst z'.
    apply places_in in A. destruct A as (c & -> & ->). apply (alone_iff f0) in D2; [|reflexivity]. destruct D2 as [D2 D3].
    exists x, c, post. now split.
  - intros (x & pre & post & Hr & Hz & Hn). exists (x, pre ++ z :: post). split; [exact Hr|]. apply existsb_exists.
    exists (pre, z, post). split; [apply places_in; now exists pre|]. cbn [fst snd]. rewrite beq_refl'. cbn [andb].
    now apply (alone_iff f0).
Qed.
(** The condition of the major cycle *)
Lemma keep_iff f x : (forall x, f (KEmpty x) = f0 (KEmpty x)) ->
  existsb (fun r : rule => existsb (fun p => negb (f (KUnloop (snd (fst p)))) && stands_alone y f p) (places [] (snd r))) (rules_of y x) = true
  <-> exists z, edge x z /\ f (KUnloop z) = false.
Proof.
  intro Hf. rewrite existsb_exists. split.
  - intros ((x' & rhs) & Hr & A). apply rules_of_in in Hr. destruct Hr as [Hr Ex]. cbn [fst] in Ex. subst x'.
    apply existsb_exists in A. destruct A as (((pre & z) & post) & A & D).
    apply andb_true_iff in D. destruct D as [D1 D2]. cbn [fst snd] in *. apply negb_true_iff in D1.
    apply places_in in A. destruct A as (c & -> & ->). apply (alone_iff f) in D2; [|exact Hf]. destruct D2 as [D2 D3].
    exists z. split; [|exact D1]. exists c, post. now split.
  - intros (z & (pre & post & Hr & Hz & Hn) & Hu). exists (x, pre ++ z :: post). split; [apply rules_of_in; now split|]. apply existsb_exists.
    exists (pre, z, post). split; [apply places_in; now exists pre|]. cbn [fst snd]. rewrite Hu. cbn [andb negb].
    now apply (alone_iff f).
Qed.

Definition looped (x : bytes) : Prop := (exists w, edge w x) /\ exists z, path x z /\ path z z.
Definition LI (f : flags) : Prop := (forall k, ~ In k U2 -> f k = loop_init y f0 k) /\ (forall x, looped x -> f (KUnloop x) = false).
Lemma U2_not k : (forall x, k <> KUnloop x) -> ~ In k U2.
Proof. intros H A. unfold U2 in A. apply in_map_iff in A. destruct A as (x & A & _). now apply (H x). Qed.
Lemma LI_empty f x : LI f -> f (KEmpty x) = f0 (KEmpty x).
Proof. intros [A _]. rewrite A; [reflexivity|]. now apply U2_not. Qed.
Lemma LI_init : LI (loop_init y f0).
Proof.
  split; [reflexivity|]. intros x [Hw _]. cbn [loop_init]. apply negb_false_iff. now apply may_loop_iff.
Qed.
Lemma LI_nt s x : In x (ys_nts y) -> LI (fst s) -> LI (fst (loop_nt y s x)).
Proof.
  intros Hx H. unfold loop_nt. destruct (fst s (KUnloop x)) eqn:E; [exact H|].
  match goal with |- context [existsb ?p (rules_of y x)] => destruct (existsb p (rules_of y x)) eqn:D end; [exact H|].
  split.
  - intros k Hk. unfold raise. cbn [fst]. destruct (key_eqb (KUnloop x) k) eqn:Ek.
    + apply key_eqb_eq in Ek. subst k. destruct Hk. now apply in_map.
    + cbn [orb]. apply H, Hk.
  - intros x' Hx'. unfold raise. cbn [fst]. destruct (key_eqb (KUnloop x) (KUnloop x')) eqn:Ek; [|cbn [orb]; now apply H].
    apply key_eqb_eq in Ek. injection Ek as <-. exfalso.
    assert (K : exists z, edge x z /\ fst s (KUnloop z) = false).
    { destruct Hx' as (_ & z & Hp & Hz). destruct (path_from _ _ Hp) as (c & Hc & [->|Hc']).
      - exists z. split; [exact Hc|]. apply H. split; [now exists x | now exists z].
      - exists c. split; [exact Hc|]. apply H. split; [now exists x | now exists z]. }
    apply (keep_iff (fst s)) in K; [|intro z; now apply LI_empty]. exact (eq_true_false_abs _ K D).
Qed.
Lemma loop_result : exists f, set_loop_p (passes y) y f0 = Ok f /\
  (forall k, (forall x, k <> KUnloop x) -> f k = f0 k) /\
  (forall x, In x (ys_nts y) -> f (KUnloop x) = false <-> looped x).
Proof.
  destruct (iterate_ends U2 (fun s => fold_left (loop_nt y) (ys_nts y) s) (passes y) (loop_init y f0)) as (f & E).
  { apply loop_pass_growing. }
  { unfold passes, symbols. generalize (low_le U2 (loop_init y f0)). unfold U2. rewrite map_length. lia. }
  exists f. split; [exact E|].
  assert (HL : LI f).
  { refine (iterate_keeps LI _ _ _ _ _ LI_init E). intros s Hs. apply (fold_keeps LI); [|exact Hs]. intros x s'. apply LI_nt. }
  split.
  { intros k Hk. destruct HL as [A _]. rewrite A by now apply U2_not. destruct k as [x|x|x|x|x t|x t]; try reflexivity. now destruct (Hk x). }
  assert (Hup : forall k, loop_init y f0 k = true -> f k = true).
  { intros k Hk. refine (iterate_keeps (fun f => f k = true) _ _ _ _ _ Hk E). intros s Hk'. now apply (gr_up _ _ loop_pass_growing). }
  assert (Hpred : forall x, f (KUnloop x) = false -> exists w, edge w x).
  { intros x Hx. apply may_loop_iff. destruct (may_loop y f0 x) eqn:M; [reflexivity|].
    rewrite (Hup (KUnloop x)) in Hx; [discriminate Hx|]. cbn [loop_init]. now rewrite M. }
  assert (Hnext : forall x, In x (ys_nts y) -> f (KUnloop x) = false -> exists z, edge x z /\ f (KUnloop z) = false).
  { intros x Hx Hu. apply (iterate_quiet U2) in E; [|apply loop_pass_growing]. destruct E as (s & Es & Q).
    destruct (quiet_fold U2 (loop_nt y) (ys_nts y) s loop_nt_growing Q x Hx) as (s' & Es' & Q').
    assert (S1 : same (fst s') f) by (eapply same_trans; eassumption).
    unfold loop_nt in Q'. rewrite S1, Hu in Q'.
    match type of Q' with context [existsb ?p (rules_of y x)] => destruct (existsb p (rules_of y x)) eqn:D end.
    - apply (keep_iff (fst s')) in D; [|intro z; rewrite S1; now apply LI_empty]. destruct D as (z & A1 & A2). exists z. split; [exact A1|]. now rewrite <- S1.
    - apply quiet_raise in Q'. rewrite S1, Hu in Q'. discriminate Q'. }
  assert (Hnt : forall x z, edge x z -> In z (ys_nts y)).
  { intros x z (pre & post & Hr & Hz & _). destruct (wf_rhs _ W _ _ z Hr) as [A|A]; [apply in_elt | now destruct Hz | exact A]. }
  assert (Hchain : forall n vs x, n + List.length vs = S (List.length (ys_nts y)) -> NoDup vs -> incl vs (ys_nts y) ->
            In x (ys_nts y) -> f (KUnloop x) = false -> (forall v, In v vs -> path v x) -> exists z, path x z /\ path z z).
  { induction n as [|n IH]; intros vs x Hn Hd Hi Hx Hu Hv.
    - exfalso. generalize (NoDup_incl_length Hd Hi). cbn [plus] in Hn. lia.
    - destruct (in_dec (list_eq_dec N.eq_dec) x vs) as [A|A].
      + exists x. split; now apply Hv.
      + destruct (Hnext x Hx Hu) as (z & Hz & Hzu).
        destruct (IH (x :: vs) z) as (w & P1 & P2).
        * cbn [List.length]. lia.
        * now constructor.
        * intros v [<-|B]; [exact Hx | now apply Hi].
        * now apply (Hnt x).
        * exact Hzu.
        * intros v [<-|B]; [now apply path_one|]. apply path_trans with x; [now apply Hv | now apply path_one].
        * exists w. split; [|exact P2]. now apply path_more with z. }
  intros x Hx. split.
  - intro Hu. split; [now apply Hpred|]. apply (Hchain (S (List.length (ys_nts y))) [] x); [cbn [List.length]; lia | constructor | intros v [] | exact Hx | exact Hu | intros v []].
  - apply HL.
Qed.
End Loop.

(** * first and follow *)
Definition U3 : list key :=
  flat_map (fun x => map (KFirst x) (ys_terms y)) (ys_nts y) ++ flat_map (fun x => map (KFollow x) (ys_terms y)) (ys_nts y).
Lemma U3_first x t : In x (ys_nts y) -> In t (ys_terms y) -> In (KFirst x t) U3.
Proof. intros A D. apply in_or_app. left. apply in_flat_map. exists x. split; [exact A | now apply in_map]. Qed.
Lemma U3_follow x t : In x (ys_nts y) -> In t (ys_terms y) -> In (KFollow x t) U3.
Proof. intros A D. apply in_or_app. right. apply in_flat_map. exists x. split; [exact A | now apply in_map]. Qed.
Lemma U3_not k : (forall x t, k <> KFirst x t) -> (forall x t, k <> KFollow x t) -> ~ In k U3.
Proof.
  intros H1 H2 A. unfold U3 in A. apply in_app_or in A. destruct A as [A|A]; apply in_flat_map in A;
    destruct A as (x & _ & A); apply in_map_iff in A; destruct A as (t & A & _); [now apply (H1 x t) | now apply (H2 x t)].
Qed.
Lemma U3_length : List.length U3 = 2 * (List.length (ys_nts y) * List.length (ys_terms y)).
Proof.
  assert (A : forall (K : bytes -> bytes -> key) l, List.length (flat_map (fun x => map (K x) (ys_terms y)) l) = List.length l * List.length (ys_terms y)).
  { intros K l. induction l as [|x l IH]; [reflexivity|]. cbn [flat_map List.length]. rewrite app_length, IH, map_length. lia. }
  unfold U3. rewrite app_length, !A. lia.
Qed.
Lemma or_growing (to from : bytes -> key) : (forall t, In t (ys_terms y) -> In (to t) U3) -> growing U3 (or_bits y to from).
Proof.
  intro H. apply growing_fold. intros t Ht.
  apply (growing_if U3 (fun s => fst s (from t)) (raise (to t)) (fun s => s)); [now apply growing_raise, H | apply growing_id].
Qed.
Lemma follow_growing lhs x rest : In x (ys_nts y) -> growing U3 (follow_loop y lhs x rest).
Proof.
  intro Hx. induction rest as [|z rest IH]; cbn [follow_loop].
  - apply or_growing. intros t Ht. now apply U3_follow.
  - apply (growing_comp U3 (fun s => if mem z (ys_terms y) then raise (KFollow x z) s else or_bits y (KFollow x) (KFirst z) s)
             (fun s => if fst s (KEmpty z) then follow_loop y lhs x rest s else s)).
    + destruct (mem z (ys_terms y)) eqn:E.
      * apply growing_raise, U3_follow; [exact Hx | now apply mem_in].
      * apply or_growing. intros t Ht. now apply U3_follow.
    + apply (growing_if U3 (fun s => fst s (KEmpty z)) (follow_loop y lhs x rest) (fun s => s) IH), growing_id.
Qed.
(** What is done at one place of the right hand side *)
Definition ff_one (lhs : bytes) (cont : bool) (x : bytes) (rest : list bytes) (s : fstate) : fstate :=
  if mem x (ys_terms y) then if cont then raise (KFirst lhs x) s else s
  else follow_loop y lhs x rest (if cont then or_bits y (KFirst lhs) (KFirst x) s else s).
Lemma ff_one_growing lhs cont x rest : In lhs (ys_nts y) -> (In x (ys_terms y) \/ In x (ys_nts y)) -> growing U3 (ff_one lhs cont x rest).
Proof.
  intros Hl Hx. unfold ff_one. destruct (mem x (ys_terms y)) eqn:E.
  - apply mem_in in E. destruct cont; [now apply growing_raise, U3_first | apply growing_id].
  - apply mem_not_in in E. destruct Hx as [Hx|Hx]; [contradiction|].
    apply (growing_comp U3 (fun s => if cont then or_bits y (KFirst lhs) (KFirst x) s else s) (follow_loop y lhs x rest)); [|now apply follow_growing].
    destruct cont; [apply or_growing; intros t Ht; now apply U3_first | apply growing_id].
Qed.
Lemma ff_rhs_cons lhs cont x rest s : ff_rhs y lhs cont (x :: rest) s =
  ff_rhs y lhs (cont && fst (ff_one lhs cont x rest s) (KEmpty x)) rest (ff_one lhs cont x rest s).
Proof. cbn [ff_rhs]. unfold ff_one. destruct (mem x (ys_terms y)); reflexivity. Qed.
Lemma ff_growing lhs cont rhs : In lhs (ys_nts y) -> (forall x, In x rhs -> In x (ys_terms y) \/ In x (ys_nts y)) -> growing U3 (ff_rhs y lhs cont rhs).
Proof.
  intros Hl. revert cont. induction rhs as [|x rest IH]; intros cont Hr; [apply growing_id|].
  assert (Hr' : forall x, In x rest -> In x (ys_terms y) \/ In x (ys_nts y)) by (intros z Hz; apply Hr; now right).
  apply (growing_ext _ (fun s => (fun s => if cont && fst s (KEmpty x) then ff_rhs y lhs true rest s else ff_rhs y lhs false rest s) (ff_one lhs cont x rest s))).
  { intro s. rewrite ff_rhs_cons. now destruct (cont && _). }
  apply (growing_comp U3 (ff_one lhs cont x rest) (fun s => if cont && fst s (KEmpty x) then ff_rhs y lhs true rest s else ff_rhs y lhs false rest s)); [apply ff_one_growing; [exact Hl | apply Hr; now left]|].
  apply (growing_if U3 (fun s => cont && fst s (KEmpty x)) (ff_rhs y lhs true rest) (ff_rhs y lhs false rest)); now apply IH.
Qed.
Lemma ff_rule_growing r : In r (loop_rules y) -> growing U3 (fun s => ff_rhs y (fst r) true (snd r) s).
Proof.
  intro H. apply (proj1 (loop_rules_in r)) in H. destruct r as [lhs rhs]. cbn [fst snd].
  apply ff_growing; [now apply (wf_lhs _ W lhs rhs)|]. intros x Hx. now apply (wf_rhs _ W lhs rhs).
Qed.
Lemma ff_pass_growing : growing U3 (fun s => fold_left (fun (s : fstate) (r : rule) => ff_rhs y (fst r) true (snd r) s) (loop_rules y) s).
Proof. apply growing_fold. exact ff_rule_growing. Qed.

Definition empties (f : flags) (l : list bytes) : Prop := Forall (fun x => f (KEmpty x) = true) l.
(** The start of [z] is in the set [K] *)
Definition starts (f : flags) (K : bytes -> key) (z : bytes) : Prop :=
  (In z (ys_terms y) -> f (K z) = true) /\ (~ In z (ys_terms y) -> forall t, In t (ys_terms y) -> f (KFirst z t) = true -> f (K t) = true).
Definition follow_closed (f : flags) (lhs x : bytes) (rest : list bytes) : Prop :=
  (forall a z b, rest = a ++ z :: b -> empties f a -> starts f (KFollow x) z) /\
  (empties f rest -> forall t, In t (ys_terms y) -> f (KFollow lhs t) = true -> f (KFollow x t) = true).
Definition rhs_closed (f : flags) (lhs : bytes) (cont : bool) (rhs : list bytes) : Prop :=
  forall a z b, rhs = a ++ z :: b ->
    (cont = true -> empties f a -> starts f (KFirst lhs) z) /\ (~ In z (ys_terms y) -> follow_closed f lhs z b).
Lemma starts_same f g K z : same f g -> starts f K z -> starts g K z.
Proof. intros E [A D]. split; [intro H; rewrite <- E; now apply A|]. intros H t Ht. rewrite <- !E. now apply D. Qed.
Lemma empties_same f g l : same f g -> empties f l -> empties g l.
Proof. intro E. apply Forall_impl. intros x. now rewrite E. Qed.
Lemma follow_closed_same f g lhs x rest : same f g -> follow_closed f lhs x rest -> follow_closed g lhs x rest.
Proof.
  intros E [A D]. split.
  - intros a z b Er Ha. apply (starts_same f); [exact E|]. apply (A a z b Er). now apply (empties_same g), Ha; apply same_sym.
  - intros Ha t Ht. rewrite <- !E. apply D; [|exact Ht]. now apply (empties_same g), Ha; apply same_sym.
Qed.
Lemma rhs_closed_same f g lhs cont rhs : same f g -> rhs_closed f lhs cont rhs -> rhs_closed g lhs cont rhs.
Proof.
  intros E H a z b Er. destruct (H a z b Er) as [A D]. split.
  - intros Hc Ha. apply (starts_same f); [exact E|]. apply A; [exact Hc|]. now apply (empties_same g), Ha; apply same_sym.
  - intro Hz. apply (follow_closed_same f); [exact E | now apply D].
Qed.
Lemma quiet_or to from s : (forall t, In t (ys_terms y) -> In (to t) U3) -> snd (or_bits y to from s) = false ->
  forall t, In t (ys_terms y) -> fst s (from t) = true -> fst s (to t) = true.
Proof.
  intros HU Q t Ht A.
  destruct (quiet_fold U3 (fun (s : fstate) t => if fst s (from t) then raise (to t) s else s) (ys_terms y) s) with (x := t) as (s' & E & Q'); [|exact Q | exact Ht |].
  - intros u Hu. apply (growing_if U3 (fun s => fst s (from u)) (raise (to u)) (fun s => s)); [now apply growing_raise, HU | apply growing_id].
  - rewrite E, A in Q'. apply quiet_raise in Q'. now rewrite E in Q'.
Qed.
Lemma quiet_follow lhs x rest s : In x (ys_nts y) -> snd (follow_loop y lhs x rest s) = false -> follow_closed (fst s) lhs x rest.
Proof.
  intro Hx. revert s. induction rest as [|z rest IH]; intros s Q; cbn [follow_loop] in Q.
  - split.
    + intros a w b E. destruct a; discriminate E.
    + intros _ t Ht. apply (quiet_or (KFollow x) (KFollow lhs)); [intros u Hu; now apply U3_follow | exact Q | exact Ht].
  - set (q := fun s : fstate => if mem z (ys_terms y) then raise (KFollow x z) s else or_bits y (KFollow x) (KFirst z) s) in *.
    change (snd ((fun s : fstate => if fst s (KEmpty z) then follow_loop y lhs x rest s else s) (q s)) = false) in Q.
    assert (Gq : growing U3 q).
    { unfold q. destruct (mem z (ys_terms y)) eqn:E.
      - apply growing_raise, U3_follow; [exact Hx | now apply mem_in].
      - apply or_growing. intros t Ht. now apply U3_follow. }
    destruct (quiet_comp U3 q (fun s => if fst s (KEmpty z) then follow_loop y lhs x rest s else s) s Gq) as [Q1 S1]; [| exact Q |].
    { apply (growing_if U3 (fun s => fst s (KEmpty z)) (follow_loop y lhs x rest) (fun s => s)); [now apply follow_growing | apply growing_id]. }
    assert (Hz : starts (fst s) (KFollow x) z).
    { unfold q in Q1. destruct (mem z (ys_terms y)) eqn:E.
      - apply mem_in in E. apply quiet_raise in Q1. split; [intros _; exact Q1 | contradiction].
      - apply mem_not_in in E. split; [contradiction|]. intros _.
        apply (quiet_or (KFollow x) (KFirst z)); [intros u Hu; now apply U3_follow | exact Q1]. }
    cbv beta in Q. assert (Hrest : fst s (KEmpty z) = true -> follow_closed (fst s) lhs x rest).
    { intro A. rewrite S1, A in Q. apply (follow_closed_same (fst (q s))); [exact S1|]. now apply IH. }
    split.
    + intros a w b E Ha. destruct a as [|a0 a]; cbn [app] in E; injection E as -> E; [exact Hz|].
      inversion Ha as [|? ? H1 H2]. now apply (proj1 (Hrest H1) a w b E).
    + intro Ha. inversion Ha as [|? ? H1 H2]. now apply (proj2 (Hrest H1)).
Qed.
Lemma quiet_ff lhs cont rhs s : In lhs (ys_nts y) -> (forall x, In x rhs -> In x (ys_terms y) \/ In x (ys_nts y)) ->
  snd (ff_rhs y lhs cont rhs s) = false -> rhs_closed (fst s) lhs cont rhs.
Proof.
  intro Hl. revert cont s. induction rhs as [|x rest IH]; intros cont s Hr Q.
  - intros a z b E. destruct a; discriminate E.
  - assert (Hx : In x (ys_terms y) \/ In x (ys_nts y)) by (apply Hr; now left).
    assert (Hr' : forall x, In x rest -> In x (ys_terms y) \/ In x (ys_nts y)) by (intros z Hz; apply Hr; now right).
    rewrite ff_rhs_cons in Q.
    destruct (gr_quiet _ _ (ff_growing lhs (cont && fst (ff_one lhs cont x rest s) (KEmpty x)) rest Hl Hr') _ Q) as [Q1 _].
    destruct (gr_quiet _ _ (ff_one_growing lhs cont x rest Hl Hx) _ Q1) as [_ S1].
    apply IH in Q; [|exact Hr']. apply (rhs_closed_same _ (fst s)) in Q; [|exact S1]. rewrite S1 in Q.
    assert (Hone : (cont = true -> starts (fst s) (KFirst lhs) x) /\ (~ In x (ys_terms y) -> follow_closed (fst s) lhs x rest)).
    { unfold ff_one in Q1. destruct (mem x (ys_terms y)) eqn:E.
      - apply mem_in in E. split; [|contradiction]. intros ->. apply quiet_raise in Q1. split; [intros _; exact Q1 | contradiction].
      - apply mem_not_in in E. destruct Hx as [Hx|Hx]; [contradiction|].
        set (q := fun s : fstate => if cont then or_bits y (KFirst lhs) (KFirst x) s else s) in *.
        change (snd (follow_loop y lhs x rest (q s)) = false) in Q1.
        assert (Gq : growing U3 q) by (unfold q; destruct cont; [apply or_growing; intros t Ht; now apply U3_first | apply growing_id]).
        destruct (quiet_comp U3 q (follow_loop y lhs x rest) s Gq (follow_growing lhs x rest Hx) Q1) as [Q2 S2].
        split.
        + intros ->. split; [contradiction|]. intros _. unfold q in Q2. apply quiet_or; [intros u Hu; now apply U3_first | exact Q2].
        + intros _. apply (follow_closed_same (fst (q s))); [exact S2|]. now apply quiet_follow. }
    intros a z b E. destruct a as [|a0 a]; cbn [app] in E; injection E as -> E.
    + rewrite <- E. split; [intros Hc _; now apply Hone | now apply Hone].
    + destruct (Q a z b E) as [A D]. split; [|exact D]. intros Hc Ha. inversion Ha as [|? ? H1 H2]. apply A; [now rewrite Hc, H1 | exact H2].
Qed.

(** Soundness *)
Lemma or_sound to from s : (forall t, Sem (from t) -> Sem (to t)) -> sound Sem (fst s) -> sound Sem (fst (or_bits y to from s)).
Proof.
  intros H Hs. unfold or_bits. apply (fold_keeps (sound Sem)); [|exact Hs]. intros t s' _ Hs'.
  destruct (fst s' (from t)) eqn:E; [|exact Hs']. apply raise_sound; [|exact Hs']. apply H, Hs', E.
Qed.
Lemma follow_sound lhs pre x mid rest s : In (lhs, pre ++ x :: mid ++ rest) R -> Forall (nullable R) mid ->
  sound Sem (fst s) -> sound Sem (fst (follow_loop y lhs x rest s)).
Proof.
  revert mid s. induction rest as [|z rest IH]; intros mid s Hr Hm Hs; cbn [follow_loop].
  - apply or_sound; [|exact Hs]. intros t (w & rhs & u & v & A & D). cbn [Sem]. exists w, rhs, (u ++ pre), v. split; [exact A|].
    eapply steps_trans; [exact D|].
    change (u ++ lhs :: t :: v) with (u ++ [lhs] ++ (t :: v)).
    eapply steps_trans; [apply steps_ctx; apply steps_rule; exact Hr|]. rewrite app_nil_r.
    replace (u ++ (pre ++ x :: mid) ++ t :: v) with ((u ++ pre ++ [x]) ++ mid ++ (t :: v)) by (rewrite <- !app_assoc; reflexivity).
    replace ((u ++ pre) ++ x :: t :: v) with ((u ++ pre ++ [x]) ++ [] ++ (t :: v)) by (rewrite <- !app_assoc; reflexivity).
    apply steps_ctx. now apply nullables.
  - assert (Hf : forall t v, steps R [z] (t :: v) -> follow R x t).
    { intros t v Hz. exists lhs, (pre ++ x :: mid ++ z :: rest), pre, (v ++ rest). split; [exact Hr|].
      eapply steps_trans; [apply steps_rule; exact Hr|].
      replace (pre ++ x :: mid ++ z :: rest) with ((pre ++ [x]) ++ (mid ++ [z]) ++ rest) by (rewrite <- !app_assoc; reflexivity).
      replace (pre ++ x :: t :: v ++ rest) with ((pre ++ [x]) ++ ([] ++ t :: v) ++ rest) by (rewrite <- !app_assoc; reflexivity).
      apply steps_ctx. apply steps_app; [now apply nullables | exact Hz]. }
    set (s1 := if mem z (ys_terms y) then _ else _).
    assert (H1 : sound Sem (fst s1)).
    { unfold s1. destruct (mem z (ys_terms y)).
      - apply raise_sound; [|exact Hs]. apply (Hf z []), steps_refl.
      - apply or_sound; [|exact Hs]. intros t (v & A). now apply (Hf t v). }
    destruct (fst s1 (KEmpty z)) eqn:E; [|exact H1]. apply (IH (mid ++ [z])); [now rewrite <- app_assoc | | exact H1].
    apply Forall_app. split; [exact Hm|]. constructor; [apply (H1 _ E) | constructor].
Qed.
Lemma ff_sound lhs cont pre rhs s : In (lhs, pre ++ rhs) R -> (cont = true -> Forall (nullable R) pre) ->
  sound Sem (fst s) -> sound Sem (fst (ff_rhs y lhs cont rhs s)).
Proof.
  revert cont pre s. induction rhs as [|x rest IH]; intros cont pre s Hr Hc Hs; [exact Hs|].
  rewrite ff_rhs_cons.
  assert (Hf : forall t v, cont = true -> steps R [x] (t :: v) -> first R lhs t).
  { intros t v Ec Hz. exists (v ++ rest). eapply steps_trans; [apply steps_rule; exact Hr|].
    change (t :: v ++ rest) with ([] ++ (t :: v) ++ rest). apply steps_app; [now apply nullables, Hc|].
    apply (steps_app R [x] (t :: v) rest rest Hz), steps_refl. }
  assert (H1 : sound Sem (fst (ff_one lhs cont x rest s))).
  { unfold ff_one. destruct (mem x (ys_terms y)).
    - destruct cont; [|exact Hs]. apply raise_sound; [|exact Hs]. apply (Hf x [] eq_refl), steps_refl.
    - apply (follow_sound lhs pre x []); [exact Hr | constructor |]. destruct cont; [|exact Hs].
      apply or_sound; [|exact Hs]. intros t (v & A). now apply (Hf t v). }
  apply (IH _ (pre ++ [x])); [now rewrite <- app_assoc | | exact H1].
  intro A. apply andb_true_iff in A. destruct A as [A1 A2]. apply Forall_app. split; [now apply Hc|].
  constructor; [apply (H1 _ A2) | constructor].
Qed.

(** Completeness *)
Section Complete.
Variable f : flags.
Hypothesis Hc : forall lhs rhs, In (lhs, rhs) R -> rhs_closed f lhs true rhs.
Hypothesis He : forall x, f (KEmpty x) = true <-> nullable R x.
Lemma empties_lhs x rhs : In (x, rhs) R -> empties f rhs -> f (KEmpty x) = true.
Proof.
  intros Hr H. apply He. unfold nullable. eapply steps_trans; [apply steps_rule; exact Hr|]. apply nullables.
  revert H. apply Forall_impl. intro z. apply He.
Qed.
(** The terminal [t] can start the form [u]. *)
Definition HF (u : list bytes) (t : bytes) : Prop :=
  exists a z b, u = a ++ z :: b /\ empties f a /\ (z = t \/ (~ In z (ys_terms y) /\ f (KFirst z t) = true)).
Lemma HF_app u v t : HF (u ++ v) t <-> HF u t \/ (empties f u /\ HF v t).
Proof.
  split.
  - intros (a & z & b & E & Ha & Hz). destruct (split_mid _ _ _ _ _ E) as [(r & -> & ->)|(r & -> & ->)].
    + left. exists a, z, r. now split.
    + right. apply Forall_app in Ha. destruct Ha as [A1 A2]. split; [exact A1|]. exists r, z, b. now split.
  - intros [(a & z & b & -> & Ha & Hz)|[Hu (a & z & b & -> & Ha & Hz)]].
    + exists a, z, (b ++ v). rewrite <- app_assoc. now split.
    + exists (u ++ a), z, b. rewrite <- app_assoc. split; [reflexivity|]. split; [now apply Forall_app | exact Hz].
Qed.
Lemma HF_rule x rhs t : In (x, rhs) R -> In t (ys_terms y) -> HF rhs t -> f (KFirst x t) = true.
Proof.
  intros Hr Ht (a & z & b & E & Ha & Hz). destruct (Hc _ _ Hr a z b E) as [A _]. destruct (A eq_refl Ha) as [A1 A2].
  destruct Hz as [->|[Hz Hz']]; [now apply A1 | now apply A2].
Qed.
Lemma HF_back p x rhs q t : In (x, rhs) R -> In t (ys_terms y) -> HF (p ++ rhs ++ q) t -> HF (p ++ x :: q) t.
Proof.
  intros Hr Ht H. apply HF_app in H. apply HF_app. destruct H as [H|[H1 H2]]; [now left|]. right. split; [exact H1|].
  change (x :: q) with ([x] ++ q). apply HF_app. apply HF_app in H2. destruct H2 as [H2|[H2 H3]].
  - left. exists [], x, []. split; [reflexivity|]. split; [constructor|]. right. split; [now apply lhs_not_term in Hr|]. now apply (HF_rule x rhs).
  - right. split; [|exact H3]. constructor; [now apply (empties_lhs x rhs) | constructor].
Qed.
Lemma HF_steps u t v : In t (ys_terms y) -> steps R u (t :: v) -> HF u t.
Proof.
  intros Ht H. remember (t :: v) as w eqn:E. induction H as [u|u u' w Hs _ IH].
  - exists [], t, v. split; [exact E|]. split; [constructor | now left].
  - specialize (IH E). destruct Hs as [p x rhs q Hr]. now apply (HF_back p x rhs q).
Qed.
Lemma first_complete x t : ~ In x (ys_terms y) -> In t (ys_terms y) -> first R x t -> f (KFirst x t) = true.
Proof.
  intros Hx Ht (v & H). destruct (HF_steps _ _ _ Ht H) as (a & z & b & E & _ & Hz).
  destruct a as [|a0 a]; [|destruct a; discriminate E]. injection E as <- _. destruct Hz as [->|[_ Hz]]; [contradiction | exact Hz].
Qed.
Definition followed (w : list bytes) : Prop :=
  forall u x v t, w = u ++ x :: v -> ~ In x (ys_terms y) -> In t (ys_terms y) -> HF v t -> f (KFollow x t) = true.
Lemma followed_steps w w' : steps R w w' -> followed w -> followed w'.
Proof.
  induction 1 as [w|w w1 w' Hs _ IH]; intro H; [exact H|]. apply IH. clear IH. destruct Hs as [p y0 rhs q Hr].
  intros u x v t E Hx Ht Hf.
  destruct (split_mid _ _ _ _ _ E) as [(r & Ep & Ev)|(r & Eu & Eq)].
  - apply (H u x (r ++ y0 :: q) t); [rewrite Ep, <- app_assoc; reflexivity | exact Hx | exact Ht |].
    rewrite Ev in Hf. now apply (HF_back r y0 rhs q).
  - destruct (split_mid _ _ _ _ _ Eq) as [(r' & Er & Ev)|(r' & Er & Eq')].
    + destruct (Hc _ _ Hr r x r' Er) as [_ A]. destruct (A Hx) as [A1 A2].
      rewrite Ev in Hf. apply HF_app in Hf. destruct Hf as [(a & z & b & Ea & Ha & Hz)|[Hn Hf]].
      * destruct (A1 a z b Ea Ha) as [B1 B2]. destruct Hz as [->|[Hz Hz']]; [now apply B1 | now apply B2].
      * apply A2; [exact Hn | exact Ht |]. apply (H p y0 q t eq_refl); [now apply lhs_not_term in Hr | exact Ht | exact Hf].
    + apply (H (p ++ y0 :: r') x v t); [rewrite Eq', <- app_assoc; reflexivity | exact Hx | exact Ht | exact Hf].
Qed.
Lemma follow_complete x t : ~ In x (ys_terms y) -> In t (ys_terms y) -> follow R x t -> f (KFollow x t) = true.
Proof.
  intros Hx Ht (z & rhs & u & v & _ & H).
  apply (followed_steps _ _ H) with (u := u) (v := t :: v); [|reflexivity | exact Hx | exact Ht |].
  - intros u' x' v' t' E _ _ (a & z' & b & Ev & _). destruct u' as [|u0 u']; [|destruct u'; discriminate E].
    injection E as _ E. rewrite <- E in Ev. destruct a; discriminate Ev.
  - exists [], t, v. split; [reflexivity|]. split; [constructor | now left].
Qed.
End Complete.

Lemma ff_result f0 : (forall x, f0 (KEmpty x) = true <-> nullable R x) -> (forall x, f0 (KDeriv x) = true -> productive R terminal x) ->
  (forall x, f0 (KAccess x) = true -> reachable R AXIOM x) ->
  exists f, create_first_follow_sets (passes y) y f0 = Ok f /\
  (forall k, (forall x t, k <> KFirst x t) -> (forall x t, k <> KFollow x t) -> f k = f0 k) /\
  (forall x t, In x (ys_nts y) -> In t (ys_terms y) -> f (KFirst x t) = true <-> first R x t) /\
  (forall x t, In x (ys_nts y) -> In t (ys_terms y) -> f (KFollow x t) = true <-> follow R x t).
Proof.
  intros H1 H2 H3. unfold create_first_follow_sets.
  set (pass := fun s : fstate => fold_left (fun (s : fstate) (r : rule) => ff_rhs y (fst r) true (snd r) s) (loop_rules y) s).
  destruct (iterate_ends U3 pass (passes y) (ff_init f0)) as (f & E).
  { apply ff_pass_growing. }
  { unfold passes. generalize (low_le U3 (ff_init f0)), U3_length. lia. }
  exists f. split; [exact E|].
  assert (Hk : forall k, (forall x t, k <> KFirst x t) -> (forall x t, k <> KFollow x t) -> f k = f0 k).
  { intros k A D. rewrite (iterate_only U3 pass _ _ _ ff_pass_growing E k (U3_not k A D)).
    destruct k as [x|x|x|x|x t|x t]; try reflexivity; [now destruct (A x t) | now destruct (D x t)]. }
  split; [exact Hk|].
  assert (He : forall x, f (KEmpty x) = true <-> nullable R x) by (intro x; rewrite Hk; [apply H1 | discriminate | discriminate]).
  assert (Hs : sound Sem f).
  { refine (iterate_keeps (sound Sem) pass _ _ _ _ _ E).
    - intros s Hs. apply (fold_keeps (sound Sem)); [|exact Hs]. intros r s' Hr Hs'. apply (proj1 (loop_rules_in r)) in Hr. destruct r as [lhs rhs].
      apply (ff_sound lhs true [] rhs); [exact Hr | intros _; constructor | exact Hs'].
    - intros k A. destruct k as [x|x|x|x|x t|x t]; cbn [ff_init] in A; cbn [Sem]; try discriminate A; [now apply H1 | now apply H2 | now apply H3 | exact I]. }
  assert (Hc : forall lhs rhs, In (lhs, rhs) R -> rhs_closed f lhs true rhs).
  { intros lhs rhs Hr. apply (iterate_quiet U3) in E; [|apply ff_pass_growing]. destruct E as (s & Es & Q).
    destruct (quiet_fold U3 _ (loop_rules y) s ff_rule_growing Q (lhs, rhs)) as (s' & Es' & Q'); [now apply loop_rules_in|].
    cbn [fst snd] in Q'. apply quiet_ff in Q'; [| now apply (wf_lhs _ W lhs rhs) | intros x Hx; now apply (wf_rhs _ W lhs rhs)].
    apply (rhs_closed_same (fst s')); [|exact Q']. eapply same_trans; eassumption. }
  split; intros x t Hx Ht.
  - split; [exact (Hs (KFirst x t))|]. apply first_complete; [exact Hc | exact He | | exact Ht]. intro A. now apply (wf_disj _ W x).
  - split; [exact (Hs (KFollow x t))|]. apply follow_complete; [exact Hc | exact He | | exact Ht]. intro A. now apply (wf_disj _ W x).
Qed.
End Y.
