(** Proofs about the construction of documents with namespaces: every element
    and attribute refers to the innermost definition of its prefix. *)
From Coq Require Import NArith ZArith List Bool Arith String Lia.
From Verif Require Import Bytes BytesFacts Outcome Utf8 Quote Parser Detect Dom NsDom NsSpec.
Import ListNotations.

Definition scope_t := list (list nat).
Implicit Types P Q : scope_t -> option nsref -> list nat -> Prop.
Implicit Types A B : scope_t -> option nsref -> Prop.

(** Induction on trees. *)
Section NInd.
  Variable Q : nnode -> Prop.
  Hypothesis HE : forall e k, Forall Q k -> Q (NElem e k).
  Hypothesis HP : forall p, Q (NPart p).
  Hypothesis HC : forall t, Q (NComment t).
  Hypothesis HI : forall n c, Q (NPI n c).
  Hypothesis HD : forall c, Q (NDoctype c).
  Fixpoint nnode_ind2 (x : nnode) : Q x :=
    match x with
    | NElem e k => HE e k ((fix go l : Forall Q l := match l with
                              | [] => Forall_nil Q
                              | y :: r => Forall_cons y (nnode_ind2 y) (go r)
                              end) k)
    | NPart p => HP p
    | NComment t => HC t
    | NPI n c => HI n c
    | NDoctype c => HD c
    end.
End NInd.

(** ** A property of all elements of a state *)

(** [P sc ns defs] for each element with namespace [ns] and definitions [defs]
    inside elements with the definitions [sc], and [A sc ns] for each of
    its attributes, where [sc] includes the definitions of the element. *)
Section All.
  Variable P : scope_t -> option nsref -> list nat -> Prop.
  Variable A : scope_t -> option nsref -> Prop.

  Definition elem_all (sc : scope_t) (e : edata) : Prop :=
    P sc (e_ns e) (e_defs e) /\ Forall (fun a => A (e_defs e :: sc) (a_ns a)) (e_attrs e).

  Inductive node_all (sc : scope_t) : nnode -> Prop :=
  | na_elem e k : elem_all sc e -> Forall (node_all (e_defs e :: sc)) k -> node_all sc (NElem e k)
  | na_part p : node_all sc (NPart p)
  | na_comment t : node_all sc (NComment t)
  | na_pi n c : node_all sc (NPI n c)
  | na_doctype c : node_all sc (NDoctype c).

  Fixpoint scope (st : list gframe) : scope_t :=
    match st with
    | [] => []
    | GElem e _ :: r => e_defs e :: scope r
    | _ :: r => scope r
    end.

  Fixpoint stack_all (st : list gframe) : Prop :=
    match st with
    | [] => True
    | GDoc k :: r => Forall (node_all (scope r)) k /\ stack_all r
    | GElem e k :: r => elem_all (scope r) e /\ Forall (node_all (e_defs e :: scope r)) k /\ stack_all r
    | GAttr n _ _ :: r => A (scope r) n /\ stack_all r
    | GSame :: r => stack_all r
    end.

  Lemma node_all_elem sc e k : node_all sc (NElem e k) <-> elem_all sc e /\ Forall (node_all (e_defs e :: sc)) k.
  Proof. split. { intros H. inversion H; auto. } intros [H1 H2]. now constructor. Qed.
End All.

Lemma node_all_impl P A Q B sc x :
  (forall sc n d, P sc n d -> Q sc n d) -> (forall sc n, A sc n -> B sc n) ->
  node_all P A sc x -> node_all Q B sc x.
Proof.
  intros HP HA. revert sc. induction x as [e k IH| | | |] using nnode_ind2; intros sc H; try constructor.
  - inversion H as [? ? [H1 H2] H3| | | |]; subst. split; [now apply HP|]. eapply Forall_impl; [|exact H2]. cbn. auto.
  - inversion H as [? ? [H1 H2] H3| | | |]; subst. rewrite Forall_forall in *. intros y Y. apply IH; auto.
Qed.
Lemma stack_all_impl P A Q B st :
  (forall sc n d, P sc n d -> Q sc n d) -> (forall sc n, A sc n -> B sc n) ->
  stack_all P A st -> stack_all Q B st.
Proof.
  intros HP HA. induction st as [|[k|e k|n x ps|] r IH]; cbn; auto.
  - intros [H1 H2]. split; auto. eapply Forall_impl; [|exact H1]. intros y. now apply node_all_impl.
  - intros ([H1 H2] & H3 & H4). repeat split; auto.
    + eapply Forall_impl; [|exact H2]. cbn. auto.
    + eapply Forall_impl; [|exact H3]. intros y. now apply node_all_impl.
  - intros [H1 H2]. split; auto.
Qed.
Lemma node_all_and P A Q B sc x :
  node_all P A sc x -> node_all Q B sc x ->
  node_all (fun sc n d => P sc n d /\ Q sc n d) (fun sc n => A sc n /\ B sc n) sc x.
Proof.
  revert sc. induction x as [e k IH| | | |] using nnode_ind2; intros sc H G; try constructor.
  - inversion H as [? ? [H1 H2] H3| | | |]; inversion G as [? ? [G1 G2] G3| | | |]; subst.
    split; [now split|]. rewrite Forall_forall in *. intros a I. split; auto.
  - inversion H as [? ? [H1 H2] H3| | | |]; inversion G as [? ? [G1 G2] G3| | | |]; subst.
    rewrite Forall_forall in *. intros y Y. apply IH; auto.
Qed.
Lemma stack_all_and P A Q B st :
  stack_all P A st -> stack_all Q B st ->
  stack_all (fun sc n d => P sc n d /\ Q sc n d) (fun sc n => A sc n /\ B sc n) st.
Proof.
  induction st as [|[k|e k|n x ps|] r IH]; cbn; auto.
  - intros [H1 H2] [G1 G2]. split; auto. rewrite Forall_forall in *. intros y Y. apply node_all_and; auto.
  - intros ([H1 H2] & H3 & H4) ([G1 G2] & G3 & G4). repeat split; auto; rewrite Forall_forall in *.
    + intros a I. auto.
    + intros y Y. apply node_all_and; auto.
  - intros [H1 H2] [G1 G2]. auto.
Qed.

(** ** Steps that leave elements as they are *)

(** Replacing the children of a node by children with the same elements. *)
Definition same_kids (k k' : list nnode) : Prop :=
  (forall P A sc, Forall (node_all P A sc) k' <-> Forall (node_all P A sc) k) /\ no_elem k' = no_elem k.

(** The definitions of the elements at the top level. *)
Fixpoint elem_defs (k : list nnode) : list (list nat) :=
  match k with
  | [] => []
  | NElem e _ :: r => e_defs e :: elem_defs r
  | _ :: r => elem_defs r
  end.
Fixpoint tops (st : list gframe) : list (list nat) :=
  match st with
  | [] => []
  | GDoc k :: r => match scope r with [] => elem_defs k ++ tops r | _ => tops r end
  | GElem e _ :: r => match scope r with [] => e_defs e :: tops r | _ => tops r end
  | _ :: r => tops r
  end.

(** Two stacks with the same elements. *)
Record same_elems (st st' : list gframe) : Prop := SameElems {
  se_all : forall P A, stack_all P A st' <-> stack_all P A st;
  se_scope : scope st' = scope st;
  se_tops : tops st' = tops st }.

Lemma same_refl st : same_elems st st.
Proof. split; auto. intros. tauto. Qed.

(** A change of the node on top that keeps its elements. *)
Definition keeps (f : gframe -> option gframe) : Prop :=
  forall g g' r, g <> GSame -> f g = Some g' -> same_elems (g :: r) (g' :: r).

Lemma change_top_same f st st' : keeps f -> change_top f st = Some st' -> same_elems st st'.
Proof.
  intros K. revert st'. induction st as [|g r IH]; intros st' E; [discriminate|].
  destruct g; cbn in E;
    try (match type of E with option_map _ (f ?g) = _ => destruct (f g) as [g'|] eqn:Ef end;
         cbn in E; [|discriminate]; injection E as <-; apply (K _ _ r) in Ef; [exact Ef|discriminate]).
  destruct (change_top f r) as [r'|] eqn:Er; cbn in E; [|discriminate]. injection E as <-.
  destruct (IH r' eq_refl) as [I1 I2 I3]. split; cbn; auto.
Qed.

Lemma on_top_ok f l s s' : on_top f l s = NOk s' -> exists st, change_top f (n_stack s) = Some st /\ s' = set_stack st l s.
Proof. unfold on_top. destruct (change_top f (n_stack s)) as [st|]; [|discriminate]. intros [= <-]. eauto. Qed.

Lemma all_cons_other P A sc x k : (forall e k', x <> NElem e k') -> Forall (node_all P A sc) (x :: k) <-> Forall (node_all P A sc) k.
Proof.
  intros X. split; intros H. { now inversion H. } constructor; auto.
  destruct x as [e c| | | |]; [exfalso; exact (X e c eq_refl)|constructor..].
Qed.

Lemma n_add_part_same p k : (forall P A sc, Forall (node_all P A sc) (n_add_part p k) <-> Forall (node_all P A sc) k)
  /\ elem_defs (n_add_part p k) = elem_defs k /\ no_elem (n_add_part p k) = no_elem k.
Proof.
  unfold n_add_part. destruct p as [t|n]; [destruct k as [|[| [u|m] | | |] k]|]; cbn; repeat split; auto;
    try (intros H; inversion H; subst; auto; fail); try (intros H; repeat constructor; auto; fail).
  all: intros H; inversion H; subst; auto; constructor; auto; constructor.
Qed.

Lemma keeps_part_into p : keeps (part_into p).
Proof.
  intros g g' r G E. destruct g as [k|e k|n x ps|]; cbn in E; try discriminate; injection E as <-.
  - destruct (n_add_part_same p k) as (H1 & H2 & H3). split; cbn; [|reflexivity|now rewrite H2].
    intros P A. rewrite H1. tauto.
  - destruct (n_add_part_same p k) as (H1 & H2 & H3). split; cbn; [|reflexivity|reflexivity].
    intros P A. rewrite H1. tauto.
  - split; cbn; [|reflexivity|reflexivity]. intros. tauto.
Qed.

Lemma keeps_node_into x : (forall e k, x <> NElem e k) -> keeps (node_into x).
Proof.
  intros X g g' r G E. destruct g as [k|e k|n y ps|]; cbn in E; try discriminate; injection E as <-.
  - split; cbn; [|reflexivity|].
    + intros P A. rewrite all_cons_other by exact X. tauto.
    + destruct x; try reflexivity. exfalso. eapply X; eauto.
  - split; cbn; [|reflexivity|reflexivity]. intros P A. rewrite all_cons_other by exact X. tauto.
Qed.

Lemma part_into_kid_same p k k' : part_into_kid p k = Some k' ->
  (forall P A sc, Forall (node_all P A sc) k' <-> Forall (node_all P A sc) k) /\ elem_defs k' = elem_defs k.
Proof.
  unfold part_into_kid. destruct k as [|[e c| | | |] r]; try discriminate. intros [= <-]. split; [|reflexivity].
  intros P A sc. rewrite !Forall_cons_iff, !node_all_elem.
  assert (Forall (node_all P A (e_defs e :: sc)) (rev (n_add_part p (rev c))) <-> Forall (node_all P A (e_defs e :: sc)) c) as ->.
  { split; intros H.
    - apply Forall_rev in H. rewrite rev_involutive in H. apply (n_add_part_same p (rev c)) in H.
      apply Forall_rev in H. now rewrite rev_involutive in H.
    - apply Forall_rev, (n_add_part_same p (rev c)), Forall_rev, H. }
  tauto.
Qed.
Lemma keeps_part_into_last p : keeps (part_into_last p).
Proof.
  intros g g' r G E. destruct g as [k|e k|n y ps|]; cbn in E; try discriminate;
    (destruct (part_into_kid p k) as [k'|] eqn:Ek; cbn in E; [|discriminate]); injection E as <-;
    destruct (part_into_kid_same p k k' Ek) as (H1 & H2).
  - split; cbn; [|reflexivity|now rewrite H2]. intros P A. rewrite H1. tauto.
  - split; cbn; [|reflexivity|reflexivity]. intros P A. rewrite H1. tauto.
Qed.

Lemma last_attr_some e a e' : last_attr e = Some (a, e') ->
  e_ns e' = e_ns e /\ e_name e' = e_name e /\ e_defs e' = e_defs e /\ e_attrs e = e_attrs e' ++ [a].
Proof.
  unfold last_attr. destruct (rev (e_attrs e)) as [|b r] eqn:R; [discriminate|]. intros [= <- <-]. cbn.
  repeat split. rewrite <- (rev_involutive (e_attrs e)), R. reflexivity.
Qed.

Lemma elem_all_ext P A sc e e' : e_ns e' = e_ns e -> e_defs e' = e_defs e ->
  map a_ns (e_attrs e') = map a_ns (e_attrs e) -> elem_all P A sc e' <-> elem_all P A sc e.
Proof.
  intros E1 E2 E3. unfold elem_all. rewrite E1, E2.
  assert (G : forall l, Forall (fun a => A (e_defs e :: sc) (a_ns a)) l <-> Forall (A (e_defs e :: sc)) (map a_ns l))
    by (intros l; rewrite Forall_map; reflexivity).
  rewrite !G, E3. reflexivity.
Qed.

Lemma keeps_part_into_attr p : keeps (part_into_attr p).
Proof.
  intros g g' r G E. destruct g as [k|e k|n y ps|]; cbn in E; try discriminate.
  destruct (last_attr e) as [[a e']|] eqn:L; [|discriminate]. injection E as <-.
  destruct (last_attr_some e a e' L) as (L1 & L2 & L3 & L4).
  split; cbn; rewrite ?L3; try reflexivity.
  intros P A. rewrite (elem_all_ext P A _ e).
  - tauto.
  - exact L1.
  - exact L3.
  - cbn. rewrite L4, !map_app. reflexivity.
Qed.

Lemma comment_more_same v k k' : comment_more v k = Some k' ->
  (forall P A sc, Forall (node_all P A sc) k' <-> Forall (node_all P A sc) k) /\ elem_defs k' = elem_defs k.
Proof.
  unfold comment_more. destruct k as [|[| |t| |] r]; try discriminate. intros [= <-]. split; [|reflexivity].
  intros P A sc. rewrite !all_cons_other by discriminate. tauto.
Qed.
Lemma keeps_comment_into v : keeps (comment_into v).
Proof.
  intros g g' r G E. destruct g as [k|e k|n y ps|]; cbn in E; try discriminate;
    (destruct (comment_more v k) as [k'|] eqn:Ek; cbn in E; [|discriminate]); injection E as <-;
    destruct (comment_more_same v k k' Ek) as (H1 & H2).
  - split; cbn; [|reflexivity|now rewrite H2]. intros P A. rewrite H1. tauto.
  - split; cbn; [|reflexivity|reflexivity]. intros P A. rewrite H1. tauto.
Qed.

Lemma elem_all_add P A sc a e : elem_all P A sc (add_attr a e) <-> elem_all P A sc e /\ A (e_defs e :: sc) (a_ns a).
Proof.
  unfold elem_all, add_attr. cbn. rewrite Forall_app, Forall_cons_iff. intuition.
Qed.
Lemma Forall_rev_iff {X} (Q : X -> Prop) l : Forall Q (rev l) <-> Forall Q l.
Proof. split; intros H; [rewrite <- (rev_involutive l)|]; now apply Forall_rev. Qed.

(** Opening and closing a node. *)
Lemma close_all_iff f g r g' l : n_close_into f g = Some (g', l) ->
  (forall P A, stack_all P A (g' :: r) <-> stack_all P A (f :: g :: r)) /\ tops (g' :: r) = tops (f :: g :: r).
Proof.
  intros E. destruct f as [k|e k|n x ps|]; destruct g as [k2|m k2|n2 x2 ps2|]; cbn in E; try discriminate;
    injection E as <- <-; (split; [intros P A|]); cbn;
    rewrite ?Forall_cons_iff, ?node_all_elem, ?Forall_rev_iff, ?elem_all_add; cbn; try tauto; try reflexivity.
  destruct (scope r); reflexivity.
Qed.

Lemma push_iff s s' : n_push_last s = NOk s' ->
  exists st, s' = set_stack st LTop s /\
  (forall P A, stack_all P A st <-> stack_all P A (n_stack s)) /\ tops st = tops (n_stack s).
Proof.
  unfold n_push_last. destruct (n_last s) eqn:L, (n_stack s) as [|[k|e k|n x ps|] r] eqn:ES; try discriminate.
  - destruct k as [|[e c| | | |] k]; try discriminate. intros [= <-]. eexists. split; [reflexivity|].
    split; [intros P A|]; cbn; rewrite ?Forall_cons_iff, ?node_all_elem, ?Forall_rev_iff; try tauto.
    destruct (scope r); reflexivity.
  - destruct k as [|[e2 c| | | |] k]; try discriminate. intros [= <-]. eexists. split; [reflexivity|].
    split; [intros P A|]; cbn; rewrite ?Forall_cons_iff, ?node_all_elem, ?Forall_rev_iff; try tauto.
  - destruct (last_attr e) as [[a e']|] eqn:La; [|discriminate]. intros [= <-]. eexists. split; [reflexivity|].
    destruct (last_attr_some e a e' La) as (L1 & L2 & L3 & L4).
    split; [intros P A|]; cbn; rewrite ?L3; try reflexivity.
    rewrite (elem_all_ext P A _ (add_attr a e') e) by (cbn; rewrite ?L4; auto).
    rewrite elem_all_add, L3. tauto.
  - intros [= <-]; eexists; (split; [reflexivity|]); split; [intros P A|]; cbn; try tauto; reflexivity.
  - intros [= <-]; eexists; (split; [reflexivity|]); split; [intros P A|]; cbn; try tauto; reflexivity.
  - intros [= <-]; eexists; (split; [reflexivity|]); split; [intros P A|]; cbn; try tauto; reflexivity.
  - intros [= <-]; eexists; (split; [reflexivity|]); split; [intros P A|]; cbn; try tauto; reflexivity.
Qed.

Lemma pop_iff s s' : n_pop s = NOk s' ->
  exists st l, s' = set_stack st l s /\
  (forall P A, stack_all P A st <-> stack_all P A (n_stack s)) /\ tops st = tops (n_stack s).
Proof.
  unfold n_pop. destruct (n_stack s) as [|f [|g r]]; try discriminate.
  destruct (n_close_into f g) as [[g' l]|] eqn:C; [|discriminate]. intros [= <-].
  exists (g' :: r), l. split; [reflexivity|]. exact (close_all_iff f g r g' l C).
Qed.

Lemma close_up_all P A f r d : n_close_up f r = Some d -> stack_all P A (f :: r) -> Forall (node_all P A []) d.
Proof.
  revert f. induction r as [|g r IH]; intros f E H; cbn [n_close_up] in E.
  - destruct f; try discriminate. injection E as <-. cbn in H. apply Forall_rev. tauto.
  - destruct (n_close_into f g) as [[g' l]|] eqn:C; [|discriminate].
    apply (IH g' E). apply (proj1 (close_all_iff f g r g' l C)). exact H.
Qed.
Lemma close_up_all_rev P A f r d : n_close_up f r = Some d -> Forall (node_all P A []) d -> stack_all P A (f :: r).
Proof.
  revert f. induction r as [|g r IH]; intros f E H; cbn [n_close_up] in E.
  - destruct f; try discriminate. injection E as <-. cbn. split; [|exact I]. now apply Forall_rev_iff.
  - destruct (n_close_into f g) as [[g' l]|] eqn:C; [|discriminate].
    apply (proj1 (close_all_iff f g r g' l C)). exact (IH g' E H).
Qed.
Lemma elem_defs_app a b : elem_defs (a ++ b) = elem_defs a ++ elem_defs b.
Proof. induction a as [|x a IH]; [reflexivity|]. destruct x; cbn; rewrite ?IH; reflexivity. Qed.
Lemma elem_defs_rev a : elem_defs (rev a) = rev (elem_defs a).
Proof. induction a as [|x a IH]; [reflexivity|]. destruct x; cbn; rewrite elem_defs_app, IH; cbn; rewrite ?app_nil_r; reflexivity. Qed.
Lemma close_up_tops f r d : n_close_up f r = Some d -> elem_defs d = rev (tops (f :: r)).
Proof.
  revert f. induction r as [|g r IH]; intros f E; cbn [n_close_up] in E.
  - destruct f; try discriminate. injection E as <-. cbn. now rewrite app_nil_r, elem_defs_rev.
  - destruct (n_close_into f g) as [[g' l]|] eqn:C; [|discriminate].
    rewrite (IH g' E). f_equal. exact (proj2 (close_all_iff f g r g' l C)).
Qed.

(** ** The table of namespace objects *)

Lemma obeq_iff a b : obeq a b = true <-> a = b.
Proof.
  destruct a as [a|], b as [b|]; cbn; try (split; congruence).
  rewrite beq_eq. split; congruence.
Qed.
Lemma obeq_false a b : obeq a b = false <-> a <> b.
Proof. rewrite <- not_true_iff_false, obeq_iff. reflexivity. Qed.

Lemma find_def_app h p a b : find_def h p (a ++ b) =
  match find_def h p a with Some i => Some i | None => find_def h p b end.
Proof. unfold find_def. induction a as [|i a IH]; cbn; [reflexivity|]. now destruct (obeq _ _). Qed.
Lemma find_def_some h p a i : find_def h p a = Some i -> In i a /\ prefix_of h i = p.
Proof. intros H. apply find_some in H. now rewrite obeq_iff in H. Qed.
Lemma find_def_none h p a : find_def h p a = None <-> forall i, In i a -> prefix_of h i <> p.
Proof.
  unfold find_def. induction a as [|i a IH]; cbn. { split; [intros _ i []|reflexivity]. }
  destruct (obeq (prefix_of h i) p) eqn:E.
  - apply obeq_iff in E. split; [discriminate|]. intros H. exfalso. exact (H i (or_introl eq_refl) E).
  - apply obeq_false in E. rewrite IH. split.
    + intros H j [<-|J]; auto.
    + auto.
Qed.
Lemma find_def_ext h h' p a : (forall i, In i a -> prefix_of h' i = prefix_of h i) -> find_def h' p a = find_def h p a.
Proof.
  unfold find_def. induction a as [|i a IH]; cbn; intros H; [reflexivity|].
  rewrite (H i (or_introl eq_refl)), IH; auto.
Qed.

Lemma prefix_app h o i : i < List.length h -> prefix_of (h ++ [o]) i = prefix_of h i.
Proof. intros H. unfold prefix_of. now rewrite nth_error_app1. Qed.
Lemma href_app h o i : i < List.length h -> href_of (h ++ [o]) i = href_of h i.
Proof. intros H. unfold href_of. now rewrite nth_error_app1. Qed.
Lemma prefix_new h o : prefix_of (h ++ [o]) (List.length h) = o_prefix o.
Proof. unfold prefix_of. rewrite nth_error_app2, Nat.sub_diag by lia. reflexivity. Qed.
Lemma set_href_nth h i v j : nth_error (set_href h i v) j =
  if Nat.eqb i j then option_map (fun o => NsObj (o_prefix o) (Some v)) (nth_error h j) else nth_error h j.
Proof.
  unfold set_href. destruct (nth_error h i) as [o|] eqn:E.
  - assert (L : i < List.length h) by (apply nth_error_Some; congruence).
    assert (Lf : List.length (firstn i h) = i) by (rewrite firstn_length; lia).
    destruct (Nat.eqb_spec i j) as [<-|N].
    + rewrite nth_error_app2, Lf, Nat.sub_diag by lia. cbn. now rewrite E.
    + destruct (Nat.lt_ge_cases j i) as [J|J].
      * rewrite nth_error_app1 by lia. rewrite <- (firstn_skipn i h) at 2. now rewrite nth_error_app1 by lia.
      * rewrite nth_error_app2, Lf by lia.
        destruct (j - i) as [|m] eqn:M; [lia|]. cbn [nth_error].
        replace j with (S i + m) by lia. rewrite <- (firstn_skipn (S i) h) at 2.
        rewrite nth_error_app2; rewrite firstn_length, Nat.min_l by lia; [|lia]. f_equal. lia.
  - destruct (Nat.eqb_spec i j) as [<-|N]; [now rewrite E|reflexivity].
Qed.
Lemma set_href_length h i v : List.length (set_href h i v) = List.length h.
Proof.
  unfold set_href. destruct (nth_error h i) eqn:E; [|reflexivity].
  assert (L : i < List.length h) by (apply nth_error_Some; congruence).
  rewrite app_length, firstn_length. cbn [List.length]. rewrite skipn_length. lia.
Qed.
Lemma prefix_set h i v j : prefix_of (set_href h i v) j = prefix_of h j.
Proof. unfold prefix_of. rewrite set_href_nth. destruct (Nat.eqb i j); [|reflexivity]. now destruct (nth_error h j). Qed.
Lemma href_set h i v j : i < List.length h -> href_of (set_href h i v) j = if Nat.eqb i j then Some v else href_of h j.
Proof.
  intros L. unfold href_of. rewrite set_href_nth. destruct (Nat.eqb_spec i j) as [<-|N]; [|reflexivity].
  destruct (nth_error h i) eqn:E; [reflexivity|]. apply nth_error_None in E. lia.
Qed.

(** ** The properties *)

Definition ids (sc : scope_t) : list nat := List.concat sc.

(** The definitions of an element exist and have different prefixes. *)
Definition P_range (h : list nsobj) (sc : scope_t) (n : option nsref) (d : list nat) : Prop :=
  (forall i, In i (ids (d :: sc)) -> i < List.length h) /\
  (forall i j, In i d -> In j d -> prefix_of h i = prefix_of h j -> i = j).
Definition A_any (sc : scope_t) (n : option nsref) : Prop := True.

(** No prefix is defined again in its scope; a default namespace is defined
    by a root only. *)
Definition P_fresh (h : list nsobj) (sc : scope_t) (n : option nsref) (d : list nat) : Prop :=
  forall i, In i d ->
    prefix_of h i <> Some (B "xml") /\
    (forall j, In j (ids sc) -> prefix_of h j <> prefix_of h i) /\
    (sc <> [] -> prefix_of h i <> None).

Definition A_bound (h : list nsobj) (sc : scope_t) (n : option nsref) : Prop :=
  match n with
  | None | Some NsXml => True
  | Some (NsNum i) => prefix_of h i <> None /\ find_def h (prefix_of h i) (ids sc) = Some i
  end.

(** The definitions of an element, and the definition its name refers to, which
    is the innermost one of the prefix.  [dn]: there is no default namespace in
    the state. *)
Definition P_def (h : list nsobj) (dn : Prop) (sc : scope_t) (n : option nsref) (d : list nat) : Prop :=
  dn -> forall j, In j d -> prefix_of h j = None -> href_of h j = Some [].
Definition P_all (h : list nsobj) (dn : Prop) (sc : scope_t) (n : option nsref) (d : list nat) : Prop :=
  P_def h dn sc n d /\
  match n with
  | Some NsXml => True
  | Some (NsNum i) => find_def h (prefix_of h i) (ids (d :: sc)) = Some i
  | None => find_def h None (ids (d :: sc)) <> None -> dn
  end.

Definition Fresh (s : nst) : Prop :=
  stack_all (P_fresh (n_heap s)) A_any (n_stack s) /\ List.length (tops (n_stack s)) <= 1.

Record Core (s : nst) : Prop := mkCore {
  c_range : stack_all (P_range (n_heap s)) A_any (n_stack s);
  c_default : forall n, n_default s = Some n ->
    exists d, n = NsNum d /\ d < List.length (n_heap s) /\ prefix_of (n_heap s) d = None /\
      (Fresh s -> exists ds, In ds (tops (n_stack s)) /\ In d ds);
  c_decl : forall n, n_decl s = Some n ->
    exists i, n = NsNum i /\ i < List.length (n_heap s) /\
      (prefix_of (n_heap s) i = None -> n_default s = Some n);
  c_bound : Fresh s ->
    stack_all (P_all (n_heap s) (n_default s = None)) (A_bound (n_heap s)) (n_stack s) }.

Definition First (s : nst) : Prop :=
  n_last s = LNone -> scope (n_stack s) = [] /\ tops (n_stack s) = [] /\ n_default s = None.

(** A step that keeps the elements. *)
Lemma core_same s s' : n_heap s' = n_heap s -> n_default s' = n_default s -> n_decl s' = n_decl s ->
  (forall P A, stack_all P A (n_stack s') <-> stack_all P A (n_stack s)) ->
  tops (n_stack s') = tops (n_stack s) -> Core s -> Core s'.
Proof.
  intros H D L S T [C1 C2 C3 C4].
  assert (F : Fresh s' <-> Fresh s) by (unfold Fresh; rewrite H, S, T; reflexivity).
  split.
  - rewrite H. now apply S.
  - intros n. rewrite D, H, T. intros E. destruct (C2 n E) as (d & E1 & E2 & E3 & E4).
    exists d. repeat split; auto. intros X. apply E4, F, X.
  - intros n. rewrite D, H, L. apply C3.
  - rewrite F, H, D. intros X. apply S, C4, X.
Qed.

(** ** Scopes *)
Lemma ids_cons d sc : ids (d :: sc) = d ++ ids sc.
Proof. reflexivity. Qed.

Lemma scope_all (R : nat -> Prop) A st :
  stack_all (fun _ _ d => forall j, In j d -> R j) A st -> forall j, In j (ids (scope st)) -> R j.
Proof.
  induction st as [|[k|e k|n x ps|] r IH]; cbn [scope stack_all]; intros H j J.
  - destruct J.
  - apply IH; tauto.
  - rewrite ids_cons in J. apply in_app_or in J. destruct H as ([H1 _] & _ & H2). destruct J; auto.
  - apply IH; tauto.
  - apply IH; tauto.
Qed.

(** An element without an element around it is one of the top level. *)
Lemma tops_all st : stack_all (fun sc _ d => sc = [] -> In d (tops st)) A_any st.
Proof.
  assert (G : forall st' l, stack_all (fun sc _ d => sc = [] -> In d (tops st')) A_any l -> forall st'',
             incl (tops st') (tops st'') -> stack_all (fun sc _ d => sc = [] -> In d (tops st'')) A_any l).
  { intros st' l H st'' I. revert H. apply stack_all_impl; auto. }
  assert (Inner : forall (Z : scope_t) sc x, sc <> [] -> node_all (fun sc _ d => sc = [] -> In d Z) A_any sc x).
  { intros Z sc x. revert sc. induction x as [e k IH| | | |] using nnode_ind2; intros sc N; try constructor.
    - split. { intros E. contradiction. } apply Forall_forall. intros. exact I.
    - rewrite Forall_forall in *. intros y Y. apply IH; [exact Y|discriminate]. }
  induction st as [|[k|e k|n x ps|] r IH]; cbn [stack_all]; auto.
  - split.
    + cbn [tops]. destruct (scope r) as [|d sc].
      * apply Forall_forall. intros y Y. destruct y as [e c| | | |]; try constructor.
        -- split; [|apply Forall_forall; intros; exact I]. intros _. apply in_or_app. left.
           clear - Y. induction k as [|z k IHk]; [destruct Y|]. destruct Y as [->|Y]; [now left|].
           destruct z; cbn; try (apply IHk; exact Y). right. apply IHk, Y.
        -- apply Forall_forall. intros z Z. apply Inner. discriminate.
      * apply Forall_forall. intros y Y. apply Inner. discriminate.
    + apply (G r); [exact IH|]. cbn [tops]. destruct (scope r); [apply incl_appr|]; apply incl_refl.
  - split; [|split].
    + split; [|apply Forall_forall; intros; exact I]. intros E. cbn [tops]. rewrite E. now left.
    + apply Forall_forall. intros z Z. apply Inner. discriminate.
    + apply (G r); [exact IH|]. cbn [tops]. destruct (scope r); [apply incl_tl|]; apply incl_refl.
  - split; [exact I|]. exact IH.
Qed.

(** If an element is open then a root is. *)
Lemma scope_root st : scope st <> [] -> exists ds, In ds (tops st) /\ In ds (scope st).
Proof.
  induction st as [|[k|e k|n x ps|] r IH]; cbn [scope tops]; intros N.
  - congruence.
  - destruct (IH N) as (ds & D1 & D2). destruct (scope r); [congruence|]. eauto.
  - destruct (scope r) as [|d sc] eqn:E.
    + exists (e_defs e). split; now left.
    + destruct IH as (ds & D1 & D2); [discriminate|]. exists ds. split; [exact D1|]. right. exact D2.
  - destruct (IH N) as (ds & D1 & D2). eauto.
  - destruct (IH N) as (ds & D1 & D2). eauto.
Qed.

Lemma single {X} (l : list X) a b : List.length l <= 1 -> In a l -> In b l -> a = b.
Proof.
  destruct l as [|x [|y l]]; cbn; [tauto|intros _ [<-|[]] [<-|[]]; reflexivity|lia].
Qed.

(** There is one definition of a default namespace at most. *)
Lemma none_unique h st ds d :
  stack_all (P_range h) A_any st -> stack_all (P_fresh h) A_any st -> List.length (tops st) <= 1 ->
  In ds (tops st) -> In d ds -> prefix_of h d = None ->
  stack_all (fun _ _ dd => forall j, In j dd -> prefix_of h j = None -> j = d) A_any st.
Proof.
  intros R F L T D N.
  pose proof (stack_all_and _ _ _ _ _ (stack_all_and _ _ _ _ _ R F) (tops_all st)) as H.
  revert H. apply stack_all_impl; [|intros; exact I].
  intros sc n dd [[[R1 R2] F1] T1] j J E.
  destruct sc as [|x sc].
  - specialize (T1 eq_refl). rewrite (single _ _ _ L T T1) in D. apply R2; auto. congruence.
  - exfalso. apply (proj2 (proj2 (F1 j J))); [discriminate|exact E].
Qed.

Lemma no_tops st P Q A : scope st = [] -> tops st = [] -> stack_all P A st -> stack_all Q A st.
Proof.
  induction st as [|[k|e k|n x ps|] r IH]; cbn [scope tops stack_all]; intros S T H; auto.
  - rewrite S in T. apply app_eq_nil in T. destruct T as [T1 T2]. split; [|apply IH; tauto].
    apply Forall_forall. intros y Y. destruct y as [e c| | | |]; try constructor; exfalso;
    clear - T1 Y; (induction k as [|z k IHk]; [destruct Y|]); (destruct Y as [->|Y]; [discriminate|]);
    destruct z; try discriminate; exact (IHk T1 Y).
  - discriminate.
  - split; [tauto|]. apply IH; tauto.
Qed.

(** ** Searching for a prefix *)
Lemma search_up_ok h dn p st :
  stack_all (P_all h dn) (A_bound h) st ->
  match search_up h p st with
  | Some NsXml => False
  | Some (NsNum i) => find_def h (Some p) (ids (scope st)) = Some i
  | None => find_def h (Some p) (ids (scope st)) = None
  end.
Proof.
  induction st as [|[k|e k|n x ps|] r IH]; cbn [scope stack_all search_up]; intros H.
  - reflexivity.
  - apply IH. tauto.
  - destruct H as ([[_ H1] _] & _ & H2). specialize (IH H2). rewrite ids_cons, find_def_app.
    destruct (find_def h (Some p) (e_defs e)) as [i|] eqn:E; [reflexivity|].
    unfold own_ns. destruct (e_ns e) as [[|i]|]; [exact IH| |exact IH].
    destruct (obeq (prefix_of h i) (Some p)) eqn:O; [|exact IH].
    apply obeq_iff in O. rewrite O, ids_cons, find_def_app, E in H1. exact H1.
  - apply IH. tauto.
  - apply IH, H.
Qed.
Lemma search_ns_ok h dn p defs st :
  stack_all (P_all h dn) (A_bound h) st ->
  match search_ns h p defs st with
  | Some NsXml => p = B "xml"
  | Some (NsNum i) => find_def h (Some p) (ids (defs :: scope st)) = Some i
  | None => find_def h (Some p) (ids (defs :: scope st)) = None
  end.
Proof.
  intros H. unfold search_ns. destruct (beq p (B "xml")) eqn:X; [now apply beq_eq in X|].
  rewrite ids_cons, find_def_app. destruct (find_def h (Some p) defs) as [i|]; [reflexivity|].
  pose proof (search_up_ok h dn p st H) as G. destruct (search_up h p st) as [[|i]|]; [destruct G|exact G|exact G].
Qed.
