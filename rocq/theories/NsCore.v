(** The invariant of the construction of documents with namespaces. *)
From Coq Require Import NArith ZArith List Bool Arith String Lia.
From Verif Require Import Bytes BytesFacts Outcome Utf8 Quote Parser Detect Dom NsDom NsSpec NsProofs.
Import ListNotations.

Implicit Types P Q : scope_t -> option nsref -> list nat -> Prop.
Implicit Types A : scope_t -> option nsref -> Prop.

Definition A_range (h : list nsobj) (sc : scope_t) (n : option nsref) : Prop :=
  forall i, In i (ids sc) -> i < List.length h.

Lemma node_range_attr h sc x : node_all (P_range h) A_any sc x -> node_all (P_range h) (A_range h) sc x.
Proof.
  revert sc. induction x as [e k IH| | | |] using nnode_ind2; intros sc H; try constructor.
  - inversion H as [? ? [H1 H2] H3| | | |]; subst. split; [exact H1|].
    apply Forall_forall. intros a _. exact (proj1 H1).
  - inversion H as [? ? [H1 H2] H3| | | |]; subst. rewrite Forall_forall in *. intros y Y. apply IH; auto.
Qed.
Lemma range_scope h A st : stack_all (P_range h) A st -> forall i, In i (ids (scope st)) -> i < List.length h.
Proof.
  intros H. eapply scope_all with (A := A_any). revert H. apply stack_all_impl; [|intros; exact I].
  intros sc n d [H _] j J. apply H. rewrite ids_cons. apply in_or_app. now left.
Qed.
Lemma range_attr h st : stack_all (P_range h) A_any st -> stack_all (P_range h) (A_range h) st.
Proof.
  induction st as [|[k|e k|n x ps|] r IH]; cbn [stack_all]; auto.
  - intros [H1 H2]. split; auto. eapply Forall_impl; [|exact H1]. intros y. apply node_range_attr.
  - intros ([H1 H2] & H3 & H4). split; [split; [exact H1|]|split; auto].
    + apply Forall_forall. intros a _. exact (proj1 H1).
    + eapply Forall_impl; [|exact H3]. intros y. apply node_range_attr.
  - intros [H1 H2]. split; auto. exact (range_scope h A_any r H2).
Qed.

(** ** A longer table *)
Section Extend.
  Variable h : list nsobj.
  Variable o : nsobj.
  Let h' := h ++ [o].

  Lemma range_ext sc n d : P_range h sc n d -> P_range h' sc n d.
  Proof.
    intros [R1 R2]. split.
    - intros i I. unfold h'. rewrite app_length. specialize (R1 i I). lia.
    - intros i j I J. unfold h'. rewrite !prefix_app; auto; apply R1; rewrite ids_cons; apply in_or_app; now left.
  Qed.
  Lemma fresh_ext sc n d : P_range h sc n d -> P_fresh h' sc n d -> P_fresh h sc n d.
  Proof.
    intros [R1 R2] F i I. destruct (F i I) as (F1 & F2 & F3).
    assert (Li : i < List.length h) by (apply R1; rewrite ids_cons; apply in_or_app; now left).
    unfold h' in *. rewrite prefix_app in * by exact Li. split; [exact F1|split; [|exact F3]].
    intros j J. specialize (F2 j J). rewrite prefix_app in F2; [exact F2|]. apply R1. rewrite ids_cons. apply in_or_app. now right.
  Qed.
  Lemma find_ext p l : (forall i, In i l -> i < List.length h) -> find_def h' p l = find_def h p l.
  Proof. intros L. apply find_def_ext. intros i I. apply prefix_app, L, I. Qed.
  Lemma def_ext dn sc n d : P_range h sc n d -> P_def h dn sc n d -> P_def h' dn sc n d.
  Proof.
    intros [R1 _] H D j J. assert (L : j < List.length h) by (apply R1; rewrite ids_cons; apply in_or_app; now left).
    unfold h'. rewrite prefix_app, href_app by exact L. apply H; auto.
  Qed.
  Lemma all_ext dn sc n d : P_range h sc n d -> P_all h dn sc n d -> P_all h' dn sc n d.
  Proof.
    intros R [H1 H2]. split; [now apply def_ext|]. destruct R as [R1 _].
    destruct n as [[|i]|]; [exact I| |].
    - assert (L : i < List.length h) by (apply R1; apply find_def_some in H2; tauto).
      unfold h' at 2. rewrite prefix_app, find_ext; auto.
    - rewrite find_ext; auto.
  Qed.
  Lemma abound_ext sc n : A_range h sc n -> A_bound h sc n -> A_bound h' sc n.
  Proof.
    intros R H. destruct n as [[|i]|]; [exact I| |exact I]. destruct H as [H1 H2].
    assert (L : i < List.length h) by (apply R; apply find_def_some in H2; tauto).
    unfold A_bound. unfold h' at 1 3. rewrite prefix_app by exact L. split; [exact H1|]. rewrite find_ext; auto.
  Qed.

  Lemma stack_range_ext st : stack_all (P_range h) A_any st -> stack_all (P_range h') A_any st.
  Proof. apply stack_all_impl; auto using range_ext. Qed.
  Lemma stack_fresh_ext st : stack_all (P_range h) A_any st -> stack_all (P_fresh h') A_any st -> stack_all (P_fresh h) A_any st.
  Proof.
    intros R F. pose proof (stack_all_and _ _ _ _ _ R F) as H. revert H. apply stack_all_impl; [|intros; exact I].
    intros sc n d [H1 H2]. now apply fresh_ext.
  Qed.
  Lemma stack_bound_ext dn st : stack_all (P_range h) A_any st ->
    stack_all (P_all h dn) (A_bound h) st -> stack_all (P_all h' dn) (A_bound h') st.
  Proof.
    intros R F. pose proof (stack_all_and _ _ _ _ _ (range_attr h st R) F) as H. revert H. apply stack_all_impl.
    - intros sc n d [H1 H2]. now apply all_ext.
    - intros sc n [H1 H2]. now apply abound_ext.
  Qed.
End Extend.

(** ** Adding an element *)
Lemma add_elem st st' e : e_attrs e = [] -> change_top (node_into (NElem e [])) st = Some st' ->
  (forall P A, stack_all P A st' <-> stack_all P A st /\ P (scope st) (e_ns e) (e_defs e)) /\
  scope st' = scope st /\
  tops st' = match scope st with [] => e_defs e :: tops st | _ => tops st end.
Proof.
  intros Ea. revert st'. induction st as [|g r IH]; intros st' E; [discriminate|]. destruct g as [k|m k|n x ps|]; cbn in E; try discriminate.
  - injection E as <-. split; [intros P A|split; [reflexivity|]].
    + cbn. rewrite Forall_cons_iff, node_all_elem. unfold elem_all. rewrite Ea.
      assert (Forall (fun a => A (e_defs e :: scope r) (a_ns a)) []) by constructor.
      assert (Forall (node_all P A (e_defs e :: scope r)) []) by constructor. tauto.
    + cbn. destruct (scope r); reflexivity.
  - injection E as <-. split; [intros P A|split; reflexivity].
    cbn. rewrite Forall_cons_iff, node_all_elem. unfold elem_all at 2. rewrite Ea.
    assert (Forall (fun a => A (e_defs e :: e_defs m :: scope r) (a_ns a)) []) by constructor.
    assert (Forall (node_all P A (e_defs e :: e_defs m :: scope r)) []) by constructor. tauto.
  - destruct (change_top _ r) as [r'|]; [|discriminate]. injection E as <-.
    destruct (IH r' eq_refl) as (I1 & I2 & I3). split; [|split]; cbn; auto.
Qed.

Lemma tops_grow (a b sc : list (list nat)) (d : list nat) : a = match sc with [] => d :: b | _ :: _ => b end ->
  List.length a <= 1 -> List.length b <= 1.
Proof. intros ->. destruct sc as [|x sc]; cbn; lia. Qed.

Lemma core_create s name s' :
  (let '(n, h, defs, ens) := element_ns s in
   n_add_node (NElem (ED n name defs []) []) LKid (set_ens ens (set_heap h s))) = NOk s' ->
  Core s -> Core s'.
Proof.
  intros E [C1 C2 C3 C4]. unfold element_ns in E.
  set (h := n_heap s) in *. set (st := n_stack s) in *.
  destruct (n_ens s) as [p|].
  - destruct (search_ns h p [] st) as [n|] eqn:Se.
    + (* the prefix is found *)
      apply on_top_ok in E. destruct E as (st' & E & ->). cbn in E.
      destruct (add_elem st st' (ED (Some n) name [] []) eq_refl E) as (A1 & A2 & A3). cbn in A1, A3.
      assert (F : Fresh (set_stack st' LKid (set_ens None (set_heap h s))) -> Fresh s).
      { intros [F1 F2]. cbn in F1, F2. split; [apply A1 in F1; apply F1|]. exact (tops_grow _ _ _ _ A3 F2). }
      split; cbn.
      * apply A1. split; [exact C1|]. split; [|intros i j []]. cbn. exact (range_scope h A_any st C1).
      * intros m M. destruct (C2 m M) as (d & D1 & D2 & D3 & D4). exists d. repeat split; auto.
        intros X. destruct (D4 (F X)) as (ds & G1 & G2). exists ds. split; [|exact G2]. rewrite A3.
        destruct (scope st); [right|]; exact G1.
      * exact C3.
      * intros X. apply A1. specialize (C4 (F X)). split; [exact C4|]. split; [intros _ j []|].
        pose proof (search_ns_ok h _ p [] st C4) as K. rewrite Se in K. destruct n as [|i]; [exact I|].
        destruct (find_def_some _ _ _ _ K) as [_ K2]. fold h. rewrite K2. exact K.
    + (* a new namespace *)
      apply on_top_ok in E. destruct E as (st' & E & ->). cbn in E.
      destruct (add_elem st st' (ED (Some (NsNum (List.length h))) name [List.length h] []) eq_refl E) as (A1 & A2 & A3). cbn in A1, A3.
      set (h' := h ++ [NsObj (Some p) None]) in *.
      assert (F : Fresh (set_stack st' LKid (set_ens None (set_heap h' s))) -> Fresh s).
      { intros [F1 F2]. cbn in F1, F2. split; [|exact (tops_grow _ _ _ _ A3 F2)].
        apply A1 in F1. eapply stack_fresh_ext; [exact C1|apply F1]. }
      assert (Ln : List.length h' = S (List.length h)) by (unfold h'; rewrite app_length; cbn; lia).
      split; cbn.
      * apply A1. split; [now apply stack_range_ext|]. split.
        -- intros i [<-|I]; [lia|]. pose proof (range_scope h A_any st C1 i I). lia.
        -- intros i j [<-|[]] [<-|[]] _. reflexivity.
      * intros m M. destruct (C2 m M) as (d & D1 & D2 & D3 & D4). exists d. repeat split; auto.
        -- lia.
        -- unfold h'. rewrite prefix_app; auto.
        -- intros X. destruct (D4 (F X)) as (ds & G1 & G2). exists ds. split; [|exact G2]. rewrite A3.
           destruct (scope st); [right|]; exact G1.
      * intros m M. destruct (C3 m M) as (i & D1 & D2 & D3). exists i. repeat split; auto; [lia|].
        unfold h'. rewrite prefix_app by exact D2. exact D3.
      * intros X. apply A1. specialize (C4 (F X)). split; [now apply stack_bound_ext|]. split.
        -- intros _ j [<-|[]]. unfold h'. rewrite prefix_new. discriminate.
        -- unfold h', ids. rewrite prefix_new. cbn -[B obeq]. rewrite prefix_new. cbn -[B obeq].
           rewrite (proj2 (obeq_iff (Some p) (Some p)) eq_refl). reflexivity.
  - (* the default namespace *)
    apply on_top_ok in E. destruct E as (st' & E & ->). cbn in E.
    destruct (add_elem st st' (ED (n_default s) name [] []) eq_refl E) as (A1 & A2 & A3). cbn in A1, A3.
    assert (F : Fresh (set_stack st' LKid (set_ens None (set_heap h s))) -> Fresh s).
    { intros [F1 F2]. cbn in F1, F2. split; [apply A1 in F1; apply F1|]. exact (tops_grow _ _ _ _ A3 F2). }
    split; cbn.
    + apply A1. split; [exact C1|]. split; [|intros i j []]. cbn. exact (range_scope h A_any st C1).
    + intros m M. destruct (C2 m M) as (d & D1 & D2 & D3 & D4). exists d. repeat split; auto.
      intros X. destruct (D4 (F X)) as (ds & G1 & G2). exists ds. split; [|exact G2]. rewrite A3.
      destruct (scope st); [right|]; exact G1.
    + exact C3.
    + intros X. apply A1. specialize (C4 (F X)). split; [exact C4|]. split; [intros _ j []|].
      destruct (n_default s) as [n|] eqn:Dn; [|intros _; reflexivity].
      destruct (C2 n eq_refl) as (d & -> & D2 & D3 & D4). destruct (D4 (F X)) as (ds & G1 & G2).
      fold h in D2, D3 |- *. fold st in G1. rewrite D3. change (ids ([] :: scope st)) with (ids (scope st)).
      destruct X as [X1 X2]. cbn in X1, X2. destruct (F (conj X1 X2)) as [Y1 Y2].
      destruct (scope st) as [|x sc] eqn:Sc.
      * exfalso. rewrite A3 in X2. cbn in X2. destruct (tops st); [destruct G1|cbn in X2; lia].
      * destruct (scope_root st) as (ds' & H1 & H2); [congruence|].
        rewrite (single _ _ _ Y2 G1 H1) in G2. rewrite <- Sc in *.
        assert (I : In d (ids (scope st))) by (apply in_concat; eauto).
        destruct (find_def h None (ids (scope st))) as [j|] eqn:Fd.
        -- apply find_def_some in Fd. destruct Fd as [J1 J2]. f_equal.
           pose proof (none_unique h st ds' d C1 Y1 Y2 H1 G2 D3) as U.
           exact (scope_all (fun j => prefix_of h j = None -> j = d) A_any st U j J1 J2).
        -- exfalso. rewrite find_def_none in Fd. exact (Fd d I D3).
Qed.

(** ** Changing the open element *)

(** The element on top of the stack, which has no child elements, with its
    definitions extended. *)
Lemma no_elem_all P A sc k : no_elem k = true -> Forall (node_all P A sc) k.
Proof.
  intros N. apply Forall_forall. intros y Y. destruct y as [e c| | | |]; try constructor; exfalso;
    (induction k as [|z k IHk]; [destruct Y|]); (destruct Y as [->|Y]; [discriminate|]);
    destruct z; try discriminate; exact (IHk N Y).
Qed.

(** A new definition [List.length h] of the prefix [p] keeps references. *)
Section NewDef.
  Variable h : list nsobj.
  Variable p : option bytes.
  Let h' := h ++ [NsObj p None].
  Let i := List.length h.
  Variable sc : scope_t.
  Variable d : list nat.
  Hypothesis R : forall j, In j (ids (d :: sc)) -> j < List.length h.
  Hypothesis N : find_def h p d = None.
  Hypothesis F : forall j, In j (ids sc) -> prefix_of h j <> p.

  Lemma new_find q j : find_def h q (ids (d :: sc)) = Some j ->
    find_def h' q (ids ((d ++ [i]) :: sc)) = Some j.
  Proof. clear N.
    rewrite !ids_cons, !find_def_app. unfold h'. rewrite (find_ext h _ q d), (find_ext h _ q (ids sc)).
    2, 3: intros x X; apply R; rewrite ids_cons; apply in_or_app; tauto.
    destruct (find_def h q d) as [x|]; [auto|]. intros E. apply find_def_some in E as G. destruct G as [G1 G2].
    cbn. unfold i. rewrite prefix_new. cbn [o_prefix]. rewrite (proj2 (obeq_false p q)); [exact E|].
    intros ->. exact (F j G1 G2).
  Qed.
  Lemma new_find_none q : q <> p -> find_def h q (ids (d :: sc)) = None -> find_def h' q (ids ((d ++ [i]) :: sc)) = None.
  Proof. clear F N.
    intros Q. rewrite !ids_cons, !find_def_app. unfold h'. rewrite (find_ext h _ q d), (find_ext h _ q (ids sc)).
    2, 3: intros x X; apply R; rewrite ids_cons; apply in_or_app; tauto.
    destruct (find_def h q d) as [x|]; [auto|]. intros E.
    cbn. unfold i. rewrite prefix_new. cbn [o_prefix]. now rewrite (proj2 (obeq_false p q)) by congruence.
  Qed.
  Lemma new_find_self : find_def h' p (ids ((d ++ [i]) :: sc)) = Some i.
  Proof. clear F.
    rewrite !ids_cons, !find_def_app. unfold h'. rewrite (find_ext h _ p d), (find_ext h _ p (ids sc)).
    2, 3: intros x X; apply R; rewrite ids_cons; apply in_or_app; tauto.
    rewrite N. cbn. unfold i. rewrite prefix_new. cbn [o_prefix]. now rewrite (proj2 (obeq_iff p p)).
  Qed.

  Lemma new_range n : P_range h sc n d -> P_range h' sc n (d ++ [i]).
  Proof. clear F R.
    intros [R1 R2].
    assert (Rd : forall x, In x d -> x < List.length h) by (intros x X; apply R1; rewrite ids_cons; apply in_or_app; now left).
    split.
    - intros x X. rewrite ids_cons in X. unfold h'. rewrite app_length. cbn [List.length].
      apply in_app_or in X. destruct X as [X|X].
      + apply in_app_or in X. destruct X as [X|[<-|[]]]; [specialize (Rd x X)|unfold i]; lia.
      + assert (x < List.length h) by (apply R1; rewrite ids_cons; apply in_or_app; now right). lia.
    - intros x y X Y E. apply in_app_or in X. apply in_app_or in Y. rewrite find_def_none in N. unfold h' in E.
      destruct X as [X|[<-|[]]], Y as [Y|[<-|[]]]; auto.
      + rewrite !prefix_app in E; auto.
      + exfalso. rewrite prefix_app in E by auto. unfold i in E. rewrite prefix_new in E. exact (N x X E).
      + exfalso. rewrite (prefix_app h _ y) in E by auto. unfold i in E. rewrite prefix_new in E. exact (N y Y (eq_sym E)).
  Qed.
  Lemma new_fresh n : P_fresh h' sc n (d ++ [i]) -> P_fresh h sc n d /\ (forall j, In j (ids sc) -> prefix_of h j <> p)
    /\ (p = None -> sc = []).
  Proof. clear F N.
    intros G. split; [|split].
    - intros x X. destruct (G x) as (G1 & G2 & G3); [apply in_or_app; now left|].
      assert (L : x < List.length h) by (apply R; rewrite ids_cons; apply in_or_app; now left).
      unfold h' in *. rewrite prefix_app in * by exact L. split; [exact G1|split; [|exact G3]].
      intros j J. specialize (G2 j J). rewrite prefix_app in G2; [exact G2|]. apply R. rewrite ids_cons. apply in_or_app. now right.
    - intros j J. destruct (G i) as (G1 & G2 & G3); [apply in_or_app; right; now left|]. specialize (G2 j J).
      unfold h', i in G2. rewrite prefix_new, prefix_app in G2; [exact G2|]. apply R. rewrite ids_cons. apply in_or_app. now right.
    - intros E. destruct (G i) as (G1 & G2 & G3); [apply in_or_app; right; now left|].
      unfold h', i in G3. rewrite prefix_new in G3. destruct sc; [reflexivity|]. exfalso. apply G3; [discriminate|exact E].
  Qed.
End NewDef.

Lemma tops_top e e' k r : List.length (tops (GElem e' k :: r)) = List.length (tops (GElem e k :: r)).
Proof. cbn. destruct (scope r); reflexivity. Qed.
Lemma tops_top_in e e' k r ds d : incl (e_defs e) (e_defs e') -> In ds (tops (GElem e k :: r)) -> In d ds ->
  exists ds', In ds' (tops (GElem e' k :: r)) /\ In d ds'.
Proof.
  cbn. intros I T D. destruct (scope r).
  - destruct T as [<-|T]; [exists (e_defs e'); split; [now left|now apply I]|exists ds; split; [now right|exact D]].
  - eauto.
Qed.

Section TopDef.
  Variables (h : list nsobj) (e e' : edata) (k : list nnode) (r : list gframe) (p : option bytes).
  Let h' := h ++ [NsObj p None].
  Hypothesis Kn : no_elem k = true.
  Hypothesis R : stack_all (P_range h) A_any (GElem e k :: r).
  Hypothesis N : find_def h p (e_defs e) = None.
  Hypothesis D : e_defs e' = e_defs e ++ [List.length h].

  Lemma td_rd : forall j, In j (ids (e_defs e :: scope r)) -> j < List.length h.
  Proof. exact (range_scope h A_any (GElem e k :: r) R). Qed.

  Lemma td_range : stack_all (P_range h') A_any (GElem e' k :: r).
  Proof.
    destruct R as ([R1 _] & _ & R3). cbn. split; [split; [|apply Forall_forall; intros; exact I]|split].
    - rewrite D. apply new_range; [exact N|exact R1].
    - now apply no_elem_all.
    - now apply stack_range_ext.
  Qed.
  Lemma td_fresh : stack_all (P_fresh h') A_any (GElem e' k :: r) -> List.length (tops (GElem e' k :: r)) <= 1 ->
    (stack_all (P_fresh h) A_any (GElem e k :: r) /\ List.length (tops (GElem e k :: r)) <= 1) /\
    (forall j, In j (ids (scope r)) -> prefix_of h j <> p) /\
    (p = None -> scope r = [] /\ tops r = []).
  Proof.
    intros ([F1 _] & _ & F3) T. destruct R as ([R1 _] & _ & R3).
    rewrite D in F1. apply new_fresh in F1; [|exact td_rd]. destruct F1 as (F1 & F4 & F5).
    split; [split|split].
    - cbn. split; [split; [exact F1|apply Forall_forall; intros; exact I]|split].
      + now apply no_elem_all.
      + eapply stack_fresh_ext; [exact R3|exact F3].
    - now rewrite (tops_top e' e).
    - exact F4.
    - intros E. specialize (F5 E). split; [exact F5|]. cbn in T. rewrite F5 in T. cbn in T.
      destruct (tops r); [reflexivity|cbn in T; lia].
  Qed.

  (** References to definitions that are found are kept. *)
  Lemma td_keep dn n : (forall j, In j (ids (scope r)) -> prefix_of h j <> p) ->
    (p = None -> n <> None) -> (p = None -> ~ dn) ->
    P_all h dn (scope r) n (e_defs e) -> P_all h' dn (scope r) n (e_defs e').
  Proof.
    intros F Pn Pd [H1 H2]. split.
    - intros X j J E. rewrite D in J. apply in_app_or in J.
      assert (Rd := td_rd).
      destruct J as [J|[<-|[]]].
      + assert (L : j < List.length h) by (apply Rd; rewrite ids_cons; apply in_or_app; now left).
        unfold h' in *. rewrite prefix_app in E by exact L. rewrite href_app by exact L. apply H1; auto.
      + unfold h' in E. rewrite prefix_new in E. cbn in E. exfalso. exact (Pd E X).
    - rewrite D. destruct n as [[|i]|]; [exact I| |].
      + assert (L : i < List.length h) by (apply td_rd; apply find_def_some in H2; tauto).
        unfold h' at 2. rewrite prefix_app by exact L. apply new_find; auto using td_rd.
      + intros X. apply H2. intros Y. apply X. apply new_find_none; auto using td_rd. intros E. symmetry in E. exact (Pn E eq_refl).
  Qed.
  Lemma td_attr n : (forall j, In j (ids (scope r)) -> prefix_of h j <> p) ->
    A_bound h (e_defs e :: scope r) n -> A_bound h' (e_defs e' :: scope r) n.
  Proof.
    intros F H. destruct n as [[|i]|]; [exact I| |exact I]. destruct H as [H1 H2]. rewrite D. cbn.
    assert (L : i < List.length h) by (apply td_rd; apply find_def_some in H2; tauto).
    unfold h'. rewrite prefix_app by exact L. split; [exact H1|].
    apply (new_find h p (scope r) (e_defs e) td_rd F), H2.
  Qed.
End TopDef.

(** A change of the open element that keeps its definitions. *)
Lemma all_top P A e e' k r : e_defs e' = e_defs e -> stack_all P A (GElem e k :: r) ->
  elem_all P A (scope r) e' -> stack_all P A (GElem e' k :: r).
Proof. intros D (H1 & H2 & H3) E. cbn. rewrite D. auto. Qed.

Lemma any_top P e e' k r : e_defs e' = e_defs e -> (forall sc n n' d, P sc n d -> P sc n' d) ->
  stack_all P A_any (GElem e k :: r) -> stack_all P A_any (GElem e' k :: r).
Proof.
  intros D M H. eapply all_top; [exact D|exact H|]. destruct H as ([H1 _] & _). split.
  - rewrite D. eapply M, H1.
  - apply Forall_forall. intros. exact I.
Qed.
Lemma range_any h sc n n' d : P_range h sc n d -> P_range h sc n' d.
Proof. auto. Qed.
Lemma fresh_any h sc n n' d : P_fresh h sc n d -> P_fresh h sc n' d.
Proof. auto. Qed.
Lemma tops_same e e' k r : e_defs e' = e_defs e -> tops (GElem e' k :: r) = tops (GElem e k :: r).
Proof. intros D. cbn. now rewrite D. Qed.

(** The same table and definitions. *)
Lemma core_top s s' e e' k r : n_stack s = GElem e k :: r -> n_stack s' = GElem e' k :: r ->
  n_heap s' = n_heap s -> n_default s' = n_default s -> n_decl s' = n_decl s ->
  e_defs e' = e_defs e -> Core s ->
  (Fresh s -> elem_all (P_all (n_heap s) (n_default s = None)) (A_bound (n_heap s)) (scope r) e') ->
  Core s'.
Proof.
  intros Es Es' H Df Dc D [C1 C2 C3 C4] B.
  assert (F : Fresh s' -> Fresh s).
  { intros [F1 F2]. split.
    - rewrite Es. rewrite Es', H in F1. eapply any_top; [symmetry; exact D|exact (fresh_any _)|exact F1].
    - rewrite Es. rewrite Es' in F2. now rewrite (tops_same e e') in F2. }
  split; rewrite ?Es', ?H, ?Df, ?Dc.
  - rewrite Es in C1. eapply any_top; [exact D|exact (range_any _)|exact C1].
  - intros n E. destruct (C2 n E) as (d & D1 & D2 & D3 & D4). exists d. repeat split; auto.
    intros X. rewrite (tops_same e e') by exact D. rewrite <- Es. apply D4, F, X.
  - exact C3.
  - intros X. rewrite Es in C4. eapply all_top; [exact D|apply C4, F, X|apply B, F, X].
Qed.

Lemma core_attr_key x s s' : attr_key x s = NOk s' -> Core s -> Core s'.
Proof.
  unfold attr_key. destruct (n_ans s) as [p|].
  2: { destruct (n_stack s) as [|[|e k| |] r] eqn:Es; try discriminate. intros [= <-] C.
       apply (core_top s _ e (add_attr (NAttr None (c_str x) []) e) k r); try reflexivity; auto.
       intros F. apply elem_all_add. destruct C as [_ _ _ C4]. specialize (C4 F). rewrite Es in C4.
       destruct C4 as (C4 & _). split; [exact C4|exact I]. }
  unfold top_elem. destruct (n_stack s) as [|[|e k| |] r] eqn:Es; try discriminate.
  destruct (no_elem k) eqn:Kn; [|discriminate].
  destruct (search_ns (n_heap s) p (e_defs e) r) as [n|] eqn:Se.
  - intros [= <-] C. apply (core_top s _ e (add_attr (NAttr (Some n) (c_str x) []) e) k r); try reflexivity; auto.
    intros F. apply (elem_all_add _ _ _ (NAttr (Some n) (c_str x) []) e). destruct C as [_ _ _ C4]. specialize (C4 F). rewrite Es in C4.
    destruct C4 as (C4 & _ & C6). split; [exact C4|]. cbn.
    pose proof (search_ns_ok _ _ p (e_defs e) r C6) as K. rewrite Se in K. destruct n as [|i]; [exact I|].
    destruct (find_def_some _ _ _ _ K) as [_ K2]. rewrite K2. split; [discriminate|exact K].
  - destruct (new_ns (n_heap s) (Some p) (e_defs e)) as [[[i h] d]|] eqn:Nn.
    2: { (* it would have been found *)
         unfold new_ns in Nn. destruct (find_def (n_heap s) (Some p) (e_defs e)) eqn:Fd; [|discriminate].
         unfold search_ns in Se. rewrite Fd in Se. destruct (beq p (B "xml")); discriminate. }
    unfold new_ns in Nn. destruct (find_def (n_heap s) (Some p) (e_defs e)) eqn:Fd; [discriminate|].
    injection Nn as <- <- <-. intros [= <-] [C1 C2 C3 C4].
    set (e' := ED (e_ns e) (e_name e) (e_defs e ++ [List.length (n_heap s)])
                  (e_attrs e ++ [NAttr (Some (NsNum (List.length (n_heap s)))) (c_str x) []])) in *.
    rewrite Es in C1.
    assert (D : e_defs e' = e_defs e ++ [List.length (n_heap s)]) by reflexivity.
    set (s' := set_ans _ _).
    assert (F : Fresh s' -> Fresh s /\ (forall j, In j (ids (scope r)) -> prefix_of (n_heap s) j <> Some p)).
    { intros [F1 F2]. destruct (td_fresh (n_heap s) e e' k r (Some p) Kn C1 D F1 F2) as (F3 & F4 & _).
      split; [|exact F4]. unfold Fresh. rewrite Es. exact F3. }
    split; cbn -[tops stack_all].
    + exact (td_range (n_heap s) e e' k r (Some p) Kn C1 Fd D).
    + intros n E. destruct (C2 n E) as (d & D1 & D2 & D3 & D4). exists d. split; [exact D1|]. split; [|split].
      * rewrite app_length. cbn. lia.
      * now rewrite prefix_app.
      * intros X. destruct (D4 (proj1 (F X))) as (ds & G1 & G2). rewrite Es in G1.
        eapply tops_top_in; [|exact G1|exact G2]. apply incl_appl, incl_refl.
    + intros n E. destruct (C3 n E) as (i & D1 & D2 & D3). exists i. split; [exact D1|]. split.
      * rewrite app_length. cbn. lia.
      * rewrite prefix_app by exact D2. exact D3.
    + intros X. destruct (F X) as [F1 F2]. specialize (C4 F1). rewrite Es in C4. destruct C4 as ([C4 C5] & C6 & C7).
      destruct C1 as (C1a & C1b & C1c).
      cbn [stack_all]. split; [split|split].
      * apply (td_keep (n_heap s) e e' k r (Some p)); auto; try discriminate. cbn; auto.
      * cbn [e_attrs]. apply Forall_app. split.
        -- eapply Forall_impl; [|exact C5]. cbn. intros a Ha. apply (td_attr (n_heap s) e e' k r (Some p)); auto. cbn; auto.
        -- constructor; [|constructor]. cbn -[ids]. split; [rewrite prefix_new; discriminate|]. rewrite prefix_new. cbn [o_prefix].
           apply new_find_self; auto. apply (td_rd (n_heap s) e k r). cbn; auto.
      * now apply no_elem_all.
      * now apply stack_bound_ext.
Qed.

(** A default namespace is declared by the root: there are no other open or
    closed elements outside of it. *)
Lemma core_ns_declaration x s s' : ns_declaration x s = NOk s' -> Core s -> Core s'.
Proof.
  unfold ns_declaration, top_elem. destruct (n_stack s) as [|[|e k| |] r] eqn:Es; try discriminate.
  destruct (no_elem k) eqn:Kn; [|discriminate].
  set (p := match x with [] => None | _ :: n => Some (c_str n) end). clearbody p.
  destruct (find_def (n_heap s) p (e_defs e)) as [j|] eqn:Fd.
  - (* declared by this element already *)
    intros E C. destruct (find_def_some _ _ _ _ Fd) as [J1 J2].
    assert (Hj : j < List.length (n_heap s)).
    { destruct C as [C1 _ _ _]. rewrite Es in C1. apply (range_scope _ _ _ C1). cbn [scope]. rewrite ids_cons.
      apply in_or_app. now left. }
    destruct p as [q|].
    + injection E as <-. set (s' := set_decl _ _).
      assert (C' : Core (set_decl (n_decl s) s')).
      { apply (core_top s _ e (ED (e_ns e) (e_name e) (e_defs e) (e_attrs e)) k r); try reflexivity; auto.
        intros F. destruct C as [_ _ _ C4]. specialize (C4 F). rewrite Es in C4. destruct C4 as (C4 & _). exact C4. }
      destruct C' as [C1 C2 C3 C4]. split; auto. cbn. intros n [= <-]. exists j. repeat split; auto. rewrite J2. discriminate.
    + destruct C as [C1 C2 C3 C4]. rewrite Es in C1.
      set (e' := ED (match e_ns e with None => Some (NsNum j) | Some _ => e_ns e end) (e_name e) (e_defs e) (e_attrs e)).
      assert (E' : s' = set_decl (Some (NsNum j)) (set_default (Some (NsNum j)) (set_heap (n_heap s) (set_stack (GElem e' k :: r) (n_last s) s))))
        by (injection E as <-; unfold e'; destruct (e_ns e); reflexivity).
      clear E. subst s'.
      assert (D : e_defs e' = e_defs e) by reflexivity.
      set (s' := set_decl _ _).
      assert (F : Fresh s' -> Fresh s /\ scope r = [] /\ tops r = []).
      { intros [F1 F2]. cbn -[tops stack_all] in F1, F2.
        assert (F3 : stack_all (P_fresh (n_heap s)) A_any (GElem e k :: r)).
        { eapply any_top; [symmetry; exact D|exact (fresh_any _)|exact F1]. }
        rewrite (tops_same e e' k r D) in F2.
        split; [split; rewrite Es; assumption|]. destruct F3 as ([F3 _] & _).
        assert (Sr : scope r = []).
        { destruct (F3 j J1) as (_ & _ & F4). destruct (scope r); [reflexivity|]. exfalso. apply F4; [discriminate|exact J2]. }
        split; [exact Sr|]. cbn in F2. rewrite Sr in F2. cbn in F2. destruct (tops r); [reflexivity|cbn in F2; lia]. }
      split; cbn -[tops stack_all].
      * eapply any_top; [exact D|exact (range_any _)|exact C1].
      * intros n [= <-]. exists j. repeat split; auto. intros X. destruct (F X) as (_ & Sr & _).
        exists (e_defs e). split; [|exact J1]. cbn. rewrite Sr. now left.
      * intros n [= <-]. exists j. repeat split; auto.
      * intros X. destruct (F X) as (F1 & Sr & Tr). specialize (C4 F1). rewrite Es in C4. destruct C4 as ([C4 C5] & C6 & C7).
        cbn [stack_all]. split; [split|split].
        -- split; [discriminate|]. destruct C4 as [_ C4]. cbn [e_ns e']. destruct (e_ns e) as [[|i]|]; [exact I|exact C4|].
           rewrite J2. cbn [e_defs e']. rewrite ids_cons, find_def_app, Fd. reflexivity.
        -- exact C5.
        -- now apply no_elem_all.
        -- eapply no_tops; eauto.
  - (* a new declaration *)
    unfold new_ns. rewrite Fd. intros E [C1 C2 C3 C4]. rewrite Es in C1.
    set (i := List.length (n_heap s)) in *. set (h' := n_heap s ++ [NsObj p None]) in *.
    set (e' := ED (match p, e_ns e with None, None => Some (NsNum i) | _, y => y end) (e_name e) (e_defs e ++ [i]) (e_attrs e)).
    assert (D : e_defs e' = e_defs e ++ [i]) by reflexivity.
    assert (E' : s' = set_decl (Some (NsNum i)) (let s1 := set_heap h' (set_stack (GElem e' k :: r) (n_last s) s) in
                        match p with None => set_default (Some (NsNum i)) s1 | Some _ => s1 end))
      by (injection E as <-; unfold e'; destruct p, (e_ns e); reflexivity).
    clear E.
    assert (Ln : List.length h' = S i) by (unfold h'; rewrite app_length; cbn; lia).
    assert (Hi : prefix_of h' i = p) by (unfold h', i; now rewrite prefix_new).
    assert (St : n_stack s' = GElem e' k :: r /\ n_heap s' = h') by (rewrite E'; destruct p; split; reflexivity).
    destruct St as [St Hp].
    assert (F : Fresh s' -> Fresh s /\ (forall j, In j (ids (scope r)) -> prefix_of (n_heap s) j <> p) /\ (p = None -> scope r = [] /\ tops r = [])).
    { intros [F1 F2]. rewrite St in F1, F2. rewrite Hp in F1. destruct (td_fresh (n_heap s) e e' k r p Kn C1 D F1 F2) as (F3 & F4 & F5).
      split; [|split; [exact F4|exact F5]]. unfold Fresh. rewrite Es. exact F3. }
    pose proof (td_range (n_heap s) e e' k r p Kn C1 Fd D) as Rg. fold h' in Rg.
    destruct p as [q|].
    + assert (Df : n_default s' = n_default s) by (rewrite E'; reflexivity).
      split; rewrite ?St, ?Hp, ?Df; auto.
      * intros n Dn. destruct (C2 n Dn) as (d & D1 & D2 & D3 & D4). exists d. split; [exact D1|]. split; [|split].
        -- fold i in D2. lia.
        -- unfold h'. now rewrite prefix_app.
        -- intros X. destruct (D4 (proj1 (F X))) as (ds & G1 & G2). rewrite Es in G1.
           eapply tops_top_in; [|exact G1|exact G2]. rewrite D. apply incl_appl, incl_refl.
      * rewrite E'. cbn. intros n [= <-]. exists i. repeat split; [lia|]. rewrite Hi. discriminate.
      * intros X. destruct (F X) as (F1 & F2 & _). specialize (C4 F1). rewrite Es in C4. destruct C4 as ([C4 C5] & C6 & C7).
        cbn [stack_all]. split; [split|split].
        -- apply (td_keep (n_heap s) e e' k r (Some q)); auto; try discriminate.
        -- cbn [e_attrs e']. eapply Forall_impl; [|exact C5]. cbn. intros a Ha. apply (td_attr (n_heap s) e e' k r (Some q)); auto.
        -- now apply no_elem_all.
        -- apply stack_bound_ext; auto. apply C1.
    + assert (Df : n_default s' = Some (NsNum i)) by (rewrite E'; reflexivity).
      split; rewrite ?St, ?Hp, ?Df; auto.
      * intros n [= <-]. exists i. repeat split; [lia|exact Hi|]. intros X. destruct (F X) as (_ & _ & F5). destruct (F5 eq_refl) as [Sr Tr].
        exists (e_defs e'). split; [|rewrite D; apply in_or_app; right; now left]. cbn. rewrite Sr. now left.
      * rewrite E'. cbn. intros n [= <-]. exists i. split; [reflexivity|split; [lia|reflexivity]].
      * intros X. destruct (F X) as (F1 & F2 & F5). destruct (F5 eq_refl) as [Sr Tr].
        specialize (C4 F1). rewrite Es in C4. destruct C4 as ([C4 C5] & C6 & C7).
        cbn [stack_all]. split; [split|split].
        -- split; [discriminate|]. destruct C4 as [_ C4]. cbn [e_ns e']. destruct (e_ns e) as [[|j]|]; [exact I| |].
           ++ assert (L : j < List.length (n_heap s)) by (apply (td_rd _ _ _ _ C1); apply find_def_some in C4; tauto).
              unfold h' at 2. rewrite prefix_app by exact L. apply new_find; auto. exact (td_rd _ _ _ _ C1).
           ++ rewrite Hi. apply new_find_self; auto. exact (td_rd _ _ _ _ C1).
        -- cbn [e_attrs e']. eapply Forall_impl; [|exact C5]. cbn. intros a Ha. apply (td_attr (n_heap s) e e' k r None); auto.
        -- now apply no_elem_all.
        -- eapply no_tops; [exact Sr|exact Tr|].
           eapply stack_bound_ext; [apply C1|exact C7].
Qed.

(** ** Setting the href *)
Lemma find_set h i v p l : find_def (set_href h i v) p l = find_def h p l.
Proof. apply find_def_ext. intros j _. apply prefix_set. Qed.
Lemma fresh_set h i v sc n d : P_fresh (set_href h i v) sc n d <-> P_fresh h sc n d.
Proof.
  unfold P_fresh. split; intros H x X; destruct (H x X) as (H1 & H2 & H3); rewrite ?prefix_set in *;
    (split; [exact H1|split; [|exact H3]]); intros j J; specialize (H2 j J); now rewrite ?prefix_set in *.
Qed.
Lemma range_set h i v sc n d : P_range h sc n d -> P_range (set_href h i v) sc n d.
Proof.
  intros [R1 R2]. split; [now rewrite set_href_length|]. intros x y. rewrite !prefix_set. apply R2.
Qed.
Lemma stack_fresh_set h i v st : stack_all (P_fresh (set_href h i v)) A_any st <-> stack_all (P_fresh h) A_any st.
Proof. split; apply stack_all_impl; auto; intros sc n d; apply fresh_set. Qed.

Lemma clear_all P st st' : change_top clear_ns st = Some st' ->
  (forall sc n d, P sc n d -> P sc None d) -> forall A, stack_all P A st -> stack_all P A st'.
Proof.
  intros E M A. revert st' E. induction st as [|g r IH]; intros st' E H; [discriminate|].
  destruct g as [k|e k|n x ps|]; cbn in E; try discriminate.
  - injection E as <-. destruct H as ([H1 H2] & H3 & H4). cbn. split; [split|split]; auto. cbn. eapply M, H1.
  - destruct (change_top clear_ns r) as [r'|]; [|discriminate]. injection E as <-. cbn in *. auto.
Qed.
Lemma clear_all_rev P st st' : change_top clear_ns st = Some st' ->
  (forall sc n n' d, P sc n d -> P sc n' d) -> forall A, stack_all P A st' -> stack_all P A st.
Proof.
  intros E M A. revert st' E. induction st as [|g r IH]; intros st' E H; [discriminate|].
  destruct g as [k|e k|n x ps|]; cbn in E; try discriminate.
  - injection E as <-. destruct H as ([H1 H2] & H3 & H4). cbn. split; [split|split]; auto. cbn in H1. eapply M, H1.
  - destruct (change_top clear_ns r) as [r'|]; [|discriminate]. injection E as <-. cbn in *. eauto.
Qed.
Lemma clear_scope st st' : change_top clear_ns st = Some st' -> scope st' = scope st /\ tops st' = tops st.
Proof.
  revert st'. induction st as [|g r IH]; intros st' E; [discriminate|].
  destruct g as [k|e k|n x ps|]; cbn in E; try discriminate.
  - injection E as <-. split; reflexivity.
  - destruct (change_top clear_ns r) as [r'|]; [|discriminate]. injection E as <-. cbn. exact (IH r' eq_refl).
Qed.

Lemma core_update n v s s' : n_decl s = Some n -> update_href n v s = NOk s' -> Core s -> Core s'.
Proof.
  intros Dc E [C1 C2 C3 C4]. destruct (C3 n Dc) as (i & -> & Li & Di). unfold update_href in E.
  set (h := n_heap s) in *. set (h' := set_href h i v) in *. set (st := n_stack s) in *.
  assert (Keep : Core (set_decl None (set_heap h' s))).
  { assert (F : Fresh (set_decl None (set_heap h' s)) <-> Fresh s).
    { unfold Fresh. cbn. unfold h'. rewrite stack_fresh_set. reflexivity. }
    split; cbn.
    - revert C1. apply stack_all_impl; auto. intros sc m d. apply range_set.
    - intros m M. destruct (C2 m M) as (d & D1 & D2 & D3 & D4). exists d. unfold h'. rewrite set_href_length, prefix_set.
      repeat split; auto. intros X. apply D4, F, X.
    - discriminate.
    - intros X. specialize (C4 (proj1 F X)). revert C4. apply stack_all_impl.
      + intros sc m d [H1 H2]. split.
        * intros Y j J. unfold h'. rewrite prefix_set. intros E1. rewrite href_set by exact Li.
          destruct (Nat.eqb_spec i j) as [<-|N]; [|now apply H1]. exfalso. rewrite (Di E1) in Y. discriminate.
        * unfold h'. destruct m as [[|j]|]; [exact I| |]; rewrite ?prefix_set, find_set; exact H2.
      + intros sc m H. unfold h'. destruct m as [[|j]|]; [exact I| |exact I]. cbn in *. now rewrite prefix_set, find_set. }
  destruct v as [|c v]; [|injection E as <-; exact Keep].
  destruct (n_default s) as [dn|] eqn:Dn; [|injection E as <-; exact Keep].
  destruct (nsref_eqb (NsNum i) dn) eqn:En; [|injection E as <-; exact Keep].
  destruct (C2 dn eq_refl) as (d & -> & Ld & Pd & Od). cbn in En. apply Nat.eqb_eq in En. subst d.
  destruct (on_top clear_ns (n_last s) _) as [s3| | |] eqn:Ot; try discriminate. cbn [nbind] in E. injection E as <-.
  apply on_top_ok in Ot. destruct Ot as (st' & Ot & ->). cbn in Ot. fold st in Ot.
  destruct (clear_scope st st' Ot) as [Sc Tp].
  set (s' := set_default _ _).
  assert (F : Fresh s' -> Fresh s).
  { intros [F1 F2]. cbn in F1, F2. rewrite Tp in F2. split; [|exact F2].
    unfold h' in F1. rewrite stack_fresh_set in F1. eapply clear_all_rev; [exact Ot|exact (fresh_any h)|exact F1]. }
  split; cbn.
  - eapply clear_all; [exact Ot| |].
    + intros sc m d H. eapply range_any. exact H.
    + revert C1. apply stack_all_impl; auto. intros sc m d. apply range_set.
  - discriminate.
  - discriminate.
  - intros X. specialize (F X). specialize (C4 F). destruct (Od F) as (ds & O1 & O2). destruct F as [F1 F2].
    pose proof (none_unique h st ds i C1 F1 F2 O1 O2 Pd) as U.
    eapply clear_all; [exact Ot| |].
    + intros sc m d [H1 H2]. split; [exact H1|]. intros _. reflexivity.
    + pose proof (stack_all_and _ _ _ _ _ U C4) as H. revert H. apply stack_all_impl.
      * intros sc m d [G [H1 H2]]. split.
        -- intros _ j J. unfold h'. rewrite prefix_set. intros E1. rewrite href_set by exact Li.
           rewrite (G j J E1), Nat.eqb_refl. reflexivity.
        -- destruct m as [[|j]|]; [exact I| |intros _; reflexivity]. unfold h'. rewrite prefix_set, find_set. exact H2.
      * intros sc m [_ H]. unfold h'. destruct m as [[|j]|]; [exact I| |exact I]. cbn in *. now rewrite prefix_set, find_set.
Qed.
