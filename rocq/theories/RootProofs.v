(** The implicit root: the document read with an implicit root, in terms of the
    document read without one. *)
From Coq Require Import NArith ZArith List Bool Arith Lia String.
From Verif Require Import Bytes BytesFacts Outcome Utf8 Quote Parser Detect Dom.
Import ListNotations.
Local Open Scope N_scope.

(** Specification: the nodes from the first one that is neither a processing
    instruction nor a doctype become the children of the root, if that node is
    an element with another name. *)
Fixpoint with_root (r : bytes) (d : list node) : list node :=
  match d with
  | (PI _ _ | Doctype _) as x :: d => x :: with_root r d
  | Elem n _ _ :: _ => if beq n r then d else [Elem r [] d]
  | _ => d
  end.

Inductive label := LE (n : bytes) | LP | LO.
Definition label_of (x : node) : label :=
  match x with Elem n _ _ => LE n | PI _ _ | Doctype _ => LP | _ => LO end.

(** The labels of the top nodes, closed or open. *)
Fixpoint tops (st : list frame) : list label :=
  match st with
  | [] => []
  | f :: r =>
    match r with
    | [] => match f with FDoc k => map label_of (rev k) | _ => [] end
    | [FDoc k] => map label_of (rev k) ++ match f with FElem n _ _ => [LE n] | _ => [] end
    | _ => tops r
    end
  end.
Definition grows (s s' : bst) : Prop := exists new, tops (b_stack s') = tops (b_stack s) ++ new.
(** The frames: elements and attributes above the document. *)
Fixpoint framed (st : list frame) : Prop :=
  match st with
  | [] => False
  | f :: r => match r with [] => exists k, f = FDoc k | _ => (forall k, f <> FDoc k) /\ framed r end
  end.

Lemma tops_cons f g r : r <> [] -> tops (f :: g :: r) = tops (g :: r).
Proof. intros H. destruct r; [congruence|]. destruct g; reflexivity. Qed.

(** A step on the frame on top that keeps the closed children's labels. *)
Lemma grow_elem n a k a' k' r : framed (FElem n a k :: r) -> exists new, tops (FElem n a' k' :: r) = tops (FElem n a k :: r) ++ new.
Proof.
  intros F. exists []. rewrite app_nil_r. destruct r as [|g r]; [reflexivity|].
  destruct r; [destruct g; reflexivity|]. rewrite (tops_cons (FElem n a k)), (tops_cons (FElem n a' k')) by discriminate. reflexivity.
Qed.
Lemma framed_doc k r : framed (FDoc k :: r) -> r = [].
Proof. destruct r; auto. intros [H _]. now destruct (H k). Qed.
Lemma framed_top f f' r : (forall k, f <> FDoc k) -> (forall k, f' <> FDoc k) -> framed (f :: r) -> framed (f' :: r).
Proof. intros H H' F. destruct r; [destruct F as [k ->]; now destruct (H k)|]. destruct F as [_ F]. split; auto. Qed.
Lemma framed_doc' k k' r : framed (FDoc k :: r) -> framed (FDoc k' :: r).
Proof. intros F. rewrite (framed_doc _ _ F). cbn. eauto. Qed.

Definition keeps (s s' : bst) : Prop := framed (b_stack s') /\ grows s s'.

Lemma label_kid p k : exists new, map label_of (rev (add_part_kid p k)) = map label_of (rev k) ++ new.
Proof.
  destruct p as [t|n]; cbn [add_part_kid].
  - destruct k as [|[| [u|] | | |] k]; cbn [add_text_kid rev]; rewrite ?map_app; cbn; eauto.
    exists []. now rewrite app_nil_r.
  - cbn. rewrite map_app. eauto.
Qed.

Lemma keeps_top p s s' : framed (b_stack s) -> add_top p s = BOk s' -> keeps s s'.
Proof.
  destruct s as [st la pi dt]. unfold add_top, keeps, grows. cbn [b_stack]. intros F E.
  destruct st as [|f r]; [discriminate|]. destruct f; injection E as <-; cbn [with_stack b_stack].
  - rewrite (framed_doc _ _ F). split; [cbn; eauto|]. apply label_kid.
  - split; [eapply framed_top; eauto; discriminate|eapply grow_elem; eauto].
  - split; [eapply framed_top; eauto; discriminate|]. exists []. rewrite app_nil_r. destruct r as [|g r]; [reflexivity|].
    destruct r; [destruct g; reflexivity|]. rewrite (tops_cons (FAttr name rparts)) by discriminate. now rewrite (tops_cons (FAttr name _)) by discriminate.
Qed.
Lemma keeps_node x l s s' : framed (b_stack s) -> add_node x l s = BOk s' -> keeps s s'.
Proof.
  destruct s as [st la pi dt]. unfold add_node, keeps, grows. cbn [b_stack]. intros F E.
  destruct st as [|f r]; [discriminate|]. destruct f; try discriminate; injection E as <-; cbn [with_stack b_stack].
  - rewrite (framed_doc _ _ F). split; [cbn; eauto|]. cbn. rewrite map_app. eauto.
  - split; [eapply framed_top; eauto; discriminate|eapply grow_elem; eauto].
Qed.
Lemma keeps_last p s s' : framed (b_stack s) -> add_last p s = BOk s' -> keeps s s'.
Proof.
  destruct s as [st la pi dt]. unfold add_last, keeps, grows. cbn [b_stack b_last]. intros F E.
  destruct la; try discriminate; destruct st as [|f r]; try discriminate.
  - destruct f as [ks|m b ks|]; try discriminate; destruct ks as [|[]]; try discriminate; injection E as <-; cbn [with_stack b_stack].
    + rewrite (framed_doc _ _ F). split; [cbn; eauto|]. cbn. rewrite !map_app. cbn. exists []. now rewrite app_nil_r.
    + split; [eapply framed_top; eauto; discriminate|eapply grow_elem; eauto].
  - destruct f as [ks|m b ks|]; try discriminate; destruct b as [|[]]; try discriminate; injection E as <-; cbn [with_stack b_stack].
    split; [eapply framed_top; eauto; discriminate|eapply grow_elem; eauto].
Qed.
Lemma keeps_append v s s' : framed (b_stack s) -> append_comment v s = BOk s' -> keeps s s'.
Proof.
  destruct s as [st la pi dt]. unfold append_comment, keeps, grows. cbn [b_stack b_last]. intros F E.
  destruct la; try discriminate; destruct st as [|f r]; try discriminate.
  destruct f as [ks|m b ks|]; try discriminate; destruct ks as [|[]]; try discriminate; injection E as <-; cbn [with_stack b_stack].
  + rewrite (framed_doc _ _ F). split; [cbn; eauto|]. cbn. rewrite !map_app. cbn. exists []. now rewrite app_nil_r.
  + split; [eapply framed_top; eauto; discriminate|eapply grow_elem; eauto].
Qed.
Lemma keeps_push s s' : framed (b_stack s) -> push_last s = BOk s' -> keeps s s'.
Proof.
  destruct s as [st la pi dt]. unfold push_last, keeps, grows. cbn [b_stack b_last]. intros F E.
  destruct la; try discriminate; destruct st as [|f r]; try discriminate.
  - destruct f as [ks|m b ks|]; try discriminate; destruct ks as [|[]]; try discriminate; injection E as <-; cbn [with_stack b_stack].
    + rewrite (framed_doc _ _ F). split; [cbn; split; eauto; discriminate|]. cbn. rewrite !map_app. cbn. exists []. now rewrite app_nil_r.
    + split; [cbn [framed]; split; [discriminate|eapply framed_top; eauto; discriminate]|].
      destruct r as [|g r]; [destruct F as [? F]; discriminate F|]. rewrite tops_cons by discriminate. eapply grow_elem; eauto.
  - destruct f as [ks|m b ks|]; try discriminate; destruct b as [|[]]; try discriminate; injection E as <-; cbn [with_stack b_stack].
    split; [cbn [framed]; split; [discriminate|eapply framed_top; eauto; discriminate]|].
    destruct r as [|g r]; [destruct F as [? F]; discriminate F|]. rewrite tops_cons by discriminate. eapply grow_elem; eauto.
Qed.
Lemma close_keeps f g g' l r : framed (f :: g :: r) -> close_into f g = Some (g', l) ->
  framed (g' :: r) /\ exists new, tops (g' :: r) = tops (f :: g :: r) ++ new.
Proof.
  intros F E. destruct F as [F0 F]. destruct f as [k|n a k|n k].
  - now destruct (F0 k).
  - destruct g as [ks|m b ks|]; cbn in E; [| |discriminate]; injection E as <- <-.
    + rewrite (framed_doc _ _ F). split; [cbn; eauto|]. cbn. rewrite map_app. cbn. exists []. now rewrite app_nil_r.
    + split; [eapply (framed_top (FElem m b ks)); eauto; discriminate|].
      destruct r as [|g r]; [destruct F as [? F]; discriminate F|]. rewrite (tops_cons (FElem n a k)) by discriminate. eapply grow_elem; eauto.
  - destruct g as [ks|m b ks|]; cbn in E; try discriminate; injection E as <- <-.
    split; [eapply (framed_top (FElem m b ks)); eauto; discriminate|].
      destruct r as [|g r]; [destruct F as [? F]; discriminate F|]. rewrite (tops_cons (FAttr n k)) by discriminate. eapply grow_elem; eauto.
Qed.
Lemma keeps_pop s s' : framed (b_stack s) -> pop s = BOk s' -> keeps s s'.
Proof.
  destruct s as [st la pi dt]. unfold pop, keeps, grows. cbn [b_stack b_last]. intros F E.
  destruct st as [|f [|g r]]; try discriminate. destruct (close_into f g) as [[g' l]|] eqn:Hc; [|discriminate].
  injection E as <-. cbn [with_stack b_stack]. eapply close_keeps; eauto.
Qed.
Lemma keeps_refl s s' : b_stack s' = b_stack s -> framed (b_stack s) -> keeps s s'.
Proof. intros E F. split; [now rewrite E|]. exists []. now rewrite E, app_nil_r. Qed.

Lemma with_value_ok r f s : with_value r f = BOk s -> exists v, f v = BOk s.
Proof. destruct r as [[? v]| | | |]; cbn; try discriminate; eauto. Qed.
Lemma with_entity_ok t f s : with_entity t f = BOk s -> exists p, f p = BOk s.
Proof. unfold with_entity. destruct (entity_part t); try discriminate; eauto. Qed.

Lemma keeps_create n s s' : framed (b_stack s) -> create_node None n s = BOk s' -> keeps s s'.
Proof.
  intros F E. unfold create_node in E. destruct (beq _ _); [injection E as <-; now apply keeps_refl|].
  assert (X : create_element_node None n s = BOk s' -> keeps s s').
  { intros X. unfold create_element_node in X.
    assert (E' : add_node (Elem n [] []) LastKid s = BOk s') by (destruct (b_last s); exact X). eapply keeps_node; eauto. }
  destruct n as [|c r]; [auto|]. destruct (c =? cQM); [injection E as <-; now apply keeps_refl|]. auto.
Qed.
Lemma callback_keeps t aft s s' : framed (b_stack s) -> callback None t aft s = BOk s' -> keeps s s'.
Proof.
  intros F E. unfold callback in E.
  destruct (t_kind t); try discriminate;
    repeat match type of E with
    | with_value _ _ = _ => apply with_value_ok in E as [v E]; cbn beta in E
    | with_entity _ _ = _ => apply with_entity_ok in E as [p E]; cbn beta in E
    end;
    try (injection E as <-; now apply keeps_refl);
    try (eapply keeps_top; eauto; fail); try (eapply keeps_node; eauto; fail); try (eapply keeps_last; eauto; fail);
    try (eapply keeps_push; eauto; fail); try (eapply keeps_pop; eauto; fail); try (eapply keeps_append; eauto; fail);
    try (eapply keeps_create; eauto; fail).
  - unfold element_value_text in E. destruct (b_pi s) eqn:Hp; [|destruct (b_doctype s); [|eapply keeps_last; eauto]].
    + eapply (keeps_node _ _ (end_pi s)); eauto.
    + eapply (keeps_node _ _ (end_doctype s)); eauto.
  - unfold element_value_quote in E. destruct (b_pi s) eqn:Hp.
    + destruct v; [discriminate|]. eapply (keeps_node _ _ (end_pi s)); eauto.
    + destruct (b_doctype s); [discriminate|eapply keeps_last; eauto].
  - destruct s as [st la pi dt]. cbn [b_stack] in *. destruct st as [|[] r]; try discriminate. injection E as <-.
    split; [cbn [with_stack b_stack]; eapply framed_top; eauto; discriminate|eapply grow_elem; eauto].
Qed.
Lemma build_keeps T : forall aft s s', framed (b_stack s) -> build None T aft s = BOk s' -> keeps s s'.
Proof.
  induction T as [|t T IH]; intros aft s s' F E; cbn [build] in E.
  - injection E as <-. now apply keeps_refl.
  - destruct (callback None t _ s) as [s1| | |] eqn:Hc; try discriminate. cbn [bbind] in E.
    destruct (callback_keeps _ _ _ _ F Hc) as (F1 & n1 & G1).
    destruct (IH _ _ _ F1 E) as (F2 & n2 & G2). split; auto. exists (n1 ++ n2). now rewrite G2, G1, app_assoc.
Qed.
Lemma close_tops st : forall f d, framed (f :: st) -> close_up f st = Some d -> exists new, map label_of d = tops (f :: st) ++ new.
Proof.
  induction st as [|g r IH]; intros f d F E; cbn [close_up] in E.
  - destruct f; try discriminate. injection E as <-. exists []. cbn. now rewrite app_nil_r.
  - destruct (close_into f g) as [[g' l]|] eqn:Hc; [|discriminate].
    destruct (close_keeps _ _ _ _ _ F Hc) as (F1 & n1 & G1). destruct (IH _ _ F1 E) as (n2 & G2).
    exists (n1 ++ n2). now rewrite G2, G1, app_assoc.
Qed.

(** ** The effect of the root *)

(** Once something has been added the root is ignored. *)
Definition past (s : bst) : Prop := b_last s <> LastNone.
Lemma past_keep l : l <> LastNone -> keep_last l <> LastNone.
Proof. destruct l; cbn; congruence. Qed.

Lemma close_last f g g' l : close_into f g = Some (g', l) -> l <> LastNone.
Proof. destruct f, g; cbn; try discriminate; injection 1 as <- <-; discriminate. Qed.
Ltac past_solve H :=
  match type of H with
  | context [match ?x with _ => _ end] => destruct x eqn:?; try discriminate; past_solve H
  | _ => try (injection H as <-; cbn; try discriminate; eauto using past_keep, close_last)
  end.
Lemma callback_past root t aft s s' : past s -> callback root t aft s = BOk s' -> past s'.
Proof.
  destruct s as [st la pi dt]. unfold past. cbn [b_last]. intros P E. unfold callback in E. cbn [b_stack] in E.
  destruct (t_kind t); try discriminate;
    repeat match type of E with
    | with_value _ _ = _ => apply with_value_ok in E as [v E]; cbn beta in E
    | with_entity _ _ = _ => apply with_entity_ok in E as [p E]; cbn beta in E
    end;
  unfold add_top, add_last, add_node, push_last, pop, append_comment, create_node, create_element_node, element_value_text, element_value_quote, end_pi, end_doctype, add_node, add_last in E;
  cbn [b_stack b_last b_pi b_doctype with_stack] in E; past_solve E.
Qed.
Lemma callback_ignores r t aft s : past s -> callback (Some r) t aft s = callback None t aft s.
Proof.
  unfold past. intros P. unfold callback. destruct (t_kind t); auto; unfold create_node, create_element_node; destruct (b_last s); congruence.
Qed.
Lemma build_ignores r T : forall aft s, past s -> build (Some r) T aft s = build None T aft s.
Proof.
  induction T as [|t T IH]; intros aft s P; [reflexivity|]. cbn [build]. rewrite callback_ignores by auto.
  destruct (callback None t _ s) as [s1| | |] eqn:E; auto. cbn [bbind]. apply IH. eapply callback_past; eauto.
Qed.

Definition silent (k : list node) : Prop := Forall (fun x => label_of x = LP) k.

(** The run with the root has one more frame. *)
Inductive under (r : bytes) (k : list node) : bst -> bst -> Prop :=
| under_ u ks la pi dt : la <> LastNone ->
    under r k (BS (u ++ [FDoc (ks ++ k)]) la pi dt) (BS (u ++ [FElem r [] ks; FDoc k]) la pi dt).

Lemma add_kid_app p ks k : silent k -> add_part_kid p (ks ++ k) = add_part_kid p ks ++ k.
Proof.
  intros H. destruct p; [|reflexivity]. cbn [add_part_kid]. destruct ks as [|[|[]| | |] ks]; try reflexivity.
  cbn [app]. destruct k as [|x k]; [reflexivity|]. inversion H as [|? ? Hx]; subst. destruct x as [|[]| | |]; try discriminate; reflexivity.
Qed.

Section sim.
Variables (r : bytes) (k : list node).
Hypothesis Hk : silent k.

Lemma under_keep s1 s2 : under r k s1 s2 -> b_last s2 = b_last s1 /\ b_pi s2 = b_pi s1 /\ b_doctype s2 = b_doctype s1 /\ past s1.
Proof. intros []. repeat split. assumption. Qed.

Ltac under_intro u ks la pi dt := 
  match goal with |- under _ _ (BS ?st1 _ _ _) _ => idtac end;
  exact (under_ r k u ks la pi dt).

Lemma under_top p s1 s2 s1' : under r k s1 s2 -> add_top p s1 = BOk s1' -> exists s2', add_top p s2 = BOk s2' /\ under r k s1' s2'.
Proof.
  intros [u ks la pi dt L] E. destruct u as [|f u]; cbn in E |- *.
  - rewrite add_kid_app in E by auto. injection E as <-. eexists. split; [reflexivity|]. now apply (under_ r k []).
  - destruct f; injection E as <-; eexists; (split; [reflexivity|]); now apply (under_ r k (_ :: u)).
Qed.
Lemma under_node x l s1 s2 s1' : l <> LastNone -> under r k s1 s2 -> add_node x l s1 = BOk s1' -> exists s2', add_node x l s2 = BOk s2' /\ under r k s1' s2'.
Proof.
  intros Hl [u ks la pi dt L] E. destruct u as [|f u]; cbn in E |- *.
  - injection E as <-. eexists. split; [reflexivity|]. now apply (under_ r k [] (x :: ks)).
  - destruct f; try discriminate; injection E as <-; eexists; (split; [reflexivity|]); now apply (under_ r k (_ :: u)).
Qed.
Lemma silent_elem n a c k' : k <> Elem n a c :: k'.
Proof. intros ->. inversion Hk. discriminate. Qed.
Lemma silent_comment t k' : k <> Comment t :: k'.
Proof. intros ->. inversion Hk. discriminate. Qed.
Lemma under_last p s1 s2 s1' : under r k s1 s2 -> add_last p s1 = BOk s1' -> exists s2', add_last p s2 = BOk s2' /\ under r k s1' s2'.
Proof.
  intros [u ks la pi dt L] E. destruct la; try congruence; try discriminate; destruct u as [|f u]; cbn in E |- *; try discriminate.
  - destruct ks as [|x ks]; cbn [app] in E.
    + pose proof silent_elem as SE. destruct k as [|[] k'] eqn:Ek; try discriminate. now destruct (SE name attrs kids k').
    + destruct x; try discriminate. injection E as <-. eexists. split; [reflexivity|]. now apply (under_ r k [] (_ :: ks)).
  - destruct f as [ks'|m b ks'|]; try discriminate; destruct ks' as [|[]]; try discriminate; injection E as <-;
      eexists; (split; [reflexivity|]); now apply (under_ r k (_ :: u)).
  - destruct f as [ks'|m b ks'|]; try discriminate; destruct b as [|[]]; try discriminate; injection E as <-;
      eexists; (split; [reflexivity|]); now apply (under_ r k (_ :: u)).
Qed.
Lemma under_append v s1 s2 s1' : under r k s1 s2 -> append_comment v s1 = BOk s1' -> exists s2', append_comment v s2 = BOk s2' /\ under r k s1' s2'.
Proof.
  intros [u ks la pi dt L] E. destruct la; try congruence; try discriminate; destruct u as [|f u]; cbn in E |- *; try discriminate.
  - destruct ks as [|x ks]; cbn [app] in E.
    + pose proof silent_comment as SE. destruct k as [|[] k'] eqn:Ek; try discriminate. now destruct (SE t k').
    + destruct x; try discriminate. injection E as <-. eexists. split; [reflexivity|]. now apply (under_ r k [] (_ :: ks)).
  - destruct f as [ks'|m b ks'|]; try discriminate; destruct ks' as [|[]]; try discriminate; injection E as <-;
      eexists; (split; [reflexivity|]); now apply (under_ r k (_ :: u)).
Qed.
Lemma under_push s1 s2 s1' : under r k s1 s2 -> push_last s1 = BOk s1' -> exists s2', push_last s2 = BOk s2' /\ under r k s1' s2'.
Proof.
  intros [u ks la pi dt L] E. destruct la; try congruence; try discriminate; destruct u as [|f u]; cbn in E |- *; try discriminate.
  - destruct ks as [|x ks]; cbn [app] in E.
    + pose proof silent_elem as SE. destruct k as [|[] k'] eqn:Ek; try discriminate. now destruct (SE name attrs kids k').
    + destruct x; try discriminate. injection E as <-. eexists. split; [reflexivity|]. now apply (under_ r k [_] ks).
  - destruct f as [ks'|m b ks'|]; try discriminate; destruct ks' as [|[]]; try discriminate; injection E as <-;
      eexists; (split; [reflexivity|]); now apply (under_ r k (_ :: _ :: u)).
  - destruct f as [ks'|m b ks'|]; try discriminate; destruct b as [|[]]; try discriminate; injection E as <-;
      eexists; (split; [reflexivity|]); now apply (under_ r k (_ :: _ :: u)).
Qed.
Lemma under_pop s1 s2 s1' : under r k s1 s2 -> pop s1 = BOk s1' -> exists s2', pop s2 = BOk s2' /\ under r k s1' s2'.
Proof.
  intros [u ks la pi dt L] E. destruct u as [|f [|g u]]; cbn in E |- *; try discriminate.
  - destruct f; cbn in E |- *; try discriminate. injection E as <-. eexists. split; [reflexivity|]. now apply (under_ r k [] (_ :: ks)).
  - destruct (close_into f g) as [[g' l]|] eqn:Hc; [|discriminate]. injection E as <-. eexists. split; [reflexivity|].
    apply (under_ r k (g' :: u)). eapply close_last; eauto.
Qed.
Lemma under_end_pi s1 s2 : under r k s1 s2 -> under r k (end_pi s1) (end_pi s2).
Proof. intros []. now apply under_. Qed.
Lemma under_end_doctype s1 s2 : under r k s1 s2 -> under r k (end_doctype s1) (end_doctype s2).
Proof. intros []. now apply under_. Qed.

Lemma under_value q f1 f2 s1' : with_value q f1 = BOk s1' ->
  (forall v, f1 v = BOk s1' -> exists s2', f2 v = BOk s2' /\ under r k s1' s2') ->
  exists s2', with_value q f2 = BOk s2' /\ under r k s1' s2'.
Proof. destruct q as [[? v]| | | |]; cbn; try discriminate; eauto. Qed.
Lemma under_entity t f1 f2 s1' : with_entity t f1 = BOk s1' ->
  (forall v, f1 v = BOk s1' -> exists s2', f2 v = BOk s2' /\ under r k s1' s2') ->
  exists s2', with_entity t f2 = BOk s2' /\ under r k s1' s2'.
Proof. unfold with_entity. destruct (entity_part t); try discriminate; eauto. Qed.

Lemma under_create n s1 s2 s1' : under r k s1 s2 -> create_node None n s1 = BOk s1' ->
  exists s2', create_node None n s2 = BOk s2' /\ under r k s1' s2'.
Proof.
  intros U E. destruct (under_keep _ _ U) as (L & Ep & Ed & P).
  assert (X : create_element_node None n s1 = BOk s1' -> exists s2', create_element_node None n s2 = BOk s2' /\ under r k s1' s2').
  { unfold create_element_node. rewrite L. intros X. assert (E' : add_node (Elem n [] []) LastKid s1 = BOk s1') by (destruct (b_last s1); exact X).
    destruct (under_node _ LastKid _ _ _ ltac:(discriminate) U E') as (s2' & E2 & U2). exists s2'. split; auto. destruct (b_last s1); exact E2. }
  unfold create_node in E |- *. destruct (beq _ _); [injection E as <-; eexists; split; [reflexivity|]; destruct U; now apply under_|].
  destruct n as [|c n]; [auto|]. destruct (c =? cQM); [injection E as <-; eexists; split; [reflexivity|]; destruct U; now apply under_|]. auto.
Qed.
Lemma callback_under t aft s1 s2 s1' : under r k s1 s2 -> callback None t aft s1 = BOk s1' ->
  exists s2', callback None t aft s2 = BOk s2' /\ under r k s1' s2'.
Proof.
  intros U E. destruct (under_keep _ _ U) as (L & Ep & Ed & P). unfold callback in E |- *.
  destruct (t_kind t); try discriminate;
    try (eapply under_value; [exact E|]; clear E; intros v E; cbn beta in E |- * );
    try (eapply under_entity; [exact E|]; clear E; intros v E; cbn beta in E |- * );
    try (eapply under_top; eauto; fail); try (eapply under_last; eauto; fail);
    try (eapply under_push; eauto; fail); try (eapply under_pop; eauto; fail); try (eapply under_append; eauto; fail);
    try (injection E as <-; eauto; fail); try (eapply under_node; eauto; discriminate).
  - now apply (under_create _ s1).
  - now apply (under_create _ s1).
  - unfold element_value_text in E |- *. rewrite Ep, Ed, L. destruct (b_pi s1); [|destruct (b_doctype s1); [|eapply under_last; eauto]].
    + eapply under_node; eauto using under_end_pi, past_keep.
    + eapply under_node; eauto using under_end_doctype, past_keep.
  - unfold element_value_quote in E |- *. rewrite Ep, Ed, L. destruct (b_pi s1).
    + destruct v; [discriminate|]. eapply under_node; eauto using under_end_pi, past_keep.
    + destruct (b_doctype s1); [discriminate|eapply under_last; eauto].
  - destruct U as [u ks la pi dt]. destruct u as [|f u]; cbn in E |- *; [discriminate|]. destruct f; try discriminate.
    injection E as <-. eexists; split; [reflexivity|]. now apply (under_ r k (_ :: u)).
Qed.
Lemma build_under T : forall aft s1 s2 s1', under r k s1 s2 -> build None T aft s1 = BOk s1' ->
  exists s2', build None T aft s2 = BOk s2' /\ under r k s1' s2'.
Proof.
  induction T as [|t T IH]; intros aft s1 s2 s1' U E; cbn [build] in E |- *.
  - injection E as <-. eauto.
  - destruct (callback None t _ s1) as [s| | |] eqn:Hc; try discriminate. cbn [bbind] in E.
    destruct (callback_under _ _ _ _ _ U Hc) as (s' & E' & U'). rewrite E'. cbn [bbind]. eauto.
Qed.
Lemma close_under u : forall f ks d, close_up f (u ++ [FDoc (ks ++ k)]) = Some d ->
  exists x, d = rev k ++ x /\ close_up f (u ++ [FElem r [] ks; FDoc k]) = Some (rev k ++ [Elem r [] x]).
Proof.
  induction u as [|g u IH]; intros f ks d E; cbn [app close_up] in E |- *.
  - destruct f; cbn in E |- *; try discriminate. injection E as <-. rewrite rev_app_distr, <- app_assoc. eexists; split; reflexivity.
  - destruct (close_into f g) as [[g' l]|]; [|discriminate]. now apply IH.
Qed.
Lemma close_all_under s1 s2 d : under r k s1 s2 -> close_all (b_stack s1) = Some d ->
  exists x, d = rev k ++ x /\ close_all (b_stack s2) = Some (rev k ++ [Elem r [] x]).
Proof.
  intros [u ks la pi dt L] E. destruct u as [|f u]; cbn [app b_stack close_all] in E |- *.
  - cbn in E |- *. injection E as <-. rewrite rev_app_distr. eexists; split; reflexivity.
  - now apply close_under.
Qed.
End sim.

Lemma with_root_silent r k x : silent k -> with_root r (k ++ x) = k ++ with_root r x.
Proof. intros H. induction H as [|y k Hy _ IH]; [reflexivity|]. destruct y; try discriminate; cbn; now rewrite IH. Qed.
Lemma silent_rev k : silent k -> silent (rev k).
Proof. unfold silent. rewrite !Forall_forall. intros H x Hx. apply H. now apply in_rev. Qed.

(** A document whose first loud label is not another element. *)
Lemma with_root_same r k x d new : silent k -> map label_of d = map label_of k ++ x :: new -> x <> LP -> (forall n, x = LE n -> n = r) ->
  with_root r d = d.
Proof.
  intros H. revert d. induction H as [|y k Hy _ IH]; intros d E Hx Hn; destruct d as [|z d]; try discriminate; cbn in E; injection E as E0 E1.
  - destruct z; cbn in *; try congruence. rewrite (Hn name) by congruence. now rewrite (proj2 (beq_eq r r) eq_refl).
  - rewrite Hy in E0. destruct z; try discriminate; cbn; f_equal; now apply IH.
Qed.

Lemma first_label k x d new : map label_of (k ++ d) = map label_of k ++ x :: new -> exists y d', d = y :: d' /\ label_of y = x.
Proof. rewrite map_app. intros E. apply app_inv_head in E. destruct d; try discriminate. cbn in E. injection E as E _. eauto. Qed.

Lemma close_all_tops st d : framed st -> close_all st = Some d -> exists new, map label_of d = tops st ++ new.
Proof. destruct st; [contradiction|]. apply close_tops. Qed.

(** A run from the start, where the stack holds silent nodes only. *)
Lemma build_fresh r T : forall k pi dt aft s' d, silent k ->
  build None T aft (BS [FDoc k] LastNone pi dt) = BOk s' -> close_all (b_stack s') = Some d ->
  exists s2, build (Some r) T aft (BS [FDoc k] LastNone pi dt) = BOk s2 /\ close_all (b_stack s2) = Some (with_root r d).
Proof.
  induction T as [|t T IH]; intros k pi dt aft s' d Hk E D; cbn [build] in E |- *.
  - injection E as <-. eexists. split; [reflexivity|]. cbn in D |- *. injection D as <-.
    rewrite <- (app_nil_r (rev k)) at 2. rewrite with_root_silent by now apply silent_rev. now rewrite app_nil_r.
  - set (A := List.concat _ ++ aft) in *. set (s := BS [FDoc k] LastNone pi dt) in *.
    (* the same step, after which the root is ignored *)
    assert (X : forall s1 x, callback None t A s = BOk s1 -> callback (Some r) t A s = BOk s1 -> past s1 -> framed (b_stack s1) ->
        tops (b_stack s1) = map label_of (rev k) ++ [x] -> x <> LP -> (forall n, x = LE n -> n = r) ->
        exists s2, bbind (callback (Some r) t A s) (build (Some r) T aft) = BOk s2 /\ close_all (b_stack s2) = Some (with_root r d)).
    { intros s1 x E1 E2 P F Tp X1 X2. rewrite E1 in E. rewrite E2. cbn [bbind] in E |- *. exists s'. rewrite build_ignores by auto. split; auto.
      rewrite D. f_equal. symmetry. destruct (build_keeps _ _ _ _ F E) as (F' & n1 & G1).
      destruct (close_all_tops _ _ F' D) as (n2 & G2). rewrite G1, Tp, <- !app_assoc in G2.
      eapply with_root_same; [apply silent_rev; exact Hk|exact G2|exact X1|exact X2]. }
    (* the same step, after which nothing has been added *)
    assert (Y : forall k1 pi1 dt1, callback None t A s = BOk (BS [FDoc k1] LastNone pi1 dt1) ->
        callback (Some r) t A s = BOk (BS [FDoc k1] LastNone pi1 dt1) -> silent k1 ->
        exists s2, bbind (callback (Some r) t A s) (build (Some r) T aft) = BOk s2 /\ close_all (b_stack s2) = Some (with_root r d)).
    { intros k1 pi1 dt1 E1 E2 Hk1. rewrite E1 in E. rewrite E2. cbn [bbind] in E |- *. eauto. }
    assert (TP : forall p, add_top p s = BOk (BS [FDoc (add_part_kid p k)] LastKid pi dt)) by reflexivity.
    assert (TL : forall p, tops [FDoc (add_part_kid p k)] = map label_of (rev k) ++ [LO]).
    { intros p. rewrite <- (app_nil_l k) at 1. rewrite add_kid_app by auto. cbn. rewrite rev_app_distr, map_app. destruct p; reflexivity. }
    assert (CR : forall n, callback None t A s = create_node None n s -> callback (Some r) t A s = create_node (Some r) n s ->
        exists s2, bbind (callback (Some r) t A s) (build (Some r) T aft) = BOk s2 /\ close_all (b_stack s2) = Some (with_root r d)).
    { intros n E1 E2.
      assert (EL : callback None t A s = create_element_node None n s -> callback (Some r) t A s = create_element_node (Some r) n s ->
        exists s2, bbind (callback (Some r) t A s) (build (Some r) T aft) = BOk s2 /\ close_all (b_stack s2) = Some (with_root r d)).
      { clear E1 E2. intros E1 E2. unfold create_element_node in E1, E2. cbn [s b_last] in E1, E2. destruct (beq n r) eqn:Hb.
        + apply beq_eq in Hb. apply (X (BS [FDoc (Elem n [] [] :: k)] LastKid pi dt) (LE n));
            [exact E1|exact E2|discriminate|cbn; eauto|cbn; now rewrite map_app|discriminate|congruence].
        + rewrite E1 in E. rewrite E2. cbn [bbind add_node s b_stack with_stack] in E |- *.
          rewrite build_ignores by (intros Q; discriminate Q).
          destruct (build_under r k Hk T aft _ _ _ (under_ r k [] [Elem n [] []] LastKid pi dt ltac:(discriminate)) E) as (s2 & B2 & U2).
          exists s2. split; [exact B2|]. destruct (close_all_under r k _ _ _ U2 D) as (x & Dx & D2). rewrite D2. f_equal.
          rewrite Dx, with_root_silent by now apply silent_rev. f_equal.
          destruct (build_keeps T aft (BS [FDoc (Elem n [] [] :: k)] LastKid pi dt) s' ltac:(cbn; eauto) E) as (F' & n1 & G1).
          destruct (close_all_tops _ _ F' D) as (n2 & G2). rewrite G1 in G2. cbn [b_stack tops rev] in G2. rewrite map_app, <- !app_assoc, Dx in G2.
          destruct (first_label _ _ _ _ G2) as (y & d' & -> & Hy). destruct y; try discriminate. injection Hy as ->. cbn. now rewrite Hb. }
      unfold create_node in E1, E2. destruct (beq n (B "!DOCTYPE")); [exact (Y k pi true E1 E2 Hk)|].
      destruct n as [|c n]; [auto|]. destruct (c =? cQM); [exact (Y k (Some n) dt E1 E2 Hk)|]. auto. }
    unfold callback in E, X, Y, CR |- *.
    destruct (t_kind t); try discriminate E; try (now apply (CR (c_str (t_text t)))); try (now apply (Y k pi dt)).
    all: repeat match type of E with
      | context [with_value ?q _] => destruct q as [[? v]| | | |]; try discriminate E; unfold with_value in E, X, Y |- *
      | context [with_entity ?x _] => unfold with_entity in E, X, Y |- *; destruct (entity_part x) as [p|]; try discriminate E
      end.
    all: try (rewrite TP in X |- *; eapply X; [reflexivity|reflexivity|discriminate|cbn; eauto|apply TL|discriminate|discriminate]).
    all: try discriminate E.
    + eapply X; [reflexivity|reflexivity|discriminate|cbn; eauto|cbn; now rewrite map_app|discriminate|discriminate].
    + unfold element_value_text in E, Y |- *. cbn [s b_pi b_doctype] in E, Y |- *. destruct pi.
      * eapply Y; [reflexivity|reflexivity|now constructor].
      * destruct dt; [|discriminate E]. eapply Y; [reflexivity|reflexivity|now constructor].
    + unfold element_value_quote in E, Y |- *. cbn [s b_pi b_doctype] in E, Y |- *. destruct pi.
      * destruct (c_str v) as [|c0 v0]; [discriminate E|]. eapply Y; [reflexivity|reflexivity|now constructor].
      * destruct dt; discriminate E.
Qed.

Lemma parse_with_root fuel r src aft d : parse_buffer fuel None src aft = Document d ->
  parse_buffer fuel (Some r) src aft = Document (with_root r d).
Proof.
  unfold parse_buffer. destruct (detect_content_type src aft) as [[]|]; try discriminate.
  destruct (tokenize fuel src aft) as [s|e s| | |]; try discriminate.
  - destruct (build None _ _ _) as [b| | |] eqn:E; try discriminate. destruct (close_all (b_stack b)) as [d'|] eqn:D; [|discriminate].
    injection 1 as <-. destruct (build_fresh r _ [] None false _ _ _ (Forall_nil _) E D) as (s2 & -> & ->). reflexivity.
  - destruct (build None _ _ _); discriminate.
Qed.
