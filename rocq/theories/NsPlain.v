(** The model with namespaces (NsDom.v) and the one without (Dom.v) agree on
    everything that the one without covers. *)
From Coq Require Import NArith ZArith List Bool Arith String Lia.
From Verif Require Import Bytes BytesFacts Outcome Utf8 Quote Parser Detect Dom NsDom NsSpec.
Import ListNotations.

Definition lift_attr (a : attr) : nattr := NAttr None (fst a) (snd a).
Fixpoint lift (x : node) : nnode :=
  match x with
  | Elem n a k => NElem (ED None n [] (map lift_attr a)) (map lift k)
  | Part p => NPart p
  | Comment t => NComment t
  | PI n c => NPI n c
  | Doctype c => NDoctype c
  end.
Definition lift_frame (f : frame) : gframe :=
  match f with
  | FDoc k => GDoc (map lift k)
  | FElem n a k => GElem (ED None n [] (rev (map lift_attr a))) (map lift k)
  | FAttr n k => GAttr None n k
  end.
Definition lasts (l : last) (m : nlast) : Prop :=
  match l, m with
  | LastNone, LNone | LastKid, LKid | LastAttr, LAttr | LastOld, LTop | LastOld, LOld => True
  | _, _ => False
  end.
Definition agree (b : bst) (s : nst) : Prop :=
  exists m, lasts (b_last b) m /\ s = NS (map lift_frame (b_stack b)) m (b_pi b) (b_doctype b) [] None None None None.

(** The same outcome, if it is one that Dom.v covers. *)
Definition same_out (x : bout) (y : nout) : Prop :=
  match x with
  | BOk b => exists s, y = NOk s /\ agree b s
  | BUB => y = NUB
  | BAbrt => y = NAbrt
  | BUnmodelled => True
  end.

Lemma lift_part p k : map lift (add_part_kid p k) = n_add_part p (map lift k).
Proof. destruct p as [t|n]; [|reflexivity]. cbn. destruct k as [|[| [u|m] | | |] k]; reflexivity. Qed.
Lemma lift_part_rev p k : map lift (rev (add_part_kid p (rev k))) = rev (n_add_part p (rev (map lift k))).
Proof. rewrite map_rev, lift_part, map_rev. reflexivity. Qed.

Lemma same_top p b s : agree b s -> same_out (add_top p b) (n_add_top p s) \/ b_stack b = [].
Proof.
  intros (m & L & ->). unfold add_top, n_add_top, on_top. destruct (b_stack b) as [|[k|n a k|n k] r]; [now right|left..]; cbn;
    (eexists; split; [reflexivity|]); exists LKid; cbn; rewrite ?lift_part; auto.
Qed.
Lemma same_node x l l' b s : lasts l l' -> agree b s -> same_out (add_node x l b) (n_add_node (lift x) l' s).
Proof.
  intros Ll (m & L & ->). unfold add_node, n_add_node, on_top. destruct (b_stack b) as [|[k|n a k|n k] r]; cbn; auto;
    (eexists; split; [reflexivity|]); exists l'; cbn; auto.
Qed.
Lemma last_attr_lift n k b m : last_attr (ED None m [] (rev (lift_attr (n, k) :: map lift_attr b))) =
  Some (NAttr None n k, ED None m [] (rev (map lift_attr b))).
Proof. unfold last_attr. cbn [e_attrs]. rewrite rev_involutive. cbn. reflexivity. Qed.

Lemma same_last p b s : agree b s -> same_out (add_last p b) (n_add_last p s).
Proof.
  intros (m & L & ->). unfold add_last, n_add_last, on_top. destruct (b_last b); cbn [same_out]; auto; destruct m; try contradiction; cbn [n_last].
  - destruct (b_stack b) as [|[k|n a k|n k] r]; cbn [same_out]; auto; (destruct k as [|[] k]; cbn [same_out]; auto);
      (eexists; split; [reflexivity|]); exists LKid; split; auto; cbn; rewrite lift_part_rev; reflexivity.
  - destruct (b_stack b) as [|[k|n a k|n k] r]; cbn [same_out]; auto. destruct a as [|[x v] a]; cbn [same_out]; auto.
    eexists. split.
    { unfold n_stack. cbn [map lift_frame change_top part_into_attr]. rewrite (last_attr_lift x v). cbn. reflexivity. }
    exists LAttr. split; auto.
Qed.
Lemma same_push b s : agree b s -> same_out (push_last b) (n_push_last s).
Proof.
  intros (m & L & ->). unfold push_last, n_push_last. destruct (b_last b); cbn [same_out]; auto; destruct m; try contradiction; cbn [n_last].
  - destruct (b_stack b) as [|[k|n a k|n k] r]; cbn [same_out]; auto; (destruct k as [|[] k]; cbn [same_out]; auto);
      (eexists; split; [reflexivity|]); exists LTop; (split; [exact I|]); cbn; rewrite !map_rev, rev_involutive; reflexivity.
  - destruct (b_stack b) as [|[k|n a k|n k] r]; cbn [same_out]; auto. destruct a as [|[x v] a]; cbn [same_out]; auto.
    eexists. split.
    { unfold n_stack. cbn [map lift_frame]. rewrite (last_attr_lift x v). reflexivity. }
    exists LTop. split; [exact I|]. reflexivity.
Qed.
Lemma close_lift f g g' l : close_into f g = Some (g', l) ->
  exists l', lasts l l' /\ n_close_into (lift_frame f) (lift_frame g) = Some (lift_frame g', l').
Proof.
  destruct f as [k|n a k|n k], g as [k2|n2 a2 k2|n2 k2]; cbn; try discriminate; intros [= <- <-]; cbn.
  - exists LKid. rewrite !map_rev. auto.
  - exists LKid. rewrite !map_rev. auto.
  - exists LAttr. auto.
Qed.
Lemma same_pop b s : agree b s -> same_out (pop b) (n_pop s).
Proof.
  intros (m & L & ->). unfold pop, n_pop. destruct (b_stack b) as [|f [|g r]]; cbn [same_out]; auto. cbn [map n_stack].
  destruct (close_into f g) as [[g' l]|] eqn:C; [|exact I]. destruct (close_lift f g g' l C) as (l' & Ll & ->).
  eexists. split; [reflexivity|]. exists l'. auto.
Qed.
Lemma close_up_lift f r d : close_up f r = Some d -> n_close_up (lift_frame f) (map lift_frame r) = Some (map lift d).
Proof.
  revert f. induction r as [|g r IH]; intros f E; cbn in E |- *.
  - destruct f; try discriminate. injection E as <-. cbn. rewrite map_rev. reflexivity.
  - destruct (close_into f g) as [[g' l]|] eqn:C; [|discriminate]. destruct (close_lift f g g' l C) as (l' & _ & ->). auto.
Qed.

Lemma keep_lasts l m : lasts l m -> lasts (keep_last l) (n_keep_last m).
Proof. destruct l, m; cbn; auto. Qed.
Lemma same_value_text t b s : agree b s -> same_out (element_value_text t b) (n_element_value_text t s).
Proof.
  intros A. pose proof A as (m & L & E). unfold element_value_text, n_element_value_text.
  replace (n_pi s) with (b_pi b) by (now rewrite E). replace (n_doctype s) with (b_doctype b) by (now rewrite E).
  replace (n_last s) with m by (now rewrite E).
  destruct (b_pi b) eqn:P; [|destruct (b_doctype b) eqn:D].
  - apply (same_node (PI _ _)); [now apply keep_lasts|]. exists m. split; [exact L|]. rewrite E. cbn. rewrite ?P. reflexivity.
  - apply (same_node (Doctype _)); [now apply keep_lasts|]. exists m. split; [exact L|]. rewrite E. cbn. rewrite ?P. reflexivity.
  - now apply same_last.
Qed.
Lemma same_value_quote v b s : agree b s -> same_out (element_value_quote v b) (n_element_value_quote v s).
Proof.
  intros A. pose proof A as (m & L & E). unfold element_value_quote, n_element_value_quote.
  replace (n_pi s) with (b_pi b) by (now rewrite E). replace (n_doctype s) with (b_doctype b) by (now rewrite E).
  replace (n_last s) with m by (now rewrite E).
  destruct (b_pi b) eqn:P.
  - destruct v; [reflexivity|]. apply (same_node (PI _ _)); [now apply keep_lasts|]. exists m. split; [exact L|]. rewrite E. cbn. rewrite ?P. reflexivity.
  - destruct (b_doctype b) eqn:D; [exact I|]. now apply same_last.
Qed.
Lemma same_create root n b s : agree b s -> same_out (create_node root n b) (n_create_node root n s).
Proof.
  intros A. pose proof A as (m & L & E). unfold create_node, n_create_node.
  assert (C : same_out (create_element_node root n b) (n_create_element root n s)).
  { unfold create_element_node, n_create_element. destruct (b_last b) eqn:Lb, m; try contradiction; rewrite E; cbn [n_last];
      try (apply (same_node (Elem n [] [])); [exact I|]; eexists; split; [|reflexivity]; rewrite Lb; exact I).
    destruct root as [x|]; [|apply (same_node (Elem n [] [])); [exact I|]; exists LNone; split; [now rewrite Lb|reflexivity]].
    destruct (beq n x); [apply (same_node (Elem n [] [])); [exact I|]; exists LNone; split; [now rewrite Lb|reflexivity]|].
    apply (same_node (Elem n [] [])); [exact I|]. exists LNone. split; [exact I|reflexivity]. }
  destruct (beq n (B "!DOCTYPE")).
  - eexists. split; [reflexivity|]. exists m. split; [exact L|]. now rewrite E.
  - destruct n as [|c r]; [exact C|]. destruct (c =? cQM)%N; [|exact C].
    eexists. split; [reflexivity|]. exists m. split; [exact L|]. now rewrite E.
Qed.
Lemma same_comment v b s : agree b s -> same_out (append_comment v b) (n_append_comment v s).
Proof.
  intros (m & L & ->). unfold append_comment, n_append_comment, on_top. destruct (b_last b); cbn [same_out]; auto; destruct m; try contradiction; cbn [n_last].
  destruct (b_stack b) as [|[k|n a k|n k] r]; cbn [same_out]; auto; (destruct k as [|[] k]; cbn [same_out]; auto);
      (eexists; split; [reflexivity|]); exists LKid; split; auto.
Qed.

Lemma same_with_value r f g : (forall v, same_out (f v) (g v)) -> same_out (with_value r f) (n_with_value r g).
Proof. intros H. unfold with_value, n_with_value. destruct r as [[a v]| | | |]; cbn; auto. Qed.
Lemma same_with_entity t f g : (forall p, same_out (f p) (g p)) -> same_out (with_entity t f) (n_with_entity t g).
Proof. intros H. unfold with_entity, n_with_entity. destruct (entity_part t); cbn; auto. Qed.

Lemma same_callback root t aft b s : b_stack b <> [] -> agree b s ->
  same_out (callback root t aft b) (ncallback root t aft s).
Proof.
  intros Ne A. assert (T : forall p, same_out (add_top p b) (n_add_top p s)).
  { intros p. destruct (same_top p b s A) as [H|H]; [exact H|contradiction]. }
  pose proof A as (m & L & E).
  assert (V : forall v, same_out (add_last (PText v) b) (attr_value v s)).
  { intros v. unfold attr_value. rewrite E at 1. cbn [n_decl]. now apply same_last. }
  unfold callback, ncallback. destruct (t_kind t); try exact I;
    try (apply same_push; exact A); try (apply same_pop; exact A); try (apply same_create; exact A);
    try (apply same_with_value; intros v; apply T); try (apply same_with_entity; intros p; apply T);
    try (apply same_with_entity; intros p; now apply same_last);
    try (eexists; split; [reflexivity|exact A]).
  - apply same_with_value. intros v. apply (same_node (Comment v)); [exact I|exact A].
  - apply same_with_value. intros v. now apply same_comment.
  - now apply same_value_text.
  - apply same_with_value. intros v. now apply same_value_quote.
  - rewrite E. unfold attr_key. cbn [n_ans n_stack]. destruct (b_stack b) as [|[k|n a k|n k] r]; cbn [same_out]; auto.
    eexists. split; [reflexivity|]. exists LAttr. split; [exact I|]. reflexivity.
  - apply V.
  - apply same_with_value. exact V.
Qed.

(** The stack is never empty. *)
Lemma top_stays p b b' : add_top p b = BOk b' -> b_stack b' <> [].
Proof. unfold add_top. destruct (b_stack b) as [|[k|n a k|n k] r]; try discriminate; intros [= <-]; discriminate. Qed.
Lemma node_stays x l b b' : add_node x l b = BOk b' -> b_stack b' <> [].
Proof. unfold add_node. destruct (b_stack b) as [|[k|n a k|n k] r]; try discriminate; intros [= <-]; discriminate. Qed.
Lemma last_stays p b b' : add_last p b = BOk b' -> b_stack b' <> [].
Proof.
  unfold add_last. destruct (b_last b), (b_stack b) as [|[k|n a k|n k] r]; try discriminate.
  - destruct k as [|[] k]; try discriminate. intros [= <-]. discriminate.
  - destruct k as [|[] k]; try discriminate. intros [= <-]. discriminate.
  - destruct a as [|[x v] a]; try discriminate. intros [= <-]. discriminate.
Qed.
Lemma push_stays b b' : push_last b = BOk b' -> b_stack b' <> [].
Proof.
  unfold push_last. destruct (b_last b), (b_stack b) as [|[k|n a k|n k] r]; try discriminate.
  - destruct k as [|[] k]; try discriminate. intros [= <-]. discriminate.
  - destruct k as [|[] k]; try discriminate. intros [= <-]. discriminate.
  - destruct a as [|[x v] a]; try discriminate. intros [= <-]. discriminate.
Qed.
Lemma pop_stays b b' : pop b = BOk b' -> b_stack b' <> [].
Proof.
  unfold pop. destruct (b_stack b) as [|f [|g r]]; try discriminate. destruct (close_into f g) as [[g' l]|]; [|discriminate].
  intros [= <-]. discriminate.
Qed.
Lemma callback_stays root t aft b b' : callback root t aft b = BOk b' -> b_stack b <> [] -> b_stack b' <> [].
Proof.
  assert (V : forall r f, (forall v, f v = BOk b' -> b_stack b' <> []) -> with_value r f = BOk b' -> b_stack b' <> []).
  { intros r f H. unfold with_value. destruct r as [[x v]| | | |]; try discriminate. apply H. }
  assert (W : forall r f, (forall v, f v = BOk b' -> b_stack b' <> []) -> with_entity r f = BOk b' -> b_stack b' <> []).
  { intros r f H. unfold with_entity. destruct (entity_part r); try discriminate. apply H. }
  assert (C : forall n, create_node root n b = BOk b' -> b_stack b <> [] -> b_stack b' <> []).
  { intros n. unfold create_node. destruct (beq n _); [intros [= <-]; auto|].
    destruct n as [|c r]; [intros E _; exact (node_stays _ _ _ _ E)|].
    destruct (c =? cQM)%N; [intros [= <-]; auto|intros E _; exact (node_stays _ _ _ _ E)]. }
  intros E Ne. unfold callback in E. destruct (t_kind t); try discriminate;
    try (injection E as <-; exact Ne); try (exact (push_stays _ _ E)); try (exact (pop_stays _ _ E)); try (exact (C _ E Ne));
    try (exact (last_stays _ _ _ E));
    try (eapply V; [|exact E]; intros v; apply top_stays); try (eapply W; [|exact E]; intros v; apply top_stays);
    try (eapply W; [|exact E]; intros v; apply last_stays);
    try (eapply V; [|exact E]; intros v; apply last_stays).
  - eapply V; [|exact E]. intros v. apply node_stays.
  - eapply V; [|exact E]. intros v. unfold append_comment.
    destruct (b_last b), (b_stack b) as [|[k|n a k|n k] r]; try discriminate;
      (destruct k as [|[] k]; try discriminate); intros [= <-]; discriminate.
  - unfold element_value_text in E. destruct (b_pi b); [exact (node_stays _ _ _ _ E)|].
    destruct (b_doctype b); [exact (node_stays _ _ _ _ E)|exact (last_stays _ _ _ E)].
  - eapply V; [|exact E]. intros v. unfold element_value_quote. destruct (b_pi b); [destruct v; [discriminate|]; apply node_stays|].
    destruct (b_doctype b); [discriminate|apply last_stays].
  - destruct (b_stack b) as [|[k|n a k|n k] r]; try discriminate. injection E as <-. discriminate.
Qed.

Lemma same_build root T aft b s : b_stack b <> [] -> agree b s -> same_out (build root T aft b) (nbuild root T aft s).
Proof.
  revert b s. induction T as [|t T IH]; intros b s Ne A; [eexists; split; [reflexivity|exact A]|].
  cbn [build nbuild]. pose proof (same_callback root t (List.concat (map t_text T) ++ aft) b s Ne A) as C.
  destruct (callback root t _ b) as [b'| | |] eqn:E; cbn [same_out bbind] in *.
  - destruct C as (s' & -> & A'). cbn [nbind]. apply IH; [exact (callback_stays _ _ _ _ _ E Ne)|exact A'].
  - now rewrite C.
  - now rewrite C.
  - exact I.
Qed.

(** ** The documents that a user sees *)
Definition plain_attr (a : attr) : vattr := VAttr None None (fst a) (snd a).
Fixpoint plain (x : node) : vnode :=
  match x with
  | Elem n a k => VElem None None n [] (map plain_attr a) (map plain k)
  | Part p => VPart p
  | Comment t => VComment t
  | PI n c => VPI n c
  | Doctype c => VDoctype c
  end.
Fixpoint view_lift (h : list nsobj) (x : node) : view h (lift x) = plain x.
Proof.
  destruct x as [n a k| | | |]; try reflexivity. cbn. f_equal.
  - rewrite map_map. apply map_ext. reflexivity.
  - induction k as [|y k IH]; [reflexivity|]. cbn. rewrite view_lift, IH. reflexivity.
Qed.

Theorem parse_plain fuel root src aft :
  match parse_buffer fuel root src aft with
  | Document d => nparse_buffer fuel root src aft = NDocument (map plain d)
  | Error e => nparse_buffer fuel root src aft = NError e
  | Undefined => nparse_buffer fuel root src aft = NUndefined
  | Aborts => nparse_buffer fuel root src aft = NAborts
  | Running => nparse_buffer fuel root src aft = NRunning
  | Unmodelled => True
  end.
Proof.
  unfold parse_buffer, nparse_buffer. destruct (detect_content_type src aft) as [c|]; [|reflexivity].
  destruct c; try reflexivity.
  assert (G : forall s, same_out (build root (tokens s) (s_rest s ++ s_aft s) (BS [FDoc []] LastNone None false))
    (nbuild root (tokens s) (s_rest s ++ s_aft s) ninit)).
  { intros s. apply same_build; [discriminate|]. exists LNone. split; [exact I|reflexivity]. }
  destruct (tokenize fuel src aft) as [s|e s| | |s]; try reflexivity; specialize (G s);
    destruct (build root _ _ _) as [b| | |]; cbn [same_out] in G; try (rewrite G; reflexivity); try exact I.
  - destruct G as (x & -> & m & L & ->). cbn [n_stack n_heap]. unfold close_all.
    destruct (b_stack b) as [|f r]; [exact I|]. destruct (close_up f r) as [d|] eqn:C; [|exact I].
    cbn [map n_close_all]. rewrite (close_up_lift f r d C). f_equal. rewrite map_map. apply map_ext. apply view_lift.
  - destruct G as (x & -> & _). reflexivity.
Qed.
