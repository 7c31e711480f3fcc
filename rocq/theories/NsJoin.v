(** The document with namespaces is the one where prefixes are a part of the
    names (JoinSpec.v). *)
From Coq Require Import NArith ZArith List Bool Arith String Lia.
From Verif Require Import Bytes BytesFacts Outcome Utf8 Quote Parser Detect Dom NsDom NsSpec NsProofs NsCore NsDoc NsNames NsPlain
  ParserSpec TokenSpec JoinSpec.
From Verif Require Grammar BuildProofs.
Import ListNotations.

(** ** Namespace objects keep their prefix *)
Definition grows (h h' : list nsobj) : Prop :=
  List.length h <= List.length h' /\ forall i, i < List.length h -> prefix_of h' i = prefix_of h i.
Lemma grows_refl h : grows h h.
Proof. split; auto. Qed.
Lemma grows_trans a b c : grows a b -> grows b c -> grows a c.
Proof. intros [L1 P1] [L2 P2]. split; [lia|]. intros i H. rewrite P2 by lia. auto. Qed.
Lemma grows_new h o : grows h (h ++ [o]).
Proof. split; [rewrite app_length; lia|]. intros i H. now apply prefix_app. Qed.
Lemma grows_set h i v : grows h (set_href h i v).
Proof. split; [rewrite set_href_length; lia|]. intros j H. apply prefix_set. Qed.

Lemma on_top_heap f l s s' : on_top f l s = NOk s' -> n_heap s' = n_heap s.
Proof. intros E. apply on_top_ok in E. destruct E as (st & _ & ->). reflexivity. Qed.
Lemma add_last_heap p s s' : n_add_last p s = NOk s' -> n_heap s' = n_heap s.
Proof. unfold n_add_last. destruct (n_last s); try discriminate; apply on_top_heap. Qed.

Lemma grows_step root t aft s s' : ncallback root t aft s = NOk s' -> grows (n_heap s) (n_heap s').
Proof.
  assert (Q : forall h : list nsobj, h = n_heap s -> grows (n_heap s) h) by (intros h ->; apply grows_refl).
  assert (V : forall r f, (forall v, f v = NOk s' -> grows (n_heap s) (n_heap s')) -> n_with_value r f = NOk s' -> grows (n_heap s) (n_heap s')).
  { intros r f H. unfold n_with_value. destruct r as [[x v]| | | |]; try discriminate. apply H. }
  assert (W : forall r f, (forall v, f v = NOk s' -> grows (n_heap s) (n_heap s')) -> n_with_entity r f = NOk s' -> grows (n_heap s) (n_heap s')).
  { intros r f H. unfold n_with_entity. destruct (entity_part r); try discriminate. apply H. }
  assert (P : forall p, n_add_top p s = NOk s' -> grows (n_heap s) (n_heap s')) by (intros p E; apply Q; exact (on_top_heap _ _ _ _ E)).
  assert (L : forall p, n_add_last p s = NOk s' -> grows (n_heap s) (n_heap s')) by (intros p E; apply Q; exact (add_last_heap _ _ _ E)).
  assert (A : forall v, NsDom.attr_value v s = NOk s' -> grows (n_heap s) (n_heap s')).
  { intros v. unfold NsDom.attr_value. destruct (n_decl s) as [n|]; [|apply L]. unfold update_href.
    assert (G : forall x, grows (n_heap s) (n_heap (match n with NsNum i => set_heap (set_href (n_heap s) i x) s | NsXml => s end))).
    { intros x. destruct n; cbn; [apply grows_refl|apply grows_set]. }
    specialize (G v). set (s1 := match n with NsXml => _ | NsNum i => _ end) in *. clearbody s1.
    destruct v; [destruct (n_default s); [destruct (nsref_eqb n n0)|]|]; try (intros [= <-]; exact G).
    unfold nbind. destruct (on_top _ _ _) as [s3| | |] eqn:O; try discriminate. intros [= <-]. apply on_top_heap in O. cbn in O |- *. rewrite O. exact G. }
  assert (C : forall n, n_create_node root n s = NOk s' -> grows (n_heap s) (n_heap s')).
  { assert (C1 : forall n, n_create_element root n s = NOk s' -> grows (n_heap s) (n_heap s')).
    { intros n. unfold n_create_element. set (s1 := match n_last s with LNone => _ | _ => s end).
      assert (H1 : n_heap s1 = n_heap s) by (unfold s1; destruct (n_last s), root as [x|]; try reflexivity; now destruct (beq n x)).
      clearbody s1. unfold element_ns. rewrite H1. destruct (n_ens s1); [destruct (search_ns _ _ _ _)|]; intros E; apply on_top_heap in E; cbn in E; rewrite E;
        solve [apply grows_refl | apply grows_new]. }
    intros n. unfold n_create_node. destruct (beq n _); [intros [= <-]; apply grows_refl|].
    destruct n as [|c r]; [apply C1|]. destruct (c =? cQM)%N; [intros [= <-]; apply grows_refl|apply C1]. }
  assert (Pu : n_push_last s = NOk s' -> grows (n_heap s) (n_heap s')).
  { unfold n_push_last. destruct (n_last s); try discriminate.
    - destruct (n_stack s) as [|[[|[]]|? [|[]]| |]]; try discriminate; intros [= <-]; apply grows_refl.
    - destruct (n_stack s) as [|[]]; try discriminate. destruct (last_attr e) as [[]|]; try discriminate. intros [= <-]; apply grows_refl.
    - destruct (n_stack s); try discriminate. intros [= <-]; apply grows_refl. }
  assert (Po : n_pop s = NOk s' -> grows (n_heap s) (n_heap s')).
  { unfold n_pop. destruct (n_stack s) as [|f [|g r]]; try discriminate. destruct (n_close_into f g) as [[]|]; try discriminate. intros [= <-]; apply grows_refl. }
  unfold ncallback. destruct (t_kind t); try (intros [= <-]; apply grows_refl); try (exact Pu); try (exact Po); try (apply C); try (apply L);
    try (apply V; intros v; apply P); try (apply W; intros v; apply P); try (apply W; intros v; apply L).
  - apply V. intros v E. apply Q. exact (on_top_heap _ _ _ _ E).
  - apply V. intros v. unfold n_append_comment. destruct (n_last s); try discriminate. intros E. apply Q. exact (on_top_heap _ _ _ _ E).
  - unfold n_element_value_text. destruct (n_pi s); [|destruct (n_doctype s); [|apply L]]; intros E; apply Q; apply on_top_heap in E; exact E.
  - apply V. intros v. unfold n_element_value_quote. destruct (n_pi s); [destruct v; [discriminate|]|destruct (n_doctype s); [discriminate|apply L]];
      intros E; apply Q; apply on_top_heap in E; exact E.
  - unfold attr_ns. destruct (n_decl s); intros [= <-]; apply grows_refl.
  - unfold attr_key. destruct (n_ans s) as [p|].
    + destruct (top_elem s) as [[[e k] r]|]; [|discriminate]. unfold new_ns.
      destruct (search_ns _ _ _ _); [|destruct (find_def (n_heap s) (Some p) (e_defs e))]; intros [= <-]; cbn; solve [apply grows_refl | apply grows_new].
    + destruct (n_stack s) as [|[] ]; try discriminate. intros [= <-]. apply grows_refl.
  - apply A.
  - apply V. exact A.
  - unfold ns_declaration. destruct (top_elem s) as [[[e k] r]|]; [|discriminate].
    set (p := match t_suffix t with [] => None | _ :: n => Some (c_str n) end). clearbody p.
    unfold new_ns. destruct (find_def (n_heap s) p (e_defs e)); intros E; cbv beta iota zeta in E; injection E as <-; destruct p; cbn; solve [apply grows_refl | apply grows_new].
Qed.

Lemma grows_build root T aft s s' : nbuild root T aft s = NOk s' -> grows (n_heap s) (n_heap s').
Proof.
  revert s. induction T as [|t T IH]; intros s E; cbn [nbuild] in E; [injection E as <-; apply grows_refl|].
  unfold nbind in E. destruct (ncallback root t _ s) as [s1| | |] eqn:C; try discriminate.
  exact (grows_trans _ _ _ (grows_step _ _ _ _ _ C) (IH _ E)).
Qed.

(** ** The document without namespaces, for the prefixes [pf] of the objects *)
Section Lower.
Variable pf : nat -> option bytes.
Definition rprefix (n : option nsref) : option bytes :=
  match n with None => None | Some NsXml => Some (B "xml") | Some (NsNum i) => pf i end.
Definition low_attr (a : nattr) : attr := (qname (rprefix (a_ns a)) (a_name a), a_parts a).
Fixpoint low (x : nnode) : node :=
  match x with
  | NElem e k => Elem (qname (rprefix (e_ns e)) (e_name e)) (map low_attr (e_attrs e)) (map low k)
  | NPart p => Part p
  | NComment t => Comment t
  | NPI n c => PI n c
  | NDoctype c => Doctype c
  end.
Definition low_frame (g : gframe) : frame :=
  match g with
  | GDoc k => FDoc (map low k)
  | GElem e k => FElem (qname (rprefix (e_ns e)) (e_name e)) (rev (map low_attr (e_attrs e))) (map low k)
  | GAttr n x k => FAttr (qname (rprefix n) x) k
  | GSame => FDoc []
  end.

Record shape (b : bst) (s : nst) : Prop := Shape {
  sh_stack : b_stack b = map low_frame (n_stack s);
  sh_same : Forall (fun g => g <> GSame) (n_stack s);
  sh_last : lasts (b_last b) (n_last s);
  sh_pi : b_pi b = n_pi s;
  sh_doctype : b_doctype b = n_doctype s }.
Definition ok_out (x : bout) (s : nst) : Prop :=
  match x with BOk b => shape b s | BUnmodelled => True | _ => False end.

Lemma low_part p k : map low (n_add_part p k) = add_part_kid p (map low k).
Proof. destruct p as [t|n]; [|reflexivity]. cbn. destruct k as [|[| [u|m] | | |] k]; reflexivity. Qed.
Lemma low_part_rev p k : map low (rev (n_add_part p (rev k))) = rev (add_part_kid p (rev (map low k))).
Proof. rewrite map_rev, low_part, map_rev. reflexivity. Qed.

Lemma top_same g r : Forall (fun x => x <> GSame) (g :: r) -> g <> GSame /\ Forall (fun x => x <> GSame) r.
Proof. intros H. inversion H; subst. auto. Qed.

Lemma low_top p b s s' : n_add_top p s = NOk s' -> shape b s -> ok_out (add_top p b) s'.
Proof.
  intros E [S1 S2 S3 S4 S5]. apply on_top_ok in E. destruct E as (st & E & ->). unfold add_top. rewrite S1.
  destruct (n_stack s) as [|[k|e k|n x ps|] r]; [discriminate| | | |]; apply top_same in S2 || idtac; destruct S2 as [S2 S2']; try contradiction;
    cbn in E; injection E as <-; split; cbn; rewrite ?low_part; auto; constructor; auto; discriminate.
Qed.
Lemma low_node x l l' b s s' : n_add_node x l' s = NOk s' -> lasts l l' -> shape b s -> ok_out (add_node (low x) l b) s'.
Proof.
  intros E L [S1 S2 S3 S4 S5]. apply on_top_ok in E. destruct E as (st & E & ->). unfold add_node. rewrite S1.
  destruct (n_stack s) as [|[k|e k|n y ps|] r]; [discriminate| | | |]; apply top_same in S2; destruct S2 as [S2 S2']; try contradiction;
    cbn in E; try discriminate; injection E as <-; split; cbn; auto; constructor; auto; discriminate.
Qed.
Lemma last_attr_split e a e' : last_attr e = Some (a, e') ->
  e_attrs e = e_attrs e' ++ [a] /\ e_ns e' = e_ns e /\ e_name e' = e_name e.
Proof.
  unfold last_attr. destruct (rev (e_attrs e)) as [|x r] eqn:R; [discriminate|]. intros [= <- <-]. cbn.
  rewrite <- (rev_involutive (e_attrs e)), R. cbn. auto.
Qed.
Lemma low_last p b s s' : n_add_last p s = NOk s' -> shape b s -> ok_out (add_last p b) s'.
Proof.
  intros E [S1 S2 S3 S4 S5]. unfold n_add_last in E. unfold add_last. rewrite S1.
  destruct (n_last s) eqn:L; try discriminate; destruct (b_last b) eqn:Lb; try contradiction; try exact I;
    apply on_top_ok in E; destruct E as (st & E & ->);
    (destruct (n_stack s) as [|[k|e k|n y ps|] r]; [discriminate| | | |]; apply top_same in S2; destruct S2 as [S2 S2']; try contradiction; cbn in E; try discriminate).
  - destruct k as [|[e k1| | | |] k]; try discriminate. injection E as <-. cbn. split; cbn; rewrite ?low_part_rev; auto. constructor; auto; discriminate.
  - destruct k as [|[e1 k1| | | |] k]; try discriminate. injection E as <-. cbn. split; cbn; rewrite ?low_part_rev; auto. constructor; auto; discriminate.
  - destruct (last_attr e) as [[a e']|] eqn:La; [|discriminate]. injection E as <-. apply last_attr_split in La. destruct La as (A1 & A2 & A3).
    cbn [map low_frame]. rewrite A1, map_app, rev_app_distr. cbn [map rev app low_attr]. split; cbn; auto; [|constructor; auto; discriminate].
    rewrite A2, A3, map_app, rev_app_distr. reflexivity.
Qed.
Lemma low_push b s s' : n_push_last s = NOk s' -> shape b s -> ok_out (push_last b) s'.
Proof.
  intros E [S1 S2 S3 S4 S5]. unfold n_push_last in E. unfold push_last. rewrite S1.
  destruct (n_last s) eqn:L; try discriminate; destruct (b_last b) eqn:Lb; try contradiction; try exact I;
    (destruct (n_stack s) as [|[k|e k|n y ps|] r]; try discriminate; apply top_same in S2; destruct S2 as [S2 S2']; try contradiction).
  - destruct k as [|[e k1| | | |] k]; try discriminate. injection E as <-. cbn. split; cbn; rewrite ?map_rev; auto. repeat (constructor; auto; try discriminate).
  - destruct k as [|[e1 k1| | | |] k]; try discriminate. injection E as <-. cbn. split; cbn; rewrite ?map_rev; auto. repeat (constructor; auto; try discriminate).
  - destruct (last_attr e) as [[a e']|] eqn:La; [|discriminate]. injection E as <-. apply last_attr_split in La. destruct La as (A1 & A2 & A3).
    cbn [map low_frame]. rewrite A1, map_app, rev_app_distr. cbn [map rev app low_attr]. split; cbn; auto; [|repeat (constructor; auto; try discriminate)].
    rewrite A2, A3. reflexivity.
Qed.
Lemma low_close f g g' l : n_close_into f g = Some (g', l) -> f <> GSame -> g <> GSame ->
  g' <> GSame /\ exists l', lasts l' l /\ close_into (low_frame f) (low_frame g) = Some (low_frame g', l').
Proof.
  destruct f as [k|e k|n y ps|], g as [k1|e1 k1|n1 y1 ps1|]; cbn; try discriminate; try congruence; intros [= <- <-] _ _; (split; [discriminate|]); cbn.
  - exists LastKid. rewrite ?map_rev, ?rev_involutive. split; [exact I|reflexivity].
  - exists LastKid. rewrite ?map_rev, ?rev_involutive. split; [exact I|reflexivity].
  - exists LastAttr. split; [exact I|]. rewrite map_app, rev_app_distr. reflexivity.
Qed.
Lemma low_pop b s s' : n_pop s = NOk s' -> shape b s -> ok_out (pop b) s'.
Proof.
  intros E [S1 S2 S3 S4 S5]. unfold n_pop in E. unfold pop. rewrite S1. destruct (n_stack s) as [|f [|g r]]; try discriminate.
  apply top_same in S2; destruct S2 as [S2 S2']. apply top_same in S2'; destruct S2' as [S2' S2''].
  destruct (n_close_into f g) as [[g' l]|] eqn:C; [|discriminate]. injection E as <-.
  destruct (low_close f g g' l C S2 S2') as (G & l' & Ll & Cl). cbn [map]. rewrite Cl. split; cbn; auto.
Qed.
Lemma low_close_up f r d : n_close_up f r = Some d -> Forall (fun g => g <> GSame) (f :: r) -> close_up (low_frame f) (map low_frame r) = Some (map low d).
Proof.
  revert f. induction r as [|g r IH]; intros f E S; cbn in E |- *; apply top_same in S; destruct S as [S S'].
  - destruct f; try discriminate. injection E as <-. cbn. rewrite map_rev. reflexivity.
  - destruct (n_close_into f g) as [[g' l]|] eqn:C; [|discriminate]. apply top_same in S'; destruct S' as [S' S''].
    destruct (low_close f g g' l C S S') as (G & l' & _ & ->). apply IH; [exact E|]. constructor; auto.
Qed.
Lemma low_value_text t b s s' : n_element_value_text t s = NOk s' -> shape b s -> ok_out (element_value_text t b) s'.
Proof.
  intros E S. pose proof S as [S1 S2 S3 S4 S5]. unfold n_element_value_text in E. unfold element_value_text. rewrite S4, S5.
  destruct (n_pi s) eqn:P; [|destruct (n_doctype s) eqn:D].
  - eapply (low_node (NPI _ _)); [exact E|now apply keep_lasts|]. split; cbn; auto.
  - eapply (low_node (NDoctype _)); [exact E|now apply keep_lasts|]. split; cbn; auto. now rewrite P.
  - eapply low_last; [exact E|exact S].
Qed.
Lemma low_value_quote v b s s' : n_element_value_quote v s = NOk s' -> shape b s -> ok_out (element_value_quote v b) s'.
Proof.
  intros E S. pose proof S as [S1 S2 S3 S4 S5]. unfold n_element_value_quote in E. unfold element_value_quote. rewrite S4, S5.
  destruct (n_pi s) eqn:P; [destruct v as [|c v]; [discriminate|]|destruct (n_doctype s) eqn:D; [exact I|]].
  - eapply (low_node (NPI _ _)); [exact E|now apply keep_lasts|]. split; cbn; auto.
  - eapply low_last; [exact E|exact S].
Qed.
Lemma low_comment v b s s' : n_append_comment v s = NOk s' -> shape b s -> ok_out (append_comment v b) s'.
Proof.
  intros E [S1 S2 S3 S4 S5]. unfold n_append_comment in E. unfold append_comment. rewrite S1.
  destruct (n_last s) eqn:L; try discriminate; destruct (b_last b) eqn:Lb; try contradiction; try exact I.
  apply on_top_ok in E; destruct E as (st & E & ->).
    (destruct (n_stack s) as [|[k|e k|n y ps|] r]; [discriminate| | | |]; apply top_same in S2; destruct S2 as [S2 S2']; try contradiction; cbn in E; try discriminate).
  - destruct k as [|[e k1| | | |] k]; try discriminate. injection E as <-. cbn. split; cbn; auto. constructor; auto; discriminate.
  - destruct k as [|[e1 k1| | | |] k]; try discriminate. injection E as <-. cbn. split; cbn; auto. constructor; auto; discriminate.
Qed.

Definition quiet (s : nst) : Prop := n_ens s = None /\ n_ans s = None /\ n_decl s = None.
Lemma quiet_same s s' : quiet s -> n_ens s' = n_ens s -> n_ans s' = n_ans s -> n_decl s' = n_decl s -> quiet s'.
Proof. intros (A & C & D) E1 E2 E3. unfold quiet. rewrite E1, E2, E3. auto. Qed.
Lemma on_top_quiet f l s s' : on_top f l s = NOk s' -> quiet s -> quiet s'.
Proof. intros E Q. apply on_top_ok in E. destruct E as (st & _ & ->). exact Q. Qed.
Lemma add_last_quiet p s s' : n_add_last p s = NOk s' -> quiet s -> quiet s'.
Proof. unfold n_add_last. destruct (n_last s); try discriminate; apply on_top_quiet. Qed.
Lemma create_quiet root n s s' : n_create_element root n s = NOk s' -> n_ans s = None -> n_decl s = None -> quiet s'.
Proof.
  unfold n_create_element. set (s1 := match n_last s with LNone => _ | _ => s end).
  assert (H1 : n_ans s1 = n_ans s /\ n_decl s1 = n_decl s) by (unfold s1; destruct (n_last s), root as [x|]; auto; now destruct (beq n x)).
  clearbody s1. destruct H1 as [H1 H2]. intros E A D. unfold element_ns in E.
  destruct (n_ens s1); [destruct (search_ns _ _ _ _)|]; (apply on_top_quiet in E; [exact E|]); unfold quiet; cbn; rewrite H1, H2; auto.
Qed.
Lemma quiet_step root t aft s s' : no_namespace (t_kind t) -> ncallback root t aft s = NOk s' -> quiet s -> quiet s'.
Proof.
  intros (N1 & N2 & N3 & N4) E Q. revert E.
  assert (V : forall r f, (forall v, f v = NOk s' -> quiet s') -> n_with_value r f = NOk s' -> quiet s').
  { intros r f H. unfold n_with_value. destruct r as [[x v]| | | |]; try discriminate. apply H. }
  assert (W : forall r f, (forall v, f v = NOk s' -> quiet s') -> n_with_entity r f = NOk s' -> quiet s').
  { intros r f H. unfold n_with_entity. destruct (entity_part r); try discriminate. apply H. }
  assert (P : forall p, n_add_top p s = NOk s' -> quiet s') by (intros p E; exact (on_top_quiet _ _ _ _ E Q)).
  assert (L : forall p, n_add_last p s = NOk s' -> quiet s') by (intros p E; exact (add_last_quiet _ _ _ E Q)).
  assert (A : forall v, NsDom.attr_value v s = NOk s' -> quiet s').
  { intros v. unfold NsDom.attr_value. destruct Q as (_ & _ & ->). apply L. }
  assert (C : forall n, n_create_node root n s = NOk s' -> quiet s').
  { assert (C1 : forall n, n_create_element root n s = NOk s' -> quiet s') by (intros n E; exact (create_quiet _ _ _ _ E (proj1 (proj2 Q)) (proj2 (proj2 Q)))).
    intros n. unfold n_create_node. destruct (beq n _); [intros [= <-]; exact Q|].
    destruct n as [|c r]; [apply C1|]. destruct (c =? cQM)%N; [intros [= <-]; exact Q|apply C1]. }
  assert (Pu : n_push_last s = NOk s' -> quiet s').
  { unfold n_push_last. destruct (n_last s); try discriminate.
    - destruct (n_stack s) as [|[[|[]]|? [|[]]| |]]; try discriminate; intros [= <-]; exact Q.
    - destruct (n_stack s) as [|[]]; try discriminate. destruct (last_attr e) as [[]|]; try discriminate. intros [= <-]; exact Q.
    - destruct (n_stack s); try discriminate. intros [= <-]; exact Q. }
  assert (Po : n_pop s = NOk s' -> quiet s').
  { unfold n_pop. destruct (n_stack s) as [|f [|g r]]; try discriminate. destruct (n_close_into f g) as [[]|]; try discriminate. intros [= <-]; exact Q. }
  unfold ncallback. destruct (t_kind t); try (intros [= <-]; exact Q); try contradiction; try (exact Pu); try (exact Po); try (apply C); try (apply L);
    try (apply V; intros v; apply P); try (apply W; intros v; apply P); try (apply W; intros v; apply L).
  - apply V. intros v E. exact (on_top_quiet _ _ _ _ E Q).
  - apply V. intros v. unfold n_append_comment. destruct (n_last s); try discriminate. intros E. exact (on_top_quiet _ _ _ _ E Q).
  - unfold n_element_value_text. destruct (n_pi s); [|destruct (n_doctype s); [|apply L]]; intros E; apply on_top_quiet in E; auto.
  - apply V. intros v. unfold n_element_value_quote. destruct (n_pi s); [destruct v; [discriminate|]|destruct (n_doctype s); [discriminate|apply L]];
      intros E; apply on_top_quiet in E; auto.
  - unfold attr_key. pose proof Q as (_ & -> & _). destruct (n_stack s) as [|[] ]; try discriminate. intros [= <-]. exact Q.
  - apply A.
  - apply V. exact A.
Qed.

(** ** Steps *)
Definition mono (h : list nsobj) : Prop := forall i, i < List.length h -> pf i = prefix_of h i.
Lemma default_none s n : Inv s -> mono (n_heap s) -> n_default s = Some n -> rprefix (Some n) = None.
Proof. intros [[_ C2 _ _] _] M D. destruct (C2 n D) as (d & -> & D2 & D3 & _). cbn. now rewrite M. Qed.
Lemma mono_grows h h' : grows h h' -> mono h' -> mono h.
Proof. intros [L P] M i H. rewrite M by lia. auto. Qed.

Lemma low_create_element root name b s s' : n_create_element root name s = NOk s' -> shape b s -> Inv s ->
  mono (n_heap s') -> grows (n_heap s) (n_heap s') ->
  (forall x, root = Some x -> beq name x = beq (qname (n_ens s) name) x) ->
  ok_out (create_element_node root (qname (n_ens s) name) b) s'.
Proof.
  intros E S In M G R. pose proof S as [S1 S2 S3 S4 S5]. unfold n_create_element in E. unfold create_element_node.
  set (s1 := match n_last s with LNone => _ | _ => s end) in E.
  set (b1 := match b_last b with LastNone => _ | _ => b end).
  assert (H : shape b1 s1 /\ n_heap s1 = n_heap s /\ n_ens s1 = n_ens s /\ n_default s1 = n_default s).
  { unfold s1, b1. destruct (b_last b) eqn:Lb, (n_last s) eqn:Ls; try contradiction; try (split; [exact S|auto]).
    destruct root as [x|]; [|split; [exact S|auto]]. rewrite <- (R x eq_refl). destruct (beq name x); [split; [exact S|auto]|].
    split; [|auto]. split; cbn; auto.
    - now rewrite S1.
    - constructor; auto; discriminate. }
  clearbody s1 b1. destruct H as (Sh & Hh & He & Hd). unfold element_ns in E. rewrite Hh, He, Hd in E.
  assert (Done : forall n h defs, rprefix n = n_ens s ->
    n_add_node (NElem (ED n name defs []) []) LKid (set_ens None (set_heap h s1)) = NOk s' ->
    ok_out (add_node (Elem (qname (n_ens s) name) [] []) LastKid b1) s').
  { intros n h defs P E1. rewrite <- P. eapply (low_node (NElem (ED n name defs []) [])); [exact E1|exact I|].
    destruct Sh. split; auto. }
  destruct (n_ens s) as [p|] eqn:En.
  - destruct (search_ns (n_heap s) p [] (n_stack s1)) as [n|] eqn:Se.
    + pose proof (on_top_heap _ _ _ _ E) as Hf. cbn in Hf. eapply Done; [|exact E]. apply search_prefix in Se. destruct Se as [A1 A2].
      destruct n as [|i]; cbn in A1 |- *; [exact A1|]. rewrite M by (rewrite Hf; exact A2). rewrite Hf. exact A1.
    + pose proof (on_top_heap _ _ _ _ E) as Hf. cbn in Hf. eapply Done; [|exact E]. cbn. rewrite M by (rewrite Hf, app_length; cbn; lia).
      rewrite Hf. apply prefix_new.
  - eapply Done; [|exact E]. destruct (n_default s) as [n|] eqn:Dn; [|reflexivity].
    exact (default_none s n In (mono_grows _ _ G M) Dn).
Qed.
Lemma low_create root name b s s' : n_create_node root name s = NOk s' -> shape b s -> Inv s -> n_ens s = None ->
  mono (n_heap s') -> grows (n_heap s) (n_heap s') -> ok_out (create_node root name b) s'.
Proof.
  intros E S In En M G. unfold n_create_node in E. unfold create_node.
  assert (C : n_create_element root name s = NOk s' -> ok_out (create_element_node root name b) s').
  { intros E1. pose proof (low_create_element root name b s s' E1 S In M G) as H. rewrite En in H. cbn [qname] in H. apply H. reflexivity. }
  destruct (beq name (B "!DOCTYPE")).
  - injection E as <-. destruct S. split; auto.
  - destruct name as [|c r]; [exact (C E)|]. destruct (c =? cQM)%N; [|exact (C E)]. injection E as <-. destruct S. split; auto.
Qed.

Lemma low_with_value r f g s' : n_with_value r g = NOk s' -> (forall v, g v = NOk s' -> ok_out (f v) s') -> ok_out (with_value r f) s'.
Proof. unfold n_with_value, with_value. destruct r as [[x v]| | | |]; try discriminate. auto. Qed.
Lemma low_with_entity r f g s' : n_with_entity r g = NOk s' -> (forall v, g v = NOk s' -> ok_out (f v) s') -> ok_out (with_entity r f) s'.
Proof. unfold n_with_entity, with_entity. destruct (entity_part r); try discriminate. auto. Qed.

Lemma low_step root t aft b s s' : no_namespace (t_kind t) -> ncallback root t aft s = NOk s' -> shape b s -> quiet s -> Inv s ->
  mono (n_heap s') -> ok_out (callback root t aft b) s'.
Proof.
  intros (N1 & N2 & N3 & N4) E S Q In M. pose proof (grows_step _ _ _ _ _ E) as G. unfold ncallback in E. unfold callback.
  assert (A : forall v, NsDom.attr_value v s = NOk s' -> ok_out (add_last (PText v) b) s').
  { intros v. unfold NsDom.attr_value. destruct Q as (_ & _ & ->). intros E1. exact (low_last _ _ _ _ E1 S). }
  destruct (t_kind t); try contradiction; try (injection E as <-; exact S); try exact (low_push _ _ _ E S); try exact (low_pop _ _ _ E S);
    try exact (low_create _ _ _ _ _ E S In (proj1 Q) M G);
    try (apply (low_with_value _ _ _ _ E); intros v E1; exact (low_top _ _ _ _ E1 S));
    try (apply (low_with_entity _ _ _ _ E); intros v E1; exact (low_top _ _ _ _ E1 S));
    try (apply (low_with_entity _ _ _ _ E); intros v E1; exact (low_last _ _ _ _ E1 S)).
  - apply (low_with_value _ _ _ _ E). intros v E1. exact (low_node (NComment v) LastKid LKid _ _ _ E1 I S).
  - apply (low_with_value _ _ _ _ E). intros v E1. exact (low_comment _ _ _ _ E1 S).
  - exact (low_value_text _ _ _ _ E S).
  - apply (low_with_value _ _ _ _ E). intros v E1. exact (low_value_quote _ _ _ _ E1 S).
  - unfold attr_key in E. pose proof Q as (_ & Q2 & _). rewrite Q2 in E. destruct S as [S1 S2 S3 S4 S5]. rewrite S1.
    destruct (n_stack s) as [|[k|e k|n y ps|] r]; try discriminate. apply top_same in S2; destruct S2 as [S2 S2']. injection E as <-.
    cbn. split; cbn; auto; [|constructor; auto; discriminate]. rewrite map_app, rev_app_distr. reflexivity.
  - exact (A _ E).
  - apply (low_with_value _ _ _ _ E). exact A.
Qed.

(** A prefixed attribute. *)
Lemma low_prefixed_key x p b s s' : attr_key x s = NOk s' -> n_ans s = Some p -> n_ens s = None -> n_decl s = None -> shape b s -> Inv s ->
  mono (n_heap s') -> quiet s' /\
  exists n a k r, b_stack b = FElem n a k :: r /\
    shape (with_stack b (FElem n ((p ++ cCOLON :: c_str x, []) :: a) k :: r) LastAttr) s'.
Proof.
  intros E Ea Ee Ed [S1 S2 S3 S4 S5] In M. unfold attr_key in E. rewrite Ea in E. unfold top_elem in E.
  destruct (n_stack s) as [|[k|e k|n y ps|] r] eqn:St; try discriminate. destruct (no_elem k); [|discriminate].
  apply top_same in S2; destruct S2 as [S2 S2'].
  assert (Done : forall m h defs, rprefix m = Some p ->
    s' = set_ans None (set_heap h (set_stack (GElem (ED (e_ns e) (e_name e) defs (e_attrs e ++ [NAttr m (c_str x) []])) k :: r) NsDom.LAttr s)) ->
    quiet s' /\ exists n a k0 r0, b_stack b = FElem n a k0 :: r0 /\
      shape (with_stack b (FElem n ((p ++ cCOLON :: c_str x, []) :: a) k0 :: r0) LastAttr) s').
  { intros m h defs P ->. split; [unfold quiet; cbn; auto|]. do 4 eexists. split; [rewrite S1; cbn; reflexivity|].
    split; cbn; auto; [|constructor; auto; discriminate]. rewrite map_app, rev_app_distr.
    change (map low_attr [NAttr m (c_str x) []]) with [(qname (rprefix m) (c_str x), @nil part)]. rewrite P. reflexivity. }
  destruct (search_ns (n_heap s) p (e_defs e) r) as [m|] eqn:Se.
  - assert (H : ref_prefix (n_heap s) (Some m) = Some p /\ match m with NsNum i => i < List.length (n_heap s) | NsXml => True end).
    { unfold search_ns in Se. destruct (beq p (B "xml")) eqn:X.
      - injection Se as <-. apply beq_eq in X. subst p. split; [reflexivity|exact I].
      - destruct (find_def (n_heap s) (Some p) (e_defs e)) as [i|] eqn:Fd.
        + injection Se as <-. apply find_def_some in Fd. destruct Fd as [_ Fd]. cbn. split; [exact Fd|].
          unfold prefix_of in Fd. destruct (nth_error (n_heap s) i) eqn:Nt; [|discriminate]. apply nth_error_Some. congruence.
        + destruct (search_up_prefix _ _ _ _ Se) as (i & -> & Fe). cbn. split; [exact Fe|].
          unfold prefix_of in Fe. destruct (nth_error (n_heap s) i) eqn:Nt; [|discriminate]. apply nth_error_Some. congruence. }
    injection E as <-. destruct H as [H1 H2]. eapply Done; [|reflexivity]. destruct m as [|i]; [exact H1|]. cbn in H1, M |- *. rewrite M by exact H2. exact H1.
  - assert (Fd : find_def (n_heap s) (Some p) (e_defs e) = None).
    { unfold search_ns in Se. destruct (beq p (B "xml")); [discriminate|]. destruct (find_def _ _ _); [discriminate|reflexivity]. }
    unfold new_ns in E. rewrite Fd in E. injection E as <-. eapply Done; [|reflexivity]. cbn in M |- *.
    rewrite M by (rewrite app_length; cbn; lia). apply prefix_new.
Qed.

(** A declaration. *)
Lemma low_declare sfx b s s1 : ns_declaration sfx s = NOk s1 -> shape b s -> quiet s -> Inv s -> mono (n_heap s1) ->
  shape b s1 /\ n_ens s1 = None /\ n_ans s1 = None /\
  exists i, n_decl s1 = Some (NsNum i) /\ (sfx <> [] -> prefix_of (n_heap s1) i <> None).
Proof.
  intros E [S1 S2 S3 S4 S5] (Q1 & Q2 & Q3) In M. unfold ns_declaration, top_elem in E.
  destruct (n_stack s) as [|[k|e k|n y ps|] r] eqn:St; try discriminate. destruct (no_elem k); [|discriminate].
  apply top_same in S2; destruct S2 as [S2 S2'].
  set (p := match sfx with [] => None | _ :: n => Some (c_str n) end) in E.
  assert (Hp : sfx <> [] -> p <> None) by (unfold p; destruct sfx; [contradiction|discriminate]). clearbody p.
  assert (Done : forall i h defs, i < List.length h -> prefix_of h i = p ->
    s1 = set_decl (Some (NsNum i))
      (match p with
       | None => set_default (Some (NsNum i)) (set_heap h (set_stack (GElem (ED (match p, e_ns e with None, None => Some (NsNum i) | _, x => x end) (e_name e) defs (e_attrs e)) k :: r) (n_last s) s))
       | Some _ => set_heap h (set_stack (GElem (ED (match p, e_ns e with None, None => Some (NsNum i) | _, x => x end) (e_name e) defs (e_attrs e)) k :: r) (n_last s) s)
       end) ->
    shape b s1 /\ n_ens s1 = None /\ n_ans s1 = None /\
    exists i, n_decl s1 = Some (NsNum i) /\ (sfx <> [] -> prefix_of (n_heap s1) i <> None)).
  { intros i h defs Hi Hpi ->. split; [|split; [|split]].
    - split; try (destruct p; cbn; solve [auto | constructor; auto; discriminate]).
      rewrite S1. destruct p as [p|]; cbn [map low_frame n_stack set_decl set_default set_heap set_stack e_ns e_name e_attrs].
      + destruct (e_ns e); reflexivity.
      + destruct (e_ns e); [reflexivity|]. cbn [rprefix]. cbn in M. rewrite M by exact Hi. rewrite Hpi. reflexivity.
    - destruct p; exact Q1.
    - destruct p; exact Q2.
    - exists i. split; [reflexivity|]. intros Ne. destruct p; cbn; rewrite Hpi; auto. }
  unfold new_ns in E. destruct (find_def (n_heap s) p (e_defs e)) as [j|] eqn:Fd; cbv beta iota zeta in E.
  - apply find_def_some in Fd. destruct Fd as [Fi Fp]. eapply Done; [|exact Fp|injection E as <-; destruct p; reflexivity].
    destruct In as [[C1 _ _ _] _]. rewrite St in C1. cbn in C1. destruct C1 as ([C1 _] & _). apply C1. rewrite ids_cons. apply in_or_app. now left.
  - eapply Done; [| |injection E as <-; destruct p; reflexivity].
    + rewrite app_length. cbn. lia.
    + apply prefix_new.
Qed.
Lemma low_uri v i b s s' : NsDom.attr_value v s = NOk s' -> n_decl s = Some (NsNum i) -> n_ens s = None -> n_ans s = None -> shape b s -> Inv s ->
  v <> [] \/ prefix_of (n_heap s) i <> None -> shape b s' /\ quiet s'.
Proof.
  intros E D En Ea [S1 S2 S3 S4 S5] In H. unfold NsDom.attr_value in E. rewrite D in E. unfold update_href in E.
  assert (E1 : s' = set_decl None (set_heap (set_href (n_heap s) i v) s)).
  { destruct v as [|c v]; [|injection E as <-; reflexivity]. destruct H as [H|H]; [contradiction|].
    destruct (n_default s) as [d|] eqn:Dd; [|injection E as <-; reflexivity].
    destruct In as [[_ C2 _ _] _]. destruct (C2 d Dd) as (j & -> & _ & C & _). cbn [nsref_eqb] in E.
    destruct (Nat.eqb_spec i j) as [->|]; [contradiction|]. injection E as <-. reflexivity. }
  subst s'. split; [split; cbn; auto|unfold quiet; cbn; auto].
Qed.

Definition neutral (k : kind) : Prop := k = Kwhitespace \/ k = Kequals \/ k = Kns_colon \/ k = Kattr_ns.
Lemma neutral_build root M T aft s : Forall (fun t => neutral (t_kind t)) M -> n_decl s <> None ->
  nbuild root (M ++ T) aft s = nbuild root T aft s.
Proof.
  intros F D. induction F as [|t M H F IH]; [reflexivity|]. cbn [app nbuild].
  assert (C : forall mem, ncallback root t mem s = NOk s).
  { intros mem. unfold ncallback. destruct H as [->|[->|[->| ->]]]; try reflexivity. unfold attr_ns. destruct (n_decl s); [reflexivity|contradiction]. }
  rewrite C. exact IH.
Qed.
Lemma declaration_split D : declaration D -> exists t M v, D = t :: M ++ [v] /\ t_kind t = Kns_declaration /\
  Forall (fun t => neutral (t_kind t)) M /\ uri_value v /\ (t_suffix t = [] -> not_empty v).
Proof.
  assert (Sp : forall W, TokenSpec.spaces W -> Forall (fun t => neutral (t_kind t)) W).
  { intros W F. eapply Forall_impl; [|exact F]. intros t [K _]. left. exact K. }
  intros []; unfold neutral in *.
  - exists t, (W ++ e :: X), v. split; [rewrite <- app_assoc; reflexivity|]. repeat split; auto.
    apply Forall_app. split; [auto|]. constructor; auto.
  - exists t, (c :: n :: W ++ e :: X), v. split; [cbn; rewrite <- app_assoc; reflexivity|]. repeat split; auto; [|contradiction].
    do 2 (constructor; [auto|]). apply Forall_app. split; [auto|]. constructor; auto.
Qed.
End Lower.

(** ** All tokens *)
Lemma joined_texts root T J : joined root T J -> List.concat (map t_text J) = List.concat (map t_text T).
Proof.
  intros H. induction H as [|t T J K H IH|p c n q T J Kp Np Sp Kc Tc Kn Nn R1 R2 Kq Tq H IH|p c n q T J Kp Np Kc Tc Kn Nn Kq Tq H IH|D q T J HD Kq Tq H IH];
    cbn [map List.concat]; rewrite ?IH; auto.
  - rewrite Tq, Tc, <- app_assoc. reflexivity.
  - rewrite Tq, Tc, <- app_assoc. reflexivity.
  - rewrite map_app, concat_app, Tq. reflexivity.
Qed.

Lemma name_no_zero n : name_chars n -> c_str n = n.
Proof.
  intros H. apply BuildProofs.c_str_plain. intros I. unfold name_chars in H. rewrite forallb_forall in H. specialize (H 0%N I). discriminate.
Qed.
Lemma name_elem root n s : name_chars n -> n_create_node root n s = n_create_element root n s.
Proof.
  intros H. unfold n_create_node. destruct n as [|c r]; [reflexivity|]. unfold name_chars in H. cbn [forallb] in H. apply andb_true_iff in H.
  destruct H as [H _]. destruct (beq (c :: r) (B "!DOCTYPE")) eqn:X.
  - apply beq_eq in X. injection X as -> _. discriminate.
  - destruct (c =? cQM)%N eqn:Q; [|reflexivity]. apply N.eqb_eq in Q. subst c. discriminate.
Qed.
Lemma start_elem root n b : Grammar.starts is_xmq_element_start n -> create_node root n b = create_element_node root n b.
Proof.
  intros (c & r & -> & H). unfold create_node. destruct (beq (c :: r) (B "!DOCTYPE")) eqn:X.
  - apply beq_eq in X. injection X as -> _. discriminate.
  - destruct (c =? cQM)%N eqn:Q; [|reflexivity]. apply N.eqb_eq in Q. subst c. discriminate.
Qed.

Lemma low_build pf root T J aft : joined root T J -> forall b s s', nbuild root T aft s = NOk s' ->
  shape pf b s -> quiet s -> Inv s -> mono pf (n_heap s') -> ok_out pf (build root J aft b) s'.
Proof.
  intros H. induction H as [|t T J K H IH|p c n q T J Kp Np Sp Kc Tc Kn Nn R1 R2 Kq Tq H IH|p c n q T J Kp Np Kc Tc Kn Nn Kq Tq H IH|D q T J HD Kq Tq H IH];
    intros b s s' E S Q In M.
  - injection E as <-. exact S.
  - cbn [nbuild build] in *. rewrite (joined_texts _ _ _ H). set (mem := List.concat (map t_text T) ++ aft) in *.
    unfold nbind in E. destruct (ncallback root t mem s) as [s1| | |] eqn:C; try discriminate.
    pose proof (low_step pf root t mem b s s1 K C S Q In (mono_grows _ _ _ (grows_build _ _ _ _ _ E) M)) as O.
    destruct (callback root t mem b) as [b1| | |]; try contradiction; [|exact O]. cbn [bbind].
    exact (IH b1 s1 s' E O (quiet_step _ _ _ _ _ K C Q) (inv_step _ _ _ _ _ C In) M).
  - cbn [nbuild build] in *. rewrite (joined_texts _ _ _ H).
    set (mem := List.concat (map t_text T) ++ aft) in *.
    unfold ncallback at 1 in E. rewrite Kp in E. cbn [nbind] in E. unfold ncallback at 1 in E. rewrite Kc in E. cbn [nbind] in E.
    set (s0 := set_ens (Some (c_str (t_text p))) s) in *.
    assert (I0 : Inv s0).
    { apply (inv_step root p mem s s0); [|exact In]. unfold ncallback. rewrite Kp. reflexivity. }
    unfold nbind in E. destruct (ncallback root n mem s0) as [s1| | |] eqn:C; try discriminate.
    pose proof (grows_build _ _ _ _ _ E) as G1. pose proof (grows_step _ _ _ _ _ C) as G2. pose proof (inv_step _ _ _ _ _ C I0) as I1.
    assert (C1 : n_create_element root (t_text n) s0 = NOk s1).
    { unfold ncallback in C. destruct Kn as [Kn|Kn]; rewrite Kn in C; rewrite name_no_zero in C by exact Nn; rewrite name_elem in C by exact Nn; exact C. }
    assert (Cb : callback root q mem b = create_element_node root (t_text p ++ cCOLON :: t_text n) b).
    { assert (c_str (t_text q) = t_text q) as Z.
      { apply name_no_zero. rewrite Tq. unfold name_chars in *. rewrite forallb_app. cbn [forallb]. rewrite Np, Nn. reflexivity. }
      assert (callback root q mem b = create_node root (c_str (t_text q)) b) as ->.
      { unfold callback. rewrite Kq. destruct Kn as [Kn|Kn]; rewrite Kn; reflexivity. }
      rewrite Z, Tq. apply start_elem. destruct Sp as (x & r & -> & Sp). exists x, (r ++ cCOLON :: t_text n). auto. }
    assert (S0 : shape pf b s0) by (destruct S; split; auto).
    pose proof (low_create_element pf root (t_text n) b s0 s1 C1 S0 I0 (mono_grows _ _ _ G1 M) G2) as O.
    assert (En : n_ens s0 = Some (t_text p)) by (unfold s0; cbn; now rewrite name_no_zero).
    rewrite En in O. cbn [qname] in O. rewrite Cb.
    assert (R : forall x, root = Some x -> beq (t_text n) x = beq (t_text p ++ cCOLON :: t_text n) x).
    { intros x Hx. destruct (beq (t_text n) x) eqn:X1; [apply beq_eq in X1; congruence|].
      destruct (beq (t_text p ++ cCOLON :: t_text n) x) eqn:X2; [apply beq_eq in X2; congruence|reflexivity]. }
    specialize (O R). destruct (create_element_node root _ b) as [b1| | |]; try contradiction; [|exact O]. cbn [bbind].
    destruct Q as (Q1 & Q2 & Q3). exact (IH b1 s1 s' E O (create_quiet _ _ _ _ C1 Q2 Q3) I1 M).
  - cbn [nbuild build] in *. rewrite (joined_texts _ _ _ H).
    set (mem := List.concat (map t_text T) ++ aft) in *. destruct Q as (Q1 & Q2 & Q3).
    unfold ncallback at 1 in E. rewrite Kp in E. unfold attr_ns in E. rewrite Q3 in E. cbn [nbind] in E. unfold ncallback at 1 in E. rewrite Kc in E. cbn [nbind] in E.
    set (s0 := set_ans (Some (c_str (t_text p))) s) in *.
    assert (I0 : Inv s0).
    { apply (inv_step root p mem s s0); [|exact In]. unfold ncallback. rewrite Kp. unfold attr_ns. rewrite Q3. reflexivity. }
    unfold nbind in E. destruct (ncallback root n mem s0) as [s1| | |] eqn:C; try discriminate.
    pose proof (grows_build _ _ _ _ _ E) as G1. pose proof (inv_step _ _ _ _ _ C I0) as I1.
    assert (C1 : attr_key (t_text n) s0 = NOk s1) by (unfold ncallback in C; rewrite Kn in C; exact C).
    assert (S0 : shape pf b s0) by (destruct S; split; auto).
    assert (En : n_ans s0 = Some (t_text p)) by (unfold s0; cbn; now rewrite name_no_zero).
    destruct (low_prefixed_key pf (t_text n) (t_text p) b s0 s1 C1 En Q1 Q3 S0 I0 (mono_grows _ _ _ G1 M)) as (Qs & m & a & k & r & Sb & O).
    unfold callback at 1. rewrite Kq, Sb. rewrite name_no_zero in O by exact Nn.
    rewrite name_no_zero by (rewrite Tq; unfold name_chars in *; rewrite forallb_app; cbn [forallb]; rewrite Np, Nn; reflexivity).
    rewrite Tq. cbn [bbind]. exact (IH _ s1 s' E O Qs I1 M).
  - destruct (declaration_split D HD) as (t & Md & v & -> & Kt & F & U & Ne). cbn [build]. unfold callback. rewrite Kq. cbn [bbind].
    rewrite <- app_comm_cons, <- app_assoc in E. cbn [nbuild] in E.
    match type of E with nbind (ncallback _ _ ?m _) _ = _ => set (mem := m) in * end.
    unfold nbind in E at 1. destruct (ncallback root t mem s) as [s1| | |] eqn:C; try discriminate.
    pose proof (grows_build _ _ _ _ _ E) as G1. pose proof (inv_step _ _ _ _ _ C In) as I1.
    unfold ncallback in C. rewrite Kt in C.
    destruct (low_declare pf (t_suffix t) b s s1 C S Q In (mono_grows _ _ _ G1 M)) as (S1 & E1 & A1 & i & D1 & P1).
    rewrite neutral_build in E by (try exact F; rewrite D1; discriminate). cbn [app nbuild] in E.
    set (mem2 := List.concat (map t_text T) ++ aft) in *.
    unfold nbind in E. destruct (ncallback root v mem2 s1) as [s2| | |] eqn:C2; try discriminate.
    pose proof (inv_step _ _ _ _ _ C2 I1) as I2.
    assert (X : exists u, NsDom.attr_value u s1 = NOk s2 /\ (u <> [] \/ prefix_of (n_heap s1) i <> None)).
    { unfold ncallback in C2. unfold not_empty in Ne. destruct U as [U|U]; rewrite U in C2, Ne.
      - eexists. split; [exact C2|]. destruct (t_suffix t); [left; auto|right; apply P1; discriminate].
      - unfold n_with_value in C2. destruct (quote_value (t_col v) (t_text v) mem2) as [[x w]| | | |] eqn:V; try discriminate.
        eexists. split; [exact C2|]. destruct (t_suffix t); [left; exact (Ne eq_refl _ _ _ V)|right; apply P1; discriminate]. }
    destruct X as (u & X1 & X2). destruct (low_uri pf u i b s1 s2 X1 D1 E1 A1 S1 I1 X2) as [S2 Q2].
    exact (IH b s2 s' E S2 Q2 I2 M).
Qed.

Fixpoint qualified_low h (x : nnode) : qualified (view h x) = low (prefix_of h) x.
Proof.
  destruct x as [e k| | | |]; try reflexivity. cbn [view qualified low]. f_equal.
  - rewrite map_map. apply map_ext. intros a. reflexivity.
  - rewrite map_map. induction k as [|y k IH]; [reflexivity|]. cbn. rewrite qualified_low, IH. reflexivity.
Qed.

Theorem joined_document root T J aft s d : nbuild root T aft ninit = NOk s -> n_close_all (n_stack s) = Some d -> joined root T J ->
  build root J aft (BS [FDoc []] LastNone None false) = BUnmodelled \/ document_of root J aft = Some (map qualified (map (view (n_heap s)) d)).
Proof.
  intros E Cl H.
  assert (O : ok_out (prefix_of (n_heap s)) (build root J aft (BS [FDoc []] LastNone None false)) s).
  { apply (low_build _ _ _ _ _ H _ _ _ E); [|repeat split|exact inv_init|intros i _; reflexivity].
    split; cbn; auto. constructor; [discriminate|constructor]. }
  unfold document_of. destruct (build root J aft _) as [b| | |]; try contradiction; [right|left; reflexivity].
  destruct O as [S1 S2 _ _ _]. rewrite S1. unfold n_close_all in Cl. destruct (n_stack s) as [|f r]; [discriminate|].
  cbn [map close_all]. rewrite (low_close_up _ f r d Cl S2). f_equal. rewrite map_map. apply map_ext. intros x. symmetry. apply qualified_low.
Qed.
