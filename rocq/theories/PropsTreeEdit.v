(** Properties C65 and C66: the commands of xmq that edit and count references.

    [reading sigma x] is what is read in the node [x] when each reference [n]
    is read as [sigma n] (TreeEditSpec.v). *)
From Coq Require Import NArith ZArith List Bool Arith Lia String.
From Verif Require Import Bytes BytesFacts Outcome Utf8 Quote Parser Dom JsonPrint TreeEdit TreeEditSpec PropsClines.
Import ListNotations.
Local Open Scope N_scope.
Local Open Scope list_scope.

Lemma beq_refl' n : beq n n = true.
Proof. now apply beq_eq. Qed.
Lemma instead_other e l n : n <> e -> instead e l n = [IRef n].
Proof. intros H. unfold instead. destruct (beq n e) eqn:E; [apply beq_eq in E; congruence|reflexivity]. Qed.

(** ** delete-entity *)
Lemma attrs_unchanged e l ats : Forall (fun a : attr => ~ In (PRef e) (snd a)) ats -> map (attr_reading (instead e l)) ats = map (attr_reading as_is) ats.
Proof.
  intros H. apply map_ext_in. intros (k & ps) I. rewrite Forall_forall in H. specialize (H _ I). cbn [snd] in H. unfold attr_reading. cbn [fst snd]. f_equal.
  rewrite !flat_map_concat_map. f_equal. apply map_ext_in. intros p Ip. destruct p as [t|n]; [reflexivity|]. cbn [part_reading]. rewrite instead_other; [reflexivity|]. intros ->. now apply H.
Qed.
Lemma kids_all (P : node -> Prop) kids : (fix all l := match l with [] => True | y :: r => P y /\ all r end) kids -> Forall P kids.
Proof. induction kids as [|y r IH]; [constructor|]. intros (H1 & H2). constructor; auto. Qed.
Lemma delete_reading e x : not_in_attributes e x -> flat_map (reading as_is) (delete_all_entities e x) = reading (instead e []) x.
Proof.
  induction x as [n ats ks IH|p|t|n t|t] using node_ind2; intros H; [|destruct p as [t|n]|reflexivity..].
  - destruct H as (Ha & Hk). cbn [delete_all_entities flat_map app]. unfold reading. cbn [reading_with]. fold (reading as_is). fold (reading (instead e [])). rewrite attrs_unchanged by auto. cbn [app]. do 2 f_equal.
    apply (kids_all (not_in_attributes e)) in Hk. clear Ha. induction IH as [|y r Hy Hr IHr]; [reflexivity|]. inversion Hk; subst. cbn [flat_map]. rewrite flat_map_app, Hy, IHr by auto. reflexivity.
  - cbn [delete_all_entities flat_map]. now rewrite app_nil_r.
  - cbn [delete_all_entities]. unfold reading. cbn [reading_with part_reading]. unfold instead. destruct (beq e n) eqn:E.
    + apply beq_eq in E. subst n. rewrite beq_refl'. reflexivity.
    + destruct (beq n e) eqn:E'; [apply beq_eq in E'; subst; rewrite beq_refl' in E; discriminate E|]. reflexivity.
Qed.
(** C65: after the references to an entity have been deleted, the document is
    read as before with nothing in their place.  Missing: attributes. *)
Theorem C65_delete_partial : forall e d, Forall (not_in_attributes e) d ->
  flat_map (reading as_is) (delete_entities e d) = flat_map (reading (instead e [])) d.
Proof.
  intros e d H. unfold delete_entities. induction H as [|x d Hx Hd IH]; [reflexivity|]. cbn [flat_map]. now rewrite flat_map_app, delete_reading, IH.
Qed.
Print Assumptions C65_delete_partial.
(** Attributes, and the structure of the elements, are kept in any case. *)
Fixpoint frame_of (x : node) : list node :=
  match x with Elem n ats kids => [Elem n ats (flat_map frame_of kids)] | Part _ => [] | _ => [x] end.
Theorem C65_delete_keeps_elements : forall e d, flat_map frame_of (delete_entities e d) = flat_map frame_of d.
Proof.
  assert (K : forall e x, flat_map frame_of (delete_all_entities e x) = frame_of x).
  { intros e x. induction x as [n ats ks IH|p|t|n t|t] using node_ind2; [|destruct p as [t|n]|reflexivity..].
    - cbn [delete_all_entities flat_map frame_of app]. do 2 f_equal. induction IH as [|y r Hy Hr IHr]; [reflexivity|]. cbn [flat_map]. now rewrite flat_map_app, Hy, IHr.
    - reflexivity.
    - cbn [delete_all_entities]. destruct (beq e n); reflexivity. }
  intros e d. unfold delete_entities. induction d as [|x d IH]; [reflexivity|]. cbn [flat_map]. now rewrite flat_map_app, K, IH.
Qed.
Print Assumptions C65_delete_keeps_elements.

(** ** replace-entity *)
Definition replace_kids (e : bytes) (r : replacement) : list node -> list node -> option (list node) :=
  fix go (rprev l : list node) : option (list node) :=
               match l with
               | [] => Some (rev rprev)
               | Part (PRef n) :: l' =>
                 if beq n e then
                   match new_node r with
                   | Part (PText t) =>
                     match rprev with
                     | Part (PText u) :: rp =>
                       match l' with
                       | Part (PText w) :: l'' => go (Part (PText (u ++ t ++ w)) :: rp) l''
                       | _ => go (Part (PText (u ++ t)) :: rp) l'
                       end
                     | _ => go (Part (PText t) :: rprev) l'
                     end
                   | y => go (y :: rprev) l'
                   end
                 else go (Part (PRef n) :: rprev) l'
               | y :: l' => match replace_entity e r y with Some y' => go (y' :: rprev) l' | None => None end
               end.
Lemma replace_elem e r n ats kids : replace_entity e r (Elem n ats kids) =
  match replace_attrs e r ats with
  | None => None
  | Some ats' => match replace_kids e r [] kids with Some kids' => Some (Elem n ats' kids') | None => None end
  end.
Proof. reflexivity. Qed.

Definition val (r : replacement) := reading as_is (new_node r).
Definition sig (e : bytes) (r : replacement) := instead e (val r).
Definition a_text (r : replacement) := exists t, new_node r = Part (PText t).
Section Replace.
Variables (e : bytes) (r : replacement).
Local Notation V := (val r).
Local Notation sigma := (sig e r).
Local Notation is_text := (a_text r).

Lemma rev_snoc {A} (f : A -> list item) x l : flat_map f (rev (x :: l)) = flat_map f (rev l) ++ f x.
Proof. cbn [rev]. rewrite flat_map_app. cbn [flat_map]. now rewrite app_nil_r. Qed.
Lemma text_reading t s : reading s (Part (PText t)) = map IByte t.
Proof. reflexivity. Qed.

Lemma parts_reading : is_text -> forall k l, (List.length l <= k)%nat -> forall rprev, exists l', replace_parts e r rprev l = Some l' /\
  flat_map (part_reading as_is) l' = flat_map (part_reading as_is) (rev rprev) ++ flat_map (part_reading sigma) l.
Proof.
  intros (t & Et). assert (EV : V = map IByte t) by (unfold val; now rewrite Et). induction k as [|k IH]; intros l Hl rprev.
  - destruct l; [|cbn in Hl; lia]. exists (rev rprev). split; [reflexivity|]. cbn [flat_map]. now rewrite app_nil_r.
  - destruct l as [|p l]; [exists (rev rprev); split; [reflexivity|]; cbn [flat_map]; now rewrite app_nil_r|]. cbn [List.length] in Hl.
    assert (G : forall q rp l2 m, (List.length l2 <= k)%nat -> flat_map (part_reading as_is) (rev (q :: rp)) ++ flat_map (part_reading sigma) l2 = m ->
      exists l', replace_parts e r (q :: rp) l2 = Some l' /\ flat_map (part_reading as_is) l' = m).
    { intros q rp l2 m L2 E. destruct (IH l2 L2 (q :: rp)) as (l' & E1 & E2). exists l'. split; [exact E1|]. now rewrite E2. }
    destruct p as [w|n]; cbn [replace_parts].
    + apply G; [lia|]. rewrite rev_snoc. cbn [flat_map part_reading]. now rewrite <- app_assoc.
    + destruct (beq n e) eqn:En.
      * apply beq_eq in En. subst n. rewrite Et.
        assert (Es : part_reading sigma (PRef e) = map IByte t) by (cbn [part_reading]; unfold sig, instead; now rewrite beq_refl', EV).
        destruct rprev as [|[u|m] rp].
        -- apply G; [lia|]. rewrite rev_snoc. cbn [flat_map]. now rewrite Es.
        -- destruct l as [|[w|m] l].
           ++ apply G; [cbn; lia|]. rewrite !rev_snoc. cbn [flat_map]. rewrite Es. cbn [part_reading]. rewrite map_app. now rewrite <- !app_assoc.
           ++ apply G; [cbn in Hl; lia|]. rewrite !rev_snoc. cbn [flat_map]. rewrite Es. cbn [part_reading]. rewrite !map_app. now rewrite <- !app_assoc.
           ++ apply G; [cbn in Hl |- *; lia|]. rewrite !rev_snoc. cbn [flat_map]. rewrite Es. cbn [part_reading]. rewrite map_app. now rewrite <- !app_assoc.
        -- apply G; [lia|]. rewrite (rev_snoc _ (PText t)). cbn [flat_map]. rewrite Es. cbn [part_reading]. now rewrite <- app_assoc.
      * apply G; [lia|]. rewrite rev_snoc. cbn [flat_map part_reading]. unfold sig, instead. rewrite En. now rewrite <- app_assoc.
Qed.
Lemma parts_same : forall l rprev, ~ In (PRef e) l -> replace_parts e r rprev l = Some (rev rprev ++ l).
Proof.
  induction l as [|p l IH]; intros rprev H; [cbn; now rewrite app_nil_r|].
  assert (H' : ~ In (PRef e) l) by (intros X; apply H; now right). destruct p as [w|n]; cbn [replace_parts].
  - rewrite IH by auto. cbn [rev]. now rewrite <- app_assoc.
  - destruct (beq n e) eqn:En; [apply beq_eq in En; subst; exfalso; apply H; now left|]. rewrite IH by auto. cbn [rev]. now rewrite <- app_assoc.
Qed.
Definition attrs_ok (ats : list attr) : Prop := is_text \/ Forall (fun a : attr => ~ In (PRef e) (snd a)) ats.
Lemma attrs_reading ats : attrs_ok ats -> exists ats', replace_attrs e r ats = Some ats' /\ map (attr_reading as_is) ats' = map (attr_reading sigma) ats.
Proof.
  intros H. induction ats as [|(k & ps) ats IH]; [now exists []|]. cbn [replace_attrs].
  destruct IH as (ats' & E & Er); [destruct H as [H|H]; [now left|inversion H; subst; now right]|]. destruct H as [H|H].
  - destruct (parts_reading H (List.length ps) ps ltac:(lia) []) as (ps' & Ep & Epr). rewrite Ep, E. eexists. split; [reflexivity|]. cbn [map]. rewrite Er. unfold attr_reading at 1 3. cbn [fst snd]. rewrite Epr. reflexivity.
  - inversion H as [|a b Ha Hb]; subst. cbn [snd] in Ha. rewrite parts_same, E by auto. eexists. split; [reflexivity|]. cbn [map rev app]. rewrite Er. f_equal.
    pose proof (attrs_unchanged e V [(k, ps)]) as X. cbn [map] in X. specialize (X ltac:(constructor; [exact Ha|constructor])). injection X as X. unfold attr_reading. cbn [fst snd]. f_equal. symmetry. exact X.
Qed.

Definition node_ok (x : node) : Prop := is_text \/ not_in_attributes e x.
Definition goal_for (x : node) : Prop := node_ok x -> x <> Part (PRef e) -> exists x', replace_entity e r x = Some x' /\ reading as_is x' = reading sigma x.

Lemma kids_reading : forall k l, (List.length l <= k)%nat -> Forall goal_for l -> Forall node_ok l -> forall rprev, exists l', replace_kids e r rprev l = Some l' /\
  flat_map (reading as_is) l' = flat_map (reading as_is) (rev rprev) ++ flat_map (reading sigma) l.
Proof.
  induction k as [|k IH]; intros l Hl HG HO rprev.
  - destruct l; [|cbn in Hl; lia]. exists (rev rprev). split; [reflexivity|]. cbn [flat_map]. now rewrite app_nil_r.
  - destruct l as [|x l]; [exists (rev rprev); split; [reflexivity|]; cbn [flat_map]; now rewrite app_nil_r|]. cbn [List.length] in Hl.
    inversion HG as [|? ? Gx Gl]; subst. inversion HO as [|? ? Ox Ol]; subst.
    assert (G : forall q rp l2 m, (List.length l2 <= k)%nat -> Forall goal_for l2 -> Forall node_ok l2 -> flat_map (reading as_is) (rev (q :: rp)) ++ flat_map (reading sigma) l2 = m ->
      exists l', replace_kids e r (q :: rp) l2 = Some l' /\ flat_map (reading as_is) l' = m).
    { intros q rp l2 m L2 G2 O2 E. destruct (IH l2 L2 G2 O2 (q :: rp)) as (l' & E1 & E2). exists l'. split; [exact E1|]. now rewrite E2. }
    assert (D : x = Part (PRef e) \/ x <> Part (PRef e)).
    { destruct x as [n ats ks|[t|n]|t|n t|t]; try (right; discriminate). destruct (beq n e) eqn:En; [apply beq_eq in En; subst; now left|]. right. intros X. injection X as ->. rewrite beq_refl' in En. discriminate En. }
    destruct D as [->|Nx].
    + cbn [replace_kids]. rewrite beq_refl'. assert (Es : reading sigma (Part (PRef e)) = V) by (unfold reading; cbn [reading_with part_reading]; unfold sig, instead; now rewrite beq_refl').
      assert (T : forall y, new_node r = y -> exists l', replace_kids e r (y :: rprev) l = Some l' /\ flat_map (reading as_is) l' = flat_map (reading as_is) (rev rprev) ++ flat_map (reading sigma) (Part (PRef e) :: l)).
      { intros y Ey. apply G; auto; [lia|]. rewrite rev_snoc. cbn [flat_map]. rewrite Es. unfold val. rewrite Ey. now rewrite <- app_assoc. }
      destruct (new_node r) as [n ats ks|[t|n]|t|n t|t] eqn:Ey; try (now apply T).
      assert (EV : V = map IByte t) by (unfold val; rewrite ?Ey; reflexivity).
      destruct rprev as [|[n0 a0 k0|[u|n0]|u|n0 u|u] rp]; try (now apply (T _ eq_refl)).
      destruct l as [|[n0 a0 k0|[w|n0]|w|n0 w|w] l].
      * apply G; [cbn; lia|constructor|constructor|]. rewrite !rev_snoc. cbn [flat_map]. rewrite Es, EV, !text_reading, map_app. now rewrite <- !app_assoc.
      * apply G; [cbn in *; lia|exact Gl|exact Ol|]. rewrite !rev_snoc. cbn [flat_map]. rewrite Es, EV, !text_reading, map_app. now rewrite <- !app_assoc.
      * apply G; [cbn in *; lia|now inversion Gl|now inversion Ol|]. rewrite !rev_snoc. cbn [flat_map]. rewrite Es, EV, !text_reading, !map_app. now rewrite <- !app_assoc.
      * apply G; [cbn in *; lia|exact Gl|exact Ol|]. rewrite !rev_snoc. cbn [flat_map]. rewrite Es, EV, !text_reading, map_app. now rewrite <- !app_assoc.
      * apply G; [cbn in *; lia|exact Gl|exact Ol|]. rewrite !rev_snoc. cbn [flat_map]. rewrite Es, EV, !text_reading, map_app. now rewrite <- !app_assoc.
      * apply G; [cbn in *; lia|exact Gl|exact Ol|]. rewrite !rev_snoc. cbn [flat_map]. rewrite Es, EV, !text_reading, map_app. now rewrite <- !app_assoc.
      * apply G; [cbn in *; lia|exact Gl|exact Ol|]. rewrite !rev_snoc. cbn [flat_map]. rewrite Es, EV, !text_reading, map_app. now rewrite <- !app_assoc.
    + destruct (Gx Ox Nx) as (x' & Ex & Er).
      assert (T : exists l', replace_kids e r (x' :: rprev) l = Some l' /\ flat_map (reading as_is) l' = flat_map (reading as_is) (rev rprev) ++ flat_map (reading sigma) (x :: l)).
      { apply G; auto; [lia|]. rewrite rev_snoc. cbn [flat_map]. rewrite Er. now rewrite <- app_assoc. }
      destruct x as [n ats ks|[t|n]|t|n t|t]; try (cbn [replace_kids]; rewrite Ex; exact T).
      cbn [replace_kids]. destruct (beq n e) eqn:En; [apply beq_eq in En; congruence|]. cbn [replace_entity] in Ex. injection Ex as <-. exact T.
Qed.
Lemma replace_reading x : goal_for x.
Proof.
  induction x as [n ats ks IH|p|t|n t|t] using node_ind2; intros O Nx; [|..]; try (eexists; split; reflexivity).
  - rewrite replace_elem. destruct (attrs_reading ats) as (ats' & Ea & Ear); [destruct O as [O|O]; [now left|right; apply O]|]. rewrite Ea.
    destruct (kids_reading (List.length ks) ks ltac:(lia) IH) with (rprev := @nil node) as (ks' & Ek & Ekr).
    + destruct O as [O|(_ & O)]; apply Forall_forall; intros y Iy; [now left|]. right. apply (kids_all (not_in_attributes e)) in O. rewrite Forall_forall in O. auto.
    + rewrite Ek. eexists. split; [reflexivity|]. unfold reading in *. cbn [reading_with]. rewrite Ear, Ekr. reflexivity.
  - destruct p as [t|m]; [eexists; split; reflexivity|]. eexists. split; [reflexivity|]. unfold reading. cbn [reading_with part_reading]. unfold sig. rewrite instead_other; [reflexivity|]. congruence.
Qed.
Lemma doc_reading d : Forall node_ok d -> ~ In (Part (PRef e)) d ->
  exists d', replace_entities e r d = Ok (Some d') /\ flat_map (reading as_is) d' = flat_map (reading sigma) d.
Proof.
  intros O H. induction O as [|x d Ox Od IH]; [exists []; split; reflexivity|]. destruct IH as (d' & Ed & Er); [intros X; apply H; now right|].
  assert (Nx : x <> Part (PRef e)) by (intros ->; apply H; now left). destruct (replace_reading x Ox Nx) as (x' & Ex & Exr).
  assert (G : obind (replace_entities e r d) (fun q => Ok match replace_entity e r x, q with Some x', Some d'' => Some (x' :: d'') | _, _ => None end) = Ok (Some (x' :: d'))) by now rewrite Ed, Ex.
  exists (x' :: d'). split; [|cbn [flat_map]; now rewrite Exr, Er].
  destruct x as [n ats ks|[t|n]|t|n t|t]; cbn [replace_entities]; try exact G.
  destruct (beq n e) eqn:En; [apply beq_eq in En; congruence|]. rewrite Ed. cbn [obind option_map]. cbn [replace_entity] in Ex. now injection Ex as <-.
Qed.
End Replace.

(** C65: after the references to an entity have been replaced with a text, the
    document is read as before with the bytes of the text in their place: in
    texts and in attributes, at any depth, and whatever is next to them. *)
Theorem C65_replace_with_text_partial : forall e t d, has_root d = true -> ~ In (Part (PRef e)) d ->
  exists d', cmd_replace e (RText t) d = Ok (Some d') /\
  flat_map (reading as_is) d' = flat_map (reading (instead e (map IByte t))) d.
Proof.
  intros e t d R H. unfold cmd_replace. rewrite R. apply (doc_reading e (RText t) d); [|exact H]. apply Forall_forall. intros x _. left. now exists t.
Qed.
Print Assumptions C65_replace_with_text_partial.
(** C65: the same for a node, which may itself have references to the entity,
    if there are no references in attributes. *)
Theorem C65_replace_with_node_partial : forall e x d, has_root d = true -> ~ In (Part (PRef e)) d -> Forall (not_in_attributes e) d ->
  exists d', cmd_replace e (RNode x) d = Ok (Some d') /\
  flat_map (reading as_is) d' = flat_map (reading (instead e (reading as_is x))) d.
Proof.
  intros e x d R H O. unfold cmd_replace. rewrite R. apply (doc_reading e (RNode x) d); [|exact H]. eapply Forall_impl; [|exact O]. intros y Hy. now right.
Qed.
Print Assumptions C65_replace_with_node_partial.
Definition edit_doc : list node :=
  [Comment (B "x"); Elem (B "a") [(B "k", [PText (B "1"); PRef (B "e"); PText (B "2")])]
     [Part (PText (B "x")); Part (PRef (B "e")); Part (PText (B "y")); Elem (B "b") [] [Part (PRef (B "e")); Part (PRef (B "lt"))]]].
Example C65_ex : has_root edit_doc = true /\ ~ In (Part (PRef (B "e"))) edit_doc /\
  cmd_replace (B "e") (RText (B "-")) edit_doc =
  Ok (Some [Comment (B "x"); Elem (B "a") [(B "k", [PText (B "1-2")])] [Part (PText (B "x-y")); Elem (B "b") [] [Part (PText (B "-")); Part (PRef (B "lt"))]]]).
Proof. split; [reflexivity|]. split; [intros [H|[H|[]]]; discriminate H|]. vm_compute. reflexivity. Qed.
Definition edit_doc2 : list node := [Elem (B "a") [(B "k", [PText (B "1")])] [Part (PText (B "x")); Part (PRef (B "e")); Part (PText (B "y"))]].
Example C65_ex2 : has_root edit_doc2 = true /\ ~ In (Part (PRef (B "e"))) edit_doc2 /\ Forall (not_in_attributes (B "e")) edit_doc2 /\
  cmd_replace (B "e") (RNode (Elem (B "br") [] [Part (PRef (B "e"))])) edit_doc2 =
    Ok (Some [Elem (B "a") [(B "k", [PText (B "1")])] [Part (PText (B "x")); Elem (B "br") [] [Part (PRef (B "e"))]; Part (PText (B "y"))]]) /\
  delete_entities (B "e") edit_doc2 = [Elem (B "a") [(B "k", [PText (B "1")])] [Part (PText (B "x")); Part (PText (B "y"))]].
Proof.
  split; [reflexivity|]. split; [intros [H|[]]; discriminate H|]. split.
  - constructor; [|constructor]. split; [constructor; [intros [H|[]]; discriminate H|constructor]|]. repeat split.
  - split; vm_compute; reflexivity.
Qed.

(** Outside of the conditions: references in attributes are not deleted; *)
Theorem C65_delete_attribute_refuted :
  parse_buffer 1000 None (B "a(b=&e;)") [0] = Document [Elem (B "a") [(B "b", [PRef (B "e")])] []]
  /\ delete_entities (B "e") [Elem (B "a") [(B "b", [PRef (B "e")])] []] = [Elem (B "a") [(B "b", [PRef (B "e")])] []].
Proof. split; vm_compute; reflexivity. Qed.
(** a reference at the top is used after it has been freed; *)
Theorem C65_top_reference_refuted : forall r,
  parse_buffer 1000 None (B "&e; a") [0] = Document [Part (PRef (B "e")); Elem (B "a") [] []]
  /\ cmd_replace (B "e") r [Part (PRef (B "e")); Elem (B "a") [] []] = UB.
Proof. split; vm_compute; reflexivity. Qed.
(** a document without an element is a NULL pointer; *)
Theorem C65_no_element_refuted : forall e r,
  parse_buffer 1000 None (B "//only this") [0] = Document [Comment (B "only this")]
  /\ cmd_replace e r [Comment (B "only this")] = UB.
Proof. split; vm_compute; reflexivity. Qed.
(** an element is put into an attribute, which is no document; *)
Theorem C65_node_in_attribute_refuted :
  cmd_replace (B "e") (RNode (Elem (B "br") [] [])) [Elem (B "a") [(B "b", [PRef (B "e")])] []] = Ok None.
Proof. reflexivity. Qed.
(** and the first of several texts is not always joined with the next. *)
Theorem C65_texts_not_joined_refuted :
  cmd_replace (B "e") (RText (B "x")) [Elem (B "a") [] [Part (PRef (B "e")); Part (PText (B "y"))]] = Ok (Some [Elem (B "a") [] [Part (PText (B "x")); Part (PText (B "y"))]]).
Proof. reflexivity. Qed.
Print Assumptions C65_top_reference_refuted.

(** substitute-entity: a reference to a named entity is never substituted,
    whatever its name, *)
Fixpoint hash_free (x : node) : Prop :=
  match x with
  | Part (PRef n) => forall r, n <> cHASH :: r
  | Elem _ _ kids => (fix all l := match l with [] => True | y :: r => hash_free y /\ all r end) kids
  | _ => True
  end.
Theorem C65_substitute_does_nothing_refuted : forall e d, has_root d = true -> Forall hash_free d -> cmd_substitute e d = Ok d.
Proof.
  assert (K : forall e x, hash_free x -> substitute_entity e x = Some x).
  { intros e x. induction x as [n ats ks IH|p|t|n t|t] using node_ind2; intros H; [|destruct p as [t|n]|reflexivity..].
    - cbn [substitute_entity]. apply (kids_all hash_free) in H. match goal with |- match ?f ks with _ => _ end = _ => assert (E : f ks = Some ks) end; [|now rewrite E].
      induction IH as [|y r Hy Hr IHr]; [reflexivity|]. inversion H; subst. rewrite Hy, IHr by auto. reflexivity.
    - reflexivity.
    - cbn [substitute_entity hash_free] in *. destruct (match e with None => true | Some e => beq n e end); [|reflexivity]. destruct n as [|h n]; [reflexivity|].
      destruct (N.eqb_spec h cHASH) as [->|]; [now destruct (H n)|reflexivity]. }
  intros e d R H. unfold cmd_substitute. rewrite R. destruct H as [|x d Hx Hd]; [reflexivity|]. now rewrite K.
Qed.
Print Assumptions C65_substitute_does_nothing_refuted.
Example C65_substitute_ex : parse_buffer 1000 None (B "a=&lt;") [0] = Document [Elem (B "a") [] [Part (PRef (B "lt"))]]
  /\ cmd_substitute (Some (B "lt")) [Elem (B "a") [] [Part (PRef (B "lt"))]] = Ok [Elem (B "a") [] [Part (PRef (B "lt"))]].
Proof. split; vm_compute; reflexivity. Qed.

(** C65: add-root puts all of the document into one element. *)
Lemma add_children d : forall rk, flat_map (reading as_is) (rev (fold_left add_child d rk)) = flat_map (reading as_is) (rev rk) ++ flat_map (reading as_is) d.
Proof.
  induction d as [|x d IH]; intros rk; cbn [fold_left flat_map]; [now rewrite app_nil_r|]. rewrite IH.
  assert (E : flat_map (reading as_is) (rev (add_child rk x)) = flat_map (reading as_is) (rev rk) ++ reading as_is x); [|now rewrite E, <- app_assoc].
  destruct x as [n ats ks|[t|n]|t|n t|t]; cbn [add_child add_part_kid]; try apply (rev_snoc (reading as_is)).
  unfold add_text_kid. destruct rk as [|[n0 a0 k0|[u|n0]|u|n0 u|u] rp]; try apply (rev_snoc (reading as_is)).
  rewrite !rev_snoc, !text_reading, map_app. now rewrite <- app_assoc.
Qed.
Theorem C65_add_root : forall n d, flat_map (reading as_is) (cmd_add_root n d) = [IElem n [] (flat_map (reading as_is) d)].
Proof. intros n d. unfold cmd_add_root. cbn [flat_map app]. rewrite app_nil_r. unfold reading at 1. cbn [reading_with map]. fold (reading as_is). rewrite add_children. reflexivity. Qed.
Print Assumptions C65_add_root.

(** ** C66 *)
Definition add_stats (s u : stats) : stats :=
  Stats (num_elements s + num_elements u) (size_element_names s + size_element_names u) (num_text_nodes s + num_text_nodes u) (size_text_nodes s + size_text_nodes u)
    (num_attributes s + num_attributes u) (size_attribute_names s + size_attribute_names u) (size_attribute_content s + size_attribute_content u)
    (num_comments s + num_comments u) (size_comments s + size_comments u) (num_entities s + num_entities u) (size_entities s + size_entities u)
    (has_doctype s + has_doctype u) (size_doctype s + size_doctype u).
Definition doctypes (x : node) : nat := match x with Doctype _ => 1 | _ => 0 end.
Definition doctype_bytes (x : node) : nat := match x with Doctype t => List.length t | _ => 0 end.
Definition counts (l : list node) : stats :=
  Stats (total elems l) (total elem_bytes l) (total texts l) (total text_bytes l)
    (List.length (flat_map attrs_of l)) (total (fun a => List.length (fst a)) (flat_map attrs_of l)) (total attr_text_bytes (flat_map attrs_of l))
    (total comments l) (total comment_bytes l) (total refs l) (total ref_bytes l) (total doctypes l) (total doctype_bytes l).
Lemma total_app {A} (f : A -> nat) l l' : total f (l ++ l') = (total f l + total f l')%nat.
Proof. induction l as [|x l IH]; [reflexivity|]. cbn [total fold_right app] in *. unfold total in *. cbn [fold_right]. rewrite IH. lia. Qed.
Lemma total_cons {A} (f : A -> nat) x l : total f (x :: l) = (f x + total f l)%nat.
Proof. reflexivity. Qed.
Lemma counts_app l l' s : add_stats (add_stats s (counts l)) (counts l') = add_stats s (counts (l ++ l')).
Proof. unfold counts. rewrite flat_map_app, app_length, !total_app. destruct s. unfold add_stats. cbn. f_equal; lia. Qed.
Lemma attr_content ps : forall s, fold_left accumulate_attribute_content ps s =
  add_stats s (Stats 0 0 0 0 0 0 (total (fun p => match p with PText t => List.length t | PRef _ => 0%nat end) ps) 0 0 0 0 0 0).
Proof.
  induction ps as [|p ps IH]; intros s; cbn [fold_left]; [destruct s; unfold add_stats; cbn; f_equal; lia|]. rewrite IH. unfold total. cbn [fold_right]. destruct s, p; unfold add_stats; cbn; f_equal; lia.
Qed.
Lemma attrs_content ats : forall s, fold_left accumulate_attribute ats s =
  add_stats s (Stats 0 0 0 0 (List.length ats) (total (fun a => List.length (fst a)) ats) (total attr_text_bytes ats) 0 0 0 0 0 0).
Proof.
  induction ats as [|a ats IH]; intros s; cbn [fold_left]; [destruct s; unfold add_stats; cbn; f_equal; lia|]. rewrite IH. unfold accumulate_attribute. rewrite attr_content.
  rewrite !total_cons. unfold attr_text_bytes at 2. cbn [List.length]. destruct s; unfold add_stats; cbn -[total Nat.add]; f_equal; lia.
Qed.
Lemma counted x : forall s, accumulate_statistics s x = add_stats s (counts (nodes_of x)).
Proof.
  induction x as [n ats ks IH|p|t|n t|t] using node_ind2; intros s.
  - cbn [accumulate_statistics nodes_of]. rewrite attrs_content.
    assert (A : forall s, (fix all (s : stats) (l : list node) : stats := match l with [] => s | y :: l' => all (accumulate_statistics s y) l' end) s ks = add_stats s (counts (flat_map nodes_of ks))).
    { clear s. induction IH as [|y r Hy Hr IHr]; intros s; [destruct s; unfold add_stats, counts; cbn; f_equal; lia|]. rewrite IHr, Hy. cbn [flat_map]. apply counts_app. }
    rewrite A. change (Elem n ats ks :: flat_map nodes_of ks) with ([Elem n ats ks] ++ flat_map nodes_of ks). rewrite <- counts_app. f_equal.
    destruct s; unfold add_stats, counts; cbn [flat_map attrs_of app]; rewrite app_nil_r; cbn; f_equal; lia.
  - destruct p; destruct s; unfold add_stats, counts; cbn; f_equal; lia.
  - destruct s; unfold add_stats, counts; cbn; f_equal; lia.
  - destruct s; unfold add_stats, counts; cbn; f_equal; lia.
  - destruct s; unfold add_stats, counts; cbn; f_equal; lia.
Qed.
(** C66: the numbers and sizes of the statistics are those of all nodes of the
    document, at any depth. *)
Theorem C66_statistics : forall d, let s := count_statistics d in let l := all_nodes d in let ats := flat_map attrs_of l in
  num_elements s = total elems l /\ size_element_names s = total elem_bytes l /\
  num_text_nodes s = total texts l /\ size_text_nodes s = total text_bytes l /\
  num_attributes s = List.length ats /\ size_attribute_names s = total (fun a => List.length (fst a)) ats /\ size_attribute_content s = total attr_text_bytes ats /\
  num_comments s = total comments l /\ size_comments s = total comment_bytes l /\
  num_entities s = total refs l /\ size_entities s = total ref_bytes l.
Proof.
  intros d s l ats. assert (E : s = counts l); [|rewrite E; repeat split].
  unfold s, count_statistics. assert (A : forall s, fold_left accumulate_statistics d s = add_stats s (counts (all_nodes d))).
  { clear. unfold all_nodes. induction d as [|x d IH]; intros s; cbn [fold_left flat_map]; [destruct s; unfold add_stats, counts; cbn; f_equal; lia|]. rewrite IH, counted. apply counts_app. }
  rewrite A. reflexivity.
Qed.
Print Assumptions C66_statistics.
Example C66_ex : let s := count_statistics edit_doc in num_elements s = 2%nat /\ size_text_nodes s = 2%nat /\ size_attribute_content s = 2%nat /\ num_entities s = 3%nat /\ num_comments s = 1%nat.
Proof. vm_compute. repeat split. Qed.
