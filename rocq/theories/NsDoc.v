(** Documents with namespaces: from the invariant to the specification. *)
From Coq Require Import NArith ZArith List Bool Arith String Lia.
From Verif Require Import Bytes BytesFacts Outcome Utf8 Quote Parser Detect Dom NsDom NsSpec NsProofs NsCore.
Import ListNotations.

(** ** Every step keeps the invariant *)
Definition Inv (s : nst) : Prop := Core s /\ First s.

Lemma inv_same s s' : n_heap s' = n_heap s -> n_default s' = n_default s -> n_decl s' = n_decl s ->
  (n_last s' = LNone -> n_last s = LNone /\ scope (n_stack s') = scope (n_stack s)) ->
  (forall P A, stack_all P A (n_stack s') <-> stack_all P A (n_stack s)) ->
  tops (n_stack s') = tops (n_stack s) -> Inv s -> Inv s'.
Proof.
  intros H D L N S T [C F]. split; [eapply core_same; eauto|].
  intros X. destruct (N X) as [N1 N2]. destruct (F N1) as (F1 & F2 & F3). rewrite N2, T, D. auto.
Qed.

Lemma inv_on_top f l s s' : keeps f -> (l = LNone -> n_last s = LNone) -> on_top f l s = NOk s' -> Inv s -> Inv s'.
Proof.
  intros K L E I. apply on_top_ok in E. destruct E as (st & E & ->).
  destruct (change_top_same f _ _ K E) as [S1 S2 S3].
  eapply inv_same; [..|exact I]; try reflexivity; auto.
Qed.

Lemma inv_fields s s' : n_stack s' = n_stack s -> n_last s' = n_last s -> n_heap s' = n_heap s ->
  n_default s' = n_default s -> n_decl s' = n_decl s -> Inv s -> Inv s'.
Proof.
  intros S L H D X I. eapply inv_same; [..|exact I]; auto; rewrite ?S, ?L; auto. reflexivity.
Qed.

Lemma inv_add_last p s s' : n_add_last p s = NOk s' -> Inv s -> Inv s'.
Proof.
  unfold n_add_last. destruct (n_last s) eqn:L; try discriminate; apply inv_on_top; try discriminate.
  - apply keeps_part_into_last.
  - apply keeps_part_into_attr.
  - apply keeps_part_into.
Qed.

Lemma inv_add_node x l s s' : (forall e k, x <> NElem e k) -> (l = LNone -> n_last s = LNone) ->
  n_add_node x l s = NOk s' -> Inv s -> Inv s'.
Proof. intros X L. apply inv_on_top; [now apply keeps_node_into|exact L]. Qed.

Lemma keep_last_none l : n_keep_last l = LNone -> l = LNone.
Proof. destruct l; auto; discriminate. Qed.

Lemma inv_value_text t s s' : n_element_value_text t s = NOk s' -> Inv s -> Inv s'.
Proof.
  unfold n_element_value_text. destruct (n_pi s) as [name|].
  - intros E I. eapply (inv_add_node _ _ (set_pi None s)); [| |exact E|]; [discriminate|apply keep_last_none|].
    eapply inv_fields; [..|exact I]; reflexivity.
  - destruct (n_doctype s); [|apply inv_add_last].
    intros E I. eapply (inv_add_node _ _ (set_doctype false s)); [| |exact E|]; [discriminate|apply keep_last_none|].
    eapply inv_fields; [..|exact I]; reflexivity.
Qed.
Lemma inv_value_quote t s s' : n_element_value_quote t s = NOk s' -> Inv s -> Inv s'.
Proof.
  unfold n_element_value_quote. destruct (n_pi s) as [name|].
  - destruct t as [|c t]; [discriminate|].
    intros E I. eapply (inv_add_node _ _ (set_pi None s)); [| |exact E|]; [discriminate|apply keep_last_none|].
    eapply inv_fields; [..|exact I]; reflexivity.
  - destruct (n_doctype s); [discriminate|apply inv_add_last].
Qed.

Lemma update_last n v s s' : update_href n v s = NOk s' -> n_last s' = n_last s /\ (n_default s = None -> n_default s' = None) /\
  scope (n_stack s') = scope (n_stack s) /\ tops (n_stack s') = tops (n_stack s).
Proof.
  unfold update_href. assert (K : forall x s, n_last (set_decl x s) = n_last s) by reflexivity.
  assert (G : forall s1 : nst, (s1 = s \/ exists h, s1 = set_heap h s) -> n_last s1 = n_last s /\ n_default s1 = n_default s /\ n_stack s1 = n_stack s).
  { intros s1 [->|[h ->]]; repeat split. }
  set (s1 := match n with NsXml => s | NsNum i => _ end).
  assert (G1 : n_last s1 = n_last s /\ n_default s1 = n_default s /\ n_stack s1 = n_stack s)
    by (apply G; unfold s1; destruct n; [now left|right; eexists; reflexivity]).
  clearbody s1. destruct G1 as (G1 & G2 & G3).
  assert (Ok : forall s', NOk (set_decl None s1) = NOk s' ->
    n_last s' = n_last s /\ (n_default s = None -> n_default s' = None) /\
    scope (n_stack s') = scope (n_stack s) /\ tops (n_stack s') = tops (n_stack s)).
  { intros t [= <-]. cbn. rewrite G1, G2, G3. repeat split; auto. }
  destruct v as [|c v]; [|apply Ok]. destruct (n_default s) as [d|] eqn:Dn; [|apply Ok].
  destruct (nsref_eqb n d); [|apply Ok].
  destruct (on_top clear_ns (n_last s) (set_decl None s1)) as [s3| | |] eqn:Ot; try discriminate. intros [= <-].
  apply on_top_ok in Ot. destruct Ot as (st' & Ot & ->). cbn in *. rewrite G3 in Ot.
  destruct (clear_scope _ _ Ot) as [-> ->]. auto.
Qed.
Lemma inv_attr_value v s s' : attr_value v s = NOk s' -> Inv s -> Inv s'.
Proof.
  unfold attr_value. destruct (n_decl s) as [n|] eqn:D; [|apply inv_add_last].
  intros E [C F]. split; [exact (core_update n v s s' D E C)|].
  destruct (update_last n v s s' E) as (U1 & U2 & U3 & U4). intros L. rewrite U1 in L.
  destruct (F L) as (F1 & F2 & F3). rewrite U3, U4. auto.
Qed.

Lemma core_push_root n s : scope (n_stack s) = [] -> tops (n_stack s) = [] -> n_default s = None -> Core s ->
  Core (set_stack (GElem (ED None n [] []) [] :: n_stack s) (n_last s) s).
Proof.
  intros Sc T D [C1 C2 C3 C4]. split; cbn -[stack_all tops].
  - cbn. split; [split|split].
    + rewrite Sc. split; [intros i []|intros i j []].
    + constructor.
    + constructor.
    + exact C1.
  - rewrite D. discriminate.
  - exact C3.
  - intros [F1 F2]. cbn in F1. destruct F1 as (_ & _ & F1).
    assert (F : Fresh s) by (split; [exact F1|rewrite T; cbn; lia]).
    cbn. split; [split|split].
    + split; [intros _ j []|]. rewrite Sc. cbn. intros X. exfalso. apply X. reflexivity.
    + constructor.
    + constructor.
    + exact (C4 F).
Qed.

Lemma inv_create root name s s' : n_create_element root name s = NOk s' -> Inv s -> Inv s'.
Proof.
  unfold n_create_element. intros E [C F].
  set (s1 := match n_last s with LNone => _ | _ => s end) in E.
  assert (C1 : Core s1).
  { unfold s1. destruct (n_last s) eqn:L; try exact C. destruct root as [n|]; [|exact C].
    destruct (beq name n); [exact C|]. destruct (F L) as (F1 & F2 & F3). rewrite <- L. now apply core_push_root. }
  split; [exact (core_create s1 name s' E C1)|].
  destruct (element_ns s1) as [[[n h] defs] ens]. apply on_top_ok in E. destruct E as (st & E & ->). intros L. discriminate.
Qed.
Lemma inv_create_node root name s s' : n_create_node root name s = NOk s' -> Inv s -> Inv s'.
Proof.
  unfold n_create_node. destruct (beq name (B "!DOCTYPE")).
  - intros [= <-]. apply inv_fields; reflexivity.
  - destruct name as [|c name]; [apply inv_create|].
    destruct (c =? cQM)%N; [|apply inv_create]. intros [= <-]. apply inv_fields; reflexivity.
Qed.

Lemma inv_step root t aft s s' : ncallback root t aft s = NOk s' -> Inv s -> Inv s'.
Proof.
  unfold ncallback. intros E I.
  assert (V : forall r f, n_with_value r f = NOk s' -> exists v, f v = NOk s').
  { intros r f. unfold n_with_value. destruct r as [[a v]| | | |]; try discriminate. eauto. }
  assert (En : forall x f, n_with_entity x f = NOk s' -> exists p, f p = NOk s').
  { intros x f. unfold n_with_entity. destruct (entity_part x) as [p|]; try discriminate. eauto. }
  assert (Top : forall p, n_add_top p s = NOk s' -> Inv s').
  { intros p Ep. eapply inv_on_top; [apply (keeps_part_into p)| |exact Ep|exact I]. discriminate. }
  assert (Push : n_push_last s = NOk s' -> Inv s').
  { intros Ep. destruct (push_iff s s' Ep) as (st & -> & P1 & P2). eapply inv_same; [..|exact I]; try reflexivity; auto. discriminate. }
  assert (Pop : n_pop s = NOk s' -> Inv s').
  { intros Ep. destruct (pop_iff s s' Ep) as (st & l & -> & P1 & P2).
    assert (l <> LNone).
    { unfold n_pop in Ep. destruct (n_stack s) as [|f [|g r]]; try discriminate.
      destruct (n_close_into f g) as [[g' l']|] eqn:Cl; [|discriminate].
      assert (l' = l) by (apply (f_equal (fun o => match o with NOk x => n_last x | _ => l end)) in Ep; exact Ep).
      subst l'. destruct f, g; try discriminate; injection Cl as <- <-; discriminate. }
    eapply inv_same; [..|exact I]; try reflexivity; auto. intros X. contradiction. }
  destruct (t_kind t);
    try (injection E as <-; eapply inv_fields; [..|exact I]; reflexivity);
    try (exact (Push E)); try (exact (Pop E));
    try (apply V in E; destruct E as [v E]; exact (Top _ E));
    try (apply En in E; destruct E as [p E]; exact (Top _ E)).
  - (* comment *) apply V in E. destruct E as [v E]. eapply inv_add_node; [| |exact E|exact I]; discriminate.
  - (* comment continuation *) apply V in E. destruct E as [v E]. unfold n_append_comment in E.
    destruct (n_last s) eqn:L; try discriminate. eapply inv_on_top; [apply keeps_comment_into| |exact E|exact I]. discriminate.
  - exact (inv_create_node _ _ _ _ E I).
  - exact (inv_create_node _ _ _ _ E I).
  - exact (inv_value_text _ _ _ E I).
  - apply V in E. destruct E as [v E]. exact (inv_value_quote _ _ _ E I).
  - apply En in E. destruct E as [p E]. exact (inv_add_last _ _ _ E I).
  - (* attr_ns *) unfold attr_ns in E. destruct (n_decl s) eqn:D; injection E as <-; [exact I|].
    eapply inv_fields; [..|exact I]; reflexivity.
  - (* attr_key *) destruct I as [C F]. split; [exact (core_attr_key _ _ _ E C)|]. intros L. exfalso.
    unfold attr_key in E. destruct (n_ans s).
    + destruct (top_elem s) as [[[e k] r]|]; [|discriminate].
      destruct (match search_ns _ _ _ _ with Some _ => _ | None => _ end) as [[n h] d]. injection E as <-. discriminate.
    + destruct (n_stack s) as [|[| | |] r]; try discriminate. injection E as <-. discriminate.
  - exact (inv_attr_value _ _ _ E I).
  - apply V in E. destruct E as [v E]. exact (inv_attr_value _ _ _ E I).
  - apply En in E. destruct E as [p E]. exact (inv_add_last _ _ _ E I).
  - (* ns_declaration *) destruct I as [C F]. split; [exact (core_ns_declaration _ _ _ E C)|]. intros L. exfalso.
    unfold ns_declaration, top_elem in E. destruct (n_stack s) as [|[|e k| |] r] eqn:Es; try discriminate.
    destruct (no_elem k); [|discriminate].
    assert (Ls : n_last s = LNone).
    { rewrite <- L. clear L. revert E.
      destruct (match find_def _ _ _ with Some _ => _ | None => _ end) as [[i h] d]. intros E.
      injection E as <-. destruct (t_suffix t); reflexivity. }
    destruct (F Ls) as (F1 & _). rewrite Es in F1. discriminate.
Qed.

Lemma inv_build root T aft s s' : nbuild root T aft s = NOk s' -> Inv s -> Inv s'.
Proof.
  revert s. induction T as [|t T IH]; cbn; intros s E I.
  - injection E as <-. exact I.
  - destruct (ncallback root t _ s) as [s1| | |] eqn:Es; try discriminate. cbn in E.
    apply (IH s1 E). exact (inv_step _ _ _ _ _ Es I).
Qed.
Lemma inv_init : Inv ninit.
Proof.
  split; [split|]; cbn; try discriminate; auto.
  all: intros; repeat split; constructor.
Qed.

(** ** From references to declarations *)
Definition vdecls (h : list nsobj) (l : list nat) : list decl := map (fun i => Decl (prefix_of h i) (href_of h i)) l.

Lemma vdecls_app h a b : vdecls h (a ++ b) = vdecls h a ++ vdecls h b.
Proof. apply map_app. Qed.
Lemma vdecls_prefix h l : map d_prefix (vdecls h l) = map (prefix_of h) l.
Proof. unfold vdecls. rewrite map_map. reflexivity. Qed.
Lemma vdecls_ids h d sc : vdecls h (ids (d :: sc)) = vdecls h d ++ vdecls h (ids sc).
Proof. rewrite ids_cons. apply vdecls_app. Qed.

Lemma find_resolves h p l : resolves (vdecls h l) p
  match find_def h p l with Some i => href_of h i | None => None end.
Proof.
  induction l as [|i l IH]; cbn; [constructor|].
  destruct (obeq (prefix_of h i) p) eqn:E.
  - apply obeq_iff in E. rewrite <- E. apply (res_here (Decl (prefix_of h i) (href_of h i))).
  - apply obeq_false in E. apply (res_outer (Decl (prefix_of h i) (href_of h i))); [exact E|exact IH].
Qed.

Lemma node_bound h (dn : Prop) sc x :
  (dn -> forall j, In j (ids sc) -> prefix_of h j = None -> href_of h j = Some []) ->
  node_all (P_all h dn) (A_bound h) sc x -> bound (vdecls h (ids sc)) (view h x).
Proof.
  revert sc. induction x as [e k IH| | | |] using nnode_ind2; intros sc Dn H; try (constructor; fail).
  apply node_all_elem in H. destruct H as ([[H1 H2] H3] & H4).
  assert (Dn' : dn -> forall j, In j (ids (e_defs e :: sc)) -> prefix_of h j = None -> href_of h j = Some []).
  { intros X j J. rewrite ids_cons in J. apply in_app_or in J. destruct J as [J|J]; [now apply H1|now apply Dn]. }
  cbn [view]. change (map (fun i => Decl (prefix_of h i) (href_of h i)) (e_defs e)) with (vdecls h (e_defs e)).
  constructor; rewrite <- vdecls_ids.
  - destruct (e_ns e) as [[|i]|]; cbn [ref_prefix ref_uri].
    + left. split; reflexivity.
    + right. exists (href_of h i). split; [|reflexivity].
      pose proof (find_resolves h (prefix_of h i) (ids (e_defs e :: sc))) as G. now rewrite H2 in G.
    + right. pose proof (find_resolves h None (ids (e_defs e :: sc))) as G. eexists. split; [exact G|].
      destruct (find_def h None (ids (e_defs e :: sc))) as [j|] eqn:Fd; [|reflexivity].
      destruct (find_def_some _ _ _ _ Fd) as [J1 J2]. rewrite (Dn' (H2 ltac:(discriminate)) j J1 J2). reflexivity.
  - apply Forall_map. eapply Forall_impl; [|exact H3]. intros a Ha. unfold attr_bound. cbn. unfold A_bound in Ha.
    destruct (a_ns a) as [[|i]|]; cbn [ref_prefix ref_uri].
    + left. split; reflexivity.
    + destruct Ha as [Ha1 Ha2]. destruct (prefix_of h i) as [q|] eqn:Q; [|congruence]. right. exists (href_of h i).
      split; [|reflexivity]. pose proof (find_resolves h (Some q) (ids (e_defs e :: sc))) as G. now rewrite Ha2 in G.
    + reflexivity.
  - apply Forall_map. rewrite Forall_forall in *. intros y Y. apply IH; auto.
Qed.

Lemma elem_fresh h sc d n :
  Forall (fun d => d_prefix d <> Some (B "xml") /\ ~ In (d_prefix d) (map d_prefix (vdecls h (ids sc)))) (vdecls h d) ->
  (sc <> [] -> ~ In None (map d_prefix (vdecls h d))) -> P_fresh h sc n d.
Proof.
  intros U N i I. rewrite Forall_forall in U.
  assert (J : In (Decl (prefix_of h i) (href_of h i)) (vdecls h d)) by (apply in_map_iff; eauto).
  destruct (U _ J) as [U1 U2]. cbn in U1, U2. rewrite vdecls_prefix in U2. split; [exact U1|split].
  - intros j Ij E. apply U2. rewrite <- E. now apply in_map.
  - intros X E. apply (N X). rewrite vdecls_prefix, <- E. now apply in_map.
Qed.
Lemma node_fresh h sc x : sc <> [] -> unshadowed (vdecls h (ids sc)) (view h x) -> no_default (view h x) ->
  node_all (P_fresh h) A_any sc x.
Proof.
  revert sc. induction x as [e k IH| | | |] using nnode_ind2; intros sc S U N; try (constructor; fail).
  cbn [view] in U, N. inversion U as [? ? ? ? ? ? U1 U2| | | |]; subst. inversion N as [? ? ? ? ? ? N1 N2| | | |]; subst.
  constructor; [split|].
  - apply elem_fresh; auto.
  - apply Forall_forall. intros. exact I.
  - rewrite Forall_map in U2, N2. rewrite Forall_forall in *. intros y Y. apply IH; auto; [discriminate|].
    rewrite vdecls_ids. apply U2, Y.
Qed.
Lemma root_fresh h x : unshadowed [] (view h x) -> no_default_inside (view h x) -> node_all (P_fresh h) A_any [] x.
Proof.
  destruct x as [e k| | | |]; intros U N; try (constructor; fail).
  cbn [view no_default_inside] in U, N. inversion U as [? ? ? ? ? ? U1 U2| | | |]; subst.
  constructor; [split|].
  - apply elem_fresh; [exact U1|congruence].
  - apply Forall_forall. intros. exact I.
  - rewrite Forall_map in U2, N. rewrite Forall_forall in *. intros y Y. apply node_fresh; [discriminate| |auto].
    cbn. rewrite app_nil_r. specialize (U2 y Y). now rewrite app_nil_r in U2.
Qed.

Lemma elems_length h d : List.length (elem_defs d) = List.length (filter is_velem (map (view h) d)).
Proof. induction d as [|x d IH]; [reflexivity|]. destruct x; cbn; rewrite IH; reflexivity. Qed.

Theorem built_bound root T aft s d :
  nbuild root T aft ninit = NOk s -> n_close_all (n_stack s) = Some d ->
  simple_scopes (map (view (n_heap s)) d) -> Forall (bound []) (map (view (n_heap s)) d).
Proof.
  intros E Cl [S1 S2 S3]. destruct (inv_build root T aft ninit s E inv_init) as [[C1 C2 C3 C4] _].
  unfold n_close_all in Cl. destruct (n_stack s) as [|f r] eqn:St; [discriminate|].
  rewrite Forall_map in S2, S3.
  assert (F : Fresh s).
  { split; rewrite St.
    - eapply close_up_all_rev; [exact Cl|]. rewrite Forall_forall in *. intros x X. apply root_fresh; auto.
    - pose proof (close_up_tops f r d Cl) as T1. apply (f_equal (@List.length _)) in T1. rewrite rev_length in T1.
      rewrite <- T1, (elems_length (n_heap s)). exact S1. }
  specialize (C4 F). pose proof (close_up_all _ _ f r d Cl C4) as G. apply Forall_map.
  eapply Forall_impl; [|exact G]. intros x X. apply (node_bound _ (n_default s = None) [] x); [intros _ j []|exact X].
Qed.
