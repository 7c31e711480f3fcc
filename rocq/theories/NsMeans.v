(** A text read by the parser and the callbacks is the document that its written
    form means (NsGrammar.v). *)
From Coq Require Import NArith ZArith List Bool Arith Lia String Permutation.
From Verif Require Import Detect Bytes BytesFacts Outcome Utf8 Utf8Proofs Quote QuoteSpec
  Parser ParserSpec Dom NsDom NsSpec Grammar NsGrammar BuildProofs GrammarProofs NsReads NsEffect.
Import ListNotations.
Local Open Scope N_scope.

Section RawInd.
Variable P : raw -> Prop.
Hypothesis Hn : forall x, P (RNode x).
Hypothesis Hl : forall p n l, P (RLeaf p n l).
Hypothesis Hv : forall p n l ps, P (RValue p n l ps).
Hypothesis Hb : forall p n l ks, Forall P ks -> P (RBody p n l ks).
Fixpoint raw_all (x : raw) : P x :=
  match x with
  | RNode y => Hn y
  | RLeaf p n l => Hl p n l
  | RValue p n l ps => Hv p n l ps
  | RBody p n l ks => Hb p n l ks ((fix go (k : list raw) : Forall P k :=
      match k with [] => Forall_nil _ | y :: r => Forall_cons _ (raw_all y) (go r) end) ks)
  end.
End RawInd.

(** ** Merging *)
Lemma means_part_l sc p H x : means sc (WPart p) (view H x) -> x = NPart p.
Proof. intros M. inversion M as [|p' E1 E2| | |]; subst. destruct x; try discriminate. injection E2 as ->. reflexivity. Qed.
Lemma means_part_r sc p H w : means sc w (view H (NPart p)) -> w = WPart p.
Proof. intros M. inversion M; subst. reflexivity. Qed.
Lemma merge_cons_other w ws : (forall t, w <> WPart (PText t)) -> merge_written (w :: ws) = w :: merge_written ws.
Proof. intros H. destruct w as [| [t|]| | |]; try reflexivity. now destruct (H t). Qed.
Lemma nmerge_cons_other x xs : (forall t, x <> NPart (PText t)) -> nmerge (x :: xs) = x :: nmerge xs.
Proof. intros H. destruct x as [| [t|]| | |]; try reflexivity. now destruct (H t). Qed.
Lemma means_merge sc H ws xs : Forall2 (fun w x => means sc w (view H x)) ws xs ->
  Forall2 (fun w x => means sc w (view H x)) (merge_written ws) (nmerge xs).
Proof.
  induction 1 as [|w x ws xs M _ IH]; [constructor|].
  assert (C : (exists t, w = WPart (PText t)) \/ forall t, w <> WPart (PText t)).
  { destruct w as [| [t|]| | |]; try (right; discriminate). left. eauto. }
  destruct C as [(t & ->)|C].
  - apply means_part_l in M. subst x. rewrite nmerge_text. cbn [merge_written].
    assert (D : Forall2 (fun w x => means sc w (view H x)) (WPart (PText t) :: merge_written ws) (NPart (PText t) :: nmerge xs)).
    { constructor; auto. constructor. }
    revert D. destruct IH as [|w' x' ws' xs' M' IH']; intros D; [exact D|].
    destruct w' as [|[u|]| | |].
    2:{ apply means_part_l in M'. subst x'. constructor; [constructor|auto]. }
    all: destruct x' as [|[u'|]| | |]; try exact D; apply means_part_r in M'; discriminate.
  - rewrite merge_cons_other by exact C. rewrite nmerge_cons_other; [constructor; auto|].
    intros t ->. apply means_part_r in M. now apply (C t).
Qed.
Lemma scoped_merge known dflt ws : Forall (scoped known dflt) (merge_written ws) -> Forall (scoped known dflt) ws.
Proof.
  induction ws as [|w ws IH]; auto. intros H.
  assert (C : (exists t, w = WPart (PText t)) \/ forall t, w <> WPart (PText t)).
  { destruct w as [| [t|]| | |]; try (right; discriminate). left. eauto. }
  destruct C as [(t & ->)|C].
  - constructor; [constructor|]. apply IH. cbn [merge_written] in H.
    destruct (merge_written ws) as [|[|[u|]| | |] r]; inversion H; subst; auto. constructor; auto. constructor.
  - rewrite merge_cons_other in H by exact C. inversion H; subst. constructor; auto.
Qed.
Lemma elems_merge ws : List.length (filter is_welem (merge_written ws)) = List.length (filter is_welem ws).
Proof.
  induction ws as [|w ws IH]; auto.
  assert (C : (exists t, w = WPart (PText t)) \/ forall t, w <> WPart (PText t)).
  { destruct w as [| [t|]| | |]; try (right; discriminate). left. eauto. }
  destruct C as [(t & ->)|C].
  - cbn [merge_written filter is_welem]. rewrite <- IH. destruct (merge_written ws) as [|[|[u|]| | |] r]; reflexivity.
  - rewrite merge_cons_other by exact C. cbn [filter]. destruct (is_welem w); cbn [List.length]; now rewrite IH.
Qed.

(** ** Nodes *)
Lemma gwith_with f k k' : gwith (gwith f k) k' = gwith f k'.
Proof. destruct f; reflexivity. Qed.
Lemma gkids_with f k : gopen f -> gkids (gwith f k) = k.
Proof. destruct f; auto; contradiction. Qed.
Lemma gopen_with f k : gopen f -> gopen (gwith f k).
Proof. destruct f; auto. Qed.

(** The nodes that are not elements. *)
Lemma simple_effect x : is_welem (of_raw x) = false -> forall f r la h df, gopen f ->
  exists nx la', did x (St (f :: r) la h df) (St (gwith f (nadd1 (gkids f) nx) :: r) la' h df)
    /\ forall sc H, means sc (of_raw x) (view H nx).
Proof.
  intros E f r la h df Hf. destruct x as [x| | |]; try discriminate. destruct x as [e k|p|t|n c|c].
  { exists (NPart (PText [])), la. split; [apply did_node; intros []|constructor]. }
  all: match goal with |- context [RNode ?y] => exists y, (nlast_after y la) end; split; [apply did_node; intros _; apply simple_add; exact Hf|constructor].
Qed.

Definition keff (x : raw) : Prop := forall known dflt sc f r la h df,
  gopen f -> Env h (f :: r) df sc -> (forall q, In q known <-> In q (map d_prefix sc)) -> scoped known dflt (of_raw x) ->
  exists nx h2 df' la',
    did x (St (f :: r) la h df) (St (gwith f (nadd1 (gkids f) nx) :: r) la' (h ++ h2) df')
    /\ (dflt = false -> df' = df) /\ forall h3, means sc (of_raw x) (view (h ++ h2 ++ h3) nx).

Lemma keffs ks : Forall keff ks -> forall known sc f r la h df,
  gopen f -> Env h (f :: r) df sc -> (forall q, In q known <-> In q (map d_prefix sc)) -> Forall (scoped known false) (map of_raw ks) ->
  exists nxs h2 la',
    dids ks (St (f :: r) la h df) (St (gwith f (nadds nxs (gkids f)) :: r) la' (h ++ h2) df)
    /\ forall h3, Forall2 (fun w x => means sc w (view (h ++ h2 ++ h3) x)) (map of_raw ks) nxs.
Proof.
  induction 1 as [|x ks K _ IH]; intros known sc f r la h df Hf HE HK HS.
  - exists [], [], la. rewrite app_nil_r. cbn [nadds fold_left]. rewrite gwith_same by exact Hf. split; [constructor|constructor].
  - cbn [map] in HS. inversion HS as [|? ? S1 S2]; subst.
    destruct (K known false sc f r la h df Hf HE HK S1) as (nx & h2 & df' & la' & D & Fd & M). rewrite (Fd eq_refl) in *.
    destruct (IH known sc (gwith f (nadd1 (gkids f) nx)) r la' (h ++ h2) df) as (nxs & h4 & la2 & D2 & M2); auto.
    { now apply gopen_with. } { apply env_extend. now apply env_kids. }
    exists (nx :: nxs), (h2 ++ h4), la2. split.
    + eapply dids_cons; [exact D|]. rewrite gwith_with, gkids_with in D2 by exact Hf. rewrite <- app_assoc in D2. exact D2.
    + intros h3. cbn [map]. constructor.
      * rewrite <- app_assoc. apply M.
      * specialize (M2 h3). rewrite <- !app_assoc in M2 |- *. exact M2.
Qed.

Lemma is_known_iff a k1 k2 p : (forall q : option bytes, In q k1 <-> In q k2) -> is_known (a ++ k1) p -> is_known (a ++ k2) p.
Proof.
  intros H [X|[X|X]]; [now left|right; now left|right; right]. apply in_app_or in X. apply in_or_app. destruct X as [X|X]; auto.
  right. now apply H.
Qed.
Lemma scoped_head known dflt sc p n l ks : (forall q, In q known <-> In q (map d_prefix sc)) ->
  scoped known dflt (WElem p n l ks) -> head_ok sc p l /\ (dflt = false -> ~ In None (map d_prefix (declared l)))
    /\ Forall (scoped (map d_prefix (declared l) ++ known) false) ks.
Proof.
  intros HK HS. inversion HS as [d p' n' l' ks' H1 H2 H3 H4 H5 H6 H7| | | |]; subst. split; [constructor|split]; auto.
  - eapply Forall_impl; [|exact H2]. intros d (X & Y). split; auto. intros Z. apply Y. now apply HK.
  - eapply is_known_iff; eauto.
  - eapply Forall_impl; [|exact H6]. intros a. now apply is_known_iff.
Qed.

Lemma keff_all : forall x, keff x.
Proof.
  apply raw_all.
  - intros x known dflt sc f r la h df Hf HE HK HS.
    assert (X : is_welem (of_raw (RNode x)) = false) by (destruct x; reflexivity).
    destruct (simple_effect (RNode x) X f r la h df Hf) as (nx & la' & D & M). exists nx, [], df, la'. rewrite app_nil_r. split; auto.
  - intros p n l known dflt sc f r la h df Hf HE HK HS. cbn [of_raw] in HS. destruct (scoped_head _ _ _ _ _ _ _ HK HS) as (H1 & H2 & _).
    destruct (head_effect f r la h df sc p n l Hf HE H1) as (e & objs & df' & D & I & Fd).
    exists (NElem e []), objs, df', LKid. split; [apply did_leaf; exact D|split; auto].
    intros h3. eapply fin_means; eauto.
  - intros p n l ps known dflt sc f r la h df Hf HE HK HS. cbn [of_raw] in HS. destruct (scoped_head _ _ _ _ _ _ _ HK HS) as (H1 & H2 & _).
    destruct (head_effect f r la h df sc p n l Hf HE H1) as (e & objs & df' & D & I & Fd).
    exists (NElem e (map NPart ps)), objs, df', LKid. split; [|split; auto].
    + eapply did_value; [exact D|]. apply nfill_elem. exact Hf.
    + intros h3. cbn [of_raw]. eapply fin_means; eauto. clear. induction ps; constructor; auto. constructor.
  - intros p n l ks IH known dflt sc f r la h df Hf HE HK HS. cbn [of_raw] in HS. destruct (scoped_head _ _ _ _ _ _ _ HK HS) as (H1 & H2 & H3).
    destruct (head_effect f r la h df sc p n l Hf HE H1) as (e & objs & df' & D & I & Fd).
    destruct (keffs ks IH (map d_prefix (declared l) ++ known) (map odecl objs ++ sc) (GElem e []) (f :: r) LTop (h ++ objs) df')
      as (nxs & h2 & la' & D2 & M2).
    + exact Logic.I.
    + eapply fin_env; eauto.
    + intros q. rewrite map_app. rewrite !in_app_iff, HK.
      assert (X : In q (map d_prefix (declared l)) <-> In q (map d_prefix (map odecl objs))); [|tauto].
      pose proof (fin_perm h (f :: r) df df' sc p n l e objs H1 I) as PP. apply (Permutation_map d_prefix) in PP.
      split; intros Y; [eapply Permutation_in; eauto|eapply Permutation_in; [apply Permutation_sym|]; eauto].
    + now apply scoped_merge.
    + exists (NElem e (nmerge nxs)), (objs ++ h2), df', LKid. split; [|split; auto].
      * eapply did_body; [exact D| |exact D2|].
        -- destruct f; try contradiction; reflexivity.
        -- cbn [gwith gkids]. rewrite <- nadds_nil. rewrite <- app_assoc. destruct f; try contradiction; reflexivity.
      * intros h3. cbn [of_raw].
        replace (h ++ (objs ++ h2) ++ h3) with (h ++ objs ++ h2 ++ h3) by now rewrite <- !app_assoc.
        eapply fin_means; eauto. apply means_merge. specialize (M2 h3). rewrite <- !app_assoc in M2. exact M2.
Qed.

(** ** Documents *)
Lemma env_start k : Env [] [GDoc k] None [].
Proof.
  constructor; cbn; auto; try contradiction.
  - constructor; [exact Logic.I|constructor].
  - constructor.
Qed.

Lemma after_root rs : filter is_welem (map of_raw rs) = [] -> forall f r la h df, gopen f ->
  exists nxs la', dids rs (St (f :: r) la h df) (St (gwith f (nadds nxs (gkids f)) :: r) la' h df)
    /\ forall sc H, Forall2 (fun w x => means sc w (view H x)) (map of_raw rs) nxs.
Proof.
  induction rs as [|x rs IH]; intros F f r la h df Hf.
  - exists [], la. cbn [nadds fold_left]. rewrite gwith_same by exact Hf. split; constructor.
  - cbn [map filter] in F. destruct (is_welem (of_raw x)) eqn:E; [discriminate|].
    destruct (simple_effect x E f r la h df Hf) as (nx & la' & D & M).
    destruct (IH F (gwith f (nadd1 (gkids f) nx)) r la' h df (gopen_with _ _ Hf)) as (nxs & la2 & D2 & M2).
    exists (nx :: nxs), la2. split.
    + eapply dids_cons; [exact D|]. rewrite gwith_with, gkids_with in D2 by exact Hf. exact D2.
    + intros sc H. constructor; auto.
Qed.

Lemma one_root rs : Forall (scoped [] true) (map of_raw rs) -> (List.length (filter is_welem (map of_raw rs)) <= 1)%nat ->
  forall k la, exists nxs h2 df' la', dids rs (St [GDoc k] la [] None) (St [GDoc (nadds nxs k)] la' h2 df')
    /\ Forall2 (fun w x => means [] w (view h2 x)) (map of_raw rs) nxs.
Proof.
  induction rs as [|x rs IH]; intros HS HL k la.
  - exists [], [], None, la. split; constructor.
  - cbn [map] in HS. inversion HS as [|? ? S1 S2]; subst. cbn [map filter] in HL. destruct (is_welem (of_raw x)) eqn:E.
    + cbn [List.length] in HL. assert (F : filter is_welem (map of_raw rs) = []) by (destruct (filter _ _); [reflexivity|cbn in HL; lia]).
      destruct (keff_all x [] true [] (GDoc k) [] la [] None Logic.I (env_start k) ltac:(intros q; split; intros []) S1)
        as (nx & h2 & df' & la' & D & _ & M).
      destruct (after_root rs F (GDoc (nadd1 k nx)) [] la' h2 df' Logic.I) as (nxs & la2 & D2 & M2).
      exists (nx :: nxs), h2, df', la2. split.
      * eapply dids_cons; [exact D|exact D2].
      * constructor; auto. specialize (M []). cbn [app] in M. now rewrite app_nil_r in M.
    + destruct (simple_effect x E (GDoc k) [] la [] None Logic.I) as (nx & la' & D & M).
      destruct (IH S2 HL (nadd1 k nx) la') as (nxs & h2 & df' & la2 & D2 & M2).
      exists (nx :: nxs), h2, df', la2. split.
      * eapply dids_cons; [exact D|exact D2].
      * constructor; auto.
Qed.

Lemma document_effect rs : well_scoped (map of_raw rs) ->
  exists nxs h2 df' la', dids rs ninit (St [GDoc (nadds nxs [])] la' h2 df')
    /\ Forall2 (fun w x => means [] w (view h2 x)) (map of_raw rs) nxs.
Proof.
  intros (dflt & HS & HL). destruct dflt.
  - apply one_root; auto.
  - destruct (keffs rs (proj2 (Forall_forall _ _) (fun x _ => keff_all x)) [] [] (GDoc []) [] LNone [] None Logic.I (env_start [])
      ltac:(intros q; split; intros []) HS) as (nxs & h2 & la' & D & M).
    exists nxs, h2, None, la'. split; [exact D|]. specialize (M []). cbn [app] in M. now rewrite app_nil_r in M.
Qed.

Lemma well_scoped_merge ws : well_scoped (merge_written ws) -> well_scoped ws.
Proof. intros (d & H & L). exists d. split; [now apply scoped_merge|]. rewrite elems_merge in L. exact L. Qed.

Theorem written_read src d aft : writes_down src d -> well_scoped d -> detect_content_type src (0 :: aft) = DOk CXMQ ->
  exists v, nparse_buffer (enough src) None src (0 :: aft) = NDocument v /\ Forall2 (means []) d v.
Proof.
  intros HW HS HD. destruct (writes_down_read src d aft HW) as (s & rs & T & -> & R).
  apply well_scoped_merge in HS. destruct (document_effect rs HS) as (nxs & h2 & df' & la' & D & M).
  exists (map (view h2) (nmerge nxs)). split.
  - unfold nparse_buffer. rewrite HD, T. cbv zeta. rewrite (R _ D). unfold St. cbn [n_stack n_heap n_close_all n_close_up].
    now rewrite nadds_nil.
  - apply means_merge in M. clear - M. induction M; constructor; auto.
Qed.
