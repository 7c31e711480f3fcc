(** The parser and the document builder with namespaces together read every
    text of the grammar with namespaces: GrammarProofs.v again for the builder of
    NsDom.v.  What is proved here is which callbacks of the builder run; NsEffect.v
    shows what they make. *)
From Coq Require Import NArith ZArith List Bool Arith Lia String.
From Verif Require Import Detect Bytes BytesFacts Outcome Utf8 Utf8Proofs Quote QuoteSpec QuoteProofs QuoteProofs2
  Parser ParserSpec ParserProofs Dom NsDom NsSpec Grammar NsGrammar LexProofs BuildProofs GrammarProofs.
From Verif Require ParserTerm ParserMono.
Import ListNotations.
Local Open Scope N_scope.
Local Open Scope pout_scope.

(** ** Shapes of tokens *)
Definition nshape (t : token) : kind * bytes * bytes :=
  (t_kind t, t_text t, match t_kind t with Kns_declaration => t_suffix t | _ => [] end).
Definition stext (x : kind * bytes * bytes) : bytes := snd (fst x).
Definition ns_shapes (sh : list (kind * bytes)) : list (kind * bytes * bytes) := map (fun x => (fst x, snd x, [])) sh.

Record nate (t : bytes) (sh : list (kind * bytes * bytes)) (s s' : pst) : Prop := Nate {
  na_pre : s_pre s' = rev t ++ s_pre s;
  na_rest : s_rest s = t ++ s_rest s';
  na_aft : s_aft s' = s_aft s;
  na_toks : exists T, s_toks s' = rev T ++ s_toks s /\ map nshape T = sh }.

Definition plain_kind (x : kind * bytes) : Prop := fst x <> Kns_declaration.
Lemma nate_of t sh s s' : ate t sh s s' -> Forall plain_kind sh -> nate t (ns_shapes sh) s s'.
Proof.
  intros [H1 H2 H3 (T & H4 & H5)] F. constructor; auto. exists T. split; auto.
  subst sh. clear H4. unfold ns_shapes. rewrite map_map. induction T as [|x T IH]; auto. inversion F; subst. cbn [map]. rewrite IH by auto. f_equal.
  unfold nshape, shape. cbn [fst snd]. unfold plain_kind in H4. cbn [shape fst] in H4. destruct (t_kind x); congruence.
Qed.
Lemma nate_nil s : nate [] [] s s.
Proof. constructor; auto. exists []. auto. Qed.
Lemma nate_trans t u a b s s' s'' : nate t a s s' -> nate u b s' s'' -> nate (t ++ u) (a ++ b) s s''.
Proof.
  intros [H1 H2 H3 (T & H4 & H5)] [G1 G2 G3 (U & G4 & G5)]. constructor.
  - now rewrite G1, H1, rev_app_distr, app_assoc.
  - now rewrite H2, G2, app_assoc.
  - congruence.
  - exists (T ++ U). rewrite G4, H4, rev_app_distr, app_assoc, map_app. split; congruence.
Qed.
Lemma nate_rest t sh s s' y : nate t sh s s' -> s_rest s = t ++ y -> s_rest s' = y.
Proof. intros H E. rewrite (na_rest _ _ _ _ H) in E. now apply app_inv_head in E. Qed.
Lemma nate_nul t sh s s' : nate t sh s s' -> nul_after s -> nul_after s'.
Proof. intros H. unfold nul_after. now rewrite (na_aft _ _ _ _ H). Qed.
Lemma nate_emit k l c x y t sh s s' : nate t sh s s' ->
  nate t (sh ++ [nshape (Tok k l c x y)]) s (emit k l c x y s').
Proof.
  intros [H1 H2 H3 (T & H4 & H5)]. constructor; cbn; auto.
  exists (T ++ [Tok k l c x y]). rewrite rev_app_distr, map_app, H4, H5. auto.
Qed.
Lemma nate_same t sh s s1 s' : same_place s s1 -> nate t sh s1 s' -> nate t sh s s'.
Proof. intros (H1 & H2 & H3 & H4) [G1 G2 G3 (T & G4 & G5)]. constructor; try congruence. exists T. split; congruence. Qed.

(** ** The callbacks for shapes *)
Fixpoint nbuildS (root : option bytes) (pre : bytes) (sh : list (kind * bytes * bytes)) (aft : bytes) (b : nst) : nout :=
  match sh with
  | [] => NOk b
  | (k, t, x) :: r => nbind (ncallback root (Tok k 0 (col_after pre) t x) (List.concat (map stext r) ++ aft) b)
                            (nbuildS root (pre ++ t) r aft)
  end.
Lemma ncallback_col root t aft b :
  ncallback root t aft b = ncallback root (Tok (t_kind t) 0 (t_col t) (t_text t) (match t_kind t with Kns_declaration => t_suffix t | _ => [] end)) aft b.
Proof. unfold ncallback. destruct (t_kind t) eqn:K; cbn [t_kind t_text t_col t_suffix]; reflexivity. Qed.
Lemma nbuild_shapes root T : forall A aft b, placed (A ++ T) ->
  nbuild root T aft b = nbuildS root (texts A) (map nshape T) aft b.
Proof.
  induction T as [|t T IH]; intros A aft b P; [reflexivity|]. cbn [nbuild map nbuildS nshape].
  destruct (P A t T eq_refl) as (_ & Hc). rewrite ncallback_col, Hc. rewrite map_map.
  change (map (fun x => stext (nshape x)) T) with (map t_text T).
  destruct (ncallback _ _ _ _) as [b'| | |]; cbn [nbind]; auto.
  rewrite (IH (A ++ [t])) by (now rewrite <- app_assoc). now rewrite texts_app, texts_one.
Qed.
Lemma nbuildS_app root a : forall pre c aft b, nbuildS root pre (a ++ c) aft b
  = nbind (nbuildS root pre a (List.concat (map stext c) ++ aft) b) (nbuildS root (pre ++ List.concat (map stext a)) c aft).
Proof.
  induction a as [|[[k t] x] a IH]; intros pre c aft b.
  - cbn. now rewrite app_nil_r.
  - cbn [app nbuildS map List.concat stext fst snd]. rewrite map_app, concat_app, <- !app_assoc.
    destruct (ncallback _ _ _ _) as [b'| | |]; cbn [nbind]; auto. rewrite IH. now rewrite <- app_assoc.
Qed.
Definition nwsh (w : bytes) := ns_shapes (wsh w).
Lemma nbuildS_wsh root pre w aft b : nbuildS root pre (nwsh w) aft b = NOk b.
Proof. destruct w; reflexivity. Qed.
Lemma nwsh_text w : List.concat (map stext (nwsh w)) = w.
Proof. destruct w; cbn; [|rewrite app_nil_r]; reflexivity. Qed.
Lemma wsh_plain w : Forall plain_kind (wsh w).
Proof. destruct w; cbn; [constructor|]. constructor; [discriminate|constructor]. Qed.
Lemma ns_text sh : List.concat (map stext (ns_shapes sh)) = List.concat (map snd sh).
Proof. unfold ns_shapes. rewrite map_map. reflexivity. Qed.

(** The program F reads t (before z), and its tokens take the builder from b
    to b' whenever R b b'. *)
Definition nreads (root : option bytes) (F : nat -> pst -> pout) (pre t z : bytes) (R : nst -> nst -> Prop) : Prop :=
  forall s, nul_after s -> s_rest s = t ++ z ->
  exists k s' sh, (forall f, (k <= f)%nat -> F f s = POk s') /\ nate t sh s s' /\ List.concat (map stext sh) = t
    /\ forall aft b b', R b b' -> nbuildS root pre sh aft b = NOk b'.

(** *** White space *)
Lemma nws_step s w y : s_rest s = w ++ y -> gap w y ->
  (w = [] /\ nate w (nwsh w) s s) \/
  (exists c r, w = c :: r /\ is_xml_whitespace c = true /\ is_xmq_token_whitespace c = true /\ nate w (nwsh w) s (parse_whitespace s)).
Proof.
  intros E G. destruct (ws_step _ _ _ E G) as [(Hw & A)|(c & r & Hw & H1 & H2 & A)].
  - left. split; auto. apply nate_of; auto. apply wsh_plain.
  - right. exists c, r. repeat split; auto; apply (nate_of _ _ _ _ A (wsh_plain w)).
Qed.
Lemma ncompound_ws l s w y : s_rest s = w ++ y -> gap w y ->
  exists d s1, nate w (nwsh w) s s1 /\ forall f, compound_children (d + f) l s = compound_children f l s1.
Proof. intros E G. destruct (compound_ws l s w y E G) as (d & s1 & A & H). exists d, s1. split; auto. apply nate_of; auto. apply wsh_plain. Qed.
Lemma nattributes_ws s w y : s_rest s = w ++ y -> gap w y ->
  exists d s1, nate w (nwsh w) s s1 /\ forall f, Parser.attributes (d + f) s = Parser.attributes f s1.
Proof. intros E G. destruct (attributes_ws s w y E G) as (d & s1 & A & H). exists d, s1. split; auto. apply nate_of; auto. apply wsh_plain. Qed.
Lemma nxmq_ws s w y : s_rest s = w ++ y -> gap w y ->
  exists d s1, nate w (nwsh w) s s1 /\ forall f, parse_xmq (d + f) s = parse_xmq f s1.
Proof. intros E G. destruct (xmq_ws s w y E G) as (d & s1 & A & H). exists d, s1. split; auto. apply nate_of; auto. apply wsh_plain. Qed.

(** *** Composing programs *)
Lemma nreads_seq root (F G H : nat -> pst -> pout) pre t u z (R1 R2 : nst -> nst -> Prop) :
  (forall f s, G f s = pbind (F f s) (H f)) ->
  nreads root F pre t (u ++ z) R1 -> nreads root H (pre ++ t) u z R2 ->
  nreads root G pre (t ++ u) z (fun b b2 => exists b1, R1 b b1 /\ R2 b1 b2).
Proof.
  intros EG HF HH s N E. rewrite <- app_assoc in E.
  destruct (HF s N E) as (k1 & s1 & sh1 & E1 & A1 & C1 & B1).
  assert (R : s_rest s1 = u ++ z) by (eapply nate_rest; eauto).
  destruct (HH s1 (nate_nul _ _ _ _ A1 N) R) as (k2 & s2 & sh2 & E2 & A2 & C2 & B2).
  exists (k1 + k2)%nat, s2, (sh1 ++ sh2). split; [|split; [|split]].
  - intros f Hf. rewrite EG, E1 by lia. cbn [pbind]. apply E2. lia.
  - eapply nate_trans; eauto.
  - rewrite map_app, concat_app. congruence.
  - intros aft b b2 (b1 & Hb1 & Hb2). rewrite nbuildS_app, (B1 _ _ _ Hb1). cbn [nbind]. rewrite C1. now apply B2.
Qed.
Lemma nreads_weaken root F pre t z (R R' : nst -> nst -> Prop) :
  nreads root F pre t z R -> (forall b b', R' b b' -> R b b') -> nreads root F pre t z R'.
Proof.
  intros H HR s N E. destruct (H s N E) as (k & s' & sh & H1 & H2 & H3 & H4). exists k, s', sh.
  split; [exact H1|]. split; [exact H2|]. split; [exact H3|]. intros aft b b' Hb. apply H4. auto.
Qed.
Lemma nreads_ext root (F G : nat -> pst -> pout) pre t z R :
  (exists k, forall f s, (k <= f)%nat -> nul_after s -> s_rest s = t ++ z -> F f s = G f s) ->
  nreads root G pre t z R -> nreads root F pre t z R.
Proof.
  intros (k0 & HE) H s N E. destruct (H s N E) as (k & s' & sh & H1 & H2 & H3 & H4). exists (k0 + k)%nat, s', sh.
  split; [|split; [exact H2|split; [exact H3|exact H4]]]. intros f Hf. rewrite HE by (auto; lia). apply H1. lia.
Qed.
Lemma nreads_mark root (F : nat -> pst -> pout) (h : pst -> pst) pre t z R :
  (forall s, same_place s (h s)) -> nreads root F pre t z R -> nreads root (fun f s => F f (h s)) pre t z R.
Proof.
  intros Hh H s N E. destruct (Hh s) as (P1 & P2 & P3 & P4).
  assert (N' : nul_after (h s)) by (unfold nul_after in *; congruence).
  destruct (H (h s) N' ltac:(congruence)) as (k & s' & sh & H1 & H2 & H3 & H4). exists k, s', sh.
  split; [exact H1|]. split; [|split; [exact H3|exact H4]]. eapply nate_same; [apply Hh|exact H2].
Qed.
Lemma nreads_S root F pre t z R : nreads root F pre t z R -> nreads root (fun f => F (S f)) pre t z R.
Proof.
  intros H s N E. destruct (H s N E) as (k & s' & sh & H1 & H2 & H3 & H4). exists k, s', sh.
  split; [|split; [exact H2|split; [exact H3|exact H4]]]. intros f Hf. apply H1. lia.
Qed.
Lemma nreads_skip root pre w y : gap w y -> nreads root (fun _ => skip_space) pre w y eq.
Proof.
  intros G s N E. destruct (lex_skip s w y N E G) as (s' & Es & A). exists 0%nat, s', (nwsh w).
  split; [auto|]. split; [apply nate_of; [exact A|apply wsh_plain]|]. split; [apply nwsh_text|]. intros aft b b' ->. apply nbuildS_wsh.
Qed.
Lemma nreads_nothing root pre z : nreads root (fun _ s => POk s) pre [] z eq.
Proof.
  intros s N E. exists 0%nat, s, []. split; [auto|]. split; [apply nate_nil|]. split; [reflexivity|]. intros aft b b' ->. reflexivity.
Qed.

(** One token. *)
Lemma none_shape root pre k t aft b r :
  ncallback root (Tok k 0 (col_after pre) t []) ([] ++ aft) b = r -> nbuildS root pre (ns_shapes [(k, t)]) aft b = r.
Proof. intros <-. cbn. destruct (ncallback _ _ _ _); reflexivity. Qed.
Lemma nreads_one root F pre t z k (R : nst -> nst -> Prop) : k <> Kns_declaration ->
  (forall s, nul_after s -> s_rest s = t ++ z -> exists s', (forall f, F f s = POk s') /\ ate t [(k, t)] s s') ->
  (forall aft b b', R b b' -> ncallback root (Tok k 0 (col_after pre) t []) aft b = NOk b') ->
  nreads root F pre t z R.
Proof.
  intros Hk HF HR s N E. destruct (HF s N E) as (s' & E1 & A). exists 0%nat, s', (ns_shapes [(k, t)]).
  split; [auto|]. split; [apply nate_of; [exact A|repeat constructor; exact Hk]|]. split; [cbn; now rewrite app_nil_r|].
  intros aft b b' Hb. apply none_shape. now apply HR.
Qed.

Definition nsingle_effect (k : kind) (b : nst) : nout :=
  match k with
  | Kequals => NOk b
  | Kbrace_left | Kapar_left | Kcpar_left => n_push_last b
  | Kbrace_right | Kapar_right | Kcpar_right => n_pop b
  | _ => NUnmodelled
  end.
Lemma nreads_single root pre k c z :
  nreads root (fun _ s => POk (single k c s)) pre [c] z (fun b b' => nsingle_effect k b = NOk b').
Proof.
  intros s N E. exists 0%nat, (single k c s), [(k, [c], [])]. split; [auto|].
  destruct (match k with Kns_declaration => true | _ => false end) eqn:D.
  { destruct k; try discriminate. split; [|split; [reflexivity|intros; discriminate]].
    pose proof (ate_single Kns_declaration c s z E) as [A1 A2 A3 _]. constructor; auto.
    exists [Tok Kns_declaration (s_line s) (s_col s) [c] []].
    unfold single, emit_from. rewrite (between_ate _ _ _ _ (ate_step c s _ E)). cbn. split; [|reflexivity]. unfold step. destruct (inc c _). now rewrite E. }
  split; [apply (nate_of _ [(k, [c])]); [eapply ate_single; exact E|repeat constructor; destruct k; discriminate]|].
  split; [reflexivity|]. intros aft b b' Hb. cbn [nbuildS]. unfold ncallback. cbn [t_kind].
  destruct k; try discriminate Hb; cbn [nsingle_effect] in Hb; rewrite Hb; reflexivity.
Qed.

(** ** Values *)
Lemma n_with_quote pre t z v aft f : quote pre t z v -> n_with_value (quote_value (col_after pre) t aft) f = f v.
Proof.
  intros H. destruct (quote_value_spec pre t z v aft H) as ((P0 & _) & n & Q). rewrite Q. cbn [n_with_value]. f_equal. now apply c_str_plain.
Qed.
Lemma n_with_entity_spec e p f : entity e p -> n_with_entity e f = f p.
Proof. intros H. unfold n_with_entity. now rewrite (entity_part_spec e p H). Qed.

Fixpoint n_add_tops (ps : list part) (b : nst) : nout :=
  match ps with [] => NOk b | p :: r => nbind (n_add_top p b) (n_add_tops r) end.

Lemma nread_pieces root l pre t z ps : is_top l -> Grammar.pieces pre t z ps ->
  nreads root (fun f => compound_children f l) pre t z (fun b b' => n_add_tops ps b = NOk b').
Proof.
  intros Hl H. induction H as [pre z Hz|pre t p w t2 z ps Hp G _ IH]; intros s N E.
  - exists 1%nat, s, []. split; [|split; [apply nate_nil|split; [reflexivity|]]].
    + intros f Hf. destruct f as [|f]; [lia|]. destruct Hz as (c & r & -> & Hc). cbn [app] in E. cbn [compound_children]. rewrite E.
      unfold is in Hc. apply N.eqb_eq in Hc. subst c. reflexivity.
    + intros aft b b' H. exact H.
  - rewrite <- !app_assoc in E.
    destruct (lex_piece l s pre t (w ++ t2 ++ z) p N E Hp) as (s1 & k & E1 & A1 & Hk).
    assert (K : k <> Kns_declaration).
    { destruct Hk as [(_ & -> & _)|(_ & _ & -> & _)]; destruct Hl as [-> |[-> | ->]]; discriminate. }
    apply nate_of in A1; [|repeat constructor; exact K].
    assert (R1 : s_rest s1 = w ++ t2 ++ z) by (eapply nate_rest; eauto).
    destruct (ncompound_ws l s1 w (t2 ++ z) R1 G) as (d & s2 & A2 & E2).
    assert (N2 : nul_after s2) by (eapply nate_nul; [exact A2|]; eapply nate_nul; eauto).
    assert (R2 : s_rest s2 = t2 ++ z) by (eapply nate_rest; eauto).
    destruct (IH s2 N2 R2) as (k3 & s3 & sh3 & E3 & A3 & C3 & B3).
    exists (S (d + k3)), s3, (ns_shapes [(k, t)] ++ nwsh w ++ sh3). split; [|split; [|split]].
    + intros f Hf. destruct f as [|f]; [lia|]. replace f with (d + (f - d))%nat by lia.
      assert (X : compound_children (d + (f - d)) l s1 = POk s3) by (rewrite E2; apply E3; lia).
      destruct Hk as [(Hq & _)|(Hq & Ha & _)].
      * rewrite Hq in E1. unfold peek_is, peek in Hq. cbn [compound_children].
        destruct (s_rest s) as [|c r] eqn:Es.
        { symmetry in E. apply app_eq_nil in E. destruct E as [-> _]. exfalso.
          inversion Hp as [? ? ? HH|? ? ? HH]; subst.
          - destruct (quote_form _ _ _ _ HH). discriminate.
          - destruct (entity_form _ _ HH) as (? & ? & _). discriminate. }
        cbn in Hq. apply N.eqb_eq in Hq. subst c. change (is_xml_whitespace cQ) with false. change (cQ =? cRP) with false. change (cQ =? cQ) with true.
        cbn iota. rewrite E1. exact X.
      * rewrite Hq in E1. cbn [compound_children].
        destruct (s_rest s) as [|c r] eqn:Es.
        { rewrite peek_is_nil in Ha by auto. discriminate. }
        rewrite (peek_is_rest _ _ _ _ Es) in Ha. apply N.eqb_eq in Ha. subst c.
        change (is_xml_whitespace cAMP) with false. change (cAMP =? cRP) with false. change (cAMP =? cQ) with false. change (cAMP =? cAMP) with true.
        cbn iota. rewrite E1. exact X.
    + eapply nate_trans; [exact A1|]. eapply nate_trans; eauto.
    + rewrite !map_app, !concat_app, nwsh_text, C3, ns_text. cbn. now rewrite app_nil_r.
    + intros aft b b' Hb. rewrite !nbuildS_app. cbn [n_add_tops] in Hb.
      assert (X : forall aft, nbuildS root pre (ns_shapes [(k, t)]) aft b = n_add_top p b).
      { intros a. apply none_shape. destruct Hk as [(_ & -> & v & -> & Hv)|(_ & _ & -> & He)]; unfold ncallback; cbn [t_kind t_text t_col].
        - destruct Hl as [-> |[-> | ->]]; cbn [quote_kind]; rewrite (n_with_quote _ _ _ _ _ _ Hv); reflexivity.
        - destruct Hl as [-> |[-> | ->]]; cbn [entity_kind]; rewrite (n_with_entity_spec _ _ _ He); reflexivity. }
      rewrite X. destruct (n_add_top p b) as [b1| | |]; try discriminate. cbn [nbind] in *.
      rewrite nbuildS_app, nbuildS_wsh. cbn [nbind]. rewrite nwsh_text, ns_text. cbn [map snd List.concat]. rewrite app_nil_r, <- app_assoc. now apply B3.
Qed.

(** Frames with children. *)
Definition gopen (f : gframe) : Prop := match f with GDoc _ | GElem _ _ => True | _ => False end.
Definition gkids (f : gframe) : list nnode := match f with GDoc k => k | GElem _ k => k | _ => [] end.
Definition gwith (f : gframe) (k : list nnode) : gframe :=
  match f with GDoc _ => GDoc k | GElem e _ => GElem e k | g => g end.
Definition nadd1 (k : list nnode) (x : nnode) : list nnode :=
  match x with NPart p => n_add_part p k | _ => x :: k end.
Definition nadds (ks : list nnode) (k : list nnode) : list nnode := fold_left nadd1 ks k.

Fixpoint nmerge (l : list nnode) : list nnode :=
  match l with
  | [] => []
  | NPart (PText t) :: r => match nmerge r with
                            | NPart (PText u) :: r' => NPart (PText (t ++ u)) :: r'
                            | r' => NPart (PText t) :: r'
                            end
  | x :: r => x :: nmerge r
  end.
Lemma nmerge_text t ks : nmerge (NPart (PText t) :: ks)
  = match nmerge ks with NPart (PText u) :: r => NPart (PText (t ++ u)) :: r | r => NPart (PText t) :: r end.
Proof. reflexivity. Qed.
Lemma nmerge_twice u t ks : nmerge (NPart (PText u) :: NPart (PText t) :: ks) = nmerge (NPart (PText (u ++ t)) :: ks).
Proof.
  rewrite (nmerge_text u), (nmerge_text t), (nmerge_text (u ++ t)).
  destruct (nmerge ks) as [|[|[x|]| | |] r]; auto. now rewrite app_assoc.
Qed.
Lemma nadds_merge ks : forall k, rev (nadds ks k) =
  match k with NPart (PText u) :: r => rev r ++ nmerge (NPart (PText u) :: ks) | _ => rev k ++ nmerge ks end.
Proof.
  induction ks as [|x ks IH]; intros k.
  - change (nadds [] k) with k. cbn [nmerge].
    destruct k as [|[|[u|]| | |] r]; cbn [rev]; now rewrite ?app_nil_r.
  - change (nadds (x :: ks) k) with (nadds ks (nadd1 k x)). rewrite IH.
    destruct x as [e c|[t|m]|t|n c|c].
    2:{ cbn [nadd1 n_add_part]. destruct k as [|[|[u|]| | |] r]; cbn [rev]; auto. now rewrite nmerge_twice. }
    all: cbn [nadd1 n_add_part]; destruct k as [|[|[u|]| | |] r]; cbn [rev]; rewrite <- ?app_assoc; auto.
Qed.
Lemma nadds_nil ks : rev (nadds ks []) = nmerge ks.
Proof. rewrite nadds_merge. reflexivity. Qed.
Lemma nmerge_map ps : nmerge (map NPart ps) = map NPart (merge_parts ps).
Proof.
  induction ps as [|[t|m] ps IH]; auto.
  - cbn [map nmerge merge_parts]. rewrite IH. destruct (merge_parts ps) as [|[u|] r]; reflexivity.
  - cbn [map nmerge merge_parts]. now rewrite IH.
Qed.

(** A state between two nodes, or inside of the parentheses of an element. *)
Definition St (st : list gframe) (la : nlast) (h : list nsobj) (df : option nsref) : nst := NS st la None false h None None None df.

Lemma n_add_tops_elem ps : forall e k r l h df, exists l',
  n_add_tops ps (St (GElem e k :: r) l h df) = NOk (St (GElem e (nadds (map NPart ps) k) :: r) l' h df).
Proof. induction ps as [|p ps IH]; intros e k r l h df; [eexists; reflexivity|]. cbn [n_add_tops map]. apply IH. Qed.
Lemma n_add_tops_attr ps : forall a n k r l h df, exists l',
  n_add_tops ps (St (GAttr a n k :: r) l h df) = NOk (St (GAttr a n (fold_left (fun k p => add_part_part p k) ps k) :: r) l' h df).
Proof. induction ps as [|p ps IH]; intros a n k r l h df; [eexists; reflexivity|]. cbn [n_add_tops fold_left]. apply IH. Qed.

Inductive nfills : level -> list part -> nst -> nst -> Prop :=
| nfill_elem f r e ks ps h df : gopen f ->
    nfills LElem ps (St (gwith f (NElem e [] :: ks) :: r) LKid h df)
                    (St (gwith f (NElem e (map NPart ps) :: ks) :: r) LKid h df)
| nfill_attr ns n defs at_ a m k r ps h df :
    nfills Parser.LAttr ps (St (GElem (ED ns n defs (at_ ++ [NAttr a m []])) k :: r) LAttr h df)
                    (St (GElem (ED ns n defs (at_ ++ [NAttr a m ps])) k :: r) LAttr h df).

Lemma last_attr_app ns n defs at_ a : last_attr (ED ns n defs (at_ ++ [a])) = Some (a, ED ns n defs at_).
Proof. unfold last_attr. cbn [e_attrs e_ns e_name e_defs]. rewrite rev_unit, rev_involutive. reflexivity. Qed.

Lemma nfills_one lv p b b' : nfills lv [p] b b' -> n_add_last p b = NOk b'.
Proof.
  intros H. inversion H; subst.
  - destruct f; try contradiction; unfold n_add_last, on_top; cbn; destruct p; reflexivity.
  - unfold n_add_last, on_top. cbn [n_last St n_stack change_top part_into_attr]. rewrite last_attr_app.
    cbn [a_parts a_ns a_name rev]. destruct p; reflexivity.
Qed.
Lemma nfills_pi lv ps b b' : nfills lv ps b b' -> n_pi b = None /\ n_doctype b = false /\ n_decl b = None.
Proof. intros H; inversion H; auto. Qed.
Lemma nfills_compound lv ps b b' : nfills lv (merge_parts ps) b b' ->
  exists b1 b2, n_push_last b = NOk b1 /\ n_add_tops ps b1 = NOk b2 /\ n_pop b2 = NOk b'.
Proof.
  intros H. inversion H; subst.
  - assert (X : rev (nadds (map NPart ps) []) = map NPart (merge_parts ps)) by (now rewrite nadds_nil, nmerge_map).
    destruct f as [k|m k| |]; try contradiction.
    + destruct (n_add_tops_elem ps e [] (GDoc ks :: r) LTop h df) as (l' & E).
      eexists _, _. split; [reflexivity|]. split; [exact E|]. cbn. now rewrite X.
    + destruct (n_add_tops_elem ps e [] (GElem m ks :: r) LTop h df) as (l' & E).
      eexists _, _. split; [reflexivity|]. split; [exact E|]. cbn. now rewrite X.
  - destruct (n_add_tops_attr ps a m [] (GElem (ED ns n defs at_) k :: r) LTop h df) as (l' & E).
    eexists _, _. split; [|split; [exact E|]].
    + unfold n_push_last. cbn [n_last St n_stack]. rewrite last_attr_app. reflexivity.
    + unfold n_pop. cbn [n_stack St n_close_into]. rewrite adds_parts. cbn [rev app]. reflexivity.
Qed.

Definition ntext_effect (l : level) (t : bytes) (b : nst) : nout :=
  match l with LElem => n_element_value_text t b | _ => NsDom.attr_value (c_str t) b end.
Definition nquote_effect (l : level) (v : bytes) (b : nst) : nout :=
  match l with LElem => n_element_value_quote v b | _ => NsDom.attr_value v b end.

Lemma nread_bare root lv pre t z : is_holder lv -> bare t z ->
  nreads root (fun f => value_body f lv) pre t z (fun b b' => ntext_effect lv t b = NOk b').
Proof.
  intros Hl H s N E.
  destruct (read_bare root lv pre t z Hl H s N E) as (k & s' & sh & E1 & _).
  destruct (bare_first _ _ H) as (c & r & -> & _).
  exists k, (parse_text_value lv s), (ns_shapes [(value_kind lv, c :: r)]).
  assert (X : s' = parse_text_value lv s).
  { pose proof (E1 k (le_n k)) as E2. destruct (bare_first _ _ H) as (c' & r' & Ec & H1 & H2 & H3). injection Ec as <- <-.
    unfold value_body in E2. rewrite !(peek_is_rest s c (r ++ z)), H1, H2, H3 in E2 by exact E.
    destruct (peek s); [|discriminate]. destruct (peek1 s); [|discriminate]. destruct (unsafe_value_start _ _); [discriminate|]. congruence. }
  subst s'. split; [exact E1|]. split; [|split].
  - apply nate_of; [now apply (lex_bare lv s (c :: r) z)|]. repeat constructor. destruct Hl as [-> | ->]; discriminate.
  - cbn. now rewrite app_nil_r.
  - intros aft b b' Hb. apply none_shape. destruct Hl as [-> | ->]; exact Hb.
Qed.
Lemma nread_quote_value root lv pre t z v : is_holder lv -> quote pre t z v ->
  nreads root (fun f => value_body f lv) pre t z (fun b b' => nquote_effect lv v b = NOk b').
Proof.
  intros Hl H. apply (nreads_one root _ pre t z (quote_kind lv)).
  - destruct Hl as [-> | ->]; discriminate.
  - intros s N E. destruct (lex_quote lv s pre t z v E H) as (s' & Es & A). exists s'. split; [|exact A].
    intros f. unfold value_body. destruct (quote_form _ _ _ _ H) as (r & Hr).
    rewrite (peek_is_rest s cQ (r ++ z)) by (now rewrite E, Hr). change (cQ =? cQ) with true. exact Es.
  - intros aft b b' Hb. unfold ncallback. cbn [t_kind t_text t_col].
    destruct Hl as [-> | ->]; cbn [quote_kind]; rewrite (n_with_quote _ _ _ _ _ _ H); exact Hb.
Qed.
Lemma nread_entity_value root lv pre t z p : is_holder lv -> entity t p ->
  nreads root (fun f => value_body f lv) pre t z (fun b b' => n_add_last p b = NOk b').
Proof.
  intros Hl H. apply (nreads_one root _ pre t z (entity_kind lv)).
  - destruct Hl as [-> | ->]; discriminate.
  - intros s N E. destruct (lex_entity lv s t z p N E H) as (s' & Es & A). exists s'. split; [|exact A].
    intros f. unfold value_body. destruct (entity_form _ _ H) as (r & Hr & _).
    assert (R : s_rest s = cAMP :: (r ++ [cSEMI]) ++ z) by (now rewrite E, Hr).
    rewrite !(peek_is_rest _ _ _ _ R). change (cAMP =? cQ) with false. change (cAMP =? cAMP) with true. exact Es.
  - intros aft b b' Hb. unfold ncallback. cbn [t_kind t_text t_col].
    destruct Hl as [-> | ->]; cbn [entity_kind]; rewrite (n_with_entity_spec _ _ _ H); exact Hb.
Qed.
Lemma nfills_text lv t b b' : is_holder lv -> ~ In 0 t -> nfills lv [PText t] b b' -> ntext_effect lv t b = NOk b'.
Proof.
  intros Hl H0 H. pose proof (nfills_one _ _ _ _ H) as E. destruct (nfills_pi _ _ _ _ H) as (P & D & Q).
  destruct Hl as [-> | ->]; cbn [ntext_effect]; unfold n_element_value_text, NsDom.attr_value; rewrite ?P, ?D, ?Q, c_str_plain; auto.
Qed.
Lemma nfills_quote lv t b b' : is_holder lv -> nfills lv [PText t] b b' -> nquote_effect lv t b = NOk b'.
Proof.
  intros Hl H. pose proof (nfills_one _ _ _ _ H) as E. destruct (nfills_pi _ _ _ _ H) as (P & D & Q).
  destruct Hl as [-> | ->]; cbn [nquote_effect]; unfold n_element_value_quote, NsDom.attr_value; rewrite ?P, ?D, ?Q; auto.
Qed.

Lemma nread_value root lv pre t z ps : is_holder lv -> value pre t z ps ->
  nreads root (fun f => value_body f lv) pre t z (nfills lv ps).
Proof.
  intros Hl H. destruct H as [t z H|t z p H|w t z ps G H].
  - eapply nreads_weaken; [apply (nread_bare root lv); auto|]. intros b b' Hb. apply nfills_text; auto. apply H.
  - destruct H as [t z v H|t z p H].
    + eapply nreads_weaken; [eapply (nread_quote_value root lv); eauto|]. intros b b' Hb. now apply nfills_quote.
    + eapply nreads_weaken; [eapply (nread_entity_value root lv); eauto|]. intros b b' Hb. now apply (nfills_one lv).
  - apply nreads_ext with (G := fun f => parse_compound f lv).
    { exists 0%nat. intros f s _ N E. unfold value_body.
      rewrite !(peek_is_rest s cLP ((w ++ t ++ [cRP]) ++ z)) by exact E. reflexivity. }
    eapply nreads_weaken.
    { apply nreads_seq with (F := fun _ s => POk (single Kcpar_left cLP s))
        (H := fun f s => s <- compound_children f (enter_compound lv) s ;
                         s <- skip_space s ;
                         if negb (peek_is cRP s) then PErr E_COMPOUND_NOT_CLOSED s
                         else POk (single Kcpar_right cRP s)).
      - reflexivity.
      - apply nreads_single.
      - assert (Hrp : ~ begins_white ([cRP] ++ z)) by (apply solid_ascii; reflexivity).
        assert (W : nreads root (fun f => compound_children f (enter_compound lv)) (pre ++ [cLP]) (w ++ t) ([cRP] ++ z)
                     (fun b b' => n_add_tops ps b = NOk b')).
        { assert (Ht : is_top (enter_compound lv)) by (destruct Hl as [-> | ->]; unfold is_top; cbn; auto).
          pose proof (nread_pieces root _ _ _ _ _ Ht H) as RP. intros s N E. rewrite <- app_assoc in E.
          destruct (ncompound_ws (enter_compound lv) s w (t ++ [cRP] ++ z) E G) as (d & s1 & A1 & E1).
          destruct (RP s1 (nate_nul _ _ _ _ A1 N) (nate_rest _ _ _ _ _ A1 E)) as (k & s2 & sh & E2 & A2 & C2 & B2).
          exists (d + k)%nat, s2, (nwsh w ++ sh). split; [|split; [|split]].
          - intros f Hf. replace f with (d + (f - d))%nat by lia. rewrite E1. apply E2. lia.
          - eapply nate_trans; eauto.
          - rewrite map_app, concat_app, nwsh_text. congruence.
          - intros aft b b' Hb. rewrite nbuildS_app, nbuildS_wsh. cbn [nbind]. rewrite nwsh_text.
            rewrite <- app_assoc. now apply B2. }
        replace (w ++ t ++ [cRP]) with ((w ++ t) ++ [cRP]) by (now rewrite <- app_assoc).
        eapply nreads_seq with (F := fun f => compound_children f (enter_compound lv))
          (H := fun f s => s <- skip_space s ;
                         if negb (peek_is cRP s) then PErr E_COMPOUND_NOT_CLOSED s
                         else POk (single Kcpar_right cRP s)).
        + reflexivity.
        + exact W.
        + change [cRP] with ([] ++ [cRP]).
          apply nreads_seq with (F := fun _ => skip_space)
            (H := fun f s => if negb (peek_is cRP s) then PErr E_COMPOUND_NOT_CLOSED s else POk (single Kcpar_right cRP s)).
          * reflexivity.
          * apply nreads_skip. apply gap_nil. exact Hrp.
          * eapply nreads_ext; [|apply nreads_single]. exists 0%nat. intros f s _ N E.
            rewrite (peek_is_rest s cRP z) by exact E. reflexivity. }
    intros b b' Hb. destruct (nfills_compound _ _ _ _ Hb) as (b1 & b2 & H1 & H2 & H3).
    exists b1. split; [exact H1|]. exists b2. split; [exact H2|]. exists b2. split; [reflexivity|exact H3].
Qed.

Lemma nread_spaced_value root lv pre w t z R : gap w (t ++ z) ->
  nreads root (fun f => value_body f lv) (pre ++ w) t z R ->
  nreads root (fun f => parse_value f lv) pre (w ++ t) z R.
Proof.
  intros G H. eapply nreads_weaken.
  - apply nreads_seq with (F := fun _ => skip_space) (H := fun f => value_body f lv); [reflexivity| |exact H].
    now apply nreads_skip.
  - intros b b' Hb. exists b. auto.
Qed.
Lemma nread_equals root lv pre w t z R : gap w (t ++ z) ->
  nreads root (fun f => value_body f lv) (pre ++ [cEQ] ++ w) t z R ->
  nreads root (equals_body lv) pre ([cEQ] ++ w ++ t) z R.
Proof.
  intros G H. eapply nreads_weaken.
  - apply nreads_seq with (F := fun _ s => POk (single Kequals cEQ s)) (H := fun f => parse_value f lv); [reflexivity|apply nreads_single|].
    apply nread_spaced_value; [exact G|]. rewrite <- app_assoc. exact H.
  - intros b b' Hb. exists b. auto.
Qed.
(** A single text. *)
Lemma nread_text_value root pre t z u : text_value pre t z u ->
  nreads root (fun f => value_body f Parser.LAttr) pre t z (fun b b' => NsDom.attr_value u b = NOk b').
Proof.
  intros [t' z' H|t' z' v H].
  - eapply nreads_weaken; [apply (nread_bare root Parser.LAttr); [now right|exact H]|]. cbn [ntext_effect]. rewrite c_str_plain by apply H. auto.
  - eapply nreads_weaken; [apply (nread_quote_value root Parser.LAttr); [now right|exact H]|]. auto.
Qed.

(** ** Names *)
Lemma split_colon_at p n : ~ In cCOLON n -> split_colon (p ++ cCOLON :: n) = Some (p, n).
Proof.
  intros H. induction p as [|c p IH].
  - cbn [app split_colon]. rewrite split_colon_none by exact H. reflexivity.
  - cbn [app split_colon]. now rewrite IH.
Qed.
Lemma forallb_colon p n : forallb is_xmq_text_name p = true -> forallb is_xmq_text_name n = true ->
  forallb is_xmq_text_name (p ++ cCOLON :: n) = true.
Proof. intros H1 H2. rewrite forallb_app, H1. exact H2. Qed.

(** The callbacks for three tokens. *)
Lemma nbuild_three root pre k1 t1 x1 k2 t2 x2 k3 t3 x3 b b1 b2 b3 aft :
  (forall a, ncallback root (Tok k1 0 (col_after pre) t1 x1) a b = NOk b1) ->
  (forall c a, ncallback root (Tok k2 0 c t2 x2) a b1 = NOk b2) ->
  (forall c a, ncallback root (Tok k3 0 c t3 x3) a b2 = NOk b3) ->
  nbuildS root pre [(k1, t1, x1); (k2, t2, x2); (k3, t3, x3)] aft b = NOk b3.
Proof. intros H1 H2 H3. cbn [nbuildS]. rewrite H1. cbn [nbind]. rewrite H2. cbn [nbind]. rewrite H3. reflexivity. Qed.

Definition nkey_effect (p : option bytes) (n : bytes) (b : nst) : nout :=
  match p with None => attr_key n b | Some q => nbind (attr_ns q b) (attr_key n) end.
Definition ndecl_effect (p : option bytes) (b : nst) : nout :=
  match p with None => ns_declaration [] b | Some q => nbind (ns_declaration (cCOLON :: q) b) (attr_ns q) end.
Definition no_nul (p : option bytes) : Prop := match p with None => True | Some q => ~ In 0 q end.
Definition nlabel_effect (p : option bytes) (n : bytes) (b : nst) : nout :=
  n_create_node None n (match p with None => b | Some q => set_ens (Some q) b end).

Lemma nread_attr_label root pre m p n z : attr_label m p n -> ~ starts is_xmq_text_name z ->
  nreads root (fun _ s => POk (attr_front s)) pre m z (fun b b' => nkey_effect p n b = NOk b').
Proof.
  intros H Hz. destruct H as [n ((H1 & H2) & H3 & H4)|p n ((H1 & H2) & H3 & H4) ((K1 & K2) & K3)].
  - apply (nreads_one root _ pre n z Kattr_key); [discriminate| |].
    + intros s N E. pose proof (lex_name s n z H2 Hz E) as A. exists (attr_front s). split; [auto|].
      unfold attr_front. rewrite (between_ate _ _ _ _ A). unfold emit_attr_name. rewrite split_colon_none by auto.
      rewrite beq_false by auto. apply (ate_emit Kattr_key (s_line s) (s_col s) n [] _ _ _ _ A).
    + intros aft b b' Hb. unfold ncallback. cbn [t_kind t_text]. unfold nkey_effect in Hb.
      exact Hb.
  - intros s N E. pose proof (lex_name s _ z (forallb_colon _ _ H2 K2) Hz E) as A.
    exists 0%nat, (attr_front s), [(Kattr_ns, p, []); (Kns_colon, [cCOLON], []); (Kattr_key, n, [])].
    split; [auto|]. split; [|split].
    + unfold attr_front. rewrite (between_ate _ _ _ _ A). unfold emit_attr_name. rewrite split_colon_at by auto.
      rewrite beq_false by auto.
      pose proof (nate_of _ _ _ _ A (Forall_nil _)) as A0.
      apply (nate_emit Kattr_ns (s_line s) (s_col s) p []) in A0.
      apply (nate_emit Kns_colon (s_line s) (s_col s + blen p) [cCOLON] []) in A0.
      apply (nate_emit Kattr_key (s_line s) (s_col s + blen p + 1) n []) in A0. exact A0.
    + unfold stext. cbn. now rewrite app_nil_r.
    + intros aft b b' Hb. unfold nkey_effect in Hb.
      destruct (attr_ns p b) as [b1| | |] eqn:E1; try discriminate. cbn [nbind] in Hb.
      apply (nbuild_three _ _ _ _ _ _ _ _ _ _ _ b b1 b1 b').
      * intros a. exact E1.
      * reflexivity.
      * intros c a. unfold ncallback. cbn [t_kind t_text]. exact Hb.
Qed.

Lemma nread_decl_label root pre m p z : decl_label m p -> ~ starts is_xmq_text_name z ->
  nreads root (fun _ s => POk (attr_front s)) pre m z (fun b b' => ndecl_effect p b = NOk b').
Proof.
  intros H Hz. destruct H as [|p ((K1 & K2) & K3)].
  - intros s N E. pose proof (lex_name s (B "xmlns") z eq_refl Hz E) as A.
    exists 0%nat, (attr_front s), [(Kns_declaration, B "xmlns", [])]. split; [auto|]. split; [|split].
    + unfold attr_front. rewrite (between_ate _ _ _ _ A). unfold emit_attr_name. rewrite split_colon_none.
      2:{ cbn. intros [X|[X|[X|[X|[X|[]]]]]]; discriminate. }
      rewrite beq_refl. pose proof (nate_of _ _ _ _ A (Forall_nil _)) as A0.
      apply (nate_emit Kns_declaration (s_line s) (s_col s) (B "xmlns") []) in A0. exact A0.
    + unfold stext. cbn [map fst snd List.concat]. apply app_nil_r.
    + intros aft b b' Hb. cbn [nbuildS]. unfold ncallback. cbn [t_kind t_suffix]. cbn [ndecl_effect] in Hb. now rewrite Hb.
  - assert (E0 : B "xmlns:" ++ p = B "xmlns" ++ cCOLON :: p) by reflexivity. rewrite E0. clear E0.
    intros s N E. pose proof (lex_name s _ z (forallb_colon (B "xmlns") _ eq_refl K2) Hz E) as A.
    exists 0%nat, (attr_front s), [(Kns_declaration, B "xmlns", cCOLON :: p); (Kns_colon, [cCOLON], []); (Kattr_ns, p, [])].
    split; [auto|]. split; [|split].
    + unfold attr_front. rewrite (between_ate _ _ _ _ A). unfold emit_attr_name. rewrite split_colon_at by auto.
      rewrite beq_refl.
      pose proof (nate_of _ _ _ _ A (Forall_nil _)) as A0.
      apply (nate_emit Kns_declaration (s_line s) (s_col s) (B "xmlns") (cCOLON :: p)) in A0.
      apply (nate_emit Kns_colon (s_line s) (s_col s + blen (B "xmlns")) [cCOLON] []) in A0.
      apply (nate_emit Kattr_ns (s_line s) (s_col s + blen (B "xmlns") + 1) p []) in A0. exact A0.
    + unfold stext. cbn [map fst snd List.concat]. rewrite app_nil_r. reflexivity.
    + intros aft b b' Hb. unfold ndecl_effect in Hb.
      destruct (ns_declaration (cCOLON :: p) b) as [b1| | |] eqn:E1; try discriminate. cbn [nbind] in Hb.
      apply (nbuild_three _ _ _ _ _ _ _ _ _ _ _ b b1 b1 b').
      * intros a. unfold ncallback. cbn [t_kind t_suffix]. exact E1.
      * reflexivity.
      * intros c a. unfold ncallback. cbn [t_kind t_text]. exact Hb.
Qed.

(** ** Attributes *)
Lemma attr_label_nul m p n : attr_label m p n -> no_nul p /\ ~ In 0 n.
Proof.
  intros [n' ((_ & H) & _)|p' n' ((_ & H) & _) ((_ & K) & _)]; (split; [|now apply name_nul]); [exact I|]. now apply name_nul.
Qed.
Lemma decl_label_nul m p : decl_label m p -> no_nul p.
Proof. intros [|p' ((_ & K) & _)]; [exact I|]. now apply name_nul. Qed.
Inductive item_added : NsGrammar.item -> nst -> nst -> Prop :=
| ia_attr p n v b b1 b2 : (no_nul p -> ~ In 0 n -> nkey_effect p n b = NOk b1) -> nfills Parser.LAttr v b1 b2 -> item_added (Attribute p n v) b b2
| ia_decl p u b b1 b2 : (no_nul p -> ndecl_effect p b = NOk b1) -> NsDom.attr_value u b1 = NOk b2 -> item_added (Declaration p u) b b2.
Inductive items_added : list NsGrammar.item -> nst -> nst -> Prop :=
| ias_nil b : items_added [] b b
| ias_cons i l b b1 b2 : item_added i b b1 -> items_added l b1 b2 -> items_added (i :: l) b b2.

Lemma nfills_nil lv b b' : nfills lv [] b b' -> b = b'.
Proof. intros H. inversion H; reflexivity. Qed.

Lemma nread_assign root pre m (F : bytes -> nst -> nst -> Prop) w1 w2 v w y R1 R :
  (~ starts is_xmq_text_name ((w1 ++ [cEQ] ++ w2 ++ v) ++ w ++ y) -> nreads root (fun _ s => POk (attr_front s)) pre m ((w1 ++ [cEQ] ++ w2 ++ v) ++ w ++ y) R1) ->
  gap w1 ([cEQ] ++ w2 ++ v ++ w ++ y) -> gap w2 (v ++ w ++ y) ->
  nreads root (fun f => value_body f Parser.LAttr) (pre ++ m ++ w1 ++ [cEQ] ++ w2) v (w ++ y) R ->
  nreads root parse_attribute pre (m ++ w1 ++ [cEQ] ++ w2 ++ v) (w ++ y) (fun b b2 => exists b1, R1 b b1 /\ R b1 b2).
Proof.
  intros HL G1 G2 Hv. eapply nreads_weaken.
  - apply nreads_seq with (F := fun _ s => POk (attr_front s))
      (H := fun f s => s <- skip_space s ; if peek_is cEQ s then parse_value f Parser.LAttr (single Kequals cEQ s) else POk s).
    + reflexivity.
    + apply HL. rewrite <- !app_assoc. apply not_name_space; [exact G1|]. now apply not_starts.
    + apply nreads_seq with (F := fun _ => skip_space)
        (H := fun f s => if peek_is cEQ s then parse_value f Parser.LAttr (single Kequals cEQ s) else POk s).
      * reflexivity.
      * apply nreads_skip. rewrite <- !app_assoc. exact G1.
      * eapply nreads_ext.
        2:{ apply (nread_equals root Parser.LAttr); [exact G2|]. rewrite <- !app_assoc. exact Hv. }
        exists 0%nat. intros f s _ N E. rewrite (peek_is_rest s cEQ ((w2 ++ v) ++ w ++ y)) by exact E. reflexivity.
  - intros b b' (b1 & H1 & H2). exists b1. split; [exact H1|]. exists b1. split; [reflexivity|exact H2].
Qed.

Lemma nread_entry root pre t w y a : entry pre t w y a -> gap w y ->
  exists u w', (u = [] /\ w' = w \/ u = w /\ w' = []) /\ nreads root parse_attribute pre (t ++ u) (w' ++ y) (item_added a).
Proof.
  intros H G. destruct H as [m w y p n H1 H2 H3|m v w y p n ps H1 H2|m w1 w2 v w y p u H1 G1 G2 Hv].
  - exists w, []. split; auto. cbn [app]. eapply nreads_weaken.
    + apply nreads_seq with (F := fun _ s => POk (attr_front s))
        (H := fun f s => s <- skip_space s ; if peek_is cEQ s then parse_value f Parser.LAttr (single Kequals cEQ s) else POk s).
      * reflexivity.
      * eapply nread_attr_label; eauto.
      * replace w with (w ++ []) by apply app_nil_r.
        apply nreads_seq with (F := fun _ => skip_space)
          (H := fun f s => if peek_is cEQ s then parse_value f Parser.LAttr (single Kequals cEQ s) else POk s).
        -- reflexivity.
        -- now apply nreads_skip.
        -- eapply nreads_ext; [|apply nreads_nothing]. exists 0%nat. intros f s _ N E. rewrite (peek_no cEQ s y); auto. discriminate.
    + intros b b' Hb. inversion Hb as [p' n' v' b0 b1 b2 E1 E2|]; subst. apply nfills_nil in E2. subst b1.
      exists b'. split; [apply E1; eapply attr_label_nul; eauto|]. exists b'. split; reflexivity.
  - exists [], w. split; auto. rewrite app_nil_r.
    inversion H2 as [w1 w2 v' z' ps' G1 G2 Hv]; subst.
    eapply nreads_weaken.
    + apply nread_assign; [exact (fun _ _ _ => True)| |exact G1|exact G2|].
      * intros Hz. eapply nread_attr_label; eauto.
      * rewrite <- !app_assoc in Hv. apply (nread_value root Parser.LAttr); [now right|exact Hv].
    + intros b b' Hb. inversion Hb as [p0 n0 v0 b0 b1 b2 E1 E2|]; subst. exists b1. split; [apply E1; eapply attr_label_nul; eauto|exact E2].
  - exists [], w. split; auto. rewrite app_nil_r. eapply nreads_weaken.
    + apply nread_assign; [exact (fun _ _ _ => True)| |exact G1|exact G2|].
      * intros Hz. eapply nread_decl_label; eauto.
      * apply nread_text_value. exact Hv.
    + intros b b' Hb. inversion Hb as [|p0 u0 b0 b1 b2 E1 E2]; subst. exists b1. split; [apply E1; eapply decl_label_nul; eauto|exact E2].
Qed.

Lemma name_first n : is_name n -> exists c r, n = c :: r /\ is_xmq_text_name c = true.
Proof. intros (H1 & H2). destruct n as [|c n]; [congruence|]. cbn in H2. apply andb_true_iff in H2 as [H2 _]. eauto. Qed.
Lemma attr_label_first m p n : attr_label m p n -> exists c r, m = c :: r /\ is_xmq_text_name c = true.
Proof.
  intros [n' (H & _)|p' n' (H & _) _].
  - now apply name_first.
  - destruct (name_first _ H) as (c & r & -> & Hc). exists c, (r ++ cCOLON :: n'). auto.
Qed.
Lemma decl_label_first m p : decl_label m p -> exists c r, m = c :: r /\ is_xmq_text_name c = true.
Proof. intros [|p' _]; eexists _, _; (split; [reflexivity|]); reflexivity. Qed.
Lemma entry_first pre t w y a : entry pre t w y a -> exists c r, t = c :: r /\ is_xmq_text_name c = true.
Proof.
  intros [m w' y' p n H _ _|m v w' y' p n ps H _|m w1 w2 v w' y' p u H _ _ _].
  - now apply attr_label_first in H.
  - apply attr_label_first in H. destruct H as (c & r & -> & Hc). exists c, (r ++ v). auto.
  - apply decl_label_first in H. destruct H as (c & r & -> & Hc). eexists c, _. split; [reflexivity|exact Hc].
Qed.

Lemma nread_entries root pre t z l : entries pre t z l -> nreads root Parser.attributes pre t z (items_added l).
Proof.
  intros H. induction H as [pre z Hz|pre t w t2 z a l Ha G Hl IH].
  - intros s N E. exists 1%nat, s, []. split; [|split; [apply nate_nil|split; [reflexivity|]]].
    + intros f Hf. destruct f as [|f]; [lia|]. destruct Hz as (c & r & -> & Hc). cbn [app] in E. cbn [Parser.attributes]. rewrite E.
      unfold is in Hc. apply N.eqb_eq in Hc. subst c. reflexivity.
    + intros aft b b' Hb. inversion Hb; subst. reflexivity.
  - destruct (nread_entry root pre t w (t2 ++ z) a Ha G) as (u & w' & Hu & RA).
    destruct (entry_first _ _ _ _ _ Ha) as (c & r & Et & Hc).
    intros s N E.
    assert (E' : s_rest s = (t ++ u) ++ w' ++ t2 ++ z).
    { rewrite E. destruct Hu as [(-> & ->)|(-> & ->)]; now rewrite ?app_nil_r, <- !app_assoc. }
    destruct (RA s N E') as (k1 & s1 & sh1 & E1 & A1 & C1 & B1).
    assert (G' : gap w' (t2 ++ z)). { destruct Hu as [(-> & ->)|(-> & ->)]; auto. apply gap_nil. apply G. }
    destruct (nattributes_ws s1 w' (t2 ++ z) (nate_rest _ _ _ _ _ A1 E') G') as (d & s2 & A2 & E2).
    assert (R2 : s_rest s2 = t2 ++ z) by (eapply nate_rest; [exact A2|]; eapply nate_rest; eauto).
    assert (N2 : nul_after s2) by (eapply nate_nul; [exact A2|]; eapply nate_nul; eauto).
    destruct (IH s2 N2 R2) as (k3 & s3 & sh3 & E3 & A3 & C3 & B3).
    assert (T : t ++ w ++ t2 = (t ++ u) ++ w' ++ t2).
    { destruct Hu as [(-> & ->)|(-> & ->)]; now rewrite ?app_nil_r, <- ?app_assoc. }
    exists (S (k1 + d + k3)), s3, (sh1 ++ nwsh w' ++ sh3). split; [|split; [|split]].
    + intros f Hf. destruct f as [|f]; [lia|]. cbn [Parser.attributes]. rewrite E, Et. cbn [app].
      assert (X : is_xml_whitespace c = false).
      { unfold is_xml_whitespace. now rewrite !(name_ne c _ Hc) by reflexivity. }
      rewrite X. rewrite (name_ne c cRP Hc) by reflexivity. rewrite (name_key_start c Hc).
      rewrite E1 by lia. cbn [pbind]. replace f with (d + (f - d))%nat by lia. rewrite E2. apply E3. lia.
    + rewrite T. eapply nate_trans; [exact A1|]. eapply nate_trans; eauto.
    + rewrite !map_app, !concat_app, nwsh_text, C1, C3. now rewrite T.
    + intros aft b b' Hb. inversion Hb as [|i' l' b0 b1 b2 Hb1 Hb2 X1 X2 X3]; subst i' l' b0 b2. rewrite nbuildS_app, (B1 _ _ _ Hb1). cbn [nbind].
      rewrite nbuildS_app, nbuildS_wsh. cbn [nbind]. rewrite C1, nwsh_text.
      replace ((pre ++ t ++ u) ++ w') with (pre ++ t ++ w).
      * now apply B3.
      * destruct Hu as [(-> & ->)|(-> & ->)]; now rewrite ?app_nil_r, <- ?app_assoc.
Qed.

(** ** Elements *)
Lemma nread_elem_label pre m p n z : element_label m p n -> ~ starts is_xmq_text_name z ->
  nreads None (fun _ s => POk (elem_name EElement s)) pre m z (fun b b' => nlabel_effect p n b = NOk b').
Proof.
  intros H Hz. destruct H as [n (H1 & H2 & H3)|p n (H1 & H2 & H3) ((K1 & K2) & K3)]; intros s N E.
  - pose proof (lex_name s n z H2 Hz E) as A.
    set (kd := if next_is_equal (s_rest (eat_name s)) 0 then Kelement_key else Kelement_name).
    assert (Hk : kd = Kelement_name \/ kd = Kelement_key) by (unfold kd; destruct (next_is_equal _ _); auto).
    exists 0%nat, (elem_name EElement s), [(kd, n, [])]. split; [auto|]. split; [|split].
    + unfold elem_name. rewrite (between_ate _ _ _ _ A). unfold emit_element_name. rewrite split_colon_none by auto.
      pose proof (nate_of _ _ _ _ A (Forall_nil _)) as A0. fold kd.
      apply (nate_emit kd (s_line s) (s_col s) n []) in A0.
      replace (kd, n, []) with (nshape (Tok kd (s_line s) (s_col s) n [])) by (destruct Hk as [-> | ->]; reflexivity). exact A0.
    + unfold stext. cbn. now rewrite app_nil_r.
    + intros aft b b' Hb. cbn [nbuildS]. unfold ncallback. cbn [t_kind t_text].
      unfold nlabel_effect in Hb. destruct Hk as [-> | ->]; rewrite c_str_plain by (now apply name_nul); rewrite Hb; reflexivity.
  - pose proof (lex_name s _ z (forallb_colon _ _ H2 K2) Hz E) as A.
    set (kd := if next_is_equal (s_rest (eat_name s)) 0 then Kelement_key else Kelement_name).
    assert (Hk : kd = Kelement_name \/ kd = Kelement_key) by (unfold kd; destruct (next_is_equal _ _); auto).
    exists 0%nat, (elem_name EElement s), [(Kelement_ns, p, []); (Kns_colon, [cCOLON], []); (kd, n, [])].
    split; [auto|]. split; [|split].
    + unfold elem_name. rewrite (between_ate _ _ _ _ A). unfold emit_element_name. rewrite split_colon_at by auto.
      pose proof (nate_of _ _ _ _ A (Forall_nil _)) as A0. fold kd.
      apply (nate_emit Kelement_ns (s_line s) (s_col s) p []) in A0.
      apply (nate_emit Kns_colon (s_line s) (s_col s + blen p) [cCOLON] []) in A0.
      apply (nate_emit kd (s_line s) (s_col s + blen p + 1) n []) in A0.
      replace (kd, n, []) with (nshape (Tok kd (s_line s) (s_col s + blen p + 1) n [])) by (destruct Hk as [-> | ->]; reflexivity). exact A0.
    + unfold stext. cbn. now rewrite app_nil_r.
    + intros aft b b' Hb. unfold nlabel_effect in Hb. apply (nbuild_three _ _ _ _ _ _ _ _ _ _ _ b (set_ens (Some p) b) (set_ens (Some p) b) b').
      * intros a. unfold ncallback. cbn [t_kind t_text]. now rewrite c_str_plain by now apply name_nul.
      * reflexivity.
      * intros c a. unfold ncallback. cbn [t_kind t_text].
        destruct Hk as [-> | ->]; rewrite c_str_plain by (now apply name_nul); exact Hb.
Qed.

Lemma last_attr_inv m a m' : last_attr m = Some (a, m') -> add_attr a m' = m.
Proof.
  unfold last_attr. destruct (rev (e_attrs m)) as [|a0 r] eqn:E; [discriminate|]. intros H. injection H as <- <-.
  unfold add_attr. cbn [e_ns e_name e_defs e_attrs]. destruct m as [x n d at_]. cbn [e_attrs e_ns e_name e_defs] in *. f_equal.
  rewrite <- (rev_involutive at_), E. reflexivity.
Qed.
Lemma push_pop b b1 b2 : n_push_last b = NOk b1 -> n_pop b1 = NOk b2 -> b2 = b.
Proof.
  destruct b as [st la pi dt h en an dc df]. unfold n_push_last. cbn [n_last n_stack].
  destruct la; try discriminate.
  - destruct st as [|[k|m k|a n k|] r]; try discriminate; destruct k as [|[e ks| | | |] k]; try discriminate;
      intros H; apply (f_equal (fun x => match x with NOk y => y | _ => b1 end)) in H; subst b1; cbn;
      intros H; injection H as <-; unfold set_stack; cbn; rewrite rev_involutive; reflexivity.
  - destruct st as [|[k|m k|a n k|] r]; try discriminate. destruct (last_attr m) as [[a m']|] eqn:E; [|discriminate].
    intros H; apply (f_equal (fun x => match x with NOk y => y | _ => b1 end)) in H; subst b1. cbn.
    intros H; injection H as <-. unfold set_stack; cbn. rewrite rev_involutive. destruct a as [x y u]. cbn [a_ns a_name a_parts].
    now rewrite (last_attr_inv _ _ _ E).
  - destruct st as [|g r]; [discriminate|].
    intros H; apply (f_equal (fun x => match x with NOk y => y | _ => b1 end)) in H; subst b1. cbn.
    intros H; injection H as <-. reflexivity.
Qed.

Lemma elem_label_name m p n : element_label m p n -> is_name n.
Proof.
  intros [n' ((c & r & -> & _) & H & _)|p' n' _ (H & _)]; [|exact H]. split; [discriminate|exact H].
Qed.

(** The element is created, and its attributes and declarations are added. *)
Inductive head_added (p : option bytes) (n : bytes) (l : list NsGrammar.item) (b b' : nst) : Prop :=
| head_add b0 b1 b2 : (is_name n -> nlabel_effect p n b = NOk b0) -> n_push_last b0 = NOk b1 -> items_added l b1 b2 -> n_pop b2 = NOk b' ->
    head_added p n l b b'.

Lemma nread_head pre t w y p n l : nhead pre t (w ++ y) p n l -> gap w y -> ~ starts (is cLP) y ->
  nreads None (elem_front EElement) pre (t ++ w) y (head_added p n l).
Proof.
  intros H G Hy. inversion H as [m z' p' n' H1 H2|m w1 w2 t' z' p' n' l' H1 G1 G2 Ha]; subst.
  - eapply nreads_weaken.
    + apply nreads_seq with (F := fun _ s => POk (elem_name EElement s)) (H := elem_rest); [reflexivity|eapply nread_elem_label; eauto|].
      replace w with (w ++ [] ++ []) by now rewrite app_nil_r.
      apply nreads_seq with (F := fun _ => skip_space) (H := fun f s => s4 <- attrs_part f s ; skip_space s4); [reflexivity|now apply nreads_skip|].
      apply nreads_seq with (F := attrs_part) (H := fun _ => skip_space); [reflexivity| |].
      * eapply nreads_ext; [|apply nreads_nothing]. exists 0%nat. intros f s _ N E. unfold attrs_part. rewrite (peek_no cLP s y); auto. discriminate.
      * apply nreads_skip. eapply gap_refl; eauto.
    + intros b b' [b0 b1 b2 P1 P2 P3 P4]. inversion P3; subst b2. pose proof (push_pop _ _ _ P2 P4). subst b0.
      exists b'. split; [apply P1; eapply elem_label_name; eauto|]. exists b'. split; [reflexivity|]. exists b'. split; reflexivity.
  - eapply nreads_weaken.
    + replace ((m ++ w1 ++ [cLP] ++ w2 ++ t' ++ [cRP]) ++ w) with (m ++ w1 ++ ([cLP] ++ w2 ++ t' ++ [cRP]) ++ w) by now rewrite <- !app_assoc.
      apply nreads_seq with (F := fun _ s => POk (elem_name EElement s)) (H := elem_rest); [reflexivity| |].
      { eapply nread_elem_label; [exact H1|]. rewrite <- !app_assoc. rewrite <- ?app_assoc in G1. apply not_name_space; [exact G1|]. now apply not_starts. }
      apply nreads_seq with (F := fun _ => skip_space) (H := fun f s => s4 <- attrs_part f s ; skip_space s4); [reflexivity| |].
      { apply nreads_skip. rewrite <- !app_assoc. rewrite <- ?app_assoc in G1. exact G1. }
      apply nreads_seq with (F := attrs_part) (H := fun _ => skip_space); [reflexivity| |now apply nreads_skip].
      eapply nreads_ext with (G := fun f s => (fun f s => s <- Parser.attributes f (single Kapar_left cLP s) ; attrs_close s) f (set_attr (Some (here s)) s)).
      { exists 0%nat. intros f s _ N E. unfold attrs_part. rewrite (peek_is_rest s cLP ((w2 ++ t' ++ [cRP]) ++ w ++ y)) by exact E. reflexivity. }
      apply (nreads_mark None (fun f s => s <- Parser.attributes f (single Kapar_left cLP s) ; attrs_close s) (fun s => set_attr (Some (here s)) s)).
      { intros s. apply same_set_attr. }
      replace ([cLP] ++ w2 ++ t' ++ [cRP]) with ([cLP] ++ (w2 ++ t') ++ [cRP]) by now rewrite <- !app_assoc.
      apply nreads_seq with (F := fun _ s => POk (single Kapar_left cLP s)) (H := fun f s => s <- Parser.attributes f s ; attrs_close s); [reflexivity|apply nreads_single|].
      apply nreads_seq with (F := Parser.attributes) (H := fun _ => attrs_close); [reflexivity| |].
      * instantiate (1 := items_added l). pose proof (nread_entries None _ _ _ _ Ha) as RP. intros s N E. rewrite <- app_assoc in E.
        destruct (nattributes_ws s w2 (t' ++ [cRP] ++ w ++ y) E G2) as (d & s1 & A1 & E1).
        destruct (RP s1 (nate_nul _ _ _ _ A1 N) (nate_rest _ _ _ _ _ A1 E)) as (k & s2 & sh & E2 & A2 & C2 & B2).
        exists (d + k)%nat, s2, (nwsh w2 ++ sh). split; [|split; [|split]].
        -- intros f Hf. replace f with (d + (f - d))%nat by lia. rewrite E1. apply E2. lia.
        -- eapply nate_trans; eauto.
        -- rewrite map_app, concat_app, nwsh_text. congruence.
        -- intros aft b b' Hb. rewrite nbuildS_app, nbuildS_wsh. cbn [nbind]. rewrite nwsh_text.
           rewrite <- !app_assoc. now apply B2.
      * change [cRP] with ([] ++ [cRP]).
        apply nreads_seq with (F := fun _ => skip_space)
          (H := fun _ s => if negb (peek_is cRP s) then PErr E_ATTRIBUTES_NOT_CLOSED s else POk (single Kapar_right cRP s)); [reflexivity| |].
        -- apply nreads_skip. apply gap_nil. apply solid_ascii; reflexivity.
        -- eapply nreads_ext; [|apply nreads_single]. exists 0%nat. intros f s _ N E.
           rewrite (peek_is_rest s cRP (w ++ y)) by exact E. reflexivity.
    + intros b b' [b0 b1 b2 P1 P2 P3 P4].
      exists b0. split; [apply P1; eapply elem_label_name; eauto|]. exists b0. split; [reflexivity|]. exists b'. split; [|reflexivity].
      exists b1. split; [exact P2|]. exists b2. split; [exact P3|]. exists b2. split; [reflexivity|exact P4].
Qed.

(** ** Comments *)
Inductive ncomment_added (v : bytes) : nst -> nst -> Prop :=
| ncomment_add f r la h df : gopen f ->
    ncomment_added v (St (f :: r) la h df) (St (gwith f (NComment v :: gkids f) :: r) LKid h df).
Inductive ncomment_extended (v : bytes) : nst -> nst -> Prop :=
| ncomment_ext f r u ks h df : gopen f ->
    ncomment_extended v (St (gwith f (NComment u :: ks) :: r) LKid h df)
                        (St (gwith f (NComment (u ++ cNL :: v) :: ks) :: r) LKid h df).

Lemma nvalue_of_comment pre n b aft f : (1 <= n)%nat -> plain b ->
  n_with_value (comment_value (col_after pre) (rep cSLASH n ++ segment n b) aft) f
  = f (comment_text (column pre + n + 1) b).
Proof.
  intros Hn Hp. unfold comment_value. destruct (un_comment_block (N.to_nat (col_after pre - 1)) n b aft Hp) as (m & ->).
  cbn [n_with_value]. f_equal. apply c_str_plain. now apply comment_text_plain.
Qed.
Lemma nvalue_of_continuation pre n b aft f : (1 <= n)%nat -> plain b ->
  n_with_value (continuation_value (col_after pre) (segment n b) aft) f
  = f (comment_text (column pre + n + 1) b).
Proof.
  intros Hn Hp. unfold continuation_value. rewrite count_lead_segment.
  destruct (un_comment_block (N.to_nat (col_after pre - 1)) n b aft Hp) as (m & ->).
  cbn [n_with_value]. f_equal. apply c_str_plain. now apply comment_text_plain.
Qed.
Lemma nappend_ext v b b' : ncomment_extended v b b' -> n_append_comment v b = NOk b'.
Proof. intros [f r u ks h df Ho]. destruct f; try contradiction; reflexivity. Qed.

Lemma nread_continuations root n pre t z v : (1 <= n)%nat -> bodies n pre [] t z v ->
  nreads root (fun f => continuations f n) pre t z (ncomment_extended v).
Proof.
  intros Hn H. remember [] as front eqn:Ef. induction H as [pre front b z Hb Hz|pre front b t z v Hb H IH]; subst front; intros s N E.
  - destruct (lex_segment n s [] b z Hn N (or_introl eq_refl) (proj2 Hb)) as (s' & Es & A); auto.
    { intros (c & r & -> & Hc). apply Hz. exists c, r. split; auto. unfold one_of. cbn. unfold is in Hc. now rewrite Hc. }
    assert (Hm : match z with d :: _ => d =? cSTAR | [] => false end = false).
    { destruct z as [|d z]; auto. apply not_starts_cons in Hz. unfold one_of in Hz. cbn [existsb] in Hz.
      now destruct (d =? cSTAR), (d =? cSLASH). }
    cbn [app] in A |- *. exists 1%nat, (emit_from Kcomment_continuation s s'), (ns_shapes [(Kcomment_continuation, segment n b)]).
    split; [|split; [apply nate_of; [now apply ate_emit_from|repeat constructor; discriminate]|split; [cbn; now rewrite app_nil_r|]]].
    + intros f Hf. destruct f as [|f]; [lia|]. cbn [continuations]. rewrite Es, Hm. reflexivity.
    + intros aft b1 b2 Hb'. apply none_shape. unfold ncallback. cbn [t_kind t_text t_col].
      rewrite nvalue_of_continuation by (auto; apply Hb). now apply nappend_ext.
  - destruct (bodies_starts _ _ _ _ _ H) as (r & Et). cbn [app] in E. rewrite <- app_assoc in E.
    destruct (lex_segment n s [] b (t ++ z) Hn N (or_introl eq_refl) (proj2 Hb)) as (s' & Es & A); auto.
    { rewrite Et. now apply not_starts. }
    cbn [app] in A |- *. assert (A' : nate (segment n b) (ns_shapes [(Kcomment_continuation, segment n b)]) s (emit_from Kcomment_continuation s s')).
    { apply nate_of; [now apply ate_emit_from|repeat constructor; discriminate]. }
    destruct (IH eq_refl (emit_from Kcomment_continuation s s') (nate_nul _ _ _ _ A' N) (nate_rest _ _ _ _ _ A' E))
      as (k & s2 & sh & E2 & A2 & C2 & B2).
    exists (S k), s2, (ns_shapes [(Kcomment_continuation, segment n b)] ++ sh). split; [|split; [|split]].
    + intros f Hf. destruct f as [|f]; [lia|]. cbn [continuations]. rewrite Es. rewrite Et. cbn [app].
      change (cSTAR =? cSTAR) with true. cbn [pbind]. cbn iota. apply E2. lia.
    + eapply nate_trans; eauto.
    + rewrite map_app, concat_app, ns_text. cbn [map snd List.concat app]. rewrite app_nil_r. now rewrite C2.
    + intros aft b1 b2 Hb'. inversion Hb' as [f0 r0 u ks h df Ho X1 X2]; subst b1 b2. rewrite nbuildS_app.
      erewrite (none_shape root pre Kcomment_continuation).
      2:{ unfold ncallback. cbn [t_kind t_text t_col]. rewrite nvalue_of_continuation by (auto; apply Hb).
          apply nappend_ext. now apply ncomment_ext. }
      cbn [nbind]. rewrite ns_text. cbn [map snd List.concat]. rewrite app_nil_r. apply B2.
      replace (u ++ cNL :: comment_text (column pre + n + 1) b ++ cNL :: v)
        with ((u ++ cNL :: comment_text (column pre + n + 1) b) ++ cNL :: v) by (now rewrite <- !app_assoc).
      now apply ncomment_ext.
Qed.

Lemma nread_comment root pre t z v : comment pre t z v -> nreads root parse_comment pre t z (ncomment_added v).
Proof.
  intros H. destruct H as [n b z Hn Hp Hnl Hs|n t z v Hn H].
  - intros s N E.
    assert (C : count_slashes (s_rest s) (s_aft s) = Some (n, false)).
    { rewrite <- !app_assoc in E. rewrite E. rewrite count_slashes_rep; auto.
      - destruct b as [|c b]; [reflexivity|]. cbn [app]. apply not_starts_cons in Hs. unfold one_of in Hs. cbn [existsb] in Hs.
        now destruct (c =? cSTAR), (c =? cSLASH).
      - destruct b as [|c b]; [now apply not_starts|]. intros (d & r & Ed & Hd). injection Ed as <- _. apply Hs. exists c, b. split; auto.
        unfold one_of. cbn [existsb]. unfold is in Hd. now rewrite Hd. }
    rewrite <- !app_assoc in E.
    assert (A : ate (rep cSLASH n ++ b ++ [cNL]) [] s (eat_comment_to_eol s)).
    { unfold eat_comment_to_eol, cur_of. rewrite E.
      replace n with (2 + (n - 2))%nat by lia.
      assert (Er : rep cSLASH (2 + (n - 2)) = rep cSLASH 2 ++ rep cSLASH (n - 2)) by (unfold rep; apply repeat_app).
      rewrite Er, <- !app_assoc.
      destruct (eat_n_exact cSLASH 2 (s_pre s) (rep cSLASH (n - 2) ++ b ++ [cNL] ++ z) (s_line s, s_col s)) as (q & Eq).
      rewrite Eq. cbn [k_pre k_rest k_pos].
      destruct (eol_loop_exact (rep cSLASH (n - 2) ++ b) z) with (pre := rev (rep cSLASH 2) ++ s_pre s) (p := q) as (q2 & Eq2).
      { intros X. apply in_app_or in X. destruct X as [X|X]; auto. apply repeat_spec in X. discriminate. }
      rewrite <- !app_assoc in Eq2. rewrite Eq2. apply ate_set_cur; cbn [k_pre k_rest].
      - rewrite !rev_app_distr, <- !app_assoc. reflexivity.
      - rewrite E. replace n with (2 + (n - 2))%nat at 1 by lia. rewrite Er, <- !app_assoc. reflexivity. }
    exists 0%nat, (emit_from Kcomment s (eat_comment_to_eol s)), (ns_shapes [(Kcomment, rep cSLASH n ++ b ++ [cNL])]).
    split; [|split; [apply nate_of; [now apply ate_emit_from|repeat constructor; discriminate]|split; [cbn; now rewrite app_nil_r|]]].
    + intros f _. unfold parse_comment. now rewrite C.
    + intros aft b1 b2 Hb. apply none_shape. unfold ncallback. cbn [t_kind t_text t_col]. unfold comment_value.
      destruct (un_comment_line (N.to_nat (col_after pre - 1)) n b ([] ++ aft) Hn Hp Hnl Hs) as (m & Em).
      rewrite Em. cbn [n_with_value]. rewrite c_str_plain.
      * inversion Hb. destruct f; try contradiction; reflexivity.
      * intros X. apply in_rstrip in X. destruct (strip_front_app b) as (w & Ew & _). destruct Hp as [Hp _]. apply Hp. rewrite Ew. apply in_or_app. now right.
  - inversion H as [pre' front b z' Hb Hz|pre' front b t' z' v' Hb H']; subst.
    + intros s N E.
      assert (Hz' : ~ starts (is cSLASH) z).
      { intros (c & r & -> & Hc). apply Hz. exists c, r. split; auto. unfold one_of. cbn. unfold is in Hc. now rewrite Hc. }
      destruct (lex_segment n s (rep cSLASH n) b z Hn N (or_intror eq_refl) (proj2 Hb) Hz' E) as (s' & Es & A).
      assert (Hm : match z with d :: _ => d =? cSTAR | [] => false end = false).
      { destruct z as [|d z]; auto. apply not_starts_cons in Hz. unfold one_of in Hz. cbn [existsb] in Hz.
        now destruct (d =? cSTAR), (d =? cSLASH). }
      exists 0%nat, (emit_from Kcomment s s'), (ns_shapes [(Kcomment, rep cSLASH n ++ segment n b)]).
      split; [|split; [apply nate_of; [now apply ate_emit_from|repeat constructor; discriminate]|split; [cbn; now rewrite app_nil_r|]]].
      * intros f _. unfold parse_comment. rewrite E, <- app_assoc, segment_app, count_slashes_rep; auto; [|now apply not_starts].
        cbn [app]. change (cSTAR =? cSTAR) with true. rewrite Es, Hm. reflexivity.
      * intros aft b1 b2 Hb'. apply none_shape. unfold ncallback. cbn [t_kind t_text t_col].
        rewrite nvalue_of_comment by (auto; apply Hb). inversion Hb'. destruct f; try contradiction; reflexivity.
    + pose proof (nread_continuations root n _ _ _ _ Hn H') as RC. destruct (bodies_starts _ _ _ _ _ H') as (r & Et).
      intros s N E.
      assert (E' : s_rest s = (rep cSLASH n ++ segment n b) ++ t' ++ z) by (rewrite E, <- !app_assoc; reflexivity).
      destruct (lex_segment n s (rep cSLASH n) b (t' ++ z) Hn N (or_intror eq_refl) (proj2 Hb)) as (s' & Es & A); auto.
      { rewrite Et. now apply not_starts. }
      assert (A' : nate (rep cSLASH n ++ segment n b) (ns_shapes [(Kcomment, rep cSLASH n ++ segment n b)]) s (emit_from Kcomment s s')).
      { apply nate_of; [now apply ate_emit_from|repeat constructor; discriminate]. }
      destruct (RC (emit_from Kcomment s s') (nate_nul _ _ _ _ A' N) (nate_rest _ _ _ _ _ A' E')) as (k & s2 & sh & E2 & A2 & C2 & B2).
      exists k, s2, (ns_shapes [(Kcomment, rep cSLASH n ++ segment n b)] ++ sh). split; [|split; [|split]].
      * intros f Hf. unfold parse_comment. rewrite E'. rewrite <- app_assoc, segment_app, count_slashes_rep; auto; [|now apply not_starts].
        cbn [app]. change (cSTAR =? cSTAR) with true. rewrite Es, Et. cbn [app]. change (cSTAR =? cSTAR) with true. cbn [pbind].
        apply E2. exact Hf.
      * rewrite app_assoc. eapply nate_trans; eauto.
      * rewrite map_app, concat_app, ns_text. cbn [map snd List.concat app]. now rewrite C2, app_nil_r, <- app_assoc.
      * intros aft b1 b2 Hb'. inversion Hb' as [f r0 la h df Ho X1 X2]; subst b1 b2. rewrite nbuildS_app.
        erewrite (none_shape root pre Kcomment).
        2:{ unfold ncallback. cbn [t_kind t_text t_col]. rewrite nvalue_of_comment by (auto; apply Hb).
            instantiate (1 := NOk (St (gwith f (NComment (comment_text (column pre + n + 1) b) :: gkids f) :: r0) LKid h df)).
            destruct f; try contradiction; reflexivity. }
        cbn [nbind]. rewrite ns_text. cbn [map snd List.concat]. rewrite app_nil_r. apply B2. now apply ncomment_ext.
Qed.

(** ** Nodes *)

(** The nodes as they are written, before texts are merged. *)
Inductive raw :=
| RNode (x : nnode)
| RLeaf (p : option bytes) (n : bytes) (l : list NsGrammar.item)
| RValue (p : option bytes) (n : bytes) (l : list NsGrammar.item) (ps : list part)
| RBody (p : option bytes) (n : bytes) (l : list NsGrammar.item) (ks : list raw).
Definition simple_written (x : nnode) : written :=
  match x with
  | NPart p => WPart p
  | NComment t => WComment t
  | NPI n c => WPI n c
  | NDoctype c => WDoctype c
  | NElem _ _ => WPart (PText [])
  end.
Fixpoint of_raw (x : raw) : written :=
  match x with
  | RNode y => simple_written y
  | RLeaf p n l => WElem p n l []
  | RValue p n l ps => WElem p n l (map WPart ps)
  | RBody p n l ks => WElem p n l (merge_written (map of_raw ks))
  end.

Definition nlast_after (x : nnode) (la : nlast) : nlast :=
  match x with NPI _ _ | NDoctype _ => n_keep_last la | _ => LKid end.
Definition simple (x : nnode) : Prop := match x with NElem _ _ => False | _ => True end.
Inductive simple_added (x : nnode) : nst -> nst -> Prop :=
| simple_add f r la h df : gopen f ->
    simple_added x (St (f :: r) la h df) (St (gwith f (nadd1 (gkids f) x) :: r) (nlast_after x la) h df).

Inductive did : raw -> nst -> nst -> Prop :=
| did_node x b b' : (simple x -> simple_added x b b') -> did (RNode x) b b'
| did_leaf p n l b b' : head_added p n l b b' -> did (RLeaf p n l) b b'
| did_value p n l ps b b1 b' : head_added p n l b b1 -> nfills LElem ps b1 b' -> did (RValue p n l ps) b b'
| did_body p n l ks b b1 b2 b3 b' : head_added p n l b b1 -> n_push_last b1 = NOk b2 -> dids ks b2 b3 -> n_pop b3 = NOk b' ->
    did (RBody p n l ks) b b'
with dids : list raw -> nst -> nst -> Prop :=
| dids_nil b : dids [] b b
| dids_cons x ks b b1 b2 : did x b b1 -> dids ks b1 b2 -> dids (x :: ks) b b2.

Lemma nhead_first pre t z p n l : nhead pre t z p n l -> exists c r, t = c :: r /\ is_xmq_element_start c = true.
Proof.
  assert (L : forall m p n, element_label m p n -> exists c r, m = c :: r /\ is_xmq_element_start c = true).
  { intros m' p' n' [n0 ((c & r & -> & Hc) & _)|p0 n0 ((c & r & -> & Hc) & _) _]; eauto. exists c, (r ++ cCOLON :: n0). auto. }
  intros [m z' p' n' H _|m w1 w2 t' z' p' n' l' H _ _ _]; destruct (L _ _ _ H) as (c & r & -> & Hc).
  - eauto.
  - eexists c, _. split; [reflexivity|auto].
Qed.

Lemma nread_tail_value root body pre w t z R : gap w (t ++ z) ->
  nreads root (fun f => value_body f LElem) (pre ++ [cEQ] ++ w) t z R ->
  nreads root (fun f => elem_tail (body f) (S f)) pre ([cEQ] ++ w ++ t) z R.
Proof.
  intros G H. eapply nreads_ext with (G := fun f s => (fun f => equals_body LElem (S f)) f (set_equals (Some (here s)) s)).
  { exists 0%nat. intros f s _ N E. unfold elem_tail. rewrite (peek_is_rest s cEQ ((w ++ t) ++ z)) by exact E. reflexivity. }
  apply (nreads_mark root (fun f => equals_body LElem (S f)) (fun s => set_equals (Some (here s)) s)).
  { intros s. apply same_set_equals. }
  apply (nreads_S root (equals_body LElem)). apply nread_equals; auto.
Qed.

Lemma nread_name_emit root pre n z : ~ In 0 n ->
  forall (F : pst -> pst), (forall s, s_rest s = n ++ z -> exists kd, (kd = Kelement_name \/ kd = Kelement_key) /\ ate n [(kd, n)] s (F s)) ->
  nreads root (fun _ s => POk (F s)) pre n z (fun b b' => n_create_node root n b = NOk b').
Proof.
  intros H0 F HF s N E. destruct (HF s E) as (kd & Hk & A). exists 0%nat, (F s), (ns_shapes [(kd, n)]).
  split; [auto|]. split; [apply nate_of; [exact A|repeat constructor; destruct Hk as [-> | ->]; discriminate]|]. split; [cbn; now rewrite app_nil_r|].
  intros aft b b' Hb. apply none_shape. unfold ncallback. cbn [t_kind t_text].
  destruct Hk as [-> | ->]; rewrite c_str_plain by auto; exact Hb.
Qed.
Lemma nread_marked_name root pre ek c n z : (ek = EDoctype /\ c = cBANG \/ ek = EPi /\ c = cQM) ->
  forallb is_xmq_text_name n = true -> ~ starts is_xmq_text_name z ->
  nreads root (fun _ s => POk (elem_name ek s)) pre (c :: n) z (fun b b' => n_create_node root (c :: n) b = NOk b').
Proof.
  intros He Hn Hz. apply (nread_name_emit root pre (c :: n) z); auto.
  { intros [X|X]; [|now apply name_nul in X]. destruct He as [[_ ->]|[_ ->]]; discriminate. }
  intros s E. pose proof (ate_step c s _ E) as A1.
  assert (A : ate (c :: n) [] s (eat_marked_name c s)).
  { apply (ate_trans [c] n [] [] s (step c s)); auto. apply (lex_name _ _ z); auto. eapply ate_rest; [exact A1|]. exact E. }
  unfold elem_name. destruct He as [[-> ->]|[-> ->]]; rewrite (between_ate _ _ _ _ A);
    set (kd := if next_is_equal _ _ then _ else _); exists kd;
    (split; [unfold kd; destruct (next_is_equal _ _); auto|]); apply (ate_emit kd (s_line s) (s_col s) _ [] _ _ _ _ A).
Qed.
Lemma nread_marked root pre ek c n w1 w2 v z R : (ek = EDoctype /\ c = cBANG \/ ek = EPi /\ c = cQM) ->
  forallb is_xmq_text_name n = true -> gap w1 ([cEQ] ++ w2 ++ v ++ z) -> gap w2 (v ++ z) ->
  nreads root (fun f => value_body f LElem) (pre ++ (c :: n) ++ w1 ++ [cEQ] ++ w2) v z R ->
  nreads root (fun f s => parse_element (S f) (parse_xmq f) ek s) pre ((c :: n) ++ w1 ++ [cEQ] ++ w2 ++ v) z
    (fun b b2 => exists b1, n_create_node root (c :: n) b = NOk b1 /\ R b1 b2).
Proof.
  intros He Hn G1 G2 H. eapply nreads_weaken.
  - replace ((c :: n) ++ w1 ++ [cEQ] ++ w2 ++ v) with (((c :: n) ++ w1) ++ [cEQ] ++ w2 ++ v) by now rewrite <- !app_assoc.
    apply nreads_seq with (F := fun f => elem_front ek (S f)) (H := fun f => elem_tail (parse_xmq f) (S f)).
    + intros f s. apply parse_element_eq.
    + apply (nreads_S root (elem_front ek)).
      apply nreads_seq with (F := fun _ s => POk (elem_name ek s)) (H := elem_rest); [reflexivity| |].
      * apply nread_marked_name; auto. rewrite <- !app_assoc. apply not_name_space; [exact G1|]. now apply not_starts.
      * replace w1 with (w1 ++ [] ++ []) by now rewrite app_nil_r.
        apply nreads_seq with (F := fun _ => skip_space) (H := fun f s => s4 <- attrs_part f s ; skip_space s4); [reflexivity| |].
        { apply nreads_skip. rewrite <- !app_assoc. exact G1. }
        apply nreads_seq with (F := attrs_part) (H := fun _ => skip_space); [reflexivity| |].
        -- eapply nreads_ext; [|apply nreads_nothing]. exists 0%nat. intros f s _ N E. unfold attrs_part.
           rewrite (peek_is_rest s cEQ ((w2 ++ v) ++ z)) by exact E. reflexivity.
        -- apply nreads_skip. rewrite <- !app_assoc. eapply gap_refl; eauto.
    + apply nread_tail_value; [exact G2|]. rewrite <- !app_assoc. exact H.
  - intros b b2 (b1 & H1 & H2). exists b1. split; [|exact H2]. exists b1. split; [exact H1|]. exists b1. split; [reflexivity|]. exists b1. split; reflexivity.
Qed.

Lemma nread_flat pre t w y x : nflat pre t w y x -> gap w y ->
  node_start (t ++ w ++ y) = true /\
  exists rx u w', x = of_raw rx /\ (u = [] /\ w' = w \/ u = w /\ w' = []) /\ nreads None item pre (t ++ u) (w' ++ y) (did rx).
Proof.
  intros H G. destruct H as [t w y p H|t w y v H|t w y p n l H Hy|t v w y p n l ps H Ha|n w1 w2 v w y x Hn G1 G2 Hv Hx|w1 w2 v w y G1 G2 Hv].
  - (* a quote or an entity *)
    assert (S : exists c r, t = c :: r /\ (c = cQ \/ c = cAMP)).
    { inversion H as [t' z' v H'|t' z' p' H']; subst.
      - destruct (quote_form _ _ _ _ H') as (r & ->). eauto.
      - destruct (entity_form _ _ H') as (r & -> & _). eauto. }
    destruct S as (c & r & Et & Hc).
    split. { rewrite Et. destruct Hc as [-> | ->]; reflexivity. }
    exists (RNode (NPart p)), [], w. split; [reflexivity|]. split; auto. rewrite app_nil_r. intros s N E.
    destruct (lex_piece LXmq s pre t (w ++ y) p N E H) as (s' & k & Es & A & Hk).
    exists 0%nat, s', (ns_shapes [(k, t)]). split; [|split; [apply nate_of; [exact A|]|split; [cbn; now rewrite app_nil_r|]]].
    + intros f _. unfold item. assert (R : s_rest s = c :: r ++ w ++ y) by (now rewrite E, Et).
      rewrite !(peek_is_rest _ _ _ _ R) in Es. rewrite R. destruct Hc as [-> | ->]; exact Es.
    + repeat constructor. destruct Hk as [(_ & -> & _)|(_ & _ & -> & _)]; discriminate.
    + intros aft b b' Hb.
      assert (X : nbuildS None pre (ns_shapes [(k, t)]) aft b = n_add_top p b).
      { apply none_shape. destruct Hk as [(_ & -> & v & -> & Hv)|(_ & _ & -> & He)]; unfold ncallback; cbn [t_kind t_text t_col quote_kind entity_kind].
        - rewrite (n_with_quote _ _ _ _ _ _ Hv). reflexivity.
        - rewrite (n_with_entity_spec _ _ _ He). reflexivity. }
      rewrite X. inversion Hb as [x0 b1 b2 Hb'| | |]; subst. destruct (Hb' I) as [f st la h df Ho]. destruct f; try contradiction; reflexivity.
  - (* a comment *)
    assert (S : exists c r, t = cSLASH :: c :: r /\ (c = cSLASH \/ c = cSTAR)).
    { inversion H as [n b z Hn _ _ _|n t' z v' Hn HB]; subst.
      - destruct n as [|[|n]]; try lia. eexists _, _. split; [reflexivity|auto].
      - inversion HB; subst; (destruct n as [|[|n]]; [lia| |]); eexists _, _; (split; [reflexivity|auto]). }
    destruct S as (c & r & Et & Hc).
    split. { rewrite Et. destruct Hc as [-> | ->]; reflexivity. }
    exists (RNode (NComment v)), [], w. split; [reflexivity|]. split; auto. rewrite app_nil_r.
    eapply nreads_weaken.
    2:{ intros b b' Hb. inversion Hb as [x0 b1 b2 Hb'| | |]; subst. destruct (Hb' I) as [f st la h df Ho]. exact (ncomment_add v f st la h df Ho). }
    eapply nreads_ext; [|apply (nreads_S None parse_comment); apply nread_comment; exact H].
    exists 0%nat. intros f s _ N E. unfold item. rewrite E, Et. destruct Hc as [-> | ->]; reflexivity.
  - (* an element without value *)
    destruct (nhead_first _ _ _ _ _ _ H) as (c & r & Et & Hc).
    split. { rewrite Et. now apply node_start_element. }
    exists (RLeaf p n l), w, []. split; [reflexivity|]. split; auto. cbn [app].
    eapply nreads_ext with (G := fun f s => parse_element (S f) (parse_xmq f) EElement s).
    { exists 0%nat. intros f s _ N E. apply (item_element f s c ((r ++ w) ++ y)); auto. now rewrite E, Et. }
    eapply nreads_weaken.
    + replace (t ++ w) with ((t ++ w) ++ []) by apply app_nil_r.
      apply nreads_seq with (F := fun f => elem_front EElement (S f)) (H := fun f => elem_tail (parse_xmq f) (S f)).
      * intros f s. apply parse_element_eq.
      * apply (nreads_S None (elem_front EElement)). eapply nread_head; eauto.
        cbn [app]. intros (d & q & -> & Hd). apply Hy. exists d, q. split; auto. unfold one_of. cbn [existsb]. unfold is in Hd. now rewrite Hd.
      * eapply nreads_ext; [|apply nreads_nothing]. exists 0%nat. intros f s _ N E. unfold elem_tail. cbn [app] in E.
        rewrite (peek_no cEQ s y), (peek_no cLB s y); auto; try discriminate.
        -- intros (d & q & -> & Hd). apply Hy. exists d, q. split; auto. unfold one_of. cbn [existsb]. unfold is in Hd. rewrite Hd. now rewrite !orb_true_r.
        -- intros (d & q & -> & Hd). apply Hy. exists d, q. split; auto. unfold one_of. cbn [existsb]. unfold is in Hd. rewrite Hd. now rewrite !orb_true_r.
    + intros b b' Hb. inversion Hb; subst. exists b'. split; [assumption|reflexivity].
  - (* an element with a value *)
    destruct (nhead_first _ _ _ _ _ _ H) as (c & r & Et & Hc).
    destruct (assigned_parts _ _ _ _ Ha) as (w1 & w2 & q & Ev & G1 & G2 & Hv). subst v.
    split. { rewrite Et. now apply node_start_element. }
    exists (RValue p n l ps), [], w. split; [reflexivity|]. split; auto. rewrite app_nil_r.
    eapply nreads_ext with (G := fun f s => parse_element (S f) (parse_xmq f) EElement s).
    { exists 0%nat. intros f s _ N E. rewrite Et in E. eapply item_element; [|exact Hc]. exact E. }
    eapply nreads_weaken.
    + replace (t ++ w1 ++ [cEQ] ++ w2 ++ q) with ((t ++ w1) ++ [cEQ] ++ w2 ++ q) by now rewrite <- !app_assoc.
      apply nreads_seq with (F := fun f => elem_front EElement (S f)) (H := fun f => elem_tail (parse_xmq f) (S f)).
      * intros f s. apply parse_element_eq.
      * apply (nreads_S None (elem_front EElement)). apply nread_head with (p := p) (n := n) (l := l).
        -- rewrite <- !app_assoc. rewrite <- !app_assoc in H. exact H.
        -- rewrite <- !app_assoc. exact G1.
        -- rewrite <- !app_assoc. now apply not_starts.
      * apply nread_tail_value; [exact G2|]. rewrite <- !app_assoc in Hv. rewrite <- !app_assoc. apply nread_value; [now left|exact Hv].
    + intros b b' Hb. inversion Hb; subst. eexists. split; [eassumption|assumption].
  - (* a processing instruction *)
    assert (Hs : forall q, n ++ w1 ++ [cEQ] ++ w2 ++ v ++ q <> []).
    { intros q X. apply app_eq_nil in X. destruct X as [_ X]. apply app_eq_nil in X. destruct X as [_ X]. discriminate. }
    assert (HP : forall q, node_start ([cQM] ++ n ++ w1 ++ [cEQ] ++ w2 ++ v ++ q) = true /\
       forall f s, s_rest s = [cQM] ++ n ++ w1 ++ [cEQ] ++ w2 ++ v ++ q -> item f s = parse_element (S f) (parse_xmq f) EPi s).
    { intros q. specialize (Hs q). change ([cQM] ++ n ++ w1 ++ [cEQ] ++ w2 ++ v ++ q) with (cQM :: (n ++ w1 ++ [cEQ] ++ w2 ++ v ++ q)).
      revert Hs. generalize (n ++ w1 ++ [cEQ] ++ w2 ++ v ++ q). intros m Hm. destruct m as [|d m]; [congruence|]. split.
      - reflexivity.
      - intros f s Es. unfold item. rewrite Es. reflexivity. }
    split. { rewrite <- !app_assoc. apply HP. }
    exists (RNode (NPI n (pad_quotes x))), [], w. split; [reflexivity|]. split; auto. rewrite app_nil_r.
    eapply nreads_ext with (G := fun f s => parse_element (S f) (parse_xmq f) EPi s).
    { exists 0%nat. intros f s _ N E. destruct (HP (w ++ y)) as (_ & X). apply X. rewrite E, <- !app_assoc. reflexivity. }
    assert (RV : nreads None (fun f => value_body f LElem) (pre ++ (cQM :: n) ++ w1 ++ [cEQ] ++ w2) v (w ++ y)
              (fun b b' => exists f st la h df, gopen f /\ b = NS (f :: st) la (Some n) false h None None None df /\
                 b' = St (gwith f (NPI n (pad_quotes x) :: gkids f) :: st) (n_keep_last la) h df)).
    { inversion Hv as [t' z' Hb|t' z' v' Hq]; subst.
      - eapply nreads_weaken; [apply (nread_bare None LElem); [now left|exact Hb]|].
        intros b b' (f & st & la & h & df & Ho & -> & ->). cbn [ntext_effect]. unfold n_element_value_text. cbn [n_pi n_last].
        rewrite pad_spec, c_str_plain by (apply pad_nul; apply Hb). destruct f; try contradiction; reflexivity.
      - eapply nreads_weaken; [eapply (nread_quote_value None LElem); [now left|]; exact Hq|].
        intros b b' (f & st & la & h & df & Ho & -> & ->). cbn [nquote_effect]. unfold n_element_value_quote. cbn [n_pi n_last].
        destruct x as [|c r]; [congruence|]. rewrite pad_spec. destruct f; try contradiction; reflexivity. }
    eapply nreads_weaken.
    + apply (nread_marked None pre EPi cQM n w1 w2 v (w ++ y)); auto. exact RV.
    + intros b b' Hb. inversion Hb as [x0 b1 b2 Hb'| | |]; subst. destruct (Hb' I) as [f st la h df Ho].
      eexists. split; [reflexivity|]. exists f, st, la, h, df. auto.
  - (* a doctype *)
    assert (HP : forall q, node_start (B "!DOCTYPE" ++ w1 ++ [cEQ] ++ w2 ++ v ++ w ++ q) = true /\
       forall f s, s_rest s = B "!DOCTYPE" ++ w1 ++ [cEQ] ++ w2 ++ v ++ w ++ q -> item f s = parse_element (S f) (parse_xmq f) EDoctype s).
    { intros q. destruct (gap_first _ _ G1) as [-> |(c & r & -> & Hc)].
      - split; [reflexivity|]. intros f s Es. unfold item. rewrite Es. reflexivity.
      - unfold is_xmq_token_whitespace in Hc. rewrite !orb_true_iff, !N.eqb_eq in Hc.
        destruct Hc as [[-> | ->]| ->]; (split; [reflexivity|]; intros f s Es; unfold item; rewrite Es; reflexivity). }
    split. { rewrite <- !app_assoc. apply HP. }
    exists (RNode (NDoctype v)), [], w. split; [reflexivity|]. split; auto. rewrite app_nil_r.
    eapply nreads_ext with (G := fun f s => parse_element (S f) (parse_xmq f) EDoctype s).
    { exists 0%nat. intros f s _ N E. destruct (HP y) as (_ & X). apply X. rewrite E, <- !app_assoc. reflexivity. }
    assert (RV : nreads None (fun f => value_body f LElem) (pre ++ (cBANG :: B "DOCTYPE") ++ w1 ++ [cEQ] ++ w2) v (w ++ y)
              (fun b b' => exists f st la h df, gopen f /\ b = NS (f :: st) la None true h None None None df /\
                 b' = St (gwith f (NDoctype v :: gkids f) :: st) (n_keep_last la) h df)).
    { eapply nreads_weaken; [apply (nread_bare None LElem); [now left|exact Hv]|].
      intros b b' (f & st & la & h & df & Ho & -> & ->). cbn [ntext_effect]. unfold n_element_value_text. cbn [n_pi n_last n_doctype].
      rewrite c_str_plain by apply Hv. destruct f; try contradiction; reflexivity. }
    eapply nreads_weaken.
    + apply (nread_marked None pre EDoctype cBANG (B "DOCTYPE") w1 w2 v (w ++ y)); auto. exact RV.
    + intros b b' Hb. inversion Hb as [x0 b1 b2 Hb'| | |]; subst. destruct (Hb' I) as [f st la h df Ho].
      eexists. split; [reflexivity|]. exists f, st, la, h, df. auto.
Qed.

(** One node, white space, and the remaining nodes. *)
Lemma nread_more pre t u w w' t2 z x ks :
  (u = [] /\ w' = w \/ u = w /\ w' = []) -> gap w (t2 ++ z) -> node_start (t ++ w ++ t2 ++ z) = true ->
  nreads None item pre (t ++ u) (w' ++ t2 ++ z) (did x) ->
  nreads None parse_xmq (pre ++ t ++ w) t2 z (dids ks) ->
  nreads None parse_xmq pre (t ++ w ++ t2) z (dids (x :: ks)).
Proof.
  intros Hu G Hs RI RK s N E.
  assert (E' : s_rest s = (t ++ u) ++ w' ++ t2 ++ z).
  { rewrite E. destruct Hu as [(-> & ->)|(-> & ->)]; now rewrite ?app_nil_r, <- !app_assoc. }
  destruct (RI s N E') as (k1 & s1 & sh1 & E1 & A1 & C1 & B1).
  assert (G' : gap w' (t2 ++ z)). { destruct Hu as [(-> & ->)|(-> & ->)]; auto. apply gap_nil. apply G. }
  destruct (nxmq_ws s1 w' (t2 ++ z) (nate_rest _ _ _ _ _ A1 E') G') as (d & s2 & A2 & E2).
  assert (R2 : s_rest s2 = t2 ++ z) by (eapply nate_rest; [exact A2|]; eapply nate_rest; eauto).
  assert (N2 : nul_after s2) by (eapply nate_nul; [exact A2|]; eapply nate_nul; eauto).
  destruct (RK s2 N2 R2) as (k3 & s3 & sh3 & E3 & A3 & C3 & B3).
  assert (T : t ++ w ++ t2 = (t ++ u) ++ w' ++ t2).
  { destruct Hu as [(-> & ->)|(-> & ->)]; now rewrite ?app_nil_r, <- ?app_assoc. }
  exists (S (k1 + d + k3)), s3, (sh1 ++ nwsh w' ++ sh3). split; [|split; [|split]].
  - intros f Hf. destruct f as [|f]; [lia|]. rewrite item_step.
    + rewrite E1 by lia. cbn [pbind]. replace f with (d + (f - d))%nat by lia. rewrite E2. apply E3. lia.
    + rewrite E, <- !app_assoc. exact Hs.
  - rewrite T. eapply nate_trans; [exact A1|]. eapply nate_trans; eauto.
  - rewrite !map_app, !concat_app, nwsh_text, C1, C3. now rewrite T.
  - intros aft b b' Hb. inversion Hb as [|x0 ks0 b0 b1 b2 Hb1 Hb2 X1 X2 X3]; subst x0 ks0 b0 b2.
    rewrite nbuildS_app, (B1 _ _ _ Hb1). cbn [nbind].
    rewrite nbuildS_app, nbuildS_wsh. cbn [nbind]. rewrite C1, nwsh_text.
    replace ((pre ++ t ++ u) ++ w') with (pre ++ t ++ w).
    + now apply B3.
    + destruct Hu as [(-> & ->)|(-> & ->)]; now rewrite ?app_nil_r, <- ?app_assoc.
Qed.

Lemma nread_spaced pre w t z R : gap w (t ++ z) -> nreads None parse_xmq (pre ++ w) t z R ->
  nreads None parse_xmq pre (w ++ t) z R.
Proof.
  intros G RK s N E. rewrite <- app_assoc in E.
  destruct (nxmq_ws s w (t ++ z) E G) as (d & s1 & A1 & E1).
  destruct (RK s1 (nate_nul _ _ _ _ A1 N) (nate_rest _ _ _ _ _ A1 E)) as (k & s2 & sh & E2 & A2 & C2 & B2).
  exists (d + k)%nat, s2, (nwsh w ++ sh). split; [|split; [|split]].
  - intros f Hf. replace f with (d + (f - d))%nat by lia. rewrite E1. apply E2. lia.
  - eapply nate_trans; eauto.
  - rewrite map_app, concat_app, nwsh_text. congruence.
  - intros aft b b' Hb. rewrite nbuildS_app, nbuildS_wsh. cbn [nbind]. rewrite nwsh_text. now apply B2.
Qed.

Lemma nread_solids pre t z ks : nsolids pre t z ks ->
  exists rs, ks = map of_raw rs /\ nreads None parse_xmq pre t z (dids rs).
Proof.
  intros H. induction H as [pre z Hz|pre t w t2 z x ks Hf G _ (rs & -> & IH)|pre h p n l w1 w2 b w t2 z kb ks Hh G1 G2 _ (rb & -> & IHb) G _ (rs & -> & IH)].
  - exists []. split; [reflexivity|]. intros s N E. exists 1%nat, s, []. split; [|split; [apply nate_nil|split; [reflexivity|]]].
    + intros f Hf. destruct f as [|f]; [lia|]. cbn [app] in E. cbn [parse_xmq]. rewrite E.
      destruct Hz as [-> |(c & r & -> & Hc)]; [reflexivity|]. unfold is in Hc. apply N.eqb_eq in Hc. subst c. now destruct r.
    + intros aft b b' Hb. inversion Hb; subst. reflexivity.
  - destruct (nread_flat pre t w (t2 ++ z) x Hf G) as (Hs & rx & u & w' & -> & Hu & RI).
    exists (rx :: rs). split; [reflexivity|]. eapply nread_more; eauto.
  - exists (RBody p n l rb :: rs). split; [reflexivity|].
    destruct (nhead_first _ _ _ _ _ _ Hh) as (c & r & Et & Hc).
    replace (h ++ w1 ++ [cLB] ++ w2 ++ b ++ [cRB] ++ w ++ t2) with ((h ++ w1 ++ [cLB] ++ w2 ++ b ++ [cRB]) ++ w ++ t2)
      by (now rewrite <- !app_assoc).
    apply (nread_more pre _ [] w w t2 z); auto.
    { rewrite Et. now apply node_start_element. }
    2:{ rewrite <- !app_assoc. exact IH. }
    rewrite app_nil_r.
    eapply nreads_ext with (G := fun f s => parse_element (S f) (parse_xmq f) EElement s).
    { exists 0%nat. intros f s _ N E. rewrite Et in E. eapply item_element; [|exact Hc]. exact E. }
    eapply nreads_weaken.
    + replace (h ++ w1 ++ [cLB] ++ w2 ++ b ++ [cRB]) with ((h ++ w1) ++ [cLB] ++ (w2 ++ b) ++ [cRB]) by now rewrite <- !app_assoc.
      apply nreads_seq with (F := fun f => elem_front EElement (S f)) (H := fun f => elem_tail (parse_xmq f) (S f)).
      * intros f s. apply parse_element_eq.
      * apply (nreads_S None (elem_front EElement)). apply nread_head with (p := p) (n := n) (l := l).
        -- rewrite <- !app_assoc. exact Hh.
        -- rewrite <- !app_assoc. exact G1.
        -- now apply not_starts.
      * eapply nreads_ext with (G := fun f s => (fun f s => s <- parse_xmq f (single Kbrace_left cLB s) ;
            s <- skip_space s ; if negb (peek_is cRB s) then PErr E_BODY_NOT_CLOSED s else POk (single Kbrace_right cRB s)) f (set_body (Some (here s)) s)).
        { exists 0%nat. intros f s _ N E. unfold elem_tail.
          rewrite !(peek_is_rest s cLB (((w2 ++ b) ++ [cRB]) ++ w ++ t2 ++ z)) by exact E. reflexivity. }
        apply (nreads_mark None (fun f s => s <- parse_xmq f (single Kbrace_left cLB s) ;
            s <- skip_space s ; if negb (peek_is cRB s) then PErr E_BODY_NOT_CLOSED s else POk (single Kbrace_right cRB s)) (fun s => set_body (Some (here s)) s)).
        { intros s. apply same_set_body. }
        apply nreads_seq with (F := fun _ s => POk (single Kbrace_left cLB s))
          (H := fun f s => s <- parse_xmq f s ; s <- skip_space s ; if negb (peek_is cRB s) then PErr E_BODY_NOT_CLOSED s else POk (single Kbrace_right cRB s));
          [reflexivity|apply nreads_single|].
        apply nreads_seq with (F := parse_xmq)
          (H := fun f s => s <- skip_space s ; if negb (peek_is cRB s) then PErr E_BODY_NOT_CLOSED s else POk (single Kbrace_right cRB s)); [reflexivity| |].
        -- apply nread_spaced; [rewrite <- ?app_assoc; exact G2|]. rewrite <- !app_assoc. exact IHb.
        -- change [cRB] with ([] ++ [cRB]).
           apply nreads_seq with (F := fun _ => skip_space)
             (H := fun _ s => if negb (peek_is cRB s) then PErr E_BODY_NOT_CLOSED s else POk (single Kbrace_right cRB s)); [reflexivity| |].
           ++ apply nreads_skip. apply gap_nil. apply solid_ascii; reflexivity.
           ++ eapply nreads_ext; [|apply nreads_single]. exists 0%nat. intros f s _ N E.
              rewrite (peek_is_rest s cRB (w ++ t2 ++ z)) by exact E. reflexivity.
    + intros b0 b' Hb. inversion Hb as [| | |p0 n0 l0 ks0 x0 b1 b2 b3 x1 P1 P2 P3 P4 X1 X2 X3]; subst p0 n0 l0 ks0 x0 x1.
      exists b1. split; [exact P1|]. exists b2. split; [exact P2|]. exists b3. split; [exact P3|]. exists b3. split; [reflexivity|exact P4].
Qed.

(** The whole source. *)
Lemma writes_down_read src d aft : writes_down src d ->
  exists s rs, tokenize (enough src) src (0 :: aft) = POk s /\ d = merge_written (map of_raw rs)
  /\ forall b, dids rs ninit b -> nbuild None (tokens s) (s_rest s ++ s_aft s) ninit = NOk b.
Proof.
  intros (w & t & ks & -> & G & Hs & ->).
  destruct (nread_solids _ _ _ _ Hs) as (rs & -> & RK).
  assert (RS : nreads None parse_xmq [] (w ++ t) [] (dids rs)).
  { apply nread_spaced; [now rewrite app_nil_r|exact RK]. }
  set (src := w ++ t) in *.
  assert (E0 : s_rest (init src (0 :: aft)) = src ++ []) by (cbn; now rewrite app_nil_r).
  destruct (RS (init src (0 :: aft)) eq_refl E0) as (k & s & sh & E & A & C & Bd).
  assert (R : s_rest s = []) by (apply (nate_rest _ _ _ _ _ A E0)).
  assert (T0 : forall f, (k <= f)%nat -> tokenize f src (0 :: aft) = POk s).
  { intros f Hf. unfold tokenize. rewrite E by auto. cbn [pbind]. now rewrite R. }
  assert (T : tokenize (enough src) src (0 :: aft) = POk s).
  { destruct (ParserMono.tokenize_term src (0 :: aft) eq_refl) as (_ & Sm).
    destruct (Sm (S (List.length src) + k)%nat ltac:(lia)) as [Eq|[_ Eq]].
    - rewrite Eq. apply T0. lia.
    - rewrite T0 in Eq by lia. now destruct Eq. }
  exists s, rs. split; [exact T|]. split; [reflexivity|].
  assert (P : placed (tokens s)).
  { pose proof (tokenize_good (enough src) src (0 :: aft) (init_inv _ _)) as Gd. rewrite T in Gd. destruct Gd as (I & _).
    apply (inv_placed _ I). }
  intros b Hb. rewrite (nbuild_shapes None (tokens s) [] _ _ P).
  destruct (na_toks _ _ _ _ A) as (U & HU & HS). cbn [init s_toks] in HU. rewrite app_nil_r in HU.
  unfold tokens. rewrite HU, rev_involutive, HS. cbn [texts map List.concat].
  now apply Bd.
Qed.
