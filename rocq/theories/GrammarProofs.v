(** The parser and the document builder together read every text of the
    grammar as the document it denotes. *)
From Coq Require Import NArith ZArith List Bool Arith Lia String.
From Verif Require Import Detect Bytes BytesFacts Outcome Utf8 Utf8Proofs Quote QuoteSpec QuoteProofs QuoteProofs2
  Parser ParserSpec ParserProofs Dom Grammar LexProofs BuildProofs.
From Verif Require ParserTerm ParserMono.
Import ListNotations.
Local Open Scope N_scope.
Local Open Scope pout_scope.

(** The program F reads t (before z), and its tokens take the builder from b
    to b' whenever R b b'. *)
Definition reads (root : option bytes) (F : nat -> pst -> pout) (pre t z : bytes) (R : bst -> bst -> Prop) : Prop :=
  forall s, nul_after s -> s_rest s = t ++ z ->
  exists k s' sh, (forall f, (k <= f)%nat -> F f s = POk s') /\ ate t sh s s' /\ List.concat (map snd sh) = t
    /\ forall aft b b', R b b' -> buildS root pre sh aft b = BOk b'.

Lemma ate_emit k l c x y t sh s s' : ate t sh s s' -> ate t (sh ++ [(k, x)]) s (emit k l c x y s').
Proof.
  intros [H1 H2 H3 (T & H4 & H5)]. constructor; cbn; auto.
  exists (T ++ [Tok k l c x y]). rewrite rev_app_distr, map_app, H4, H5. auto.
Qed.
Lemma wsh_text w : List.concat (map snd (wsh w)) = w.
Proof. destruct w; cbn; [|rewrite app_nil_r]; reflexivity. Qed.

Definition same_place (s s' : pst) : Prop :=
  s_pre s = s_pre s' /\ s_rest s = s_rest s' /\ s_aft s = s_aft s' /\ s_toks s = s_toks s'.
Lemma ate_same t sh s s1 s' : same_place s s1 -> ate t sh s1 s' -> ate t sh s s'.
Proof. intros (H1 & H2 & H3 & H4) [G1 G2 G3 (T & G4 & G5)]. constructor; try congruence. exists T. split; congruence. Qed.

(* ---------- loops over white space ---------- *)

Lemma ws_step s w y : s_rest s = w ++ y -> gap w y ->
  (w = [] /\ ate w (wsh w) s s) \/
  (exists c r, w = c :: r /\ is_xml_whitespace c = true /\ is_xmq_token_whitespace c = true /\ ate w (wsh w) s (parse_whitespace s)).
Proof.
  intros E G. destruct (gap_first _ _ G) as [-> |(c & r & -> & Hc)].
  - left. split; auto. apply ate_nil.
  - right. exists c, r. split; [reflexivity|]. split; [now apply xmq_ws_xml|]. split; [exact Hc|]. now apply (lex_ws s c r y).
Qed.

Lemma compound_ws l s w y : s_rest s = w ++ y -> gap w y ->
  exists d s1, ate w (wsh w) s s1 /\ forall f, compound_children (d + f) l s = compound_children f l s1.
Proof.
  intros E G. destruct (ws_step _ _ _ E G) as [(-> & A)|(c & r & -> & H1 & H2 & A)].
  - exists 0%nat, s. auto.
  - exists 1%nat, (parse_whitespace s). split; auto. intros f. cbn [compound_children Nat.add]. rewrite E. cbn [app]. now rewrite H1.
Qed.
Lemma attributes_ws s w y : s_rest s = w ++ y -> gap w y ->
  exists d s1, ate w (wsh w) s s1 /\ forall f, Parser.attributes (d + f) s = Parser.attributes f s1.
Proof.
  intros E G. destruct (ws_step _ _ _ E G) as [(-> & A)|(c & r & -> & H1 & H2 & A)].
  - exists 0%nat, s. auto.
  - exists 1%nat, (parse_whitespace s). split; auto. intros f. cbn [Parser.attributes Nat.add]. rewrite E. cbn [app]. now rewrite H1.
Qed.
Lemma xmq_ws s w y : s_rest s = w ++ y -> gap w y ->
  exists d s1, ate w (wsh w) s s1 /\ forall f, parse_xmq (d + f) s = parse_xmq f s1.
Proof.
  intros E G. destruct (ws_step _ _ _ E G) as [(-> & A)|(c & r & -> & H1 & H2 & A)].
  - exists 0%nat, s. auto.
  - exists 1%nat, (parse_whitespace s). split; auto. intros f. cbn [parse_xmq Nat.add]. rewrite E. cbn [app]. now rewrite H2.
Qed.

(* ---------- compound values ---------- *)

Fixpoint add_tops (ps : list part) (b : bst) : bout :=
  match ps with [] => BOk b | p :: r => bbind (add_top p b) (add_tops r) end.

Lemma read_pieces root l pre t z ps : is_top l -> Grammar.pieces pre t z ps ->
  reads root (fun f => compound_children f l) pre t z (fun b b' => add_tops ps b = BOk b').
Proof.
  intros Hl H. induction H as [pre z Hz|pre t p w t2 z ps Hp G _ IH]; intros s N E.
  - exists 1%nat, s, []. split; [|split; [apply ate_nil|split; [reflexivity|]]].
    + intros f Hf. destruct f as [|f]; [lia|]. destruct Hz as (c & r & -> & Hc). cbn [app] in E. cbn [compound_children]. rewrite E.
      unfold is in Hc. apply N.eqb_eq in Hc. subst c. reflexivity.
    + intros aft b b' H. exact H.
  - rewrite <- !app_assoc in E.
    destruct (lex_piece l s pre t (w ++ t2 ++ z) p N E Hp) as (s1 & k & E1 & A1 & Hk).
    assert (R1 : s_rest s1 = w ++ t2 ++ z) by (eapply ate_rest; eauto).
    destruct (compound_ws l s1 w (t2 ++ z) R1 G) as (d & s2 & A2 & E2).
    assert (N2 : nul_after s2) by (eapply ate_nul; [exact A2|]; eapply ate_nul; eauto).
    assert (R2 : s_rest s2 = t2 ++ z) by (eapply ate_rest; eauto).
    destruct (IH s2 N2 R2) as (k3 & s3 & sh3 & E3 & A3 & C3 & B3).
    exists (S (d + k3)), s3, ([(k, t)] ++ wsh w ++ sh3). split; [|split; [|split]].
    + intros f Hf. destruct f as [|f]; [lia|]. replace f with (d + (f - d))%nat by lia.
      assert (X : compound_children (d + (f - d)) l s1 = POk s3) by (rewrite E2; apply E3; lia).
      destruct Hk as [(Hq & _)|(Hq & Ha & _)].
      * rewrite Hq in E1. unfold peek_is, peek in Hq. cbn [compound_children].
        destruct (s_rest s) as [|c r] eqn:Es.
        { symmetry in E. apply app_eq_nil in E. destruct E as [-> _]. pose proof (a_rest _ _ _ _ A1) as Ar. exfalso.
          inversion Hp as [? ? ? HH|? ? ? HH]; subst.
          - destruct (quote_form _ _ _ _ HH). discriminate.
          - destruct (entity_form _ _ HH) as (? & ? & _). discriminate. }
        cbn in Hq. apply N.eqb_eq in Hq. subst c. change (is_xml_whitespace cQ) with false. change (cQ =? cRP) with false. change (cQ =? cQ) with true.
        cbn iota. rewrite E1. exact X.
      * rewrite Hq in E1. cbn [compound_children].
        destruct (s_rest s) as [|c r] eqn:Es.
        { rewrite peek_is_nil in Ha by auto. discriminate. }
        rewrite (peek_is_rest _ _ _ _ Es) in Ha. apply N.eqb_eq in Ha. subst c.
        change (is_xml_whitespace cAMP) with false. change (cAMP =? cRP) with false. change (cAMP =? cQ) with false. change (cAMP =? cAMP) with true.
        cbn iota. rewrite E1. exact X.
    + eapply ate_trans; [exact A1|]. eapply ate_trans; eauto.
    + rewrite !map_app, !concat_app, wsh_text, C3. cbn. now rewrite app_nil_r.
    + intros aft b b' Hb. rewrite !buildS_app. cbn [add_tops] in Hb.
      assert (X : forall aft, buildS root pre [(k, t)] aft b = add_top p b).
      { intros a. destruct Hk as [(_ & -> & v & -> & Hv)|(_ & _ & -> & He)].
        - eapply build_quote_top; eauto.
        - now apply build_entity_top. }
      rewrite X. destruct (add_top p b) as [b1| | |]; try discriminate. cbn [bbind] in *.
      rewrite buildS_app, buildS_wsh. cbn [bbind]. rewrite wsh_text. cbn [map snd List.concat]. rewrite app_nil_r, <- app_assoc. now apply B3.
Qed.

(* ---------- composing programs ---------- *)

Lemma reads_seq root (F G H : nat -> pst -> pout) pre t u z (R1 R2 : bst -> bst -> Prop) :
  (forall f s, G f s = pbind (F f s) (H f)) ->
  reads root F pre t (u ++ z) R1 -> reads root H (pre ++ t) u z R2 ->
  reads root G pre (t ++ u) z (fun b b2 => exists b1, R1 b b1 /\ R2 b1 b2).
Proof.
  intros EG HF HH s N E. rewrite <- app_assoc in E.
  destruct (HF s N E) as (k1 & s1 & sh1 & E1 & A1 & C1 & B1).
  assert (R : s_rest s1 = u ++ z) by (eapply ate_rest; eauto).
  destruct (HH s1 (ate_nul _ _ _ _ A1 N) R) as (k2 & s2 & sh2 & E2 & A2 & C2 & B2).
  exists (k1 + k2)%nat, s2, (sh1 ++ sh2). split; [|split; [|split]].
  - intros f Hf. rewrite EG, E1 by lia. cbn [pbind]. apply E2. lia.
  - eapply ate_trans; eauto.
  - rewrite map_app, concat_app. congruence.
  - intros aft b b2 (b1 & Hb1 & Hb2). rewrite buildS_app, (B1 _ _ _ Hb1). cbn [bbind]. rewrite C1. now apply B2.
Qed.

Lemma reads_weaken root F pre t z (R R' : bst -> bst -> Prop) :
  reads root F pre t z R -> (forall b b', R' b b' -> R b b') -> reads root F pre t z R'.
Proof.
  intros H HR s N E. destruct (H s N E) as (k & s' & sh & H1 & H2 & H3 & H4). exists k, s', sh.
  split; [exact H1|]. split; [exact H2|]. split; [exact H3|]. intros aft b b' Hb. apply H4. auto.
Qed.

Lemma reads_ext root (F G : nat -> pst -> pout) pre t z R :
  (exists k, forall f s, (k <= f)%nat -> nul_after s -> s_rest s = t ++ z -> F f s = G f s) ->
  reads root G pre t z R -> reads root F pre t z R.
Proof.
  intros (k0 & HE) H s N E. destruct (H s N E) as (k & s' & sh & H1 & H2 & H3 & H4). exists (k0 + k)%nat, s', sh.
  split; [|split; [exact H2|split; [exact H3|exact H4]]]. intros f Hf. rewrite HE by (auto; lia). apply H1. lia.
Qed.

(** Setting one of the remembered places first. *)
Lemma reads_mark root (F : nat -> pst -> pout) (h : pst -> pst) pre t z R :
  (forall s, same_place s (h s)) -> reads root F pre t z R -> reads root (fun f s => F f (h s)) pre t z R.
Proof.
  intros Hh H s N E. destruct (Hh s) as (P1 & P2 & P3 & P4).
  assert (N' : nul_after (h s)) by (unfold nul_after in *; congruence).
  destruct (H (h s) N' ltac:(congruence)) as (k & s' & sh & H1 & H2 & H3 & H4). exists k, s', sh.
  split; [exact H1|]. split; [|split; [exact H3|exact H4]]. eapply ate_same; [apply Hh|exact H2].
Qed.

Lemma reads_skip root pre w y : gap w y -> reads root (fun _ => skip_space) pre w y eq.
Proof.
  intros G s N E. destruct (lex_skip s w y N E G) as (s' & Es & A). exists 0%nat, s', (wsh w).
  split; [auto|]. split; [exact A|]. split; [apply wsh_text|]. intros aft b b' ->. apply buildS_wsh.
Qed.

Lemma reads_nothing root pre z : reads root (fun _ s => POk s) pre [] z eq.
Proof.
  intros s N E. exists 0%nat, s, []. split; [auto|]. split; [apply ate_nil|]. split; [reflexivity|]. intros aft b b' ->. reflexivity.
Qed.

Definition single_effect (k : kind) (b : bst) : bout :=
  match k with
  | Kequals => BOk b
  | Kbrace_left | Kapar_left | Kcpar_left => push_last b
  | Kbrace_right | Kapar_right | Kcpar_right => pop b
  | _ => BUnmodelled
  end.
Lemma reads_single root pre k c z :
  reads root (fun _ s => POk (single k c s)) pre [c] z (fun b b' => single_effect k b = BOk b').
Proof.
  intros s N E. exists 0%nat, (single k c s), [(k, [c])]. split; [auto|]. split; [eapply ate_single; exact E|].
  split; [reflexivity|]. intros aft b b' Hb. cbn [buildS]. unfold callback. cbn [t_kind]. 
  destruct k; try discriminate Hb; cbn [single_effect] in Hb; rewrite Hb; reflexivity.
Qed.

Lemma peek_starts c s t z : s_rest s = t ++ z -> starts (is c) (t ++ z) -> peek_is c s = true.
Proof.
  intros E (d & r & Er & Hd). rewrite (peek_is_rest s d r) by congruence. exact Hd.
Qed.
Lemma peek_no c s y : nul_after s -> s_rest s = y -> ~ starts (is c) y -> c <> 0 -> peek_is c s = false.
Proof. intros N E H Hc. eapply peek_not; eauto. Qed.

(* ---------- the builder ---------- *)

Definition open (f : frame) : Prop := match f with FAttr _ _ => False | _ => True end.
Definition kids (f : frame) : list node := match f with FDoc k => k | FElem _ _ k => k | FAttr _ _ => [] end.
Definition with_kids (f : frame) (k : list node) : frame :=
  match f with FDoc _ => FDoc k | FElem n a _ => FElem n a k | FAttr n p => FAttr n p end.

Definition add1 (k : list node) (x : node) : list node :=
  match x with Part p => add_part_kid p k | _ => x :: k end.
Definition adds (ks : list node) (k : list node) : list node := fold_left add1 ks k.

Lemma merge_nodes_text t ks : merge_nodes (Part (PText t) :: ks)
  = match merge_nodes ks with Part (PText u) :: r => Part (PText (t ++ u)) :: r | r => Part (PText t) :: r end.
Proof. reflexivity. Qed.
Lemma merge_nodes_twice u t ks : merge_nodes (Part (PText u) :: Part (PText t) :: ks) = merge_nodes (Part (PText (u ++ t)) :: ks).
Proof.
  rewrite (merge_nodes_text u), (merge_nodes_text t), (merge_nodes_text (u ++ t)).
  destruct (merge_nodes ks) as [|[|[x|]| | |] r]; auto. now rewrite app_assoc.
Qed.
Lemma adds_merge ks : forall k, rev (adds ks k) =
  match k with Part (PText u) :: r => rev r ++ merge_nodes (Part (PText u) :: ks) | _ => rev k ++ merge_nodes ks end.
Proof.
  induction ks as [|x ks IH]; intros k.
  - change (adds [] k) with k. cbn [merge_nodes].
    destruct k as [|[|[u|]| | |] r]; cbn [rev]; now rewrite ?app_nil_r.
  - change (adds (x :: ks) k) with (adds ks (add1 k x)). rewrite IH.
    destruct x as [n a c|[t|m]|t|n c|c].
    2:{ cbn [add1 add_part_kid]. unfold add_text_kid. destruct k as [|[|[u|]| | |] r]; cbn [rev]; auto.
        now rewrite merge_nodes_twice. }
    all: cbn [add1 add_part_kid]; destruct k as [|[|[u|]| | |] r]; cbn [rev]; rewrite <- ?app_assoc; auto.
Qed.
Lemma adds_nil ks : rev (adds ks []) = merge_nodes ks.
Proof. rewrite adds_merge. reflexivity. Qed.

Lemma merge_map ps : merge_nodes (map Part ps) = map Part (merge_parts ps).
Proof.
  induction ps as [|[t|m] ps IH]; auto.
  - cbn [map merge_nodes merge_parts]. rewrite IH. destruct (merge_parts ps) as [|[u|] r]; reflexivity.
  - cbn [map merge_nodes merge_parts]. now rewrite IH.
Qed.

Lemma merge_parts_text t ks : merge_parts (PText t :: ks)
  = match merge_parts ks with PText u :: r => PText (t ++ u) :: r | r => PText t :: r end.
Proof. reflexivity. Qed.
Lemma merge_parts_twice u t ks : merge_parts (PText u :: PText t :: ks) = merge_parts (PText (u ++ t) :: ks).
Proof.
  rewrite (merge_parts_text u), (merge_parts_text t), (merge_parts_text (u ++ t)).
  destruct (merge_parts ks) as [|[x|] r]; auto. now rewrite app_assoc.
Qed.
Lemma adds_parts ks : forall k, rev (fold_left (fun k p => add_part_part p k) ks k) =
  match k with PText u :: r => rev r ++ merge_parts (PText u :: ks) | _ => rev k ++ merge_parts ks end.
Proof.
  induction ks as [|x ks IH]; intros k.
  - cbn [fold_left merge_parts]. destruct k as [|[u|] r]; cbn [rev]; now rewrite ?app_nil_r.
  - cbn [fold_left]. rewrite IH. destruct x as [t|m].
    + cbn [add_part_part]. unfold add_text_part. destruct k as [|[u|] r]; cbn [rev]; auto. now rewrite merge_parts_twice.
    + cbn [add_part_part]. destruct k as [|[u|] r]; cbn [rev]; rewrite <- ?app_assoc; auto.
Qed.

Lemma add_tops_elem ps : forall n a k r l, exists l',
  add_tops ps (BS (FElem n a k :: r) l None false) = BOk (BS (FElem n a (adds (map Part ps) k) :: r) l' None false).
Proof.
  induction ps as [|p ps IH]; intros n a k r l; [eexists; reflexivity|]. cbn [add_tops map].
  unfold add_top. cbn [b_stack bbind with_stack b_pi b_doctype]. apply IH.
Qed.
Lemma add_tops_attr ps : forall n k r l, exists l',
  add_tops ps (BS (FAttr n k :: r) l None false)
  = BOk (BS (FAttr n (fold_left (fun k p => add_part_part p k) ps k) :: r) l' None false).
Proof.
  induction ps as [|p ps IH]; intros n k r l; [eexists; reflexivity|]. cbn [add_tops fold_left].
  unfold add_top. cbn [b_stack bbind with_stack b_pi b_doctype]. apply IH.
Qed.

(** The builder gives the value ps to the last element or attribute. *)
Inductive fills : level -> list part -> bst -> bst -> Prop :=
| fill_elem f r n a ks ps : open f ->
    fills LElem ps (BS (with_kids f (Elem n a [] :: ks) :: r) LastKid None false)
                   (BS (with_kids f (Elem n a (map Part ps) :: ks) :: r) LastKid None false)
| fill_attr n a k m r ps :
    fills LAttr ps (BS (FElem n ((m, []) :: a) k :: r) LastAttr None false)
                   (BS (FElem n ((m, ps) :: a) k :: r) LastAttr None false).

Lemma fills_one lv p b b' : fills lv [p] b b' -> add_last p b = BOk b'.
Proof.
  intros H. inversion H; subst.
  - destruct f; [| |contradiction]; cbn; destruct p; reflexivity.
  - destruct p; reflexivity.
Qed.
Lemma fills_pi lv ps b b' : fills lv ps b b' -> b_pi b = None /\ b_doctype b = false.
Proof. intros H; inversion H; auto. Qed.

Lemma fills_compound lv ps b b' : fills lv (merge_parts ps) b b' ->
  exists b1 b2, push_last b = BOk b1 /\ add_tops ps b1 = BOk b2 /\ pop b2 = BOk b'.
Proof.
  intros H. inversion H; subst.
  - assert (X : rev (adds (map Part ps) []) = map Part (merge_parts ps)) by (now rewrite adds_nil, merge_map).
    destruct f as [k|m ra k|]; [| |contradiction].
    + destruct (add_tops_elem ps n (rev a) [] (FDoc ks :: r) LastOld) as (l' & E).
      eexists _, _. split; [reflexivity|]. split; [exact E|]. cbn. now rewrite rev_involutive, X.
    + destruct (add_tops_elem ps n (rev a) [] (FElem m ra ks :: r) LastOld) as (l' & E).
      eexists _, _. split; [reflexivity|]. split; [exact E|]. cbn. now rewrite rev_involutive, X.
  - destruct (add_tops_attr ps m [] (FElem n a k :: r) LastOld) as (l' & E).
    eexists _, _. split; [reflexivity|]. split; [exact E|]. cbn. rewrite adds_parts. reflexivity.
Qed.

(* ---------- values ---------- *)

Definition value_body (fuel : nat) (l : level) (s : pst) : pout :=
  if peek_is cQ s then parse_quote l s
  else if peek_is cAMP s then parse_entity l s
  else if peek_is cLP s then parse_compound fuel l s
  else
    match peek s, peek1 s with
    | Some c, Some cc =>
      if unsafe_value_start c cc then PErr E_VALUE_CANNOT_START_WITH s
      else POk (parse_text_value l s)
    | _, _ => PUB
    end.

Definition is_holder (l : level) : Prop := l = LElem \/ l = LAttr.

Definition text_effect (l : level) (t : bytes) (b : bst) : bout :=
  match l with LElem => element_value_text t b | _ => add_last (PText (c_str t)) b end.
Definition quote_effect (l : level) (v : bytes) (b : bst) : bout :=
  match l with LElem => element_value_quote v b | _ => add_last (PText v) b end.

Lemma one_shape root pre k t aft b r :
  callback root (Tok k 0 (col_after pre) t []) (List.concat (map snd (@nil (kind * bytes))) ++ aft) b = r ->
  buildS root pre [(k, t)] aft b = r.
Proof. intros <-. cbn [buildS]. destruct (callback _ _ _ _); reflexivity. Qed.

Lemma bare_first t z : bare t z -> exists c r, t = c :: r /\ (c =? cQ) = false /\ (c =? cAMP) = false /\ (c =? cLP) = false.
Proof.
  intros (H1 & _ & H3 & _ & H5). destruct t as [|c r]; [congruence|]. exists c, r. split; auto.
  assert (V : ~ value_end ((c :: r) ++ z)) by (apply (H5 []); [reflexivity|discriminate]).
  assert (X : forall d, In d [cQ; cLP] -> (c =? d) = false).
  { intros d Hd. destruct (N.eqb_spec c d) as [->|]; auto. exfalso. apply V. right. right. exists d, (r ++ z). split; auto.
    destruct Hd as [<-|[<-|[]]]; reflexivity. }
  repeat split; try (apply X; cbn; tauto).
  destruct (N.eqb_spec c cAMP) as [->|]; auto. exfalso. apply H3. left. exists cAMP, r. auto.
Qed.

Lemma read_bare root lv pre t z : is_holder lv -> bare t z ->
  reads root (fun f => value_body f lv) pre t z (fun b b' => text_effect lv t b = BOk b').
Proof.
  intros Hl H s N E. destruct (bare_first _ _ H) as (c & r & -> & H1 & H2 & H3).
  assert (R : s_rest s = c :: r ++ z) by exact E.
  exists 0%nat, (parse_text_value lv s), [(value_kind lv, c :: r)]. split; [|split; [|split]].
  - intros f _. unfold value_body. rewrite !(peek_is_rest _ _ _ _ R), H1, H2, H3. rewrite (peek_rest _ _ _ R).
    assert (P : exists cc, peek1 s = Some cc /\ (c = cSLASH -> cc <> cSLASH /\ cc <> cSTAR)).
    { unfold peek1. rewrite R. cbn [app nth_error]. destruct r as [|cc r].
      - cbn [app nth_error]. destruct H as (_ & _ & _ & Hz & _). destruct z as [|cc z].
        + unfold nul_after in N. destruct (s_aft s) as [|a q]; [discriminate|]. injection N as ->. exists 0.
          split; [reflexivity|]. intros _. split; discriminate.
        + exists cc. split; [reflexivity|]. intros _. split; intros ->.
          * destruct Hz as [Hz|[Hz|(d & q & Hz & Hd)]]; [discriminate|inversion Hz; discriminate|]. injection Hz as <- <-. discriminate.
          * destruct Hz as [Hz|[Hz|(d & q & Hz & Hd)]]; [discriminate|inversion Hz; discriminate|]. injection Hz as <- <-. discriminate.
      - exists cc. split; [reflexivity|]. intros ->. destruct H as (_ & _ & H & _). split; intros ->; apply H; right; eauto. }
    destruct P as (cc & -> & P). unfold unsafe_value_start.
    replace (c =? cEQ) with false.
    2:{ symmetry. apply N.eqb_neq. intros ->. destruct H as (_ & _ & H & _). apply H. left. exists cEQ, r. auto. }
    rewrite H2. cbn [orb]. destruct (N.eqb_spec c cSLASH) as [->|]; [|reflexivity]. destruct (P eq_refl) as [P1 P2].
    apply N.eqb_neq in P1, P2. now rewrite P1, P2.
  - now apply (lex_bare lv s (c :: r) z).
  - cbn. now rewrite app_nil_r.
  - intros aft b b' Hb. apply one_shape. destruct Hl as [-> | ->]; exact Hb.
Qed.

Lemma read_quote_value root lv pre t z v : is_holder lv -> quote pre t z v ->
  reads root (fun f => value_body f lv) pre t z (fun b b' => quote_effect lv v b = BOk b').
Proof.
  intros Hl H s N E. destruct (lex_quote lv s pre t z v E H) as (s' & Es & A).
  exists 0%nat, s', [(quote_kind lv, t)]. split; [|split; [exact A|split; [cbn; now rewrite app_nil_r|]]].
  - intros f _. unfold value_body. destruct (quote_form _ _ _ _ H) as (r & Hr).
    rewrite (peek_is_rest s cQ (r ++ z)) by (now rewrite E, Hr). change (cQ =? cQ) with true. exact Es.
  - intros aft b b' Hb. apply one_shape. unfold callback. cbn [t_kind t_text t_col].
    destruct Hl as [-> | ->]; cbn [quote_kind]; rewrite (with_quote _ _ _ _ _ _ H); exact Hb.
Qed.

Lemma read_entity_value root lv pre t z p : is_holder lv -> entity t p ->
  reads root (fun f => value_body f lv) pre t z (fun b b' => add_last p b = BOk b').
Proof.
  intros Hl H s N E. destruct (lex_entity lv s t z p N E H) as (s' & Es & A).
  exists 0%nat, s', [(entity_kind lv, t)]. split; [|split; [exact A|split; [cbn; now rewrite app_nil_r|]]].
  - intros f _. unfold value_body. destruct (entity_form _ _ H) as (r & Hr & _).
    assert (R : s_rest s = cAMP :: (r ++ [cSEMI]) ++ z) by (now rewrite E, Hr).
    rewrite !(peek_is_rest _ _ _ _ R). change (cAMP =? cQ) with false. change (cAMP =? cAMP) with true. exact Es.
  - intros aft b b' Hb. apply one_shape. unfold callback. cbn [t_kind t_text t_col].
    destruct Hl as [-> | ->]; cbn [entity_kind]; rewrite (with_entity_spec _ _ _ H); exact Hb.
Qed.

Lemma fills_text lv t b b' : is_holder lv -> ~ In 0 t -> fills lv [PText t] b b' -> text_effect lv t b = BOk b'.
Proof.
  intros Hl H0 H. pose proof (fills_one _ _ _ _ H) as E. destruct (fills_pi _ _ _ _ H) as [P D].
  destruct Hl as [-> | ->]; cbn [text_effect]; unfold element_value_text; rewrite ?P, ?D, c_str_plain; auto.
Qed.
Lemma fills_quote lv t b b' : is_holder lv -> fills lv [PText t] b b' -> quote_effect lv t b = BOk b'.
Proof.
  intros Hl H. pose proof (fills_one _ _ _ _ H) as E. destruct (fills_pi _ _ _ _ H) as [P D].
  destruct Hl as [-> | ->]; cbn [quote_effect]; unfold element_value_quote; rewrite ?P, ?D; auto.
Qed.

Lemma gap_nil y : ~ begins_white y -> gap [] y.
Proof. intros H. split; auto. now left. Qed.
Lemma solid_ascii c y : is_xml_whitespace c = false -> c < 128 -> ~ begins_white (c :: y).
Proof. intros H1 H2 H. inversion H; subst; try congruence; lia. Qed.

Lemma read_value root lv pre t z ps : is_holder lv -> value pre t z ps ->
  reads root (fun f => value_body f lv) pre t z (fills lv ps).
Proof.
  intros Hl H. destruct H as [t z H|t z p H|w t z ps G H].
  - eapply reads_weaken; [apply (read_bare root lv); auto|]. intros b b' Hb. apply fills_text; auto. apply H.
  - destruct H as [t z v H|t z p H].
    + eapply reads_weaken; [eapply (read_quote_value root lv); eauto|]. intros b b' Hb. now apply fills_quote.
    + eapply reads_weaken; [eapply (read_entity_value root lv); eauto|]. intros b b' Hb. now apply (fills_one lv).
  - apply reads_ext with (G := fun f => parse_compound f lv).
    { exists 0%nat. intros f s _ N E. unfold value_body.
      rewrite !(peek_is_rest s cLP ((w ++ t ++ [cRP]) ++ z)) by exact E. reflexivity. }
    eapply reads_weaken.
    { apply reads_seq with (F := fun _ s => POk (single Kcpar_left cLP s))
        (H := fun f s => s <- compound_children f (enter_compound lv) s ;
                         s <- skip_space s ;
                         if negb (peek_is cRP s) then PErr E_COMPOUND_NOT_CLOSED s
                         else POk (single Kcpar_right cRP s)).
      - reflexivity.
      - apply reads_single.
      - assert (Hrp : ~ begins_white ([cRP] ++ z)) by (apply solid_ascii; reflexivity).
        (* white space first: the loop of the children eats it *)
        assert (W : reads root (fun f => compound_children f (enter_compound lv)) (pre ++ [cLP]) (w ++ t) ([cRP] ++ z)
                     (fun b b' => add_tops ps b = BOk b')).
        { assert (Ht : is_top (enter_compound lv)) by (destruct Hl as [-> | ->]; unfold is_top; cbn; auto).
          pose proof (read_pieces root _ _ _ _ _ Ht H) as RP. intros s N E. rewrite <- app_assoc in E.
          destruct (compound_ws (enter_compound lv) s w (t ++ [cRP] ++ z) E G) as (d & s1 & A1 & E1).
          destruct (RP s1 (ate_nul _ _ _ _ A1 N) (ate_rest _ _ _ _ _ A1 E)) as (k & s2 & sh & E2 & A2 & C2 & B2).
          exists (d + k)%nat, s2, (wsh w ++ sh). split; [|split; [|split]].
          - intros f Hf. replace f with (d + (f - d))%nat by lia. rewrite E1. apply E2. lia.
          - eapply ate_trans; eauto.
          - rewrite map_app, concat_app, wsh_text. congruence.
          - intros aft b b' Hb. rewrite buildS_app, buildS_wsh. cbn [bbind]. rewrite wsh_text.
            rewrite <- app_assoc. now apply B2. }
        replace (w ++ t ++ [cRP]) with ((w ++ t) ++ [cRP]) by (now rewrite <- app_assoc).
        eapply reads_seq with (F := fun f => compound_children f (enter_compound lv))
          (H := fun f s => s <- skip_space s ;
                         if negb (peek_is cRP s) then PErr E_COMPOUND_NOT_CLOSED s
                         else POk (single Kcpar_right cRP s)).
        + reflexivity.
        + exact W.
        + change [cRP] with ([] ++ [cRP]).
          apply reads_seq with (F := fun _ => skip_space)
            (H := fun f s => if negb (peek_is cRP s) then PErr E_COMPOUND_NOT_CLOSED s else POk (single Kcpar_right cRP s)).
          * reflexivity.
          * apply reads_skip. apply gap_nil. exact Hrp.
          * eapply reads_ext; [|apply reads_single]. exists 0%nat. intros f s _ N E.
            rewrite (peek_is_rest s cRP z) by exact E. reflexivity. }
    intros b b' Hb. destruct (fills_compound _ _ _ _ Hb) as (b1 & b2 & H1 & H2 & H3).
    exists b1. split; [exact H1|]. exists b2. split; [exact H2|]. exists b2. split; [reflexivity|exact H3].
Qed.

Definition then_value (lv : level) (fuel : nat) (s : pst) : pout := parse_value fuel lv s.

Lemma read_spaced_value root lv pre w t z R : gap w (t ++ z) ->
  reads root (fun f => value_body f lv) (pre ++ w) t z R ->
  reads root (fun f => parse_value f lv) pre (w ++ t) z R.
Proof.
  intros G H. eapply reads_weaken.
  - apply reads_seq with (F := fun _ => skip_space) (H := fun f => value_body f lv); [reflexivity| |exact H].
    now apply reads_skip.
  - intros b b' Hb. exists b. auto.
Qed.

(** The equals sign and the value, after white space has been skipped. *)
Definition equals_body (lv : level) (fuel : nat) (s : pst) : pout := parse_value fuel lv (single Kequals cEQ s).
Lemma read_equals root lv pre w t z R : gap w (t ++ z) ->
  reads root (fun f => value_body f lv) (pre ++ [cEQ] ++ w) t z R ->
  reads root (equals_body lv) pre ([cEQ] ++ w ++ t) z R.
Proof.
  intros G H. eapply reads_weaken.
  - apply reads_seq with (F := fun _ s => POk (single Kequals cEQ s)) (H := fun f => parse_value f lv); [reflexivity|apply reads_single|].
    apply read_spaced_value; [exact G|]. rewrite <- app_assoc. exact H.
  - intros b b' Hb. exists b. auto.
Qed.

(* ---------- names ---------- *)

Lemma name_loop_exact n z : forallb is_xmq_text_name n = true -> ~ starts is_xmq_text_name z -> forall pre p,
  exists q, name_loop pre (n ++ z) p = Cur (rev n ++ pre) z q.
Proof.
  intros H Hz. induction n as [|c n IH]; intros pre p.
  - cbn [app rev]. destruct z as [|c r]; [eexists; reflexivity|]. cbn [name_loop].
    rewrite (not_starts_cons _ _ _ Hz). eexists; reflexivity.
  - cbn [forallb] in H. apply andb_true_iff in H as [H1 H2]. cbn [app name_loop]. rewrite H1.
    destruct (IH H2 (c :: pre) (inc c p)) as (q & ->). exists q. cbn [rev]. now rewrite <- app_assoc.
Qed.
Lemma lex_name s n z : forallb is_xmq_text_name n = true -> ~ starts is_xmq_text_name z -> s_rest s = n ++ z ->
  ate n [] s (eat_name s).
Proof.
  intros H Hz E. unfold eat_name. rewrite E. destruct (name_loop_exact n z H Hz (s_pre s) (s_line s, s_col s)) as (q & ->).
  apply ate_set_cur; auto.
Qed.

Lemma split_colon_none n : ~ In cCOLON n -> split_colon n = None.
Proof.
  induction n as [|c n IH]; intros H; auto. cbn [split_colon]. rewrite IH by (intros X; apply H; now right).
  destruct (N.eqb_spec c cCOLON) as [->|]; auto. exfalso. apply H. now left.
Qed.
Lemma name_nul n : forallb is_xmq_text_name n = true -> ~ In 0 n.
Proof. intros H X. rewrite forallb_forall in H. apply H in X. discriminate. Qed.

Lemma name_ne c d : is_xmq_text_name c = true -> is_xmq_text_name d = false -> (c =? d) = false.
Proof. intros H1 H2. destruct (N.eqb_spec c d) as [->|]; auto. congruence. Qed.

(* ---------- attributes ---------- *)

Definition attr_front (s : pst) : pst :=
  let s' := eat_name s in emit_attr_name (s_line s) (s_col s) (between s s') s'.

Definition key_effect (n : bytes) (b : bst) : bout :=
  match b_stack b with
  | FElem m a k :: r => BOk (with_stack b (FElem m ((n, []) :: a) k :: r) LastAttr)
  | _ => BUnmodelled
  end.

Lemma beq_false a b : a <> b -> beq a b = false.
Proof. intros H. destruct (beq a b) eqn:E; auto. apply beq_eq in E. contradiction. Qed.

Lemma read_attr_name root pre n z : attr_name n -> ~ starts is_xmq_text_name z ->
  reads root (fun _ s => POk (attr_front s)) pre n z (fun b b' => key_effect n b = BOk b').
Proof.
  intros ((H1 & H2) & H3 & H4) Hz s N E. pose proof (lex_name s n z H2 Hz E) as A.
  exists 0%nat, (attr_front s), [(Kattr_key, n)]. split; [auto|]. split; [|split].
  - unfold attr_front. rewrite (between_ate _ _ _ _ A). unfold emit_attr_name. rewrite split_colon_none by auto.
    rewrite beq_false by auto. apply (ate_emit Kattr_key (s_line s) (s_col s) n [] _ _ _ _ A).
  - cbn. now rewrite app_nil_r.
  - intros aft b b' Hb. apply one_shape. unfold callback. cbn [t_kind t_text]. rewrite c_str_plain by now apply name_nul. exact Hb.
Qed.

(** An attribute is added to the element on top of the stack. *)
Inductive attr_added (a : attr) : bst -> bst -> Prop :=
| attr_add n l k r la : attr_added a (BS (FElem n l k :: r) la None false) (BS (FElem n (a :: l) k :: r) LastAttr None false).

Lemma not_name_space w y : gap w y -> ~ starts is_xmq_text_name y -> ~ starts is_xmq_text_name (w ++ y).
Proof.
  intros G Hy. destruct (gap_first _ _ G) as [-> |(c & t & -> & Hc)]; auto.
  intros (d & r & E & Hd). injection E as <- _. unfold is_xmq_token_whitespace in Hc.
  rewrite !orb_true_iff, !N.eqb_eq in Hc. destruct Hc as [[-> | ->]| ->]; discriminate.
Qed.
Lemma not_starts c y p : p c = false -> ~ starts p (c :: y).
Proof. intros H (d & r & E & Hd). injection E as <- _. congruence. Qed.

Lemma read_attribute root pre t w y a : attribute pre t w y a -> gap w y ->
  exists u w', (u = [] /\ w' = w \/ u = w /\ w' = []) /\ reads root parse_attribute pre (t ++ u) (w' ++ y) (attr_added a).
Proof.
  intros H G. destruct H as [n w y H1 H2 H3|n v w y ps H1 H2].
  - exists w, []. split; auto. cbn [app]. eapply reads_weaken.
    + apply reads_seq with (F := fun _ s => POk (attr_front s))
        (H := fun f s => s <- skip_space s ; if peek_is cEQ s then parse_value f LAttr (single Kequals cEQ s) else POk s).
      * reflexivity.
      * apply read_attr_name; auto.
      * replace w with (w ++ []) by apply app_nil_r.
        apply reads_seq with (F := fun _ => skip_space)
          (H := fun f s => if peek_is cEQ s then parse_value f LAttr (single Kequals cEQ s) else POk s).
        -- reflexivity.
        -- now apply reads_skip.
        -- eapply reads_ext; [|apply reads_nothing]. exists 0%nat. intros f s _ N E. rewrite (peek_no cEQ s y); auto. discriminate.
    + intros b b' Hb. inversion Hb; subst. eexists. split; [reflexivity|]. eexists. split; reflexivity.
  - exists [], w. split; auto. rewrite app_nil_r.
    inversion H2 as [w1 w2 v' z' ps' G1 G2 Hv]; subst.
    eapply reads_weaken.
    + apply reads_seq with (F := fun _ s => POk (attr_front s))
        (H := fun f s => s <- skip_space s ; if peek_is cEQ s then parse_value f LAttr (single Kequals cEQ s) else POk s).
      * reflexivity.
      * apply read_attr_name; auto. rewrite <- !app_assoc. apply not_name_space; [exact G1|].
        now apply not_starts.
      * apply reads_seq with (F := fun _ => skip_space)
          (H := fun f s => if peek_is cEQ s then parse_value f LAttr (single Kequals cEQ s) else POk s).
        -- reflexivity.
        -- apply reads_skip. rewrite <- !app_assoc. exact G1.
        -- eapply reads_ext.
           2:{ apply (read_equals root LAttr); [exact G2|]. rewrite <- !app_assoc.  rewrite <- !app_assoc in Hv.
               apply read_value; [now right|exact Hv]. }
           exists 0%nat. intros f s _ N E. rewrite (peek_is_rest s cEQ ((w2 ++ v') ++ w ++ y)) by exact E. reflexivity.
    + intros b b' Hb. inversion Hb; subst. eexists. split; [reflexivity|]. eexists. split; [reflexivity|]. 
      apply fill_attr.
Qed.

Inductive attrs_added (l : list attr) : bst -> bst -> Prop :=
| attrs_add n l0 k r la : attrs_added l (BS (FElem n l0 k :: r) la None false)
    (BS (FElem n (rev l ++ l0) k :: r) (match l with [] => la | _ => LastAttr end) None false).

Lemma attribute_first pre t w y a : attribute pre t w y a -> exists c r, t = c :: r /\ is_xmq_text_name c = true.
Proof.
  intros [n w' y' ((H1 & H2) & _) _ _|n v w' y' ps ((H1 & H2) & _) _]; (destruct n as [|c n]; [congruence|]); cbn in H2;
    apply andb_true_iff in H2 as [H2 _]; eauto. exists c, (n ++ v). auto.
Qed.

Lemma name_key_start c : is_xmq_text_name c = true -> is_attribute_key_start c = true.
Proof.
  intros H. unfold is_attribute_key_start. rewrite !(name_ne c _ H) by reflexivity. reflexivity.
Qed.

Lemma read_attributes root pre t z l : Grammar.attributes pre t z l ->
  reads root Parser.attributes pre t z (attrs_added l).
Proof.
  intros H. induction H as [pre z Hz|pre t w t2 z a l Ha G Hl IH].
  - intros s N E. exists 1%nat, s, []. split; [|split; [apply ate_nil|split; [reflexivity|]]].
    + intros f Hf. destruct f as [|f]; [lia|]. destruct Hz as (c & r & -> & Hc). cbn [app] in E. cbn [Parser.attributes]. rewrite E.
      unfold is in Hc. apply N.eqb_eq in Hc. subst c. reflexivity.
    + intros aft b b' Hb. inversion Hb; subst. reflexivity.
  - destruct (read_attribute root pre t w (t2 ++ z) a Ha G) as (u & w' & Hu & RA).
    destruct (attribute_first _ _ _ _ _ Ha) as (c & r & Et & Hc).
    intros s N E. 
    assert (E' : s_rest s = (t ++ u) ++ w' ++ t2 ++ z).
    { rewrite E. destruct Hu as [(-> & ->)|(-> & ->)]; now rewrite ?app_nil_r, <- !app_assoc. }
    destruct (RA s N E') as (k1 & s1 & sh1 & E1 & A1 & C1 & B1).
    assert (G' : gap w' (t2 ++ z)). { destruct Hu as [(-> & ->)|(-> & ->)]; auto. apply gap_nil. apply G. }
    destruct (attributes_ws s1 w' (t2 ++ z) (ate_rest _ _ _ _ _ A1 E') G') as (d & s2 & A2 & E2).
    assert (R2 : s_rest s2 = t2 ++ z) by (eapply ate_rest; [exact A2|]; eapply ate_rest; eauto).
    assert (N2 : nul_after s2) by (eapply ate_nul; [exact A2|]; eapply ate_nul; eauto).
    destruct (IH s2 N2 R2) as (k3 & s3 & sh3 & E3 & A3 & C3 & B3).
    assert (T : t ++ w ++ t2 = (t ++ u) ++ w' ++ t2).
    { destruct Hu as [(-> & ->)|(-> & ->)]; now rewrite ?app_nil_r, <- ?app_assoc. }
    exists (S (k1 + d + k3)), s3, (sh1 ++ wsh w' ++ sh3). split; [|split; [|split]].
    + intros f Hf. destruct f as [|f]; [lia|]. cbn [Parser.attributes]. rewrite E, Et. cbn [app].
      assert (X : is_xml_whitespace c = false).
      { unfold is_xml_whitespace. now rewrite !(name_ne c _ Hc) by reflexivity. }
      rewrite X. rewrite (name_ne c cRP Hc) by reflexivity. rewrite (name_key_start c Hc).
      rewrite E1 by lia. cbn [pbind]. replace f with (d + (f - d))%nat by lia. rewrite E2. apply E3. lia.
    + rewrite T. eapply ate_trans; [exact A1|]. eapply ate_trans; eauto.
    + rewrite !map_app, !concat_app, wsh_text, C1, C3. now rewrite T.
    + intros aft b b' Hb. inversion Hb; subst b b'. rewrite buildS_app, (B1 _ _ _ (attr_add a n l0 k r0 la)). cbn [bbind].
      rewrite buildS_app, buildS_wsh. cbn [bbind]. rewrite C1, wsh_text.
      replace ((pre ++ t ++ u) ++ w') with (pre ++ t ++ w).
      * apply B3. cbn [rev]. rewrite <- app_assoc. cbn [app].
        replace LastAttr with (match l with [] => LastAttr | _ :: _ => LastAttr end) at 2 by (destruct l; reflexivity).
        apply attrs_add.
      * destruct Hu as [(-> & ->)|(-> & ->)]; now rewrite ?app_nil_r, <- ?app_assoc.
Qed.

(* ---------- elements ---------- *)

Definition elem_name (ek : ekind) (s : pst) : pst :=
  let s1 := match ek with
            | EElement => eat_name s
            | EDoctype => eat_marked_name cBANG s
            | EPi => eat_marked_name cQM s
            end in
  let is_key := next_is_equal (s_rest s1) 0 in
  let name := between s s1 in
  match ek with
  | EElement => emit_element_name is_key (s_line s) (s_col s) name s1
  | _ => emit (if is_key then Kelement_key else Kelement_name) (s_line s) (s_col s) name [] s1
  end.
Definition attrs_close (s : pst) : pout :=
  s <- skip_space s ;
  if negb (peek_is cRP s) then PErr E_ATTRIBUTES_NOT_CLOSED s
  else POk (single Kapar_right cRP s).
Definition attrs_part (fuel : nat) (s3 : pst) : pout :=
  if peek_is cLP s3 then
    s <- Parser.attributes fuel (single Kapar_left cLP (set_attr (Some (here s3)) s3)) ;
    attrs_close s
  else POk s3.
Definition elem_tail (body : pst -> pout) (fuel : nat) (s5 : pst) : pout :=
  if peek_is cEQ s5 then
    parse_value fuel LElem (single Kequals cEQ (set_equals (Some (here s5)) s5))
  else if peek_is cLB s5 then
    s <- body (single Kbrace_left cLB (set_body (Some (here s5)) s5)) ;
    s <- skip_space s ;
    if negb (peek_is cRB s) then PErr E_BODY_NOT_CLOSED s
    else POk (single Kbrace_right cRB s)
  else POk s5.
Definition elem_rest (fuel : nat) (s2 : pst) : pout :=
  s3 <- skip_space s2 ; s4 <- attrs_part fuel s3 ; skip_space s4.
Definition elem_front (ek : ekind) (fuel : nat) (s : pst) : pout :=
  s2 <- POk (elem_name ek s) ; elem_rest fuel s2.

Lemma parse_element_eq fuel body ek s : parse_element fuel body ek s = pbind (elem_front ek fuel s) (elem_tail body fuel).
Proof.
  unfold parse_element, elem_front, elem_rest. cbn [pbind]. fold (elem_name ek s).
  destruct (skip_space (elem_name ek s)) as [s3| | | |]; cbn [pbind]; auto. unfold attrs_part, attrs_close.
  destruct (peek_is cLP s3); cbn [pbind].
  - destruct (Parser.attributes _ _) as [s4| | | |]; cbn [pbind]; auto. destruct (skip_space s4) as [s5| | | |]; cbn [pbind]; auto.
    destruct (negb _); cbn [pbind]; reflexivity.
  - destruct (skip_space s3); reflexivity.
Qed.

Lemma read_name_emit root pre k n z : ~ In 0 n ->
  forall (F : pst -> pst), (forall s, s_rest s = n ++ z -> exists kd, (kd = Kelement_name \/ kd = Kelement_key) /\ ate n [(kd, n)] s (F s)) ->
  k = n -> reads root (fun _ s => POk (F s)) pre n z (fun b b' => create_node root n b = BOk b').
Proof.
  intros H0 F HF _ s N E. destruct (HF s E) as (kd & Hk & A). exists 0%nat, (F s), [(kd, n)].
  split; [auto|]. split; [exact A|]. split; [cbn; now rewrite app_nil_r|].
  intros aft b b' Hb. apply one_shape. unfold callback. cbn [t_kind t_text].
  destruct Hk as [-> | ->]; rewrite c_str_plain by auto; exact Hb.
Qed.

Lemma read_elem_name root pre n z : element_name n -> ~ starts is_xmq_text_name z ->
  reads root (fun _ s => POk (elem_name EElement s)) pre n z (fun b b' => create_node root n b = BOk b').
Proof.
  intros (H1 & H2 & H3) Hz. apply (read_name_emit root pre n n z (name_nul _ H2)); auto. intros s E.
  pose proof (lex_name s n z H2 Hz E) as A. unfold elem_name. rewrite (between_ate _ _ _ _ A). unfold emit_element_name.
  rewrite split_colon_none by auto. set (kd := if next_is_equal _ _ then _ else _).
  exists kd. split; [unfold kd; destruct (next_is_equal _ _); auto|].
  apply (ate_emit kd (s_line s) (s_col s) n [] _ _ _ _ A).
Qed.

Lemma read_marked_name root pre ek c n z : (ek = EDoctype /\ c = cBANG \/ ek = EPi /\ c = cQM) ->
  forallb is_xmq_text_name n = true -> ~ starts is_xmq_text_name z ->
  reads root (fun _ s => POk (elem_name ek s)) pre (c :: n) z (fun b b' => create_node root (c :: n) b = BOk b').
Proof.
  intros He Hn Hz. apply (read_name_emit root pre (c :: n) (c :: n) z); auto.
  { intros [X|X]; [|now apply name_nul in X]. destruct He as [[_ ->]|[_ ->]]; discriminate. }
  intros s E. pose proof (ate_step c s _ E) as A1.
  assert (A : ate (c :: n) [] s (eat_marked_name c s)).
  { apply (ate_trans [c] n [] [] s (step c s)); auto. apply (lex_name _ _ z); auto. eapply ate_rest; [exact A1|]. exact E. }
  unfold elem_name. destruct He as [[-> ->]|[-> ->]]; rewrite (between_ate _ _ _ _ A);
    set (kd := if next_is_equal _ _ then _ else _); exists kd;
    (split; [unfold kd; destruct (next_is_equal _ _); auto|]); apply (ate_emit kd (s_line s) (s_col s) _ [] _ _ _ _ A).
Qed.

Definition ready (root : option bytes) (l : last) : Prop := root = None \/ l <> LastNone.

(** An element without children is added. *)
Inductive elem_added (root : option bytes) (n : bytes) (l : list attr) : bst -> bst -> Prop :=
| elem_add f r la : open f -> ready root la ->
    elem_added root n l (BS (f :: r) la None false) (BS (with_kids f (Elem n l [] :: kids f) :: r) LastKid None false).

Lemma create_element root n b b' : element_name n -> elem_added root n [] b b' -> create_node root n b = BOk b'.
Proof.
  intros ((c & r & -> & Hc) & H2 & H3) H. unfold create_node.
  assert (Hn : is_xmq_text_name c = true).
  { cbn in H2. now apply andb_true_iff in H2 as [H2 _]. }
  rewrite beq_false by (intros X; injection X as -> _; discriminate).
  rewrite (name_ne c cQM Hn) by reflexivity.
  destruct H as [f st la Ho Hr]. cbn [b_last]. 
  assert (X : match la with LastNone => match root with Some m => if beq (c :: r) m then BS (f :: st) la None false
              else with_stack (BS (f :: st) la None false) (FElem m [] [] :: b_stack (BS (f :: st) la None false)) la | None => BS (f :: st) la None false end
              | _ => BS (f :: st) la None false end = BS (f :: st) la None false).
  { destruct Hr as [-> |Hr]; [destruct la; reflexivity|]. destruct la; [congruence| | |]; reflexivity. }
  destruct f as [k|m a k|]; [| |contradiction]; (destruct la; [|reflexivity|reflexivity|reflexivity]);
    (destruct Hr as [-> |Hr]; [|congruence]); reflexivity.
Qed.

Lemma gap_refl w y : gap w y -> gap [] y.
Proof. intros [_ H]. now apply gap_nil. Qed.

Lemma apar_effect root n l b b' : elem_added root n l b b' -> exists b0 b1 b2,
  elem_added root n [] b b0 /\ push_last b0 = BOk b1 /\ attrs_added l b1 b2 /\ pop b2 = BOk b'.
Proof.
  intros [f r la Ho Hr]. eexists. destruct f as [k|m a k|]; [| |contradiction].
  - eexists _, _. split; [now apply elem_add|]. split; [reflexivity|]. split; [apply attrs_add|].
    cbn. now rewrite app_nil_r, rev_involutive.
  - eexists _, _. split; [now apply elem_add|]. split; [reflexivity|]. split; [apply attrs_add|].
    cbn. now rewrite app_nil_r, rev_involutive.
Qed.

Lemma same_set_attr s m : same_place s (set_attr m s).
Proof. repeat split. Qed.

Lemma read_head root pre t w y n l : head pre t (w ++ y) n l -> gap w y -> ~ starts (is cLP) y ->
  reads root (elem_front EElement) pre (t ++ w) y (elem_added root n l).
Proof.
  intros H G Hy. inversion H as [n' z' H1 H2|n' w1 w2 t' z' l' H1 G1 G2 Ha]; subst.
  - eapply reads_weaken.
    + apply reads_seq with (F := fun _ s => POk (elem_name EElement s)) (H := elem_rest); [reflexivity|now apply read_elem_name|].
      replace w with (w ++ [] ++ []) by now rewrite app_nil_r.
      apply reads_seq with (F := fun _ => skip_space) (H := fun f s => s4 <- attrs_part f s ; skip_space s4); [reflexivity|now apply reads_skip|].
      apply reads_seq with (F := attrs_part) (H := fun _ => skip_space); [reflexivity| |].
      * eapply reads_ext; [|apply reads_nothing]. exists 0%nat. intros f s _ N E. unfold attrs_part. rewrite (peek_no cLP s y); auto. discriminate.
      * apply reads_skip. eapply gap_refl; eauto.
    + intros b b' Hb. exists b'. split; [now apply create_element|]. exists b'. split; [reflexivity|]. exists b'. split; reflexivity.
  - eapply reads_weaken.
    + replace ((n ++ w1 ++ [cLP] ++ w2 ++ t' ++ [cRP]) ++ w) with (n ++ w1 ++ ([cLP] ++ w2 ++ t' ++ [cRP]) ++ w) by now rewrite <- !app_assoc.
      apply reads_seq with (F := fun _ s => POk (elem_name EElement s)) (H := elem_rest); [reflexivity| |].
      { apply read_elem_name; auto. rewrite <- !app_assoc. rewrite <- ?app_assoc in G1. apply not_name_space; [exact G1|]. now apply not_starts. }
      apply reads_seq with (F := fun _ => skip_space) (H := fun f s => s4 <- attrs_part f s ; skip_space s4); [reflexivity| |].
      { apply reads_skip. rewrite <- !app_assoc. rewrite <- ?app_assoc in G1. exact G1. }
      apply reads_seq with (F := attrs_part) (H := fun _ => skip_space); [reflexivity| |now apply reads_skip].
      eapply reads_ext with (G := fun f s => (fun f s => s <- Parser.attributes f (single Kapar_left cLP s) ; attrs_close s) f (set_attr (Some (here s)) s)).
      { exists 0%nat. intros f s _ N E. unfold attrs_part. rewrite (peek_is_rest s cLP ((w2 ++ t' ++ [cRP]) ++ w ++ y)) by exact E. reflexivity. }
      apply (reads_mark root (fun f s => s <- Parser.attributes f (single Kapar_left cLP s) ; attrs_close s) (fun s => set_attr (Some (here s)) s)).
      { intros s. apply same_set_attr. }
      replace ([cLP] ++ w2 ++ t' ++ [cRP]) with ([cLP] ++ (w2 ++ t') ++ [cRP]) by now rewrite <- !app_assoc.
      apply reads_seq with (F := fun _ s => POk (single Kapar_left cLP s)) (H := fun f s => s <- Parser.attributes f s ; attrs_close s); [reflexivity|apply reads_single|].
      apply reads_seq with (F := Parser.attributes) (H := fun _ => attrs_close); [reflexivity| |].
      * instantiate (1 := attrs_added l). pose proof (read_attributes root _ _ _ _ Ha) as RP. intros s N E. rewrite <- app_assoc in E.
        destruct (attributes_ws s w2 (t' ++ [cRP] ++ w ++ y) E G2) as (d & s1 & A1 & E1).
        destruct (RP s1 (ate_nul _ _ _ _ A1 N) (ate_rest _ _ _ _ _ A1 E)) as (k & s2 & sh & E2 & A2 & C2 & B2).
        exists (d + k)%nat, s2, (wsh w2 ++ sh). split; [|split; [|split]].
        -- intros f Hf. replace f with (d + (f - d))%nat by lia. rewrite E1. apply E2. lia.
        -- eapply ate_trans; eauto.
        -- rewrite map_app, concat_app, wsh_text. congruence.
        -- intros aft b b' Hb. rewrite buildS_app, buildS_wsh. cbn [bbind]. rewrite wsh_text.
           rewrite <- !app_assoc. now apply B2.
      * change [cRP] with ([] ++ [cRP]).
        apply reads_seq with (F := fun _ => skip_space)
          (H := fun _ s => if negb (peek_is cRP s) then PErr E_ATTRIBUTES_NOT_CLOSED s else POk (single Kapar_right cRP s)); [reflexivity| |].
        -- apply reads_skip. apply gap_nil. apply solid_ascii; reflexivity.
        -- eapply reads_ext; [|apply reads_single]. exists 0%nat. intros f s _ N E.
           rewrite (peek_is_rest s cRP (w ++ y)) by exact E. reflexivity.
    + intros b b' Hb. destruct (apar_effect _ _ _ _ _ Hb) as (b0 & b1 & b2 & P1 & P2 & P3 & P4).
      exists b0. split; [now apply create_element|]. exists b0. split; [reflexivity|]. exists b'. split; [|reflexivity].
      exists b1. split; [exact P2|]. exists b2. split; [exact P3|]. exists b2. split; [reflexivity|exact P4].
Qed.

(* ---------- comments ---------- *)

Lemma count_slashes_rep k y aft : hd_error aft = Some 0 -> ~ starts (is cSLASH) y ->
  count_slashes (rep cSLASH k ++ y) aft = Some (k, match y with c :: _ => c =? cSTAR | [] => false end).
Proof.
  intros Ha Hy. induction k as [|k IH].
  - cbn [rep repeat app]. destruct y as [|c y]; cbn [count_slashes].
    + destruct aft as [|a r]; [discriminate|]. injection Ha as ->. reflexivity.
    + apply not_starts_cons in Hy. unfold is in Hy. now rewrite Hy.
  - change (rep cSLASH (S k) ++ y) with (cSLASH :: rep cSLASH k ++ y). cbn [count_slashes].
    change (cSLASH =? cSLASH) with true. cbn iota. now rewrite IH.
Qed.

Lemma lead_split c y : exists k r, y = rep c k ++ r /\ ~ starts (is c) r.
Proof.
  induction y as [|d y (k & r & -> & H)].
  - exists 0%nat, []. split; auto. intros (x & q & E & _). discriminate.
  - destruct (N.eqb_spec d c) as [->|Hd].
    + exists (S k), r. auto.
    + exists 0%nat, (d :: rep c k ++ r). split; auto. apply not_starts. now apply N.eqb_neq.
Qed.

Lemma close_loop_exact n z aft : (1 <= n)%nat -> hd_error aft = Some 0 -> ~ starts (is cSLASH) z -> forall b c pre p,
  (forall x k y, (c :: b) ++ [cSTAR] = x ++ [cSTAR] ++ rep cSLASH k ++ y -> (k < n)%nat) ->
  exists q, close_loop n c pre (b ++ [cSTAR] ++ rep cSLASH n ++ z) aft p
    = Closed (Cur (rev (b ++ [cSTAR] ++ rep cSLASH n) ++ pre) z q) (match z with d :: _ => d =? cSTAR | [] => false end).
Proof.
  intros Hn Ha Hz. induction b as [|d b IH]; intros c pre p H.
  - cbn [app]. cbn [close_loop]. change (cSTAR =? cSLASH) with false. rewrite orb_true_r.
    destruct n as [|n]; [lia|]. change (rep cSLASH (S n) ++ z) with (cSLASH :: rep cSLASH n ++ z) at 1. cbn [close_loop].
    change (cSTAR =? cSTAR) with true. change (cSLASH =? cSLASH) with true. cbn [negb orb].
    change (cSLASH :: rep cSLASH n ++ z) with (rep cSLASH (S n) ++ z). rewrite count_slashes_rep by auto.
    rewrite Nat.ltb_irrefl.
    destruct (eat_n_exact cSLASH (S n) (cSTAR :: pre) z (inc cSTAR p)) as (q & Eq). rewrite Eq. exists q. f_equal.
    f_equal. change (cSTAR :: rep cSLASH (S n)) with ([cSTAR] ++ rep cSLASH (S n)). rewrite rev_app_distr, <- app_assoc. reflexivity.
  - cbn [app]. cbn [close_loop].
    assert (F : forall pre p, exists q, close_loop n d (d :: pre) (b ++ [cSTAR] ++ rep cSLASH n ++ z) aft p
      = Closed (Cur (rev (d :: b ++ [cSTAR] ++ rep cSLASH n) ++ pre) z q) (match z with d :: _ => d =? cSTAR | [] => false end)).
    { intros pre' p'. destruct (IH d (d :: pre') p') as (q & Eq).
      - intros x k y E. apply (H (c :: x) k y). cbn [app]. f_equal. exact E.
      - exists q. rewrite Eq. f_equal. f_equal. cbn [rev]. now rewrite <- app_assoc. }
    destruct (negb (c =? cSTAR) || negb (d =? cSLASH)) eqn:E; [apply F|].
    rewrite orb_false_iff, !negb_false_iff, !N.eqb_eq in E. destruct E as [-> ->].
    destruct (lead_split cSLASH (cSLASH :: b ++ [cSTAR])) as (k & r & Er & Hr).
    assert (Hk : (k < n)%nat) by (apply (H [] k r); cbn [app]; f_equal; exact Er).
    assert (Hr0 : r <> []).
    { intros ->. rewrite app_nil_r in Er. assert (X : In cSTAR (rep cSLASH k)).
      { rewrite <- Er. right. apply in_or_app. right. now left. }
      apply repeat_spec in X. discriminate. }
    assert (Es : cSLASH :: b ++ [cSTAR] ++ rep cSLASH n ++ z = rep cSLASH k ++ r ++ rep cSLASH n ++ z).
    { rewrite app_assoc. rewrite <- (app_assoc (rep cSLASH k)) || idtac. rewrite (app_assoc (rep cSLASH k)). rewrite <- Er. cbn [app]. now rewrite <- !app_assoc. }
    change (b ++ cSTAR :: rep cSLASH n ++ z) with (b ++ [cSTAR] ++ rep cSLASH n ++ z).
    rewrite Es. rewrite count_slashes_rep; auto.
    2:{ destruct r as [|e r]; [congruence|]. intros X. apply Hr. destruct X as (f & g & Ef & Hf). injection Ef as -> _. exists f, r. auto. }
    replace (Nat.ltb k n) with true by (symmetry; apply Nat.ltb_lt; lia). apply F.
Qed.

Lemma segment_app n b z : segment n b ++ z = [cSTAR] ++ b ++ [cSTAR] ++ rep cSLASH n ++ z.
Proof. unfold segment. now rewrite <- !app_assoc. Qed.

Lemma lex_segment n s front b z : (1 <= n)%nat -> nul_after s -> (front = [] \/ front = rep cSLASH n) ->
  (forall x k y, b ++ [cSTAR] = x ++ [cSTAR] ++ rep cSLASH k ++ y -> (k < n)%nat) ->
  ~ starts (is cSLASH) z -> s_rest s = (front ++ segment n b) ++ z ->
  exists s', eat_comment_to_close n s = (POk s', match z with d :: _ => d =? cSTAR | [] => false end)
    /\ ate (front ++ segment n b) [] s s'.
Proof.
  intros Hn N Hf Hb Hz E. unfold eat_comment_to_close. rewrite <- app_assoc, segment_app in E.
  set (k := if peek_is cSLASH s then _ else _).
  assert (K : exists q, k = Cur (rev front ++ s_pre s) ([cSTAR] ++ b ++ [cSTAR] ++ rep cSLASH n ++ z) q).
  { unfold k. destruct Hf as [-> | ->].
    - rewrite (peek_is_rest s cSTAR (b ++ [cSTAR] ++ rep cSLASH n ++ z)) by exact E. change (cSTAR =? cSLASH) with false.
      unfold cur_of. rewrite E. eexists. reflexivity.
    - replace (peek_is cSLASH s) with true.
      + unfold cur_of. rewrite E. apply eat_n_exact.
      + symmetry. destruct n as [|n]; [lia|]. erewrite peek_is_rest; [|exact E]. reflexivity. }
  destruct K as (q & ->). set (s1 := set_cur s _).
  assert (A1 : ate front [] s s1) by (apply ate_set_cur; auto).
  assert (R1 : s_rest s1 = cSTAR :: b ++ [cSTAR] ++ rep cSLASH n ++ z) by reflexivity.
  rewrite (peek_is_rest _ _ _ _ R1). change (cSTAR =? cSTAR) with true. cbn [negb].
  pose proof (ate_step cSTAR s1 _ R1) as A2. set (s2 := step cSTAR s1) in *.
  assert (R2 : s_rest s2 = b ++ [cSTAR] ++ rep cSLASH n ++ z) by (eapply ate_rest; [exact A2|exact R1]).
  assert (N2 : nul_after s2) by (eapply ate_nul; [exact A2|]; eapply ate_nul; eauto).
  rewrite R2. destruct (close_loop_exact n z (s_aft s2) Hn N2 Hz b 0 (s_pre s2) (s_line s2, s_col s2)) as (q2 & ->).
  - intros x k0 y Ex. destruct x as [|c x].
    + discriminate.
    + injection Ex as _ Ex. apply (Hb x k0 y Ex).
  - eexists. split; [reflexivity|]. eapply (ate_trans front (segment n b) [] []); [exact A1|].
    eapply (ate_trans [cSTAR] (b ++ [cSTAR] ++ rep cSLASH n) [] []); [exact A2|]. apply ate_set_cur; auto.
    rewrite R2. now rewrite <- !app_assoc.
Qed.

Lemma bodies_starts n pre t z v : bodies n pre [] t z v -> exists r, t = cSTAR :: r.
Proof. intros H. inversion H; subst; eexists; reflexivity. Qed.
Lemma bodies_next n pre front t z v : bodies n pre front t z v -> z = [] \/ ~ starts (one_of [cSLASH; cSTAR]) z.
Proof. intros H. induction H; auto. Qed.

(** The comment is added, or the text is appended to the comment added
    last. *)
Inductive comment_added (v : bytes) : bst -> bst -> Prop :=
| comment_add f r la : open f ->
    comment_added v (BS (f :: r) la None false) (BS (with_kids f (Comment v :: kids f) :: r) LastKid None false).
Inductive comment_extended (v : bytes) : bst -> bst -> Prop :=
| comment_ext f r u ks : open f ->
    comment_extended v (BS (with_kids f (Comment u :: ks) :: r) LastKid None false)
                       (BS (with_kids f (Comment (u ++ cNL :: v) :: ks) :: r) LastKid None false).

Lemma value_of_comment pre n b aft f : (1 <= n)%nat -> plain b ->
  with_value (comment_value (col_after pre) (rep cSLASH n ++ segment n b) aft) f
  = f (comment_text (column pre + n + 1) b).
Proof.
  intros Hn Hp. unfold comment_value. destruct (un_comment_block (N.to_nat (col_after pre - 1)) n b aft Hp) as (m & ->).
  cbn [with_value]. f_equal. apply c_str_plain. now apply comment_text_plain.
Qed.
Lemma value_of_continuation pre n b aft f : (1 <= n)%nat -> plain b ->
  with_value (continuation_value (col_after pre) (segment n b) aft) f
  = f (comment_text (column pre + n + 1) b).
Proof.
  intros Hn Hp. unfold continuation_value. rewrite count_lead_segment.
  destruct (un_comment_block (N.to_nat (col_after pre - 1)) n b aft Hp) as (m & ->).
  cbn [with_value]. f_equal. apply c_str_plain. now apply comment_text_plain.
Qed.

Lemma append_ext v b b' : comment_extended v b b' -> append_comment v b = BOk b'.
Proof. intros [f r u ks Ho]. destruct f; [| |contradiction]; reflexivity. Qed.

(** The bodies after the first one. *)
Lemma read_continuations root n pre t z v : (1 <= n)%nat -> bodies n pre [] t z v ->
  reads root (fun f => continuations f n) pre t z (comment_extended v).
Proof.
  intros Hn H. remember [] as front eqn:Ef. induction H as [pre front b z Hb Hz|pre front b t z v Hb H IH]; subst front; intros s N E.
  - destruct (lex_segment n s [] b z Hn N (or_introl eq_refl) (proj2 Hb)) as (s' & Es & A); auto.
    { intros (c & r & -> & Hc). apply Hz. exists c, r. split; auto. unfold one_of. cbn. unfold is in Hc. now rewrite Hc. }
    assert (Hm : match z with d :: _ => d =? cSTAR | [] => false end = false).
    { destruct z as [|d z]; auto. apply not_starts_cons in Hz. unfold one_of in Hz. cbn [existsb] in Hz.
      now destruct (d =? cSTAR), (d =? cSLASH). }
    cbn [app] in A |- *. exists 1%nat, (emit_from Kcomment_continuation s s'), [(Kcomment_continuation, segment n b)].
    split; [|split; [now apply ate_emit_from|split; [cbn; now rewrite app_nil_r|]]].
    + intros f Hf. destruct f as [|f]; [lia|]. cbn [continuations]. rewrite Es, Hm. reflexivity.
    + intros aft b1 b2 Hb'. apply one_shape. unfold callback. cbn [t_kind t_text t_col]. 
      rewrite value_of_continuation by (auto; apply Hb). now apply append_ext.
  - destruct (bodies_starts _ _ _ _ _ H) as (r & Et). cbn [app] in E. rewrite <- app_assoc in E.
    destruct (lex_segment n s [] b (t ++ z) Hn N (or_introl eq_refl) (proj2 Hb)) as (s' & Es & A); auto.
    { rewrite Et. now apply not_starts. }
    cbn [app] in A |- *. assert (A' : ate (segment n b) [(Kcomment_continuation, segment n b)] s (emit_from Kcomment_continuation s s')) by now apply ate_emit_from.
    destruct (IH eq_refl (emit_from Kcomment_continuation s s') (ate_nul _ _ _ _ A' N) (ate_rest _ _ _ _ _ A' E))
      as (k & s2 & sh & E2 & A2 & C2 & B2).
    exists (S k), s2, ([(Kcomment_continuation, segment n b)] ++ sh). split; [|split; [|split]].
    + intros f Hf. destruct f as [|f]; [lia|]. cbn [continuations]. rewrite Es. rewrite Et. cbn [app].
      change (cSTAR =? cSTAR) with true. cbn [pbind]. cbn iota. apply E2. lia.
    + eapply ate_trans; eauto.
    + cbn [map snd List.concat app]. now rewrite C2.
    + intros aft b1 b2 Hb'. inversion Hb'; subst b1 b2. rewrite buildS_app.
      erewrite (one_shape root pre Kcomment_continuation).
      2:{ unfold callback. cbn [t_kind t_text t_col]. rewrite value_of_continuation by (auto; apply Hb).
          apply append_ext. now apply comment_ext. }
      cbn [bbind map snd List.concat]. rewrite app_nil_r. apply B2.
      replace (u ++ cNL :: comment_text (column pre + n + 1) b ++ cNL :: v)
        with ((u ++ cNL :: comment_text (column pre + n + 1) b) ++ cNL :: v) by (now rewrite <- !app_assoc).
      now apply comment_ext.
Qed.

Lemma eol_loop_exact b z : ~ In cNL b -> forall pre p, exists q,
  eol_loop pre (b ++ [cNL] ++ z) p = Cur (rev (b ++ [cNL]) ++ pre) z q.
Proof.
  intros H. induction b as [|c b IH]; intros pre p.
  - eexists. reflexivity.
  - cbn [app eol_loop]. destruct (N.eqb_spec c cNL) as [->|]; [exfalso; apply H; now left|].
    destruct (IH (fun X => H (or_intror X)) (c :: pre) (inc c p)) as (q & Eq). exists q. cbn [app] in Eq. rewrite Eq. f_equal.
    cbn [rev]. now rewrite <- app_assoc.
Qed.

Lemma read_comment root pre t z v : comment pre t z v -> reads root parse_comment pre t z (comment_added v).
Proof.
  intros H. destruct H as [n b z Hn Hp Hnl Hs|n t z v Hn H].
  - intros s N E. rewrite <- !app_assoc in E.
    assert (C : count_slashes (s_rest s) (s_aft s) = Some (n, false)).
    { rewrite E. rewrite count_slashes_rep; auto.
      - destruct b as [|c b]; [reflexivity|]. cbn [app]. apply not_starts_cons in Hs. unfold one_of in Hs. cbn [existsb] in Hs.
        now destruct (c =? cSTAR), (c =? cSLASH).
      - destruct b as [|c b]; [now apply not_starts|]. intros (d & r & Ed & Hd). injection Ed as <- _. apply Hs. exists c, b. split; auto.
        unfold one_of. cbn [existsb]. unfold is in Hd. now rewrite Hd. }
    assert (A : ate (rep cSLASH n ++ b ++ [cNL]) [] s (eat_comment_to_eol s)).
    { unfold eat_comment_to_eol, cur_of. rewrite E.
      replace n with (2 + (n - 2))%nat by lia.
      assert (Er : rep cSLASH (2 + (n - 2)) = rep cSLASH 2 ++ rep cSLASH (n - 2)) by (unfold rep; apply repeat_app).
      rewrite Er, <- !app_assoc.
      destruct (eat_n_exact cSLASH 2 (s_pre s) (rep cSLASH (n - 2) ++ b ++ [cNL] ++ z) (s_line s, s_col s)) as (q & Eq).
      rewrite Eq. cbn [k_pre k_rest k_pos].
      destruct (eol_loop_exact (rep cSLASH (n - 2) ++ b) z) with (pre := rev (rep cSLASH 2) ++ s_pre s) (p := q) as (q2 & Eq2).
      { intros X. apply in_app_or in X. destruct X as [X|X]; auto. apply repeat_spec in X. discriminate. }
      rewrite <- !app_assoc in Eq2. rewrite Eq2. apply ate_set_cur; cbn [k_pre k_rest].
      - rewrite !rev_app_distr, <- !app_assoc. reflexivity.
      - rewrite E. replace n with (2 + (n - 2))%nat at 1 by lia. rewrite Er, <- !app_assoc. reflexivity. }
    exists 0%nat, (emit_from Kcomment s (eat_comment_to_eol s)), [(Kcomment, rep cSLASH n ++ b ++ [cNL])].
    split; [|split; [now apply ate_emit_from|split; [cbn; now rewrite app_nil_r|]]].
    + intros f _. unfold parse_comment. now rewrite C.
    + intros aft b1 b2 Hb. apply one_shape. unfold callback. cbn [t_kind t_text t_col]. unfold comment_value.
      destruct (un_comment_line (N.to_nat (col_after pre - 1)) n b ([] ++ aft) Hn Hp Hnl Hs) as (m & Em).
      cbn [map snd List.concat]. rewrite Em. cbn [with_value]. rewrite c_str_plain.
      * inversion Hb. destruct f; [| |contradiction]; reflexivity.
      * intros X. apply in_rstrip in X. destruct (strip_front_app b) as (w & Ew & _). destruct Hp as [Hp _]. apply Hp. rewrite Ew. apply in_or_app. now right.
  - inversion H as [pre' front b z' Hb Hz|pre' front b t' z' v' Hb H']; subst.
    + intros s N E.
      assert (Hz' : ~ starts (is cSLASH) z).
      { intros (c & r & -> & Hc). apply Hz. exists c, r. split; auto. unfold one_of. cbn. unfold is in Hc. now rewrite Hc. }
      destruct (lex_segment n s (rep cSLASH n) b z Hn N (or_intror eq_refl) (proj2 Hb) Hz' E) as (s' & Es & A).
      assert (Hm : match z with d :: _ => d =? cSTAR | [] => false end = false).
      { destruct z as [|d z]; auto. apply not_starts_cons in Hz. unfold one_of in Hz. cbn [existsb] in Hz.
        now destruct (d =? cSTAR), (d =? cSLASH). }
      exists 0%nat, (emit_from Kcomment s s'), [(Kcomment, rep cSLASH n ++ segment n b)].
      split; [|split; [now apply ate_emit_from|split; [cbn; now rewrite app_nil_r|]]].
      * intros f _. unfold parse_comment. rewrite E, <- app_assoc, segment_app, count_slashes_rep; auto; [|now apply not_starts].
        cbn [app]. change (cSTAR =? cSTAR) with true. rewrite Es, Hm. reflexivity.
      * intros aft b1 b2 Hb'. apply one_shape. unfold callback. cbn [t_kind t_text t_col].
        rewrite value_of_comment by (auto; apply Hb). inversion Hb'. destruct f; [| |contradiction]; reflexivity.
    + pose proof (read_continuations root n _ _ _ _ Hn H') as RC. destruct (bodies_starts _ _ _ _ _ H') as (r & Et).
      intros s N E.
      assert (E' : s_rest s = (rep cSLASH n ++ segment n b) ++ t' ++ z) by (rewrite E, <- !app_assoc; reflexivity).
      destruct (lex_segment n s (rep cSLASH n) b (t' ++ z) Hn N (or_intror eq_refl) (proj2 Hb)) as (s' & Es & A); auto.
      { rewrite Et. now apply not_starts. }
      assert (A' : ate (rep cSLASH n ++ segment n b) [(Kcomment, rep cSLASH n ++ segment n b)] s (emit_from Kcomment s s')) by now apply ate_emit_from.
      destruct (RC (emit_from Kcomment s s') (ate_nul _ _ _ _ A' N) (ate_rest _ _ _ _ _ A' E')) as (k & s2 & sh & E2 & A2 & C2 & B2).
      exists k, s2, ([(Kcomment, rep cSLASH n ++ segment n b)] ++ sh). split; [|split; [|split]].
      * intros f Hf. unfold parse_comment. rewrite E'. rewrite <- app_assoc, segment_app, count_slashes_rep; auto; [|now apply not_starts].
        cbn [app]. change (cSTAR =? cSTAR) with true. rewrite Es, Et. cbn [app]. change (cSTAR =? cSTAR) with true. cbn [pbind].
        apply E2. exact Hf.
      * rewrite app_assoc. eapply ate_trans; eauto.
      * cbn [map snd List.concat app]. now rewrite C2, <- app_assoc.
      * intros aft b1 b2 Hb'. inversion Hb' as [f r0 la Ho]; subst b1 b2. rewrite buildS_app.
        erewrite (one_shape root pre Kcomment).
        2:{ unfold callback. cbn [t_kind t_text t_col]. rewrite value_of_comment by (auto; apply Hb).
            instantiate (1 := BOk (BS (with_kids f (Comment (comment_text (column pre + n + 1) b) :: kids f) :: r0) LastKid None false)).
            destruct f; [| |contradiction]; reflexivity. }
        cbn [bbind map snd List.concat]. rewrite app_nil_r. apply B2. now apply comment_ext.
Qed.

(* ---------- nodes ---------- *)

Definition last_after (x : node) (la : last) : last :=
  match x with PI _ _ | Doctype _ => keep_last la | _ => LastKid end.

Inductive node_added (root : option bytes) (x : node) : bst -> bst -> Prop :=
| node_add f r la : open f -> ready root la ->
    node_added root x (BS (f :: r) la None false) (BS (with_kids f (add1 (kids f) x) :: r) (last_after x la) None false).
Inductive nodes_added (root : option bytes) (ks : list node) : bst -> bst -> Prop :=
| nodes_add f r la : open f -> ready root la ->
    nodes_added root ks (BS (f :: r) la None false)
      (BS (with_kids f (adds ks (kids f)) :: r) (fold_left (fun l x => last_after x l) ks la) None false).

(** What parse_xmq does with one node. *)
Definition item (f : nat) (s : pst) : pout :=
  match s_rest s with
  | [] => PAbrt
  | c :: r =>
    let cc := if (c =? cSLASH) || (c =? cLP) then hd 0 r else 0 in
    if c =? cQ then parse_quote LXmq s
    else if c =? cAMP then parse_entity LXmq s
    else if is_comment_start c cc then parse_comment (S f) s
    else if is_xmq_element_start c then parse_element (S f) (parse_xmq f) EElement s
    else if is_doctype_start (s_rest s) then parse_element (S f) (parse_xmq f) EDoctype s
    else if is_pi_start (s_rest s) then parse_element (S f) (parse_xmq f) EPi s
    else PAbrt
  end.
Definition node_start (t : bytes) : bool :=
  match t with
  | [] => false
  | c :: r =>
    negb (is_xmq_token_whitespace c) &&
    ((c =? cQ) || (c =? cAMP) || is_comment_start c (if (c =? cSLASH) || (c =? cLP) then hd 0 r else 0)
     || is_xmq_element_start c || is_doctype_start t || is_pi_start t)
  end.
Lemma item_step f s : node_start (s_rest s) = true -> parse_xmq (S f) s = pbind (item f s) (parse_xmq f).
Proof.
  intros H. unfold item. cbn [parse_xmq]. unfold node_start in H. destruct (s_rest s) as [|c r]; [discriminate|].
  apply andb_true_iff in H as [H1 H2]. apply negb_true_iff in H1. rewrite H1.
  destruct (c =? cQ); [reflexivity|]. destruct (c =? cAMP); [reflexivity|]. cbn [orb] in H2.
  destruct (is_comment_start _ _); [reflexivity|]. destruct (is_xmq_element_start c); [reflexivity|].
  destruct (is_doctype_start (c :: r)); [reflexivity|]. destruct (is_pi_start (c :: r)); [reflexivity|]. discriminate.
Qed.

Lemma reads_S root F pre t z R : reads root F pre t z R -> reads root (fun f => F (S f)) pre t z R.
Proof.
  intros H s N E. destruct (H s N E) as (k & s' & sh & H1 & H2 & H3 & H4). exists k, s', sh.
  split; [|split; [exact H2|split; [exact H3|exact H4]]]. intros f Hf. apply H1. lia.
Qed.

Lemma elem_start_facts c : is_xmq_element_start c = true ->
  is_xmq_token_whitespace c = false /\ (c =? cQ) = false /\ (c =? cAMP) = false /\ (c =? cSLASH) = false /\ (c =? cLP) = false.
Proof.
  intros H.
  assert (X : forall d, is_xmq_element_start d = false -> (c =? d) = false).
  { intros d Hd. destruct (N.eqb_spec c d) as [->|]; auto. congruence. }
  unfold is_xmq_token_whitespace. rewrite !X by reflexivity. auto.
Qed.
Lemma item_element f s c r : s_rest s = c :: r -> is_xmq_element_start c = true ->
  item f s = parse_element (S f) (parse_xmq f) EElement s.
Proof.
  intros E H. destruct (elem_start_facts c H) as (_ & H2 & H3 & H4 & H5). unfold item. rewrite E, H2, H3, H4, H5, H. cbn [orb].
  unfold is_comment_start. rewrite H4. reflexivity.
Qed.
Lemma head_first pre t z n l : head pre t z n l -> exists c r, t = c :: r /\ is_xmq_element_start c = true.
Proof.
  intros [n' z' ((c & r & -> & Hc) & _) _|n' w1 w2 t' z' l' ((c & r & -> & Hc) & _) _ _ _].
  - eauto.
  - eexists c, _. split; [reflexivity|auto].
Qed.
Lemma node_start_element c r : is_xmq_element_start c = true -> node_start (c :: r) = true.
Proof.
  intros H. destruct (elem_start_facts c H) as (H1 & H2 & H3 & H4 & H5). unfold node_start. rewrite H1, H. now rewrite !orb_true_r.
Qed.

Lemma assigned_parts pre v z ps : assigned pre v z ps -> exists w1 w2 x, v = w1 ++ [cEQ] ++ w2 ++ x /\
  gap w1 ([cEQ] ++ w2 ++ x ++ z) /\ gap w2 (x ++ z) /\ value (pre ++ w1 ++ [cEQ] ++ w2) x z ps.
Proof. intros [w1 w2 x z' ps' H1 H2 H3]. exists w1, w2, x. auto. Qed.

Lemma same_set_equals s m : same_place s (set_equals m s).
Proof. repeat split. Qed.
Lemma same_set_body s m : same_place s (set_body m s).
Proof. repeat split. Qed.

(** After the front of an element: the equals sign and a value. *)
Lemma read_tail_value root body pre w t z R : gap w (t ++ z) ->
  reads root (fun f => value_body f LElem) (pre ++ [cEQ] ++ w) t z R ->
  reads root (fun f => elem_tail (body f) (S f)) pre ([cEQ] ++ w ++ t) z R.
Proof.
  intros G H. eapply reads_ext with (G := fun f s => (fun f => equals_body LElem (S f)) f (set_equals (Some (here s)) s)).
  { exists 0%nat. intros f s _ N E. unfold elem_tail. rewrite (peek_is_rest s cEQ ((w ++ t) ++ z)) by exact E. reflexivity. }
  apply (reads_mark root (fun f => equals_body LElem (S f)) (fun s => set_equals (Some (here s)) s)).
  { intros s. apply same_set_equals. }
  apply (reads_S root (equals_body LElem)). apply read_equals; auto.
Qed.

(** Processing instructions and doctypes. *)
Lemma read_marked root pre ek c n w1 w2 v z R : (ek = EDoctype /\ c = cBANG \/ ek = EPi /\ c = cQM) ->
  forallb is_xmq_text_name n = true -> gap w1 ([cEQ] ++ w2 ++ v ++ z) -> gap w2 (v ++ z) ->
  reads root (fun f => value_body f LElem) (pre ++ (c :: n) ++ w1 ++ [cEQ] ++ w2) v z R ->
  reads root (fun f s => parse_element (S f) (parse_xmq f) ek s) pre ((c :: n) ++ w1 ++ [cEQ] ++ w2 ++ v) z
    (fun b b2 => exists b1, create_node root (c :: n) b = BOk b1 /\ R b1 b2).
Proof.
  intros He Hn G1 G2 H. eapply reads_weaken.
  - replace ((c :: n) ++ w1 ++ [cEQ] ++ w2 ++ v) with (((c :: n) ++ w1) ++ [cEQ] ++ w2 ++ v) by now rewrite <- !app_assoc.
    apply reads_seq with (F := fun f => elem_front ek (S f)) (H := fun f => elem_tail (parse_xmq f) (S f)).
    + intros f s. apply parse_element_eq.
    + apply (reads_S root (elem_front ek)).
      apply reads_seq with (F := fun _ s => POk (elem_name ek s)) (H := elem_rest); [reflexivity| |].
      * apply read_marked_name; auto. rewrite <- !app_assoc. apply not_name_space; [exact G1|]. now apply not_starts.
      * replace w1 with (w1 ++ [] ++ []) by now rewrite app_nil_r.
        apply reads_seq with (F := fun _ => skip_space) (H := fun f s => s4 <- attrs_part f s ; skip_space s4); [reflexivity| |].
        { apply reads_skip. rewrite <- !app_assoc. exact G1. }
        apply reads_seq with (F := attrs_part) (H := fun _ => skip_space); [reflexivity| |].
        -- eapply reads_ext; [|apply reads_nothing]. exists 0%nat. intros f s _ N E. unfold attrs_part.
           rewrite (peek_is_rest s cEQ ((w2 ++ v) ++ z)) by exact E. reflexivity.
        -- apply reads_skip. rewrite <- !app_assoc. eapply gap_refl; eauto.
    + apply read_tail_value; [exact G2|]. rewrite <- !app_assoc. exact H.
  - intros b b2 (b1 & H1 & H2). exists b1. split; [|exact H2]. exists b1. split; [exact H1|]. exists b1. split; [reflexivity|]. exists b1. split; reflexivity.
Qed.

Lemma pad_spec v : add_spaces v = pad_quotes v.
Proof.
  unfold add_spaces, pad_quotes. f_equal.
  - destruct v as [|c r]; auto.
  - f_equal. destruct (rev v) as [|c r]; auto.
Qed.
Lemma pad_nul v : ~ In 0 v -> ~ In 0 (pad_quotes v).
Proof.
  intros H X. unfold pad_quotes in X. apply in_app_or in X. destruct X as [X|X].
  - destruct v as [|c r]; [contradiction|]. destruct (c =? cQ); [|contradiction]. destruct X as [X|[]]; discriminate.
  - apply in_app_or in X. destruct X as [X|X]; auto. destruct (rev v) as [|c r]; [contradiction|].
    destruct (c =? cQ); [|contradiction]. destruct X as [X|[]]; discriminate.
Qed.

Lemma read_flat root pre t w y x : flat pre t w y x -> gap w y ->
  node_start (t ++ w ++ y) = true /\
  exists u w', (u = [] /\ w' = w \/ u = w /\ w' = []) /\ reads root item pre (t ++ u) (w' ++ y) (node_added root x).
Proof.
  intros H G. destruct H as [t w y p H|t w y v H|t w y n l H Hy|t v w y n l ps H Ha|n w1 w2 v w y x Hn G1 G2 Hv Hx|w1 w2 v w y G1 G2 Hv].
  - (* a quote or an entity *)
    assert (S : exists c r, t = c :: r /\ (c = cQ \/ c = cAMP)).
    { inversion H as [t' z' v H'|t' z' p' H']; subst.
      - destruct (quote_form _ _ _ _ H') as (r & ->). eauto.
      - destruct (entity_form _ _ H') as (r & -> & _). eauto. }
    destruct S as (c & r & Et & Hc).
    split. { rewrite Et. destruct Hc as [-> | ->]; reflexivity. }
    exists [], w. split; auto. rewrite app_nil_r. intros s N E.
    destruct (lex_piece LXmq s pre t (w ++ y) p N E H) as (s' & k & Es & A & Hk).
    exists 0%nat, s', [(k, t)]. split; [|split; [exact A|split; [cbn; now rewrite app_nil_r|]]].
    + intros f _. unfold item. assert (R : s_rest s = c :: r ++ w ++ y) by (now rewrite E, Et).
      rewrite !(peek_is_rest _ _ _ _ R) in Es. rewrite R. destruct Hc as [-> | ->]; exact Es.
    + intros aft b b' Hb. 
      assert (X : buildS root pre [(k, t)] aft b = add_top p b).
      { destruct Hk as [(_ & -> & v & -> & Hv)|(_ & _ & -> & He)].
        - eapply build_quote_top; eauto. now left.
        - apply build_entity_top; auto. now left. }
      rewrite X. destruct Hb as [f st la Ho Hr]. destruct f; [| |contradiction]; reflexivity.
  - (* a comment *)
    assert (S : exists c r, t = cSLASH :: c :: r /\ (c = cSLASH \/ c = cSTAR)).
    { inversion H as [n b z Hn _ _ _|n t' z v' Hn HB]; subst.
      - destruct n as [|[|n]]; try lia. eexists _, _. split; [reflexivity|auto].
      - inversion HB; subst; (destruct n as [|[|n]]; [lia| |]); eexists _, _; (split; [reflexivity|auto]). }
    destruct S as (c & r & Et & Hc).
    assert (Hs : forall q, (cSLASH =? cSLASH) || (cSLASH =? cLP) = true /\ is_comment_start cSLASH (hd 0 (c :: q)) = true).
    { intros q. split; auto. cbn [hd]. destruct Hc as [-> | ->]; reflexivity. }
    split. { rewrite Et. destruct Hc as [-> | ->]; reflexivity. }
    exists [], w. split; auto. rewrite app_nil_r.
    eapply reads_weaken; [|intros b b' Hb; destruct Hb as [f st la Ho Hr]; exact (comment_add v f st la Ho)].
    eapply reads_ext; [|apply (reads_S root parse_comment); apply read_comment; exact H].
    exists 0%nat. intros f s _ N E. unfold item. rewrite E, Et. destruct Hc as [-> | ->]; reflexivity.
  - (* an element without value *)
    destruct (head_first _ _ _ _ _ H) as (c & r & Et & Hc).
    split. { rewrite Et. now apply node_start_element. }
    exists w, []. split; auto. cbn [app].
    eapply reads_ext with (G := fun f s => parse_element (S f) (parse_xmq f) EElement s).
    { exists 0%nat. intros f s _ N E. apply (item_element f s c ((r ++ w) ++ y)); auto. now rewrite E, Et. }
    eapply reads_weaken.
    + replace (t ++ w) with ((t ++ w) ++ []) by apply app_nil_r.
      apply reads_seq with (F := fun f => elem_front EElement (S f)) (H := fun f => elem_tail (parse_xmq f) (S f)).
      * intros f s. apply parse_element_eq.
      * apply (reads_S root (elem_front EElement)). eapply read_head; eauto. 
        cbn [app]. intros (d & q & -> & Hd). apply Hy. exists d, q. split; auto. unfold one_of. cbn [existsb]. unfold is in Hd. now rewrite Hd.
      * eapply reads_ext; [|apply reads_nothing]. exists 0%nat. intros f s _ N E. unfold elem_tail. cbn [app] in E.
        rewrite (peek_no cEQ s y), (peek_no cLB s y); auto; try discriminate.
        -- intros (d & q & -> & Hd). apply Hy. exists d, q. split; auto. unfold one_of. cbn [existsb]. unfold is in Hd. rewrite Hd. now rewrite !orb_true_r.
        -- intros (d & q & -> & Hd). apply Hy. exists d, q. split; auto. unfold one_of. cbn [existsb]. unfold is in Hd. rewrite Hd. now rewrite !orb_true_r.
    + intros b b' [f st la Ho Hr]. eexists. split; [|reflexivity]. cbn [add1 last_after]. now apply elem_add.
  - (* an element with a value *)
    destruct (head_first _ _ _ _ _ H) as (c & r & Et & Hc).
    destruct (assigned_parts _ _ _ _ Ha) as (w1 & w2 & q & Ev & G1 & G2 & Hv). subst v.
    split. { rewrite Et. now apply node_start_element. }
    exists [], w. split; auto. rewrite app_nil_r.
    eapply reads_ext with (G := fun f s => parse_element (S f) (parse_xmq f) EElement s).
    { exists 0%nat. intros f s _ N E. rewrite Et in E. eapply item_element; [|exact Hc]. exact E. }
    eapply reads_weaken.
    + replace (t ++ w1 ++ [cEQ] ++ w2 ++ q) with ((t ++ w1) ++ [cEQ] ++ w2 ++ q) by now rewrite <- !app_assoc.
      apply reads_seq with (F := fun f => elem_front EElement (S f)) (H := fun f => elem_tail (parse_xmq f) (S f)).
      * intros f s. apply parse_element_eq.
      * apply (reads_S root (elem_front EElement)). apply read_head with (n := n) (l := l).
        -- rewrite <- !app_assoc. rewrite <- !app_assoc in H. exact H.
        -- rewrite <- !app_assoc. exact G1.
        -- rewrite <- !app_assoc. now apply not_starts.
      * apply read_tail_value; [exact G2|]. rewrite <- !app_assoc in Hv. rewrite <- !app_assoc. apply read_value; [now left|exact Hv].
    + intros b b' [f st la Ho Hr]. eexists. split; [now apply elem_add|]. cbn [add1 last_after]. now apply fill_elem.
  - (* a processing instruction *)
    assert (Hs : forall q, n ++ w1 ++ [cEQ] ++ w2 ++ v ++ q <> []).
    { intros q X. apply app_eq_nil in X. destruct X as [_ X]. apply app_eq_nil in X. destruct X as [_ X]. discriminate. }
    assert (HP : forall q, node_start ([cQM] ++ n ++ w1 ++ [cEQ] ++ w2 ++ v ++ q) = true /\
       forall f s, s_rest s = [cQM] ++ n ++ w1 ++ [cEQ] ++ w2 ++ v ++ q -> item f s = parse_element (S f) (parse_xmq f) EPi s).
    { intros q. specialize (Hs q). change ([cQM] ++ n ++ w1 ++ [cEQ] ++ w2 ++ v ++ q) with (cQM :: (n ++ w1 ++ [cEQ] ++ w2 ++ v ++ q)).
      revert Hs. generalize (n ++ w1 ++ [cEQ] ++ w2 ++ v ++ q). intros m Hm. destruct m as [|d m]; [congruence|]. split.
      - reflexivity.
      - intros f s Es. unfold item. rewrite Es. reflexivity. }
    split. { rewrite <- !app_assoc. apply HP. }
    exists [], w. split; auto. rewrite app_nil_r.
    eapply reads_ext with (G := fun f s => parse_element (S f) (parse_xmq f) EPi s).
    { exists 0%nat. intros f s _ N E. destruct (HP (w ++ y)) as (_ & X). apply X. rewrite E, <- !app_assoc. reflexivity. }
    assert (RV : reads root (fun f => value_body f LElem) (pre ++ (cQM :: n) ++ w1 ++ [cEQ] ++ w2) v (w ++ y)
              (fun b b' => exists f st la, open f /\ b = BS (f :: st) la (Some n) false /\
                 b' = BS (with_kids f (PI n (pad_quotes x) :: kids f) :: st) (keep_last la) None false)).
    { inversion Hv as [t' z' Hb|t' z' v' Hq]; subst.
      - eapply reads_weaken; [apply (read_bare root LElem); [now left|exact Hb]|].
        intros b b' (f & st & la & Ho & -> & ->). cbn [text_effect]. unfold element_value_text. cbn [b_pi b_last].
        rewrite pad_spec, c_str_plain by (apply pad_nul; apply Hb). destruct f; [| |contradiction]; reflexivity.
      - eapply reads_weaken; [eapply (read_quote_value root LElem); [now left|]; exact Hq|].
        intros b b' (f & st & la & Ho & -> & ->). cbn [quote_effect]. unfold element_value_quote. cbn [b_pi b_last].
        destruct x as [|c r]; [congruence|]. rewrite pad_spec. destruct f; [| |contradiction]; reflexivity. }
    eapply reads_weaken.
    + apply (read_marked root pre EPi cQM n w1 w2 v (w ++ y)); auto. exact RV.
    + intros b b' [f st la Ho Hr]. eexists. split; [reflexivity|]. exists f, st, la. auto.
  - (* a doctype *)
    assert (HP : forall q, node_start (B "!DOCTYPE" ++ w1 ++ [cEQ] ++ w2 ++ v ++ w ++ q) = true /\
       forall f s, s_rest s = B "!DOCTYPE" ++ w1 ++ [cEQ] ++ w2 ++ v ++ w ++ q -> item f s = parse_element (S f) (parse_xmq f) EDoctype s).
    { intros q. destruct (gap_first _ _ G1) as [-> |(c & r & -> & Hc)].
      - split; [reflexivity|]. intros f s Es. unfold item. rewrite Es. reflexivity.
      - unfold is_xmq_token_whitespace in Hc. rewrite !orb_true_iff, !N.eqb_eq in Hc.
        destruct Hc as [[-> | ->]| ->]; (split; [reflexivity|]; intros f s Es; unfold item; rewrite Es; reflexivity). }
    split. { rewrite <- !app_assoc. apply HP. }
    exists [], w. split; auto. rewrite app_nil_r.
    eapply reads_ext with (G := fun f s => parse_element (S f) (parse_xmq f) EDoctype s).
    { exists 0%nat. intros f s _ N E. destruct (HP y) as (_ & X). apply X. rewrite E, <- !app_assoc. reflexivity. }
    assert (RV : reads root (fun f => value_body f LElem) (pre ++ (cBANG :: B "DOCTYPE") ++ w1 ++ [cEQ] ++ w2) v (w ++ y)
              (fun b b' => exists f st la, open f /\ b = BS (f :: st) la None true /\
                 b' = BS (with_kids f (Doctype v :: kids f) :: st) (keep_last la) None false)).
    { eapply reads_weaken; [apply (read_bare root LElem); [now left|exact Hv]|].
      intros b b' (f & st & la & Ho & -> & ->). cbn [text_effect]. unfold element_value_text. cbn [b_pi b_last b_doctype].
      rewrite c_str_plain by apply Hv. destruct f; [| |contradiction]; reflexivity. }
    eapply reads_weaken.
    + apply (read_marked root pre EDoctype cBANG (B "DOCTYPE") w1 w2 v (w ++ y)); auto. exact RV.
    + intros b b' [f st la Ho Hr]. eexists. split; [reflexivity|]. exists f, st, la. auto.
Qed.

(* ---------- documents ---------- *)

Lemma ready_after root x la : ready root la -> ready root (last_after x la).
Proof. intros [H|H]; [now left|right]. destruct x; cbn; try discriminate; destruct la; cbn; congruence. Qed.
Lemma open_with f k : open f -> open (with_kids f k).
Proof. destruct f; auto. Qed.
Lemma kids_with f k : open f -> kids (with_kids f k) = k.
Proof. destruct f; [| |contradiction]; reflexivity. Qed.
Lemma with_with f k k' : with_kids (with_kids f k) k' = with_kids f k'.
Proof. destruct f; reflexivity. Qed.

Lemma nodes_cons root x ks b b' : nodes_added root (x :: ks) b b' ->
  exists b1, node_added root x b b1 /\ nodes_added root ks b1 b'.
Proof.
  intros [f r la Ho Hr]. eexists. split; [now apply node_add|].
  change (adds (x :: ks) (kids f)) with (adds ks (add1 (kids f) x)). cbn [fold_left].
  rewrite <- (with_with f (add1 (kids f) x) (adds ks (add1 (kids f) x))).
  rewrite <- (kids_with f (add1 (kids f) x)) at 3 by auto.
  apply nodes_add; [now apply open_with|now apply ready_after].
Qed.

(** One node, white space, and the remaining nodes. *)
Lemma read_more root pre t u w w' t2 z x ks :
  (u = [] /\ w' = w \/ u = w /\ w' = []) -> gap w (t2 ++ z) -> node_start (t ++ w ++ t2 ++ z) = true ->
  reads root item pre (t ++ u) (w' ++ t2 ++ z) (node_added root x) ->
  reads root parse_xmq (pre ++ t ++ w) t2 z (nodes_added root ks) ->
  reads root parse_xmq pre (t ++ w ++ t2) z (nodes_added root (x :: ks)).
Proof.
  intros Hu G Hs RI RK s N E.
  assert (E' : s_rest s = (t ++ u) ++ w' ++ t2 ++ z).
  { rewrite E. destruct Hu as [(-> & ->)|(-> & ->)]; now rewrite ?app_nil_r, <- !app_assoc. }
  destruct (RI s N E') as (k1 & s1 & sh1 & E1 & A1 & C1 & B1).
  assert (G' : gap w' (t2 ++ z)). { destruct Hu as [(-> & ->)|(-> & ->)]; auto. apply gap_nil. apply G. }
  destruct (xmq_ws s1 w' (t2 ++ z) (ate_rest _ _ _ _ _ A1 E') G') as (d & s2 & A2 & E2).
  assert (R2 : s_rest s2 = t2 ++ z) by (eapply ate_rest; [exact A2|]; eapply ate_rest; eauto).
  assert (N2 : nul_after s2) by (eapply ate_nul; [exact A2|]; eapply ate_nul; eauto).
  destruct (RK s2 N2 R2) as (k3 & s3 & sh3 & E3 & A3 & C3 & B3).
  assert (T : t ++ w ++ t2 = (t ++ u) ++ w' ++ t2).
  { destruct Hu as [(-> & ->)|(-> & ->)]; now rewrite ?app_nil_r, <- ?app_assoc. }
  exists (S (k1 + d + k3)), s3, (sh1 ++ wsh w' ++ sh3). split; [|split; [|split]].
  - intros f Hf. destruct f as [|f]; [lia|]. rewrite item_step.
    + rewrite E1 by lia. cbn [pbind]. replace f with (d + (f - d))%nat by lia. rewrite E2. apply E3. lia.
    + rewrite E, <- !app_assoc. exact Hs.
  - rewrite T. eapply ate_trans; [exact A1|]. eapply ate_trans; eauto.
  - rewrite !map_app, !concat_app, wsh_text, C1, C3. now rewrite T.
  - intros aft b b' Hb. destruct (nodes_cons _ _ _ _ _ Hb) as (b1 & Hb1 & Hb2).
    rewrite buildS_app, (B1 _ _ _ Hb1). cbn [bbind].
    rewrite buildS_app, buildS_wsh. cbn [bbind]. rewrite C1, wsh_text.
    replace ((pre ++ t ++ u) ++ w') with (pre ++ t ++ w).
    + now apply B3.
    + destruct Hu as [(-> & ->)|(-> & ->)]; now rewrite ?app_nil_r, <- ?app_assoc.
Qed.

Lemma read_spaced root pre w t z ks : gap w (t ++ z) -> reads root parse_xmq (pre ++ w) t z (nodes_added root ks) ->
  reads root parse_xmq pre (w ++ t) z (nodes_added root ks).
Proof.
  intros G RK s N E. rewrite <- app_assoc in E.
  destruct (xmq_ws s w (t ++ z) E G) as (d & s1 & A1 & E1).
  destruct (RK s1 (ate_nul _ _ _ _ A1 N) (ate_rest _ _ _ _ _ A1 E)) as (k & s2 & sh & E2 & A2 & C2 & B2).
  exists (d + k)%nat, s2, (wsh w ++ sh). split; [|split; [|split]].
  - intros f Hf. replace f with (d + (f - d))%nat by lia. rewrite E1. apply E2. lia.
  - eapply ate_trans; eauto.
  - rewrite map_app, concat_app, wsh_text. congruence.
  - intros aft b b' Hb. rewrite buildS_app, buildS_wsh. cbn [bbind]. rewrite wsh_text. now apply B2.
Qed.

Lemma brace_effect root n l kb b b' : node_added root (Elem n l (merge_nodes kb)) b b' -> exists b0 b1 b2,
  elem_added root n l b b0 /\ push_last b0 = BOk b1 /\ nodes_added root kb b1 b2 /\ pop b2 = BOk b'.
Proof.
  intros [f r la Ho Hr]. eexists. destruct f as [k|m a k|]; [| |contradiction].
  - eexists _, _. split; [now apply elem_add|]. split; [reflexivity|]. split; [apply nodes_add; [exact I|now right]|].
    cbn. now rewrite rev_involutive, adds_nil.
  - eexists _, _. split; [now apply elem_add|]. split; [reflexivity|]. split; [apply nodes_add; [exact I|now right]|].
    cbn. now rewrite rev_involutive, adds_nil.
Qed.

Lemma read_solids root pre t z ks : solids pre t z ks -> reads root parse_xmq pre t z (nodes_added root ks).
Proof.
  intros H. induction H as [pre z Hz|pre t w t2 z x ks Hf G _ IH|pre h n l w1 w2 b w t2 z kb ks Hh G1 G2 _ IHb G _ IH].
  - intros s N E. exists 1%nat, s, []. split; [|split; [apply ate_nil|split; [reflexivity|]]].
    + intros f Hf. destruct f as [|f]; [lia|]. cbn [app] in E. cbn [parse_xmq]. rewrite E.
      destruct Hz as [-> |(c & r & -> & Hc)]; [reflexivity|]. unfold is in Hc. apply N.eqb_eq in Hc. subst c. now destruct r.
    + intros aft b b' [f r la Ho Hr]. cbn. unfold adds. cbn. destruct f; [| |contradiction]; reflexivity.
  - destruct (read_flat root pre t w (t2 ++ z) x Hf G) as (Hs & u & w' & Hu & RI).
    eapply read_more; eauto.
  - destruct (head_first _ _ _ _ _ Hh) as (c & r & Et & Hc).
    replace (h ++ w1 ++ [cLB] ++ w2 ++ b ++ [cRB] ++ w ++ t2) with ((h ++ w1 ++ [cLB] ++ w2 ++ b ++ [cRB]) ++ w ++ t2)
      by (now rewrite <- !app_assoc).
    apply (read_more root pre _ [] w w t2 z); auto.
    { rewrite Et. now apply node_start_element. }
    2:{ rewrite <- !app_assoc. exact IH. }
    rewrite app_nil_r.
    eapply reads_ext with (G := fun f s => parse_element (S f) (parse_xmq f) EElement s).
    { exists 0%nat. intros f s _ N E. rewrite Et in E. eapply item_element; [|exact Hc]. exact E. }
    eapply reads_weaken.
    + replace (h ++ w1 ++ [cLB] ++ w2 ++ b ++ [cRB]) with ((h ++ w1) ++ [cLB] ++ (w2 ++ b) ++ [cRB]) by now rewrite <- !app_assoc.
      apply reads_seq with (F := fun f => elem_front EElement (S f)) (H := fun f => elem_tail (parse_xmq f) (S f)).
      * intros f s. apply parse_element_eq.
      * apply (reads_S root (elem_front EElement)). apply read_head with (n := n) (l := l).
        -- rewrite <- !app_assoc. exact Hh.
        -- rewrite <- !app_assoc. exact G1.
        -- now apply not_starts.
      * eapply reads_ext with (G := fun f s => (fun f s => s <- parse_xmq f (single Kbrace_left cLB s) ;
            s <- skip_space s ; if negb (peek_is cRB s) then PErr E_BODY_NOT_CLOSED s else POk (single Kbrace_right cRB s)) f (set_body (Some (here s)) s)).
        { exists 0%nat. intros f s _ N E. unfold elem_tail.
          rewrite !(peek_is_rest s cLB (((w2 ++ b) ++ [cRB]) ++ w ++ t2 ++ z)) by exact E. reflexivity. }
        apply (reads_mark root (fun f s => s <- parse_xmq f (single Kbrace_left cLB s) ;
            s <- skip_space s ; if negb (peek_is cRB s) then PErr E_BODY_NOT_CLOSED s else POk (single Kbrace_right cRB s)) (fun s => set_body (Some (here s)) s)).
        { intros s. apply same_set_body. }
        apply reads_seq with (F := fun _ s => POk (single Kbrace_left cLB s))
          (H := fun f s => s <- parse_xmq f s ; s <- skip_space s ; if negb (peek_is cRB s) then PErr E_BODY_NOT_CLOSED s else POk (single Kbrace_right cRB s));
          [reflexivity|apply reads_single|].
        apply reads_seq with (F := parse_xmq)
          (H := fun f s => s <- skip_space s ; if negb (peek_is cRB s) then PErr E_BODY_NOT_CLOSED s else POk (single Kbrace_right cRB s)); [reflexivity| |].
        -- apply read_spaced; [rewrite <- ?app_assoc; exact G2|]. rewrite <- !app_assoc. exact IHb.
        -- change [cRB] with ([] ++ [cRB]).
           apply reads_seq with (F := fun _ => skip_space)
             (H := fun _ s => if negb (peek_is cRB s) then PErr E_BODY_NOT_CLOSED s else POk (single Kbrace_right cRB s)); [reflexivity| |].
           ++ apply reads_skip. apply gap_nil. apply solid_ascii; reflexivity.
           ++ eapply reads_ext; [|apply reads_single]. exists 0%nat. intros f s _ N E.
              rewrite (peek_is_rest s cRB (w ++ t2 ++ z)) by exact E. reflexivity.
    + intros b0 b' Hb. destruct (brace_effect _ _ _ _ _ _ Hb) as (b1 & b2 & b3 & P1 & P2 & P3 & P4).
      exists b1. split; [exact P1|]. exists b2. split; [exact P2|]. exists b3. split; [exact P3|]. exists b3. split; [reflexivity|exact P4].
Qed.

(** The whole source. *)
Lemma denotes_read src d aft : denotes src d ->
  exists s b, tokenize (enough src) src (0 :: aft) = POk s
  /\ build None (tokens s) (s_rest s ++ s_aft s) (BS [FDoc []] LastNone None false) = BOk b
  /\ close_all (b_stack b) = Some d.
Proof.
  intros (w & t & ks & -> & G & Hs & ->).
  assert (RS : reads None parse_xmq [] (w ++ t) [] (nodes_added None ks)).
  { apply read_spaced; [now rewrite app_nil_r|]. now apply read_solids. }
  set (src := w ++ t) in *.
  assert (E0 : s_rest (init src (0 :: aft)) = src ++ []) by (cbn; now rewrite app_nil_r).
  destruct (RS (init src (0 :: aft)) eq_refl E0) as (k & s & sh & E & A & C & Bd).
  assert (R : s_rest s = []) by (apply (ate_rest _ _ _ _ _ A E0)).
  assert (T0 : forall f, (k <= f)%nat -> tokenize f src (0 :: aft) = POk s).
  { intros f Hf. unfold tokenize. rewrite E by auto. cbn [pbind]. now rewrite R. }
  assert (T : tokenize (enough src) src (0 :: aft) = POk s).
  { destruct (ParserMono.tokenize_term src (0 :: aft) eq_refl) as (_ & Sm).
    destruct (Sm (S (List.length src) + k)%nat ltac:(lia)) as [Eq|[_ Eq]].
    - rewrite Eq. apply T0. lia.
    - rewrite T0 in Eq by lia. now destruct Eq. }
  exists s. eexists. split; [exact T|].
  assert (P : placed (tokens s)).
  { pose proof (tokenize_good (enough src) src (0 :: aft) (init_inv _ _)) as Gd. rewrite T in Gd. destruct Gd as (I & _).
    apply (inv_placed _ I). }
  rewrite (build_shapes None (tokens s) [] _ _ P).
  destruct (a_toks _ _ _ _ A) as (U & HU & HS). cbn [init s_toks] in HU. rewrite app_nil_r in HU.
  unfold tokens. rewrite HU, rev_involutive, HS. cbn [texts map List.concat].
  rewrite (Bd _ _ (BS [FDoc (adds ks [])] (fold_left (fun l x => last_after x l) ks LastNone) None false)).
  - split; [reflexivity|]. cbn. now rewrite adds_nil.
  - apply (nodes_add None ks (FDoc []) []); [exact I|now left].
Qed.
Lemma denotes_parses src d aft : denotes src d -> detect_content_type src (0 :: aft) = DOk CXMQ ->
  parse_buffer (enough src) None src (0 :: aft) = Document d.
Proof.
  intros H D. destruct (denotes_read src d aft H) as (s & b & T & Bd & Cl).
  unfold parse_buffer. now rewrite D, T, Bd, Cl.
Qed.
(** The meaning of a source is unique. *)
Lemma denotes_unique src d d' : denotes src d -> denotes src d' -> d = d'.
Proof.
  intros H H'. destruct (denotes_read src d [] H) as (s & b & T & Bd & Cl).
  destruct (denotes_read src d' [] H') as (s' & b' & T' & Bd' & Cl'). congruence.
Qed.
