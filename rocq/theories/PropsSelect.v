(** Property C69: delete and select with an xpath. *)
From Coq Require Import NArith ZArith List Bool Arith Lia String.
From Verif Require Import Bytes BytesFacts Outcome Dom PropsClines Select SelectSpec.
Import ListNotations.
Local Open Scope list_scope.

Lemma path_eqb_eq p q : path_eqb p q = true <-> p = q.
Proof.
  revert q. induction p as [|i p IH]; intros q; destruct q as [|j q]; cbn; try (split; [discriminate|discriminate]); [tauto|].
  rewrite andb_true_iff, Nat.eqb_eq, IH. split; [intros (-> & ->); reflexivity|intros E; injection E; auto].
Qed.
Lemma is_prefix_below p q : is_prefix p q = true <-> below p q.
Proof.
  revert q. induction p as [|i p IH]; intros q; cbn.
  - split; [intros _; now exists q|reflexivity].
  - destruct q as [|j q]; [split; [discriminate|intros (r & H); discriminate H]|]. rewrite andb_true_iff, Nat.eqb_eq, IH. split.
    + intros (-> & r & ->). now exists r.
    + intros (r & H). injection H as -> ->. split; [reflexivity|now exists r].
Qed.
Lemma node_freed_in sel p : node_freed sel p = true <-> In (AtNode p) sel.
Proof.
  unfold node_freed. rewrite existsb_exists. split.
  - intros ([q|q k] & H & E); [|discriminate E]. apply path_eqb_eq in E as ->. exact H.
  - intros H. exists (AtNode p). split; [exact H|]. now apply path_eqb_eq.
Qed.
Lemma attr_freed_in sel p k : attr_freed sel p k = true <-> In (AtAttr p k) sel.
Proof.
  unfold attr_freed. rewrite existsb_exists. split.
  - intros ([q|q j] & H & E); [discriminate E|]. apply andb_true_iff in E as (E & E2). apply path_eqb_eq in E as ->. apply Nat.eqb_eq in E2 as ->. exact H.
  - intros H. exists (AtAttr p k). split; [exact H|]. rewrite Nat.eqb_refl, andb_true_r. now apply path_eqb_eq.
Qed.
Lemma gone_in sel p : gone sel p = true <-> exists q, In (AtNode q) sel /\ below q p.
Proof.
  unfold gone. rewrite existsb_exists. split.
  - intros ([q|q j] & H & E); [|discriminate E]. apply is_prefix_below in E. eauto.
  - intros (q & H & E). exists (AtNode q). split; [exact H|]. now apply is_prefix_below.
Qed.

Lemma remain_go freed p n ats kids : remain freed p (Elem n ats kids) = Elem n (remain_attrs freed p 0 ats) (remain_list freed p 0 kids).
Proof.
  cbn [remain]. f_equal. generalize 0. induction kids as [|y kids IH]; intros i; [reflexivity|]. cbn [remain_list]. now rewrite IH.
Qed.
Lemma outline_go p n ats kids : outline p (Elem n ats kids) = (p, Elem n ats kids) :: outlines p 0 kids.
Proof.
  cbn [outline]. f_equal. generalize 0. induction kids as [|y kids IH]; intros i; [reflexivity|]. cbn [outlines]. now rewrite IH.
Qed.
Lemma attrs_ok freed p ats : forall k, attrs_left freed p k ats (remain_attrs freed p k ats).
Proof.
  induction ats as [|a ats IH]; intros k; [constructor|]. cbn [remain_attrs]. destruct (attr_freed freed p k) eqn:E.
  - apply a_gone; [now apply attr_freed_in|apply IH].
  - apply a_left; [|apply IH]. intros X. apply attr_freed_in in X. congruence.
Qed.
Lemma below_refl p : below p p.
Proof. exists []. now rewrite app_nil_r. Qed.
Lemma below_app p r : below p (p ++ r).
Proof. now exists r. Qed.
Lemma below_trans p q r : below p q -> below q r -> below p r.
Proof. intros (a & ->) (b & ->). exists (a ++ b). now rewrite app_assoc. Qed.
Lemma below_snoc q p i : below q (p ++ [i]) -> q = p ++ [i] \/ below q p.
Proof.
  intros (r & H). destruct r as [|j r] using rev_ind; [left; now rewrite app_nil_r in H|]. right. rewrite app_assoc in H. apply app_inj_tail in H as (H & _). now exists r.
Qed.
Lemma kept_app sel l m l' m' : kept sel l m -> kept sel l' m' -> kept sel (l ++ l') (m ++ m').
Proof. induction 1 as [|p q x l m Hi Hb H IH|p x y l m Hn Hl H IH]; intros H'; [exact H'| |]; cbn [app]; [eapply k_gone; eauto|apply k_left; auto]. Qed.
Lemma all_below x : forall p q y, In (q, y) (outline p x) -> below p q.
Proof.
  induction x as [n ats kids IH|pt|t|n t|t] using node_ind2; intros p q y H; try (destruct H as [H|[]]; injection H as <- _; apply below_refl).
  rewrite outline_go in H. destruct H as [H|H]; [injection H as <- _; apply below_refl|]. revert H. generalize 0. induction IH as [|z kids Hz _ IHk]; intros i H; [destruct H|].
  cbn [outlines] in H. apply in_app_or in H as [H|H]; [|now apply IHk in H]. apply Hz in H. eapply below_trans; [apply below_app|exact H].
Qed.
Lemma all_gone sel q l : In (AtNode q) sel -> (forall p y, In (p, y) l -> below q p) -> kept sel l [].
Proof.
  intros Hq. induction l as [|(p & y) l IH]; intros H; [constructor|]. apply (k_gone _ p q); [exact Hq|apply (H p y); now left|]. apply IH. intros p' y' H'. apply (H p' y'). now right.
Qed.
Definition stays (sel : list place) (p : path) : Prop := forall q, In (AtNode q) sel -> ~ below q p.
Lemma remain_kept sel x : forall p, stays sel p -> kept sel (outline p x) (listing (List.length p) (remain sel p x)).
Proof.
  induction x as [n ats kids IH|pt|t|n t|t] using node_ind2; intros p Hp; try (apply k_left; [exact Hp|reflexivity|constructor]).
  rewrite remain_go, outline_go. cbn [listing alone]. apply k_left; [exact Hp|eexists; split; [apply attrs_ok|reflexivity]|].
  generalize 0. induction IH as [|z kids Hz _ IHk]; intros i; [constructor|]. cbn [outlines remain_list]. destruct (node_freed sel (p ++ [i])) eqn:E.
  - apply node_freed_in in E. change (flat_map (listing (S (List.length p))) (remain_list sel p (S i) kids)) with ([] ++ flat_map (listing (S (List.length p))) (remain_list sel p (S i) kids)).
    apply kept_app; [|apply IHk]. eapply all_gone; [exact E|]. intros q y. apply all_below.
  - cbn [flat_map]. apply kept_app; [|apply IHk]. replace (S (List.length p)) with (List.length (p ++ [i])) by (rewrite app_length; cbn; lia). apply Hz.
    intros q Hq Hb. apply below_snoc in Hb as [->|Hb]; [apply node_freed_in in Hq; congruence|now apply (Hp q)].
Qed.
Lemma remain_list_kept sel p : stays sel p -> forall l i, kept sel (outlines p i l) (flat_map (listing (S (List.length p))) (remain_list sel p i l)).
Proof.
  intros Hp. induction l as [|z l IHk]; intros i; [constructor|]. cbn [outlines remain_list]. destruct (node_freed sel (p ++ [i])) eqn:E.
  - apply node_freed_in in E. change (flat_map (listing (S (List.length p))) (remain_list sel p (S i) l)) with ([] ++ flat_map (listing (S (List.length p))) (remain_list sel p (S i) l)).
    apply kept_app; [|apply IHk]. eapply all_gone; [exact E|]. intros q y. apply all_below.
  - cbn [flat_map]. apply kept_app; [|apply IHk]. replace (S (List.length p)) with (List.length (p ++ [i])) by (rewrite app_length; cbn; lia). apply remain_kept.
    intros q Hq Hb. apply below_snoc in Hb as [->|Hb]; [apply node_freed_in in Hq; congruence|now apply (Hp q)].
Qed.
Lemma kept_iff sel sel' l m : (forall f, In f sel <-> In f sel') -> kept sel l m -> kept sel' l m.
Proof.
  intros E. assert (A : forall p k a b, attrs_left sel p k a b -> attrs_left sel' p k a b).
  { induction 1; [constructor|apply a_gone; [now apply E|assumption]|apply a_left; [rewrite <- E; assumption|assumption]]. }
  induction 1 as [|p q x l m Hi Hb H IH|p x y l m Hn Hl H IH]; [constructor|apply (k_gone _ p q); [now apply E|assumption..]|apply k_left; [intros q Hq; apply Hn; now apply E| |assumption]].
  destruct x; cbn in *; auto. destruct Hl as (ats' & Hl & ->). eauto.
Qed.

Lemma alive_ok freed f : (forall g, In g freed -> ~ inside f g) -> alive freed f = true.
Proof.
  intros H. assert (G : gone freed (path_of f) = false).
  { destruct (gone freed (path_of f)) eqn:E; [|reflexivity]. apply gone_in in E as (q & Hq & Hb). exfalso. apply (H _ Hq). right. now exists q. }
  destruct f as [p|p k]; cbn [alive path_of] in *; rewrite G; [reflexivity|]. cbn [negb andb]. destruct (attr_freed freed p k) eqn:E; [|reflexivity]. apply attr_freed_in in E. exfalso. apply (H _ E). now left.
Qed.
Lemma ordered_snoc sel f : ordered (sel ++ [f]) -> ordered sel /\ forall g, In g sel -> ~ inside g f.
Proof.
  unfold ordered. induction sel as [|a sel IH]; intros H; [split; [constructor|intros g []]|]. cbn [app] in H. inversion H as [|? ? H1 H2]; subst. destruct (IH H2) as (A & B). rewrite Forall_forall in H1. split.
  - constructor; [|exact A]. apply Forall_forall. intros g Hg. apply H1. apply in_or_app. now left.
  - intros g [<-|Hg]; [apply H1; apply in_or_app; right; now left|now apply B].
Qed.
Lemma delete_all sel : forall freed, ordered sel -> ~ In (AtNode []) sel -> (forall f g, In f sel -> In g freed -> ~ inside f g) -> delete_loop freed (rev sel) = Ok (sel ++ freed).
Proof.
  induction sel as [|f sel IH] using rev_ind; intros freed Ho Hn Hf; [reflexivity|]. rewrite rev_unit. apply ordered_snoc in Ho as (Ho & Hl).
  cbn [delete_loop]. assert (A : alive freed f = true) by (apply alive_ok; intros g; apply Hf; apply in_or_app; right; now left). rewrite A.
  assert (E : delete_loop (f :: freed) (rev sel) = Ok ((sel ++ [f]) ++ freed)).
  { rewrite IH; [now rewrite <- app_assoc|exact Ho|intros X; apply Hn; apply in_or_app; now left|]. intros a g Ha [<-|Hg]; [now apply Hl|apply Hf; [apply in_or_app; now left|exact Hg]]. }
  destruct f as [[|i p]|p k]; [|exact E|exact E]. exfalso. apply Hn. apply in_or_app. right. now left.
Qed.
(** C69: what delete leaves are the nodes that are not in a selected node, with
    the attributes that are not selected, in their order and depth. *)
Theorem C69_delete_partial : forall d sel, ordered sel -> ~ In (AtNode []) sel ->
  exists d', delete_xpath d sel = Ok d' /\ kept sel (outlines [] 0 d) (flat_map (listing 1) d').
Proof.
  intros d sel Ho Hn. unfold delete_xpath. rewrite delete_all; auto. cbn [obind]. eexists. split; [reflexivity|]. rewrite app_nil_r.
  apply (remain_list_kept sel []). intros q Hq (r & H). symmetry in H. apply app_eq_nil in H as (-> & _). contradiction.
Qed.
Print Assumptions C69_delete_partial.

(** ** select *)
Lemma remain_attrs_all freed p ats : forall k, (forall j, ~ In (AtAttr p j) freed) -> remain_attrs freed p k ats = ats.
Proof. induction ats as [|a ats IH]; intros k H; [reflexivity|]. cbn [remain_attrs]. destruct (attr_freed freed p k) eqn:E; [apply attr_freed_in in E; now apply H in E|]. now rewrite IH. Qed.
Lemma remain_same freed x : forall p, (forall f, In f freed -> ~ below p (path_of f)) -> remain freed p x = x.
Proof.
  induction x as [n ats kids IH|pt|t|n t|t] using node_ind2; intros p H; try reflexivity. rewrite remain_go. f_equal.
  - apply remain_attrs_all. intros j X. apply (H _ X). apply below_refl.
  - generalize 0. induction IH as [|z kids Hz _ IHk]; intros i; [reflexivity|]. cbn [remain_list]. destruct (node_freed freed (p ++ [i])) eqn:E; [apply node_freed_in in E; exfalso; apply (H _ E); apply below_app|].
    rewrite Hz, IHk; [reflexivity|]. intros f Hf X. apply (H _ Hf). eapply below_trans; [apply below_app|exact X].
Qed.
Definition selectable (x : node) : Prop := match x with Elem _ _ _ | Part (PText _) => True | _ => False end.
(** The places of the nodes are paths of elements and texts. *)
Definition finds (d : list node) (p : path) (x : node) : Prop := at_path d p = Some x /\ selectable x.
Lemma climb_ok d p x : finds d p x -> climb d (AtNode p) = Some p.
Proof. intros (E & S). cbn [climb]. rewrite E. destruct x as [| [|] | | |]; try contradiction S; reflexivity. Qed.
Lemma select_all d ps xs : Forall2 (finds d) ps xs -> ForallOrdPairs (fun p q => ~ below p q /\ ~ below q p) ps ->
  forall freed acc, (forall p f, In p ps -> In f freed -> exists q, f = AtNode q /\ ~ below p q /\ ~ below q p) ->
  select_loop d freed acc (map AtNode ps) = Ok (acc ++ xs).
Proof.
  induction 1 as [|p x ps xs Hx H IH]; intros Ho freed acc Hf; [cbn; now rewrite app_nil_r|]. inversion Ho as [|? ? O1 O2]; subst. rewrite Forall_forall in O1.
  cbn [map select_loop]. assert (A : alive freed (AtNode p) = true).
  { apply alive_ok. intros g Hg [E|(q & E & Hb)]; destruct (Hf p g (or_introl eq_refl) Hg) as (q' & E' & N1 & N2).
    - rewrite E' in E. injection E as E. subst q'. apply N1, below_refl.
    - rewrite E' in E. injection E as E. subst q'. now apply N2. }
  rewrite A, (climb_ok d p x Hx). destruct Hx as (Hx & _). rewrite Hx. rewrite remain_same.
  - rewrite IH; [now rewrite <- app_assoc|exact O2|]. intros q f Hq [<-|Hg]; [exists p; split; [reflexivity|]; split; apply O1; exact Hq|]. apply Hf; [now right|exact Hg].
  - intros f Hg Hb. destruct (Hf p f (or_introl eq_refl) Hg) as (q' & -> & N1 & _). now apply N1.
Qed.
(** Nothing is in something else that is selected. *)
Definition apart (ps : list path) : Prop := ForallOrdPairs (fun p q => ~ below p q /\ ~ below q p) ps.
Lemma apart_rev ps : apart ps -> apart (rev ps).
Proof.
  unfold apart. induction 1 as [|p ps H _ IH]; [constructor|]. cbn [rev]. rewrite Forall_forall in H. assert (G : forall x, In x (rev ps) -> ~ below p x /\ ~ below x p) by (intros x Hx; apply in_rev in Hx; auto). clear H.
  induction (rev ps) as [|q l IHl]; [repeat constructor|]. inversion IH as [|? ? I1 I2]; subst. cbn [app]. constructor.
  - apply Forall_app. split; [exact I1|]. constructor; [|constructor]. destruct (G q (or_introl eq_refl)). auto.
  - apply IHl; [exact I2|]. intros x Hx. apply G. now right.
Qed.
Lemma Forall2_rev {A B : Type} (R : A -> B -> Prop) l m : Forall2 R l m -> Forall2 R (rev l) (rev m).
Proof. induction 1; [constructor|]. cbn [rev]. apply Forall2_app; [assumption|]. repeat constructor; assumption. Qed.
(** C69: select of elements and texts of which none is in another one gives
    these, whole and unchanged, but from the last to the first. *)
Theorem C69_select_partial : forall d ps xs, Forall2 (finds d) ps xs -> apart ps -> cmd_select d (map AtNode ps) = Ok (rev xs).
Proof.
  intros d ps xs H Ho. unfold cmd_select. rewrite <- map_rev. rewrite (select_all d (rev ps) (rev xs)); [reflexivity|now apply Forall2_rev|now apply apart_rev|]. intros p f _ [].
Qed.
Print Assumptions C69_select_partial.
(** C69: if some are in others, each is given without what is selected in it. *)
Definition others (sel : list place) (p : path) : list place := filter (fun f => match f with AtNode q => is_prefix p q && negb (path_eqb p q) | _ => false end) sel.
Lemma remain_others p x freed freed' : (forall q, below p q -> In (AtNode q) freed <-> In (AtNode q) freed') -> (forall q k, ~ In (AtAttr q k) freed) -> (forall q k, ~ In (AtAttr q k) freed') ->
  remain freed p x = remain freed' p x.
Proof.
  revert p. induction x as [n ats kids IH|pt|t|n t|t] using node_ind2; intros p H A A'; try reflexivity. rewrite !remain_go. rewrite !remain_attrs_all by auto. f_equal.
  generalize 0. induction IH as [|z kids Hz _ IHk]; intros i; [reflexivity|]. cbn [remain_list]. assert (E : node_freed freed (p ++ [i]) = node_freed freed' (p ++ [i])).
  { assert (X := H (p ++ [i]) (below_app p [i])). destruct (node_freed freed (p ++ [i])) eqn:E1, (node_freed freed' (p ++ [i])) eqn:E2; auto; exfalso.
    - apply node_freed_in in E1. apply X in E1. apply node_freed_in in E1. congruence.
    - apply node_freed_in in E2. apply X in E2. apply node_freed_in in E2. congruence. }
  rewrite E, IHk. rewrite (Hz (p ++ [i])); [reflexivity| |exact A|exact A']. intros q Hq. apply H. eapply below_trans; [apply below_app|exact Hq].
Qed.
Lemma others_in ps p q : In (AtNode q) (others (map AtNode ps) p) <-> In q ps /\ below p q /\ q <> p.
Proof.
  unfold others. rewrite filter_In, in_map_iff, andb_true_iff, is_prefix_below, negb_true_iff. split.
  - intros ((r & E & H) & Hb & Hn). injection E as ->. repeat split; auto. intros ->. assert (path_eqb p p = true) by now apply path_eqb_eq. congruence.
  - intros (H & Hb & Hn). split; [now exists q|]. split; [exact Hb|]. destruct (path_eqb p q) eqn:E; [apply path_eqb_eq in E; congruence|reflexivity].
Qed.
Theorem C69_select_nested_partial : forall d ps xs, Forall2 (finds d) ps xs -> ordered (map AtNode ps) ->
  exists ys, cmd_select d (map AtNode ps) = Ok (rev ys) /\
  Forall2 (fun p y => exists x, finds d p x /\ kept (others (map AtNode ps) p) (outline p x) (listing (List.length p) y)) ps ys.
Proof.
  intros d ps xs H Ho. unfold cmd_select.
  assert (G : forall ps1 xs1, Forall2 (finds d) ps1 xs1 -> ordered (map AtNode ps1) -> forall ps2, ordered (map AtNode (ps1 ++ ps2)) -> forall acc, exists ys,
    select_loop d (map AtNode ps2) acc (rev (map AtNode ps1)) = Ok (acc ++ rev ys) /\
    Forall2 (fun p y => exists x, finds d p x /\ kept (others (map AtNode (ps1 ++ ps2)) p) (outline p x) (listing (List.length p) y)) ps1 ys).
  { clear ps xs H Ho. induction ps1 as [|p ps1 IH] using rev_ind; intros xs1 H Ho ps2 Ho2 acc.
    - exists []. split; [cbn; now rewrite app_nil_r|constructor].
    - apply Forall2_app_inv_l in H as (xs0 & xl & H & Hl & ->). inversion Hl as [|? x ? ? Hx Hn]; subst. inversion Hn; subst. clear Hl Hn.
      rewrite map_app in Ho. cbn [map] in Ho. apply ordered_snoc in Ho as (Ho & _). rewrite map_app, rev_app_distr. cbn [map rev app select_loop].
      assert (O3 : forall g, In g ps2 -> ~ below g p).
      { intros g Hg Hb. rewrite <- app_assoc in Ho2. rewrite map_app in Ho2. cbn [map app] in Ho2. clear -Ho2 Hg Hb. induction (map AtNode ps1) as [|a l IHl]; cbn [app] in Ho2; inversion Ho2 as [|? ? F1 F2]; subst; [|now apply IHl].
        rewrite Forall_forall in F1. apply (F1 (AtNode g)); [now apply in_map|]. right. now exists g. }
      assert (A : alive (map AtNode ps2) (AtNode p) = true).
      { cbn [alive]. destruct (gone (map AtNode ps2) p) eqn:E; [|reflexivity]. apply gone_in in E as (q & Hq & Hb). apply in_map_iff in Hq as (q' & E & Hq). injection E as ->. exfalso. now apply (O3 q). }
      rewrite A, (climb_ok d p x Hx). destruct Hx as (Hx & Hs). rewrite Hx.
      destruct (IH xs0 H Ho (p :: ps2)) with (acc := acc ++ [remain (map AtNode ps2) p x]) as (ys & E & F); [now rewrite <- app_assoc in Ho2|].
      exists (ys ++ [remain (map AtNode ps2) p x]). split; [cbn [map] in E; rewrite E, rev_unit, <- app_assoc; reflexivity|].
      rewrite <- app_assoc. cbn [app]. apply Forall2_app; [exact F|]. constructor; [|constructor]. exists x. split; [split; assumption|].
      rewrite (remain_others p x _ (others (map AtNode (ps1 ++ p :: ps2)) p)).
      + apply remain_kept. intros q Hq Hb. apply others_in in Hq as (Hq & Hq2 & Hq3). destruct Hb as (r1 & E1), Hq2 as (r2 & E2). apply Hq3. subst q. rewrite <- app_assoc in E1. rewrite <- (app_nil_r p) in E1 at 1. apply app_inv_head in E1. symmetry in E1. apply app_eq_nil in E1 as (-> & _). apply app_nil_r.
      + intros q Hb. rewrite others_in, in_map_iff. split.
        * intros (q' & E' & Hq). injection E' as ->. split; [apply in_or_app; right; now right|]. split; [exact Hb|]. intros ->. apply (O3 p Hq). apply below_refl.
        * intros (Hq & _ & Hn). exists q. split; [reflexivity|]. apply in_app_or in Hq as [Hq|[Hq|Hq]]; [|now subst|exact Hq]. exfalso.
          rewrite <- app_assoc in Ho2. rewrite map_app in Ho2. cbn [map app] in Ho2. apply in_split in Hq as (a & b & ->). rewrite map_app, <- app_assoc in Ho2. cbn [map app] in Ho2. clear -Ho2 Hb. induction (map AtNode a) as [|z l IHl]; cbn [app] in Ho2; inversion Ho2 as [|? ? F1 F2]; subst; [|now apply IHl].
          rewrite Forall_forall in F1. apply (F1 (AtNode p)); [apply in_or_app; right; now left|]. right. now exists p.
      + intros q k X. apply in_map_iff in X as (? & X & _). discriminate X.
      + intros q k X. unfold others in X. apply filter_In in X as (_ & X). discriminate X. }
  destruct (G ps xs H Ho [] ltac:(now rewrite app_nil_r) []) as (ys & E & F). rewrite app_nil_r in F. exists ys. split; [exact E|exact F].
Qed.
Print Assumptions C69_select_nested_partial.

(** r(a(b "1") a "2") with an attribute k=1 l=2 on r *)
Definition sample : list node :=
  [Elem (B "r") [(B "k", [PText (B "1")]); (B "l", [PText (B "2")])] [Elem (B "a") [] [Elem (B "b") [] [Part (PText (B "1"))]]; Elem (B "a") [] [Part (PText (B "2"))]]].
Lemma not_below p q : is_prefix p q = false -> ~ below p q.
Proof. intros H X. apply is_prefix_below in X. congruence. Qed.
Example C69_ex : ordered [AtAttr [0] 1; AtNode [0; 0]; AtNode [0; 0; 0]] /\ ~ In (AtNode []) [AtAttr [0] 1; AtNode [0; 0]; AtNode [0; 0; 0]]
  /\ delete_xpath sample [AtAttr [0] 1; AtNode [0; 0]; AtNode [0; 0; 0]] = Ok [Elem (B "r") [(B "k", [PText (B "1")])] [Elem (B "a") [] [Part (PText (B "2"))]]]
  /\ Forall2 (finds sample) [[0; 0]; [0; 1]] [Elem (B "a") [] [Elem (B "b") [] [Part (PText (B "1"))]]; Elem (B "a") [] [Part (PText (B "2"))]]
  /\ apart [[0; 0]; [0; 1]].
Proof.
  split; [|split; [|split; [vm_compute; reflexivity|split]]].
  - repeat (constructor; [repeat (constructor; [intros [X|(q & X & Y)]; [discriminate X|injection X as <-; revert Y; apply not_below; reflexivity]|]); constructor|]). constructor.
  - intros [X|[X|[X|[]]]]; discriminate X.
  - repeat (constructor; [split; [reflexivity|exact I]|]). constructor.
  - constructor; [constructor; [split; apply not_below; reflexivity|constructor]|]. constructor; constructor.
Qed.
(** The selected nodes are reversed; *)
Theorem C69_order_refuted : cmd_select sample [AtNode [0; 0]; AtNode [0; 1]] = Ok [Elem (B "a") [] [Part (PText (B "2"))]; Elem (B "a") [] [Elem (B "b") [] [Part (PText (B "1"))]]].
Proof. vm_compute. reflexivity. Qed.
(** a node that is in another one is missing there; *)
Theorem C69_nested_refuted : cmd_select sample [AtNode [0; 0]; AtNode [0; 0; 0]] = Ok [Elem (B "b") [] [Part (PText (B "1"))]; Elem (B "a") [] []].
Proof. vm_compute. reflexivity. Qed.
(** two attributes of an element make select use the second one after it has been
    freed; *)
Theorem C69_two_attributes_refuted : forall d p j k, at_path d p <> None -> cmd_select d [AtAttr p j; AtAttr p k] = UB.
Proof.
  intros d p j k H. unfold cmd_select. cbn [rev app select_loop alive climb gone attr_freed existsb negb andb]. destruct (at_path d p) as [x|] eqn:E; [|congruence].
  cbn [gone existsb]. assert (P : is_prefix p p = true) by (apply is_prefix_below, below_refl). rewrite P. reflexivity.
Qed.
(** and something outside of the root, with something after it, makes it use
    NULL. *)
Theorem C69_outside_refuted : cmd_select [Comment (B "c"); Elem (B "r") [] []] [AtNode [0]; AtNode [1]] = UB.
Proof. vm_compute. reflexivity. Qed.
Print Assumptions C69_two_attributes_refuted.
