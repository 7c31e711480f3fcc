(** The written form of a document with namespaces means this document. *)
From Coq Require Import NArith ZArith List Bool Arith Lia String Permutation.
From Verif Require Import Bytes BytesFacts QuoteSpec Dom NsDom NsSpec Printer Grammar NsGrammar NsEffect Compact NsCompact NsCompactDoc.
Import ListNotations.
Local Open Scope N_scope.

Lemma resolves_one sc p u u' : resolves sc p u -> resolves sc p u' -> u = u'.
Proof. intros R. revert u'. induction R; intros u' R'; inversion R'; subst; auto; congruence. Qed.
Lemma resolves_perm a b p u u' : NoDup (map d_prefix a) -> Permutation a b -> resolves a p u -> resolves b p u' -> u = u'.
Proof.
  intros N P R R'. assert (D : In p (map d_prefix a) \/ ~ In p (map d_prefix a)).
  { destruct (in_dec (fun x y : option bytes => ltac:(decide equality; apply (list_eq_dec N.eq_dec)) : {x = y} + {x <> y}) p (map d_prefix a)); auto. }
  pose proof (Permutation_map d_prefix P) as PP. pose proof (Permutation_NoDup PP N) as N'. destruct D as [D|D].
  - apply in_map_iff in D as ([q w] & E & D). cbn in E. subst q. rewrite (resolves_one _ _ _ _ R (resolves_in a N p w D)).
    apply (Permutation_in _ P) in D. now rewrite (resolves_one _ _ _ _ R' (resolves_in b N' p w D)).
  - rewrite (resolves_one _ _ _ _ R (resolves_out a p D)). assert (D' : ~ In p (map d_prefix b)).
    { intros X. apply D. eapply Permutation_in; [apply Permutation_sym; exact PP|exact X]. }
    now rewrite (resolves_one _ _ _ _ R' (resolves_out b p D')).
Qed.
Lemma uri_perm a b p u u' : NoDup (map d_prefix a) -> Permutation a b -> uri_of a p u -> uri_of b p u' -> u = u'.
Proof.
  intros N P [(E & ->)|(E & R)] [(E' & ->)|(E' & R')]; auto; try congruence. eapply resolves_perm; eauto.
Qed.

Section compact.
Variable C : cfg.

Lemma declared_attrs l r : declared (map attr_item l ++ r) = declared r.
Proof. induction l; auto. Qed.
Lemma attributed_attrs l r : attributed (map attr_item l ++ r) = map (fun a => (va_prefix a, va_name a, va_value a)) l ++ attributed r.
Proof. induction l; cbn; auto. unfold attributed in IHl. now rewrite IHl. Qed.
Lemma attributed_decls ds : attributed (map decl_item ds) = [].
Proof. induction ds; auto. Qed.
Lemma vattrs_decls l ds : vattrs_ok C l ds -> decls_ok C ds.
Proof. induction l; cbn; auto. intros (_ & _ & H). auto. Qed.
Lemma declared_items l ds : vattrs_ok C l ds -> declared (items l ds) = ds.
Proof.
  intros H. apply vattrs_decls in H. unfold items. rewrite declared_attrs. clear l. induction ds as [|[p u] ds IH]; auto.
  destruct H as ((_ & w & E & _) & _ & H). cbn in E. subst u. cbn. unfold declared in IH. now rewrite IH.
Qed.
Lemma attributed_items l ds : attributed (items l ds) = map (fun a => (va_prefix a, va_name a, va_value a)) l.
Proof. unfold items. rewrite attributed_attrs, attributed_decls. apply app_nil_r. Qed.
Lemma no_empty_uri ds : decls_ok C ds -> ~ In (Decl None (Some [])) ds.
Proof.
  induction ds as [|d ds IH]; intros H; [intros []|]. destruct H as ((_ & u & E & (Hu & _)) & _ & H). intros [X|X]; [|now apply IH].
  subst d. cbn in E. injection E as <-. congruence.
Qed.

Definition right (x : vnode) : Prop := forall sc dflt, placed sc dflt x ->
  scoped (map d_prefix sc) dflt (wform x) /\
  forall sc' v, NoDup (map d_prefix sc) -> Permutation sc sc' -> means sc' (wform x) v -> same x v.

Lemma right_elem p u n ds l ks : vattrs_ok C l ds -> Forall right ks -> right (VElem p u n ds l ks).
Proof.
  intros Ha Hk sc dflt HP. inversion HP as [dflt' p' u' n' ds' l' ks' P1 P2 P3 P4 P5 P6 P7| | | |]; subst. cbn [wform].
  pose proof (declared_items l ds Ha) as Ed. pose proof (attributed_items l ds) as Ea. rewrite map_app in *. split.
  - constructor; rewrite ?Ed, ?Ea; auto.
    + apply no_empty_uri. eapply vattrs_decls; eauto.
    + apply Forall_map. revert P6. apply Forall_impl. cbn. intros a (X & _). exact X.
    + apply Forall_map. rewrite <- map_app. clear - Hk P7. induction Hk; inversion P7; subst; constructor; auto. now apply (H (ds ++ sc)).
  - intros sc' v N P M. inversion M as [p1 u1 n1 l1 k1 ds1 at1 ks1 Q1 Q2 Q3 Q4| | | |]; subst. rewrite Ed in *. rewrite Ea in *.
    assert (N2 : NoDup (map d_prefix (ds ++ sc))).
    { rewrite map_app. apply nodup_app; auto. intros q Hq. apply in_map_iff in Hq as (d & <- & Hd). rewrite Forall_forall in P2. now apply P2. }
    assert (PP : Permutation (ds ++ sc) (ds1 ++ sc')) by now apply Permutation_app.
    rewrite <- (uri_perm _ _ _ _ _ N2 PP P5 Q2).
    assert (El : at1 = l).
    { clear - P6 Q3 N2 PP. revert at1 Q3. induction P6 as [|[p u n v] l (_ & X) _ IH]; intros at1 Q3; inversion Q3 as [|a b k k' A1 A2]; subst; auto.
      cbn in *. f_equal; auto. inversion A1 as [|q w ? ? U]; subst; [now rewrite X|]. f_equal. symmetry. eapply uri_perm; eauto. }
    subst at1. constructor; auto.
    clear - Hk P7 Q4 N2 PP. revert ks1 Q4. induction Hk as [|x ks R _ IH]; intros ks1 Q4; inversion P7; subst; inversion Q4; subst; constructor; auto.
    destruct (R (ds ++ sc) false) as (_ & Y); auto. eapply Y; eauto.
Qed.
Lemma right_parts ps : Forall right (map VPart ps).
Proof.
  apply Forall_map, Forall_forall. intros p _ sc dflt _. split; [constructor|]. intros sc' v _ _ M. inversion M. constructor.
Qed.
Lemma nodes_right d : vnodes_ok C d -> Forall right d.
Proof.
  apply (vnodes_ok_ind2 C right (Forall right)); auto.
  - intros p _ sc dflt _. split; [constructor|]. intros sc' v _ _ M. inversion M. constructor.
  - intros t _ sc dflt _. split; [constructor|]. intros sc' v _ _ M. inversion M. constructor.
  - intros n t _ _ sc dflt _. split; [constructor|]. intros sc' v _ _ M. inversion M. constructor.
  - intros t _ sc dflt _. split; [constructor|]. intros sc' v _ _ M. inversion M. constructor.
  - intros p u n ds l _ H. now apply right_elem.
  - intros p u n ds l ps _ H _. apply right_elem; auto. apply right_parts.
  - intros p u n ds l k _ H _ _ K. now apply right_elem.
Qed.
Lemma form_elem x : is_welem (wform x) = is_velem x.
Proof. now destruct x. Qed.

(** The written form is well scoped. *)
Lemma placed_scoped d : vnodes_ok C d -> well_placed d -> well_scoped (map wform d).
Proof.
  intros H (dflt & P & L). apply nodes_right in H. exists dflt. split.
  - apply Forall_map. clear L. induction H as [|x d R _ IH]; inversion P; subst; constructor; auto. now apply (R [] dflt).
  - intros E. specialize (L E).
    assert (X : List.length (filter is_welem (map wform d)) = List.length (filter is_velem d)).
    { clear. induction d as [|x d IH]; auto. cbn [map filter]. rewrite form_elem. destruct (is_velem x); cbn; now rewrite IH. }
    now rewrite X.
Qed.
End compact.

(** What the written form means is the document. *)
Lemma placed_means C d v : vnodes_ok C d -> well_placed d -> Forall2 (means []) (map wform d) v -> Forall2 same d v.
Proof.
  intros H (dflt & P & _). apply nodes_right in H. revert v. induction H as [|x d R _ IH]; intros v M; inversion M; subst; inversion P; subst; constructor; auto.
  destruct (R [] dflt) as (_ & Y); auto. apply (Y []); auto. constructor.
Qed.
