(** The trees of IxmlDoc.v: the items they stand for, and the document that is
    made from them. *)
From Coq Require Import NArith ZArith Bool String List Lia.
From Coq Require Import ZifyBool ZifyNat ZifyN.
From Verif Require Import Bytes BytesFacts Utf8 Utf8Proofs Dom Ixml IxmlSpec IxmlNames IxmlTrans IxmlLang IxmlDoc IxmlDocSpec IxmlOut.
Import ListNotations.
Local Open Scope N_scope.
Local Open Scope list_scope.

Scheme yo_mind := Minimality for yo Sort Prop with yos_mind := Minimality for yos Sort Prop.
Combined Scheme yo_ind2 from yo_mind, yos_mind.
Scheme tree_of_mind := Minimality for tree_of Sort Prop with trees_of_mind := Minimality for trees_of Sort Prop.
Combined Scheme tree_ind2 from tree_of_mind, trees_of_mind.

Lemma yo_yk y : (forall t w o, yo y t w o -> exists k, yk y k t w o) /\ (forall ts w o, yos y ts w o -> exists k, yall (yk y k) ts w o).
Proof.
  apply (yo_ind2 y (fun t w o => exists k, yk y k t w o) (fun ts w o => exists k, yall (yk y k) ts w o)).
  - intros m s c H. exists 1%nat. left. exists c. auto.
  - intros m s r w i o Hr En _ (k & Hk) ->. exists (S k). right. exists r, i. auto.
  - exists O. split; reflexivity.
  - intros s ts v w i j _ (k & Hk) _ (l & Hl). exists (Nat.max k l). exists v, w, i, j. split; [reflexivity|]. split; [reflexivity|]. split.
    + eapply yk_le; [|exact Hk]. lia.
    + eapply yall_mono; [|exact Hl]. intros ? ? ?. apply yk_le. lia.
Qed.

(** ** Items *)
Fixpoint titems (t : ytree) : list item :=
  match t with
  | YTerm c m => char_items m c
  | YNode n m ks => node_items n m (flat_map titems ks)
  end.
Fixpoint leaves (t : ytree) : list Z :=
  match t with
  | YTerm c _ => [c]
  | YNode _ _ ks => flat_map leaves ks
  end.
Section tree_ind.
Variable P : ytree -> Prop.
Hypothesis P1 : forall c m, P (YTerm c m).
Hypothesis P2 : forall n m ks, Forall P ks -> P (YNode n m ks).
Fixpoint ytree_ind2 (t : ytree) : P t :=
  match t with
  | YTerm c m => P1 c m
  | YNode n m ks => P2 n m ks ((fix all (l : list ytree) : Forall P l := match l with [] => Forall_nil P | k :: l => Forall_cons k (ytree_ind2 k) (all l) end) ks)
  end.
End tree_ind.

Lemma tree_yo y (junk : N -> Prop) : (forall m, junk m -> m <> 45) ->
  (forall t T w, tree_of y junk t T w -> yo y t w (titems T)) /\
  (forall ts Ts w, trees_of y junk ts Ts w -> yos y ts w (flat_map titems Ts)).
Proof.
  intros HJ. apply (tree_ind2 y junk (fun t T w => yo y t w (titems T)) (fun ts Ts w => yos y ts w (flat_map titems Ts))).
  - intros m s c k Hi Hk. cbn [titems]. replace (char_items k c) with (char_items m c); [now apply yo_term|].
    destruct (m =? 0) eqn:E; [|now rewrite Hk]. apply HJ in Hk. unfold char_items. replace (m =? 45) with false by lia. replace (k =? 45) with false by lia. reflexivity.
  - intros m r ks w Hr _ IH. cbn [titems]. eapply yo_rule; [exact Hr|reflexivity|exact IH|reflexivity].
  - apply yo_nil.
  - intros t ts k ks v w _ IH1 _ IH2. cbn [flat_map]. now apply yo_cons.
Qed.
Lemma yo_tree y (junk : N -> Prop) : junk 0 ->
  (forall t w o, yo y t w o -> exists T, tree_of y junk t T w /\ titems T = o) /\
  (forall ts w o, yos y ts w o -> exists Ts, trees_of y junk ts Ts w /\ flat_map titems Ts = o).
Proof.
  intros HJ. apply (yo_ind2 y (fun t w o => exists T, tree_of y junk t T w /\ titems T = o) (fun ts w o => exists Ts, trees_of y junk ts Ts w /\ flat_map titems Ts = o)).
  - intros m s c H. exists (YTerm c m). split; [|reflexivity]. apply to_term; [exact H|]. destruct (m =? 0) eqn:E; [|reflexivity]. apply N.eqb_eq in E. now subst.
  - intros m s r w i o Hr <- _ (Ts & HT & <-) ->. eexists. split; [apply to_rule; [exact Hr|exact HT]|]. reflexivity.
  - exists []. split; [apply to_nil|reflexivity].
  - intros s ts v w i j _ (T & HT & <-) _ (Ts & HTs & <-). exists (T :: Ts). split; [now apply to_cons|reflexivity].
Qed.
Lemma tree_leaves y (junk : N -> Prop) :
  (forall t T w, tree_of y junk t T w -> leaves T = w) /\
  (forall ts Ts w, trees_of y junk ts Ts w -> flat_map leaves Ts = w).
Proof.
  apply (tree_ind2 y junk (fun t T w => leaves T = w) (fun ts Ts w => flat_map leaves Ts = w)).
  - reflexivity.
  - intros m r ks w _ _ IH. exact IH.
  - reflexivity.
  - intros t ts k ks v w _ IH1 _ IH2. cbn [flat_map]. now rewrite IH1, IH2.
Qed.

(** ** Texts *)
Definition char_fine (c : Z) : Prop := code_ok c /\ c <> 0%Z.
Lemma cstr_id s : Forall (fun c => c <> 0) s -> cstr s = s.
Proof. induction 1 as [|c s Hc Hs IH]; [reflexivity|]. cbn [cstr]. replace (c =? 0) with false by lia. now rewrite IH. Qed.
Lemma utf8_nonzero u : u <> 0 -> Forall (fun c => c <> 0) (utf8_spec u).
Proof. intros H. unfold utf8_spec. repeat match goal with |- context[if ?b then _ else _] => destruct b end; repeat (apply Forall_cons; [lia|]); apply Forall_nil. Qed.
Lemma char_text_is c : char_fine c -> char_text c = DOk (utf8 [c]).
Proof.
  intros (H1 & H2). unfold code_ok in H1. unfold char_text. replace c with (Z.of_N (Z.to_N c)) at 1 by lia. rewrite encode_matches_spec by lia.
  rewrite cstr_id by (apply utf8_nonzero; lia). unfold utf8. cbn [map List.concat]. now rewrite app_nil_r.
Qed.

Definition collect_all : list ytree -> dres bytes :=
  fix all (l : list ytree) : dres bytes :=
    match l with
    | [] => DOk []
    | k :: l => dbind (collect k) (fun a => dbind (all l) (fun b => DOk (a ++ b)))
    end.
Lemma text_wrap m n its : flat_map text_of (wrap m n its) = flat_map text_of its.
Proof. unfold wrap. destruct (m =? 45); [reflexivity|]. destruct (m =? 64); cbn [flat_map text_of]; apply app_nil_r. Qed.
Lemma no_ins_wrap m n its : forallb no_ins (wrap m n its) = forallb no_ins its.
Proof. unfold wrap. destruct (m =? 45); [reflexivity|]. destruct (m =? 64); cbn [forallb no_ins]; apply andb_true_r. Qed.
Lemma node_items_cases n m its : (exists s, n = 124 :: 43 :: s /\ node_items n m its = [IIns s]) \/ ((forall s, n <> 124 :: 43 :: s) /\ node_items n m its = wrap m n its).
Proof.
  unfold node_items. destruct n as [|a n]; [right; split; [discriminate|reflexivity]|].
  destruct (N.eq_dec a 124) as [-> |Ha].
  - destruct n as [|b n]; [right; split; [discriminate|reflexivity]|]. destruct (N.eq_dec b 43) as [-> |Hb].
    + left. exists n. split; reflexivity.
    + right. split; [intros s E; congruence|]. destruct b as [|p]; [reflexivity|]. repeat (destruct p as [p|p|]; try reflexivity). now elim Hb.
  - right. split; [intros s E; congruence|]. destruct a as [|p]; [reflexivity|]. repeat (destruct p as [p|p|]; try reflexivity). now elim Ha.
Qed.
Lemma forallb_flat {A B} (f : A -> list B) (p : B -> bool) l : forallb p (flat_map f l) = true <-> Forall (fun x => forallb p (f x) = true) l.
Proof.
  induction l as [|x l IH]; cbn [flat_map forallb]; [split; [intros _; apply Forall_nil|reflexivity]|]. rewrite forallb_app, andb_true_iff, IH. split.
  - intros (A1 & A2). now apply Forall_cons.
  - intros H. inversion H; auto.
Qed.
Lemma leaves_fine (P : Z -> Prop) ks : Forall P (flat_map leaves ks) <-> Forall (fun k => Forall P (leaves k)) ks.
Proof.
  induction ks as [|k ks IH]; cbn [flat_map]; [split; intros _; apply Forall_nil|]. rewrite Forall_app, IH. split.
  - intros (A1 & A2). now apply Forall_cons.
  - intros H. inversion H; auto.
Qed.
Lemma flat_flat {A B C} (f : A -> list B) (g : B -> list C) l : flat_map g (flat_map f l) = flat_map (fun x => flat_map g (f x)) l.
Proof. induction l as [|x l IH]; [reflexivity|]. cbn [flat_map]. now rewrite flat_map_app, IH. Qed.
Lemma collect_spec T : Forall char_fine (leaves T) -> forallb no_ins (titems T) = true -> collect T = DOk (flat_map text_of (titems T)).
Proof.
  induction T as [c m|n m ks IH] using ytree_ind2; intros Hl Hn.
  - cbn [collect titems leaves] in *. unfold char_items in *. change (m =? cMINUS) with (m =? 45). destruct (m =? 45); [reflexivity|]. inversion Hl; subst.
    rewrite char_text_is by assumption. cbn [flat_map text_of]. now rewrite app_nil_r.
  - cbn [leaves titems] in *. change (collect (YNode n m ks)) with (collect_all ks).
    destruct (node_items_cases n m (flat_map titems ks)) as [(s & _ & E)|(_ & E)]; rewrite E in *; [discriminate Hn|]. rewrite no_ins_wrap in Hn. rewrite text_wrap. clear E n m.
    apply forallb_flat in Hn. apply leaves_fine in Hl. rewrite flat_flat. induction ks as [|k ks IHk]; [reflexivity|].
    inversion IH as [|? ? A1 A2]; subst. inversion Hl as [|? ? B1 B2]; subst. inversion Hn as [|? ? C1 C2]; subst. cbn [collect_all flat_map]. fold collect_all.
    rewrite A1 by assumption. cbn [dbind]. rewrite IHk by assumption. reflexivity.
Qed.

(** ** Nodes *)
Definition put (acc : list node) (n : node) : list node :=
  match n with Part (PText s) => add_text_kid s acc | _ => n :: acc end.
Definition puts (l acc : list node) : list node := fold_left put l acc.
Lemma puts_text l : forall s acc, puts l (Part (PText s) :: acc) = puts (Part (PText s) :: l) acc \/ exists b acc', acc = Part (PText b) :: acc'.
Proof.
  intros s acc. destruct acc as [|[n a k|[t|r]|c|c c2|c] acc']; try (left; reflexivity). right. eauto.
Qed.
Definition is_text (n : node) : bool := match n with Part (PText _) => true | _ => false end.
Lemma rev_puts l : (forall acc, is_text (hd (Comment []) acc) = false -> rev (puts l acc) = rev acc ++ join l) /\
  (forall s acc, rev (puts l (Part (PText s) :: acc)) = rev acc ++ join (Part (PText s) :: l)).
Proof.
  induction l as [|n l (IH1 & IH2)].
  - split; [intros acc _; cbn [puts fold_left join]; now rewrite app_nil_r|intros s acc; reflexivity].
  - split.
    + intros acc Ha. unfold puts. cbn [fold_left]. fold (puts l (put acc n)). assert (En : is_text n = true \/ put acc n = n :: acc /\ is_text n = false /\ join (n :: l) = n :: join l).
      { destruct n as [m a k|[t|r]|c|c c2|c]; cbn [is_text put join]; auto. }
      destruct En as [En|(E1 & E2 & E3)].
      * destruct n as [m a k|[t|r]|c|c c2|c]; try discriminate En. cbn [put]. replace (add_text_kid t acc) with (Part (PText t) :: acc); [apply IH2|].
        destruct acc as [|[m a k|[u|r]|c|c c2|c] acc']; try reflexivity. discriminate Ha.
      * rewrite E1, E3. rewrite IH1 by exact E2. cbn [rev]. now rewrite <- app_assoc.
    + intros s acc. unfold puts. cbn [fold_left]. fold (puts l (put (Part (PText s) :: acc) n)).
      assert (En : is_text n = true \/ put (Part (PText s) :: acc) n = n :: Part (PText s) :: acc /\ is_text n = false /\ join (Part (PText s) :: n :: l) = Part (PText s) :: n :: join l).
      { destruct n as [m a k|[t|r]|c|c c2|c]; cbn [is_text put join]; auto. }
      destruct En as [En|(E1 & E2 & E3)].
      * destruct n as [m a k|[t|r]|c|c c2|c]; try discriminate En. cbn [put add_text_kid]. rewrite IH2. f_equal. cbn [join].
        destruct (join l) as [|[m a k|[u|r]|c|c c2|c] q]; try reflexivity. now rewrite app_assoc.
      * rewrite E1, E3. rewrite IH1 by exact E2. cbn [rev]. now rewrite <- !app_assoc.
Qed.
Lemma puts_app a b acc : puts (a ++ b) acc = puts b (puts a acc).
Proof. apply fold_left_app. Qed.

Definition filled (its : list item) (f : filling) : filling := (rev (attrs_of its) ++ fst f, puts (flat_map nodes_of its) (snd f)).
Lemma filled_nil f : filled [] f = f. Proof. now destruct f. Qed.
Lemma filled_app a b f : filled (a ++ b) f = filled b (filled a f).
Proof. unfold filled, attrs_of. cbn [fst snd]. now rewrite !flat_map_app, rev_app_distr, puts_app, app_assoc. Qed.
Definition gen_all : list ytree -> filling -> dres filling :=
  fix all (l : list ytree) (f : filling) : dres filling :=
    match l with
    | [] => DOk f
    | k :: l => dbind (gen_dom k f) (all l)
    end.
Lemma gen_dom_node n m ks f : gen_dom (YNode n m ks) f =
  match n with
  | 124 :: 43 :: s => DOk (add_text s f)
  | _ => if m =? cMINUS then gen_all ks f
         else if m =? 64 then dbind (collect (YNode n m ks)) (fun v => DOk (add_attr n v f))
         else dbind (gen_all ks ([], [])) (fun sub => DOk (add_elem n sub f))
  end.
Proof. reflexivity. Qed.
Lemma gen_other {A} n (P : bytes -> A) Q : (forall s, n <> 124 :: 43 :: s) -> match n with 124 :: 43 :: s => P s | _ => Q end = Q.
Proof.
  intros H. destruct n as [|a n]; [reflexivity|]. destruct (N.eq_dec a 124) as [-> |Ha].
  - destruct n as [|b n]; [reflexivity|]. destruct (N.eq_dec b 43) as [-> |Hb]; [now elim (H n)|].
    destruct b as [|p]; [reflexivity|]. repeat (destruct p as [p|p|]; try reflexivity). now elim Hb.
  - destruct a as [|p]; [reflexivity|]. repeat (destruct p as [p|p|]; try reflexivity). now elim Ha.
Qed.
Lemma collect_node n m ks : Forall char_fine (flat_map leaves ks) -> forallb no_ins (flat_map titems ks) = true -> (forall s, n <> 124 :: 43 :: s) ->
  collect (YNode n m ks) = DOk (flat_map text_of (flat_map titems ks)).
Proof.
  intros Hl Hn H. rewrite collect_spec.
  - cbn [titems]. destruct (node_items_cases n m (flat_map titems ks)) as [(s & E & _)|(_ & E)]; [now elim (H s)|]. now rewrite E, text_wrap.
  - exact Hl.
  - cbn [titems]. destruct (node_items_cases n m (flat_map titems ks)) as [(s & E & _)|(_ & E)]; [now elim (H s)|]. now rewrite E, no_ins_wrap.
Qed.
Lemma gen_spec T : Forall char_fine (leaves T) -> forallb attrs_plain (titems T) = true -> forall f, gen_dom T f = DOk (filled (titems T) f).
Proof.
  induction T as [c m|n m ks IH] using ytree_ind2; intros Hl Hn f.
  - cbn [gen_dom titems leaves] in *. unfold char_items in *. change (m =? cMINUS) with (m =? 45). destruct (m =? 45); [now rewrite filled_nil|]. inversion Hl; subst.
    rewrite char_text_is by assumption. reflexivity.
  - assert (All : forallb attrs_plain (flat_map titems ks) = true -> forall f, gen_all ks f = DOk (filled (flat_map titems ks) f)).
    { clear Hn f. cbn [leaves] in Hl. intros Hn. apply forallb_flat in Hn. apply leaves_fine in Hl. induction ks as [|k ks IHk]; intros f; [cbn [gen_all flat_map]; now rewrite filled_nil|].
      inversion IH as [|? ? A1 A2]; subst. inversion Hl as [|? ? B1 B2]; subst. inversion Hn as [|? ? C1 C2]; subst. cbn [gen_all flat_map]. fold gen_all.
      rewrite A1 by assumption. cbn [dbind]. rewrite IHk by assumption. now rewrite filled_app. }
    cbn [leaves] in Hl. rewrite gen_dom_node. cbn [titems] in *. destruct (node_items_cases n m (flat_map titems ks)) as [(s & -> & E)|(Hx & E)]; rewrite E in *; [reflexivity|].
    rewrite gen_other by exact Hx. change (m =? cMINUS) with (m =? 45). unfold wrap in *. destruct (m =? 45); [now apply All|]. destruct (m =? 64) eqn:E64.
    + cbn [forallb attrs_plain] in Hn. rewrite andb_true_r in Hn. rewrite collect_node by assumption. reflexivity.
    + cbn [forallb attrs_plain] in Hn. rewrite andb_true_r in Hn. rewrite All by exact Hn. cbn [dbind]. unfold add_elem, filled. cbn [fst snd]. rewrite app_nil_r, rev_involutive.
      rewrite (proj1 (rev_puts _)) by reflexivity. cbn [rev app attrs_of flat_map nodes_of]. reflexivity.
Qed.

(** ** The document *)
Definition put_root (d : list node) (i : item) : list node := fold_right set_root d (nodes_of i).
Definition gen_docs : list ytree -> list node -> dres (list node) :=
  fix all (l : list ytree) (d : list node) : dres (list node) :=
    match l with
    | [] => DOk d
    | k :: l => dbind (gen_doc k d) (all l)
    end.
Lemma gen_doc_node n m ks d : gen_doc (YNode n m ks) d =
  match n with
  | 124 :: 43 :: s => DOk (set_root (Part (PText s)) d)
  | _ => if m =? cMINUS then gen_docs ks d
         else if m =? 64 then dbind (collect (YNode n m ks)) (fun _ => DOk d)
         else dbind (gen_dom (YNode n m ks) ([], [])) (fun f => DOk (fold_right set_root d (snd f)))
  end.
Proof. reflexivity. Qed.
Lemma gen_doc_spec T : Forall char_fine (leaves T) -> forallb attrs_plain (titems T) = true -> forall d, gen_doc T d = DOk (fold_left put_root (titems T) d).
Proof.
  induction T as [c m|n m ks IH] using ytree_ind2; intros Hl Hn d.
  - cbn [gen_doc titems leaves] in *. unfold char_items in *. change (m =? cMINUS) with (m =? 45). destruct (m =? 45); [reflexivity|]. inversion Hl; subst.
    rewrite char_text_is by assumption. reflexivity.
  - assert (All : forallb attrs_plain (flat_map titems ks) = true -> forall d, gen_docs ks d = DOk (fold_left put_root (flat_map titems ks) d)).
    { clear Hn d. cbn [leaves] in Hl. intros Hn. apply forallb_flat in Hn. apply leaves_fine in Hl. induction ks as [|k ks IHk]; intros d; [reflexivity|].
      inversion IH as [|? ? A1 A2]; subst. inversion Hl as [|? ? B1 B2]; subst. inversion Hn as [|? ? C1 C2]; subst. cbn [gen_docs flat_map]. fold gen_docs.
      rewrite A1 by assumption. cbn [dbind]. rewrite IHk by assumption. now rewrite fold_left_app. }
    pose proof (gen_spec (YNode n m ks) Hl Hn ([], [])) as Hg. rewrite gen_doc_node.
    cbn [leaves] in Hl. cbn [titems] in *. destruct (node_items_cases n m (flat_map titems ks)) as [(s & -> & E)|(Hx & E)]; rewrite E in *; [reflexivity|].
    rewrite gen_other by exact Hx. change (m =? cMINUS) with (m =? 45). rewrite Hg. unfold wrap in *. destruct (m =? 45); [now apply All|]. destruct (m =? 64) eqn:E64.
    + cbn [forallb attrs_plain] in Hn. rewrite andb_true_r in Hn. rewrite collect_node by assumption. reflexivity.
    + reflexivity.
Qed.
Lemma doc_spec T d : Forall char_fine (leaves T) -> forallb attrs_plain (titems T) = true -> document (titems T) d -> gen_doc T [] = DOk [d].
Proof.
  intros Hl Hn (n & s & E & Ed). rewrite gen_doc_spec by assumption. rewrite E. cbn [fold_left]. unfold put_root. rewrite Ed. cbn [nodes_of] in Ed. injection Ed as <-. reflexivity.
Qed.

(** ** A check for trees *)
Section check.
Variable y : mgrammar.
Variable jb : N -> bool.
Fixpoint chk (T : ytree) (t : iterm) : bool :=
  match T with
  | YTerm c k => existsb (fun e => beq (fst e) (t_name t) && Z.eqb (snd e) c) (mg_terms y) && (if t_mark t =? 0 then jb k else k =? t_mark t)
  | YNode n m ks =>
    existsb (fun r => beq (r_name r) (t_name t) && beq (node_name r) n && (m =? (if t_mark t =? 0 then r_mark r else t_mark t)) &&
      (fix all (ks : list ytree) (ts : list iterm) : bool :=
         match ks, ts with
         | [], [] => true
         | k :: ks, t :: ts => chk k t && all ks ts
         | _, _ => false
         end) ks (r_rhs r)) (mg_rules y)
  end.
Lemma chk_spec T : forall t, chk T t = true -> tree_of y (fun m => jb m = true) t T (leaves T).
Proof.
  induction T as [c k|n m ks IH] using ytree_ind2; intros [tm tn] H; cbn [chk t_name t_mark] in H.
  - apply andb_true_iff in H as (H1 & H2). apply existsb_exists in H1 as ((s, d) & Hi & H1). cbn [fst snd] in H1. apply andb_true_iff in H1 as (H1 & H3). apply beq_eq in H1. apply Z.eqb_eq in H3. subst.
    cbn [leaves]. apply to_term; [exact Hi|]. destruct (tm =? 0); [exact H2|now apply N.eqb_eq].
  - apply existsb_exists in H as (r & Hr & H). apply andb_true_iff in H as (H & H4). apply andb_true_iff in H as (H & H3). apply andb_true_iff in H as (H1 & H2).
    apply beq_eq in H1, H2. apply N.eqb_eq in H3. subst tn n m. cbn [leaves]. apply to_rule; [exact Hr|]. clear Hr. revert IH H4. generalize (r_rhs r). induction ks as [|k ks IHk]; intros [|t ts] IH H; try discriminate H.
    + apply to_nil.
    + apply andb_true_iff in H as (H1 & H2). inversion IH; subst. cbn [flat_map]. apply to_cons; auto.
Qed.
Definition chk_root (T : ytree) : bool := match mg_rules y with [] => false | r :: _ => chk T (ITerm 0 (r_name r)) end.
Lemma chk_root_spec T w : chk_root T = true -> leaves T = w -> parse_tree y (fun m => jb m = true) T w.
Proof. unfold chk_root, parse_tree. intros H <-. destruct (mg_rules y) as [|r rs]; [discriminate H|]. exists r, rs. split; [reflexivity|]. now apply chk_spec. Qed.
End check.

(** ** A text has items if and only if it is described *)
Lemma described_given G :
  (forall f w, m_factor G f w -> exists o, o_factor G f w o) /\ (forall t w, m_term G t w -> exists o, o_term G t w o) /\
  (forall f w, m_reps G f w -> exists o, o_reps G f w o) /\ (forall f s w, m_sreps G f s w -> exists o, o_sreps G f s w o) /\
  (forall a w, m_alt G a w -> exists o, o_alt G a w o) /\ (forall a w, m_alts G a w -> exists o, o_alts G a w o).
Proof.
  apply (matches_ind G (fun f w => exists o, o_factor G f w o) (fun t w => exists o, o_term G t w o) (fun f w => exists o, o_reps G f w o)
    (fun f s w => exists o, o_sreps G f s w o) (fun a w => exists o, o_alt G a w o) (fun a w => exists o, o_alts G a w o));
    intros; repeat match goal with H : exists _, _ |- _ => destruct H end; eexists; solve [econstructor; eauto].
Qed.
Lemma given_described G :
  (forall f w o, o_factor G f w o -> m_factor G f w) /\ (forall t w o, o_term G t w o -> m_term G t w) /\
  (forall f w o, o_reps G f w o -> m_reps G f w) /\ (forall f s w o, o_sreps G f s w o -> m_sreps G f s w) /\
  (forall a w o, o_alt G a w o -> m_alt G a w) /\ (forall a w o, o_alts G a w o -> m_alts G a w).
Proof.
  apply (outputs_ind G (fun f w _ => m_factor G f w) (fun t w _ => m_term G t w) (fun f w _ => m_reps G f w)
    (fun f s w _ => m_sreps G f s w) (fun a w _ => m_alt G a w) (fun a w _ => m_alts G a w));
    intros; solve [econstructor; eauto].
Qed.
Theorem gives_describes G w : (exists its, gives G w its) <-> describes G w.
Proof.
  split.
  - intros (its & r0 & rs & r & i & E & Hr & En & Ho & _). exists r0, rs, r. apply given_described in Ho. auto.
  - intros (r0 & rs & r & E & Hr & En & Hm). apply described_given in Hm as (i & Ho). eexists. exists r0, rs, r, i. split; [exact E|]. split; [exact Hr|]. split; [exact En|]. split; [exact Ho|reflexivity].
Qed.

Lemma tree_junk y (j k : N -> Prop) : (forall m, j m -> k m) ->
  (forall t T w, tree_of y j t T w -> tree_of y k t T w) /\ (forall ts Ts w, trees_of y j ts Ts w -> trees_of y k ts Ts w).
Proof.
  intros H. apply (tree_ind2 y j (tree_of y k) (trees_of y k)).
  - intros m s c x Hi Hx. apply to_term; [exact Hi|]. destruct (m =? 0); auto.
  - intros m r ks w Hr _ IH. now apply to_rule.
  - apply to_nil.
  - intros t ts x ks v w _ IH1 _ IH2. now apply to_cons.
Qed.
