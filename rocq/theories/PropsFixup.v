(** Property C70: documents that are written as xml or html, and read again. *)
From Coq Require Import NArith ZArith List Bool Arith Lia String.
From Verif Require Import Bytes BytesFacts Outcome Detect DetectProofs Dom Getters GettersSpec PropsGetters PropsClines PropsBasic TreeEditSpec Fixup.
Import ListNotations.
Local Open Scope N_scope.
Local Open Scope list_scope.

(** ** Specification *)
(** Elements whose content is not parsed by browsers, in whatever case *)
Definition raw_name (n : bytes) : Prop := In (map small n) [B "style"; B "script"].
(** [means n t]: the text t is what a reference to n stands for, for entities
    that xml defines and numbers of ascii characters. *)
Inductive means : bytes -> bytes -> Prop :=
| m_lt : means (B "lt") [60]
| m_gt : means (B "gt") [62]
| m_amp : means (B "amp") [38]
| m_quot : means (B "quot") [34]
| m_apos : means (B "apos") [39]
| m_num s v : numeral 10 s v -> 0 < v < 128 -> means (35 :: s) [v].
Definition known (d : list node) : Prop := forall r, In (Part (PRef r)) (all_nodes d) -> (exists t, means r t) /\ ~ raw_name r.
(** [agrees raw x y]: x and y are the same, but in raw elements a reference in x
    is a text with its meaning in y. *)
Inductive agrees : bool -> node -> node -> Prop :=
| g_elem raw n ats ks ks' : agrees_all raw ks ks' -> agrees raw (Elem n ats ks) (Elem n ats ks')
| g_ref n t : means n t -> agrees true (Part (PRef n)) (Part (PText t))
| g_keep n : agrees false (Part (PRef n)) (Part (PRef n))
| g_text raw t : agrees raw (Part (PText t)) (Part (PText t))
| g_comment raw t : agrees raw (Comment t) (Comment t)
| g_pi raw n t : agrees raw (PI n t) (PI n t)
| g_doctype raw t : agrees raw (Doctype t) (Doctype t)
with agrees_all : bool -> list node -> list node -> Prop :=
| g_nil raw : agrees_all raw [] []
| g_raw raw n ats ks y l m : raw_name n -> agrees true (Elem n ats ks) y -> agrees_all raw l m -> agrees_all raw (Elem n ats ks :: l) (y :: m)
| g_cons raw x y l m : (forall n ats ks, x = Elem n ats ks -> ~ raw_name n) -> agrees raw x y -> agrees_all raw l m -> agrees_all raw (x :: l) (y :: m).

(** ** Proofs *)
Lemma raw_name_ok n : cdata_name n = true <-> raw_name n.
Proof. unfold cdata_name, same_name, raw_name. rewrite orb_true_iff, !beq_eq. cbn [In]. split; [intros [->| ->]; auto|intros [H|[H|[]]]; auto]. Qed.
Definition fix_kids (inside : bool) : list node -> out (list node) :=
  fix all (l : list node) : out (list node) :=
    match l with
    | [] => Ok []
    | k :: r => (k' <- fixup_html (inside || cdata_name (node_name k)) k ; r' <- all r ; Ok (k' :: r'))%out
    end.
Lemma fixup_elem inside n ats kids : fixup_html inside (Elem n ats kids) = (kids' <- fix_kids inside kids ; Ok (Elem n ats kids'))%out.
Proof. reflexivity. Qed.
Lemma in_kid n ats kids k y : In k kids -> In y (nodes_of k) -> In y (nodes_of (Elem n ats kids)).
Proof. intros Hk Hy. cbn [nodes_of]. right. apply in_flat_map. eauto. Qed.

Lemma digits_nonempty s v : numeral 10 s v -> s <> [].
Proof. destruct 1; [discriminate|]. destruct s; discriminate. Qed.
Lemma hash_no_entity r : entity_content (35 :: r) = None.
Proof. unfold entity_content. cbn. reflexivity. Qed.
Lemma means_text n t : means n t -> reference_text n = Ok t.
Proof.
  destruct 1 as [| | | | |s v Hn Hv]; [vm_compute; reflexivity..|]. unfold reference_text. rewrite hash_no_entity. change (35 =? cHASH) with true. cbn iota.
  rewrite (atoi_in s (Z.of_N v)); [|rewrite <- (app_nil_r s); apply value_dec; [exact Hn|intros c r X; discriminate X]|unfold int32; lia]. cbn [obind].
  rewrite Z.mod_small by lia. rewrite N2Z.id. destruct (N.eqb_spec v 0); [lia|reflexivity].
Qed.
Lemma fixup_agrees x : forall inside, (forall r, In (Part (PRef r)) (nodes_of x) -> (exists t, means r t) /\ ~ raw_name r) ->
  exists y, fixup_html inside x = Ok y /\ agrees inside x (fixup_comments y).
Proof.
  induction x as [n ats kids IH|[t|r]|t|n t|t] using node_ind2; intros inside H; try (eexists; split; [reflexivity|constructor]).
  - rewrite fixup_elem. assert (K : exists ks, fix_kids inside kids = Ok ks /\ agrees_all inside kids (map fixup_comments ks)).
    { assert (H' : forall k, In k kids -> forall r, In (Part (PRef r)) (nodes_of k) -> (exists t, means r t) /\ ~ raw_name r) by (intros k Hk r Hr; apply H; now apply (in_kid n ats kids k)).
      clear H. induction IH as [|k kids Hk _ IHk]; [exists []; split; [reflexivity|constructor]|]. destruct IHk as (ks & E & A); [intros k' Hk'; apply H'; now right|].
      assert (Hkk := H' k (or_introl eq_refl)). cbn [fix_kids]. fold (fix_kids inside).
      destruct (Hk (inside || cdata_name (node_name k)) Hkk) as (y & Ey & Ay). rewrite Ey, E. cbn [obind]. exists (y :: ks). split; [reflexivity|]. cbn [map].
      destruct (cdata_name (node_name k)) eqn:C.
      - apply raw_name_ok in C. rewrite orb_true_r in Ay. destruct k as [m mats mkids|[t|r]|t|m t|t]; [now apply g_raw| | | | |].
        + exfalso. revert C. vm_compute. intros [C|[C|[]]]; discriminate C.
        + exfalso. destruct (Hkk r (or_introl eq_refl)) as (_ & Z). contradiction.
        + exfalso. revert C. vm_compute. intros [C|[C|[]]]; discriminate C.
        + apply g_cons; [discriminate| |exact A]. inversion Ay; subst. constructor.
        + apply g_cons; [discriminate| |exact A]. inversion Ay; subst. constructor.
      - rewrite orb_false_r in Ay. apply g_cons; [|exact Ay|exact A]. intros m mats mkids -> X. apply raw_name_ok in X. cbn [node_name get_name] in C. congruence. }
    destruct K as (ks & E & A). rewrite E. cbn [obind]. eexists. split; [reflexivity|]. cbn [fixup_comments]. now constructor.
  - cbn [fixup_html]. destruct inside; [|eexists; split; [reflexivity|constructor]]. destruct (H r (or_introl eq_refl)) as ((t & Ht) & _). rewrite (means_text _ _ Ht). cbn [obind]. eexists. split; [reflexivity|]. now constructor.
  - cbn [fixup_html]. eexists. split; [reflexivity|]. cbn [fixup_comments]. rewrite C03_comment_escaping_reversible. constructor.
Qed.
(** C70: a document that is prepared for writing, and handled as one that was
    read, is the same, but for references in style and script, which are the
    texts they mean; if only known entities are used. *)
Theorem C70_agrees_partial : forall d, known d -> exists d', before_writeout d = Ok d' /\ Forall2 (agrees false) d (after_readin d').
Proof.
  induction d as [|x d IH]; intros H; [exists []; split; [reflexivity|constructor]|].
  destruct IH as (d' & E & A). { intros r Hr. apply H. unfold all_nodes. cbn [flat_map]. apply in_or_app. now right. }
  destruct (fixup_agrees x false) as (y & Ey & Ay). { intros r Hr. apply H. unfold all_nodes. cbn [flat_map]. apply in_or_app. now left. }
  cbn [before_writeout]. rewrite Ey, E. cbn [obind]. eexists. split; [reflexivity|]. cbn [after_readin map]. now constructor.
Qed.
Print Assumptions C70_agrees_partial.

(** No references in style and script *)
Definition quiet (d : list node) : Prop := forall n ats ks r, In (Elem n ats ks) (all_nodes d) -> raw_name n -> ~ In (Part (PRef r)) (nodes_of (Elem n ats ks)).
Lemma fixup_same x : forall inside, (inside = true -> forall r, ~ In (Part (PRef r)) (nodes_of x)) ->
  (forall n ats ks r, In (Elem n ats ks) (nodes_of x) -> raw_name n -> ~ In (Part (PRef r)) (nodes_of (Elem n ats ks))) ->
  (forall r, In (Part (PRef r)) (nodes_of x) -> ~ raw_name r) ->
  exists y, fixup_html inside x = Ok y /\ fixup_comments y = x.
Proof.
  induction x as [n ats kids IH|[t|r]|t|n t|t] using node_ind2; intros inside Hi Hq Hr; try (eexists; split; [reflexivity|reflexivity]).
  - rewrite fixup_elem. assert (K : exists ks, fix_kids inside kids = Ok ks /\ map fixup_comments ks = kids).
    { assert (G : forall k, In k kids -> exists y, fixup_html (inside || cdata_name (node_name k)) k = Ok y /\ fixup_comments y = k).
      { intros k Hk. rewrite Forall_forall in IH. apply (IH k Hk).
        - intros Hb r X. apply orb_true_iff in Hb as [->|Hb]; [apply (Hi eq_refl r); now apply (in_kid n ats kids k)|]. apply raw_name_ok in Hb. destruct k as [m mats mkids|[t|r']|t|m t|t]; try (destruct X as [X|[]]; discriminate X).
          + revert X. apply Hq; [apply (in_kid n ats kids _ _ Hk); now left|exact Hb].
          + apply (Hr r'); [apply (in_kid n ats kids _ _ Hk); now left|exact Hb].
        - intros m mats mkids r X. apply Hq. now apply (in_kid n ats kids k).
        - intros r X. apply Hr. now apply (in_kid n ats kids k). }
      clear IH Hi Hq Hr. induction kids as [|k kids IHk]; [exists []; auto|]. destruct IHk as (ks & E & A); [intros; apply G; now right|]. destruct (G k (or_introl eq_refl)) as (y & Ey & Ay).
      cbn [fix_kids]. fold (fix_kids inside). rewrite Ey, E. cbn [obind]. exists (y :: ks). cbn [map]. now rewrite Ay, A. }
    destruct K as (ks & E & A). rewrite E. cbn [obind]. eexists. split; [reflexivity|]. cbn [fixup_comments]. now rewrite A.
  - cbn [fixup_html]. destruct inside; [|eexists; split; reflexivity]. exfalso. apply (Hi eq_refl r). now left.
  - cbn [fixup_html]. eexists. split; [reflexivity|]. cbn [fixup_comments]. now rewrite C03_comment_escaping_reversible.
Qed.
(** C70: without references in style and script it is the same document,
    whatever comments it has. *)
Theorem C70_same_partial : forall d, quiet d -> (forall r, In (Part (PRef r)) (all_nodes d) -> ~ raw_name r) -> exists d', before_writeout d = Ok d' /\ after_readin d' = d.
Proof.
  intros d Hq Hr. assert (G : forall x, In x d -> exists y, fixup_html false x = Ok y /\ fixup_comments y = x).
  { intros x Hx. apply fixup_same; [discriminate| |].
    - intros n ats ks r X. apply Hq. apply in_flat_map. eauto.
    - intros r X. apply Hr. apply in_flat_map. eauto. }
  clear Hq Hr. induction d as [|x d IH]; [exists []; split; reflexivity|]. destruct IH as (d' & E & A); [intros; apply G; now right|]. destruct (G x (or_introl eq_refl)) as (y & Ey & Ay).
  cbn [before_writeout]. rewrite Ey, E. cbn [obind]. eexists. split; [reflexivity|]. cbn [after_readin map]. fold (after_readin d'). now rewrite Ay, A.
Qed.
Print Assumptions C70_same_partial.

Lemma fixup_comment_in x : forall inside y c, fixup_html inside x = Ok y -> In (Comment c) (nodes_of y) -> exists t, c = comment_to_xml t.
Proof.
  induction x as [n ats kids IH|[t|r]|t|n t|t] using node_ind2; intros inside y c E H.
  - rewrite fixup_elem in E. destruct (fix_kids inside kids) as [ks| | | |] eqn:K; try discriminate E. injection E as <-. cbn [nodes_of] in H. destruct H as [H|H]; [discriminate H|].
    apply in_flat_map in H as (k' & Hk & H). revert ks K Hk. induction IH as [|k kids Hk0 _ IHk]; intros ks K Hk; cbn [fix_kids] in K; [injection K as <-; destruct Hk|]. fold (fix_kids inside) in K.
    destruct (fixup_html (inside || cdata_name (node_name k)) k) as [y| | | |] eqn:Ey; try discriminate K. cbn [obind] in K. destruct (fix_kids inside kids) as [ks'| | | |]; try discriminate K. injection K as <-.
    destruct Hk as [<-|Hk]; [eapply Hk0; eauto|]. now apply (IHk ks').
  - injection E as <-. destruct H as [H|[]]; discriminate H.
  - cbn [fixup_html] in E. destruct inside; [destruct (reference_text r); try discriminate E; cbn in E|]; injection E as <-; destruct H as [H|[]]; discriminate H.
  - injection E as <-. destruct H as [H|[]]. injection H as <-. eauto.
  - injection E as <-. destruct H as [H|[]]; discriminate H.
  - injection E as <-. destruct H as [H|[]]; discriminate H.
Qed.
(** C70: in what is written no comment has two dashes in a row, wherever it is. *)
Theorem C70_comments_partial : forall d d' c a b, before_writeout d = Ok d' -> In (Comment c) (all_nodes d') -> c <> a ++ [cMINUS; cMINUS] ++ b.
Proof.
  induction d as [|x d IH]; intros d' c a b E H; cbn [before_writeout] in E; [injection E as <-; destruct H|].
  destruct (fixup_html false x) as [y| | | |] eqn:Ey; try discriminate E. cbn [obind] in E. destruct (before_writeout d) as [d2| | | |]; try discriminate E. injection E as <-.
  apply in_app_or in H as [H|H]; [|now apply (IH d2)]. apply (fixup_comment_in _ _ _ _ Ey) in H as (t & ->). apply C04_no_double_dash_partial.
Qed.
Print Assumptions C70_comments_partial.

(** A page with a comment, a style and a reference *)
Definition a_page : list node :=
  [Elem (B "html") [] [Comment (B "a -- b"); Elem (B "Style") [] [Part (PText (B "h1")); Part (PRef (B "#10")); Part (PRef (B "gt")); Part (PText (B "h2"))]; Elem (B "p") [] [Part (PRef (B "lt"))]]].
Example C70_ex : known a_page /\ before_writeout a_page =
  Ok [Elem (B "html") [] [Comment (comment_to_xml (B "a -- b")); Elem (B "Style") [] [Part (PText (B "h1")); Part (PText [10]); Part (PText (B ">")); Part (PText (B "h2"))]; Elem (B "p") [] [Part (PRef (B "lt"))]]].
Proof.
  split; [|vm_compute; reflexivity]. intros r H.
  assert (X : r = B "#10" \/ r = B "gt" \/ r = B "lt").
  { cbn in H. repeat (destruct H as [H|H]; [try discriminate H; injection H as <-; auto|]); destruct H. }
  destruct X as [->|[->| ->]]; (split; [|vm_compute; intros [X|[X|[]]]; discriminate X]).
  - exists [10]. change (B "#10") with (35 :: ([49] ++ [48])). apply (m_num ([49] ++ [48]) 10); [|lia]. apply (nu_more 10 [49] 1 48 0); [apply nu_one|]; unfold digit; lia.
  - exists [62]. constructor.
  - exists [60]. constructor.
Qed.
(** In style and script a reference to any other entity is lost, of other
    numbers one byte is left, and hexadecimal numbers are lost; *)
Theorem C70_lost_refuted : let page r := [Elem (B "html") [] [Elem (B "script") [] [Part (PRef (B r))]]] in let text t := Ok [Elem (B "html") [] [Elem (B "script") [] [Part (PText t)]]] in
  before_writeout (page "nbsp"%string) = text [] /\ before_writeout (page "#8364"%string) = text [172] /\ before_writeout (page "#x41"%string) = text [] /\ before_writeout (page "#3000000000"%string) = UB.
Proof. repeat split; vm_compute; reflexivity. Qed.
(** a reference to an entity with the name style is lost everywhere; *)
Theorem C70_name_refuted : before_writeout [Elem (B "p") [] [Part (PRef (B "style"))]] = Ok [Elem (B "p") [] [Part (PText [])]].
Proof. vm_compute. reflexivity. Qed.
(** and writing changes the document: the second time something else is written. *)
Theorem C70_twice_refuted : let d := [Comment (B "--")] in exists d1 d2, before_writeout d = Ok d1 /\ before_writeout d1 = Ok d2 /\ d1 <> d2 /\ d1 <> d.
Proof. eexists _, _. split; [vm_compute; reflexivity|]. split; [vm_compute; reflexivity|]. split; intros X; injection X; discriminate. Qed.
