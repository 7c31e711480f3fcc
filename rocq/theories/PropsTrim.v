(** Properties C38 and C47: trimming of the whitespace of a document.

    [trim_text_node s] is trim_text_node on a node with content [s]: the new
    content, or None if the node is removed.  [trim_nodes d] is
    xmqTrimWhitespace on the document with the top nodes [d]. *)
From Coq Require Import NArith List Bool Arith Lia String.
From Verif Require Import Bytes BytesFacts Outcome Quote QuoteSpec QuoteProofs Trim TrimSpec TrimProofs.
From Verif Require Dom.
Import ListNotations.
Local Open Scope N_scope.

Notation node := Dom.node.
Notation Elem := Dom.Elem.
Notation Part := Dom.Part.
Notation PText := Dom.PText.
Notation Comment := Dom.Comment.

Lemma node_nested_ind (P : node -> Prop) :
  (forall n a k, Forall P k -> P (Elem n a k)) -> (forall p, P (Part p)) -> (forall t, P (Comment t)) ->
  (forall n c, P (Dom.PI n c)) -> (forall c, P (Dom.Doctype c)) -> forall n, P n.
Proof.
  intros He Hp Hc Hi Hd. fix IH 1. intros [n a k|p|t|n c|c].
  - apply He. induction k as [|x k IHk]; constructor; [apply IH|exact IHk].
  - apply Hp.
  - apply Hc.
  - apply Hi.
  - apply Hd.
Qed.

Lemma trim_elem n a k : trim_node (Elem n a k) = obind (trim_nodes k) (fun k' => Ok [Elem n a k']).
Proof.
  reflexivity.
Qed.

Lemma trimmed_text_node s : c_text s ->
  (trim_text_node s = Ok None /\ less_white s []) \/
  (exists t, t <> [] /\ trim_text_node s = Ok (Some t) /\ less_white s t /\ t = trimmed s).
Proof.
  intros [H1 H2]. pose proof (lw_trimmed s) as L. rewrite trim_text_spec by auto. destruct (trimmed s) as [|c t] eqn:E; auto.
  right. exists (c :: t). repeat split; auto. discriminate.
Qed.

(** C47.  Trimming a document always succeeds, whatever its texts look like,
    and changes nothing but whitespace in texts and comments: every element,
    attribute, reference, processing instruction and every other character is
    kept, in order.  Texts with carriage returns are left out, for which the
    quote trimming reads past the end (C21_lone_carriage_return_refuted). *)
Theorem C47_only_whitespace_is_removed : forall d,
  Forall (in_node c_text) d ->
  exists d', trim_nodes d = Ok d' /\ nodes_trimmed d d'.
Proof.
  assert (Hn : forall n, in_node c_text n -> exists a, trim_node n = Ok a /\ node_trimmed n a).
  { apply (node_nested_ind (fun n => in_node c_text n -> exists a, trim_node n = Ok a /\ node_trimmed n a)).
    - intros n a k IH H. inversion H as [| |? ? ? Hk| | |]; subst. 
      assert (Hs : exists k', trim_nodes k = Ok k' /\ nodes_trimmed k k').
      { clear H. induction IH as [|x k Hx IH IHk]; [exists []; split; [reflexivity|constructor]|].
        inversion Hk; subst. destruct (Hx H1) as (b & E1 & T1). destruct (IHk H2) as (k' & E2 & T2).
        exists (b ++ k'). cbn [trim_nodes]. rewrite E1, E2. split; [reflexivity|constructor; auto]. }
      destruct Hs as (k' & E & T). rewrite trim_elem, E. eexists. split; [reflexivity|constructor; auto].
    - intros [t|m] H; [|eexists; split; [reflexivity|constructor]].
      inversion H; subst. cbn [trim_node]. destruct (trimmed_text_node t) as [[E L]|(u & Hu & E & L & _)]; auto; rewrite E; cbn [obind];
        eexists; (split; [reflexivity|]); [apply NT_text_gone; auto|apply NT_text; auto].
    - intros t H. inversion H; subst. cbn [trim_node]. destruct (trimmed_text_node t) as [[E L]|(u & Hu & E & L & _)]; auto; rewrite E; cbn [obind];
        eexists; (split; [reflexivity|]); [apply NT_comment_gone; auto|apply NT_comment; auto].
    - intros n c _. eexists. split; [reflexivity|constructor].
    - intros c _. eexists. split; [reflexivity|constructor]. }
  induction 1 as [|n d H HF IH]; [exists []; split; [reflexivity|constructor]|].
  destruct (Hn n H) as (a & E1 & T1). destruct IH as (d' & E2 & T2). exists (a ++ d').
  cbn [trim_nodes]. rewrite E1, E2. split; [reflexivity|constructor; auto].
Qed.

(** In particular the characters that are no whitespace are all kept. *)
Theorem C47_words_are_kept : forall s, c_text s ->
  exists r, trim_text_node s = Ok r /\
    filter (fun c => negb (is_xml_whitespace c)) (match r with Some t => t | None => [] end)
    = filter (fun c => negb (is_xml_whitespace c)) s.
Proof.
  intros s H. destruct (trimmed_text_node s H) as [[E L]|(t & _ & E & L & _)]; eexists; (split; [exact E|]); now apply lw_words.
Qed.

(** The trimmed text is the one described by [trimmed] (TrimSpec.v). *)
Theorem C47_trimmed_text : forall s, c_text s ->
  trim_text_node s = Ok (match trimmed s with [] => None | t => Some t end).
Proof. intros s [H1 H2]. now apply trim_text_spec. Qed.

(** One pass over a text; a removed text is empty. *)
Definition pass (r : out (option bytes)) : out (option bytes) :=
  match r with Ok (Some t) => trim_text_node t | _ => r end.

(** C38, what holds for all texts: trimming again and again comes to an end
    after at most as many passes as the text has bytes. *)
Theorem C38_trimming_settles_partial : forall s, c_text s -> s <> [] ->
  exists k, (k <= List.length s)%nat /\
    let r := iter k pass (Ok (Some s)) in pass r = r /\ exists o, r = Ok o.
Proof.
  intros s Hs Hs0. destruct (trimming_settles s) as (k & Hk & E). exists k. split; [exact Hk|].
  assert (H : forall j, exists o, iter j pass (Ok (Some s)) = Ok o /\
     (o = None /\ iter j trimmed s = [] \/ exists t, o = Some t /\ iter j trimmed s = t /\ c_text t /\ t <> [])).
  { induction j as [|j (o & IH1 & IH2)]; cbn [iter].
    - exists (Some s). split; auto. right. exists s. auto.
    - rewrite IH1. destruct IH2 as [[-> Ej]|(t & -> & Ej & Ht & Ht0)].
      + exists None. split; [reflexivity|]. left. rewrite Ej. auto.
      + cbn [pass]. rewrite Ej. destruct (trimmed_text_node t Ht) as [[E1 L]|(u & Hu & E1 & L & Eu)].
        * exists None. split; auto. left. split; auto. rewrite (C47_trimmed_text t Ht) in E1.
          destruct (trimmed t); [reflexivity|discriminate].
        * exists (Some u). split; auto. right. exists u. split; auto. split; [congruence|]. split; [|exact Hu].
          destruct Ht as [H1 H2]. split; intros Hi; [apply H1|apply H2]; eapply lw_in; eauto. }
  cbv zeta. destruct (H k) as (o & -> & Ho). split; [|eauto].
  destruct Ho as [[-> Ek]|(t & -> & Ek & Ht & Ht0)]; [reflexivity|]. cbn [pass].
  rewrite C47_trimmed_text by auto. rewrite Ek in E. rewrite E.
  destruct t; [congruence|reflexivity].
Qed.

(** C38, the texts that settle at once: those that start on their first line
    and have at most one blank line at the end.  Trimming the trimmed text
    changes nothing. *)
Theorem C38_trimming_is_idempotent_partial : forall s t, c_text s -> settles s ->
  trim_text_node s = Ok (Some t) -> trim_text_node t = Ok (Some t).
Proof.
  intros s t Hs Hset E. destruct (trimmed_text_node s Hs) as [[E1 _]|(u & Hu & E1 & L & Eu)]; [congruence|].
  assert (Eut : u = t) by congruence. rewrite Eut in *. clear u Eut.
  assert (Ht : c_text t).
  { destruct Hs as [H1 H2]. split; intros Hi; [exact (H1 (lw_in s t cCR L Hi))|exact (H2 (lw_in s t 0 L Hi))]. }
  rewrite C47_trimmed_text by auto. rewrite Eu at 1. rewrite settles_trimmed by (auto; apply Hs). rewrite <- Eu.
  destruct t; [congruence|reflexivity].
Qed.

(** The same for whole documents. *)
Theorem C38_document_partial : forall d d',
  Forall (in_node (fun t => c_text t /\ settles t)) d ->
  trim_nodes d = Ok d' -> trim_nodes d' = Ok d'.
Proof.
  set (P := fun t => c_text t /\ settles t).
  assert (Happ : forall a b a' b', trim_nodes a = Ok a' -> trim_nodes b = Ok b' -> trim_nodes (a ++ b) = Ok (a' ++ b')).
  { induction a as [|x a IH]; intros b a' b' Ha Hb.
    - injection Ha as <-. exact Hb.
    - cbn [trim_nodes app] in *. destruct (trim_node x) as [u| | | |]; try discriminate. cbn [obind] in *.
      destruct (trim_nodes a) as [v| | | |] eqn:Ea; try discriminate. cbn [obind] in Ha. injection Ha as <-.
      rewrite (IH b v b' eq_refl Hb). cbn [obind]. rewrite app_assoc. reflexivity. }
  assert (Hone : forall n a, trim_node n = Ok a -> trim_nodes [n] = Ok a).
  { intros n a E. cbn. rewrite E. cbn. rewrite app_nil_r. reflexivity. }
  assert (Hn : forall n, in_node P n -> forall a, trim_node n = Ok a -> trim_nodes a = Ok a).
  { apply (node_nested_ind (fun n => in_node P n -> forall a, trim_node n = Ok a -> trim_nodes a = Ok a)).
    - intros n a k IH H b E. inversion H as [| |? ? ? Hk| | |]; subst. rewrite trim_elem in E.
      destruct (trim_nodes k) as [k'| | | |] eqn:Ek; try discriminate. cbn [obind] in E. injection E as <-.
      apply Hone. rewrite trim_elem.
      assert (Hs : trim_nodes k' = Ok k').
      { clear H. revert k' Ek. induction IH as [|x k Hx IH IHk]; intros k' Ek.
        - injection Ek as <-. reflexivity.
        - inversion Hk; subst. cbn [trim_nodes] in Ek. destruct (trim_node x) as [u| | | |] eqn:Ex; try discriminate. cbn [obind] in Ek.
          destruct (trim_nodes k) as [v| | | |] eqn:Ev; try discriminate. cbn [obind] in Ek. injection Ek as <-.
          apply Happ; [apply Hx; auto|apply IHk; auto]. }
      rewrite Hs. reflexivity.
    - intros [t|m] H a E; [|injection E as <-; reflexivity].
      inversion H as [? HP| | | | |]; subst. destruct HP as [Ht Hst]. cbn [trim_node] in E.
      destruct (trimmed_text_node t Ht) as [[E1 _]|(u & Hu & E1 & _)]; rewrite E1 in E; cbn [obind] in E; injection E as <-; [reflexivity|].
      apply Hone. cbn [trim_node]. rewrite (C38_trimming_is_idempotent_partial t u Ht Hst E1). reflexivity.
    - intros t H a E. inversion H as [|? HP| | | |]; subst. destruct HP as [Ht Hst]. cbn [trim_node] in E.
      destruct (trimmed_text_node t Ht) as [[E1 _]|(u & Hu & E1 & _)]; rewrite E1 in E; cbn [obind] in E; injection E as <-; [reflexivity|].
      apply Hone. cbn [trim_node]. rewrite (C38_trimming_is_idempotent_partial t u Ht Hst E1). reflexivity.
    - intros n c _ a E. injection E as <-. reflexivity.
    - intros c _ a E. injection E as <-. reflexivity. }
  intros d d' H. revert d'. induction H as [|n d H HF IH]; intros d' E.
  - injection E as <-. reflexivity.
  - cbn [trim_nodes] in E. destruct (trim_node n) as [a| | | |] eqn:En; try discriminate. cbn [obind] in E.
    destruct (trim_nodes d) as [e| | | |] eqn:Ed; try discriminate. cbn [obind] in E. injection E as <-.
    apply Happ; [eapply Hn; eauto|apply IH; auto].
Qed.

Local Open Scope string_scope.
Definition nl : bytes := [10].
Definition sp (n : nat) : bytes := rep cSP n.

(** A text and a document that meet the hypotheses. *)
Example C38_hypotheses_met :
  let s := (B " a" ++ nl ++ sp 6 ++ B "b" ++ nl ++ sp 4 ++ B "c" ++ nl ++ sp 2)%list in
  c_text s /\ settles s /\ trim_text_node s = Ok (Some (B "a" ++ nl ++ B "  b" ++ nl ++ B "c")%list).
Proof.
  cbv zeta. split; [split; vm_compute; intuition discriminate|]. split; [split; vm_compute; auto|]. vm_compute. reflexivity.
Qed.

(** C38 is false as stated.  An indented block whose first line is indented
    less than the second loses its shape: the first pass takes the indentation
    from all lines, the second pass only from the lines after the first. *)
Theorem C38_indentation_is_lost_refuted : exists s t u, c_text s /\
  trim_text_node s = Ok (Some t) /\ trim_text_node t = Ok (Some u) /\ u <> t.
Proof.
  exists (nl ++ sp 2 ++ B "if" ++ nl ++ sp 4 ++ B "x" ++ nl ++ sp 4 ++ B "y" ++ nl)%list.
  exists (B "if" ++ nl ++ sp 2 ++ B "x" ++ nl ++ sp 2 ++ B "y")%list, (B "if" ++ nl ++ B "x" ++ nl ++ B "y")%list.
  split; [split; vm_compute; intuition discriminate|].
  split; [vm_compute; reflexivity|]. split; [vm_compute; reflexivity|vm_compute; discriminate].
Qed.

(** Each pass removes one of several blank lines at the start or the end. *)
Theorem C38_blank_lines_refuted : 
  (exists s t u, c_text s /\ trim_text_node s = Ok (Some t) /\ trim_text_node t = Ok (Some u) /\ u <> t
     /\ blank (hd [] (split_lines s)) = false) /\
  (exists s t u, c_text s /\ trim_text_node s = Ok (Some t) /\ trim_text_node t = Ok (Some u) /\ u <> t
     /\ (lead_blank (rev (split_lines s)) <= 1)%nat).
Proof.
  split.
  - exists (B "a" ++ nl ++ nl ++ nl)%list, (B "a" ++ nl ++ nl)%list, (B "a" ++ nl)%list.
    split; [split; vm_compute; intuition discriminate|].
    split; [vm_compute; reflexivity|]. split; [vm_compute; reflexivity|]. split; [vm_compute; discriminate|vm_compute; reflexivity].
  - exists (nl ++ nl ++ B "a")%list, (nl ++ B "a")%list, (B "a").
    split; [split; vm_compute; intuition discriminate|].
    split; [vm_compute; reflexivity|]. split; [vm_compute; reflexivity|]. split; [vm_compute; discriminate|vm_compute; auto].
Qed.

(** A document that meets the hypotheses of C47 and C38. *)
Example C47_hypotheses_met :
  let d := [Elem (B "p") [(B "q", [PText (B " ")])] [Part (PText (nl ++ sp 2)%list); Elem (B "b") [] [Part (PText (B " x "))];
            Comment (B " c " ++ nl)%list]] in
  Forall (in_node c_text) d /\
  trim_nodes d = Ok [Elem (B "p") [(B "q", [PText (B " ")])] [Elem (B "b") [] [Part (PText (B "x"))]; Comment (B "c")]].
Proof.
  cbv zeta. split; [|vm_compute; reflexivity].
  assert (H : forall s : bytes, forallb (fun c => (negb (c =? cCR) && negb (c =? 0))%N%bool) s = true -> c_text s).
  { intros s E. rewrite forallb_forall in E. split; intros Hi; specialize (E _ Hi); discriminate. }
  repeat (constructor; try (apply H; reflexivity)).
Qed.

Print Assumptions C38_trimming_settles_partial.
Print Assumptions C38_trimming_is_idempotent_partial.
Print Assumptions C38_document_partial.
Print Assumptions C38_indentation_is_lost_refuted.
Print Assumptions C38_blank_lines_refuted.
Print Assumptions C47_only_whitespace_is_removed.
Print Assumptions C47_words_are_kept.
Print Assumptions C47_trimmed_text.
