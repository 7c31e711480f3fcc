(** C57: the tags of a document rendered as html are nested and closed. *)
From Coq Require Import NArith ZArith List Bool String.
From Verif Require Import Bytes Parser Dom NsDom Printer NsPrinter RenderSpec Render NestSpec HighlightProofs RenderNest
  PropsRender.
Import ListNotations.
Local Open Scope N_scope.

Theorem C57_html_nested : forall dark C d,
  closed_nodes C d -> well_nested (fst (render_doc (html_theme dark) C d)).
Proof. exact doc_nested. Qed.

(** In particular when newlines are escaped, or when no text has a newline *)
Fixpoint newline_free (x : vnode) : Prop :=
  match x with
  | VElem _ _ _ ds a k =>
    Forall (fun d => match d_uri d with Some u => ~ In cNL u | None => True end) ds /\
    Forall (fun a => Forall (fun p => match p with PText t => ~ In cNL t | PRef _ => True end) (va_value a)) a /\
    (fix all (l : list vnode) : Prop := match l with [] => True | x :: r => newline_free x /\ all r end) k
  | VPart (PText t) => ~ In cNL t
  | VPart (PRef _) => True
  | VComment _ => True
  | VPI _ c => ~ In cNL c
  | VDoctype c => ~ In cNL c
  end.
Lemma newline_free_closed C : forall x, newline_free x -> closed_node C x.
Proof.
  fix IH 1. intros x H. destruct x as [p u n ds a k|[t|n]|t|n c|c]; try exact H.
  - destruct H as (D & A & K). split; [|split].
    + eapply Forall_impl; [|exact D]. intros d. cbv beta. unfold closed_decl. destruct (d_uri d); [apply no_nl_closed|easy].
    + eapply Forall_impl; [|exact A]. intros b X. unfold closed_attr. eapply Forall_impl; [|exact X].
      intros [t|t] Y; [now apply no_nl_closed|exact I].
    + clear D A. induction k as [|x k IHk]; [exact I|]. destruct K as [K1 K2]. split; [apply IH, K1|apply IHk, K2].
  - now apply no_nl_closed.
Qed.
Theorem C57_html_nested_lines : forall dark C d,
  Forall newline_free d -> well_nested (fst (render_doc (html_theme dark) C d)).
Proof.
  intros dark C d H. apply C57_html_nested. induction H as [|x d X H IH]; [exact I|].
  split; [now apply newline_free_closed|exact IH].
Qed.

(** A document with a text of several lines meets the condition. *)
Lemma rep_head (c : N) n : rep c (S n) = c :: rep c n.
Proof. reflexivity. Qed.
Example C57_sample : well_nested (fst (render_doc (html_theme true) pretty sample)).
Proof.
  apply C57_html_nested. cbn [sample closed_nodes closed_node]. split; [exact I|]. split; [|exact I].
  split; [|split].
  - constructor; [|constructor]. apply no_nl_closed. vm_compute. intro H.
    repeat (destruct H as [H|H]; [discriminate H|]). exact H.
  - constructor; [|constructor]. constructor; [|constructor]. apply no_nl_closed. vm_compute. intro H.
    repeat (destruct H as [H|H]; [discriminate H|]). exact H.
  - split; [|split; [exact I|split; [|exact I]]].
    + split; [constructor|split; [constructor|]]. split; [|exact I].
      right. right. intros a n b E [A _].
      (* the newline comes after the e of one *)
      assert (X : a = B "one").
      { rewrite rep_head in E. change (B "one" ++ [cNL] ++ B "two" ++ [0xc2; 0xa0] ++ B "<3>")
          with [111; 110; 101; 10; 116; 119; 111; 194; 160; 60; 51; 62] in E. cbn [app] in E.
        do 13 (destruct a as [|c a]; [try discriminate E; cbn [app] in E; try (injection E; discriminate); try reflexivity|
          cbn [app] in E; try (injection E as <- E); try discriminate E]).
        all: try reflexivity. }
      subst a. destruct A as [A|(a' & c & A & R)]; [discriminate A|].
      change (B "one") with ([111; 110] ++ [101]) in A. apply app_inj_tail in A. destruct A as [_ <-]. discriminate R.
    + split; [constructor|split; [constructor|exact I]].
Qed.

(** ** Finding: a text of newlines only leaves its tag open. *)
Theorem C57_html_nested_refuted : exists C d, ~ well_nested (fst (render_doc (html_theme true) C d)).
Proof.
  exists pretty, [VElem None None (B "a") [] [] [VPart (PText [cNL; cNL])]]. vm_compute. discriminate.
Qed.

Print Assumptions C57_html_nested.
Print Assumptions C57_html_nested_lines.
