(** C55: rendering with colors shows the same document. *)
From Coq Require Import NArith ZArith List Bool Arith Lia String.
From Verif Require Import Bytes Utf8 Quote Parser Dom NsDom Printer NsPrinter RenderSpec Render RenderProofs
  RenderThemes.
From Verif Require NsPlain.
Import ListNotations.
Local Open Scope N_scope.

(** The output without colors: [fst (v_print_doc C d)].  For documents without
    namespaces it is the output of the printer of C26-C29, and it is what the
    rendering without colors writes. *)
Theorem C55_plain_output : forall C d,
  v_print_doc C (map NsPlain.plain d) = print_doc C d.
Proof. exact plain_doc. Qed.
Theorem C55_plain : forall C d, render_doc plain_theme C d = v_print_doc C d.
Proof. exact render_plain. Qed.

(** On a terminal, for any definition of the colors, what is seen is the
    output without colors, provided that it has no escape byte. *)
Theorem C55_terminal : forall defs C d,
  no_escape_byte (fst (v_print_doc C d)) ->
  ansi_text (fst (render_doc (terminal_theme defs) C d)) = Some (fst (v_print_doc C d)).
Proof.
  intros defs C d H. destruct d as [|x d]; [reflexivity|].
  destruct (doc_shows ansi_text no_escape_byte (terminal_theme defs) C (x :: d) [] []) as [A _];
    [apply terminal_faithful|easy|apply shows_nil|intro r; reflexivity|exact H|reflexivity|].
  now rewrite app_nil_r in A.
Qed.

(** On an html page, provided that no continuation byte follows an ampersand or
    an angle bracket, which never happens in utf8. *)
Theorem C55_html : forall dark C d,
  html_clean (fst (v_print_doc C d)) ->
  html_text (fst (render_doc (html_theme dark) C d)) = Some (fst (v_print_doc C d)).
Proof.
  intros dark C d H. destruct d as [|x d]; [reflexivity|].
  destruct (doc_shows html_text html_clean (html_theme dark) C (x :: d) [] []) as [A _];
    [apply html_faithful|easy|intro r; destruct dark; symmetry; apply add_nil|intro r; reflexivity|exact H|reflexivity|].
  now rewrite app_nil_r in A.
Qed.

(** On a typeset page, provided that the output has no characters that are
    not escaped; two line ends come after it. *)
Theorem C55_tex : forall C d,
  d <> [] -> tex_clean (fst (v_print_doc C d)) ->
  tex_text (fst (render_doc tex_theme C d)) = Some (fst (v_print_doc C d) ++ [cNL; cNL]).
Proof.
  intros C d D H.
  destruct (doc_shows tex_text tex_clean tex_theme C d [] [cNL; cNL]) as [A _];
    [apply tex_faithful|exact D| | |exact H|reflexivity|exact A];
    intro r; unfold tex_text; destruct (tex TText r) eqn:E; cbn; rewrite E; reflexivity.
Qed.

(** A document with a namespace, an attribute, a comment, an entity, a no-break
    space and a text of several lines, in both layouts: the conditions hold. *)
Definition pretty : cfg := Cfg false false false false 4.
Definition tight : cfg := Cfg true false false false 4.
Definition sample : list vnode :=
  [VComment (B "a < b & c");
   VElem (Some (B "x")) (Some (B "urn:x")) (B "root") [Decl (Some (B "x")) (Some (B "urn:x"))]
     [VAttr None None (B "id") [PText (B "it's")]]
     [VElem None None (B "k") [] [] [VPart (PText (B "one" ++ [cNL] ++ B "two" ++ [0xc2; 0xa0] ++ B "<3>"))];
      VPart (PRef (B "nbsp"));
      VElem None None (B "empty") [] [] []]].
Lemma no_escape_sound o : existsb (N.eqb 27) o = false -> no_escape_byte o.
Proof.
  intros H X. enough (existsb (N.eqb 27) o = true) by congruence. apply existsb_exists. now exists 27.
Qed.
Example C55_sample_terminal :
  ansi_text (fst (render_doc (terminal_theme dark) pretty sample)) = Some (fst (v_print_doc pretty sample)).
Proof. apply C55_terminal, no_escape_sound. vm_compute. reflexivity. Qed.
Fixpoint strayb (l : bytes) (o : bytes) : bool :=
  match o with
  | c :: r => (existsb (fun x => c =? x) l && match r with d :: _ => is_cont d | [] => false end) || strayb l r
  | [] => false
  end.
Lemma strayb_sound l o : strayb l o = false -> ~ stray_after l o.
Proof.
  intros H (a & c & d & b & -> & L & D). induction a as [|x a IH].
  - cbn in H. rewrite D in H. apply orb_false_iff in H. destruct H as [H _].
    rewrite andb_true_r in H. enough (existsb (fun x => c =? x) l = true) by congruence.
    apply existsb_exists. exists c. split; [exact L|apply N.eqb_refl].
  - apply IH. cbn [app strayb] in H. apply orb_false_iff in H. apply H.
Qed.
Example C55_sample_html : forall C, C = pretty \/ C = tight ->
  html_text (fst (render_doc (html_theme true) C sample)) = Some (fst (v_print_doc C sample)).
Proof. intros C [-> | ->]; apply C55_html, strayb_sound; vm_compute; reflexivity. Qed.

(** ** Findings *)

(** A comment is written as it is: escape sequences in it reach the terminal. *)
Theorem C55_terminal_refuted : exists C d,
  ansi_text (fst (render_doc (terminal_theme dark) C d)) <> Some (fst (v_print_doc C d)).
Proof. exists tight, [VComment (27 :: B "[31mred")]. vm_compute. discriminate. Qed.

(** A continuation byte after an escaped character is lost. *)
Theorem C55_html_stray_refuted : exists C d,
  html_text (fst (render_doc (html_theme true) C d)) <> Some (fst (v_print_doc C d)).
Proof. exists tight, [VComment [cAMP; 0xa0]]. vm_compute. discriminate. Qed.

(** A percent sign starts a comment: the rest of the line is not seen, and the
    brace after it does not close the group. *)
Theorem C55_tex_percent_refuted : exists C d,
  fst (v_print_doc C d) = B "a=5%" ++ [cNL] /\
  tex_text (fst (render_doc tex_theme C d)) = Some (B "a=5" ++ [cNL; cNL]).
Proof. exists tight, [VElem None None (B "a") [] [] [VPart (PText (B "5%"))]]. split; vm_compute; reflexivity. Qed.

(** A backslash is seen with a semicolon after it. *)
Theorem C55_tex_backslash_refuted : exists C d,
  fst (v_print_doc C d) = B "a=\n" ++ [cNL] /\
  tex_text (fst (render_doc tex_theme C d)) = Some (B "a=\;n" ++ [cNL; cNL; cNL]).
Proof. exists tight, [VElem None None (B "a") [] [] [VPart (PText (B "\n"))]]. split; vm_compute; reflexivity. Qed.

Print Assumptions C55_plain_output.
Print Assumptions C55_plain.
Print Assumptions C55_terminal.
Print Assumptions C55_html.
Print Assumptions C55_tex.
