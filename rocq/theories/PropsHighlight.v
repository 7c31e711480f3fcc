(** C56: highlighting a source loses nothing. *)
From Coq Require Import NArith List Bool String.
From Verif Require Import Bytes BytesFacts Parser ParserSpec RenderSpec Render RenderProofs RenderThemes Highlight
  HighlightProofs PropsParser.
Import ListNotations.
Local Open Scope N_scope.

(** [highlight to T fuel src aft] is what is written for the bytes [src],
    followed in memory by [aft], and the outcome. *)

(** On a terminal the source is seen, for any colors, provided that it has no
    escape byte. *)
Theorem C56_terminal : forall defs fuel src aft h s,
  no_escape_byte src ->
  highlight ToTerminal (terminal_theme defs) fuel src (0 :: aft) = (h, POk s) ->
  ansi_text h = Some src.
Proof.
  intros defs fuel src aft h s N0 H. unfold highlight in H.
  destruct (tokenize fuel src (0 :: aft)) as [s0| | | |] eqn:E; try discriminate H. apply (f_equal fst) in H. cbn [fst] in H. subst h.
  pose proof (C15_tokens_are_the_source _ _ _ _ E) as X. cbn [content_pre content_post app]. rewrite app_nil_r.
  pose proof (flat_shows ansi_text (highlight_token ToTerminal (terminal_theme defs)) (tokens s0)) as F.
  rewrite X in F. specialize (F (fun t I => token_terminal defs t (fun J => N0 (eq_ind _ (In 27) (in_texts _ _ _ I J) _ X))) []).
  rewrite app_nil_r in F. rewrite F. cbn. now rewrite app_nil_r.
Qed.

(** In html the source is seen, whatever its bytes are, and every tag is
    closed. *)
Theorem C56_html : forall dark fuel src aft h s,
  highlight ToHtml (html_theme dark) fuel src (0 :: aft) = (h, POk s) ->
  html_text h = Some src /\ well_nested h.
Proof.
  intros dark fuel src aft h s H. unfold highlight in H.
  destruct (tokenize fuel src (0 :: aft)) as [s0| | | |] eqn:E; try discriminate H. apply (f_equal fst) in H. cbn [fst] in H. subst h.
  pose proof (C15_tokens_are_the_source _ _ _ _ E) as X.
  change (content_pre ToHtml (html_theme dark)) with (head (html_theme dark)).
  change (content_post ToHtml (html_theme dark)) with (tail (html_theme dark)). split.
  - pose proof (flat_shows html_text (highlight_token ToHtml (html_theme dark)) (tokens s0)
                  (fun t _ => token_html dark t)) as F. rewrite X in F.
    assert (S1 : shows html_text (head (html_theme dark)) []) by (intro r; destruct dark; symmetry; apply add_nil).
    rewrite S1, add_nil, F. cbn. now rewrite app_nil_r.
  - apply pre_tag, flat_neutral, token_neutral.
Qed.

(** When the source has an error, the part before it is seen. *)
Theorem C56_html_error : forall dark fuel src aft h e s,
  highlight ToHtml (html_theme dark) fuel src (0 :: aft) = (h, PErr e s) ->
  exists part rest, src = part ++ rest /\ html_text h = Some part.
Proof.
  intros dark fuel src aft h e s H. unfold highlight in H.
  destruct (tokenize fuel src (0 :: aft)) as [|e0 s0| | |] eqn:E; try discriminate H. apply (f_equal fst) in H. cbn [fst] in H. subst h.
  destruct (C15_tokens_are_a_prefix _ _ _ _ _ E) as [rest X]. exists (texts (tokens s0)), rest. split; [exact X|].
  pose proof (flat_shows html_text (highlight_token ToHtml (html_theme dark)) (tokens s0)
                (fun t _ => token_html dark t) []) as F. rewrite app_nil_r in F.
  assert (S1 : shows html_text (head (html_theme dark)) []) by (intro r; destruct dark; symmetry; apply add_nil).
  change (content_pre ToHtml (html_theme dark)) with (head (html_theme dark)).
  rewrite S1, add_nil, F. cbn. now rewrite app_nil_r.
Qed.
Theorem C56_terminal_error : forall defs fuel src aft h e s,
  no_escape_byte src ->
  highlight ToTerminal (terminal_theme defs) fuel src (0 :: aft) = (h, PErr e s) ->
  exists part rest, src = part ++ rest /\ ansi_text h = Some part.
Proof.
  intros defs fuel src aft h e s N0 H. unfold highlight in H.
  destruct (tokenize fuel src (0 :: aft)) as [|e0 s0| | |] eqn:E; try discriminate H. apply (f_equal fst) in H. cbn [fst] in H. subst h.
  destruct (C15_tokens_are_a_prefix _ _ _ _ _ E) as [rest X]. exists (texts (tokens s0)), rest. split; [exact X|].
  pose proof (flat_shows ansi_text (highlight_token ToTerminal (terminal_theme defs)) (tokens s0)) as F.
  assert (K : forall t, In t (tokens s0) -> ~ In 27 (t_text t)).
  { intros t I J. apply N0. rewrite X. apply in_or_app. left. exact (in_texts _ _ _ I J). }
  specialize (F (fun t I => token_terminal defs t (K t I)) []).
  cbn [content_pre app]. rewrite app_nil_r in F. rewrite F. cbn. now rewrite app_nil_r.
Qed.

(** A source with tags, references and quotes in it *)
Definition marked : bytes := B "a(k='<b>') { x = 'R&D &amp;' // c < d" ++ [cNL] ++ B "&lt; }".
Example C56_sample : exists h s,
  highlight ToHtml (html_theme true) (enough marked) marked [0] = (h, POk s) /\ html_text h = Some marked.
Proof.
  destruct (highlight ToHtml (html_theme true) (enough marked) marked [0]) as [h r] eqn:E.
  assert (X : exists s, r = POk s) by (rewrite <- (f_equal snd E : _ = r); vm_compute; eauto).
  destruct X as [s ->]. exists h, s. split; [reflexivity|]. exact (proj1 (C56_html _ _ _ _ _ _ E)).
Qed.
Example C56_sample_terminal : exists h s,
  highlight ToTerminal (terminal_theme light) (enough marked) marked [0] = (h, POk s) /\ ansi_text h = Some marked.
Proof.
  destruct (highlight ToTerminal (terminal_theme light) (enough marked) marked [0]) as [h r] eqn:E.
  assert (X : exists s, r = POk s) by (rewrite <- (f_equal snd E : _ = r); vm_compute; eauto).
  destruct X as [s ->]. exists h, s. split; [reflexivity|]. apply (C56_terminal _ _ _ _ _ _) with (2 := E).
  vm_compute. intro H. repeat (destruct H as [H|H]; [discriminate H|]). exact H.
Qed.

(** ** Findings *)

(** Without colors nothing at all is written. *)
Theorem C56_plain_writes_nothing : forall fuel src aft h s,
  highlight ToPlain plain_theme fuel src aft = (h, POk s) -> h = [].
Proof.
  intros fuel src aft h s H. unfold highlight in H.
  destruct (tokenize fuel src aft) as [s0| | | |]; try discriminate H. apply (f_equal fst) in H. cbn [fst] in H. subst h.
  cbn [content_pre content_post app]. rewrite app_nil_r. induction (tokens s0) as [|t ts IH]; [reflexivity|exact IH].
Qed.

(** In tex the braces are not seen, since they are not escaped. *)
Theorem C56_tex_refuted : exists h s,
  highlight ToTex tex_theme 9 (B "a{b}") [0] = (h, POk s) /\ tex_text h = Some (B "ab" ++ [cNL; cNL]).
Proof.
  destruct (highlight ToTex tex_theme 9 (B "a{b}") [0]) as [h r] eqn:E. vm_compute in E.
  injection E as <- <-. eexists _, _. split; [reflexivity|]. vm_compute. reflexivity.
Qed.

Print Assumptions C56_terminal.
Print Assumptions C56_html.
Print Assumptions C56_html_error.
Print Assumptions C56_terminal_error.
Print Assumptions C56_plain_writes_nothing.
