(** Proofs about highlighting and about the nesting of html tags. *)
From Coq Require Import NArith List Bool String.
From Verif Require Import Bytes BytesFacts Parser ParserSpec RenderSpec Render RenderProofs RenderThemes Highlight.
Import ListNotations.
Local Open Scope N_scope.

(** ** What is shown *)
Definition each (strip : bytes -> option bytes) (f : token -> bytes) : Prop :=
  forall t, shows strip (f t) (t_text t).
Lemma flat_shows strip f (ts : list token) : (forall t, In t ts -> shows strip (f t) (t_text t)) ->
  shows strip (flat_map f ts) (texts ts).
Proof.
  induction ts as [|t ts IH]; intro H; [apply shows_nil|]. unfold texts. cbn [flat_map map List.concat].
  apply shows_app; [apply H; now left|]. apply IH. intros u U. apply H. now right.
Qed.
Lemma safe_html_shows t : shows html_text (safe_html t) t.
Proof.
  induction t as [|c t IH]; [apply shows_nil|]. unfold safe_html. cbn [flat_map].
  apply (shows_app html_text _ [c] _ t); [|exact IH]. clear IH.
  destruct (N.eqb_spec c cAMP) as [->|A]; [intro r; reflexivity|].
  destruct (N.eqb_spec c cLT) as [->|L]; [intro r; reflexivity|].
  destruct (N.eqb_spec c cGT) as [->|G]; [intro r; reflexivity|].
  destruct (N.eqb_spec c cDQ) as [->|D]; [intro r; reflexivity|].
  now apply html_char.
Qed.
Lemma token_html dm t : shows html_text (highlight_token ToHtml (html_theme dm) t) (t_text t).
Proof.
  pose proof (f_pre _ _ _ (html_faithful dm) (CTok (t_kind t))) as P.
  pose proof (f_post _ _ _ (html_faithful dm) (CTok (t_kind t))) as Q.
  unfold highlight_token. destruct (strings _ _) as [p q]. cbn [fst snd] in *.
  rewrite <- (app_nil_r (t_text t)) at 2. rewrite <- (app_nil_l (t_text t ++ [])).
  apply shows_app; [destruct p; [exact P|apply shows_nil]|].
  apply shows_app; [apply safe_html_shows|destruct q; [exact Q|apply shows_nil]].
Qed.
Lemma token_terminal defs t : ~ In 27 (t_text t) ->
  shows ansi_text (highlight_token ToTerminal (terminal_theme defs) t) (t_text t).
Proof.
  intro H. pose proof (f_pre _ _ _ (terminal_faithful defs) (CTok (t_kind t))) as P.
  pose proof (f_post _ _ _ (terminal_faithful defs) (CTok (t_kind t))) as Q.
  unfold highlight_token. destruct (strings _ _) as [p q]. cbn [fst snd] in *.
  rewrite <- (app_nil_r (t_text t)) at 2. rewrite <- (app_nil_l (t_text t ++ [])).
  apply shows_app; [destruct p; [exact P|apply shows_nil]|].
  apply shows_app; [now apply ansi_chars|destruct q; [exact Q|apply shows_nil]].
Qed.
Lemma in_texts c t ts : In t ts -> In c (t_text t) -> In c (texts ts).
Proof.
  intros H K. unfold texts. apply in_concat. exists (t_text t). split; [now apply in_map|exact K].
Qed.

(** ** Nesting *)
Definition neutral (h : bytes) : Prop := forall open r, tags GText open (h ++ r) = tags GText open r.
Definition in_tag (n h : bytes) : Prop :=
  forall open r, tags GText (n :: open) (h ++ r) = tags GText (n :: open) r.
Lemma neutral_nil : neutral [].
Proof. intros o r. reflexivity. Qed.
Lemma neutral_app a b : neutral a -> neutral b -> neutral (a ++ b).
Proof. intros A Bb o r. now rewrite <- app_assoc, A, Bb. Qed.
Lemma neutral_char c : c <> cLT -> neutral [c].
Proof. intros H o r. cbn [app tags]. destruct (N.eqb_spec c cLT); [contradiction|reflexivity]. Qed.
Lemma neutral_text l : ~ In cLT l -> neutral l.
Proof.
  induction l as [|c l IH]; intro H; [exact neutral_nil|].
  apply (neutral_app [c] l); [apply neutral_char; intros ->; apply H; now left|].
  apply IH. intro X. apply H. now right.
Qed.
Lemma open_tag n open r : tags GText open (([cLT] ++ name_text n ++ [cGT]) ++ r) = tags GText (name_text n :: open) r.
Proof. destruct n; reflexivity. Qed.
Lemma close_tag n open r :
  tags GText (name_text n :: open) (([cLT; cSLASH] ++ name_text n ++ [cGT]) ++ r) = tags GText open r.
Proof. destruct n; reflexivity. Qed.
Lemma tagged n h : neutral h ->
  neutral (([cLT] ++ name_text n ++ [cGT]) ++ h ++ ([cLT; cSLASH] ++ name_text n ++ [cGT])).
Proof.
  intros H o r. set (a := [cLT] ++ _). set (b := [cLT; cSLASH] ++ _).
  replace ((a ++ h ++ b) ++ r) with (a ++ h ++ b ++ r) by now rewrite !app_assoc.
  unfold a, b. rewrite open_tag, H. apply close_tag.
Qed.
Lemma pre_tag dm h open : neutral h ->
  tags GText open (head (html_theme dm) ++ h ++ tail (html_theme dm)) = Some open.
Proof.
  intro H. assert (E : forall r, tags GText open (head (html_theme dm) ++ r) = tags GText (B "pre" :: open) r).
  { intro r. now destruct dm. }
  rewrite E, H. reflexivity.
Qed.
Lemma safe_html_neutral t : neutral (safe_html t).
Proof.
  induction t as [|c t IH]; [exact neutral_nil|]. unfold safe_html. cbn [flat_map].
  apply neutral_app; [|exact IH]. clear IH.
  destruct (c =? cAMP); [intros o r; reflexivity|].
  destruct (N.eqb_spec c cLT) as [->|L]; [intros o r; reflexivity|].
  destruct (c =? cGT); [intros o r; reflexivity|].
  destruct (c =? cDQ); [intros o r; reflexivity|].
  now apply neutral_char.
Qed.
Lemma token_neutral dm t : neutral (highlight_token ToHtml (html_theme dm) t).
Proof.
  unfold highlight_token, html_theme. cbn [strings]. destruct (name_of _) as [n|]; cbn [string_of].
  - apply tagged, safe_html_neutral.
  - rewrite app_nil_l, app_nil_r. apply safe_html_neutral.
Qed.
Lemma flat_neutral f (ts : list token) : (forall t, neutral (f t)) -> neutral (flat_map f ts).
Proof. intro H. induction ts as [|t ts IH]; [exact neutral_nil|]. cbn. now apply neutral_app. Qed.
