(** What is written of a text: everything, if no continuation byte of utf8 comes
    directly after a space or tab. *)
From Coq Require Import NArith List Bool Lia.
From Verif Require Import Bytes Utf8 QuoteSpec Dom Printer Grammar Compact.
Import ListNotations.
Local Open Scope N_scope.

Lemma is_blank_iff c : is_blank c = true <-> c = cSP \/ c = cTAB.
Proof. unfold is_blank. now rewrite orb_true_iff, !N.eqb_eq. Qed.
Lemma cont_not_blank d : is_cont d = true -> is_blank d = false.
Proof.
  intros H. apply not_true_iff_false. rewrite is_blank_iff. intros [-> | ->]; discriminate.
Qed.

Lemma stray_app a b : no_stray (a ++ b) -> no_stray a /\ no_stray b.
Proof.
  intros H. split; intros x c d y E.
  - apply (H x c d (y ++ b)). rewrite E, <- app_assoc. reflexivity.
  - apply (H (a ++ x) c d y). rewrite E, <- app_assoc. reflexivity.
Qed.
Lemma stray_tail c b : no_stray (c :: b) -> no_stray b.
Proof. intros H. now apply (stray_app [c] b). Qed.
Lemma no_stray_nil : no_stray [].
Proof. intros x c d y E. destruct x; discriminate. Qed.
Lemma no_stray_one c : no_stray [c].
Proof. intros x d e y E. destruct x as [|? [|? ?]]; discriminate. Qed.
Lemma no_stray_cons c d r : (is_blank c = true -> is_cont d = false) -> no_stray (d :: r) -> no_stray (c :: d :: r).
Proof.
  intros H H' x e f y E. destruct x as [|z x].
  - injection E as <- <- <-. intros B. now apply H, is_blank_iff.
  - injection E as _ E. now apply (H' x e f y).
Qed.
(** Enough: no space and no tab at all, or no continuation byte. *)
Lemma no_blank_stray t : ~ In cSP t -> ~ In cTAB t -> no_stray t.
Proof.
  intros H1 H2 x c d y -> [-> | ->]; exfalso; [apply H1|apply H2]; apply in_or_app; right; now left.
Qed.
Lemma no_cont_stray t : forallb (fun c => negb (is_cont c)) t = true -> no_stray t.
Proof.
  intros H x c d y -> _. rewrite forallb_forall in H. apply negb_true_iff, H, in_or_app. right. right. now left.
Qed.

Lemma written_after_id t : forall blank, no_stray t -> (blank = true -> match t with [] => True | c :: _ => is_cont c = false end) -> written_after blank t = t.
Proof.
  induction t as [|c t IH]; intros blank H B; [reflexivity|]. cbn [written_after].
  assert (blank && is_cont c = false) as -> by (destruct blank; [now rewrite B|reflexivity]). f_equal. apply IH; [now apply stray_tail in H|].
  intros E. destruct t as [|d t]; [exact Logic.I|]. apply (H [] c d t eq_refl). now apply is_blank_iff.
Qed.
Lemma written_id t : no_stray t -> written t = t.
Proof. intros H. apply written_after_id; auto. discriminate. Qed.

(** Decidable, for the examples. *)
Fixpoint no_strayb (blank : bool) (t : bytes) : bool :=
  match t with [] => true | c :: r => negb (blank && is_cont c) && no_strayb (is_blank c) r end.
Lemma no_strayb_spec t : forall blank, no_strayb blank t = true -> no_stray t.
Proof.
  induction t as [|c t IH]; intros blank H; [apply no_stray_nil|]. cbn [no_strayb] in H. apply andb_true_iff in H as [_ H].
  destruct t as [|d t]; [apply no_stray_one|]. apply no_stray_cons; [|now apply (IH (is_blank c))].
  intros E. cbn [no_strayb] in H. rewrite E in H. cbn [andb] in H. apply andb_true_iff in H as [H _]. now apply negb_true_iff.
Qed.

(** quote_chars takes a character and its continuation bytes together. *)
Lemma take_cont_stray c r a b : take_cont r = (a, b) -> no_stray (c :: r) -> (if is_blank c then [c] else c :: a) = c :: a.
Proof.
  intros E H. destruct (is_blank c) eqn:B; auto. destruct r as [|d r]; cbn in E; [now injection E as <- <-|].
  rewrite (H [] c d r eq_refl) in E by (now apply is_blank_iff). now injection E as <- <-.
Qed.
