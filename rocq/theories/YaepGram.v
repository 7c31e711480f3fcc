(** Facts about derivations. *)
From Coq Require Import NArith List Bool Arith Lia.
From Verif Require Import Bytes YaepSpec.
Import ListNotations.

Section G.
Variable rules : list (bytes * list bytes).
Notation step := (step rules).
Notation steps := (steps rules).

Lemma steps_one u v : step u v -> steps u v.
Proof. intro H. eapply steps_more; [exact H | apply steps_refl]. Qed.
Lemma steps_trans u v w : steps u v -> steps v w -> steps u w.
Proof. induction 1; intro H'; [exact H'|]. eapply steps_more; [eassumption | now apply IHsteps]. Qed.
Lemma step_ctx a b u v : step u v -> step (a ++ u ++ b) (a ++ v ++ b).
Proof.
  intros [p x rhs q H].
  replace (a ++ (p ++ x :: q) ++ b) with ((a ++ p) ++ x :: (q ++ b)) by now rewrite <- !app_assoc.
  replace (a ++ (p ++ rhs ++ q) ++ b) with ((a ++ p) ++ rhs ++ (q ++ b)) by now rewrite <- !app_assoc.
  now constructor.
Qed.
Lemma steps_ctx a b u v : steps u v -> steps (a ++ u ++ b) (a ++ v ++ b).
Proof. induction 1; [apply steps_refl|]. eapply steps_more; [apply step_ctx; eassumption | exact IHsteps]. Qed.
Lemma steps_app u u' v v' : steps u u' -> steps v v' -> steps (u ++ v) (u' ++ v').
Proof.
  intros A C. apply steps_trans with (u' ++ v).
  - apply (steps_ctx [] v) in A. exact A.
  - apply (steps_ctx u' []) in C. rewrite !app_nil_r in C. exact C.
Qed.
Lemma steps_rule x rhs : In (x, rhs) rules -> steps [x] rhs.
Proof. intro H. generalize (step_rule rules [] x rhs [] H). cbn [app]. rewrite app_nil_r. apply steps_one. Qed.
Lemma step_rule1 x rhs : In (x, rhs) rules -> step [x] rhs.
Proof. intro H. generalize (step_rule rules [] x rhs [] H). cbn [app]. now rewrite app_nil_r. Qed.
Lemma step_single x v : step [x] v -> In (x, v) rules.
Proof.
  intro H. remember [x] as w eqn:E. destruct H as [p y rhs q H].
  destruct p as [|z p]; [|destruct p; discriminate E]. cbn [app] in *. injection E as -> ->. now rewrite app_nil_r.
Qed.
Lemma nullables u : Forall (nullable rules) u -> steps u [].
Proof.
  induction 1 as [|x u Hx Hu IH]; [apply steps_refl|]. change (x :: u) with ([x] ++ u). now apply (steps_app [x] [] u []).
Qed.
(** A step in a list of two parts is a step in one of them. *)
Lemma split_mid {A} (u v p q : list A) x : u ++ v = p ++ x :: q ->
  (exists r, u = p ++ x :: r /\ q = r ++ v) \/ (exists r, p = u ++ r /\ v = r ++ x :: q).
Proof.
  revert p. induction u as [|a u IH]; intros p E.
  - right. exists p. now split.
  - destruct p as [|b p]; cbn [app] in E.
    + injection E as -> E. left. exists u. now split.
    + injection E as -> E. destruct (IH p E) as [(r & -> & ->)|(r & -> & ->)].
      * left. exists r. now split.
      * right. exists r. now split.
Qed.
Lemma steps_split u v w : steps (u ++ v) w -> exists w1 w2, w = w1 ++ w2 /\ steps u w1 /\ steps v w2.
Proof.
  intro H. remember (u ++ v) as s eqn:E. revert u v E. induction H as [s|s s' w Hs H IH]; intros u v ->.
  - exists u, v. repeat split; apply steps_refl.
  - remember (u ++ v) as s eqn:E. destruct Hs as [p x rhs q Hr]. symmetry in E.
    destruct (split_mid _ _ _ _ _ E) as [(r & -> & ->)|(r & -> & ->)].
    + destruct (IH (p ++ rhs ++ r) v) as (w1 & w2 & A & C & D); [now rewrite <- !app_assoc|].
      exists w1, w2. split; [exact A|]. split; [|exact D]. eapply steps_more; [|exact C]. now constructor.
    + destruct (IH u (r ++ rhs ++ q)) as (w1 & w2 & A & C & D); [now rewrite <- !app_assoc|].
      exists w1, w2. split; [exact A|]. split; [exact C|]. eapply steps_more; [|exact D]. now constructor.
Qed.
End G.
