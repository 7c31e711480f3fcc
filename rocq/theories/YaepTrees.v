(** Derivations with a size, and where a symbol of a form comes from *)
From Coq Require Import NArith List Bool Arith Lia.
From Verif Require Import Bytes YaepSpec YaepGram.
Import ListNotations.
Local Open Scope nat_scope.

Section T.
Variable R : list (bytes * list bytes).
Notation step := (step R).
Notation steps := (steps R).

(** The symbols of a list derive the parts of a form. *)
Inductive yl : list bytes -> list bytes -> nat -> Prop :=
| yl_nil : yl [] [] 0
| yl_keep x l u n : yl l u n -> yl (x :: l) (x :: u) (S n)
| yl_rule x rhs u l v n m : In (x, rhs) R -> yl rhs u n -> yl l v m -> yl (x :: l) (u ++ v) (S (n + m)).
Lemma yl_refl u : exists n, yl u u n.
Proof. induction u as [|x u (n & H)]; [exists 0; constructor | exists (S n); now constructor]. Qed.
Lemma yl_app a b : forall u v n m, yl a u n -> yl b v m -> exists k, yl (a ++ b) (u ++ v) k.
Proof.
  intros u v n m H. revert b v m. induction H as [|x l u n H IH|x rhs u l v n m' Hr H1 IH1 H2 IH2]; intros b w m Hb; cbn [app].
  - now exists m.
  - destruct (IH b w m Hb) as (k & Hk). exists (S k). now constructor.
  - destruct (IH2 b w m Hb) as (k & Hk). exists (S (n + k)). rewrite <- app_assoc. econstructor; eassumption.
Qed.
Lemma yl_split a : forall b u n, yl (a ++ b) u n -> exists u1 u2 n1 n2, u = u1 ++ u2 /\ yl a u1 n1 /\ yl b u2 n2.
Proof.
  induction a as [|x a IH]; intros b u n H; cbn [app] in H.
  - exists [], u, 0, n. split; [reflexivity|]. split; [constructor | exact H].
  - inversion H as [|x' l u' n' H1|x' rhs u' l v n1 m1 Hr H1 H2]; subst.
    + destruct (IH _ _ _ H1) as (u1 & u2 & n1 & n2 & -> & A & C). exists (x :: u1), u2, (S n1), n2. split; [reflexivity|]. split; [now constructor | exact C].
    + destruct (IH _ _ _ H2) as (u1 & u2 & n3 & n4 & -> & A & C). exists (u' ++ u1), u2, (S (n1 + n3)), n4. split; [now rewrite app_assoc|].
      split; [econstructor; eassumption | exact C].
Qed.
Lemma steps_yl u v : steps u v -> exists n, yl u v n.
Proof.
  induction 1 as [u|u u' v Hs _ (n & IH)]; [apply yl_refl|]. destruct Hs as [p x rhs q Hr].
  destruct (yl_split p _ _ _ IH) as (u1 & u2 & n1 & n2 & -> & A & C). destruct (yl_split rhs _ _ _ C) as (u3 & u4 & n3 & n4 & -> & E & F).
  eapply yl_app; [exact A|]. econstructor; eassumption.
Qed.
Lemma yl_steps u v n : yl u v n -> steps u v.
Proof.
  induction 1 as [|x l u n H IH|x rhs u l v n m Hr H1 IH1 H2 IH2]; [apply steps_refl| |].
  - apply (steps_app R [x] [x] l u); [apply steps_refl | exact IH].
  - apply (steps_app R [x] u l v); [|exact IH2]. eapply steps_trans; [apply steps_rule; exact Hr | exact IH1].
Qed.
(** The last symbol of a list that does not disappear *)
Lemma yl_last a : forall u n, yl a u n -> u <> [] -> exists a1 x a2 u1 u2 m, a = a1 ++ x :: a2 /\ u = u1 ++ u2 /\ u2 <> [] /\
  steps a1 u1 /\ yl [x] u2 m /\ m <= n /\ steps a2 [].
Proof.
  intros u n H. induction H as [|x l u n H IH|x rhs u l v n m Hr H1 _ H2 IH2]; intro N.
  - now destruct N.
  - destruct u as [|z u].
    + exists [], x, l, [], [x], 1. split; [reflexivity|]. split; [reflexivity|]. split; [discriminate|]. split; [apply steps_refl|].
      split; [constructor; constructor|]. split; [lia|]. eapply yl_steps; exact H.
    + destruct IH as (a1 & x' & a2 & u1 & u2 & m & -> & E & N2 & S1 & Y & Hm & S2); [discriminate|].
      exists (x :: a1), x', a2, (x :: u1), u2, m. split; [reflexivity|]. split; [now rewrite E|]. split; [exact N2|].
      split; [apply (steps_app R [x] [x]); [apply steps_refl | exact S1]|]. split; [exact Y|]. split; [lia | exact S2].
  - destruct v as [|z v].
    + exists [], x, l, [], u, (S (n + 0)). split; [reflexivity|]. rewrite app_nil_r in N |- *. split; [reflexivity|]. split; [exact N|]. split; [apply steps_refl|].
      split; [replace u with (u ++ []) by apply app_nil_r; econstructor; [exact Hr | exact H1 | constructor]|]. split; [lia|]. eapply yl_steps; exact H2.
    + destruct IH2 as (a1 & x' & a2 & u1 & u2 & k & -> & E & N2 & S1 & Y & Hm & S2); [discriminate|].
      exists (x :: a1), x', a2, (u ++ u1), u2, k. split; [reflexivity|]. split; [now rewrite E, app_assoc|]. split; [exact N2|].
      split; [apply (steps_app R [x] u); [eapply steps_trans; [apply steps_rule; exact Hr | eapply yl_steps; exact H1] | exact S1]|]. split; [exact Y|]. split; [lia | exact S2].
Qed.
Lemma yl_single x u n : yl [x] u n -> u = [x] \/ exists rhs m, In (x, rhs) R /\ yl rhs u m /\ m < n.
Proof.
  intro H. inversion H as [|x' l u' n' H1|x' rhs u' l v n1 m1 Hr H1 H2]; subst.
  - inversion H1. now left.
  - inversion H2; subst. right. exists rhs, n1. rewrite app_nil_r. split; [exact Hr|]. split; [exact H1 | lia].
Qed.
Lemma steps_nil_all a : steps a [] -> Forall (nullable R) a.
Proof.
  induction a as [|x a IH]; intro H; [constructor|]. apply (steps_split R [x] a) in H. destruct H as (w1 & w2 & E & H1 & H2).
  symmetry in E. apply app_eq_nil in E. destruct E as [-> ->]. constructor; [exact H1 | now apply IH].
Qed.
Lemma steps_from_nil u : steps [] u -> u = [].
Proof. intro H. inversion H as [|z v w Hs]; [reflexivity|]. exfalso. inversion Hs as [p x rhs q Hr E]. now destruct p. Qed.

(** ** Where a symbol comes from *)
Inductive stepsn (s : list bytes) : nat -> list bytes -> Prop :=
| sn_0 : stepsn s 0 s
| sn_S n u v : stepsn s n u -> step u v -> stepsn s (S n) v.
Lemma stepsn_steps s n u : stepsn s n u -> steps s u.
Proof. induction 1; [apply steps_refl|]. eapply steps_trans; [eassumption | now apply steps_one]. Qed.
Lemma stepsn_trans s u v : steps u v -> forall n, stepsn s n u -> exists m, stepsn s m v.
Proof. induction 1 as [u|u u' v Hs _ IH]; intros n A; [now exists n|]. apply (IH (S n)). econstructor; eassumption. Qed.
Lemma steps_stepsn s u : steps s u -> exists n, stepsn s n u.
Proof. intro H. apply (stepsn_trans s s u H 0). constructor. Qed.

Lemma origin s n : forall u a v, stepsn [s] n (u ++ a :: v) -> (u = [] /\ a = s /\ v = []) \/
  exists m b g d u1 u2 v2, m < n /\ In (b, g ++ a :: d) R /\ u = u1 ++ u2 /\ stepsn [s] m (u1 ++ b :: v2) /\ steps g u2 /\ steps (d ++ v2) v.
Proof.
  induction n as [|n IH]; intros u a v H.
  - remember (u ++ a :: v) as w eqn:E in H. inversion H as [E0 E1|]. rewrite <- E1 in E. destruct u as [|z u]; [injection E as -> ->; now left | destruct u; discriminate E].
  - right. remember (u ++ a :: v) as w eqn:E2 in H. inversion H as [|n' w0 w' H1 H2 En Ew]. subst. inversion H2 as [p x rhs q Hr E1 E3]. subst w0. rename E3 into E2.
    apply split_mid in E2. destruct E2 as [(r & -> & ->)|(r & -> & E2)].
    + (* in p *)
      destruct (IH u a (r ++ x :: q)) as [(-> & -> & E)|(m & b & g & d & u1 & u2 & v2 & Hm & Hb & -> & S1 & S2 & S3)].
      { now rewrite <- app_assoc in H1. }
      { destruct r; discriminate E. }
      exists m, b, g, d, u1, u2, v2. split; [lia|]. split; [exact Hb|]. split; [reflexivity|]. split; [exact S1|]. split; [exact S2|].
      eapply steps_trans; [exact S3|]. apply steps_one. now constructor.
    + apply split_mid in E2. destruct E2 as [(t & E3 & ->)|(t & -> & ->)].
      * (* in the rule *)
        subst rhs. exists n, x, r, t, p, r, q. split; [lia|]. split; [exact Hr|]. split; [reflexivity|]. split; [exact H1|]. split; apply steps_refl.
      * (* in q *)
        destruct (IH (p ++ x :: t) a v) as [(E & _)|(m & b & g & d & u1 & u2 & v2 & Hm & Hb & Eu & S1 & S2 & S3)].
        { now rewrite <- app_assoc. }
        { destruct p; discriminate E. }
        symmetry in Eu. apply split_mid in Eu. destruct Eu as [(k & -> & ->)|(k & -> & ->)].
        -- exists (S m), b, g, d, (p ++ rhs ++ k), u2, v2. split; [lia|]. split; [exact Hb|]. split; [now rewrite <- !app_assoc|].
           split; [|now split]. econstructor; [exact S1|]. rewrite <- !app_assoc. cbn [app]. now constructor.
        -- exists m, b, g, d, u1, (k ++ rhs ++ t), v2. split; [lia|]. split; [exact Hb|]. split; [now rewrite <- !app_assoc|].
           split; [exact S1|]. split; [|exact S3]. eapply steps_trans; [exact S2|]. apply steps_one. now constructor.
Qed.
End T.
