(** Small facts and tactics about bytes used by all proof files. *)
From Coq Require Import NArith ZArith List Bool Lia Ascii String.
From Coq Require Import ZifyBool ZifyNat ZifyN.
From Verif Require Import Bytes.
Import ListNotations.
Local Open Scope N_scope.

Lemma beq_refl : forall a, beq a a = true.
Proof. induction a; simpl; auto. rewrite N.eqb_refl; auto. Qed.

Lemma beq_eq : forall a b, beq a b = true <-> a = b.
Proof.
  induction a; destruct b; simpl; split; intro H; try discriminate; auto.
  - apply andb_true_iff in H. destruct H as [H1 H2].
    apply N.eqb_eq in H1. apply IHa in H2. congruence.
  - injection H as -> ->. rewrite N.eqb_refl. simpl. apply IHa; auto.
Qed.

Lemma beq_neq : forall a b, beq a b = false <-> a <> b.
Proof.
  intros. split; intro H.
  - intro E. apply beq_eq in E. congruence.
  - destruct (beq a b) eqn:E; auto. apply beq_eq in E. contradiction.
Qed.

Lemma is_prefix_app : forall a b, is_prefix a (a ++ b) = true.
Proof. induction a; simpl; auto. intros. rewrite N.eqb_refl. simpl. auto. Qed.

Lemma is_prefix_iff : forall a b, is_prefix a b = true <-> exists c, b = a ++ c.
Proof.
  induction a as [|x a IH]; intros b; simpl; split; intro H; auto.
  - exists b; auto.
  - destruct b as [|y b]; try discriminate.
    apply andb_true_iff in H. destruct H as [H1 H2].
    apply N.eqb_eq in H1. apply IH in H2. destruct H2 as [c ->]. subst. exists c; auto.
  - destruct H as [c ->]. rewrite N.eqb_refl. simpl. apply IH. exists c; auto.
Qed.

Lemma nul_free_cons : forall c s, nul_free (c :: s) <-> c <> 0 /\ nul_free s.
Proof. unfold nul_free; simpl; intuition. Qed.

Lemma nul_free_app : forall a b, nul_free (a ++ b) <-> nul_free a /\ nul_free b.
Proof. unfold nul_free; intros; rewrite in_app_iff; intuition. Qed.

Lemma nul_free_nil : nul_free [].
Proof. unfold nul_free; simpl; auto. Qed.

Lemma bytes_ok_app : forall a b, bytes_ok (a ++ b) <-> bytes_ok a /\ bytes_ok b.
Proof. unfold bytes_ok; intros; apply Forall_app. Qed.

Lemma rep_app : forall c n m, rep c (n + m) = rep c n ++ rep c m.
Proof. intros; apply repeat_app. Qed.

Lemma rep_length : forall c n, List.length (rep c n) = n.
Proof. intros; apply repeat_length. Qed.

Lemma rep_snoc : forall c n, rep c n ++ [c] = rep c (S n).
Proof. intros. unfold rep. change (S n) with (1 + n)%nat. rewrite Nat.add_comm, repeat_app. reflexivity. Qed.

(** All 256 byte values, for exhaustive case analysis by computation. *)
Definition all_bytes : list N := map N.of_nat (seq 0 256).

Lemma all_bytes_spec : forall b, is_byte b -> In b all_bytes.
Proof.
  intros b Hb. unfold all_bytes. apply in_map_iff. exists (N.to_nat b).
  split. apply N2Nat.id. apply in_seq. unfold is_byte in Hb. lia.
Qed.

Lemma forall_bytes : forall P : N -> bool,
  forallb P all_bytes = true -> forall b, is_byte b -> P b = true.
Proof.
  intros P H b Hb. rewrite forallb_forall in H. apply H. apply all_bytes_spec; auto.
Qed.

Ltac bsplit :=
  repeat match goal with
  | H : _ && _ = true |- _ => apply andb_true_iff in H; destruct H
  | H : _ || _ = false |- _ => apply orb_false_iff in H; destruct H
  | H : negb _ = true |- _ => apply negb_true_iff in H
  | H : negb _ = false |- _ => apply negb_false_iff in H
  | H : (_ =? _) = true |- _ => apply N.eqb_eq in H
  | H : (_ =? _) = false |- _ => apply N.eqb_neq in H
  | H : (_ <=? _) = true |- _ => apply N.leb_le in H
  | H : (_ <=? _) = false |- _ => apply N.leb_gt in H
  | H : (_ <? _) = true |- _ => apply N.ltb_lt in H
  | H : (_ <? _) = false |- _ => apply N.ltb_ge in H
  end.
