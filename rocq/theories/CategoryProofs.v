(** Proofs about category_has_code. *)
From Coq Require Import ZArith List Bool Lia PeanoNat Sorting.Sorted.
From Verif Require Import UnicodeTables Category.
Import ListNotations.

Definition ascending (cat : list Z) : Prop :=
  forall i j a b, (i <= j)%nat -> nth_error cat i = Some a -> nth_error cat j = Some b -> (a <= b)%Z.

Lemma nth_error_ex {A} : forall (l : list A) i, (i < List.length l)%nat -> exists a, nth_error l i = Some a.
Proof.
  intros l i H. destruct (nth_error l i) eqn:E; [eauto|]. apply nth_error_None in E. lia.
Qed.

Lemma category_loop_spec : forall fuel cat start stop code,
  ascending cat -> (start <= stop < List.length cat)%nat -> (stop - start < fuel)%nat ->
  (forall k, nth_error cat k = Some code -> (start <= k <= stop)%nat) ->
  exists b, category_loop fuel cat start stop code = Some b /\ (b = true <-> In code cat).
Proof.
  induction fuel as [|f IH]; intros cat start stop code Ha Hr Hf Hk; [lia|].
  cbn [category_loop].
  destruct (nth_error_ex cat start) as [a Ea]; [lia|]. destruct (nth_error_ex cat stop) as [b Eb]; [lia|].
  rewrite Ea, Eb.
  assert (Hin : In code cat -> exists k, (start <= k <= stop)%nat /\ nth_error cat k = Some code).
  { intros H. apply In_nth_error in H. destruct H as [k H]. exists k. split; auto. }
  destruct (Nat.eqb_spec start stop) as [E|E].
  { subst. eexists; split; [reflexivity|]. rewrite Z.eqb_eq. split.
    - intros <-. eapply nth_error_In; eauto.
    - intros H. destruct (Hin H) as (k & Hk1 & Hk2). replace k with stop in Hk2 by lia. congruence. }
  destruct (Nat.eqb_spec (start + 1) stop) as [E1|E1].
  { eexists; split; [reflexivity|]. rewrite orb_true_iff, !Z.eqb_eq. split.
    - intros [<-|<-]; eapply nth_error_In; eauto.
    - intros H. destruct (Hin H) as (k & Hk1 & Hk2).
      assert (k = start \/ k = stop) as [->| ->] by lia; rewrite Hk2 in *; [left|right]; congruence. }
  cbv zeta. set (i := (start + Nat.div2 (stop - start))%nat).
  assert (Hi : (start + 1 <= i)%nat /\ (i + 1 <= stop)%nat).
  { unfold i. rewrite Nat.div2_div. pose proof (Nat.div_mod (stop - start) 2). pose proof (Nat.mod_upper_bound (stop - start) 2). lia. }
  destruct (nth_error_ex cat i) as [x Ex]; [lia|]. rewrite Ex.
  destruct (Z.eqb_spec x code) as [E2|E2].
  { subst. eexists; split; [reflexivity|]. split; auto. intros _. eapply nth_error_In; eauto. }
  destruct (Z.ltb_spec x code) as [E3|E3].
  - apply IH; auto; try lia. intros k H. specialize (Hk k H). split; [|lia].
    destruct (Nat.le_gt_cases (i + 1) k); auto.
    assert (code <= x)%Z by (apply (Ha k i code x); auto; lia). lia.
  - apply IH; auto; try lia. intros k H. specialize (Hk k H). split; [lia|].
    destruct (Nat.le_gt_cases k (i - 1)); auto.
    assert (x <= code)%Z by (apply (Ha i k x code); auto; lia). lia.
Qed.

Lemma category_has_code_spec : forall cat code, ascending cat ->
  exists b, category_has_code code cat = Some b /\ (b = true <-> In code cat).
Proof.
  intros cat code Ha. unfold category_has_code.
  destruct cat as [|a [|b cat]].
  - exists false. split; auto. simpl. split; [discriminate|tauto].
  - eexists; split; [reflexivity|]. rewrite Z.eqb_eq. simpl. tauto.
  - apply category_loop_spec; auto; cbn [List.length]; try lia.
    intros k H. assert (k < List.length (a :: b :: cat))%nat by (apply nth_error_Some; congruence).
    cbn [List.length] in *. lia.
Qed.

Fixpoint sortedb (prev : Z) (l : list Z) : bool :=
  match l with
  | [] => true
  | x :: r => Z.leb prev x && sortedb x r
  end.

Lemma sortedb_all : forall l p, sortedb p l = true -> forall k x, nth_error l k = Some x -> (p <= x)%Z.
Proof.
  induction l as [|y l IH]; intros p H k x Hk; [destruct k; discriminate|].
  cbn [sortedb] in H. apply andb_prop in H. destruct H as [H1 H2]. apply Z.leb_le in H1.
  destruct k; cbn [nth_error] in Hk; [injection Hk as <-; auto|].
  specialize (IH _ H2 _ _ Hk). lia.
Qed.

Lemma sortedb_ascending : forall l p, sortedb p l = true -> ascending l.
Proof.
  induction l as [|y l IH]; intros p H i j a b Hij Hi Hj; [destruct i; discriminate|].
  cbn [sortedb] in H. apply andb_prop in H. destruct H as [H1 H2].
  destruct i.
  - cbn [nth_error] in Hi. injection Hi as <-. destruct j; cbn [nth_error] in Hj; [injection Hj as <-; lia|].
    eapply sortedb_all; eauto.
  - destruct j; [lia|]. cbn [nth_error] in *. apply (IH y H2 i j); auto. lia.
Qed.

Lemma all_tables_sorted : forallb (sortedb (-1)) unicode_tables = true.
Proof. vm_compute. reflexivity. Qed.

Lemma all_tables_ascending : forall cat, In cat unicode_tables -> ascending cat.
Proof.
  intros cat H. apply (sortedb_ascending cat (-1)).
  pose proof all_tables_sorted as F. rewrite forallb_forall in F. apply F. exact H.
Qed.
