(** Loops that raise flags until nothing changes: they end, what holds before holds
    afterwards, and at the end no step would change anything. *)
From Coq Require Import NArith ZArith List Bool Arith Lia String.
From Verif Require Import Bytes BytesFacts Outcome Ixml Yaep.
Import ListNotations.
Local Open Scope list_scope.

Lemma beq_refl' x : beq x x = true. Proof. now apply beq_eq. Qed.
Lemma key_eqb_eq a b : key_eqb a b = true <-> a = b.
Proof.
  split.
  - destruct a, b; cbn [key_eqb]; intro H; try discriminate H;
      try (apply beq_eq in H; now rewrite H);
      apply andb_true_iff in H; destruct H as [H1 H2]; apply beq_eq in H1; apply beq_eq in H2; now rewrite H1, H2.
  - intros <-. destruct a; cbn [key_eqb]; rewrite ?beq_refl'; reflexivity.
Qed.
Lemma mem_in x l : mem x l = true <-> In x l.
Proof.
  unfold mem. rewrite existsb_exists. split.
  - intros (y & H & E). apply beq_eq in E. now rewrite E.
  - intro H. exists x. split; [exact H | apply beq_refl'].
Qed.
Lemma mem_not_in x l : mem x l = false <-> ~ In x l.
Proof.
  rewrite <- mem_in. destruct (mem x l); split; intro H.
  - discriminate H.
  - now destruct H.
  - discriminate.
  - reflexivity.
Qed.

Definition same (f g : flags) : Prop := forall k, f k = g k.
Lemma same_refl f : same f f. Proof. intro k. reflexivity. Qed.
Lemma same_trans f g h : same f g -> same g h -> same f h.
Proof. intros A C k. now rewrite A, C. Qed.
Lemma same_sym f g : same f g -> same g f.
Proof. intros A k. now rewrite A. Qed.

Record growing (U : list key) (p : fstate -> fstate) : Prop := Growing {
  gr_up : forall s k, fst s k = true -> fst (p s) k = true;
  gr_in : forall s k, fst (p s) k = true -> fst s k = true \/ In k U;
  gr_quiet : forall s, snd (p s) = false -> snd s = false /\ same (fst (p s)) (fst s);
  gr_loud : forall s, snd s = false -> snd (p s) = true -> exists k, In k U /\ fst s k = false /\ fst (p s) k = true }.

Section Growing.
Variable U : list key.
Lemma growing_id : growing U (fun s => s).
Proof.
  constructor.
  - intros s k H; exact H.
  - intros s k H; left; exact H.
  - intros s H; split; [exact H | apply same_refl].
  - intros s A C. rewrite A in C. discriminate C.
Qed.
Lemma growing_raise k : In k U -> growing U (raise k).
Proof.
  intro Hk. constructor; unfold raise; cbn [fst snd].
  - intros s k' H. apply orb_true_iff. right. exact H.
  - intros s k' H. apply orb_true_iff in H. destruct H as [H|H]; [right | left; exact H].
    apply key_eqb_eq in H. now rewrite <- H.
  - intros s H. apply orb_false_iff in H. destruct H as [H1 H2]. split; [exact H1|].
    intro k'. destruct (key_eqb k k') eqn:E; [|reflexivity]. apply key_eqb_eq in E. rewrite <- E.
    cbn [orb]. apply negb_false_iff in H2. symmetry. exact H2.
  - intros s A C. rewrite A in C. cbn [orb] in C. apply negb_true_iff in C. exists k. split; [exact Hk|]. split; [exact C|].
    rewrite (proj2 (key_eqb_eq k k) eq_refl). reflexivity.
Qed.
Lemma growing_comp p q : growing U p -> growing U q -> growing U (fun s => q (p s)).
Proof.
  intros Hp Hq. constructor.
  - intros s k H. apply (gr_up _ _ Hq), (gr_up _ _ Hp), H.
  - intros s k H. apply (gr_in _ _ Hq) in H. destruct H as [H|H]; [|right; exact H]. apply (gr_in _ _ Hp), H.
  - intros s H. apply (gr_quiet _ _ Hq) in H. destruct H as [H1 H2]. apply (gr_quiet _ _ Hp) in H1. destruct H1 as [H1 H3].
    split; [exact H1|]. eapply same_trans; [exact H2 | exact H3].
  - intros s H1 H2. destruct (snd (p s)) eqn:E.
    + destruct (gr_loud _ _ Hp s H1 E) as (k & A & C & D). exists k. split; [exact A|]. split; [exact C|].
      apply (gr_up _ _ Hq), D.
    + destruct (gr_loud _ _ Hq (p s) E H2) as (k & A & C & D). exists k. split; [exact A|]. split; [|exact D].
      destruct (fst s k) eqn:F; [|reflexivity]. apply (gr_up _ _ Hp) in F. rewrite F in C. discriminate C.
Qed.
Lemma growing_if (c : fstate -> bool) p q : growing U p -> growing U q -> growing U (fun s => if c s then p s else q s).
Proof.
  intros Hp Hq. constructor.
  - intros s k H. destruct (c s); [apply (gr_up _ _ Hp) | apply (gr_up _ _ Hq)]; exact H.
  - intros s k H. destruct (c s); [apply (gr_in _ _ Hp) | apply (gr_in _ _ Hq)]; exact H.
  - intros s H. destruct (c s); [apply (gr_quiet _ _ Hp) | apply (gr_quiet _ _ Hq)]; exact H.
  - intros s H1 H2. destruct (c s); [apply (gr_loud _ _ Hp) | apply (gr_loud _ _ Hq)]; assumption.
Qed.
Lemma growing_ext p q : (forall s, p s = q s) -> growing U p -> growing U q.
Proof.
  intros E H. constructor.
  - intros s k A. rewrite <- E. now apply (gr_up _ _ H).
  - intros s k A. rewrite <- E in A. now apply (gr_in _ _ H) in A.
  - intros s A. rewrite <- E in *. now apply (gr_quiet _ _ H).
  - intros s A C. rewrite <- E in *. now apply (gr_loud _ _ H).
Qed.
Lemma growing_fold {X} (step : fstate -> X -> fstate) l :
  (forall x, In x l -> growing U (fun s => step s x)) -> growing U (fun s => fold_left step l s).
Proof.
  induction l as [|x l IH]; intro H; cbn [fold_left].
  - apply growing_id.
  - apply (growing_comp (fun s => step s x) (fun s => fold_left step l s)).
    + apply H. now left.
    + apply IH. intros y Hy. apply H. now right.
Qed.
(** When a composition is quiet, each part is. *)
Lemma quiet_comp p q s : growing U p -> growing U q -> snd (q (p s)) = false ->
  snd (p s) = false /\ same (fst (p s)) (fst s).
Proof.
  intros Hp Hq H. apply (gr_quiet _ _ Hq) in H. destruct H as [H _]. split; [exact H|]. now apply (gr_quiet _ _ Hp).
Qed.
Lemma quiet_fold {X} (step : fstate -> X -> fstate) l s :
  (forall x, In x l -> growing U (fun s => step s x)) -> snd (fold_left step l s) = false ->
  forall x, In x l -> exists s', same (fst s') (fst s) /\ snd (step s' x) = false.
Proof.
  revert s. induction l as [|y l IH]; intros s Hg H x Hx; [destruct Hx|].
  cbn [fold_left] in H.
  assert (Hl : growing U (fun s => fold_left step l s)) by (apply growing_fold; intros z Hz; apply Hg; now right).
  assert (Hy : growing U (fun s => step s y)) by (apply Hg; now left).
  destruct (quiet_comp _ _ s Hy Hl H) as [Q1 Q2].
  destruct Hx as [<-|Hx].
  - exists s. split; [apply same_refl | exact Q1].
  - destruct (IH (step s y) (fun z Hz => Hg z (or_intror Hz)) H x Hx) as (s' & A & C).
    exists s'. split; [|exact C]. eapply same_trans; [exact A | exact Q2].
Qed.

(** * The loops *)
Definition low (f : flags) : nat := List.length (filter (fun k => negb (f k)) U).
Lemma low_le f : low f <= List.length U.
Proof. unfold low. induction U as [|k l IH]; cbn [filter]; [lia|]. destruct (negb (f k)); cbn [List.length]; lia. Qed.
Lemma low_less f g : (forall k, f k = true -> g k = true) -> (exists k, In k U /\ f k = false /\ g k = true) -> low g < low f.
Proof.
  intros Hm (k & Hk & Hf & Hg). unfold low. clear -Hm Hk Hf Hg. induction U as [|k' l IH]; [destruct Hk|].
  assert (Hle : forall l, List.length (filter (fun k => negb (g k)) l) <= List.length (filter (fun k => negb (f k)) l)).
  { clear -Hm. induction l as [|k l IH]; [constructor|]. cbn [filter]. specialize (Hm k).
    destruct (f k); [rewrite Hm by reflexivity; cbn [negb]; exact IH|].
    destruct (g k); cbn [negb List.length]; lia. }
  cbn [filter]. destruct Hk as [->|Hk].
  - rewrite Hf, Hg. cbn [negb List.length]. specialize (Hle l). lia.
  - specialize (IH Hk). specialize (Hm k'). destruct (f k'); [rewrite Hm by reflexivity; exact IH|].
    destruct (g k'); cbn [negb List.length]; lia.
Qed.
Lemma iterate_ends p fuel f : growing U p -> low f < fuel -> exists g, iterate fuel p f = Ok g.
Proof.
  intro Hp. revert f. induction fuel as [|fuel IH]; intros f H; [lia|].
  cbn [iterate]. destruct (p (f, false)) as [f' c] eqn:E. destruct c; [|eexists; reflexivity].
  apply IH. apply PeanoNat.Nat.lt_le_trans with (low f); [|lia].
  apply low_less.
  - intros k Hk. generalize (gr_up _ _ Hp (f, false) k Hk). now rewrite E.
  - generalize (gr_loud _ _ Hp (f, false) eq_refl). rewrite E. cbn [fst snd]. intro A. destruct (A eq_refl) as (k & A1 & A2 & A3).
    exists k. auto.
Qed.
Lemma iterate_quiet p fuel f g : growing U p -> iterate fuel p f = Ok g -> exists s, same (fst s) g /\ snd (p s) = false.
Proof.
  intro Hp. revert f. induction fuel as [|fuel IH]; intros f H; [discriminate H|].
  cbn [iterate] in H. destruct (p (f, false)) as [f' c] eqn:E. destruct c; [apply IH in H; exact H|].
  injection H as ->. exists (f, false). rewrite E. split; [|reflexivity].
  generalize (gr_quiet _ _ Hp (f, false)). rewrite E. cbn [fst snd]. intro A. destruct (A eq_refl) as [_ A']. now apply same_sym.
Qed.
Lemma iterate_only p fuel f g : growing U p -> iterate fuel p f = Ok g -> forall k, ~ In k U -> g k = f k.
Proof.
  intros Hp. revert f. induction fuel as [|fuel IH]; intros f H k Hk; [discriminate H|].
  cbn [iterate] in H. destruct (p (f, false)) as [f' c] eqn:E.
  assert (Hf : f' k = f k).
  { generalize (gr_up _ _ Hp (f, false) k), (gr_in _ _ Hp (f, false) k). rewrite E. cbn [fst].
    destruct (f k), (f' k); intros A C; try reflexivity; [now rewrite A in * | now destruct (C eq_refl)]. }
  destruct c; [|injection H as ->; exact Hf]. rewrite <- Hf. now apply IH.
Qed.
End Growing.

Lemma iterate_keeps (I : flags -> Prop) p fuel f g :
  (forall s, I (fst s) -> I (fst (p s))) -> I f -> iterate fuel p f = Ok g -> I g.
Proof.
  intro Hp. revert f. induction fuel as [|fuel IH]; intros f Hf H; [discriminate H|].
  cbn [iterate] in H. specialize (Hp (f, false) Hf). destruct (p (f, false)) as [f' c]. cbn [fst] in Hp.
  destruct c; [now apply IH in H | now injection H as <-].
Qed.
Lemma fold_keeps {X} (I : flags -> Prop) (step : fstate -> X -> fstate) l s :
  (forall x s, In x l -> I (fst s) -> I (fst (step s x))) -> I (fst s) -> I (fst (fold_left step l s)).
Proof.
  revert s. induction l as [|x l IH]; intros s Hs H; cbn [fold_left]; [exact H|].
  apply IH; [intros y s' Hy; apply Hs; now right|]. apply Hs; [now left | exact H].
Qed.
(** Raising what is meant to be raised *)
Definition sound (Sem : key -> Prop) (f : flags) : Prop := forall k, f k = true -> Sem k.
Lemma raise_sound (Sem : key -> Prop) k s : Sem k -> sound Sem (fst s) -> sound Sem (fst (raise k s)).
Proof.
  intros Hk H k' A. unfold raise in A. cbn [fst] in A. apply orb_true_iff in A. destruct A as [A|A]; [|apply H, A].
  apply key_eqb_eq in A. now rewrite <- A.
Qed.
Lemma quiet_raise k s : snd (raise k s) = false -> fst s k = true.
Proof. unfold raise. cbn [snd]. intro H. apply orb_false_iff in H. destruct H as [_ H]. now apply negb_false_iff in H. Qed.
