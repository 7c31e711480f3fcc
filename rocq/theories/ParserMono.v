(** More fuel does not change a result of the parser model. *)
From Coq Require Import NArith List Bool Arith Lia.
From Verif Require Import Bytes BytesFacts Parser ParserSpec ParserProofs ParserTerm.
Import ListNotations.
Local Open Scope N_scope.
Local Open Scope pout_scope.

Definition below (r r' : pout) : Prop := is_nofuel r \/ r' = r.
Lemma below_refl r : below r r.
Proof. now right. Qed.
Lemma below_bind r r' f g : below r r' -> (forall s, below (f s) (g s)) -> below (pbind r f) (pbind r' g).
Proof.
  intros [[s ->]| ->] H; [left; eexists; reflexivity|]. destruct r; cbn; auto using below_refl.
Qed.

Lemma continuations_mono n : forall f f' s, (f <= f')%nat -> below (continuations f n s) (continuations f' n s).
Proof.
  induction f as [|f IH]; intros f' s L; [left; eexists; reflexivity|].
  destruct f' as [|f']; [lia|]. cbn [continuations]. destruct (eat_comment_to_close n s) as [r more].
  apply below_bind; auto using below_refl. intros s'. destruct more; [apply IH; lia|apply below_refl].
Qed.
Lemma parse_comment_mono f f' s : (f <= f')%nat -> below (parse_comment f s) (parse_comment f' s).
Proof.
  intros L. unfold parse_comment. destruct (count_slashes _ _) as [[n []]|]; try apply below_refl.
  destruct (eat_comment_to_close n s) as [r more]. apply below_bind; auto using below_refl.
  intros s'. destruct more; [now apply continuations_mono|apply below_refl].
Qed.
Lemma compound_children_mono l : forall f f' s, (f <= f')%nat -> below (compound_children f l s) (compound_children f' l s).
Proof.
  induction f as [|f IH]; intros f' s L.
  - cbn [compound_children]. destruct (s_rest s) as [|c r] eqn:R; [|left; eexists; reflexivity].
    right. destruct f'; cbn [compound_children]; now rewrite R.
  - destruct f' as [|f']; [lia|]. cbn [compound_children]. destruct (s_rest s) as [|c r]; [apply below_refl|].
    assert (forall s, below (compound_children f l s) (compound_children f' l s)) by (intros; apply IH; lia).
    destruct (is_xml_whitespace c); [auto|]. destruct (c =? cRP); [apply below_refl|].
    destruct (c =? cQ); [apply below_bind; auto using below_refl|].
    destruct (c =? cAMP); [apply below_bind; auto using below_refl|]. apply below_refl.
Qed.
Lemma parse_value_mono l f f' s : (f <= f')%nat -> below (parse_value f l s) (parse_value f' l s).
Proof.
  intros L. unfold parse_value. apply below_bind; auto using below_refl. intros s1.
  destruct (peek_is cQ s1); [apply below_refl|]. destruct (peek_is cAMP s1); [apply below_refl|].
  destruct (peek_is cLP s1); [|apply below_refl].
  unfold parse_compound. apply below_bind; auto using below_refl, compound_children_mono.
Qed.
Lemma parse_attribute_mono f f' s : (f <= f')%nat -> below (parse_attribute f s) (parse_attribute f' s).
Proof.
  intros L. unfold parse_attribute. apply below_bind; auto using below_refl. intros s1.
  destruct (peek_is cEQ s1); auto using below_refl, parse_value_mono.
Qed.
Lemma attributes_mono : forall f f' s, (f <= f')%nat -> below (attributes f s) (attributes f' s).
Proof.
  induction f as [|f IH]; intros f' s L.
  - cbn [attributes]. destruct (s_rest s) as [|c r] eqn:R; [|left; eexists; reflexivity].
    right. destruct f'; cbn [attributes]; now rewrite R.
  - destruct f' as [|f']; [lia|]. cbn [attributes]. destruct (s_rest s) as [|c r]; [apply below_refl|].
    assert (forall s, below (attributes f s) (attributes f' s)) by (intros; apply IH; lia).
    destruct (is_xml_whitespace c); [auto|]. destruct (c =? cRP); [apply below_refl|].
    destruct (is_attribute_key_start c); [|apply below_refl].
    apply below_bind; auto. apply parse_attribute_mono; lia.
Qed.
Lemma parse_element_mono f f' body body' ek s : (f <= f')%nat -> (forall s, below (body s) (body' s)) ->
  below (parse_element f body ek s) (parse_element f' body' ek s).
Proof.
  intros L H. rewrite !parse_element_eq. unfold element_tail. apply below_bind; auto using below_refl. intros s3.
  apply below_bind.
  - destruct (peek_is cLP s3); [|apply below_refl]. apply below_bind; auto using below_refl, attributes_mono.
  - intros s4. apply below_bind; auto using below_refl. intros s5.
    destruct (peek_is cEQ s5); [now apply parse_value_mono|].
    destruct (peek_is cLB s5); [|apply below_refl]. apply below_bind; auto using below_refl.
Qed.
Lemma parse_xmq_mono : forall f f' s, (f <= f')%nat -> below (parse_xmq f s) (parse_xmq f' s).
Proof.
  induction f as [|f IH]; intros f' s L.
  - cbn [parse_xmq]. destruct (s_rest s) as [|c r] eqn:R; [|left; eexists; reflexivity].
    right. destruct f'; cbn [parse_xmq]; now rewrite R.
  - destruct f' as [|f']; [lia|]. cbn [parse_xmq]. destruct (s_rest s) as [|c r]; [apply below_refl|].
    assert (forall s, below (parse_xmq f s) (parse_xmq f' s)) by (intros; apply IH; lia).
    destruct (is_xmq_token_whitespace c); auto.
    destruct (c =? cQ); [apply below_bind; auto using below_refl|].
    destruct (c =? cAMP); [apply below_bind; auto using below_refl|].
    destruct (is_comment_start _ _); [apply below_bind; auto; apply parse_comment_mono; lia|].
    destruct (is_xmq_element_start _); [apply below_bind; auto; apply parse_element_mono; auto; lia|].
    destruct (is_doctype_start _); [apply below_bind; auto; apply parse_element_mono; auto; lia|].
    destruct (is_pi_start _); [apply below_bind; auto; apply parse_element_mono; auto; lia|]. apply below_refl.
Qed.
Lemma tokenize_mono f f' src aft : (f <= f')%nat -> below (tokenize f src aft) (tokenize f' src aft).
Proof. intros L. unfold tokenize. apply below_bind; auto using parse_xmq_mono, below_refl. Qed.

(** Either the result with enough fuel is the result with every larger amount,
    or the parser is stuck inside of parentheses and no amount of fuel helps. *)
Lemma tokenize_term src aft : hd_error aft = Some 0 ->
  let r := tokenize (enough src) src aft in
  (forall s', r = PNoFuel s' -> stuck_at (init src aft) s') /\
  forall f, (length src < f)%nat -> sim r (tokenize f src aft).
Proof.
  intros N. assert (O : okst (init src aft)) by (split; [apply init_inv|exact N]).
  destruct (parse_xmq_term (enough src) (init src aft) O) as (H1 & H2); [cbn; unfold enough; lia|].
  cbn zeta. unfold tokenize. split.
  - intros s' E. apply H1. destruct (parse_xmq _ _) as [s1| | | |]; cbn in E; try discriminate; auto.
    destruct (s_rest s1); discriminate.
  - intros f Hf. apply sim_bind; [apply H2; exact Hf|]. intros; apply sim_refl.
Qed.

Lemma nofuel_forever src aft : hd_error aft = Some 0 -> is_nofuel (tokenize (enough src) src aft) ->
  forall f, is_nofuel (tokenize f src aft).
Proof.
  intros N H f. destruct (tokenize_term src aft N) as (_ & S).
  destruct (le_lt_dec f (length src)) as [L|L].
  - destruct (tokenize_mono f (enough src) src aft) as [B|B]; auto; [unfold enough; lia|]. now rewrite <- B.
  - destruct (S f L) as [<-|[_ B]]; auto.
Qed.
