(** C52: the callbacks of the tokenizer come in the order of the grammar, with
    texts of the grammar.  C53: only texts of the grammar are accepted. *)
From Coq Require Import NArith List Bool String.
From Verif Require Import Bytes BytesFacts Parser ParserSpec ParserProofs PropsParser TokenSpec TokenProofs.
From Verif Require Grammar.
Import ListNotations.
Local Open Scope N_scope.

(** The tokens of a source that is read without an error. *)
Theorem C52_token_order : forall fuel src aft s,
  tokenize fuel src aft = POk s -> doc_tokens (tokens s).
Proof. intros fuel src aft s E. pose proof (tokens_grammar fuel src aft) as G. rewrite E in G. exact G. Qed.
Print Assumptions C52_token_order.

(** Up to an error, the tokens are the start of such a sequence. *)
Theorem C52_token_order_before_error : forall fuel src aft e s,
  tokenize fuel src aft = PErr e s -> begins doc_tokens (tokens s).
Proof. intros fuel src aft e s E. pose proof (tokens_grammar fuel src aft) as G. rewrite E in G. exact G. Qed.
Print Assumptions C52_token_order_before_error.

(** The same while it is running, for example when it does not end. *)
Theorem C52_token_order_while_running : forall fuel src aft s,
  tokenize fuel src aft = PNoFuel s -> begins doc_tokens (tokens s).
Proof. intros fuel src aft s E. pose proof (tokens_grammar fuel src aft) as G. rewrite E in G. exact G. Qed.
Print Assumptions C52_token_order_while_running.

Definition kinds (T : list token) : list kind := map t_kind T.

(** A name before an equals sign is not always reported as a key: with a
    no-break space after a space it is a name. *)
Theorem C52_key_before_equals_refuted : exists src s, tokenize (enough src) src [0] = POk s /\
 kinds (tokens s) = [Kelement_name; Kwhitespace; Kequals; Kelement_value_text].
Proof.
  exists (B "a " ++ [0xc2; 0xa0] ++ B "=1"). eexists. split; [vm_compute; reflexivity|]. vm_compute. reflexivity.
Qed.
Print Assumptions C52_key_before_equals_refuted.

(** C53: a source that is accepted is a text of the grammar, whole. *)
Theorem C53_only_xmq_is_accepted : forall fuel src aft s,
  tokenize fuel src (0 :: aft) = POk s -> xmq_text src.
Proof.
  intros fuel src aft s E. exists (tokens s). split; [exact (C52_token_order _ _ _ _ E)|exact (C15_tokens_are_the_source _ _ _ _ E)].
Qed.
Print Assumptions C53_only_xmq_is_accepted.

(** What is reported before an error is the start of the source and of a text
    of the grammar. *)
Theorem C53_only_xmq_is_reported : forall fuel src aft e s,
  tokenize fuel src (0 :: aft) = PErr e s ->
  exists rest more, src = texts (tokens s) ++ rest /\ xmq_text (texts (tokens s) ++ more).
Proof.
  intros fuel src aft e s E. destruct (C15_tokens_are_a_prefix _ _ _ _ _ E) as (rest & H).
  destruct (C52_token_order_before_error _ _ _ _ _ E) as (C & HC). exists rest, (texts C). split; [exact H|].
  exists (tokens s ++ C). split; [exact HC|apply texts_app].
Qed.
Print Assumptions C53_only_xmq_is_reported.

(** ** Examples *)
Definition sample : bytes := B "// c
x:a(k=1 y:l xmlns:y='u' m=('v' &#10;)) { b=2 /* d */ 'q' ?e='f' g = (&h; 'i') }".
Definition white (k : kind) : bool := match k with Kwhitespace => true | _ => false end.
Example sample_kinds : exists s, tokenize (enough sample) sample [0] = POk s /\ filter (fun k => negb (white k)) (kinds (tokens s)) =
  [Kcomment; Kelement_ns; Kns_colon; Kelement_name; Kapar_left; Kattr_key; Kequals; Kattr_value_text;
   Kattr_ns; Kns_colon; Kattr_key; Kns_declaration; Kns_colon; Kattr_ns; Kequals; Kattr_value_quote;
   Kattr_key; Kequals; Kcpar_left; Kattr_value_compound_quote; Kattr_value_compound_entity; Kcpar_right; Kapar_right;
   Kbrace_left; Kelement_key; Kequals; Kelement_value_text; Kcomment; Kquote; Kelement_key; Kequals; Kelement_value_quote;
   Kelement_key; Kequals; Kcpar_left; Kelement_value_compound_entity; Kelement_value_compound_quote; Kcpar_right; Kbrace_right].
Proof. eexists. split; [vm_compute; reflexivity|]. vm_compute. reflexivity. Qed.
Example sample_xmq : xmq_text sample.
Proof. destruct sample_kinds as (s & E & _). exact (C53_only_xmq_is_accepted _ _ _ _ E). Qed.
Example sample_error : exists e s, tokenize 100 (B "a(k=1 { b") [0] = PErr e s /\
  kinds (tokens s) = [Kelement_name; Kapar_left; Kattr_key; Kequals; Kattr_value_text; Kwhitespace].
Proof. do 2 eexists. split; [vm_compute; reflexivity|]. vm_compute. reflexivity. Qed.

(** The grammar excludes texts: a text of the grammar is empty or starts with
    white space, a quote, &, /, ?, ! or the start of a name. *)
Definition first_ok (b : bytes) : Prop :=
  match b with
  | [] => True
  | c :: _ => In c [cSP; cNL; cCR; 0xc2; 0xe2; cQ; cAMP; cSLASH; cQM; cBANG] \/ is_xmq_element_start c = true
  end.
Lemma first_app a b : first_ok a -> first_ok b -> first_ok (a ++ b).
Proof. destruct a; auto. Qed.
Lemma first_ws b : ws_text b -> first_ok b.
Proof.
  intros W. destruct W as [|c t H _|t _|e t _ _]; cbn; try tauto. left. unfold is_xmq_token_whitespace in H.
  apply orb_true_iff in H as [H|H]; [apply orb_true_iff in H as [H|H]|]; apply N.eqb_eq in H; subst; tauto.
Qed.
Lemma first_rep c n b : (1 <= n)%nat -> In c [cQ; cSLASH] -> first_ok (rep c n ++ b).
Proof. intros H I. destruct n; [inversion H|]. left. destruct I as [<- |[<- |[]]]; cbn; tauto. Qed.
Lemma first_name k N V C : name_tokens k N -> first_ok (List.concat (map t_text ((N ++ V) ++ C))).
Proof.
  intros [t [_ ((c & r & H & Hc) & _)]|p c n _ (d & r & H & Hc) _ _|t n [_ H] _|t [_ H]]; cbn [app map List.concat]; rewrite <- ?H; [rewrite H..| |]; cbn; tauto.
Qed.
Lemma first_item A C : item_tokens A -> first_ok (texts (A ++ C)).
Proof.
  intros H. unfold texts. destruct H as [t [_ H]|t [_ H]|t [_ H]|n t D Hn [_ H] _|N W Ap X V HN _ _ _ _|N W e X V HN _ _ _ _].
  - cbn [app map List.concat]. destruct H as [|d b H1 _ _]; [left; cbn; tauto|]. rewrite <- app_assoc. apply first_rep; cbn; auto.
  - cbn [app map List.concat]. destruct H; left; cbn; tauto.
  - cbn [app map List.concat]. destruct H; left; cbn; tauto.
  - destruct H as (x & H & _). cbn [app map List.concat]. rewrite H, <- app_assoc. apply first_rep; cbn; auto.
  - now apply (first_name Kelement_name).
  - now apply (first_name Kelement_key).
Qed.
Lemma first_byte T : doc_tokens T -> first_ok (texts T).
Proof.
  intros H. induction H as [|t C [_ H] _ IH|A C H _ _].
  - exact Logic.I.
  - apply first_app; [now apply first_ws|exact IH].
  - now apply first_item.
Qed.
Example value_first_is_not_xmq : ~ xmq_text (B "=1").
Proof. intros (T & H & E). apply first_byte in H. rewrite E in H. cbn in H. intuition discriminate. Qed.
