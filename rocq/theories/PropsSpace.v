(** Property C36: white space between tokens.

    [tokenize fuel src aft] is xmqTokenizeBuffer on the bytes [src] followed in
    memory by [aft], [parse_buffer] is xmqParseBuffer.  [contents] are the tokens
    apart from white space.  See Respace.v for the places that are between
    tokens. *)
From Coq Require Import NArith ZArith List Bool Arith Lia String.
From Verif Require Import Bytes BytesFacts Parser ParserSpec ParserProofs Dom Grammar Respace RespaceProofs RespaceDoc.
Import ListNotations.
Local Open Scope N_scope.

(** ** The same tokens
    Spaces and newlines added at a place between tokens: the source is still
    accepted and has the same tokens apart from white space. *)
Theorem C36_tokens_unchanged : forall x y w aft s, spaces w ->
  tokenize (enough (x ++ y)) (x ++ y) (0 :: aft) = POk s -> between_tokens (tokens s) x y ->
  exists s', tokenize (enough (x ++ w ++ y)) (x ++ w ++ y) (0 :: aft) = POk s'
    /\ contents (tokens s') = contents (tokens s).
Proof. intros x y w aft s Hw Ht Bt. destruct (tokens_insert _ x y w aft s Hw Ht Bt) as (s' & H1 & H2 & _). eauto. Qed.
Print Assumptions C36_tokens_unchanged.

(** ** The same document
    Missing: quotes and comments of more than one line must stay in their
    columns, and have no carriage returns (see the counterexample). *)
Theorem C36_document_unchanged_partial : forall root src src' aft s d,
  tokenize (enough src) src (0 :: aft) = POk s -> plain_values (tokens s) -> space_added (tokens s) src src' ->
  parse_buffer (enough src) root src (0 :: aft) = Document d ->
  parse_buffer (enough src') root src' (0 :: aft) = Document d.
Proof.
  intros root src src' aft s d Ht Hp Ha Hd. destruct Ha as [x y w Hw Bt Ck]. eapply parse_insert; eauto.
Qed.
Print Assumptions C36_document_unchanged_partial.

(** Many places, one after the other. *)
Inductive spaces_added (aft : bytes) : bytes -> bytes -> Prop :=
| added_none src : spaces_added aft src src
| added_more src s src1 src2 : tokenize (enough src) src (0 :: aft) = POk s -> plain_values (tokens s) ->
    space_added (tokens s) src src1 -> spaces_added aft src1 src2 -> spaces_added aft src src2.
Theorem C36_many_places_partial : forall root src src' aft d, spaces_added aft src src' ->
  parse_buffer (enough src) root src (0 :: aft) = Document d ->
  parse_buffer (enough src') root src' (0 :: aft) = Document d.
Proof.
  intros root src src' aft d H. induction H as [|src s src1 src2 Ht Hp Ha _ IH]; auto.
  intros Hd. apply IH. eapply C36_document_unchanged_partial; eauto.
Qed.
Print Assumptions C36_many_places_partial.

(** When no quote or comment has more than one line, every place between
    tokens will do. *)
Theorem C36_single_lines_partial : forall root x y w aft s d, spaces w ->
  tokenize (enough (x ++ y)) (x ++ y) (0 :: aft) = POk s -> between_tokens (tokens s) x y ->
  (forall t, In t (tokens s) -> is_white t = false -> plain (t_text t) /\ ~ In cNL (t_text t)) ->
  parse_buffer (enough (x ++ y)) root (x ++ y) (0 :: aft) = Document d ->
  parse_buffer (enough (x ++ w ++ y)) root (x ++ w ++ y) (0 :: aft) = Document d.
Proof.
  intros root x y w aft s d Hw Ht Bt Hl Hd. eapply parse_insert; eauto.
  - intros t I W. apply (Hl t I W).
  - intros A t C v E W N _. exfalso. apply (Hl t); auto. rewrite E. apply in_elt.
Qed.
Print Assumptions C36_single_lines_partial.

(** When a newline follows between the place and the next such quote or
    comment, the columns are kept. *)
Lemma last_line_nl a u : last_line (a ++ cNL :: u) = last_line u.
Proof.
  induction a as [|c a IH]; cbn [app last_line]; [|].
  - cbn [existsb]. change (cNL =? cNL) with true. reflexivity.
  - rewrite IH. assert (existsb (fun d => d =? cNL) (c :: a ++ cNL :: u) = true) as ->; auto.
    apply existsb_exists. exists cNL. split; [right; apply in_elt|reflexivity].
Qed.
Theorem C36_next_line_keeps_columns : forall T x w,
  (forall A t C v, T = A ++ t :: C -> is_white t = false -> In cNL (t_text t) -> texts A = x ++ v -> In cNL v) ->
  columns_kept T x w.
Proof.
  intros T x w H A t C v E W N X. specialize (H A t C v E W N X). apply in_split in H as (a & b & ->).
  unfold col_after. rewrite !app_assoc, !last_line_nl. reflexivity.
Qed.
Print Assumptions C36_next_line_keeps_columns.

(** ** Counterexample
    A space before a quote of two lines changes its value. *)
Definition two_lines : bytes := B "'x" ++ [cNL] ++ B "   y'".
Definition same_value_everywhere : Prop := forall x y w aft s d, spaces w ->
  tokenize (enough (x ++ y)) (x ++ y) (0 :: aft) = POk s -> between_tokens (tokens s) x y ->
  parse_buffer (enough (x ++ y)) None (x ++ y) (0 :: aft) = Document d ->
  parse_buffer (enough (x ++ w ++ y)) None (x ++ w ++ y) (0 :: aft) = Document d.

(** The tokens of a source. *)
Definition tokens_of (src : bytes) : list token :=
  match tokenize (enough src) src [0] with POk s => tokens s | _ => [] end.
Definition no_join (t : token) : bool :=
  match t_kind t with Kns_colon | Kcomment_continuation | Kcomment => false | _ => true end.
Definition nonempty (t : token) : bool := match t_text t with [] => false | _ => true end.
(** The place after n of the tokens. *)
Lemma place_after n src : let T := tokens_of src in
  forallb nonempty T = true -> forallb no_join T = true ->
  (texts (skipn n T) = [] \/ exists c r, texts (skipn n T) = c :: r /\ starts_char c = true
      /\ (c = cSP \/ c = cNL \/ c = cCR \/ ~ begins_white (texts (skipn n T)))) ->
  between_tokens T (texts (firstn n T)) (texts (skipn n T)).
Proof.
  intros T H1 H2 H3. rewrite <- (firstn_skipn n T) at 1. rewrite forallb_forall in H1, H2.
  apply between_intro; auto.
  - rewrite firstn_skipn. apply Forall_forall. intros t I E. specialize (H1 t I). unfold nonempty in H1. rewrite E in H1. discriminate.
  - intros t C E [J|J]; (assert (I : In t T) by (rewrite <- (firstn_skipn n T), E; apply in_elt)); specialize (H2 t I); unfold no_join in H2; rewrite J in H2; discriminate.
  - intros t A E J. assert (I : In t T) by (rewrite <- (firstn_skipn n T), E; apply in_app_iff; left; apply in_app_iff; right; now left).
    specialize (H2 t I). unfold no_join in H2. destruct J as [J|(J & _)]; rewrite J in H2; discriminate.
Qed.

(** The tokens with the bytes before them. *)
Fixpoint prefixes (u : bytes) (T : list token) : list (bytes * token) :=
  match T with [] => [] | t :: T' => (u, t) :: prefixes (u ++ t_text t) T' end.
Lemma in_prefixes A : forall t C u, In (u ++ texts A, t) (prefixes u (A ++ t :: C)).
Proof.
  induction A as [|a A IH]; intros t C u; cbn [app prefixes]; [left; now rewrite app_nil_r|].
  right. change (a :: A) with ([a] ++ A). rewrite texts_cat, texts_one, app_assoc. apply IH.
Qed.

Definition accepted (src : bytes) : bool := match tokenize (enough src) src [0] with POk _ => true | _ => false end.
Lemma accepted_ok src : accepted src = true -> exists s, tokenize (enough src) src [0] = POk s /\ tokens s = tokens_of src.
Proof. unfold accepted, tokens_of. destruct (tokenize (enough src) src [0]) as [s| | | |]; try discriminate. intros _. exists s. auto. Qed.

Theorem C36_column_of_lines_refuted : ~ same_value_everywhere.
Proof.
  intros H. destruct (accepted_ok (B "a=" ++ two_lines) eq_refl) as (s & Hs & Ht).
  assert (Bt : between_tokens (tokens s) (B "a=") two_lines).
  { rewrite Ht. apply (place_after 2 (B "a=" ++ two_lines)); [reflexivity|reflexivity|]. right. exists cQ. eexists. split; [reflexivity|]. split; [reflexivity|].
    right. right. right. intros W. inversion W; subst; discriminate. }
  specialize (H (B "a=") two_lines [cSP] [] s [Elem (B "a") [] [Part (PText (B "x" ++ [cNL] ++ B "y"))]]).
  assert (W : spaces [cSP]) by (intros c [<-|[]]; auto).
  specialize (H W Hs Bt eq_refl). vm_compute in H. discriminate.
Qed.
Print Assumptions C36_column_of_lines_refuted.

(** ** Examples *)
(** The quote of two lines starts on a line of its own. *)
Definition small : bytes := B "a(k='v' j){b=&c;" ++ [cNL] ++ B "  'q" ++ [cNL] ++ B "   r' d}".
Definition small_doc : list node :=
  [Elem (B "a") [(B "k", [PText (B "v")]); (B "j", [])]
    [Elem (B "b") [] [Part (PRef (B "c"))]; Part (PText (B "q" ++ [cNL] ++ B "r")); Elem (B "d") [] []]].
Example small_parses : parse_buffer (enough small) None small [0] = Document small_doc.
Proof. vm_compute. reflexivity. Qed.

(** White space before the attributes and after the equals sign. *)
Definition part1 : bytes := B "a(k=".
Definition part2 : bytes := B "'v' j){b=&c;" ++ [cNL] ++ B "  'q" ++ [cNL] ++ B "   r' d}".
Definition added : bytes := [cSP; cNL; cSP; cSP].
Example small_spaced : exists s, tokenize (enough small) small [0] = POk s
  /\ plain_values (tokens s) /\ space_added (tokens s) small (part1 ++ added ++ part2)
  /\ List.length (contents (tokens s)) = 14%nat.
Proof.
  destruct (accepted_ok small eq_refl) as (s & Hs & Ht). exists s. split; [exact Hs|]. rewrite Ht.
  split; [|split; [|vm_compute; reflexivity]].
  - intros t I W. apply (proj1 (forallb_forall (fun t => is_white t || forallb (fun c => negb (c =? 0) && negb (c =? cCR)) (t_text t)) (tokens_of small))) with (x := t) in I;
      [|vm_compute; reflexivity]. rewrite W in I. cbn [orb] in I. rewrite forallb_forall in I.
    split; intros Q; specialize (I _ Q); discriminate.
  - apply (sa_at (tokens_of small) part1 part2 added).
    + intros c H. cbn in H. intuition.
    + assert (E1 : texts (firstn 4 (tokens_of small)) = part1) by (vm_compute; reflexivity).
      assert (E2 : texts (skipn 4 (tokens_of small)) = part2) by (vm_compute; reflexivity).
      pose proof (place_after 4 small) as Q. cbn zeta in Q. rewrite E1, E2 in Q. apply Q; [vm_compute; reflexivity|vm_compute; reflexivity|].
      right. exists cQ. eexists. split; [reflexivity|]. split; [reflexivity|].
      right. right. right. intros W. inversion W; subst; discriminate.
    + apply C36_next_line_keeps_columns. intros A t C v E W N X.
      assert (Q : forallb (fun p => match p with (u, t) => is_white t || negb (existsb (N.eqb cNL) (t_text t)) || existsb (N.eqb cNL) (skipn (List.length part1) u) end)
                  (prefixes [] (tokens_of small)) = true) by (vm_compute; reflexivity).
      rewrite forallb_forall in Q. specialize (Q (texts A, t)).
      assert (I : In (texts A, t) (prefixes [] (tokens_of small))) by (rewrite E; apply (in_prefixes A t C [])).
      specialize (Q I). cbn beta iota in Q. rewrite W, X, skipn_app, skipn_all, Nat.sub_diag in Q. cbn [orb app skipn] in Q.
      apply orb_true_iff in Q as [Q|Q].
      * exfalso. apply negb_true_iff in Q. assert (G : existsb (N.eqb cNL) (t_text t) = true); [|rewrite G in Q; discriminate Q].
        apply existsb_exists. exists cNL. split; [exact N|reflexivity].
      * apply existsb_exists in Q as (c & I2 & Q). apply N.eqb_eq in Q. rewrite Q. exact I2.
Qed.
Example small_spaced_parses : parse_buffer (enough (part1 ++ added ++ part2)) None (part1 ++ added ++ part2) [0] = Document small_doc.
Proof.
  destruct small_spaced as (s & Ht & Hp & Ha & _). exact (C36_document_unchanged_partial None _ _ [] s _ Ht Hp Ha small_parses).
Qed.
