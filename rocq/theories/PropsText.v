(** Properties C31 and C45: C quoting, and the line and column of an offset.

    [quote_as_c s aft q] is xmq_quote_as_c on the bytes [s], followed in memory
    by [aft]; [unquote_as_c] is xmq_unquote_as_c; [find_line_col at_ s 1 1] is
    find_line_col for the character number [at_] of [s].  [c_string o s] says
    that the bytes [o] between the quotes of a C string denote the text [s]. *)
From Coq Require Import NArith ZArith List Bool Arith Lia.
From Verif Require Import Bytes BytesFacts Utf8 Utf8Proofs Outcome Parser ParserSpec ParserProofs CQuote CQuoteProofs.
Import ListNotations.
Local Open Scope N_scope.

(** C31, what is proved.  For all UTF-8 texts without NUL: quoting succeeds,
    its result denotes the text and no other, contains no control character,
    and fits the buffer.  Two quotes are added on demand.  Missing: the claim
    for bytes that are not UTF-8, where it is false (see below). *)
Theorem C31_quoting_denotes_text_partial : forall us aft,
  Forall (fun u => 0 < u <= 0x10ffff) us ->
  let s := concat (map utf8_spec us) in
  exists o, quote_as_c s aft false = Ok o /\ quote_as_c s aft true = Ok (cDQ :: o ++ [cDQ])
    /\ c_string o s /\ (forall s', c_string o s' -> s' = s)
    /\ (forall c, In c o -> 32 <= c <= 126 \/ 128 <= c).
Proof.
  intros us aft H s. exists (concat (map quoted_char us)).
  assert (D : c_string (concat (map quoted_char us)) s) by (apply quoted_denotes; assumption).
  assert (Q : forall q, quote_as_c s aft q = Ok ((if q then [cDQ] else []) ++ concat (map quoted_char us) ++ (if q then [cDQ] else []))).
  { intros q. unfold quote_as_c. destruct s eqn:E.
    - unfold s in E. destruct us as [|u us]; [destruct q; reflexivity|]. exfalso. cbn in E.
      apply Forall_inv in H. destruct (peek_spec u [] ltac:(lia)) as (c & t & X & _). rewrite X in E. discriminate E.
    - rewrite <- E. unfold s. now rewrite quote_c_out. }
  split; [rewrite Q; cbn [app]; now rewrite app_nil_r|]. split; [now rewrite Q|]. split; [exact D|]. split.
  - intros s' H'. symmetry. eapply c_string_unique; eauto.
  - intros c I. eapply c_string_printable; eauto.
Qed.
Print Assumptions C31_quoting_denotes_text_partial.
(** For all bytes whatever: when quoting does not read behind the memory it was
    given, the result and its NUL fit the allocated buffer. *)
Theorem C31_quoting_fits_its_buffer : forall s aft q o,
  s <> [] -> quote_as_c s aft q = Ok o -> (S (List.length o) <= quote_c_size s)%nat.
Proof. exact quote_c_fits. Qed.
Print Assumptions C31_quoting_fits_its_buffer.
(** Unquoting restores the text, for UTF-8 texts whose characters below 128 are
    printable, or one of the seven control characters with an escape of their
    own, and are not a backslash.  Missing: the backslash and the other control
    characters, for which it is false (see below). *)
Theorem C31_unquoting_restores_partial : forall us aft aft' q,
  Forall (fun u => u <= 0x10ffff /\ (32 <= u <= 126 \/ 128 <= u \/ 7 <= u <= 13) /\ u <> cBSL) us ->
  let s := concat (map utf8_spec us) in
  exists o, quote_as_c s aft q = Ok o /\ unquote_as_c o aft' q = Ok s.
Proof.
  intros us aft aft' q H s.
  assert (H0 : Forall (fun u => 0 < u <= 0x10ffff) us) by (eapply Forall_impl; [|exact H]; cbn; intros; lia).
  destruct (C31_quoting_denotes_text_partial us aft H0) as (o & A & A' & _).
  assert (Eo : o = concat (map quoted_char us)).
  { destruct us as [|u us]; [cbn in A; now injection A as <-|]. unfold quote_as_c in A.
    destruct (concat (map utf8_spec (u :: us))) eqn:E.
    - exfalso. cbn in E. destruct (peek_spec u [] ltac:(apply Forall_inv in H0; lia)) as (c & t & X & _). rewrite X in E. discriminate E.
    - rewrite <- E in A. rewrite quote_c_out in A by assumption. injection A as A. cbn [app map concat] in A. rewrite app_nil_r in A. now symmetry. }

  destruct q.
  - exists (cDQ :: o ++ [cDQ]). split; [exact A'|]. unfold unquote_as_c. cbn [drop_white app]. change (is_xml_whitespace cDQ) with false. cbv iota.
    cbn [app]. change (negb (cDQ =? cDQ)) with false. cbv iota. cbn [tl].
    subst o. rewrite (unquote_all true [cDQ] us); [|exact H|right; split; eauto]. cbn. reflexivity.
  - exists o. split; [exact A|]. subst o. unfold unquote_as_c. destruct (concat (map quoted_char us)) eqn:E.
    + destruct us as [|u us]; [reflexivity|]. exfalso. cbn in E. apply app_eq_nil in E. destruct E as [E _]. unfold quoted_char in E.
      destruct (u <? 128); [|destruct (peek_spec u [] ltac:(apply Forall_inv in H0; lia)) as (c & t & X & _); rewrite X in E; discriminate E].
      unfold escape_c in E. repeat match type of E with (if ?b then _ else _) = _ => destruct b; [discriminate E|] end. discriminate E.
    + rewrite <- E. pose proof (unquote_all false [] us H (or_introl eq_refl)) as U. rewrite app_nil_r in U. now rewrite U.
Qed.
Print Assumptions C31_unquoting_restores_partial.
Example C31_example : let us := [97; 34; 10; 0xe5; 0x1f600; 9] in
  let s := concat (map utf8_spec us) in
  exists o, quote_as_c s [0] true = Ok o /\ (List.length o = 15)%nat /\ unquote_as_c o [0] true = Ok s.
Proof. eexists. vm_compute. repeat split. Qed.
(** The empty text was found to be fine too. *)
Example C31_empty : quote_as_c [] [0] true = Ok [cDQ; cDQ] /\ unquote_as_c [cDQ; cDQ] [0] true = Ok [].
Proof. split; reflexivity. Qed.

(** C31 is false in general. *)
(** A backslash disappears, *)
Theorem C31_backslash_is_not_restored_refuted : exists s o,
  quote_as_c s [0] true = Ok o /\ unquote_as_c o [0] true = Ok [97; 98] /\ s = [97; cBSL; 98].
Proof. repeat eexists; vm_compute; reflexivity. Qed.
Print Assumptions C31_backslash_is_not_restored_refuted.
(** and a control character without an escape of its own leaves its two hex
    digits. *)
Theorem C31_control_is_not_restored_refuted : exists s o,
  quote_as_c s [0] true = Ok o /\ unquote_as_c o [0] true = Ok [48; 49] /\ s = [1].
Proof. repeat eexists; vm_compute; reflexivity. Qed.
Print Assumptions C31_control_is_not_restored_refuted.
(** A byte that starts a two byte character and is followed by a quote: the
    quote is written without a backslash, and the string denotes nothing. *)
Theorem C31_bad_utf8_leaves_a_quote_refuted : exists s o,
  quote_as_c s [0] false = Ok o /\ ~ (exists s', c_string o s') /\ In cDQ o /\ ~ In cBSL o.
Proof.
  exists [0xc3; cDQ], [0xc3; cDQ]. split; [vm_compute; reflexivity|]. split; [|split; [cbn; tauto|]].
  - intros (s' & H). inversion H; subst. match goal with X : c_string [cDQ] _ |- _ => inversion X; subst; congruence end.
  - cbn. unfold cDQ, cBSL. intros [X|[X|X]]; try discriminate X. exact X.
Qed.
Print Assumptions C31_bad_utf8_leaves_a_quote_refuted.
(** A byte that is never UTF-8, before the NUL of the text: memory behind the
    NUL is read. *)
Theorem C31_bad_utf8_reads_behind_the_text_refuted : exists s, quote_as_c s [0] true = UB.
Proof. exists [0xff]. reflexivity. Qed.
Print Assumptions C31_bad_utf8_reads_behind_the_text_refuted.
(** A C compiler takes all hex digits after a backslash and x, so it would read
    the quote of byte 1 and the letter A as byte 0x1A: the two digit escapes of
    [c_string] are what a reader must assume. *)
Example C31_hex_is_two_digits : quote_as_c [1; 65] [0] false = Ok (cBSL :: 120 :: 48 :: 49 :: [65]).
Proof. reflexivity. Qed.

(** C45, what is proved, for all UTF-8 texts and all offsets (in characters):
    the line is that of the tokenizer ([line_after], [col_after] is the position
    of C17 after the bytes before the offset), and so is the column on the first
    line; on all other lines the column is one less.  Missing: the column
    on later lines, where the claim is false. *)
Theorem C45_line_agrees_partial : forall us k, Forall (fun u => u <= 0x10ffff) us ->
  let before := concat (map utf8_spec (firstn k us)) in
  exists col, find_line_col k (concat (map utf8_spec us)) 1 1 = Ok (line_after before, col)
    /\ (line_after before = 1 -> col = col_after before)
    /\ (line_after before <> 1 -> col = col_after before - 1).
Proof.
  intros us k H before. eexists. split; [exact (find_line_col_spec us k H)|]. fold before.
  destruct (N.eqb_spec (line_after before) 1); split; intros; congruence.
Qed.
Print Assumptions C45_line_agrees_partial.
Example C45_example : find_line_col 5 ([97; 98; 0xc3; 0xa5; 10; 99; 100]) 1 1 = Ok (2, 1)
  /\ line_after ([97; 98; 0xc3; 0xa5; 10; 99]) = 2 /\ col_after ([97; 98; 0xc3; 0xa5; 10; 99]) = 2.
Proof. repeat split. Qed.
(** The first character of the second line is said to be in column 0. *)
Theorem C45_column_differs_refuted : exists us k, Forall (fun u => u <= 0x10ffff) us /\
  let before := concat (map utf8_spec (firstn k us)) in
  find_line_col k (concat (map utf8_spec us)) 1 1 <> Ok (line_after before, col_after before).
Proof. exists [97; 10; 98], 2%nat. split; [repeat constructor; lia|]. vm_compute. intros H. discriminate H. Qed.
Print Assumptions C45_column_differs_refuted.
(** Bytes that are not UTF-8 end the program. *)
Theorem C45_bad_utf8_aborts_refuted : exists s, find_line_col 1 s 1 1 = Abrt.
Proof. exists [0x80; 97; 97; 97; 97]. reflexivity. Qed.
Print Assumptions C45_bad_utf8_aborts_refuted.
