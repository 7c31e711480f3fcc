(** C72: content is read as the type that was asked for, or as the type it has. *)
From Coq Require Import NArith ZArith List Bool Arith Lia String.
From Verif Require Import Bytes BytesFacts Outcome Dom Detect NsDom Load Typed TypedSpec NsSpec NsMeans NsGrammar NsDetect GrammarProofs Parser PropsBasic PropsLoad PropsNsGrammar.
Import ListNotations.
Local Open Scope N_scope.
Local Open Scope list_scope.

Section Readers.
Variable others : reader -> option bytes -> load_flags -> bytes -> bytes -> nresult.
Variable fuel : nat.
(** What a reader makes of the bytes *)
Definition by_reader (r : reader) (root : option bytes) (fl : load_flags) (s aft : bytes) : nresult :=
  match r with
  | RXmq => nparse_buffer fuel (xmq_root root) s aft
  | RText => NDocument (parse_buffer_text root s)
  | RClines => NDocument (parse_buffer_clines s)
  | r => others r root fl s aft
  end.

Lemma should_trim_iff ct c r fl : accepts ct c r ->
  (should_trim (if ctype_eqb ct TDetect then type_of c else ct) fl = true <-> trims r fl).
Proof.
  intros A. unfold should_trim, trims. destruct fl as [a b d]. cbn [trim_none trim_heuristic trim_exact].
  destruct A; destruct a, b, d; cbn; intuition congruence.
Qed.

(** What is of the type is read, by the reader for it, from after a byte order
    mark; type and size are those of the content. *)
Theorem C72_read : forall errno root ct fl s s' aft c r,
  skip_any_potential_bom s = Some s' -> detect_content_type s' aft = DOk c -> accepts ct c r ->
  (forall d, by_reader r root fl s' aft = NDocument d ->
     exists t, parse_with_type others fuel errno root ct fl s aft = LDone (Load true errno (Some (type_of c, len s')) t (Some d)) /\ (t = true <-> trims r fl)) /\
  (forall e, by_reader r root fl s' aft = NError e ->
     parse_with_type others fuel errno root ct fl s aft = LDone (Load false e (Some (type_of c, len s')) false None)).
Proof.
  intros errno root ct fl s s' aft c r Bm D A. unfold parse_with_type. rewrite Bm.
  pose proof (should_trim_iff ct c r fl A) as T. assert (NI : ctype_eqb ct TIxml = false) by (destruct A; reflexivity). rewrite NI, D. cbn [dbind].
  assert (NR : negb (ctype_eqb ct TDetect) && negb (ctype_eqb ct (type_of c)) && negb (ctype_eqb ct TText) && negb false && negb (ctype_eqb (type_of c) TXml && ctype_eqb ct THtml) = false)
    by (destruct A as [| | | | | | | | |[| | |]]; reflexivity).
  rewrite NR. cbn iota.
  assert (R : read_as others fuel (if ctype_eqb ct TDetect then type_of c else ct) root fl s' aft = Some (by_reader r root fl s' aft)) by (destruct A; reflexivity).
  rewrite R. split; [intros d E|intros e E]; rewrite E; [|reflexivity]. eexists. split; [reflexivity|exact T].
Qed.

(** What is not of the type is not read: the load fails, and the error says what
    was expected. *)
Theorem C72_refused : forall errno root ct fl s s' aft c e,
  skip_any_potential_bom s = Some s' -> detect_content_type s' aft = DOk c -> not_the_type ct e -> (forall r, ~ accepts ct c r) ->
  parse_with_type others fuel errno root ct fl s aft = LDone (Load false e None false None).
Proof.
  intros errno root ct fl s s' aft c e Bm D Nt A. unfold parse_with_type. rewrite Bm.
  assert (NI : ctype_eqb ct TIxml = false) by (destruct Nt; reflexivity). rewrite NI, D. cbn [dbind].
  destruct Nt, c; cbn; try reflexivity; destruct (A RXmq); first [constructor|destruct (A RXml); constructor|destruct (A RHtml); constructor|destruct (A RJson); constructor].
Qed.
(** For the types with such an error and for detection there is always one of the
    two. *)
Theorem C72_read_or_refused : forall ct c, ct = TDetect \/ ct = TText \/ (exists e, not_the_type ct e) ->
  (exists r, accepts ct c r) \/ (exists e, not_the_type ct e) /\ forall r, ~ accepts ct c r.
Proof.
  intros ct c [->|[->|(e & N)]].
  - left. destruct c; eexists; constructor.
  - left. eexists; constructor.
  - destruct N, c; try (left; eexists; constructor; fail); right; (split; [eexists; constructor|]); intros r H; inversion H.
Qed.
(** Grammars are always read as such. *)
Theorem C72_ixml : forall errno root fl s s' aft d, skip_any_potential_bom s = Some s' -> others RIxml root fl s' aft = NDocument d ->
  exists t, parse_with_type others fuel errno root TIxml fl s aft = LDone (Load true errno (Some (TUnknown, len s')) t (Some d)).
Proof. intros errno root fl s s' aft d Bm E. unfold parse_with_type. rewrite Bm. cbn. rewrite E. eexists. reflexivity. Qed.

(** Asking for the type that the content has is the same as not asking. *)
Theorem C72_detected_is_asked : forall errno root fl s s' aft c, skip_any_potential_bom s = Some s' -> detect_content_type s' aft = DOk c ->
  parse_with_type others fuel errno root TDetect fl s aft = parse_with_type others fuel errno root (type_of c) fl s aft.
Proof. intros errno root fl s s' aft c Bm D. unfold parse_with_type. rewrite Bm. destruct c; cbn [type_of ctype_eqb]; rewrite D; reflexivity. Qed.

(** Every text without zeros becomes the same text, below the root that was asked
    for. *)
Lemma until_zero_all s : ~ In 0 s -> until_zero s = s.
Proof.
  induction s as [|c s IH]; intros H; [reflexivity|]. cbn [until_zero]. destruct (N.eqb_spec c 0) as [->|]; [now destruct H; left|].
  f_equal. apply IH. intros I. apply H. now right.
Qed.
Theorem C72_text : forall errno fl s s' aft c, skip_any_potential_bom s = Some s' -> detect_content_type s' aft = DOk c -> ~ In 0 s' ->
  (exists t, parse_with_type others fuel errno None TText fl s aft = LDone (Load true errno (Some (type_of c, len s')) t (Some [VPart (PText s')]))) /\
  forall root, root <> [] ->
  exists t, parse_with_type others fuel errno (Some root) TText fl s aft = LDone (Load true errno (Some (type_of c, len s')) t (Some [VElem None None root [] [] [VPart (PText s')]])).
Proof.
  intros errno fl s s' aft c Bm D Z. split.
  - destruct (C72_read errno None TText fl s s' aft c RText Bm D (ac_text c)) as (A & _). destruct (A _ eq_refl) as (t & E & _). exists t. rewrite E.
    cbn [by_reader parse_buffer_text]. now rewrite (until_zero_all _ Z).
  - intros root N. destruct (C72_read errno (Some root) TText fl s s' aft c RText Bm D (ac_text c)) as (A & _). destruct (A _ eq_refl) as (t & E & _).
    exists t. rewrite E. destruct root as [|x root]; [contradiction|]. cbn [by_reader parse_buffer_text]. now rewrite (until_zero_all _ Z).
Qed.
(** What follows a zero is lost, and nothing is said about it. *)
Theorem C72_text_with_zero_refuted : exists s fl, forall errno, parse_with_type others fuel errno None TText fl s [0] =
  LDone (Load true errno (Some (TXmq, 3)) false (Some [VPart (PText (B "a"))])) /\ s = [97; 0; 98].
Proof. exists [97; 0; 98], (Flags true false false). intros errno. split; reflexivity. Qed.

(** Nothing can be loaded as htmq or as c-lines; for c-lines no error is set, and
    neither for utf-16. *)
Theorem C72_htmq_refuted : forall errno root fl s aft l, parse_with_type others fuel errno root THtmq fl s aft = LDone l -> l_ok l = false.
Proof.
  intros errno root fl s aft l. unfold parse_with_type. destruct (skip_any_potential_bom s) as [s'|]; [|intros E; injection E as <-; reflexivity].
  cbn [ctype_eqb]. destruct (detect_content_type s' aft) as [c|]; cbn [dbind]; [|discriminate].
  destruct c; cbn; intros E; injection E as <-; reflexivity.
Qed.
Theorem C72_clines_refuted : forall errno root fl s aft l, parse_with_type others fuel errno root TClines fl s aft = LDone l ->
  l_ok l = false /\ l_errno l = errno.
Proof.
  intros errno root fl s aft l. unfold parse_with_type. destruct (skip_any_potential_bom s) as [s'|]; [|intros E; injection E as <-; split; reflexivity].
  cbn [ctype_eqb]. destruct (detect_content_type s' aft) as [c|]; cbn [dbind]; [|discriminate].
  destruct c; cbn; intros E; injection E as <-; split; reflexivity.
Qed.
Theorem C72_utf16_refuted : forall root ct fl s aft, s <> [] ->
  parse_with_type others fuel 0 root ct fl ([255; 254] ++ s) aft = LDone (Load false 0 None false None) /\
  parse_with_type others fuel 0 root ct fl ([254; 255] ++ s) aft = LDone (Load false 0 None false None).
Proof.
  intros root ct fl s aft N. destruct (C07_bom_partial s) as (_ & A & _). destruct (A N) as (A1 & A2). unfold parse_with_type. now rewrite A1, A2.
Qed.
(** A json text that is refused if json is asked for *)
Theorem C72_negative_number_refuted : forall errno root fl aft, parse_with_type others fuel errno root TJson fl (B "-12") (0 :: aft) = LDone (Load false 27 None false None).
Proof. reflexivity. Qed.
End Readers.

(** A written document, with or without a byte order mark, is loaded as the
    document it writes down, if xmq or nothing is asked for. *)
Theorem C72_xmq_document : forall others errno ct fl src d aft bom,
  writes_down src d -> well_scoped d -> (forall w, In w [B "true"; B "false"; B "null"] -> d <> [WElem None w [] []]) ->
  ct = TDetect \/ ct = TXmq ->
  bom = [] /\ (forall r, src <> [239; 187; 191] ++ r) /\ (forall r, src <> [255; 254] ++ r) /\ (forall r, src <> [254; 255] ++ r) \/ bom = [239; 187; 191] /\ src <> [] ->
  exists t v, parse_with_type others (enough src) errno None ct fl (bom ++ src) (0 :: aft) = LDone (Load true errno (Some (TXmq, len src)) t (Some v))
    /\ Forall2 (means []) d v /\ (t = true <-> trims RXmq fl).
Proof.
  intros others errno ct fl src d aft bom W S J C Bm. destruct (C58_source_read_as_written_partial src d aft W S J) as (v & E & M).
  assert (D : detect_content_type src (0 :: aft) = DOk CXMQ).
  { apply (writes_down_detected src d aft W). intros (w & I & Ed). now apply (J w). }
  assert (Sk : skip_any_potential_bom (bom ++ src) = Some src).
  { destruct (C07_bom_partial src) as (A1 & _ & A2). destruct Bm as [(-> & B1 & B2 & B3)|(-> & N)]; [now apply A2|now apply A1]. }
  assert (A : accepts ct CXMQ RXmq) by (destruct C as [-> | ->]; constructor).
  destruct (C72_read others (enough src) errno None ct fl _ _ (0 :: aft) CXMQ RXmq Sk D A) as (R & _). destruct (R v E) as (t & P & T).
  exists t, v. auto.
Qed.

(** A file is loaded as its content is. *)
Theorem C72_file : forall others fuel errno root ct fl content sched n b,
  (Z.of_N (len content) < 2 ^ 63)%Z -> load_file true true (Z.of_N (len content)) content sched = Loaded n b ->
  parse_file_with_type others fuel errno root ct fl (Loaded n b) = parse_with_type others fuel errno root ct fl content [0].
Proof.
  intros others fuel errno root ct fl content sched n b H E. destruct (C54_file_whole _ _ _ _ _ _ H E) as [-> ->].
  unfold parse_file_with_type. assert (W : forall l, written_bytes (map Some l) = Some l) by (induction l as [|x l IH]; [reflexivity|cbn [map written_bytes]; now rewrite IH]).
  rewrite W. unfold len. rewrite Nat2N.id. now rewrite firstn_app, skipn_app, firstn_all, skipn_all, Nat.sub_diag, app_nil_r.
Qed.

(** A file that cannot be opened, or ends before its size, fails with error 1,
    cannot read the file, whatever was there before. *)
Theorem C72_file_cannot_read : forall others fuel errno root ct fl opens content tell sched,
  (0 <= tell < 2 ^ 63)%Z -> opens = false \/ len content < Z.to_N tell ->
  parse_file_with_type others fuel errno root ct fl (load_file opens true tell content sched) = LDone (Load false 1 None false None).
Proof.
  intros others fuel errno root ct fl opens content tell sched H [-> | L]; [reflexivity|].
  destruct (load_file_cases opens true tell content sched H) as [->|[[_ X]|[_ X]]]; [reflexivity|discriminate|lia].
Qed.
(** An empty name of the implicit root is the same as none, for what is read by
    the functions here. *)
Theorem C72_empty_root : forall others fuel errno ct fl s aft, ct = TXmq \/ ct = TText ->
  parse_with_type others fuel errno (Some []) ct fl s aft = parse_with_type others fuel errno None ct fl s aft.
Proof. intros others fuel errno ct fl s aft [-> | ->]; reflexivity. Qed.

(** Examples *)
Definition no_readers : reader -> option bytes -> load_flags -> bytes -> bytes -> nresult := fun _ _ _ _ _ => NError 1.
Example ex_xmq : parse_with_type no_readers 100 0 None TDetect (Flags false false false) (B "a=b") [0] =
  LDone (Load true 0 (Some (TXmq, 3)) false (Some [VElem None None (B "a") [] [] [VPart (PText (B "b"))]])).
Proof. vm_compute. reflexivity. Qed.
Example ex_expected : parse_with_type no_readers 100 0 None TXml (Flags false false false) (B "a=b") [0] = LDone (Load false 25 None false None).
Proof. reflexivity. Qed.
Example ex_text : parse_with_type no_readers 100 0 (Some (B "r")) TText (Flags false false false) (B "<a") [0] =
  LDone (Load true 0 (Some (TXml, 2)) false (Some [VElem None None (B "r") [] [] [VPart (PText (B "<a"))]])).
Proof. reflexivity. Qed.

Print Assumptions C72_read.
Print Assumptions C72_refused.
Print Assumptions C72_read_or_refused.
Print Assumptions C72_ixml.
Print Assumptions C72_detected_is_asked.
Print Assumptions C72_text.
Print Assumptions C72_text_with_zero_refuted.
Print Assumptions C72_htmq_refuted.
Print Assumptions C72_clines_refuted.
Print Assumptions C72_utf16_refuted.
Print Assumptions C72_negative_number_refuted.
Print Assumptions C72_xmq_document.
Print Assumptions C72_file.
Print Assumptions C72_file_cannot_read.
Print Assumptions C72_empty_root.
