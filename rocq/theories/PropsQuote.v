(** Properties C21-C23: the meaning of quotes.

    [un_quote indent cSP t aft true] is xmq_un_quote on the quote token [t]
    whose first quote is at column [indent] (counted from 0); [aft] are the
    readable bytes after the token, so with [aft = []] any read past the end
    of the token is the outcome [UB].  The result is the pair of the allocated
    size and the value. *)
From Coq Require Import NArith List Bool Arith Lia String.
From Verif Require Import Bytes BytesFacts Outcome Quote QuoteSpec QuoteProofs QuoteProofs2 QuoteProofs3.
Import ListNotations.
Local Open Scope N_scope.

(** The text s between d quotes on each side. *)
Definition quoted (d : nat) (s : bytes) : bytes := rep cQ d ++ s ++ rep cQ d.
(** What the tokenizer guarantees about the text of a quote: it does not both
    start and end with a quote character. *)
Definition quotable (s : bytes) : Prop := first_is cQ s && last_is cQ s = false.

(** C21: unquoting a quote token without carriage returns reads only the
    token and the value (with its NUL) fits in the allocated memory. *)
Theorem C21_unquoting_stays_inside_partial : forall indent d s,
  (1 <= d)%nat -> quotable s -> ~ In cCR s -> ~ In 0 s ->
  exists n v, un_quote indent cSP (quoted d s) [] true = Ok (n, v) /\ (List.length v < n)%nat.
Proof.
  intros indent d s Hd Hs H1 H2. destruct (un_quote_text_block indent d s [] Hd Hs H1 H2) as (n & E & L). eauto.
Qed.

(** C21: for every token whatsoever, what is written fits in the allocated
    memory. *)
Theorem C21_output_fits : forall indent space t aft remove n v,
  un_quote indent space t aft remove = Ok (n, v) -> (List.length v < n)%nat.
Proof.
  intros indent space t aft remove n v. unfold un_quote.
  destruct (if remove then _ else _) as [j| | | |]; try discriminate. cbn [obind].
  destruct (Nat.ltb _ _); [discriminate|]. apply trim_quote_fits.
Qed.

(** C21: trimming always ends, for every text; it never fails an assert when
    an indentation or a space character is given. *)
Theorem C21_trimming_terminates : forall indent space s aft, indent <> 0%nat \/ space <> 0 ->
  (exists n v, trim_quote indent space s aft = Ok (n, v)) \/ trim_quote indent space s aft = UB.
Proof.
  intros indent space s aft H. destruct (trim_quote_plain indent space s aft H) as (H1 & H2 & H3).
  destruct (trim_quote indent space s aft) as [[n v]|e| | |]; eauto; try congruence.
Qed.

(** C21, refuted in general: a quote with a lone carriage return before a
    blank last line makes the trimming run past the end of the source.  The
    source is a='x<CR><SP>' with its terminating NUL. *)
Theorem C21_lone_carriage_return_refuted :
  exists indent t, t = quoted 1 (B "x" ++ [cCR; cSP]) /\
  un_quote indent cSP t [0] true = UB.
Proof. exists 2%nat, (quoted 1 (B "x" ++ [cCR; cSP])). split; reflexivity. Qed.

(** C22: a quote without newlines denotes exactly its text, wherever it is
    placed. *)
Theorem C22_single_line_verbatim : forall indent d s aft,
  (1 <= d)%nat -> quotable s -> ~ In cNL s -> ~ In cCR s -> ~ In 0 s ->
  exists n, un_quote indent cSP (quoted d s) aft true = Ok (n, s).
Proof.
  intros indent d s aft Hd Hs Hn Hc H0.
  destruct (un_quote_text_block indent d s aft Hd Hs Hc H0) as (n & E & _).
  rewrite text_block_single in E by auto. eauto.
Qed.

(** C23: the value of any quote is that of the independent specification
    [text_block]; the text starts d columns after the first quote. *)
Theorem C23_value_is_text_block_partial : forall indent d s aft,
  (1 <= d)%nat -> quotable s -> ~ In cCR s -> ~ In 0 s ->
  exists n, un_quote indent cSP (quoted d s) aft true = Ok (n, text_block (indent + d) s).
Proof.
  intros indent d s aft Hd Hs Hc H0.
  destruct (un_quote_text_block indent d s aft Hd Hs Hc H0) as (n & E & _). eauto.
Qed.

(** C23: inserting k spaces after every newline of a quote and moving its
    start by k columns does not change its value. *)
Theorem C23_moving_right_keeps_value_partial : forall indent k d s aft aft',
  (1 <= d)%nat -> quotable s -> ~ In cCR s -> ~ In 0 s ->
  exists n n' v,
    un_quote indent cSP (quoted d s) aft true = Ok (n, v)
    /\ un_quote (indent + k) cSP (quoted d (shift_right k s)) aft' true = Ok (n', v).
Proof.
  intros indent k d s aft aft' Hd Hs Hc H0.
  destruct (un_quote_text_block indent d s aft Hd Hs Hc H0) as (n & E & _).
  assert (Hs' : quotable (shift_right k s)).
  { unfold quotable. now rewrite first_is_shift, last_is_shift. }
  destruct (un_quote_text_block (indent + k) d (shift_right k s) aft' Hd Hs') as (n' & E' & _).
  { intros H. apply in_shift in H. destruct H as [H|H]; [auto|discriminate]. }
  { intros H. apply in_shift in H. destruct H as [H|H]; [auto|discriminate]. }
  exists n, n', (text_block (indent + d) s). split; auto. unfold quoted at 1. rewrite E'. do 2 f_equal.
  pose proof (split_nl_free s) as HF. pose proof (join_split s) as Ej.
  destruct (split_lines s) as [|l ls] eqn:El; [exfalso; now apply (split_lines_ne s)|].
  rewrite <- Ej at 1 2. rewrite shift_join by auto.
  replace (indent + k + d)%nat with (indent + d + k)%nat by lia.
  apply text_block_moved; auto.
  - inversion HF as [|? ? Hl HFl]; subst. apply Forall_forall. intros x Hx. apply in_map_iff in Hx. destruct Hx as (y & <- & Hy).
    rewrite in_app_iff. intros [H|H]; [apply repeat_spec in H; discriminate|].
    rewrite Forall_forall in HFl. eapply HFl; eauto.
  - clear. induction ls; constructor; auto. right. reflexivity.
Qed.

(** C23: the same when blank lines are indented arbitrarily (or not at all). *)
Theorem C23_blank_lines_do_not_matter_partial : forall indent k d l ls ls' aft aft',
  let s := join_lines (l :: ls) in
  let s' := join_lines (l :: ls') in
  Forall (fun l => ~ In cNL l) (l :: ls) -> Forall (fun l => ~ In cNL l) ls' ->
  Forall2 (fun a b => (blank a = true /\ blank b = true) \/ b = rep cSP k ++ a) ls ls' ->
  (1 <= d)%nat -> quotable s -> quotable s' ->
  ~ In cCR s -> ~ In cCR s' -> ~ In 0 s -> ~ In 0 s' ->
  exists n n' v,
    un_quote indent cSP (quoted d s) aft true = Ok (n, v)
    /\ un_quote (indent + k) cSP (quoted d s') aft' true = Ok (n', v).
Proof.
  intros indent k d l ls ls' aft aft' s s' HF HF' HM Hd Hs Hs' Hc Hc' H0 H0'.
  destruct (un_quote_text_block indent d s aft Hd Hs Hc H0) as (n & E & _).
  destruct (un_quote_text_block (indent + k) d s' aft' Hd Hs' Hc' H0') as (n' & E' & _).
  exists n, n', (text_block (indent + d) s). split; auto. unfold quoted at 1. rewrite E'. do 2 f_equal.
  replace (indent + k + d)%nat with (indent + d + k)%nat by lia.
  apply text_block_moved; auto.
Qed.

(** The hypotheses are met, and the values are the expected ones. *)
Example C23_example :
  let s := B "alfa" ++ [cNL] ++ B "      beta  " ++ [cNL; cNL] ++ B "     gamma " in
  quotable s /\ ~ In cCR s /\ ~ In 0 s /\
  text_block 5 s = B "alfa" ++ [cNL] ++ B " beta" ++ [cNL; cNL] ++ B "gamma " /\
  un_quote 4 cSP (quoted 1 s) [] true
  = Ok (List.length s + 1, B "alfa" ++ [cNL] ++ B " beta" ++ [cNL; cNL] ++ B "gamma ")%nat /\
  un_quote 7 cSP (quoted 1 (shift_right 3 s)) [] true
  = Ok (List.length s + 10, B "alfa" ++ [cNL] ++ B " beta" ++ [cNL; cNL] ++ B "gamma ")%nat.
Proof.
  vm_compute. repeat split; auto; intros H; repeat (destruct H as [H|H]; [discriminate|]); auto.
Qed.

Example C23_framed_example :
  text_block 1 ([cNL] ++ B "   x" ++ [cNL] ++ B "     y" ++ [cNL] ++ B "  ") = B "x" ++ [cNL] ++ B "  y".
Proof. reflexivity. Qed.

Example C22_example : quotable (B "it's") /\ un_quote 9 cSP (quoted 3 (B " it's ")) [] true = Ok (7%nat, B " it's ").
Proof. split; reflexivity. Qed.

Print Assumptions C21_unquoting_stays_inside_partial.
Print Assumptions C21_output_fits.
Print Assumptions C21_trimming_terminates.
Print Assumptions C21_lone_carriage_return_refuted.
Print Assumptions C22_single_line_verbatim.
Print Assumptions C23_value_is_text_block_partial.
Print Assumptions C23_moving_right_keeps_value_partial.
Print Assumptions C23_blank_lines_do_not_matter_partial.
