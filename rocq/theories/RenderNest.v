(** The tags of a document rendered as html are closed and nested. *)
From Coq Require Import NArith ZArith List Bool Arith Lia String.
From Verif Require Import Bytes BytesFacts Utf8 Quote Parser Dom NsDom Printer NsPrinter RenderSpec Render RenderProofs
  RenderThemes Highlight HighlightProofs NestSpec PrettyProofs.
Import ListNotations.
Local Open Scope N_scope.

Section nest.
Variable dm : bool.
Notation T := (html_theme dm).

Lemma theme_strings c : strings T c = match name_of c with
  | Some n => (Some ([cLT] ++ name_text n ++ [cGT]), Some ([cLT; cSLASH] ++ name_text n ++ [cGT]))
  | None => (None, None)
  end.
Proof. reflexivity. Qed.

Definition neu (a : rop) : Prop :=
  forall s, r_restart s = None -> neutral (fst (a s)) /\ r_restart (snd (a s)) = None.
Lemma neu_nop : neu rnop.
Proof. intros s R. split; [exact neutral_nil|exact R]. Qed.
Lemma neu_seq a b : neu a -> neu b -> neu (rseq a b).
Proof.
  intros A Bb s R. destruct (A s R) as [A1 A2]. unfold rseq. destruct (a s) as [x s1]. cbn [fst snd] in *.
  destruct (Bb s1 A2) as [B1 B2]. destruct (b s1) as [y s2]. cbn [fst snd] in *.
  split; [now apply neutral_app|exact B2].
Qed.
Lemma neu_put x : neutral x -> neu (rput x).
Proof. intros H s R. split; [exact H|exact R]. Qed.
Lemma neu_on a : (forall p, fst (a p) = []) -> neu (on a).
Proof.
  intros E s R. unfold on. specialize (E (r_p s)). destruct (a (r_p s)) as [o p]. cbn [fst snd] in *. subst o.
  split; [exact neutral_nil|exact R].
Qed.
Lemma neu_when c a : neu a -> neu (rwhen c a).
Proof. intro H. destruct c; [exact H|exact neu_nop]. Qed.
Lemma neu_if (c : bool) a b : neu a -> neu b -> neu (if c then a else b).
Proof. intros. destruct c; assumption. Qed.
Lemma neu_ask {A} (f : pr -> A) k : (forall x, neu (k x)) -> neu (rask f k).
Proof. intros H s R. exact (H _ s R). Qed.
Lemma neu_add n : neu (on (add_cur n)).
Proof. now apply neu_on. Qed.
Lemma neu_last c : neu (on (set_last c)).
Proof. now apply neu_on. Qed.
Lemma neu_line f : neu (on (set_line f)).
Proof. now apply neu_on. Qed.
Lemma neu_reset : neu (on reset_line).
Proof. now apply neu_on. Qed.
Lemma neu_fuel : neu (on no_fuel).
Proof. now apply neu_on. Qed.

(** Between the strings of a color *)
Lemma neu_between c a : neu a -> neu (rseq (wput (pre T c)) (rseq a (wput (post T c)))).
Proof.
  intros A s R. unfold rseq, wput, rput, pre, post. rewrite theme_strings.
  destruct (A s R) as [A1 A2]. destruct (a s) as [x s1]. cbn [fst snd] in *.
  destruct (name_of c) as [n|]; cbn [fst snd].
  - split; [exact (tagged n x A1)|exact A2].
  - rewrite app_nil_r. split; [exact A1|exact A2].
Qed.
Lemma neu_assoc a b c : neu (rseq a (rseq b c)) -> neu (rseq (rseq a b) c).
Proof.
  intros H s R. destruct (H s R) as [H1 H2]. unfold rseq in *. destruct (a s) as [x s1]. destruct (b s1) as [y s2].
  destruct (c s2) as [z s3]. cbn [fst snd] in *. rewrite <- app_assoc. split; assumption.
Qed.
Lemma neu_colored c a : neu a -> neu (colored T c a).
Proof.
  intros H s R. unfold colored. pose proof (neu_between c a H) as G.
  set (s1 := snd (match pre T c with Some p => (r_replay s, RS (r_p s) (Some p) (r_restart s)) | None => (None, s) end)).
  assert (R1 : r_restart s1 = None) by (unfold s1; destruct (pre T c); exact R).
  destruct (G s1 R1) as [G1 G2]. unfold s1 in *. destruct (pre T c) as [p|] eqn:P; cbn [fst snd] in *.
  - destruct (rseq _ _ _) as [o s2]. cbn [fst snd] in *. split; [exact G1|]. destruct (r_replay s); exact G2.
  - destruct (rseq _ _ _) as [o s2]. cbn [fst snd] in *. split; assumption.
Qed.

(** Characters *)
Lemma no_lt_conts a : Forall (fun d => is_cont d = true) a -> ~ In cLT a.
Proof. intros H I. rewrite Forall_forall in H. specialize (H _ I). discriminate H. Qed.
Lemma neu_char ch : is_char ch -> neu (one_char T ch).
Proof.
  destruct ch as [|c a]; [intros []|]. intro A. unfold one_char.
  assert (N1 : neu (rput (if c =? cSP then explicit_space T else if c =? cTAB then explicit_tab T
                          else match esc T c with Some e => e | None => c :: a end))).
  { apply neu_put. destruct (c =? cSP); [now apply neutral_char|]. destruct (c =? cTAB); [now apply neutral_char|].
    unfold html_theme. cbn [esc]. unfold html_escape.
    destruct (c =? cAMP); [intros o r; reflexivity|].
    destruct (N.eqb_spec c cLT) as [->|L]; [intros o r; reflexivity|].
    destruct (c =? cGT); [intros o r; reflexivity|].
    apply neutral_text. intros [E|E]; [exact (L E)|exact (no_lt_conts a A E)]. }
  destruct (is_unicode_whitespace (c :: a)); cbn [rwhen].
  - exact (neu_between CUnicode _ N1).
  - apply neu_seq; [exact neu_nop|]. apply neu_seq; [exact N1|exact neu_nop].
Qed.
Lemma neu_chars l : Forall is_char l -> neu (reach (map (one_char T) l)).
Proof. induction 1 as [|ch l H L IH]; [exact neu_nop|]. apply neu_seq; [exact (neu_char ch H)|exact IH]. Qed.
Lemma neu_str b : neu (r_str T b).
Proof.
  destruct b as [|c r]; [exact neu_nop|]. unfold r_str.
  apply neu_seq; [|apply neu_seq; [apply neu_add|apply neu_last]]. apply neu_chars.
  apply Forall_forall. intros x X. apply in_map_iff in X. destruct X as (d & <- & _). constructor.
Qed.
Lemma neu_range b : neu (r_range T b).
Proof.
  destruct b as [|c r]; [exact neu_nop|]. unfold r_range.
  apply neu_seq; [|apply neu_seq; [apply neu_add|apply neu_last]]. apply neu_chars, chars_ok.
Qed.
Lemma neu_cstr c b : neu (c_str T c b).
Proof. apply neu_colored, neu_str. Qed.

(** White space, quotes and lines *)
Lemma neutral_rep c n : c <> cLT -> neutral (rep c n).
Proof. intro H. apply neutral_text. intro I. unfold rep in I. apply repeat_spec in I. now subst. Qed.
Lemma neu_white n : neu (r_white_spaces T n).
Proof.
  unfold r_white_spaces. apply neu_seq; [exact neu_nop|].
  apply neu_seq; [|apply neu_seq; [apply neu_add|exact neu_nop]].
  apply neu_put. change (indentation_space T) with [cSP]. rewrite concat_rep. now apply neutral_rep.
Qed.
Lemma neu_between3 c a b : neu a -> neu b -> neu (rseq (wput (pre T c)) (rseq a (rseq b (wput (post T c))))).
Proof.
  intros A Bb s R. destruct (neu_between c (rseq a b) (neu_seq _ _ A Bb) s R) as [G1 G2].
  unfold rseq, wput, rput in *. destruct (a s) as [x s1]. destruct (b s1) as [y s2]. cbn [fst snd] in *.
  rewrite <- app_assoc in G1. split; assumption.
Qed.
Lemma neu_between4 c a b d : neu a -> neu b -> neu d ->
  neu (rseq (wput (pre T c)) (rseq a (rseq b (rseq d (wput (post T c)))))).
Proof.
  intros A Bb D s R. destruct (neu_between3 c a (rseq b d) A (neu_seq _ _ Bb D) s R) as [G1 G2].
  unfold rseq, wput, rput in *. destruct (a s) as [x s1]. destruct (b s1) as [y s2]. destruct (d s2) as [z s3].
  cbn [fst snd] in *. rewrite <- app_assoc in G1. split; assumption.
Qed.
Lemma neu_quoted n : neu (r_quoted_spaces T n).
Proof.
  unfold r_quoted_spaces. intros s R.
  destruct (neu_between (CTok Kquote)
    (rseq (rput [cQ]) (rseq (rput (List.concat (repeat (explicit_space T) n))) (rseq (on (add_cur (Z.of_nat n)))
      (rseq (on (set_last cQ)) (rput [cQ])))))) with (s := s) as [G1 G2]; [|exact R|].
  - apply neu_seq; [apply neu_put; now apply neutral_char|].
    apply neu_seq; [apply neu_put; change (explicit_space T) with [cSP]; rewrite concat_rep; now apply neutral_rep|].
    apply neu_seq; [apply neu_add|apply neu_seq; [apply neu_last|apply neu_put; now apply neutral_char]].
  - unfold rseq, wput, rput, on in *. cbn [fst snd add_cur set_last] in *. rewrite <- !app_assoc in *. split; assumption.
Qed.
Lemma neu_quotes n c : neu (r_quotes T n c).
Proof.
  unfold r_quotes. apply neu_between4; [|apply neu_add|apply neu_last]. apply neu_put. now apply neutral_rep.
Qed.
Lemma neu_restart : neu restart.
Proof. intros s R. unfold restart. rewrite R. split; [exact neutral_nil|exact R]. Qed.
Lemma neu_nl : neu (r_nl T None None).
Proof.
  unfold r_nl. apply neu_seq; [exact neu_nop|]. apply neu_seq; [apply neu_put; now apply neutral_char|].
  apply neu_seq; [apply neu_reset|]. apply neu_seq; [exact neu_restart|exact neu_nop].
Qed.
Lemma neu_nl0 : neu (r_nl0 T).
Proof.
  unfold r_nl0, r_nl_and_indent. apply neu_seq; [exact neu_nop|]. apply neu_seq; [apply neu_put; now apply neutral_char|].
  apply neu_seq; [apply neu_reset|]. apply neu_seq; [apply neu_ask; intro; apply neu_white|].
  apply neu_seq; [exact neu_restart|exact neu_nop].
Qed.
Lemma neu_entity_char c s : neu (r_char_entity T c s).
Proof.
  unfold r_char_entity. destruct (decode_utf8 s) as [uc n| |].
  - intros s0 R. destruct (neu_between c _ (neu_cstr CNone (char_ref uc)) s0 R) as [G1 G2].
    unfold rseq, wput, rput, on in *. destruct (c_str T CNone (char_ref uc) s0) as [x s1]. cbn [fst snd] in *.
    cbn [set_last add_cur fst snd]. rewrite app_nil_r. split; assumption.
  - apply neu_between, neu_put. intros o r. reflexivity.
  - apply neu_between, neu_put. intros o r. reflexivity.
Qed.
Lemma neu_slashes a b n : neutral a -> neutral b -> neu (r_slashes T a b n).
Proof.
  intros A Bb. unfold r_slashes. apply neu_between, neu_put. apply neutral_app; [exact A|].
  apply neutral_app; [now apply neutral_rep|exact Bb].
Qed.

(** ** Quotes: between the tags of its color *)
Definition inq (n : color_name) (a : rop) : Prop :=
  forall s, r_restart s = None -> in_tag (name_text n) (fst (a s)) /\ r_restart (snd (a s)) = None.
Lemma inq_neu n a : neu a -> inq n a.
Proof. intros H s R. destruct (H s R) as [H1 H2]. split; [|exact H2]. intros o r. apply H1. Qed.
Lemma inq_seq n a b : inq n a -> inq n b -> inq n (rseq a b).
Proof.
  intros A Bb s R. destruct (A s R) as [A1 A2]. unfold rseq. destruct (a s) as [x s1]. cbn [fst snd] in *.
  destruct (Bb s1 A2) as [B1 B2]. destruct (b s1) as [y s2]. cbn [fst snd] in *.
  split; [|exact B2]. intros o r. rewrite <- app_assoc, A1. apply B1.
Qed.
Lemma inq_if n (c : bool) a b : inq n a -> inq n b -> inq n (if c then a else b).
Proof. intros. destruct c; assumption. Qed.
(** Closing the tag, something, and opening it again *)
Lemma inq_reopen n c a : name_of c = Some n -> neu a -> inq n (rseq (wput (post T c)) (rseq a (wput (pre T c)))).
Proof.
  intros E A s R. destruct (A s R) as [A1 A2]. unfold rseq, wput, rput, pre, post. rewrite theme_strings, E.
  destruct (a s) as [x s1]. cbn [fst snd] in *. split; [|exact A2]. intros o r.
  set (p := [cLT] ++ _). set (q := [cLT; cSLASH] ++ _).
  replace ((q ++ x ++ p) ++ r) with (q ++ x ++ p ++ r) by now rewrite !app_assoc.
  unfold p, q. rewrite close_tag, A1. apply open_tag.
Qed.
Lemma rseq_assoc a b c s : rseq (rseq a b) c s = rseq a (rseq b c) s.
Proof.
  unfold rseq. destruct (a s) as [x s1]. destruct (b s1) as [y s2]. destruct (c s2) as [z s3]. now rewrite app_assoc.
Qed.
Lemma rseq_ext a b b' s : (forall s, b s = b' s) -> rseq a b s = rseq a b' s.
Proof. intro H. unfold rseq. destruct (a s) as [x s1]. now rewrite H. Qed.
Lemma inq_ext n a b : (forall s, b s = a s) -> inq n a -> inq n b.
Proof. intros E H s R. rewrite E. exact (H s R). Qed.
Lemma inq_nl n c : name_of c = Some n -> inq n (r_nl T (pre T c) (post T c)).
Proof.
  intro E. apply (inq_ext n (rseq (wput (post T c)) (rseq (rseq (rput (explicit_nl T)) (rseq (on reset_line) restart)) (wput (pre T c))))).
  - intro s. unfold r_nl. apply rseq_ext. intro s1. rewrite rseq_assoc. apply rseq_ext. intro s2. now rewrite rseq_assoc.
  - apply (inq_reopen n c _ E).
    apply neu_seq; [apply neu_put; now apply neutral_char|]. apply neu_seq; [apply neu_reset|exact neu_restart].
Qed.
Lemma inq_nl_indent n c : name_of c = Some n -> inq n (r_nl_and_indent T (pre T c) (post T c)).
Proof.
  intro E. apply (inq_ext n (rseq (wput (post T c)) (rseq (rseq (rput (explicit_nl T)) (rseq (on reset_line)
     (rseq (rask p_line (r_white_spaces T)) restart))) (wput (pre T c))))).
  - intro s. unfold r_nl_and_indent. apply rseq_ext. intro s1. rewrite rseq_assoc. apply rseq_ext. intro s2.
    rewrite rseq_assoc. apply rseq_ext. intro s3. now rewrite rseq_assoc.
  - apply (inq_reopen n c _ E). apply neu_seq; [apply neu_put; now apply neutral_char|]. apply neu_seq; [apply neu_reset|].
    apply neu_seq; [apply neu_ask; intro; apply neu_white|exact neu_restart].
Qed.
Lemma inq_quote_chars n c0 : name_of c0 = Some n -> forall fuel s, inq n (r_quote_chars T fuel c0 s).
Proof.
  intro E. induction fuel as [|fuel IH]; intro s; destruct s as [|c r]; try (apply inq_neu; exact neu_nop).
  cbn [r_quote_chars]. apply inq_if.
  - apply inq_seq; [|apply IH]. destruct r as [|d r]; [now apply inq_nl|].
    apply inq_if; [now apply inq_nl_indent|now apply inq_nl].
  - pose proof (take_cont_ok r) as K. destruct (take_cont r) as [a b]. cbn [fst] in K.
    apply inq_seq; [apply inq_neu; exact (neu_char (c :: a) K)|].
    apply inq_seq; [apply inq_neu, neu_last|apply inq_seq; [apply inq_neu, neu_add|apply IH]].
Qed.
(** Closing: the tag is open before and closed after *)
Definition outq (n : color_name) (a : rop) : Prop :=
  forall s, r_restart s = None ->
    (forall o r, tags GText (name_text n :: o) (fst (a s) ++ r) = tags GText o r) /\ r_restart (snd (a s)) = None.
Lemma out_seq_l n a b : inq n a -> outq n b -> outq n (rseq a b).
Proof.
  intros A Bb s R. destruct (A s R) as [A1 A2]. unfold rseq. destruct (a s) as [x s1]. cbn [fst snd] in *.
  destruct (Bb s1 A2) as [B1 B2]. destruct (b s1) as [y s2]. cbn [fst snd] in *.
  split; [|exact B2]. intros o r. rewrite <- app_assoc, A1. apply B1.
Qed.
Lemma out_seq_r n a b : outq n a -> neu b -> outq n (rseq a b).
Proof.
  intros A Bb s R. destruct (A s R) as [A1 A2]. unfold rseq. destruct (a s) as [x s1]. cbn [fst snd] in *.
  destruct (Bb s1 A2) as [B1 B2]. destruct (b s1) as [y s2]. cbn [fst snd] in *.
  split; [|exact B2]. intros o r. rewrite <- app_assoc, A1. apply B1.
Qed.
Lemma out_post n c : name_of c = Some n -> outq n (wput (post T c)).
Proof.
  intros E s R. unfold wput, rput, post. rewrite theme_strings, E. cbn [fst snd]. split; [|exact R].
  intros o r. apply close_tag.
Qed.
Lemma neu_set_restart : neu (set_restart None).
Proof. intros s R. split; [exact neutral_nil|reflexivity]. Qed.
Lemma neu_open n c a : name_of c = Some n -> outq n a -> neu (rseq (wput (pre T c)) a).
Proof.
  intros E A s R. destruct (A s R) as [A1 A2]. unfold rseq, wput, rput, pre. rewrite theme_strings, E. cbn [fst].
  destruct (a s) as [x s1]. cbn [fst snd] in *. split; [|exact A2]. intros o r.
  rewrite <- (app_assoc _ x r), open_tag. apply A1.
Qed.
Lemma neu_quote_lines n c0 s : name_of c0 = Some n -> ends_with cNL s && all_are cNL s = false ->
  neu (r_quote_lines T c0 s).
Proof.
  intros E L s0 R. unfold r_quote_lines. rewrite R. revert s0 R.
  match goal with |- forall s0 _, neutral (fst (?a s0)) /\ _ => change (neu a) end.
  apply (neu_open n _ _ E).
  replace (match post T c0 with None => pre T c0 | Some _ => None end) with (@None bytes)
    by (unfold post; rewrite theme_strings, E; reflexivity).
  apply out_seq_l; [apply inq_neu, neu_set_restart|].
  apply out_seq_l; [destruct (starts_with cNL s); [now apply inq_nl|apply inq_neu, neu_nop]|].
  apply out_seq_l; [now apply inq_quote_chars|].
  destruct (ends_with cNL s); cbn [rwhen negb andb] in *.
  - apply out_seq_r; [|apply neu_seq; [exact neu_nop|exact neu_set_restart]].
    apply out_seq_l; [apply inq_neu, neu_line|]. apply out_seq_r; [|apply neu_line].
    rewrite L. unfold r_nl_and_indent. apply out_seq_r; [now apply out_post|].
    apply neu_seq; [apply neu_put; now apply neutral_char|].
    apply neu_seq; [apply neu_reset|]. apply neu_seq; [apply neu_ask; intro; apply neu_white|].
    apply neu_seq; [exact neu_restart|exact neu_nop].
  - apply out_seq_l; [apply inq_neu, neu_nop|]. apply out_seq_r; [now apply out_post|exact neu_set_restart].
Qed.
Lemma neu_leaf n c s : name_of c = Some n -> ends_with cNL s && all_are cNL s = false -> neu (r_safe_leaf_quote T c s).
Proof.
  intros E L. apply neu_ask. intro old. destruct (count_necessary_quotes s false) as [[numq nls] cc].
  apply neu_if;
    repeat (apply neu_seq; [first [apply neu_line|apply neu_quotes|apply neu_nl0|apply (neu_quote_lines n); assumption]|]).
  - apply neu_line.
  - apply neu_quotes.
Qed.

Section settings.
Variable C : cfg.

Ltac space :=
  apply neu_ask; intro;
  repeat (apply neu_if || apply neu_when || exact neu_nop || apply neu_nl0 || apply neu_white).
Lemma neu_space_attribute : neu (r_space_attribute T C).
Proof. space. Qed.
Lemma neu_space_entity : neu (r_space_entity T C).
Proof. space. Qed.
Lemma neu_space_quote l : neu (r_space_quote T C l).
Proof. space. Qed.
Lemma neu_space_key : neu (r_space_key T C).
Proof. space. Qed.
Lemma neu_space_open : neu (r_space_opening_brace T C).
Proof. space. Qed.
Lemma neu_space_close : neu (r_space_closing_brace T C).
Proof. apply neu_when, neu_nl0. Qed.
Lemma neu_space_comment : neu (r_space_comment T C).
Proof. space. Qed.
Lemma neu_all_ws fuel l s : neu (r_all_whitespace T C fuel l s).
Proof.
  revert s. induction fuel as [|fuel IH]; intro s; destruct s as [|c r]; try exact neu_nop.
  cbn [r_all_whitespace]. apply neu_if.
  - apply neu_seq; [apply neu_space_quote|apply neu_seq; [apply neu_quoted|apply IH]].
  - apply neu_seq; [apply neu_space_entity|apply neu_seq; [apply neu_entity_char|apply IH]].
Qed.
Lemma neu_newlines l m : neu (r_newline_entities T C l m).
Proof.
  induction m as [|m IH]; [exact neu_nop|]. cbn [r_newline_entities].
  apply neu_seq; [apply neu_space_entity|apply neu_seq; [apply neu_entity_char|exact IH]].
Qed.

(** ** The pieces of a text *)
Lemma next_at ps s : forall i, exists k, next_escape C ps i s = (i + k)%nat /\ (k <= List.length s)%nat
  /\ (forall c, In c (firstn k s) -> must_escape C c = false)
  /\ (skipn k s = [] \/ exists c r, skipn k s = c :: r /\ referred C c = true).
Proof.
  induction s as [|c s IH]; intros i; cbn [next_escape].
  - exists 0%nat. repeat split; auto; try lia. intros c [].
  - destruct ((compact C && (c =? cQ) && Nat.eqb i ps) || must_escape C c) eqn:X.
    + exists 0%nat. repeat split; auto; try lia; [intros d []|]. right. exists c, s. split; [reflexivity|].
      unfold referred. apply orb_true_iff in X. destruct X as [X| ->]; [|reflexivity].
      apply andb_prop in X. destruct X as [-> _]. apply orb_true_r.
    + apply orb_false_iff in X. destruct X as [_ X].
      destruct (IH (S i)) as (k & -> & K1 & K2 & K3). exists (S k). split; [lia|]. split; [cbn; lia|].
      split; [|exact K3]. cbn [firstn]. intros d [<-|I]; auto.
Qed.
Lemma find_at s : let k := find_next_escape C s in (k <= List.length s)%nat
  /\ (forall c, In c (firstn k s) -> must_escape C c = false)
  /\ (skipn k s = [] \/ exists c r, skipn k s = c :: r /\ referred C c = true).
Proof.
  unfold find_next_escape. destruct (compact C && starts_with cQ s) eqn:X.
  - cbn. split; [lia|]. split; [intros c []|]. apply andb_prop in X. destruct X as [X Y].
    destruct s as [|c s]; [discriminate Y|]. right. exists c, s. split; [reflexivity|].
    unfold referred. cbn in Y. rewrite X, Y. apply orb_true_r.
  - destruct (next_at (List.length s - count_lead cQ (rev s)) s 0) as (k & -> & H). exact H.
Qed.
Notation held := (fun t => escape_newlines C = true \/ accompanied C t).
Lemma all_nl_rep s : all_are cNL s = true -> s = rep cNL (List.length s).
Proof.
  induction s as [|c s IH]; [reflexivity|]. cbn. intro H. apply andb_prop in H. destruct H as [E H].
  apply N.eqb_eq in E. subst c. unfold rep in *. cbn. f_equal. exact (IH H).
Qed.
Lemma nl_plain : escape_newlines C = false -> referred C cNL = false.
Proof. intro H. unfold referred, must_escape. rewrite H. cbn. rewrite !andb_false_r. reflexivity. Qed.
(** A piece is not only newlines *)
Lemma piece_closes p : p <> [] -> (forall c, In c p -> must_escape C c = false) -> held p ->
  ends_with cNL p && all_are cNL p = false.
Proof.
  intros Ne Q H. destruct (all_are cNL p) eqn:A; [|apply andb_false_r]. exfalso.
  apply all_nl_rep in A. destruct (List.length p) as [|n] eqn:L; [destruct p; [easy|discriminate L]|].
  destruct H as [H|H].
  - assert (X : must_escape C cNL = false) by (apply Q; rewrite A; now left).
    unfold must_escape in X. rewrite H in X. discriminate X.
  - apply (H [] n []); [now rewrite app_nil_r|]. split; now left.
Qed.
Lemma held_prefix p r : r = [] \/ (exists c r', r = c :: r' /\ referred C c = true) ->
  held (p ++ r) -> held p.
Proof.
  intros E [H|H]; [now left|right]. intros a n b X [A Bb]. apply (H a n (b ++ r)).
  - rewrite X, <- !app_assoc. reflexivity.
  - split; [exact A|]. destruct Bb as [->|(c & b' & -> & Bc)]; [exact E|]. right. exists c, (b' ++ r). split; [reflexivity|exact Bc].
Qed.
Lemma held_suffix p r : (exists c r', r = c :: r' /\ c <> cNL) \/ r = [] \/ p = [] \/ (exists p' c, p = p' ++ [c] /\ referred C c = true) ->
  held (p ++ r) -> held r.
Proof.
  intros E [H|H]; [now left|right]. intros a n b X [A Bb]. apply (H (p ++ a) n b).
  - rewrite X, <- !app_assoc. reflexivity.
  - split; [|exact Bb]. destruct A as [->|(a' & c & -> & Ac)].
    + rewrite app_nil_r. destruct E as [(c & r' & -> & N0)|[->|[->|E]]]; [|discriminate X|now left|now right].
      exfalso. injection X as -> _. now apply N0.
    + right. exists (p ++ a'), c. split; [now rewrite app_assoc|exact Ac].
Qed.
Lemma held_prefix' p r : p = [] \/ (exists p' c, p = p' ++ [c] /\ c <> cNL) -> held (p ++ r) -> held p.
Proof.
  intros E [H|H]; [now left|right]. intros a n b X [A Bb]. apply (H a n (b ++ r)).
  - rewrite X, <- !app_assoc. reflexivity.
  - split; [exact A|]. destruct Bb as [->|(c & b' & -> & Bc)].
    + exfalso. rewrite app_nil_r in X. destruct E as [->|(p' & c & -> & N0)].
      * destruct a; discriminate X.
      * unfold rep in X. cbn [repeat] in X. rewrite repeat_cons, app_assoc in X. apply app_inj_tail in X. now apply N0.
    + right. exists c, (b' ++ r). split; [reflexivity|exact Bc].
Qed.
Lemma below c n : (c < N.of_nat n)%N -> In c (map N.of_nat (List.seq 0 n)).
Proof. intro L. apply in_map_iff. exists (N.to_nat c). split; [apply N2Nat.id|]. apply in_seq. lia. Qed.
Lemma cont_big c : is_cont c = true -> 126 <? c = true.
Proof.
  intro H. apply N.ltb_lt. destruct (N.lt_ge_cases 126 c) as [L|L]; [exact L|exfalso].
  assert (F : forallb (fun c => negb (is_cont c)) (map N.of_nat (List.seq 0 127)) = true) by (vm_compute; reflexivity).
  rewrite forallb_forall in F. specialize (F c (below c 127 ltac:(lia))). rewrite H in F. discriminate F.
Qed.
Lemma high_big c : (N.land c 0x80 =? 0) = false -> 126 <? c = true /\ c <? 32 = false.
Proof.
  intro H. assert (L : 128 <= c).
  { destruct (N.lt_ge_cases c 128) as [L|L]; [exfalso|exact L].
    assert (F : forallb (fun c => N.land c 0x80 =? 0) (map N.of_nat (List.seq 0 128)) = true) by (vm_compute; reflexivity).
    rewrite forallb_forall in F. specialize (F c (below c 128 ltac:(lia))). cbv beta in F. rewrite F in H. discriminate H. }
  split; [apply N.ltb_lt; lia|apply N.ltb_ge; lia].
Qed.
Lemma referred_cont c d : (N.land c 0x80 =? 0) = false -> referred C c = true -> is_cont d = true -> referred C d = true.
Proof.
  intros H R D. apply high_big in H. destruct H as [G H]. apply cont_big in D.
  assert (Hc : 126 < c) by now apply N.ltb_lt.
  unfold referred, must_escape in *. rewrite D. rewrite H in R.
  replace (c =? cNL) with false in R by (symmetry; apply N.eqb_neq; unfold cNL; lia).
  replace (c =? cTAB) with false in R by (symmetry; apply N.eqb_neq; unfold cTAB; lia).
  replace (c =? cQ) with false in R by (symmetry; apply N.eqb_neq; unfold cQ; lia).
  rewrite !andb_false_r, !andb_false_l, !orb_false_r, orb_false_l in R. rewrite G, andb_true_r in R. rewrite R.
  cbn. rewrite !orb_true_r. reflexivity.
Qed.
Lemma lead_next c l : ~ Grammar.starts (Grammar.is c) (skipn (count_lead c l) l).
Proof.
  induction l as [|d l IH]; cbn [count_lead].
  - intros (x & y & H & _). discriminate H.
  - destruct (N.eqb_spec d c) as [->|D]; [exact IH|]. cbn [skipn]. intros (x & y & H & E). injection H as -> ->.
    unfold Grammar.is in E. apply N.eqb_eq in E. contradiction.
Qed.
Lemma not_nl_head r : ~ Grammar.starts (Grammar.is cNL) r -> (exists c r', r = c :: r' /\ c <> cNL) \/ r = [].
Proof.
  intro H. destruct r as [|c r]; [now right|left]. exists c, r. split; [reflexivity|]. intros ->. apply H.
  exists cNL, r. split; reflexivity.
Qed.
(** After a reference *)
Lemma held_after c r : referred C c = true -> held (c :: r) ->
  held (skipn (entity_len (c :: r) + count_lead cNL r) (c :: r)).
Proof.
  intros R H.
  assert (One : held (skipn (count_lead cNL r) r)).
  { apply (held_suffix (c :: firstn (count_lead cNL r) r)).
    - destruct (not_nl_head _ (lead_next cNL r)) as [X|X]; [left; exact X|right; left; exact X].
    - cbn [app]. rewrite firstn_skipn. exact H. }
  assert (K : forall d x, is_cont d = true -> count_lead cNL (d :: x) = 0%nat).
  { intros d x D. cbn [count_lead]. destruct (N.eqb_spec d cNL) as [->|_]; [discriminate D|reflexivity]. }
  assert (G : forall x, x = 1%nat -> held (skipn (x + count_lead cNL r) (c :: r))) by (intros x ->; exact One).
  assert (V : forall p d z, c :: r = (c :: p) ++ d :: z -> is_cont d = true -> (N.land c 0x80 =? 0) = false -> held z).
  { intros p d z E D L. apply (held_suffix ((c :: p) ++ [d])).
    - right. right. right. exists (c :: p), d. split; [reflexivity|]. exact (referred_cont c d L R D).
    - rewrite <- app_assoc. cbn [app] in *. rewrite <- E. exact H. }
  unfold entity_len. destruct (decode_utf8 (c :: r)) as [u n| |] eqn:E; try now apply G.
  unfold decode_utf8 in E. destruct (N.land c 0x80 =? 0) eqn:L.
  { injection E as _ <-. now apply G. }
  destruct (N.land c 0xe0 =? 0xc0).
  { destruct r as [|cc r]; [discriminate E|]. destruct (is_cont cc) eqn:D; [|discriminate E]. injection E as _ <-.
    rewrite (K cc r D). exact (V [] cc r eq_refl D eq_refl). }
  destruct (N.land c 0xf0 =? 0xe0).
  { destruct r as [|cc [|ccc r]]; try discriminate E. destruct (is_cont cc) eqn:D; [|discriminate E].
    destruct (is_cont ccc) eqn:D2; [|discriminate E]. injection E as _ <-.
    rewrite (K cc _ D). exact (V [cc] ccc r eq_refl D2 eq_refl). }
  destruct (N.land c 0xf8 =? 0xf0); [|discriminate E].
  destruct r as [|cc [|ccc [|cccc r]]]; try discriminate E. destruct (is_cont cc) eqn:D; [|discriminate E].
  destruct (is_cont ccc) eqn:D2; [|discriminate E]. destruct (is_cont cccc) eqn:D3; [|discriminate E]. injection E as _ <-.
  rewrite (K cc _ D). exact (V [cc; ccc] cccc r eq_refl D3 eq_refl).
Qed.
Lemma quote_named l : exists n, name_of (quote_color l) = Some n.
Proof. destruct l; eexists; reflexivity. Qed.
Lemma neu_pieces rec l fuel s aft :
  (forall p x, held p -> neu (rec p x)) -> held s -> neu (r_pieces T C fuel rec l s aft).
Proof.
  intro R. revert s. induction fuel as [|fuel IH]; intros s H; destruct s as [|c r]; try exact neu_nop.
  cbn [r_pieces]. destruct (find_at (c :: r)) as (K1 & K2 & K3).
  destruct (find_next_escape C (c :: r)) as [|k].
  - apply neu_seq; [apply neu_space_entity|]. apply neu_seq; [apply neu_entity_char|].
    apply neu_seq; [apply neu_newlines|]. apply IH. apply held_after; [|exact H].
    destruct K3 as [K3|(d & x & K3 & K4)]; [discriminate K3|]. injection K3 as -> _. exact K4.
  - set (k1 := S k) in *. set (s := c :: r) in *.
    assert (Hp : held (firstn k1 s)) by (apply (held_prefix _ (skipn k1 s) K3); now rewrite firstn_skipn).
    assert (Hr : held (skipn k1 s)).
    { destruct (Bool.bool_dec (escape_newlines C) true) as [EN|EN]; [now left|]. apply not_true_is_false in EN.
      apply (held_suffix (firstn k1 s)); [|now rewrite firstn_skipn].
      destruct K3 as [K3|(d & x & K3 & K4)]; [right; left; exact K3|left]. exists d, x. split; [exact K3|].
      intros ->. rewrite (nl_plain EN) in K4. discriminate K4. }
    destruct (count_necessary_quotes _ false) as [[q nls] comp]. apply neu_seq; [|now apply IH].
    apply neu_if; [|now apply R]. apply neu_seq; [apply neu_space_quote|].
    destruct (quote_named l) as [n En]. apply (neu_leaf n); [exact En|].
    apply piece_closes; [unfold k1, s; discriminate|exact K2|exact Hp].
Qed.
Lemma neu_times n a : neu a -> neu (rtimes n a).
Proof. intro H. induction n as [|n IH]; [exact neu_nop|]. now apply neu_seq. Qed.
Lemma held_lead s lead s1 :
  (match has_leading_space_nl s with (Some n, O) => (firstn n s, skipn n s) | _ => ([], s) end) = (lead, s1) ->
  held s -> held s1.
Proof.
  intros E H. destruct (has_leading_space_nl s) as [[n|] [|m]] eqn:X; try (injection E as _ <-; exact H).
  injection E as _ <-. apply lead_mixed in X. destruct X as (w & r & -> & -> & _ & _ & _ & Nr).
  rewrite skipn_app, skipn_all, Nat.sub_diag. cbn [app skipn]. apply (held_suffix w); [|exact H].
  destruct r as [|c r]; [right; now left|left]. exists c, r. split; [reflexivity|]. intros ->. apply Nr.
  exists cNL, r. split; reflexivity.
Qed.
Lemma held_trail s1 s2 trail :
  (match has_ending_nl_space s1 with
   | (Some n, O) => let n := (n + count_lead cSP (skipn n s1))%nat in (firstn n s1, skipn n s1)
   | _ => (s1, []) end) = (s2, trail) ->
  held s1 -> held s2.
Proof.
  intros E H. destruct (has_ending_nl_space s1) as [[n|] [|m]] eqn:X; try (injection E as <- _; exact H).
  cbv zeta in E. injection E as <- _. apply ending_mixed in X. destruct X as (r & w & -> & -> & _ & _ & _ & Nr).
  rewrite skipn_app, skipn_all, Nat.sub_diag. cbn [app skipn]. set (k := count_lead cSP w).
  rewrite firstn_app. rewrite firstn_all2 by lia. replace (List.length r + k - List.length r)%nat with k by lia.
  assert (Ew : firstn k w = rep cSP k).
  { unfold k. clear. induction w as [|c w IH]; [reflexivity|]. cbn [count_lead].
    destruct (N.eqb_spec c cSP) as [->|_]; [|reflexivity]. cbn [firstn]. rewrite IH. reflexivity. }
  apply (held_prefix' _ (skipn k w)).
  - rewrite Ew. destruct k as [|k].
    + cbn. rewrite app_nil_r. destruct (rev r) as [|c q] eqn:Er.
      * left. now rewrite <- (rev_involutive r), Er.
      * right. exists (rev q), c. split; [now rewrite <- (rev_involutive r), Er|]. intros ->. apply Nr.
        exists cNL, q. split; reflexivity.
    + right. exists (r ++ rep cSP k), cSP. split; [|discriminate]. unfold rep. cbn [repeat]. now rewrite repeat_cons, app_assoc.
  - rewrite <- app_assoc, firstn_skipn. exact H.
Qed.
Lemma neu_value_text l fuel s aft : s = [cNL] \/ held s -> neu (r_value_text T C fuel l s aft).
Proof.
  revert s aft. induction fuel as [|fuel IH]; intros s aft H; [apply neu_fuel|].
  cbn [r_value_text]. destruct s as [|c r].
  { apply neu_seq; [apply neu_space_quote|apply neu_cstr]. }
  destruct H as [->|H].
  { assert (E : forallb is_xml_whitespace [cNL] && negb (all_are cNL [cNL] && negb (compact C) && Nat.ltb 1 (List.length [cNL])) = true)
      by (destruct (compact C); reflexivity).
    rewrite E. change (all_are cQ [cNL]) with false. change (all_are cSP [cNL]) with false. apply neu_all_ws. }
  set (s := c :: r) in *.
  apply neu_if; [apply neu_seq; [apply neu_space_entity|apply neu_times, neu_cstr]|].
  apply neu_if; [apply neu_seq; [apply neu_space_quote|apply neu_quoted]|].
  apply neu_if; [apply neu_all_ws|].
  apply neu_if; [apply neu_colored, neu_range|].
  destruct (match has_leading_space_nl s with (Some n, O) => (firstn n s, skipn n s) | _ => ([], s) end) as [lead s1] eqn:EL.
  destruct (match has_ending_nl_space s1 with
            | (Some n, O) => let n := (n + count_lead cSP (skipn n s1))%nat in (firstn n s1, skipn n s1)
            | _ => (s1, []) end) as [s2 trail] eqn:ET.
  apply neu_seq; [apply neu_all_ws|]. apply neu_seq; [|apply neu_all_ws].
  apply neu_pieces; [intros p x P; apply IH; now right|].
  exact (held_trail _ _ _ ET (held_lead _ _ _ EL H)).
Qed.
Lemma neu_text l s : closed_text C s -> neu (r_text T C l s).
Proof. intro H. apply neu_value_text. exact H. Qed.
Lemma neu_entity n : neu (r_entity T C n).
Proof.
  apply neu_seq; [apply neu_space_entity|]. apply neu_seq; [apply neu_cstr|]. apply neu_seq; apply neu_cstr.
Qed.
Lemma neu_part l p : closed_part C p -> neu (r_part T C l p).
Proof. destruct p; intro H; [now apply neu_text|apply neu_entity]. Qed.
Lemma neu_parts l ps : Forall (closed_part C) ps -> neu (r_parts T C l ps).
Proof. induction 1 as [|p ps P H IH]; [exact neu_nop|]. apply neu_seq; [now apply neu_part|exact IH]. Qed.
Lemma neu_white1 b : neu (rwhen b (r_white_spaces T 1)).
Proof. apply neu_when, neu_white. Qed.
Lemma neu_value l ps : Forall (closed_part C) ps -> neu (r_value T C l ps).
Proof.
  intro P. apply neu_ask. intro old. apply neu_if.
  - apply neu_seq; [apply neu_cstr|]. apply neu_seq; [apply neu_white1|]. apply neu_seq; [apply neu_line|].
    apply neu_seq; [now apply neu_parts|]. apply neu_seq; [apply neu_white1|]. apply neu_seq; [apply neu_cstr|apply neu_line].
  - apply neu_seq; [now apply neu_parts|apply neu_line].
Qed.
Lemma neu_equals pad : neu (r_equals T C pad).
Proof. apply neu_seq; [apply neu_when, neu_white|]. apply neu_seq; [apply neu_cstr|apply neu_white1]. Qed.
Lemma neu_prefix c p : neu (r_prefix T c p).
Proof. destruct p as [p|]; [|exact neu_nop]. apply neu_seq; apply neu_cstr. Qed.
Lemma neu_attribute align a : closed_attr C a -> neu (r_attribute T C align a).
Proof.
  intro H. apply neu_seq; [apply neu_space_attribute|]. apply neu_seq; [apply neu_prefix|].
  apply neu_seq; [apply neu_cstr|]. apply neu_when, neu_seq; [apply neu_equals|now apply neu_value].
Qed.
Lemma neu_declaration align d : closed_decl C d -> neu (r_declaration T C align d).
Proof.
  intro H. apply neu_seq; [apply neu_space_attribute|]. apply neu_seq; [apply neu_cstr|].
  apply neu_seq.
  - destruct (d_prefix d); [apply neu_seq; apply neu_cstr|exact neu_nop].
  - unfold closed_decl in H. destruct (d_uri d); [apply neu_seq; [apply neu_equals|now apply neu_text]|exact neu_nop].
Qed.
Lemma neu_attributes l ds : Forall (closed_attr C) l -> Forall (closed_decl C) ds -> neu (r_attributes T C l ds).
Proof.
  intros L D. apply neu_ask. intro old. apply neu_seq; [apply neu_line|]. apply neu_seq.
  { generalize (if compact C then 0%nat else v_width l ds). intro w.
    induction L as [|a l A L IH]; [exact neu_nop|]. apply neu_seq; [now apply neu_attribute|exact IH]. }
  apply neu_seq; [|apply neu_line].
  generalize (if compact C then 0%nat else v_width l ds). intro w.
  induction D as [|a ds A D IH]; [exact neu_nop|]. apply neu_seq; [now apply neu_declaration|exact IH].
Qed.
Lemma neu_crange b : neu (c_range T b).
Proof. apply neu_colored, neu_range. Qed.
Lemma neu_star n : neu (r_slashes T [cSTAR] [cSTAR] n).
Proof. apply neu_slashes; now apply neutral_char. Qed.
Lemma neu_comment_rest fuel n s : neu (r_comment_rest T C fuel n s).
Proof.
  revert s. induction fuel as [|fuel IH]; intro s; destruct s as [|c r]; try exact neu_nop.
  cbn [r_comment_rest]. destruct (cut_line (c :: r)) as [l t].
  apply neu_seq.
  - apply neu_if; [apply neu_star|]. destruct l; [|apply neu_nl0]. destruct t as [[|]|]; try apply neu_nl0. exact neu_nl.
  - apply neu_seq; [apply neu_crange|]. destruct t; [apply IH|exact neu_nop].
Qed.
Lemma neu_comment_lines s : neu (r_comment_lines T C s).
Proof.
  apply neu_ask. intro old.
  apply neu_seq; [apply neu_slashes; [exact neutral_nil|now apply neutral_char]|].
  apply neu_seq; [apply neu_white1|]. apply neu_seq; [apply neu_line|]. apply neu_seq; [apply neu_crange|].
  apply neu_seq; [destruct (snd (cut_line s)); [apply neu_comment_rest|exact neu_nop]|].
  apply neu_seq; [apply neu_white1|].
  apply neu_seq; [apply neu_slashes; [now apply neutral_char|exact neutral_nil]|].
  apply neu_seq; [apply neu_last|apply neu_line].
Qed.
Lemma neu_comment s : neu (r_comment T C s).
Proof.
  apply neu_seq; [apply neu_space_comment|]. apply neu_if.
  - apply neu_if.
    + apply neu_seq; [|apply neu_last]. apply neu_colored.
      apply neu_seq; [apply neu_str|]. apply neu_seq; [apply neu_range|apply neu_str].
    + apply neu_seq; [|apply neu_last]. apply neu_colored, neu_seq; [apply neu_str|apply neu_range].
  - apply neu_seq; [apply neu_comment_lines|apply neu_last].
Qed.
Lemma neu_name key p n a ds : Forall (closed_attr C) a -> Forall (closed_decl C) ds -> neu (r_name T C key p n a ds).
Proof.
  intros A D. apply neu_seq; [apply neu_space_key|]. apply neu_seq; [apply neu_prefix|]. apply neu_seq; [apply neu_cstr|].
  assert (G : neu (rseq (c_str T (CTok Kapar_left) [cLP]) (rseq (r_attributes T C a ds) (c_str T (CTok Kapar_right) [cRP])))).
  { apply neu_seq; [apply neu_cstr|]. apply neu_seq; [now apply neu_attributes|apply neu_cstr]. }
  destruct a; [|exact G]. destruct ds; [exact neu_nop|exact G].
Qed.
Lemma no_nl_closed s : ~ In cNL s -> closed_text C s.
Proof.
  intro H. right. right. intros a n b X _. apply H. rewrite X. apply in_or_app. right. now left.
Qed.
Lemma no_newlines_no s : ~ In cNL s -> ~ In cNL (if compact C then no_newlines s else s).
Proof.
  intro H. destruct (compact C); [|exact H]. intro I. apply H. unfold no_newlines in I.
  apply in_map_iff in I. destruct I as (x & E & I). destruct (N.eqb_spec x cNL) as [X|X]; [discriminate E|contradiction].
Qed.
Lemma neu_doctype s : ~ In cNL s -> neu (r_doctype T C s).
Proof.
  intro H. apply neu_seq; [apply neu_space_key|]. apply neu_seq; [apply neu_cstr|].
  apply neu_seq; [apply neu_equals|]. apply neu_text, no_nl_closed, no_newlines_no, H.
Qed.
Lemma neu_pi n s : ~ In cNL s -> neu (r_pi T C n s).
Proof.
  intro H. apply neu_seq; [apply neu_space_key|].
  apply neu_seq; [apply neu_colored, neu_seq; apply neu_str|].
  apply neu_seq; [apply neu_equals|]. cbv zeta. apply neu_text, no_nl_closed, no_newlines_no.
  unfold add_spaces. intro I. apply in_app_or in I. destruct I as [I|I].
  - destruct s as [|c s]; [exact I|]. destruct (c =? cQ); [|exact I]. destruct I as [I|I]; [discriminate I|exact I].
  - apply in_app_or in I. destruct I as [I|I]; [exact (H I)|].
    destruct (rev s) as [|c x]; [exact I|]. destruct (c =? cQ); [|exact I]. destruct I as [I|I]; [discriminate I|exact I].
Qed.
Lemma key_value_closed k ps : v_key_value k = Some ps ->
  (fix all (l : list vnode) : Prop := match l with [] => True | x :: r => closed_node C x /\ all r end) k ->
  Forall (closed_part C) ps.
Proof.
  intro E0. assert (E : v_parts k = Some ps) by (destruct k; [discriminate E0|exact E0]). clear E0. revert ps E.
  induction k as [|x k IH]; intros ps E H; cbn [v_parts] in E.
  - injection E as <-. constructor.
  - destruct x; try discriminate E. destruct (v_parts k) as [qs|]; [|discriminate E]. injection E as <-.
    destruct H as [H1 H2]. constructor; [exact H1|exact (IH _ eq_refl H2)].
Qed.
Fixpoint neu_node (x : vnode) : closed_node C x -> forall align, neu (r_node T C align x).
Proof.
  destruct x as [p u n ds a k|[t|n]|t|n c|c]; intros H align.
  - assert (K : forall l align again,
               (fix all (l : list vnode) : Prop := match l with [] => True | x :: r => closed_node C x /\ all r end) l ->
               neu ((fix nodes (align : nat) (again : option nat) (l : list vnode) : rop :=
                      match l with
                      | [] => rnop
                      | x :: r =>
                        let '(align, again) :=
                          match again with
                          | Some O => if compact C then (align, again) else v_find_width l
                          | _ => (align, again)
                          end in
                        rseq (r_node T C align x)
                          (nodes align (match again with Some (S m) => Some m | _ => again end) r)
                      end) align again l)).
    { induction l as [|x l IH]; intros al ag Hl; [exact neu_nop|].
      destruct Hl as [Hx Hl].
      destruct (match ag with Some O => if compact C then (al, ag) else v_find_width (x :: l) | _ => (al, ag) end)
        as [al' ag'].
      apply neu_seq; [apply neu_node, Hx|apply IH, Hl]. }
    destruct H as (Hd & Ha & Hk).
    cbn [r_node]. destruct k as [|k1 k]; [now apply neu_name|].
    destruct (v_key_value (k1 :: k)) as [ps|] eqn:E.
    + apply neu_seq; [now apply neu_name|]. apply neu_seq; [apply neu_ask; intro; apply neu_equals|].
      apply neu_value. exact (key_value_closed _ _ E Hk).
    + apply neu_seq; [now apply neu_name|]. apply neu_seq; [apply neu_space_open|]. apply neu_seq; [apply neu_cstr|].
      apply neu_seq; [apply neu_line|]. apply neu_seq; [exact (K (k1 :: k) 0%nat (Some 0%nat) Hk)|].
      apply neu_seq; [apply neu_line|]. apply neu_seq; [apply neu_space_close|apply neu_cstr].
  - apply neu_ask. intro old. apply neu_seq; [now apply neu_text|apply neu_line].
  - apply neu_entity.
  - apply neu_comment.
  - apply neu_pi, H.
  - apply neu_doctype, H.
Qed.
Lemma neu_nodes l : closed_nodes C l -> forall align again, neu (r_nodes T C align again l).
Proof.
  induction l as [|x l IH]; intros H al ag; [exact neu_nop|]. cbn [r_nodes].
  destruct (match ag with Some O => if compact C then (al, ag) else v_find_width (x :: l) | _ => (al, ag) end)
    as [al' ag'].
  destruct H as [Hx Hl]. apply neu_seq; [now apply neu_node|now apply IH].
Qed.
Lemma doc_nested d : closed_nodes C d -> well_nested (fst (render_doc T C d)).
Proof.
  intro H. unfold render_doc. destruct d as [|x d]; [reflexivity|].
  destruct (neu_nodes (x :: d) H 0%nat (Some 0%nat) (RS (PR 0 0 0 true) None None) eq_refl) as [G _].
  destruct (r_nodes _ _ _ _ _ _) as [o s]. cbn [fst snd] in *. unfold well_nested.
  assert (E : forall r, tags GText [] (head T ++ r) = tags GText [B "pre"] r) by (intro r; now destruct dm).
  rewrite E, G. reflexivity.
Qed.
End settings.
End nest.
