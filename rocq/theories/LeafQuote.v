(** What the printer writes for a quote and for a comment over several lines,
    and that the reader finds their ends. *)
From Coq Require Import NArith ZArith List Bool Arith Lia String.
From Verif Require Import Bytes BytesFacts QuoteSpec Utf8 Quote Parser ParserSpec Dom Printer Grammar ParserProofs ParserAft LexProofs GrammarProofs Compact Stray CompactProofs CompactDoc.
Import ListNotations.
Local Open Scope N_scope.
Local Open Scope op_scope.

(* For lemmas that do not depend on the settings. *)
Definition some_cfg : cfg := Cfg true false false false 0.

Lemma seq_out a b st x s1 y s2 : a st = (x, s1) -> b s1 = (y, s2) -> (a ;; b) st = (x ++ y, s2).
Proof. intros A B. unfold seq. now rewrite A, B. Qed.

Lemma out_eq (a : op) st o o' st' : a st = (o, st') -> o = o' -> a st = (o', st').
Proof. now intros E <-. Qed.

(** ** Quotes *)

(** A newline before another character is followed by k spaces. *)
Fixpoint hang (k : nat) (s : bytes) : bytes :=
  match s with
  | [] => []
  | c :: r =>
    if c =? cNL then c :: (match r with d :: _ => if d =? cNL then [] else rep cSP k | [] => [] end) ++ hang k r
    else c :: hang k r
  end.
Definition quote_text (k : nat) (s : bytes) : bytes :=
  (if starts_with cNL s then [cNL] else []) ++ hang k (written s)
  ++ (if ends_with cNL s then (if all_are cNL s then [] else [cNL]) ++ rep cSP (k - 1) else []).

Lemma hang_plain k a s : ~ In cNL a -> hang k (a ++ s) = a ++ hang k s.
Proof.
  induction a as [|c a IH]; intros H; [reflexivity|]. cbn [app hang].
  destruct (N.eqb_spec c cNL) as [->|Hc]; [exfalso; apply H; now left|]. f_equal. apply IH. intros I. apply H. now right.
Qed.
Lemma hang_none k s : ~ In cNL s -> hang k s = s.
Proof. intros H. rewrite <- (app_nil_r s) at 1. rewrite hang_plain by auto. cbn. now rewrite app_nil_r. Qed.
Lemma cont_not_nl c : is_cont c = true -> c <> cNL.
Proof. intros H ->. discriminate H. Qed.
Lemma take_cont_cont r : forall a b, take_cont r = (a, b) -> Forall (fun c => is_cont c = true) a.
Proof.
  induction r as [|c r IH]; intros a b E; cbn [take_cont] in E; [injection E as <- _; constructor|].
  destruct (is_cont c) eqn:Ec; [|injection E as <- _; constructor].
  destruct (take_cont r) as [a' b'] eqn:T. injection E as <- <-. constructor; auto. eapply IH. reflexivity.
Qed.

Lemma take_cont_rest r : forall a b, take_cont r = (a, b) -> match b with [] => True | d :: _ => is_cont d = false end.
Proof.
  induction r as [|c r IH]; intros a b E; cbn [take_cont] in E; [injection E as _ <-; exact Logic.I|].
  destruct (is_cont c) eqn:Ec; [|now injection E as _ <-]. destruct (take_cont r) as [a' b'] eqn:T. injection E as _ <-. now apply (IH a').
Qed.
Lemma written_head bl b : match b with [] => True | d :: _ => is_cont d = false end -> written_after bl b = written b.
Proof. destruct b as [|d b]; [reflexivity|]. intros H. unfold written. cbn [written_after]. now rewrite H, !andb_false_r. Qed.
Lemma written_cont a : forall b, Forall (fun c => is_cont c = true) a -> written_after true (a ++ b) = written_after true b.
Proof.
  induction a as [|c a IH]; intros b F; [reflexivity|]. inversion F as [|? ? Fc Fa]; subst. cbn [app written_after]. rewrite Fc. cbn [andb]. now apply IH.
Qed.
Lemma written_keep a : forall b, Forall (fun c => is_cont c = true) a -> written_after false (a ++ b) = a ++ written_after false b.
Proof.
  induction a as [|c a IH]; intros b F; [reflexivity|]. inversion F as [|? ? Fc Fa]; subst. cbn [app written_after andb]. f_equal.
  rewrite (cont_not_blank c Fc). now apply IH.
Qed.
Lemma written_char c r a b : take_cont r = (a, b) -> written (c :: r) = (if is_blank c then [c] else c :: a) ++ written b.
Proof.
  intros T. pose proof (take_cont_app _ _ _ T) as ->. pose proof (take_cont_cont _ _ _ T) as F. pose proof (take_cont_rest _ _ _ T) as H.
  unfold written at 1. cbn [written_after andb]. destruct (is_blank c); cbn [app]; f_equal.
  - rewrite written_cont by exact F. now apply written_head.
  - now apply written_keep.
Qed.
Lemma written_nl r : written (cNL :: r) = cNL :: written r.
Proof. reflexivity. Qed.
Lemma written_nl_app l r : written (l ++ cNL :: r) = written l ++ cNL :: written r.
Proof.
  unfold written. generalize false at 1 2. induction l as [|c l IH]; intros bl.
  - cbn [app written_after]. change (is_cont cNL) with false. rewrite andb_false_r. reflexivity.
  - cbn [app written_after]. destruct (bl && is_cont c)%bool; [apply IH|]. cbn [app]. f_equal. apply IH.
Qed.
Lemma written_in c s : forall bl, In c (written_after bl s) -> In c s.
Proof.
  induction s as [|d s IH]; intros bl I; [destruct I|]. cbn [written_after] in I. destruct (bl && is_cont d)%bool; [right; eapply IH; exact I|].
  destruct I as [I|I]; [now left|right; eapply IH; exact I].
Qed.
Lemma written_some s : s <> [] -> written s <> [].
Proof. destruct s; [congruence|discriminate]. Qed.
Lemma written_last r c : exists x d, written (r ++ [c]) = x ++ [d] /\ (d = c \/ is_blank d = true /\ is_cont c = true).
Proof.
  assert (X : forall r bl, (bl = true /\ is_cont c = true /\ written_after bl (r ++ [c]) = []) \/
     exists x d, written_after bl (r ++ [c]) = x ++ [d] /\ (d = c \/ is_blank d = true /\ is_cont c = true)).
  { clear r. induction r as [|e r IH]; intros bl; cbn [app written_after].
    - destruct bl, (is_cont c) eqn:Ec; cbn [andb]; auto; right; exists [], c; auto.
    - destruct (bl && is_cont e)%bool eqn:B.
      + destruct (IH true) as [(_ & H1 & H2)|H]; [|now right]. left. apply andb_true_iff in B as [-> _]. auto.
      + right. destruct (IH (is_blank e)) as [(H0 & H1 & H2)|(x & d & H1 & H2)].
        * exists [], e. rewrite H2. auto.
        * exists (e :: x), d. rewrite H1. auto. }
  destruct (X r false) as [(H & _)|H]; [discriminate|exact H].
Qed.

Lemma quote_chars_out f : forall s st, (List.length s <= f)%nat ->
  exists st', quote_chars f s st = (hang (Z.to_nat (p_line st)) (written s), st') /\ p_line st' = p_line st /\ p_ok st' = p_ok st.
Proof.
  induction f as [|f IH]; intros s st L.
  - destruct s; [|cbn in L; lia]. exists st. auto.
  - destruct s as [|c r]; [exists st; auto|]. cbn [quote_chars]. destruct (N.eqb_spec c cNL) as [->|Hc].
    + rewrite written_nl. cbn [hang]. change (cNL =? cNL) with true. cbn iota. destruct r as [|d r'] eqn:Er.
      * destruct (IH [] (PR 0 (p_line st) 0 (p_ok st))) as (st' & E & L' & K); [cbn; lia|].
        exists st'. split; auto. erewrite seq_out; [|reflexivity|exact E]. reflexivity.
      * rewrite <- Er in *. destruct (d =? cNL) eqn:Ed; cbn [negb].
        -- destruct (IH r (PR 0 (p_line st) 0 (p_ok st))) as (st' & E & L' & K); [cbn in *; lia|].
           exists st'. split; auto. erewrite seq_out; [|reflexivity|exact E]. rewrite Er. unfold written. cbn [written_after andb p_line]. now rewrite Ed.
        -- destruct (IH r (PR (0 + p_line st) (p_line st) 0 (p_ok st))) as (st' & E & L' & K); [cbn in *; lia|].
           exists st'. split; auto. cbn [p_line] in E.
           assert (A : nl_and_indent st = (cNL :: rep cSP (Z.to_nat (p_line st)), PR (0 + p_line st) (p_line st) 0 (p_ok st))).
           { unfold nl_and_indent, white_spaces, ask, put, seq, print_nl, add_cur. cbn [p_line p_cur p_last p_ok app]. now rewrite app_nil_r. }
           erewrite seq_out; [|exact A|exact E]. rewrite Er. unfold written. cbn [written_after andb]. rewrite Ed. reflexivity.
    + destruct (take_cont r) as [a b] eqn:T. rewrite (written_char c r a b T). pose proof (take_cont_app _ _ _ T) as ->.
      cbn [List.length] in L. rewrite app_length in L.
      destruct (IH b (PR (p_cur st + 1) (p_line st) c (p_ok st))) as (st' & E & L' & K); [lia|].
      exists st'. split; auto. rewrite hang_plain.
      2:{ pose proof (take_cont_cont _ _ _ T) as F. rewrite Forall_forall in F. destruct (is_blank c); intros [I|I]; [congruence|destruct I|congruence|].
          now apply (cont_not_nl cNL (F _ I)). }
      unfold put, seq, set_last, add_cur. cbn [p_cur p_line p_last p_ok]. cbn [p_line] in E. rewrite E. reflexivity.
Qed.

Lemma white_out n st : white_spaces n st = (rep cSP (Z.to_nat n), PR (p_cur st + n) (p_line st) (p_last st) (p_ok st)).
Proof. unfold white_spaces, put, seq, add_cur. now rewrite app_nil_r. Qed.
Lemma nl_out st : nl_and_indent st = (cNL :: rep cSP (Z.to_nat (p_line st)), PR (0 + p_line st) (p_line st) 0 (p_ok st)).
Proof. unfold nl_and_indent, print_nl, ask. erewrite seq_out; [|reflexivity|apply white_out]. reflexivity. Qed.

Lemma quote_lines_out s st : exists st', quote_lines s st = (quote_text (Z.to_nat (p_line st)) s, st')
  /\ p_line st' = p_line st /\ p_ok st' = p_ok st.
Proof.
  unfold quote_lines, quote_text.
  assert (A : exists st1, when (starts_with cNL s) print_nl st = (if starts_with cNL s then [cNL] else [], st1) /\ p_line st1 = p_line st /\ p_ok st1 = p_ok st).
  { destruct (starts_with cNL s); eexists; repeat split; reflexivity. }
  destruct A as (st1 & E1 & L1 & K1).
  destruct (quote_chars_out (List.length s) s st1 (le_n _)) as (st2 & E2 & L2 & K2). rewrite L1 in E2.
  set (k := p_line st) in *.
  assert (Z1 : Z.to_nat (k - 1) = (Z.to_nat k - 1)%nat) by lia.
  assert (B : exists st3, when (ends_with cNL s) (set_line (fun p => p_line p - 1)%Z ;; (if all_are cNL s then reset_line ;; ask p_line white_spaces else nl_and_indent) ;; set_line (fun p => p_line p + 1)%Z) st2
    = (if ends_with cNL s then (if all_are cNL s then [] else [cNL]) ++ rep cSP (Z.to_nat k - 1) else [], st3)
    /\ p_line st3 = p_line st2 /\ p_ok st3 = p_ok st2).
  { assert (Lk : p_line st2 = k) by congruence.
    destruct (ends_with cNL s); cbn [when]; [|now exists st2]. destruct (all_are cNL s).
    - eexists. split.
      + eapply out_eq; [eapply seq_out; [reflexivity|]; eapply seq_out; [|reflexivity]; eapply seq_out; [reflexivity|]; unfold ask; apply white_out|].
        cbn [app p_line]. now rewrite Lk, Z1, app_nil_r.
      + cbn [p_line p_ok]. split; [lia|reflexivity].
    - eexists. split.
      + eapply out_eq; [eapply seq_out; [reflexivity|]; eapply seq_out; [|reflexivity]; apply nl_out|].
        cbn [app p_line]. now rewrite Lk, Z1, app_nil_r.
      + cbn [p_line p_ok]. split; [lia|reflexivity]. }
  destruct B as (st3 & E3 & L3 & K3). exists st3. split; [|split; congruence].
  eapply seq_out; [exact E1|]. eapply seq_out; [exact E2|]. exact E3.
Qed.

(** The quotes used for s. *)
Definition quotes_for (s : bytes) : nat :=
  let numq := fst (fst (count_necessary_quotes s false)) in if Nat.eqb numq 0 then 1%nat else numq.
(** Whether the quotes stand on lines of their own. *)
Definition framed (s : bytes) : bool :=
  let '(numq, nls, _) := count_necessary_quotes s false in nls || Nat.leb 4 numq.
(** The text between the quotes, when the quote starts at column k. *)
Definition leaf_text (k : nat) (s : bytes) : bytes :=
  if framed s then [cNL] ++ rep cSP k ++ quote_text k s ++ [cNL] ++ rep cSP k
  else quote_text (k + quotes_for s) s.
Definition leaf (k : nat) (s : bytes) : bytes := rep cQ (quotes_for s) ++ leaf_text k s ++ rep cQ (quotes_for s).

Lemma quotes_out n st : print_quotes n st = (rep cQ n, PR (p_cur st + Z.of_nat n) (p_line st) cQ (p_ok st)).
Proof. unfold print_quotes, put, seq, add_cur, set_last. cbn [p_cur p_line p_last p_ok]. now rewrite app_nil_r. Qed.

Lemma leaf_out s st : (0 <= p_cur st)%Z -> exists st',
  safe_leaf_quote s st = (leaf (Z.to_nat (p_cur st)) s, st') /\ p_line st' = p_line st /\ p_ok st' = p_ok st.
Proof.
  intros H0. unfold safe_leaf_quote, leaf, leaf_text, framed, quotes_for, ask, id.
  destruct (count_necessary_quotes s false) as [[numq nls] comp] eqn:E. cbn [fst snd].
  assert (X : (if Nat.ltb 0 numq then nls || (p_cur st =? -1)%Z || Nat.leb 4 numq else nls) = (nls || Nat.leb 4 numq)%bool).
  { destruct (Nat.ltb_spec 0 numq).
    - replace (p_cur st =? -1)%Z with false by lia. now rewrite orb_false_r.
    - assert (numq = 0%nat) as -> by lia. now rewrite orb_false_r. }
  rewrite X. set (d := if Nat.eqb numq 0 then 1%nat else numq). set (k := p_cur st) in *.
  destruct (nls || Nat.leb 4 numq)%bool.
  - destruct (quote_lines_out s (PR (0 + k) k 0 (p_ok st))) as (s4 & E4 & L4 & K4). cbn [p_line p_ok] in *.
    eexists. split; [|split].
    + eapply out_eq.
      * eapply seq_out; [reflexivity|]. eapply seq_out; [apply quotes_out|]. eapply seq_out; [apply nl_out|]. cbn [p_line p_ok].
        eapply seq_out; [exact E4|]. eapply seq_out; [apply nl_out|]. eapply seq_out; [apply quotes_out|]. reflexivity.
      * cbn [app]. rewrite app_nil_r, L4. now rewrite <- !app_assoc.
    + reflexivity.
    + exact K4.
  - destruct (quote_lines_out s (PR (k + Z.of_nat d) (k + Z.of_nat d) cQ (p_ok st))) as (s4 & E4 & L4 & K4). cbn [p_line p_ok] in *.
    eexists. split; [|split].
    + eapply out_eq.
      * eapply seq_out; [apply quotes_out|]. eapply seq_out; [reflexivity|]. eapply seq_out; [exact E4|].
        eapply seq_out; [reflexivity|]. eapply quotes_out.
      * cbn [app]. f_equal. f_equal. f_equal. lia.
    + reflexivity.
    + exact K4.
Qed.

(** ** Texts with spaces and newlines inserted, and continuation bytes after a
    space or tab left out *)
Inductive padded : bytes -> bytes -> Prop :=
| pd_nil : padded [] []
| pd_end : padded [cNL] []
| pd_keep c s b : padded s b -> padded (c :: s) (c :: b)
| pd_blank c a s b : is_blank c = true -> Forall (fun d => is_cont d = true) a -> padded s b -> padded (c :: a ++ s) (c :: b)
| pd_ins c s b : c = cSP \/ c = cNL -> padded s b -> padded s (c :: b).

Lemma pd_refl s : padded s s.
Proof. induction s; now constructor. Qed.
Lemma pd_spaces n s b : padded s b -> padded s (rep cSP n ++ b).
Proof. intros H. induction n; [exact H|]. cbn [rep repeat app]. apply pd_ins; auto. Qed.
Lemma pd_hang k s : padded s (hang k (written s)).
Proof.
  assert (X : forall s bl, exists a s', s = a ++ s' /\ Forall (fun d => is_cont d = true) a /\ padded s' (hang k (written_after bl s)) /\ (bl = false -> a = [])).
  { clear s. induction s as [|c s IH]; intros bl; [exists [], []; repeat split; constructor|]. cbn [written_after]. destruct (bl && is_cont c)%bool eqn:Bc.
    - apply andb_true_iff in Bc as [-> Hc]. destruct (IH true) as (a & s' & -> & F & P & _). exists (c :: a), s'. repeat split; auto. discriminate.
    - destruct (IH (is_blank c)) as (a & s' & E & F & P & H). exists [], (c :: s). split; [reflexivity|]. split; [constructor|]. split; [|auto].
      cbn [hang]. destruct (is_blank c) eqn:Bl.
      + assert (c =? cNL = false) as -> by (apply N.eqb_neq; intros ->; discriminate Bl). subst s. now constructor.
      + rewrite H in E by reflexivity. cbn [app] in E. subst s'. destruct (c =? cNL); [|now constructor]. constructor.
        destruct (written_after false s) as [|d w]; [exact P|]. destruct (d =? cNL); [exact P|]. now apply pd_spaces. }
  destruct (X s false) as (a & s' & -> & _ & P & H). rewrite H in * by reflexivity. exact P.
Qed.
Lemma pd_after s b v : padded s b -> only (one_of [cSP; cNL]) v -> padded s (b ++ v).
Proof.
  intros H Hv. assert (P0 : padded [] v).
  { clear H. induction v as [|c v IH]; [constructor|]. apply pd_ins.
    - specialize (Hv c (or_introl eq_refl)). unfold one_of in Hv. cbn [existsb] in Hv. rewrite !orb_true_iff, !N.eqb_eq in Hv. intuition congruence.
    - apply IH. intros d I. apply Hv. now right. }
  assert (P1 : padded [cNL] v).
  { clear H. induction v as [|c v IH]; [constructor|]. apply pd_ins.
    - specialize (Hv c (or_introl eq_refl)). unfold one_of in Hv. cbn [existsb] in Hv. rewrite !orb_true_iff, !N.eqb_eq in Hv. intuition congruence.
    - apply IH; [intros d I; apply Hv; now right|]. now inversion P0. }
  induction H; cbn [app]; auto; now constructor.
Qed.
Lemma pd_before s b v : padded s b -> only (one_of [cSP; cNL]) v -> padded s (v ++ b).
Proof.
  intros H Hv. induction v as [|c v IH]; [exact H|]. cbn [app]. apply pd_ins.
  - specialize (Hv c (or_introl eq_refl)). unfold one_of in Hv. cbn [existsb] in Hv. rewrite !orb_true_iff, !N.eqb_eq in Hv. intuition congruence.
  - apply IH. intros d I. apply Hv. now right.
Qed.

(** A part of the result without spaces and newlines is a part of the text. *)
Lemma pd_run s r y : (forall c, In c r -> c <> cSP /\ c <> cNL /\ c <> cTAB) -> padded s (r ++ y) -> exists y', s = r ++ y'.
Proof.
  revert s. induction r as [|c r IH]; intros s Hr H; [now exists s|]. cbn [app] in H. inversion H; subst.
  - destruct (IH s0) as (y' & ->); auto; [intros d I; apply Hr; now right|]. now exists y'.
  - exfalso. destruct (Hr c (or_introl eq_refl)) as (A1 & _ & A2). match goal with B : is_blank c = true |- _ => apply is_blank_iff in B as [B|B] end; congruence.
  - destruct (Hr c (or_introl eq_refl)) as (A & B & _). intuition congruence.
Qed.
Lemma pd_part s x r y : (forall c, In c r -> c <> cSP /\ c <> cNL /\ c <> cTAB) -> padded s (x ++ r ++ y) -> exists x' y', s = x' ++ r ++ y'.
Proof.
  intros Hr. revert s. induction x as [|c x IH]; intros s H.
  - destruct (pd_run _ _ _ Hr H) as (y' & ->). now exists [], y'.
  - cbn [app] in H. inversion H; subst.
    + destruct (IH s0) as (x' & y' & ->); auto. now exists (c :: x'), y'.
    + destruct (IH s0) as (x' & y' & ->); auto. exists (c :: a ++ x'), y'. cbn [app]. now rewrite <- app_assoc.
    + now apply IH.
Qed.

Lemma only_spaces n : only (one_of [cSP; cNL]) (rep cSP n).
Proof. intros c I. apply repeat_spec in I. subst c. reflexivity. Qed.
Lemma only_app p a b : only p a -> only p b -> only p (a ++ b).
Proof. intros A B c I. apply in_app_or in I. destruct I; auto. Qed.
Lemma only_one p c : p c = true -> only p [c].
Proof. intros H d [<-|[]]. exact H. Qed.

Lemma pd_quote_text k s : padded s (quote_text k s).
Proof.
  unfold quote_text. apply pd_before.
  - apply pd_after; [apply pd_hang|]. destruct (ends_with cNL s); [|intros c []].
    apply only_app; [|apply only_spaces]. destruct (all_are cNL s); [intros c []|now apply only_one].
  - destruct (starts_with cNL s); [now apply only_one|intros c []].
Qed.
Lemma pd_leaf_text k s : padded s (leaf_text k s).
Proof.
  unfold leaf_text. destruct (framed s); [|apply pd_quote_text].
  rewrite app_assoc. apply pd_before; [|apply only_app; [now apply only_one|apply only_spaces]].
  apply pd_after; [apply pd_quote_text|]. apply only_app; [now apply only_one|apply only_spaces].
Qed.

Lemma quotes_for_spec s : let d := quotes_for s in
  (1 <= d)%nat /\ d <> 2%nat /\ forall x k y, s = x ++ rep cQ k ++ y -> (k < d)%nat.
Proof.
  unfold quotes_for. unfold count_necessary_quotes. cbv zeta.
  destruct (scan_quotes s 0 0 _) as [m sf] eqn:Sc. cbn [fst].
  destruct (scan_max some_cfg eq_refl _ _ _ _ _ _ Sc) as (_ & _ & M).
  assert (X : forall k, (k <= m)%nat -> (k <
    (if Nat.eqb (if Nat.eqb (if Nat.eqb (if Nat.ltb 0 m then S m else m) 0 && negb sf then 1 else if Nat.ltb 0 m then S m else m) 2 then 3
      else if Nat.eqb (if Nat.ltb 0 m then S m else m) 0 && negb sf then 1 else if Nat.ltb 0 m then S m else m) 0 then 1
     else if Nat.eqb (if Nat.eqb (if Nat.ltb 0 m then S m else m) 0 && negb sf then 1 else if Nat.ltb 0 m then S m else m) 2 then 3
      else if Nat.eqb (if Nat.ltb 0 m then S m else m) 0 && negb sf then 1 else if Nat.ltb 0 m then S m else m))%nat).
  { intros k Hk. destruct m as [|[|m]]; cbn; [destruct sf; cbn; lia|lia|lia]. }
  split; [|split].
  - specialize (X 0%nat). lia.
  - clear X. destruct m as [|[|m]]; cbn; [destruct sf; cbn; lia|lia|lia].
  - intros x k y E. apply X. exact (M x k y E).
Qed.

Lemma last_spaces x n : (1 <= n)%nat -> exists r, rev (x ++ rep cSP n) = cSP :: r.
Proof. intros H. destruct n as [|n]; [lia|]. rewrite rev_app_distr. rewrite BuildProofs.rev_rep. eexists. reflexivity. Qed.
Lemma hang_last k s c : exists x, hang k (s ++ [c]) = x ++ [c].
Proof.
  induction s as [|d s (x & IH)].
  - cbn [app hang]. exists []. destruct (c =? cNL); reflexivity.
  - cbn [app hang]. rewrite IH. destruct (d =? cNL); [|now exists (d :: x)].
    eexists (d :: _ ++ x). cbn [app]. rewrite <- app_assoc. reflexivity.
Qed.
Lemma snoc_cases (s : bytes) : s <> [] -> exists r c, s = r ++ [c].
Proof. intros H. destruct (exists_last H) as (r & c & E). eauto. Qed.
Lemma ends_snoc c r d : ends_with c (r ++ [d]) = (d =? c).
Proof. unfold ends_with. now rewrite rev_app_distr. Qed.

Lemma quote_text_last k r c : ~ starts (is cQ) (rev (quote_text k (r ++ [c]))) \/ c = cQ.
Proof.
  destruct (N.eqb_spec c cQ) as [->|Hc]; [now right|left].
  unfold quote_text. rewrite ends_snoc. destruct (written_last r c) as (x0 & c0 & E0 & H0). rewrite E0. destruct (hang_last k x0 c0) as (x & E). rewrite E.
  assert (Hc0 : c0 <> cQ) by (intros ->; destruct H0 as [H0|[H0 _]]; [congruence|discriminate H0]).
  destruct (N.eqb_spec c cNL) as [->|Hn].
  - intros (d & y & Ey & Hd). rewrite !rev_app_distr in Ey. destruct (k - 1)%nat as [|n] eqn:Ek.
    + destruct (all_are cNL (r ++ [cNL])); cbn in Ey; injection Ey as <- _; [apply N.eqb_eq in Hd; congruence|discriminate Hd].
    + rewrite BuildProofs.rev_rep in Ey. cbn in Ey. injection Ey as <- _. discriminate Hd.
  - rewrite app_nil_r. intros (d & y & Ey & Hd). rewrite !rev_app_distr in Ey. cbn in Ey. injection Ey as <- _.
    apply N.eqb_eq in Hd. congruence.
Qed.
Lemma quote_text_first k c r : exists y, quote_text k (c :: r) = c :: y.
Proof.
  unfold quote_text, written. cbn [starts_with hang written_after andb]. destruct (N.eqb_spec c cNL) as [->|Hn]; cbn [app]; eexists; reflexivity.
Qed.

Lemma leaf_body k s : s <> [] -> quote_body (quotes_for s) (leaf_text k s).
Proof.
  intros Hs. destruct (quotes_for_spec s) as (_ & _ & M).
  assert (R : forall x n y, leaf_text k s = x ++ rep cQ n ++ y -> (n < quotes_for s)%nat).
  { intros x n y E. pose proof (pd_leaf_text k s) as P. rewrite E in P. apply pd_part in P as (x' & y' & ->).
    - now apply (M x' n y').
    - intros c I. apply repeat_spec in I. subst c. repeat split; discriminate. }
  assert (Fr : framed s = false -> starts_with cQ s = false /\ ends_with cQ s = false).
  { unfold framed, count_necessary_quotes. cbv zeta. destruct (scan_quotes s 0 0 _) as [m sf]. rewrite andb_true_r.
    intros H. apply orb_false_iff in H as [H _]. now apply orb_false_iff in H. }
  unfold leaf_text in *. destruct (framed s).
  - split; [discriminate|]. split; [intros (c & r & E & Hc); injection E as <- _; discriminate Hc|]. split; [|exact R].
    intros (c & r & E & Hc). rewrite !app_assoc in E. destruct k as [|k].
    + cbn [rep repeat] in E. rewrite app_nil_r, rev_app_distr in E. injection E as <- _. discriminate Hc.
    + destruct (last_spaces ((([cNL] ++ rep cSP (S k)) ++ quote_text (S k) s) ++ [cNL]) (S k)) as (y & Ey); [lia|].
      rewrite Ey in E. injection E as <- _. discriminate Hc.
  - destruct (Fr eq_refl) as (F1 & F2). set (n := (k + quotes_for s)%nat) in *.
    destruct s as [|c r0]; [congruence|]. destruct (quote_text_first n c r0) as (y & Ey). split; [rewrite Ey; discriminate|].
    split; [|split; [|exact R]].
    + rewrite Ey. intros (d & z & Ez & Hd). injection Ez as <- _. cbn in F1. unfold is in Hd. congruence.
    + destruct (snoc_cases (c :: r0)) as (r & e & Er); [discriminate|]. rewrite Er in *. rewrite ends_snoc in F2.
      destruct (quote_text_last n r e) as [H| ->]; [exact H|discriminate F2].
Qed.

(** What is printed as a quote is read as a quote. *)
Theorem leaf_read k s z st l : s <> [] -> ~ starts (is cQ) z -> s_rest st = leaf k s ++ z ->
  exists st', parse_quote l st = POk st' /\ ate (leaf k s) [(quote_kind l, leaf k s)] st st'.
Proof.
  intros Hs Hz E. destruct (quotes_for_spec s) as (D1 & D2 & _).
  destruct (lex_delimited st _ _ z D1 D2 (leaf_body k s Hs) Hz E) as (s' & Es & A). unfold parse_quote. rewrite Es.
  eexists. split; [reflexivity|]. now apply ate_emit_from.
Qed.

(** ** Comments *)

Lemma range_out l st : exists st', print_range l st = (written l, st') /\ p_line st' = p_line st /\ p_ok st' = p_ok st.
Proof.
  destruct l as [|c l]; [now exists st|]. eexists. split; [|split].
  - unfold print_range, put, seq, add_cur, set_last. now rewrite !app_nil_r.
  - reflexivity.
  - reflexivity.
Qed.
Lemma slashes_out a b n st : slashes a b n st = (a ++ rep cSLASH n ++ b, st).
Proof. reflexivity. Qed.
Lemma pd_same l s b : padded s b -> padded (l ++ s) (l ++ b).
Proof. intros H. induction l; [exact H|]. now constructor. Qed.
Lemma pd_written l s b : padded s b -> padded (l ++ s) (written l ++ b).
Proof.
  intros P0. assert (X : forall l bl, exists a s', l ++ s = a ++ s' /\ Forall (fun d => is_cont d = true) a /\ padded s' (written_after bl l ++ b) /\ (bl = false -> a = [])).
  { clear l. induction l as [|c l IH]; intros bl; [exists [], s; repeat split; auto|]. cbn [app written_after]. destruct (bl && is_cont c)%bool eqn:Bc.
    - apply andb_true_iff in Bc as [-> Hc]. destruct (IH true) as (a & s' & -> & F & P & _). exists (c :: a), s'. repeat split; auto. discriminate.
    - destruct (IH (is_blank c)) as (a & s' & E & F & P & H). exists [], (c :: l ++ s). split; [reflexivity|]. split; [constructor|]. split; [|auto].
      cbn [app]. destruct (is_blank c) eqn:Bl; [rewrite E; now constructor|]. rewrite H in E by reflexivity. cbn [app] in E. rewrite E. now constructor. }
  destruct (X l false) as (a & s' & E & _ & P & H). rewrite H in E by reflexivity. cbn [app] in E. now rewrite E.
Qed.

Lemma comment_rest_pretty C (HC : compact C = false) n f : forall s st, (List.length s <= f)%nat -> exists o st',
  comment_rest C f n s st = (o, st') /\ p_line st' = p_line st /\ p_ok st' = p_ok st /\ padded (cNL :: s) o
  /\ (s <> [] -> ends_with cNL s = false -> o = hang (Z.to_nat (p_line st)) (cNL :: written s)).
Proof.
  induction f as [|f IH]; intros s st L.
  { destruct s; [|cbn in L; lia]. exists [], st. repeat split; auto; [apply pd_end|congruence]. }
  destruct s as [|d s0] eqn:Es; [exists [], st; repeat split; auto; [apply pd_end|congruence]|]. rewrite <- Es in *.
  assert (Hs : s <> []) by (subst; discriminate). cbn [comment_rest]. rewrite Es, <- Es. rewrite HC.
  pose proof (cut_line_spec s) as X. destruct (cut_line s) as [l t].
  set (sp := match l, t with [], Some (_ :: _) => [] | _, _ => rep cSP (Z.to_nat (p_line st)) end).
  assert (A : exists st1, (match l, t with [], Some (_ :: _) => print_nl | _, _ => nl_and_indent end) st = (cNL :: sp, st1) /\ p_line st1 = p_line st /\ p_ok st1 = p_ok st).
  { subst sp. destruct l; [destruct t as [[|]|]|]; eexists; (split; [first [apply nl_out|reflexivity]|split; reflexivity]). }
  destruct A as (st1 & E1 & L1 & K1). destruct (range_out l st1) as (st2 & E2 & L2 & K2).
  assert (Sp : only (one_of [cSP; cNL]) sp).
  { subst sp. destruct l; [destruct t as [[|]|]|]; try apply only_spaces. intros c []. }
  destruct t as [r|].
  - destruct X as [Er N]. destruct (IH r st2) as (o & st3 & E3 & L3 & K3 & P3 & H3).
    { rewrite Er, app_length in L. cbn in L. lia. }
    exists ((cNL :: sp) ++ written l ++ o), st3. split; [|split; [congruence|split; [congruence|split]]].
    + eapply seq_out; [exact E1|]. eapply seq_out; [exact E2|exact E3].
    + cbn [app]. constructor. apply pd_before; [|exact Sp]. rewrite Er. now apply pd_written.
    + intros _ He. rewrite Er in He |- *. destruct r as [|e r].
      * rewrite ends_snoc in He. discriminate He.
      * assert (He' : ends_with cNL (e :: r) = false).
        { destruct (snoc_cases (e :: r)) as (q & c & Eq); [discriminate|]. rewrite Eq in *. rewrite ends_snoc.
          replace (l ++ cNL :: q ++ [c]) with ((l ++ cNL :: q) ++ [c]) in He by now rewrite <- app_assoc.
          now rewrite ends_snoc in He. }
        rewrite H3 by (auto; discriminate). rewrite L2, L1. cbn [app]. rewrite written_nl_app.
        cbn [hang]. change (cNL =? cNL) with true. cbn iota. f_equal. rewrite hang_plain by (intros I; eapply N, written_in; exact I). rewrite app_assoc, app_assoc. f_equal. f_equal.
        subst sp. destruct l as [|c l]; [reflexivity|]. unfold written. cbn [written_after andb app]. destruct (N.eqb_spec c cNL) as [->|]; [exfalso; apply N; now left|reflexivity].
  - destruct X as [Er N]. exists ((cNL :: sp) ++ written l ++ []), st2. split; [|split; [congruence|split; [congruence|split]]].
    + eapply seq_out; [exact E1|]. eapply seq_out; [exact E2|reflexivity].
    + cbn [app]. constructor. apply pd_before; [|exact Sp]. rewrite Er. rewrite <- (app_nil_r l) at 1. apply pd_written, pd_nil.
    + intros _ He. rewrite app_nil_r. rewrite <- Er in *. cbn [app hang]. change (cNL =? cNL) with true. cbn iota. f_equal. rewrite hang_none by (intros I; eapply N, written_in; exact I). f_equal.
      subst sp. rewrite Es. rewrite Es in N. unfold written. cbn [written_after andb]. destruct (N.eqb_spec d cNL) as [->|]; [exfalso; apply N; now left|now destruct l].
Qed.

Definition closes (n : nat) (b : bytes) : Prop := forall x k y, b ++ [cSTAR] = x ++ [cSTAR] ++ rep cSLASH k ++ y -> (k < n)%nat.
Lemma padded_closes s b : padded s b -> closes (count_necessary_slashes s) b.
Proof.
  intros P x k y E. unfold count_necessary_slashes. destruct k as [|k]; [lia|].
  apply (star_inside some_cfg eq_refl) in E as (y' & ->); [|lia].
  replace (x ++ [cSTAR] ++ rep cSLASH (S k) ++ y') with (x ++ ([cSTAR] ++ rep cSLASH (S k)) ++ y') in P by now rewrite <- app_assoc.
  apply pd_part in P as (x' & z & Es).
  - destruct (max_slashes_spec some_cfg eq_refl s false 0 0 _ eq_refl) as (_ & _ & M).
    specialize (M x' (S k) z). rewrite <- app_assoc in Es. specialize (M Es). lia.
  - intros c [<-|I]; [repeat split; discriminate|]. apply repeat_spec in I. subst c. repeat split; discriminate.
Qed.

Lemma comment_rest_compact C (HC : compact C = true) n f : forall s st, (List.length s <= f)%nat -> exists ls st',
  comment_rest C f n s st = (List.concat (map (next_line n) ls), st') /\ p_line st' = p_line st /\ p_ok st' = p_ok st
  /\ Forall (fun m => exists l x y, m = written l /\ s = x ++ l ++ y) ls.
Proof.
  induction f as [|f IH]; intros s st L.
  { destruct s; [|cbn in L; lia]. exists [], st. repeat split; auto. }
  destruct s as [|d s0] eqn:Es; [exists [], st; repeat split; auto|]. rewrite <- Es in *.
  cbn [comment_rest]. rewrite Es, <- Es. rewrite HC. pose proof (cut_line_spec s) as X. destruct (cut_line s) as [l t].
  destruct (range_out l st) as (st2 & E2 & L2 & K2). destruct t as [r|].
  - destruct X as [Er N]. destruct (IH r st2) as (ls & st3 & E3 & L3 & K3 & P3).
    { rewrite Er, app_length in L. cbn in L. lia. }
    exists (written l :: ls), st3. split; [|split; [congruence|split; [congruence|constructor]]].
    + eapply out_eq; [eapply seq_out; [apply slashes_out|]; eapply seq_out; [exact E2|exact E3]|]. cbn [map List.concat]. unfold next_line. now rewrite <- !app_assoc.
    + exists l, [], (cNL :: r). auto.
    + eapply Forall_impl; [|exact P3]. intros m (l' & x & y & El & E). exists l', (l ++ cNL :: x), y. split; [exact El|]. rewrite Er, E, <- app_assoc. reflexivity.
  - destruct X as [Er N]. exists [written l], st2. split; [|split; [congruence|split; [congruence|constructor; auto]]].
    + eapply out_eq; [eapply seq_out; [apply slashes_out|]; eapply seq_out; [exact E2|reflexivity]|]. cbn [map List.concat]. unfold next_line. now rewrite !app_nil_r, <- !app_assoc.
    + exists l, [], []. cbn. now rewrite app_nil_r.
Qed.

(** The text in a comment in the default form, when the slashes start at
    column k. *)
Definition comment_inside (k : nat) (s : bytes) : bytes :=
  (if starts_with cNL s then [] else [cSP]) ++ hang (k + count_necessary_slashes s + 2) (written s) ++ [cSP].

Theorem comment_lines_out C s st : (0 <= p_cur st)%Z -> has_newlines s = true ->
  let n := count_necessary_slashes s in
  exists bs st', comment_lines C s st = (rep cSLASH n ++ List.concat (map (segment n) bs), st')
  /\ p_line st' = p_line st /\ p_ok st' = p_ok st /\ bs <> [] /\ Forall (closes n) bs
  /\ (compact C = false -> List.length bs = 1%nat)
  /\ (compact C = false -> ends_with cNL s = false -> bs = [comment_inside (Z.to_nat (p_cur st)) s]).
Proof.
  intros Hk Hn n. unfold comment_lines, ask, id. fold n.
  pose proof (cut_line_spec s) as X. destruct (cut_line s) as [l [r|]]; destruct X as [Es N].
  2:{ exfalso. subst l. unfold has_newlines in Hn. apply existsb_exists in Hn as (c & I & E). apply N.eqb_eq in E. subst c. contradiction. }
  cbn [fst snd]. assert (Ls : (List.length r <= List.length s)%nat) by (rewrite Es, app_length; cbn; lia).
  destruct (compact C) eqn:HC.
  - cbn [negb andb when]. set (st1 := PR (p_cur st) (p_cur st + 1 + Z.of_nat n + 0)%Z (p_last st) (p_ok st)).
    destruct (range_out l st1) as (st2 & E2 & L2 & K2). destruct (comment_rest_compact C HC n _ r st2 Ls) as (ls & st3 & E3 & L3 & K3 & F).
    exists (written l :: ls). eexists. split.
    { eapply out_eq.
      - eapply seq_out; [apply slashes_out|]. eapply seq_out; [reflexivity|]. eapply seq_out; [reflexivity|]. fold st1.
        eapply seq_out; [exact E2|]. eapply seq_out; [exact E3|]. eapply seq_out; [reflexivity|]. eapply seq_out; [apply slashes_out|].
        eapply seq_out; reflexivity.
      - cbn [app map List.concat]. rewrite !app_nil_r. pose proof (segments_lines n ls (written l)) as Y. cbn [app] in Y. rewrite <- app_assoc in Y.
        rewrite <- !app_assoc. rewrite Y. unfold segment at 2. rewrite <- !app_assoc. reflexivity. }
    split; [reflexivity|]. split; [etransitivity; [exact K3|]; now rewrite K2|]. split; [discriminate|]. split; [|split; discriminate].
    assert (Pt : forall b, (exists l x y, b = written l /\ s = x ++ l ++ y) -> closes n b).
    { intros b (l' & x & y & -> & E) u k v Ev. unfold n, count_necessary_slashes. destruct k as [|k]; [lia|].
      apply (star_inside some_cfg eq_refl) in Ev as (v' & Ew); [|lia].
      pose proof (pd_written l' [] [] pd_nil) as Pl. rewrite !app_nil_r, Ew in Pl.
      replace (u ++ [cSTAR] ++ rep cSLASH (S k) ++ v') with (u ++ ([cSTAR] ++ rep cSLASH (S k)) ++ v') in Pl by now rewrite <- app_assoc.
      apply pd_part in Pl as (u1 & v1 & ->); [|intros c [<-|I]; [repeat split; discriminate|]; apply repeat_spec in I; subst c; repeat split; discriminate].
      destruct (max_slashes_spec some_cfg eq_refl s false 0 0 _ eq_refl) as (_ & _ & M).
      specialize (M (x ++ u1) (S k) (v1 ++ y)). rewrite E in M at 1. rewrite <- !app_assoc in M. specialize (M eq_refl). lia. }
    constructor.
    + apply Pt. exists l, [], (cNL :: r). auto.
    + eapply Forall_impl; [|exact F]. intros m (l' & x & y & El & E). apply Pt. exists l', (l ++ cNL :: x), y. split; [exact El|]. rewrite Es, E, <- app_assoc. reflexivity.
  - cbn [negb andb when].
    assert (A : exists st0, when (negb (starts_with cNL s)) (white_spaces 1) st = (if starts_with cNL s then [] else [cSP], st0) /\ p_ok st0 = p_ok st).
    { destruct (starts_with cNL s); eexists; split; reflexivity. }
    destruct A as (st0 & E0 & K0).
    set (st1 := PR (p_cur st0) (p_cur st + 1 + Z.of_nat n + 1)%Z (p_last st0) (p_ok st0)).
    destruct (range_out l st1) as (st2 & E2 & L2 & K2). destruct (comment_rest_pretty C HC n _ r st2 Ls) as (o & st3 & E3 & L3 & K3 & P & H).
    set (b := (if starts_with cNL s then [] else [cSP]) ++ written l ++ o ++ [cSP]).
    exists [b]. eexists. split.
    { eapply out_eq.
      - eapply seq_out; [apply slashes_out|]. eapply seq_out; [exact E0|]. eapply seq_out; [reflexivity|]. fold st1.
        eapply seq_out; [exact E2|]. eapply seq_out; [exact E3|]. eapply seq_out; [apply white_out|]. eapply seq_out; [apply slashes_out|].
        eapply seq_out; reflexivity.
      - cbn [app map List.concat]. rewrite !app_nil_r. unfold segment, b. rewrite <- !app_assoc. reflexivity. }
    split; [reflexivity|]. split; [etransitivity; [exact K3|]; rewrite K2; exact K0|]. split; [discriminate|]. split.
    + constructor; [|constructor]. apply padded_closes. unfold b. apply pd_before.
      * rewrite Es. rewrite app_assoc. apply pd_after; [|now apply only_one]. now apply pd_written.
      * destruct (starts_with cNL s); [intros c []|now apply only_one].
    + split; [reflexivity|]. intros _ He. unfold b, comment_inside. fold n. f_equal. f_equal. rewrite app_assoc. f_equal.
      destruct r as [|e r].
      { rewrite Es, ends_snoc in He. discriminate He. }
      rewrite Es at 1. rewrite written_nl_app, hang_plain by (intros I; eapply N, written_in; exact I). f_equal. rewrite H; [|discriminate|].
      * rewrite L2. unfold st1. cbn [p_line]. f_equal. lia.
      * rewrite Es in He. destruct (snoc_cases (e :: r)) as (q & c & Eq); [discriminate|]. rewrite Eq in *. rewrite ends_snoc.
        replace (l ++ cNL :: q ++ [c]) with ((l ++ cNL :: q) ++ [c]) in He by now rewrite <- app_assoc. now rewrite ends_snoc in He.
Qed.

(** What is printed as a comment is read as one comment. *)
Lemma lex_continuations n : (1 <= n)%nat -> forall bs z s f, bs <> [] -> Forall (closes n) bs -> nul_after s -> ~ starts (one_of [cSLASH; cSTAR]) z ->
  s_rest s = List.concat (map (segment n) bs) ++ z -> (List.length bs <= f)%nat ->
  exists s', continuations f n s = POk s' /\ ate (List.concat (map (segment n) bs)) (map (fun b => (Kcomment_continuation, segment n b)) bs) s s'.
Proof.
  intros Hn. induction bs as [|b bs IH]; intros z s f Hb F N Hz E L; [congruence|]. inversion F as [|? ? Fb Fs]; subst.
  destruct f as [|f]; [cbn in L; lia|]. cbn [map List.concat] in *. rewrite <- app_assoc in E.
  assert (Hz' : ~ starts (is cSLASH) (List.concat (map (segment n) bs) ++ z)).
  { destruct bs; cbn [map List.concat app].
    - intros (c & r & -> & Hc). apply Hz. exists c, r. split; auto. unfold one_of. cbn. unfold is in Hc. now rewrite Hc.
    - now apply not_starts. }
  destruct (lex_segment n s [] b _ Hn N (or_introl eq_refl) Fb Hz' E) as (s' & Es & A). cbn [app] in A.
  cbn [continuations]. rewrite Es. cbn [pbind].
  apply (ate_emit_from Kcomment_continuation) in A. set (s1 := emit_from Kcomment_continuation s s') in *.
  destruct bs as [|b2 bs].
  - cbn [map List.concat app].
    assert (Hm : match z with d :: _ => d =? cSTAR | [] => false end = false).
    { destruct z as [|d z]; auto. apply not_starts_cons in Hz. unfold one_of in Hz. cbn [existsb] in Hz. now destruct (d =? cSTAR), (d =? cSLASH). }
    rewrite Hm. exists s1. split; [reflexivity|]. now rewrite app_nil_r.
  - change (match List.concat (map (segment n) (b2 :: bs)) ++ z with d :: _ => d =? cSTAR | [] => false end) with true. cbn iota.
    destruct (IH z s1 f) as (s2 & E2 & A2); auto; [discriminate|eapply ate_nul; eauto|eapply ate_rest; eauto|cbn in *; lia|].
    exists s2. split; [exact E2|]. exact (ate_trans _ _ _ _ _ _ _ A A2).
Qed.
Theorem comment_read n b bs z s f : (1 <= n)%nat -> Forall (closes n) (b :: bs) -> nul_after s -> ~ starts (one_of [cSLASH; cSTAR]) z ->
  s_rest s = (rep cSLASH n ++ List.concat (map (segment n) (b :: bs))) ++ z -> (List.length bs <= f)%nat ->
  exists s', parse_comment f s = POk s' /\
    ate (rep cSLASH n ++ List.concat (map (segment n) (b :: bs))) ((Kcomment, rep cSLASH n ++ segment n b) :: map (fun b => (Kcomment_continuation, segment n b)) bs) s s'.
Proof.
  intros Hn F N Hz E L. inversion F as [|? ? Fb Fs]; subst. cbn [map List.concat] in *.
  assert (Cs : count_slashes (s_rest s) (s_aft s) = Some (n, true)).
  { rewrite E, <- !app_assoc. unfold segment at 1. rewrite <- !app_assoc. rewrite count_slashes_rep; [reflexivity|exact N|now apply not_starts]. }
  unfold parse_comment. rewrite Cs.
  assert (Hz' : ~ starts (is cSLASH) (List.concat (map (segment n) bs) ++ z)).
  { destruct bs; cbn [map List.concat app].
    - intros (c & r & -> & Hc). apply Hz. exists c, r. split; auto. unfold one_of. cbn. unfold is in Hc. now rewrite Hc.
    - now apply not_starts. }
  assert (E' : s_rest s = (rep cSLASH n ++ segment n b) ++ List.concat (map (segment n) bs) ++ z) by (rewrite E, <- !app_assoc; reflexivity).
  destruct (lex_segment n s (rep cSLASH n) b _ Hn N (or_intror eq_refl) Fb Hz' E') as (s' & Es & A). rewrite Es. cbn [pbind].
  apply (ate_emit_from Kcomment) in A. set (s1 := emit_from Kcomment s s') in *. rewrite app_assoc.
  destruct bs as [|b2 bs].
  - cbn [map List.concat app].
    assert (Hm : match z with d :: _ => d =? cSTAR | [] => false end = false).
    { destruct z as [|d z]; auto. apply not_starts_cons in Hz. unfold one_of in Hz. cbn [existsb] in Hz. now destruct (d =? cSTAR), (d =? cSLASH). }
    rewrite Hm. exists s1. split; [reflexivity|]. now rewrite app_nil_r.
  - change (match List.concat (map (segment n) (b2 :: bs)) ++ z with d :: _ => d =? cSTAR | [] => false end) with true. cbn iota.
    destruct (lex_continuations n Hn (b2 :: bs) z s1 f) as (s2 & E2 & A2); auto; [discriminate|eapply ate_nul; eauto|eapply ate_rest; eauto|].
    exists s2. split; [exact E2|]. exact (ate_trans _ _ _ _ _ _ _ A A2).
Qed.
