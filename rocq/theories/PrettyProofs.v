(** Printing in the default form: the quotes and entities that a text is
    printed as. *)
From Coq Require Import NArith ZArith List Bool Arith Lia String.
From Verif Require Import Bytes BytesFacts Outcome Utf8 Utf8Proofs Quote QuoteSpec QuoteProofs QuoteProofs2 Parser ParserSpec Dom Printer Grammar
  LexProofs BuildProofs GrammarProofs Compact CompactProofs CompactDoc LeafQuote BlockProofs Pretty LeafBlock.
From Verif Require HashSortProofs.
Import ListNotations.
Local Open Scope N_scope.
Local Open Scope op_scope.

(** ** Equal operations *)
Definition same (a b : op) : Prop := forall st, a st = b st.
Lemma same_refl a : same a a.
Proof. intros st. reflexivity. Qed.
Lemma same_sym a b : same a b -> same b a.
Proof. intros H st. now rewrite H. Qed.
Lemma same_trans a b c : same a b -> same b c -> same a c.
Proof. intros H1 H2 st. now rewrite H1. Qed.
Lemma same_seq a a' b b' : same a a' -> same b b' -> same (a ;; b) (a' ;; b').
Proof. intros H1 H2 st. unfold seq. rewrite H1. destruct (a' st) as [x s1]. now rewrite H2. Qed.
Lemma same_assoc a b c : same (a ;; b ;; c) ((a ;; b) ;; c).
Proof. intros st. unfold seq. destruct (a st) as [x s1]. destruct (b s1) as [y s2]. destruct (c s2) as [z s3]. now rewrite app_assoc. Qed.
Lemma same_nop_l a : same (nop ;; a) a.
Proof. intros st. unfold seq, nop. now destruct (a st). Qed.
Lemma same_nop_r a : same (a ;; nop) a.
Proof. intros st. unfold seq, nop. destruct (a st). now rewrite app_nil_r. Qed.

(** ** Tokens *)
Inductive ptok := KLeaf (s : bytes) | KSpaces (n : nat) | KEmpty | KChar (u : N) | KRef (n : bytes).
(** How it is printed, and what is printed at column k. *)
Definition raw (t : ptok) : op :=
  match t with
  | KLeaf s => safe_leaf_quote s
  | KSpaces n => quoted_spaces n
  | KEmpty => print_str [cQ; cQ]
  | KChar u => print_str (char_ref u) ;; set_last cSEMI ;; add_cur (zlen (char_ref u))
  | KRef n => print_str [cAMP] ;; print_str n ;; print_str [cSEMI]
  end.
Definition ptok_bytes (k : nat) (t : ptok) : bytes :=
  match t with
  | KLeaf s => leaf k s
  | KSpaces n => [cQ] ++ rep cSP n ++ [cQ]
  | KEmpty => [cQ; cQ]
  | KChar u => char_ref u
  | KRef n => [cAMP] ++ n ++ [cSEMI]
  end.
Definition ptok_part (t : ptok) : part :=
  match t with
  | KLeaf s => PText s
  | KSpaces n => PText (rep cSP n)
  | KEmpty => PText []
  | KChar u => PText (utf8_spec u)
  | KRef n => PRef n
  end.
Definition ptok_text (t : ptok) : bytes := match ptok_part t with PText s => s | PRef _ => [] end.
Definition is_ptext (t : ptok) : Prop := match t with KRef _ => False | _ => True end.
Definition pquote (t : ptok) : bool := match t with KLeaf _ | KSpaces _ | KEmpty => true | _ => false end.
Definition ptok_ok (t : ptok) : Prop :=
  match t with
  | KLeaf s => s <> [] /\ plain s /\ unmixed s /\ leaf_ok s
  | KSpaces n => (1 <= n)%nat
  | KEmpty => True
  | KChar u => 0 < u <= 0x10ffff
  | KRef n => is_name n /\ ~ starts (is cHASH) n
  end.
Definition ptexts (l : list ptok) : bytes := List.concat (map ptok_text l).
Lemma ptexts_app a b : ptexts (a ++ b) = ptexts a ++ ptexts b.
Proof. unfold ptexts. now rewrite map_app, concat_app. Qed.

Lemma utf8_spec_high u : 128 <= u -> forall z, In z (utf8_spec u) -> 128 <= z.
Proof.
  intros L z I. unfold utf8_spec in I. destruct (N.ltb_spec u 128); [lia|].
  destruct (u <? 2048); [|destruct (u <? 65536)]; cbn [In] in I; repeat (destruct I as [<-|I]; [lia|]); contradiction.
Qed.

(** ** Mixed white space at the ends of a text *)
Lemma skip_ws_spec t : forall i b, exists k, skip_ws t i b = ((i + k)%nat, (b || has_newlines (firstn k t))%bool) /\ (k <= List.length t)%nat
  /\ only is_xml_whitespace (firstn k t) /\ ~ starts is_xml_whitespace (skipn k t).
Proof.
  induction t as [|c t IH]; intros i b; cbn [skip_ws].
  - exists 0%nat. rewrite Nat.add_0_r. cbn. rewrite orb_false_r. split; auto. split; auto. split; [intros ? []|]. intros (c & r & X & _). discriminate.
  - destruct (is_xml_whitespace c) eqn:W.
    + destruct (IH (S i) (if c =? cNL then true else b)) as (k & -> & K1 & K2 & K3). exists (S k). split; [|split; [cbn; lia|split; auto]].
      * f_equal; [lia|]. cbn. destruct (c =? cNL); cbn; [now rewrite orb_true_r|reflexivity].
      * cbn [firstn]. intros d [<-|I]; auto.
    + exists 0%nat. rewrite Nat.add_0_r. cbn. assert (c =? cNL = false) as -> by (apply N.eqb_neq; intros ->; discriminate).
      rewrite orb_false_r. split; auto. split; [lia|]. split; [intros ? []|]. intros (d & r & X & Hd). injection X as <- <-. congruence.
Qed.
Lemma lead_mixed s n : has_leading_space_nl s = (Some n, 0%nat) -> exists w r, s = w ++ r /\ n = List.length w
  /\ only is_xml_whitespace w /\ In cNL w /\ ~ only (is cNL) w /\ ~ starts is_xml_whitespace r.
Proof.
  unfold has_leading_space_nl. destruct (skip_nls_spec s 0) as (j & t & Es & -> & Ht). cbn [Nat.add].
  destruct (skip_ws_spec t j (Nat.ltb 0 j)) as (k & -> & K1 & K2 & K3). intros H.
  assert (F : ((0 <? j)%nat || has_newlines (firstn k t))%bool = true) by (destruct ((0 <? j)%nat || has_newlines (firstn k t))%bool; [reflexivity|discriminate]).
  rewrite F in H. injection H as <- H. exists (rep cNL j ++ firstn k t), (skipn k t). rewrite <- app_assoc, firstn_skipn. split; auto.
  split; [rewrite app_length, firstn_length; unfold rep; rewrite repeat_length; lia|].
  assert (Hk : k <> 0%nat).
  { intros ->. rewrite Nat.add_0_r, Nat.eqb_refl in H. subst j. discriminate. }
  split; [|split; [|split; auto]].
  - intros c I. apply in_app_or in I as [I|I]; auto. apply in_rep in I. now subst.
  - apply in_or_app. apply orb_true_iff in F as [F|F].
    + left. apply Nat.ltb_lt in F. destruct j; [lia|now left].
    + right. apply existsb_exists in F as (c & I & E). apply N.eqb_eq in E. now subst.
  - intros O. destruct t as [|c t]; [cbn in K1; lia|]. destruct k as [|k]; [lia|]. apply Ht. apply N.eqb_eq, (O c). apply in_or_app. right. now left.
Qed.
Lemma ending_mixed s n : has_ending_nl_space s = (Some n, 0%nat) -> exists r w, s = r ++ w /\ n = List.length r
  /\ only is_xml_whitespace w /\ In cNL w /\ ~ only (is cNL) w /\ ~ starts is_xml_whitespace (rev r).
Proof.
  intros H. assert (X : exists i, has_leading_space_nl (rev s) = (Some i, 0%nat) /\ n = (List.length s - i)%nat).
  { unfold has_ending_nl_space in H. unfold has_leading_space_nl. destruct (skip_nls (rev s) 0) as [m r]. destruct (skip_ws r m _) as [i f].
    destruct f; [|discriminate]. injection H as <- ->. eauto. }
  destruct X as (i & X & ->). apply lead_mixed in X as (w & r & E & -> & W1 & W2 & W3 & W4). exists (rev r), (rev w).
  apply (f_equal (@rev _)) in E. rewrite rev_involutive, rev_app_distr in E. split; auto. split; [rewrite E, app_length, !rev_length; lia|].
  split; [intros c I; apply W1; now rewrite in_rev|]. split; [now rewrite <- in_rev|]. split; [|now rewrite rev_involutive].
  intros O. apply W3. intros c I. apply O. now rewrite <- in_rev.
Qed.
Lemma mixed_not s : has_mixed_space s = true -> ~ unmixed s.
Proof.
  unfold has_mixed_space. cbv zeta. intros H U. apply orb_true_iff in H as [H|H].
  - destruct (has_leading_space_nl s) as [[n|] [|k]] eqn:E; try discriminate. apply lead_mixed in E as (w & r & E & _ & W1 & W2 & W3 & _).
    apply W3. apply (U w r); auto.
  - destruct (has_ending_nl_space s) as [[n|] [|k]] eqn:E; try discriminate. apply ending_mixed in E as (r & w & E & _ & W1 & W2 & W3 & _).
    apply W3. apply (U w r); auto.
Qed.
Lemma unmixed_iff s : has_mixed_space s = false <-> unmixed s.
Proof.
  split; [apply not_mixed|]. intros U. destruct (has_mixed_space s) eqn:E; auto. now apply mixed_not in E.
Qed.
Definition cut_lead (s : bytes) : bytes * bytes :=
  match has_leading_space_nl s with (Some n, O) => (firstn n s, skipn n s) | _ => ([], s) end.
Definition cut_trail (s : bytes) : bytes * bytes :=
  match has_ending_nl_space s with (Some n, O) => let n := (n + count_lead cSP (skipn n s))%nat in (firstn n s, skipn n s) | _ => (s, []) end.
Lemma cut_spec s lead s1 s2 trail : ~ only is_xml_whitespace s -> cut_lead s = (lead, s1) -> cut_trail s1 = (s2, trail) ->
  s = lead ++ s2 ++ trail /\ only is_xml_whitespace lead /\ (lead = [] \/ In cNL lead)
  /\ only is_xml_whitespace trail /\ (trail = [] \/ In cNL trail /\ ~ starts (is cSP) trail) /\ unmixed s2 /\ s2 <> [].
Proof.
  intros NW EL ET.
  assert (X1 : s = lead ++ s1 /\ only is_xml_whitespace lead /\ (lead = [] /\ (forall w r, s = w ++ r -> only is_xml_whitespace w -> In cNL w -> only (is cNL) w)
                 \/ In cNL lead /\ ~ starts is_xml_whitespace s1)).
  { unfold cut_lead in EL. destruct (match has_leading_space_nl s with (Some _, O) => true | _ => false end) eqn:M.
    - destruct (has_leading_space_nl s) as [[n|] [|k]] eqn:E; try discriminate. injection EL as <- <-.
      apply lead_mixed in E as (w & r & E & -> & W1 & W2 & _ & W4). rewrite E, firstn_app, skipn_app, firstn_all, skipn_all, Nat.sub_diag. cbn. rewrite app_nil_r. auto.
    - pose proof (lead_unmixed s M) as U. destruct (has_leading_space_nl s) as [[n|] [|k]]; try discriminate; injection EL as <- <-; split; auto; split; auto; intros ? []. }
  destruct X1 as (E1 & W1 & L1).
  assert (X2 : s1 = s2 ++ trail /\ only is_xml_whitespace trail /\ (trail = [] /\ (forall w r, s1 = r ++ w -> only is_xml_whitespace w -> In cNL w -> only (is cNL) w)
                 \/ In cNL trail /\ ~ starts (is cSP) trail /\ exists z m, s2 = z ++ rep cSP m /\ ~ starts is_xml_whitespace (rev z))).
  { unfold cut_trail in ET. destruct (match has_ending_nl_space s1 with (Some _, O) => true | _ => false end) eqn:M.
    - destruct (has_ending_nl_space s1) as [[n|] [|k]] eqn:E; try discriminate. injection ET as <- <-.
      apply ending_mixed in E as (r & w & E & -> & V1 & V2 & _ & V4). split; [symmetry; apply firstn_skipn|].
      assert (Es : skipn (List.length r) s1 = w) by (rewrite E, skipn_app, skipn_all, Nat.sub_diag; reflexivity). rewrite Es.
      destruct (lead_split cSP w) as (Ew & Nw). set (m := count_lead cSP w) in *.
      assert (Et : skipn (List.length r + m) s1 = skipn m w) by (rewrite <- Es, HashSortProofs.skipn_add; f_equal; lia). rewrite Et.
      split; [intros c I; apply V1; rewrite Ew; apply in_or_app; auto|]. right. split; [|split; [exact Nw|]].
      + rewrite Ew in V2. apply in_app_or in V2 as [V2|V2]; auto. apply in_rep in V2. discriminate.
      + exists r, m. split; auto. rewrite E, firstn_app. rewrite firstn_all2 by lia. f_equal. replace (List.length r + m - List.length r)%nat with m by lia.
        rewrite Ew at 1. rewrite firstn_app. unfold rep at 1. rewrite firstn_all2 by (rewrite repeat_length; lia). unfold rep at 2. rewrite repeat_length, Nat.sub_diag. cbn. apply app_nil_r.
    - rewrite ending_leading in M. pose proof (lead_unmixed (rev s1) M) as U. rewrite <- ending_leading in M.
      assert (G : s1 = s2 ++ trail /\ trail = []).
      { destruct (has_ending_nl_space s1) as [[n|] [|k]]; try discriminate; injection ET as <- <-; now rewrite app_nil_r. }
      destruct G as [G ->]. split; auto. split; [intros ? []|]. left. split; auto. intros w r E V1 V2 c I. apply (U (rev w) (rev r)).
      + rewrite E. apply rev_app_distr.
      + intros d Id. apply V1. now rewrite in_rev.
      + now rewrite <- in_rev.
      + now rewrite <- in_rev. }
  destruct X2 as (E2 & W2 & L2). split; [now rewrite E1, E2|]. split; auto. split; [tauto|]. split; auto. split; [tauto|].
  assert (Hne : s2 <> []).
  { intros ->. apply NW. rewrite E1, E2. intros c I. apply in_app_or in I as [I|I]; auto. }
  split; auto. intros w r [E|E] V1 V2.
  - destruct L1 as [(-> & U)|(_ & U)].
    + apply (U w (r ++ trail)); auto. rewrite E1, E2, E. cbn. now rewrite <- app_assoc.
    + exfalso. destruct w as [|c w]; [destruct V2|]. apply U. rewrite E2, E. exists c, ((w ++ r) ++ trail). split; auto. apply V1. now left.
  - destruct L2 as [(-> & U)|(_ & _ & z & m & Ez & Nz)].
    + apply (U w r); auto. now rewrite E2, E, app_nil_r.
    + exfalso. rewrite Ez in E. clear -E Nz V1 V2. revert w V1 V2 E. induction m as [|m IH] using nat_ind; intros w V1 V2 E.
      * cbn in E. rewrite app_nil_r in E. destruct (exists_last (l := w)) as (w' & c & ->); [intros ->; destruct V2|].
        apply Nz. rewrite E, !rev_app_distr. exists c, (rev w' ++ rev r). split; auto. apply V1, in_or_app. right. now left.
      * destruct (exists_last (l := w)) as (w' & c & ->); [intros ->; destruct V2|]. rewrite app_assoc in E. change (rep cSP (S m)) with (cSP :: repeat cSP m) in E. rewrite repeat_cons, app_assoc in E.
        apply app_inj_tail in E as [E <-]. apply (IH w'); auto.
        -- intros d I. apply V1, in_or_app. auto.
        -- apply in_app_or in V2 as [V2|[V2|[]]]; auto. discriminate.
Qed.

Section pretty.
Variable C : cfg.
Hypothesis HC : compact C = false.

Definition psep (l : level) (t : ptok) : op := if pquote t then space_quote C l else space_entity C.
Definition emit (l : level) (t : ptok) : op := psep l t ;; raw t.
Fixpoint emits (l : level) (ts : list ptok) : op := match ts with [] => nop | t :: r => emit l t ;; emits l r end.
Lemma emits_app l a b : same (emits l (a ++ b)) (emits l a ;; emits l b).
Proof.
  induction a as [|t a IH]; cbn [app emits]; [apply same_sym, same_nop_l|].
  eapply same_trans; [apply same_seq; [apply same_refl|exact IH]|]. apply same_assoc.
Qed.

(** The operation prints the text s. *)
Definition shown (l : level) (a : op) (s : bytes) : Prop :=
  exists ts, same a (emits l ts) /\ Forall ptok_ok ts /\ Forall is_ptext ts /\ ptexts ts = s.
Lemma shown_seq l a b s t : shown l a s -> shown l b t -> shown l (a ;; b) (s ++ t).
Proof.
  intros (l1 & P1 & O1 & T1 & <-) (l2 & P2 & O2 & T2 & <-). exists (l1 ++ l2).
  split; [|split; [|split]]; try now apply Forall_app.
  - eapply same_trans; [apply same_seq; eassumption|]. apply same_sym, emits_app.
  - apply ptexts_app.
Qed.
Lemma shown_nop l : shown l nop [].
Proof. exists []. split; [apply same_refl|]. repeat split; constructor. Qed.
Lemma shown_one l t : ptok_ok t -> is_ptext t -> shown l (psep l t ;; raw t) (ptok_text t).
Proof.
  intros O T. exists [t]. split; [|split; [|split]]; auto.
  - apply same_sym, same_nop_r.
  - unfold ptexts. cbn. apply app_nil_r.
Qed.
Lemma shown_same l a b s : same a b -> shown l b s -> shown l a s.
Proof. intros E (ts & P & H). exists ts. split; auto. eapply same_trans; eauto. Qed.
Lemma shown_assoc l a b c s : shown l ((a ;; b) ;; c) s -> shown l (a ;; b ;; c) s.
Proof. apply shown_same, same_assoc. Qed.

Lemma shown_char l u n s : decode_utf8 s = DecOk u n -> 0 < u <= 0x10ffff -> shown l (space_entity C ;; char_entity s) (utf8_spec u).
Proof.
  intros D H. pose proof (shown_one l (KChar u) H I) as X. cbn [psep pquote raw ptok_text ptok_part] in X.
  eapply shown_same; [|exact X]. apply same_seq; [apply same_refl|]. unfold char_entity. rewrite D. apply same_refl.
Qed.
Lemma shown_ascii l c r : 0 < c < 128 -> shown l (space_entity C ;; char_entity (c :: r)) [c].
Proof.
  intros H. rewrite <- (utf8_ascii some_cfg eq_refl c) by lia. eapply shown_char; [apply decode_ascii; lia|lia].
Qed.

(** ** White space *)
Lemma shown_whitespace l f : forall s, (List.length s <= f)%nat -> forallb is_xml_whitespace s = true -> shown l (all_whitespace C f l s) s.
Proof.
  induction f as [|f IH]; intros s L W; destruct s as [|c r]; cbn [all_whitespace]; try apply shown_nop; [cbn in L; lia|].
  cbn [forallb] in W. apply andb_true_iff in W as [W1 W2].
  destruct (N.eqb_spec c cSP) as [-> |Hc].
  - destruct (lead_split cSP (cSP :: r)) as (E & _). set (n := count_lead cSP (cSP :: r)) in *. rewrite E at 2.
    assert (Hn : (1 <= n)%nat) by (subst n; cbn; lia).
    apply shown_assoc, shown_seq; [exact (shown_one l (KSpaces n) Hn I)|]. apply IH.
    + rewrite skipn_length. cbn in L |- *. lia.
    + assert (X : forallb is_xml_whitespace (cSP :: r) = true) by (cbn; exact W2). rewrite E, forallb_app in X. now apply andb_true_iff in X.
  - destruct (xml_ws c W1) as [|(_ & _ & H)]; [contradiction|]. change (c :: r) with ([c] ++ r) at 2.
    apply shown_assoc, shown_seq; [now apply shown_ascii|]. apply IH; auto. cbn in L. lia.
Qed.
Lemma shown_all_whitespace l s : forallb is_xml_whitespace s = true -> shown l (print_all_whitespace C l s) s.
Proof. apply shown_whitespace. lia. Qed.

(** ** Escapes *)
Lemma next_escape_at ps s : forall i, exists k, next_escape C ps i s = (i + k)%nat /\ (k <= List.length s)%nat
  /\ calm C (firstn k s) /\ (skipn k s = [] \/ exists c r, skipn k s = c :: r /\ must_escape C c = true).
Proof.
  induction s as [|c s IH]; intros i; cbn [next_escape].
  - exists 0%nat. repeat split; auto; try lia. intros c [].
  - rewrite HC. cbn [andb orb]. destruct (must_escape C c) eqn:X.
    + exists 0%nat. repeat split; auto; try lia; [intros d []|]. right. exists c, s. auto.
    + destruct (IH (S i)) as (k & -> & K1 & K2 & K3). exists (S k). repeat split; auto; try lia; [cbn; lia|].
      cbn [firstn]. intros d [<-|I]; auto.
Qed.
Lemma find_escape s : let k := find_next_escape C s in (k <= List.length s)%nat
  /\ calm C (firstn k s) /\ (skipn k s = [] \/ exists c r, skipn k s = c :: r /\ must_escape C c = true).
Proof.
  unfold find_next_escape. rewrite HC. cbn [andb]. destruct (next_escape_at (List.length s - count_lead cQ (rev s)) s 0) as (k & -> & H). exact H.
Qed.
Lemma pcalm_cr s : calm C s -> ~ In cCR s.
Proof.
  intros H I. specialize (H _ I). unfold must_escape in H.
  change ((cCR <? 32) && negb (cCR =? cTAB) && negb (cCR =? cNL))%bool with true in H. now rewrite orb_true_r in H.
Qed.
Lemma pcalm_ascii s : calm C s -> escape_non_7bit C = true -> forall c, In c s -> c < 128.
Proof.
  intros H E c I. specialize (H _ I). unfold must_escape in H. rewrite E in H. cbn [andb] in H. apply orb_false_iff in H as [H _].
  apply orb_false_iff in H as [H _]. apply orb_false_iff in H as [_ H]. apply N.ltb_ge in H. lia.
Qed.

(** The part of ptext_ok that is inherited by the rest of a text. *)
Definition rest_ok (s : bytes) : Prop := ~ In 0 s /\ (escape_non_7bit C = true -> utf8_text s).
Lemma rest_ok_app a b : rest_ok (a ++ b) -> (escape_non_7bit C = true -> forall c, In c a -> c < 128) -> rest_ok b.
Proof.
  intros (N & U) A. split.
  - intros I. apply N, in_or_app. auto.
  - intros E. apply (utf8_text_skip some_cfg eq_refl a); auto. intros c I. split; [|now apply A].
    destruct (N.eq_dec c 0) as [-> |]; [|lia]. exfalso. apply N, in_or_app. auto.
Qed.
Lemma rest_ok_prefix a b : rest_ok (a ++ b) -> forallb is_xml_whitespace b = true -> rest_ok a.
Proof.
  intros (N & U) W. split; [intros I; apply N, in_or_app; auto|]. intros E. specialize (U E).
  assert (P : exists us, a ++ b = List.concat (map utf8_spec us) /\ Forall (fun u => u <= 0x10ffff) us) by exact U. clear U E. destruct P as (us & E & F).
  pose proof (ws_ascii some_cfg eq_refl _ W) as A. clear N W. revert a E. induction us as [|u us IH]; intros a E.
  - cbn in E. apply app_eq_nil in E as [-> _]. exists []. auto.
  - inversion F as [|? ? Hu Fu]; subst. cbn in E. destruct a as [|c a]; [exists []; auto|].
    assert (Ea : exists a', c :: a = utf8_spec u ++ a').
    { destruct (utf8_spec_cases some_cfg eq_refl u) as [(L & X)|(L & d & e & r & X & Ld & Le)].
      - rewrite X in E |- *. cbn in E. injection E as -> E. now exists a.
      - pose proof (utf8_spec_high u L) as B.
        clear IH X. revert E B. generalize (utf8_spec u) as v, (List.concat (map utf8_spec us)) as w. clear -A.
        intros v w. revert v w. generalize (c :: a) as s. clear c a. induction s as [|c s IH]; intros v w E B.
        + destruct v as [|d v]; [now exists []|]. exfalso. cbn in E. assert (I : In d b) by (rewrite E; now left). apply A in I.
          specialize (B d (or_introl eq_refl)). lia.
        + destruct v as [|d v]; [now exists (c :: s)|]. cbn in E. injection E as -> E. destruct (IH v w E) as (a' & ->); [intros z I; apply B; now right|].
          now exists a'. }
    destruct Ea as (a' & Ea). rewrite Ea in E |- *. rewrite <- app_assoc in E. apply app_inv_head in E.
    destruct (IH Fu _ E) as (vs & Ev & Fv). exists (u :: vs). split; [cbn; now rewrite Ev|]. now constructor.
Qed.
Lemma calm_rest a : ~ In 0 a -> calm C a -> rest_ok a.
Proof.
  intros N K. split; auto. intros E. pose proof (pcalm_ascii _ K E) as A. exists a. split.
  - clear -A. induction a as [|c a IH]; [reflexivity|]. cbn. rewrite (utf8_ascii some_cfg eq_refl) by (apply A; now left). cbn. f_equal. apply IH.
    intros d I. apply A. now right.
  - apply Forall_forall. intros c I. specialize (A c I). lia.
Qed.

Lemma shown_nls l m : shown l ((fix nls (m : nat) : op := match m with O => nop | S m => space_entity C ;; char_entity [cNL] ;; nls m end) m) (rep cNL m).
Proof.
  induction m as [|m IH]; [apply shown_nop|]. change (rep cNL (S m)) with ([cNL] ++ rep cNL m). apply shown_assoc, shown_seq; auto.
  apply shown_ascii. split; reflexivity.
Qed.
Lemma shown_escape l c r : rest_ok (c :: r) -> must_escape C c = true ->
  let m := count_lead cNL r in
  exists t r', c :: r = t ++ rep cNL m ++ r' /\ shown l (space_entity C ;; char_entity (c :: r)) t /\ skipn (entity_len (c :: r) + m) (c :: r) = r' /\ rest_ok r'
  /\ exists x d, t = x ++ [d] /\ must_escape C d = true.
Proof.
  intros (N & U) M m. assert (Hc : c <> 0) by (intros ->; apply N; now left).
  destruct (N.ltb_spec c 128) as [L|L].
  - destruct (lead_split cNL r) as (E & _). exists [c], (skipn m r). unfold entity_len. rewrite decode_ascii by assumption. cbn [plus skipn]. fold m in E.
    split; [cbn; f_equal; exact E|]. split; [apply shown_ascii; lia|]. split; [reflexivity|]. split; [|now exists [], c].
    apply (rest_ok_app (c :: rep cNL m)).
    + cbn [app]. rewrite <- E. split; auto.
    + intros _ d [<-|I]; auto. apply in_rep in I. now subst.
  - destruct (escape_non_7bit C) eqn:E7.
    + destruct (utf8_text_cons some_cfg eq_refl c r) as (u & r' & E & Hu & T); auto.
      destruct (utf8_spec_cases some_cfg eq_refl u) as [(Lu & X)|(Lu & a & b & x & X & La & Lb)].
      { rewrite X in E. cbn in E. injection E as -> _. lia. }
      assert (Em : m = 0%nat).
      { rewrite X in E. cbn in E. injection E as -> ->. subst m. cbn. destruct (N.eqb_spec b cNL) as [-> |]; auto. unfold cNL in Lb. lia. }
      exists (utf8_spec u), r'. rewrite Em. cbn [rep repeat app]. split; [exact E|].
      assert (D : decode_utf8 (c :: r) = DecOk u (List.length (utf8_spec u))) by (rewrite E; apply decode_spec; lia).
      split; [|split; [|split]].
      * eapply shown_char; eauto.
      * unfold entity_len. rewrite D, E, Nat.add_0_r, skipn_app, skipn_all, Nat.sub_diag. reflexivity.
      * rewrite E in N. split; [intros I; apply N, in_or_app; auto|]. auto.
      * assert (Hne : utf8_spec u <> []) by (rewrite X; discriminate). destruct (exists_last Hne) as (y & d & Ed). exists y, d. split; auto.
        assert (Bd : 128 <= d).
        { assert (I : In d (utf8_spec u)) by (rewrite Ed; apply in_or_app; right; now left). exact (utf8_spec_high u Lu d I). }
        unfold must_escape. rewrite E7. replace (126 <? d) with true by (symmetry; apply N.ltb_lt; lia). cbn [andb]. now rewrite orb_true_r.
    + exfalso. unfold must_escape in M. rewrite E7 in M. cbn [andb] in M.
      assert (c =? cNL = false) by (apply N.eqb_neq; unfold cNL; lia). assert (c =? cTAB = false) by (apply N.eqb_neq; unfold cTAB; lia).
      assert (c <? 32 = false) by (apply N.ltb_ge; lia). rewrite H, H0, H1, andb_false_r in M. discriminate.
Qed.
Lemma entity_len_pos c r : (1 <= entity_len (c :: r))%nat.
Proof.
  unfold entity_len. destruct (decode_utf8 (c :: r)) as [u n| | ] eqn:D; auto. destruct n; [|lia]. exfalso. cbn [decode_utf8] in D.
  repeat match type of D with (if ?b then _ else _) = _ => destruct b | match ?b with _ => _ end = _ => destruct b end; discriminate.
Qed.

(** ** Texts in pieces *)
Section text.
Variable t : bytes.
Hypothesis leaves : forall q, stretch C t q -> leaf_ok q.

Definition fore (x w : bytes) : Prop :=
  (x = [] \/ exists x' c, x = x' ++ [c] /\ must_escape C c = true) /\ only is_xml_whitespace w /\ (w = [] \/ In cNL w).
Definition aftr (w y : bytes) : Prop :=
  (y = [] \/ exists c y', y = c :: y' /\ must_escape C c = true) /\ only is_xml_whitespace w /\ (w = [] \/ In cNL w /\ ~ starts (is cSP) w).
Lemma within_of x w1 q w2 y : t = x ++ w1 ++ q ++ w2 ++ y -> fore x w1 -> aftr w2 y -> within C t q.
Proof. intros E (H1 & H2 & H3) (H4 & H5 & H6). exists x, w1, w2, y. tauto. Qed.

Lemma shown_leaf l q : q <> [] -> within C t q -> calm C q -> rest_ok q -> has_mixed_space q = false -> shown l (space_quote C l ;; safe_leaf_quote q) q.
Proof.
  intros Hq W K (N & _) M. apply not_mixed in M. apply (shown_one l (KLeaf q)); [|exact I]. cbn. split; auto. split; [|split; auto].
  - split; auto. now apply pcalm_cr.
  - apply leaves. split; auto.
Qed.
Lemma quotes_comp p : exists numq nls, count_necessary_quotes p false = (numq, nls, has_mixed_space p).
Proof. unfold count_necessary_quotes. cbv zeta. destruct (scan_quotes p 0 0 _). rewrite andb_false_r. cbn [orb]. eauto. Qed.

Lemma shown_pieces l rec f : forall s aft x w1 w2 y, (List.length s <= f)%nat -> rest_ok s ->
  t = x ++ w1 ++ s ++ w2 ++ y -> fore x w1 \/ starts (must_escape C) s -> aftr w2 y ->
  (forall p aft', within C t p -> calm C p -> rest_ok p -> has_mixed_space p = true -> shown l (rec p aft') p) ->
  shown l (Printer.pieces C f rec l s aft) s.
Proof.
  induction f as [|f IH]; intros s aft x w1 w2 y L P Et Fo Af R; destruct s as [|c r]; cbn [Printer.pieces]; try apply shown_nop; [cbn in L; lia|].
  destruct (find_escape (c :: r)) as (Lk & K & N). destruct (find_next_escape C (c :: r)) as [|k'] eqn:Ek.
  - destruct N as [N|(c' & r' & N & M)]; [discriminate|]. cbn in N. injection N as <- <-.
    destruct (shown_escape l c r P M) as (u & r' & E & S1 & E2 & P2 & xu & d & Eu & Md). rewrite E2. rewrite E at 2.
    apply shown_assoc, shown_seq; auto. apply shown_seq; [apply shown_nls|]. apply (IH r' aft (x ++ w1 ++ u) (rep cNL (count_lead cNL r)) w2 y); auto.
    + apply (f_equal (@List.length N)) in E2. rewrite skipn_length in E2. cbn [List.length] in E2, L. pose proof (entity_len_pos c r). lia.
    + rewrite Et, E. now rewrite <- !app_assoc.
    + left. split; [right; exists (x ++ w1 ++ xu), d; split; auto; rewrite Eu; now rewrite <- !app_assoc|]. split.
      * intros e I. apply in_rep in I. now subst.
      * destruct (count_lead cNL r); [now left|right; now left].
  - set (p := firstn (S k') (c :: r)) in *. set (r' := skipn (S k') (c :: r)) in *.
    assert (E : c :: r = p ++ r') by (symmetry; apply firstn_skipn).
    assert (Hp : p <> []) by discriminate.
    assert (Fo' : fore x w1). { destruct Fo as [Fo|Fo]; auto. exfalso. apply starts_cons in Fo. rewrite (K c) in Fo; [discriminate|now left]. }
    rewrite E in P. assert (Pp : rest_ok p) by (apply calm_rest; auto; intros I; apply (proj1 P), in_or_app; auto).
    assert (W : within C t p).
    { destruct N as [N|(d & z & N & M)].
      - apply (within_of x w1 p w2 y); auto. rewrite Et, E, N. now rewrite app_nil_r.
      - apply (within_of x w1 p [] (r' ++ w2 ++ y)); auto.
        + rewrite Et, E. now rewrite <- !app_assoc.
        + split; [right; rewrite N; exists d, (z ++ w2 ++ y); auto|]. split; [intros ? []|now left]. }
    destruct (quotes_comp p) as (numq & nls & ->). rewrite HC. cbn [negb]. rewrite orb_true_r, andb_true_r. rewrite E. apply shown_seq.
    + destruct (has_mixed_space p) eqn:Mx; cbn [negb]; [now apply R|now apply shown_leaf].
    + destruct N as [N|(d & z & N & M)].
      * rewrite N. destruct f; apply shown_nop.
      * apply (IH r' aft (x ++ w1 ++ p) [] w2 y); auto.
        -- apply (f_equal (@List.length _)) in E. rewrite app_length in E. assert (1 <= List.length p)%nat by (unfold p; cbn; lia). cbn [List.length] in E, L. lia.
        -- eapply rest_ok_app; eauto. intros E7 e I. eapply pcalm_ascii; eauto.
        -- rewrite Et, E. now rewrite <- !app_assoc.
        -- right. rewrite N. now apply starts_cons.
Qed.
Lemma calm_pieces l rec f s aft : s <> [] -> (List.length s <= f)%nat -> calm C s -> has_mixed_space s = false ->
  same (Printer.pieces C f rec l s aft) (space_quote C l ;; safe_leaf_quote s).
Proof.
  intros Hs L K M. destruct f as [|f]; [destruct s; [congruence|cbn in L; lia]|]. destruct (find_escape s) as (Lk & _ & N).
  assert (Ek : find_next_escape C s = List.length s).
  { destruct N as [N|(c & r & N & Mc)].
    - apply (f_equal (@List.length _)) in N. rewrite skipn_length in N. cbn in N. lia.
    - exfalso. assert (I : In c s). { rewrite <- (firstn_skipn (find_next_escape C s) s), N. apply in_or_app. right. now left. } rewrite (K c I) in Mc. discriminate. }
  destruct s as [|c r] eqn:Es; [congruence|]. cbn [Printer.pieces]. rewrite <- Es in *. rewrite Ek. replace (List.length s) with (S (List.length r)) by (rewrite Es; reflexivity).
  cbv zeta. rewrite (firstn_all2 (n := S (List.length r)) s) by (rewrite Es; cbn; lia). rewrite (skipn_all2 (n := S (List.length r)) s) by (rewrite Es; cbn; lia).
  destruct (quotes_comp s) as (numq & nls & ->). rewrite M, HC. cbn [negb]. rewrite orb_true_r. cbn [andb].
  eapply same_trans; [|apply same_nop_r]. apply same_seq; [apply same_refl|]. destruct f; apply same_refl.
Qed.

Lemma nl_unsafe s : In cNL s -> all_safe s = false.
Proof.
  intros I. apply not_true_iff_false. rewrite all_safe_spec. intros H. apply List.in_split in I as (x & y & ->).
  apply (H x (cNL :: y)); [reflexivity|discriminate|]. right. left. now apply bw_1.
Qed.
Lemma value_text_cut f l s aft : s <> [] -> all_are cQ s = false -> all_are cSP s = false ->
  (forallb is_xml_whitespace s && negb (all_are cNL s && Nat.ltb 1 (List.length s)) = false)%bool ->
  (is_text_value s aft && allows_bare l = false)%bool ->
  value_text C (S f) l s aft =
    (let '(lead, s1) := cut_lead s in let '(s2, trail) := cut_trail s1 in
     print_all_whitespace C l lead ;; Printer.pieces C (List.length s2) (value_text C f l) l s2 (trail ++ aft) ;; print_all_whitespace C l trail).
Proof.
  intros Hs A1 A2 A3 A4. cbn [value_text]. destruct s as [|c r] eqn:Es; [congruence|]. rewrite <- Es in *. rewrite A1, A2, HC. cbn [negb]. rewrite andb_true_r, A3.
  unfold allows_bare in A4. rewrite A4. reflexivity.
Qed.
Lemma white_split s : forallb is_xml_whitespace s = true -> only is_xml_whitespace s.
Proof. intros H c I. rewrite forallb_forall in H. auto. Qed.

(** A part with mixed white space at an end, without characters to escape. *)
Lemma shown_rec l f p aft : within C t p -> calm C p -> rest_ok p -> has_mixed_space p = true -> shown l (value_text C (S f) l p aft) p.
Proof.
  intros W K P M. assert (INL : In cNL p).
  { destruct (in_dec N.eq_dec cNL p) as [|n]; auto. rewrite (no_nl_mixed some_cfg eq_refl p n) in M. discriminate. }
  assert (Hp : p <> []) by (intros ->; destruct INL).
  assert (A1 : all_are cQ p = false). { apply not_true_iff_false. rewrite all_are_only. intros O. discriminate (O _ INL). }
  assert (A2 : all_are cSP p = false). { apply not_true_iff_false. rewrite all_are_only. intros O. discriminate (O _ INL). }
  assert (A4 : is_text_value p aft = false). { unfold is_text_value. rewrite (nl_unsafe _ INL). apply andb_false_r. }
  assert (A5 : all_are cNL p = false).
  { apply not_true_iff_false. rewrite all_are_only. intros O. apply mixed_not in M. apply M. intros w r E _ _ c I. apply O. destruct E as [-> | ->]; apply in_or_app; auto. }
  destruct (forallb is_xml_whitespace p) eqn:A3.
  { cbn [value_text]. destruct p as [|c r] eqn:Es; [congruence|]. rewrite <- Es in *. rewrite A1, A2, A3, A5. cbn [andb negb]. now apply shown_all_whitespace. }
  rewrite value_text_cut; auto; [|now rewrite A3|now rewrite A4]. destruct (cut_lead p) as [lead s1] eqn:EL. destruct (cut_trail s1) as [s2 trail] eqn:ET.
  destruct (cut_spec p lead s1 s2 trail) as (E & L1 & L2 & T1 & T2 & U & N2); auto.
  { intros O. apply not_true_iff_false in A3. apply A3, forallb_forall, O. }
  assert (K2 : calm C s2). { intros c I. apply K. rewrite E. apply in_or_app. right. apply in_or_app. auto. }
  rewrite E. apply shown_seq; [now apply shown_all_whitespace, only_forallb|]. apply shown_seq; [|now apply shown_all_whitespace, only_forallb].
  eapply shown_same; [apply calm_pieces; auto; now apply unmixed_iff|]. apply shown_leaf; auto; [| |now apply unmixed_iff].
  - destruct W as (x & w1 & w2 & y & Et & Fx & Fy & O1 & N1 & O2 & N3). apply (within_of x (w1 ++ lead) s2 (trail ++ w2) y).
    + rewrite Et, E. now rewrite <- !app_assoc.
    + split; auto. split; [intros c I; apply in_app_or in I as [I|I]; auto|].
      destruct L2 as [-> |L2]; [now rewrite app_nil_r|right; apply in_or_app; auto].
    + split; auto. split; [intros c I; apply in_app_or in I as [I|I]; auto|].
      destruct T2 as [-> |(T2 & T3)]; [exact N3|]. right. split; [apply in_or_app; auto|]. intros (c & r & X & Hc). apply T3.
      destruct trail as [|d tr]; [destruct T2|]. cbn in X. injection X as -> _. exists c, tr. auto.
  - apply calm_rest; auto. intros I. apply (proj1 P). rewrite E. apply in_or_app. right. apply in_or_app. auto.
Qed.

(** The whole text. *)
Lemma shown_text l : ~ In 0 t -> t = [] \/ ~ only (is cQ) t -> (escape_non_7bit C = true -> utf8_text t) ->
  (is_text_value t [0] && allows_bare l = false)%bool \/ t = [] \/ forallb is_xml_whitespace t = true -> shown l (print_text C l t) t.
Proof.
  intros N Q U H. unfold print_text. destruct t as [|c r] eqn:Es.
  { exact (shown_one l KEmpty I I). }
  rewrite <- Es in *. assert (Ht : t <> []) by (rewrite Es; discriminate). destruct Q as [Q|Q]; [congruence|].
  assert (A1 : all_are cQ t = false). { apply not_true_iff_false. now rewrite all_are_only. }
  assert (P : rest_ok t) by (split; auto).
  assert (R : forall p aft', within C t p -> calm C p -> rest_ok p -> has_mixed_space p = true -> shown l (value_text C (List.length t) l p aft') p).
  { intros p aft' W K Pp M. replace (List.length t) with (S (List.length r)) by (rewrite Es; reflexivity). now apply shown_rec. }
  destruct (all_are cSP t) eqn:A2.
  { cbn [value_text]. rewrite Es at 1. rewrite A1, A2. rewrite (all_are_rep _ _ A2) at 2.
    apply (shown_one l (KSpaces (List.length t))); [cbn; rewrite Es; cbn; lia|exact I]. }
  destruct (forallb is_xml_whitespace t && negb (all_are cNL t && Nat.ltb 1 (List.length t)))%bool eqn:A3.
  { cbn [value_text]. rewrite Es at 1. rewrite A1, A2, HC. cbn [negb]. rewrite andb_true_r, A3. apply andb_true_iff in A3 as [A3 _]. now apply shown_all_whitespace. }
  assert (A4 : (is_text_value t [0] && allows_bare l)%bool = false).
  { destruct H as [H|[H|H]]; auto; [congruence|]. rewrite H in A3. cbn [andb] in A3. apply negb_false_iff, andb_true_iff in A3 as [A3 _].
    unfold is_text_value. rewrite nl_unsafe; [now rewrite andb_false_r|]. apply all_are_only in A3. rewrite Es in A3 |- *. left.
    apply N.eqb_eq, (A3 c). now left. }
  rewrite value_text_cut; auto. destruct (forallb is_xml_whitespace t) eqn:A5.
  - cbn [andb] in A3. apply negb_false_iff, andb_true_iff in A3 as [A3 _]. apply all_are_only in A3.
    assert (E1 : cut_lead t = ([], t)).
    { unfold cut_lead. destruct (has_leading_space_nl t) as [[n|] [|k]] eqn:E; auto. exfalso. apply lead_mixed in E as (w & z & E & _ & _ & _ & X & _).
      apply X. intros d I. apply A3. rewrite E. apply in_or_app. auto. }
    assert (E2 : cut_trail t = (t, [])).
    { unfold cut_trail. destruct (has_ending_nl_space t) as [[n|] [|k]] eqn:E; auto. exfalso. apply ending_mixed in E as (z & w & E & _ & _ & _ & X & _).
      apply X. intros d I. apply A3. rewrite E. apply in_or_app. auto. }
    rewrite E1, E2. replace t with ([] ++ t ++ []) at 4 by apply app_nil_r. apply shown_seq; [now apply shown_all_whitespace|]. apply shown_seq; [|now apply shown_all_whitespace].
    apply (shown_pieces l _ _ t _ [] [] [] []); auto.
    + now rewrite app_nil_r.
    + left. split; auto. split; [intros ? []|auto].
    + split; auto. split; [intros ? []|auto].
  - destruct (cut_lead t) as [lead s1] eqn:EL. destruct (cut_trail s1) as [s2 trail] eqn:ET.
    destruct (cut_spec t lead s1 s2 trail) as (E & L1 & L2 & T1 & T2 & _ & N2); auto.
    { intros O. apply not_true_iff_false in A5. apply A5, forallb_forall, O. }
    assert (E' : shown l (print_all_whitespace C l lead ;; Printer.pieces C (List.length s2) (value_text C (List.length t) l) l s2 (trail ++ [0]) ;; print_all_whitespace C l trail) (lead ++ s2 ++ trail)).
    + apply shown_seq; [now apply shown_all_whitespace, only_forallb|]. apply shown_seq; [|now apply shown_all_whitespace, only_forallb].
      apply (shown_pieces l _ _ s2 _ [] lead trail []); auto.
      * apply (rest_ok_prefix s2 trail); [|now apply only_forallb]. apply (rest_ok_app lead); [now rewrite <- E|]. intros _. apply (ws_ascii some_cfg eq_refl). now apply only_forallb.
      * rewrite E. cbn. now rewrite app_nil_r.
      * left. split; auto.
      * split; auto.
    + now rewrite <- E in E'.
Qed.
End text.

Lemma text_shown l t : ptext_ok C t -> (is_text_value t [0] && allows_bare l = false)%bool \/ t = [] \/ forallb is_xml_whitespace t = true ->
  shown l (print_text C l t) t.
Proof. intros [N O U L] H. now apply shown_text. Qed.
Lemma pcalm_iff s : existsb (must_escape C) s = false <-> calm C s.
Proof.
  unfold calm. rewrite <- not_true_iff_false, existsb_exists. split.
  - intros H c I. destruct (must_escape C c) eqn:E; auto. exfalso. apply H. eauto.
  - intros H (c & I & E). rewrite (H c I) in E. discriminate.
Qed.
(** A text that is printed without quotes, or as one quote. *)
Lemma calm_single f l t : t <> [] -> ptext_ok C t -> calm C t -> unmixed t -> ~ tabbed C t -> t <> [cTAB] -> t <> [cNL] ->
  (bare t [] /\ (l = LElem \/ l = LAttr) /\ value_text C (S f) l t [0] = print_range t)
  \/ exists k, same (value_text C (S f) l t [0]) (emit l k) /\ ptok_ok k /\ ptok_part k = PText t /\ is_ptext k /\ pquote k = true /\ (k = KLeaf t \/ only is_xml_whitespace t).
Proof.
  intros Ht [N O U L] K M Tb Tt Tn. destruct O as [|O]; [congruence|].
  assert (A1 : all_are cQ t = false). { apply not_true_iff_false. now rewrite all_are_only. }
  destruct (all_are cSP t) eqn:A2.
  { right. exists (KSpaces (List.length t)). cbn [value_text]. destruct t as [|c r] eqn:Es; [congruence|]. rewrite <- Es in *. rewrite A1, A2.
    split; [apply same_refl|]. split; [cbn; rewrite Es; cbn; lia|]. split; [|split; [exact I|split; [reflexivity|right]]]. { cbn [ptok_part]. now rewrite (all_are_rep _ _ A2) at 2. }
    apply all_are_only in A2. intros d Hd. specialize (A2 d Hd). apply N.eqb_eq in A2. now subst d. }
  assert (A3 : (forallb is_xml_whitespace t && negb (all_are cNL t && Nat.ltb 1 (List.length t)))%bool = false).
  { destruct (forallb is_xml_whitespace t) eqn:W; auto. cbn [andb]. apply negb_false_iff. rewrite forallb_forall in W.
    destruct (in_dec N.eq_dec cNL t) as [I|I].
    - assert (On : only (is cNL) t). { apply (M t []); auto. }
      apply andb_true_iff. split; [now apply all_are_only|]. apply Nat.ltb_lt. destruct t as [|c [|d r]]; [congruence| |cbn; lia].
      exfalso. apply Tn. destruct I as [<-|[]]. reflexivity.
    - exfalso. assert (X : forall d, In d t -> d = cSP \/ d = cTAB).
      { intros d Id. destruct (xml_ws d (W d Id)) as [|([H|[H|H]] & _)]; auto; exfalso; subst d; [now apply I|now apply (pcalm_cr _ K)]. }
      assert (IT : In cTAB t).
      { clear -A2 X. induction t as [|d t IH]; [discriminate|]. cbn in A2. destruct (X d (or_introl eq_refl)) as [-> | ->]; [|now left].
        right. apply IH; [exact A2|]. intros e I. apply X. now right. }
      assert (ET : escape_tabs C = false). { specialize (K _ IT). unfold must_escape in K. apply orb_false_iff in K as [_ K]. exact K. }
      destruct t as [|d [|e t]]; [now cbn in IT|destruct IT as [-> |[]]; congruence|]. apply Tb. repeat split; auto; [cbn; lia|].
      intros g Ig. destruct (X g Ig) as [-> | ->]; reflexivity. }
  pose proof (text_value_bare t [] Ht N) as TB. destruct (is_text_value t [0] && allows_bare l)%bool eqn:A4.
  { left. cbn [value_text]. destruct t as [|c r] eqn:Es; [congruence|]. rewrite <- Es in *. rewrite A1, A2, HC. cbn [negb]. rewrite andb_true_r, A3.
    pose proof A4 as A6. unfold allows_bare in A6. rewrite A6. apply andb_true_iff in A4 as [A4 A5]. split; [now apply TB|]. split; auto. destruct l; try discriminate; auto. }
  right. exists (KLeaf t). rewrite value_text_cut; auto.
  assert (E1 : cut_lead t = ([], t)).
  { unfold cut_lead. destruct (has_leading_space_nl t) as [[n|] [|k]] eqn:E; auto. exfalso. apply lead_mixed in E as (w & z & E & _ & Y & Z & X & _).
    apply X. apply (M w z); auto. }
  assert (E2 : cut_trail t = (t, [])).
  { unfold cut_trail. destruct (has_ending_nl_space t) as [[n|] [|k]] eqn:E; auto. exfalso. apply ending_mixed in E as (z & w & E & _ & Y & Z & X & _).
    apply X. apply (M w z); auto. }
  rewrite E1, E2. split; [|split; [|split; [reflexivity|split; [exact I|split; [reflexivity|now left]]]]].
  - eapply same_trans; [apply same_nop_l|]. eapply same_trans; [apply same_nop_r|]. apply (calm_pieces t); auto. now apply unmixed_iff.
  - cbn. split; auto. split; [split; auto; now apply pcalm_cr|]. split; auto. apply L. split; auto. split; auto.
    exists [], [], [], []. split; [cbn; now rewrite app_nil_r|]. split; auto. split; auto. split; [intros ? []|]. split; auto. split; [intros ? []|auto].
Qed.
Lemma single_shown l t : ptext_ok C t -> ~ tabbed C t -> needs_compounded C t = false -> (l = LElem \/ l = LAttr) ->
  (bare t [] /\ print_text C l t = print_range t) \/
  exists k, same (print_text C l t) (emit l k) /\ ptok_ok k /\ ptok_part k = PText t /\ is_ptext k /\ (pquote k = true \/ t = [cNL] \/ t = [cTAB] \/ t = [cCR]) /\ (k = KEmpty \/ k = KLeaf t \/ only is_xml_whitespace t).
Proof.
  intros T Tb NC Hl. unfold print_text. destruct t as [|c r].
  { right. exists KEmpty. split; [apply same_refl|]. repeat split; auto. }
  assert (G : calm C (c :: r) -> unmixed (c :: r) -> c :: r <> [cTAB] -> c :: r <> [cNL] ->
       bare (c :: r) [] /\ value_text C (S (List.length (c :: r))) l (c :: r) [0] = print_range (c :: r) \/
       exists k, same (value_text C (S (List.length (c :: r))) l (c :: r) [0]) (emit l k) /\ ptok_ok k /\ ptok_part k = PText (c :: r) /\ is_ptext k
         /\ (pquote k = true \/ c :: r = [cNL] \/ c :: r = [cTAB] \/ c :: r = [cCR]) /\ (k = KEmpty \/ k = KLeaf (c :: r) \/ only is_xml_whitespace (c :: r))).
  { intros K U T1 T2. destruct (calm_single (List.length (c :: r)) l (c :: r)) as [(H1 & _ & H2)|(k & H1 & H2 & H3 & H4 & H5)]; auto; [discriminate|].
    right. exists k. tauto. }
  destruct r as [|c2 r].
  - cbn [needs_compounded] in NC. destruct ((c =? cNL) || (c =? cCR) || (c =? cTAB))%bool eqn:E.
    + right. assert (W : (c = cNL \/ c = cTAB \/ c = cCR) /\ is_xml_whitespace c = true /\ c <> cSP /\ c <> cQ /\ 0 < c < 128).
      { rewrite !orb_true_iff, !N.eqb_eq in E. split; [tauto|]. destruct E as [[-> | ->]| ->]; (split; [reflexivity|]); split; [discriminate| | discriminate | |discriminate|];
          (split; [discriminate|split; reflexivity]). }
      destruct W as (Wc & W & S1 & S2 & B1). exists (KChar c). split; [|split; [cbn; lia|split; [cbn; now rewrite (utf8_ascii some_cfg eq_refl) by lia|split; [exact I|]]]].
      * cbn [List.length value_text all_are forallb]. apply N.eqb_neq in S1. apply N.eqb_neq in S2. rewrite S1, S2, W. cbn [andb]. rewrite HC. cbn [negb].
        change (Nat.ltb 1 1) with false. rewrite andb_false_r. cbn [negb andb]. unfold print_all_whitespace. cbn [List.length all_whitespace]. rewrite S1.
        apply (same_trans _ (space_entity C ;; char_entity [c])); [apply same_seq; [apply same_refl|apply same_nop_r]|]. unfold emit, psep. cbn [pquote raw].
        apply same_seq; [apply same_refl|]. unfold char_entity. rewrite decode_ascii by lia. apply same_refl.
      * split; [right; destruct Wc as [-> |[-> | ->]]; auto|]. right. right. intros d [<-|[]]. exact W.
    + assert (E' : (c =? cQ) = false).
      { apply N.eqb_neq. intros ->. destruct (pt_other _ _ T) as [X|X]; [discriminate|]. apply X. intros d [<-|[]]. reflexivity. }
      rewrite !orb_false_iff in E. destruct E as [[E1 E2] E3]. rewrite E', E1, E2, E3 in NC. cbn [orb negb andb] in NC. apply N.eqb_neq in E1. apply N.eqb_neq in E3.
      apply G; [now apply pcalm_iff| |congruence|congruence]. apply unmixed_iff, (no_nl_mixed some_cfg eq_refl). intros [-> |[]]. congruence.
  - cbn [needs_compounded] in NC. rewrite HC in NC. cbn [andb] in NC. rewrite !orb_false_iff in NC. destruct NC as [[NC1 _] NC5].
    apply G; [now apply pcalm_iff|now apply unmixed_iff|discriminate|discriminate].
Qed.
End pretty.
