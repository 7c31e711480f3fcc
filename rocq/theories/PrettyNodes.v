(** The default output is a text of the grammar: nodes and documents. *)
From Coq Require Import NArith ZArith List Bool Arith Lia String.
From Verif Require Import Bytes BytesFacts Utf8 Utf8Proofs Outcome Quote QuoteSpec QuoteProofs Parser Dom Printer Grammar LexProofs BuildProofs GrammarProofs
  Compact Stray CompactProofs CompactDoc LeafQuote BlockProofs Pretty LeafBlock PrettyProofs PrettyOut PrettyDoc.
Import ListNotations.
Local Open Scope N_scope.
Local Open Scope op_scope.

(** ** Nodes followed by a line break *)
Definition follow (y : bytes) : Prop := ~ begins_white y /\ ~ starts (one_of [cLP; cEQ; cLB]) y.
Definition sol (P t : bytes) (ks : list node) : Prop :=
  forall e t2 z ks2, nlw e -> follow (t2 ++ z) -> solids (P ++ t ++ e) t2 z ks2 -> solids P (t ++ e ++ t2) z (ks ++ ks2).
Lemma sol_app P t ks e t' ks' : sol P t ks -> nlw e -> (forall y, follow (t' ++ y)) -> sol (P ++ t ++ e) t' ks' -> sol P (t ++ e ++ t') (ks ++ ks').
Proof.
  intros S W F S' e2 t2 z ks2 W2 F2 X. replace ((t ++ e ++ t') ++ e2 ++ t2) with (t ++ e ++ (t' ++ e2 ++ t2)) by now rewrite <- !app_assoc.
  rewrite <- app_assoc. apply S; auto; [rewrite <- app_assoc; apply F|]. apply S'; auto. rewrite <- !app_assoc in *. exact X.
Qed.
Lemma sol_flat P t x : (forall e y, nlw e -> follow y -> flat P t e y x) -> sol P t [x].
Proof. intros H e t2 z ks2 W F X. cbn [app]. apply s_flat; auto. apply nlw_gap; auto. apply F. Qed.
Lemma first_follow f t : starts (first_char f) t -> forall y, follow (t ++ y).
Proof.
  intros S y. apply (starts_app _ _ y) in S. split; [eapply (first_solid some_cfg eq_refl); eauto|]. apply (starts_other _ _ _ S).
  apply (first_not some_cfg eq_refl). destruct f; reflexivity.
Qed.
Lemma nlw_after e y : nlw e -> starts (one_of [cNL; cRP]) (e ++ y).
Proof. intros (k & ->). exists cNL, (rep cSP k ++ y). auto. Qed.

(** ** Tokens *)
Lemma tok_follow k t : ptok_ok t -> forall y, follow (ptok_bytes k t ++ y).
Proof.
  intros O y. destruct (ptok_first t k y O) as (r & ->). destruct (pquote t); (split; [apply solid_ascii; reflexivity|rewrite starts_cons; discriminate]).
Qed.
Lemma tok_sol k t P : ptok_ok t -> column P = k -> sol P (ptok_bytes k t) [Part (ptok_part t)].
Proof.
  intros O E. apply sol_flat. intros e y W F. apply f_piece. apply ptok_piece; auto. intros _. now apply nlw_not.
Qed.
Lemma toks_sol k ts : Forall ptok_ok ts -> forall t P, ptok_ok t -> column P = k -> sol P (ptok_bytes k t ++ tail_bytes k ts) (map (fun t => Part (ptok_part t)) (t :: ts)).
Proof.
  induction ts as [|u ts IH]; intros F t P O E; cbn [tail_bytes].
  - rewrite app_nil_r. now apply tok_sol.
  - inversion F; subst. change (map (fun t => Part (ptok_part t)) (t :: u :: ts)) with ([Part (ptok_part t)] ++ map (fun t => Part (ptok_part t)) (u :: ts)).
    set (k := column P) in *. apply sol_app.
    + now apply tok_sol.
    + now exists k.
    + intros y. rewrite <- app_assoc. now apply tok_follow.
    + apply IH; auto. rewrite app_assoc. apply column_line.
Qed.
Lemma pmerge_text_nodes ts m : Forall is_ptext ts -> ts <> [] -> (forall u r, merge_nodes m <> Part (PText u) :: r) ->
  merge_nodes (map (fun t => Part (ptok_part t)) ts ++ m) = Part (PText (ptexts ts)) :: merge_nodes m.
Proof.
  induction ts as [|t ts IH]; intros F Hn Hm; [congruence|]. inversion F; subst.
  assert (X : exists u, ptok_part t = PText u /\ ptok_text t = u) by (destruct t; cbn in *; eauto; contradiction).
  destruct X as (u & E1 & E2). cbn [map app merge_nodes]. rewrite E1. destruct ts as [|t2 ts].
  - cbn [map app]. unfold ptexts. cbn. rewrite app_nil_r, E2. destruct (merge_nodes m) as [|[]] eqn:E; auto. destruct p; auto. exfalso. now apply (Hm t0 l).
  - rewrite IH by (auto; discriminate). unfold ptexts. cbn [map List.concat]. now rewrite E2.
Qed.
Lemma ptok_quote pre k t z : ptok_ok t -> column pre = k \/ ~ In cNL (ptok_text t) -> pquote t = true -> ~ starts (is cQ) z -> quote pre (ptok_bytes k t) z (ptok_text t).
Proof.
  intros O Hk Hq Hz. pose proof (ptok_piece pre k t z O Hk (fun _ => Hz)) as P. unfold ptok_text. destruct (ptok_first t k [] O) as (r & E). rewrite Hq, app_nil_r in E.
  rewrite E in *. inversion P as [t' z' v Q|t' z' p Q]; subst; [exact Q|]. inversion Q.
Qed.

Section pretty.
Variable C : cfg.
Hypothesis HC : compact C = false.
Hypothesis HI : (0 <= add_indent C)%Z.

Definition ready (st : pr) : Prop := good st /\ (p_last st = 0 -> p_cur st = p_line st).
(** What is printed for the node x in the state st. *)
Record noded (a : op) (x : node) (st : pr) (w0 t : bytes) (st' : pr) (ks : list node) : Prop := {
  nd_out : a st = (w0 ++ t, st');
  nd_w0 : w0 = [] /\ p_last st = 0 \/ w0 = line_of st;
  nd_good : good st';
  nd_line : p_line st' = p_line st;
  nd_last : p_last st' <> 0 /\ p_last st' <> cLP;
  nd_eq : p_last st' = cEQ -> exists ps, last_value x = Some ps /\ ends_in [cEQ] ps;
  nd_fol : forall y, follow (t ++ y);
  nd_sol : forall pre, Z.of_nat (column pre) = p_line st -> sol pre t ks;
  nd_den : forall m, (forall u, x = Part (PText u) -> forall v r, merge_nodes m <> Part (PText v) :: r) -> merge_nodes (ks ++ m) = x :: merge_nodes m }.

Lemma one_den x : (forall t, x <> Part (PText t)) -> forall m, (forall u, x = Part (PText u) -> forall v r, merge_nodes m <> Part (PText v) :: r) -> merge_nodes ([x] ++ m) = x :: merge_nodes m.
Proof. intros T m _. destruct x as [n l b|[t|n]|t|n t|t]; try reflexivity. exfalso. now apply (T t). Qed.
Lemma start_w0 st : start_at (p_last st =? 0) st = [] /\ p_last st = 0 \/ start_at (p_last st =? 0) st = line_of st.
Proof. unfold start_at. destruct (N.eqb_spec (p_last st) 0); auto. Qed.
Lemma key_ready st : ready st -> good (key_start st) /\ p_cur (key_start st) = p_line st /\ p_line (key_start st) = p_line st.
Proof.
  intros ((G1 & G2 & G3) & H). unfold key_start. destruct (N.eqb_spec (p_last st) 0) as [E|E]; [|repeat split; cbn; auto; lia].
  repeat split; auto.
Qed.

Definition node_spec (x : node) : Prop := forall al st, ready st -> p_last st <> cLP -> (p_last st = cEQ -> forall p, x <> Part p) ->
  exists w0 t st' ks, noded (print_node C al x) x st w0 t st' ks.

Lemma spec_text t : ptext_ok C t -> node_spec (Part (PText t)).
Proof.
  intros T al st (G & H0) Hp He. destruct (shown_nonempty C HC LXmq t T eq_refl) as (ts & P & O & X & E & N & _).
  destruct ts as [|k ts]; [congruence|]. inversion O as [|? ? O1 O2]; subst. pose proof G as (G1 & G2 & G3).
  destruct (emits_out C HC LXmq k ts st G O1 O2) as (st1 & E1 & (Ga & Gb & Gc) & L1 & K1 & _).
  assert (Y : exists w0, (w0 = [] /\ p_last st = 0 \/ w0 = line_of st) /\
     emits C LXmq (k :: ts) st = (w0 ++ ptok_bytes (Z.to_nat (p_line st)) k ++ tail_bytes (Z.to_nat (p_line st)) ts, st1)).
  { destruct (kfresh LXmq k (p_last st)) eqn:F; rewrite E1.
    - exists (line_of st). split; auto. now rewrite <- app_assoc.
    - exists []. unfold kfresh in F. assert (Z0 : p_last st = 0).
      { apply N.eqb_neq in Hp. rewrite Hp in F. destruct (N.eqb_spec (p_last st) cEQ) as [Eq|Eq].
        - exfalso. now apply (He Eq (PText (ptexts (k :: ts)))).
        - cbn [negb orb andb] in F. rewrite !andb_true_r in F. destruct (pquote k); [|discriminate]. apply negb_false_iff, N.eqb_eq in F. exact F. }
      split; auto. rewrite (H0 Z0). reflexivity. }
  destruct Y as (w0 & W0 & Y). exists w0. eexists. exists (PR (p_cur st1) (p_line st) (p_last st1) (p_ok st1)). eexists. constructor.
  - cbn [print_node]. unfold ask. eapply out_eq; [eapply seq_out; [rewrite (P st); exact Y|reflexivity]|apply app_nil_r].
  - exact W0.
  - repeat split; auto.
  - reflexivity.
  - cbn [p_last]. destruct K1 as [-> | ->]; split; discriminate.
  - cbn [p_last]. destruct K1 as [-> | ->]; discriminate.
  - intros y. rewrite <- app_assoc. now apply tok_follow.
  - intros pre Hc. apply toks_sol; auto. lia.
  - intros m Hm. apply pmerge_text_nodes; auto. eapply Hm. reflexivity.
Qed.
Lemma spec_ref n : is_name n -> ~ starts (is cHASH) n -> node_spec (Part (PRef n)).
Proof.
  intros Hn Hh al st (G & H0) Hp He. assert (O : ptok_ok (KRef n)) by (split; auto).
  destruct (emit_out C HC LXmq (KRef n) st G O) as (st1 & E1 & G1 & L1 & K1 & _). pose proof G as (Ga & Gb & Gc).
  assert (F : kfresh LXmq (KRef n) (p_last st) = true).
  { unfold kfresh. cbn [pquote]. apply N.eqb_neq in Hp. rewrite Hp. destruct (N.eqb_spec (p_last st) cEQ) as [Eq|Eq]; [|reflexivity]. exfalso. now apply (He Eq (PRef n)). }
  rewrite F in E1. exists (line_of st). eexists. exists st1. eexists. constructor.
  - cbn [print_node]. exact E1.
  - auto.
  - exact G1.
  - exact L1.
  - rewrite K1. split; discriminate.
  - rewrite K1. discriminate.
  - now apply tok_follow.
  - intros pre Hc. apply tok_sol; auto. lia.
  - now apply one_den.
Qed.
Lemma key_starts h : starts is_xmq_element_start h -> starts (first_char Fkey) h.
Proof. intros H. rewrite <- (app_nil_r h). now apply key_good. Qed.
Lemma nlw_not_name e y : nlw e -> ~ starts is_xmq_text_name (e ++ y).
Proof. intros W. now apply nlw_not. Qed.
Lemma spec_leaf n l : element_name n -> Forall (pattr_ok C) l -> node_spec (Elem n l []).
Proof.
  intros Hn Hl al st R _ _. destruct (key_ready st R) as (G1 & C1 & L1).
  destruct (head_out C HC n l (key_start st) Hn Hl G1) as (h & st' & E & G' & L & S & (K1 & K2 & K3) & H & _).
  exists (start_at (p_last st =? 0) st), h, st', [Elem n l []]. constructor.
  - cbn [print_node]. unfold print_name. fold (head_op C n l). eapply seq_out; [apply key_out; exact HC|exact E].
  - apply start_w0.
  - exact G'.
  - congruence.
  - auto.
  - intros X. contradiction.
  - apply (first_follow Fkey). now apply key_starts.
  - intros pre Hc. apply sol_flat. intros e y W F. apply f_leaf; [|apply F]. apply H; [lia|now apply nlw_not_name].
  - apply one_den. discriminate.
Qed.
Lemma spec_value n l ps : element_name n -> Forall (pattr_ok C) l -> pvalue_ok C ps -> after_attrs C l ps -> node_spec (Elem n l (map Part ps)).
Proof.
  intros Hn Hl Hv Ha al st R _ _. destruct (key_ready st R) as (G1 & C1 & L1).
  destruct (head_out C HC n l (key_start st) Hn Hl G1) as (h & s1 & E & G2 & L & S & _ & H & T).
  set (p := let len := (p_cur s1 - p_line s1)%Z in (if ((0 <=? len) && (len <? Z.of_nat al))%Z then 1 + Z.of_nat al - len else 1)%Z).
  assert (Hp : (0 <= p)%Z). { subst p. cbv zeta. destruct ((0 <=? p_cur s1 - p_line s1)%Z && (p_cur s1 - p_line s1 <? Z.of_nat al)%Z)%bool eqn:D; [|lia]. lia. }
  set (s2 := PR (p_cur s1 + p + 1 + 1) (p_line s1) cEQ (p_ok s1)).
  assert (G3 : good s2) by (destruct G2 as (? & ? & ?); repeat split; cbn; auto; lia).
  destruct (value_out C HC LElem ps s2 Hv (or_introl eq_refl) G3 eq_refl) as (v & st' & [V1 V2 V3 V4 V5 V6 V7]).
  exists (start_at (p_last st =? 0) st), (h ++ (rep cSP (Z.to_nat p) ++ [cEQ] ++ [cSP] ++ v)), st', [Elem n l (map Part ps)]. constructor.
  - cbn [print_node]. assert (K : key_value (map Part ps) = Some ps).
    { unfold key_value. destruct (map Part ps) eqn:Em; [|now rewrite <- Em, as_parts_map]. destruct ps; [destruct Hv as (Hv & _); congruence|discriminate]. }
    destruct (map Part ps) eqn:Em; [discriminate K|]. rewrite K. unfold print_name. fold (head_op C n l). eapply out_eq.
    + eapply seq_out; [eapply seq_out; [apply key_out; exact HC|exact E]|]. eapply seq_out; [|exact V1]. unfold ask, id. fold p. now apply equals_out.
    + now rewrite <- !app_assoc.
  - apply start_w0.
  - exact V2.
  - rewrite V3. cbn. congruence.
  - exact V4.
  - intros X. exists ps. split; [cbn; apply as_parts_map|auto].
  - intros y. rewrite <- app_assoc. apply (first_follow Fkey). now apply key_starts.
  - intros pre Hc. apply sol_flat. intros e y W F.
    destruct (V6 ((pre ++ h) ++ rep cSP (Z.to_nat p) ++ [cEQ] ++ [cSP]) (e ++ y)) as (W1 & W2).
    + destruct (in_dec N.eq_dec cNL (match ps with PText t :: _ => t | _ => [] end)) as [I|I].
      * left. destruct ps as [|[t|r] ps]; try destruct I. rewrite <- app_assoc, column_adv, Hc. cbn [s2 p_cur]. rewrite T by (eapply Ha; eauto).
        rewrite C1. rewrite !adv_app, adv_rep by (discriminate || reflexivity). cbn. lia.
      * right. intros t r ->. exact I.
    + now apply nlw_after.
    + apply f_value.
      * apply H; [lia|]. rewrite <- !app_assoc. intros Y. assert (X : starts (one_of [cSP; cEQ]) (rep cSP (Z.to_nat p) ++ [cEQ] ++ [cSP] ++ v ++ e ++ y)).
        { destruct (Z.to_nat p); cbn; apply starts_cons; reflexivity. }
        revert Y. apply (starts_other _ _ _ X). intros c Hx. unfold one_of in Hx. cbn in Hx. rewrite !orb_true_iff, !N.eqb_eq in Hx. destruct Hx as [-> |[-> |]]; [reflexivity|reflexivity|discriminate].
      * apply as_value; [apply spaces_gap, solid_ascii; reflexivity|now apply sp_gap|exact W1].
  - apply one_den. discriminate.
Qed.
Lemma spec_doctype t : bare t [] -> node_spec (Doctype t).
Proof.
  intros Bt al st R _ _. destruct (key_ready st R) as ((Ga & Gb & Gc) & C1 & L1).
  exists (start_at (p_last st =? 0) st), (B "!DOCTYPE" ++ [cSP] ++ [cEQ] ++ [cSP] ++ t). eexists. exists [Doctype t]. constructor.
  - cbn [print_node]. unfold print_doctype, print_text. rewrite HC, bare_text by auto. eapply out_eq.
    + eapply seq_out; [apply key_out; exact HC|]. eapply seq_out; [apply str_out; discriminate|]. eapply seq_out; [apply equals_out; [exact HC|lia]|]. eapply bare_out, Bt.
    + reflexivity.
  - apply start_w0.
  - repeat split; cbn [p_cur p_line p_ok]; auto; unfold zlen; lia.
  - exact L1.
  - cbn [p_last]. pose proof (last_bare t Bt) as X. split; intros Y; apply X; rewrite Y; cbn; auto.
  - cbn [p_last last_value]. intros Y. exists [PText t]. split; auto. exists t. rewrite Y. cbn. auto.
  - apply (first_follow Fkey). apply starts_app. now apply starts_cons.
  - intros pre Hc. apply sol_flat. intros e y W F. assert (B3 : bare t (e ++ y)) by (apply bare_after; auto; right; apply after_value; now apply nlw_after).
    apply f_doctype; auto; [apply sp_gap, solid_ascii; reflexivity|apply sp_gap]. now apply bare_first.
  - apply one_den. discriminate.
Qed.
Lemma str0_out b st : exists c, print_str b st = (b, PR (p_cur st + zlen b) (p_line st) c (p_ok st)).
Proof.
  destruct b as [|d r]; [|eexists; apply str_out; discriminate]. exists (p_last st). unfold print_str, nop, zlen. cbn. destruct st. cbn. now rewrite Z.add_0_r.
Qed.
Lemma spec_pi n t : forallb is_xmq_text_name n = true -> ppi_ok C t -> node_spec (PI n t).
Proof.
  intros Hn (Ht & T & K & M & Q1 & Q2 & Ws) al st R _ _. destruct (key_ready st R) as ((Ga & Gb & Gc) & C1 & L1). destruct (add_spaces_id t Q1 Q2) as (Ea & Ep).
  set (st1 := key_start st) in *. destruct (str0_out n (PR (p_cur st1 + zlen [cQM]) (p_line st1) cQM (p_ok st1))) as (c & En).
  set (st2 := PR (p_cur st1 + zlen [cQM] + zlen n + 1 + 1 + 1) (p_line st1) cEQ (p_ok st1)).
  assert (G2 : good st2) by (repeat split; cbn; auto; unfold zlen; lia).
  assert (X : exists v st', print_text C LElem t st2 = (v, st') /\ good st' /\ p_line st' = p_line st2 /\ (p_last st' <> 0 /\ p_last st' <> cLP)
     /\ (p_last st' = cEQ -> ends_in [cEQ] [PText t])
     /\ forall pre z, Z.of_nat (column pre) = p_cur st2 -> starts (one_of [cNL; cRP]) z -> text_value pre v z t /\ ~ begins_white (v ++ z)).
  { unfold print_text. destruct (calm_single C HC (List.length t) LElem t) as [(B1 & _ & B2)|(k & E & O & P & _ & Q & _)]; auto.
    - intros (_ & On & I & _). destruct Ws as [W|W].
      + specialize (W _ I). discriminate.
      + apply W. intros d Hd. specialize (On d Hd). unfold one_of in On. cbn in On. rewrite !orb_true_iff, !N.eqb_eq in On. destruct On as [-> |[-> |]]; [reflexivity|reflexivity|discriminate].
    - intros ->. destruct Ws as [W|W]; [specialize (W _ (or_introl eq_refl)); discriminate|]. apply W. intros d [<-|[]]. reflexivity.
    - intros ->. destruct Ws as [W|W]; [specialize (W _ (or_introl eq_refl)); discriminate|]. apply W. intros d [<-|[]]. reflexivity.
    - exists t. eexists. rewrite B2. split; [eapply bare_out, B1|]. split; [destruct G2 as (? & ? & ?); repeat split; cbn [p_cur p_line p_ok] in *; auto; lia|].
      split; [reflexivity|]. split; [|split].
      + cbn [p_last]. pose proof (last_bare t B1) as Y. split; intros Z; apply Y; rewrite Z; cbn; auto.
      + cbn [p_last]. intros Y. exists t. rewrite Y. cbn. auto.
      + intros pre z _ Hz. assert (B3 : bare t z) by (apply bare_after; auto; right; now apply after_value). split; [now apply tv_bare|now apply bare_first].
    - destruct (emit_out C HC LElem k st2 G2 O) as (st' & E' & G' & L' & K' & _).
      assert (F : kfresh LElem k (p_last st2) = false) by (unfold kfresh; rewrite Q; reflexivity). rewrite F in E'.
      exists (ptok_bytes (Z.to_nat (p_cur st2)) k), st'. split; [rewrite (E st2); exact E'|]. split; auto. split; auto. rewrite K'. unfold klast. rewrite Q.
      split; [split; discriminate|]. split; [discriminate|]. intros pre z Hc Hz. split; [|now apply ptok_white].
      assert (Et : ptok_text k = t) by (unfold ptok_text; now rewrite P). rewrite <- Et. apply tv_quote. apply ptok_quote; auto; [left; lia|]. now apply after_value. }
  destruct X as (v & st' & E & G' & L' & K1 & K2 & V).
  exists (start_at (p_last st =? 0) st), ([cQM] ++ n ++ [cSP] ++ [cEQ] ++ [cSP] ++ v), st', [PI n t]. constructor.
  - cbn [print_node]. unfold print_pi. rewrite Ea, HC. eapply out_eq.
    + eapply seq_out; [apply key_out; exact HC|]. fold st1. eapply seq_out; [apply str_out; discriminate|]. eapply seq_out; [exact En|].
      eapply seq_out; [apply equals_out; [exact HC|lia]|]. cbn [p_cur p_line p_ok]. fold st2. exact E.
    + reflexivity.
  - apply start_w0.
  - exact G'.
  - rewrite L'. exact L1.
  - exact K1.
  - intros Y. exists [PText t]. split; auto.
  - apply (first_follow Fkey). now apply starts_cons.
  - intros pre Hc. apply sol_flat. intros e y W F. destruct (V (pre ++ [cQM] ++ n ++ [cSP] ++ [cEQ] ++ [cSP]) (e ++ y)) as (V1 & V2).
    + rewrite column_adv, Hc. rewrite !adv_app. cbn [st2 p_cur]. rewrite C1. rewrite (adv_flat n) by now apply name_flat. cbn. unfold zlen. lia.
    + now apply nlw_after.
    + rewrite <- Ep. apply f_pi; auto; [apply sp_gap, solid_ascii; reflexivity|now apply sp_gap].
  - apply one_den. discriminate.
Qed.

(** ** Comments *)
Definition nonneg (a : op) : Prop := forall st, (0 <= p_cur st)%Z -> (0 <= p_line st)%Z -> (0 <= p_cur (snd (a st)))%Z /\ p_line (snd (a st)) = p_line st.
Lemma nonneg_seq a b : nonneg a -> nonneg b -> nonneg (a ;; b).
Proof. intros A B st H1 H2. rewrite seq_state. cbn [snd]. destruct (A st H1 H2) as (A1 & A2). destruct (B (snd (a st)) A1) as (B1 & B2); [lia|]. split; [auto|congruence]. Qed.
Lemma nonneg_nop : nonneg nop.
Proof. intros st H1 H2. cbn. auto. Qed.
Lemma nonneg_range b : nonneg (print_range b).
Proof. intros st H1 H2. destruct b as [|c r]; [auto|]. rewrite prange_out by discriminate. cbn [snd p_cur p_line]. split; [lia|auto]. Qed.
Lemma nonneg_rest n f : forall s, (List.length s <= f)%nat -> nonneg (comment_rest C f n s).
Proof.
  induction f as [|f IH]; intros s L; destruct s as [|c r]; cbn [comment_rest]; try apply nonneg_nop.
  destruct (cut_line (c :: r)) as [l t] eqn:Ec. rewrite HC.
  apply nonneg_seq; [|apply nonneg_seq; [apply nonneg_range|]].
  - destruct l as [|? ?], t as [[|? ?]|]; intros st H1 H2; try (rewrite nl_out; cbn; split; [lia|auto]). cbn. split; [lia|auto].
  - destruct t as [t|]; [|apply nonneg_nop]. apply IH. pose proof (cut_line_spec (c :: r)) as X. rewrite Ec in X. destruct X as [X _].
    apply (f_equal (@List.length _)) in X. rewrite app_length in X. cbn in *. lia.
Qed.
Lemma comment_state s st : (0 <= p_cur st)%Z -> (0 <= p_cur (snd (comment_lines C s st)))%Z.
Proof.
  intros H. unfold comment_lines, ask. rewrite HC. cbn [negb andb]. set (n := count_necessary_slashes s).
  rewrite !seq_state. cbn [snd set_last set_line p_cur]. rewrite slashes_out. cbn [snd]. rewrite !slashes_out. cbn [snd].
  cbn [when]. rewrite white_out. cbn [snd p_cur]. set (st1 := snd (when (negb (starts_with cNL s)) (white_spaces 1) st)).
  assert (H1 : (0 <= p_cur st1)%Z). { subst st1. destruct (starts_with cNL s); cbn [negb when]; [exact H|]. rewrite white_out. cbn. lia. }
  set (st2 := PR (p_cur st1) (p_cur (id st) + 1 + Z.of_nat n + 1) (p_last st1) (p_ok st1)).
  assert (H2 : (0 <= p_cur st2)%Z /\ (0 <= p_line st2)%Z) by (subst st2; unfold id; cbn; lia).
  destruct (nonneg_range (fst (cut_line s)) st2) as (A1 & A2); [apply H2..|].
  set (st3 := snd (print_range (fst (cut_line s)) st2)) in *.
  assert (A3 : (0 <= p_cur (snd ((match snd (cut_line s) with Some r => comment_rest C (List.length s) n r | None => nop end) st3)))%Z).
  { pose proof (cut_line_spec s) as X. destruct (cut_line s) as [l [r|]]; cbn [snd]; [|exact A1]. destruct X as [X _].
    apply nonneg_rest; [apply (f_equal (@List.length _)) in X; rewrite app_length in X; cbn in X; lia|exact A1|]. rewrite A2. apply H2. }
  lia.
Qed.
Lemma plain_inside k s : plain s -> plain (comment_inside k s).
Proof.
  intros (P0 & P1). assert (Pd : padded s (comment_inside k s)).
  { unfold comment_inside. apply pd_before; [apply pd_after; [apply pd_hang|now apply only_one]|]. destruct (starts_with cNL s); [intros c []|now apply only_one]. }
  assert (X : forall c, c <> cSP -> c <> cNL -> c <> cTAB -> In c (comment_inside k s) -> In c s).
  { intros c H1 H2 H3 I. apply List.in_split in I as (x & y & E). rewrite E in Pd. change (c :: y) with ([c] ++ y) in Pd.
    apply pd_part in Pd as (x' & y' & ->); [apply in_or_app; right; now left|]. intros d [<-|[]]. auto. }
  split; intros I; [apply P0|apply P1]; apply X; auto; discriminate.
Qed.
Lemma comment_sep st : space_comment C st = (start_at (p_last st =? 0) st, key_start st).
Proof. unfold space_comment, ask, start_at, key_start. rewrite HC. cbn [negb]. destruct (p_last st =? 0); [reflexivity|apply nl_out]. Qed.
Lemma spec_comment t : pcomment_ok t -> node_spec (Comment t).
Proof.
  intros (P & Hy & H) al st R _ _. destruct (key_ready st R) as (G & C1 & L1). pose proof G as (Ga & Gb & Gc). set (st1 := key_start st) in *.
  destruct (has_newlines t) eqn:En.
  - destruct H as (Cl & Bh & Bl). destruct (comment_lines_out C t st1 Gb En) as (bs & st' & E & L & Ok & _ & F & _ & Eb).
    set (n := count_necessary_slashes t) in *. assert (Ee : ends_with cNL t = false).
    { destruct (ends_with cNL t) eqn:X; auto. exfalso. destruct (snoc_cases t) as (r & c & Et); [intros ->; discriminate|]. rewrite Et, ends_snoc in X. apply N.eqb_eq in X. subst c.
      assert (Y : List.last (split_lines (r ++ [cNL])) [] = []); [|rewrite Et in Bl; rewrite Y in Bl; discriminate].
      clear. induction r as [|d r IH]; [reflexivity|]. cbn [app split_lines]. destruct (split_lines (r ++ [cNL])) as [|a b] eqn:Es; [now apply split_lines_ne in Es|].
      destruct (d =? cNL); [exact IH|]. destruct b as [|b0 b]; [|exact IH]. exfalso.
      clear IH. assert (X : List.length (split_lines (r ++ [cNL])) = 1%nat) by (rewrite Es; reflexivity). clear Es.
      assert (Y : (2 <= List.length (split_lines (r ++ [cNL])))%nat); [|lia]. clear X.
      induction r as [|e r IH]; [cbn; lia|]. cbn [app split_lines]. destruct (split_lines (r ++ [cNL])) as [|? ?] eqn:Es; [now apply split_lines_ne in Es|].
      destruct (e =? cNL); cbn [List.length] in *; lia. }
    specialize (Eb HC Ee). subst bs. inversion F as [|? ? F1 _]; subst. pose proof (comment_state t st1 Gb) as Cs. rewrite E in Cs. cbn [snd] in Cs.
    exists (start_at (p_last st =? 0) st), (rep cSLASH n ++ segment n (comment_inside (Z.to_nat (p_cur st1)) t)), (PR (p_cur st') (p_line st') cSLASH (p_ok st')), [Comment t]. constructor.
    + cbn [print_node]. unfold print_comment. rewrite En. cbn [negb]. eapply out_eq; [eapply seq_out; [apply comment_sep|]; eapply seq_out; [exact E|reflexivity]|].
      cbn [map List.concat]. now rewrite !app_nil_r.
    + apply start_w0.
    + repeat split; cbn; [congruence|auto|lia].
    + cbn. congruence.
    + split; discriminate.
    + discriminate.
    + apply (first_follow Fcom). apply starts_app. exists cSLASH, (rep cSLASH (max_slashes t false 0 0)). auto.
    + intros pre Hc. apply sol_flat. intros e y W Fo. apply f_comment. apply (c_block pre n); [unfold n, count_necessary_slashes; lia|].
      assert (Ec : column pre = Z.to_nat (p_cur st1)) by lia. rewrite <- Ec.
      pose proof (comment_block (column pre) t Hy En Cl Bh Bl) as Cb. fold n in Cb. rewrite <- Cb at 2. apply bs_last; [|now apply nlw_not]. split; [now apply plain_inside|]. rewrite Ec. exact F1.
    + apply one_den. discriminate.
  - apply CompactDoc.nl_free in En as Nl. exists (start_at (p_last st =? 0) st), (rep cSLASH 2 ++ [cSP] ++ t), (snd ((print_str (B "// ") ;; print_range t ;; set_last 1) st1)), [Comment t].
    assert (E : (print_str (B "// ") ;; print_range t ;; set_last 1) st1 = (rep cSLASH 2 ++ [cSP] ++ t, PR (p_cur st1 + 3 + Z.of_nat (chars t)) (p_line st1) 1 (p_ok st1))).
    { destruct t as [|c r].
      - unfold seq. rewrite str_out by discriminate. cbn. now rewrite Z.add_0_r.
      - eapply out_eq; [eapply seq_out; [apply str_out; discriminate|]; eapply seq_out; [apply prange_out; discriminate|reflexivity]|]. now rewrite (written_id _ Hy), app_nil_r. }
    rewrite E. cbn [snd]. constructor.
    + cbn [print_node]. unfold print_comment. rewrite En, HC. cbn [negb]. eapply seq_out; [apply comment_sep|exact E].
    + apply start_w0.
    + repeat split; cbn [p_cur p_line p_ok]; auto; lia.
    + exact L1.
    + split; discriminate.
    + discriminate.
    + apply (first_follow Fcom). now apply starts_cons.
    + intros pre Hc e t2 z ks2 (k & ->) Fo X.
      replace ((rep cSLASH 2 ++ [cSP] ++ t) ++ (cNL :: rep cSP k) ++ t2) with ((rep cSLASH 2 ++ ([cSP] ++ t) ++ [cNL]) ++ rep cSP k ++ t2)
        by (rewrite <- !app_assoc; reflexivity).
      cbn [app]. apply s_flat.
      * rewrite <- H at 2. change t with (snd (strip_front ([cSP] ++ t))) at 2. apply f_comment. apply (c_line pre 2 ([cSP] ++ t)); auto.
        -- destruct P as (P0 & P1). split; intros [I|I]; auto; discriminate.
        -- intros [I|I]; [discriminate|auto].
        -- cbn. rewrite starts_cons. discriminate.
      * apply spaces_gap, Fo.
      * cbn [app] in *. rewrite <- ?app_assoc in *. cbn [app] in *. rewrite <- ?app_assoc. exact X.
    + apply one_den. discriminate.
Qed.

(** ** Lists of nodes *)
Definition nodes_spec (d : list node) : Prop := d <> [] -> forall al again st, ready st -> p_last st <> cLP -> (p_last st = cEQ -> forall p r, d <> Part p :: r) ->
  exists w0 t st' ks, print_nodes C al again d st = (w0 ++ t, st') /\ (w0 = [] /\ p_last st = 0 \/ w0 = line_of st) /\ good st' /\ p_line st' = p_line st
  /\ (p_last st' <> 0 /\ p_last st' <> cLP) /\ (forall y, follow (t ++ y)) /\ (forall pre, Z.of_nat (column pre) = p_line st -> sol pre t ks) /\ merge_nodes ks = d.
Lemma spec_body n l k : element_name n -> Forall (pattr_ok C) l -> as_parts k = None -> nodes_spec k -> node_spec (Elem n l k).
Proof.
  intros Hn Hl Hk IH al st R _ _. assert (Hk0 : k <> []) by (intros ->; discriminate). destruct (key_ready st R) as (G1 & C1 & L1).
  destruct (head_out C HC n l (key_start st) Hn Hl G1) as (h & s1 & E & (Ga & Gb & Gc) & L & S & _ & H & _).
  set (w1 := if p_last s1 =? cRP then line_of s1 else [cSP]).
  assert (X : exists s2, space_opening_brace C s1 = (w1, s2) /\ p_ok s2 = true /\ (0 <= p_cur s2)%Z /\ p_line s2 = p_line s1).
  { unfold space_opening_brace, ask. rewrite HC. cbn [negb when]. subst w1. destruct (p_last s1 =? cRP).
    - eexists. split; [apply nl_out|]. repeat split; cbn; auto; lia.
    - eexists. split; [apply white_out|]. repeat split; cbn; auto; lia. }
  destruct X as (s2 & E2 & O2 & C2 & L2).
  set (s3 := PR (p_cur s2 + 1) (p_line s2 + add_indent C) cLB (p_ok s2)).
  assert (R3 : ready s3) by (split; [repeat split; cbn; auto; lia|discriminate]).
  destruct (IH Hk0 0%nat (Some 0%nat) s3 R3) as (w2 & tk & s4 & ks & E4 & W2 & (Gd & Ge & Gf) & L4 & K4 & F4 & S4 & D4); [discriminate|discriminate|].
  destruct W2 as [(_ & W2)|W2]; [discriminate W2|].
  set (w3 := cNL :: rep cSP (Z.to_nat (p_line s4 - add_indent C))).
  assert (Ls : (p_line s4 - add_indent C = p_line st)%Z) by (rewrite L4; cbn; lia).
  exists (start_at (p_last st =? 0) st), (h ++ w1 ++ [cLB] ++ w2 ++ (tk ++ w3) ++ [cRB]). eexists. exists [Elem n l k]. constructor.
  - rewrite print_body by auto. unfold print_name. fold (head_op C n l). eapply out_eq.
    + eapply seq_out; [eapply seq_out; [apply key_out; exact HC|exact E]|]. eapply seq_out; [exact E2|]. eapply seq_out; [apply str_out; discriminate|].
      eapply seq_out; [reflexivity|]. cbn [p_cur p_line p_last p_ok List.last]. change (zlen [cLB]) with 1%Z. fold s3. eapply seq_out; [exact E4|].
      eapply seq_out; [reflexivity|]. unfold space_closing_brace. rewrite HC. cbn [negb when p_cur p_line p_last p_ok]. eapply seq_out; [apply nl_out|].
      cbn [p_cur p_line p_last p_ok]. apply str_out. discriminate.
    + cbn [p_line]. fold w3. rewrite <- !app_assoc. reflexivity.
  - apply start_w0.
  - destruct R as ((_ & _ & Gz) & _). repeat split; cbn [p_cur p_line p_ok]; auto; unfold zlen; cbn [List.length]; lia.
  - cbn [p_line]. exact Ls.
  - split; discriminate.
  - discriminate.
  - intros y. rewrite <- app_assoc. apply (first_follow Fkey). now apply key_starts.
  - intros pre Hc e t2 z ks2 We Fo Y. rewrite <- D4 at 1. rewrite <- !app_assoc in *. cbn [app]. 
    assert (W3 : nlw w3) by now eexists.
    assert (Gw1 : forall y, gap w1 ([cLB] ++ y)).
    { intros y. subst w1. destruct (p_last s1 =? cRP); [apply nlw_gap; [now eexists|]|apply sp_gap]; apply solid_ascii; reflexivity. }
    assert (Ww2 : nlw w2) by (rewrite W2; now eexists).
    pose proof (s_body pre h n l w1 w2 (tk ++ w3) e t2 z ks ks2) as Sb. rewrite <- !app_assoc in Sb. apply Sb; clear Sb.
    + apply H; [lia|]. subst w1. destruct (p_last s1 =? cRP); [apply nlw_not; [now eexists|reflexivity]|]. cbn. rewrite starts_cons. discriminate.
    + apply Gw1.
    + apply nlw_gap; auto. apply F4.
    + replace (tk ++ w3) with (tk ++ w3 ++ []) by now rewrite app_nil_r. rewrite <- (app_nil_r ks). apply S4; auto.
      * rewrite W2. unfold line_of. rewrite !app_assoc. rewrite column_line. cbn [s3 p_line]. destruct R as ((_ & _ & Gz) & _). lia.
      * cbn [app]. split; [apply solid_ascii; reflexivity|rewrite starts_cons; discriminate].
      * apply s_end. right. now apply starts_cons.
    + apply nlw_gap; auto. apply Fo.
    + exact Y.
  - apply one_den. discriminate.
Qed.
Lemma spec_nil : nodes_spec [].
Proof. intros H. congruence. Qed.
Lemma spec_cons x r : node_spec x -> (forall y r', r = y :: r' -> psiblings x y) -> nodes_spec r -> nodes_spec (x :: r).
Proof.
  intros Hx Sb IH _ al again st R Hp He. cbn [print_nodes].
  destruct (match again with Some O => if compact C then (al, again) else find_width (x :: r) | _ => (al, again) end) as [al' again'].
  destruct (Hx al' st R Hp) as (w0 & t & st1 & ks & [N1 N2 N3 N4 N5 N6 N7 N8 N9]). { intros E p ->. now apply (He E p r). }
  destruct r as [|y r].
  - exists w0, t, st1, ks. split; [cbn [print_nodes]; eapply out_eq; [eapply seq_out; [exact N1|reflexivity]|apply app_nil_r]|]. repeat (split; [assumption|]).
    specialize (N9 []). rewrite app_nil_r in N9. rewrite N9; [reflexivity|]. intros; discriminate.
  - destruct (Sb y r eq_refl) as (Sb1 & Sb2).
    destruct (IH ltac:(discriminate) al' (match again' with Some (S m) => Some m | _ => again' end) st1) as (w1 & t1 & st2 & ks1 & M1 & M2 & M3 & M4 & M5 & M6 & M7 & M8).
    + split; auto. intros Z. now destruct N5.
    + apply N5.
    + intros E p r' Er. injection Er as -> ->. destruct (N6 E) as (ps & P1 & P2). now apply (Sb2 ps p P1 eq_refl).
    + destruct M2 as [(_ & M2)|M2]; [now destruct N5|]. assert (W1 : nlw w1) by (rewrite M2; now eexists).
      exists w0, (t ++ w1 ++ t1), st2, (ks ++ ks1). split; [eapply out_eq; [eapply seq_out; [exact N1|exact M1]|now rewrite <- !app_assoc]|].
      split; auto. split; auto. split; [congruence|]. split; auto. split; [intros z; rewrite <- app_assoc; apply N7|]. split.
      * intros pre Hc. apply sol_app; auto. apply M7. rewrite M2. unfold line_of. rewrite app_assoc, column_line, N4. destruct R as ((_ & _ & ?) & _). lia.
      * rewrite N9; [now rewrite M8|]. intros u Ex v r' E. rewrite M8 in E. injection E as -> ->. apply Sb1. split; eauto.
Qed.

Scheme pnode_ok_ind2 := Minimality for pnode_ok Sort Prop with pnodes_ok_ind2 := Minimality for pnodes_ok Sort Prop.
Lemma nodes_printed d : pnodes_ok C d -> nodes_spec d.
Proof.
  apply (pnodes_ok_ind2 C node_spec nodes_spec).
  - intros [t|n] H; [now apply spec_text|]. destruct H. now apply spec_ref.
  - apply spec_comment.
  - apply spec_pi.
  - apply spec_doctype.
  - apply spec_leaf.
  - apply spec_value.
  - intros n l k H1 H2 H3 _ H4. now apply spec_body.
  - apply spec_nil.
  - intros x r _ H1 H2 _ H3. now apply spec_cons.
Qed.

(** The default output denotes the document. *)
Theorem pretty_denotes d : d <> [] -> pnodes_ok C d -> exists o, print_doc C d = (o, true) /\ denotes o d.
Proof.
  intros Hd H. destruct (nodes_printed d H Hd 0%nat (Some 0%nat) (PR 0 0 0 true)) as (w0 & t & st' & ks & E & W0 & (G & _) & _ & _ & F & S & D).
  - split; [repeat split; cbn; lia|reflexivity].
  - discriminate.
  - discriminate.
  - exists (w0 ++ (t ++ [cNL])). split.
    + unfold print_doc. destruct d as [|x d]; [congruence|]. rewrite E, G. now rewrite <- app_assoc.
    + assert (Wn : nlw [cNL]) by now exists 0%nat. exists w0, (t ++ [cNL]), ks. split; [reflexivity|]. split; [|split; [|now rewrite D]].
      * destruct W0 as [(-> & _)| ->]; [apply gap_nil|apply nlw_gap; [now exists 0%nat|]]; apply F.
      * replace (t ++ [cNL]) with (t ++ [cNL] ++ []) by reflexivity. rewrite <- (app_nil_r ks). apply S; auto.
        -- destruct W0 as [(-> & _)| ->]; reflexivity.
        -- split; [intros X; inversion X|apply starts_nil].
        -- apply s_end. now left.
Qed.
End pretty.
