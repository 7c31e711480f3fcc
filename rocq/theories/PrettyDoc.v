(** The default output is a text of the grammar: values, attributes, nodes. *)
From Coq Require Import NArith ZArith List Bool Arith Lia String.
From Verif Require Import Bytes BytesFacts Utf8 Utf8Proofs Outcome Quote QuoteSpec QuoteProofs Parser Dom Printer Grammar LexProofs BuildProofs GrammarProofs
  Compact CompactProofs CompactDoc LeafQuote BlockProofs Pretty LeafBlock PrettyProofs PrettyOut.
Import ListNotations.
Local Open Scope N_scope.
Local Open Scope op_scope.

(** ** Parts *)
Lemma pmerge_texts ts m : Forall is_ptext ts -> ts <> [] -> (forall u r, merge_parts m <> PText u :: r) ->
  merge_parts (map ptok_part ts ++ m) = PText (ptexts ts) :: merge_parts m.
Proof.
  induction ts as [|t ts IH]; intros F Hn Hm; [congruence|]. inversion F; subst.
  assert (X : exists u, ptok_part t = PText u /\ ptok_text t = u) by (destruct t; cbn in *; eauto; contradiction).
  destruct X as (u & E1 & E2). cbn [map app merge_parts]. rewrite E1. destruct ts as [|t2 ts].
  - cbn [map app]. unfold ptexts. cbn. rewrite app_nil_r, E2. destruct (merge_parts m) as [|[v|n] r] eqn:E; auto. exfalso. now apply (Hm v r).
  - rewrite IH by (auto; discriminate). unfold ptexts. cbn [map List.concat]. now rewrite E2.
Qed.

Section pretty.
Variable C : cfg.
Hypothesis HC : compact C = false.

Lemma shown_nonempty l t : ptext_ok C t -> allows_bare l = false -> exists ts, same (print_text C l t) (emits C l ts) /\ Forall ptok_ok ts /\ Forall is_ptext ts
  /\ ptexts ts = t /\ ts <> [] /\ (counted_part C (PText t) -> Forall ktracked ts).
Proof.
  intros T Hl. destruct t as [|c r].
  - exists [KEmpty]. split; [|repeat split; auto; try (repeat constructor); discriminate]. apply same_sym, same_nop_r.
  - destruct (negb (existsb (must_escape C) (c :: r)) && negb (has_mixed_space (c :: r)) && negb (forallb is_xml_whitespace (c :: r)))%bool eqn:D.
    + rewrite !andb_true_iff, !negb_true_iff in D. destruct D as [[D1 D2] D3]. apply pcalm_iff in D1. apply unmixed_iff in D2.
      assert (W : ~ only is_xml_whitespace (c :: r)). { intros W. apply not_true_iff_false in D3. apply D3. now apply forallb_forall. }
      destruct (calm_single C HC (List.length (c :: r)) l (c :: r)) as [(_ & [H|H] & _)|(k & E & O & P & _ & _ & Q)]; auto.
      * discriminate.
      * intros (_ & On & _). apply W. intros d Hd. specialize (On d Hd). unfold one_of in On. cbn in On. rewrite !orb_true_iff, !N.eqb_eq in On.
        destruct On as [->|[->|]]; [reflexivity|reflexivity|discriminate].
      * intros X. apply W. rewrite X. intros d [<-|[]]. reflexivity.
      * intros X. apply W. rewrite X. intros d [<-|[]]. reflexivity.
      * subst l. discriminate.
      * subst l. discriminate.
      * destruct Q as [-> |Q]; [|contradiction]. exists [KLeaf (c :: r)]. split; [eapply same_trans; [exact E|]; apply same_sym, same_nop_r|].
        split; [constructor; auto|]. split; [repeat constructor|]. split; [unfold ptexts; cbn; now rewrite app_nil_r|]. split; [discriminate|].
        intros [|(_ & _ & S & _)]; [discriminate|]. constructor; auto.
    + destruct (text_shown C HC l (c :: r) T) as (ts & P & O & T' & E); [left; rewrite Hl; apply andb_false_r|]. exists ts.
      repeat (split; [assumption|]). split; [intros ->; discriminate|]. intros [|(K & M & _ & W)]; [discriminate|]. exfalso.
      apply not_true_iff_false in D. apply D. rewrite !andb_true_iff, !negb_true_iff. split; [split; [now apply pcalm_iff|now apply unmixed_iff]|].
      apply not_true_iff_false. rewrite forallb_forall. exact W.
Qed.
Lemma ref_shown l n : same (print_entity C n) (emit C l (KRef n)).
Proof. apply same_refl. Qed.
Lemma parts_shown l ps : allows_bare l = false -> Forall (ppart_ok C) ps -> alternating ps ->
  exists ts, same (print_parts C l ps) (emits C l ts) /\ Forall ptok_ok ts /\ merge_parts (map ptok_part ts) = ps /\ (counted C ps -> Forall ktracked ts).
Proof.
  intros Hl. induction ps as [|p ps IH]; intros F A.
  - exists []. split; [apply same_refl|auto].
  - inversion F as [|? ? Hp F']; subst. assert (A' : alternating ps) by (destruct ps; [exact I|apply A]).
    destruct (IH F' A') as (ts & P & O & E & K). cbn [print_parts]. destruct p as [t|n].
    + destruct (shown_nonempty l t Hp Hl) as (us & P1 & O1 & T1 & E1 & N1 & K1). exists (us ++ ts).
      split; [eapply same_trans; [apply same_seq; eassumption|]; apply same_sym, emits_app|]. split; [now apply Forall_app|]. split.
      * rewrite map_app, pmerge_texts; auto; [now rewrite E1, E|]. rewrite E. intros u r X. rewrite X in A. apply A. auto.
      * intros X. inversion X; subst. apply Forall_app. auto.
    + exists (KRef n :: ts). split; [apply same_seq; [apply ref_shown|exact P]|]. split; [constructor; auto|]. split; [cbn; now rewrite E|].
      intros X. inversion X; subst. constructor; [exact I|auto].
Qed.

(** ** Values *)
(** What print_value writes in the state st. *)
Record valued (l : level) (ps : list part) (st : pr) (v : bytes) (st' : pr) : Prop := {
  va_out : print_value C l ps st = (v, st');
  va_good : good st';
  va_line : p_line st' = p_line st;
  va_last : p_last st' <> 0 /\ p_last st' <> cLP;
  va_eq : p_last st' = cEQ -> ends_in [cEQ] ps;
  va_value : forall pre z, Z.of_nat (column pre) = p_cur st \/ (forall t r, ps = PText t :: r -> ~ In cNL t) -> starts (one_of [cNL; cRP]) z ->
    value pre v z ps /\ ~ begins_white (v ++ z);
  va_tracks : counted C ps -> p_cur st' = adv (p_cur st) v }.
Lemma tok_first_nl t ts ps : merge_parts (map ptok_part (t :: ts)) = ps -> (forall u r, ps = PText u :: r -> ~ In cNL u) -> ~ In cNL (ptok_text t).
Proof.
  cbn [map merge_parts]. unfold ptok_text. intros E H. destruct (ptok_part t) as [u|n]; [|intros []].
  destruct (merge_parts (map ptok_part ts)) as [|[v|n] r]; subst ps; specialize (H _ _ eq_refl); auto.
  intros I. apply H. apply in_or_app. now left.
Qed.
Lemma same_tracks a b st : same a b -> tracks b st -> tracks a st.
Proof. intros E. unfold tracks. now rewrite (E st). Qed.
Lemma tracks_at a st o st' : tracks a st -> a st = (o, st') -> p_cur st' = adv (p_cur st) o.
Proof. unfold tracks. intros T E. now rewrite E in T. Qed.
Lemma after_value z : starts (one_of [cNL; cRP]) z -> ~ starts (is cQ) z /\ starts (one_of (cSP :: cNL :: ends_value)) z.
Proof.
  intros (c & r & -> & H). unfold one_of in H. cbn [existsb] in H. rewrite !orb_true_iff, !N.eqb_eq in H. rewrite !starts_cons.
  destruct H as [-> |[-> |H]]; [split; [discriminate|reflexivity]..|discriminate].
Qed.
Lemma value_out l ps st : pvalue_ok C ps -> l = LElem \/ l = LAttr -> good st -> p_last st = cEQ -> exists v st', valued l ps st v st'.
Proof.
  intros (Hn & F & A & Tb) Hl G Hq. pose proof G as (G1 & G2 & G3). destruct (is_compound C ps) eqn:Ec.
  - destruct (parts_shown (enter_compound l) ps) as (ts & P & O & E & K); auto; [destruct Hl; subst; reflexivity|].
    destruct ts as [|t ts]; [cbn in E; congruence|]. inversion O as [|? ? O1 O2]; subst.
    set (st1 := PR (p_cur st + 1 + 1) (p_cur st + 1 + 1) cLP (p_ok st)).
    assert (Gs : good st1) by (repeat split; cbn; auto; lia).
    destruct (emits_out C HC (enter_compound l) t ts st1 Gs O1 O2) as (st2 & E2 & G4 & L2 & K2 & T2).
    assert (Fr : kfresh (enter_compound l) t (p_last st1) = false) by (unfold kfresh; cbn [st1 p_last]; destruct (pquote t); reflexivity).
    rewrite Fr in E2. set (b := ptok_bytes (Z.to_nat (p_cur st1)) t ++ tail_bytes (Z.to_nat (p_line st1)) ts) in *.
    destruct G4 as (G41 & G42 & G43).
    assert (X : print_value C l (merge_parts (map ptok_part (t :: ts))) st = ([cLP] ++ [cSP] ++ (b ++ [cSP]) ++ [cRP], PR (p_cur st2 + 1 + 1) (p_line st) cRP true)).
    { unfold print_value, ask. rewrite Ec, HC. cbn [negb when]. eapply out_eq.
      - eapply seq_out; [apply str_out; discriminate|]. eapply seq_out; [apply white_out|]. eapply seq_out; [reflexivity|]. cbn [p_cur p_line p_last p_ok List.last].
        change (zlen [cLP]) with 1%Z. fold st1. eapply seq_out; [rewrite (P st1); exact E2|]. eapply seq_out; [apply white_out|].
        eapply seq_out; [apply str_out; discriminate|]. unfold set_line. cbn [p_cur p_line p_last p_ok List.last]. change (zlen [cRP]) with 1%Z. rewrite G41. reflexivity.
      - change (rep cSP (Z.to_nat 1)) with [cSP]. cbn [app]. rewrite <- app_assoc. reflexivity. }
    exists ([cLP] ++ [cSP] ++ (b ++ [cSP]) ++ [cRP]). eexists. constructor; [exact X|repeat split; cbn; auto; lia|reflexivity|split; discriminate|discriminate| |].
    + intros pre z Hc Hz. split; [|apply solid_ascii; reflexivity]. apply v_compound.
      * apply sp_gap. unfold b. rewrite <- !app_assoc. now apply ptok_white.
      * apply tail_pieces; auto; [|now exists cRP, z]. destruct Hc as [Hc|Hc].
        -- left. cbn [st1 p_cur]. apply Nat2Z.inj. rewrite column_adv, Hc. unfold adv. cbn [app is_cont cLP]. cbn. lia.
        -- right. eapply tok_first_nl; eauto.
    + intros Ct. specialize (K Ct). inversion K as [|? ? K1 K3]; subst. specialize (T2 K1 K3).
      apply (tracks_at _ _ _ _ T2) in E2. cbn [p_cur]. rewrite E2. cbn [st1 p_cur app adv]. rewrite !adv_app. cbn. rewrite !Z.add_0_r || idtac.
      reflexivity.
  - assert (V : exists v st', print_parts C l ps st = (v, st') /\ good st' /\ p_line st' = p_line st /\ (p_last st' <> 0 /\ p_last st' <> cLP)
       /\ (p_last st' = cEQ -> ends_in [cEQ] ps)
       /\ (forall pre z, Z.of_nat (column pre) = p_cur st \/ (forall t r, ps = PText t :: r -> ~ In cNL t) -> starts (one_of [cNL; cRP]) z -> value pre v z ps /\ ~ begins_white (v ++ z))
       /\ (counted C ps -> p_cur st' = adv (p_cur st) v)).
    { assert (X : (exists k, same (print_parts C l ps) (emit C l k) /\ ptok_ok k /\ ps = [ptok_part k] /\ (counted C ps -> ktracked k))
                  \/ exists t, ps = [PText t] /\ bare t [] /\ print_text C l t = print_range t).
      { destruct ps as [|[t|n] [|q ps]]; try discriminate; [congruence| |]; inversion F as [|? ? Hp]; subst.
        - cbn in Ec. destruct (single_shown C HC l t Hp (Tb t eq_refl) Ec Hl) as [(B1 & B2)|(k & P & O & E & _ & _ & Q)]; [right; eauto|left; exists k].
          split; [eapply same_trans; [apply same_nop_r|exact P]|]. split; auto. split; [now rewrite E|]. intros Ct. inversion Ct as [|? ? Ct1]; subst. cbn [counted_part] in Ct1.
          destruct Q as [-> |[-> |Q]]; [exact I| |].
          + destruct Ct1 as [-> |(_ & _ & S & _)]; [intros x c y Ex; now destruct x|exact S].
          + destruct Ct1 as [-> |(_ & _ & _ & W)]; [|contradiction]. destruct k; cbn in E |- *; try congruence; auto.
            * injection E as ->. destruct O as (O & _). congruence.
            * injection E as E. destruct n; [cbn in O; lia|discriminate].
            * injection E as E. cbn in O. revert E. unfold utf8_spec. destruct (u <? 128); [discriminate|]. destruct (u <? 2048); [discriminate|]. destruct (u <? 65536); discriminate.
        - left. exists (KRef n). split; [apply same_nop_r|]. split; auto. }
      destruct X as [(k & P & O & -> & K)|(t & -> & B1 & B2)].
      - destruct (emit_out C HC l k st G O) as (st' & E & G' & L' & K' & T').
        assert (Fr : kfresh l k (p_last st) = false) by (rewrite Hq; unfold kfresh; destruct Hl; subst l; destruct (pquote k); reflexivity).
        rewrite Fr in E. exists (ptok_bytes (Z.to_nat (p_cur st)) k), st'. split; [rewrite (P st); exact E|]. split; auto. split; auto.
        destruct (klast_cases k) as [Kl|Kl]; rewrite K', Kl; (split; [split; discriminate|]); (split; [discriminate|]); split.
        1, 3: intros pre z Hc Hz; destruct (after_value z Hz) as (Z1 & Z2); (split; [|now apply ptok_white]); apply v_piece; apply ptok_piece; auto.
        1, 2: destruct Hc as [Hc|Hc]; [left; lia|right; unfold ptok_text; destruct (ptok_part k) as [w|w] eqn:Ek; [now apply (Hc w [])|intros []]].
        1, 2: intros Ct; apply (tracks_at _ _ _ _ (T' (K Ct)) E).
      - exists t. eexists. split; [|split; [|split; [|split; [|split; [|split]]]]].
        + cbn [print_parts print_part]. rewrite B2. eapply out_eq; [eapply seq_out; [eapply bare_out, B1|reflexivity]|apply app_nil_r].
        + repeat split; cbn; auto; lia.
        + reflexivity.
        + cbn [p_last]. pose proof (last_bare t B1) as X. split; intros Y; apply X; rewrite Y; cbn; auto.
        + cbn [p_last]. intros Y. exists t. rewrite Y. cbn. auto.
        + intros pre z _ Hz. destruct (after_value z Hz) as (Z1 & Z2). assert (B3 : bare t z) by (apply bare_after; auto). split; [now apply v_bare|now apply bare_first].
        + intros Ct. inversion Ct as [|? ? Ct1]; subst. cbn [counted_part] in Ct1. destruct Ct1 as [-> |(_ & _ & S & _)]; [now destruct B1|].
          assert (TR : tracks (print_range t) st).
          { apply tracks_range; auto. intros I. apply List.in_split in I as (x & y & E). destruct B1 as (_ & _ & _ & _ & B5). apply (B5 x (cNL :: y) E); [discriminate|].
            right. left. now apply bw_1. }
          apply (tracks_at _ _ _ _ TR). eapply bare_out, B1. }
    destruct V as (v & st' & V1 & (V2 & V3 & V3') & V4 & V5 & V6 & V7 & V8). exists v, (PR (p_cur st') (p_line st) (p_last st') (p_ok st')).
    constructor; cbn [p_last p_cur]; auto.
    + unfold print_value, ask. rewrite Ec. eapply out_eq; [eapply seq_out; [exact V1|reflexivity]|apply app_nil_r].
    + repeat split; auto.
Qed.

(** ** Attributes *)
Lemma equals_out p st : (0 <= p)%Z -> print_equals C p st = (rep cSP (Z.to_nat p) ++ [cEQ] ++ [cSP], PR (p_cur st + p + 1 + 1) (p_line st) cEQ (p_ok st)).
Proof.
  intros Hp. unfold print_equals. rewrite HC. cbn [negb when]. eapply out_eq.
  - eapply seq_out; [apply white_out|]. eapply seq_out; [apply str_out; discriminate|]. rewrite white_out. cbn [p_cur p_line p_last p_ok List.last]. change (zlen [cEQ]) with 1%Z. reflexivity.
  - reflexivity.
Qed.
Lemma spaces_gap n y : ~ begins_white y -> gap (rep cSP n) y.
Proof.
  intros H. split; auto. destruct n as [|n]; [now left|]. right. exists cSP, (rep cSP n). split; auto. split; [reflexivity|]. induction n; [constructor|]. cbn [rep repeat]. now constructor.
Qed.
Lemma name_out n st : is_name n -> print_str n st = (n, PR (adv (p_cur st) n) (p_line st) (List.last n 0) (p_ok st)).
Proof. intros (H1 & H2). rewrite str_out by auto. do 2 f_equal. symmetry. apply adv_flat. now apply name_flat. Qed.
Lemma name_adv n z : is_name n -> adv z n = (z + Z.of_nat (List.length n))%Z.
Proof. intros (H1 & H2). apply adv_flat. now apply name_flat. Qed.
Lemma name_u_len n : is_name n -> u_len n = List.length n.
Proof.
  intros H. assert (X : ~ In cNL n) by (intros I; destruct H as (_ & H); apply (name_flat n H) in I as (I & _); congruence).
  pose proof (adv_u_len n 0 X) as Y. rewrite name_adv in Y by auto. lia.
Qed.
Definition start_at (b : bool) (st : pr) : bytes := if b then [] else line_of st.
Definition start_col (b : bool) (st : pr) : Z := if b then p_cur st else p_line st.
Lemma attr_out al a st : good st -> pattr_ok C a -> (u_len (fst a) <= al)%nat -> let b := p_last st =? cLP in exists t st',
  print_attribute C al a st = (start_at b st ++ t, st') /\ good st' /\ p_line st' = p_line st /\ p_last st' <> cLP /\ starts is_xmq_text_name t
  /\ (forall pre w y, Z.of_nat (column pre) = start_col b st -> starts (one_of [cNL; cRP]) (w ++ y) -> ~ starts (is cEQ) y -> attribute pre t w y a)
  /\ (counted C (snd a) -> p_cur st' = adv (start_col b st) t).
Proof.
  intros G Ha Hal b. destruct a as [n ps]. cbn [fst snd] in *. destruct Ha as (Hn & Hv). cbn [fst snd] in *. pose proof Hn as (Nn & _).
  set (st1 := if b then st else PR (0 + p_line st) (p_line st) 0 (p_ok st)).
  assert (E1 : space_attribute C st = (start_at b st, st1)).
  { unfold space_attribute, ask. rewrite HC. subst st1. unfold start_at. subst b. destruct (p_last st =? cLP); [reflexivity|]. cbn [negb]. apply nl_out. }
  assert (G1 : good st1 /\ p_cur st1 = start_col b st /\ p_line st1 = p_line st).
  { destruct G as (? & ? & ?). subst st1. unfold start_col. destruct b; repeat split; cbn; auto; lia. }
  clearbody st1. destruct G1 as (G1 & C1 & L1). set (st2 := PR (adv (p_cur st1) n) (p_line st1) (List.last n 0) (p_ok st1)).
  assert (S : starts is_xmq_text_name n). { destruct Nn as (H1 & H2). destruct n as [|c r]; [congruence|]. cbn in H2. apply andb_true_iff in H2 as [H2 _]. exists c, r. auto. }
  assert (NA : adv (p_cur st1) n = (p_cur st1 + Z.of_nat (List.length n))%Z) by now apply name_adv.
  assert (G2 : good st2) by (destruct G1 as (? & ? & ?); repeat split; cbn; auto; lia).
  destruct Hv as [-> |(Hv & He)].
  - exists n, st2. unfold print_attribute. cbn [fst snd has_value when]. split.
    { eapply out_eq; [eapply seq_out; [exact E1|]; eapply seq_out; [now apply name_out|reflexivity]|]. now rewrite app_nil_r. }
    split; [exact G2|]. split; [exact L1|]. split.
    { cbn. pose proof (name_last n Nn) as X. intros Y. rewrite Y in X. discriminate. }
    split; [exact S|]. split.
    + intros pre w y _ Hz Hy. apply at_key; auto. apply (starts_other _ _ _ Hz). intros c Hc. unfold one_of in Hc. cbn in Hc. rewrite !orb_true_iff, !N.eqb_eq in Hc. destruct Hc as [-> |[-> |]]; [reflexivity|reflexivity|discriminate].
    + intros _. cbn. now rewrite C1.
  - set (p := (1 + Z.of_nat al - Z.of_nat (u_len n))%Z). assert (Hp : (0 <= p)%Z) by lia.
    set (st3 := PR (p_cur st2 + p + 1 + 1) (p_line st2) cEQ (p_ok st2)).
    assert (G3 : good st3) by (destruct G2 as (? & ? & ?); repeat split; cbn in *; auto; lia).
    destruct (value_out LAttr ps st3 Hv (or_intror eq_refl) G3 eq_refl) as (v & st' & [V1 V2 V3 V4 V5 V6 V7]).
    exists (n ++ rep cSP (Z.to_nat p) ++ [cEQ] ++ [cSP] ++ v), st'. split.
    { unfold print_attribute. cbn [fst snd]. assert (X : has_value ps = true).
      { destruct ps as [|[[|? ?]|?] ?]; auto; [destruct Hv as (Hv & _); congruence|]. exfalso. eapply He. reflexivity. }
      rewrite X. cbn [when]. eapply out_eq; [eapply seq_out; [exact E1|]; eapply seq_out; [now apply name_out|]; eapply seq_out; [now apply equals_out|exact V1]|].
      now rewrite <- !app_assoc. }
    split; [exact V2|]. split; [rewrite V3; exact L1|]. split; [apply V4|]. split; [now apply starts_app|].
    assert (Ad : p_cur st3 = adv (start_col b st) (n ++ rep cSP (Z.to_nat p) ++ [cEQ] ++ [cSP])).
    { rewrite !adv_app, <- C1. cbn [st3 st2 p_cur]. rewrite NA, adv_rep by (discriminate || reflexivity). cbn. lia. }
    split.
    + intros pre w y Hc Hz _. destruct (V6 ((pre ++ n) ++ rep cSP (Z.to_nat p) ++ [cEQ] ++ [cSP]) (w ++ y)) as (W1 & W2); auto.
      { left. rewrite <- app_assoc, column_adv, Hc. now rewrite Ad. }
      apply at_value; auto. apply as_value; [apply spaces_gap, solid_ascii; reflexivity|now apply sp_gap|exact W1].
    + intros Ct. rewrite (V7 Ct), Ad. rewrite <- !adv_app. f_equal. now rewrite <- !app_assoc.
Qed.
Lemma attrs_out al l : Forall (pattr_ok C) l -> Forall (fun a => u_len (fst a) <= al)%nat l -> l <> [] -> forall st, good st -> let b := p_last st =? cLP in exists t st',
  attribute_list C al l st = (start_at b st ++ t, st') /\ good st' /\ p_line st' = p_line st /\ starts is_xmq_text_name t
  /\ (forall pre z, Z.of_nat (column pre) = start_col b st -> starts (is cRP) z -> Grammar.attributes pre t z l)
  /\ (counted C (snd (List.last l ([], []))) -> p_cur st' = adv (start_col b st) t).
Proof.
  induction l as [|a l IH]; intros F W Hn st G b; [congruence|]. inversion F; inversion W; subst.
  destruct (attr_out al a st G H1 H5) as (t & st1 & E1 & G1 & L1 & K1 & S1 & A1 & T1). fold b in E1, A1, T1. cbn [attribute_list].
  destruct l as [|a2 l].
  - exists t, st1. split; [eapply out_eq; [eapply seq_out; [exact E1|reflexivity]|apply app_nil_r]|]. split; auto. split; auto. split; auto. split; auto.
    intros pre z Hc Hz. replace t with (t ++ [] ++ []) by now rewrite !app_nil_r. apply ats_cons.
    + apply A1; auto; cbn [app].
      * destruct Hz as (c & r & -> & Hc'). exists c, r. split; auto. apply N.eqb_eq in Hc'. now subst c.
      * apply (starts_other _ _ _ Hz). intros c Hc'. apply N.eqb_eq in Hc'. now subst c.
    + now apply gap_nil, rp_solid.
    + now apply ats_end.
  - destruct (IH H2 H6 ltac:(discriminate) st1 G1) as (t2 & st2 & E2 & G2 & L2 & S2 & A2 & T2).
    apply N.eqb_neq in K1. rewrite K1 in E2, A2, T2. cbn [start_at start_col] in *.
    assert (Wl : nlw (line_of st1)) by now exists (Z.to_nat (p_line st1)).
    exists (t ++ line_of st1 ++ t2), st2. split; [eapply out_eq; [eapply seq_out; [exact E1|exact E2]|now rewrite <- !app_assoc]|]. split; auto. split; [congruence|].
    split; [now apply starts_app|]. split.
    + intros pre z Hc Hz. assert (S3 : starts is_xmq_text_name (t2 ++ z)) by now apply starts_app. apply ats_cons.
      * apply A1; auto; [exists cNL, (rep cSP (Z.to_nat (p_line st1)) ++ t2 ++ z); auto|]. apply (starts_other _ _ _ S3). apply name_not. reflexivity.
      * apply nlw_gap; auto. now apply name_solid.
      * apply A2; auto. unfold line_of. rewrite app_assoc, column_line. destruct G1 as (? & ? & ?). lia.
    + intros Ct. rewrite (T2 Ct). rewrite !adv_app. unfold line_of at 1. rewrite adv_line. f_equal. destruct G1 as (? & ? & ?). lia.
Qed.

(** ** Names and attributes of elements *)
Lemma width_max l : Forall (fun a => u_len (fst a) <= attr_width l)%nat l.
Proof.
  unfold attr_width. induction l as [|a l IH]; constructor; cbn [map fold_right]; [lia|]. revert IH. apply Forall_impl. intros; lia.
Qed.
(** The operation that follows space_key in print_name. *)
Definition head_op (n : bytes) (l : list attr) : op :=
  print_str n ;; match l with [] => nop | _ => print_str [cLP] ;; print_attributes C l ;; print_str [cRP] end.
Definition key_start (st : pr) : pr := if p_last st =? 0 then st else PR (0 + p_line st) (p_line st) 0 (p_ok st).
Lemma key_out st : space_key C st = (start_at (p_last st =? 0) st, key_start st).
Proof. unfold space_key, ask, start_at, key_start. rewrite HC. cbn [negb]. destruct (p_last st =? 0); [reflexivity|apply nl_out]. Qed.
Lemma element_is_name n : element_name n -> is_name n.
Proof. intros ((c & r & -> & _) & H & _). split; [discriminate|auto]. Qed.
Lemma head_out n l st : element_name n -> Forall (pattr_ok C) l -> good st -> exists h st', head_op n l st = (h, st') /\ good st' /\ p_line st' = p_line st
  /\ starts is_xmq_element_start h /\ (p_last st' <> 0 /\ p_last st' <> cLP /\ p_last st' <> cEQ)
  /\ (forall pre z, Z.of_nat (column pre) = p_cur st -> ~ starts is_xmq_text_name z -> head pre h z n l)
  /\ (l = [] \/ counted C (snd (List.last l ([], []))) -> p_cur st' = adv (p_cur st) h).
Proof.
  intros Hn Hl G. pose proof (element_is_name n Hn) as Nn. pose proof G as (Ga & Gb & Gc). unfold head_op.
  assert (NA : adv (p_cur st) n = (p_cur st + Z.of_nat (List.length n))%Z) by now apply name_adv.
  destruct l as [|a l].
  - exists n. eexists. split; [eapply out_eq; [eapply seq_out; [now apply name_out|reflexivity]|apply app_nil_r]|]. split; [repeat split; cbn; auto; lia|].
    split; [reflexivity|]. split; [apply Hn|]. split; [|split; auto].
    + cbn [p_last]. pose proof (name_last n Nn) as X. repeat split; intros Y; rewrite Y in X; discriminate.
    + intros pre z _ Hz. now apply h_plain.
  - set (st1 := PR (adv (p_cur st) n + 1) (adv (p_cur st) n + 1) cLP (p_ok st)).
    assert (G1 : good st1) by (repeat split; cbn; auto; lia).
    destruct (attrs_out (attr_width (a :: l)) (a :: l) Hl (width_max _) ltac:(discriminate) st1 G1) as (t & st2 & E & (G2 & G3 & G4) & L & S & A & T).
    cbn [start_at start_col] in E, A, T. change (p_last st1 =? cLP) with true in E, A, T. cbn [start_at start_col app] in E, A, T.
    assert (E' : print_attributes C (a :: l) (PR (adv (p_cur st) n + zlen [cLP]) (p_line st) cLP (p_ok st)) = (t, PR (p_cur st2) (p_line st) (p_last st2) (p_ok st2))).
    { unfold print_attributes, ask. rewrite HC. eapply out_eq.
      - eapply seq_out; [reflexivity|]. cbn [p_cur p_line p_last p_ok List.last]. change (zlen [cLP]) with 1%Z. fold st1. eapply seq_out; [exact E|reflexivity].
      - apply app_nil_r. }
    exists (n ++ [] ++ [cLP] ++ [] ++ t ++ [cRP]), (PR (p_cur st2 + 1) (p_line st) cRP (p_ok st2)). split.
    { eapply out_eq.
      - eapply seq_out; [now apply name_out|]. eapply seq_out; [apply str_out; discriminate|]. cbn [p_cur p_line p_last p_ok List.last].
        eapply seq_out; [exact E'|]. rewrite str_out by discriminate. reflexivity.
      - reflexivity. }
    split; [repeat split; cbn; auto; lia|]. split; [reflexivity|]. split; [apply starts_app, Hn|]. split; [repeat split; discriminate|]. split.
    + intros pre z Hc Hz. apply h_attrs; auto.
      * apply gap_nil, solid_ascii; reflexivity.
      * apply gap_nil. cbn [app]. apply name_solid. now apply starts_app.
      * apply A; [|exists cRP, z; auto]. rewrite !column_adv, Hc. rewrite !adv_app. cbn [app adv]. cbn. reflexivity.
    + intros [|Ct]; [discriminate|]. cbn [p_cur]. rewrite (T Ct). rewrite !adv_app. cbn. reflexivity.
Qed.
End pretty.
