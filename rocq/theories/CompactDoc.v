(** Compact printing of values, attributes and nodes gives a text of the grammar. *)
From Coq Require Import NArith ZArith List Bool Arith Lia String.
From Verif Require Import Bytes BytesFacts Outcome Utf8 Utf8Proofs Quote QuoteSpec QuoteProofs QuoteProofs2 Parser ParserSpec Dom Printer Grammar
  LexProofs BuildProofs GrammarProofs Compact Stray CompactProofs.
Import ListNotations.
Local Open Scope N_scope.
Local Open Scope op_scope.

(** ** What starts and ends a printed item *)
Inductive ekind := Equo | Eany | Ename | Epar | Ebare | Ecom.
(** What may follow: white space w and then y. *)
Definition after (e : ekind) (w y : bytes) : Prop :=
  match e with
  | Equo => ~ starts (is cQ) (w ++ y)
  | Eany => True
  | Ename => ~ starts is_xmq_text_name (w ++ y) /\ ~ starts (one_of [cLP; cEQ; cLB]) y
  | Epar => ~ starts (one_of [cLP; cEQ; cLB]) y
  | Ebare => w ++ y = [] \/ starts (one_of (cSP :: cNL :: ends_value)) (w ++ y)
  | Ecom => ~ starts (one_of [cSLASH; cSTAR]) (w ++ y)
  end.
(** The last character. *)
Definition end_char (e : ekind) (c : N) : Prop :=
  match e with
  | Equo => c = cQ
  | Eany => In c [cSEMI; cRP; cRB]
  | Ename => is_xmq_text_name c = true
  | Epar => c = cRP
  | Ebare => ~ In c (0 :: ends_value)
  | Ecom => c = cSLASH
  end.

Lemma name_lt c : is_xmq_text_name c = true -> c < 128.
Proof.
  unfold is_xmq_text_name, in_range. rewrite !orb_true_iff, !andb_true_iff, !N.leb_le, !N.eqb_eq. unfold cMINUS, cUND, cDOT, cCOLON, cHASH. lia.
Qed.
Lemma name_all (P : N -> bool) : forallb (fun c => implb (is_xmq_text_name c) (P c)) (map N.of_nat (List.seq 0 128)) = true ->
  forall c, is_xmq_text_name c = true -> P c = true.
Proof.
  intros H c Hc. pose proof (below_spec 128 _ H c (name_lt c Hc)) as X. cbn beta in X. now rewrite Hc in X.
Qed.
Lemma starts_cons p c r : starts p (c :: r) <-> p c = true.
Proof. split; [intros (d & z & E & H); now injection E as -> ->|intros H; exists c, r; auto]. Qed.
Lemma starts_nil p : ~ starts p [].
Proof. intros (? & ? & H & _). discriminate. Qed.
Lemma last_in (t : bytes) d : t <> [] -> In (List.last t d) t.
Proof. intros H. destruct (exists_last H) as (x & a & ->). rewrite last_last. apply in_or_app. right. now left. Qed.

(** ** Parts *)
Lemma merge_texts ts m : Forall text_tok ts -> ts <> [] -> (forall u r, merge_parts m <> PText u :: r) ->
  merge_parts (map tok_part ts ++ m) = PText (texts_of ts) :: merge_parts m.
Proof.
  induction ts as [|t ts IH]; intros F Hn Hm; [congruence|]. inversion F; subst.
  assert (X : exists u, tok_part t = PText u /\ tok_text t = u) by (destruct t; cbn in *; eauto; contradiction).
  destruct X as (u & E1 & E2). cbn [map app merge_parts]. rewrite E1. destruct ts as [|t2 ts].
  - cbn [map app]. unfold texts_of. cbn. rewrite app_nil_r, E2. destruct (merge_parts m) as [|[v|n] r] eqn:E; auto. exfalso. now apply (Hm v r).
  - rewrite IH by (auto; discriminate). unfold texts_of. cbn [map List.concat]. now rewrite E2.
Qed.

Section compact.
Variable C : cfg.
Hypothesis HC : compact C = true.

Lemma shows_nonempty l t : text_ok C t -> allows_bare l = false -> exists ts, prints (print_text C l t) ts /\ Forall tok_ok ts /\ Forall text_tok ts /\ texts_of ts = t /\ ts <> [].
Proof.
  intros T Hl. unfold print_text. destruct t as [|c r].
  - exists [T0]. repeat split; auto; [|repeat constructor|repeat constructor|discriminate]. cbn [List.length value_text]. intros d. cbn [toks end_of]. rewrite app_nil_r.
    eapply writes_seq; [apply writes_space_quote; exact HC|]. apply (writes_str [cQ; cQ] d). discriminate.
  - destruct (shows_text C HC (List.length r) l (c :: r) [0]) as (ts & P & O & T' & E).
    + now apply text_piece.
    + now apply text_not_quotes with (C := C).
    + left. rewrite Hl. apply andb_false_r.
    + exists ts. repeat split; auto. intros ->. discriminate.
Qed.
Lemma prints_ref n : is_name n -> prints (print_entity C n) [TR n].
Proof.
  intros (Hn & _) c. cbn [toks end_of]. rewrite app_nil_r. unfold print_entity. eapply writes_seq; [apply writes_space_entity; exact HC|].
  cbn [tok_bytes]. eapply writes_eq; [eapply writes_seq; [apply writes_str; discriminate|]; eapply writes_seq; [now apply writes_str|]; apply writes_str; discriminate| |]; reflexivity.
Qed.
Lemma prints_parts l ps : allows_bare l = false -> Forall (part_ok C) ps -> alternating ps ->
  exists ts, prints (print_parts C l ps) ts /\ Forall tok_ok ts /\ merge_parts (map tok_part ts) = ps.
Proof.
  intros Hl. induction ps as [|p ps IH]; intros F A.
  - exists []. split; [apply prints_nop|auto].
  - inversion F as [|? ? Hp F']; subst. assert (A' : alternating ps) by (destruct ps; [exact I|apply A]).
    destruct (IH F' A') as (ts & P & O & E). cbn [print_parts]. destruct p as [t|n].
    + destruct (shows_nonempty l t Hp Hl) as (us & P1 & O1 & T1 & E1 & N1). exists (us ++ ts). split; [now apply prints_seq|]. split; [now apply Forall_app|].
      rewrite map_app, merge_texts; auto; [now rewrite E1, E|]. rewrite E. intros u r X. rewrite X in A. apply A. auto.
    + exists (TR n :: ts). split; [apply prints_cons; auto; now apply prints_ref; apply Hp|]. split; [constructor; auto|]. cbn. now rewrite E.
Qed.

(** The tokens as pieces of the grammar. *)
Definition sout (ts : list tok) : bytes := match ts with [] => [] | t :: r => tok_bytes t ++ toks (tok_last t) r end.
Definition lead (c : N) (ts : list tok) : bytes := match ts with [] => [] | t :: _ => tok_sep t c end.
Lemma toks_lead c ts : toks c ts = lead c ts ++ sout ts.
Proof. destruct ts; reflexivity. Qed.
Lemma tok_first t z : tok_ok t -> exists r, tok_bytes t ++ z = (if is_quote t then cQ else cAMP) :: r.
Proof.
  destruct t as [d b| |u|n]; cbn [tok_ok tok_bytes is_quote].
  - intros (H & _). destruct d; [lia|]. cbn. eauto.
  - cbn. eauto.
  - cbn. eauto.
  - cbn. eauto.
Qed.
Lemma sepb_gap b y : ~ begins_white y -> gap (sepb b) y.
Proof. intros H. split; auto. destruct b; [|now left]. right. exists cSP, []. split; auto. split; [reflexivity|constructor]. Qed.
Lemma tok_white t z : tok_ok t -> ~ begins_white (tok_bytes t ++ z).
Proof. intros H. destruct (tok_first t z H) as (r & ->). destruct (is_quote t); apply solid_ascii; reflexivity. Qed.
Lemma tok_piece pre t z : tok_ok t -> (is_quote t = true -> ~ starts (is cQ) z) -> piece pre (tok_bytes t) z (tok_part t).
Proof.
  destruct t as [d b| |u|n]; cbn [tok_ok tok_bytes is_quote tok_part]; intros H Hz.
  - destruct H as (H1 & H2 & H3 & H4 & H5). apply pc_quote. rewrite <- (text_block_single (column pre + d) b) at 2 by assumption. apply q_text; auto.
  - apply pc_quote. apply q_empty. auto.
  - apply pc_entity. now apply (char_ref_entity C).
  - destruct H. apply pc_entity. now apply e_named.
Qed.
(** After a token comes the separator and the next one. *)
Lemma tok_next t u y : tok_ok u -> is_quote t = true -> ~ starts (is cQ) (tok_sep u (tok_last t) ++ tok_bytes u ++ y).
Proof.
  intros H Hq. unfold tok_sep, tok_last. rewrite Hq. destruct (tok_first u y H) as (r & E). destruct (is_quote u) eqn:Eu; cbn; rewrite ?starts_cons; [discriminate|].
  rewrite E. rewrite starts_cons. discriminate.
Qed.
Lemma toks_pieces ts : Forall tok_ok ts -> forall pre z, starts (is cRP) z -> Grammar.pieces pre (sout ts) z (map tok_part ts).
Proof.
  induction ts as [|t ts IH]; intros F pre z Hz; cbn [sout map]; [now apply ps_end|].
  inversion F; subst. rewrite toks_lead. apply ps_cons.
  - apply tok_piece; auto. intros Hq. destruct ts as [|u ts]; cbn [lead sout app].
    + destruct Hz as (c & r & -> & Hc). rewrite starts_cons. apply N.eqb_eq in Hc. subst c. discriminate.
    + rewrite <- app_assoc. apply tok_next; auto. now inversion H2.
  - destruct ts as [|u ts]; cbn [lead sout].
    + apply gap_nil. destruct Hz as (c & r & -> & Hc). apply N.eqb_eq in Hc. subst c. apply solid_ascii; reflexivity.
    + apply sepb_gap. rewrite <- app_assoc. apply tok_white. now inversion H2.
  - apply IH; auto.
Qed.

(** ** Values *)
Lemma last_bare t : bare t [] -> ~ In (List.last t 0) (0 :: ends_value).
Proof.
  intros (H1 & H2 & _ & _ & H5) I. destruct (exists_last H1) as (x & c & E). rewrite E, last_last in I.
  destruct I as [I|I]; [apply H2; rewrite E, I; apply in_or_app; right; now left|].
  apply (H5 x [c] E); [discriminate|]. right. right. exists c, []. split; auto. unfold one_of. apply existsb_exists. exists c. split; auto. apply N.eqb_refl.
Qed.
Lemma bare_first t z : bare t z -> ~ begins_white (t ++ z).
Proof. intros (H1 & _ & _ & _ & H5) W. apply (H5 [] t); auto. right. now left. Qed.

Record valued (a : op) (c : N) (ps : list part) (v : bytes) (e : ekind) (c' : N) : Prop := {
  vd_writes : writes a c v c';
  vd_end : end_char e c';
  vd_value : forall pre w y, after e w y -> value pre v (w ++ y) ps /\ ~ begins_white (v ++ w ++ y);
  vd_bare : e = Ebare -> exists t, ps = [PText t] /\ bare t [] /\ c' = List.last t 0;
  vd_same : e = Ebare -> ps = [PText v] }.
Lemma writes_value_from c0 l ps : In c0 [0; cEQ] -> value_ok C ps -> l = LElem \/ l = LAttr -> exists v e c', In e [Equo; Eany; Ebare] /\ valued (print_value C l ps) c0 ps v e c'.
Proof.
  intros Hc (Hn & F & A & Tb) Hl. unfold print_value. destruct (is_compound C ps) eqn:Ec.
  - destruct (prints_parts (enter_compound l) ps) as (ts & P & O & E); auto; [destruct Hl; subst; reflexivity|].
    exists ([cLP] ++ sout ts ++ [cRP]), Eany, cRP. split; [right; now left|]. constructor.
    + apply writes_ask. intros s _ _ _. rewrite HC. cbn [negb when]. specialize (P cLP).
      eapply writes_eq.
      * eapply writes_seq; [apply writes_str; discriminate|]. eapply writes_seq; [apply writes_nop|]. eapply writes_seq; [apply writes_line|].
        eapply writes_seq; [exact P|]. eapply writes_seq; [apply writes_nop|]. eapply writes_seq; [apply writes_str; discriminate|apply writes_line].
      * rewrite toks_lead. assert (X : lead cLP ts = []). { destruct ts as [|t ts]; auto. cbn. unfold tok_sep. destruct (is_quote t); reflexivity. }
        rewrite X. cbn [app]. now rewrite ?app_nil_r.
      * reflexivity.
    + right. now left.
    + intros pre w y _. split; [|apply solid_ascii; reflexivity]. rewrite <- E. apply (v_compound pre [] (sout ts)).
      * apply gap_nil. destruct ts as [|t ts]; [apply solid_ascii; reflexivity|]. cbn [sout]. rewrite <- app_assoc. apply tok_white. now inversion O.
      * apply toks_pieces; auto. exists cRP, (w ++ y). auto.
    + discriminate.
    + discriminate.
  - assert (X : exists k, prints (print_parts C l ps) [k] /\ tok_ok k /\ ps = [tok_part k] \/ exists t, ps = [PText t] /\ bare t [] /\ print_text C l t = print_range t).
    { destruct ps as [|[t|n] [|q ps]]; try discriminate; [congruence| |]; inversion F as [|? ? Hp]; subst.
      - cbn in Ec. destruct (single_text C HC l t Hp (Tb t eq_refl) Ec Hl) as [(B1 & B2)|(k & P & O & E)]; [|exists k; left].
        + exists T0. right. eauto.
        + split; [|rewrite E; auto]. intros d. cbn [print_parts print_part]. pose proof (prints_seq _ _ _ _ P prints_nop) as X. now rewrite app_nil_r in X.
      - exists (TR n). left. split; [|auto]. cbn [print_parts print_part]. assert (Pr : prints (print_entity C n) [TR n]) by (apply prints_ref; apply Hp).
        pose proof (prints_seq _ _ _ _ Pr prints_nop) as X. now rewrite app_nil_r in X. }
    destruct X as (k & [(P & O & ->)|(t & -> & B1 & B2)]).
    + exists (tok_bytes k), (if is_quote k then Equo else Eany), (tok_last k). split; [destruct (is_quote k); cbn; auto|]. constructor.
      * apply writes_ask. intros s _ _ _. eapply writes_eq; [eapply writes_seq; [apply P|apply writes_line]| |reflexivity].
        rewrite app_nil_r. cbn [toks]. rewrite app_nil_r. unfold tok_sep. destruct Hc as [<-|[<-|[]]]; destruct (is_quote k); reflexivity.
      * unfold tok_last. destruct (is_quote k); cbn; auto.
      * intros pre w y Hy. split; [|now apply tok_white]. apply v_piece. apply tok_piece; auto. intros Hq. rewrite Hq in Hy. exact Hy.
      * destruct (is_quote k); discriminate.
      * destruct (is_quote k); discriminate.
    + exists t, Ebare, (List.last t 0). split; [cbn; auto|]. constructor.
      * apply writes_ask. intros s _ _ _. cbn [print_parts print_part]. rewrite B2. eapply writes_eq; [eapply writes_seq; [eapply writes_seq; [apply writes_range; eapply bare_stray; exact B1|apply writes_nop]|apply writes_line]| |].
        -- now rewrite !app_nil_r.
        -- destruct B1 as (B1 & _). destruct t; [congruence|reflexivity].
      * now apply last_bare.
      * intros pre w y Hy. assert (B3 : bare t (w ++ y)) by (apply bare_after; auto). split; [now apply v_bare|now apply bare_first].
      * eauto.
      * reflexivity.
Qed.
Lemma writes_value l ps : value_ok C ps -> l = LElem \/ l = LAttr -> exists v e c', In e [Equo; Eany; Ebare] /\ valued (print_value C l ps) cEQ ps v e c'.
Proof. apply writes_value_from. cbn. auto. Qed.

(** ** Attributes *)
Lemma sep_bare c : ~ In c (0 :: ends_value) ->
  (c <> cSEMI -> sep_attribute c = true) /\ (c <> cSEMI -> sep_comment c = true) /\
  (c <> cSEMI -> c <> cSLASH -> sep_element c = true) /\ (c <> cSEMI -> c <> cEQ -> sep_entity c = true).
Proof.
  intros H. assert (X : forall x, In x [0; cQ; cLP; cRP; cLB; cRB] -> (c =? x) = false).
  { intros x I. apply N.eqb_neq. intros ->. apply H. cbn in I |- *. tauto. }
  unfold sep_attribute, sep_comment, sep_element, sep_entity, among.
  repeat split; intros; apply negb_true_iff; cbn [existsb];
    repeat match goal with H : c <> ?x |- _ => apply N.eqb_neq in H; rewrite H; clear H end;
    rewrite ?(X 0), ?(X cQ), ?(X cLP), ?(X cRP), ?(X cLB), ?(X cRB) by (cbn; tauto); reflexivity.
Qed.
Lemma starts_app p a b : starts p a -> starts p (a ++ b).
Proof. intros (c & r & -> & H). exists c, (r ++ b). auto. Qed.
Lemma starts_other p q z : starts p z -> (forall c, p c = true -> q c = false) -> ~ starts q z.
Proof. intros (c & r & -> & H) X. rewrite starts_cons. rewrite (X c H). discriminate. Qed.
Lemma starts_solid p z : starts p z -> (forall c, p c = true -> is_xml_whitespace c = false /\ c < 128) -> ~ begins_white z.
Proof. intros (c & r & -> & H) X. destruct (X c H). now apply solid_ascii. Qed.
Lemma name_not (P : N -> bool) : forallb (fun c => implb (is_xmq_text_name c) (negb (P c))) (map N.of_nat (List.seq 0 128)) = true ->
  forall c, is_xmq_text_name c = true -> P c = false.
Proof. intros H c Hc. apply negb_true_iff. now apply (name_all (fun c => negb (P c))). Qed.
Lemma name_solid z : starts is_xmq_text_name z -> ~ begins_white z.
Proof. intros H. apply (starts_solid _ _ H). intros c Hc. split; [|now apply name_lt]. revert c Hc. apply name_not. reflexivity. Qed.
Lemma rp_solid z : starts (is cRP) z -> ~ begins_white z.
Proof. intros (c & r & -> & H). apply N.eqb_eq in H. subst. apply solid_ascii; reflexivity. Qed.

Lemma name_last n : is_name n -> is_xmq_text_name (List.last n 0) = true.
Proof. intros [H F]. rewrite forallb_forall in F. apply F. now apply last_in. Qed.

Lemma writes_attribute al a : attr_ok C a -> exists t e c', In e [Equo; Eany; Ebare; Ename] /\ starts is_xmq_text_name t /\ end_char e c' /\
  (forall c, writes (print_attribute C al a) c (sepb (sep_attribute c) ++ t) c') /\
  (forall pre w y, after e w y -> attribute pre t w y a) /\
  (e = Ebare -> exists t, snd a = [PText t] /\ bare t [] /\ c' = List.last t 0).
Proof.
  destruct a as [n ps]. intros (Hn & Hv). cbn [fst snd] in *.
  assert (S : starts is_xmq_text_name n). { destruct Hn as ((H1 & H2) & _). destruct n as [|c r]; [congruence|]. cbn in H2. apply andb_true_iff in H2 as [H2 _]. exists c, r. auto. }
  destruct Hv as [-> |(Hv & He)].
  - exists n, Ename, (List.last n 0). split; [cbn; auto|]. split; [exact S|]. split; [apply name_last, Hn|]. split; [|split; [|discriminate]].
    + intros c. unfold print_attribute. cbn [fst snd has_value when]. eapply writes_seq; [apply writes_space_attribute; exact HC|].
      eapply writes_eq; [eapply writes_seq; [apply writes_str, Hn|apply writes_nop]| |reflexivity]. now rewrite app_nil_r.
    + intros pre w y (A1 & A2). apply at_key; auto. intros (c & r & -> & Hc). apply A2. exists c, r. split; auto. cbn. apply N.eqb_eq in Hc. subst c. reflexivity.
  - destruct (writes_value LAttr ps Hv (or_intror eq_refl)) as (v & e & c' & He' & [W E V B _]).
    exists (n ++ [cEQ] ++ v), e, c'. split; [cbn in *; tauto|]. split; [now apply starts_app|]. split; [exact E|]. split; [|split; [|exact B]].
    + intros c. unfold print_attribute. cbn [fst snd]. assert (X : has_value ps = true).
      { destruct ps as [|[[|? ?]|?] ?]; auto; [destruct Hv as (Hv & _); congruence|]. exfalso. eapply He. reflexivity. }
      rewrite X. cbn [when]. eapply writes_seq; [apply writes_space_attribute; exact HC|]. eapply writes_seq; [apply writes_str, Hn|].
      eapply writes_seq; [|exact W]. unfold print_equals. rewrite HC. cbn [negb when].
      eapply writes_eq; [eapply writes_seq; [apply writes_nop|]; eapply writes_seq; [apply writes_str; discriminate|apply writes_nop]| |]; reflexivity.
    + intros pre w y A. destruct (V ((pre ++ n) ++ [] ++ [cEQ] ++ []) w y A) as (V1 & V2). apply at_value; auto.
      apply (as_value (pre ++ n) [] []); [apply gap_nil, solid_ascii; reflexivity|now apply gap_nil|exact V1].
Qed.

Definition lead_attr (l : list attr) (c : N) : bytes := match l with [] => [] | _ => sepb (sep_attribute c) end.
Lemma writes_attrs al l : attrs_ok C l -> exists t, (l = [] -> t = []) /\ (l <> [] -> starts is_xmq_text_name t) /\
  (forall c, exists c', writes (attribute_list C al l) c (lead_attr l c ++ t) c') /\
  (forall pre z, starts (is cRP) z -> Grammar.attributes pre t z l).
Proof.
  induction l as [|a l IH]; intros H.
  - exists []. repeat split; auto; [congruence|intros c; exists c; apply writes_nop|intros; now apply ats_end].
  - destruct H as (Ha & Hs & Hl). destruct (IH Hl) as (t2 & T0 & T1 & T2 & T3). clear IH.
    destruct (writes_attribute al a Ha) as (t & e & c' & He & S & E & W & A & B).
    exists (t ++ lead_attr l c' ++ t2). split; [discriminate|]. split; [intros _; now apply starts_app|]. split.
    + intros c. destruct (T2 c') as (c'' & W2). exists c''. cbn [attribute_list lead_attr]. rewrite app_assoc. eapply writes_seq; [apply W|exact W2].
    + intros pre z Hz. apply ats_cons; [| |now apply T3].
      * apply A. destruct l as [|b l].
        -- rewrite (T0 eq_refl). cbn [lead_attr app]. unfold after.
           destruct He as [<-|[<-|[<-|[<-|[]]]]]; cbn [app]; auto.
           ++ apply (starts_other _ _ _ Hz). intros d Hd. apply N.eqb_eq in Hd. now subst.
           ++ right. destruct Hz as (d & r & -> & Hd). apply N.eqb_eq in Hd. subst. now apply starts_cons.
           ++ split; apply (starts_other _ _ _ Hz); intros d Hd; apply N.eqb_eq in Hd; now subst.
        -- cbn [lead_attr]. assert (T1' : starts is_xmq_text_name (t2 ++ z)) by (apply starts_app, T1; discriminate).
           destruct He as [<-|[<-|[<-|[<-|[]]]]]; cbn [after]; auto.
           ++ cbn in E. subst c'. cbn [sepb sep_attribute among existsb]. apply (starts_other _ _ _ T1'). apply name_not. reflexivity.
           ++ right. destruct (sep_bare c' E) as (X & _). rewrite X; [now apply starts_cons|]. intros ->.
              destruct (B eq_refl) as (u & Eu & Bu & El). destruct Hs as [Hs|Hs]; [discriminate|]. apply Hs. exists u. rewrite <- El. repeat split; auto; try apply Bu. now left.
           ++ cbn in E. assert (X : sep_attribute c' = true) by (revert c' E W A B; intros c' E _ _ _; revert c' E; apply name_all; reflexivity). rewrite X. cbn [sepb app]. split.
              ** rewrite starts_cons. discriminate.
              ** apply (starts_other _ _ _ T1'). apply name_not. reflexivity.
      * destruct l as [|b l]; cbn [lead_attr].
        -- rewrite (T0 eq_refl). now apply gap_nil, rp_solid.
        -- apply sepb_gap, name_solid, starts_app, T1. discriminate.
Qed.

(** ** Names and attributes of elements *)
Lemma writes_head n l : element_name n -> attrs_ok C l -> exists h e c', In e [Ename; Epar] /\ end_char e c' /\ starts is_xmq_element_start h /\
  (forall c, writes (print_name C n l) c (sepb (sep_element c) ++ h) c') /\
  (forall pre z, (e = Ename -> ~ starts is_xmq_text_name z) -> head pre h z n l).
Proof.
  intros Hn Hl. destruct Hn as (N1 & N2 & N3) eqn:EN. clear EN. assert (Nn : n <> []) by (destruct N1 as (? & ? & -> & _); discriminate).
  destruct l as [|a l].
  - exists n, Ename, (List.last n 0). split; [now left|]. split; [apply name_last; split; auto|]. split; auto. split.
    + intros c. unfold print_name. eapply writes_seq; [apply writes_space_key; exact HC|].
      eapply writes_eq; [eapply writes_seq; [now apply writes_str|apply writes_nop]| |reflexivity]. now rewrite app_nil_r.
    + intros pre z Hz. apply h_plain; auto.
  - destruct (writes_attrs (if compact C then 0%nat else attr_width (a :: l)) (a :: l) Hl) as (t & _ & T1 & T2 & T3). destruct (T2 cLP) as (c' & W).
    exists (n ++ [cLP] ++ t ++ [cRP]), Epar, cRP. split; [cbn; auto|]. split; [reflexivity|]. split; [now apply starts_app|]. split.
    + intros c. unfold print_name. eapply writes_seq; [apply writes_space_key; exact HC|]. eapply writes_seq; [now apply writes_str|].
      eapply writes_seq; [apply writes_str; discriminate|]. eapply writes_seq; [|apply writes_str; discriminate].
      unfold print_attributes. apply writes_ask. intros s _ _ _.
      eapply writes_eq; [eapply writes_seq; [apply writes_line|]; eapply writes_seq; [exact W|apply writes_line]| |reflexivity]. now rewrite app_nil_r.
    + intros pre z _. apply (h_attrs pre n [] []); auto.
      * apply gap_nil, solid_ascii; reflexivity.
      * apply gap_nil. cbn [app]. apply name_solid, starts_app, T1. discriminate.
      * apply T3. exists cRP, z. auto.
Qed.

(** ** Comments *)
Lemma max_slashes_spec s : forall counting curr max m, max_slashes s counting curr max = m -> (max <= m)%nat /\
  (counting = true -> forall k y, (1 <= k)%nat -> s = rep cSLASH k ++ y -> (curr + k <= m)%nat) /\
  (forall x k y, s = x ++ [cSTAR] ++ rep cSLASH k ++ y -> (k <= m)%nat).
Proof.
  induction s as [|c s IH]; intros counting curr max m E; cbn [max_slashes] in E.
  - subst m. split; [lia|]. split; [intros _ [|k] y K H; [lia|discriminate]|]. intros [|? ?] k y H; discriminate.
  - assert (G : forall x k y, c :: s = x ++ [cSTAR] ++ rep cSLASH k ++ y -> (x = [] /\ c = cSTAR /\ s = rep cSLASH k ++ y) \/ exists x', s = x' ++ [cSTAR] ++ rep cSLASH k ++ y).
    { intros [|d x] k y H; [left|right]; injection H as -> H; [auto|eauto]. }
    destruct counting, (N.eqb_spec c cSLASH) as [-> |Hc]; cbn [andb] in E.
    + destruct (IH _ _ _ _ E) as (I1 & I2 & I3). split; [lia|]. split.
      * intros _ k y K H. destruct k as [|k]; [lia|]. cbn in H. injection H as H. destruct k as [|k]; [lia|]. specialize (I2 eq_refl (S k) y ltac:(lia) H). lia.
      * intros x k y H. destruct (G _ _ _ H) as [(_ & X & _)|(x' & X)]; [discriminate|eauto].
    + destruct (N.eqb_spec c cSTAR) as [-> |Hs]; destruct (IH _ _ _ _ E) as (I1 & I2 & I3); (split; [lia|]); split.
      * intros _ k y K H. destruct k; [lia|discriminate].
      * intros x k y H. destruct (G _ _ _ H) as [(_ & _ & X)|(x' & X)]; [|eauto]. destruct k as [|k]; [lia|]. specialize (I2 eq_refl (S k) y ltac:(lia) X). lia.
      * intros _ k y K H. destruct k; [lia|]. cbn in H. injection H as H _. contradiction.
      * intros x k y H. destruct (G _ _ _ H) as [(_ & X & _)|(x' & X)]; [contradiction|eauto].
    + destruct (IH _ _ _ _ E) as (I1 & I2 & I3). split; [lia|]. split; [discriminate|].
      intros x k y H. destruct (G _ _ _ H) as [(_ & X & _)|(x' & X)]; [discriminate|eauto].
    + destruct (N.eqb_spec c cSTAR) as [-> |Hs]; destruct (IH _ _ _ _ E) as (I1 & I2 & I3); (split; [lia|]); split; try discriminate.
      * intros x k y H. destruct (G _ _ _ H) as [(_ & _ & X)|(x' & X)]; [|eauto]. destruct k as [|k]; [lia|]. specialize (I2 eq_refl (S k) y ltac:(lia) X). lia.
      * intros x k y H. destruct (G _ _ _ H) as [(_ & X & _)|(x' & X)]; [contradiction|eauto].
Qed.
Lemma star_inside b x k y : b ++ [cSTAR] = x ++ [cSTAR] ++ rep cSLASH k ++ y -> (1 <= k)%nat -> exists y', b = x ++ [cSTAR] ++ rep cSLASH k ++ y'.
Proof.
  intros E K. destruct y as [|d y].
  - exfalso. rewrite app_nil_r in E. destruct k as [|k]; [lia|]. rewrite <- rep_snoc in E. rewrite !app_assoc in E. apply app_inj_tail in E as [_ E]. discriminate.
  - destruct (exists_last (l := d :: y)) as (y' & e & Ey); [discriminate|]. rewrite Ey in E. exists y'. rewrite !app_assoc in E.
    apply app_inj_tail in E as [E _]. rewrite <- !app_assoc in E. exact E.
Qed.
(** The number of slashes that is chosen for a comment (C25): no line of it, and not the whole, ends it. *)
Lemma slashes_enough s b x y : s = x ++ b ++ y -> plain b -> comment_body (count_necessary_slashes s) b.
Proof.
  intros -> P. split; auto. intros u k v E. unfold count_necessary_slashes. destruct k as [|k]; [lia|].
  apply star_inside in E as (v' & E); [|lia]. destruct (max_slashes_spec (x ++ b ++ y) false 0 0 _ eq_refl) as (_ & _ & M).
  assert (X : x ++ b ++ y = (x ++ u) ++ [cSTAR] ++ rep cSLASH (S k) ++ (v' ++ y)) by (rewrite E, <- !app_assoc; reflexivity).
  specialize (M _ _ _ X). lia.
Qed.
Lemma trimmed_front b : trimmed b -> strip_front b = (0%nat, b) /\ strip_back b = b.
Proof.
  intros [H1 H2]. split.
  - destruct b as [|c r]; auto. cbn. destruct (N.eqb_spec c cSP) as [-> |]; auto. exfalso. apply H1. now apply starts_cons.
  - unfold strip_back. destruct (rev b) as [|c r] eqn:E; [now apply (f_equal (@rev _)) in E; rewrite rev_involutive in E|].
    destruct (N.eqb_spec c cSP) as [-> |]; auto. exfalso. apply H2. now apply starts_cons.
Qed.
Lemma trimmed_text col b : trimmed b -> ~ In cNL b -> comment_text col b = b.
Proof. intros T N. unfold comment_text. destruct (trimmed_front b T) as [-> E]. cbn [fst snd]. rewrite E. now apply text_block_single. Qed.
Lemma cut_line_spec s : match cut_line s with (l, None) => s = l /\ ~ In cNL l | (l, Some r) => s = l ++ cNL :: r /\ ~ In cNL l end.
Proof.
  induction s as [|c s IH]; cbn [cut_line]; [auto|]. destruct (N.eqb_spec c cNL) as [-> |H]; [auto|].
  destruct (cut_line s) as [l [r|]]; destruct IH as [-> IH]; (split; [reflexivity|]); intros [X|X]; auto.
Qed.

Lemma split_at_nl l r : ~ In cNL l -> split_lines (l ++ cNL :: r) = l :: split_lines r.
Proof.
  induction l as [|c l IH]; intros H; [reflexivity|]. cbn [app split_lines]. destruct (N.eqb_spec c cNL) as [-> |]; [exfalso; apply H; now left|].
  rewrite IH; auto. intros I. apply H. now right.
Qed.
Lemma split_cut s : split_lines s = match cut_line s with (l, None) => [l] | (l, Some r) => l :: split_lines r end.
Proof. pose proof (cut_line_spec s). destruct (cut_line s) as [l [r|]]; destruct H as [-> N]; [now apply split_at_nl|now apply split_single]. Qed.
Definition next_line (n : nat) (l : bytes) : bytes := [cSTAR] ++ rep cSLASH n ++ [cSTAR] ++ l.
Lemma writes_comment_rest n f : forall s c, (List.length s <= f)%nat -> s <> [] -> List.last (split_lines s) [] <> [] -> no_stray s ->
  exists c', writes (comment_rest C f n s) c (List.concat (map (next_line n) (split_lines s))) c'.
Proof.
  induction f as [|f IH]; intros s c L Hs Hl Hy; [destruct s; [congruence|cbn in L; lia]|].
  cbn [comment_rest]. destruct s as [|d s0] eqn:Es; [congruence|]. rewrite <- Es in *.
  rewrite split_cut in *. pose proof (cut_line_spec s) as X. destruct (cut_line s) as [l t]. rewrite HC.
  assert (W1 : exists c', writes (slashes [cSTAR] [cSTAR] n ;; print_range l) c (next_line n l) c').
  { eexists. eapply writes_eq; [eapply writes_seq; [apply writes_slashes|apply writes_range; destruct t as [r|]; destruct X as [X _]; rewrite X in Hy; [now apply stray_app in Hy|exact Hy]]| |reflexivity]. unfold next_line. now rewrite <- !app_assoc. }
  destruct W1 as (c1 & W1). destruct t as [r|].
  - destruct X as [X N]. assert (Hr : r <> []). { intros ->. apply Hl. reflexivity. }
    destruct (IH r c1) as (c2 & W2); auto.
    + rewrite X, app_length in L. cbn in L. lia.
    + destruct (split_lines r) as [|x y] eqn:Er; [exfalso; now apply (split_lines_ne r)|exact Hl].
    + rewrite X in Hy. apply stray_app in Hy as [_ Hy]. now apply stray_tail in Hy.
    + exists c2. cbn [map List.concat]. intros st E1 E2 E3. destruct (writes_seq _ _ _ _ _ _ _ W1 W2 st E1 E2 E3) as (s' & E & Y). exists s'. now rewrite seq_assoc.
  - exists c1. cbn [map List.concat]. rewrite app_nil_r. intros st E1 E2 E3. rewrite seq_assoc.
    destruct (writes_seq _ _ _ _ _ _ _ W1 (writes_nop c1) st E1 E2 E3) as (s' & E & Y). exists s'. rewrite app_nil_r in E. auto.
Qed.
Lemma bodies_lines n z : ~ starts (one_of [cSLASH; cSTAR]) z -> forall ls pre front, ls <> [] -> Forall trimmed ls -> Forall (fun l => ~ In cNL l) ls -> Forall (comment_body n) ls ->
  bodies n pre front (front ++ List.concat (map (segment n) ls)) z (join_lines ls).
Proof.
  intros Hz. induction ls as [|l ls IH]; intros pre front Hn T N B; [congruence|]. inversion T; inversion N; inversion B; subst.
  rewrite <- (trimmed_text (column pre + n + 1) l) at 2 by auto. destruct ls as [|l2 ls].
  - cbn [map List.concat]. rewrite app_nil_r. cbn [join_lines]. now apply bs_last.
  - rewrite join_cons by discriminate. cbn [map List.concat]. rewrite trimmed_text by auto. rewrite <- (trimmed_text (column pre + n + 1) l) at 2 by auto.
    apply (bs_more n pre front l (List.concat (map (segment n) (l2 :: ls))) z (join_lines (l2 :: ls))); auto.
    apply (IH (pre ++ front ++ segment n l) []); auto. discriminate.
Qed.
Lemma segments_lines n ls l : (l ++ List.concat (map (next_line n) ls)) ++ [cSTAR] ++ rep cSLASH n = l ++ [cSTAR] ++ rep cSLASH n ++ List.concat (map (segment n) ls).
Proof.
  revert l. induction ls as [|m ls IH]; intros l; cbn [map List.concat].
  - now rewrite app_nil_r, ?app_nil_r.
  - unfold next_line at 1. unfold segment at 1. specialize (IH m). rewrite <- !app_assoc in *. rewrite IH. reflexivity.
Qed.

(** ** Chunks of the output *)
Inductive fkind := Fkey | Fent | Fquo | Fcom.
Definition sepf (f : fkind) (c : N) : bool :=
  match f with Fkey => sep_element c | Fent => sep_entity c | Fquo => c =? cQ | Fcom => sep_comment c end.
Definition first_char (f : fkind) (c : N) : bool :=
  match f with
  | Fkey => is_xmq_element_start c || (c =? cQM) || (c =? cBANG)
  | Fent => c =? cAMP | Fquo => c =? cQ | Fcom => c =? cSLASH
  end.
Definition unsepf (f : fkind) : list N :=
  match f with Fkey => [cSEMI; cSLASH] | Fent => [cSEMI; cEQ] | Fquo => [] | Fcom => [cSEMI] end.
Record chunk := Chunk { k_first : fkind; k_body : bytes; k_last : N; k_end : ekind; k_den : node }.
Record good (k : chunk) : Prop := {
  g_first : starts (first_char (k_first k)) (k_body k);
  g_end : end_char (k_end k) (k_last k);
  g_solids : forall pre w t2 z ks, gap w (t2 ++ z) -> after (k_end k) w (t2 ++ z) ->
    solids (pre ++ k_body k ++ w) t2 z ks -> solids pre (k_body k ++ w ++ t2) z (k_den k :: ks) }.
Definition may_follow (x y : chunk) : Prop := k_end x = Ebare -> ~ In (k_last x) (unsepf (k_first y)).
Fixpoint in_order (l : list chunk) : Prop :=
  match l with
  | x :: (y :: _) as r => may_follow x y /\ in_order r
  | _ => True
  end.
Fixpoint outs (c : N) (l : list chunk) : bytes :=
  match l with [] => [] | k :: r => sepb (sepf (k_first k) c) ++ k_body k ++ outs (k_last k) r end.
Fixpoint ending (c : N) (l : list chunk) : N := match l with [] => c | k :: r => ending (k_last k) r end.
Definition produces (a : op) (l : list chunk) : Prop := forall c, writes a c (outs c l) (ending c l).

Lemma outs_app c a b : outs c (a ++ b) = outs c a ++ outs (ending c a) b.
Proof. revert c. induction a as [|t a IH]; intros c; [reflexivity|]. cbn. now rewrite IH, <- !app_assoc. Qed.
Lemma ending_app c a b : ending c (a ++ b) = ending (ending c a) b.
Proof. revert c. induction a as [|t a IH]; intros c; [reflexivity|]. cbn. now rewrite IH. Qed.
Lemma produces_seq a b l m : produces a l -> produces b m -> produces (a ;; b) (l ++ m).
Proof. intros H1 H2 c. rewrite outs_app, ending_app. eapply writes_seq; eauto. Qed.
Lemma produces_nop : produces nop [].
Proof. intros c. apply writes_nop. Qed.

Lemma first_lt f c : first_char f c = true -> c < 128.
Proof.
  destruct f; cbn; rewrite ?N.eqb_eq; try (intros ->; reflexivity). rewrite !orb_true_iff, !N.eqb_eq. intros [[H| ->]| ->]; try reflexivity.
  revert H. unfold is_xmq_element_start, in_range. rewrite !orb_true_iff, !andb_true_iff, !N.leb_le, N.eqb_eq. unfold cUND. lia.
Qed.
Lemma first_not (P : N -> bool) f : forallb (fun c => implb (first_char f c) (negb (P c))) (map N.of_nat (List.seq 0 128)) = true ->
  forall c, first_char f c = true -> P c = false.
Proof.
  intros H c Hc. apply negb_true_iff. pose proof (below_spec 128 _ H c (first_lt f c Hc)) as X. cbn beta in X. now rewrite Hc in X.
Qed.
Lemma first_solid f z : starts (first_char f) z -> ~ begins_white z.
Proof. intros H. apply (starts_solid _ _ H). intros c Hc. split; [|eapply first_lt; eauto]. revert c Hc. apply first_not. destruct f; reflexivity. Qed.
Lemma sep_name f c : is_xmq_text_name c = true -> f <> Fquo -> sepf f c = true.
Proof. intros H Hf. revert c H. destruct f; [..|congruence|]; apply name_all; reflexivity. Qed.

(** What a chunk requires is what comes next. *)
Lemma after_next_gen e c f w : end_char e c -> starts (first_char f) w -> (e = Ebare -> ~ In c (unsepf f)) -> after e (sepb (sepf f c)) w.
Proof.
  intros E F M.
  destruct e; cbn [after end_char] in *.
  - subst c. destruct f; cbn [sepf sepb]; cbn; try (apply (starts_other _ _ _ F); apply first_not; reflexivity). rewrite starts_cons. discriminate.
  - exact I.
  - split; [|apply (starts_other _ _ _ F), first_not; destruct f; reflexivity].
    destruct f; try (rewrite sep_name by (auto; discriminate); cbn; rewrite starts_cons; discriminate).
    cbn [sepf]. assert (X : (c =? cQ) = false) by (revert c E M; intros c E _; revert c E; apply name_not; reflexivity). rewrite X. cbn.
    apply (starts_other _ _ _ F), first_not. reflexivity.
  - apply (starts_other _ _ _ F), first_not; destruct f; reflexivity.
  - right. specialize (M eq_refl). destruct (sep_bare c E) as (_ & S1 & S2 & S3). destruct f; cbn [sepf unsepf] in *.
    + rewrite S2 by (intros ->; apply M; cbn; auto). now apply starts_cons.
    + rewrite S3 by (intros ->; apply M; cbn; auto). now apply starts_cons.
    + assert (X : (c =? cQ) = false) by (apply N.eqb_neq; intros ->; apply E; cbn; auto 10). rewrite X. cbn [sepb app].
      destruct F as (d & r & -> & Hd). apply N.eqb_eq in Hd. subst d. now apply starts_cons.
    + rewrite S1 by (intros ->; apply M; cbn; auto). now apply starts_cons.
  - subst c. destruct f; cbn [sepf sepb]; cbn; try (apply (starts_other _ _ _ F); apply first_not; reflexivity); rewrite starts_cons; discriminate.
Qed.
Lemma after_next x y z : good x -> good y -> may_follow x y -> after (k_end x) (sepb (sepf (k_first y) (k_last x))) (k_body y ++ z).
Proof. intros [_ E _] [F _ _] M. apply after_next_gen; auto. now apply starts_app. Qed.
Lemma after_brace e z : starts (is cRB) z -> after e [] z.
Proof.
  intros (c & r & -> & H). apply N.eqb_eq in H. subst c.
  destruct e; cbn [after app]; rewrite ?starts_cons; auto; try discriminate; split; discriminate.
Qed.
Lemma after_nl e : after e [cNL] [].
Proof.
  destruct e; cbn [after app]; rewrite ?starts_cons; auto; try discriminate; try apply starts_nil. split; [discriminate|apply starts_nil].
Qed.

(** The end of a list of nodes: a brace, or a newline and the end of the source. *)
Definition closed (e z : bytes) : Prop := e = [] /\ starts (is cRB) z \/ e = [cNL] /\ z = [].
Definition souts (l : list chunk) : bytes := match l with [] => [] | k :: r => k_body k ++ outs (k_last k) r end.
Lemma chunks_solids e z : closed e z -> forall l pre, l <> [] -> Forall good l -> in_order l -> solids pre (souts l ++ e) z (map k_den l).
Proof.
  intros Hc. assert (A : forall k, after k e z /\ gap e z).
  { intros k. destruct Hc as [(-> & H)|(-> & ->)]; split; auto using after_brace, after_nl.
    - apply gap_nil. destruct H as (c & r & -> & H). apply N.eqb_eq in H. subst c. apply solid_ascii; reflexivity.
    - split; [|intros H; inversion H]. right. exists cNL, []. split; auto. split; [reflexivity|constructor]. }
  assert (Hz : z = [] \/ starts (is cRB) z) by (destruct Hc as [(_ & ?)|(_ & ?)]; auto).
  induction l as [|x l IH]; intros pre Hn G O; [congruence|]. inversion G; subst. cbn [souts map]. destruct l as [|y l].
  - cbn [outs map]. rewrite app_nil_r. rewrite <- (app_nil_r e). apply (g_solids x H1); cbn [app]; [apply (A Eany)|apply A|]. now apply s_end.
  - cbn [outs]. destruct O as (O1 & O2). inversion H2; subst.
    replace ((k_body x ++ sepb (sepf (k_first y) (k_last x)) ++ k_body y ++ outs (k_last y) l) ++ e)
      with (k_body x ++ sepb (sepf (k_first y) (k_last x)) ++ (souts (y :: l) ++ e)) by (cbn [souts]; now rewrite <- !app_assoc).
    apply (g_solids x H1).
    + apply sepb_gap. cbn [souts]. rewrite <- !app_assoc. eapply first_solid, starts_app, (g_first y); auto.
    + cbn [souts]. rewrite <- !app_assoc. now apply after_next.
    + apply IH; auto. discriminate.
Qed.

(** ** Nodes *)
Record pnode (x : node) (l : list chunk) : Prop := {
  n_ne : l <> [];
  n_good : Forall good l;
  n_order : in_order l;
  n_den : forall m, (forall t, x = Part (PText t) -> forall u r, merge_nodes m <> Part (PText u) :: r) ->
    merge_nodes (map k_den l ++ m) = x :: merge_nodes m;
  n_first : forall k r, l = k :: r -> incl (unsepf (k_first k)) (unseparated x);
  n_last : forall k r, l = r ++ [k] -> k_end k = Ebare -> exists t, last_value x = Some [PText t] /\ bare t [] /\ k_last k = List.last t 0 }.

Lemma one_chunk x k : good k -> k_den k = x -> (forall t, x <> Part (PText t)) -> incl (unsepf (k_first k)) (unseparated x) ->
  (k_end k = Ebare -> exists t, last_value x = Some [PText t] /\ bare t [] /\ k_last k = List.last t 0) -> pnode x [k].
Proof.
  intros G D T F L. constructor.
  - discriminate.
  - constructor; auto.
  - exact I.
  - intros m _. cbn [map app]. rewrite D. destruct x as [n l b|[t|n]|t|n t|t]; try reflexivity. exfalso. now apply (T t).
  - intros k' r E. injection E as <- <-. exact F.
  - intros k' r E. destruct r as [|? [|? ?]]; try discriminate. now injection E as <-.
Qed.

Definition tchunk (t : tok) : chunk :=
  Chunk (if is_quote t then Fquo else Fent) (tok_bytes t) (tok_last t) (if is_quote t then Equo else Eany) (Part (tok_part t)).
Lemma tok_good t : tok_ok t -> good (tchunk t).
Proof.
  intros H. constructor; cbn.
  - destruct (tok_first t [] H) as (r & E). rewrite app_nil_r in E. rewrite E. apply starts_cons. destruct (is_quote t); reflexivity.
  - unfold tok_last. destruct (is_quote t); cbn; auto.
  - intros pre w t2 z ks G A S. apply s_flat; auto. apply f_piece. apply tok_piece; auto. intros Hq. rewrite Hq in A. exact A.
Qed.
Lemma outs_toks ts : forall c, outs c (map tchunk ts) = toks c ts /\ ending c (map tchunk ts) = end_of c ts.
Proof.
  induction ts as [|t ts IH]; intros c; [auto|]. cbn [map outs toks ending end_of]. change (k_last (tchunk t)) with (tok_last t). destruct (IH (tok_last t)) as [-> ->]. split; auto.
  f_equal. cbn. unfold tok_sep. destruct (is_quote t); reflexivity.
Qed.
Lemma merge_text_nodes ts m : Forall text_tok ts -> ts <> [] -> (forall u r, merge_nodes m <> Part (PText u) :: r) ->
  merge_nodes (map (fun t => Part (tok_part t)) ts ++ m) = Part (PText (texts_of ts)) :: merge_nodes m.
Proof.
  induction ts as [|t ts IH]; intros F Hn Hm; [congruence|]. inversion F; subst.
  assert (X : exists u, tok_part t = PText u /\ tok_text t = u) by (destruct t; cbn in *; eauto; contradiction).
  destruct X as (u & E1 & E2). cbn [map app merge_nodes]. rewrite E1. destruct ts as [|t2 ts].
  - cbn [map app]. unfold texts_of. cbn. rewrite app_nil_r, E2. destruct (merge_nodes m) as [|[]] eqn:E; auto. destruct p; auto. exfalso. now apply (Hm t0 l).
  - rewrite IH by (auto; discriminate). unfold texts_of. cbn [map List.concat]. now rewrite E2.
Qed.
Lemma in_order_toks ts : in_order (map tchunk ts).
Proof.
  induction ts as [|t ts IH]; [exact I|]. destruct ts as [|u ts]; [exact I|]. split; [|exact IH]. intros E. cbn in E. destruct (is_quote t); discriminate.
Qed.

Lemma node_text t : text_ok C t -> exists l, (forall al, produces (print_node C al (Part (PText t))) l) /\ pnode (Part (PText t)) l.
Proof.
  intros T. destruct (shows_nonempty LXmq t T eq_refl) as (ts & P & O & X & E & N). exists (map tchunk ts). split.
  - intros al c. cbn [print_node]. destruct (outs_toks ts c) as [-> ->]. apply writes_ask. intros s _ _ _.
    eapply writes_eq; [eapply writes_seq; [apply P|apply writes_line]| |reflexivity]. now rewrite app_nil_r.
  - constructor.
    + now destruct ts.
    + apply Forall_map. revert O. apply Forall_impl. exact tok_good.
    + apply in_order_toks.
    + intros m Hm. rewrite map_map. cbn [k_den tchunk]. rewrite merge_text_nodes; auto; [now rewrite E|]. eauto.
    + intros k r Ek. destruct ts as [|u ts]; [discriminate|]. injection Ek as <- _. cbn. destruct (is_quote u); intros y Hy; cbn in *; tauto.
    + intros k r Ek. assert (I : In k (map tchunk ts)) by (rewrite Ek; apply in_or_app; right; now left). apply in_map_iff in I as (u & <- & _).
      cbn. destruct (is_quote u); discriminate.
Qed.
Lemma node_ref n : is_name n -> ~ starts (is cHASH) n -> exists l, (forall al, produces (print_node C al (Part (PRef n))) l) /\ pnode (Part (PRef n)) l.
Proof.
  intros H1 H2. exists [tchunk (TR n)]. split.
  - intros al c. cbn [print_node]. change [tchunk (TR n)] with (map tchunk [TR n]). destruct (outs_toks [TR n] c) as [-> ->]. now apply prints_ref.
  - apply one_chunk; try reflexivity; try discriminate; [|intros y Hy; exact Hy]. apply tok_good. split; auto.
Qed.

Lemma key_good h z : starts is_xmq_element_start h -> starts (first_char Fkey) (h ++ z).
Proof. intros (c & r & -> & H). cbn. apply starts_cons. cbn. now rewrite H. Qed.
Lemma equals_compact p c : writes (print_equals C p) c [cEQ] cEQ.
Proof.
  unfold print_equals. rewrite HC. cbn [negb when].
  eapply writes_eq; [eapply writes_seq; [apply writes_nop|]; eapply writes_seq; [apply writes_str; discriminate|apply writes_nop]| |]; reflexivity.
Qed.

Lemma node_leaf n l : element_name n -> attrs_ok C l -> exists k, (forall al, produces (print_node C al (Elem n l [])) k) /\ pnode (Elem n l []) k.
Proof.
  intros Hn Hl. destruct (writes_head n l Hn Hl) as (h & e & c' & He & E & S & W & H).
  exists [Chunk Fkey h c' e (Elem n l [])]. split.
  - intros al c. cbn [print_node outs ending k_first k_body k_last sepf]. rewrite app_nil_r. apply W.
  - apply one_chunk; try reflexivity; try discriminate; try (intros y Hy; exact Hy).
    + constructor; cbn [k_first k_body k_last k_end k_den]; auto.
      * rewrite <- (app_nil_r h). eapply key_good; eauto.
      * intros pre w t2 z ks G A X. apply s_flat; auto. apply f_leaf.
        -- apply H. intros ->. apply A.
        -- destruct He as [<-|[<-|[]]]; apply A.
    + cbn. intros ->. destruct He as [|[|[]]]; discriminate.
Qed.
Lemma as_parts_map ps : as_parts (map Part ps) = Some ps.
Proof. induction ps as [|p ps IH]; [reflexivity|]. cbn. now rewrite IH. Qed.
Lemma node_value n l ps : element_name n -> attrs_ok C l -> value_ok C ps ->
  exists k, (forall al, produces (print_node C al (Elem n l (map Part ps))) k) /\ pnode (Elem n l (map Part ps)) k.
Proof.
  intros Hn Hl Hv. destruct (writes_head n l Hn Hl) as (h & e & c' & He & E & S & W & H).
  destruct (writes_value LElem ps Hv (or_introl eq_refl)) as (v & e2 & c2 & He2 & [W2 E2 V2 B2 _]).
  exists [Chunk Fkey (h ++ [cEQ] ++ v) c2 e2 (Elem n l (map Part ps))]. split.
  - intros al c. cbn [print_node outs ending k_first k_body k_last sepf]. rewrite app_nil_r.
    assert (K : key_value (map Part ps) = Some ps).
    { unfold key_value. destruct (map Part ps) eqn:Em; [|now rewrite <- Em, as_parts_map]. destruct ps; [destruct Hv as (Hv & _); congruence|discriminate]. }
    destruct (map Part ps) eqn:Em; [discriminate K|]. rewrite K. rewrite app_assoc. eapply writes_seq; [apply W|]. eapply writes_seq; [|exact W2].
    apply writes_ask. intros s _ _ _. apply equals_compact.
  - apply one_chunk; try reflexivity; try discriminate; try (intros y Hy; exact Hy).
    + constructor; cbn [k_first k_body k_last k_end k_den]; auto.
      * eapply key_good; eauto.
      * intros pre w t2 z ks G A X. apply s_flat; auto. destruct (V2 ((pre ++ h) ++ [] ++ [cEQ] ++ []) w (t2 ++ z) A) as (V3 & V4).
        apply (f_value pre h ([] ++ [cEQ] ++ [] ++ v)).
        -- apply H. intros _. cbn. rewrite starts_cons. discriminate.
        -- apply as_value; [apply gap_nil, solid_ascii; reflexivity|now apply gap_nil|exact V3].
    + cbn [k_end k_last last_value]. intros Eb. destruct (B2 Eb) as (t & -> & B & L). exists t. split; auto.
Qed.

Lemma no_newlines_id t : ~ In cNL t -> no_newlines t = t.
Proof.
  intros H. unfold no_newlines. rewrite <- (map_id t) at 2. apply map_ext_in. intros c I. destruct (N.eqb_spec c cNL) as [-> |]; [contradiction|reflexivity].
Qed.
Lemma add_spaces_id t : ~ starts (is cQ) t -> ~ starts (is cQ) (rev t) -> add_spaces t = t /\ pad_quotes t = t.
Proof.
  intros H1 H2. apply first_starts in H1, H2. unfold add_spaces, pad_quotes.
  destruct t as [|c r]; [split; reflexivity|]. cbn in H1. rewrite H1. destruct (rev (c :: r)) as [|d y]; cbn in H2; rewrite ?H2; split; now rewrite ?app_nil_r.
Qed.
Lemma writes_str0 b c : exists c', writes (print_str b) c b c'.
Proof. destruct b as [|d r]; [exists c; apply writes_nop|]. eexists. apply writes_str. discriminate. Qed.
Lemma writes_calm l t : (l = LElem \/ l = LAttr) -> pi_ok C t -> exists v e c', In e [Equo; Ebare] /\ writes (print_text C l t) cEQ v c' /\ end_char e c' /\
    (forall pre w y, after e w y -> text_value pre v (w ++ y) t /\ ~ begins_white (v ++ w ++ y)) /\ (e = Ebare -> bare t [] /\ c' = List.last t 0).
Proof.
  intros Hl (Ht & T & N & K & Tb & Tt & Q1 & Q2).
  unfold print_text. destruct (calm_text C HC (List.length t) l t) as [(B1 & _ & B2)|(d & P & O)]; auto.
    - exists t, Ebare, (List.last t 0). split; [cbn; auto|]. rewrite B2. split.
      + eapply writes_eq; [apply writes_range; eapply bare_stray; exact B1|reflexivity|]. destruct t; [congruence|reflexivity].
      + split; [now apply last_bare|]. split; auto. intros pre w y A. assert (B3 : bare t (w ++ y)) by now apply bare_after. split; [now apply tv_bare|now apply bare_first].
    - exists (tok_bytes (TQ d t)), Equo, cQ. split; [cbn; auto|]. split.
      + eapply writes_eq; [apply P| |reflexivity]. cbn [toks]. rewrite app_nil_r. reflexivity.
      + split; [reflexivity|]. split; [|discriminate]. intros pre w y A. split; [|now apply tok_white]. apply tv_quote.
        destruct O as (O1 & O2 & O3 & O4 & O5).
        cbn [tok_bytes]. rewrite <- (text_block_single (column pre + d) t) at 2 by assumption. apply q_text; auto.
Qed.
Lemma node_pi n t : forallb is_xmq_text_name n = true -> pi_ok C t -> exists k, (forall al, produces (print_node C al (PI n t)) k) /\ pnode (PI n t) k.
Proof.
  intros Hn HP. pose proof HP as (Ht & T & N & K & Tb & Tt & Q1 & Q2). destruct (add_spaces_id t Q1 Q2) as (Ea & Ep).
  pose proof (writes_calm LElem t (or_introl eq_refl) HP) as X.
  destruct X as (v & e & c' & He & W & E & V & B).
  exists [Chunk Fkey ([cQM] ++ n ++ [] ++ [cEQ] ++ [] ++ v) c' e (PI n t)]. split.
  - intros al c. cbn [print_node outs ending k_first k_body k_last sepf]. rewrite app_nil_r. unfold print_pi. rewrite Ea, HC, no_newlines_id by auto.
    destruct (writes_str0 n cQM) as (c1 & W1). change ([] ++ [cEQ] ++ [] ++ v) with ([cEQ] ++ v).
    eapply writes_seq; [apply writes_space_key; exact HC|]. eapply writes_seq; [apply writes_str; discriminate|]. eapply writes_seq; [exact W1|].
    eapply writes_seq; [apply equals_compact|exact W].
  - apply one_chunk; try reflexivity; try discriminate; try (intros y Hy; exact Hy).
    + constructor; cbn [k_first k_body k_last k_end k_den]; auto; [now apply starts_cons|].
      intros pre w t2 z ks G A X. apply s_flat; auto. destruct (V (pre ++ [cQM] ++ n ++ [] ++ [cEQ] ++ []) w (t2 ++ z) A) as (V1 & V2).
      rewrite <- Ep. apply f_pi; auto; [apply gap_nil, solid_ascii; reflexivity|now apply gap_nil].
    + cbn [k_end k_last last_value]. intros Eb. destruct (B Eb) as (B1 & B2). exists t. auto.
Qed.
Lemma bare_text f t : bare t [] -> value_text C (S f) LElem t [0] = print_range t.
Proof.
  intros B. pose proof B as (H1 & H2 & H3 & _ & H5). cbn [value_text]. destruct t as [|c r] eqn:Et; [congruence|]. rewrite <- Et in *.
  assert (X : ~ value_end t). { specialize (H5 [] t eq_refl H1). now rewrite app_nil_r in H5. }
  assert (Hc : is_xml_whitespace c = false). { destruct (is_xml_whitespace c) eqn:W; auto. exfalso. apply X. right. left. rewrite Et. now apply bw_1. }
  assert (A1 : all_are cQ t = false). { rewrite Et. cbn. destruct (N.eqb_spec c cQ) as [-> |]; auto. exfalso. apply X. right. right. rewrite Et. now apply starts_cons. }
  assert (A2 : all_are cSP t = false). { rewrite Et. cbn. destruct (N.eqb_spec c cSP) as [-> |]; auto. discriminate. }
  assert (A3 : forallb is_xml_whitespace t = false). { rewrite Et. cbn [forallb]. now rewrite Hc. }
  rewrite A1, A2, A3. cbn [andb]. rewrite (proj2 (text_value_bare t [] H1 H2) B). reflexivity.
Qed.
Lemma bare_nl t : bare t [] -> ~ In cNL t.
Proof.
  intros (_ & _ & _ & _ & H) I. apply List.in_split in I as (x & y & ->). apply (H x (cNL :: y)); [reflexivity|discriminate|]. right. left. now apply bw_1.
Qed.
Lemma node_doctype t : bare t [] -> exists k, (forall al, produces (print_node C al (Doctype t)) k) /\ pnode (Doctype t) k.
Proof.
  intros Bt. exists [Chunk Fkey (B "!DOCTYPE" ++ [] ++ [cEQ] ++ [] ++ t) (List.last t 0) Ebare (Doctype t)]. split.
  - intros al c. cbn [print_node outs ending k_first k_body k_last sepf]. rewrite app_nil_r. unfold print_doctype, print_text. rewrite HC, no_newlines_id, bare_text by (auto using bare_nl). change ([] ++ [cEQ] ++ [] ++ t) with ([cEQ] ++ t).
    eapply writes_seq; [apply writes_space_key; exact HC|]. eapply writes_seq; [apply writes_str; discriminate|].
    eapply writes_seq; [apply equals_compact|]. eapply writes_eq; [apply writes_range; eapply bare_stray; exact Bt|reflexivity|]. destruct Bt as (Bt & _). destruct t; [congruence|reflexivity].
  - apply one_chunk; try reflexivity; try discriminate; try (intros y Hy; exact Hy).
    + constructor; cbn [k_first k_body k_last k_end k_den]; auto; [now apply starts_cons|now apply last_bare|].
      intros pre w t2 z ks G A X. apply s_flat; auto. assert (B3 : bare t (w ++ t2 ++ z)) by now apply bare_after.
      apply f_doctype; auto; [apply gap_nil, solid_ascii; reflexivity|]. apply gap_nil. now apply bare_first.
    + cbn [k_last last_value]. intros _. exists t. auto.
Qed.

Lemma nl_free s : has_newlines s = false -> ~ In cNL s.
Proof. unfold has_newlines. intros H I. assert (existsb (fun c => c =? cNL) s = true) by (apply existsb_exists; exists cNL; auto). congruence. Qed.
Lemma plain_lines s : plain s -> Forall plain (split_lines s).
Proof.
  intros [H1 H2]. rewrite <- (join_split s) in H1, H2. pose proof (split_lines_ne s). revert H1 H2 H. generalize (split_lines s). induction l as [|l ls IH]; intros H1 H2 Hn; [auto|].
  destruct ls as [|m ls].
  - constructor; [split; auto|auto].
  - rewrite join_cons in H1, H2 by discriminate. constructor.
    + split; intros I; [apply H1|apply H2]; apply in_or_app; now left.
    + apply IH; [intros I; apply H1|intros I; apply H2|discriminate]; apply in_or_app; right; now right.
Qed.
Lemma line_part s l : In l (split_lines s) -> exists x y, s = x ++ l ++ y.
Proof.
  pose proof (join_split s) as J. pose proof (split_lines_ne s) as H. intros I. rewrite <- J. clear J. revert H I. generalize (split_lines s). clear s.
  induction l0 as [|m ls IH]; intros Hn I; [destruct I|].
  destruct ls as [|m2 ls].
  - destruct I as [<-|[]]. exists [], []. cbn. now rewrite app_nil_r.
  - rewrite join_cons by discriminate. destruct I as [<-|I].
    + exists [], (cNL :: join_lines (m2 :: ls)). reflexivity.
    + destruct (IH ltac:(discriminate) I) as (x & y & E). exists (m ++ cNL :: x), y. rewrite E, <- app_assoc. reflexivity.
Qed.
Lemma writes_comment t : comment_ok t -> exists b, starts (is cSLASH) b /\ (forall c, writes (print_comment C t) c (sepb (sep_comment c) ++ b) cSLASH) /\
      forall pre z, ~ starts (one_of [cSLASH; cSTAR]) z -> comment pre b z t.
Proof.
  intros (P & Sy & H).
  unfold print_comment. destruct (has_newlines t) eqn:En; cbn [negb].
    - destruct H as (T & L). set (n := count_necessary_slashes t). exists (rep cSLASH n ++ List.concat (map (segment n) (split_lines t))).
      split; [apply starts_app; exists cSLASH, (rep cSLASH (max_slashes t false 0 0)); auto|]. split.
      + intros c. eapply writes_seq; [apply writes_space_comment; exact HC|].
        unfold comment_lines. fold n. pose proof (split_cut t) as Sc. pose proof (cut_line_spec t) as X. destruct (cut_line t) as [l [r|]]; destruct X as [Et N].
        * rewrite Sc in *. assert (Hr : r <> []) by (intros ->; apply L; reflexivity).
          assert (Lr : List.last (split_lines r) [] <> []). { destruct (split_lines r) as [|x y] eqn:Er; [exfalso; now apply (split_lines_ne r)|exact L]. }
          rewrite HC. cbn [negb andb when fst snd].
          destruct (writes_comment_rest n (List.length t) r (match l with [] => c | _ => List.last l 0 end)) as (c2 & W2); auto.
          { rewrite Et, app_length. cbn. lia. }
          { rewrite Et in Sy. apply stray_app in Sy as [_ Sy]. now apply stray_tail in Sy. }
          eapply writes_eq.
          { eapply writes_seq; [|apply writes_set]. apply writes_ask. intros s _ _ _. eapply writes_seq; [apply writes_slashes|]. eapply writes_seq; [apply writes_nop|].
            eapply writes_seq; [apply writes_line|]. eapply writes_seq; [apply writes_range; rewrite Et in Sy; now apply stray_app in Sy|]. eapply writes_seq; [exact W2|].
            eapply writes_seq; [apply writes_nop|]. eapply writes_seq; [apply writes_slashes|]. eapply writes_seq; [apply writes_set|apply writes_line]. }
          { cbn [app map List.concat]. rewrite !app_nil_r. pose proof (segments_lines n (split_lines r) l) as Y. cbn [app] in Y. rewrite <- app_assoc in Y.
            rewrite <- !app_assoc. rewrite Y. unfold segment at 2. rewrite <- !app_assoc. reflexivity. }
          reflexivity.
        * exfalso. subst l. apply (@not_true_iff_false (has_newlines t)) in En; auto. unfold has_newlines. apply not_true_iff_false. intros Y. apply existsb_exists in Y as (d & I & Ed). apply N.eqb_eq in Ed. subst d. contradiction.
      + intros pre z Hz. apply (c_block pre n); [unfold n, count_necessary_slashes; lia|]. rewrite <- (join_split t) at 2. apply bodies_lines; auto.
        * apply split_lines_ne.
        * apply split_nl_free.
        * apply Forall_forall. intros l I. destruct (line_part t l I) as (x & y & E). apply (slashes_enough t l x y E).
          pose proof (plain_lines t P) as F. rewrite Forall_forall in F. auto.
    - destruct H as (T & S). apply nl_free in En. exists ([cSLASH; cSTAR] ++ t ++ [cSTAR; cSLASH]). split; [now apply starts_cons|]. split.
      + intros c. eapply writes_seq; [apply writes_space_comment; exact HC|]. rewrite HC.
        eapply writes_eq; [eapply writes_seq; [apply writes_str; discriminate|]; eapply writes_seq; [apply writes_range; exact Sy|]; eapply writes_seq; [apply writes_str; discriminate|apply writes_set]| |reflexivity].
        now rewrite app_nil_r.
      + intros pre z Hz. apply (c_block pre 1); [lia|]. rewrite <- (trimmed_text (column pre + 1 + 1) t) at 2 by auto.
        change ([cSLASH; cSTAR] ++ t ++ [cSTAR; cSLASH]) with (rep cSLASH 1 ++ segment 1 t). apply bs_last; auto. split; auto.
        intros x k y E. destruct k as [|k]; [lia|]. exfalso. apply star_inside in E as (y' & E); [|lia]. apply (S x (rep cSLASH k ++ y')). rewrite E. reflexivity.
Qed.
Lemma node_comment t : comment_ok t -> exists k, (forall al, produces (print_node C al (Comment t)) k) /\ pnode (Comment t) k.
Proof.
  intros H. pose proof (writes_comment t H) as X.
  destruct X as (b & S & W & Cm). exists [Chunk Fcom b cSLASH Ecom (Comment t)]. split.
  - intros al c. cbn [print_node outs ending k_first k_body k_last sepf]. rewrite app_nil_r. apply W.
  - apply one_chunk; try reflexivity; try discriminate; try (intros y Hy; exact Hy).
    constructor; cbn [k_first k_body k_last k_end k_den]; auto; [reflexivity|].
    intros pre w t2 z ks G A X. apply s_flat; auto. apply f_comment. now apply Cm.
Qed.

Lemma inner_nodes k : forall al again,
  (fix nodes (align : nat) (again : option nat) (l : list node) : op :=
           match l with
           | [] => nop
           | x :: r =>
             let '(align, again) :=
               match again with
               | Some O => if compact C then (align, again) else find_width l
               | _ => (align, again)
               end in
             print_node C align x ;;
             nodes align (match again with Some (S m) => Some m | _ => again end) r
           end) al again k = print_nodes C al again k.
Proof.
  induction k as [|x k IH]; intros al again; [reflexivity|]. cbn [print_nodes].
  destruct (match again with Some O => if compact C then (al, again) else find_width (x :: k) | _ => (al, again) end) as [al' again']. now rewrite IH.
Qed.
Lemma print_body n l k al : as_parts k = None ->
  print_node C al (Elem n l k) = (print_name C n l ;; space_opening_brace C ;; print_str [cLB] ;;
        set_line (fun s => p_line s + add_indent C)%Z ;; print_nodes C 0 (Some 0%nat) k ;;
        set_line (fun s => p_line s - add_indent C)%Z ;;
        space_closing_brace C ;; print_str [cRB]).
Proof.
  intros H. cbn [print_node]. destruct k as [|x k0] eqn:Ek; [discriminate|]. rewrite <- Ek in *. unfold key_value. rewrite Ek in H |- *. rewrite H. rewrite <- Ek.
  rewrite Ek. cbn [print_nodes]. reflexivity.
Qed.

Record pnodes (d : list node) (l : list chunk) : Prop := {
  m_good : Forall good l;
  m_order : in_order l;
  m_den : merge_nodes (map k_den l) = d;
  m_ne : d <> [] -> l <> [];
  m_first : forall k r, l = k :: r -> exists x d', d = x :: d' /\ incl (unsepf (k_first k)) (unseparated x) }.

Lemma in_order_app a b : in_order a -> in_order b -> (forall x y r r', a = r ++ [x] -> b = y :: r' -> may_follow x y) -> in_order (a ++ b).
Proof.
  induction a as [|x a IH]; intros Ha Hb H; [exact Hb|]. destruct a as [|y a].
  - destruct b as [|z b]; [exact I|]. split; [|exact Hb]. apply (H x z [] b); reflexivity.
  - destruct Ha as [H1 H2]. split; [exact H1|]. apply IH; auto. intros u v r r' E1 E2. apply (H u v (x :: r) r'); auto. now rewrite E1.
Qed.

Scheme node_ok_ind2 := Minimality for node_ok Sort Prop with nodes_ok_ind2 := Minimality for nodes_ok Sort Prop.
Lemma nodes_chunks d : nodes_ok C d -> exists l, (forall al again, produces (print_nodes C al again d) l) /\ pnodes d l.
Proof.
  apply (nodes_ok_ind2 C (fun x => exists l, (forall al, produces (print_node C al x) l) /\ pnode x l)
     (fun d => exists l, (forall al again, produces (print_nodes C al again d) l) /\ pnodes d l)).
  - intros [t|n] H; [now apply node_text|]. destruct H. now apply node_ref.
  - apply node_comment.
  - apply node_pi.
  - apply node_doctype.
  - apply node_leaf.
  - apply node_value.
  - intros n l k Hn Hl Hk _ (ks & P & [G O D Ne F]). destruct (writes_head n l Hn Hl) as (h & e & c' & He & E & S & W & H).
    assert (Hks : ks <> []) by (apply Ne; intros ->; discriminate).
    exists [Chunk Fkey (h ++ [] ++ [cLB] ++ [] ++ souts ks ++ [cRB]) cRB Eany (Elem n l k)]. split.
    + intros al c. rewrite print_body by auto. cbn [outs ending k_first k_body k_last sepf]. rewrite app_nil_r, app_assoc. eapply writes_seq; [apply W|].
      unfold space_opening_brace, space_closing_brace. rewrite HC. cbn [negb when].
      eapply writes_eq.
      * eapply writes_seq; [apply writes_last, writes_nop|]. eapply writes_seq; [apply writes_str; discriminate|]. eapply writes_seq; [apply writes_line|].
        eapply writes_seq; [apply P|]. eapply writes_seq; [apply writes_line|]. eapply writes_seq; [apply writes_nop|]. apply writes_str; discriminate.
      * cbn [app]. do 2 f_equal. destruct ks as [|k1 ks]; [congruence|]. cbn [outs souts]. change (List.last [cLB] 0) with cLB. destruct (k_first k1); reflexivity.
      * reflexivity.
    + apply one_chunk; try reflexivity; try discriminate; try (intros y Hy; exact Hy).
      constructor; cbn [k_first k_body k_last k_end k_den].
      * now apply key_good.
      * cbn. auto.
      * intros pre w t2 z kk Gp _ X. rewrite <- D at 1. rewrite <- !app_assoc. apply s_body; auto.
        -- apply H. intros _. cbn. rewrite starts_cons. discriminate.
        -- apply gap_nil, solid_ascii; reflexivity.
        -- apply gap_nil. cbn [app]. destruct ks as [|k1 ks]; [congruence|]. cbn [souts]. rewrite <- !app_assoc.
           apply (first_solid (k_first k1)), starts_app, g_first. now inversion G.
        -- rewrite <- (app_nil_r (souts ks)). apply chunks_solids; auto. left. split; auto. apply starts_cons. reflexivity.
        -- rewrite <- !app_assoc in X. exact X.
  - exists []. split; [intros al again c; apply writes_nop|]. constructor; cbn; auto; try congruence; try discriminate.
  - intros x r _ (l1 & P1 & [N1 G1 O1 D1 F1 L1]) Sb _ (l2 & P2 & [G2 O2 D2 N2 F2]). exists (l1 ++ l2). split.
    + intros al again. cbn [print_nodes].
      destruct (match again with Some O => if compact C then (al, again) else find_width (x :: r) | _ => (al, again) end) as [al' again'].
      now apply produces_seq.
    + constructor.
      * apply Forall_app; auto.
      * apply in_order_app; auto. intros u v a b E1 E2 Eb I. destruct (L1 u a E1 Eb) as (t & Lv & Bt & Et).
        destruct (F2 v b E2) as (y & d' & Ed & Hi). destruct (Sb y d' Ed) as (_ & Hs). apply (Hs _ Lv). exists t. repeat split; auto; try apply Bt. rewrite <- Et. now apply Hi.
      * rewrite map_app, D1; [now rewrite D2|]. intros t Ex u r' E. rewrite D2 in E. destruct (Sb _ _ E) as (Hs & _). apply Hs. split; eauto.
      * intros _ E. apply app_eq_nil in E as [E _]. contradiction.
      * intros k r' E. destruct l1 as [|k1 l1]; [congruence|]. injection E as <- <-. exists x, r. split; auto. eapply F1; eauto.
Qed.

(** The compact output denotes the document. *)
Theorem compact_denotes d : d <> [] -> nodes_ok C d -> exists o, print_doc C d = (o, true) /\ denotes o d.
Proof.
  intros Hd H. destruct (nodes_chunks d H) as (l & P & [G O D N F]). specialize (N Hd).
  destruct (P 0%nat (Some 0%nat) 0 (PR 0 0 0 true) eq_refl eq_refl) as (s' & E & _ & K & _); [cbn; lia|].
  exists (souts l ++ [cNL]). split.
  - unfold print_doc. destruct d as [|x d]; [congruence|]. rewrite E, K. do 2 f_equal.
    destruct l as [|k l]; [congruence|]. cbn [outs souts]. destruct (k_first k); reflexivity.
  - exists [], (souts l ++ [cNL]), (map k_den l). split; [reflexivity|]. split; [|split; [|now rewrite D]].
    + apply gap_nil. destruct l as [|k l]; [congruence|]. cbn [souts]. rewrite <- app_assoc. apply (first_solid (k_first k)), starts_app, g_first. now inversion G.
    + apply chunks_solids; auto. right. auto.
Qed.
End compact.
