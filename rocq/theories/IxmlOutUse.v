(** Using a grammar on a content: the trees for the rules that are handed to
    yaep, and the items that the grammar gives.  As IxmlUse.v, with marks. *)
From Coq Require Import NArith ZArith Bool String List Lia.
From Coq Require Import ZifyBool ZifyNat ZifyN.
From Verif Require Import Bytes BytesFacts Utf8 Utf8Proofs Dom Ixml IxmlSpec IxmlNames IxmlTrans IxmlLang IxmlLex IxmlParse IxmlUse IxmlDoc IxmlDocSpec IxmlOut IxmlTree.
Import ListNotations.
Local Open Scope N_scope.
Local Open Scope list_scope.

(** ** The rules of all sets *)
Lemma fixup_nt_rules used nt g : nt_ok nt -> terms_ok (g_terms g) -> Forall code_ok used -> (forall c, In c used -> In (term_name c, c) (g_terms g)) ->
  exists g' X, fixup_nt used nt g = IOk g' /\ g_rules g' = g_rules g ++ X /\ g_terms g' = g_terms g /\ g_read g' = g_read g /\
    forall r, In r X <-> exists n cs c, nt = INonterm n (Some cs) /\ In c used /\ in_charset cs c /\ r = char_rule n (set_mark n) c.
Proof.
  intros Hn Ht Hu Hi. unfold fixup_nt. destruct nt as [n [cs|]]; cbn [nt_ok nt_charset nt_name] in *.
  - destruct Hn as (m & Hm & En & Hp). cbv zeta.
    assert (L : exists l, (if nth 0 n 0 =? 126 then exclude_codes used (c_parts cs) else include_codes used (c_parts cs)) = IOk l /\ forall c, In c l <-> In c used /\ in_charset cs c).
    { unfold in_charset. destruct cs as [ex ps]. cbn [c_parts c_exclude] in *. rewrite En. unfold charset_name_text. cbn [c_exclude c_parts]. destruct ex; cbn [app nth].
      - change (126 =? 126) with true. cbn iota. now apply exclude_spec.
      - change (91 =? 126) with false. cbn iota. now apply include_spec. }
    destruct L as (l & El & Hl). rewrite El. cbn [ibind]. fold (set_mark n).
    destruct (char_rules_spec n (set_mark n) l g Ht) as (C1 & C2 & C3 & C4).
    + rewrite Forall_forall in Hu |- *. intros c Hc. apply Hl in Hc as (Hc & _). now apply Hu.
    + intros c Hc. apply Hl in Hc as (Hc & _). now apply Hi.
    + eexists _, _. split; [reflexivity|]. split; [exact C1|]. split; [exact C2|]. split; [exact C3|]. intros r. rewrite in_map_iff. split.
      * intros (c & E & Hc). apply Hl in Hc as (Hc1 & Hc2). exists n, cs, c. auto.
      * intros (n' & cs' & c & E & Hc1 & Hc2 & ->). injection E as <- <-. exists c. split; [reflexivity|]. apply Hl. auto.
  - exists g, []. split; [reflexivity|]. rewrite app_nil_r. split; [reflexivity|]. split; [reflexivity|]. split; [reflexivity|]. intros r. cbn [In]. split; [tauto|]. intros (n' & cs & c & E & _). discriminate.
Qed.
Lemma fixup_nts_rules used nts : Forall nt_ok nts -> forall g, terms_ok (g_terms g) -> Forall code_ok used -> (forall c, In c used -> In (term_name c, c) (g_terms g)) ->
  exists g' X, fixup_nts used nts g = IOk g' /\ g_rules g' = g_rules g ++ X /\ g_terms g' = g_terms g /\ g_read g' = g_read g /\
    forall r, In r X <-> exists n cs c, In (INonterm n (Some cs)) nts /\ In c used /\ in_charset cs c /\ r = char_rule n (set_mark n) c.
Proof.
  induction 1 as [|nt nts Hn Hns IH]; intros g Ht Hu Hi; cbn [fixup_nts].
  - exists g, []. split; [reflexivity|]. rewrite app_nil_r. split; [reflexivity|]. split; [reflexivity|]. split; [reflexivity|]. intros r. cbn [In]. split; [tauto|]. intros (n & cs & c & [] & _).
  - destruct (fixup_nt_rules used nt g Hn Ht Hu Hi) as (g1 & X1 & E1 & R1 & T1 & D1 & P1). rewrite E1. cbn [ibind].
    destruct (IH g1) as (g2 & X2 & E2 & R2 & T2 & D2 & P2); [rewrite T1; exact Ht|exact Hu|rewrite T1; exact Hi|].
    exists g2, (X1 ++ X2). split; [exact E2|]. split; [rewrite R2, R1, app_assoc; reflexivity|]. split; [congruence|]. split; [congruence|]. intros r. rewrite in_app_iff, P1, P2. split.
    + intros [(n & cs & c & -> & H)|(n & cs & c & H1 & H)]; exists n, cs, c; (split; [|exact H]); [left; reflexivity|right; exact H1].
    + intros (n & cs & c & [H1|H1] & H); [left|right]; exists n, cs, c; auto.
Qed.

(** ** Labels *)
Lemma labels_ok G src : w_grammar G src -> Forall (fun r => name_ok (label r)) G.
Proof.
  assert (X : forall r s, w_rule r s -> name_ok (label r)).
  { destruct 1 as [m n al a t s' c z1 z2 l Ht Hs Hc Hz1 Ha Hz2]. unfold label. cbn [ru_alias ru_name]. destruct Hs; assumption. }
  assert (R : forall s, w_rules G s -> Forall (fun r => name_ok (label r)) G).
  { induction 1 as [r s H|r rs s t H Hr IH]; apply X in H; apply Forall_cons; try assumption. apply Forall_nil. }
  destruct 1 as [G z s Hz Hs Hn|G z1 v z2 s Hz1 Hv Hz2 Hs]; now apply (R s).
Qed.

(** ** The rules of the whole grammar *)
Lemma name_not_gen_name n : name_ok n -> ~ gen_name n.
Proof.
  intros H [(k & E)|[E|E]].
  - apply name_not_special in H as (H & _). now elim (H k).
  - apply name_not_gen in H as (_ & _ & _ & H & _). contradiction.
  - apply name_not_gen in H as (_ & _ & _ & _ & H). contradiction.
Qed.
Lemma marks_rule_is r m : marks_rule r m = true -> one_alias r /\ marks_alts (ru_alts r) m = true.
Proof.
  unfold marks_rule, one_alias. intros H. apply andb_true_iff in H as (H1 & H2). split; [|exact H2]. destruct (ru_alias r); [|left; reflexivity]. destruct (ru_alts r) as [a|a b]; [right; eauto|discriminate H1].
Qed.
Definition as_rule (x : irule) (r : grule) : Prop := r_name x = ru_name r /\ r_mark x = ru_mark r /\ node_name x = label r.
Lemma made_not_named x : made x -> ~ name_ok (r_name x).
Proof.
  intros [(k & E & _)|(u & ->)] H.
  - apply name_not_special in H as (H & _). now elim (H k).
  - apply name_not_special in H as (_ & H). now elim (H u).
Qed.
Lemma alts_as_rule r gen mark x : one_alias r -> In x (o_new (b_alts (ru_name r) (ru_mark r) (ru_alts r) gen mark)) -> made x \/ as_rule x r.
Proof.
  intros [E|(a & E)] Hx.
  - pose proof (made_alts (ru_alts r) (ru_name r) (ru_mark r) gen mark) as H. rewrite Forall_forall in H. destruct (H x Hx) as [Hm|(H1 & H2 & H3)]; [left; exact Hm|]. right.
    unfold as_rule, node_name, label. now rewrite E, H2, H1.
  - left. rewrite E in Hx. cbn [b_alts] in Hx. pose proof (made_alt a gen mark) as H. rewrite Forall_forall in H. now apply H.
Qed.
Lemma grammar_rules G : forall gen mark, marks_rules G mark = true ->
  forall x, In x (o_new (b_rules G gen mark)) -> made x \/ exists r, In r G /\ as_rule x r.
Proof.
  induction G as [|r G IH]; intros gen mark Hm x Hx; cbn [b_rules] in Hx; [elim Hx|]. cbn [marks_rules] in Hm. apply andb_true_iff in Hm as (M1 & M2). apply marks_rule_is in M1 as (M0 & M1).
  cbn [b_seq o_new] in Hx. apply in_app_iff in Hx as [Hx|Hx].
  - cbn [b_rule o_new] in Hx. destruct Hx as [<- |Hx].
    + right. exists r. split; [left; reflexivity|]. repeat split; reflexivity.
    + destruct (alts_as_rule r gen mark x M0 Hx) as [H|H]; [left; exact H|right]. exists r. split; [left; reflexivity|exact H].
  - assert (E : o_mark (b_rule r gen mark) = last_alts (ru_alts r) mark) by (apply last_alts_is). rewrite E in Hx. destruct (IH _ _ M2 x Hx) as [H|(u & Hu & H)]; [left; exact H|right]. exists u. split; [right; exact Hu|exact H].
Qed.

Section whole.
Variable y : mgrammar.
Variable used : Z -> Prop.
Hypothesis HR : forall r, In r (mg_rules y) -> hd 0 (r_name r) <> 35.
Hypothesis HI : forall r u, In r (mg_rules y) -> r_name r = 124 :: 43 :: u -> r = IRule (124 :: 43 :: u) None cSP [].
Hypothesis HM : forall r, In r (mg_rules y) -> gen_name (r_name r) -> r_alias r = None /\ r_mark r = cMINUS.
Notation ralts r gen mark := (b_alts (ru_name r) (ru_mark r) (ru_alts r) gen mark).
Lemma rules_good G : forall gen mark, Forall rule_fine G -> marks_rules G mark = true -> good y used gen (b_rules G gen mark) ->
  (forall r, In r G -> exists gen' mark', marks_alts (ru_alts r) mark' = true /\ one_alias r /\ good y used gen' (ralts r gen' mark') /\
     In (IRule (ru_name r) (ru_alias r) (ru_mark r) (o_ts (ralts r gen' mark'))) (mg_rules y)) /\
  (forall x, In x (o_new (b_rules G gen mark)) -> name_ok (r_name x) -> exists r gen' mark', In r G /\ as_rule x r /\ marks_alts (ru_alts r) mark' = true /\
     alts_rhs (ru_name r) (ralts r gen' mark') (r_rhs x) /\ good y used gen' (ralts r gen' mark')).
Proof.
  induction G as [|r G IH]; intros gen mark HF HK Hg; cbn [b_rules] in *.
  - split; [intros r []|intros x []].
  - inversion HF as [|? ? F1 F2]; subst. cbn [marks_rules] in HK. apply andb_true_iff in HK as (K1 & K2). apply marks_rule_is in K1 as (K0 & K1).
    destruct (piece_alts (ru_alts r) (ru_name r) (ru_mark r) gen mark) as (P1 & P2). pose proof (last_alts_is (ru_alts r) (ru_name r) (ru_mark r) gen mark) as EL. pose proof (fun x => alts_as_rule r gen mark x K0) as HA. set (a := ralts r gen mark) in *. set (o := b_rule r gen mark) in *.
    destruct (rules_pieces G (o_gen o) (o_mark o)) as (Q1 & Q2). set (p := b_rules G (o_gen o) (o_mark o)) in *.
    assert (Eg : o_gen o = o_gen a) by reflexivity. rewrite Forall_forall in P2, Q2. destruct F1 as (Fn & Fa). destruct (name_not_gen _ Fn) as ((O1 & O2) & _).
    assert (En : o_new o = IRule (ru_name r) (ru_alias r) (ru_mark r) (o_ts a) :: o_new a) by reflexivity.
    assert (Ga : good y used gen a).
    { eapply (good_sub y used HR HI HM); [exact Hg| | | | | |]; cbn [b_seq o_new o_codes o_nts o_gen]; try lia.
      - rewrite En. apply incl_appl, incl_tl, incl_refl.
      - apply incl_appl. apply incl_refl.
      - apply incl_appl. apply incl_refl.
      - intros x k Hx Hk E. apply in_app_iff in Hx as [Hx|Hx].
        + rewrite En in Hx. destruct Hx as [<- |Hx]; [|exact Hx]. cbn [r_name] in E. apply O1 in E; [elim E|lia].
        + destruct (Q2 x Hx) as [Hn|(u & Hu & Ex)]; [apply (named_not _ _ _ _ Hn) in E; lia|]. rewrite Forall_forall in F2. destruct (F2 u Hu) as (Fu & _). apply name_not_gen in Fu as ((Fu & _) & _). rewrite Ex in E. apply Fu in E; [elim E|lia]. }
    assert (Gp : good y used (o_gen o) p).
    { eapply (good_sub y used HR HI HM); [exact Hg| | | | | |]; cbn [b_seq o_new o_codes o_nts o_gen]; try (apply incl_appr, incl_refl); try lia.
      intros x k Hx Hk E. apply in_app_iff in Hx as [Hx|Hx]; [|exact Hx]. rewrite En in Hx. destruct Hx as [<- |Hx].
      - cbn [r_name] in E. apply O1 in E; [elim E|lia].
      - destruct (P2 x Hx) as [Hn|Hn]; [apply (named_not _ _ _ _ Hn) in E; lia|]. rewrite Hn in E. apply O1 in E; [elim E|lia]. }
    assert (EL2 : last_alts (ru_alts r) mark = o_mark o) by (symmetry; exact EL). rewrite EL2 in K2.
    destruct (IH (o_gen o) (o_mark o) F2 K2 Gp) as (I1 & I2). split.
    + intros u [<- |Hu]; [|now apply I1]. exists gen, mark. fold a. split; [exact K1|]. split; [exact K0|]. split; [exact Ga|].
      apply (good_in _ _ _ _ Hg (IRule (ru_name r) (ru_alias r) (ru_mark r) (o_ts a))). cbn [b_seq o_new]. apply in_app_iff. left. left. reflexivity.
    + intros x Hx Hok. cbn [b_seq o_new] in Hx. apply in_app_iff in Hx as [Hx|Hx].
      * exists r, gen, mark. fold a. rewrite En in Hx. split; [left; reflexivity|]. destruct Hx as [<- |Hx].
        -- split; [repeat split; reflexivity|]. split; [exact K1|]. split; [left; reflexivity|exact Ga].
        -- destruct (HA x Hx) as [Hn|Hn]; [now apply made_not_named in Hn|]. split; [exact Hn|]. split; [exact K1|]. split; [right; exists x; destruct Hn as (Hn & _); auto|exact Ga].
      * destruct (I2 x Hx Hok) as (u & gen' & mark' & Hu & H). exists u, gen', mark'. split; [right; exact Hu|exact H].
Qed.
End whole.

(** ** The trees *)
Theorem use_marks_spec G src w : w_grammar G src -> ok_grammar G = true -> marks_rules G 0 = true -> Forall code_ok w ->
  exists y x0 xs, use_marks (add_out (b_rules G 0 0) gst0) (utf8 w) = IOk y /\
    mg_rules y = x0 :: xs /\ forall o, yo y (ITerm 0 (r_name x0)) w o <-> gives G w o.
Proof.
  intros HG Hok HK Hw. pose proof (labels_ok G src HG) as HL. destruct (grammar_known G src HG) as (Hne & HF & HK1 & HK2). pose proof (grammar_rules G 0 0 HK) as HGR. set (o := b_rules G 0 0) in *.
  assert (Hoa : forall r, In r G -> ok_alts (ru_alts r) = true /\ not_error (ru_name r) = true).
  { intros r Hr. unfold ok_grammar in Hok. rewrite forallb_forall in Hok. specialize (Hok r Hr). apply andb_true_iff in Hok. tauto. }
  unfold use_marks, fixup_charsets. rewrite scan_spec by (try exact Hw; lia). cbn [ibind]. set (g1 := set_terms _ _).
  assert (T0 : terms_ok []) by (split; [apply Forall_nil|apply NoDup_nil]).
  destruct (put_codes_ok (o_codes o) [] T0 HK1) as (T1 & T1i). destruct (put_codes_ok w _ T1 Hw) as (T2 & T2i).
  assert (Et : g_terms g1 = put_codes w (put_codes (o_codes o) [])) by reflexivity.
  assert (Hu : Forall code_ok (used_codes w)). { rewrite Forall_forall in Hw |- *. intros c Hc. apply (proj1 (used_in _ _)) in Hc. now apply Hw. }
  assert (Hi : forall c, In c (used_codes w) -> In (term_name c, c) (g_terms g1)). { intros c Hc. apply (proj1 (used_in _ _)) in Hc. rewrite Et. apply T2i. left. exists c. auto. }
  destruct (fixup_nts_rules (used_codes w) (o_nts o) HK2 g1) as (g2 & X & E2 & R2 & Te & D2 & P2); [rewrite Et; exact T2|exact Hu|exact Hi|].
  change (g_nts g1) with (o_nts o). rewrite E2. cbn [ibind]. unfold read_marks.
  rewrite D2. change (g_read g1) with 0%nat. cbn [skipn]. rewrite R2. change (g_rules g1) with (o_new o). rewrite Te, Et. set (ts := put_codes w (put_codes (o_codes o) [])) in *. set (y := MGrammar ts (o_new o ++ X)).
  (* facts about the names *)
  rewrite Forall_forall in HF.
  assert (HX : forall r, In r X -> hd 0 (r_name r) = 91 \/ hd 0 (r_name r) = 126).
  { intros r H. apply P2 in H as (n & cs & c & H & _ & _ & ->). rewrite Forall_forall in HK2. apply HK2 in H. destruct H as (m & _ & E & _). cbn [char_rule r_name nt_name] in *. subst n. unfold charset_name_text. destruct (c_exclude cs); auto. }
  assert (HN : forall x, In x (o_new o) -> made x \/ (name_ok (r_name x) /\ exists r, In r G /\ as_rule x r)).
  { intros x H. destruct (HGR x H) as [Hm|(r & Hr & Ha)]; [left; exact Hm|right]. split; [|exists r; auto]. rewrite (proj1 Ha). now apply HF. }
  assert (YT : forall s c, In (s, c) (mg_terms y) -> s = term_name c /\ code_ok c).
  { intros s c H. destruct T2 as (T2 & _). rewrite Forall_forall in T2. apply (T2 (s, c)). exact H. }
  assert (YR : forall r, In r (mg_rules y) -> hd 0 (r_name r) <> 35).
  { intros r H. cbn [y mg_rules] in H. apply in_app_iff in H as [H|H].
    - destruct (HN r H) as [[(k & -> & _)|(u & ->)]|(H1 & _)]; [discriminate|discriminate|]. now apply name_not_gen in H1.
    - destruct (HX r H) as [E|E]; rewrite E; discriminate. }
  assert (YI : forall r u, In r (mg_rules y) -> r_name r = 124 :: 43 :: u -> r = IRule (124 :: 43 :: u) None cSP []).
  { intros r u H E. cbn [y mg_rules] in H. apply in_app_iff in H as [H|H].
    - destruct (HN r H) as [[(k & Ek & _)|(v & ->)]|(H1 & _)]; [rewrite E in Ek; symmetry in Ek; now apply gname_ins in Ek| |].
      + cbn [r_name] in E. injection E as ->. reflexivity.
      + rewrite E in H1. apply name_not_gen in H1 as ((_ & H1) & _). now elim (H1 u).
    - destruct (HX r H) as [E1|E1]; rewrite E in E1; discriminate E1. }
  assert (YM : forall r, In r (mg_rules y) -> gen_name (r_name r) -> r_alias r = None /\ r_mark r = cMINUS).
  { intros r H Hn. cbn [y mg_rules] in H. apply in_app_iff in H as [H|H].
    - destruct (HN r H) as [[(k & _ & Ek)|(v & ->)]|(H1 & _)]; [exact Ek| |now apply name_not_gen_name in H1].
      exfalso. cbn [r_name] in Hn. destruct Hn as [(k & E)|[E|E]]; [symmetry in E; now apply gname_ins in E|discriminate E|discriminate E].
    - apply P2 in H as (n & cs & c & _ & _ & _ & ->). split; reflexivity. }
  set (used := fun c => In c w).
  assert (YU : forall c, used c -> In (term_name c, c) (mg_terms y)). { intros c Hc. cbn [y mg_terms]. apply T2i. left. exists c. auto. }
  assert (Gd : good y used 0 o).
  { split.
    - intros r Hr. cbn [y mg_rules]. apply in_app_iff. left. exact Hr.
    - intros k r _ H Ek. cbn [y mg_rules] in H. apply in_app_iff in H as [H|H]; [exact H|].
      destruct (HX r H) as [E|E]; rewrite Ek in E; discriminate E.
    - intros c Hc. cbn [y mg_terms]. apply T2i. right. apply T1i. left. exists c. auto.
    - intros n cs Hn. pose proof HK2 as HK3. rewrite Forall_forall in HK3. pose proof (HK3 _ Hn) as (m & Hm & Em & Hp). cbn [nt_name] in Em. split; [exact Hp|]. intros r. cbn [y mg_rules]. rewrite in_app_iff. split.
      + intros ([H|H] & Er).
        * exfalso. assert (Hh : hd 0 n = 91 \/ hd 0 n = 126) by (rewrite Em; unfold charset_name_text; destruct (c_exclude cs); auto). rewrite <- Er in Hh.
          destruct (HN r H) as [[(k & E & _)|(v & ->)]|(H1 & _)]; [rewrite E in Hh; destruct Hh as [Hh|Hh]; discriminate Hh|destruct Hh as [Hh|Hh]; discriminate Hh|].
          apply name_not_gen in H1 as (_ & _ & _ & H91 & H126). destruct Hh; contradiction.
        * apply P2 in H as (n' & cs' & c & Hn' & Hc & Hs & ->). cbn [char_rule r_name] in Er. subst n'. apply (proj1 (used_in _ _)) in Hc. pose proof (HK3 _ Hn') as (m' & Hm' & Em' & Hp'). cbn [nt_name] in Em'. rewrite Em in Em'.
          apply charset_name_inj in Em' as (<- & _); try assumption. exists c. auto.
      + intros (c & Hc & Hs & ->). split; [|reflexivity]. right. apply P2. exists n, cs, c. split; [exact Hn|]. split; [now apply used_in|]. auto. }
  assert (HF' : Forall rule_fine G) by (apply Forall_forall; exact HF). rewrite Forall_forall in HL.
  destruct (rules_good y used YR YI YM G 0 0 HF' HK Gd) as (RG1 & RG2). fold o in RG2.
  assert (YN : forall x, In x (mg_rules y) -> name_ok (r_name x) -> In x (o_new o)).
  { intros x H Hn. cbn [y mg_rules] in H. apply in_app_iff in H as [H|H]; [exact H|]. exfalso. apply name_not_gen in Hn as (_ & _ & _ & H91 & H126). destruct (HX x H); contradiction. }
  assert (HU : forall k, U y G k).
  { intros k. induction k as [k IH] using (well_founded_induction Wf_nat.lt_wf). intros m n v i Hn Hk. destruct (name_not_gen n Hn) as (On & H35 & _ & H91 & H126).
    apply (rule_inv y YT) in Hk as (j & x & i' & -> & Hi' & Ex & Hy & ->); [|exact H35]. cbn [t_name t_mark] in *. subst n. apply YN in Hi'; [|exact Hn].
    destruct (RG2 x Hi' Hn) as (r & gen' & mark' & Hr & (A1 & A2 & A3) & Hmk & Ha & Hgd). exists r, i'. split; [exact Hr|]. split; [symmetry; exact A1|].
    destruct (HF r Hr) as (Fn & Fa). destruct (Hoa r Hr) as (Oa & _).
    assert (Orn : other (ru_name r) gen'). { apply name_not_gen in Fn as ((A & B) & _). split; [intros q _; apply A; lia|exact B]. }
    split.
    - eapply (proj2 (proj2 (proj2 (sound y G used YT YR YI YM YU))) (ru_alts r) (ru_name r) (ru_mark r) gen' mark' Hmk Oa Fa Orn Hgd j); [|exact Ha|exact Hy]. intros q Hq. apply IH. lia.
    - rewrite A3, name_flat by (now apply HL). unfold eff. now rewrite A2. }
  assert (HGr : forall r, In r G -> exists gen mark, marks_alts (ru_alts r) mark = true /\ ok_alts (ru_alts r) = true /\ fine_alts (ru_alts r) /\ other (ru_name r) gen /\
    good y used gen (b_alts (ru_name r) (ru_mark r) (ru_alts r) gen mark) /\ one_alias r /\ name_ok (ru_name r) /\ name_ok (label r) /\
    In (IRule (ru_name r) (ru_alias r) (ru_mark r) (o_ts (b_alts (ru_name r) (ru_mark r) (ru_alts r) gen mark))) (mg_rules y)).
  { intros r Hr. destruct (RG1 r Hr) as (gen' & mark' & Hmk & H1a & Hgd & Hin). exists gen', mark'. destruct (HF r Hr) as (Fn & Fa). destruct (Hoa r Hr) as (Oa & _).
    split; [exact Hmk|]. split; [exact Oa|]. split; [exact Fa|]. split; [|split; [exact Hgd|split; [exact H1a|split; [exact Fn|split; [now apply HL|exact Hin]]]]]. apply name_not_gen in Fn as ((A & B) & _). split; [intros i _; apply A; lia|exact B]. }
  assert (Hst : exists r0 rs x0 xs, G = r0 :: rs /\ mg_rules y = x0 :: xs /\ r_name x0 = ru_name r0).
  { destruct G as [|r0 rs]; [now elim Hne|]. exists r0, rs. eexists _, _. split; [reflexivity|]. cbn [y mg_rules]. unfold o. cbn [b_rules b_seq o_new b_rule app]. split; reflexivity. }
  destruct Hst as (r0 & rs & x0 & xs & EG & Ey & E0). exists y, x0, xs. split; [reflexivity|]. split; [exact Ey|].
  assert (N0 : name_ok (ru_name r0)) by (apply HF; rewrite EG; left; reflexivity).
  rewrite E0. intros its. split.
  - intros H. apply (proj1 (yo_yk y)) in H as (k & H). destruct (HU k 0 (ru_name r0) w its N0 H) as (r & i & Hr & Er & Hm & ->). exists r0, rs, r, i. split; [exact EG|]. split; [exact Hr|]. split; [exact Er|]. split; [exact Hm|reflexivity].
  - intros (r0' & rs' & r & i & EG' & Hr & Er & Hm & ->). rewrite EG in EG'. injection EG' as <- <-.
      destruct (HGr r Hr) as (gen' & mark' & Hmk & Oa & Fa & Orn & Hgd & H1a & Fn & Fl & Hin).
      assert (Hused : Forall used w) by (apply Forall_forall; auto).
      destruct (proj2 (proj2 (proj2 (proj2 (proj2 (complete y G used YT YR YI YM YU HGr))))) (ru_alts r) w i Hm (ru_name r) (ru_mark r) gen' mark' Hmk Oa Fa Orn Hgd Hused) as (us & Hus & Hy).
      rewrite <- Er. destruct Hus as [-> |(x & Hx & En & ->)].
    + eapply yo_rule; [exact Hin|reflexivity|exact Hy|]. cbn [eff r_mark]. change (0 =? 0) with true. cbn iota. symmetry. apply name_flat. exact Fl.
    + pose proof (good_in _ _ _ _ Hgd x Hx) as Hx'. eapply yo_rule; [exact Hx'|exact En|exact Hy|]. destruct (alts_as_rule r gen' mark' x H1a Hx) as [Hm'|(A1 & A2 & A3)].
      * apply made_not_named in Hm'. elim Hm'. now rewrite En.
      * rewrite A3, name_flat by exact Fl. unfold eff. change (0 =? 0) with true. cbn iota. now rewrite A2.
Qed.
