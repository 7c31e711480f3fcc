(** Using a grammar on a content: the rules for the sets, and the language of
    the rules that are handed to yaep. *)
From Coq Require Import NArith ZArith Bool String List Lia.
From Coq Require Import ZifyBool ZifyNat ZifyN.
From Verif Require Import Bytes BytesFacts Utf8 Utf8Proofs UnicodeTables Category CategoryProofs Ixml IxmlSpec IxmlNames IxmlTrans IxmlLang IxmlLex IxmlParse.
Import ListNotations.
Local Open Scope N_scope.
Local Open Scope list_scope.

(** ** The characters of the content *)
Lemma scan_spec w : Forall code_ok w -> forall fuel, (length (utf8 w) <= fuel)%nat -> scan_content fuel (utf8 w) = IOk w.
Proof.
  induction 1 as [|c w Hc Hw IH]; intros fuel Hf; [destruct fuel; reflexivity|].
  unfold utf8 in *. cbn [map List.concat] in *. fold (utf8 w) in *. rewrite app_length in Hf. unfold code_ok in Hc.
  assert (D : decode_utf8 (utf8_spec (Z.to_N c) ++ utf8 w) = DecOk (Z.to_N c) (length (utf8_spec (Z.to_N c)))) by (apply decode_spec; lia).
  assert (E : skipn (length (utf8_spec (Z.to_N c))) (utf8_spec (Z.to_N c) ++ utf8 w) = utf8 w) by (rewrite skipn_app, skipn_all, Nat.sub_diag; reflexivity).
  assert (L : (1 <= length (utf8_spec (Z.to_N c)))%nat) by (unfold utf8_spec; repeat match goal with |- context[if ?b then _ else _] => destruct b end; cbn [length]; lia).
  destruct fuel as [|f]; [lia|]. unfold scan_content. fold scan_content. destruct (utf8_spec (Z.to_N c) ++ utf8 w) as [|b s] eqn:Es.
  - apply (f_equal (@length N)) in Es. rewrite app_length in Es. cbn [length] in Es. lia.
  - rewrite D. replace (Z.to_N c <? 1114112) with true by lia. rewrite E. rewrite IH by lia. cbn [ibind]. f_equal. f_equal. lia.
Qed.
Lemma insert_in u l c : In c (insert_code u l) <-> c = u \/ In c l.
Proof.
  induction l as [|v l IH]; cbn [insert_code]; [cbn [In]; intuition|]. destruct (u =? v)%Z eqn:E1; [|destruct (u <? v)%Z eqn:E2].
  - apply Z.eqb_eq in E1. subst. cbn [In]. intuition.
  - cbn [In]. intuition.
  - cbn [In]. rewrite IH. intuition.
Qed.
Lemma used_in c w : In c (used_codes w) <-> In c w.
Proof. unfold used_codes. induction w as [|u w IH]; cbn [fold_right In]; [reflexivity|]. rewrite insert_in, IH. intuition. Qed.

(** ** The rules of one set *)
Lemma part_codes_spec used p : cpart_ok p -> exists l, part_codes used p = IOk l /\ forall c, In c l <-> In c used /\ in_part c p.
Proof.
  intros Hp. destruct p as [a b|n]; cbn [part_codes cpart_ok in_part] in *.
  - unfold code_ok in Hp. replace ((a <=? b) && (b =? 2 ^ 31 - 1))%Z with false by lia. eexists. split; [reflexivity|]. intros c. rewrite filter_In. split; intros (H1 & H2); (split; [exact H1|lia]).
  - destruct (category_parts n) as [ts|] eqn:E; [|now elim Hp]. eexists. split; [reflexivity|]. intros c. rewrite filter_In, in_concat, in_category_iff, existsb_exists. split.
    + intros ((t & Ht & Hc) & (d & Hd & Ed)). apply Z.eqb_eq in Ed. subst d. split; [exact Hd|]. exists ts, t. auto.
    + intros (Hu & (ts' & t & Et & Ht & Hc)). rewrite E in Et. injection Et as <-. split; [exists t; auto|]. exists c. split; [exact Hu|]. apply Z.eqb_refl.
Qed.
Lemma include_spec used ps : Forall cpart_ok ps -> exists l, include_codes used ps = IOk l /\ forall c, In c l <-> In c used /\ Exists (in_part c) ps.
Proof.
  induction 1 as [|p ps Hp Hps (l & El & Hl)]; cbn [include_codes].
  - eexists. split; [reflexivity|]. intros c. rewrite Exists_nil. cbn [In]. tauto.
  - destruct (part_codes_spec used p Hp) as (a & Ea & Ha). rewrite Ea. cbn [ibind]. rewrite El. cbn [ibind]. eexists. split; [reflexivity|]. intros c. rewrite in_app_iff, Ha, Hl, Exists_cons. tauto.
Qed.
Lemma tables_known : forallb (fun e => forallb (fun t => existsb (fun u => Nat.eqb (length t) (length u) && forallb (fun p => Z.eqb (fst p) (snd p)) (combine t u)) unicode_tables) (snd e)) category_tables = true.
Proof. vm_compute. reflexivity. Qed.
Lemma combine_eq (t : list Z) : forall u, length t = length u -> forallb (fun p => Z.eqb (fst p) (snd p)) (combine t u) = true -> t = u.
Proof.
  induction t as [|a t IH]; intros [|b u] L H; cbn [length combine forallb fst snd] in *; try discriminate; [reflexivity|]. apply andb_true_iff in H as (H1 & H2). apply Z.eqb_eq in H1. subst. f_equal. apply IH; [lia|exact H2].
Qed.
Lemma category_table n ts t : category_parts n = Some ts -> In t ts -> In t unicode_tables.
Proof.
  unfold category_parts. destruct (find _ category_tables) as [e|] eqn:E; cbn [option_map]; [|discriminate]. intros X Ht. injection X as <-. apply find_some in E as (E & _).
  pose proof tables_known as F. rewrite forallb_forall in F. specialize (F e E). rewrite forallb_forall in F. specialize (F t Ht). apply existsb_exists in F as (u & Hu & Eu). apply andb_true_iff in Eu as (E1 & E2).
  apply Nat.eqb_eq in E1. now rewrite (combine_eq t u E1 E2).
Qed.
Lemma tables_have_spec ts c : (forall t, In t ts -> In t unicode_tables) -> exists b, tables_have ts c = IOk b /\ (b = true <-> exists t, In t ts /\ In c t).
Proof.
  induction ts as [|t ts IH]; intros H; cbn [tables_have].
  - exists false. split; [reflexivity|]. split; [discriminate|]. intros (t & [] & _).
  - destruct (category_has_code_spec t c) as (b & Eb & Hb); [apply all_tables_ascending, H; left; reflexivity|]. rewrite Eb. destruct b.
    + exists true. split; [reflexivity|]. split; [intros _; exists t; split; [left; reflexivity|now apply Hb]|reflexivity].
    + destruct IH as (b & E & Hb2); [intros u Hu; apply H; right; exact Hu|]. exists b. split; [exact E|]. rewrite Hb2. split.
      * intros (u & Hu & Hc). exists u. split; [right; exact Hu|exact Hc].
      * intros (u & [<- |Hu] & Hc); [apply Hb in Hc; discriminate|]. exists u. auto.
Qed.
Lemma parts_have_spec ps c : Forall cpart_ok ps -> exists b, parts_have ps c = IOk b /\ (b = true <-> Exists (in_part c) ps).
Proof.
  induction 1 as [|p ps Hp Hps (b & Eb & Hb)]; cbn [parts_have].
  - exists false. split; [reflexivity|]. rewrite Exists_nil. split; [discriminate|tauto].
  - destruct p as [x y|n]; cbn [cpart_ok] in Hp.
    + destruct ((x <=? c) && (c <=? y))%Z eqn:E.
      * exists true. split; [reflexivity|]. split; [|reflexivity]. intros _. apply Exists_cons_hd. cbn [in_part]. lia.
      * exists b. split; [exact Eb|]. rewrite Hb, Exists_cons. cbn [in_part]. split; [tauto|]. intros [X|X]; [lia|exact X].
    + destruct (category_parts n) as [ts|] eqn:E; [|now elim Hp]. destruct (tables_have_spec ts c) as (b2 & E2 & Hb2); [intros t; now apply (category_table n)|].
      rewrite E2, Eb. cbn [ibind]. exists (b2 || b). split; [reflexivity|]. rewrite orb_true_iff, Hb2, Hb, Exists_cons. apply or_iff_compat_r. cbn [in_part]. rewrite in_category_iff. split.
      * intros (t & Ht & Hc). exists ts, t. auto.
      * intros (ts' & t & Et & Ht & Hc). rewrite E in Et. injection Et as <-. exists t. auto.
Qed.
Lemma exclude_spec ps used : Forall cpart_ok ps -> exists l, exclude_codes used ps = IOk l /\ forall c, In c l <-> In c used /\ ~ Exists (in_part c) ps.
Proof.
  intros Hps. induction used as [|u used (l & El & Hl)]; cbn [exclude_codes].
  - eexists. split; [reflexivity|]. intros c. cbn [In]. tauto.
  - destruct (parts_have_spec ps u Hps) as (b & Eb & Hb). rewrite Eb. cbn [ibind]. rewrite El. cbn [ibind]. eexists. split; [reflexivity|]. intros c. destruct b.
    + rewrite Hl. cbn [In]. split; [tauto|]. intros ([<- |H1] & H2); [elim H2; now apply Hb|tauto].
    + cbn [In]. rewrite Hl. split; [|tauto]. intros [<- |H]; [|tauto]. split; [left; reflexivity|]. intros X. apply Hb in X. discriminate.
Qed.

(** ** Terminals *)
Definition terms_ok (ts : list (bytes * Z)) : Prop := Forall (fun t => fst t = term_name (snd t) /\ code_ok (snd t)) ts /\ NoDup (map fst ts).
Lemma find_term_in ts c : terms_ok ts -> code_ok c -> find_term (term_name c) ts <> None <-> In (term_name c, c) ts.
Proof.
  intros (H1 & _) Hc. rewrite Forall_forall in H1. unfold find_term. split.
  - destruct (find _ ts) as [t|] eqn:E; [|intros X; now elim X]. intros _. apply find_some in E as (E & Eb). apply beq_eq in Eb. destruct (H1 t E) as (H2 & H3). rewrite H2 in Eb. apply term_name_inj in Eb; [|exact H3|exact Hc].
    destruct t as [n d]. cbn [fst snd] in *. now subst.
  - intros Hi E. apply find_none with (x := (term_name c, c)) in E; [|exact Hi]. cbn [fst] in E. rewrite beq_refl in E. discriminate.
Qed.
Lemma put_term_ok ts c : terms_ok ts -> code_ok c -> terms_ok (put_term (term_name c, c) ts) /\ forall t, In t (put_term (term_name c, c) ts) <-> t = (term_name c, c) \/ In t ts.
Proof.
  intros Ht Hc. unfold put_term. cbn [fst]. pose proof (find_term_in ts c Ht Hc) as X. destruct (find_term (term_name c) ts) as [u|] eqn:E.
  - split; [exact Ht|]. intros t. split; [tauto|]. intros [-> |H]; [|exact H]. apply X. discriminate.
  - destruct Ht as (H1 & H2). split.
    + split; [apply Forall_app; split; [exact H1|apply Forall_cons; [auto|apply Forall_nil]]|]. rewrite map_app. cbn [map fst].
      apply NoDup_rev in H2. rewrite <- (rev_involutive (map fst ts ++ [term_name c])). apply NoDup_rev. rewrite rev_app_distr. cbn [rev app]. constructor; [|exact H2].
      rewrite <- in_rev. intros Hi. apply in_map_iff in Hi as (t & Et & Hi). unfold find_term in E. apply find_none with (x := t) in E; [|exact Hi]. rewrite Et, beq_refl in E. discriminate.
    + intros t. rewrite in_app_iff. cbn [In]. intuition.
Qed.
Lemma put_codes_ok cs : forall ts, terms_ok ts -> Forall code_ok cs -> terms_ok (put_codes cs ts) /\ forall t, In t (put_codes cs ts) <-> (exists c, In c cs /\ t = (term_name c, c)) \/ In t ts.
Proof.
  induction cs as [|c cs IH]; intros ts Ht Hc.
  - split; [exact Ht|]. intros t. cbn [put_codes fold_left]. split; [tauto|]. intros [(c & [] & _)|H]; exact H.
  - inversion Hc as [|? ? H1 H2]; subst. destruct (put_term_ok ts c Ht H1) as (P1 & P2). destruct (IH _ P1 H2) as (Q1 & Q2). cbn [put_codes fold_left]. fold (put_codes cs (put_term (term_name c, c) ts)).
    split; [exact Q1|]. intros t. rewrite Q2, P2. split.
    + intros [(d & Hd & ->)|[-> |H]]; [left; exists d; split; [right; exact Hd|reflexivity]|left; exists c; split; [left; reflexivity|reflexivity]|right; exact H].
    + intros [(d & [<- |Hd] & ->)|H]; [right; left; reflexivity|left; exists d; auto|right; right; exact H].
Qed.
Lemma put_term_same ts c : terms_ok ts -> code_ok c -> In (term_name c, c) ts -> put_term (term_name c, c) ts = ts.
Proof. intros Ht Hc Hi. unfold put_term. cbn [fst]. pose proof (find_term_in ts c Ht Hc) as X. destruct (find_term (term_name c) ts); [reflexivity|]. apply X in Hi. now elim Hi. Qed.

(** ** The rules of all sets *)
Definition char_rule (n : bytes) (m : N) (c : Z) : irule := IRule n None cMINUS [ITerm m (term_name c)].
Lemma char_rules_spec n m l : forall g, terms_ok (g_terms g) -> Forall code_ok l -> (forall c, In c l -> In (term_name c, c) (g_terms g)) ->
  let g' := add_char_rules n m l g in
  g_rules g' = g_rules g ++ map (char_rule n m) l /\ g_terms g' = g_terms g /\ g_read g' = g_read g /\ g_nts g' = g_nts g.
Proof.
  induction l as [|c l IH]; intros g Ht Hl Hi; cbv zeta.
  - cbn [add_char_rules fold_left map]. rewrite app_nil_r. auto.
  - inversion Hl as [|? ? H1 H2]; subst. unfold add_char_rules. cbn [fold_left]. fold (add_char_rules n m l (add_char_rule n m c g)).
    assert (E : g_terms (add_char_rule n m c g) = g_terms g) by (cbn [add_char_rule set_cur set_terms set_rules g_terms]; apply put_term_same; [exact Ht|exact H1|apply Hi; left; reflexivity]).
    destruct (IH (add_char_rule n m c g)) as (I1 & I2 & I3 & I4).
    + rewrite E. exact Ht.
    + exact H2.
    + intros d Hd. rewrite E. apply Hi. right. exact Hd.
    + rewrite I1, I2, I3, I4, E. cbn [add_char_rule set_cur set_terms set_rules g_rules g_terms g_read g_nts map]. rewrite <- app_assoc. auto.
Qed.
(** a nonterminal with a set carries the name of its set *)
Definition nt_ok (nt : inonterm) : Prop :=
  match nt_charset nt with
  | None => True
  | Some cs => exists m, tmark_ok m /\ nt_name nt = charset_name_text cs m /\ Forall cpart_ok (c_parts cs)
  end.
Lemma fixup_nt_spec used nt g : nt_ok nt -> terms_ok (g_terms g) -> Forall code_ok used -> (forall c, In c used -> In (term_name c, c) (g_terms g)) ->
  exists g' X, fixup_nt used nt g = IOk g' /\ g_rules g' = g_rules g ++ X /\ g_terms g' = g_terms g /\ g_read g' = g_read g /\
    forall n rhs, In (n, rhs) (map rule_names X) <-> exists cs c, nt = INonterm n (Some cs) /\ In c used /\ in_charset cs c /\ rhs = [term_name c].
Proof.
  intros Hn Ht Hu Hi. unfold fixup_nt. destruct nt as [n [cs|]]; cbn [nt_ok nt_charset nt_name] in *.
  - destruct Hn as (m & Hm & En & Hp). cbv zeta.
    assert (L : exists l, (if nth 0 n 0 =? 126 then exclude_codes used (c_parts cs) else include_codes used (c_parts cs)) = IOk l /\ forall c, In c l <-> In c used /\ in_charset cs c).
    { unfold in_charset. destruct cs as [ex ps]. cbn [c_parts c_exclude] in *. rewrite En. unfold charset_name_text. cbn [c_exclude c_parts]. destruct ex; cbn [app nth].
      - change (126 =? 126) with true. cbn iota. now apply exclude_spec.
      - change (91 =? 126) with false. cbn iota. now apply include_spec. }
    destruct L as (l & El & Hl). rewrite El. cbn [ibind]. match goal with |- context[add_char_rules n ?m l g] => set (mk := m) end.
    destruct (char_rules_spec n mk l g Ht) as (C1 & C2 & C3 & C4).
    + rewrite Forall_forall in Hu |- *. intros c Hc. apply Hl in Hc as (Hc & _). now apply Hu.
    + intros c Hc. apply Hl in Hc as (Hc & _). now apply Hi.
    + eexists _, _. split; [reflexivity|]. split; [exact C1|]. split; [exact C2|]. split; [exact C3|]. intros n' rhs. rewrite map_map, in_map_iff. split.
      * intros (c & E & Hc). unfold rule_names, char_rule in E. cbn [r_name r_rhs map t_name] in E. apply Hl in Hc as (Hc1 & Hc2). exists cs, c. split; [congruence|]. split; [exact Hc1|]. split; [exact Hc2|congruence].
      * intros (cs' & c & E & Hc1 & Hc2 & ->). injection E as <- <-. exists c. split; [reflexivity|]. apply Hl. auto.
  - exists g, []. split; [reflexivity|]. rewrite app_nil_r. split; [reflexivity|]. split; [reflexivity|]. split; [reflexivity|]. intros n' rhs. cbn [map In]. split; [tauto|]. intros (cs & c & E & _). discriminate.
Qed.
Lemma fixup_nts_spec used nts : Forall nt_ok nts -> forall g, terms_ok (g_terms g) -> Forall code_ok used -> (forall c, In c used -> In (term_name c, c) (g_terms g)) ->
  exists g' X, fixup_nts used nts g = IOk g' /\ g_rules g' = g_rules g ++ X /\ g_terms g' = g_terms g /\ g_read g' = g_read g /\
    forall n rhs, In (n, rhs) (map rule_names X) <-> exists cs c, In (INonterm n (Some cs)) nts /\ In c used /\ in_charset cs c /\ rhs = [term_name c].
Proof.
  induction 1 as [|nt nts Hn Hns IH]; intros g Ht Hu Hi; cbn [fixup_nts].
  - exists g, []. split; [reflexivity|]. rewrite app_nil_r. split; [reflexivity|]. split; [reflexivity|]. split; [reflexivity|]. intros n' rhs. cbn [map In]. split; [tauto|]. intros (cs & c & [] & _).
  - destruct (fixup_nt_spec used nt g Hn Ht Hu Hi) as (g1 & X1 & E1 & R1 & T1 & D1 & P1). rewrite E1. cbn [ibind].
    destruct (IH g1) as (g2 & X2 & E2 & R2 & T2 & D2 & P2); [rewrite T1; exact Ht|exact Hu|rewrite T1; exact Hi|].
    exists g2, (X1 ++ X2). split; [exact E2|]. split; [rewrite R2, R1, app_assoc; reflexivity|]. split; [congruence|]. split; [congruence|]. intros n rhs. rewrite map_app, in_app_iff, P1, P2. split.
    + intros [(cs & c & -> & H)|(cs & c & H1 & H)]; exists cs, c; (split; [|exact H]); [left; reflexivity|right; exact H1].
    + intros (cs & c & [H1|H1] & H); [left|right]; exists cs, c; auto.
Qed.

(** ** What is known about a grammar that was written *)
Definition known (o : bout) : Prop := Forall code_ok (o_codes o) /\ Forall nt_ok (o_nts o).
Lemma known_seq o p : known o -> known p -> known (b_seq o p).
Proof. intros (A & B) (C & D). split; cbn [b_seq o_codes o_nts]; apply Forall_app; auto. Qed.
Lemma known_wrap o n rs m : known o -> known (b_wrap o n rs m).
Proof. intros (A & B). split; cbn [b_wrap o_codes o_nts]; [exact A|]. apply Forall_app. split; [exact B|]. apply Forall_cons; [exact Logic.I|apply Forall_nil]. Qed.
Lemma string_codes cs s : w_string cs s -> Forall code_ok cs.
Proof. destruct 1 as [q cs Hq H]. eapply Forall_impl; [|exact H]. intros c (A & _). exact A. Qed.
Lemma end_ok f e s : w_end f e s -> code_ok (end_code e).
Proof. destruct 1 as [f q c Hq Hc _ _|f c s Hs]; [exact Hc|]. destruct Hs; assumption. Qed.
Lemma members_ok ms s : w_members ms s -> Forall cpart_ok (set_parts ms).
Proof.
  assert (X : forall m s, w_member m s -> Forall cpart_ok (member_parts m)).
  { destruct 1 as [cs s' z Hs Hz|a b s1 s2 z1 z2 z3 H1 H2 Hz1 Hz2 Hz3|c s' z Hs Hz|n z Hn Hz]; cbn [member_parts].
    - apply string_codes in Hs. clear Hz. induction Hs as [|c cs Hc Hcs IH]; [apply Forall_nil|]. cbn [map]. apply Forall_cons; [split; exact Hc|exact IH].
    - apply Forall_cons; [|apply Forall_nil]. split; [apply (end_ok _ _ _ H1)|apply (end_ok _ _ _ H2)].
    - destruct Hs as [c ds ? ? Hc]. apply Forall_cons; [split; exact Hc|apply Forall_nil].
    - apply Forall_cons; [now apply category_is|apply Forall_nil]. }
  unfold set_parts. induction 1 as [|m s Hs|m ms s c z r Hs Hc Hz Hms Hr IH]; cbn [flat_map]; [apply Forall_nil| |]; apply Forall_app; (split; [eapply X; eassumption|]); [apply Forall_nil|exact IH].
Qed.
Lemma tmark_known m t : w_tmark m t -> tmark_ok m.
Proof. unfold tmark_ok. destruct 1 as [|c s Hc Hs]; tauto. Qed.
Lemma written_known :
  (forall f s, w_factor f s -> fine_factor f /\ forall gen mark, known (b_factor f gen mark)) /\
  (forall t s, w_term t s -> fine_term t /\ forall gen mark, known (b_term t gen mark)) /\
  (forall a s, w_alt a s -> fine_alt a /\ forall gen mark, known (b_alt a gen mark)) /\
  (forall a s, w_alts a s -> fine_alts a /\ forall n mk gen mark, known (b_alts n mk a gen mark)).
Proof.
  assert (K0 : forall ts gen mark, known (Bout ts [] [] [] gen mark)) by (intros; split; apply Forall_nil).
  apply written_ind.
  - intros tm cs t s z Ht Hs Hz. split; [exact Logic.I|]. intros gen mark. apply string_codes in Hs. destruct cs as [|c1 [|c2 cs]]; (split; cbn [b_factor o_codes o_nts]; [exact Hs|]); try apply Forall_nil. apply Forall_cons; [exact Logic.I|apply Forall_nil].
  - intros tm c t s z Ht Hs Hz. split; [exact Logic.I|]. intros gen mark. destruct Hs as [c ds ? ? Hc]. split; cbn [b_factor o_codes o_nts]; [apply Forall_cons; [exact Hc|apply Forall_nil]|apply Forall_nil].
  - intros tm ex ms t x z1 s z2 Ht Hx Hz1 Hs Hz2. split; [exact Logic.I|]. intros gen mark. split; cbn [b_factor o_codes o_nts]; [apply Forall_nil|]. apply Forall_cons; [|apply Forall_nil].
    exists tm. split; [now apply tmark_known in Ht|]. split; [reflexivity|]. cbn [c_parts]. now apply members_ok in Hs.
  - intros m n al t s Ht Hs. split; [now apply naming_text in Hs|]. intros gen mark. split; cbn [b_factor o_codes o_nts]; [apply Forall_nil|]. apply Forall_cons; [exact Logic.I|apply Forall_nil].
  - intros cs z1 s z2 Hz1 Hs Hz2. split; [exact Logic.I|]. intros gen mark. split; cbn [b_factor o_codes o_nts]; [apply Forall_nil|]. apply Forall_cons; [exact Logic.I|apply Forall_nil].
  - intros a z1 s z2 Hne Hz1 Hs (F & K) Hz2. split; [exact F|]. intros gen mark. destruct (K (gname gen) cMINUS (gen + 1) mark) as (K1 & K2). split; cbn [b_factor o_codes o_nts]; [exact K1|]. apply Forall_cons; [exact Logic.I|exact K2].
  - intros z1 z2 Hz1 Hz2. split; [exact Logic.I|]. intros gen mark. apply K0.
  - intros f s Hs (F & K). split; [exact F|]. exact K.
  - intros f s z Hs (F & K) Hz. split; [exact F|]. intros gen mark. cbn [b_term]. apply known_wrap, K.
  - intros f s z Hs (F & K) Hz. split; [exact F|]. intros gen mark. cbn [b_term]. apply known_wrap, K.
  - intros f s z Hs (F & K) Hz. split; [exact F|]. intros gen mark. cbn [b_term]. apply known_wrap, K.
  - intros f g0 s z r Hs (F & K) Hz Hr (F2 & K2). split; [split; assumption|]. intros gen mark. cbn [b_term]. apply known_wrap, known_wrap, known_seq; [apply K|apply K2].
  - intros f g0 s z r Hs (F & K) Hz Hr (F2 & K2). split; [split; assumption|]. intros gen mark. cbn [b_term]. apply known_wrap, known_seq; [apply K|apply K2].
  - intros t s Hs (F & K). split; [split; [exact F|exact Logic.I]|]. intros gen mark. cbn [b_alt]. apply known_seq; [apply K|apply K0].
  - intros t a s z r Hs (F & K) Hz Ha (F2 & K2). split; [split; assumption|]. intros gen mark. cbn [b_alt]. apply known_seq; [apply K|apply K2].
  - intros a s Hs (F & K). split; [exact F|]. intros n mk gen mark. cbn [b_alts]. apply K.
  - split; [exact Logic.I|]. intros n mk gen mark. apply K0.
  - intros a r s c z t Hs (F & K) Hc Hz Hr (F2 & K2). split; [split; assumption|]. intros n mk gen mark. cbn [b_alts]. apply (known_seq _ _ (K gen mark) (K2 n mk _ _)).
  - intros r z t Hz Hr (F2 & K2). split; [split; [exact Logic.I|assumption]|]. intros n mk gen mark. cbn [b_alts b_alt o_gen o_mark o_codes o_nts app]. apply (K2 n mk gen mark).
Qed.
Definition rule_fine (r : grule) : Prop := name_ok (ru_name r) /\ fine_alts (ru_alts r).
Lemma rules_known G s : w_rules G s -> Forall rule_fine G /\ forall gen mark, known (b_rules G gen mark).
Proof.
  assert (X : forall r s, w_rule r s -> rule_fine r /\ forall gen mark, known (b_rule r gen mark)).
  { destruct 1 as [m n al a t s' c z1 z2 l Ht Hs Hc Hz1 Ha Hz2]. destruct (proj2 (proj2 (proj2 written_known)) a l Ha) as (F & K). split.
    - split; [now apply naming_text in Hs|exact F].
    - intros gen mark. destruct (K n m gen mark) as (K1 & K2). split; [exact K1|exact K2]. }
  assert (K0 : forall gen mark, known (Bout [] [] [] [] gen mark)) by (intros; split; apply Forall_nil).
  induction 1 as [r s H|r rs s t H Hr (IF & IK)]; destruct (X r s H) as (F & K).
  - split; [apply Forall_cons; [exact F|apply Forall_nil]|]. intros gen mark. cbn [b_rules]. apply known_seq; [apply K|apply K0].
  - split; [apply Forall_cons; assumption|]. intros gen mark. cbn [b_rules]. apply known_seq; [apply K|apply IK].
Qed.
Lemma grammar_known G src : w_grammar G src -> G <> [] /\ Forall rule_fine G /\ known (b_rules G 0 0).
Proof.
  destruct 1 as [G z s Hz Hs Hn|G z1 v z2 s Hz1 Hv Hz2 Hs]; (split; [now apply rules_nonempty in Hs|]); destruct (rules_known G s Hs) as (F & K); auto.
Qed.

(** ** The rules of the whole grammar *)
Definition user_or (G : grammar) (lo hi : N) (r : irule) : Prop := named lo hi r \/ exists u, In u G /\ r_name r = ru_name u.
Lemma rules_pieces G : forall gen mark, gen <= o_gen (b_rules G gen mark) /\ Forall (user_or G gen (o_gen (b_rules G gen mark))) (o_new (b_rules G gen mark)).
Proof.
  induction G as [|r G IH]; intros gen mark; cbn [b_rules].
  - split; cbn [o_gen o_new]; [lia|apply Forall_nil].
  - destruct (piece_alts (ru_alts r) (ru_name r) (ru_mark r) gen mark) as (P1 & P2). set (o := b_rule r gen mark). assert (Eg : o_gen o = o_gen (b_alts (ru_name r) (ru_mark r) (ru_alts r) gen mark)) by reflexivity.
    destruct (IH (o_gen o) (o_mark o)) as (I1 & I2). rewrite <- Eg in P1, P2. split; cbn [b_seq o_gen o_new]; [lia|]. apply Forall_app. split.
    + change (o_new o) with (IRule (ru_name r) (ru_alias r) (ru_mark r) (o_ts (b_alts (ru_name r) (ru_mark r) (ru_alts r) gen mark)) :: o_new (b_alts (ru_name r) (ru_mark r) (ru_alts r) gen mark)).
      apply Forall_cons; [right; exists r; split; [left; reflexivity|reflexivity]|]. eapply Forall_impl; [|exact P2]. intros x [Hx|Hx]; [left; eapply named_le; [exact Hx|lia|lia]|right; exists r; split; [left; reflexivity|exact Hx]].
    + eapply Forall_impl; [|exact I2]. intros x [Hx|(u & Hu & Ex)]; [left; eapply named_le; [exact Hx|lia|lia]|right; exists u; split; [right; exact Hu|exact Ex]].
Qed.
Lemma name_not_gen n : name_ok n -> other n 0 /\ hd 0 n <> 35 /\ hd 0 n <> 36 /\ hd 0 n <> 91 /\ hd 0 n <> 126.
Proof.
  intros (c & r & -> & H & _). split; [|cbn [hd]; repeat split; intros ->; discriminate H]. split; [intros k _ E|intros u E].
  - unfold gname in E. assert (c = 124) by congruence. subst. discriminate H.
  - assert (c = 124) by congruence. subst. discriminate H.
Qed.
Section whole.
Variable y : ygrammar.
Variable used : Z -> Prop.
Hypothesis HR : forall s rhs, In (s, rhs) (y_rules y) -> hd 0 s <> 35.
Hypothesis HI : forall u rhs, In (124 :: 43 :: u, rhs) (y_rules y) -> rhs = [].
Lemma rules_good G : forall gen mark, Forall rule_fine G -> good y used gen (b_rules G gen mark) ->
  (forall r, In r G -> exists gen' mark', good y used gen' (b_alts (ru_name r) (ru_mark r) (ru_alts r) gen' mark') /\
     In (ru_name r, names (o_ts (b_alts (ru_name r) (ru_mark r) (ru_alts r) gen' mark'))) (y_rules y)) /\
  (forall x, In x (o_new (b_rules G gen mark)) -> name_ok (r_name x) -> exists r gen' mark', In r G /\ ru_name r = r_name x /\
     alts_rhs (ru_name r) (b_alts (ru_name r) (ru_mark r) (ru_alts r) gen' mark') (r_rhs x) /\ good y used gen' (b_alts (ru_name r) (ru_mark r) (ru_alts r) gen' mark')).
Proof.
  induction G as [|r G IH]; intros gen mark HF Hg; cbn [b_rules] in *.
  - split; [intros r []|intros x []].
  - inversion HF as [|? ? F1 F2]; subst. destruct (piece_alts (ru_alts r) (ru_name r) (ru_mark r) gen mark) as (P1 & P2). set (a := b_alts (ru_name r) (ru_mark r) (ru_alts r) gen mark) in *. set (o := b_rule r gen mark) in *.
    destruct (rules_pieces G (o_gen o) (o_mark o)) as (Q1 & Q2). set (p := b_rules G (o_gen o) (o_mark o)) in *.
    assert (Eg : o_gen o = o_gen a) by reflexivity. rewrite Forall_forall in P2, Q2. destruct F1 as (Fn & Fa). destruct (name_not_gen _ Fn) as ((O1 & O2) & _).
    assert (En : o_new o = IRule (ru_name r) (ru_alias r) (ru_mark r) (o_ts a) :: o_new a) by reflexivity.
    assert (Ga : good y used gen a).
    { eapply (good_sub y used HR HI); [exact Hg| | | | | |]; cbn [b_seq o_new o_codes o_nts o_gen]; try lia.
      - rewrite En. apply incl_appl, incl_tl, incl_refl.
      - apply incl_appl. apply incl_refl.
      - apply incl_appl. apply incl_refl.
      - intros x k Hx Hk E. apply in_app_iff in Hx as [Hx|Hx].
        + rewrite En in Hx. destruct Hx as [<- |Hx]; [|exact Hx]. cbn [r_name] in E. apply O1 in E; [elim E|lia].
        + destruct (Q2 x Hx) as [Hn|(u & Hu & Ex)]; [apply (named_not _ _ _ _ Hn) in E; lia|]. rewrite Forall_forall in F2. destruct (F2 u Hu) as (Fu & _). apply name_not_gen in Fu as ((Fu & _) & _). rewrite Ex in E. apply Fu in E; [elim E|lia]. }
    assert (Gp : good y used (o_gen o) p).
    { eapply (good_sub y used HR HI); [exact Hg| | | | | |]; cbn [b_seq o_new o_codes o_nts o_gen]; try (apply incl_appr, incl_refl); try lia.
      intros x k Hx Hk E. apply in_app_iff in Hx as [Hx|Hx]; [|exact Hx]. rewrite En in Hx. destruct Hx as [<- |Hx].
      - cbn [r_name] in E. apply O1 in E; [elim E|lia].
      - destruct (P2 x Hx) as [Hn|Hn]; [apply (named_not _ _ _ _ Hn) in E; lia|]. rewrite Hn in E. apply O1 in E; [elim E|lia]. }
    destruct (IH (o_gen o) (o_mark o) F2 Gp) as (I1 & I2). split.
    + intros u [<- |Hu]; [|now apply I1]. exists gen, mark. fold a. split; [exact Ga|].
      apply (good_in _ _ _ _ Hg (IRule (ru_name r) (ru_alias r) (ru_mark r) (o_ts a))). cbn [b_seq o_new]. apply in_app_iff. left. left. reflexivity.
    + intros x Hx Hok. cbn [b_seq o_new] in Hx. apply in_app_iff in Hx as [Hx|Hx].
      * exists r, gen, mark. fold a. rewrite En in Hx. split; [left; reflexivity|]. destruct Hx as [<- |Hx].
        -- split; [reflexivity|]. split; [left; reflexivity|exact Ga].
        -- destruct (P2 x Hx) as [Hn|Hn].
           ++ exfalso. destruct (name_not_gen _ Hok) as ((N1 & N2) & _). destruct Hn as [(k & Hk & E)|(v & E & _)]; [apply N1 in E; [elim E|lia]|now apply N2 in E].
           ++ split; [symmetry; exact Hn|]. split; [right; exists x; auto|exact Ga].
      * destruct (I2 x Hx Hok) as (u & gen' & mark' & Hu & H). exists u, gen', mark'. split; [right; exact Hu|exact H].
Qed.
End whole.

(** ** The language *)
Lemma nodup_map_inj {A B} (f : A -> B) l : NoDup (map f l) -> NoDup l.
Proof. apply NoDup_map_inv. Qed.
(** the names in the rules that yaep does not use itself *)
Definition no_yaep (n : bytes) : Prop := n <> B "error" /\ hd 0 n <> 36.
Definition no_yaeps (o : bout) : Prop := Forall no_yaep (names (o_ts o)) /\ Forall (fun r => Forall no_yaep (names (r_rhs r))) (o_new o).
Lemma no_yaep_term c : no_yaep (term_name c). Proof. split; discriminate. Qed.
Lemma no_yaep_gen k : no_yaep (gname k). Proof. split; discriminate. Qed.
Lemma no_yaep_chars m cs : Forall no_yaep (names (b_chars m cs)).
Proof. induction cs as [|c cs IH]; [apply Forall_nil|]. apply Forall_cons; [apply no_yaep_term|exact IH]. Qed.
Lemma no_yaep_user n : name_ok n -> not_error n = true -> no_yaep n.
Proof.
  intros H E. split; [|now apply name_not_gen in H as (_ & _ & H & _)]. intros ->. discriminate E.
Qed.
Lemma no_yaep_o_name o : no_yaeps o -> no_yaep (o_name o).
Proof. intros (H & _). unfold o_name. destruct (o_ts o) as [|t ts]; [split; discriminate|]. now inversion H. Qed.
Lemma no_yaeps_seq o p : no_yaeps o -> no_yaeps p -> no_yaeps (b_seq o p).
Proof. intros (A & B) (C & D). split; cbn [b_seq o_ts o_new]; [unfold names; rewrite map_app; apply Forall_app; auto|apply Forall_app; auto]. Qed.
Lemma no_yaeps_wrap o n rs m : no_yaeps o -> no_yaep n -> Forall (fun r => Forall no_yaep (names (r_rhs r))) rs -> no_yaeps (b_wrap o n rs m).
Proof. intros (A & B) Hn Hr. split; cbn [b_wrap o_ts o_new]; [apply Forall_cons; [exact Hn|apply Forall_nil]|apply Forall_app; auto]. Qed.
Lemma no_yaeps_all :
  (forall f, ok_factor f = true -> fine_factor f -> forall gen mark, no_yaeps (b_factor f gen mark)) /\
  (forall t, ok_term t = true -> fine_term t -> forall gen mark, no_yaeps (b_term t gen mark)) /\
  (forall a, ok_alt a = true -> fine_alt a -> forall gen mark, no_yaeps (b_alt a gen mark)) /\
  (forall a, ok_alts a = true -> fine_alts a -> forall n mk gen mark, no_yaeps (b_alts n mk a gen mark)).
Proof.
  assert (N0 : forall nts cs gen mark, no_yaeps (Bout [] [] nts cs gen mark)) by (intros; split; apply Forall_nil).
  assert (N1 : forall t nts cs gen mark, no_yaep (t_name t) -> no_yaeps (Bout [t] [] nts cs gen mark)) by (intros t nts cs gen mark H; split; [apply Forall_cons; [exact H|apply Forall_nil]|apply Forall_nil]).
  assert (F1 : forall t m n, no_yaep t -> no_yaep n -> Forall (fun r => Forall no_yaep (names (r_rhs r))) (b_opt t m n) /\ Forall (fun r => Forall no_yaep (names (r_rhs r))) (b_reps t m n) /\ Forall (fun r => Forall no_yaep (names (r_rhs r))) (b_reps0 t m n)).
  { intros t m n Ht Hn. repeat split; repeat (first [apply Forall_nil | apply Forall_cons | exact Ht | exact Hn]). }
  assert (F2 : forall t m s sm n, no_yaep t -> no_yaep s -> no_yaep n -> Forall (fun r => Forall no_yaep (names (r_rhs r))) (b_sreps t m s sm n)).
  { intros t m s sm n Ht Hs Hn. repeat (first [apply Forall_nil | apply Forall_cons | exact Ht | exact Hs | exact Hn]). }
  apply grammar_ind.
  - intros tm cs _ _ gen mark. cbn [b_factor]. destruct cs as [|c [|d cs]]; [apply N0|apply N1, no_yaep_term|]. split; [apply Forall_cons; [apply no_yaep_gen|apply Forall_nil]|]. apply Forall_cons; [|apply Forall_nil]. exact (no_yaep_chars tm (c :: d :: cs)).
  - intros tm c _ _ gen mark. apply N1, no_yaep_term.
  - intros tm ex ms _ _ gen mark. cbn [b_factor]. apply N1. unfold set_name, charset_name_text. cbn [t_name c_exclude]. destruct ex; split; discriminate.
  - intros m n al Ho Hf gen mark. cbn [b_factor]. apply N1. now apply no_yaep_user.
  - intros cs _ _ gen mark. split; cbn [b_factor o_ts o_new]; [apply Forall_cons; [split; discriminate|apply Forall_nil]|apply Forall_cons; [apply Forall_nil|apply Forall_nil]].
  - intros a IH Ho Hf gen mark. destruct (IH Ho Hf (gname gen) cMINUS (gen + 1) mark) as (A & B). split; cbn [b_factor o_ts o_new]; [apply Forall_cons; [apply no_yaep_gen|apply Forall_nil]|]. apply Forall_cons; [exact A|exact B].
  - intros _ _ gen mark. apply N0.
  - intros f IH Ho Hf gen mark. now apply IH.
  - intros f IH Ho Hf gen mark. cbn [ok_term] in Ho. apply andb_true_iff in Ho as (_ & Ho). pose proof (IH Ho Hf gen mark) as X. cbn [b_term]. apply no_yaeps_wrap; [exact X|apply no_yaep_gen|]. now apply F1; [apply no_yaep_o_name|apply no_yaep_gen].
  - intros f IH Ho Hf gen mark. cbn [ok_term] in Ho. apply andb_true_iff in Ho as (_ & Ho). pose proof (IH Ho Hf gen mark) as X. cbn [b_term]. apply no_yaeps_wrap; [exact X|apply no_yaep_gen|]. now apply F1; [apply no_yaep_o_name|apply no_yaep_gen].
  - intros f IH Ho Hf gen mark. cbn [ok_term] in Ho. apply andb_true_iff in Ho as (_ & Ho). pose proof (IH Ho Hf gen mark) as X. cbn [b_term]. apply no_yaeps_wrap; [exact X|apply no_yaep_gen|]. now apply F1; [apply no_yaep_o_name|apply no_yaep_gen].
  - intros f IH s IHs Ho (Hf & Hs) gen mark. cbn [ok_term] in Ho. apply andb_true_iff in Ho as (O1 & O2). apply andb_true_iff in O1 as (_ & O1). apply andb_true_iff in O2 as (_ & O2). cbn [b_term].
    set (o := b_factor f gen mark). pose proof (IH O1 Hf gen mark : no_yaeps o) as X. set (p := b_factor s (o_gen o) (o_mark o)). pose proof (IHs O2 Hs (o_gen o) (o_mark o) : no_yaeps p) as Y.
    apply no_yaeps_wrap; [|apply no_yaep_gen|now apply F1; apply no_yaep_gen]. apply no_yaeps_wrap; [now apply no_yaeps_seq|apply no_yaep_gen|]. now apply F2; [apply no_yaep_o_name|apply no_yaep_o_name|apply no_yaep_gen].
  - intros f IH s IHs Ho (Hf & Hs) gen mark. cbn [ok_term] in Ho. apply andb_true_iff in Ho as (O1 & O2). apply andb_true_iff in O1 as (_ & O1). apply andb_true_iff in O2 as (_ & O2). cbn [b_term].
    set (o := b_factor f gen mark). pose proof (IH O1 Hf gen mark : no_yaeps o) as X. set (p := b_factor s (o_gen o) (o_mark o)). pose proof (IHs O2 Hs (o_gen o) (o_mark o) : no_yaeps p) as Y.
    apply no_yaeps_wrap; [now apply no_yaeps_seq|apply no_yaep_gen|]. now apply F2; [apply no_yaep_o_name|apply no_yaep_o_name|apply no_yaep_gen].
  - intros _ _ gen mark. apply N0.
  - intros t IHt a IHa Ho (Hf & Ha) gen mark. cbn [ok_alt] in Ho. apply andb_true_iff in Ho as (O1 & O2). cbn [b_alt]. apply no_yaeps_seq; [now apply IHt|now apply IHa].
  - intros a IH Ho Hf n mk gen mark. now apply IH.
  - intros a IH r IHr Ho (Hf & Hr) n mk gen mark. cbn [ok_alts] in Ho. apply andb_true_iff in Ho as (O1 & O2). cbn [b_alts]. set (o := b_alt a gen mark). destruct (IH O1 Hf gen mark : no_yaeps o) as (A & B).
    destruct (IHr O2 Hr n mk (o_gen o) (o_mark o)) as (C & D). split; cbn [o_ts o_new]; [exact A|]. apply Forall_app. split; [exact B|]. apply Forall_cons; [exact C|exact D].
Qed.
Lemma no_yaeps_rules G : ok_grammar G = true -> Forall rule_fine G -> forall gen mark, no_yaeps (b_rules G gen mark).
Proof.
  unfold ok_grammar. induction G as [|r G IH]; intros Ho Hf gen mark; [split; apply Forall_nil|]. cbn [forallb] in Ho. apply andb_true_iff in Ho as (O1 & O2). apply andb_true_iff in O1 as (_ & O1).
  inversion Hf as [|? ? (_ & F1) F2]; subst. cbn [b_rules]. apply no_yaeps_seq; [|now apply IH]. destruct (proj2 (proj2 (proj2 no_yaeps_all)) (ru_alts r) O1 F1 (ru_name r) (ru_mark r) gen mark) as (A & B).
  split; cbn [b_rule o_ts o_new]; [apply Forall_nil|]. apply Forall_cons; [exact A|exact B].
Qed.
Theorem use_spec_more G src w : w_grammar G src -> ok_grammar G = true -> Forall code_ok w ->
  exists y g', use_grammar (add_out (b_rules G 0 0) gst0) (utf8 w) = IOk (y, g') /\ yaep_names_ok y /\
  ((forall s c, In (s, c) (y_terms y) <-> s = term_name c /\ (In c w \/ In c (o_codes (b_rules G 0 0)))) /\ forall n rhs, In (n, rhs) (y_rules y) -> Forall no_yaep rhs) /\
  (forall v, derives y v -> describes G v) /\ (forall v, incl v w -> describes G v -> derives y v).
Proof.
  intros HG Hok Hw. destruct (grammar_known G src HG) as (Hne & HF & HK1 & HK2). set (o := b_rules G 0 0) in *.
  assert (Hoa : forall r, In r G -> ok_alts (ru_alts r) = true /\ not_error (ru_name r) = true).
  { intros r Hr. unfold ok_grammar in Hok. rewrite forallb_forall in Hok. specialize (Hok r Hr). apply andb_true_iff in Hok. tauto. }
  unfold use_grammar, fixup_charsets. rewrite scan_spec by (try exact Hw; lia). cbn [ibind]. set (g1 := set_terms _ _).
  assert (T0 : terms_ok []) by (split; [apply Forall_nil|apply NoDup_nil]).
  destruct (put_codes_ok (o_codes o) [] T0 HK1) as (T1 & T1i). destruct (put_codes_ok w _ T1 Hw) as (T2 & T2i).
  assert (Et : g_terms g1 = put_codes w (put_codes (o_codes o) [])) by reflexivity.
  assert (Hu : Forall code_ok (used_codes w)). { rewrite Forall_forall in Hw |- *. intros c Hc. apply (proj1 (used_in _ _)) in Hc. now apply Hw. }
  assert (Hi : forall c, In c (used_codes w) -> In (term_name c, c) (g_terms g1)). { intros c Hc. apply (proj1 (used_in _ _)) in Hc. rewrite Et. apply T2i. left. exists c. auto. }
  destruct (fixup_nts_spec (used_codes w) (o_nts o) HK2 g1) as (g2 & X & E2 & R2 & Te & D2 & P2); [rewrite Et; exact T2|exact Hu|exact Hi|].
  change (g_nts g1) with (o_nts o). rewrite E2. cbn [ibind]. unfold read_grammar. eexists _, _. split; [reflexivity|].
  rewrite D2. change (g_read g1) with 0%nat. cbn [skipn]. rewrite R2. change (g_rules g1) with (o_new o). rewrite Te, Et, map_app. set (ts := put_codes w (put_codes (o_codes o) [])) in *. set (y := YGrammar ts (map rule_names (o_new o) ++ map rule_names X)).
  (* facts about the names *)
  destruct (rules_pieces G 0 0) as (_ & Q). fold o in Q. rewrite Forall_forall in Q. rewrite Forall_forall in HF.
  assert (HX : forall n rhs, In (n, rhs) (map rule_names X) -> hd 0 n = 91 \/ hd 0 n = 126).
  { intros n rhs H. apply P2 in H as (cs & c & H & _). rewrite Forall_forall in HK2. apply HK2 in H. destruct H as (m & _ & E & _). cbn [nt_name] in E. subst n. unfold charset_name_text. destruct (c_exclude cs); auto. }
  assert (HO : forall n rhs, In (n, rhs) (map rule_names (o_new o)) -> exists x, In x (o_new o) /\ r_name x = n /\ rhs = map t_name (r_rhs x)).
  { intros n rhs H. apply in_map_iff in H as (x & E & Hx). exists x. unfold rule_names in E. split; [exact Hx|]. split; congruence. }
  assert (HN : forall n rhs, In (n, rhs) (map rule_names (o_new o)) -> (exists k, n = gname k) \/ (exists u, n = 124 :: 43 :: u /\ rhs = []) \/ (name_ok n /\ not_error n = true)).
  { intros n rhs H. destruct (HO n rhs H) as (x & Hx & E & ->). destruct (Q x Hx) as [[(k & _ & Ek)|(u & Eu & Er)]|(u & Hu' & Eu)]; rewrite E in *.
    - left. exists k. exact Ek.
    - right. left. exists u. rewrite Er. auto.
    - right. right. rewrite Eu. split; [now apply HF|now apply Hoa]. }
  assert (YT : forall s c, In (s, c) (y_terms y) -> s = term_name c /\ code_ok c).
  { intros s c H. destruct T2 as (T2 & _). rewrite Forall_forall in T2. apply (T2 (s, c)). exact H. }
  assert (YR : forall s rhs, In (s, rhs) (y_rules y) -> hd 0 s <> 35).
  { intros s rhs H. cbn [y y_rules] in H. apply in_app_iff in H as [H|H].
    - destruct (HN s rhs H) as [(k & ->)|[(u & -> & _)|(H1 & _)]]; [discriminate|discriminate|]. now apply name_not_gen in H1.
    - destruct (HX s rhs H) as [E|E]; rewrite E; discriminate. }
  assert (YI : forall u rhs, In (124 :: 43 :: u, rhs) (y_rules y) -> rhs = []).
  { intros u rhs H. cbn [y y_rules] in H. apply in_app_iff in H as [H|H].
    - destruct (HN _ rhs H) as [(k & E)|[(v & _ & E)|(H1 & _)]]; [symmetry in E; now apply gname_ins in E|exact E|]. apply name_not_gen in H1 as ((_ & H1) & _). now elim (H1 u).
    - destruct (HX _ rhs H) as [E|E]; discriminate E. }
  set (used := fun c => In c w).
  assert (YU : forall c, used c -> In (term_name c, c) (y_terms y)). { intros c Hc. cbn [y y_terms]. apply T2i. left. exists c. auto. }
  assert (Gd : good y used 0 o).
  { split.
    - intros r Hr. cbn [y y_rules]. apply in_app_iff. left. now apply in_map.
    - intros k rhs _ H. cbn [y y_rules] in H. apply in_app_iff in H as [H|H].
      + apply in_map_iff in H as (x & E & Hx). exists x. auto.
      + destruct (HX _ rhs H) as [E|E]; discriminate E.
    - intros c Hc. cbn [y y_terms]. apply T2i. right. apply T1i. left. exists c. auto.
    - intros n cs Hn rhs. cbn [y y_rules]. rewrite in_app_iff. pose proof HK2 as HK3. rewrite Forall_forall in HK3. pose proof (HK3 _ Hn) as (m & Hm & Em & Hp). cbn [nt_name] in Em. split.
      + intros [H|H].
        * exfalso. assert (Hh : hd 0 n = 91 \/ hd 0 n = 126) by (rewrite Em; unfold charset_name_text; destruct (c_exclude cs); auto).
          destruct (HN n rhs H) as [(k & E)|[(u & E & _)|(H1 & _)]]; [rewrite E in Hh; destruct Hh as [Hh|Hh]; discriminate Hh|rewrite E in Hh; destruct Hh as [Hh|Hh]; discriminate Hh|].
          apply name_not_gen in H1 as (_ & _ & _ & H91 & H126). destruct Hh; contradiction.
        * apply P2 in H as (cs' & c & Hn' & Hc & Hs & ->). apply (proj1 (used_in _ _)) in Hc. pose proof (HK3 _ Hn') as (m' & Hm' & Em' & Hp'). cbn [nt_name] in Em'. rewrite Em in Em'.
          apply charset_name_inj in Em' as (<- & _); try assumption. exists c. auto.
      + intros (c & Hc & Hs & ->). right. apply P2. exists cs, c. split; [exact Hn|]. split; [now apply used_in|]. auto. }
  assert (HF' : Forall rule_fine G) by (apply Forall_forall; exact HF).
  destruct (rules_good y used YR YI G 0 0 HF' Gd) as (RG1 & RG2). fold o in RG2.
  assert (HU : forall k, U y G k).
  { intros k. induction k as [k IH] using (well_founded_induction Wf_nat.lt_wf). intros n v Hn Hk. destruct (name_not_gen n Hn) as (On & H35 & _ & H91 & H126).
    apply (rule_inv y YT) in Hk as (j & rhs & -> & Hi' & Hy); [|exact H35]. cbn [y y_rules] in Hi'. apply in_app_iff in Hi' as [Hi'|Hi']; [|destruct (HX n rhs Hi'); contradiction].
    destruct (HO n rhs Hi') as (x & Hx & E & ->). rewrite <- E in Hn. destruct (RG2 x Hx Hn) as (r & gen' & mark' & Hr & Er & Ha & Hgd). exists r. split; [exact Hr|]. split; [congruence|].
    destruct (HF r Hr) as (Fn & Fa). destruct (Hoa r Hr) as (Oa & _).
    assert (Orn : other (ru_name r) gen'). { apply name_not_gen in Fn as ((A & B) & _). split; [intros i _; apply A; lia|exact B]. }
    eapply (proj2 (proj2 (proj2 (sound y G used YT YR YI YU))) (ru_alts r) (ru_name r) (ru_mark r) gen' mark' Oa Fa Orn Hgd j); [|exact Ha|exact Hy]. intros i Hij. apply IH. lia. }
  assert (HGr : forall r, In r G -> exists gen mark, ok_alts (ru_alts r) = true /\ fine_alts (ru_alts r) /\ other (ru_name r) gen /\
    good y used gen (b_alts (ru_name r) (ru_mark r) (ru_alts r) gen mark) /\ In (ru_name r, names (o_ts (b_alts (ru_name r) (ru_mark r) (ru_alts r) gen mark))) (y_rules y)).
  { intros r Hr. destruct (RG1 r Hr) as (gen' & mark' & Hgd & Hin). exists gen', mark'. destruct (HF r Hr) as (Fn & Fa). destruct (Hoa r Hr) as (Oa & _).
    split; [exact Oa|]. split; [exact Fa|]. split; [|split; [exact Hgd|exact Hin]]. apply name_not_gen in Fn as ((A & B) & _). split; [intros i _; apply A; lia|exact B]. }
  assert (Hst : exists r0 rs rhs ys, G = r0 :: rs /\ y_rules y = (ru_name r0, rhs) :: ys).
  { destruct G as [|r0 rs]; [now elim Hne|]. exists r0, rs. eexists _, _. split; [reflexivity|]. cbn [y y_rules]. unfold o. cbn [b_rules b_seq o_new b_rule app map]. reflexivity. }
  destruct Hst as (r0 & rs & rhs0 & ys & EG & Ey).
  split.
  - (* names *) destruct T2 as (T2a & T2b). rewrite Forall_forall in T2a. unfold yaep_names_ok. change (y_terms y) with ts. split; [exact T2b|]. split; [|split; [|split; [|split]]].
    + assert (Em : map fst ts = map term_name (map snd ts)). { rewrite map_map. apply map_ext_in. intros t Ht. now apply T2a. } rewrite Em in T2b. now apply nodup_map_inj in T2b.
    + apply Forall_forall. intros t Ht. apply T2a in Ht as (_ & Ht). unfold code_ok in Ht. lia.
    + intros H. apply in_map_iff in H as (t & E & Ht). apply T2a in Ht as (Ht & _). rewrite Ht in E. discriminate E.
    + rewrite Ey. discriminate.
    + apply Forall_forall. intros (n, rhs) H. cbn [fst]. intros Hn.
      assert (Hn' : n = B "error" \/ hd 0 n = 36 \/ hd 0 n = 35).
      { destruct Hn as [<- |[<- |[<- |Hn]]]; [left; reflexivity|right; left; reflexivity|right; left; reflexivity|]. right. right. apply in_map_iff in Hn as (t & <- & Ht). apply T2a in Ht as (-> & _). reflexivity. }
      cbn [y y_rules] in H. apply in_app_iff in H as [H|H].
      * destruct (HN n rhs H) as [(k & ->)|[(u & -> & _)|(H1 & H2)]].
        -- destruct Hn' as [E|[E|E]]; discriminate E.
        -- destruct Hn' as [E|[E|E]]; discriminate E.
        -- destruct Hn' as [-> |E]; [discriminate H2|]. apply name_not_gen in H1 as (_ & N35 & N36 & _). destruct E; contradiction.
      * destruct (HX n rhs H) as [E|E]; destruct Hn' as [-> |[E'|E']]; try discriminate E; rewrite E in E'; discriminate E'.
  - split.
    { split.
      - intros s c. cbn [y y_terms]. rewrite T2i, T1i. split.
        + intros [(d & Hd & E)|[(d & Hd & E)|[]]]; injection E as -> ->; auto.
        + intros (-> & [Hc|Hc]); [left|right; left]; exists c; auto.
      - intros n rhs H. cbn [y y_rules] in H. apply in_app_iff in H as [H|H].
        + destruct (HO n rhs H) as (x & Hx & _ & ->). destruct (no_yaeps_rules G Hok ltac:(apply Forall_forall; exact HF) 0 0) as (_ & NY). rewrite Forall_forall in NY. exact (NY x Hx).
        + apply P2 in H as (cs & c & _ & _ & _ & ->). apply Forall_cons; [apply no_yaep_term|apply Forall_nil]. }
    (* language *) split.
    + intros v (s & rhs & ys' & E & H). rewrite Ey in E. assert (Es : ru_name r0 = s) by congruence. subst s. apply (proj1 (yields_yk y used YT YR YI YU)) in H as (k & H).
      destruct (HU k (ru_name r0) v) as (r & Hr & Er & Hm); [apply HF; rewrite EG; left; reflexivity|exact H|]. exists r0, rs, r. auto.
    + intros v Hv (r0' & rs' & r & EG' & Hr & Er & Hm). rewrite EG in EG'. injection EG' as <- <-. exists (ru_name r0), rhs0, ys. split; [exact Ey|].
      destruct (HGr r Hr) as (gen' & mark' & Oa & Fa & Orn & Hgd & Hin).
      assert (Hused : Forall used v) by (apply Forall_forall; exact Hv).
      destruct (proj2 (proj2 (proj2 (proj2 (proj2 (complete y G used YT YR YI YU HGr))))) (ru_alts r) v Hm (ru_name r) (ru_mark r) gen' mark' Oa Fa Orn Hgd Hused) as (us & Hus & Hy).
      rewrite <- Er. destruct Hus as [-> |(x & Hx & En & ->)].
      * eapply y_rule; [exact Hin|exact Hy].
      * apply (good_in _ _ _ _ Hgd) in Hx. unfold rule_names in Hx. rewrite En in Hx. eapply y_rule; [exact Hx|exact Hy].
Qed.
Theorem use_spec G src w : w_grammar G src -> ok_grammar G = true -> Forall code_ok w ->
  exists y g', use_grammar (add_out (b_rules G 0 0) gst0) (utf8 w) = IOk (y, g') /\ yaep_names_ok y /\ (derives y w <-> describes G w).
Proof. intros HG Ho Hw. destruct (use_spec_more G src w HG Ho Hw) as (y & g' & A & B & _ & D & D'). exists y, g'. split; [exact A|]. split; [exact B|]. split; [apply D|apply D', incl_refl]. Qed.
