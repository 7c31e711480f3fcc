(** The names that are generated for terminals, rules and sets differ. *)
From Coq Require Import NArith ZArith Bool String List Lia.
From Coq Require Import ZifyBool ZifyNat ZifyN.
From Verif Require Import Bytes BytesFacts Utf8Proofs Printer Grammar CompactProofs Ixml IxmlSpec.
Import ListNotations.
Local Open Scope N_scope.
Local Open Scope list_scope.

(** ** Numbers *)
Lemma hex_digit_char d : d < 16 -> hex_digit (hex_char d) = Z.of_N d /\ ix_hex (hex_char d) = true.
Proof.
  intros H. assert (X : forall P : N -> bool, forallb P (map N.of_nat (List.seq 0 16)) = true -> P d = true).
  { intros P HP. apply (below_spec 16 P HP). exact H. }
  split.
  - specialize (X (fun m => Z.eqb (hex_digit (hex_char m)) (Z.of_N m)) eq_refl). cbn beta in X. lia.
  - apply (X (fun m => ix_hex (hex_char m)) eq_refl).
Qed.
Lemma hex_fold_app a b v : fold_left (fun v c => v * 16 + hex_digit c)%Z (a ++ b) v = fold_left (fun v c => v * 16 + hex_digit c)%Z b (fold_left (fun v c => v * 16 + hex_digit c)%Z a v).
Proof. apply fold_left_app. Qed.
Lemma hexadecimal_is c d : hexadecimal c d -> hex_digit c = Z.of_nat d /\ ix_hex c = true.
Proof.
  assert (Hn : forall (l : bytes), nth_error l d = Some c -> (d < List.length l)%nat)
    by (intros l H; apply nth_error_Some; rewrite H; discriminate).
  intros [H|H]; apply Hn in H as Hd; clear Hn; cbn [B List.length] in Hd;
    do 16 (destruct d as [|d]; [injection H as <-; split; reflexivity|]); exfalso; cbn in Hd; lia.
Qed.
Lemma number_is ds v : number ds v -> hex_value ds = v /\ forallb ix_hex ds = true.
Proof.
  induction 1 as [|ds v c d Hn (IH1 & IH2) Hc]; [split; reflexivity|]. destruct (hexadecimal_is c d Hc) as (H1 & H2). split.
  - unfold hex_value in *. rewrite hex_fold_app, IH1. cbn [fold_left]. rewrite H1. lia.
  - rewrite forallb_app, IH2. cbn [forallb]. now rewrite H2.
Qed.
Lemma hex_is c s : w_hex c s -> exists ds, s = 35 :: ds /\ ds <> [] /\ forallb ix_hex ds = true /\ hex_value ds = c /\ code_ok c.
Proof. destruct 1 as [c ds H1 H2 H3]. apply number_is in H2 as (H4 & H5). exists ds. auto. Qed.

(** ** Names in grammars *)
Lemma among_is s (P : N -> bool) : forallb P (B s) = true -> forall c, among s c = true -> P c = true.
Proof. intros H c Hc. unfold among in Hc. apply existsb_exists in Hc as (x & Hx & E). apply N.eqb_eq in E. subst. rewrite forallb_forall in H. now apply H. Qed.
Lemma name_is n : name_ok n -> exists c r, n = c :: r /\ ix_name_start c = true /\ forallb ix_name_follower r = true.
Proof.
  intros (c & r & -> & H1 & H2). exists c, r. split; [reflexivity|]. split.
  - revert H1. apply among_is. vm_compute. reflexivity.
  - rewrite forallb_forall in H2 |- *. intros x Hx. specialize (H2 x Hx). revert H2. apply among_is. vm_compute. reflexivity.
Qed.
Lemma hex_loop_spec f : forall n acc, (N.to_nat (N.log2 n) < f)%nat ->
  exists ds, hex_loop f n acc = ds ++ acc /\ ds <> [] /\ hex_value ds = Z.of_N n /\ forallb ix_hex ds = true.
Proof.
  induction f as [|f IH]; intros n acc H; [lia|]. cbn [hex_loop].
  assert (Hm : n mod 16 < 16) by (apply N.mod_lt; lia). destruct (hex_digit_char (n mod 16) Hm) as (D & T).
  destruct (N.ltb_spec n 16) as [L|L].
  - exists [hex_char (n mod 16)]. split; [reflexivity|]. split; [discriminate|]. split.
    + unfold hex_value. cbn [fold_left]. rewrite D. rewrite N.mod_small by lia. lia.
    + cbn [forallb]. now rewrite T.
  - assert (L2 : N.log2 (n / 16) < N.log2 n).
    { assert (N.log2 (n / 16) <= N.log2 (n / 2)).
      { apply N.log2_le_mono. apply N.div_le_lower_bound; [lia|]. pose proof (N.mul_div_le n 16). nia. }
      assert (E : N.log2 (n / 2) = N.pred (N.log2 n)).
      { rewrite <- N.div2_div, N.div2_spec. rewrite N.log2_shiftr. lia. }
      assert (0 < N.log2 n) by (apply N.log2_pos; lia). lia. }
    destruct (IH (n / 16) (hex_char (n mod 16) :: acc)) as (ds & E & Hn & N1 & T1); [lia|].
    exists (ds ++ [hex_char (n mod 16)]). split; [rewrite E, <- app_assoc; reflexivity|]. split; [now destruct ds|]. split.
    + unfold hex_value in *. rewrite hex_fold_app, N1. cbn [fold_left]. rewrite D.
      pose proof (N.div_mod n 16). lia.
    + now rewrite forallb_app, T1; cbn [forallb]; rewrite T.
Qed.
Lemma hex_spec c : code_ok c -> hex c <> [] /\ hex_value (hex c) = c /\ forallb ix_hex (hex c) = true.
Proof.
  intros H. unfold code_ok in H. unfold hex. rewrite Z.mod_small by lia.
  destruct (hex_loop_spec (S (N.to_nat (N.log2 (Z.to_N c)))) (Z.to_N c) []) as (ds & -> & H1 & H2 & H3); [lia|].
  rewrite app_nil_r. split; [exact H1|]. split; [|exact H3]. rewrite H2. lia.
Qed.
Lemma term_name_inj a b : code_ok a -> code_ok b -> term_name a = term_name b -> a = b.
Proof.
  intros Ha Hb E. unfold term_name in E. assert (E' : hex a = hex b) by congruence.
  destruct (hex_spec a Ha) as (_ & A & _). destruct (hex_spec b Hb) as (_ & A' & _). congruence.
Qed.
Lemma gname_inj a b : gname a = gname b -> a = b.
Proof.
  intros E. unfold gname in E. assert (E' : decimal a = decimal b) by congruence.
  destruct (decimal_spec quote_cfg eq_refl a) as (_ & A & _). destruct (decimal_spec quote_cfg eq_refl b) as (_ & A' & _). congruence.
Qed.
Lemma gname_ins k u : gname k <> 124 :: 43 :: u.
Proof.
  intros E. unfold gname in E. assert (E' : decimal k = 43 :: u) by congruence.
  destruct (decimal_spec quote_cfg eq_refl k) as (_ & _ & A). rewrite E' in A. discriminate A.
Qed.

(** ** Names of sets *)
Definition cpart_ok (p : cpart) : Prop :=
  match p with
  | CRange a b => code_ok a /\ code_ok b
  | CCat n => category_parts n <> None
  end.

Definition coversb (n b : bytes) : bool := beq n b || beq n (firstn 1 b) || (beq n (B "LC") && existsb (beq b) [B "Lu"; B "Ll"; B "Lt"]).
Lemma coversb_spec n b : coversb n b = true <-> covers n b.
Proof.
  unfold coversb, covers. rewrite !orb_true_iff, andb_true_iff, existsb_exists, !beq_eq. split.
  - intros [[H|H]|(H & x & Hx & E)]; [auto|auto|]. apply beq_eq in E. subst x. auto.
  - intros [H|[H|(H & Hx)]]; [auto|auto|]. right. split; [exact H|]. exists b. split; [exact Hx|now apply beq_eq].
Qed.
Lemma category_tables_are : Forall (fun e => snd e = map snd (filter (fun b => coversb (fst e) (fst b)) general)) category_tables.
Proof. unfold category_tables. repeat (apply Forall_cons; [reflexivity|]). apply Forall_nil. Qed.
Lemma category_is n : is_category n -> category_parts n <> None.
Proof.
  intros (b & t & Hb & Hc).
  assert (X : forallb (fun e => match category_parts (fst e) with Some _ => true | None => false end && match category_parts (firstn 1 (fst e)) with Some _ => true | None => false end) general = true) by (vm_compute; reflexivity).
  rewrite forallb_forall in X. specialize (X _ Hb). cbn [fst] in X. apply andb_true_iff in X as (X1 & X2).
  destruct Hc as [-> |[-> |(-> & _)]]; [| |discriminate].
  - destruct (category_parts b); discriminate.
  - destruct (category_parts (firstn 1 b)); discriminate.
Qed.
Lemma in_category_iff n c : in_category n c <-> exists ts t, category_parts n = Some ts /\ In t ts /\ In c t.
Proof.
  assert (X : forall ts, category_parts n = Some ts -> ts = map snd (filter (fun b => coversb n (fst b)) general)).
  { intros ts H. unfold category_parts in H. destruct (find _ category_tables) as [e|] eqn:E; [|discriminate]. injection H as <-. apply find_some in E as (E & Eb). apply beq_eq in Eb. subst n.
    pose proof category_tables_are as A. rewrite Forall_forall in A. now apply A. }
  split.
  - intros (b & t & Hb & Hc & Ht). destruct (category_parts n) as [ts|] eqn:E; [|exfalso; apply (category_is n); [exists b, t; auto|exact E]].
    exists ts, t. split; [reflexivity|]. split; [|exact Ht]. rewrite (X ts eq_refl). apply in_map_iff. exists (b, t). split; [reflexivity|]. apply filter_In. split; [exact Hb|]. now apply coversb_spec.
  - intros (ts & t & E & Ht & Hc). rewrite (X ts E) in Ht. apply in_map_iff in Ht as ((b, t') & <- & Hb). apply filter_In in Hb as (Hb & Hv). exists b, t'. split; [exact Hb|]. split; [now apply coversb_spec|exact Hc].
Qed.

Lemma category_name n : category_parts n <> None -> exists c r, n = c :: r /\ in_range 65 90 c = true /\ forallb (fun c => in_range 97 122 c || (c =? 67)) r = true /\ (length n <= 2)%nat.
Proof.
  intros H. unfold category_parts in H. destruct (find (fun e => beq (fst e) n) category_tables) as [e|] eqn:E; [|now elim H].
  apply find_some in E as (E & Eb). apply beq_eq in Eb. subst n.
  assert (X : Forall (fun e => match fst e with c :: r => in_range 65 90 c && forallb (fun c => in_range 97 122 c || (c =? 67)) r && Nat.leb (length (fst e)) 2 | [] => false end = true) category_tables).
  { unfold category_tables. repeat (apply Forall_cons; [vm_compute; reflexivity|]). apply Forall_nil. }
  rewrite Forall_forall in X. specialize (X e E). destruct (fst e) as [|c r]; [discriminate|].
  apply andb_true_iff in X as (X & X3). apply andb_true_iff in X as (X1 & X2). exists c, r. repeat split; auto. apply PeanoNat.Nat.leb_le. exact X3.
Qed.

Lemma hex_len_loop f : forall n acc k, n < 16 ^ N.of_nat k -> (0 < k)%nat -> (length (hex_loop f n acc) <= k + length acc)%nat.
Proof.
  induction f as [|f IH]; intros n acc k H Hk; cbn [hex_loop]; [lia|].
  destruct (N.ltb_spec n 16) as [L|L]; [cbn [length]; lia|].
  destruct k as [|k]; [lia|].
  assert (Hk0 : (0 < k)%nat). { destruct k; [cbn in H; lia|lia]. }
  assert (Hn : n / 16 < 16 ^ N.of_nat k).
  { apply N.div_lt_upper_bound; [lia|]. replace (N.of_nat (S k)) with (N.succ (N.of_nat k)) in H by lia. rewrite N.pow_succ_r' in H. exact H. }
  specialize (IH (n / 16) (hex_char (n mod 16) :: acc) k Hn Hk0). cbn [length] in IH. lia.
Qed.
Lemma hex_len c : code_ok c -> (length (hex c) <= 6)%nat.
Proof.
  intros H. unfold hex. pose proof (hex_len_loop (S (N.to_nat (N.log2 (Z.to_N (c mod 2 ^ 32))))) (Z.to_N (c mod 2 ^ 32)) [] 6) as X.
  cbn [length] in X. assert ((length (hex_loop (S (N.to_nat (N.log2 (Z.to_N (c mod 2 ^ 32))))) (Z.to_N (c mod 2 ^ 32)) []) <= 6 + 0)%nat); [|lia].
  apply X; [|lia]. unfold code_ok in H. rewrite Z.mod_small by lia. change (16 ^ N.of_nat 6) with 16777216. lia.
Qed.

(** The characters of the name of a part *)
Definition part_char (c : N) : bool := ix_hex c || (c =? 35) || (c =? 45) || in_range 65 90 c || in_range 97 122 c.
Definition range_name (a b : Z) : bytes := if (a =? b)%Z then term_name a else term_name a ++ cMINUS :: term_name b.
Lemma part_name_range a b : code_ok a -> code_ok b -> part_name (CRange a b) = range_name a b.
Proof.
  intros Ha Hb. unfold part_name, range_name. destruct (a =? b)%Z; [reflexivity|]. apply firstn_all2.
  unfold term_name. rewrite app_length. cbn [length]. pose proof (hex_len a Ha). pose proof (hex_len b Hb). lia.
Qed.
Lemma hex_part_char l : forallb ix_hex l = true -> forallb part_char l = true.
Proof.
  induction l as [|c l IH]; [reflexivity|]. cbn [forallb]. intros H. apply andb_true_iff in H as (H1 & H2). rewrite (IH H2). unfold part_char. now rewrite H1.
Qed.
Lemma part_name_chars p : cpart_ok p -> forallb part_char (part_name p) = true /\ part_name p <> [].
Proof.
  destruct p as [a b|n]; intros H.
  - destruct H as (Ha & Hb). rewrite part_name_range by assumption. unfold range_name, term_name.
    destruct (hex_spec a Ha) as (_ & _ & A). destruct (hex_spec b Hb) as (_ & _ & A'). apply hex_part_char in A, A'.
    destruct (a =? b)%Z; (split; [|discriminate]).
    + cbn [forallb]. now rewrite A.
    + cbn [app forallb]. rewrite forallb_app. cbn [forallb]. now rewrite A, A'.
  - destruct (category_name n H) as (c & r & -> & Hc & Hr & _). cbn [part_name]. split; [|discriminate].
    cbn [forallb]. unfold part_char at 1. rewrite Hc, !orb_true_r. cbn [andb orb]. clear H Hc. induction r as [|d r IH]; [reflexivity|].
    cbn [forallb] in *. apply andb_true_iff in Hr as (H1 & H2). rewrite (IH H2), andb_true_r. unfold part_char.
    apply orb_true_iff in H1 as [H1|H1]; [now rewrite H1, !orb_true_r|]. apply N.eqb_eq in H1. now subst.
Qed.
Lemma take_stop p l c r : forallb p l = true -> p c = false -> take_while p (l ++ c :: r) = l /\ drop_while p (l ++ c :: r) = c :: r.
Proof.
  intros H Hc. induction l as [|d l IH]; cbn [app take_while drop_while].
  - now rewrite Hc.
  - cbn [forallb] in H. apply andb_true_iff in H as (H1 & H2). rewrite H1. destruct (IH H2) as (-> & ->). auto.
Qed.
Lemma stop_unique (p : N -> bool) l l' c c' r r' : forallb p l = true -> forallb p l' = true -> p c = false -> p c' = false ->
  l ++ c :: r = l' ++ c' :: r' -> l = l' /\ c = c' /\ r = r'.
Proof.
  intros H H' Hc Hc' E. destruct (take_stop p l c r H Hc) as (T & D). destruct (take_stop p l' c' r' H' Hc') as (T' & D').
  rewrite E in T, D. split; [congruence|]. rewrite D in D'. split; congruence.
Qed.
Lemma part_name_inj p q : cpart_ok p -> cpart_ok q -> part_name p = part_name q -> p = q.
Proof.
  assert (Cat : forall n a b, category_parts n <> None -> n <> range_name a b).
  { intros n a b H E. destruct (category_name n H) as (c & r & -> & Hc & _). unfold range_name, term_name in E.
    destruct (a =? b)%Z; cbn [app] in E; assert (c = cHASH) by congruence; subst; discriminate Hc. }
  destruct p as [a b|n], q as [a' b'|n']; intros Hp Hq E.
  - destruct Hp as (Ha & Hb), Hq as (Ha' & Hb'). rewrite !part_name_range in E by assumption. unfold range_name in E.
    destruct (hex_spec a Ha) as (_ & _ & A1). destruct (hex_spec a' Ha') as (_ & _ & A2).
    destruct (Z.eqb_spec a b) as [->|N1]; destruct (Z.eqb_spec a' b') as [->|N2].
    + apply term_name_inj in E; [now subst|assumption|assumption].
    + exfalso. unfold term_name in E. assert (E' : hex b = hex a' ++ cMINUS :: cHASH :: hex b') by (cbn [app] in E; congruence).
      rewrite E', forallb_app in A1. apply andb_true_iff in A1 as (_ & A1). discriminate A1.
    + exfalso. unfold term_name in E. assert (E' : hex b' = hex a ++ cMINUS :: cHASH :: hex b) by (cbn [app] in E; congruence).
      rewrite E', forallb_app in A2. apply andb_true_iff in A2 as (_ & A2). discriminate A2.
    + unfold term_name in E. assert (E' : hex a ++ cMINUS :: cHASH :: hex b = hex a' ++ cMINUS :: cHASH :: hex b') by (cbn [app] in E; congruence).
      destruct (stop_unique ix_hex _ _ cMINUS cMINUS _ _ A1 A2 eq_refl eq_refl E') as (F1 & _ & F2).
      assert (a = a') by (apply term_name_inj; [assumption|assumption|unfold term_name; congruence]).
      assert (b = b') by (apply term_name_inj; [assumption|assumption|unfold term_name; congruence]). congruence.
  - exfalso. destruct Hp as (Ha & Hb). rewrite part_name_range in E by assumption. apply (Cat n' a b Hq). now symmetry.
  - exfalso. destruct Hq as (Ha & Hb). rewrite part_name_range in E by assumption. apply (Cat n a' b' Hp). exact E.
  - cbn [part_name] in E. congruence.
Qed.
Lemma parts_name_cons p ps : parts_name (p :: ps) = part_name p ++ match ps with [] => [] | _ => cSEMI :: parts_name ps end.
Proof. destruct ps; cbn [parts_name]; [now rewrite app_nil_r|reflexivity]. Qed.
Lemma parts_name_inj ps : forall qs, Forall cpart_ok ps -> Forall cpart_ok qs -> parts_name ps ++ [93] = parts_name qs ++ [93] -> ps = qs.
Proof.
  induction ps as [|p ps IH]; intros [|q qs] Hp Hq E.
  - reflexivity.
  - exfalso. inversion Hq as [|? ? Q1 Q2]; subst. destruct (part_name_chars q Q1) as (C & N). rewrite parts_name_cons in E.
    destruct (part_name q) as [|c r]; [now elim N|]. cbn [app parts_name] in E. assert (c = 93) by congruence. subst. discriminate C.
  - exfalso. inversion Hp as [|? ? Q1 Q2]; subst. destruct (part_name_chars p Q1) as (C & N). rewrite parts_name_cons in E.
    destruct (part_name p) as [|c r]; [now elim N|]. cbn [app parts_name] in E. assert (c = 93) by congruence. subst. discriminate C.
  - inversion Hp as [|? ? P1 P2]; subst. inversion Hq as [|? ? Q1 Q2]; subst.
    destruct (part_name_chars p P1) as (Cp & _). destruct (part_name_chars q Q1) as (Cq & _).
    rewrite !parts_name_cons, <- !app_assoc in E.
    assert (Sp : exists c r, match ps with [] => [] | _ => cSEMI :: parts_name ps end ++ [93] = c :: r /\ part_char c = false).
    { destruct ps; eexists _, _; split; reflexivity. }
    assert (Sq : exists c r, match qs with [] => [] | _ => cSEMI :: parts_name qs end ++ [93] = c :: r /\ part_char c = false).
    { destruct qs; eexists _, _; split; reflexivity. }
    destruct Sp as (c & r & Ep & Hc), Sq as (c' & r' & Eq & Hc'). rewrite Ep, Eq in E.
    destruct (stop_unique part_char _ _ _ _ _ _ Cp Cq Hc Hc' E) as (F1 & F2 & F3). subst c' r'.
    apply part_name_inj in F1; [|assumption|assumption]. subst q. f_equal. rewrite <- Eq in Ep.
    destruct ps as [|p2 ps], qs as [|q2 qs]; cbn [app] in Ep; [reflexivity|discriminate|discriminate|].
    apply IH; [assumption|assumption|]. congruence.
Qed.
Definition tmark_ok (m : N) : Prop := m = 0 \/ m = 94 \/ m = 45.
Lemma charset_name_inj cs cs' m m' : Forall cpart_ok (c_parts cs) -> Forall cpart_ok (c_parts cs') -> tmark_ok m -> tmark_ok m' ->
  charset_name_text cs m = charset_name_text cs' m' -> cs = cs' /\ m = m'.
Proof.
  intros H H' Hm Hm' E. unfold charset_name_text in E. destruct cs as [ex ps], cs' as [ex' ps']. cbn [c_exclude c_parts] in *.
  assert (Ex : ex = ex').
  { destruct ex, ex'; try reflexivity; cbn [app] in E; discriminate E. }
  subst ex'. apply app_inv_head in E. cbn [app] in E. assert (E1 : (if (m =? 0) || (m =? cSP) then [] else [m]) ++ parts_name ps ++ [93] = (if (m' =? 0) || (m' =? cSP) then [] else [m']) ++ parts_name ps' ++ [93]) by congruence.
  assert (F : forall qs, Forall cpart_ok qs -> forall c r, parts_name qs ++ [93] = c :: r -> c <> 94 /\ c <> 45).
  { intros qs Hq c r Ec. destruct qs as [|q qs]; [cbn [parts_name app] in Ec; split; congruence|].
    inversion Hq as [|? ? Q1 Q2]; subst. rewrite parts_name_cons in Ec.
    destruct q as [a b|n].
    - destruct Q1 as (Q3 & Q4). rewrite part_name_range in Ec by assumption. unfold range_name, term_name in Ec. destruct (a =? b)%Z; cbn [app] in Ec; (assert (c = cHASH) by congruence); subst c; split; discriminate.
    - destruct (category_name n Q1) as (d & r' & -> & Hd & _). cbn [part_name app] in Ec. assert (c = d) by congruence. subst. split; intros ->; discriminate Hd. }
  destruct Hm as [-> |[-> | ->]], Hm' as [-> |[-> | ->]]; cbn [N.eqb orb app] in E1; cbn in E1.
  all: try (split; [f_equal; apply parts_name_inj; [assumption|assumption|congruence]|reflexivity]).
  all: exfalso; try discriminate E1.
  all: first [destruct (F ps H _ _ E1); congruence | destruct (F ps' H' _ _ (eq_sym E1)); congruence].
Qed.
