(** Proofs about Detect.v. *)
From Coq Require Import NArith ZArith List Bool String Lia ZifyBool ZifyNat ZifyN.
From Verif Require Import Bytes BytesFacts Detect.
Import ListNotations.
Local Open Scope N_scope.

(* ------------------------------------------------------------------ *)
(** * Comments *)

Lemma escape_no_dle_prefix : forall r, needs_dle r = false -> is_prefix dle (escape_loop r) = false.
Proof.
  intros r H. unfold needs_dle in H. apply orb_false_iff in H. destruct H as [_ H].
  destruct (is_prefix dle (escape_loop r)) eqn:E; [|reflexivity]. exfalso.
  unfold dle in *.
  destruct r as [|a r]; [discriminate|]. cbn [escape_loop] in E.
  destruct ((a =? cMINUS) && needs_dle r) eqn:Ea.
  { cbn [is_prefix] in E. apply andb_prop in Ea. destruct Ea as [Ea _]. apply N.eqb_eq in Ea. subst.
    vm_compute in E. discriminate. }
  cbn [is_prefix] in E, H. destruct (0xe2 =? a) eqn:E1; [|discriminate]. cbn [andb] in *.
  destruct r as [|b r]; [discriminate|]. cbn [escape_loop] in E.
  destruct ((b =? cMINUS) && needs_dle r) eqn:Eb.
  { cbn [is_prefix] in E. apply andb_prop in Eb. destruct Eb as [Eb _]. apply N.eqb_eq in Eb. subst.
    vm_compute in E. discriminate. }
  cbn [is_prefix] in E, H. destruct (0x90 =? b) eqn:E2; [|discriminate]. cbn [andb] in *.
  destruct r as [|c r]; [discriminate|]. cbn [escape_loop] in E.
  destruct ((c =? cMINUS) && needs_dle r) eqn:Ec.
  { cbn [is_prefix] in E. apply andb_prop in Ec. destruct Ec as [Ec _]. apply N.eqb_eq in Ec. subst.
    vm_compute in E. discriminate. }
  cbn [is_prefix] in E, H. destruct (0x90 =? c) eqn:E3; [|discriminate]. discriminate.
Qed.

Lemma unescape_escape_loop : forall s fuel, (List.length (escape_loop s) <= fuel)%nat ->
  unescape_loop fuel (escape_loop s) = s.
Proof.
  induction s as [|c s IH]; intros fuel H.
  - destruct fuel; reflexivity.
  - cbn [escape_loop] in *. destruct ((c =? cMINUS) && needs_dle s) eqn:E.
    + cbn [List.length app] in H. unfold dle in *. cbn [List.length app] in H.
      destruct fuel as [|f]; [lia|]. cbn [unescape_loop app].
      apply andb_prop in E. destruct E as [E _]. rewrite E. cbn [andb].
      change (is_prefix dle (0xe2 :: 0x90 :: 0x90 :: escape_loop s)) with true. cbn [skipn].
      f_equal. apply IH. lia.
    + cbn [List.length] in H. destruct fuel as [|f]; [lia|]. cbn [unescape_loop].
      destruct (c =? cMINUS) eqn:Ec; cbn [andb] in *.
      * rewrite (escape_no_dle_prefix _ E). f_equal. apply IH. lia.
      * f_equal. apply IH. lia.
Qed.

Lemma unescape_none : forall s, count_unescapes s = 0%nat -> forall fuel, unescape_loop fuel s = s.
Proof.
  induction s as [|c s IH]; intros H fuel; destruct fuel; cbn [unescape_loop]; auto.
  cbn [count_unescapes] in H. destruct ((c =? cMINUS) && is_prefix dle s); [lia|].
  f_equal. apply IH. lia.
Qed.

Lemma escape_none : forall s, count_escapes s = 0%nat -> escape_loop s = s.
Proof.
  induction s as [|c s IH]; intros H; cbn [escape_loop]; auto.
  cbn [count_escapes] in H. destruct ((c =? cMINUS) && needs_dle s); [lia|].
  f_equal. apply IH. lia.
Qed.

Lemma comment_to_xml_eq : forall s, comment_to_xml s = escape_loop s.
Proof.
  intros s. unfold comment_to_xml, escape_xml_comment, or_same.
  destruct (Nat.eqb_spec (count_escapes s) 0); [symmetry; apply escape_none; auto|reflexivity].
Qed.

Lemma comment_from_xml_eq : forall s, comment_from_xml s = unescape_loop (List.length s) s.
Proof.
  intros s. unfold comment_from_xml, unescape_xml_comment, or_same.
  destruct (Nat.eqb_spec (count_unescapes s) 0); [symmetry; apply unescape_none; auto|reflexivity].
Qed.

Lemma comment_round_trip : forall s, comment_from_xml (comment_to_xml s) = s.
Proof.
  intros s. rewrite comment_to_xml_eq, comment_from_xml_eq. apply unescape_escape_loop. lia.
Qed.

(** The allocated size, asserted at xmq.c:3193, is the written size. *)
Lemma escape_length : forall s,
  List.length (escape_loop s) = (List.length s + count_escapes s * 3)%nat.
Proof.
  induction s as [|c s IH]; cbn [escape_loop count_escapes List.length]; auto.
  destruct ((c =? cMINUS) && needs_dle s); cbn [List.length app dle]; rewrite IH; lia.
Qed.

Lemma escape_nul_free : forall s, nul_free s -> nul_free (escape_loop s).
Proof.
  induction s as [|c s IH]; intros H; cbn [escape_loop]; auto.
  apply nul_free_cons in H. destruct H as [H1 H2]. specialize (IH H2).
  destruct ((c =? cMINUS) && needs_dle s).
  - unfold dle. cbn [app]. rewrite !nul_free_cons. repeat split; auto; discriminate.
  - rewrite nul_free_cons. auto.
Qed.

Lemma escape_head_minus : forall s, is_prefix [cMINUS] (escape_loop s) = is_prefix [cMINUS] s.
Proof. intros [|c s]; [reflexivity|]. cbn [escape_loop]. destruct ((c =? cMINUS) && needs_dle s); reflexivity. Qed.

(** No two adjacent dashes. *)
Definition no_double_dash (s : bytes) : Prop := forall a b, s <> a ++ [cMINUS; cMINUS] ++ b.

Lemma no_dd_cons : forall c s, no_double_dash s ->
  (c = cMINUS -> is_prefix [cMINUS] s = false) -> no_double_dash (c :: s).
Proof.
  intros c s H Hc [|a0 a] b E; cbn [app] in E.
  - injection E as -> ->. specialize (Hc eq_refl). vm_compute in Hc. discriminate.
  - injection E as -> E. apply (H a b). exact E.
Qed.

Lemma escape_no_dd : forall s, no_double_dash (escape_loop s).
Proof.
  induction s as [|c s IH]; cbn [escape_loop].
  - intros [|? ?] b E; discriminate.
  - destruct ((c =? cMINUS) && needs_dle s) eqn:E.
    + unfold dle. cbn [app]. repeat (apply no_dd_cons; [|intros; try discriminate; reflexivity]). exact IH.
    + apply no_dd_cons; [exact IH|]. intros ->. rewrite escape_head_minus.
      change (cMINUS =? cMINUS) with true in E. cbn [andb] in E. unfold needs_dle in E.
      apply orb_false_iff in E. apply E.
Qed.

(* ------------------------------------------------------------------ *)
(** * HTML *)

(** Specification: reading escaped html back.  Any of the four entities
    denotes its character, other characters denote themselves. *)
Definition html_entities : list (bytes * N) :=
  [(B "&amp;", cAMP); (B "&lt;", cLT); (B "&gt;", cGT); (B "&quot;", cDQ)].
Inductive html_reads : bytes -> bytes -> Prop :=
| hr_nil : html_reads [] []
| hr_ent : forall e c r s, In (e, c) html_entities -> html_reads r s -> html_reads (e ++ r) (c :: s)
| hr_chr : forall c r s, c <> cAMP -> c <> cLT -> c <> cGT -> c <> cDQ -> html_reads r s -> html_reads (c :: r) (c :: s).

Lemma write_safe_html_reads : forall s, html_reads (write_safe_html s) s.
Proof.
  induction s as [|c s IH]; cbn [write_safe_html]; [constructor|].
  destruct (N.eqb_spec c cAMP); [subst; apply hr_ent; [simpl; auto|exact IH]|].
  destruct (N.eqb_spec c cLT); [subst; apply hr_ent; [simpl; auto|exact IH]|].
  destruct (N.eqb_spec c cGT); [subst; apply hr_ent; [simpl; auto|exact IH]|].
  destruct (N.eqb_spec c cDQ); [subst; apply hr_ent; [simpl; auto|exact IH]|].
  cbn [app]. apply hr_chr; auto.
Qed.

Lemma html_reads_det : forall t s1, html_reads t s1 -> forall s2, html_reads t s2 -> s1 = s2.
Proof.
  assert (Hent : forall e1 c1 r1 e2 c2 r2, In (e1, c1) html_entities -> In (e2, c2) html_entities ->
             e1 ++ r1 = e2 ++ r2 -> c1 = c2 /\ r1 = r2).
  { intros e1 c1 r1 e2 c2 r2 H1 H2 E. simpl in H1, H2.
    repeat (destruct H1 as [H1|H1]); try tauto; injection H1 as <- <-;
    repeat (destruct H2 as [H2|H2]); try tauto; injection H2 as <- <-;
    cbn in E; try discriminate; injection E as E; subst; auto. }
  assert (Hamp : forall e c, In (e, c) html_entities -> exists e', e = cAMP :: e').
  { intros e c H. simpl in H. repeat (destruct H as [H|H]); try tauto; injection H as <- <-; eexists; reflexivity. }
  intros t s1 H1. induction H1 as [|e c r s Hin0 Hr0 IH|c r s N1' N2' N3' N4' Hr0 IH]; intros s2 H2.
  - inversion H2 as [|e c r s Hin Hr E1|]; subst; auto. destruct (Hamp _ _ Hin) as (e' & ->). discriminate.
  - inversion H2 as [E1|e2 c2 r2 s3 Hin Hr E1|c2 r2 s3 N1 N2 N3 N4 Hr E1]; subst.
    + destruct (Hamp _ _ Hin0) as (e' & ->). discriminate.
    + destruct (Hent _ _ _ _ _ _ Hin0 Hin (eq_sym E1)) as [-> ->]. f_equal. auto.
    + destruct (Hamp _ _ Hin0) as (e' & ->). cbn [app] in E1. injection E1 as E1 _. congruence.
  - inversion H2 as [E1|e2 c2 r2 s3 Hin Hr E1|c2 r2 s3 N1 N2 N3 N4 Hr E1]; subst.
    + destruct (Hamp _ _ Hin) as (e' & ->). cbn [app] in E1. injection E1 as E1 _. congruence.
    + f_equal. auto.
Qed.

Lemma write_safe_html_no_markup : forall s, ~ In cLT (write_safe_html s) /\ ~ In cGT (write_safe_html s)
  /\ ~ In cDQ (write_safe_html s).
Proof.
  assert (H : forall x s, x = cLT \/ x = cGT \/ x = cDQ -> ~ In x (write_safe_html s)).
  { intros x s Hx. induction s as [|c s IH]; cbn [write_safe_html]; [auto|].
    rewrite in_app_iff. intros [Hi|Hi]; [|tauto]. clear IH.
    destruct (N.eqb_spec c cAMP); [vm_compute in Hi; unfold cLT, cGT, cDQ in Hx; lia|].
    destruct (N.eqb_spec c cLT); [vm_compute in Hi; unfold cLT, cGT, cDQ in Hx; lia|].
    destruct (N.eqb_spec c cGT); [vm_compute in Hi; unfold cLT, cGT, cDQ in Hx; lia|].
    destruct (N.eqb_spec c cDQ); [vm_compute in Hi; unfold cLT, cGT, cDQ in Hx; lia|].
    simpl in Hi. destruct Hi as [->|[]]. intuition congruence. }
  intros s. repeat split; apply H; auto.
Qed.

(* ------------------------------------------------------------------ *)
(** * Byte order mark *)

Lemma bom_utf8 : forall s, s <> [] -> skip_any_potential_bom (0xef :: 0xbb :: 0xbf :: s) = Some s.
Proof. intros [|x s] H; [congruence|reflexivity]. Qed.

(* ------------------------------------------------------------------ *)
(** * Detection *)

Lemma skip_ws_app : forall ws s aft, Forall (fun c => is_xml_whitespace c = true) ws ->
  skip_xml_ws ((ws ++ s) ++ aft) (Z.of_nat (List.length (ws ++ s))) =
  skip_xml_ws (s ++ aft) (Z.of_nat (List.length s)).
Proof.
  induction ws as [|c ws IH]; intros s aft H; [reflexivity|].
  inversion H; subst. cbn [app List.length skip_xml_ws].
  assert ((0 <? Z.of_nat (S (List.length (ws ++ s))))%Z = true) as -> by lia.
  rewrite H2. cbn [andb]. replace (Z.of_nat (S (List.length (ws ++ s))) - 1)%Z with (Z.of_nat (List.length (ws ++ s))) by lia.
  apply IH. exact H3.
Qed.

Lemma detect_ws : forall ws s aft, Forall (fun c => is_xml_whitespace c = true) ws ->
  detect_content_type (ws ++ s) aft = detect_content_type s aft.
Proof. intros. unfold detect_content_type. rewrite skip_ws_app by exact H. reflexivity. Qed.

(** Specification of detection, on the bytes of the buffer only. *)
Fixpoint drop_ws (s : bytes) : bytes :=
  match s with
  | c :: r => if is_xml_whitespace c then drop_ws r else s
  | [] => []
  end.
Fixpoint eq_ignore_case (a b : bytes) : bool :=
  match a, b with
  | [], [] => true
  | x :: a', y :: b' => (tolower x =? tolower y) && eq_ignore_case a' b'
  | _, _ => false
  end.
(** After optional whitespace comes the word [w] (in any case) as a whole
    word; the result is what follows it. *)
Definition after_word (w u : bytes) : option bytes :=
  let v := drop_ws u in
  let r := skipn (List.length w) v in
  if eq_ignore_case (firstn (List.length w) v) w
     && match r with [] => true | c :: _ => negb (isalnum c) end
  then Some r else None.
Definition html_markup (t : bytes) : bool :=
  match after_word (B "html") (tl t) with
  | Some _ => true
  | None =>
    match after_word (B "<!doctype") t with
    | Some r => match after_word (B "html") (tl r) with Some _ => true | None => false end
    | None => false
    end
  end.
(** What follows the first occurrence of the comment end. *)
Fixpoint after_comment (t : bytes) : option bytes :=
  match t with
  | [] => None
  | _ :: r => if is_prefix (B "-->") t then Some (skipn 3 t) else after_comment r
  end.
Definition detect_spec (s : bytes) : content :=
  let t := drop_ws s in
  match t with
  | [] => CXMQ
  | c :: _ =>
    if c =? cLT then
      if is_prefix (B "<?xml") t then CXML
      else if is_prefix (B "<!--") t then
        match after_comment t with
        | Some (x :: r) => if html_markup (x :: r) then CHTML else CXML
        | _ => CXML
        end
      else if html_markup t then CHTML else CXML
    else if existsb (N.eqb c) (B "{[0123456789" ++ [cDQ]) then CJSON
    else if existsb (beq t) [B "true"; B "false"; B "null"; B "true" ++ [cNL]; B "false" ++ [cNL]; B "null" ++ [cNL]]
    then CJSON
    else CXMQ
  end.

Lemma skip_ws_drop : forall s aft,
  skip_xml_ws (s ++ aft) (Z.of_nat (List.length s)) = (drop_ws s ++ aft, Z.of_nat (List.length (drop_ws s))).
Proof.
  induction s as [|c s IH]; intros aft.
  - cbn [app drop_ws List.length]. destruct aft; reflexivity.
  - cbn [app skip_xml_ws drop_ws].
    assert ((0 <? Z.of_nat (List.length (c :: s)))%Z = true) as -> by (cbn [List.length]; lia).
    cbn [andb]. destruct (is_xml_whitespace c).
    + replace (Z.of_nat (List.length (c :: s)) - 1)%Z with (Z.of_nat (List.length s)) by (cbn [List.length]; lia).
      apply IH.
    + reflexivity.
Qed.

Lemma tolower_nonzero : forall c w, w <> 0 -> tolower c =? tolower w = true -> c <> 0.
Proof.
  intros c w Hw H E. subst. unfold tolower, in_range in H.
  destruct ((65 <=? w) && (w <=? 90)) eqn:E; change ((65 <=? 0) && (0 <=? 90)) with false in H; cbv iota in H; lia.
Qed.

Lemma strncasecmp_spec : forall w u aft, nul_free w ->
  strncasecmp_eq (u ++ 0 :: aft) w = DOk (eq_ignore_case (firstn (List.length w) u) w).
Proof.
  induction w as [|x w IH]; intros u aft H.
  - destruct u; reflexivity.
  - apply nul_free_cons in H. destruct H as [Hx H].
    destruct u as [|y u]; cbn [app strncasecmp_eq List.length firstn eq_ignore_case].
    + destruct (tolower 0 =? tolower x) eqn:E; [|reflexivity].
      exfalso. apply (tolower_nonzero _ _ Hx E). reflexivity.
    + destruct (tolower y =? tolower x); [|reflexivity]. cbn [andb]. apply IH. exact H.
Qed.

Lemma eq_ignore_case_length : forall a b, eq_ignore_case a b = true -> List.length a = List.length b.
Proof.
  induction a; destruct b; cbn; intros H; try discriminate; auto.
  apply andb_prop in H. f_equal. apply IHa. apply H.
Qed.

Lemma ws_not_alnum : forall c, is_xml_whitespace c || (c =? 0) || negb (isalnum c) = negb (isalnum c).
Proof.
  intros c. destruct (is_xml_whitespace c) eqn:E; cbn [orb].
  - unfold is_xml_whitespace, cSP, cNL, cTAB, cCR in E. unfold isalnum, in_range. lia.
  - destruct (N.eqb_spec c 0); [subst; reflexivity|reflexivity].
Qed.

Lemma find_word_spec : forall w u aft, nul_free w ->
  find_word_ignore_case (u ++ 0 :: aft) (Z.of_nat (List.length u)) w =
  DOk (match after_word w u with
       | Some r => Some (r ++ 0 :: aft, Z.of_nat (List.length r))
       | None => None end).
Proof.
  intros w u aft Hw. unfold find_word_ignore_case. rewrite skip_ws_drop.
  unfold after_word. cbv zeta. set (v := drop_ws u). rewrite strncasecmp_spec by exact Hw. cbn [dbind].
  destruct (eq_ignore_case (firstn (List.length w) v) w) eqn:E; [|reflexivity]. cbn [andb].
  apply eq_ignore_case_length in E. rewrite firstn_length in E.
  assert ((0 <=? Z.of_nat (List.length v) - Z.of_nat (List.length w))%Z = true) as -> by lia.
  unfold rd.
  assert (Hsk : skipn (List.length w) (v ++ 0 :: aft) = skipn (List.length w) v ++ 0 :: aft).
  { rewrite skipn_app. replace (List.length w - List.length v)%nat with 0%nat by lia. reflexivity. }
  assert (Hln : (Z.of_nat (List.length v) - Z.of_nat (List.length w))%Z = Z.of_nat (List.length (skipn (List.length w) v))).
  { rewrite skipn_length. lia. }
  assert (Hnth : nth_error (v ++ 0 :: aft) (List.length w) = hd_error (skipn (List.length w) v ++ 0 :: aft)).
  { rewrite <- Hsk. generalize (v ++ 0 :: aft). generalize (List.length w). clear.
    intros n; induction n; intros l; destruct l; auto. cbn [nth_error skipn]. apply IHn. }
  rewrite Hnth, Hsk, Hln. destruct (skipn (List.length w) v) as [|c r]; cbn [app hd_error dbind].
  - reflexivity.
  - rewrite ws_not_alnum. destruct (isalnum c); reflexivity.
Qed.

(** The read of find_word_ignore_case(stop+1, ...). *)
Lemma find_word_past : forall aft, (4 <= List.length aft)%nat ->
  find_word_ignore_case aft (-1) (B "html") = DOk None.
Proof.
  intros aft H. unfold find_word_ignore_case.
  assert (skip_xml_ws aft (-1) = (aft, (-1)%Z)) as -> by (destruct aft; reflexivity).
  assert (Hs : exists b, strncasecmp_eq aft (B "html") = DOk b).
  { destruct aft as [|a [|b [|c [|d r]]]]; cbn [List.length] in H; try lia.
    change (B "html") with [104; 116; 109; 108]. cbn [strncasecmp_eq].
    destruct (tolower a =? _); [|eexists; reflexivity]. destruct (tolower b =? _); [|eauto].
    destruct (tolower c =? _); [|eauto]. destruct (tolower d =? _); [|eauto]. destruct r; eexists; reflexivity. }
  destruct Hs as [[|] ->]; reflexivity.
Qed.

Lemma html_nul_free : nul_free (B "html").
Proof. intro H. vm_compute in H. intuition discriminate. Qed.
Lemma doctype_nul_free : nul_free (B "<!doctype").
Proof. intro H. vm_compute in H. intuition discriminate. Qed.

Lemma detect_markup_spec : forall t aft, t <> [] -> (4 <= List.length aft)%nat ->
  detect_markup (t ++ 0 :: aft) (Z.of_nat (List.length t)) = DOk (if html_markup t then CHTML else CXML).
Proof.
  intros t aft Ht Ha. unfold detect_markup, html_markup.
  destruct t as [|c t]; [congruence|].
  replace (Z.of_nat (List.length (c :: t)) - 1)%Z with (Z.of_nat (List.length t)) by (cbn [List.length]; lia).
  cbn [tl app]. rewrite find_word_spec by apply html_nul_free. cbn [dbind].
  destruct (after_word (B "html") t); [reflexivity|].
  change (c :: t ++ 0 :: aft) with ((c :: t) ++ 0 :: aft).
  rewrite find_word_spec by apply doctype_nul_free. cbn [dbind].
  destruct (after_word (B "<!doctype") (c :: t)) as [r|]; [|reflexivity].
  destruct r as [|x r].
  - cbn [app tl List.length]. change (Z.of_nat 0 - 1)%Z with (-1)%Z. rewrite find_word_past by exact Ha. reflexivity.
  - cbn [app tl]. replace (Z.of_nat (List.length (x :: r)) - 1)%Z with (Z.of_nat (List.length r)) by (cbn [List.length]; lia).
    rewrite find_word_spec by apply html_nul_free. cbn [dbind].
    destruct (after_word (B "html") r); reflexivity.
Qed.

Lemma is_prefix_within : forall w s aft,
  startswith_within (s ++ aft) (Z.of_nat (List.length s)) w = is_prefix w s.
Proof.
  intros w s aft. unfold startswith_within.
  destruct (Z.leb_spec (Z.of_nat (List.length w)) (Z.of_nat (List.length s))); cbn [andb].
  - assert (Hl : (List.length w <= List.length s)%nat) by lia. clear H. revert s Hl.
    induction w as [|x w IH]; intros s Hl; [destruct s; reflexivity|].
    destruct s as [|y s]; [cbn [List.length] in Hl; lia|]. cbn [is_prefix app]. rewrite IH by (cbn [List.length] in Hl; lia). reflexivity.
  - destruct (is_prefix w s) eqn:E; [|reflexivity]. apply is_prefix_iff in E. destruct E as [c ->].
    rewrite app_length in H. lia.
Qed.

Lemma zip_spec : forall t aft,
  let '(m, n) := zip_past_comment (t ++ aft) (Z.of_nat (List.length t)) in
  match after_comment t with
  | Some r => skipn 3 m = r ++ aft /\ (n - 3)%Z = Z.of_nat (List.length r)
  | None => (n - 3 < 0)%Z
  end.
Proof.
  induction t as [|c0 t IH]; intros aft.
  - cbn [app List.length]. destruct aft as [|x [|y [|z r]]]; reflexivity.
  - cbn [app zip_past_comment after_comment].
    destruct (Z.ltb_spec 2 (Z.of_nat (List.length (c0 :: t)))).
    + destruct t as [|c1 [|c2 t]]; cbn [List.length] in H; try lia. cbn [app].
      replace (is_prefix (B "-->") (c0 :: c1 :: c2 :: t)) with ((c0 =? cMINUS) && (c1 =? cMINUS) && (c2 =? cGT)).
      2:{ change (B "-->") with [45; 45; 62]. cbn [is_prefix]. unfold cMINUS, cGT. destruct t; lia. }
      destruct ((c0 =? cMINUS) && (c1 =? cMINUS) && (c2 =? cGT)).
      * cbn [skipn]. cbn [List.length]. split; [reflexivity|lia].
      * replace (Z.of_nat (List.length (c0 :: c1 :: c2 :: t)) - 1)%Z with (Z.of_nat (List.length (c1 :: c2 :: t))) by (cbn [List.length]; lia).
        apply (IH aft).
    + assert (E : is_prefix (B "-->") (c0 :: t) = false).
      { destruct (is_prefix (B "-->") (c0 :: t)) eqn:E; [|reflexivity]. apply is_prefix_iff in E. destruct E as [r E].
        rewrite E, app_length in H. cbn [B List.length] in H. lia. }
      rewrite E. assert (Hn : after_comment t = None).
      { destruct t as [|a [|b t]]; cbn [List.length] in H; try lia; [reflexivity|].
        cbn [after_comment]. destruct (is_prefix (B "-->") [a]) eqn:E2; [|reflexivity].
        apply is_prefix_iff in E2. destruct E2 as [r E2]. discriminate. }
      rewrite Hn. cbn [List.length] in *. lia.
Qed.

Lemma strncmp_spec : forall w u aft, nul_free w ->
  strncmp_eq (u ++ 0 :: aft) w = DOk (is_prefix w u).
Proof.
  induction w as [|x w IH]; intros u aft H; [destruct u; reflexivity|].
  apply nul_free_cons in H. destruct H as [Hx H].
  destruct u as [|y u]; cbn [app strncmp_eq is_prefix].
  - destruct (N.eqb_spec 0 x); [subst; congruence|reflexivity].
  - rewrite (N.eqb_sym x y). destruct (y =? x); [|reflexivity]. cbn [andb]. apply IH. exact H.
Qed.

Lemma prefix_full : forall w u k, List.length w = k -> List.length u = k -> is_prefix w u = beq u w.
Proof.
  induction w as [|x w IH]; intros u k Hw Hu; destruct u as [|y u]; cbn [List.length] in *; try lia; auto.
  cbn [is_prefix beq]. rewrite (N.eqb_sym x y). f_equal. apply (IH u (pred k)); lia.
Qed.

Lemma beq_len : forall a b, List.length a <> List.length b -> beq a b = false.
Proof. intros a b H. apply beq_neq. congruence. Qed.

Lemma detect_spec_general : forall s aft, (4 <= List.length aft)%nat \/ (forall r, drop_ws s <> cLT :: r) ->
  detect_content_type s (0 :: aft) = DOk (detect_spec s).
Proof.
  intros s aft Hor. unfold detect_content_type, detect_spec. rewrite skip_ws_drop. cbv zeta.
  destruct (drop_ws s) as [|c t] eqn:Et.
  - reflexivity.
  - assert ((Z.of_nat (List.length (c :: t)) <=? 0)%Z = false) as -> by (cbn [List.length]; lia).
    unfold detect_at. cbn [app]. change (c :: t ++ 0 :: aft) with ((c :: t) ++ 0 :: aft).
    destruct (N.eqb_spec c cLT) as [->|Hlt].
    + assert (Ha : (4 <= List.length aft)%nat) by (destruct Hor as [|Hor]; [assumption|now destruct (Hor t)]).
      rewrite !is_prefix_within.
      destruct (is_prefix (B "<?xml") (cLT :: t)); [reflexivity|].
      destruct (is_prefix (B "<!--") (cLT :: t)).
      * pose proof (zip_spec (cLT :: t) (0 :: aft)) as Hz.
        destruct (zip_past_comment ((cLT :: t) ++ 0 :: aft) (Z.of_nat (List.length (cLT :: t)))) as [m n].
        destruct (after_comment (cLT :: t)) as [r|].
        -- destruct Hz as [-> ->]. destruct r as [|x r]; [reflexivity|].
           assert ((Z.of_nat (List.length (x :: r)) <=? 0)%Z = false) as -> by (cbn [List.length]; lia).
           apply detect_markup_spec; [discriminate|exact Ha].
        -- assert ((n - 3 <=? 0)%Z = true) as -> by lia. reflexivity.
      * apply detect_markup_spec; [discriminate|exact Ha].
    + replace (existsb (N.eqb c) (B "{[0123456789" ++ [cDQ])) with
        ((c =? cLB) || (c =? cDQ) || (c =? 91) || in_range 48 57 c).
      2:{ change (B "{[0123456789" ++ [cDQ]) with [123; 91; 48; 49; 50; 51; 52; 53; 54; 55; 56; 57; 34].
          cbn [existsb]. unfold cLB, cDQ, in_range. lia. }
      destruct ((c =? cLB) || (c =? cDQ) || (c =? 91) || in_range 48 57 c); [reflexivity|].
      set (L := [B "true"; B "false"; B "null"; B "true" ++ [cNL]; B "false" ++ [cNL]; B "null" ++ [cNL]]).
      set (u := c :: t).
      assert (Hnf : nul_free (B "true") /\ nul_free (B "false") /\ nul_free (B "null")).
      { repeat split; intro H; vm_compute in H; intuition discriminate. }
      destruct Hnf as (Hn1 & Hn2 & Hn3).
      assert (Hnth : forall l, (l <= List.length u)%nat -> rd (u ++ 0 :: aft) l =
               DOk (match skipn l u with [] => 0 | d :: _ => d end)).
      { intros l Hl. unfold rd. clear - Hl. revert l Hl. induction u as [|x u IH]; intros l Hl.
        - destruct l; [reflexivity|cbn [List.length] in Hl; lia].
        - destruct l; [reflexivity|]. cbn [app nth_error skipn]. apply IH. cbn [List.length] in Hl. lia. }
      (* the words cannot match when the head differs *)
      assert (Hhead : existsb (beq u) L = true -> c = 116 \/ c = 102 \/ c = 110).
      { intros H. apply existsb_exists in H. destruct H as (w & Hin & Hb). apply beq_eq in Hb.
        unfold L in Hin. unfold u in Hb. simpl in Hin.
        repeat (destruct Hin as [<-|Hin]; [injection Hb as -> _; auto|]). destruct Hin. }
      assert (c = 116 \/ c = 110 \/ c = 102 \/ ((c =? 116) || (c =? 110) = false /\ (c =? 102) = false)) as Hc by lia.
      assert (Hshort : (List.length u < 4)%nat \/ (6 < List.length u)%nat -> existsb (beq u) L = false).
      { intros H. unfold L. cbn [existsb]. rewrite !beq_len; [reflexivity|..]; cbn [B app List.length]; lia. }
      assert (Hbody : forall l,
        (if (Z.of_nat l - 1 <? Z.of_nat (List.length u))%Z then
        dbind (if (Z.of_nat (List.length u) =? Z.of_nat l)%Z then DOk true
               else dbind (rd (u ++ 0 :: aft) l) (fun d => DOk ((d =? cNL) && (Z.of_nat (List.length u) =? Z.of_nat l + 1)%Z)))
          (fun ends =>
        if ends then
          dbind (strncmp_eq (u ++ 0 :: aft) (B "true")) (fun a => if a then DOk CJSON else
          dbind (strncmp_eq (u ++ 0 :: aft) (B "false")) (fun b => if b then DOk CJSON else
          dbind (strncmp_eq (u ++ 0 :: aft) (B "null")) (fun d => if d then DOk CJSON else DOk CXMQ)))
        else DOk CXMQ)
        else DOk CXMQ) =
        DOk (if (Nat.eqb (List.length u) l
                 || (match skipn l u with [] => 0 | d :: _ => d end =? cNL) && Nat.eqb (List.length u) (S l))
                && (is_prefix (B "true") u || is_prefix (B "false") u || is_prefix (B "null") u)
             then CJSON else CXMQ)).
      { intros l. rewrite !strncmp_spec by assumption.
        destruct (Z.ltb_spec (Z.of_nat l - 1) (Z.of_nat (List.length u))) as [H|H].
        - rewrite Hnth by lia. cbn [dbind].
          destruct (Z.eqb_spec (Z.of_nat (List.length u)) (Z.of_nat l)) as [H1|H1].
          + assert (Nat.eqb (List.length u) l = true) as -> by lia. cbn [orb andb dbind].
            destruct (is_prefix (B "true") u), (is_prefix (B "false") u), (is_prefix (B "null") u); reflexivity.
          + assert (Nat.eqb (List.length u) l = false) as -> by lia. cbn [orb dbind].
            replace (Z.of_nat (List.length u) =? Z.of_nat l + 1)%Z with (Nat.eqb (List.length u) (S l)) by lia.
            destruct (_ && _); [|reflexivity]. cbn [andb].
            destruct (is_prefix (B "true") u), (is_prefix (B "false") u), (is_prefix (B "null") u); reflexivity.
        - assert (Nat.eqb (List.length u) l = false) as -> by lia.
          assert (Nat.eqb (List.length u) (S l) = false) as -> by lia.
          rewrite andb_false_r. reflexivity. }
      assert (Hfin : forall l, ((c = 116 \/ c = 110) /\ l = 4%nat) \/ (c = 102 /\ l = 5%nat) ->
        (Nat.eqb (List.length u) l
                 || (match skipn l u with [] => 0 | d :: _ => d end =? cNL) && Nat.eqb (List.length u) (S l))
                && (is_prefix (B "true") u || is_prefix (B "false") u || is_prefix (B "null") u) = existsb (beq u) L).
      { intros l Hl. unfold u, L in *.
        change (B "true" ++ [cNL]) with [116; 114; 117; 101; 10]. change (B "true") with [116; 114; 117; 101].
        change (B "null" ++ [cNL]) with [110; 117; 108; 108; 10]. change (B "null") with [110; 117; 108; 108].
        change (B "false" ++ [cNL]) with [102; 97; 108; 115; 101; 10]. change (B "false") with [102; 97; 108; 115; 101].
        destruct Hl as [[[-> | ->] ->] | [-> ->]];
        destruct t as [|t1 [|t2 [|t3 [|t4 [|t5 [|t6 t]]]]]];
        cbn [List.length skipn Nat.eqb orb andb existsb beq is_prefix]; unfold cNL;
        try lia. }
      destruct Hc as [->|[->|[->|[Hc1 Hc2]]]].
      * change (_ || _) with true. cbn [Nat.eqb]. rewrite (Hbody 4%nat), Hfin by tauto. reflexivity.
      * change (_ || _) with true. cbn [Nat.eqb]. rewrite (Hbody 4%nat), Hfin by tauto. reflexivity.
      * change (_ || _) with false. change (102 =? 102) with true. cbn [Nat.eqb].
        rewrite (Hbody 5%nat), Hfin by tauto. reflexivity.
      * rewrite Hc1, Hc2. cbn [Nat.eqb]. destruct (existsb (beq u) L); [|reflexivity]. specialize (Hhead eq_refl). lia.
Qed.
Lemma detect_spec_correct : forall s aft, (4 <= List.length aft)%nat ->
  detect_content_type s (0 :: aft) = DOk (detect_spec s).
Proof. intros s aft Ha. apply detect_spec_general. now left. Qed.
