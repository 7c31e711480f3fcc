(** What the callbacks of the document builder do with the tokens of each
    construct of the grammar. *)
From Coq Require Import NArith ZArith List Bool Arith Lia.
From Verif Require Import Bytes BytesFacts Outcome Utf8 Utf8Proofs Quote QuoteSpec QuoteProofs QuoteProofs2
  Parser ParserSpec ParserProofs Dom Grammar LexProofs.
Import ListNotations.
Local Open Scope N_scope.

(** The callbacks for tokens of the given shapes that follow the text pre. *)
Fixpoint buildS (root : option bytes) (pre : bytes) (sh : list (kind * bytes)) (aft : bytes) (b : bst) : bout :=
  match sh with
  | [] => BOk b
  | (k, t) :: r => bbind (callback root (Tok k 0 (col_after pre) t []) (concat (map snd r) ++ aft) b)
                         (buildS root (pre ++ t) r aft)
  end.

Lemma callback_col root t u aft b : t_kind t = t_kind u -> t_text t = t_text u -> t_col t = t_col u ->
  callback root t aft b = callback root u aft b.
Proof. unfold callback. intros -> -> ->. reflexivity. Qed.

Lemma build_shapes root T : forall A aft b, placed (A ++ T) ->
  build root T aft b = buildS root (texts A) (map shape T) aft b.
Proof.
  induction T as [|t T IH]; intros A aft b P; [reflexivity|]. cbn [build map buildS shape].
  destruct (P A t T eq_refl) as (_ & Hc).
  rewrite (callback_col root t (Tok (t_kind t) 0 (col_after (texts A)) (t_text t) [])); auto.
  rewrite map_map. cbn [snd shape].
  change (map (fun x => snd (shape x)) T) with (map t_text T).
  destruct (callback _ _ _ _) as [b'| | |]; cbn [bbind]; auto.
  rewrite (IH (A ++ [t])) by (now rewrite <- app_assoc). now rewrite texts_app, texts_one.
Qed.

Lemma buildS_app root a : forall pre c aft b, buildS root pre (a ++ c) aft b
  = bbind (buildS root pre a (concat (map snd c) ++ aft) b) (buildS root (pre ++ concat (map snd a)) c aft).
Proof.
  induction a as [|[k t] a IH]; intros pre c aft b.
  - cbn. now rewrite app_nil_r.
  - cbn [app buildS map concat snd]. rewrite map_app, concat_app, <- !app_assoc.
    destruct (callback _ _ _ _) as [b'| | |]; cbn [bbind]; auto. rewrite IH. now rewrite <- app_assoc.
Qed.

Lemma buildS_wsh root pre w aft b : buildS root pre (wsh w) aft b = BOk b.
Proof. destruct w; reflexivity. Qed.

(* ---------- text values ---------- *)

Lemma c_str_plain s : ~ In 0 s -> c_str s = s.
Proof.
  induction s as [|c s IH]; intros H; auto. cbn. destruct (N.eqb_spec c 0) as [->|]; [exfalso; apply H; now left|].
  f_equal. apply IH. intros X. apply H. now right.
Qed.

Lemma in_split c s l : In l (split_lines s) -> In c l -> In c s.
Proof.
  revert l. induction s as [|d s IH]; intros l H1 H2.
  - cbn in H1. destruct H1 as [<-|[]]. contradiction.
  - cbn in H1. destruct (d =? cNL).
    + destruct H1 as [<-|H1]; [contradiction|]. right. eauto.
    + destruct (split_lines s) as [|x ls] eqn:E.
      * destruct H1 as [<-|[]]. destruct H2 as [<-|[]]. now left.
      * destruct H1 as [<-|H1].
        -- destruct H2 as [<-|H2]; [now left|]. right. apply (IH x); auto. now left.
        -- right. apply (IH l); auto. now right.
Qed.
Lemma in_join c ls : In c (join_lines ls) -> c = cNL \/ exists l, In l ls /\ In c l.
Proof.
  induction ls as [|l ls IH]; intros H; [contradiction|]. destruct ls as [|l2 ls].
  - right. exists l. split; [now left|exact H].
  - change (join_lines (l :: l2 :: ls)) with (l ++ cNL :: join_lines (l2 :: ls)) in H.
    apply in_app_or in H. destruct H as [H|[H|H]]; auto.
    + right. exists l. split; [now left|exact H].
    + destruct (IH H) as [G|(x & G1 & G2)]; auto. right. exists x. split; [now right|exact G2].
Qed.
Lemma in_rstrip c l : In c (rstrip l) -> In c l.
Proof.
  induction l as [|d l IH]; auto. cbn. destruct (rstrip l) as [|x r].
  - destruct (is_hspace d); [contradiction|]. intros [<-|[]]. now left.
  - intros [<-|H]; [now left|]. right. now apply IH.
Qed.
Lemma in_drop_columns c l : forall n, In c (drop_columns n l) -> In c l.
Proof.
  induction l as [|d l IH]; intros n; [destruct n; auto|]. destruct n as [|n]; auto. cbn [drop_columns].
  destruct (d =? cSP); [intros H; right; eauto|]. destruct (d =? cTAB); auto.
  destruct (Nat.leb 8 (S n)); intros H; right; eauto.
Qed.
Lemma in_clean_lines c inc keep ls : forall l, In l (clean_lines inc keep ls) -> In c l -> exists m, In m ls /\ In c m.
Proof.
  assert (C : forall m, In c (clean_line inc m) -> In c m).
  { intros m H. unfold clean_line in H. destruct (blank m); [contradiction|]. apply in_drop_columns in H. now apply in_rstrip. }
  induction ls as [|m ls IH]; intros l H1 H2; [contradiction|]. destruct ls as [|m2 ls].
  - destruct H1 as [<-|[]]. exists m. split; [now left|]. destruct keep; auto. eapply in_drop_columns; eauto.
  - change (In l (clean_line inc m :: clean_lines inc keep (m2 :: ls))) in H1. destruct H1 as [<-|H1].
    + exists m. split; [now left|auto].
    + destruct (IH l H1 H2) as (x & G1 & G2). exists x. split; [now right|exact G2].
Qed.
Lemma in_firstn {A} (x : A) n l : In x (firstn n l) -> In x l.
Proof. intros H. rewrite <- (firstn_skipn n l). apply in_or_app. now left. Qed.
Lemma in_skipn {A} (x : A) n l : In x (skipn n l) -> In x l.
Proof. intros H. rewrite <- (firstn_skipn n l). apply in_or_app. now right. Qed.

(** A text block contains nothing but characters of the quote, spaces and
    newlines. *)
Lemma in_text_block c i s : In c (text_block i s) -> c = cNL \/ c = cSP \/ In c s.
Proof.
  unfold text_block. set (ls := split_lines s). destruct (Nat.eqb _ 1); auto.
  destruct (Nat.eqb _ _).
  - intros H. apply repeat_spec in H. auto.
  - set (core := firstn _ ls). set (body := skipn _ core).
    assert (B : forall l, In l body -> In c l -> In c s).
    { intros l H1 H2. apply in_skipn in H1. apply in_firstn in H1. eapply in_split; eauto. }
    assert (P : forall placed l, (forall m, In m placed -> In c m -> c = cSP \/ In c s) -> forall a b inc k,
      In l (repeat [] a ++ clean_lines inc k placed ++ repeat [] b) -> In c l -> c = cNL \/ c = cSP \/ In c s).
    { intros placed l HP a b inc k H1 H2. apply in_app_or in H1. destruct H1 as [H1|H1].
      - apply repeat_spec in H1. subst. contradiction.
      - apply in_app_or in H1. destruct H1 as [H1|H1].
        + destruct (in_clean_lines c _ _ _ l H1 H2) as (m & G1 & G2). right. eauto.
        + apply repeat_spec in H1. subst. contradiction. }
    destruct (Nat.eqb _ 0); intros H; apply in_join in H; destruct H as [H|(l & H1 & H2)]; auto.
    + eapply P; [|exact H1|exact H2]. intros m Hm Hc. destruct body as [|b0 body]; cbn in Hm.
      * destruct Hm as [<-|[]]. rewrite app_nil_r in Hc. apply repeat_spec in Hc. auto.
      * destruct Hm as [<-|Hm].
        -- apply in_app_or in Hc. destruct Hc as [Hc|Hc]; [apply repeat_spec in Hc; auto|]. right. apply (B b0); auto. now left.
        -- right. apply (B m); auto. now right.
    + eapply P; [|exact H1|exact H2]. intros m Hm Hc. right. apply (B m); auto.
Qed.
Lemma text_block_plain i s : plain s -> plain (text_block i s).
Proof.
  intros [H1 H2]. split; intros H; apply in_text_block in H; destruct H as [H|[H|H]]; auto; discriminate.
Qed.

Lemma starts_first c s : ~ starts (is c) s <-> first_is c s = false.
Proof.
  unfold starts, is. destruct s as [|x s]; cbn.
  - split; auto. intros _ (c0 & r & H & _). discriminate.
  - split; intros H.
    + destruct (x =? c) eqn:E; auto. exfalso. apply H. exists x, s. auto.
    + intros (y & r & E & Hy). injection E as <- <-. congruence.
Qed.

Lemma quote_value_spec pre t z v aft : quote pre t z v -> plain v /\
  exists n, quote_value (col_after pre) t aft = Ok (n, v).
Proof.
  intros [z' Hz|d b z' H1 H2 (B1 & B2 & B3 & _) Hp Hz].
  - split; [split; intros []|]. unfold quote_value.
    destruct (un_quote_text_block (N.to_nat (col_after pre - 1)) 1 [] aft) as (n & E & _); auto.
    exists n. change [cQ; cQ] with (rep cQ 1 ++ [] ++ rep cQ 1). rewrite E. now rewrite text_block_single.
  - split; [now apply text_block_plain|]. unfold quote_value, column.
    destruct (un_quote_text_block (N.to_nat (col_after pre - 1)) d b aft) as (n & E & _); auto; try apply Hp.
    + apply starts_first in B2. now rewrite B2.
    + eauto.
Qed.

Lemma with_quote pre t z v aft f : quote pre t z v -> with_value (quote_value (col_after pre) t aft) f = f v.
Proof.
  intros H. destruct (quote_value_spec _ _ _ _ aft H) as ((P & _) & n & ->). cbn. now rewrite c_str_plain.
Qed.

(* ---------- entities ---------- *)

Lemma digits_number base digit n : (forall c d, digit c = Some d -> digit_value (Z.of_N base) c = Some (Z.of_N d)) ->
  digit_value (Z.of_N base) cSEMI = None ->
  forall acc u, number base digit n acc = Some u -> digits (Z.of_N base) (n ++ [cSEMI]) (Z.of_N acc) = Z.of_N u.
Proof.
  intros HD HS. induction n as [|c n IH]; intros acc u H.
  - injection H as <-. cbn [app digits]. now rewrite HS.
  - cbn in H. destruct (digit c) as [d|] eqn:E; [|discriminate]. cbn [app digits]. rewrite (HD _ _ E).
    replace (Z.of_N acc * Z.of_N base + Z.of_N d)%Z with (Z.of_N (acc * base + d)) by lia. now apply IH.
Qed.

Lemma dec_digit_value c d : dec_digit c = Some d -> digit_value 10 c = Some (Z.of_N d).
Proof.
  unfold dec_digit, digit_value. destruct (in_range 48 57 c) eqn:E; [|discriminate]. intros [= <-].
  unfold in_range in E. bsplit. replace (Z.of_N c - 48 <? 10)%Z with true by (symmetry; apply Z.ltb_lt; lia). f_equal. lia.
Qed.
Lemma hex_digit_value c d : hex_digit c = Some d -> digit_value 16 c = Some (Z.of_N d).
Proof.
  unfold hex_digit, digit_value. destruct (in_range 48 57 c) eqn:E.
  - intros [= <-]. unfold in_range in E. bsplit. replace (Z.of_N c - 48 <? 16)%Z with true by (symmetry; apply Z.ltb_lt; lia). f_equal. lia.
  - destruct (in_range 97 102 c) eqn:F.
    + intros [= <-]. unfold in_range in *. bsplit. replace (97 <=? c) with true by (symmetry; apply N.leb_le; lia).
      replace (c <=? 122) with true by (symmetry; apply N.leb_le; lia). cbn [andb].
      replace (Z.of_N c - 87 <? 16)%Z with true by (symmetry; apply Z.ltb_lt; lia). f_equal. lia.
    + destruct (in_range 65 70 c) eqn:G; [|discriminate]. intros [= <-]. unfold in_range in *. bsplit.
      replace (97 <=? c) with false by (symmetry; apply N.leb_gt; lia).
      replace (65 <=? c) with true by (symmetry; apply N.leb_le; lia).
      replace (c <=? 90) with true by (symmetry; apply N.leb_le; lia). cbn [andb].
      replace (Z.of_N c - 55 <? 16)%Z with true by (symmetry; apply Z.ltb_lt; lia). f_equal. lia.
Qed.

Lemma to_int_small u : u <= 0x10ffff -> to_int (Z.of_N u) = Z.of_N u.
Proof.
  intros H. unfold to_int. rewrite Z.mod_small by lia. destruct (Z.ltb_spec (Z.of_N u) 2147483648); lia.
Qed.
Lemma utf8_spec_nul u : 0 < u <= 0x10ffff -> ~ In 0 (utf8_spec u).
Proof.
  intros H. unfold utf8_spec.
  destruct (N.ltb_spec u 128); [|destruct (N.ltb_spec u 2048); [|destruct (N.ltb_spec u 65536)]];
    cbn [In]; intuition lia.
Qed.
Lemma number_first base digit n u a : n <> [] -> number base digit n a = Some u ->
  exists c r d, n = c :: r /\ digit c = Some d.
Proof. destruct n as [|c r]; [congruence|]. intros _ H. cbn in H. destruct (digit c) as [d|] eqn:E; [|discriminate]. eauto 6. Qed.

Lemma skip_0x_dec s : skip_0x 10 s = s.
Proof. destruct s as [|a [|b [|c r]]]; reflexivity. Qed.

Lemma skip_0x_hex n u : number 16 hex_digit n 0 = Some u -> skip_0x 16 (n ++ [cSEMI]) = n ++ [cSEMI].
Proof.
  intros H. destruct n as [|a [|b n]]; [reflexivity|reflexivity|].
  assert (Hb : exists d, hex_digit b = Some d).
  { cbn in H. destruct (hex_digit a); [|discriminate]. destruct (hex_digit b); [eauto|discriminate]. }
  destruct Hb as (d & Hb).
  assert (X : (b =? 120) || (b =? 88) = false).
  { unfold hex_digit, in_range in Hb. destruct (N.eqb_spec b 120) as [->|]; [discriminate|].
    destruct (N.eqb_spec b 88) as [->|]; [discriminate|]. reflexivity. }
  destruct n as [|c n]; cbn [app skip_0x]; rewrite X, andb_false_r; reflexivity.
Qed.

Lemma strtol_number (base : N) digit n u : base = 10 /\ digit = dec_digit \/ base = 16 /\ digit = hex_digit ->
  n <> [] -> number base digit n 0 = Some u -> u <= 0x10ffff -> strtol (Z.of_N base) (n ++ [cSEMI]) = Z.of_N u.
Proof.
  intros HB Hn H Hu. unfold strtol. destruct (number_first _ _ _ _ _ Hn H) as (c & r & d & -> & Hd).
  assert (Hm : (c =? cMINUS) = false).
  { destruct HB as [[-> ->]|[-> ->]]; destruct (N.eqb_spec c cMINUS) as [->|]; auto; discriminate. }
  cbn [app]. rewrite Hm. change (c :: r ++ [cSEMI]) with ((c :: r) ++ [cSEMI]).
  replace (skip_0x (Z.of_N base) ((c :: r) ++ [cSEMI])) with ((c :: r) ++ [cSEMI]).
  - assert (E : digits (Z.of_N base) ((c :: r) ++ [cSEMI]) 0 = Z.of_N u).
    { change 0%Z with (Z.of_N 0). apply (digits_number base digit); [| |exact H].
      - destruct HB as [[-> ->]|[-> ->]]; [apply dec_digit_value|apply hex_digit_value].
      - destruct HB as [[-> ->]|[-> ->]]; reflexivity. }
    rewrite E. unfold LONG_MAX. lia.
  - destruct HB as [[-> ->]|[-> ->]]; symmetry; [apply skip_0x_dec|eapply skip_0x_hex; eauto].
Qed.

Lemma entity_part_spec e p : entity e p -> entity_part e = Some p.
Proof.
  intros [n [H1 H2] H3|n u H1 H2 H3|n u H1 H2 H3].
  - destruct n as [|c n]; [congruence|]. cbn [app entity_part].
    assert (Hc : (c =? cHASH) = false) by (apply (not_starts_cons c n (is cHASH)); exact H3). rewrite Hc. do 2 f_equal.
    assert (N0 : ~ In 0 (cAMP :: (c :: n) ++ [cSEMI])).
    { intros [H|H]; [discriminate|]. apply in_app_or in H. destruct H as [H|[H|[]]]; [|discriminate].
      rewrite forallb_forall in H2. apply H2 in H. discriminate. }
    change (c_str (cAMP :: c :: n ++ [cSEMI])) with (c_str (cAMP :: (c :: n) ++ [cSEMI])).
    rewrite c_str_plain by exact N0. unfold reference_name. rewrite rev_app_distr. cbn [rev app].
    change (cSEMI =? cSEMI) with true. change (cAMP =? cAMP) with true. cbn iota.
    rewrite rev_app_distr, rev_involutive. reflexivity.
  - cbn [entity_part]. change (cHASH =? cHASH) with true. cbn iota.
    pose proof (strtol_number 10 dec_digit n u (or_introl (conj eq_refl eq_refl)) H1 H2) as S.
    assert (E : match n ++ [cSEMI] with x :: r' => if x =? 120 then strtol 16 r' else strtol 10 (n ++ [cSEMI]) | [] => strtol 10 [] end = Z.of_N u).
    { destruct (number_first _ _ _ _ _ H1 H2) as (c & r & d & -> & Hd). cbn [app].
      destruct (N.eqb_spec c 120) as [->|]; [discriminate|]. apply S. lia. }
    rewrite E. rewrite to_int_small, encode_matches_spec by lia. rewrite c_str_plain; auto. now apply utf8_spec_nul.
  - cbn [entity_part app]. change (cHASH =? cHASH) with true. change (120 =? 120) with true. cbn iota.
    pose proof (strtol_number 16 hex_digit n u (or_intror (conj eq_refl eq_refl)) H1 H2) as S.
    change (Z.of_N 16) with 16%Z in S. rewrite S by lia.
    rewrite to_int_small, encode_matches_spec by lia. rewrite c_str_plain; auto. now apply utf8_spec_nul.
Qed.
Lemma with_entity_spec e p f : entity e p -> with_entity e f = f p.
Proof. intros H. unfold with_entity. now rewrite (entity_part_spec _ _ H). Qed.

(** ** Pieces *)
Definition is_top (l : level) : Prop := l = LXmq \/ l = LElemC \/ l = LAttrC.

Lemma build_quote_top root l pre t z v aft b : is_top l -> quote pre t z v ->
  buildS root pre [(quote_kind l, t)] aft b = add_top (PText v) b.
Proof.
  intros [-> |[-> | ->]] H; cbn [buildS quote_kind callback t_kind t_text t_col]; rewrite (with_quote _ _ _ _ _ _ H);
    destruct (add_top _ b); reflexivity.
Qed.
Lemma build_entity_top root l pre t p aft b : is_top l -> entity t p ->
  buildS root pre [(entity_kind l, t)] aft b = add_top p b.
Proof.
  intros [-> |[-> | ->]] H; cbn [buildS entity_kind callback t_kind t_text t_col]; rewrite (with_entity_spec _ _ _ H);
    destruct (add_top _ b); reflexivity.
Qed.

(* ---------- comments ---------- *)

Lemma count_lead_rep c n y : first_is c y = false -> count_lead c (rep c n ++ y) = n.
Proof.
  intros H. induction n as [|n IH]; cbn.
  - destruct y as [|x y]; auto. cbn in *. now rewrite H.
  - rewrite N.eqb_refl. f_equal. exact IH.
Qed.

Lemma slice_eq (a s b : bytes) i j : i = List.length a -> j = (List.length a + List.length s)%nat ->
  slice i j (a ++ s ++ b) = s.
Proof. intros -> ->. apply slice_mid. Qed.

Lemma strip_front_app b : exists w, b = w ++ snd (strip_front b) /\ List.length w = fst (strip_front b) /\
  (w = [] \/ w = [cSP]).
Proof.
  unfold strip_front. destruct b as [|c r]; [exists []; auto|]. destruct (N.eqb_spec c cSP) as [->|]; cbn [fst snd].
  - exists [cSP]. auto.
  - exists []. auto.
Qed.
Lemma strip_back_app b : exists w, b = strip_back b ++ w /\ (w = [] \/ w = [cSP]).
Proof.
  unfold strip_back. destruct (rev b) as [|c r] eqn:E.
  - apply (f_equal (@rev N)) in E. rewrite rev_involutive in E. subst. exists []. auto.
  - apply (f_equal (@rev N)) in E. rewrite rev_involutive in E. cbn [rev] in E. destruct (N.eqb_spec c cSP) as [->|].
    + exists [cSP]. auto.
    + exists []. rewrite app_nil_r. auto.
Qed.
Lemma plain_app a b : plain (a ++ b) <-> plain a /\ plain b.
Proof. unfold plain. rewrite !in_app_iff. tauto. Qed.

Lemma comment_text_plain col b : plain b -> plain (comment_text col b).
Proof.
  intros H. apply text_block_plain.
  destruct (strip_front_app b) as (w & E & _). rewrite E in H. apply plain_app in H. destruct H as [_ H].
  destruct (strip_back_app (snd (strip_front b))) as (w2 & E2 & _). rewrite E2 in H. now apply plain_app in H.
Qed.

Lemma peel_none q s f : s <> [] -> first_is q s && last_is q s = false -> peel (S f) q s 0 = Ok 0%nat.
Proof.
  intros Hs H. destruct s as [|c s]; [congruence|]. cbn [peel nth_error]. cbn [first_is] in H.
  destruct (N.eqb_spec c q) as [->|]; [|reflexivity]. cbn [andb] in H.
  cbn [List.length Nat.ltb Nat.leb]. destruct (@exists_last _ (q :: s) ltac:(discriminate)) as (x & e & E).
  assert (L : List.length (q :: s) = S (List.length x)) by (rewrite E, app_length; cbn; lia). cbn [List.length] in L.
  assert (nth_error (q :: s) (S (List.length s) - 0 - 1) = Some e) as ->.
  { rewrite L. rewrite E. replace (S (List.length x) - 0 - 1)%nat with (List.length x) by lia.
    rewrite nth_error_app2 by lia. now rewrite Nat.sub_diag. }
  unfold last_is in H. rewrite E, rev_app_distr in H. cbn in H. now rewrite H.
Qed.
Lemma peel_all q d s f : (1 <= d)%nat \/ s <> [] -> first_is q s && last_is q s = false -> (d < f)%nat ->
  peel f q (rep q d ++ s ++ rep q d) 0 = Ok d.
Proof.
  intros H Hs Hf. destruct d as [|d].
  - destruct H as [H|H]; [lia|]. destruct f as [|f]; [lia|]. cbn [rep repeat app]. rewrite app_nil_r. now apply peel_none.
  - apply peel_spec; auto; lia.
Qed.

Lemma un_comment_trim indent n b aft :
  exists aft', un_comment indent cSP (rep cSLASH n ++ segment n b) aft
    = trim_quote (indent + n + 1 + fst (strip_front b)) cSP (strip_back (snd (strip_front b))) aft'.
Proof.
  unfold segment. set (t := rep cSLASH n ++ [cSTAR] ++ b ++ [cSTAR] ++ rep cSLASH n).
  assert (Hlen : List.length t = (n + 1 + List.length b + 1 + n)%nat).
  { unfold t. rewrite !app_length, !rep_len. cbn. lia. }
  assert (Hmid : forall j, (j < List.length b)%nat -> nth_error t (n + 1 + j) = nth_error b j).
  { intros j Hj. unfold t. rewrite nth_error_app2 by (rewrite rep_len; lia). rewrite rep_len.
    replace (n + 1 + j - n)%nat with (S j) by lia. cbn [app nth_error]. now rewrite nth_error_app1. }
  assert (Hs1 : nth_error t n = Some cSTAR).
  { unfold t. rewrite nth_error_app2 by (rewrite rep_len; lia). now rewrite rep_len, Nat.sub_diag. }
  assert (Hs2 : nth_error t (n + 1 + List.length b) = Some cSTAR).
  { unfold t. rewrite nth_error_app2 by (rewrite rep_len; lia). rewrite rep_len.
    replace (n + 1 + List.length b - n)%nat with (S (List.length b)) by lia. cbn [app nth_error].
    rewrite nth_error_app2 by lia. now rewrite Nat.sub_diag. }
  unfold un_comment. rewrite Hlen. replace (Nat.eqb _ 0) with false by (symmetry; apply Nat.eqb_neq; lia).
  assert (Hc : count_lead cSLASH t = n) by (unfold t; apply count_lead_rep; reflexivity).
  rewrite Hc, Hs1. change (cSTAR =? cSTAR) with true. cbn [negb].
  assert (Hpeel : peel (S (S (n + 1 + List.length b + 1 + n))) cSLASH t 0 = Ok n).
  { unfold t. change ([cSTAR] ++ b ++ [cSTAR] ++ rep cSLASH n) with (cSTAR :: b ++ [cSTAR] ++ rep cSLASH n).
    replace (cSTAR :: b ++ [cSTAR] ++ rep cSLASH n) with ((cSTAR :: b ++ [cSTAR]) ++ rep cSLASH n) by (cbn; now rewrite <- app_assoc).
    apply peel_all; [right; discriminate|reflexivity|lia]. }
  rewrite Hpeel. cbn [obind]. rewrite Hs1.
  replace (n + 1 + List.length b + 1 + n - n)%nat with (S (n + 1 + List.length b)) by lia.
  rewrite Hs2. change (cSTAR =? cSTAR) with true. cbn [andb negb].
  assert (Hx : exists x, nth_error (t ++ aft) (S n) = Some x /\ (x =? cSP) = (match b with c :: _ => c =? cSP | [] => false end)).
  { rewrite nth_error_app1 by lia. destruct b as [|c b].
    - exists cSTAR. split; [|reflexivity]. rewrite <- Hs2. f_equal. cbn. lia.
    - exists c. split; [|reflexivity]. replace (S n) with (n + 1 + 0)%nat by lia. rewrite Hmid by (cbn; lia). reflexivity. }
  destruct Hx as (x & -> & Hx). replace (n + 1 + List.length b)%nat with (S (n + List.length b)) by lia.
  assert (Hy : exists y, nth_error t (n + List.length b) = Some y /\ (y =? cSP) = (match rev b with c :: _ => c =? cSP | [] => false end)).
  { destruct (@exists_last _ (0 :: b) ltac:(discriminate)) as (u & y & Eu). clear u y Eu.
    destruct (rev b) as [|y u] eqn:E; apply (f_equal (@rev N)) in E; rewrite rev_involutive in E; cbn [rev] in E.
    - subst b. exists cSTAR. rewrite Nat.add_0_r. auto.
    - exists y. split; auto. rewrite E, app_length. cbn [List.length].
      replace (n + (List.length (rev u) + 1))%nat with (n + 1 + List.length (rev u))%nat by lia.
      rewrite Hmid by (rewrite E, app_length; cbn; lia). rewrite E. rewrite nth_error_app2 by lia. now rewrite Nat.sub_diag. }
  destruct Hy as (y & Hy1 & Hy2).
  destruct (strip_front_app b) as (w & Eb & Lw & _).
  destruct (strip_back_app (snd (strip_front b))) as (v & Ev & _).
  set (core := strip_back (snd (strip_front b))) in *.
  assert (Et : t = (rep cSLASH n ++ [cSTAR] ++ w) ++ core ++ (v ++ [cSTAR] ++ rep cSLASH n)).
  { unfold t. rewrite Eb at 1. rewrite Ev at 1. now rewrite <- !app_assoc. }
  assert (Hf : fst (strip_front b) = if x =? cSP then 1%nat else 0%nat).
  { rewrite Hx. destruct b as [|c b]; auto. unfold strip_front. now destruct (c =? cSP). }
  assert (Lb : List.length b = (List.length w + List.length core + List.length v)%nat).
  { rewrite Eb at 1. rewrite Ev at 1. rewrite !app_length. lia. }
  assert (Lv : List.length v = if (y =? cSP) && Nat.leb (S n + List.length w) (n + List.length b) then 1%nat else 0%nat).
  { assert (X : forall r, snd (strip_front b) = r -> List.length v = match rev r with c :: _ => if c =? cSP then 1%nat else 0%nat | [] => 0%nat end).
    { intros r <-. clear - Ev core. subst core. unfold strip_back in Ev. set (r := snd (strip_front b)) in *. destruct (rev r) as [|c q] eqn:E.
      - assert (r = []) as R by (now rewrite <- (rev_involutive r), E). cbn [app] in Ev. now rewrite <- Ev, R.
      - apply (f_equal (@rev N)) in E. rewrite rev_involutive in E. cbn [rev] in E. destruct (c =? cSP).
        + rewrite E in Ev at 1. apply app_inv_head in Ev. rewrite <- Ev. reflexivity.
        + rewrite <- (app_nil_r r) in Ev at 1. apply app_inv_head in Ev. now rewrite <- Ev. }
    specialize (X _ eq_refl). rewrite X. rewrite Hy2. set (r := snd (strip_front b)) in *. destruct (rev r) as [|c q] eqn:E.
    - assert (r = []) by (now rewrite <- (rev_involutive r), E). 
      replace (Nat.leb (S n + List.length w) (n + List.length b)) with false; [now rewrite andb_false_r|].
      symmetry. apply Nat.leb_gt. rewrite Eb. rewrite H, app_nil_r. lia.
    - assert (Er : rev b = c :: q ++ rev w) by (rewrite Eb, rev_app_distr, E; reflexivity).
      rewrite Er. replace (Nat.leb (S n + List.length w) (n + List.length b)) with true; [now rewrite andb_true_r|].
      symmetry. apply Nat.leb_le. rewrite Eb, app_length. 
      assert (0 < List.length r)%nat; [|lia]. rewrite <- rev_length, E. cbn. lia. }
  rewrite Hy1. 
  assert (Q : (let '(a, ind) := if x =? cSP then (S (S n), S (indent + n + 1)) else (S n, (indent + n + 1)%nat) in (a, ind))
              = ((S n + List.length w)%nat, (indent + n + 1 + List.length w)%nat)).
  { rewrite Lw, Hf. destruct (x =? cSP); f_equal; lia. }
  destruct (if x =? cSP then (S (S n), S (indent + n + 1)) else (S n, (indent + n + 1)%nat)) as [a ind].
  assert (Q1 : a = (S n + List.length w)%nat) by congruence. assert (Q2 : ind = (indent + n + 1 + List.length w)%nat) by congruence.
  clear Q. rewrite Q1, Q2.
  assert (B' : (if (y =? cSP) && Nat.leb (S n + List.length w) (n + List.length b) then (n + List.length b)%nat else S (n + List.length b))
               = (S n + List.length w + List.length core)%nat).
  { destruct (_ && _); lia. }
  rewrite B'. destruct (Nat.ltb_spec (S n + List.length w + List.length core) (S n + List.length w)); [lia|].
  assert (Sl : slice (S n + List.length w) (S n + List.length w + List.length core) t = core).
  { rewrite Et. apply slice_eq; rewrite !app_length, rep_len; cbn; lia. }
  rewrite Sl.
  exists (skipn (S n + List.length w + List.length core) t ++ aft). now rewrite Lw.
Qed.
Lemma un_comment_block indent n b aft : plain b ->
  exists m, un_comment indent cSP (rep cSLASH n ++ segment n b) aft = Ok (m, comment_text (indent + n + 1) b).
Proof.
  intros Hp. destruct (un_comment_trim indent n b aft) as (aft' & ->).
  destruct (strip_front_app b) as (w & Eb & _). destruct (strip_back_app (snd (strip_front b))) as (v & Ev & _).
  rewrite Eb, Ev in Hp. rewrite !plain_app in Hp. destruct Hp as (_ & Hp & _).
  destruct (trim_quote_text_block (indent + n + 1 + fst (strip_front b)) _ aft' (proj2 Hp) (proj1 Hp)) as (m & Em & _).
  exists m. exact Em.
Qed.

Lemma text_block_line indent x : ~ In cNL x -> text_block indent (x ++ [cNL]) = rstrip x.
Proof.
  intros H. unfold text_block. 
  assert (E : split_lines (x ++ [cNL]) = [x; []]).
  { change (x ++ [cNL]) with (join_lines [x; []]). apply split_join; [discriminate|]. constructor; auto. }
  rewrite E. cbn [rev app List.length Nat.eqb lead_blank blank forallb]. 
  destruct (blank x) eqn:Bx.
  - cbn. symmetry. now apply rstrip_blank.
  - change (blank []) with true. cbn iota. change (Nat.eqb 1 2) with false. cbn iota.
    change (firstn (2 - 1) [x; []]) with [x]. 
    assert (L : lead_blank [x] = 0%nat) by (cbn [lead_blank]; now rewrite Bx). rewrite L.
    cbn [Nat.eqb skipn tl hd]. change (used_columns []) with (@nil nat).
    cbn [min_list]. rewrite Nat.min_id. cbn [repeat app clean_lines join_lines Nat.sub]. unfold clean_line. rewrite blank_spaces, Bx.
    rewrite rstrip_spaces by auto. rewrite drop_columns_spaces by lia. now rewrite Nat.sub_diag.
Qed.

Lemma un_comment_line indent n b aft : (2 <= n)%nat -> plain b -> ~ In cNL b -> ~ starts (one_of [cSLASH; cSTAR]) b ->
  exists m, un_comment indent cSP (rep cSLASH n ++ b ++ [cNL]) aft = Ok (m, rstrip (snd (strip_front b))).
Proof.
  intros Hn Hp Hnl Hs. set (t := rep cSLASH n ++ b ++ [cNL]).
  assert (Hlen : List.length t = S (n + List.length b)).
  { unfold t. rewrite !app_length, !rep_len. cbn. lia. }
  destruct (strip_front_app b) as (w & Eb & Lw & _). set (x := snd (strip_front b)) in *.
  assert (Hc : exists c, nth_error t n = Some c /\ (c =? cSTAR) = false /\ (c =? cSLASH) = false /\
                 (if c =? cSP then S n else n) = (n + List.length w)%nat).
  { unfold t. rewrite nth_error_app2 by (rewrite rep_len; lia). rewrite rep_len, Nat.sub_diag. destruct b as [|c b].
    - exists cNL. repeat split; auto. rewrite Lw. cbn. lia.
    - exists c. apply not_starts_cons in Hs. unfold one_of in Hs. cbn [existsb] in Hs. apply orb_false_iff in Hs. destruct Hs as [H1 H2].
      rewrite orb_false_r in H2. repeat split; auto. rewrite Lw. unfold strip_front. destruct (c =? cSP); cbn [fst]; lia. }
  destruct Hc as (c & Hc & H1 & H2 & H3).
  unfold un_comment. rewrite Hlen. cbn [Nat.eqb].
  assert (Hl : count_lead cSLASH t = n).
  { unfold t. apply count_lead_rep. unfold t in Hc. rewrite nth_error_app2 in Hc by (rewrite rep_len; lia).
    rewrite rep_len, Nat.sub_diag in Hc. destruct (b ++ [cNL]) as [|d r]; [discriminate|]. injection Hc as ->. exact H2. }
  rewrite Hl, Hc, H1. cbn [negb]. rewrite H3.
  assert (Lb : List.length b = (List.length w + List.length x)%nat) by (rewrite Eb, app_length; reflexivity).
  assert (Hlast : nth_error t (n + List.length b) = Some cNL).
  { unfold t. rewrite nth_error_app2 by (rewrite rep_len; lia). rewrite rep_len. rewrite nth_error_app2 by lia.
    replace (n + List.length b - n - List.length b)%nat with 0%nat by lia. reflexivity. }
  assert (Hd : drop_sp (n + List.length w) (S (n + List.length b)) t = S (n + List.length b)).
  { cbn [drop_sp]. rewrite Hlast. change (cNL =? cSP) with false. now destruct (Nat.ltb _ _). }
  rewrite Hd. destruct (Nat.ltb_spec (S (n + List.length b)) (n + List.length w)); [lia|].
  assert (Sl : slice (n + List.length w) (S (n + List.length b)) t = x ++ [cNL]).
  { unfold t. rewrite Lb. rewrite Eb at 1. 
    replace (rep cSLASH n ++ (w ++ x) ++ [cNL]) with ((rep cSLASH n ++ w) ++ (x ++ [cNL]) ++ []) by (now rewrite app_nil_r, <- !app_assoc).
    apply slice_eq; rewrite !app_length, rep_len; [lia|]. cbn. lia. }
  rewrite Sl.
  assert (Px : plain x). { rewrite Eb in Hp. apply plain_app in Hp. tauto. }
  destruct (trim_quote_text_block indent (x ++ [cNL]) (skipn (S (n + List.length b)) t ++ aft)) as (m & Em & _).
  - intros X. apply in_app_or in X. destruct X as [X|[X|[]]]; [destruct Px; contradiction|discriminate].
  - intros X. apply in_app_or in X. destruct X as [X|[X|[]]]; [destruct Px; contradiction|discriminate].
  - exists m. rewrite Em, text_block_line; auto. intros X. apply Hnl. rewrite Eb. apply in_or_app. now right.
Qed.

Lemma rev_rep c n : rev (rep c n) = rep c n.
Proof.
  unfold rep. induction n as [|n IH]; auto. cbn [repeat rev]. rewrite IH. 
  change (c :: repeat c n) with (repeat c (1 + n)). rewrite Nat.add_comm, repeat_app. reflexivity.
Qed.
Lemma count_lead_segment n b : count_lead cSLASH (rev (segment n b)) = n.
Proof.
  unfold segment. rewrite !rev_app_distr, rev_rep, <- !app_assoc. apply count_lead_rep. reflexivity.
Qed.
