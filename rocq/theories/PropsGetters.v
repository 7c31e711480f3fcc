(** Property C64: numbers and strings that are asked for by path.

    [ts] are the nodes that the xpath selects. *)
From Coq Require Import NArith ZArith List Bool Arith Lia String.
From Verif Require Import Bytes BytesFacts Outcome Quote Parser ParserSpec Dom Grammar BuildProofs GrammarProofs PropsGrammar Clines Getters GettersSpec.
Import ListNotations.
Local Open Scope N_scope.
Local Open Scope list_scope.

Ltac rng := repeat match goal with |- context [?a <=? ?b] => destruct (N.leb_spec a b); try lia end; cbn [andb]; try lia.
Lemma digit_is (base : N) c d : base <= 36 -> digit base c d -> digit_value (Z.of_N base) c = Some (Z.of_N d).
Proof.
  intros Hb (H1 & H2). assert (L : (Z.of_N d <? Z.of_N base)%Z = true) by (apply Z.ltb_lt; lia).
  unfold digit_value, in_range. destruct H2 as [(H & ->)|(H & [->| ->])].
  - rng. replace (Z.of_N (48 + d) - 48)%Z with (Z.of_N d) by lia. now rewrite L.
  - rng. replace (Z.of_N (97 + (d - 10)) - 87)%Z with (Z.of_N d) by lia. now rewrite L.
  - rng. replace (Z.of_N (65 + (d - 10)) - 55)%Z with (Z.of_N d) by lia. now rewrite L.
Qed.
Lemma digits_read base s v : base <= 36 -> numeral base s v -> forall acc rest,
  digits (Z.of_N base) (s ++ rest) acc = digits (Z.of_N base) rest (acc * Z.of_N base ^ Z.of_nat (List.length s) + Z.of_N v).
Proof.
  intros Hb. induction 1 as [c d H|s v c d W IH H]; intros acc rest.
  - cbn [app digits List.length]. rewrite (digit_is base c d) by auto. f_equal. change (Z.of_nat 1) with 1%Z. rewrite Z.pow_1_r. reflexivity.
  - rewrite <- app_assoc, IH. cbn [app digits]. rewrite (digit_is base c d) by auto. f_equal.
    rewrite app_length. cbn [List.length]. rewrite Nat2Z.inj_add, Z.pow_add_r by lia. change (Z.of_nat 1) with 1%Z. rewrite Z.pow_1_r. lia.
Qed.
Lemma digits_stop base r acc : (forall c r', r = c :: r' -> digit_value base c = None) -> digits base r acc = acc.
Proof. destruct r as [|c r]; [reflexivity|]. intros H. cbn [digits]. now rewrite (H c r eq_refl). Qed.
Lemma no_alnum_stop base r : no_alnum r -> forall c r', r = c :: r' -> digit_value base c = None.
Proof.
  intros H c r' E. specialize (H c r' E). unfold digit_value, in_range.
  repeat match goal with |- context [?a <=? ?b] => destruct (N.leb_spec a b) end; cbn [andb]; try reflexivity; exfalso; lia.
Qed.
Lemma digits_all base s v r : base <= 36 -> numeral base s v -> no_alnum r -> digits (Z.of_N base) (s ++ r) 0 = Z.of_N v.
Proof. intros Hb H Hr. rewrite (digits_read base s v Hb H), digits_stop; [lia|]. now apply no_alnum_stop. Qed.
Lemma numeral_first base s v : numeral base s v -> exists c r d, s = c :: r /\ digit base c d.
Proof.
  induction 1 as [c d H|s v c d W IH H]; [eauto|]. destruct IH as (c' & r & d' & -> & H'). cbn. eauto 6.
Qed.
Lemma digit_code base c d : base <= 36 -> digit base c d -> 48 <= c <= 57 \/ 65 <= c <= 90 \/ 97 <= c <= 122.
Proof. intros Hb (H1 & [(H & ->)|(H & [->| ->])]); lia. Qed.
Lemma not_code c k : (48 <= c <= 57 \/ 65 <= c <= 90 \/ 97 <= c <= 122) -> (k <? 48) || (57 <? k) && (k <? 65) = true -> (c =? k) = false.
Proof. intros H K. apply orb_true_iff in K. rewrite andb_true_iff, !N.ltb_lt in K. apply N.eqb_neq. lia. Qed.
Lemma code_not_space c : 48 <= c <= 57 \/ 65 <= c <= 90 \/ 97 <= c <= 122 -> c_isspace c = false.
Proof. intros H. unfold c_isspace, in_range. destruct (N.leb_spec 9 c), (N.leb_spec c 13), (N.eqb_spec c 32); try reflexivity; lia. Qed.

Lemma skip_0x_other base s : base <> 16%Z -> skip_0x base s = s.
Proof. intros H. destruct s as [|a [|b [|c r]]]; try reflexivity. cbn [skip_0x]. apply Z.eqb_neq in H. now rewrite H. Qed.

Lemma value_dec s v r : numeral 10 s v -> no_alnum r -> c_value 10 (s ++ r) = Z.of_N v.
Proof.
  intros H Hr. destruct (numeral_first _ _ _ H) as (c & s' & d & -> & Hd). apply digit_code in Hd; [|lia].
  unfold c_value. cbn [app skip_spaces]. rewrite code_not_space by auto. rewrite (not_code c cMINUS), (not_code c 43) by auto.
  rewrite skip_0x_other by lia. change (c :: s' ++ r) with ((c :: s') ++ r). change 10%Z with (Z.of_N 10). now apply digits_all.
Qed.
Lemma value_plus s v r : numeral 10 s v -> no_alnum r -> c_value 10 (43 :: s ++ r) = Z.of_N v.
Proof.
  intros H Hr. unfold c_value. cbn [skip_spaces]. change (c_isspace 43) with false. cbn iota. change (43 =? cMINUS) with false. change (43 =? 43) with true. cbn iota.
  rewrite skip_0x_other by lia. change 10%Z with (Z.of_N 10). now apply digits_all.
Qed.
Lemma value_minus s v r : numeral 10 s v -> no_alnum r -> c_value 10 (45 :: s ++ r) = (- Z.of_N v)%Z.
Proof.
  intros H Hr. unfold c_value. cbn [skip_spaces]. change (c_isspace 45) with false. cbn iota. change (45 =? cMINUS) with true. cbn iota.
  rewrite skip_0x_other by lia. change 10%Z with (Z.of_N 10). now rewrite (digits_all 10 s v).
Qed.
Lemma value_oct s v r : numeral 8 s v -> no_alnum r -> c_value 8 (48 :: s ++ r) = Z.of_N v.
Proof.
  intros H Hr. unfold c_value. cbn [skip_spaces]. change (c_isspace 48) with false. cbn iota. change (48 =? cMINUS) with false. change (48 =? 43) with false. cbn iota.
  rewrite skip_0x_other by lia. cbn [digits]. change (digit_value 8 48) with (Some 0%Z). cbn iota. change (0 * 8 + 0)%Z with 0%Z. change 8%Z with (Z.of_N 8). now apply digits_all.
Qed.
Lemma value_hex s v r : numeral 16 s v -> no_alnum r -> c_value 16 (48 :: 120 :: s ++ r) = Z.of_N v.
Proof.
  intros H Hr. unfold c_value. cbn [skip_spaces]. change (c_isspace 48) with false. cbn iota. change (48 =? cMINUS) with false. change (48 =? 43) with false. cbn iota.
  destruct (numeral_first _ _ _ H) as (c & s' & d & -> & Hd). pose proof (digit_is 16 c d ltac:(lia) Hd) as D. change (Z.of_N 16) with 16%Z in D.
  cbn [app skip_0x]. rewrite D. cbn [andb orb Z.eqb N.eqb Pos.eqb]. change (c :: s' ++ r) with ((c :: s') ++ r). change 16%Z with (Z.of_N 16). now apply digits_all.
Qed.
Lemma to_int_in v : int32 v -> to_int v = v.
Proof.
  intros H. unfold int32 in H. change (2 ^ 31)%Z with 2147483648%Z in H. unfold to_int.
  destruct (Z.leb_spec 0 v).
  - rewrite Z.mod_small by lia. destruct (Z.ltb_spec v 2147483648); lia.
  - replace (v mod 4294967296)%Z with (v + 4294967296)%Z.
    + destruct (Z.ltb_spec (v + 4294967296) 2147483648); lia.
    + apply Z.mod_unique with (q := (-1)%Z); lia.
Qed.
Lemma strtol_in base s v : c_value base s = v -> int64 v -> c_strtol base s = v.
Proof. intros E H. unfold c_strtol, int64, LONG_MAX in *. rewrite E. lia. Qed.
Lemma int64_of_32 v : int32 v -> int64 v.
Proof. unfold int32, int64. lia. Qed.
Lemma atoi_in s v : c_value 10 s = v -> int32 v -> atoi s = Ok v.
Proof.
  intros E H. unfold atoi, INT_MAX. rewrite E. unfold int32 in H. change (2 ^ 31)%Z with 2147483648%Z in H.
  destruct (Z.leb_spec (- (2147483647) - 1) v), (Z.leb_spec v 2147483647); try lia. reflexivity.
Qed.
Lemma atol_in s v : c_value 10 s = v -> int64 v -> atol s = Ok v.
Proof.
  intros E H. unfold atol, LONG_MAX. rewrite E. unfold int64 in H. change (2 ^ 63)%Z with 9223372036854775808%Z in H.
  destruct (Z.leb_spec (- (9223372036854775807) - 1) v), (Z.leb_spec v 9223372036854775807); try lia. reflexivity.
Qed.

(** How a text is taken: the three ways *)
Lemma way (P : out Z -> Prop) (h o a : out Z) s :
  ((exists r, s = 48 :: 120 :: r) -> P h) -> ((exists r, s = 48 :: r) -> (forall r, s <> 48 :: 120 :: r) -> P o) -> ((forall r, s <> 48 :: r) -> P a) ->
  P match s with
    | x :: y :: _ => if (x =? 48) && (y =? 120) then h else if x =? 48 then o else a
    | [x] => if x =? 48 then o else a
    | [] => a
    end.
Proof.
  intros H1 H2 H3. destruct s as [|x [|y s]].
  - apply H3. discriminate.
  - destruct (N.eqb_spec x 48) as [->|Hx]; [apply H2; [eauto|congruence]|apply H3; congruence].
  - destruct (N.eqb_spec x 48) as [->|Hx]; cbn [andb]; [|apply H3; congruence].
    destruct (N.eqb_spec y 120) as [->|Hy]; [apply H1; eauto|apply H2; [eauto|congruence]].
Qed.
Lemma int_way (P : out Z -> Prop) s v r : integer s v -> no_alnum r -> forall (h o a : out Z),
  (c_value 16 (s ++ r) = v -> P h) -> (c_value 8 (s ++ r) = v -> P o) -> (c_value 10 (s ++ r) = v -> P a) ->
  P match s ++ r with
    | x :: y :: _ => if (x =? 48) && (y =? 120) then h else if x =? 48 then o else a
    | [x] => if x =? 48 then o else a
    | [] => a
    end.
Proof.
  intros I Hr h o a H1 H2 H3. destruct I as [s v W Z|s v W Z|s v W Z|s v W|s v W].
  - destruct Z as [->|Z].
    + (* a single zero *) assert (v = 0) as -> by (inversion W as [c d (D1 & D2) E|s' v' c d W' D E]; [lia|destruct s' as [|x s']; [inversion W' as [|t u e f W2 D2 E2]; destruct t; discriminate E2|destruct s'; discriminate E]]).
      apply way; intros X.
      * exfalso. destruct X as (r' & E). cbn [app] in E. injection E as E. apply (Hr 120 r' E). lia.
      * intros _. apply H2. cbn [app]. unfold c_value. cbn [skip_spaces]. change (c_isspace 48) with false. cbn iota. change (48 =? cMINUS) with false. change (48 =? 43) with false. cbn iota. rewrite skip_0x_other by lia.
        cbn [digits]. change (digit_value 8 48) with (Some 0%Z). cbn iota. change (0 * 8 + 0)%Z with 0%Z. rewrite digits_stop; [reflexivity|now apply no_alnum_stop].
      * exfalso. now apply (X r).
    + destruct (numeral_first _ _ _ W) as (c & s' & d & -> & Hd). apply way; intros X.
      * exfalso. destruct X as (r' & E). injection E as -> _. now apply (Z s').
      * exfalso. destruct X as (r' & E). injection E as -> _. now apply (Z s').
      * apply H3. now apply value_dec.
  - apply way; intros X; [destruct X as (r' & E); discriminate E..|]. apply H3. now apply value_plus.
  - apply way; intros X; [destruct X as (r' & E); discriminate E..|]. apply H3. now apply value_minus.
  - destruct (numeral_first _ _ _ W) as (c & s' & d & -> & Hd). apply way; intros X.
    + exfalso. destruct X as (r' & E). injection E as -> _. destruct Hd as (D1 & [(D2 & D3)|(D2 & D3)]); lia.
    + intros _. apply H2. now apply value_oct.
    + exfalso. now apply (X ((c :: s') ++ r)).
  - apply way; intros X.
    + apply H1. now apply value_hex.
    + intros Y. exfalso. now apply (Y (s ++ r)).
    + exfalso. now apply (X (120 :: s ++ r)).
Qed.

(** C64: the first node that is selected is an element or attribute whose
    first child is the text of an integer, up to something that is not a digit
    or letter.  Then xmqGetInt gives the integer if it has 32 bits, *)
Theorem C64_int_partial : forall s v rest name ats kids ts, integer s v -> int32 v -> no_alnum rest ->
  get_int (TNode (Elem name ats (Part (PText (s ++ rest)) :: kids)) :: ts) = Ok v.
Proof.
  intros s v rest name ats kids ts I H Hr. cbn [get_int foreach snd foreach_loop catch_single_content get_content kid_content part_content].
  unfold get_int. cbn [foreach snd foreach_loop catch_single_content get_content kid_content part_content].
  unfold int_of. apply (int_way (fun x => x = Ok v) s v rest I Hr); intros E.
  - rewrite (strtol_in _ _ v E) by now apply int64_of_32. now rewrite to_int_in.
  - rewrite (strtol_in _ _ v E) by now apply int64_of_32. now rewrite to_int_in.
  - now apply atoi_in.
Qed.
Print Assumptions C64_int_partial.
(** and xmqGetLong gives it if it has 64 bits. *)
Theorem C64_long_partial : forall s v rest name ats kids ts, integer s v -> int64 v -> no_alnum rest ->
  get_long (TNode (Elem name ats (Part (PText (s ++ rest)) :: kids)) :: ts) = Ok v.
Proof.
  intros s v rest name ats kids ts I H Hr. unfold get_long. cbn [foreach snd foreach_loop catch_single_content get_content kid_content part_content].
  unfold long_of. apply (int_way (fun x => x = Ok v) s v rest I Hr); intros E.
  - now rewrite (strtol_in _ _ v E).
  - now rewrite (strtol_in _ _ v E).
  - now apply atol_in.
Qed.
Print Assumptions C64_long_partial.
(** The same for attributes. *)
Theorem C64_attribute_partial : forall s v rest key ps ts, integer s v -> no_alnum rest ->
  (int32 v -> get_int (TAttr (key, PText (s ++ rest) :: ps) :: ts) = Ok v) /\
  (int64 v -> get_long (TAttr (key, PText (s ++ rest) :: ps) :: ts) = Ok v).
Proof.
  intros s v rest key ps ts I Hr. split; intros H.
  - pose proof (C64_int_partial s v rest [] [] [] ts I H Hr) as X. exact X.
  - pose proof (C64_long_partial s v rest [] [] [] ts I H Hr) as X. exact X.
Qed.
Print Assumptions C64_attribute_partial.
(** Without any node the number is 0 and the string is NULL; otherwise the
    string is the text of the first node that is selected. *)
Theorem C64_string_partial : forall t name ats kids ts,
  get_string (TNode (Elem name ats (Part (PText t) :: kids)) :: ts) = Some t /\
  get_string [] = None /\ get_int [] = Ok 0%Z /\ get_long [] = Ok 0%Z.
Proof. intros. repeat split. Qed.
Print Assumptions C64_string_partial.

(** Every integer can be written. *)
Lemma small_digit n : n < 10 -> digit 10 (48 + n) n.
Proof. intros H. split; [exact H|]. left. split; [exact H|reflexivity]. Qed.
Lemma numeral_nonempty base s v : numeral base s v -> s <> [].
Proof. intros H E. destruct (numeral_first _ _ _ H) as (c & r & d & -> & _). discriminate E. Qed.
Lemma every_number : forall n, exists s, numeral 10 s n /\ (0 < n -> forall r, s <> 48 :: r).
Proof.
  intros n. induction n as [n IH] using (well_founded_induction N.lt_wf_0). destruct (N.ltb_spec n 10) as [L|L].
  - exists [48 + n]. split; [constructor; now apply small_digit|]. intros P r E. apply (f_equal (hd 0)) in E. cbn [hd] in E. lia.
  - assert (Q : n / 10 < n) by (apply N.div_lt; lia). assert (Q0 : 0 < n / 10) by (apply N.div_str_pos; lia). assert (R : n mod 10 < 10) by (apply N.mod_lt; lia).
    destruct (IH _ Q) as (s & W & Z). exists (s ++ [48 + n mod 10]). split.
    + pose proof (nu_more 10 _ _ _ _ W (small_digit _ R)) as X. replace (n / 10 * 10 + n mod 10) with n in X; [exact X|]. pose proof (N.div_mod n 10 ltac:(lia)) as DM. rewrite DM at 1. rewrite N.mul_comm. reflexivity.
    + intros _ r E. destruct s as [|c s]; [now apply (numeral_nonempty _ _ _ W)|]. injection E as -> _. now apply (Z Q0 s).
Qed.
Theorem C64_every_integer : forall v, exists s, integer s v.
Proof.
  intros v. destruct (every_number (Z.to_N (Z.abs v))) as (s & W & H). destruct (Z.eq_dec v 0) as [->|Hv].
  - exists [48]. apply (in_dec [48] 0); [constructor; now apply (small_digit 0)|now left].
  - assert (Z : no_needless_zero s) by (right; apply H; lia). destruct (Z.leb_spec 0 v).
    + exists s. replace v with (Z.of_N (Z.to_N (Z.abs v))) by lia. now constructor.
    + exists (45 :: s). replace v with (- Z.of_N (Z.to_N (Z.abs v)))%Z by lia. now constructor.
Qed.
Print Assumptions C64_every_integer.

(** From the source to the number: an integer that is the value of an element
    in a source of xmq. *)
Definition int_char (c : N) : Prop := 48 <= c <= 57 \/ 65 <= c <= 90 \/ 97 <= c <= 122 \/ c = 43 \/ c = 45.
Lemma numeral_chars base s v : base <= 36 -> numeral base s v -> Forall int_char s.
Proof.
  intros Hb. induction 1 as [c d H|s v c d W IH H].
  - constructor; [|constructor]. apply digit_code in H; auto. unfold int_char. tauto.
  - apply Forall_app. split; [exact IH|]. constructor; [|constructor]. apply digit_code in H; auto. unfold int_char. tauto.
Qed.
Lemma integer_chars s v : integer s v -> Forall int_char s /\ s <> [].
Proof.
  intros [s' v' W Z|s' v' W Z|s' v' W Z|s' v' W|s' v' W].
  - split; [now apply (numeral_chars 10 _ v')|now apply (numeral_nonempty 10 _ v')].
  - split; [|discriminate]. constructor; [unfold int_char; lia|now apply (numeral_chars 10 _ v')].
  - split; [|discriminate]. constructor; [unfold int_char; lia|now apply (numeral_chars 10 _ v')].
  - split; [|discriminate]. constructor; [unfold int_char; lia|now apply (numeral_chars 8 _ v')].
  - split; [|discriminate]. constructor; [unfold int_char; lia|]. constructor; [unfold int_char; lia|now apply (numeral_chars 16 _ v')].
Qed.
Ltac bad_char := match goal with H : int_char ?c |- _ => unfold int_char, cSLASH, cEQ, cAMP, cLP, cRP, cQ, cDQ, cLB, cRB, cSTAR in H; lia end.
Lemma int_char_not c l : int_char c -> Forall (fun d => ~ int_char d) l -> one_of l c = false.
Proof.
  intros H F. unfold one_of. apply not_true_is_false. intros X. apply existsb_exists in X as (d & I & E). apply N.eqb_eq in E. subst d. rewrite Forall_forall in F. now apply (F c I).
Qed.
Lemma int_not_white c r : int_char c -> ~ begins_white (c :: r).
Proof.
  intros H X. inversion X as [c' r' E|r' E|e r' E E2]; subst; [|bad_char|bad_char].
  unfold is_xml_whitespace, cSP, cNL, cTAB, cCR in E. rewrite !orb_true_iff, !N.eqb_eq in E. unfold int_char in H. lia.
Qed.
Ltac not_ints := repeat constructor; intros ?; bad_char.
Lemma bare_integer s v : integer s v -> bare s [].
Proof.
  intros I. destruct (integer_chars s v I) as (F & N). split; [exact N|]. split; [intros X; rewrite Forall_forall in F; specialize (F 0 X); unfold int_char in F; lia|].
  assert (F' : forall c r x, s = x ++ c :: r -> int_char c) by (intros c r x ->; rewrite Forall_forall in F; apply F; apply in_or_app; right; now left).
  split; [|split; [now left|]].
  - intros [(c & r & E & X)|(r & [E|E])].
    + rewrite (int_char_not c) in X; [discriminate X|now apply (F' c r [])|not_ints].
    + specialize (F' cSLASH _ [] E). bad_char.
    + specialize (F' cSLASH _ [] E). bad_char.
  - intros x y E Hy. rewrite app_nil_r. destruct y as [|c y]; [congruence|]. assert (C : int_char c) by now apply (F' c y x).
    intros [X|[X|(c' & r & X & Y)]]; [discriminate X|now apply int_not_white in X|]. injection X as <- <-. rewrite int_char_not in Y; [discriminate Y|exact C|not_ints].
Qed.
Lemma start_not_white n r : element_name n -> ~ begins_white (n ++ r).
Proof.
  intros ((c & n' & -> & Hc) & Hn & _) X. cbn [forallb app] in *. apply andb_prop in Hn as (Hn & _).
  inversion X as [c' r' E|r' E|e r' E E2]; subst; [|discriminate Hc|discriminate Hc].
  unfold is_xml_whitespace in E. rewrite !orb_true_iff, !N.eqb_eq in E. repeat destruct E as [E|E]; subst; discriminate Hc.
Qed.
Theorem C64_source_to_number_partial : forall n s v aft, element_name n -> integer s v ->
  let src := n ++ B "=" ++ s in
  exists x, parse_buffer (enough src) None src (0 :: aft) = Document [x] /\ get_name (TNode x) = n /\
  get_string [TNode x] = Some s /\
  (int32 v -> get_int [TNode x] = Ok v) /\ (int64 v -> get_long [TNode x] = Ok v).
Proof.
  intros n s v aft Hn I src. exists (Elem n [] [Part (PText s)]). split; [|split; [reflexivity|]].
  - apply C46_source_read_as_denoted; [|intros w _; discriminate].
    exists [], src, [Elem n [] (map Part [PText s])]. split; [reflexivity|]. split; [split; [now left|now apply start_not_white]|]. split; [|reflexivity].
    replace src with ((n ++ [cEQ] ++ s) ++ [] ++ []) by (unfold src; now rewrite app_nil_r).
    constructor; [|a_gap|constructor; now left].
    apply f_value; [apply h_plain; [exact Hn|no_start]|]. change ([cEQ] ++ s) with ([] ++ [cEQ] ++ [] ++ s). destruct (integer_chars s v I) as (F & Ne).
    constructor; [a_gap| |].
    + split; [now left|]. destruct s as [|c s]; [congruence|]. inversion F; subst. now apply int_not_white.
    + apply v_bare. now apply (bare_integer s v).
  - assert (R : no_alnum []) by (intros c r E; discriminate E). pose proof (app_nil_r s) as Es. split; [reflexivity|]. split; intros H.
    + rewrite <- Es. now apply C64_int_partial.
    + rewrite <- Es. now apply C64_long_partial.
Qed.
Print Assumptions C64_source_to_number_partial.

(** xmqForeach: the callback sees the nodes in order, up to and including the
    first for which it says stop, and the number of all nodes is returned. *)
Inductive visits {U : Type} (cb : target -> U -> U * bool) : list target -> U -> U -> Prop :=
| vs_end u : visits cb [] u u
| vs_stop t r u u' : cb t u = (u', true) -> visits cb (t :: r) u u'
| vs_next t r u u' u'' : cb t u = (u', false) -> visits cb r u' u'' -> visits cb (t :: r) u u''.
Theorem C64_foreach : forall (U : Type) (cb : target -> U -> U * bool) ts u,
  fst (foreach cb ts u) = List.length ts /\ visits cb ts u (snd (foreach cb ts u)).
Proof.
  intros U cb ts u. split; [reflexivity|]. cbn [foreach snd]. revert u. induction ts as [|t ts IH]; intros u; cbn [foreach_loop]; [constructor|].
  destruct (cb t u) as (u' & [|]) eqn:E; [now apply vs_stop|]. now apply (vs_next _ _ _ _ u').
Qed.
Print Assumptions C64_foreach.

Example numerals : integer (B "-2147483648") (-2147483648) /\ integer (B "0x7Ff") 2047 /\ integer (B "017") 15 /\ integer (B "+12") 12 /\ integer (B "0") 0.
Proof.
  assert (D : forall b s v, number b (if b =? 16 then hex_digit else dec_digit) s 0 = Some v -> s <> [] -> b = 8 \/ b = 10 \/ b = 16 -> Forall (fun c => c < 56 \/ b <> 8) s -> numeral b s v).
  { intros b s v E Hs Hb. revert v E. induction s as [|c s IH] using rev_ind; [congruence|]. intros v E F.
    assert (A : forall s c acc, number b (if b =? 16 then hex_digit else dec_digit) (s ++ [c]) acc =
      match number b (if b =? 16 then hex_digit else dec_digit) s acc with
      | Some w => match (if b =? 16 then hex_digit else dec_digit) c with Some d => Some (w * b + d) | None => None end
      | None => None end).
    { clear. induction s as [|x s IH]; intros c acc; cbn [number app]; [reflexivity|]. destruct ((if b =? 16 then hex_digit else dec_digit) x); [apply IH|reflexivity]. }
    rewrite A in E. apply Forall_app in F as (F1 & F2). inversion F2 as [|c' r' F3 _]; subst.
    assert (G : forall d, (if b =? 16 then hex_digit else dec_digit) c = Some d -> digit b c d).
    { intros d X. unfold digit. destruct Hb as [->|[->| ->]].
      - change (8 =? 16) with false in X. unfold dec_digit, in_range in X. destruct (N.leb_spec 48 c), (N.leb_spec c 57); cbn in X; try discriminate X. injection X as <-. destruct F3; [lia|congruence].
      - change (10 =? 16) with false in X. unfold dec_digit, in_range in X. destruct (N.leb_spec 48 c), (N.leb_spec c 57); cbn in X; try discriminate X. injection X as <-. lia.
      - change (16 =? 16) with true in X. unfold hex_digit, in_range in X. destruct (N.leb_spec 48 c), (N.leb_spec c 57), (N.leb_spec 97 c), (N.leb_spec c 102), (N.leb_spec 65 c), (N.leb_spec c 70); cbn in X; try discriminate X; injection X as <-; lia. }
    destruct s as [|x s].
    - cbn [app number] in E |- *. destruct ((if b =? 16 then hex_digit else dec_digit) c) as [d|] eqn:X; [|discriminate E]. injection E as <-. constructor. now apply G.
    - destruct (number b _ (x :: s) 0) as [w|] eqn:W; [|discriminate E]. destruct ((if b =? 16 then hex_digit else dec_digit) c) as [d|] eqn:X; [|discriminate E]. injection E as <-.
      apply nu_more; [apply IH; [discriminate|reflexivity|exact F1]|now apply G]. }
  split; [|split; [|split; [|split]]].
  - apply (in_minus (B "2147483648") 2147483648); [apply D; [reflexivity|discriminate|auto|apply Forall_forall; intros; right; discriminate]|right; discriminate].
  - apply (in_hex (B "7Ff") 2047), D; [reflexivity|discriminate|auto|apply Forall_forall; intros; right; discriminate].
  - apply (in_oct (B "17") 15), D; [reflexivity|discriminate|auto|apply Forall_cons; [left; reflexivity|apply Forall_cons; [left; reflexivity|constructor]]].
  - apply (in_plus (B "12") 12); [apply D; [reflexivity|discriminate|auto|apply Forall_forall; intros; right; discriminate]|right; discriminate].
  - apply (in_dec (B "0") 0); [apply D; [reflexivity|discriminate|auto|apply Forall_forall; intros; right; discriminate]|now left].
Qed.
Example C64_ex : get_int [TNode (Elem (B "speed") [] [Part (PText (B "0x7Ff km"))])] = Ok 2047%Z.
Proof. reflexivity. Qed.

(** Outside of these conditions the number is another one.  A decimal number
    with a zero in front is cut at the first 8 or 9 (or read as octal), but not
    behind a sign; *)
Theorem C64_leading_zero_refuted : int_of (B "0809") = Ok 0%Z /\ int_of (B "0123") = Ok 83%Z /\ int_of (B "-0123") = Ok (-123)%Z.
Proof. repeat split. Qed.
(** hexadecimal numbers with a sign, a capital X or a blank in front are 0; *)
Theorem C64_hex_refuted : int_of (B "-0x10") = Ok 0%Z /\ int_of (B "0X10") = Ok 0%Z /\ int_of (B " 0x10") = Ok 0%Z.
Proof. repeat split. Qed.
(** larger hexadecimal numbers wrap or are cut, larger decimal ones are
    undefined; *)
Theorem C64_range_refuted : int_of (B "0x100000001") = Ok 1%Z /\ int_of (B "3000000000") = UB
  /\ long_of (B "0x10000000000000000") = Ok 9223372036854775807%Z /\ long_of (B "9223372036854775808") = UB.
Proof. repeat split. Qed.
(** a value with an entity in it ends at the entity, *)
Theorem C64_first_child_refuted :
  parse_buffer 1000 None (B "a=('1'&lt;'2')") [0] = Document [Elem (B "a") [] [Part (PText (B "1")); Part (PRef (B "lt")); Part (PText (B "2"))]]
  /\ get_string [TNode (Elem (B "a") [] [Part (PText (B "1")); Part (PRef (B "lt")); Part (PText (B "2"))])] = Some (B "1").
Proof. split; vm_compute; reflexivity. Qed.
(** and a comment in front of the value is taken for it. *)
Theorem C64_comment_refuted :
  parse_buffer 1000 None (B "a{ /*7 days*/ '5' }") [0] = Document [Elem (B "a") [] [Comment (B "7 days"); Part (PText (B "5"))]]
  /\ get_int [TNode (Elem (B "a") [] [Comment (B "7 days"); Part (PText (B "5"))])] = Ok 7%Z.
Proof. split; vm_compute; reflexivity. Qed.
Print Assumptions C64_comment_refuted.
