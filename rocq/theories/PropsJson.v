(** Properties C32-C35, C40 and C41: reading and writing JSON, and collapsing texts.

    [json_string r] is eat_json_quote after the opening quote: the text and the
    bytes that are left.  [is_jnumber s] is the length of the number at the
    start of [s].  [json_is_number] is json_is_number.  [parse_buffer_json] is
    xmqParseBuffer for JSON.  [trim_index] is trim_index_suffix and
    [collapse_text] is xml_collapse_text: the size of the buffer and the bytes
    written before the last NUL.  JsonSpec.v is the specification of JSON. *)
From Coq Require Import NArith ZArith List Bool Arith Lia String.
From Verif Require Import Bytes BytesFacts Utf8 Utf8Proofs Outcome Quote Parser Dom CQuote CQuoteProofs Json JsonPrint JsonSpec JsonProofs JsonRead JsonWrite.
Import ListNotations.
Local Open Scope N_scope.

(** ** C32 *)
(** Any encoding of any text with escapes other than the slash and surrogate
    pairs is decoded to the text, and reading stops right after the quote,
    whatever follows.  Missing: the two kinds of escapes, for which the claim is
    false (see below). *)
Theorem C32_strings_decoded_partial : forall t s rest,
  string_text false t s -> json_string (t ++ 34 :: rest) = Ok (s, rest).
Proof. intros t s rest H. now apply string_spec. Qed.
Print Assumptions C32_strings_decoded_partial.
(** Every string literal of JSON whose raw characters are neither escapes of a
    slash nor of a surrogate is covered: e with an accent, a tab, a quote and
    the euro sign in two ways. *)
Example C32_ex : exists t s, string_text false t s
  /\ t = [0xc3; 0xa9] ++ [92; 116] ++ [92; 34] ++ [92; 117; 50; 48; 97; 67] ++ [0xe2; 0x82; 0xac]
  /\ s = [0xc3; 0xa9; 9; 34; 0xe2; 0x82; 0xac; 0xe2; 0x82; 0xac].
Proof.
  eexists. eexists. split; [|split; reflexivity].
  apply (st_char false 233 _ [9; 34; 0xe2; 0x82; 0xac; 0xe2; 0x82; 0xac]); try (unfold character, surrogate; lia).
  apply st_escape; [cbn; tauto|]. apply st_escape; [cbn; tauto|].
  apply (st_hex false [92; 117; 50; 48; 97; 67] 0x20ac _ [0xe2; 0x82; 0xac]).
  - exists 50, 48, 97, 67, 2, 0, 10, 12. unfold hex_digit. repeat split; lia.
  - unfold surrogate. lia.
  - apply (st_char false 0x20ac [] []); try (unfold character, surrogate; lia). constructor.
Qed.
(** No string literal makes the decoder read outside the buffer or abort. *)
Theorem C32_decoder_is_total : forall r, (exists s rest, json_string r = Ok (s, rest)) \/ json_string r = Err E_JSON_INVALID_ESCAPE.
Proof. intros r. destruct (json_string_total r) as ([s x] & [H|H]); eauto. Qed.
Print Assumptions C32_decoder_is_total.
(** An escaped slash is refused. *)
Theorem C32_slash_refuted : exists t s, string_text true t s /\ forall rest, json_string (t ++ 34 :: rest) = Err E_JSON_INVALID_ESCAPE.
Proof. exists [92; 47], [47]. split; [|reflexivity]. apply st_slash; [reflexivity|constructor]. Qed.
(** The two escapes of a character outside of the basic plane give six bytes
    that are not UTF-8, not the four bytes of the character. *)
Theorem C32_surrogates_refuted : exists t s, string_text true t s /\ s = utf8_spec 0x1f600
  /\ forall rest, json_string (t ++ 34 :: rest) = Ok ([0xed; 0xa0; 0xbd; 0xed; 0xb8; 0x80], rest).
Proof.
  exists ([92; 117; 100; 56; 51; 100] ++ [92; 117; 100; 101; 48; 48] ++ []), (utf8_spec 0x1f600 ++ []). split; [|split; reflexivity].
  apply (st_pair true _ _ 0xd83d 0xde00); try reflexivity; try lia; try constructor.
  - exists 100, 56, 51, 100, 13, 8, 3, 13. unfold hex_digit. repeat split; lia.
  - exists 100, 101, 48, 48, 13, 14, 0, 0. unfold hex_digit. repeat split; lia.
Qed.
(** A string without a closing quote is read as if the quote were at the end. *)
Theorem C32_unterminated_refuted : exists r s, ~ In 34 r /\ json_string r = Ok (s, []).
Proof. exists (B "abc"), (B "abc"). split; [cbn; intuition discriminate|reflexivity]. Qed.

(** ** C33 *)
(** Every number of JSON that does not start with 0e is read to its end if it
    is followed by the end, a space, a newline, a comma, a bracket or a brace.
    Missing: numbers such as 0e5 and numbers followed by a tab or carriage
    return, for which this is false. *)
Theorem C33_numbers_accepted_partial : forall t rest,
  json_number t -> ~ zero_exp t -> rest = [] \/ (exists c r, rest = c :: r /\ In c [32; 10; 44; 125; 93]) ->
  is_jnumber (t ++ rest) = Some (List.length t).
Proof. intros t rest H Z S. now apply number_accepted. Qed.
Print Assumptions C33_numbers_accepted_partial.
Theorem C33_whole_numbers_accepted_partial : forall t, json_number t -> ~ zero_exp t -> json_is_number t = true.
Proof. exact number_whole. Qed.
Print Assumptions C33_whole_numbers_accepted_partial.
(** What is written without quotes as a number is made of the characters of a
    number, starts with a digit or minus, ends with a digit, has at most one dot
    and one exponent, and has signs only at the start and after an e.  Missing:
    the order of the parts and the place of zeros, which are not checked. *)
Theorem C33_accepted_texts_partial : forall t, json_is_number t = true ->
  Forall (fun c => digit c \/ In c [45; 43; 46; 101; 69]) t
  /\ (exists c r, t = c :: r /\ (digit c \/ c = 45)) /\ digit (List.last t 0)
  /\ (count_in dots t <= 1)%nat /\ (count_in exps t <= 1)%nat
  /\ (forall p c q, t = p ++ c :: q -> In c [43; 45] -> p = [] \/ exists e, In e p /\ In e [101; 69]).
Proof. exact number_shape. Qed.
Print Assumptions C33_accepted_texts_partial.
Example C33_ex : json_number (B "-10.25e+07") /\ ~ zero_exp (B "-10.25e+07") /\ json_is_number (B "-10.25e+07") = true
  /\ json_is_number (B "x1") = false /\ json_is_number (B "1.") = false /\ json_is_number (B "01") = false.
Proof.
  split; [|repeat split; try reflexivity; intros (e & r & H & _); discriminate H].
  exists [45], (B "10"), (B ".25"), (B "e+07"). repeat split; [cbn; tauto| | |].
  - right. exists 49, [48]. repeat split; try lia. constructor; [unfold digit; lia|constructor].
  - right. exists (B "25"). repeat split; [discriminate|]. repeat constructor; discriminate.
  - right. exists 101, [43], (B "07"). repeat split; [cbn; tauto|cbn; tauto|discriminate|]. repeat constructor; discriminate.
Qed.
(** 0e5 is a number of JSON and is refused. *)
Theorem C33_zero_exponent_refuted : exists t, json_number t /\ is_jnumber t = None.
Proof.
  exists (B "0e5"). split; [|reflexivity]. exists [], [48], [], (B "e5"). repeat split; [cbn; tauto|now left|now left|].
  right. exists 101, [], [53]. repeat split; [cbn; tauto|cbn; tauto|discriminate|]. constructor; [unfold digit; lia|constructor].
Qed.
(** A number before a tab or a carriage return is refused. *)
Theorem C33_tab_refuted : exists t, json_number t /\ is_jnumber (t ++ [9]) = None /\ is_jnumber (t ++ [13]) = None.
Proof. exists [49]. split; [|split; reflexivity]. exists [], [49], [], []. repeat split; [cbn; tauto| |now left|now left]. right. exists 49, []. repeat split; try lia. constructor. Qed.
(** -01 and 1e5.3 are no numbers of JSON and are accepted; so is 1e before a
    comma. *)
Lemma json_number_dec_01 : ~ json_number (B "-01").
Proof.
  intros (m & i & f & e & H & M & I & F & X). cbn in M. destruct M as [<-|[<-|[]]].
  - destruct I as [->|(c & r & -> & C & _)]; [discriminate H|]. cbn in H. injection H as <- _. lia.
  - destruct I as [->|(c & r & -> & C & _)].
    + destruct F as [->|(ds & -> & _)]; [|discriminate H]. destruct X as [->|(y & s & ds & -> & Y & _)]; [discriminate H|]. cbn in H. injection H as H _. subst y. cbn in Y. intuition discriminate.
    + cbn in H. injection H as <- _. lia.
Qed.
Lemma no_dot_after_exp : ~ json_number (B "1e5.3").
Proof.
  intros (m & i & f & e & H & M & I & F & X). cbn in M. destruct M as [<-|[<-|[]]]; [|discriminate H].
  destruct I as [->|(c & r & -> & C & Ir)]; [discriminate H|]. cbn in H. injection H as <- H.
  destruct r as [|d r]; [|cbn in H; injection H as <- _; apply Forall_inv in Ir; unfold digit in Ir; lia].
  destruct F as [->|(ds & -> & _)]; [|discriminate H]. destruct X as [->|(y & s & ds & -> & Y & S1 & _ & D)]; [discriminate H|].
  cbn in H. injection H as <- H. assert (G : In 46 ds).
  { cbn in S1. destruct S1 as [<-|[<-|[<-|[]]]]; cbn in H; try discriminate H. subst ds. cbn; tauto. }
  rewrite Forall_forall in D. apply D in G. unfold digit in G. lia.
Qed.
Theorem C33_leading_zero_refuted : exists t, ~ json_number t /\ json_is_number t = true.
Proof. exists (B "-01"). split; [exact json_number_dec_01|reflexivity]. Qed.
Theorem C33_dot_in_exponent_refuted : exists t, ~ json_number t /\ json_is_number t = true.
Proof. exists (B "1e5.3"). split; [exact no_dot_after_exp|reflexivity]. Qed.
Theorem C33_no_digits_refuted : exists t, (forall c, In c t -> ~ digit c) /\ is_jnumber (t ++ [44]) = Some (List.length t).
Proof. exists (B "-"). split; [|reflexivity]. cbn. intros c [<-|[]]. unfold digit. lia. Qed.

(** ** C34 *)
(** With two steps for each byte reading is over, whatever the source.  If the
    program does not end, the source ends with a left brace or a comma.
    Missing: sources of this kind, for which it loops (see below), and for some
    others the end is a failing assertion. *)
Theorem C34_ends_partial : forall root src,
  parse_buffer_json (2 * List.length src + 1) root src <> JRunning
  /\ (parse_buffer_json (2 * List.length src + 1) root src = JHangs -> exists p c, src = p ++ [c] /\ In c [123; 44]).
Proof.
  intros root src. unfold parse_buffer_json, tokenize_json. set (b := BS _ _ _ _). set (f := (2 * List.length src + 1)%nat).
  destruct (enough_fuel f) as [EF _]. destruct (hangs_only_at_end f) as [HE _].
  specialize (EF root None src b ltac:(unfold f; lia)). specialize (HE root None src b).
  destruct (parse_json f root None src b) as [r b'|e| | | | |] eqn:E; cbn [jbind]; try (split; [discriminate|discriminate]); try contradiction.
  - destruct r; [|split; discriminate]. destruct (close_all (b_stack b')); split; discriminate.
  - split; [discriminate|]. intros _. now apply HE.
Qed.
Print Assumptions C34_ends_partial.
Example C34_ex : exists d, parse_buffer_json 31 None (B "{""a"":[1, true]}") = JDocument d.
Proof. eexists. vm_compute. reflexivity. Qed.
(** A source that is only a left brace, or that ends after a comma in an object,
    makes the program loop for ever. *)
Theorem C34_brace_refuted : exists src, src = B "{" /\ parse_buffer_json (2 * List.length src + 1) None src = JHangs.
Proof. eexists. split; reflexivity. Qed.
Theorem C34_comma_refuted : exists src, src = B "{""a"":1," /\ parse_buffer_json (2 * List.length src + 1) None src = JHangs.
Proof. eexists. split; reflexivity. Qed.
(** A missing comma or bracket in an array makes an assertion fail. *)
Theorem C34_abort_refuted : exists src, src = B "[1 2]" /\ parse_buffer_json (2 * List.length src + 1) None src = JAborts.
Proof. eexists. split; reflexivity. Qed.

(** ** C35 *)
Lemma string_full t s : string_text false t s -> string_text true t s.
Proof. induction 1; try discriminate; try (econstructor; eauto; fail). Qed.
Lemma after_full v w : after false v w -> after true v w.
Proof. intros [H _]. split; auto. Qed.
Lemma text_full : (forall t v, value_text false t v -> value_text true t v)
  /\ (forall t l, elements_text false t l -> elements_text true t l) /\ (forall t l, members_text false t l -> members_text true t l).
Proof.
  apply (text_ind false (fun t v _ => value_text true t v) (fun t l _ => elements_text true t l) (fun t l _ => members_text true t l));
    intros; try (econstructor; eauto using string_full, after_full; fail).
Qed.
(** For every JSON value [v] of the class [good], and every JSON text [src] of
    it without the constructs of C32 and C33 that are not read as JSON: [src] is
    read, the document is printed, what is printed is JSON and denotes [v], and
    reading it again gives the same document.
    The class: no delete and no control characters but those with a short
    escape; keys are different, do not start with an underscore, have no index
    suffix, are not one of the keys for text, comments and doctypes, and have no
    colon if they are names; an empty object or array must have a key that is a
    name.  Missing: the other values.  Refutations for some follow; a colon in a
    name is not modelled. *)
Theorem C35_json_round_trip_partial : forall src v, json_text false src v -> good v ->
  exists d o, parse_buffer_json (2 * List.length src + 1) None src = JDocument d
    /\ print_json d = JText o /\ json_text true o v
    /\ parse_buffer_json (2 * List.length o + 1) None o = JDocument d.
Proof.
  intros src v H G. exists [dom [95] [] v], (show v ++ [10]). destruct (json_write v G) as [W V].
  assert (T : json_text false (show v ++ [10]) v).
  { exists [], (show v), [10]. split; [reflexivity|]. split; [constructor|]. split; [exact V|]. split; [constructor; [cbn; tauto|constructor]|].
    right. destruct v; try exact I. cbn. tauto. }
  split; [now apply json_read|]. split; [exact W|]. split; [|now apply json_read].
  destruct T as (w & t & w' & E & A1 & A2 & A3). exists w, t, w'. repeat split; auto using after_full. now apply text_full. apply A3.
Qed.
Print Assumptions C35_json_round_trip_partial.
Lemma plain_ascii s : Forall (fun c => 32 <= c < 127) s -> good_text s.
Proof.
  intros H. exists s. split.
  - induction H as [|c s Hc H IH]; [reflexivity|]. cbn. rewrite utf8_ascii by lia. cbn. now f_equal.
  - eapply Forall_impl; [|exact H]. intros c Hc. cbn beta in Hc. split; [unfold character, surrogate; lia|]. left. lia.
Qed.
(** A value with all kinds of parts, and a text of it. *)
Definition ex_value : jv := JObj [(B "a", JArr [JNum (B "-1.5e3"); JStr (B "12"); JNull; JArr []]); (B "key with spaces", JStr (B "x""y"))].
Example C35_ex : good ex_value /\ json_text false (B "{ ""a"" : [-1.5e3, ""12"",null ,[ ]] ,""key with spaces"":""x\""y""}") ex_value.
Proof.
  assert (Num : json_number (B "-1.5e3")).
  { exists [45], [49], (B ".5"), (B "e3"). repeat split; [cbn; tauto| | |].
    - right. exists 49, []. repeat split; try lia. constructor.
    - right. exists [53]. repeat split; [discriminate|]. repeat constructor; discriminate.
    - right. exists 101, [], [51]. repeat split; [cbn; tauto|cbn; tauto|discriminate|]. repeat constructor; discriminate. }
  assert (Nz : ~ zero_exp (B "-1.5e3")) by (intros (e & r & H & _); discriminate H).
  assert (Pl : forall s, forallb (fun c => (32 <=? c) && (c <? 127)) s = true -> good_text s).
  { intros s H. apply plain_ascii. rewrite forallb_forall in H. rewrite Forall_forall. intros c I. apply H in I. rewrite andb_true_iff, N.leb_le, N.ltb_lt in I. exact I. }
  assert (Ni : forall k, (exists p c, k = p ++ [c] /\ c <> 93) -> ~ exists p, has_index k p).
  { intros k (p & c & -> & Hc) (q & _ & ds & _ & E). change (q ++ 91 :: ds ++ [93]) with (q ++ (91 :: ds) ++ [93]) in E. rewrite app_assoc in E. apply app_inj_tail in E. destruct E. contradiction. }
  split.
  - apply g_obj; [cbn; repeat constructor; cbn; intuition discriminate|].
    assert (Kp : forall k, forallb (fun c => (32 <=? c) && (c <? 127)) k = true -> (exists p c, k = p ++ [c] /\ c <> 93) -> (forall r, k <> 95 :: r) ->
      k <> B "|" -> k <> B "//" -> k <> B "!DOCTYPE" -> ~ In 58 k -> plain_key k).
    { intros k H1 H2 H3 H4 H5 H6 H7. split; [now apply Pl|]. split; [now apply Ni|]. split; [|split; [exact H4|split; [exact H5|split; [exact H6|intros _; exact H7]]]].
      intros (r & E). now apply (H3 r). }
    constructor; [|constructor; [|constructor]]; cbn [fst snd].
    + split; [|split; [|discriminate]].
      * apply Kp; try discriminate; try reflexivity; [exists [], 97; split; [reflexivity|discriminate]|cbn; intuition discriminate].
      * apply g_arr. constructor; [now apply g_num|]. constructor; [apply g_str; now apply Pl|]. constructor; [constructor|]. constructor; [apply g_arr; constructor|constructor].
    + split; [|split; [|intros _ [X|X]; discriminate X]].
      * apply Kp; try discriminate; try reflexivity; [exists (B "key with space"), 115; split; [reflexivity|discriminate]|cbn; intuition discriminate].
      * apply g_str. now apply Pl.
  - assert (As : forall s, forallb (fun c => (32 <=? c) && (c <? 127) && negb (c =? 34) && negb (c =? 92)) s = true -> string_text false s s).
    { induction s as [|c s IH]; intros H; [constructor|]. cbn [forallb] in H. rewrite !andb_true_iff, N.leb_le, N.ltb_lt, !negb_true_iff, !N.eqb_neq in H. destruct H as [[[[H1 H2] H3] H4] H].
      pose proof (st_char false c s s) as X. rewrite (utf8_ascii c) in X by lia. apply X; auto. unfold character, surrogate. lia. }
    assert (Sp : ws [32]) by (repeat constructor; cbn; tauto).
    exists [], (B "{ ""a"" : [-1.5e3, ""12"",null ,[ ]] ,""key with spaces"":""x\""y""}"), []. split; [reflexivity|]. split; [constructor|]. split; [|apply after_nil].
    apply (vt_obj false (B " ""a"" : [-1.5e3, ""12"",null ,[ ]] ,""key with spaces"":""x\""y""")).
    apply (mt_more false [32] (B "a") (B "a") [32] [32] (B "[-1.5e3, ""12"",null ,[ ]]") [32] _ (B """key with spaces"":""x\""y""")); auto; [|split; auto|].
    + apply (vt_arr false (B "-1.5e3, ""12"",null ,[ ]")).
      apply (et_more false [] (B "-1.5e3") [] (JNum (B "-1.5e3")) (B " ""12"",null ,[ ]")); [constructor|constructor; auto|apply after_nil|].
      apply (et_more false [32] (B """12""") [] (JStr (B "12")) (B "null ,[ ]")); auto; [apply (vt_str false (B "12")); now apply As|apply after_nil|].
      apply (et_more false [] (B "null") [32] JNull (B "[ ]")); [constructor|constructor|split; auto|].
      apply (et_one false [] (B "[ ]") [] (JArr [])); [constructor|apply (vt_arr0 false [32]); auto|apply after_nil].
    + apply (mt_one false [] (B "key with spaces") (B "key with spaces") [] [] (B """x\""y""") [] (JStr (B "x""y"))); [constructor|now apply As|constructor|constructor| |apply after_nil].
      * apply (vt_str false (B "x\""y") (B "x""y")). pose proof (st_char false 120 (B "\""y") (B """y")) as X. apply X; try (unfold character, surrogate; lia).
        apply (st_escape false 34 34); [cbn; tauto|]. now apply As.
Qed.
(** What a source becomes when it is read and printed. *)
Definition json_trip (src o : bytes) : Prop :=
  exists d, parse_buffer_json (2 * List.length src + 1) None src = JDocument d /\ print_json d = JText (o ++ [10]).
Lemma ascii_string s : forallb (fun c => (32 <=? c) && (c <? 127) && negb (c =? 34) && negb (c =? 92)) s = true -> string_text true s s.
Proof.
  induction s as [|c s IH]; intros H; [constructor|]. cbn [forallb] in H. rewrite !andb_true_iff, N.leb_le, N.ltb_lt, !negb_true_iff, !N.eqb_neq in H. destruct H as [[[[H1 H2] H3] H4] H].
  pose proof (st_char true c s s) as X. rewrite (utf8_ascii c) in X by lia. apply X; auto. unfold character, surrogate. lia.
Qed.
Lemma compact_json t v : value_text true t v -> json_text true t v.
Proof. intros H. exists [], t, []. split; [now rewrite app_nil_r|]. split; [constructor|]. split; [exact H|]. split; [constructor|now left]. Qed.
Lemma one_digit c : 49 <= c <= 57 -> json_number [c].
Proof. intros H. exists [], [c], [], []. split; [reflexivity|]. split; [cbn; tauto|]. split; [|split; now left]. right. exists c, []. auto. Qed.
Lemma one_member k v t : forallb (fun c => (32 <=? c) && (c <? 127) && negb (c =? 34) && negb (c =? 92)) k = true -> value_text true t v ->
  value_text true (123 :: (34 :: k ++ 34 :: 58 :: t) ++ [125]) (JObj [(k, v)]).
Proof.
  intros K V. apply vt_obj. pose proof (mt_one true [] k k [] [] t [] v) as X. cbn [app] in X. rewrite app_nil_r in X. apply X; try constructor; auto; try constructor.
  now apply ascii_string.
Qed.
Lemma after_t v : after true v [].
Proof. split; [constructor|now left]. Qed.
(** A key with an index suffix loses it. *)
Theorem C35_index_key_refuted : exists src o v v', json_text true src v /\ json_trip src o /\ json_text true o v' /\ v <> v'.
Proof.
  exists (B "{""a[1]"":2}"), (B "{""a"":2}"), (JObj [(B "a[1]", JNum [50])]), (JObj [(B "a", JNum [50])]).
  assert (N2 : value_text true [50] (JNum [50])) by (constructor; [apply one_digit; lia|now left]).
  split; [apply compact_json, (one_member (B "a[1]") (JNum [50]) [50]); auto|]. split; [eexists; split; [vm_compute; reflexivity|vm_compute; reflexivity]|].
  split; [apply compact_json, (one_member (B "a") (JNum [50]) [50]); auto|discriminate].
Qed.
(** A key of an underscore changes the key around it. *)
Theorem C35_underscore_key_refuted : exists src o v v', json_text true src v /\ json_trip src o /\ json_text true o v' /\ v <> v'.
Proof.
  exists (B "{""a"":{""_"":""x""}}"), (B "{""x"":{}}"), (JObj [(B "a", JObj [(B "_", JStr (B "x"))])]), (JObj [(B "x", JObj [])]).
  split.
  - apply compact_json, (one_member (B "a") (JObj [(B "_", JStr (B "x"))]) (B "{""_"":""x""}")); auto.
    apply (one_member (B "_") (JStr (B "x")) (B """x""")); auto. apply (vt_str true (B "x")). now apply ascii_string.
  - split; [eexists; split; [vm_compute; reflexivity|vm_compute; reflexivity]|]. split; [|discriminate].
    apply compact_json, (one_member (B "x") (JObj []) (B "{}")); auto. apply (vt_obj0 true []). constructor.
Qed.
(** Equal keys get index suffixes; and the other way round: the names of texts
    and comments are counted like keys. *)
Theorem C35_equal_keys_refuted : exists src o v v', json_text true src v /\ json_trip src o /\ json_text true o v' /\ v <> v'.
Proof.
  exists (B "{""a"":1,""a"":2}"), (B "{""a[0]"":1,""a[1]"":2}"), (JObj [(B "a", JNum [49]); (B "a", JNum [50])]), (JObj [(B "a[0]", JNum [49]); (B "a[1]", JNum [50])]).
  assert (N2 : forall c, 49 <= c <= 57 -> value_text true [c] (JNum [c])) by (constructor; [now apply one_digit|now left]).
  split; [|split; [eexists; split; [vm_compute; reflexivity|vm_compute; reflexivity]|split; [|discriminate]]].
  - apply compact_json, (vt_obj true (B """a"":1,""a"":2")). apply (mt_more true [] (B "a") (B "a") [] [] [49] [] (JNum [49]) (B """a"":2"));
      [constructor|now apply ascii_string|constructor|constructor|apply N2; lia|apply after_t|].
    apply (mt_one true [] (B "a") (B "a") [] [] [50] [] (JNum [50])); [constructor|now apply ascii_string|constructor|constructor|apply N2; lia|apply after_t].
  - apply compact_json, (vt_obj true (B """a[0]"":1,""a[1]"":2")). apply (mt_more true [] (B "a[0]") (B "a[0]") [] [] [49] [] (JNum [49]) (B """a[1]"":2"));
      [constructor|now apply ascii_string|constructor|constructor|apply N2; lia|apply after_t|].
    apply (mt_one true [] (B "a[1]") (B "a[1]") [] [] [50] [] (JNum [50])); [constructor|now apply ascii_string|constructor|constructor|apply N2; lia|apply after_t].
Qed.
(** An empty object under a key that is no name: what is printed is not JSON. *)
Lemma ws_head w c y x z : ws w -> c :: y = w ++ x :: z -> ~ In c [32; 9; 10; 13] -> c = x.
Proof. intros W E H. destruct w as [|d w]; injection E as -> E; auto. apply Forall_inv in W. contradiction. Qed.
Lemma no_brace_brace v r z : value_text true r v -> r ++ z = B "{{}}" ++ [10] -> False.
Proof.
  intros V E. destruct V as [| | |t Ht _|t s _|w _|t l _|w W|t l M]; try discriminate E.
  - destruct (number_first t Ht) as (c & r & -> & D). cbn in E. injection E as -> _. unfold digit in D. lia.
  - cbn in E. injection E as E. rewrite <- app_assoc in E. symmetry in E. apply ws_head in E; auto; [discriminate|cbn; intuition discriminate].
  - cbn in E. injection E as E. rewrite <- app_assoc in E. symmetry in E. destruct M as [w q k w1 w2 t w' v W|w q k w1 w2 t w' v r l W];
      repeat (rewrite <- app_assoc in E || cbn [app] in E); apply ws_head in E; auto; try discriminate E; cbn; intuition discriminate.
Qed.
Theorem C35_not_json_refuted : exists src o v, json_text true src v /\ json_trip src o /\ ~ exists v', json_text true (o ++ [10]) v'.
Proof.
  exists (B "{"""":{}}"), (B "{{}}"), (JObj [([], JObj [])]). split; [|split; [eexists; split; [vm_compute; reflexivity|vm_compute; reflexivity]|]].
  - apply compact_json, (one_member [] (JObj []) (B "{}")); auto. apply (vt_obj0 true []). constructor.
  - intros (v' & w & t & w' & E & W & V & _). destruct w as [|c w].
    + cbn [app] in E. symmetry in E. now apply (no_brace_brace v' t w' V E).
    + injection E as <- _. apply Forall_inv in W. cbn in W. intuition discriminate.
Qed.
(** A control character without a short escape is printed in the way of C: what
    is printed is not JSON. *)
Theorem C35_control_refuted : exists src o v, json_text true src v /\ json_trip src o /\ ~ exists v', json_text true (o ++ [10]) v'.
Proof.
  exists (B """\u0001"""), (B """\x01"""), (JStr [1]). split; [|split; [eexists; split; [vm_compute; reflexivity|vm_compute; reflexivity]|]].
  - apply compact_json. apply (vt_str true (B "\u0001")). apply (st_hex true (B "\u0001") 1 [] []); [|unfold surrogate; lia|constructor].
    exists 48, 48, 48, 49, 0, 0, 0, 1. unfold hex_digit. repeat split; lia.
  - intros (v' & w & t & w' & E & W & V & _). destruct w as [|c w]; [|injection E as <- _; apply Forall_inv in W; cbn in W; intuition discriminate].
    cbn [app] in E. destruct V as [| | |t Ht _|t s T|w0 _|t l _|w0 _|t l _]; try discriminate E.
    + destruct (number_first t Ht) as (c & r & -> & D). cbn in E. injection E as <- _. unfold digit in D. lia.
    + cbn in E. injection E as E. rewrite <- app_assoc in E. destruct T as [|u t s C1 C2 C3 C4 T|e u t s I T|t s _ T|h u t s H _ T|h l u v t s _ H _ _ _ T].
      * discriminate E.
      * destruct (peek_spec u [] ltac:(apply C1)) as (c & x & Ec & _ & L & Hi). rewrite Ec in E. cbn in E. injection E as <- _.
        destruct (N.lt_ge_cases u 128) as [Q|Q]; [destruct (L Q) as [_ <-]; lia|]. destruct (Hi Q) as [F _]. apply Forall_inv in F. lia.
      * cbn in E. injection E as <- _. cbn in I. intuition discriminate.
      * discriminate E.
      * destruct H as (h1 & h2 & h3 & h4 & a & b & c & d & -> & _). discriminate E.
      * destruct H as (h1 & h2 & h3 & h4 & a & b & c & d & -> & _). discriminate E.
Qed.

(** ** C40 *)
Lemma encode_len u b : encode_utf8 u = Some b -> (List.length b <= 4)%nat /\ ((u <= 127)%Z -> List.length b = 1%nat)
  /\ ((u <= 2047)%Z -> (List.length b <= 2)%nat).
Proof.
  unfold encode_utf8. destruct (Z.leb_spec u 0x7f).
  { intros E. apply (f_equal (fun x => match x with Some y => List.length y | None => 0%nat end)) in E. cbn [List.length] in E. lia. }
  destruct (Z.leb_spec u 0x7ff).
  { intros E. apply (f_equal (fun x => match x with Some y => List.length y | None => 0%nat end)) in E. cbn [List.length] in E. lia. }
  destruct (Z.leb_spec u 0xffff).
  { intros E. apply (f_equal (fun x => match x with Some y => List.length y | None => 0%nat end)) in E. cbn [List.length] in E. lia. }
  destruct (Z.leb_spec u 0x10ffff); [|discriminate].
  intros E. apply (f_equal (fun x => match x with Some y => List.length y | None => 0%nat end)) in E. cbn [List.length] in E. lia.
Qed.
Lemma entity_fits n b : encode_utf8 (decode_entity_ref n) = Some b -> (List.length b <= 2 + List.length n)%nat.
Proof.
  intros H. destruct (encode_len _ _ H) as (L4 & L1 & L2). destruct n as [|x [|y n]]; [| |cbn [List.length]; lia].
  - rewrite L1 by (cbn; lia). cbn. lia.
  - assert (D : decode_entity_ref [x] = 0%Z).
    { unfold decode_entity_ref. cbn [beq B]. rewrite !andb_false_r || idtac.
      repeat match goal with |- context [if ?c then _ else _] => destruct c eqn:?; cbn in *; try discriminate; try reflexivity end. }
    rewrite L1 by (rewrite D; lia). cbn. lia.
Qed.
Theorem C40_collapse_fits_its_buffer : forall l size b,
  collapse_text l = Collapsed size b -> (List.length b + 1 <= size)%nat.
Proof.
  intros l size b. unfold collapse_text. destruct (collapse_count l) as [[[nt ne] len]|] eqn:C; [|discriminate].
  destruct (Nat.leb nt 1 && Nat.eqb ne 0); [discriminate|]. destruct (collapse_write l) as [w|] eqn:W; [|discriminate].
  intros E. injection E as <- <-. enough (List.length w <= len)%nat by lia.
  revert nt ne len w C W. induction l as [|x l IH]; intros nt ne len w C W.
  - injection W as <-. cbn. lia.
  - destruct x as [? ? ?|p| | |]; try discriminate C. destruct p as [t|n]; cbn in C, W.
    + destruct (collapse_count l) as [[[nt' ne'] len']|] eqn:C1; [|discriminate]. destruct (collapse_write l) as [w'|] eqn:W1; [|discriminate].
      injection C as <- <- <-. injection W as <-. rewrite app_length. specialize (IH _ _ _ _ eq_refl eq_refl). lia.
    + destruct (collapse_count l) as [[[nt' ne'] len']|] eqn:C1; [|discriminate]. destruct (encode_utf8 (decode_entity_ref (c_str n))) as [e|] eqn:En; [|discriminate].
      destruct (collapse_write l) as [w'|] eqn:W1; [|discriminate].
      injection C as <- <- <-. injection W as <-. rewrite app_length. specialize (IH _ _ _ _ eq_refl eq_refl). apply entity_fits in En. lia.
Qed.
Print Assumptions C40_collapse_fits_its_buffer.
(** The size is 1 for the NUL, the lengths of the texts, and two more than its
    name for an entity; and texts are copied. *)
Theorem C40_texts_are_joined : forall ts, (2 <= List.length ts)%nat -> Forall (fun t => ~ In 0 t) ts ->
  collapse_text (map (fun t => Part (PText t)) ts) = Collapsed (List.length (List.concat ts) + 1) (List.concat ts).
Proof.
  intros ts H F. assert (X : collapse_count (map (fun t => Part (PText t)) ts) = Some (List.length ts, 0%nat, List.length (List.concat ts))
    /\ collapse_write (map (fun t => Part (PText t)) ts) = Some (List.concat ts)).
  { clear H. induction F as [|t ts Ht F IH]; [split; reflexivity|]. destruct IH as [I1 I2]. cbn. rewrite I1, I2. cbn.
    rewrite JsonRead.c_str_id by auto. rewrite app_length. split; reflexivity. }
  destruct X as [X1 X2]. unfold collapse_text. rewrite X1, X2. destruct ts as [|a [|b ts]]; cbn in H; try lia. reflexivity.
Qed.
Print Assumptions C40_texts_are_joined.
Example C40_ex : collapse_text [Part (PText (B "a")); Part (PRef (B "apos")); Part (PRef (B "#128512")); Part (PText (B "b"))]
  = Collapsed 18 (B "a'" ++ utf8_spec 128512 ++ B "b").
Proof. reflexivity. Qed.
(** What is written is not always the text: an ampersand entity becomes a NUL,
    which ends the text. *)
Theorem C40_ampersand_lost : exists l, l = [Part (PText (B "a")); Part (PRef (B "amp")); Part (PText (B "b"))]
  /\ fixup_json (Elem (B "e") [] l) = Some (Elem (B "e") [] [Part (PText (B "a"))]).
Proof. eexists. split; reflexivity. Qed.

(** ** C41 *)
(** A left bracket, digits and a right bracket at the end are removed if
    something is left, and no other key is changed. *)
Theorem C41_index_suffix_partial : forall k,
  (forall p ds, p <> [] -> Forall digit ds -> k = p ++ 91 :: ds ++ [93] -> trim_index k = p)
  /\ ((~ exists p ds, p <> [] /\ Forall digit ds /\ k = p ++ 91 :: ds ++ [93]) -> trim_index k = k).
Proof.
  intros k. split.
  - intros p ds P D E. apply trim_index_removes. split; eauto.
  - intros H. apply trim_index_keeps. intros (p & P & ds & D & E). apply H. eauto.
Qed.
Print Assumptions C41_index_suffix_partial.
Example C41_ex : trim_index (B "a[1][23]") = B "a[1]" /\ trim_index (B "a[x]") = B "a[x]" /\ trim_index (B "[1]") = B "[1]" /\ trim_index (B "a1]") = B "a1]".
Proof. repeat split; reflexivity. Qed.
(** The digits may be missing: the suffix [] is removed too. *)
Theorem C41_no_digits_refuted : exists k, trim_index k <> k /\ ~ exists p d ds, Forall digit (d :: ds) /\ k = p ++ 91 :: (d :: ds) ++ [93].
Proof.
  exists (B "a[]"). split; [discriminate|]. intros (p & d & ds & D & E). apply Forall_inv in D. unfold digit in D.
  destruct p as [|x p]; [injection E as E _; lia|]. injection E as _ E. destruct p as [|y p]; [injection E as E _; lia|]. injection E as _ E. destruct p as [|z p]; [discriminate E|]. destruct p; discriminate E.
Qed.
