(** Properties C28, C29 and C42 for the default output: texts and documents
    printed with indentation are read back as they were.

    [print_doc C d] is xmqPrint of the document [d] in the xmq format with the
    settings [C]; [parse_buffer] is xmqParseBuffer; [safe_leaf_quote] prints one
    quote.  The conditions on texts and documents are those of Pretty.v. *)
From Coq Require Import NArith ZArith List Bool Arith Lia String.
From Verif Require Import Bytes BytesFacts Utf8 Utf8Proofs QuoteSpec Quote Parser ParserSpec ParserProofs Detect Dom Printer Grammar LexProofs BuildProofs GrammarProofs DetectGrammar PropsGrammar Compact Stray CompactProofs CompactDoc LeafQuote CompactLine PropsPrinter BlockProofs Pretty LeafBlock PrettyProofs PrettyOut PrettyDoc PrettyNodes.
Import ListNotations.
Local Open Scope N_scope.

(** ** C28: one text *)

(** The quote printed for a text at the column reached by what was written
    before it ([pre]) means, by the grammar of quotes, that text.  Missing from
    the full property: texts with spaces or tabs at the end of a line, texts
    with mixed white space at an end, and texts that start or end with a quote
    (or contain three) and are not framed well; see the refutations below. *)
Theorem C28_quote_at_its_column_partial : forall s pre z st o st',
  s <> [] -> plain s -> unmixed s -> leaf_ok s ->
  p_cur st = Z.of_nat (column pre) -> safe_leaf_quote s st = (o, st') -> ~ starts (is cQ) z ->
  quote pre o z s.
Proof.
  intros s pre z st o st' Hs Hp Hu Hl Hc E Hz. destruct (leaf_out s st) as (st2 & E2 & _); [lia|]. rewrite E in E2. injection E2 as -> _.
  rewrite Hc, Nat2Z.id. unfold leaf. destruct (quotes_for_spec s) as (Q1 & Q2 & _).
  pose proof (q_text pre (quotes_for s) (leaf_text (column pre) s) z) as X. rewrite leaf_block in X; auto. apply X; auto.
  - now apply leaf_body.
  - now apply plain_leaf.
Qed.
Print Assumptions C28_quote_at_its_column_partial.
(** Deciding the conditions for the examples. *)
Fixpoint cleanb (q : bytes) : bool :=
  match q with
  | c :: ((d :: _) as r) => negb (is_hspace c && (d =? cNL)) && cleanb r
  | _ => true
  end.
Lemma cleanb_ok q : cleanb q = true -> clean_ends q.
Proof.
  intros H x c y E. subst q. induction x as [|a x IH]; cbn [app] in H.
  - cbn in H. destruct (is_hspace c); [discriminate H|reflexivity].
  - apply IH. destruct x; cbn [app cleanb] in *; rewrite andb_true_iff in H; destruct H as [_ H]; exact H.
Qed.
Lemma clean_part x q y : clean_ends (x ++ q ++ y) -> clean_ends q.
Proof. intros H x' c y' ->. apply (H (x ++ x') c (y' ++ y)). now rewrite <- !app_assoc. Qed.
Lemma frame_quote q : needs_frame q -> In cQ q.
Proof.
  intros [F|[F|(x & y & ->)]].
  - destruct F as (c & r & -> & E). apply N.eqb_eq in E. subst c. now left.
  - destruct F as (c & r & E & E2). apply N.eqb_eq in E2. subst c. apply in_rev. rewrite E. now left.
  - apply in_or_app. right. now left.
Qed.
Lemma no_quote_leaf C t : ~ In cQ t -> cleanb t = true -> no_strayb false t = true -> forall q, stretch C t q -> leaf_ok q.
Proof.
  intros N H Hy q (_ & (x & w1 & w2 & y & -> & _) & _). split; [|split].
  - apply no_strayb_spec in Hy. apply stray_app in Hy as [_ Hy]. apply stray_app in Hy as [_ Hy]. now apply stray_app in Hy.
  - apply cleanb_ok in H. apply (clean_part (x ++ w1) q (w2 ++ y)). now rewrite <- app_assoc.
  - intros F. exfalso. apply N. apply frame_quote in F. rewrite !in_app_iff. tauto.
Qed.
Lemma calm_line_leaf C t : ~ In cNL t -> (forall c, In c t -> must_escape C c = false) -> leaf_ok t -> forall q, stretch C t q -> leaf_ok q.
Proof.
  intros N K H q (_ & (x & w1 & w2 & y & E & Hx & Hy & _ & H1 & _ & H2) & _). subst t.
  replace q with (x ++ w1 ++ q ++ w2 ++ y); auto.
  assert (x = []) as ->.
  { destruct Hx as [|(x' & c & -> & X)]; auto. rewrite K in X; [discriminate|]. rewrite !in_app_iff. cbn. tauto. }
  assert (y = []) as ->.
  { destruct Hy as [|(c & y' & -> & X)]; auto. rewrite K in X; [discriminate|]. rewrite !in_app_iff. cbn. tauto. }
  assert (w1 = []) as ->. { destruct H1 as [|I]; auto. exfalso. apply N. rewrite !in_app_iff. tauto. }
  assert (w2 = []) as ->. { destruct H2 as [|[I _]]; auto. exfalso. apply N. rewrite !in_app_iff. tauto. }
  cbn. now rewrite !app_nil_r.
Qed.
Fixpoint three (q : bytes) : bool :=
  match q with
  | [] => false
  | a :: r => match r with b :: c :: _ => (a =? cQ) && (b =? cQ) && (c =? cQ) | _ => false end || three r
  end.
Lemma three_ok x y : three (x ++ [cQ; cQ; cQ] ++ y) = true.
Proof. induction x as [|a x IH]; [reflexivity|]. cbn [app]. cbn [three]. cbn [app] in IH. rewrite IH. apply orb_true_r. Qed.
Ltac no_frame := let F := fresh in intros F; exfalso; destruct F as [F|[F|F]]; revert F; [no_start|no_start|];
  let E := fresh in intros (?x & ?y & E); apply (f_equal three) in E; rewrite three_ok in E; discriminate E.
Example C28_quote_example : exists st', let s := B "it's" ++ [cNL] ++ B "  two" ++ [cNL; cNL] ++ B "lines" in
  safe_leaf_quote s (PR 4 0 cEQ true) = (B "'''it's" ++ [cNL] ++ B "         two" ++ [cNL; cNL] ++ B "       lines'''", st')
  /\ s <> [] /\ plain s /\ unmixed s /\ leaf_ok s /\ column (B "a = ") = 4%nat.
Proof.
  eexists. cbv zeta. split; [vm_compute; reflexivity|]. split; [discriminate|]. split; [split; not_in|]. split; [|split; [split; [|split]|reflexivity]].
  - now apply unmixed_iff.
  - now apply (no_strayb_spec _ false).
  - now apply cleanb_ok.
  - no_frame.
Qed.

Lemma column_spaces k : column (rep cSP k ++ B "a = ") = (k + 4)%nat.
Proof.
  apply Nat2Z.inj. rewrite column_adv. change (rep cSP k) with ([] ++ rep cSP k). rewrite column_adv.
  rewrite adv_rep by (discriminate || reflexivity). cbn. lia.
Qed.
(** The value printed for a text, after any indentation, is read as that text;
    here also texts that are written as several quotes and entities. *)
Theorem C28_value_at_any_indentation_partial : forall C k s st v st' aft,
  compact C = false -> pvalue_ok C [PText s] ->
  p_ok st = true -> (0 <= p_line st)%Z -> p_last st = cEQ -> p_cur st = Z.of_nat (k + 4) -> print_value C LElem [PText s] st = (v, st') ->
  let src := rep cSP k ++ B "a = " ++ v ++ [cNL] in
  parse_buffer (enough src) None src (0 :: aft) = Document [el (B "a") s].
Proof.
  intros C k s st v st' aft HC Hv H1 H2 H3 H4 E src.
  destruct (value_out C HC LElem [PText s] st Hv (or_introl eq_refl)) as (v2 & st2 & [V1 V2 V3 V4 V5 V6 V7]); auto.
  { repeat split; auto. lia. }
  rewrite E in V1. apply (f_equal fst) in V1. cbn [fst] in V1. subst v2.
  destruct (V6 (rep cSP k ++ B "a = ") [cNL]) as (V & W).
  { left. rewrite H4. f_equal. rewrite column_spaces. reflexivity. }
  { now exists cNL, []. }
  subst src. apply denotes_parse; [|intros (w & _ & X); discriminate X].
  exists (rep cSP k), (B "a = " ++ v ++ [cNL]), [el (B "a") s]. split; [reflexivity|]. split; [|split; [|reflexivity]].
  - split; [|no_white]. destruct k as [|k]; [now left|right]. exists cSP, (rep cSP k). split; [reflexivity|]. split; [reflexivity|].
    clear. induction k; [constructor|]. now constructor.
  - replace (B "a = " ++ v ++ [cNL]) with (([97] ++ [cSP] ++ [cEQ] ++ [cSP] ++ v) ++ [cNL] ++ []) by reflexivity.
    apply s_flat; [|a_gap|constructor; now left].
    change (el (B "a") s) with (Elem (B "a") [] (map Part [PText s])). apply f_value; [apply h_plain|].
    + split; [now eexists _, _|split; [reflexivity|not_in]].
    + no_start.
    + apply (as_value _ [cSP] [cSP]); [a_gap|split; [|exact W]|].
      * right. eexists _, _. split; [reflexivity|split; [reflexivity|constructor]].
      * rewrite <- app_assoc. exact V.
Qed.
Print Assumptions C28_value_at_any_indentation_partial.

(** Printed with indentation and read again. *)
Definition pretty_cfg : cfg := Cfg false false false false 4.
Definition reread (d : list node) : result := let o := fst (print_doc pretty_cfg d) in parse_buffer (enough o) None o [0].
Definition two (x y : bytes) : bytes := x ++ [cNL] ++ y.
(** Spaces at the end of a line, that is not the last, are lost; and those of
    the last line if the quotes are on lines of their own. *)
Theorem C28_spaces_at_end_of_line_refuted : reread [el (B "a") (two (B "x ") (B "y"))] = Document [el (B "a") (two (B "x") (B "y"))].
Proof. reflexivity. Qed.
Print Assumptions C28_spaces_at_end_of_line_refuted.
Theorem C28_spaces_at_end_of_frame_refuted : reread [el (B "a") (two (B "'x") (B "y "))] = Document [el (B "a") (two (B "'x") (B "y"))].
Proof. reflexivity. Qed.
Print Assumptions C28_spaces_at_end_of_frame_refuted.
(** If the quotes are on lines of their own then spaces at the start of all
    lines are lost. *)
Theorem C28_spaces_in_frame_refuted : reread [el (B "a") (two (B "  x") (B "  y'"))] = Document [el (B "a") (two (B "x") (B "y'"))].
Proof. reflexivity. Qed.
Print Assumptions C28_spaces_in_frame_refuted.
(** A quote and a newline: another newline appears. *)
Theorem C28_newline_and_quote_refuted : reread [el (B "a") [cNL; cQ]] = Document [el (B "a") [cNL; cNL; cQ]]
  /\ reread [el (B "a") [cQ; cNL]] = Document [el (B "a") [cQ; cNL; cNL]].
Proof. split; reflexivity. Qed.
Print Assumptions C28_newline_and_quote_refuted.
(** Two quotes, or two tabs: the second becomes a sibling. *)
Theorem C28_only_quotes_refuted : reread [el (B "a") (B "''")] = Document [Elem (B "a") [] [Part (PRef (B "apos"))]; Part (PRef (B "apos"))].
Proof. reflexivity. Qed.
Print Assumptions C28_only_quotes_refuted.
Theorem C28_only_tabs_refuted : reread [el (B "a") [cTAB; cTAB]] = Document [el (B "a") [cTAB]; Part (PText [cTAB])].
Proof. reflexivity. Qed.
Print Assumptions C28_only_tabs_refuted.
(** A continuation byte of utf8 after a space or tab is lost. *)
Theorem C28_stray_byte_refuted : reread [el (B "a") (B "x " ++ [0x80] ++ B "y")] = Document [el (B "a") (B "x y")].
Proof. reflexivity. Qed.
Print Assumptions C28_stray_byte_refuted.
Theorem C29_stray_byte_comment_refuted : reread [Comment (B "x " ++ [0x80] ++ B "y")] = Document [Comment (B "x y")].
Proof. reflexivity. Qed.
Print Assumptions C29_stray_byte_comment_refuted.

(** ** C29: documents *)

(** Default output is read back as the document that was printed.  Missing from
    the full property: the documents excluded by [pnodes_ok], for which see the
    refutations. *)
Theorem C29_default_round_trip_partial : forall C d aft,
  compact C = false -> (0 <= add_indent C)%Z -> pnodes_ok C d -> ~ json_word d ->
  exists o, print_doc C d = (o, true) /\ parse_buffer (enough o) None o (0 :: aft) = Document d.
Proof.
  intros C d aft HC HI Hd Hj. destruct d as [|x d].
  - exists []. split; [reflexivity|]. apply (denotes_parse [] [] aft); auto. exists [], [], []. split; [reflexivity|]. split; [a_gap|]. split; [constructor; now left|reflexivity].
  - destruct (pretty_denotes C HC HI (x :: d)) as (o & E & D); [discriminate|exact Hd|]. exists o. split; auto. now apply denotes_parse.
Qed.
Print Assumptions C29_default_round_trip_partial.
(** What is printed has one meaning by the grammar: the document. *)
Theorem C29_default_output_denotes_partial : forall C d d',
  compact C = false -> (0 <= add_indent C)%Z -> d <> [] -> pnodes_ok C d ->
  (denotes (fst (print_doc C d)) d' <-> d' = d).
Proof.
  intros C d d' HC HI Hn Hd. destruct (pretty_denotes C HC HI d Hn Hd) as (o & E & D). rewrite E. cbn [fst]. split.
  - intros D'. now apply (denotes_unique o).
  - now intros ->.
Qed.
Print Assumptions C29_default_output_denotes_partial.
(** C42 for the default output: a document read from what was printed is printed
    in the same way. *)
Theorem C42_default_printing_is_stable_partial : forall C d d' aft,
  compact C = false -> (0 <= add_indent C)%Z -> pnodes_ok C d -> ~ json_word d ->
  let o := fst (print_doc C d) in
  parse_buffer (enough o) None o (0 :: aft) = Document d' -> print_doc C d' = (o, true).
Proof.
  intros C d d' aft HC HI Hd Hj. destruct (C29_default_round_trip_partial C d aft HC HI Hd Hj) as (o & E & P). rewrite E. cbn [fst].
  intros P'. rewrite P in P'. injection P' as <-. exact E.
Qed.
Print Assumptions C42_default_printing_is_stable_partial.

Definition pretty_sample : list node :=
  [Comment (two (B "one") (B "  two")); PI (B "p") (B "v1");
   Elem (B "html") [(B "a", [PText (B "it's")]); (B "b", []); (B "c", [PText (B "x y"); PRef (B "lt")])]
     [Part (PText (two (B "  hello") (B "x"))); Comment (B "c");
      Elem (B "e") [(B "k", [PText (B "v")])] [Part (PText (two (B "q") (B "r")))];
      Elem (B "f") [] []; Elem (B "g") [] [Part (PRef (B "amp")); Part (PText (B "its" ++ [cNL; cNL]))]]].
Ltac p_text c := constructor; [not_in|right; let O := fresh in intros O; specialize (O c); discriminate O; cbn; tauto|discriminate|apply no_quote_leaf; [not_in|reflexivity|reflexivity]].
Ltac p_siblings := let y := fresh in let r := fresh in let E := fresh in intros y r E; injection E as <- <-; split;
  [let H := fresh in intros ((? & H) & (? & ?)); try discriminate H; try discriminate|
   let ps := fresh in let H := fresh in let L := fresh in intros ps ? H ? (? & -> & _ & L); try discriminate H; try discriminate;
     injection H; clear H; intros; subst; revert L; not_in].
Lemma pretty_sample_ok : pnodes_ok pretty_cfg pretty_sample.
Proof.
  assert (T1 : ptext_ok pretty_cfg (B "it's")).
  { constructor; [not_in|right; intros O; specialize (O 105); discriminate O; cbn; tauto|discriminate|]. apply calm_line_leaf.
    - not_in.
    - intros c I. repeat (destruct I as [<-|I]; [reflexivity|]). destruct I.
    - split; [now apply (no_strayb_spec _ false)|]. split; [now apply cleanb_ok|no_frame]. }
  assert (T2 : ptext_ok pretty_cfg (B "x y")) by p_text 120.
  assert (T3 : ptext_ok pretty_cfg (two (B "  hello") (B "x"))) by p_text 120.
  assert (T4 : ptext_ok pretty_cfg (B "v1")) by p_text 118.
  assert (T5 : ptext_ok pretty_cfg (B "v")) by p_text 118.
  assert (T6 : ptext_ok pretty_cfg (two (B "q") (B "r"))) by p_text 113.
  assert (T7 : ptext_ok pretty_cfg (B "its" ++ [cNL; cNL])) by p_text 105.
  assert (R : forall n, is_name n -> ~ starts (is cHASH) n -> ppart_ok pretty_cfg (PRef n)) by (intros n H1 H2; split; auto).
  assert (R1 : ppart_ok pretty_cfg (PRef (B "lt"))) by (apply R; [split; [discriminate|reflexivity]|no_start]).
  assert (R2 : ppart_ok pretty_cfg (PRef (B "amp"))) by (apply R; [split; [discriminate|reflexivity]|no_start]).
  assert (Tb : forall c t, In c t -> c <> cSP -> c <> cTAB -> ~ tabbed pretty_cfg t).
  { intros c t I N1 N2 (_ & O & _). specialize (O c I). unfold one_of in O. cbn in O. rewrite !orb_true_iff, !N.eqb_eq in O. intuition congruence. }
  assert (V1 : forall t c, ptext_ok pretty_cfg t -> In c t -> c <> cSP -> c <> cTAB -> pvalue_ok pretty_cfg [PText t]).
  { intros t c H I N1 N2. split; [discriminate|]. split; [now constructor|]. split; [exact Logic.I|]. intros t' E. injection E as <-. now apply (Tb c). }
  assert (V2 : pvalue_ok pretty_cfg [PText (B "x y"); PRef (B "lt")]).
  { split; [discriminate|]. split; [constructor; [exact T2|constructor; [exact R1|constructor]]|]. split; [split; [intros (_ & H); discriminate H|exact I]|discriminate]. }
  assert (V3 : pvalue_ok pretty_cfg [PRef (B "amp"); PText (B "its" ++ [cNL; cNL])]).
  { split; [discriminate|]. split; [constructor; [exact R2|constructor; [exact T7|constructor]]|]. split; [split; [intros (H & _); discriminate H|exact I]|discriminate]. }
  constructor; [| |constructor; [| |constructor; [|discriminate|constructor]]].
  - constructor. split; [split; not_in|]. split; [now apply (no_strayb_spec _ false)|]. cbn -[clean_ends]. split; [now apply cleanb_ok|split; reflexivity].
  - p_siblings.
  - constructor; [reflexivity|]. split; [discriminate|]. split; [exact T4|]. split; [|split; [now apply unmixed_iff|split; [no_start|split; [no_start|right]]]].
    + intros c [<-|[<-|[]]]; reflexivity.
    + intros O. specialize (O 118). discriminate O. cbn. tauto.
  - p_siblings.
  - apply po_body; [an_element| |reflexivity|].
    + constructor; [|constructor; [|constructor; [|constructor]]].
      * split; [an_attr|]. right. split; [|discriminate]. apply (V1 _ 105); [exact T1|cbn; tauto|discriminate|discriminate].
      * split; [an_attr|now left].
      * split; [an_attr|right]. split; [exact V2|discriminate].
    + constructor; [constructor; exact T3|p_siblings|constructor; [|p_siblings|constructor; [|p_siblings|constructor; [|p_siblings|constructor; [|discriminate|constructor]]]]].
      * constructor. split; [split; not_in|]. split; [now apply (no_strayb_spec _ false)|]. reflexivity.
      * apply (po_value _ _ _ [PText (two (B "q") (B "r"))]); [an_element| |apply (V1 _ 113); [exact T6|cbn; tauto|discriminate|discriminate]|].
        { constructor; [|constructor]. split; [an_attr|right]. split; [|discriminate]. apply (V1 _ 118); [exact T5|cbn; tauto|discriminate|discriminate]. }
        intros t r E _. right. constructor; [right|constructor]. split; [intros c [<-|[]]; reflexivity|]. split; [now apply unmixed_iff|]. split.
        { intros x c y X. destruct x as [|? [|]]; try discriminate X. injection X as <- _. discriminate. }
        intros O. specialize (O 118). discriminate O. cbn. tauto.
      * apply po_leaf; [an_element|constructor].
      * apply (po_value _ _ _ [PRef (B "amp"); PText (B "its" ++ [cNL; cNL])]); [an_element|constructor|exact V3|]. intros t r E. discriminate E.
Qed.
Lemma pretty_sample_word : ~ json_word pretty_sample.
Proof. intros (w & _ & E). discriminate E. Qed.
Definition lines (l : list string) : bytes := List.concat (map (fun s => B s ++ [cNL]) l).
Example C29_example :
  let o := lines ["/* one"; "     two */"; "?p = v1"; "html(a = '''it's'''"; "     b"; "     c = ( 'x y'"; "           &lt; ))"; "{";
    "    '  hello"; "     x'"; "    // c"; "    e(k = v) = 'q"; "                r'"; "    f"; "    g = ( &amp;"; "          'its"; ""; ""; "          ' )"; "}"]%string in
  print_doc pretty_cfg pretty_sample = (o, true) /\ parse_buffer (enough o) None o [0] = Document pretty_sample.
Proof.
  destruct (C29_default_round_trip_partial pretty_cfg pretty_sample [] eq_refl) as (o & E & P); [discriminate|exact pretty_sample_ok|exact pretty_sample_word|].
  set (b := lines _). cbv zeta. assert (X : print_doc pretty_cfg pretty_sample = (b, true)) by (vm_compute; reflexivity).
  split; [exact X|]. rewrite X in E. apply (f_equal fst) in E. cbn [fst] in E. rewrite E. exact P.
Qed.

(** A comment that starts or ends with a newline, or with a space at its end. *)
Theorem C29_comment_ends_refuted : reread [Comment (B "x" ++ [cNL])] = Document [Comment (B "x")]
  /\ reread [Comment ([cNL] ++ B "x")] = Document [Comment (B "x")] /\ reread [Comment (B "x ")] = Document [Comment (B "x")].
Proof. repeat split; reflexivity. Qed.
Print Assumptions C29_comment_ends_refuted.
(** The printer counts a tab written as an entity, and two spaces in quotes,
    wrongly: the lines of the quote after it are not at its column. *)
Theorem C29_value_after_tab_refuted :
  reread [Elem (B "a") [(B "b", [PText [cTAB]])] [Part (PText (two (B "x") (B "y")))]]
  = Document [Elem (B "a") [(B "b", [PText [cTAB]])] [Part (PText (two (B "x") (B "    y")))]].
Proof. reflexivity. Qed.
Print Assumptions C29_value_after_tab_refuted.
Theorem C29_value_after_spaces_refuted :
  reread [Elem (B "a") [(B "b", [PText (B "  ")])] [Part (PText (two (B "x") (B "  y")))]]
  = Document [Elem (B "a") [(B "b", [PText (B "  ")])] [Part (PText (two (B "x") (B "y")))]].
Proof. reflexivity. Qed.
Print Assumptions C29_value_after_spaces_refuted.
(** An entity after a value that ends with an equals sign becomes a part of it. *)
Theorem C29_entity_after_equals_refuted : reread [el (B "a") (B "x="); Part (PRef (B "lt"))] = Document [el (B "a") (B "x=&lt;")].
Proof. reflexivity. Qed.
Print Assumptions C29_entity_after_equals_refuted.
(** A processing instruction with a quote in front gets a space; lines after
    white space in front of a line end are lost from it. *)
Theorem C29_pi_quote_refuted : reread [PI (B "p") (B "'x")] = Document [PI (B "p") (B " 'x")].
Proof. reflexivity. Qed.
Print Assumptions C29_pi_quote_refuted.
Theorem C29_pi_lines_refuted : reread [PI (B "p") (two (B "x") (B " "))] = Document [PI (B "p") (B "x"); Part (PText (two [] (B " ")))].
Proof. reflexivity. Qed.
Print Assumptions C29_pi_lines_refuted.
(** The value of an attribute that starts with an empty text is lost. *)
Theorem C29_empty_text_first_refuted :
  reread [Elem (B "a") [(B "x", [PText []; PRef (B "lt")])] []] = Document [Elem (B "a") [(B "x", [])] []].
Proof. reflexivity. Qed.
Print Assumptions C29_empty_text_first_refuted.
(** The document of one empty element called true is taken for json. *)
Theorem C29_json_word_refuted : exists e, reread [Elem (B "true") [] []] = Error e.
Proof. now eexists. Qed.
Print Assumptions C29_json_word_refuted.
(** The hypotheses of C28_value_at_any_indentation_partial hold for this text. *)
Example C28_value_example : let s := two (B "  hello") (B "x") in
  pvalue_ok pretty_cfg [PText s] /\ fst (print_value pretty_cfg LElem [PText s] (PR 10 0 cEQ true)) = B "'  hello" ++ [cNL] ++ rep cSP 11 ++ B "x'".
Proof.
  cbv zeta. split; [|reflexivity]. split; [discriminate|]. split; [constructor; [p_text 120|constructor]|]. split; [exact I|].
  intros t E. injection E as <-. intros (_ & O & _). specialize (O 120). discriminate O. cbn. tauto.
Qed.
