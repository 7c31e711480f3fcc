(** Properties C24, C25, C26, C27, C30 and C42: printing.

    [print_doc C d] is xmqPrint of the document [d] in the xmq format with the
    settings [C]; [parse_buffer] is xmqParseBuffer; [compact_quote] is
    xmqCompactQuote. *)
From Coq Require Import NArith ZArith List Bool Arith Lia String.
From Verif Require Import Bytes BytesFacts Utf8 Utf8Proofs QuoteSpec Quote Parser ParserSpec ParserProofs Detect Dom Printer Grammar LexProofs BuildProofs GrammarProofs DetectGrammar PropsGrammar Compact Stray CompactProofs CompactDoc LeafQuote CompactLine.
Import ListNotations.
Local Open Scope N_scope.

(** C24: the quote printed for a text, in any state of the printer, followed by
    anything that does not start with a quote: the parser, in any state in
    which it looks for a value or content of level l, takes exactly the printed
    quote as one token. *)
Theorem C24_quotes_delimit_text : forall s st o st' l z ps,
  s <> [] -> (0 <= p_cur st)%Z -> safe_leaf_quote s st = (o, st') ->
  s_rest ps = o ++ z -> ~ starts (is cQ) z ->
  exists ps', parse_quote l ps = POk ps' /\ s_rest ps' = z /\
    exists t, s_toks ps' = t :: s_toks ps /\ t_kind t = quote_kind l /\ t_text t = o.
Proof.
  intros s st o st' l z ps Hs Hc E R Hz. destruct (leaf_out s st Hc) as (st2 & E2 & _). rewrite E in E2. injection E2 as -> _.
  destruct (leaf_read _ s z ps l Hs Hz R) as (ps' & P & [A1 A2 A3 (T & A4 & A5)]). exists ps'. split; auto. split.
  - rewrite R in A2. now apply app_inv_head in A2.
  - destruct T as [|t [|]]; try discriminate A5. cbn in A5. unfold shape in A5. injection A5 as K X. exists t. cbn in A4. auto.
Qed.
Print Assumptions C24_quotes_delimit_text.
(** A text with quotes inside and at its end. *)
Example C24_example : let '(o, st') := safe_leaf_quote (B "it''s 'x'") (PR 5 2 0 true) in
  (8 <= List.length o)%nat /\
  exists ps', parse_quote LElem (init (o ++ B " next") [0]) = POk ps' /\ s_rest ps' = B " next".
Proof.
  destruct (safe_leaf_quote _ _) as [o st'] eqn:E. split.
  - vm_compute in E. injection E as <- _. cbn. lia.
  - destruct (C24_quotes_delimit_text (B "it''s 'x'") (PR 5 2 0 true) o st' LElem (B " next") (init (o ++ B " next") [0]))
      as (ps' & P & R & _); [discriminate|discriminate|exact E|reflexivity|no_start|]. exists ps'. exact (conj P R).
Qed.

(** C25: the comment printed for a text with newlines, compact or not: it is
    read as one comment (in compact output one token for each line, all but the
    first as continuations) that ends at the last of the printed slashes, when
    neither a slash nor an asterisk follows. *)
Theorem C25_slashes_delimit_comment : forall C s st o st' z ps fuel,
  In cNL s -> (0 <= p_cur st)%Z -> comment_lines C s st = (o, st') ->
  s_rest ps = o ++ z -> ~ starts (one_of [cSLASH; cSTAR]) z -> nul_after ps -> (List.length o <= fuel)%nat ->
  exists ps', parse_comment fuel ps = POk ps' /\ s_rest ps' = z /\
    exists t ts, s_toks ps' = rev (t :: ts) ++ s_toks ps /\ t_kind t = Kcomment
      /\ Forall (fun t => t_kind t = Kcomment_continuation) ts /\ (compact C = false -> ts = [])
      /\ List.concat (map t_text (t :: ts)) = o.
Proof.
  intros C s st o st' z ps fuel I Hc E R Hz Hn L.
  assert (Hs : has_newlines s = true) by (apply existsb_exists; exists cNL; auto).
  destruct (comment_lines_out C s st Hc Hs) as (bs & st2 & E2 & _ & _ & Hb & F & One & _). rewrite E in E2. apply (f_equal fst) in E2. cbn [fst] in E2. subst o.
  set (n := count_necessary_slashes s) in *. destruct bs as [|b bs]; [congruence|].
  destruct (comment_read n b bs z ps fuel) as (ps' & P & [A1 A2 A3 (T & A4 & A5)]); auto; [unfold n, count_necessary_slashes; lia| |].
  { rewrite app_length in L. cbn [map List.concat] in L. rewrite app_length in L.
    assert (X : (List.length bs <= List.length (List.concat (map (segment n) bs)))%nat).
    { clear. induction bs as [|b bs IH]; [cbn; lia|]. cbn [map List.concat]. unfold segment at 1. cbn [app]. cbn [List.length]. rewrite app_length. lia. }
    lia. }
  exists ps'. split; auto. split; [rewrite R in A2; now apply app_inv_head in A2|].
  destruct T as [|t T]; [discriminate A5|]. cbn [map] in A5. unfold shape in A5 at 1. injection A5 as K1 K2 K3. exists t, T.
  assert (K4 : map t_text T = map (segment n) bs).
  { clear -K3. revert bs K3. induction T as [|t T IH]; intros [|b bs] H; try discriminate H; [reflexivity|].
    cbn [map] in H. unfold shape in H at 1. injection H as _ H1 H2. cbn [map]. now rewrite H1, (IH bs). }
  split; [exact A4|]. split; [exact K1|]. split; [|split].
  - clear -K3. revert bs K3. induction T as [|t T IH]; intros [|b bs] H; try discriminate H; [constructor|].
    cbn [map] in H. unfold shape in H at 1. injection H as H1 _ H2. constructor; eauto.
  - intros Hp. specialize (One Hp). destruct bs; [|discriminate One]. destruct T; [reflexivity|discriminate K3].
  - cbn [map List.concat]. rewrite K4. transitivity ((rep cSLASH n ++ segment n b) ++ List.concat (map (segment n) bs)); [exact (f_equal (fun x => x ++ _) K2)|now rewrite <- app_assoc].
Qed.
Print Assumptions C25_slashes_delimit_comment.
Example C25_example : let '(o, st') := comment_lines (Cfg false false false false 4) (B "a */ b *///" ++ [cNL] ++ B "c") (PR 5 2 0 true) in
  (20 <= List.length o)%nat /\
  exists ps', parse_comment 100 (init (o ++ B " next") [0]) = POk ps' /\ s_rest ps' = B " next".
Proof.
  destruct (comment_lines _ _ _) as [o st'] eqn:E. assert (L : (20 <= List.length o <= 100)%nat) by (vm_compute in E; injection E as <- _; cbn; lia).
  split; [apply L|].
  destruct (C25_slashes_delimit_comment (Cfg false false false false 4) (B "a */ b *///" ++ [cNL] ++ B "c") (PR 5 2 0 true) o st' (B " next") (init (o ++ B " next") [0]) 100%nat)
    as (ps' & P & R & _); [cbn; tauto|discriminate|exact E|reflexivity|no_start|reflexivity|apply L|]. exists ps'. exact (conj P R).
Qed.

(** C26: the compact quote of a text, as the value of an element or of an
    attribute, is read back as the same text.  Missing: see the refutations
    below; each condition excludes one of them. *)
Definition quotable (s : bytes) : Prop :=
  ~ In 0 s /\ no_stray s /\ few_quotes s /\ (s = [] \/ exists c, In c s /\ c <> cQ)
  /\ ~ ((2 <= List.length s)%nat /\ In cTAB s /\ forall c, In c s -> c = cSP \/ c = cTAB).

Lemma quotable_value s : quotable s -> value_ok quote_cfg [PText s].
Proof.
  intros (H1 & H1' & H2 & H3 & H4). split; [discriminate|]. split; [|split].
  - constructor; [|constructor]. constructor; auto; [|discriminate]. destruct H3 as [->|(c & I & N)]; [now left|right].
    intros O. specialize (O c I). apply N.eqb_eq in O. contradiction.
  - exact I.
  - intros t E (T1 & T2 & T3 & _). injection E as <-. apply H4. split; auto. split; auto. intros c I. specialize (T2 c I).
    unfold one_of in T2. cbn in T2. rewrite !orb_true_iff, !N.eqb_eq in T2. intuition congruence.
Qed.
Lemma compact_quote_value s : quotable s -> exists e, In e [Equo; Eany; Ebare] /\
  (e = Ebare -> compact_quote s = s /\ bare s []) /\
  forall pre w y, after e w y -> value pre (compact_quote s) (w ++ y) [PText s] /\ ~ begins_white (compact_quote s ++ w ++ y).
Proof.
  intros Q. pose proof (quotable_value s Q) as V.
  destruct (writes_value_from quote_cfg eq_refl 0 LAttr [PText s]) as (v & e & c' & He & [W _ Hv Bv Sv]); [cbn; auto|exact V|auto|].
  exists e. split; auto. assert (X : compact_quote s = v).
  { unfold compact_quote. destruct (W (PR 0 0 0 true) eq_refl eq_refl (Z.le_refl 0)) as (st & E & _). rewrite E. cbn [fst].
    assert (F : no_nl v).
    { destruct (q_value quote_cfg eq_refl LAttr [PText s]) with (st := PR 0 0 0 true) as (K & _); [|apply Z.le_refl|].
      - constructor; [|constructor]. apply Q.
      - now rewrite E in K. }
    clear -F. induction v as [|c v IH]; [reflexivity|]. cbn [filter]. destruct (N.eqb_spec c cNL) as [->|_]; [exfalso; apply F; now left|].
    cbn. f_equal. apply IH. intros I. apply F. now right. }
  rewrite X. split; [|exact Hv]. intros ->. destruct (Bv eq_refl) as (t & E & Bt & _). specialize (Sv eq_refl). injection E as <-. injection Sv as Sv. now split.
Qed.
(** In every place of a source where the grammar has a value. *)
Theorem C26_quote_is_value_partial : forall s pre z,
  quotable s -> z = [] \/ starts (one_of [cSP; cNL; cLP; cRP; cLB; cRB]) z -> value pre (compact_quote s) z [PText s].
Proof.
  intros s pre z Q Hz. destruct (compact_quote_value s Q) as (e & He & _ & H). apply (H pre [] z). cbn [app].
  destruct He as [<-|[<-|[<-|[]]]]; cbn [after app].
  - intros (c & r & -> & Hc). destruct Hz as [Hz|(d & r' & Hz & Hd)]; [discriminate|]. injection Hz as <- <-. apply N.eqb_eq in Hc. subst c. discriminate Hd.
  - exact I.
  - destruct Hz as [->|(d & r & -> & Hd)]; [now left|right]. exists d, r. split; auto. unfold one_of in *. cbn [existsb ends_value] in *.
    rewrite !orb_true_iff in *. tauto.
Qed.
Print Assumptions C26_quote_is_value_partial.
Theorem C26_compact_quote_partial : forall s aft,
  quotable s ->
  let parse src := parse_buffer (enough src) None src (0 :: aft) in
  parse (B "a=" ++ compact_quote s) = Document [Elem (B "a") [] [Part (PText s)]]
  /\ parse (B "a(b=" ++ compact_quote s ++ B ")") = Document [Elem (B "a") [(B "b", [PText s])] []].
Proof.
  intros s aft Q parse. subst parse. cbn beta. set (q := compact_quote s).
  assert (A : forall pre w y, (w = [] /\ y = []) \/ (w = [] /\ y = B ")") -> value pre q (w ++ y) [PText s] /\ ~ begins_white (q ++ w ++ y)).
  { intros pre w y Hy. destruct (compact_quote_value s Q) as (e & He & _ & H). apply (H pre w y).
    destruct Hy as [(-> & ->)|(-> & ->)]; destruct He as [<-|[<-|[<-|[]]]]; cbn [after app]; try exact I; try no_start; [now left|right; now eexists _, _]. }
  split; apply denotes_parse.
  - exists [], (B "a=" ++ q), [Elem (B "a") [] (map Part [PText s])]. split; [reflexivity|]. split; [a_gap|]. split; [|reflexivity].
    replace (B "a=" ++ q) with ((B "a" ++ [] ++ [cEQ] ++ [] ++ q) ++ [] ++ []) by (now rewrite app_nil_r).
    constructor; [|a_gap|constructor; now left].
    apply f_value; [apply h_plain; [apply name_a|no_start]|]. destruct (A ((([] ++ []) ++ B "a") ++ [] ++ [cEQ] ++ []) [] []) as (A1 & A2); [auto|].
    constructor; [a_gap|split; [now left|exact A2]|exact A1].
  - intros (w & [<-|[<-|[<-|[]]]] & E); discriminate E.
  - exists [], (B "a(b=" ++ q ++ B ")"), [Elem (B "a") [(B "b", [PText s])] []]. split; [reflexivity|]. split; [a_gap|]. split; [|reflexivity].
    replace (B "a(b=" ++ q ++ B ")") with ((B "a(b=" ++ q ++ B ")") ++ [] ++ []) by (now rewrite app_nil_r).
    constructor; [|a_gap|constructor; now left]. apply f_leaf; [|no_start].
    replace (B "a(b=" ++ q ++ B ")") with (B "a" ++ [] ++ [cLP] ++ [] ++ ((B "b" ++ [] ++ [cEQ] ++ [] ++ q) ++ [] ++ []) ++ [cRP]) by (now rewrite app_nil_r).
    apply h_attrs; [apply name_a|a_gap|a_gap|]. constructor; [|a_gap|constructor; now eexists _, _].
    apply at_value; [apply name_b|]. match goal with |- assigned ?p _ _ _ => destruct (A (p ++ [] ++ [cEQ] ++ []) [] (B ")")) as (A1 & A2); [auto|] end.
    constructor; [a_gap|split; [now left|exact A2]|exact A1].
  - intros (w & [<-|[<-|[<-|[]]]] & E); discriminate E.
Qed.
Print Assumptions C26_compact_quote_partial.
(** Quotes, spaces, newlines and a control character. *)
Lemma not_few_split l : (forallb (fun k => negb (beq (firstn 3 (skipn k l)) [cQ; cQ; cQ])) (List.seq 0 (S (List.length l)))) = true -> few_quotes l.
Proof.
  intros H x y E. rewrite forallb_forall in H. specialize (H (List.length x)). assert (X : beq (firstn 3 (skipn (List.length x) l)) [cQ; cQ; cQ] = true).
  { rewrite E, skipn_app, skipn_all, Nat.sub_diag. cbn. reflexivity. }
  rewrite X in H. assert (Y : negb true = true); [|discriminate Y]. apply H. apply in_seq. rewrite E, app_length. lia.
Qed.
Example C26_example : let s := B "'it''s'  " ++ [cNL; cTAB; 1; cNL] ++ B " x " in
  quotable s /\ compact_quote s = B "(&#39;'''it''s'  '''&#10;'" ++ [cTAB] ++ B "'&#1;&#10;' x ')".
Proof.
  cbv zeta. split; [|reflexivity]. split; [not_in|]. split; [now apply (no_strayb_spec _ false)|]. split; [now apply not_few_split|]. split.
  - right. exists cSP. split; [cbn; tauto|discriminate].
  - intros (_ & _ & H). specialize (H cNL). destruct H as [H|H]; [cbn; tauto|discriminate H|discriminate H].
Qed.
Definition read_value (s : bytes) : result := let src := B "a=" ++ compact_quote s in parse_buffer (enough src) None src [0].
(** A text of quotes only comes back as the entity apos. *)
Theorem C26_only_quotes_refuted : read_value (B "'") = Document [Elem (B "a") [] [Part (PRef (B "apos"))]].
Proof. reflexivity. Qed.
Print Assumptions C26_only_quotes_refuted.
(** Of two tabs only the first one is in the value. *)
Theorem C26_tabs_refuted : read_value [cTAB; cTAB] = Document [Elem (B "a") [] [Part (PText [cTAB])]; Part (PText [cTAB])].
Proof. reflexivity. Qed.
Print Assumptions C26_tabs_refuted.
(** Three quotes in a text that has to be split up: spaces are added. *)
Theorem C26_three_quotes_refuted : read_value (B "x'''y" ++ [cNL]) = Document [Elem (B "a") [] [Part (PText (B " x'''y " ++ [cNL]))]].
Proof. reflexivity. Qed.
Print Assumptions C26_three_quotes_refuted.
(** A continuation byte of utf8 after a space is lost (the text is not utf8). *)
Theorem C26_stray_byte_refuted : read_value (B "x " ++ [0x80] ++ B "y") = Document [Elem (B "a") [] [Part (PText (B "x y"))]].
Proof. reflexivity. Qed.
Print Assumptions C26_stray_byte_refuted.

(** C27: a document of the class [nodes_ok] (Compact.v), printed in compact form
    with any settings of the escapes, is read back as the same document.
    Missing: the documents outside of the class; the refutations below show, for
    each condition of the class, a document that is not read back. *)
Definition compact_cfg (C : cfg) : Prop := compact C = true.
Theorem C27_compact_round_trip_partial : forall C d aft,
  compact_cfg C -> nodes_ok C d -> ~ json_word d ->
  exists o, print_doc C d = (o, true) /\ parse_buffer (enough o) None o (0 :: aft) = Document d.
Proof.
  intros C d aft HC Hd Hj. destruct d as [|x d].
  - exists []. split; [reflexivity|]. apply (denotes_parse [] [] aft); auto. exists [], [], []. split; [reflexivity|]. split; [a_gap|].
    split; [constructor; now left|reflexivity].
  - destruct (compact_denotes C HC (x :: d)) as (o & E & D); [discriminate|exact Hd|]. exists o. split; auto. now apply denotes_parse.
Qed.
Print Assumptions C27_compact_round_trip_partial.

(** C42: for these documents printing, parsing and printing again gives the
    same output. *)
Theorem C42_compact_printing_is_stable_partial : forall C d d' aft,
  compact_cfg C -> nodes_ok C d -> ~ json_word d ->
  let o := fst (print_doc C d) in
  parse_buffer (enough o) None o (0 :: aft) = Document d' -> print_doc C d' = (o, true).
Proof.
  intros C d d' aft HC Hd Hj o. destruct (C27_compact_round_trip_partial C d aft HC Hd Hj) as (o' & E & P). unfold o. rewrite E. cbn [fst].
  rewrite P. intros X. injection X as <-. exact E.
Qed.
Print Assumptions C42_compact_printing_is_stable_partial.

Definition sample_cfg : cfg := Cfg true false false false 4.
Definition sample : list node :=
  [PI (B "p") (B "v1");
   Elem (B "html") [(B "a", [PText (B "it''s")]); (B "b", []); (B "c", [PText (B "x y"); PRef (B "lt")])]
     [Part (PText (B " 'hello'" ++ [cNL] ++ B "x "));
      Comment (B "one" ++ [cNL] ++ B "two");
      Elem (B "e") [] [Part (PText (B "q/"))];
      Comment (B "c");
      Elem (B "f") [] []]].
Ltac a_text c := constructor; [not_in|now apply (no_strayb_spec _ false)|now apply not_few_split|right; let O := fresh in intros O; specialize (O c); discriminate O; cbn; tauto|discriminate].
Ltac an_element := split; [now eexists _, _|split; [reflexivity|not_in]].
Ltac an_attr := split; [split; [discriminate|reflexivity]|split; [not_in|discriminate]].
Lemma sample_ok : nodes_ok sample_cfg sample.
Proof.
  assert (T1 : text_ok sample_cfg (B "it''s")) by a_text 115.
  assert (T2 : text_ok sample_cfg (B "x y")) by a_text 120.
  assert (T3 : text_ok sample_cfg (B " 'hello'" ++ [cNL] ++ B "x ")) by a_text 104.
  assert (T4 : text_ok sample_cfg (B "q/")) by a_text 47.
  assert (T5 : text_ok sample_cfg (B "v1")) by a_text 118.
  assert (Tb : forall c t, In c t -> c <> cSP -> c <> cTAB -> ~ tabbed sample_cfg t).
  { intros c t I N1 N2 (_ & O & _). specialize (O c I). unfold one_of in O. cbn in O. rewrite !orb_true_iff, !N.eqb_eq in O. intuition congruence. }
  constructor; [| |constructor; [|discriminate|constructor]].
  - constructor; [reflexivity|]. split; [discriminate|]. split; [exact T5|]. split; [not_in|]. split.
    { intros c [<-|[<-|[]]]; reflexivity. }
    split; [apply (Tb 118); cbn; [tauto|discriminate|discriminate]|]. split; [discriminate|]. split; no_start.
  - intros y r' E. injection E as <- <-. split; [intros ((t & H) & _); discriminate H|].
    intros ps H (t & -> & _ & L). injection H as <-. revert L. not_in.
  - apply ok_body; [an_element| |reflexivity|].
    + split; [|split; [|split; [|split; [|split; [|split]]]]].
      * split; [an_attr|]. right. split; [|discriminate]. split; [discriminate|]. split; [now constructor|]. split; [exact I|].
        intros t E. injection E as <-. apply (Tb 115); cbn; [tauto|discriminate|discriminate].
      * right. intros (t & E & Hb & _). injection E as <-. destruct Hb as (_ & _ & _ & _ & Hb).
        apply (Hb (B "it") (B "''s")); [reflexivity|discriminate|]. right. right. now eexists _, _.
      * split; [an_attr|now left].
      * right. intros (t & E & _). discriminate E.
      * split; [an_attr|]. right. split; [|discriminate]. split; [discriminate|]. split; [constructor; [exact T2|constructor; [|constructor]]|].
        { split; [split; [discriminate|reflexivity]|no_start]. }
        split; [split; [intros (_ & H); discriminate H|exact I]|]. intros t E. discriminate E.
      * now left.
      * exact I.
    + constructor; [now constructor| |constructor; [| |constructor; [| |constructor; [| |constructor; [|discriminate|constructor]]]]].
      * intros y r' E. injection E as <- <-. split; [intros (_ & (t & H)); discriminate H|]. intros ps H. discriminate H.
      * constructor. split; [split; not_in|]. split; [now apply (no_strayb_spec _ false)|]. cbn -[trimmed]. split; [|discriminate].
        repeat constructor; no_start.
      * intros y r' E. injection E as <- <-. split; [intros (_ & (t & H)); discriminate H|]. intros ps H. discriminate H.
      * apply (ok_value _ _ _ [PText (B "q/")]); [an_element|exact I|]. split; [discriminate|]. split; [now constructor|]. split; [exact I|].
        intros t E. injection E as <-. apply (Tb 113); cbn; [tauto|discriminate|discriminate].
      * intros y r' E. injection E as <- <-. split; [intros (_ & (t & H)); discriminate H|]. intros ps H (t & -> & _ & L). injection H as <-.
        revert L. not_in.
      * constructor. split; [split; not_in|]. split; [now apply (no_strayb_spec _ false)|]. cbn -[trimmed]. split; [split; no_start|]. intros x y E.
        destruct x as [|c x]; [discriminate E|]. destruct x; discriminate E.
      * intros y r' E. injection E as <- <-. split; [intros (_ & (t & H)); discriminate H|]. intros ps H. discriminate H.
      * apply ok_leaf; [an_element|exact I].
Qed.
Lemma sample_word : ~ json_word sample.
Proof. intros (w & _ & E). discriminate E. Qed.
Example C27_example : let o := B "?p=v1 html(a='''it''s'''b c=('x y'&lt;)){''' 'hello'''&#39;&#10;'x '/*one*/*two*/e=q/ /*c*/f}" ++ [cNL] in
  print_doc sample_cfg sample = (o, true) /\ parse_buffer (enough o) None o [0] = Document sample.
Proof.
  destruct (C27_compact_round_trip_partial sample_cfg sample [] eq_refl sample_ok sample_word) as (o & E & P).
  cbv zeta. assert (X : print_doc sample_cfg sample = (B "?p=v1 html(a='''it''s'''b c=('x y'&lt;)){''' 'hello'''&#39;&#10;'x '/*one*/*two*/e=q/ /*c*/f}" ++ [cNL], true)) by (vm_compute; reflexivity).
  split; [exact X|]. rewrite X in E. apply (f_equal fst) in E. cbn [fst] in E. rewrite E. exact P.
Qed.

(** Printed in compact form and read again. *)
Definition again (d : list node) : result := let o := fst (print_doc sample_cfg d) in parse_buffer (enough o) None o [0].
Definition el (n : bytes) (t : bytes) : node := Elem n [] [Part (PText t)].
(** No space is printed after a value ending with a semicolon or slash: the next
    element becomes part of the value. *)
Theorem C27_element_after_semicolon_refuted : again [el (B "a") (B "x;"); Elem (B "b") [] []] = Document [el (B "a") (B "x;b")].
Proof. reflexivity. Qed.
Print Assumptions C27_element_after_semicolon_refuted.
Theorem C27_element_after_slash_refuted : again [el (B "a") (B "x/"); Elem (B "b") [] []] = Document [el (B "a") (B "x/b")].
Proof. reflexivity. Qed.
Print Assumptions C27_element_after_slash_refuted.
(** The same for an entity after an equals sign, a comment and an attribute. *)
Theorem C27_entity_after_equals_refuted : again [el (B "a") (B "x="); Part (PRef (B "lt"))] = Document [el (B "a") (B "x=&lt;")].
Proof. reflexivity. Qed.
Print Assumptions C27_entity_after_equals_refuted.
Theorem C27_comment_after_semicolon_refuted : again [el (B "a") (B "x;"); Comment (B "hi")] = Document [el (B "a") (B "x;/*hi*/")].
Proof. reflexivity. Qed.
Print Assumptions C27_comment_after_semicolon_refuted.
Theorem C27_attribute_after_semicolon_refuted :
  again [Elem (B "a") [(B "x", [PText (B "1;")]); (B "y", [])] []] = Document [Elem (B "a") [(B "x", [PText (B "1;y")])] []].
Proof. reflexivity. Qed.
Print Assumptions C27_attribute_after_semicolon_refuted.
(** The value of an attribute that starts with an empty text is lost. *)
Theorem C27_empty_text_first_refuted :
  again [Elem (B "a") [(B "x", [PText []; PRef (B "lt")])] []] = Document [Elem (B "a") [(B "x", [])] []].
Proof. reflexivity. Qed.
Print Assumptions C27_empty_text_first_refuted.
(** A comment with an end of a comment inside is an error. *)
Theorem C27_comment_end_inside_refuted : exists e, again [Comment (B "a*/b")] = Error e.
Proof. now eexists. Qed.
Print Assumptions C27_comment_end_inside_refuted.
(** A space at the start, and a newline at the end, of a comment are lost. *)
Theorem C27_comment_space_refuted : again [Comment (B " a")] = Document [Comment (B "a")].
Proof. reflexivity. Qed.
Print Assumptions C27_comment_space_refuted.
Theorem C27_comment_newline_refuted : again [Comment (B "a" ++ [cNL])] = Document [Comment (B "a")].
Proof. reflexivity. Qed.
Print Assumptions C27_comment_newline_refuted.
(** A text of quotes only, and one with three quotes. *)
Theorem C27_only_quotes_refuted : again [el (B "a") (B "''")] = Document [Elem (B "a") [] [Part (PRef (B "apos")); Part (PRef (B "apos"))]].
Proof. reflexivity. Qed.
Print Assumptions C27_only_quotes_refuted.
Theorem C27_three_quotes_refuted : again [el (B "a") (B "  x'''y")] = Document [el (B "a") (B "x'''y")].
Proof. reflexivity. Qed.
Print Assumptions C27_three_quotes_refuted.
(** A continuation byte of utf8 after a space or tab, in a text and in a comment. *)
Theorem C27_stray_byte_refuted : again [el (B "a") (B "x " ++ [0x80] ++ B "y")] = Document [el (B "a") (B "x y")].
Proof. reflexivity. Qed.
Print Assumptions C27_stray_byte_refuted.
Theorem C27_stray_byte_comment_refuted : again [Comment ([cTAB; 0x80] ++ B "y")] = Document [Comment (cTAB :: B "y")].
Proof. reflexivity. Qed.
Print Assumptions C27_stray_byte_comment_refuted.
(** The document of one empty element called true is taken for json. *)
Theorem C27_json_word_refuted : exists e, again [Elem (B "true") [] []] = Error e.
Proof. now eexists. Qed.
Print Assumptions C27_json_word_refuted.

(** C30: compact output is one line, if no text has three quotes in a row, and
    no name of an element, attribute, entity or processing instruction has a
    newline (those that the parser creates have none). *)
Theorem C30_single_line_partial : forall C d,
  compact_cfg C -> d <> [] -> Forall node_line d ->
  exists line, fst (print_doc C d) = line ++ [cNL] /\ ~ In cNL line.
Proof. intros C d HC. now apply compact_line. Qed.
Print Assumptions C30_single_line_partial.
Example C30_example : Forall node_line sample /\ sample <> [].
Proof.
  assert (N : forall b, existsb (fun c => c =? cNL) b = false -> no_nl b).
  { intros b H I. assert (X : existsb (fun c => c =? cNL) b = true) by (apply existsb_exists; exists cNL; auto). congruence. }
  split; [|discriminate]. unfold sample. repeat first [apply Forall_cons|apply Forall_nil].
  - split; [now apply N|now apply not_few_split].
  - cbn [node_line]. repeat split; try (now apply N); try (now apply not_few_split);
    repeat first [apply Forall_cons|apply Forall_nil]; split; cbn [fst snd]; try (now apply N);
    repeat first [apply Forall_cons|apply Forall_nil]; first [now apply N|now apply not_few_split].
Qed.
(** Three quotes inside of a text are written as a quote on several lines. *)
Theorem C30_three_quotes_refuted : fst (print_doc sample_cfg [el (B "a") (B "x'''y")])
  = B "a=''''" ++ [cNL] ++ B "  x'''y" ++ [cNL] ++ B "  ''''" ++ [cNL].
Proof. reflexivity. Qed.
Print Assumptions C30_three_quotes_refuted.
