(** Property C48: log lines.

    [line_printf human_readable name f l] is xmqLinePrintf with the element
    name [name]; [f] is the text of a single format, [l] are the keys and the
    texts of their formats.  [parse_buffer] is xmqParseBuffer. *)
From Coq Require Import NArith List Bool Arith Lia String.
From Verif Require Import Bytes BytesFacts Outcome Parser ParserSpec Dom Printer Grammar GrammarProofs DetectGrammar PropsGrammar Compact Stray CompactProofs CompactDoc CompactLine PropsPrinter Line.
Import ListNotations.
Local Open Scope N_scope.

(** A key is given with an equals sign, a text was made by a format that fits
    the buffer. *)
Definition field (kv : bytes * bytes) : bytes * formatted := (fst kv ++ [cEQ], Fmt (snd kv) true).
Definition field_node (kv : bytes * bytes) : node := Elem (fst kv) [] [Part (PText (snd kv))].
Definition short (t : bytes) : Prop := N.of_nat (List.length t) < 1024.
Definition field_ok (kv : bytes * bytes) : Prop := element_name (fst kv) /\ quotable (snd kv) /\ short (snd kv).

Lemma format_short t : short t -> format line_buffer (Fmt t true) = Ok (t, line_buffer).
Proof. intros H. unfold format. cbn [f_text]. apply N.ltb_lt in H. unfold line_buffer. now rewrite H. Qed.

Lemma start_name c : is_xmq_element_start c = true -> is_xmq_text_name c = true.
Proof. unfold is_xmq_element_start, is_xmq_text_name. rewrite !orb_true_iff. tauto. Qed.
Lemma element_starts n r : element_name n -> starts is_xmq_element_start (n ++ r).
Proof. intros (H & _). now apply starts_app. Qed.
Lemma element_cons n : element_name n -> exists c r, n = c :: r /\ is_xmq_text_name c = true.
Proof. intros ((c & r & -> & H) & _). exists c, r. split; auto. now apply start_name. Qed.
Lemma name_no_nl n : element_name n -> ~ In cNL n.
Proof. intros (_ & F & _) I. rewrite forallb_forall in F. specialize (F cNL I). discriminate F. Qed.

(** Fields are nodes of the grammar. *)
Definition sep_of (mb : bytes) : bytes := if line_sep (List.last mb 0) then [cSP] else [].
Lemma fields_solid l : Forall field_ok l -> forall mb, exists w t,
  line_fields mb line_buffer (map field l) = Ok (mb ++ w ++ t)
  /\ ((l = [] /\ w = [] /\ t = []) \/ (l <> [] /\ w = sep_of mb /\ starts is_xmq_element_start t))
  /\ forall pre z, solids pre t ([cRB] ++ z) (map field_node l).
Proof.
  induction l as [|[k v] l IH]; intros F mb.
  - exists [], []. split; [cbn; now rewrite app_nil_r|]. split; [now left|]. intros pre z. constructor. right. now exists cRB, z.
  - inversion F as [|? ? (Hk & Hv & Hs) F']; subst. cbn [fst snd] in *.
    destruct (compact_quote_value v Hv) as (e & He & Hbare & Hval). set (q := compact_quote v) in *.
    destruct (IH F' ((mb ++ sep_of mb) ++ (k ++ [cEQ]) ++ q)) as (w2 & t2 & E & S2 & D).
    exists (sep_of mb), (k ++ [cEQ] ++ q ++ w2 ++ t2). split; [|split; [|]].
    + cbn [map]. unfold field at 1. cbn [fst snd line_fields]. destruct (element_cons k Hk) as (c & r & Ek & Hc).
      rewrite Ek at 1. cbn [app]. destruct (N.eqb_spec c cRB) as [->|_]; [discriminate Hc|]. rewrite last_last, N.eqb_refl. cbn [negb].
      rewrite format_short by auto. cbn [obind]. fold q. fold (sep_of mb). rewrite E. f_equal. now rewrite <- !app_assoc.
    + right. split; [discriminate|]. split; [reflexivity|]. now apply element_starts.
    + intros pre z. cbn [map]. unfold field_node at 1. cbn [fst snd].
      assert (A : after e w2 (t2 ++ [cRB] ++ z)).
      { destruct He as [<-|[<-|[<-|[]]]]; cbn [after]; auto.
        - destruct S2 as [(-> & -> & ->)|(_ & -> & (c & r & -> & Hc))]; [no_start|]. unfold sep_of. destruct (line_sep _); [no_start|].
          cbn [app]. rewrite starts_cons. unfold is. intros X. apply N.eqb_eq in X. subst c. discriminate Hc.
        - right. destruct S2 as [(-> & -> & ->)|(_ & -> & _)]; [now exists cRB, z|].
          destruct (Hbare eq_refl) as (Eq & Hb). pose proof (last_bare v Hb) as L. unfold sep_of.
          assert (X : List.last ((mb ++ sep_of mb) ++ (k ++ [cEQ]) ++ q) 0 = List.last v 0).
          { destruct Hb as (Hne & _). rewrite Eq. destruct (exists_last Hne) as (x & d & ->). now rewrite !app_assoc, !last_last. }
          fold (sep_of mb). rewrite X. assert (Y : line_sep (List.last v 0) = true).
          { unfold line_sep, among. apply negb_true_iff. apply not_true_is_false. intros T. apply existsb_exists in T as (d & I & Ed). apply N.eqb_eq in Ed.
            apply L. rewrite Ed. cbn in I |- *. tauto. }
          rewrite Y. eexists cSP, _. split; [reflexivity|reflexivity]. }
      destruct (Hval (pre ++ k ++ [] ++ [cEQ] ++ []) w2 (t2 ++ [cRB] ++ z) A) as (V & W).
      replace (k ++ [cEQ] ++ q ++ w2 ++ t2) with ((k ++ [] ++ [cEQ] ++ [] ++ q) ++ w2 ++ t2) by now rewrite <- !app_assoc.
      constructor.
      * apply (f_value pre k ([] ++ [cEQ] ++ [] ++ q) w2 (t2 ++ [cRB] ++ z) k [] [PText v]).
        -- apply h_plain; [exact Hk|]. no_start.
        -- constructor; [a_gap|split; [now left|exact W]|]. now rewrite <- app_assoc.
      * split.
        -- destruct S2 as [(_ & -> & _)|(_ & -> & _)]; [now left|]. unfold sep_of. destruct (line_sep _); [right|now left]. exists cSP, []. split; [reflexivity|]. split; [reflexivity|constructor].
        -- destruct S2 as [(_ & _ & ->)|(_ & _ & S2)]; [apply solid_ascii; reflexivity|]. apply name_solid. apply starts_app. destruct S2 as (c & r & -> & Hc). exists c, r. split; auto. now apply start_name.
      * apply D.
Qed.
Lemma merge_fields l : merge_nodes (map field_node l) = map field_node l.
Proof. induction l as [|[k v] l IH]; [reflexivity|]. cbn. f_equal. exact IH. Qed.

(** C48: a line with fields is read as an element with one child for each
    field, in order.  Missing: values that xmqCompactQuote does not restore
    (C26) and values that do not fit the buffer, see the refutations. *)
Theorem C48_fields_read_back_partial : forall name kvs f aft,
  element_name name -> Forall field_ok kvs ->
  exists o, line_printf false (name ++ [cLB]) f (map field kvs) = Ok o
  /\ parse_buffer (enough o) None o (0 :: aft) = Document [Elem name [] (map field_node kvs)].
Proof.
  intros n l f aft Hn F. destruct (fields_solid l F (n ++ [cLB])) as (w & t & E & S & D).
  exists (n ++ [cLB] ++ t ++ [cRB]). split.
  - unfold line_printf, line_xmq. destruct (n ++ [cLB]) as [|c r] eqn:En; [destruct n; discriminate En|]. rewrite <- En in *.
    rewrite last_last, N.eqb_refl. cbn [negb]. rewrite E. cbn [obind]. f_equal.
    assert (X : w = []). { destruct S as [(_ & -> & _)|(_ & -> & _)]; [reflexivity|]. unfold sep_of. now rewrite last_last. }
    rewrite X. cbn [app]. now rewrite <- !app_assoc.
  - assert (Dn : denotes (n ++ [cLB] ++ t ++ [cRB]) [Elem n [] (map field_node l)]).
    { exists [], (n ++ [cLB] ++ t ++ [cRB]), [Elem n [] (map field_node l)]. split; [reflexivity|]. split; [|split; [|reflexivity]].
      - split; [now left|]. apply name_solid. destruct (element_cons n Hn) as (c & r & -> & Hc). now exists c, (r ++ [cLB] ++ t ++ [cRB]).
      - rewrite <- (merge_fields l). replace (n ++ [cLB] ++ t ++ [cRB]) with (n ++ [] ++ [cLB] ++ [] ++ t ++ [cRB] ++ [] ++ []) by reflexivity.
        apply s_body.
        + apply h_plain; [exact Hn|no_start].
        + a_gap.
        + split; [now left|]. destruct S as [(_ & _ & ->)|(_ & _ & S)]; [apply solid_ascii; reflexivity|]. apply name_solid. apply starts_app. destruct S as (c & r & -> & Hc). exists c, r. split; auto. now apply start_name.
        + apply D.
        + a_gap.
        + constructor. now left. }
    destruct l as [|kv l].
    + apply denotes_parses; [exact Dn|]. destruct S as [(_ & _ & ->)|(S & _)]; [|congruence].
      destruct (in_dec (list_eq_dec N.eq_dec) n json_words) as [J|J].
      * destruct J as [<-|[<-|[<-|[]]]]; reflexivity.
      * apply (denotes_detected _ _ aft Dn). intros (v & Hv & Ev). injection Ev as ->. contradiction.
    + apply denotes_parse; [exact Dn|]. intros (v & _ & Ev). discriminate Ev.
Qed.
Print Assumptions C48_fields_read_back_partial.

(** C48: a line with one text. *)
Theorem C48_single_text_read_back_partial : forall name v l aft,
  element_name name -> quotable v -> short v ->
  exists o, line_printf false (name ++ [cEQ]) (Fmt v true) l = Ok o
  /\ parse_buffer (enough o) None o (0 :: aft) = Document [Elem name [] [Part (PText v)]].
Proof.
  intros n v l aft Hn Hv Hs. exists ((n ++ [cEQ]) ++ compact_quote v). split.
  - unfold line_printf, line_xmq. destruct (n ++ [cEQ]) as [|c r] eqn:En; [destruct n; discriminate En|]. rewrite <- En in *.
    rewrite last_last. change (cEQ =? cLB) with false. cbn [negb]. rewrite format_short by auto. reflexivity.
  - destruct (compact_quote_value v Hv) as (e & He & _ & Hval). set (q := compact_quote v) in *.
    destruct (Hval ([] ++ n ++ [] ++ [cEQ] ++ []) [] []) as (V & W).
    { destruct He as [<-|[<-|[<-|[]]]]; cbn [after]; auto. no_start. }
    apply denotes_parse; [|intros (x & _ & Ev); discriminate Ev].
    exists [], ((n ++ [cEQ]) ++ q), [Elem n [] (map Part [PText v])]. split; [reflexivity|]. split; [|split; [|reflexivity]].
    + split; [now left|]. apply name_solid. destruct (element_cons n Hn) as (c & r & -> & Hc). now exists c, ((r ++ [cEQ]) ++ q).
    + replace ((n ++ [cEQ]) ++ q) with ((n ++ [] ++ [cEQ] ++ [] ++ q) ++ [] ++ []) by now rewrite app_nil_r, <- !app_assoc.
      constructor; [|a_gap|constructor; now left].
      apply f_value; [apply h_plain; [exact Hn|no_start]|]. constructor; [a_gap|split; [now left|exact W]|exact V].
Qed.
Print Assumptions C48_single_text_read_back_partial.
(** C48: without a brace or equals sign the name is the text. *)
Theorem C48_log_read_back_partial : forall name v a l aft,
  name <> [] -> List.last name 0 <> cLB -> List.last name 0 <> cEQ -> quotable v -> short v ->
  exists o, line_printf false name (Fmt v a) l = Ok o
  /\ parse_buffer (enough o) None o (0 :: aft) = Document [Elem (B "log") [] [Part (PText v)]].
Proof.
  intros n v a l aft Hn H1 H2 Hv Hs. destruct (C48_single_text_read_back_partial (B "log") v l aft) as (o & E & P); auto.
  { split; [now eexists _, _|]. split; [reflexivity|not_in]. }
  exists o. split; [|exact P]. rewrite <- E. unfold line_printf, line_xmq. destruct n as [|c r]; [congruence|].
  apply N.eqb_neq in H1, H2. rewrite H1, H2. cbn [negb app B]. cbn [List.last]. change (cEQ =? cLB) with false. cbn [negb].
  unfold format. cbn [f_text]. apply N.ltb_lt in Hs. unfold line_buffer. now rewrite Hs.
Qed.
Print Assumptions C48_log_read_back_partial.

(** C48: a line has no newline, for all values, if there is none in the element
    name and the keys. *)
Lemma compact_no_nl s : ~ In cNL (compact_quote s).
Proof. unfold compact_quote. intros I. apply filter_In in I as (_ & I). discriminate I. Qed.
Theorem C48_one_line : forall name f l o,
  ~ In cNL name -> Forall (fun kf => ~ In cNL (fst kf)) l ->
  line_printf false name f l = Ok o -> ~ In cNL o.
Proof.
  intros n f l o Hn F. unfold line_printf, line_xmq. destruct n as [|c r] eqn:En; [discriminate|]. rewrite <- En in *. clear c r En.
  destruct (negb (List.last n 0 =? cLB)).
  - unfold format. destruct (_ <? _); [|destruct (f_args f); [discriminate|]]; cbn [obind]; intros E; injection E as <-; intros I;
      apply in_app_or in I as [I|I]; try (now apply compact_no_nl in I); destruct (negb _); auto; revert I; not_in.
  - assert (X : forall l, Forall (fun kf => ~ In cNL (fst kf)) l -> forall mb size o, ~ In cNL mb -> line_fields mb size l = Ok o -> ~ In cNL o).
    { clear. induction l as [|[k f] l IH]; intros F mb size o Hmb; cbn [line_fields]; [intros E; now injection E as <-|].
      inversion F as [|? ? Hk F']; subst. cbn [fst] in Hk. destruct k as [|c k0] eqn:Ek; [discriminate|]. rewrite <- Ek in *. destruct (c =? cRB); [intros E; now injection E as <-|].
      assert (H2 : ~ In cNL (mb ++ (if line_sep (List.last mb 0) then [cSP] else []))).
      { intros I. apply in_app_or in I as [I|I]; [contradiction|]. destruct (line_sep _); [destruct I as [I|[]]; discriminate I|destruct I]. }
      destruct (negb _); [intros E; now injection E as <-|].
      destruct (format size f) as [[t size']| | | |]; try discriminate. cbn [obind]. apply IH; auto.
      intros I. rewrite !in_app_iff in I. destruct I as [I|[I|I]]; [now apply H2, in_app_iff|contradiction|now apply compact_no_nl in I]. }
    destruct (line_fields n line_buffer l) as [mb| | | |] eqn:E; try discriminate. cbn [obind]. intros E2. injection E2 as <-.
    intros I. apply in_app_or in I as [I|I]; [revert I; eapply X; eauto|]. revert I. not_in.
Qed.
Print Assumptions C48_one_line.

(** The example of xmq.h, with a description of two lines. *)
Definition car : list (bytes * bytes) :=
  [(B "model", B "Volvo"); (B "id", B "123"); (B "description", B "desc: lines of" ++ [cNL] ++ B "next line"); (B "x", B "a b"); (B "y", [])].
Example C48_example :
  (element_name (B "car") /\ Forall field_ok car) /\
  line_printf false (B "car{") (Fmt [] false) (map field car)
  = Ok (B "car{model=Volvo id=123 description=('desc: lines of'&#10;'next line')x='a b'y=''}").
Proof.
  split; [split|reflexivity].
  - split; [now eexists _, _|]. split; [reflexivity|not_in].
  - assert (Q : forall s, ~ In 0 s -> no_strayb false s = true -> few_quotes s -> s <> [] -> existsb (fun c => negb (one_of [cQ; cTAB; cSP] c)) s = true -> quotable s).
    { intros s H1 H1' H2 H3 H4. apply existsb_exists in H4 as (c & I & Hc). apply negb_true_iff in Hc. split; auto. split; [now apply (no_strayb_spec _ false)|]. split; auto. split.
      - right. exists c. split; auto. intros ->. discriminate Hc.
      - intros (_ & _ & H). destruct (H c I) as [-> | ->]; discriminate Hc. }
    assert (Q0 : quotable []).
    { split; [not_in|]. split; [apply no_stray_nil|]. split; [intros x y H; destruct x; discriminate H|]. split; [now left|]. intros (H & _). inversion H. }
    assert (N : forall n, starts is_xmq_element_start n -> forallb is_xmq_text_name n = true -> forallb (fun c => negb (c =? cCOLON)) n = true -> element_name n).
    { intros n H1 H2 H3. split; auto. split; auto. intros I. rewrite forallb_forall in H3. specialize (H3 _ I). discriminate H3. }
    unfold car. repeat (apply Forall_cons; [split; [apply N; [now eexists _, _|reflexivity|reflexivity]|split; [|reflexivity]]|]); try apply Forall_nil;
      first [exact Q0 | apply Q; [not_in|reflexivity|now apply not_few_split|discriminate|reflexivity]].
Qed.

(** Refuted: a text of 1024 bytes is formatted a second time with arguments
    that are used up. *)
Theorem C48_long_text_refuted : exists v, List.length v = 1024%nat /\ quotable v /\
  line_printf false (B "a=") (Fmt v true) [] = UB.
Proof.
  exists (rep 97 1024). split; [reflexivity|]. split; [|reflexivity].
  split; [intros I; apply repeat_spec in I; discriminate I|]. split; [apply no_blank_stray; intros I; apply repeat_spec in I; discriminate I|]. split; [|split].
  - intros x y E. assert (I : In cQ (rep 97 1024)). { rewrite E, in_app_iff. right. now left. } apply repeat_spec in I. discriminate I.
  - right. exists 97. split; [now left|discriminate].
  - intros (_ & I & _). apply repeat_spec in I. discriminate I.
Qed.
Print Assumptions C48_long_text_refuted.
(** Refuted: a text of quotes only is read back as something else, two tabs
    become two nodes. *)
Theorem C48_quotes_refuted : exists o, line_printf false (B "a{") (Fmt [] false) [field (B "b", B "'")] = Ok o
  /\ parse_buffer (enough o) None o [0] = Document [Elem (B "a") [] [Elem (B "b") [] [Part (PRef (B "apos"))]]].
Proof. eexists. split; [reflexivity|]. vm_compute. reflexivity. Qed.
Print Assumptions C48_quotes_refuted.
(** Refuted for human readable lines: newlines are kept, the brace is shown, and
    there is nothing between the fields, so that different fields give the same
    line. *)
Theorem C48_human_readable_refuted :
  line_printf true (B "a{") (Fmt [] false) [field (B "b", B "1"); field (B "c", B "2")] = Ok (B "(a{) b:1c:2")
  /\ line_printf true (B "a{") (Fmt [] false) [field (B "b", B "1c:2")] = Ok (B "(a{) b:1c:2")
  /\ exists v o, line_printf true (B "a=") (Fmt v true) [] = Ok o /\ In cNL o.
Proof. split; [reflexivity|]. split; [reflexivity|]. exists [cNL]. eexists. split; [reflexivity|]. cbn. tauto. Qed.
Print Assumptions C48_human_readable_refuted.
