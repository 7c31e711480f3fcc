(** Properties C37, C39 and C46: what a source means.

    [parse_buffer fuel root src aft] is xmqParseBuffer on the bytes [src]
    followed in memory by [aft], with the implicit root [root].  The meaning of
    a source is given by the grammar [denotes] of Grammar.v. *)
From Coq Require Import NArith ZArith List Bool Arith Lia String.
From Verif Require Import Bytes BytesFacts Utf8Proofs QuoteSpec Parser ParserSpec Detect Dom Grammar LexProofs BuildProofs GrammarProofs RootProofs DetectGrammar.
Import ListNotations.
Local Open Scope N_scope.

(** C46: a source that denotes a document is read as that document, unless it
    is a single json word (a source that denotes one empty element called true,
    false or null). *)
Theorem C46_source_read_as_denoted : forall src d aft,
  denotes src d -> (forall w, In w [B "true"; B "false"; B "null"] -> d <> [Elem w [] []]) ->
  parse_buffer (enough src) None src (0 :: aft) = Document d.
Proof. intros src d aft H N. apply denotes_parse; auto. intros (w & I & E). now apply (N w). Qed.
Print Assumptions C46_source_read_as_denoted.
(** Those are refused: they are taken for json. *)
Theorem C46_json_word_is_refused : exists e, denotes (B "true") [Elem (B "true") [] []] /\ parse_buffer 50 None (B "true") [0] = Error e.
Proof. eexists. split; [|reflexivity]. apply (word_denotes [] (B "true") []); [now left|now left|now left]. Qed.
Print Assumptions C46_json_word_is_refused.

(** The meaning of a source is unique. *)
Theorem C46_meaning_is_unique : forall src d d', denotes src d -> denotes src d' -> d = d'.
Proof. exact denotes_unique. Qed.
Print Assumptions C46_meaning_is_unique.

Ltac no_white := let H := fresh in intros H; inversion H; subst; try discriminate.
Ltac no_start := let H := fresh in intros (? & ? & H & ?); try discriminate H; injection H as <- <-; discriminate.
Ltac not_in := let I := fresh in intros I; repeat (destruct I as [I|I]; [discriminate I|]); destruct I.
Ltac a_gap := split; [first [left; reflexivity | right; eexists _, _; split; [reflexivity|split; [reflexivity|constructor]]]|no_white].
Example denoted : denotes (B "a (b=1) { 'x  y' c = &lt; }")
  [Elem (B "a") [(B "b", [PText (B "1")])] [Part (PText (B "x  y")); Elem (B "c") [] [Part (PRef (B "lt"))]]].
Proof.
  exists [], (B "a (b=1) { 'x  y' c = &lt; }"). eexists. split; [reflexivity|]. split; [a_gap|]. split.
  - change (B "a (b=1) { 'x  y' c = &lt; }") with
      (B "a (b=1)" ++ B " " ++ [cLB] ++ B " " ++ B "'x  y' c = &lt; " ++ [cRB] ++ [] ++ []).
    apply s_body with (n := B "a") (l := [(B "b", [PText (B "1")])])
      (kb := [Part (PText (B "x  y")); Elem (B "c") [] [Part (PRef (B "lt"))]]) (ks := []).
    + change (B "a (b=1)") with (B "a" ++ B " " ++ [cLP] ++ [] ++ B "b=1" ++ [cRP]).
      apply h_attrs; [|a_gap|a_gap|].
      * split; [now eexists _, _|]. split; [reflexivity|]. intros [H|[]]; discriminate H.
      * change (B "b=1") with (B "b=1" ++ [] ++ []). constructor; [|a_gap|constructor; now eexists _, _].
        change (B "b=1") with (B "b" ++ B "=1"). apply at_value.
        -- split; [split; [discriminate|reflexivity]|]. split; [intros [H|[]]; discriminate H|discriminate].
        -- change (B "=1") with ([] ++ [cEQ] ++ [] ++ B "1"). constructor; [a_gap|a_gap|]. constructor.
           split; [discriminate|]. split; [intros [H|[]]; discriminate H|]. split; [|split].
           ++ intros [H|(r & [H|H])]; [revert H; no_start|discriminate H|discriminate H].
           ++ right. right. now eexists _, _.
           ++ intros x y Hx Hy. destruct x as [|c x]; [|destruct x, y; discriminate || congruence].
              cbn [app] in Hx. subst y. intros [H|[H|H]]; [discriminate H|revert H; no_white|revert H; no_start].
    + a_gap.
    + a_gap.
    + change (B "'x  y' c = &lt; ") with (B "'x  y'" ++ B " " ++ B "c = &lt; "). apply s_flat with (x := Part (PText (B "x  y"))).
      * apply f_piece, pc_quote. change (PText (B "x  y")) with (PText (text_block 0 (B "x  y"))).
        change (B "x  y") with (text_block (column (B "a (b=1) { ") + 1) (B "x  y")).
        change (B "'x  y'") with (rep cQ 1 ++ B "x  y" ++ rep cQ 1). apply q_text; try lia.
        -- split; [discriminate|]. split; [no_start|]. split; [no_start|]. intros x k y E.
           destruct k as [|k]; [lia|]. exfalso. assert (I : In cQ (B "x  y")) by (rewrite E; apply in_or_app; right; now left).
           revert I. not_in.
        -- split; not_in.
        -- no_start.
      * a_gap.
      * change (B "c = &lt; ") with ((B "c" ++ B " = &lt;") ++ B " " ++ []). apply s_flat with (x := Elem (B "c") [] (map Part [PRef (B "lt")])).
        -- apply f_value.
           ++ apply h_plain; [|no_start]. split; [now eexists _, _|]. split; [reflexivity|]. intros [H|[]]; discriminate H.
           ++ change (B " = &lt;") with (B " " ++ [cEQ] ++ B " " ++ B "&lt;"). constructor; [a_gap|a_gap|].
              apply v_piece, pc_entity. change (B "&lt;") with (cAMP :: B "lt" ++ [cSEMI]). constructor; [split; [discriminate|reflexivity]|no_start].
        -- a_gap.
        -- constructor. right. now eexists _, _.
    + a_gap.
    + constructor. now left.
  - reflexivity.
Qed.

Example C46_example : parse_buffer (enough (B "a (b=1) { 'x  y' c = &lt; }")) None (B "a (b=1) { 'x  y' c = &lt; }") [0]
  = Document [Elem (B "a") [(B "b", [PText (B "1")])] [Part (PText (B "x  y")); Elem (B "c") [] [Part (PRef (B "lt"))]]].
Proof. apply C46_source_read_as_denoted; [apply denoted|]. intros w _. discriminate. Qed.

(** C37: an entity with a decimal or hexadecimal number is read as the text that
    holds that character: as the value of an element, as the value of an
    attribute and as content.  ([entity] is the part of the grammar for
    entities, so C46 says the same for every other place.)  Missing: numbers
    beyond 0x10ffff, see below. *)
Lemma name_a : element_name (B "a").
Proof. split; [now eexists _, _|]. split; [reflexivity|]. intros [H|[]]; discriminate H. Qed.
Lemma name_b : attr_name (B "b").
Proof. split; [split; [discriminate|reflexivity]|]. split; [intros [H|[]]; discriminate H|discriminate]. Qed.
Lemma entity_amp e p : entity e p -> exists r, e = cAMP :: r.
Proof. intros []; eauto. Qed.
Lemma entity_value e p pre z : entity e p -> assigned pre ([cEQ] ++ e) z [p].
Proof.
  intros H. destruct (entity_amp _ _ H) as (r & Er). change ([cEQ] ++ e) with ([] ++ [cEQ] ++ [] ++ e).
  constructor; [a_gap|rewrite Er; a_gap|]. now apply v_piece, pc_entity.
Qed.
Theorem C37_character_entity_partial : forall e u aft,
  entity e (PText (utf8_spec u)) ->
  let parse s := parse_buffer (enough s) None s (0 :: aft) in
  parse (B "a=" ++ e) = Document [Elem (B "a") [] [Part (PText (utf8_spec u))]]
  /\ parse (B "a(b=" ++ e ++ B ")") = Document [Elem (B "a") [(B "b", [PText (utf8_spec u)])] []]
  /\ parse (B "a{" ++ e ++ B "}") = Document [Elem (B "a") [] [Part (PText (utf8_spec u))]].
Proof.
  intros e u aft H parse. subst parse. cbn beta. set (p := PText (utf8_spec u)) in *.
  destruct (entity_amp _ _ H) as (r & Er).
  split; [|split]; apply C46_source_read_as_denoted; try (intros w _; discriminate).
  - exists [], (B "a=" ++ e), [Elem (B "a") [] (map Part [p])]. split; [reflexivity|]. split; [a_gap|]. split; [|reflexivity].
    replace (B "a=" ++ e) with ((B "a" ++ [cEQ] ++ e) ++ [] ++ []) by (now rewrite app_nil_r).
    constructor; [|a_gap|constructor; now left].
    apply f_value; [apply h_plain; [apply name_a|no_start]|]. now apply entity_value.
  - exists [], (B "a(b=" ++ e ++ B ")"), [Elem (B "a") [(B "b", [p])] []]. split; [reflexivity|]. split; [a_gap|]. split; [|reflexivity].
    replace (B "a(b=" ++ e ++ B ")") with ((B "a(b=" ++ e ++ B ")") ++ [] ++ []) by (now rewrite app_nil_r).
    constructor; [|a_gap|constructor; now left]. apply f_leaf; [|no_start].
    replace (B "a(b=" ++ e ++ B ")") with (B "a" ++ [] ++ [cLP] ++ [] ++ ((B "b" ++ [cEQ] ++ e) ++ [] ++ []) ++ [cRP]) by (now rewrite app_nil_r).
    apply h_attrs; [apply name_a|a_gap|a_gap|]. constructor; [|a_gap|constructor; now eexists _, _].
    apply at_value; [apply name_b|]. now apply entity_value.
  - exists [], (B "a{" ++ e ++ B "}"), [Elem (B "a") [] (merge_nodes [Part p])]. split; [reflexivity|]. split; [a_gap|]. split; [|reflexivity].
    replace (B "a{" ++ e ++ B "}") with (B "a" ++ [] ++ [cLB] ++ [] ++ (e ++ [] ++ []) ++ [cRB] ++ [] ++ []) by (now rewrite app_nil_r).
    apply s_body; [apply h_plain; [apply name_a|no_start]|a_gap|rewrite Er; a_gap| |a_gap|constructor; now left].
    constructor; [now apply f_piece, pc_entity|a_gap|constructor; right; now eexists _, _].
Qed.
Print Assumptions C37_character_entity_partial.
(** U+20AC in decimal and in hexadecimal. *)
Example C37_example : entity (B "&#8364;") (PText (utf8_spec 0x20ac)) /\ entity (B "&#x20Ac;") (PText (utf8_spec 0x20ac)).
Proof.
  split.
  - now apply (e_dec (B "8364")).
  - now apply (e_hex (B "20Ac")).
Qed.
(** The number wraps around: this denotes no character but is read as A. *)
Theorem C37_number_wraps_refuted : exists n u,
  number 10 dec_digit n 0 = Some u /\ 0x10ffff < u /\
  let src := B "a=&#" ++ n ++ [cSEMI] in
  parse_buffer (enough src) None src [0] = Document [Elem (B "a") [] [Part (PText (B "A"))]].
Proof. exists (B "4294967361"). eexists. split; [reflexivity|]. split; reflexivity. Qed.
Print Assumptions C37_number_wraps_refuted.
(** The first number after the last character aborts the program. *)
Theorem C37_number_too_large_aborts_refuted : exists n u,
  number 10 dec_digit n 0 = Some u /\ u = 0x110000 /\
  let src := B "a=&#" ++ n ++ [cSEMI] in parse_buffer (enough src) None src [0] = Aborts.
Proof. exists (B "1114112"). eexists. split; [reflexivity|]. split; reflexivity. Qed.
Print Assumptions C37_number_too_large_aborts_refuted.

(** C39: reading with the implicit root r gives the document read without it,
    with a root element added ([with_root]): if the first node, apart from
    processing instructions and doctypes, is an element with another name, then
    all nodes from there on are below one element r. *)
Theorem C39_implicit_root_partial : forall fuel r src aft d,
  parse_buffer fuel None src aft = Document d ->
  parse_buffer fuel (Some r) src aft = Document (with_root r d).
Proof. intros. now apply parse_with_root. Qed.
Print Assumptions C39_implicit_root_partial.
(** One top element with the requested name. *)
Theorem C39_one_top_element_partial : forall fuel r src aft n a k d,
  parse_buffer fuel None src aft = Document (Elem n a k :: d) -> n <> r ->
  parse_buffer fuel (Some r) src aft = Document [Elem r [] (Elem n a k :: d)].
Proof.
  intros fuel r src aft n a k d E Hn. rewrite (parse_with_root _ r _ _ _ E). cbn. now rewrite (proj2 (beq_neq n r) Hn).
Qed.
Print Assumptions C39_one_top_element_partial.
Example C39_example : parse_buffer 50 (Some (B "config")) (B "alfa=1 beta{x y}") [0]
  = Document [Elem (B "config") [] [Elem (B "alfa") [] [Part (PText (B "1"))]; Elem (B "beta") [] [Elem (B "x") [] []; Elem (B "y") [] []]]].
Proof. apply C39_one_top_element_partial; [reflexivity|discriminate]. Qed.
(** Missing: a first element that has the name of the root hides the missing
    root, and a comment or text before the first element switches the implicit
    root off. *)
Theorem C39_second_element_refuted :
  parse_buffer 50 (Some (B "config")) (B "config=1 other=2") [0]
  = Document [Elem (B "config") [] [Part (PText (B "1"))]; Elem (B "other") [] [Part (PText (B "2"))]].
Proof. reflexivity. Qed.
Print Assumptions C39_second_element_refuted.
Theorem C39_comment_first_refuted :
  parse_buffer 50 (Some (B "config")) (B "/*hello*/alfa=1 beta=2") [0]
  = Document [Comment (B "hello"); Elem (B "alfa") [] [Part (PText (B "1"))]; Elem (B "beta") [] [Part (PText (B "2"))]].
Proof. reflexivity. Qed.
Print Assumptions C39_comment_first_refuted.
