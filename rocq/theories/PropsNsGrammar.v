(** Property C58: what a source with namespaces means.

    [nparse_buffer fuel root src aft] is xmqParseBuffer on the bytes [src]
    followed in memory by [aft] (NsDom.v).  [writes_down src d] says that the text
    is the written form d, [means [] x v] what a written node means, and
    [well_scoped d] which documents are covered (NsGrammar.v). *)
From Coq Require Import NArith ZArith List Bool Arith Lia String Permutation.
From Verif Require Import Bytes BytesFacts QuoteSpec Parser ParserSpec Detect Dom NsDom NsSpec Grammar NsGrammar
  LexProofs GrammarProofs DetectGrammar NsDetect NsReads NsEffect NsMeans PropsGrammar PropsNs.
Import ListNotations.
Local Open Scope N_scope.

(** A source with namespaces is read as the document it means: every element and
    attribute has the name and prefix that is written, the URI of the declaration
    that is in scope, the attributes in order, the declarations in any order, and
    the content that is written.  Missing: documents that declare a prefix inside
    of the scope of the same prefix, that declare a default namespace below the
    root or an empty one, or that use a prefix that is not declared; see below. *)
Theorem C58_source_read_as_written_partial : forall src d aft,
  writes_down src d -> well_scoped d ->
  (forall w, In w [B "true"; B "false"; B "null"] -> d <> [WElem None w [] []]) ->
  exists v, nparse_buffer (enough src) None src (0 :: aft) = NDocument v /\ Forall2 (means []) d v.
Proof.
  intros src d aft H S N. apply written_read; auto. eapply writes_down_detected; [exact H|]. intros (w & I & E). now apply (N w).
Qed.
Print Assumptions C58_source_read_as_written_partial.

(** Every text of the grammar without namespaces is one of this grammar. *)
Theorem C58_extends_the_plain_grammar : forall src d, denotes src d -> writes_down src (map without d).
Proof. exact denotes_writes_down. Qed.
Print Assumptions C58_extends_the_plain_grammar.

(** ** Examples *)
Ltac a_bare := split; [discriminate|]; split; [not_in|]; split; [|split];
  [ let H := fresh in intros [H|(? & [H|H])]; [revert H; no_start|discriminate H|discriminate H]
  | first [left; reflexivity | right; left; constructor; fail | right; left; now constructor | right; right; now eexists _, _]
  | let x := fresh "x" in let y := fresh "y" in let Hx := fresh in let Hy := fresh in
    intros x y Hx Hy; destruct x as [|? x]; [|destruct x, y; discriminate || congruence];
    cbn [app] in Hx; subst y; let H := fresh in intros [H|[H|H]]; [discriminate H|revert H; no_white|revert H; no_start] ].
Ltac a_ename := split; [now eexists _, _|]; split; [reflexivity|not_in].
Ltac an_aname := split; [split; [discriminate|reflexivity]|]; split; [not_in|discriminate].
Ltac a_lname := split; [split; [discriminate|reflexivity]|not_in].

Definition spaced : bytes := B "x:a(xmlns:x=1 x:k=2){b x:c}".
Definition spaced_doc : list written :=
  [WElem (Some (B "x")) (B "a") [Declaration (Some (B "x")) (B "1"); Attribute (Some (B "x")) (B "k") [PText (B "2")]]
     [WElem None (B "b") [] []; WElem (Some (B "x")) (B "c") [] []]].
Example spaced_written : writes_down spaced spaced_doc.
Proof.
  exists [], spaced, spaced_doc. split; [reflexivity|]. split; [a_gap|]. split; [|reflexivity].
  change spaced with (B "x:a(xmlns:x=1 x:k=2)" ++ [] ++ [cLB] ++ [] ++ B "b x:c" ++ [cRB] ++ [] ++ []).
  apply ns_body with (p := Some (B "x")) (n := B "a")
    (l := [Declaration (Some (B "x")) (B "1"); Attribute (Some (B "x")) (B "k") [PText (B "2")]])
    (kb := [WElem None (B "b") [] []; WElem (Some (B "x")) (B "c") [] []]) (ks := []).
  - change (B "x:a(xmlns:x=1 x:k=2)") with (B "x:a" ++ [] ++ [cLP] ++ [] ++ B "xmlns:x=1 x:k=2" ++ [cRP]).
    apply nh_items; [|a_gap|a_gap|].
    + change (B "x:a") with (B "x" ++ cCOLON :: B "a"). constructor; [a_ename|a_lname].
    + change (B "xmlns:x=1 x:k=2") with (B "xmlns:x=1" ++ B " " ++ B "x:k=2"). apply es_cons; [|a_gap|].
      * change (B "xmlns:x=1") with (B "xmlns:x" ++ [] ++ [cEQ] ++ [] ++ B "1"). apply en_decl; [|a_gap|a_gap|].
        -- change (B "xmlns:x") with (B "xmlns:" ++ B "x"). constructor. a_lname.
        -- constructor. a_bare.
      * change (B "x:k=2") with (B "x:k=2" ++ [] ++ []). apply es_cons; [|a_gap|constructor; now eexists _, _].
        change (B "x:k=2") with (B "x:k" ++ B "=2"). apply en_value.
        -- change (B "x:k") with (B "x" ++ cCOLON :: B "k"). constructor; [an_aname|a_lname].
        -- change (B "=2") with ([] ++ [cEQ] ++ [] ++ B "2"). constructor; [a_gap|a_gap|]. constructor. a_bare.
  - a_gap.
  - a_gap.
  - change (B "b x:c") with (B "b" ++ B " " ++ B "x:c"). apply ns_flat; [|a_gap|].
    + apply nf_leaf; [|no_start]. apply nh_plain; [constructor; a_ename|no_start].
    + change (B "x:c") with (B "x:c" ++ [] ++ []). apply ns_flat; [|a_gap|].
      * apply nf_leaf; [|no_start]. apply nh_plain; [|no_start].
        change (B "x:c") with (B "x" ++ cCOLON :: B "c"). constructor; [a_ename|a_lname].
      * constructor. right. now eexists _, _.
  - a_gap.
  - constructor. now left.
Qed.
Lemma leaf_scoped known p n : is_known known p -> scoped known false (WElem p n [] []).
Proof. intros H. constructor; cbn; auto; constructor. Qed.
Example spaced_scoped : well_scoped spaced_doc.
Proof.
  exists true. split; [|cbn; lia]. constructor; [|constructor]. constructor; cbn.
  - constructor; [intros []|constructor].
  - constructor; [|constructor]. split; [discriminate|intros []].
  - discriminate.
  - intros [H|[]]. discriminate.
  - right. right. now left.
  - constructor; [|constructor]. right. right. now left.
  - constructor; [|constructor; [|constructor]].
    + apply leaf_scoped. now left.
    + apply leaf_scoped. right. right. now left.
Qed.

Definition spaced_read : list vnode :=
  [VElem (Some (B "x")) (Some (B "1")) (B "a") [Decl (Some (B "x")) (Some (B "1"))]
     [VAttr (Some (B "x")) (Some (B "1")) (B "k") [PText (B "2")]]
     [VElem None None (B "b") [] [] []; VElem (Some (B "x")) (Some (B "1")) (B "c") [] [] []]].
Example C58_example : nparse_buffer (enough spaced) None spaced [0] = NDocument spaced_read /\ Forall2 (means []) spaced_doc spaced_read.
Proof.
  destruct (C58_source_read_as_written_partial spaced spaced_doc [] spaced_written spaced_scoped) as (v & P & M).
  - intros w _. discriminate.
  - assert (E : nparse_buffer (enough spaced) None spaced [0] = NDocument spaced_read) by (vm_compute; reflexivity).
    split; [exact E|]. rewrite E in P. injection P as <-. exact M.
Qed.

(** ** Outside of the conditions *)

(** A prefix that is not declared is added as a declaration without a URI. *)
Theorem C58_undeclared_refuted : exists src d v,
  writes_down src d /\ nparse_buffer (enough src) None src [0] = NDocument v /\ ~ Forall2 (means []) d v.
Proof.
  exists (B "x:a"), [WElem (Some (B "x")) (B "a") [] []], [VElem (Some (B "x")) None (B "a") [Decl (Some (B "x")) None] [] []].
  split; [|split; [vm_compute; reflexivity|]].
  - exists [], (B "x:a"). eexists. split; [reflexivity|]. split; [a_gap|]. split.
    + change (B "x:a") with (B "x:a" ++ [] ++ []). apply ns_flat with (ks := []); [|a_gap|constructor; now left].
      apply nf_leaf; [|no_start]. apply nh_plain; [|no_start]. change (B "x:a") with (B "x" ++ cCOLON :: B "a"). constructor; [a_ename|a_lname].
    + reflexivity.
  - intros M. inversion M as [|x y l l' M1 _]; subst. inversion M1 as [p u n l ks ds at_ ks' P| | | |]; subst.
    apply Permutation_nil in P. discriminate.
Qed.
Print Assumptions C58_undeclared_refuted.

(** The default namespace of an element stays for what comes after it. *)
Theorem C58_default_below_root_refuted : exists src d v,
  writes_down src d /\ nparse_buffer (enough src) None src [0] = NDocument v /\ ~ Forall2 (means []) d v.
Proof.
  exists (B "a{b(xmlns=1)c}"), [WElem None (B "a") [] [WElem None (B "b") [Declaration None (B "1")] []; WElem None (B "c") [] []]],
    [VElem None None (B "a") [] [] [VElem None (Some (B "1")) (B "b") [Decl None (Some (B "1"))] [] []; VElem None (Some (B "1")) (B "c") [] [] []]].
  split; [|split; [vm_compute; reflexivity|]].
  - exists [], (B "a{b(xmlns=1)c}"), [WElem None (B "a") [] [WElem None (B "b") [Declaration None (B "1")] []; WElem None (B "c") [] []]].
    split; [reflexivity|]. split; [a_gap|]. split; [|reflexivity].
    change (B "a{b(xmlns=1)c}") with (B "a" ++ [] ++ [cLB] ++ [] ++ B "b(xmlns=1)c" ++ [cRB] ++ [] ++ []).
    apply ns_body with (kb := [WElem None (B "b") [Declaration None (B "1")] []; WElem None (B "c") [] []]) (ks := []).
    + apply nh_plain; [constructor; a_ename|no_start].
    + a_gap.
    + a_gap.
    + change (B "b(xmlns=1)c") with (B "b(xmlns=1)" ++ [] ++ B "c"). apply ns_flat; [|a_gap|].
      * apply nf_leaf; [|no_start]. change (B "b(xmlns=1)") with (B "b" ++ [] ++ [cLP] ++ [] ++ B "xmlns=1" ++ [cRP]).
        apply nh_items; [constructor; a_ename|a_gap|a_gap|].
        change (B "xmlns=1") with (B "xmlns=1" ++ [] ++ []). apply es_cons; [|a_gap|constructor; now eexists _, _].
        change (B "xmlns=1") with (B "xmlns" ++ [] ++ [cEQ] ++ [] ++ B "1"). apply en_decl; [constructor|a_gap|a_gap|]. constructor. a_bare.
      * change (B "c") with (B "c" ++ [] ++ []). apply ns_flat; [|a_gap|constructor; right; now eexists _, _].
        apply nf_leaf; [|no_start]. apply nh_plain; [constructor; a_ename|no_start].
    + a_gap.
    + constructor. now left.
  - intros M. inversion M as [|x y l l' M1 _]; subst. inversion M1 as [p u n l ks ds at_ ks' P1 U1 A1 K| | | |]; subst.
    inversion K as [|x y l l' _ K2]; subst. inversion K2 as [|x y l l' M2 _]; subst.
    inversion M2 as [p u n l ks ds at_ ks' P2 U A2 K3| | | |]; subst. destruct U as [(U & _)|(_ & U)]; [discriminate|]. cbn in U. inversion U.
Qed.
Print Assumptions C58_default_below_root_refuted.

(** An element whose prefix it declares itself, inside of the scope of the same
    prefix, has the outer URI. *)
Theorem C58_prefix_redeclared_refuted : exists src d v,
  writes_down src d /\ nparse_buffer (enough src) None src [0] = NDocument v /\ ~ Forall2 (means []) d v.
Proof.
  exists (B "a(xmlns:x=1){x:b(xmlns:x=2)}"),
    [WElem None (B "a") [Declaration (Some (B "x")) (B "1")] [WElem (Some (B "x")) (B "b") [Declaration (Some (B "x")) (B "2")] []]],
    [VElem None None (B "a") [Decl (Some (B "x")) (Some (B "1"))] []
      [VElem (Some (B "x")) (Some (B "1")) (B "b") [Decl (Some (B "x")) (Some (B "2"))] [] []]].
  split; [|split; [vm_compute; reflexivity|]].
  - exists [], (B "a(xmlns:x=1){x:b(xmlns:x=2)}"),
      [WElem None (B "a") [Declaration (Some (B "x")) (B "1")] [WElem (Some (B "x")) (B "b") [Declaration (Some (B "x")) (B "2")] []]].
    split; [reflexivity|]. split; [a_gap|]. split; [|reflexivity].
    assert (HD : forall pre c z, (c = 49 \/ c = 50) -> starts (is cRP) z ->
      entries pre (B "xmlns:x=" ++ [c]) z [Declaration (Some (B "x")) [c]]).
    { intros pre c z Hc Hz. replace (B "xmlns:x=" ++ [c]) with ((B "xmlns:x" ++ [] ++ [cEQ] ++ [] ++ [c]) ++ [] ++ []) by reflexivity.
      assert (W : ~ begins_white z) by (destruct Hz as (k & r & -> & Hz); apply N.eqb_eq in Hz; subst k; no_white).
      apply es_cons; [|split; [now left|exact W]|now constructor].
      assert (G2 : gap [] ([c] ++ [] ++ [] ++ z)) by (split; [now left|]; destruct Hc as [-> | ->]; no_white).
      apply en_decl; [|a_gap|exact G2|].
      - change (B "xmlns:x") with (B "xmlns:" ++ B "x"). constructor. a_lname.
      - destruct Hz as (k & r & -> & Hz). apply N.eqb_eq in Hz. subst k. constructor. destruct Hc as [-> | ->]; a_bare. }
    change (B "a(xmlns:x=1){x:b(xmlns:x=2)}") with (B "a(xmlns:x=1)" ++ [] ++ [cLB] ++ [] ++ B "x:b(xmlns:x=2)" ++ [cRB] ++ [] ++ []).
    apply ns_body with (kb := [WElem (Some (B "x")) (B "b") [Declaration (Some (B "x")) (B "2")] []]) (ks := []).
    + change (B "a(xmlns:x=1)") with (B "a" ++ [] ++ [cLP] ++ [] ++ (B "xmlns:x=" ++ [49]) ++ [cRP]).
      apply nh_items; [constructor; a_ename|a_gap|a_gap|]. apply HD; [now left|now eexists _, _].
    + a_gap.
    + a_gap.
    + change (B "x:b(xmlns:x=2)") with (B "x:b(xmlns:x=2)" ++ [] ++ []). apply ns_flat; [|a_gap|constructor; right; now eexists _, _].
      apply nf_leaf; [|no_start]. change (B "x:b(xmlns:x=2)") with (B "x:b" ++ [] ++ [cLP] ++ [] ++ (B "xmlns:x=" ++ [50]) ++ [cRP]).
      apply nh_items; [|a_gap|a_gap|].
      * change (B "x:b") with (B "x" ++ cCOLON :: B "b"). constructor; [a_ename|a_lname].
      * apply HD; [now right|now eexists _, _].
    + a_gap.
    + constructor. now left.
  - intros M. inversion M as [|x y l l' M1 _]; subst. inversion M1 as [p u n l ks ds at_ ks' P1 U1 A1 K| | | |]; subst.
    inversion K as [|x y l l' M2 _]; subst. inversion M2 as [p u n l ks ds at_ ks' P2 U A2 K3| | | |]; subst.
    destruct U as [(U & _)|(_ & U)]; [discriminate|].
    pose proof (resolves_eq _ _ _ _ U (res_here (Decl (Some (B "x")) (Some (B "2"))) _)) as Q. discriminate.
Qed.
Print Assumptions C58_prefix_redeclared_refuted.
