(** Property C61: the document that is made from the parse of a text by an ixml
    grammar has the elements, attributes and texts that the marks of the
    grammar ask for.

    [ixml_build] reads a grammar (Ixml.v), [use_marks] is xmqParseBufferWithIXML
    up to the call of yaep, [parse_tree y junk T w] are the trees that yaep can
    hand back, and [gen_doc T []] is the document that is made from a tree
    (IxmlDoc.v).  [w_grammar] and [ok_grammar] are in IxmlSpec.v; [gives],
    [document], [attrs_plain] and [marks_ok] are in IxmlDocSpec.v.  The
    tree that yaep finds is one of them (C80, PropsIxmlWhole.v). *)
From Coq Require Import NArith ZArith List Bool Arith Lia String.
From Verif Require Import Bytes BytesFacts Utf8Proofs Dom Ixml IxmlSpec IxmlTrans IxmlParse IxmlUse IxmlDoc IxmlDocSpec IxmlOut IxmlTree IxmlOutUse IxmlWrite.
Import ListNotations.
Local Open Scope N_scope.
Local Open Scope list_scope.

(** Every tree that yaep can hand back gives a document that the grammar gives
    for the text, and every document that the grammar gives has a tree.  The
    marks of terminal nodes that yaep never writes ([junk]) must not happen to
    be a minus.  Missing: yaep, the grammars whose marks or aliases the reader
    loses, insertions in attributes, and texts with more than one element at
    the top, see below. *)
Theorem C61_document_follows_marks_partial : forall G src w (junk : N -> Prop),
  w_grammar G src -> ok_grammar G = true -> marks_ok G = true ->
  Forall (fun c => code_ok c /\ c <> 0%Z) w -> (forall m, junk m -> m <> 45) ->
  exists n, forall fuel, (n <= fuel)%nat -> exists g y,
    ixml_build fuel src = IOk g /\ use_marks g (utf8 w) = IOk y /\
    (forall T, parse_tree y junk T w -> exists its, gives G w its /\
       (forallb attrs_plain its = true -> forall d, document its d -> gen_doc T [] = DOk [d])) /\
    (junk 0 -> forall its, gives G w its -> exists T, parse_tree y junk T w /\
       (forallb attrs_plain its = true -> forall d, document its d -> gen_doc T [] = DOk [d])).
Proof.
  intros G src w junk HG Hok Hm Hw Hj. destruct (build_spec G src HG) as (n & Hn).
  { unfold ok_grammar in Hok. rewrite forallb_forall in Hok |- *. intros r Hr. specialize (Hok r Hr). apply andb_true_iff in Hok. tauto. }
  assert (Hc : Forall code_ok w) by (eapply Forall_impl; [|exact Hw]; intros c H; apply H).
  destruct (use_marks_spec G src w HG Hok Hm Hc) as (y & x0 & xs & U1 & U2 & U3).
  exists n. intros fuel Hf. eexists _, y. split; [exact (Hn fuel Hf)|]. split; [exact U1|].
  split.
  - intros T (r & rs & E & HT). rewrite U2 in E. injection E as <- <-. exists (titems T). split.
    + apply U3. now apply (tree_yo y junk Hj).
    + intros Hp d Hd. apply doc_spec; [|exact Hp|exact Hd]. now rewrite (proj1 (tree_leaves y junk) _ _ _ HT).
  - intros J0 its Hg. apply U3 in Hg. destruct (proj1 (yo_tree y junk J0) _ _ _ Hg) as (T & HT & <-). exists T. split; [exists x0, xs; auto|].
    intros Hp d Hd. apply doc_spec; [|exact Hp|exact Hd]. now rewrite (proj1 (tree_leaves y junk) _ _ _ HT).
Qed.
Print Assumptions C61_document_follows_marks_partial.

(** The grammar gives items for the texts it describes (C60), and for no
    others. *)
Theorem C61_items_of_described_texts : forall G w, (exists its, gives G w its) <-> describes G w.
Proof. exact gives_describes. Qed.
Print Assumptions C61_items_of_described_texts.

(** Every grammar with proper names, marks and characters can be written down
    ([w_grammar]). *)
Theorem C61_grammars_can_be_written : forall G, can_grammar G = true -> exists src, w_grammar G src.
Proof. intros G H. exists (p_rules G). now apply p_grammar_ok. Qed.
Print Assumptions C61_grammars_can_be_written.

(** ** A grammar that meets the hypotheses

<<
doc>d:@id,-"=",num++(-","|-";"),+"!".
id:["a"-"z";Lu]+.
num:-digit+.
digit:["0"-"9"].
>> *)
Definition w1 (s : string) : word := map Z.of_N (B s).
Definition one (f : factor) : alts := AOne (ACons (TOne f) ANil).
Definition ex_G : grammar :=
  [GRule 0 (B "doc") (Some (B "d")) (AOne
     (ACons (TOne (FNt 64 (B "id") None)) (ACons (TOne (FStr 45 (w1 "=")))
     (ACons (TPlusSep (FNt 0 (B "num") None) (FGroup (AMore (ACons (TOne (FStr 45 (w1 ","))) ANil) (one (FStr 45 (w1 ";"))))))
     (ACons (TOne (FIns (w1 "!"))) ANil)))));
   GRule 0 (B "id") None (AOne (ACons (TPlus (FSet 0 false [MRange (RChar 97) (RChar 122); MCat (B "Lu")])) ANil));
   GRule 0 (B "num") None (AOne (ACons (TPlus (FNt 45 (B "digit") None)) ANil));
   GRule 0 (B "digit") None (one (FSet 0 false [MRange (RChar 48) (RChar 57)]))].
Definition ex_src : bytes :=
  B "doc>d:@id,-""="",num++(-"",""|-"";""),+""!"".id:[""a""-""z"";Lu]+.num:-digit+.digit:[""0""-""9""].".
Example ex_written : w_grammar ex_G ex_src.
Proof. assert (E : ex_src = p_rules ex_G) by (vm_compute; reflexivity). rewrite E. apply p_grammar_ok. vm_compute. reflexivity. Qed.
Example ex_ok : ok_grammar ex_G = true. Proof. vm_compute. reflexivity. Qed.
Example ex_marks : marks_ok ex_G = true. Proof. vm_compute. reflexivity. Qed.
Definition ex_w : word := w1 "xY=12,3".
Definition ex_items : list item :=
  [IElem (B "d") [IAttr (B "id") [IChar 120; IChar 89]; IElem (B "num") [IChar 49; IChar 50]; IElem (B "num") [IChar 51]; IIns (B "!")]].
Definition ex_doc : node :=
  Elem (B "d") [(B "id", [PText (B "xY")])]
    [Elem (B "num") [] [Part (PText (B "12"))]; Elem (B "num") [] [Part (PText (B "3"))]; Part (PText (B "!"))].
Example ex_document : document ex_items ex_doc.
Proof. eexists _, _. split; [reflexivity|]. vm_compute. reflexivity. Qed.
Lemma ex_digit c : (48 <= c <= 57)%Z -> o_factor ex_G (FNt 45 (B "digit") None) [c] [IChar c].
Proof.
  intros H. refine (o_nt ex_G 45 (B "digit") None (nth 3 ex_G (hd (GRule 0 [] None (AOne ANil)) ex_G)) [c] [IChar c] _ eq_refl _); [right; right; right; left; reflexivity|].
  apply o_last. refine (o_cons _ _ _ [c] [] [IChar c] [] _ (o_nil _)). apply o_one. apply (o_set ex_G 0 false). apply Exists_cons_hd. exact H.
Qed.
Example ex_given : gives ex_G ex_w ex_items.
Proof.
  set (r0 := hd (GRule 0 [] None (AOne ANil)) ex_G).
  exists r0, (tl ex_G), r0, [IAttr (B "id") [IChar 120; IChar 89]; IElem (B "num") [IChar 49; IChar 50]; IElem (B "num") [IChar 51]; IIns (B "!")].
  split; [reflexivity|]. split; [left; reflexivity|]. split; [reflexivity|]. split; [|reflexivity]. apply o_last.
  assert (C : forall c, in_set false [MRange (RChar 97) (RChar 122); MCat (B "Lu")] c -> o_factor ex_G (FSet 0 false [MRange (RChar 97) (RChar 122); MCat (B "Lu")]) [c] [IChar c]) by (intros c Hc; now apply (o_set ex_G 0 false)).
  refine (o_cons _ _ _ (w1 "xY") (w1 "=12,3") [_] [_; _; _] _ _).
  { apply o_one. refine (o_nt ex_G 64 (B "id") None (nth 1 ex_G r0) (w1 "xY") [IChar 120; IChar 89] _ eq_refl _); [right; left; reflexivity|].
    apply o_last. refine (o_cons _ _ _ (w1 "xY") [] [_; _] [] _ (o_nil _)). apply o_plus. refine (o_reps_more _ _ (w1 "x") (w1 "Y") [_] [_] (o_reps_one _ _ _ _ (C 120%Z _)) (C 89%Z _)).
    - apply Exists_cons_hd. cbn. lia.
    - apply Exists_cons_tl, Exists_cons_hd. cbn [in_member]. eexists _, _. split; [left; reflexivity|]. split; [left; reflexivity|]. vm_compute. do 24 right. left. reflexivity. }
  refine (o_cons _ _ _ (w1 "=") (w1 "12,3") [] [_; _; _] (o_one _ _ _ _ (o_str ex_G 45 (w1 "="))) _).
  refine (o_cons _ _ _ (w1 "12,3") [] [_; _] [_] _ (o_cons _ _ _ [] [] [_] [] (o_one _ _ _ _ (o_ins ex_G (w1 "!"))) (o_nil _))).
  assert (D : forall c, (48 <= c <= 57)%Z -> o_factor ex_G (FNt 45 (B "digit") None) [c] [IChar c]) by exact ex_digit.
  apply o_plussep. refine (o_sreps_more ex_G _ _ (w1 "12") (w1 ",") (w1 "3") [IElem (B "num") [IChar 49; IChar 50]] [] [IElem (B "num") [IChar 51]] (o_sreps_one _ _ _ _ _ _) _ _).
  - refine (o_nt ex_G 0 (B "num") None (nth 2 ex_G r0) (w1 "12") [IChar 49; IChar 50] _ eq_refl _); [right; right; left; reflexivity|].
    apply o_last. refine (o_cons _ _ _ (w1 "12") [] [_; _] [] _ (o_nil _)). apply o_plus. refine (o_reps_more _ _ (w1 "1") (w1 "2") [_] [_] (o_reps_one _ _ _ _ (D 49%Z _)) (D 50%Z _)); lia.
  - apply o_group, o_first. refine (o_cons _ _ _ (w1 ",") [] [] [] (o_one _ _ _ _ (o_str ex_G 45 (w1 ","))) (o_nil _)).
  - refine (o_nt ex_G 0 (B "num") None (nth 2 ex_G r0) (w1 "3") [IChar 51] _ eq_refl _); [right; right; left; reflexivity|].
    apply o_last. refine (o_cons _ _ _ (w1 "3") [] [_] [] _ (o_nil _)). apply o_plus. apply o_reps_one. apply (D 51%Z). lia.
Qed.
(** The document is made from a tree for the text. *)
Example ex_made : exists n, forall fuel, (n <= fuel)%nat -> exists g y T,
  ixml_build fuel ex_src = IOk g /\ use_marks g (B "xY=12,3") = IOk y /\ parse_tree y (fun m => m = 0) T ex_w /\ gen_doc T [] = DOk [ex_doc].
Proof.
  destruct (C61_document_follows_marks_partial ex_G ex_src ex_w (fun m => m = 0) ex_written ex_ok ex_marks) as (n & Hn).
  { repeat (apply Forall_cons || apply Forall_nil); (split; [unfold code_ok; cbn; lia|discriminate]). }
  { intros m ->. discriminate. }
  exists n. intros fuel Hf. destruct (Hn fuel Hf) as (g & y & E1 & E2 & _ & E4). destruct (E4 eq_refl _ ex_given) as (T & HT & HD). exists g, y, T.
  split; [exact E1|]. split; [exact E2|]. split; [exact HT|]. apply HD; [vm_compute; reflexivity|exact ex_document].
Qed.

(** ** Grammars whose documents are wrong

    [wrong_document G src w d d']: the grammar gives the document [d] only, and
    there is a tree, with marks that yaep does not write equal to zero, from
    which [d'] is made. *)
Definition wrong_document (G : grammar) (src : bytes) (w : word) (d d' : node) : Prop :=
  w_grammar G src /\ ok_grammar G = true /\ (exists its, gives G w its) /\ (forall its, gives G w its -> document its d) /\ d <> d' /\
  exists g y T, ixml_build 1000 src = IOk g /\ use_marks g (utf8 w) = IOk y /\ parse_tree y (fun m => m = 0) T w /\ gen_doc T [] = DOk [d'].

Definition nt (m : N) (n : string) : factor := FNt m (B n) None.
Definition rule (n : string) (a : alts) : grule := GRule 0 (B n) None a.
Definition text (s : string) : node := Part (PText (B s)).
Definition elem (n : string) (k : list node) : node := Elem (B n) [] k.
Definition same_word (v w : word) : Prop := v = w.
Ltac inv_o :=
  repeat match goal with
  | H : In _ _ |- _ => progress cbn [In] in H
  | H : _ \/ _ |- _ => destruct H as [H|H]
  | H : False |- _ => elim H
  | H : GRule _ _ _ _ = ?r |- _ => is_var r; subst r
  | H : rule _ _ = ?r |- _ => is_var r; subst r
  | H : ru_name _ = _ |- _ => progress cbn [ru_name rule] in H
  | H : B _ = _ |- _ => first [solve [exfalso; vm_compute in H; discriminate H] | clear H]
  | H : o_factor _ _ _ _ |- _ => inversion H; subst; clear H
  | H : o_term _ _ _ _ |- _ => inversion H; subst; clear H
  | H : o_alt _ _ _ _ |- _ => inversion H; subst; clear H
  | H : o_alts _ (ru_alts _) _ _ |- _ => progress cbn [ru_alts one rule] in H
  | H : o_alts _ (one _) _ _ |- _ => unfold one in H
  | H : o_alts _ (AOne _) _ _ |- _ => inversion H; subst; clear H
  | H : o_alts _ (AMore _ _) _ _ |- _ => inversion H; subst; clear H
  end.
Ltac gives_only G :=
  let its := fresh in let r0 := fresh in let rs := fresh in let r := fresh in let i := fresh in let E := fresh in let Hr := fresh in let En := fresh in let Ho := fresh in let Ew := fresh in
  intros its (r0 & rs & r & i & E & Hr & En & Ho & ->); injection E as <- <-;
  match type of Ho with o_alts _ _ ?v _ =>
    change v with (id v) in Ho; assert (Ew : same_word v (id v)) by reflexivity; revert Ho Ew; generalize (id v); intros ? Ho Ew
  end;
  unfold G, nt in *; inv_o; try solve [exfalso; vm_compute in Ew; discriminate Ew]; try (cbv in Ew; injection Ew as <-); (eexists _, _; split; [reflexivity|]; reflexivity).
Ltac described := apply gives_describes; eexists _, _, _; split; [reflexivity|]; split; [left; reflexivity|]; split; [reflexivity|]; cbn [ru_alts rule hd].
Ltac str s := refine (m_cons _ _ _ (w1 s) [] (m_one _ _ _ (m_str _ _ _)) (m_nil _)).
Ltac wrong T :=
  split; [match goal with |- w_grammar ?G ?s => let E := fresh in assert (E : s = p_rules G) by (vm_compute; reflexivity); rewrite E; apply p_grammar_ok; vm_compute; reflexivity end|];
  split; [vm_compute; reflexivity|]; split; [|split; [|split; [discriminate|
    eexists _, _, T; split; [vm_compute; reflexivity|]; split; [vm_compute; reflexivity|]; split; [|vm_compute; reflexivity]]]].
Ltac tree :=
  match goal with |- parse_tree ?y _ ?T ?w =>
    let H := fresh in assert (H : parse_tree y (fun m => (m =? 0) = true) T w) by (apply chk_root_spec; vm_compute; reflexivity);
    let r := fresh in let rs := fresh in let E := fresh in let K := fresh in destruct H as (r & rs & E & K); exists r, rs; split; [exact E|];
    eapply (proj1 (tree_junk y (fun m => (m =? 0) = true) (fun m => m = 0) (fun m Hm => proj1 (N.eqb_eq m 0) Hm))); exact K
  end.

(** An optional group that ends with an attribute becomes an attribute itself,
    with the name of the rule made for the group. *)
Definition stale_G : grammar :=
  [rule "a" (AOne (ACons (TOpt (FGroup (AOne (ACons (TOne (nt 0 "b")) (ACons (TOne (nt 64 "c")) ANil))))) ANil));
   rule "b" (one (FStr 0 (w1 "x"))); rule "c" (one (FStr 0 (w1 "y")))].
Theorem C61_group_attribute_refuted : wrong_document stale_G (B "a:(b,@c)?.b:""x"".c:""y"".") (w1 "xy")
  (Elem (B "a") [(B "c", [PText (B "y")])] [elem "b" [text "x"]])
  (Elem (B "a") [(B "|0", [PText (B "xy")])] []).
Proof.
  wrong (YNode (B "a") 0 [YNode (B "|1") 45 [YNode (B "|0") 64 [YNode (B "b") 0 [YTerm 120 0]; YNode (B "c") 64 [YTerm 121 0]]]]).
  - described. apply m_last. refine (m_cons _ _ _ (w1 "xy") [] _ (m_nil _)). apply m_opt_yes, m_group, m_last. refine (m_cons _ _ _ (w1 "x") (w1 "y") _ (m_cons _ _ _ (w1 "y") [] _ (m_nil _))); apply m_one.
    + eapply m_nt; [right; left; reflexivity|reflexivity|]. apply m_last. str "x"%string.
    + eapply m_nt; [right; right; left; reflexivity|reflexivity|]. apply m_last. str "y"%string.
  - gives_only stale_G.
  - tree.
Qed.

(** An optional string with a ^ becomes an element, with the name of the rule
    made for the string. *)
Definition caret_G : grammar := [rule "a" (AOne (ACons (TOpt (FStr 94 (w1 "xy"))) ANil))].
Theorem C61_optional_string_refuted : wrong_document caret_G (B "a:^""xy""?.") (w1 "xy")
  (elem "a" [text "xy"]) (elem "a" [elem "|0" [text "xy"]]).
Proof.
  wrong (YNode (B "a") 0 [YNode (B "|1") 45 [YNode (B "|0") 94 [YTerm 120 94; YTerm 121 94]]]).
  - described. apply m_last. refine (m_cons _ _ _ (w1 "xy") [] _ (m_nil _)). apply m_opt_yes, m_str.
  - gives_only caret_G.
  - tree.
Qed.

(** A set with a ^ becomes an element, with the name of the set. *)
Definition set_G : grammar := [rule "a" (one (FSet 94 false [MStr (w1 "x")]))].
Theorem C61_marked_set_refuted : wrong_document set_G (B "a:^[""x""].") (w1 "x")
  (elem "a" [text "x"]) (elem "a" [elem "[^#78]" [text "x"]]).
Proof.
  wrong (YNode (B "a") 0 [YNode (B "[^#78]") 94 [YTerm 120 0]]).
  - described. apply m_last. refine (m_cons _ _ _ (w1 "x") [] _ (m_nil _)). apply m_one, m_set. apply Exists_cons_hd. left. reflexivity.
  - gives_only set_G.
  - tree.
Qed.

(** A repeated set after an attribute becomes an attribute for each
    character. *)
Definition rep_G : grammar :=
  [rule "a" (AOne (ACons (TOne (nt 64 "b")) (ACons (TPlus (FSet 0 false [MStr (w1 "x")])) ANil))); rule "b" (one (FStr 0 (w1 "y")))].
Theorem C61_repeated_set_refuted : exists its d,
  w_grammar rep_G (B "a:@b,[""x""]+.b:""y"".") /\ ok_grammar rep_G = true /\ gives rep_G (w1 "yx") its /\ document its d /\
  d = Elem (B "a") [(B "b", [PText (B "y")])] [text "x"] /\
  exists g y T, ixml_build 1000 (B "a:@b,[""x""]+.b:""y"".") = IOk g /\ use_marks g (utf8 (w1 "yx")) = IOk y /\ parse_tree y (fun m => m = 0) T (w1 "yx") /\
    gen_doc T [] = DOk [Elem (B "a") [(B "b", [PText (B "y")]); (B "[#78]", [PText (B "x")])] []].
Proof.
  eexists _, _. split; [|split; [vm_compute; reflexivity|split; [|split; [|split; [reflexivity|]]]]].
  - match goal with |- w_grammar ?G ?s => assert (E : s = p_rules G) by (vm_compute; reflexivity); rewrite E; apply p_grammar_ok; vm_compute; reflexivity end.
  - eexists _, _, (hd (rule "a" (AOne ANil)) rep_G), _. split; [reflexivity|]. split; [left; reflexivity|]. split; [reflexivity|]. split; [|reflexivity]. apply o_last.
    refine (o_cons _ _ _ (w1 "y") (w1 "x") _ _ (o_one _ _ _ _ _) (o_cons _ _ _ (w1 "x") [] _ _ (o_plus _ _ _ _ (o_reps_one _ _ _ _ _)) (o_nil _))).
    + eapply o_nt; [right; left; reflexivity|reflexivity|]. apply o_last. refine (o_cons _ _ _ (w1 "y") [] _ _ (o_one _ _ _ _ (o_str _ _ _)) (o_nil _)).
    + apply (o_set rep_G 0 false). apply Exists_cons_hd. left. reflexivity.
  - eexists _, _. split; [reflexivity|]. reflexivity.
  - eexists _, _, (YNode (B "a") 0 [YNode (B "b") 64 [YTerm 121 0]; YNode (B "|0") 45 [YNode (B "[#78]") 64 [YTerm 120 0]]]).
    split; [vm_compute; reflexivity|]. split; [vm_compute; reflexivity|]. split; [tree|vm_compute; reflexivity].
Qed.

(** The alias of a rule is not used for its second alternative. *)
Definition alias_G : grammar := [GRule 0 (B "a") (Some (B "b")) (AMore (ACons (TOne (FStr 0 (w1 "x"))) ANil) (one (FStr 0 (w1 "y"))))].
Theorem C61_second_alternative_alias_refuted : wrong_document alias_G (B "a>b:""x""|""y"".") (w1 "y")
  (elem "b" [text "y"]) (elem "a" [text "y"]).
Proof.
  wrong (YNode (B "a") 0 [YTerm 121 0]).
  - described. apply m_later, m_last. str "y"%string.
  - gives_only alias_G.
  - tree.
Qed.

(** The alias of a nonterminal in an alternative is not used. *)
Definition use_G : grammar := [rule "a" (one (FNt 0 (B "c") (Some (B "d")))); rule "c" (one (FStr 0 (w1 "x")))].
Theorem C61_nonterminal_alias_refuted : wrong_document use_G (B "a:c>d.c:""x"".") (w1 "x")
  (elem "a" [elem "d" [text "x"]]) (elem "a" [elem "c" [text "x"]]).
Proof.
  wrong (YNode (B "a") 0 [YNode (B "c") 0 [YTerm 120 0]]).
  - described. apply m_last. refine (m_cons _ _ _ (w1 "x") [] _ (m_nil _)). apply m_one. eapply m_nt; [right; left; reflexivity|reflexivity|]. apply m_last. str "x"%string.
  - gives_only use_G.
  - tree.
Qed.

(** An insertion is left out of the value of an attribute. *)
Definition ins_G : grammar := [rule "a" (one (nt 64 "b")); rule "b" (AOne (ACons (TOne (FStr 0 (w1 "x"))) (ACons (TOne (FIns (w1 "y"))) ANil)))].
Theorem C61_insertion_in_attribute_refuted : wrong_document ins_G (B "a:@b.b:""x"",+""y"".") (w1 "x")
  (Elem (B "a") [(B "b", [PText (B "xy")])] []) (Elem (B "a") [(B "b", [PText (B "x")])] []).
Proof.
  wrong (YNode (B "a") 0 [YNode (B "b") 64 [YTerm 120 0; YNode (B "|+y") 32 []]]).
  - described. apply m_last. refine (m_cons _ _ _ (w1 "x") [] _ (m_nil _)). apply m_one. eapply m_nt; [right; left; reflexivity|reflexivity|].
    apply m_last. refine (m_cons _ _ _ (w1 "x") [] (m_one _ _ _ (m_str _ _ _)) (m_cons _ _ _ [] [] (m_one _ _ _ (m_ins _ _)) (m_nil _))).
  - gives_only ins_G.
  - tree.
Qed.

(** A mark of a terminal node that was never written may be a minus: the
    character is lost. *)
Theorem C61_unwritten_mark_refuted : exists g y T, ixml_build 1000 (B "a:""x"".") = IOk g /\ use_marks g (B "x") = IOk y /\
  parse_tree y (fun m => m = 45) T (w1 "x") /\ gen_doc T [] = DOk [elem "a" []].
Proof.
  eexists _, _, (YNode (B "a") 0 [YTerm 120 45]). split; [vm_compute; reflexivity|]. split; [vm_compute; reflexivity|]. split; [|vm_compute; reflexivity].
  eexists _, _. split; [reflexivity|]. refine (to_rule _ _ 0 (IRule (B "a") None 0 [ITerm 0 (B "#78")]) [YTerm 120 45] (w1 "x") _ _); [left; reflexivity|].
  refine (to_cons _ _ _ _ _ _ (w1 "x") [] _ (to_nil _ _)). apply to_term; [left; reflexivity|reflexivity].
Qed.

(** An element is lost if a text follows it at the top of the document. *)
Theorem C61_top_text_refuted : exists g y T, ixml_build 1000 (B "-a:b,""y"".b:""x"".") = IOk g /\ use_marks g (B "xy") = IOk y /\
  parse_tree y (fun m => m = 0) T (w1 "xy") /\ gen_doc T [] = DOk [text "y"].
Proof.
  eexists _, _, (YNode (B "a") 45 [YNode (B "b") 0 [YTerm 120 0]; YTerm 121 0]). split; [vm_compute; reflexivity|]. split; [vm_compute; reflexivity|]. split; [tree|vm_compute; reflexivity].
Qed.
Print Assumptions C61_group_attribute_refuted.
Print Assumptions C61_top_text_refuted.
