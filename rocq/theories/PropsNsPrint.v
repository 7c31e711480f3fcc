(** Property C59: a document with namespaces that is printed in compact form is
    read back as the same document.

    [v_print_doc C d] is xmqPrint of the document (NsPrinter.v) and
    [nparse_buffer fuel root src aft] xmqParseBuffer (NsDom.v).  [vnodes_ok],
    [well_placed] and [same] are in NsCompact.v. *)
From Coq Require Import NArith ZArith List Bool Arith Lia String Permutation.
From Verif Require Import Bytes BytesFacts Utf8 QuoteSpec QuoteProofs Parser ParserSpec Detect Dom NsDom NsSpec Printer NsPrinter Grammar NsGrammar
  LexProofs GrammarProofs NsDetect NsEffect NsMeans Compact Stray CompactProofs CompactDoc NsCompact NsCompactDoc NsPlaced PropsGrammar PropsPrinter PropsNsGrammar.
Import ListNotations.
Local Open Scope N_scope.

(** The compact output is accepted and read as a document with the same
    elements, attributes, prefixes, URIs, declarations and content.  Missing: the
    documents outside of the class, see below. *)
Theorem C59_compact_round_trip_partial : forall C d aft,
  compact C = true -> d <> [] -> vnodes_ok C d -> well_placed d ->
  (forall w u, In w [B "true"; B "false"; B "null"] -> d <> [VElem None u w [] [] []]) ->
  exists o v, v_print_doc C d = (o, true) /\ nparse_buffer (enough o) None o (0 :: aft) = NDocument v /\ Forall2 same d v.
Proof.
  intros C d aft HC Hd Ho Hp Hw. destruct (compact_writes_down C HC d Hd Ho) as (o & P & W).
  destruct (C58_source_read_as_written_partial o (map wform d) aft W (placed_scoped C d Ho Hp)) as (v & R & M).
  - intros w Iw E. destruct d as [|x [|y d]]; try discriminate. injection E as E. destruct x as [p u n ds l ks| | | |]; try discriminate E.
    cbn [wform] in E. injection E as -> -> Ei Ek. destruct ks; [|discriminate]. destruct l; [|discriminate]. destruct ds; [|discriminate].
    now apply (Hw w u).
  - exists o, v. split; auto. split; auto. eapply placed_means; eauto.
Qed.
Print Assumptions C59_compact_round_trip_partial.

(** Every document that is read from a source of C58 is well placed. *)
Lemma known_same a b p : (forall q, In q a <-> In q b) -> is_known a p -> is_known b p.
Proof. intros H [K|[K|K]]; [now left|right; now left|right; right; now apply H]. Qed.
Fixpoint scoped_placed w : forall known dflt sc v, (forall q, In q known <-> In q (map d_prefix sc)) -> scoped known dflt w -> means sc w v -> placed sc dflt v.
Proof.
  intros known dflt sc v Hk S M. destruct w as [p n l ks|p|t|n t|t]; inversion M as [p1 u1 n1 l1 k1 ds1 at1 ks1 Q1 Q2 Q3 Q4| | | |]; subst; try constructor;
    inversion S as [df p2 n2 l2 k2 S1 S2 S3 S4 S5 S6 S7| | | |]; subst.
  - eapply Permutation_NoDup; [apply Permutation_map; exact Q1|exact S1].
  - apply Forall_forall. intros d Hd. rewrite Forall_forall in S2. destruct (S2 d) as (A & B0); [eapply Permutation_in; [apply Permutation_sym; exact Q1|exact Hd]|].
    split; auto. intros X. now apply B0, Hk.
  - intros E X. apply (S3 E). eapply Permutation_in; [apply Permutation_sym, Permutation_map; exact Q1|exact X].
  - revert S5. apply known_same. intros q. rewrite map_app, !in_app_iff, Hk. apply (Permutation_map d_prefix) in Q1.
    split; (intros [X|X]; [left|now right]); [eapply Permutation_in; eauto|eapply Permutation_in; [apply Permutation_sym|]; eauto].
  - exact Q2.
  - assert (KK : forall q, In q (map d_prefix (declared l) ++ known) <-> In q (map d_prefix (ds1 ++ sc))).
    { intros q. rewrite map_app, !in_app_iff, Hk. apply (Permutation_map d_prefix) in Q1.
      split; (intros [X|X]; [left|now right]); [eapply Permutation_in; eauto|eapply Permutation_in; [apply Permutation_sym|]; eauto]. }
    clear - S6 Q3 KK. revert S6. induction Q3 as [|x y a b A _ IH]; intros S6; inversion S6; subst; constructor; auto. split.
    + inversion A; subst; cbn in *; [now left|]. eapply known_same; eauto.
    + inversion A; subst; cbn; auto.
  - assert (KK : forall q, In q (map d_prefix (declared l) ++ known) <-> In q (map d_prefix (ds1 ++ sc))).
    { intros q. rewrite map_app, !in_app_iff, Hk. apply (Permutation_map d_prefix) in Q1.
      split; (intros [X|X]; [left|now right]); [eapply Permutation_in; eauto|eapply Permutation_in; [apply Permutation_sym|]; eauto]. }
    clear - S7 Q4 KK scoped_placed. revert ks1 Q4. induction ks as [|k ks IH]; intros ks1 Q4; inversion Q4; subst; inversion S7; subst; constructor; eauto.
Qed.
Theorem C59_read_documents_are_well_placed : forall src d v aft,
  writes_down src d -> well_scoped d ->
  (forall w, In w [B "true"; B "false"; B "null"] -> d <> [WElem None w [] []]) ->
  nparse_buffer (enough src) None src (0 :: aft) = NDocument v -> well_placed v.
Proof.
  intros src d v aft W S N P. destruct (C58_source_read_as_written_partial src d aft W S N) as (v' & P' & M). rewrite P in P'. injection P' as <-.
  destruct S as (dflt & S & L). exists dflt. split.
  - clear - S M. revert v M. induction S as [|x d X _ IH]; intros v M; inversion M; subst; constructor; auto. eapply scoped_placed; eauto. reflexivity.
  - intros E. specialize (L E). replace (List.length (filter is_velem v)) with (List.length (filter is_welem d)); auto.
    clear - M. induction M as [|x y a b X _ IH]; auto. cbn [filter]. assert (Y : is_welem x = is_velem y) by (inversion X; reflexivity).
    rewrite Y. destruct (is_velem y); cbn; now rewrite IH.
Qed.
Print Assumptions C59_read_documents_are_well_placed.

(** ** Example *)
Definition uri1 : bytes := B "urn:one".
Definition uri2 : bytes := B "a b".
Definition nsdoc : list vnode :=
  [VElem None (Some uri1) (B "root") [Decl None (Some uri1); Decl (Some (B "x")) (Some uri2)]
     [VAttr None None (B "k") []; VAttr (Some (B "x")) (Some uri2) (B "k") [PText (B "v")]]
     [VElem (Some (B "x")) (Some uri2) (B "leaf") [] [] [];
      VElem None (Some uri1) (B "val") [Decl (Some (B "y")) (Some (B "3"))] [VAttr (Some (B "y")) (Some (B "3")) (B "q") [PText (B "1")]] [VPart (PText (B "t"))]]].
Lemma not_tabbed c t : In c t -> c <> cSP -> c <> cTAB -> ~ tabbed sample_cfg t.
Proof.
  intros I N1 N2 (_ & O & _). specialize (O c I). unfold one_of in O. cbn in O. rewrite !orb_true_iff, !N.eqb_eq in O. intuition congruence.
Qed.
Ltac a_uri c := split; [discriminate|]; split; [a_text c|]; split; [not_in|]; split;
  [let b := fresh in let H := fresh in intros b H; cbn in H; repeat (destruct H as [<-|H]; [reflexivity|]); destruct H
  |split; [apply (not_tabbed c); [cbn; tauto|discriminate|discriminate]|split; [discriminate|split; no_start]]].
Ltac a_value c := split; [discriminate|]; split; [constructor; [a_text c|constructor]|]; split; [exact Logic.I|];
  let t := fresh in let E := fresh in intros t E; injection E as <-; apply (not_tabbed c); [cbn; tauto|discriminate|discriminate].
Ltac no_semi := let t := fresh in let E := fresh in let Hb := fresh in let L := fresh in
  intros (t & E & Hb & L); injection E as <-; revert L; not_in.
Lemma nsdoc_ok : vnodes_ok sample_cfg nsdoc.
Proof.
  constructor; [|discriminate|constructor]. apply vok_body.
  - a_ename.
  - cbn [vattrs_ok decls_ok]. split; [split; [an_aname|now left]|]. split; [right; intros (t & E & _); discriminate E|].
    split; [split; [split; [an_aname|a_lname]|right; split; [a_value 118|discriminate]]|]. split; [right; no_semi|].
    split; [split; [exact Logic.I|exists uri1; split; [reflexivity|a_uri 117]]|]. split; [right; intros u Eu; injection Eu as <-; no_semi|].
    split; [split; [a_lname|exists uri2; split; [reflexivity|a_uri 97]]|]. split; [now left|exact Logic.I].
  - reflexivity.
  - constructor; [apply vok_leaf; [split; [a_ename|a_lname]|exact Logic.I]| |constructor; [|discriminate|constructor]].
    + intros y r E. injection E as <- _. split; [intros (_ & t & E); discriminate E|]. intros ps E. injection E as <-. intros (t & E & _). discriminate E.
    + apply (vok_value _ _ _ _ _ _ [PText (B "t")]); [a_ename| |a_value 116].
      cbn [vattrs_ok decls_ok]. split; [split; [split; [an_aname|a_lname]|right; split; [a_value 49|discriminate]]|]. split; [right; no_semi|].
      split; [split; [a_lname|exists (B "3"); split; [reflexivity|a_uri 51]]|]. split; [now left|exact Logic.I].
Qed.
Lemma nsdoc_placed : well_placed nsdoc.
Proof.
  exists true. split; [|cbn; lia]. constructor; [|constructor].
  assert (K1 : forall sc, uri_of (Decl None (Some uri1) :: sc) None (Some uri1)) by (intros sc; right; split; [discriminate|apply (res_here (Decl None (Some uri1)))]).
  assert (K2 : forall sc, uri_of (Decl None (Some uri1) :: Decl (Some (B "x")) (Some uri2) :: sc) (Some (B "x")) (Some uri2)).
  { intros sc. right. split; [discriminate|]. apply res_outer; [discriminate|]. apply (res_here (Decl (Some (B "x")) (Some uri2))). }
  constructor.
  - constructor; [intros [H|[]]; discriminate H|]. constructor; [intros []|constructor].
  - constructor; [split; [discriminate|intros []]|]. constructor; [split; [discriminate|intros []]|constructor].
  - discriminate.
  - now left.
  - apply K1.
  - constructor; [split; [now left|reflexivity]|]. constructor; [split; [right; right; right; now left|apply K2]|constructor].
  - constructor; [|constructor; [|constructor]].
    + constructor; [constructor|constructor|intros _ []|right; right; right; now left|apply K2|constructor|constructor].
    + constructor.
      * constructor; [intros []|constructor].
      * constructor; [|constructor]. split; [discriminate|]. intros [H|[H|[]]]; discriminate H.
      * intros _ [H|[]]; discriminate H.
      * now left.
      * right. split; [discriminate|]. apply res_outer; [discriminate|]. apply (res_here (Decl None (Some uri1))).
      * constructor; [|constructor]. split; [right; right; now left|]. right. split; [discriminate|]. apply (res_here (Decl (Some (B "y")) (Some (B "3")))).
      * constructor; constructor.
Qed.
Example C59_example : let o := B "root(k x:k=v xmlns=urn:one xmlns:x='a b'){x:leaf val(y:q=1 xmlns:y=3)=t}" ++ [cNL] in
  v_print_doc sample_cfg nsdoc = (o, true) /\ exists v, nparse_buffer (enough o) None o [0] = NDocument v /\ Forall2 same nsdoc v.
Proof.
  destruct (C59_compact_round_trip_partial sample_cfg nsdoc [] eq_refl) as (o & v & E & P & S); [discriminate|exact nsdoc_ok|exact nsdoc_placed|discriminate|].
  cbv zeta. assert (X : v_print_doc sample_cfg nsdoc = (B "root(k x:k=v xmlns=urn:one xmlns:x='a b'){x:leaf val(y:q=1 xmlns:y=3)=t}" ++ [cNL], true)) by (vm_compute; reflexivity).
  split; [exact X|]. rewrite X in E. apply (f_equal fst) in E. cbn [fst] in E. rewrite E. exists v. auto.
Qed.

(** ** Outside of the conditions *)
Definition nagain (d : list vnode) : nresult := let o := fst (v_print_doc sample_cfg d) in nparse_buffer (enough o) None o [0].
Definition one_decl (u : option bytes) : list vnode := [VElem (Some (B "x")) u (B "a") [Decl (Some (B "x")) u] [] []].
(** A URI that has to be escaped: xmlns:x=&apos; is printed, the URI is lost and
    an entity is added to the element. *)
Theorem C59_escaped_uri_refuted :
  nagain (one_decl (Some (B "'"))) = NDocument [VElem (Some (B "x")) None (B "a") [Decl (Some (B "x")) None] [] [VPart (PRef (B "apos"))]].
Proof. vm_compute. reflexivity. Qed.
Print Assumptions C59_escaped_uri_refuted.
(** A URI with a quote at its start is printed as an entity and a quote without
    parentheses around them, xmlns:x=&#39;'b', and the output is refused; the same
    for a URI with a newline in compact form. *)
Theorem C59_quoted_uri_refuted : exists e, nagain (one_decl (Some (B "'b"))) = NError e.
Proof. exists 9. vm_compute. reflexivity. Qed.
Print Assumptions C59_quoted_uri_refuted.
Theorem C59_uri_with_newline_refuted : exists e, nagain (one_decl (Some (B "a" ++ [cNL] ++ B "b"))) = NError e.
Proof. exists 9. vm_compute. reflexivity. Qed.
Print Assumptions C59_uri_with_newline_refuted.
(** A URI that ends with a semicolon runs together with the next declaration. *)
Theorem C59_uri_semicolon_refuted :
  nagain [VElem None (Some (B "u;")) (B "a") [Decl None (Some (B "u;")); Decl (Some (B "x")) (Some (B "1"))] [] []] =
  NDocument [VElem None (Some (B "u;xmlns:x=1")) (B "a") [Decl None (Some (B "u;xmlns:x=1"))] [] []].
Proof. vm_compute. reflexivity. Qed.
Print Assumptions C59_uri_semicolon_refuted.
(** A prefix that is declared again keeps its first URI. *)
Theorem C59_prefix_redeclared_refuted : exists d, vnodes_ok sample_cfg d /\ ~ exists v, nagain d = NDocument v /\ Forall2 same d v.
Proof.
  exists [VElem None None (B "a") [Decl (Some (B "x")) (Some (B "1"))] [] [VElem (Some (B "x")) (Some (B "2")) (B "b") [Decl (Some (B "x")) (Some (B "2"))] [] []]].
  split.
  - constructor; [|discriminate|constructor]. apply vok_body; [a_ename| |reflexivity|].
    + cbn [vattrs_ok decls_ok]. split; [split; [a_lname|exists (B "1"); split; [reflexivity|a_uri 49]]|]. split; [now left|exact Logic.I].
    + constructor; [|discriminate|constructor]. apply vok_leaf; [split; [a_ename|a_lname]|].
      cbn [vattrs_ok decls_ok]. split; [split; [a_lname|exists (B "2"); split; [reflexivity|a_uri 50]]|]. split; [now left|exact Logic.I].
  - intros (v & E & S). assert (X : exists u k, u <> Some (B "2") /\ v = [VElem None None (B "a") [Decl (Some (B "x")) (Some (B "1"))] [] [VElem (Some (B "x")) u (B "b") k [] []]]).
    { revert E. vm_compute. intros E. injection E as <-. eexists _, _. split; [|reflexivity]. discriminate. }
    destruct X as (u & k & Nu & ->). inversion S as [|x y a b S1 _]; subst. inversion S1 as [p1 u1 n1 d1 d2 at1 k1 k2 P1 K| | | |]; subst.
    inversion K as [|x y a b S2 _]; subst. inversion S2; subst. now apply Nu.
Qed.
Print Assumptions C59_prefix_redeclared_refuted.
