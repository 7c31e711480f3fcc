(** C50, C51: namespaces of a document that is read from xmq. *)
From Coq Require Import NArith ZArith List Bool Arith String Lia.
From Verif Require Import Bytes BytesFacts Outcome Utf8 Quote Parser Detect Dom NsDom NsSpec NsProofs NsCore NsDoc NsNames NsPlain.
Import ListNotations.

Lemma nparse_document fuel root src aft d : nparse_buffer fuel root src aft = NDocument d ->
  exists s b t, tokenize fuel src aft = POk s /\ nbuild root (tokens s) (s_rest s ++ s_aft s) ninit = NOk b /\
    n_close_all (n_stack b) = Some t /\ d = map (view (n_heap b)) t.
Proof.
  unfold nparse_buffer. destruct (detect_content_type src aft) as [c|]; [|discriminate]. destruct c; try discriminate.
  destruct (tokenize fuel src aft) as [s|e s| | |s].
  - destruct (nbuild root (tokens s) (s_rest s ++ s_aft s) ninit) as [b| | |] eqn:E; try discriminate.
    destruct (n_close_all (n_stack b)) as [t|] eqn:C; [|discriminate]. intros [= <-]. eauto 10.
  - destruct (nbuild _ _ _ _); discriminate.
  - discriminate.
  - discriminate.
  - discriminate.
Qed.

(** ** C50: names are in the namespace of the innermost declaration *)

(** Full statement: for every document [Forall (bound []) d].  Missing: the
    documents that declare a prefix again inside of the scope of a declaration
    for it, or a default namespace below the root; there it is refuted. *)
Theorem C50_bound_partial : forall fuel root src aft d,
  nparse_buffer fuel root src aft = NDocument d -> simple_scopes d -> Forall (bound []) d.
Proof.
  intros fuel root src aft d E S. destruct (nparse_document fuel root src aft d E) as (s & b & t & _ & Eb & Ec & ->).
  exact (built_bound _ _ _ _ _ Eb Ec S).
Qed.
Print Assumptions C50_bound_partial.

Lemma resolves_eq sc p u u' : resolves sc p u -> resolves sc p u' -> u = u'.
Proof.
  intros R. revert u'. induction R; intros u' R'; inversion R'; subst; auto; congruence.
Qed.

(** A default namespace that is declared inside of an element applies to the
    elements after it, outside of its scope. *)
Theorem C50_default_leaks_refuted : exists src d,
  nparse_buffer 1000 None src [0%N] = NDocument d /\
  d = [VElem None None (B "a") [] []
        [VElem None (Some (B "1")) (B "b") [Decl None (Some (B "1"))] [] [];
         VElem None (Some (B "1")) (B "c") [] [] []]] /\
  ~ Forall (bound []) d.
Proof.
  exists (B "a { b(xmlns=1) c }"). eexists. split; [vm_compute; reflexivity|]. split; [reflexivity|].
  intros H. inversion H as [|x l H1 _]; subst. inversion H1 as [p u n ds at_ ks A1 A2 A3| | | |]; subst.
  inversion A3 as [|x l _ C]; subst. inversion C as [|x l C1 _]; subst. inversion C1 as [p u n ds at_ ks B1 B2 B3| | | |]; subst.
  destruct B1 as [[E _]|(w & R & E)]; [discriminate|]. cbn in R. inversion R; subst. discriminate.
Qed.
Print Assumptions C50_default_leaks_refuted.

(** The default namespace that an element declares does not apply to it when an
    element around it declares one too. *)
Theorem C50_default_redeclared_refuted : exists src d,
  nparse_buffer 1000 None src [0%N] = NDocument d /\
  d = [VElem None (Some (B "1")) (B "a") [Decl None (Some (B "1"))] []
        [VElem None (Some (B "1")) (B "b") [Decl None (Some (B "2"))] [] []]] /\
  ~ Forall (bound []) d.
Proof.
  exists (B "a(xmlns=1) { b(xmlns=2) }"). eexists. split; [vm_compute; reflexivity|]. split; [reflexivity|].
  intros H. inversion H as [|x l H1 _]; subst. inversion H1 as [p u n ds at_ ks A1 A2 A3| | | |]; subst.
  inversion A3 as [|x l C1 _]; subst. inversion C1 as [p u n ds at_ ks B1 B2 B3| | | |]; subst.
  destruct B1 as [[E _]|(w & R & E)]; [discriminate|].
  pose proof (resolves_eq _ _ _ _ R (res_here (Decl None (Some (B "2"))) _)) as Q. subst w. discriminate.
Qed.
Print Assumptions C50_default_redeclared_refuted.

(** The same for a prefix. *)
Theorem C50_prefix_redeclared_refuted : exists src d,
  nparse_buffer 1000 None src [0%N] = NDocument d /\
  d = [VElem None None (B "a") [Decl (Some (B "x")) (Some (B "1"))] []
        [VElem (Some (B "x")) (Some (B "1")) (B "b") [Decl (Some (B "x")) (Some (B "2"))] [] []]] /\
  ~ Forall (bound []) d.
Proof.
  exists (B "a(xmlns:x=1) { x:b(xmlns:x=2) }"). eexists. split; [vm_compute; reflexivity|]. split; [reflexivity|].
  intros H. inversion H as [|x l H1 _]; subst. inversion H1 as [p u n ds at_ ks A1 A2 A3| | | |]; subst.
  inversion A3 as [|x l C1 _]; subst. inversion C1 as [p u n ds at_ ks B1 B2 B3| | | |]; subst.
  destruct B1 as [[E _]|(w & R & E)]; [discriminate|].
  pose proof (resolves_eq _ _ _ _ R (res_here (Decl (Some (B "x")) (Some (B "2"))) _)) as Q. subst w. discriminate.
Qed.
Print Assumptions C50_prefix_redeclared_refuted.

(** A declaration without a value takes the value of a later attribute: [k] has
    none and [x] is declared as 5.  The printer gives such a declaration for a
    prefix that is not declared. *)
Theorem C50_value_of_other_attribute_refuted : 
  nparse_buffer 1000 None (B "a { x:b(xmlns:x) c(k=5) }") [0%N] =
  NDocument [VElem None None (B "a") [] []
    [VElem (Some (B "x")) (Some (B "5")) (B "b") [Decl (Some (B "x")) (Some (B "5"))] [] [];
     VElem None None (B "c") [] [VAttr None None (B "k") []] []]].
Proof. vm_compute. reflexivity. Qed.
Print Assumptions C50_value_of_other_attribute_refuted.

(** The value of a declaration that is a compound becomes a text in the element,
    and one that is an entity is added to the attribute before it. *)
Theorem C50_compound_refuted :
  nparse_buffer 1000 None (B "a(xmlns=('x'))") [0%N] =
    NDocument [VElem None None (B "a") [Decl None None] [] [VPart (PText (B "x"))]] /\
  nparse_buffer 1000 None (B "a(k=1 xmlns:y=&b;)") [0%N] =
    NDocument [VElem None None (B "a") [Decl (Some (B "y")) None] [VAttr None None (B "k") [PText (B "1"); PRef (B "b")]] []].
Proof. split; vm_compute; reflexivity. Qed.
Print Assumptions C50_compound_refuted.

(** A source without namespaces: what Dom.v says about it, this model says too,
    and its elements and attributes have no namespace. *)
Theorem C50_without_namespaces : forall fuel root src aft d,
  parse_buffer fuel root src aft = Document d ->
  nparse_buffer fuel root src aft = NDocument (map plain d).
Proof. intros fuel root src aft d E. pose proof (parse_plain fuel root src aft) as P. rewrite E in P. exact P. Qed.
Print Assumptions C50_without_namespaces.
Theorem C50_errors_without_namespaces : forall fuel root src aft e,
  parse_buffer fuel root src aft = Error e ->
  nparse_buffer fuel root src aft = NError e.
Proof. intros fuel root src aft d E. pose proof (parse_plain fuel root src aft) as P. rewrite E in P. exact P. Qed.
Print Assumptions C50_errors_without_namespaces.

(** ** C51: names are the ones in the source *)

(** The elements of the document have the names in the source, in their order,
    and no prefix is changed or added; a prefix can only be lost.  When the
    document has an implicit root it comes first. *)
Theorem C51_names_partial : forall fuel root src aft d,
  nparse_buffer fuel root src aft = NDocument d ->
  exists s R, tokenize fuel src aft = POk s /\ (R = [] \/ exists n, root = Some n /\ R = [(None, n)]) /\
    Forall2 (fun w e => snd e = snd w /\ (fst e = fst w \/ fst e = None))
      (R ++ written None (tokens s)) (flat_map elements d).
Proof.
  intros fuel root src aft d E. destruct (nparse_document fuel root src aft d E) as (s & b & t & Et & Eb & Ec & ->).
  destruct (built_names True _ _ _ _ _ (fun _ _ _ => I) Eb Ec) as (W0 & H1 & H2).
  exists s, W0. split; [exact Et|]. split; [exact H1|]. eapply Forall2_impl; [|exact H2].
  intros w x (A1 & A2). tauto.
Qed.
Print Assumptions C51_names_partial.

(** If the source does not declare a default namespace then no prefix is lost. *)
Theorem C51_names_without_default : forall fuel root src aft d s,
  nparse_buffer fuel root src aft = NDocument d -> tokenize fuel src aft = POk s ->
  (forall t, In t (tokens s) -> ~ declares_default t) ->
  flat_map elements d = written None (tokens s) \/
  exists n, root = Some n /\ flat_map elements d = (None, n) :: written None (tokens s).
Proof.
  intros fuel root src aft d s E Et ND. destruct (nparse_document fuel root src aft d E) as (s' & b & t & Et' & Eb & Ec & ->).
  assert (s' = s) by congruence. subst s'.
  destruct (built_names False _ _ _ _ _ (fun t I => ND t I) Eb Ec) as (W0 & H1 & H2).
  assert (Q : forall l m, Forall2 (fun (w x : option bytes * bytes) => snd x = snd w /\ (fst x = fst w \/ (False /\ fst x = None))) l m -> m = l).
  { intros l m F. induction F as [|[a b'] [c e] l m (A1 & A2) F IH]; [reflexivity|]. cbn in *. destruct A2 as [A2|[[] _]]. congruence. }
  apply Q in H2. destruct H1 as [-> | (n & -> & ->)]; [left; exact H2|right; exists n; split; [reflexivity|exact H2]].
Qed.
Print Assumptions C51_names_without_default.

(** An empty default namespace takes the prefix from the element. *)
Theorem C51_prefix_refuted : exists src d s,
  nparse_buffer 1000 None src [0%N] = NDocument d /\ tokenize 1000 src [0%N] = POk s /\
  written None (tokens s) = [(Some (B "x"), B "a")] /\ flat_map elements d = [(None, B "a")].
Proof.
  exists (B "x:a(xmlns:x=1 xmlns='')"). do 2 eexists. split; [vm_compute; reflexivity|]. split; [vm_compute; reflexivity|].
  split; vm_compute; reflexivity.
Qed.
Print Assumptions C51_prefix_refuted.

(** ** Examples *)
Definition spaces : bytes := B "x:a(xml:lang=e x:b=5 xmlns:x=6 xmlns=7) { x:c(x:k=8) d(y:k=9 xmlns:y=10) { y:e 'text' } }".
Definition spaces_doc : list vnode :=
  [VElem (Some (B "x")) (Some (B "6")) (B "a")
     [Decl (Some (B "x")) (Some (B "6")); Decl None (Some (B "7"))]
     [VAttr (Some (B "xml")) (Some XML_NS) (B "lang") [PText (B "e")];
      VAttr (Some (B "x")) (Some (B "6")) (B "b") [PText (B "5")]]
     [VElem (Some (B "x")) (Some (B "6")) (B "c") [] [VAttr (Some (B "x")) (Some (B "6")) (B "k") [PText (B "8")]] [];
      VElem None (Some (B "7")) (B "d") [Decl (Some (B "y")) (Some (B "10"))]
        [VAttr (Some (B "y")) (Some (B "10")) (B "k") [PText (B "9")]]
        [VElem (Some (B "y")) (Some (B "10")) (B "e") [] [] []; VPart (PText (B "text"))]]].
Example spaces_parse : nparse_buffer 1000 None spaces [0%N] = NDocument spaces_doc.
Proof. vm_compute. reflexivity. Qed.
Ltac shadow := repeat match goal with
  | |- Forall _ [] => apply Forall_nil
  | |- Forall _ (_ :: _) => apply Forall_cons
  | |- unshadowed _ (VElem _ _ _ _ _ _) => apply uns_elem
  | |- unshadowed _ (VPart _) => apply uns_part
  | |- no_default_inside _ => cbn
  | |- no_default (VElem _ _ _ _ _ _) => apply nd_elem
  | |- no_default (VPart _) => apply nd_part
  | |- _ /\ _ => split
  | |- ~ In _ _ => cbn; intuition discriminate
  | |- _ <> _ => discriminate
  end.
Example spaces_simple : simple_scopes spaces_doc.
Proof.
  split.
  - cbn. lia.
  - unfold spaces_doc. shadow.
  - unfold spaces_doc. shadow.
Qed.
Example spaces_bound : Forall (bound []) spaces_doc.
Proof. exact (C50_bound_partial _ _ _ _ _ spaces_parse spaces_simple). Qed.
Example spaces_names : exists s, tokenize 1000 (B "x:a(xmlns:x=1) { b x:c ?d='e' y:f=g }") [0%N] = POk s
  /\ (forall t, In t (tokens s) -> ~ declares_default t)
  /\ written None (tokens s) = [(Some (B "x"), B "a"); (None, B "b"); (Some (B "x"), B "c"); (Some (B "y"), B "f")]
  /\ exists d, nparse_buffer 1000 None (B "x:a(xmlns:x=1) { b x:c ?d='e' y:f=g }") [0%N] = NDocument d.
Proof.
  eexists. split; [vm_compute; reflexivity|]. split.
  - intros t T [K S]. vm_compute in T. repeat (destruct T as [<-|T]; [try discriminate K; try discriminate S|]). destruct T.
  - split; [vm_compute; reflexivity|]. eexists. vm_compute. reflexivity.
Qed.

Example plain_parse : parse_buffer 1000 None (B "a(k=1) { b = 'c' d }") [0%N] =
  Document [Elem (B "a") [(B "k", [PText (B "1")])] [Elem (B "b") [] [Part (PText (B "c"))]; Elem (B "d") [] []]].
Proof. vm_compute. reflexivity. Qed.
Example plain_error : exists e, parse_buffer 1000 None (B "a(k=1) { b = 'c' d") [0%N] = Error e.
Proof. eexists. vm_compute. reflexivity. Qed.
