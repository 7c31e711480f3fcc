(** C51, continued: structure, attributes and values of a document with
    namespaces are those of the source. *)
From Coq Require Import NArith ZArith List Bool String.
From Verif Require Import Bytes BytesFacts Outcome Quote Parser Dom NsDom ParserSpec TokenSpec TokenProofs JoinSpec NsJoin JoinTokens PropsNs PropsTokens.
From Verif Require Grammar.
Import ListNotations.

(** The document is the one that the same tokens give when a prefix, a colon and
    a name are read as one name and a declaration as white space: the same
    elements with the same children, attributes, values, texts, comments and
    processing instructions, with the prefixes of the source.  The first case:
    the model without namespaces (Dom.v) does not cover the joined tokens (a
    processing instruction or doctype with attributes or children). *)
Theorem C51_structure : forall fuel root src aft d s J,
  nparse_buffer fuel root src aft = NDocument d -> tokenize fuel src aft = POk s -> joined root (tokens s) J ->
  build root J (s_rest s ++ s_aft s) (BS [FDoc []] LastNone None false) = BUnmodelled \/
  document_of root J (s_rest s ++ s_aft s) = Some (map qualified d).
Proof.
  intros fuel root src aft d s J E Et H. destruct (nparse_document fuel root src aft d E) as (s' & b & t & Et' & Eb & Ec & ->).
  assert (s' = s) by congruence. subst s'. exact (joined_document root (tokens s) J _ b t Eb Ec H).
Qed.
Print Assumptions C51_structure.

(** The tokens can be joined if every declaration has a value, which is not
    empty for a default namespace, and no prefixed element has the name of the
    implicit root. *)
Theorem C51_joined_exists : forall fuel root src aft s,
  tokenize fuel src aft = POk s -> declarations_given (tokens s) -> root_apart root (tokens s) ->
  exists J, joined root (tokens s) J.
Proof. intros fuel root src aft s E G R. exact (joined_exists root _ (C52_token_order _ _ _ _ E) G R). Qed.
Print Assumptions C51_joined_exists.

(** Joining does not change the text. *)
Theorem C51_joined_text : forall root T J, joined root T J -> texts J = texts T.
Proof. exact joined_texts. Qed.
Print Assumptions C51_joined_text.

(** The attributes of a processing instruction are given to the element before
    it, and one without a value takes the value of the element after it. *)
Theorem C51_instruction_refuted :
  nparse_buffer 1000 None (B "a { b ?foo(k=1) }") [0%N] =
    NDocument [VElem None None (B "a") [] [] [VElem None None (B "b") [] [VAttr None None (B "k") [PText (B "1")]] []]] /\
  nparse_buffer 1000 None (B "a { ?foo b=1 }") [0%N] =
    NDocument [VElem None None (B "a") [] [] [VElem None None (B "b") [] [] []; VPI (B "foo") (B "1")]].
Proof. split; vm_compute; reflexivity. Qed.
Print Assumptions C51_instruction_refuted.

(** ** Examples *)
Definition two : bytes := B "x:a(k=1 x:b='v' xmlns:x=u xmlns = 'w') { c(y:l=(&d; 'q')) 't' x:e=5 }".
Definition two_doc : list node :=
  [Elem (B "x:a") [(B "k", [PText (B "1")]); (B "x:b", [PText (B "v")])]
     [Elem (B "c") [(B "y:l", [PRef (B "d"); PText (B "q")])] []; Part (PText (B "t"));
      Elem (B "x:e") [] [Part (PText (B "5"))]]].
Example two_reads : exists d, nparse_buffer 1000 None two [0%N] = NDocument d /\ map qualified d = two_doc.
Proof. eexists. split; vm_compute; reflexivity. Qed.
Example two_given : exists s, tokenize 1000 two [0%N] = POk s /\ declarations_given (tokens s) /\ root_apart None (tokens s).
Proof.
  eexists. split; [vm_compute; reflexivity|]. split; [|intros x X; discriminate].
  match goal with |- declarations_given ?t => let v := eval vm_compute in t in change (declarations_given v) end.
  intros A t C E K.
  assert (W : forall l c t, ws_text t -> tok Kwhitespace ws_text (Tok Kwhitespace l c t [])) by (intros; split; auto).
  do 14 (destruct A as [|? A]; cbn [app] in E; [injection E as <- _; discriminate K|injection E as _ E]).
  destruct A as [|? A]; cbn [app] in E.
  { injection E as <- <-. match goal with |- exists D R, ?t :: ?c :: ?n :: ?e :: ?v :: _ = _ /\ _ => exists (t :: c :: n :: [] ++ e :: [] ++ [v]) end.
    eexists. split; [reflexivity|]. apply (dc_prefix _ _ _ [] _ []); try reflexivity; try discriminate; try (now left); constructor. }
  injection E as _ E.
  do 5 (destruct A as [|? A]; cbn [app] in E; [injection E as <- _; discriminate K|injection E as _ E]).
  destruct A as [|? A]; cbn [app] in E.
  { injection E as <- <-. match goal with |- exists D R, ?t :: ?w :: ?e :: ?x :: ?v :: _ = _ /\ _ => exists (t :: [w] ++ e :: [x] ++ [v]) end.
    eexists. split; [reflexivity|]. apply (dc_default _ [_] _ [_]); try reflexivity.
    - constructor; [|constructor]. apply W. repeat constructor.
    - constructor; [|constructor]. apply W. repeat constructor.
    - now right.
    - intros mem n x Q. vm_compute in Q. injection Q as <- <-. vm_compute. discriminate. }
  injection E as _ E.
  repeat (destruct A as [|? A]; cbn [app] in E; [first [discriminate E | injection E as <- _; discriminate K]|first [discriminate E | injection E as _ E]]).
Qed.
(** Joined tokens for which the document without namespaces is covered. *)
Example small_joined : exists s J d,
  tokenize 1000 (B "x:a(x:k=1 xmlns:x=u)") [0%N] = POk s /\ joined None (tokens s) J /\
  map t_text J = [B "x:a"; B "("; B "x:k"; B "="; B "1"; B " "; B "xmlns:x=u"; B ")"] /\
  nparse_buffer 1000 None (B "x:a(x:k=1 xmlns:x=u)") [0%N] = NDocument d /\
  document_of None J (s_rest s ++ s_aft s) = Some (map qualified d).
Proof.
  eexists. exists [Tok Kelement_name 1 1 (B "x:a") []; Tok Kapar_left 1 4 (B "(") []; Tok Kattr_key 1 5 (B "x:k") [];
    Tok Kequals 1 8 (B "=") []; Tok Kattr_value_text 1 9 (B "1") []; Tok Kwhitespace 1 10 (B " ") []; Tok Kwhitespace 1 11 (B "xmlns:x=u") [];
    Tok Kapar_right 1 20 (B ")") []]. eexists.
  split; [vm_compute; reflexivity|].
  match goal with |- joined _ ?t _ /\ _ => let v := eval vm_compute in t in change t with v end.
  split; [|split; [reflexivity|split; vm_compute; reflexivity]].
  apply j_elem; try reflexivity; try discriminate; [do 2 eexists; split; reflexivity|now left|].
  apply j_same; [repeat split; discriminate|]. apply j_attr; try reflexivity.
  do 3 (apply j_same; [repeat split; discriminate|]).
  match goal with |- joined _ (?t :: ?c :: ?n :: ?e :: ?v :: ?r) _ => apply (j_decl None (t :: c :: n :: [] ++ e :: [] ++ [v]) _ r) end; try reflexivity.
  - apply (dc_prefix _ _ _ [] _ []); try reflexivity; try discriminate; try (now left); constructor.
  - apply j_same; [repeat split; discriminate|]. constructor.
Qed.
