(** Texts of the grammar are recognised as xmq, apart from the words that are
    also json. *)
From Coq Require Import NArith ZArith List Bool Arith Lia String.
From Verif Require Import Bytes BytesFacts QuoteSpec Parser ParserSpec Detect DetectProofs Dom Grammar LexProofs GrammarProofs.
Import ListNotations.
Local Open Scope N_scope.

Definition json_words : list bytes := [B "true"; B "false"; B "null"].
(** The document is one empty element with such a name. *)
Definition json_word (d : list node) : Prop := exists w, In w json_words /\ d = [Elem w [] []].

(** What a source can begin with, after white space. *)
Definition opens (c : N) : bool :=
  is_xmq_element_start c || one_of [cQ; cAMP; cSLASH; cQM; cBANG] c.

Lemma starts_app p t z : t <> [] -> starts p (t ++ z) -> starts p t.
Proof. destruct t as [|c t]; [congruence|]. intros _ (c' & r & E & H). injection E as <- _. now exists c, t. Qed.
Lemma starts_front p t z : starts p t -> starts p (t ++ z).
Proof. intros (c & r & -> & H). now exists c, (r ++ z). Qed.
Lemma starts_impl (p q : N -> bool) t : (forall c, p c = true -> q c = true) -> starts p t -> starts q t.
Proof. intros H (c & r & E & P). exists c, r. auto. Qed.

Lemma rep_opens c n : (1 <= n)%nat -> opens c = true -> starts opens (rep c n).
Proof. destruct n; [lia|]. intros _ H. exists c. now eexists. Qed.
Lemma quote_opens pre t z v : quote pre t z v -> starts opens t.
Proof. intros []; [now exists cQ, [cQ]|]. apply starts_front. now apply rep_opens. Qed.
Lemma entity_opens t p : entity t p -> starts opens t.
Proof. intros []; now eexists _, _. Qed.
Lemma piece_opens pre t z p : piece pre t z p -> starts opens t.
Proof. intros []; [eapply quote_opens; eassumption|eapply entity_opens; eassumption]. Qed.
Lemma name_opens n : element_name n -> starts opens n.
Proof. intros (H & _). eapply starts_impl; [|exact H]. intros c E. unfold opens. now rewrite E. Qed.
Lemma head_opens pre t z n l : head pre t z n l -> starts opens t.
Proof. intros []; [now apply name_opens|]. apply starts_front. now apply name_opens. Qed.
Lemma bodies_opens n pre f t z v : (1 <= n)%nat -> bodies n pre f t z v -> f = rep cSLASH n -> starts opens t.
Proof. intros H []; intros ->; apply starts_front; now apply rep_opens. Qed.
Lemma comment_opens pre t z v : comment pre t z v -> starts opens t.
Proof.
  intros []; [apply starts_front; apply rep_opens; [lia|reflexivity]|].
  eapply bodies_opens; eauto.
Qed.
Lemma flat_opens pre t w y x : flat pre t w y x -> starts opens t.
Proof.
  intros H; destruct H.
  - eapply piece_opens; eassumption.
  - eapply comment_opens; eassumption.
  - eapply head_opens; eassumption.
  - apply starts_front. eapply head_opens; eassumption.
  - now eexists _, _.
  - now eexists _, _.
Qed.
Lemma solids_opens pre t z ks : solids pre t z ks -> t = [] \/ starts opens t.
Proof.
  intros []; [now left|right..]; apply starts_front.
  - eapply flat_opens; eassumption.
  - eapply head_opens; eassumption.
Qed.

Lemma opens_spec c : opens c = true ->
  is_xml_whitespace c = false /\ c <> cLT /\ existsb (N.eqb c) (B "{[0123456789" ++ [cDQ]) = false.
Proof.
  change (B "{[0123456789" ++ [cDQ]) with [123; 91; 48; 49; 50; 51; 52; 53; 54; 55; 56; 57; 34].
  unfold opens, is_xmq_element_start, one_of, is_xml_whitespace, in_range, cQ, cAMP, cSLASH, cQM, cBANG, cUND, cLT, cSP, cNL, cTAB, cCR.
  cbn [existsb]. lia.
Qed.

(** White space of the grammar is skipped up to a character beyond ascii. *)
Lemma drop_space w t : space w -> (t = [] \/ starts opens t) ->
  drop_ws (w ++ t) = t \/ exists c r, drop_ws (w ++ t) = c :: r /\ (c = 0xc2 \/ c = 0xe2).
Proof.
  intros Hw Ht.
  assert (D : drop_ws t = t).
  { destruct Ht as [->|(c & r & -> & H)]; [reflexivity|]. cbn [drop_ws]. now destruct (opens_spec c H) as (-> & _). }
  assert (T : ws_text w -> drop_ws (w ++ t) = t \/ exists c r, drop_ws (w ++ t) = c :: r /\ (c = 0xc2 \/ c = 0xe2)).
  { clear Hw. induction 1 as [|c u Hc _ IH| |].
    - now left.
    - cbn [app drop_ws]. assert (is_xml_whitespace c = true) as -> by (unfold is_xmq_token_whitespace, is_xml_whitespace in *; lia).
      exact IH.
    - right. cbn [app]. eexists _, _. split; [reflexivity|now left].
    - right. cbn [app]. eexists _, _. split; [reflexivity|now right]. }
  apply T. destruct Hw as [->|(c & u & -> & Hc & Hu)]; [constructor|now constructor].
Qed.

(** What is recognised as json is one of the words. *)
Lemma json_word_cases u : existsb (beq u) [B "true"; B "false"; B "null"; B "true" ++ [cNL]; B "false" ++ [cNL]; B "null" ++ [cNL]] = true ->
  exists v, In v json_words /\ (u = v \/ u = v ++ [cNL]).
Proof.
  intros H. apply existsb_exists in H. destruct H as (w & Hin & Hb). apply beq_eq in Hb. subst w.
  unfold json_words. cbn [In] in Hin. 
  repeat destruct Hin as [<-|Hin]; try (eexists; split; [|eauto]; cbn [In]; auto; fail).
Qed.

Lemma word_denotes w v n : space w -> In v json_words -> (n = [] \/ n = [cNL]) -> denotes (w ++ v ++ n) [Elem v [] []].
Proof.
  intros Hw Hv Hn.
  assert (N : element_name v).
  { unfold json_words in Hv. cbn [In] in Hv. repeat destruct Hv as [<-|Hv]; try destruct Hv;
      (split; [now eexists _, _|split; [reflexivity|]]; intros I; vm_compute in I; intuition discriminate). }
  assert (W : ~ begins_white (v ++ n)).
  { destruct N as ((c & r & -> & H) & _). intros B. inversion B; subst; clear B.
    - unfold is_xmq_element_start, is_xml_whitespace, in_range, cSP, cNL, cTAB, cCR, cUND in *. lia.
    - discriminate H.
    - discriminate H. }
  exists w, (v ++ n), [Elem v [] []]. split; [reflexivity|]. split; [now split|]. split; [|reflexivity].
  replace (v ++ n) with (v ++ n ++ []) by now rewrite app_nil_r.
  constructor.
  - apply f_leaf; [|intros (? & ? & H & _); discriminate H]. apply h_plain; [exact N|].
    destruct Hn as [-> | ->]; intros (? & ? & H & E); [discriminate H|]. injection H as <- _. discriminate E.
  - split; [|intros H; inversion H]. destruct Hn as [-> | ->]; [now left|right]. eexists _, _. split; [reflexivity|]. split; [reflexivity|constructor].
  - constructor. now left.
Qed.

Theorem denotes_detected src d aft : denotes src d -> ~ json_word d -> detect_content_type src (0 :: aft) = DOk CXMQ.
Proof.
  intros H NJ. pose proof H as (w & t & ks & -> & (Hw & Hb) & Hs & ->).
  apply solids_opens in Hs. destruct (drop_space w t Hw Hs) as [D|(c & r & D & Hc)].
  - destruct Hs as [->|(c & r & -> & Hc)].
    + rewrite detect_spec_general.
      * unfold detect_spec. now rewrite D.
      * right. rewrite D. discriminate.
    + destruct (opens_spec c Hc) as (W & L & J). rewrite detect_spec_general.
      * unfold detect_spec. rewrite D. destruct (N.eqb_spec c cLT); [contradiction|]. rewrite J.
        destruct (existsb (beq (c :: r)) _) eqn:E; [|reflexivity]. exfalso. apply NJ.
        destruct (json_word_cases _ E) as (v & Hv & Ev). exists v. split; [exact Hv|].
        assert (X : exists n, c :: r = v ++ n /\ (n = [] \/ n = [cNL])).
        { destruct Ev as [->| ->]; [exists []|exists [cNL]]; split; auto. now rewrite app_nil_r. }
        destruct X as (m & En & Hn). rewrite En in H. symmetry. eapply denotes_unique; [|exact H]. now apply word_denotes.
      * right. rewrite D. congruence.
  - rewrite detect_spec_general.
    + unfold detect_spec. rewrite D. destruct Hc as [-> | ->]; reflexivity.
    + right. rewrite D. destruct Hc as [-> | ->]; discriminate.
Qed.

(** Reading a text of the grammar. *)
Theorem denotes_parse src d aft : denotes src d -> ~ json_word d ->
  parse_buffer (enough src) None src (0 :: aft) = Document d.
Proof. intros H N. apply denotes_parses; [exact H|]. eapply denotes_detected; eassumption. Qed.
