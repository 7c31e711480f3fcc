(** Texts of the grammar with namespaces (NsGrammar.v) are recognised as xmq,
    apart from the words that are also json; the grammar without namespaces
    (Grammar.v) is a part of it. *)
From Coq Require Import NArith ZArith List Bool Arith Lia String.
From Verif Require Import Bytes BytesFacts QuoteSpec Parser ParserSpec Detect DetectProofs Dom Grammar NsGrammar LexProofs GrammarProofs DetectGrammar.
Import ListNotations.
Local Open Scope N_scope.

Lemma label_opens m p n : element_label m p n -> starts opens m.
Proof. intros []; [|apply starts_front]; now apply name_opens. Qed.
Lemma nhead_opens pre t z p n l : nhead pre t z p n l -> starts opens t.
Proof. intros []; [|apply starts_front]; eapply label_opens; eassumption. Qed.
Lemma nflat_opens pre t w y x : nflat pre t w y x -> starts opens t.
Proof.
  intros H; destruct H.
  - eapply piece_opens; eassumption.
  - eapply comment_opens; eassumption.
  - eapply nhead_opens; eassumption.
  - apply starts_front. eapply nhead_opens; eassumption.
  - now eexists _, _.
  - now eexists _, _.
Qed.
Lemma nsolids_opens pre t z ks : nsolids pre t z ks -> t = [] \/ starts opens t.
Proof.
  intros []; [now left|right..]; apply starts_front.
  - eapply nflat_opens; eassumption.
  - eapply nhead_opens; eassumption.
Qed.

(** Letters and line ends only: elements without anything. *)
Definition letter (c : N) : Prop := 97 <= c <= 122 \/ c = 10.
Lemma letters_app a b : Forall letter (a ++ b) -> Forall letter a /\ Forall letter b.
Proof. apply Forall_app. Qed.
Lemma no_letter c t : ~ letter c -> In c t -> ~ Forall letter t.
Proof. intros H I F. rewrite Forall_forall in F. auto. Qed.
Lemma name_letters n : Forall letter n -> ~ In cCOLON n.
Proof. intros F I. rewrite Forall_forall in F. specialize (F _ I). unfold letter, cCOLON in F. lia. Qed.

Definition sign (c : N) : bool := one_of [cQ; cAMP; cSLASH] c.
Lemma rep_sign c n : (1 <= n)%nat -> sign c = true -> starts sign (rep c n).
Proof. destruct n; [lia|]. intros _ H. exists c. now eexists. Qed.
Lemma piece_sign pre t z p : piece pre t z p -> starts sign t.
Proof.
  intros [t' z' v []|t' z' p' []]; try now eexists _, _. apply starts_front. now apply rep_sign.
Qed.
Lemma comment_sign pre t z v : comment pre t z v -> starts sign t.
Proof.
  intros [n b z' Hn|n t' z' v' Hn Hb]; [apply starts_front; apply rep_sign; [lia|reflexivity]|].
  remember (rep cSLASH n) as f eqn:Ef. destruct Hb; subst; apply starts_front; now apply rep_sign.
Qed.
Lemma sign_letters t : starts sign t -> ~ Forall letter t.
Proof.
  intros (c & r & -> & H) F. inversion F as [|? ? L _]; subst. unfold sign, one_of, letter, cQ, cAMP, cSLASH in *. cbn [existsb] in H. lia.
Qed.
Lemma in_letters c t : (c < 97 /\ c <> 10) \/ 122 < c -> In c t -> ~ Forall letter t.
Proof. intros H I F. rewrite Forall_forall in F. specialize (F _ I). unfold letter in F. lia. Qed.

Lemma nhead_letters pre t z p n l : nhead pre t z p n l -> Forall letter t -> p = None /\ l = [] /\ head pre t z n [].
Proof.
  intros [m z' p' n' L N|m w1 w2 t' z' p' n' l' L _ _ _] F.
  - destruct L as [n0 Hn|q n0 _ _]; [repeat split; now constructor|]. exfalso. revert F. apply (in_letters cCOLON); [left; unfold cCOLON; lia|].
    apply in_or_app. right. now left.
  - exfalso. revert F. apply (in_letters cLP); [left; unfold cLP; lia|]. apply in_or_app. right. apply in_or_app. right. now left.
Qed.
Lemma nsolids_letters pre t z ks : nsolids pre t z ks -> Forall letter t ->
  exists ns, ks = map (fun n => WElem None n [] []) ns /\ solids pre t z (map (fun n => Elem n [] []) ns).
Proof.
  induction 1 as [pre z H|pre t w t2 z x ks H G _ IH|pre h p n l w1 w2 b w t2 z kb ks]; intros F.
  - exists []. split; auto. now constructor.
  - apply Forall_app in F. destruct F as (F1 & F2). apply Forall_app in F2. destruct F2 as (F2 & F3).
    destruct (IH F3) as (ns & -> & S). remember (t2 ++ z) as y0 eqn:Ey in H. destruct H.
    + exfalso. revert F1. apply sign_letters. eapply piece_sign; eauto.
    + exfalso. revert F1. apply sign_letters. eapply comment_sign; eauto.
    + match goal with H : nhead _ _ _ _ _ _ |- _ => destruct (nhead_letters _ _ _ _ _ _ H F1) as (-> & -> & H') end.
      exists (n :: ns). split; [reflexivity|]. cbn [map]. constructor; auto. rewrite <- Ey. apply f_leaf; [exact H'|assumption].
    + exfalso. revert F1. apply (in_letters cEQ); [left; unfold cEQ; lia|].
      match goal with H : assigned _ _ _ _ |- _ => destruct H end. apply in_or_app. right. apply in_or_app. right. now left.
    + exfalso. revert F1. apply (in_letters cQM); [left; unfold cQM; lia|]. now left.
    + exfalso. revert F1. apply (in_letters 33); [left; lia|]. now left.
  - exfalso. revert F. apply (in_letters cLB); [right; unfold cLB; lia|]. apply in_or_app. right. apply in_or_app. right. now left.
Qed.
Lemma merge_names ns : merge_nodes (map (fun n => Elem n [] []) ns) = map (fun n => Elem n [] []) ns.
Proof. induction ns; cbn; congruence. Qed.
Lemma merge_wnames ns : merge_written (map (fun n => WElem None n [] []) ns) = map (fun n => WElem None n [] []) ns.
Proof. induction ns; cbn; congruence. Qed.

Definition wjson_word (d : list written) : Prop := exists w, In w json_words /\ d = [WElem None w [] []].

Theorem writes_down_detected src d aft : writes_down src d -> ~ wjson_word d -> detect_content_type src (0 :: aft) = DOk CXMQ.
Proof.
  intros H NJ. destruct H as (w & t & ks & -> & (Hw & Hb) & Hs & ->). pose proof Hs as Ho.
  apply nsolids_opens in Ho. destruct (drop_space w t Hw Ho) as [D|(c & r & D & Hc)].
  - destruct Ho as [Ht|(c & r & Ht & Hc)].
    + subst t. rewrite detect_spec_general.
      * unfold detect_spec. now rewrite D.
      * right. rewrite D. discriminate.
    + destruct (opens_spec c Hc) as (W & L & J). rewrite detect_spec_general.
      * unfold detect_spec. rewrite D. rewrite Ht. destruct (N.eqb_spec c cLT); [contradiction|]. rewrite J.
        destruct (existsb (beq (c :: r)) _) eqn:E; [|reflexivity]. exfalso. apply NJ.
        destruct (json_word_cases _ E) as (v & Hv & Ev).
        assert (X : exists n, t = v ++ n /\ (n = [] \/ n = [cNL])).
        { rewrite Ht. destruct Ev as [->| ->]; [exists []|exists [cNL]]; split; auto. now rewrite app_nil_r. }
        destruct X as (m & En & Hn).
        assert (FL : Forall letter t).
        { rewrite En. apply Forall_app. split.
          - unfold json_words in Hv. cbn [In] in Hv. destruct Hv as [<-|[<-|[<-|[]]]];
              [change (B "true") with [116; 114; 117; 101]|change (B "false") with [102; 97; 108; 115; 101]|change (B "null") with [110; 117; 108; 108]];
              repeat (constructor; [left; lia|]); constructor.
          - destruct Hn as [-> | ->]; [constructor|]. constructor; [right; reflexivity|constructor]. }
        destruct (nsolids_letters _ _ _ _ Hs FL) as (ns & -> & Sn). rewrite merge_wnames.
        assert (U : map (fun n => Elem n [] []) ns = [Elem v [] []]).
        { eapply (denotes_unique (w ++ v ++ m)).
          - exists w, t. eexists. split; [now rewrite En|]. split; [now split|]. split; [exact Sn|]. now rewrite merge_names.
          - now apply word_denotes. }
        destruct ns as [|n1 [|n2 ns]]; try discriminate. injection U as ->. exists v. auto.
      * right. rewrite D, Ht. congruence.
  - rewrite detect_spec_general.
    + unfold detect_spec. rewrite D. destruct Hc as [-> | ->]; reflexivity.
    + right. rewrite D. destruct Hc as [-> | ->]; discriminate.
Qed.

(** ** Without namespaces *)
Fixpoint without (x : node) : written :=
  match x with
  | Elem n l ks => WElem None n (map (fun a => Attribute None (fst a) (snd a)) l) (map without ks)
  | Part p => WPart p
  | Comment t => WComment t
  | PI n c => WPI n c
  | Doctype c => WDoctype c
  end.
Lemma merge_without ks : map without (merge_nodes ks) = merge_written (map without ks).
Proof.
  induction ks as [|x ks IH]; auto. destruct x as [n l k|[t|r]|t|n c|c]; cbn [merge_nodes map without merge_written]; try now rewrite IH.
  rewrite <- IH. destruct (merge_nodes ks) as [|[n l k|[u|r]|u|n c|c] q]; reflexivity.
Qed.
Lemma attributes_entries pre t z l : attributes pre t z l -> entries pre t z (map (fun a => Attribute None (fst a) (snd a)) l).
Proof.
  induction 1 as [|pre t w t2 z a l H G _ IH]; cbn [map]; constructor; auto.
  destruct H; [apply en_key|apply en_value]; auto; now constructor.
Qed.
Lemma head_nhead pre t z n l : head pre t z n l -> nhead pre t z None n (map (fun a => Attribute None (fst a) (snd a)) l).
Proof. intros []; constructor; auto; try now constructor. now apply attributes_entries. Qed.
Lemma flat_nflat pre t w y x : flat pre t w y x -> nflat pre t w y (without x).
Proof.
  intros H; destruct H; cbn [without].
  - now constructor.
  - now constructor.
  - apply nf_leaf; auto. now apply head_nhead.
  - rewrite map_map. apply nf_value; auto. now apply head_nhead.
  - now constructor.
  - now constructor.
Qed.
Lemma solids_nsolids pre t z ks : solids pre t z ks -> nsolids pre t z (map without ks).
Proof.
  induction 1 as [pre z H|pre t w t2 z x ks H G _ IH|pre h n l w1 w2 b w t2 z kb ks H G1 G2 _ IH1 G3 _ IH2].
  - now constructor.
  - cbn [map]. constructor; auto. now apply flat_nflat.
  - cbn [map without]. rewrite merge_without. eapply ns_body; eauto. now apply head_nhead.
Qed.
Theorem denotes_writes_down src d : denotes src d -> writes_down src (map without d).
Proof.
  intros (w & t & ks & E & G & S & ->). exists w, t, (map without ks). repeat split; auto; try apply G.
  - now apply solids_nsolids.
  - apply merge_without.
Qed.
