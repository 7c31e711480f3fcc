(** Properties C62 and C63: the output as c-lines and as text.  The functions
    of the code are in Clines.v, the specification is in ClinesSpec.v. *)
From Coq Require Import NArith ZArith List Bool Arith Lia String.
From Verif Require Import Bytes BytesFacts Utf8Proofs Outcome Quote Parser Detect DetectGrammar CQuote CQuoteProofs Dom Grammar Printer Compact CompactProofs CompactDoc Clines ClinesSpec PropsBasic PropsText PropsPrinter.
Import ListNotations.
Local Open Scope N_scope.
Local Open Scope list_scope.

Section node_ind2.
  Variable P : node -> Prop.
  Hypothesis He : forall n ats ks, Forall P ks -> P (Elem n ats ks).
  Hypothesis Hp : forall p, P (Part p).
  Hypothesis Hc : forall t, P (Comment t).
  Hypothesis Hi : forall n t, P (PI n t).
  Hypothesis Hd : forall t, P (Doctype t).
  Fixpoint node_ind2 (x : node) : P x :=
    match x with
    | Elem n ats ks => He n ats ks ((fix all l : Forall P l := match l with [] => Forall_nil P | y :: r => Forall_cons y (node_ind2 y) (all r) end) ks)
    | Part p => Hp p
    | Comment t => Hc t
    | PI n t => Hi n t
    | Doctype t => Hd t
    end.
End node_ind2.

(** ** What is written *)
Lemma quoted t : utf8_text t -> exists q, quote_as_c t [0] false = Ok q /\ quote_as_c t [0] true = Ok (cDQ :: q ++ [cDQ]) /\ c_string q t.
Proof. intros (us & H & ->). destruct (C31_quoting_denotes_text_partial us [0] H) as (o & A & A' & D & _). now exists o. Qed.
Lemma xpath_place p : cline_print_xpath p = flat_map (fun n => B "/" ++ n) p.
Proof. induction p as [|n p IH]; [reflexivity|]. cbn [cline_print_xpath flat_map]. now rewrite IH. Qed.
Lemma written_app es o es' o' : written es o -> written es' o' -> written (es ++ es') (o ++ o').
Proof.
  induction 1 as [|e es q o Hq H IH]; intros H'; [exact H'|]. specialize (IH H'). rewrite <- !app_assoc. cbn [app].
  exact (wr_line e (es ++ es') q (o ++ o') Hq IH).
Qed.
Lemma list_string_spec ps : forallb is_ptext ps = true -> ps <> [] -> list_string ps = Some (flat_map part_text ps).
Proof.
  induction ps as [|p ps IH]; [congruence|]. intros H _. cbn [forallb] in H. apply andb_true_iff in H as (Hp & H). destruct p as [t|n]; [|discriminate].
  cbn [list_string flat_map part_text]. destruct ps as [|p ps]; [reflexivity|]. rewrite IH; auto. discriminate.
Qed.
Lemma attrs_written path ats : Forall (fun a => forallb is_ptext (snd a) = true /\ utf8_text (flat_map part_text (snd a))) ats ->
  exists o, cline_print_attributes path ats = Ok o /\ written (map (fun a => Entry path (Some (fst a)) (flat_map part_text (snd a))) ats) o.
Proof.
  induction 1 as [|(k & ps) ats (Hp & Hu) H (o & IH & W)]; [exists []; split; [reflexivity|constructor]|].
  cbn [cline_print_attributes map fst snd] in *. destruct (quoted _ Hu) as (q & _ & Q & D).
  assert (E : cline_print_attr path (k, ps) = Ok (place (Entry path (Some k) (flat_map part_text ps)) ++ B "=""" ++ q ++ [cDQ; cNL])).
  { unfold cline_print_attr, place. cbn [e_path e_key]. rewrite xpath_place. destruct ps as [|p ps].
    - inversion D; subst. cbn [obind]. rewrite <- !app_assoc. reflexivity.
    - rewrite list_string_spec by (auto; discriminate). rewrite Q. cbn [obind]. f_equal. rewrite <- !app_assoc. cbn [app]. rewrite <- !app_assoc. reflexivity. }
  rewrite E. cbn [obind]. rewrite IH. cbn [obind]. eexists. split; [reflexivity|]. rewrite <- !app_assoc. now apply (wr_line (Entry path (Some k) (flat_map part_text ps))).
Qed.
Lemma node_written x : forall path, texts_only x -> exists o, cline_print_node path x = Ok o /\ written (entries path x) o.
Proof.
  induction x as [n ats ks IH|p|t|n t|t] using node_ind2; intros path H; [|destruct H as (Hp & Hu)|exists []; split; [reflexivity|constructor]..].
  - destruct H as (Ha & Hk). destruct (attrs_written (path ++ [n]) ats Ha) as (a & Ea & Wa).
    assert (A : exists k, (fix all (l : list node) : out bytes :=
              match l with
              | [] => Ok []
              | y :: r => (u <- cline_print_node (path ++ [n]) y ; v <- all r ; Ok (u ++ v))%out
              end) ks = Ok k /\ written (flat_map (entries (path ++ [n])) ks) k).
    { clear Ea Wa Ha. induction IH as [|y r Hy Hr IHr]; [exists []; split; [reflexivity|constructor]|].
      destruct Hk as (H1 & H2). destruct (Hy (path ++ [n]) H1) as (u & Eu & Wu). destruct (IHr H2) as (v & Ev & Wv). rewrite Eu. cbn [obind]. rewrite Ev. cbn [obind].
      exists (u ++ v). split; [reflexivity|]. cbn [flat_map]. now apply written_app. }
    assert (K : exists k, match ks with
         | [] => Ok (cline_print_xpath (path ++ [n]) ++ [cEQ; cDQ; cDQ; cNL])
         | _ =>
           (fix all (l : list node) : out bytes :=
              match l with
              | [] => Ok []
              | y :: r => (u <- cline_print_node (path ++ [n]) y ; v <- all r ; Ok (u ++ v))%out
              end) ks
         end = Ok k /\ written match ks with [] => [Entry (path ++ [n]) None []] | _ => flat_map (entries (path ++ [n])) ks end k).
    { destruct ks as [|y ks]; [|exact A].
      eexists. split; [reflexivity|]. rewrite xpath_place. pose proof (wr_line (Entry (path ++ [n]) None []) [] [] [] cs_nil wr_nil) as W.
      unfold place in W. cbn [e_path e_key app] in W. rewrite app_nil_r in W. exact W. }
    destruct K as (k & Ek & Wk). exists (a ++ k). split; [|cbn [entries]; now apply written_app].
    cbn [cline_print_node]. cbn zeta. rewrite Ea. cbn [obind]. rewrite Ek. reflexivity.
  - destruct p as [t|r]; [|discriminate]. cbn [part_text] in Hu. destruct (quoted _ Hu) as (q & Q & _ & D). cbn [cline_print_node entries part_text]. rewrite Q. cbn [obind].
    eexists. split; [reflexivity|]. pose proof (wr_line (Entry path None t) [] q [] D wr_nil) as W. unfold place in W. cbn [e_path e_key] in W. rewrite !app_nil_r in W. rewrite xpath_place. exact W.
Qed.

(** C62: every text, attribute and empty element of a document has its line,
    with its path and its value, in the order of the document.  Missing:
    references to entities and bytes that are not utf8, for which it is false
    (below). *)
Theorem C62_each_value_has_a_line_partial : forall d, Forall texts_only d ->
  exists o, xmq_print_clines d = Ok o /\ written (doc_entries d) o.
Proof.
  induction 1 as [|x d Hx H (o & E & W)]; [exists []; split; [reflexivity|constructor]|].
  destruct (node_written x [] Hx) as (u & Eu & Wu). exists (u ++ o). cbn [xmq_print_clines doc_entries flat_map]. rewrite Eu. cbn [obind]. rewrite E. split; [reflexivity|].
  now apply written_app.
Qed.
Print Assumptions C62_each_value_has_a_line_partial.

(** ** The lines tell the entries *)
Lemma split_first (c : N) a b x y : ~ In c a -> ~ In c b -> a ++ c :: x = b ++ c :: y -> a = b /\ x = y.
Proof.
  revert b. induction a as [|d a IH]; intros [|e b] Ha Hb E; cbn [app] in E; [now injection E as ->|injection E as -> _; exfalso; apply Hb; now left|injection E as <- _; exfalso; apply Ha; now left|].
  injection E as <- E. destruct (IH b) as (-> & ->); auto; intros X; [apply Ha|apply Hb]; now right.
Qed.
Lemma c_string_stops q s : c_string q s -> forall q' s' x y, c_string q' s' -> q ++ cDQ :: x = q' ++ cDQ :: y -> q = q' /\ x = y.
Proof.
  induction 1 as [|c o s Hc N1 N2 H IH|e c o s He H IH|h l a b o s Ha Hb H IH]; intros q' s' x y H' E.
  - inversion H'; subst; cbn [app] in E; [injection E as E; auto|injection E as E _; congruence|discriminate E..].
  - inversion H'; subst; cbn [app] in E; [injection E as E _; congruence| |injection E as E _; congruence..].
    injection E as -> E. match goal with X : c_string _ _ |- _ => destruct (IH _ _ _ _ X E) as (-> & ->) end. auto.
  - inversion H'; subst; cbn [app] in E; [discriminate E|injection E as E _; congruence| |].
    + injection E as -> E. match goal with X : c_string _ _ |- _ => destruct (IH _ _ _ _ X E) as (-> & ->) end. auto.
    + injection E as -> E. exfalso. eapply escape_x. eassumption.
  - inversion H'; subst; cbn [app] in E; [discriminate E|injection E as E _; congruence| |].
    + injection E as <- E. exfalso. eapply escape_x. eassumption.
    + injection E as -> -> E. match goal with X : c_string o0 _ |- _ => destruct (IH _ _ _ _ X E) as (-> & ->) end. auto.
Qed.
Definition segments (e : entry) : list bytes := e_path e ++ match e_key e with Some k => [64 :: k] | None => [] end.
Lemma place_segments e : place e = flat_map (fun n => B "/" ++ n) (segments e).
Proof. unfold place, segments. rewrite flat_map_app. destruct (e_key e); cbn [flat_map]; rewrite ?app_nil_r; reflexivity. Qed.
Lemma segments_unique a b : Forall (fun n => ~ In cSLASH n) a -> Forall (fun n => ~ In cSLASH n) b ->
  flat_map (fun n => B "/" ++ n) a = flat_map (fun n => B "/" ++ n) b -> a = b.
Proof.
  intros Ha. revert b. induction Ha as [|n a Hn Ha IH]; intros [|m b] Hb E; [reflexivity|discriminate E..|]. inversion Hb; subst.
  cbn [flat_map B app] in E. cbn in E. injection E as E.
  assert (X : n = m /\ flat_map (fun n => B "/" ++ n) a = flat_map (fun n => B "/" ++ n) b).
  { destruct a as [|n' a], b as [|m' b]; cbn [flat_map] in E |- *.
    - rewrite !app_nil_r in E. auto.
    - exfalso. rewrite app_nil_r in E. subst n. apply Hn. apply in_or_app. right. now left.
    - exfalso. rewrite app_nil_r in E. subst m. match goal with X : ~ In cSLASH (_ ++ _) |- _ => apply X end. apply in_or_app. right. now left.
    - destruct (split_first cSLASH n m (n' ++ flat_map (fun n => B "/" ++ n) a) (m' ++ flat_map (fun n => B "/" ++ n) b)) as (-> & E2); auto.
      split; auto. cbn [B app]. change (cSLASH :: n' ++ flat_map (fun n => B "/" ++ n) a = cSLASH :: m' ++ flat_map (fun n => B "/" ++ n) b). now f_equal. }
  destruct X as (-> & X). f_equal. auto.
Qed.
Lemma place_unique e e' : entry_ok e -> entry_ok e' -> place e = place e' -> e_path e = e_path e' /\ e_key e = e_key e'.
Proof.
  intros (P & K) (P' & K') E. rewrite !place_segments in E. apply segments_unique in E.
  - unfold segments in E. destruct (e_key e) as [k|], (e_key e') as [k'|].
    + apply app_inj_tail in E as (E1 & E2). injection E2 as ->. auto.
    + exfalso. rewrite app_nil_r in E. rewrite <- E in P'. apply Forall_app in P' as (_ & P'). inversion P' as [|? ? X]; subst. destruct X as (_ & _ & X). now apply (X k).
    + exfalso. rewrite app_nil_r in E. rewrite E in P. apply Forall_app in P as (_ & P). inversion P as [|? ? X]; subst. destruct X as (_ & _ & X). now apply (X k').
    + now rewrite !app_nil_r in E.
  - unfold segments. apply Forall_app. split; [eapply Forall_impl; [|exact P]; intros n (X & _); exact X|]. destruct (e_key e); constructor; [|constructor]. intros [X|X]; [discriminate X|tauto].
  - unfold segments. apply Forall_app. split; [eapply Forall_impl; [|exact P']; intros n (X & _); exact X|]. destruct (e_key e'); constructor; [|constructor]. intros [X|X]; [discriminate X|tauto].
Qed.
Lemma place_no_eq e : entry_ok e -> ~ In cEQ (place e).
Proof.
  intros (P & K) I. unfold place in I. apply in_app_or in I as [I|I].
  - apply in_flat_map in I as (n & Hn & I). rewrite Forall_forall in P. destruct (P n Hn) as (_ & X & _). apply in_app_or in I as [I|I]; [|tauto]. destruct I as [I|[]]. discriminate I.
  - destruct (e_key e); [|destruct I]. apply in_app_or in I as [I|I]; [|tauto]. destruct I as [I|[I|[]]]; discriminate I.
Qed.
(** C62: the lines tell all entries and their order: no other list of entries,
    with names that have no slash or equals sign and do not start with an at
    sign, is written like this. *)
Theorem C62_lines_are_unambiguous : forall es es' o,
  Forall entry_ok es -> Forall entry_ok es' -> written es o -> written es' o -> es = es'.
Proof.
  intros es es' o F F' W. revert es' F F'. induction W as [|e es q o Hq W IH]; intros es' F F' W'.
  - inversion W' as [|e es2 q o Hq W2 E1 E]; [reflexivity|]. exfalso. apply app_eq_nil in E as (_ & E). discriminate E.
  - inversion W' as [E1 E|e' es2 q' o' Hq' W2 E1 E]; [exfalso; symmetry in E; apply app_eq_nil in E as (_ & E); discriminate E|]. subst es'. inversion F; subst. inversion F'; subst.
    change (B "=""") with [cEQ; cDQ] in E. cbn [app] in E.
    apply split_first in E as (Ep & E); [|now apply place_no_eq..]. injection E as E. destruct (c_string_stops _ _ Hq' _ _ _ _ Hq E) as (-> & Eo). injection Eo as ->.
    destruct (place_unique e e') as (E1 & E2); auto. pose proof (c_string_unique _ _ Hq _ Hq') as E3. f_equal; [destruct e, e'; cbn in *; now subst|]. apply IH; auto.
Qed.
Print Assumptions C62_lines_are_unambiguous.
Lemma line_names_ok x : forall path, Forall line_name path -> line_names x -> Forall entry_ok (entries path x).
Proof.
  induction x as [n ats ks IH|p|t|n t|t] using node_ind2; intros path P H; [|constructor; [split; [exact P|exact I]|constructor]|constructor..].
  destruct H as (Hn & Ha & Hk). assert (P' : Forall line_name (path ++ [n])) by (apply Forall_app; split; auto). cbn [entries]. apply Forall_app. split.
  - apply Forall_map. eapply Forall_impl; [|exact Ha]. intros a X. split; [exact P'|exact X].
  - assert (A : Forall entry_ok (flat_map (entries (path ++ [n])) ks)).
    { clear Ha. induction IH as [|y r Hy Hr IHr]; [constructor|]. destruct Hk as (H1 & H2). cbn [flat_map]. apply Forall_app. split; auto. }
    destruct ks as [|y ks]; [constructor; [split; [exact P'|exact I]|constructor]|exact A].
Qed.
(** C62: two documents with the same lines have the same entries. *)
Theorem C62_lines_tell_the_entries_partial : forall d d' o,
  Forall texts_only d -> Forall texts_only d' -> Forall line_names d -> Forall line_names d' ->
  xmq_print_clines d = Ok o -> xmq_print_clines d' = Ok o -> doc_entries d = doc_entries d'.
Proof.
  intros d d' o T T' L L' E E'. destruct (C62_each_value_has_a_line_partial d T) as (u & Eu & W). destruct (C62_each_value_has_a_line_partial d' T') as (u' & Eu' & W').
  rewrite E in Eu. injection Eu as <-. rewrite E' in Eu'. injection Eu' as <-. apply (C62_lines_are_unambiguous _ _ o); auto.
  - unfold doc_entries. clear - L. induction L as [|x d Hx L IH]; [constructor|]. cbn [flat_map]. apply Forall_app. split; auto. now apply line_names_ok.
  - unfold doc_entries. clear - L'. induction L' as [|x d Hx L IH]; [constructor|]. cbn [flat_map]. apply Forall_app. split; auto. now apply line_names_ok.
Qed.
Print Assumptions C62_lines_tell_the_entries_partial.

(** A document that meets the hypotheses *)
Definition lines_doc : list node :=
  [Comment (B "note");
   Elem (B "car") [(B "id", [PText (B "a""1")]); (B "old", [])] [Elem (B "speed") [] [Part (PText (B "12"))]; Elem (B "none") [] []; Part (PText ([10] ++ B "x"))]].
Example lines_doc_ok : Forall texts_only lines_doc /\ Forall line_names lines_doc.
Proof.
  assert (U : forall t, forallb (fun c => (0 <? c) && (c <? 128)) t = true -> utf8_text t).
  { intros t H. exists t. rewrite forallb_forall in H. split.
    - apply Forall_forall. intros c Hc. specialize (H c Hc). rewrite andb_true_iff, !N.ltb_lt in H. lia.
    - induction t as [|c t IH]; [reflexivity|]. cbn [map List.concat]. rewrite <- IH by (intros x Hx; apply H; now right). specialize (H c (or_introl eq_refl)). rewrite andb_true_iff, !N.ltb_lt in H.
      unfold utf8_spec. destruct (N.ltb_spec c 0x80); [reflexivity|lia]. }
  split; repeat (constructor || split); try (apply U; vm_compute; reflexivity); intros X; vm_compute in X; repeat destruct X as [X|X]; try discriminate X; try contradiction.
  all: try (intros E; discriminate E).
Qed.
Example lines_doc_lines : xmq_print_clines lines_doc =
  Ok (B "/car/@id=""a\""1""" ++ [10] ++ B "/car/@old=""""" ++ [10] ++ B "/car/speed=""12""" ++ [10] ++ B "/car/none=""""" ++ [10] ++ B "/car=""\nx""" ++ [10]).
Proof. vm_compute. reflexivity. Qed.

(** C62 is false for references: an entity is left out with its element, *)
Theorem C62_reference_is_lost_refuted : xmq_print_clines [Elem (B "a") [] [Elem (B "b") [] [Part (PRef (B "nbsp"))]]] = Ok [].
Proof. reflexivity. Qed.
(** a reference to a predefined entity is undefined behaviour, *)
Theorem C62_predefined_reference_refuted : parse_buffer 1000 None (B "a=&lt;") [0] = Document [Elem (B "a") [] [Part (PRef (B "lt"))]]
  /\ xmq_print_clines [Elem (B "a") [] [Part (PRef (B "lt"))]] = UB.
Proof. split; vm_compute; reflexivity. Qed.
(** and so is an attribute that is a reference; next to a text the reference
    is left out. *)
Theorem C62_reference_in_attribute_refuted :
  parse_buffer 1000 None (B "a(b=&nbsp;)") [0] = Document [Elem (B "a") [(B "b", [PRef (B "nbsp")])] []]
  /\ xmq_print_clines [Elem (B "a") [(B "b", [PRef (B "nbsp")])] []] = UB
  /\ xmq_print_clines [Elem (B "a") [(B "b", [PText (B "x"); PRef (B "lt"); PText (B "y")])] []] = Ok (B "/a/@b=""xy""" ++ [10] ++ B "/a=""""" ++ [10]).
Proof. split; [|split]; vm_compute; reflexivity. Qed.
(** The lines do not tell where an element ends: two elements or one. *)
Theorem C62_siblings_refuted : xmq_print_clines [Elem (B "a") [] [Elem (B "b") [] [Elem (B "c") [] []; Elem (B "d") [] []]]]
  = xmq_print_clines [Elem (B "a") [] [Elem (B "b") [] [Elem (B "c") [] []]; Elem (B "b") [] [Elem (B "d") [] []]]].
Proof. vm_compute. reflexivity. Qed.
Print Assumptions C62_predefined_reference_refuted.

(** ** C63 *)
Lemma c_str_id s : ~ In 0 s -> c_str s = s.
Proof. induction s as [|c s IH]; [reflexivity|]. intros H. cbn [c_str]. destruct (N.eqb_spec c 0) as [->|_]; [exfalso; apply H; now left|]. rewrite IH; auto. intros X. apply H. now right. Qed.
Lemma print_parsed root s : ~ In 0 s -> xmq_print_text (xmq_parse_buffer_text root s) = s.
Proof. intros H. unfold xmq_parse_buffer_text, xmq_print_text. rewrite c_str_id by auto. destruct root as [[|c n]|]; cbn [flat_map text_print_node]; now rewrite ?app_nil_r. Qed.
(** C63: a text that is loaded and printed as text is the same, apart from a
    byte order mark, with or without an element around it. *)
Theorem C63_text_is_kept_partial : forall root s, ~ In 0 s ->
  ((forall r, s <> [0xef; 0xbb; 0xbf] ++ r) -> (forall r, s <> [0xff; 0xfe] ++ r) -> (forall r, s <> [0xfe; 0xff] ++ r) ->
   exists d, parse_text root s = Some d /\ xmq_print_text d = s) /\
  (s <> [] -> exists d, parse_text root ([0xef; 0xbb; 0xbf] ++ s) = Some d /\ xmq_print_text d = s).
Proof.
  intros root s H. split.
  - intros H1 H2 H3. destruct (C07_bom_partial s) as (_ & _ & X). unfold parse_text. rewrite X by auto. eexists. split; [reflexivity|]. now apply print_parsed.
  - intros Hs. destruct (C07_bom_partial s) as (X & _). unfold parse_text. rewrite X by auto. eexists. split; [reflexivity|]. now apply print_parsed.
Qed.
Print Assumptions C63_text_is_kept_partial.
(** C63: the text can be kept as xmq: printed in compact form, read again and
    printed as text it is the same. *)
Theorem C63_text_through_xmq_partial : forall C root s aft,
  compact_cfg C -> element_name root -> root <> [] -> text_ok C s -> ~ tabbed C s ->
  exists o, print_doc C (xmq_parse_buffer_text (Some root) s) = (o, true) /\
  exists d, parse_buffer (enough o) None o (0 :: aft) = Document d /\ xmq_print_text d = s.
Proof.
  intros C root s aft HC Hr Hr0 Ht Hb. assert (H0 : ~ In 0 s) by apply Ht. set (d := [Elem root [] (map Part [PText s])]).
  assert (E : xmq_parse_buffer_text (Some root) s = d) by (unfold xmq_parse_buffer_text; rewrite c_str_id by auto; now destruct root).
  rewrite E. destruct (C27_compact_round_trip_partial C d aft) as (o & P & R); auto.
  - apply ok_cons; [|intros y r' X; discriminate X|constructor]. apply ok_value; [exact Hr|exact I|]. split; [discriminate|]. split; [constructor; [exact Ht|constructor]|]. split; [exact I|]. intros t X. injection X as <-. exact Hb.
  - intros (w & _ & X). discriminate X.
  - exists o. split; [exact P|]. exists d. split; [exact R|]. unfold d, xmq_print_text. cbn [flat_map text_print_node map]. now rewrite !app_nil_r.
Qed.
Print Assumptions C63_text_through_xmq_partial.
Example C63_ex : exists d, parse_text (Some (B "text")) (B "it's" ++ [10] ++ B "  two lines") = Some d /\ d = [Elem (B "text") [] [Part (PText (B "it's" ++ [10] ++ B "  two lines"))]]
  /\ xmq_print_text d = B "it's" ++ [10] ++ B "  two lines".
Proof. eexists. split; [vm_compute; reflexivity|]. split; vm_compute; reflexivity. Qed.
Example C63_xmq_ex : let s := B "it's" ++ [10] ++ B "  two lines" in
  compact_cfg sample_cfg /\ element_name (B "text") /\ text_ok sample_cfg s /\ ~ tabbed sample_cfg s.
Proof.
  split; [reflexivity|]. split; [split; [now eexists _, _|split; [reflexivity|intros X; vm_compute in X; repeat destruct X as [X|X]; try discriminate X; contradiction]]|]. split; [a_text 105|].
  intros (_ & H & _). specialize (H 105 (or_introl eq_refl)). discriminate H.
Qed.
(** A reference is not printed as the character it stands for. *)
Theorem C63_reference_refuted : parse_buffer 1000 None (B "a=('x'&lt;'y')") [0] = Document [Elem (B "a") [] [Part (PText (B "x")); Part (PRef (B "lt")); Part (PText (B "y"))]]
  /\ xmq_print_text [Elem (B "a") [] [Part (PText (B "x")); Part (PRef (B "lt")); Part (PText (B "y"))]] = B "x<ENTITY>lty".
Proof. split; vm_compute; reflexivity. Qed.
(** A text is cut at a NUL. *)
Theorem C63_nul_refuted : parse_text None (B "ab" ++ [0] ++ B "c") = Some [Part (PText (B "ab"))].
Proof. vm_compute. reflexivity. Qed.
Print Assumptions C63_reference_refuted.
