(** The tokens of the parser follow the grammar of TokenSpec.v. *)
From Coq Require Import NArith List Bool Lia String.
From Verif Require Import Bytes BytesFacts Parser ParserSpec ParserProofs TokenSpec TokenLex.
From Verif Require Grammar.
Import ListNotations.
Local Open Scope N_scope.
Local Open Scope pout_scope.

Definition lang := list token -> Prop.
Implicit Types L K : lang.
Definition ks (s : pst) : list token := tokens s.

(** [r] adds tokens of the language to those of [s], or ends early. *)
Definition yields (L : lang) (s : pst) (r : pout) : Prop :=
  match r with
  | POk s' => exists W, ks s' = ks s ++ W /\ L W
  | PErr _ s' | PNoFuel s' => exists W, ks s' = ks s ++ W /\ begins L W
  | PUB | PAbrt => True
  end.
Definition seq (L K : lang) : lang := fun W => exists A C, W = A ++ C /\ L A /\ K C.
Definition eps : lang := fun W => W = [].
Definition one (Q : token -> Prop) : lang := fun W => exists t, W = [t] /\ Q t.
Definition some (L : lang) : Prop := exists W, L W.

Lemma ks_emit k l c t x s : ks (emit k l c t x s) = ks s ++ [Tok k l c t x].
Proof. reflexivity. Qed.
Lemma ks_toks s s' : s_toks s' = s_toks s -> ks s' = ks s.
Proof. unfold ks, tokens. now intros ->. Qed.

Lemma yields_sub L K s r : (forall W, L W -> K W) -> yields L s r -> yields K s r.
Proof.
  intros S. destruct r; cbn; auto; intros (W & E & H); exists W; split; auto.
  all: destruct H as [C H]; exists C; auto.
Qed.
Lemma yields_from L s s1 r : ks s1 = ks s -> yields L s1 r -> yields L s r.
Proof. intros E. unfold yields. rewrite E. auto. Qed.
Lemma yields_bind L K s r f : some K -> yields L s r -> (forall s', r = POk s' -> yields K s' (f s')) -> yields (seq L K) s (pbind r f).
Proof.
  intros [Kc Ki] Y F. destruct r as [s1|e s1| | |s1]; cbn [pbind]; auto.
  - destruct Y as (W & E & H). specialize (F s1 eq_refl).
    destruct (f s1) as [s2|e s2| | |s2]; cbn in *; auto; destruct F as (W2 & E2 & H2); exists (W ++ W2); rewrite E2, E, <- app_assoc; split; auto.
    + exists W, W2. auto.
    + destruct H2 as [C H2]. exists C, W, (W2 ++ C). rewrite <- app_assoc. auto.
    + destruct H2 as [C H2]. exists C, W, (W2 ++ C). rewrite <- app_assoc. auto.
  - destruct Y as (W & E & C & H). exists W. split; auto. exists (C ++ Kc), (W ++ C), Kc. rewrite app_assoc. auto.
  - destruct Y as (W & E & C & H). exists W. split; auto. exists (C ++ Kc), (W ++ C), Kc. rewrite app_assoc. auto.
Qed.
(** Tokens first. *)
Lemma yields_after L s s1 W r : ks s1 = ks s ++ W -> yields L s1 r -> yields (seq (fun V => V = W) L) s r.
Proof.
  intros E. destruct r as [s2|e s2| | |s2]; cbn; auto; intros (V & E2 & H); exists (W ++ V); rewrite E2, E, <- app_assoc; split; auto.
  - exists W, V. auto.
  - destruct H as [C H]. exists C, W, (V ++ C). rewrite <- app_assoc. auto.
  - destruct H as [C H]. exists C, W, (V ++ C). rewrite <- app_assoc. auto.
Qed.
Lemma yields_ok L W s s' : ks s' = ks s ++ W -> L W -> yields L s (POk s').
Proof. cbn. eauto. Qed.
Lemma yields_eps s s' : ks s' = ks s -> yields eps s (POk s').
Proof. intros E. apply (yields_ok _ []); [now rewrite app_nil_r|reflexivity]. Qed.
Lemma yields_err L e s s' : ks s' = ks s -> some L -> yields L s (PErr e s').
Proof. intros E [C H]. exists []. rewrite app_nil_r. split; auto. exists C. auto. Qed.
Lemma yields_nofuel L s : some L -> yields L s (PNoFuel s).
Proof. intros [C H]. exists []. rewrite app_nil_r. split; auto. exists C. auto. Qed.

(** ** The pieces *)
Lemma step_toks c s : s_toks (step c s) = s_toks s.
Proof. unfold step. destruct (inc _ _). destruct (s_rest s); [destruct (s_aft s)|]; reflexivity. Qed.
Lemma emit_one k (P : bytes -> Prop) t s s' : moved t s s' -> P t ->
  exists x, ks (emit_from k s s') = ks s ++ [x] /\ tok k P x.
Proof.
  intros M H. eexists. split; [|split].
  - unfold emit_from. rewrite ks_emit. rewrite (ks_toks s s' (mv_toks _ _ _ M)). reflexivity.
  - reflexivity.
  - cbn [t_text]. rewrite (between_moved _ _ _ M). exact H.
Qed.
Lemma yields_emit k (P : bytes -> Prop) t s s' : moved t s s' -> P t -> yields (one (tok k P)) s (POk (emit_from k s s')).
Proof. intros M H. destruct (emit_one k P t s s' M H) as (x & E & Hx). apply (yields_ok _ [x]); [exact E|]. exists x. auto. Qed.
Notation white := (tok Kwhitespace ws_text).
Lemma ws_ks s : exists x, ks (parse_whitespace s) = ks s ++ [x] /\ white x.
Proof.
  unfold parse_whitespace. destruct (parse_whitespace_moved s) as (t & M & H).
  exact (emit_one Kwhitespace ws_text t _ _ M H).
Qed.
Lemma spaces_some : some spaces.
Proof. exists []. constructor. Qed.
Lemma single_ks k c s : peek_is c s = true -> c <> 0 -> exists x, ks (single k c s) = ks s ++ [x] /\ tok k (eq [c]) x.
Proof. intros H1 H2. unfold single. apply (emit_one k (eq [c]) [c]); [now apply moved_step|reflexivity]. Qed.
Lemma skip_ks s : yields spaces s (skip_space s).
Proof.
  unfold skip_space. destruct (peek s) as [c|]; [|exact I]. destruct (is_xml_whitespace c); [|apply (yields_ok _ []); [now rewrite app_nil_r|constructor]].
  destruct (peek (parse_whitespace s)); [|exact I]. destruct (ws_ks s) as (x & E & H). apply (yields_ok _ [x]); [exact E|]. constructor; [exact H|constructor].
Qed.
Lemma tok_some k (P : bytes -> Prop) b : P b -> some (one (tok k P)).
Proof. intros H. exists [Tok k 1 1 b []], (Tok k 1 1 b []). split; [reflexivity|]. split; [reflexivity|exact H]. Qed.

Lemma eat_quote_toks s : match eat_quote s with
  | POk s' => s_toks s' = s_toks s | PErr _ s' => s_toks s' = s_toks s | PNoFuel _ => False | _ => True end.
Proof.
  unfold eat_quote. destruct (Nat.eqb _ 0); [exact I|]. destruct (Nat.eqb _ 2); [reflexivity|].
  destruct (quote_loop _ _ _ _ _) as [e|k]; [reflexivity|]. cbv zeta. destruct (need_more_quotes _); reflexivity.
Qed.
Lemma quote_yields l s : yields (one (tok (quote_kind l) quote_text)) s (parse_quote l s).
Proof.
  unfold parse_quote. pose proof (eat_quote_toks s) as H. destruct (eat_quote s) as [s'|e s'| | |s'] eqn:E; cbn [pbind]; try exact I; try contradiction.
  - apply eat_quote_text in E. destruct E as (t & M & Ht). eapply yields_emit; eauto.
  - apply yields_err; [now apply ks_toks|]. eapply tok_some. constructor.
Qed.
Lemma eat_entity_toks s : match eat_entity s with
  | POk s' => s_toks s' = s_toks s | PErr _ s' => s_toks s' = s_toks s | PNoFuel _ => False | _ => True end.
Proof.
  unfold eat_entity. pose proof (step_toks cAMP s) as S1. destruct (entity_loop _ _ _ _ _) as [[k c] x].
  destruct (c =? cSEMI).
  - destruct (peek _); [|exact I]. rewrite step_toks. exact S1.
  - destruct x; [reflexivity|]. exact S1.
Qed.
Lemma entity_yields l s : peek_is cAMP s = true -> yields (one (tok (entity_kind l) entity_text)) s (parse_entity l s).
Proof.
  intros P. unfold parse_entity. pose proof (eat_entity_toks s) as H. destruct (eat_entity s) as [s'|e s'| | |s'] eqn:E; cbn [pbind]; try exact I; try contradiction.
  - apply eat_entity_text in E; [|exact P]. destruct E as (t & M & Ht). eapply yields_emit; eauto.
  - apply yields_err; [now apply ks_toks|]. eapply tok_some. apply (et_open []). reflexivity.
Qed.
Lemma to_close_toks n s : match fst (eat_comment_to_close n s) with
  | POk s' => s_toks s' = s_toks s | PErr _ s' => s_toks s' = s_toks s | PNoFuel _ => False | _ => True end.
Proof.
  unfold eat_comment_to_close. set (k := if peek_is cSLASH s then _ else cur_of s). clearbody k.
  destruct (negb _); [exact I|]. destruct (close_loop _ _ _ _ _ _); cbn; auto.
  apply (step_toks cSTAR (set_cur s k)).
Qed.
Definition more_comments (n : nat) : lang := Forall (tok Kcomment_continuation (comment_part n)).
Lemma more_some n : some (more_comments n).
Proof. exists []. constructor. Qed.
Lemma continuations_yields fuel n s : (1 <= n)%nat -> peek_is cSTAR s = true -> yields (more_comments n) s (continuations fuel n s).
Proof.
  intros Hn. revert s. induction fuel as [|fuel IH]; intros s P; cbn [continuations]; [apply yields_nofuel, more_some|].
  pose proof (to_close_toks n s) as H. destruct (eat_comment_to_close n s) as [[s'|e s'| | |s'] more] eqn:E; cbn [pbind fst] in *; try exact I; try contradiction.
  2: { apply yields_err; [now apply ks_toks|]. apply more_some. }
  apply eat_close_text in E; [|exact Hn|right; right; exact P]. destruct E as (t & M & _ & C & _ & Mo). specialize (C P).
  destruct (emit_one Kcomment_continuation (comment_part n) t s s' M C) as (x & Ex & Hx).
  destruct more; [|apply (yields_ok _ [x]); [exact Ex|constructor; [exact Hx|constructor]]].
  eapply yields_sub; [|eapply yields_after; [exact Ex|apply IH; exact (Mo eq_refl)]]. intros W (A & C' & -> & -> & HC). constructor; assumption.
Qed.
Definition comment_lang : lang := fun W =>
  (exists t, W = [t] /\ tok Kcomment line_comment t) \/
  exists n t C, (1 <= n)%nat /\ W = t :: C /\ tok Kcomment (block_comment n) t /\ more_comments n C.
Lemma comment_some : some comment_lang.
Proof.
  exists [Tok Kcomment 1 1 [cSLASH; cSLASH] []]. left. eexists. split; [reflexivity|]. split; [reflexivity|].
  apply (lc_line [] []); cbn; auto.
Qed.
Lemma comment_yields fuel s r c : s_rest s = cSLASH :: c :: r -> c = cSLASH \/ c = cSTAR ->
  yields comment_lang s (parse_comment fuel s).
Proof.
  intros Hr Hc. unfold parse_comment. destruct (count_slashes _ _) as [[n more]|] eqn:E; [|exact I].
  pose proof (count_slashes_split _ _ _ _ E) as (u & Hu & Hm).
  assert (Hn : (1 <= n)%nat) by (destruct n; [|lia]; cbn in Hu; subst u; rewrite Hr in Hm; cbn in Hm; destruct Hm as [_ Hm]; exfalso; apply Hm; [discriminate|reflexivity]).
  destruct more.
  - assert (A : at_comment n s).
    { destruct u as [|x u]; cbn in Hm.
      - right. left. destruct (s_aft s) as [|x a] eqn:Ea; [tauto|]. destruct Hm as [Hm _]. symmetry in Hm. apply N.eqb_eq in Hm. subst x.
        exists a. rewrite app_nil_r in Hu. auto.
      - left. destruct Hm as [Hm _]. symmetry in Hm. apply N.eqb_eq in Hm. subst x. eauto. }
    pose proof (to_close_toks n s) as H. destruct (eat_comment_to_close n s) as [[s'|e s'| | |s'] more] eqn:Ec; cbn [pbind fst] in *; try exact I; try contradiction.
    2: { apply yields_err; [now apply ks_toks|]. exact comment_some. }
    apply eat_close_text in Ec; [|exact Hn|exact A]. destruct Ec as (t & M & _ & _ & C & Mo).
    assert (P : peek_is cSTAR s = false) by (unfold peek_is, peek; now rewrite Hr).
    destruct (emit_one Kcomment (block_comment n) t s s' M (C P)) as (x & Ex & Hx).
    destruct more.
    + eapply yields_sub; [|eapply yields_after; [exact Ex|apply continuations_yields; [exact Hn|exact (Mo eq_refl)]]].
      intros W (A' & C' & -> & -> & HC). right. exists n, x, C'. auto.
    + apply (yields_ok _ [x]); [exact Ex|]. right. exists n, x, []. split; [exact Hn|]. split; [reflexivity|]. split; [exact Hx|constructor].
  - assert (Hn2 : (2 <= n)%nat).
    { destruct n as [|[|n]]; try lia. exfalso. rewrite Hr in Hu. cbn in Hu. injection Hu as Hu. subst u. cbn in Hm.
      destruct Hm as [Hm1 Hm2]. destruct Hc as [-> | ->]; [apply Hm2; [discriminate|reflexivity]|discriminate]. }
    destruct (eat_eol_text _ _ _ E Hn2) as (t & M & Ht).
    eapply yields_sub; [|apply (yields_emit Kcomment line_comment t _ _ M Ht)]. intros W (x & -> & Hx). left. exists x. auto.
Qed.

(** ** Values *)
Definition among2 (a b : kind) : lang := Forall (fun t => white t \/ tok a quote_text t \/ tok b entity_text t).
Lemma peek_rest c r s : s_rest s = c :: r -> peek_is c s = true.
Proof. intros H. unfold peek_is, peek. rewrite H. apply N.eqb_refl. Qed.
Lemma compound_children_yields fuel l s : yields (among2 (quote_kind l) (entity_kind l)) s (compound_children fuel l s).
Proof.
  assert (Ne : some (among2 (quote_kind l) (entity_kind l))) by (exists []; constructor).
  revert s. induction fuel as [|fuel IH]; intros s; cbn [compound_children]; destruct (s_rest s) as [|c r] eqn:R.
  - apply (yields_ok _ []); [now rewrite app_nil_r|constructor].
  - now apply yields_nofuel.
  - apply (yields_ok _ []); [now rewrite app_nil_r|constructor].
  - destruct (is_xml_whitespace c).
    { destruct (ws_ks s) as (x & E & H). eapply yields_sub; [|eapply yields_after; [exact E|apply IH]]. intros W (A & C & -> & -> & HC). constructor; [left; exact H|exact HC]. }
    destruct (c =? cRP); [apply (yields_ok _ []); [now rewrite app_nil_r|constructor]|].
    destruct (c =? cQ); [|destruct (N.eqb_spec c cAMP) as [->|_]].
    + eapply yields_sub; [|apply yields_bind; [exact Ne|apply quote_yields|intros; apply IH]].
      intros W (A & C & -> & (x & -> & Hx) & H). constructor; [right; left; exact Hx|exact H].
    + eapply yields_sub; [|apply yields_bind; [exact Ne|apply entity_yields; eapply peek_rest; exact R|intros; apply IH]].
      intros W (A & C & -> & (x & -> & Hx) & H). constructor; [right; right; exact Hx|exact H].
    + now apply yields_err.
Qed.
Definition compound_lang (l : level) : lang := fun W => exists x C y, W = x :: C ++ [y] /\
  tok Kcpar_left (eq [cLP]) x /\
  among2 (quote_kind (enter_compound l)) (entity_kind (enter_compound l)) C /\ tok Kcpar_right (eq [cRP]) y.

(** Something, white space, and a closing token. *)
Definition closing (e : N) (k : kind) (c : N) (s : pst) : pout :=
  s2 <- skip_space s ; if negb (peek_is c s2) then PErr e s2 else POk (single k c s2).
Definition closed_by (k : kind) (c : N) : lang := seq spaces (one (tok k (eq [c]))).
Lemma closed_some k c : some (closed_by k c).
Proof. destruct (tok_some k (eq [c]) [c] eq_refl) as (W & H). exists ([] ++ W), [], W. split; [reflexivity|]. split; [constructor|exact H]. Qed.
Lemma closing_yields e k c s : c <> 0 -> yields (closed_by k c) s (closing e k c s).
Proof.
  intros Hc. unfold closing. apply yields_bind; [eapply tok_some; reflexivity|apply skip_ks|].
  intros s' _. destruct (peek_is c s') eqn:P; cbn [negb]; [|apply yields_err; [reflexivity|eapply tok_some; reflexivity]].
  destruct (single_ks k c s' P Hc) as (x & E & H). apply (yields_ok _ [x]); [exact E|]. exists x. auto.
Qed.
Lemma compound_yields fuel l s : peek_is cLP s = true -> yields (compound_lang l) s (parse_compound fuel l s).
Proof.
  intros P. unfold parse_compound. destruct (single_ks Kcpar_left cLP s P ltac:(discriminate)) as (x & E & Hx).
  eapply yields_sub; [|eapply yields_after; [exact E|]].
  2: { apply yields_bind; [apply (closed_some Kcpar_right cRP)|apply compound_children_yields|intros s' _; apply (closing_yields E_COMPOUND_NOT_CLOSED Kcpar_right cRP s'); discriminate]. }
  intros W (A & C & -> & -> & D & F & -> & H & X & Y & -> & HX & (y & -> & Hy)). exists x, (D ++ X), y. split; [cbn; now rewrite <- app_assoc|].
  split; [exact Hx|]. split; [|exact Hy].
  apply Forall_app. split; [exact H|]. eapply Forall_impl; [|exact HX]. intros t Ht. left. exact Ht.
Qed.

Definition value_lang (l : level) : lang :=
  match l with LAttr => attr_value | _ => element_value end.
Lemma bare_nil : bare_text [].
Proof. split; [|constructor]. intros [(c & r & H & _)|(r & [H|H])]; discriminate. Qed.
Lemma value_some l : some (value_lang l).
Proof.
  destruct l; cbn [value_lang];
    try (exists [Tok Kelement_value_text 1 1 [] []]; apply vo_text; split; [reflexivity|exact bare_nil]).
  exists [Tok Kattr_value_text 1 1 [] []]. apply vo_text. split; [reflexivity|exact bare_nil].
Qed.
Definition spaced (L : lang) : lang := seq spaces L.
Lemma spaced_some L : some L -> some (spaced L).
Proof. intros [W H]. exists ([] ++ W), [], W. split; [reflexivity|]. split; [constructor|exact H]. Qed.
Lemma value_yields fuel l s : l = LElem \/ l = LAttr -> yields (spaced (value_lang l)) s (parse_value fuel l s).
Proof.
  intros Hl. unfold parse_value. apply yields_bind; [apply value_some|apply skip_ks|].
  intros s1 _. clear s. rename s1 into s.
  destruct (peek_is cQ s); [|destruct (peek_is cAMP s) eqn:Pa; [|destruct (peek_is cLP s) eqn:Pl]].
  - eapply yields_sub; [|apply quote_yields]. intros W (x & -> & Hx). destruct Hl as [-> | ->]; apply vo_quote; exact Hx.
  - eapply yields_sub; [|apply entity_yields; exact Pa]. intros W (x & -> & Hx). destruct Hl as [-> | ->]; apply vo_entity; exact Hx.
  - eapply yields_sub; [|apply compound_yields; exact Pl]. intros W (x & C & y & -> & Hx & HC & Hy). destruct Hl as [-> | ->]; apply vo_compound; assumption.
  - destruct (peek s) as [c|] eqn:P; [|exact I]. destruct (peek1 s) as [cc|] eqn:P1; [|exact I].
    destruct (unsafe_value_start c cc) eqn:U; [apply yields_err; [reflexivity|apply value_some]|].
    destruct (text_value_shape s c cc P P1 U) as (t & M & Ht).
    unfold parse_text_value. destruct Hl as [-> | ->].
    + eapply yields_sub; [|exact (yields_emit Kelement_value_text bare_text t _ _ M Ht)]. intros W (x & -> & Hx). apply vo_text. exact Hx.
    + eapply yields_sub; [|exact (yields_emit Kattr_value_text bare_text t _ _ M Ht)]. intros W (x & -> & Hx). apply vo_text. exact Hx.
Qed.

(** ** Attributes *)
Lemma eat_name_toks s : s_toks (eat_name s) = s_toks s.
Proof. reflexivity. Qed.
Lemma attr_name_ks l c n s : name_chars n -> exists W, ks (emit_attr_name l c n s) = ks s ++ W /\ attr_name W.
Proof.
  intros Hn. unfold emit_attr_name. destruct (split_colon n) as [[a b]|] eqn:E.
  - destruct (split_colon_names _ _ _ Hn E) as [Ha Hb].
    destruct (beq a (B "xmlns")) eqn:X; rewrite !ks_emit; rewrite <- !app_assoc; eexists; (split; [reflexivity|]).
    + apply beq_eq in X. apply an_declaration; [split; [reflexivity|now symmetry]|reflexivity|split; reflexivity|split; [reflexivity|exact Hb]].
    + apply beq_neq in X. apply an_prefixed; [split; [reflexivity|exact Ha]|exact X|split; reflexivity|split; [reflexivity|exact Hb]].
  - apply split_colon_none in E. destruct (beq n (B "xmlns")) eqn:X; rewrite ks_emit; eexists; (split; [reflexivity|]).
    + apply beq_eq in X. apply an_default; [split; [reflexivity|now symmetry]|reflexivity].
    + apply beq_neq in X. apply an_key; [split; [reflexivity|split; assumption]|exact X].
Qed.
Lemma attribute_yields fuel s : yields (seq attr_tokens spaces) s (parse_attribute fuel s).
Proof.
  unfold parse_attribute. destruct (eat_name_moved s) as (t & M & Ht & _). rewrite (between_moved _ _ _ M).
  destruct (attr_name_ks (s_line s) (s_col s) t (eat_name s) Ht) as (W & E & H).
  set (s1 := emit_attr_name _ _ _ _) in *. clearbody s1. rewrite (ks_toks s _ (eat_name_toks s)) in E.
  assert (R : some (fun V => V = [] \/ exists e X U, V = e :: X ++ U /\ tok Kequals (eq [cEQ]) e /\ spaces X /\ attr_value U)) by (exists []; auto).
  assert (Y : yields (fun V => spaces V \/ attr_tokens (W ++ V)) s1
    (s <- skip_space s1 ; (if peek_is cEQ s then parse_value fuel LAttr (single Kequals cEQ s) else POk s))).
  { eapply yields_sub; [|apply yields_bind; [exact R|apply skip_ks|]].
    2: { intros s2 _. destruct (peek_is cEQ s2) eqn:P; [|apply (yields_ok _ []); [now rewrite app_nil_r|auto]].
         destruct (single_ks Kequals cEQ s2 P ltac:(discriminate)) as (e & Ee & He).
         eapply yields_sub; [|eapply yields_after; [exact Ee|apply (value_yields _ LAttr); auto]].
         intros V (A & C & -> & -> & X & U & -> & HX & HU). right. exists e, X, U. auto. }
    intros V (A & C & -> & HA & [-> | (e & X & U & -> & He & HX & HU)]).
    - left. now rewrite app_nil_r.
    - right. now apply at_value. }
  eapply yields_sub; [|eapply yields_after; [exact E|exact Y]].
  intros V (A & C & -> & -> & [HC|HC]).
  - exists W, C. split; [reflexivity|]. split; [now apply at_name|exact HC].
  - exists (W ++ C), []. rewrite app_nil_r. split; [reflexivity|]. split; [exact HC|constructor].
Qed.
Lemma attrs_space W C : spaces W -> attrs_tokens C -> attrs_tokens (W ++ C).
Proof. intros H. induction H as [|k W Hk H IH]; cbn; auto. intros HC. apply ats_space; auto. Qed.
Lemma attributes_yields fuel s : yields attrs_tokens s (attributes fuel s).
Proof.
  assert (Ne : some attrs_tokens) by (exists []; constructor).
  revert s. induction fuel as [|fuel IH]; intros s; cbn [attributes]; destruct (s_rest s) as [|c r].
  - apply (yields_ok _ []); [now rewrite app_nil_r|constructor].
  - now apply yields_nofuel.
  - apply (yields_ok _ []); [now rewrite app_nil_r|constructor].
  - destruct (is_xml_whitespace c).
    { destruct (ws_ks s) as (x & E & Hx). eapply yields_sub; [|eapply yields_after; [exact E|apply IH]]. intros W (A & C & -> & -> & H). apply (ats_space x C Hx H). }
    destruct (c =? cRP); [apply (yields_ok _ []); [now rewrite app_nil_r|constructor]|].
    destruct (is_attribute_key_start c); [|apply (yields_ok _ []); [now rewrite app_nil_r|constructor]].
    eapply yields_sub; [|apply yields_bind; [exact Ne|apply attribute_yields|intros; apply IH]].
    intros W (A & C & -> & (X & Y & -> & H1 & H3) & H2). rewrite <- app_assoc. apply ats_attr; [exact H1|]. now apply attrs_space.
Qed.

(** ** Elements *)
Definition name_kind (key : bool) : kind := if key then Kelement_key else Kelement_name.
Lemma start_not_colon : is_xmq_element_start cCOLON = false.
Proof. reflexivity. Qed.
Lemma element_name_ks key l c n s : name_chars n -> Grammar.starts is_xmq_element_start n ->
  exists W, ks (emit_element_name key l c n s) = ks s ++ W /\ name_tokens (name_kind key) W.
Proof.
  intros Hn Hs. unfold emit_element_name. destruct (split_colon n) as [[a b]|] eqn:E.
  - destruct (split_colon_names _ _ _ Hn E) as [Ha Hb].
    rewrite !ks_emit. rewrite <- !app_assoc. eexists. split; [reflexivity|].
    apply nt_prefixed; [split; [reflexivity|exact Ha]| |split; reflexivity|split; [reflexivity|exact Hb]].
    apply split_colon_eq in E. subst n. destruct Hs as (d & r & Hd & Hs). destruct a as [|a0 a]; cbn in Hd.
    + injection Hd as <- _. rewrite start_not_colon in Hs. discriminate.
    + injection Hd as -> _. exists d, a. auto.
  - apply split_colon_none in E. rewrite ks_emit. eexists. split; [reflexivity|]. apply nt_name. split; [reflexivity|].
    split; [exact Hs|]. split; [exact Hn|exact E].
Qed.
Lemma spaces_doc X : spaces X -> doc_tokens X.
Proof. intros H. induction H; constructor; auto. Qed.
Lemma doc_space D X : doc_tokens D -> spaces X -> doc_tokens (D ++ X).
Proof. intros H HX. induction H; cbn; rewrite <- ?app_assoc; [now apply spaces_doc|constructor; auto..]. Qed.
Lemma apar_some : some apar_tokens.
Proof. exists []. constructor. Qed.
Lemma content_some : some content_tokens.
Proof. exists []. constructor. Qed.
(** The names of elements. *)
Definition kind_start (ek : ekind) (s : pst) : Prop :=
  match ek with
  | EElement => Grammar.starts is_xmq_element_start (s_rest s)
  | EDoctype => is_doctype_start (s_rest s) = true
  | EPi => is_pi_start (s_rest s) = true
  end.
Lemma start_is_name c : is_xmq_element_start c = true -> is_xmq_text_name c = true.
Proof. unfold is_xmq_element_start, is_xmq_text_name. rewrite !orb_true_iff. tauto. Qed.
Lemma name_text s : exists t, moved t s (eat_name s) /\ name_chars t /\
  s_rest s = t ++ s_rest (eat_name s) /\ match s_rest (eat_name s) with [] => True | c :: _ => is_xmq_text_name c = false end.
Proof.
  destruct (name_loop_eaten (s_rest s) (s_pre s) (s_line s, s_col s)) as (t & H1 & H2 & H3).
  exists t. split; [now apply moved_set_cur|]. split; [exact H2|]. split; [|exact H3]. destruct H1 as (_ & H1 & _). exact H1.
Qed.
Lemma element_head_ks ek s : kind_start ek s ->
  let s1 := match ek with EElement => eat_name s | EDoctype => eat_marked_name cBANG s | EPi => eat_marked_name cQM s end in
  forall key, exists W, ks (match ek with
            | EElement => emit_element_name key (s_line s) (s_col s) (between s s1) s1
            | _ => emit (if key then Kelement_key else Kelement_name) (s_line s) (s_col s) (between s s1) [] s1
            end) = ks s ++ W /\ name_tokens (name_kind key) W.
Proof.
  intros St s1 key. destruct ek; cbn [kind_start] in St.
  - destruct (name_text s) as (t & M & Ht & Hr & He). subst s1. rewrite (between_moved _ _ _ M).
    assert (Hs : Grammar.starts is_xmq_element_start t).
    { destruct St as (c & r & Hc & Hs). destruct t as [|d t]; cbn [app] in Hr; rewrite Hc in Hr.
      - rewrite <- Hr in He. rewrite (start_is_name c Hs) in He. discriminate.
      - injection Hr as -> _. exists d, t. auto. }
    destruct (element_name_ks key (s_line s) (s_col s) t (eat_name s) Ht Hs) as (W & E & H).
    exists W. rewrite E. split; [reflexivity|exact H].
  - unfold is_doctype_start in St. apply andb_true_iff in St as [St1 St2]. apply is_prefix_iff in St1. destruct St1 as (z & Hz).
    rewrite Hz in St2. change (skipn 8 (B "!DOCTYPE" ++ z)) with z in St2. destruct z as [|d z]; [discriminate|].
    assert (P : peek_is cBANG s = true) by (eapply peek_rest; rewrite Hz; reflexivity).
    pose proof (moved_step cBANG s P ltac:(discriminate)) as M1. destruct (name_text (step cBANG s)) as (t & M & Ht & Hr & He).
    pose proof (moved_trans _ _ _ _ _ M1 M) as M2. fold (eat_marked_name cBANG s) in M2.
    assert (Hx : t = B "DOCTYPE").
    { assert (R1 : s_rest (step cBANG s) = B "DOCTYPE" ++ d :: z) by (unfold step; rewrite Hz; destruct (inc _ _); reflexivity).
      assert (Hd : is_xmq_text_name d = false).
      { repeat (apply orb_true_iff in St2 as [St2|St2]); apply N.eqb_eq in St2; subst d; reflexivity. }
      rewrite R1 in Hr. set (w := s_rest (eat_name (step cBANG s))) in *. clearbody w. clear - Hr Ht He Hd. cbn in Hr.
      do 7 (destruct t as [|? t]; [cbn in Hr; rewrite <- Hr in He; discriminate|injection Hr as <- Hr]).
      destruct t as [|x t]; [reflexivity|]. cbn in Hr. injection Hr as <- _. exfalso. unfold name_chars in Ht. cbn [forallb] in Ht.
      repeat (apply andb_true_iff in Ht as [? Ht]). congruence. }
    subst s1. rewrite (between_moved _ _ _ M2), ks_emit, (ks_toks _ _ (mv_toks _ _ _ M2)). eexists. split; [reflexivity|].
    apply nt_doctype. split; [reflexivity|]. cbn [t_text]. now rewrite Hx.
  - unfold is_pi_start in St. destruct (s_rest s) as [|c [|c2 r]] eqn:R; try discriminate. apply N.eqb_eq in St. subst c.
    pose proof (moved_step cQM s (peek_rest _ _ _ R) ltac:(discriminate)) as M1. destruct (name_text (step cQM s)) as (t & M & Ht & _).
    pose proof (moved_trans _ _ _ _ _ M1 M) as M2. fold (eat_marked_name cQM s) in M2.
    subst s1. rewrite (between_moved _ _ _ M2), ks_emit, (ks_toks _ _ (mv_toks _ _ _ M2)). eexists. split; [reflexivity|].
    apply (nt_pi _ _ t); [split; reflexivity|exact Ht].
Qed.
(** ** A tab after a key
    With a tab between a key and its equals sign the element has no value, and
    the tab is an error in the following. *)
Definition stuck (s : pst) : Prop := exists r, s_rest s = cTAB :: r.
Definition yields_s (L : lang) (s : pst) (r : pout) : Prop :=
  match r with
  | POk s' => exists W, ks s' = ks s ++ W /\ (L W \/ stuck s' /\ forall X, spaces X -> begins L (W ++ X))
  | PErr _ s' | PNoFuel s' => exists W, ks s' = ks s ++ W /\ begins L W
  | PUB | PAbrt => True
  end.
Lemma yields_weak L s r : yields L s r -> yields_s L s r.
Proof. destruct r; cbn; auto. intros (W & E & H). exists W. auto. Qed.
Lemma begins_sub L K W : (forall V, L V -> K V) -> begins L W -> begins K W.
Proof. intros S [C H]. exists C. auto. Qed.
Lemma yields_s_sub L K s r : (forall W, L W -> K W) -> yields_s L s r -> yields_s K s r.
Proof.
  intros S. destruct r; cbn; auto; intros (W & E & H); exists W; (split; [exact E|]); [|eauto using begins_sub..].
  destruct H as [H|[H1 H2]]; [left; auto|right]. split; [exact H1|]. intros X HX. eauto using begins_sub.
Qed.
(** A run from a tab adds white space only and does not end well. *)
Definition no_way (s : pst) (r : pout) : Prop :=
  match r with
  | PErr _ s' | PNoFuel s' => exists X, ks s' = ks s ++ X /\ spaces X
  | POk _ => False
  | PUB | PAbrt => True
  end.
Lemma begins_seq L K W : some K -> begins L W -> begins (seq L K) W.
Proof. intros [Kc Hc] [C H]. exists (C ++ Kc), (W ++ C), Kc. rewrite app_assoc. auto. Qed.
Lemma yields_s_bind L K s r f : some K -> yields_s L s r -> (forall s', r = POk s' -> yields_s K s' (f s')) ->
  (forall s', stuck s' -> no_way s' (f s')) -> yields_s (seq L K) s (pbind r f).
Proof.
  intros Ne Y F Nw. destruct r as [s1|e s1| | |s1]; cbn [pbind]; auto.
  - destruct Y as (W & E & [H|[St H]]).
    + specialize (F s1 eq_refl). destruct (f s1) as [s2|e s2| | |s2]; cbn in *; auto;
        destruct F as (W2 & E2 & H2); exists (W ++ W2); rewrite E2, E, <- app_assoc; (split; [reflexivity|]).
      * destruct H2 as [H2|[St H2]]; [left; exists W, W2; auto|right]. split; [exact St|]. intros X HX.
        destruct (H2 X HX) as [C H3]. exists C, W, ((W2 ++ X) ++ C). rewrite <- !app_assoc in *. auto.
      * destruct H2 as [C H2]. exists C, W, (W2 ++ C). rewrite <- app_assoc. auto.
      * destruct H2 as [C H2]. exists C, W, (W2 ++ C). rewrite <- app_assoc. auto.
    + specialize (Nw s1 St). destruct (f s1) as [s2|e s2| | |s2]; cbn in *; auto; try contradiction;
        destruct Nw as (X & E2 & HX); exists (W ++ X); rewrite E2, E, <- app_assoc; (split; [reflexivity|]); apply begins_seq; auto.
  - destruct Y as (W & E & H). exists W. split; [exact E|]. now apply begins_seq.
  - destruct Y as (W & E & H). exists W. split; [exact E|]. now apply begins_seq.
Qed.
Lemma yields_first L K s r f : some K -> yields L s r -> (forall s', r = POk s' -> yields_s K s' (f s')) -> yields_s (seq L K) s (pbind r f).
Proof.
  intros Ne Y F. destruct r as [s1|e s1| | |s1]; cbn [pbind]; auto.
  - destruct Y as (W & E & H). specialize (F s1 eq_refl). destruct (f s1) as [s2|e s2| | |s2]; cbn in *; auto;
      destruct F as (W2 & E2 & H2); exists (W ++ W2); rewrite E2, E, <- app_assoc; (split; [reflexivity|]).
    + destruct H2 as [H2|[St H2]]; [left; exists W, W2; auto|right]. split; [exact St|]. intros X HX.
      destruct (H2 X HX) as [C H3]. exists C, W, ((W2 ++ X) ++ C). rewrite <- !app_assoc in *. auto.
    + destruct H2 as [C H2]. exists C, W, (W2 ++ C). rewrite <- app_assoc. auto.
    + destruct H2 as [C H2]. exists C, W, (W2 ++ C). rewrite <- app_assoc. auto.
  - destruct Y as (W & E & H). exists W. split; [exact E|]. now apply begins_seq.
  - destruct Y as (W & E & H). exists W. split; [exact E|]. now apply begins_seq.
Qed.
Lemma yields_s_after L s s1 W r : ks s1 = ks s ++ W -> yields_s L s1 r -> yields_s (seq (fun V => V = W) L) s r.
Proof.
  intros E. destruct r as [s2|e s2| | |s2]; cbn; auto; intros (V & E2 & H); exists (W ++ V); rewrite E2, E, <- app_assoc; (split; [reflexivity|]).
  - destruct H as [H|[St H]]; [left; exists W, V; auto|right]. split; [exact St|]. intros X HX. destruct (H X HX) as [C H3].
    exists C, W, ((V ++ X) ++ C). rewrite <- !app_assoc in *. auto.
  - destruct H as [C H]. exists C, W, (V ++ C). rewrite <- app_assoc. auto.
  - destruct H as [C H]. exists C, W, (V ++ C). rewrite <- app_assoc. auto.
Qed.
Lemma stuck_peek s : stuck s -> peek s = Some cTAB.
Proof. intros (r & H). unfold peek. now rewrite H. Qed.
Lemma stuck_white s : stuck s -> stuck (parse_whitespace s).
Proof. intros (r & H). exists r. unfold parse_whitespace. rewrite H. reflexivity. Qed.
Lemma stuck_skip s : stuck s -> exists x, white x /\ skip_space s = POk (parse_whitespace s) /\ ks (parse_whitespace s) = ks s ++ [x].
Proof.
  intros H. destruct (ws_ks s) as (x & E & Hx). exists x. split; [exact Hx|]. split; [|exact E].
  unfold skip_space. rewrite (stuck_peek s H). cbn [is_xml_whitespace]. rewrite (stuck_peek _ (stuck_white s H)). reflexivity.
Qed.
Lemma stuck_closing e k c s : c <> cTAB -> stuck s -> no_way s (closing e k c s).
Proof.
  intros Hc H. destruct (stuck_skip s H) as (x & Hx & E & E2). unfold closing. rewrite E. cbn [pbind].
  unfold peek_is. rewrite (stuck_peek _ (stuck_white s H)). replace (cTAB =? c) with false by (symmetry; now apply N.eqb_neq, not_eq_sym).
  cbn. exists [x]. split; [exact E2|]. constructor; [exact Hx|constructor].
Qed.
Lemma stuck_parse fuel s : stuck s -> no_way s (parse_xmq fuel s).
Proof.
  intros (r & H). assert (Z : exists X, ks s = ks s ++ X /\ spaces X) by (exists []; rewrite app_nil_r; split; [reflexivity|constructor]).
  destruct fuel as [|fuel]; cbn [parse_xmq]; rewrite H; [exact Z|].
  change (is_xmq_token_whitespace cTAB) with false. change (cTAB =? cQ) with false. change (cTAB =? cAMP) with false.
  change (is_comment_start cTAB (if (cTAB =? cSLASH) || (cTAB =? cLP) then hd 0 r else 0)) with false.
  change (is_xmq_element_start cTAB) with false. change (is_doctype_start (cTAB :: r)) with false.
  replace (is_pi_start (cTAB :: r)) with false by (destruct r; reflexivity). change (cTAB =? cRB) with false.
  cbv iota. destruct (possibly_lost_content s) as [[|]|]; [exact Z..|exact I].
Qed.

(** After a key there is an equals sign or a tab. *)
Definition before_value (s : pst) : Prop := exists r, s_rest s = cEQ :: r.
Lemma next_equal_split r c : c <> cEQ -> next_is_equal r c = true ->
  exists w z, r = w ++ cEQ :: z /\ forallb is_xml_whitespace w = true.
Proof.
  revert c. induction r as [|d r IH]; intros c Hc H; cbn [next_is_equal] in H.
  - apply N.eqb_eq in H. congruence.
  - destruct (is_xml_whitespace d) eqn:Wd.
    + apply IH in H; [|intros ->; discriminate]. destruct H as (w & z & -> & Hw). exists (d :: w), z. cbn. rewrite Wd. auto.
    + apply N.eqb_eq in H. subst d. exists [], r. auto.
Qed.
Lemma ws_loop_key w z : forallb is_xml_whitespace w = true -> forall pre p,
  exists y, (y = cEQ :: z \/ exists r, y = cTAB :: r) /\ k_rest (ws_loop pre (w ++ cEQ :: z) p) = y.
Proof.
  induction w as [|d w IH]; intros H pre p; cbn [app].
  - exists (cEQ :: z). split; [auto|]. cbn [ws_loop]. replace (count_ws (cEQ :: z)) with 0%nat; [reflexivity|]. destruct z; reflexivity.
  - cbn in H. apply andb_true_iff in H as [H1 H2]. cbn [ws_loop]. destruct (N.eqb_spec d cTAB) as [->|Hd].
    + exists (cTAB :: w ++ cEQ :: z). split; [eauto|reflexivity].
    + replace (count_ws (d :: w ++ cEQ :: z)) with 1%nat; [apply IH; exact H2|].
      symmetry. apply count_ws_1. exact H1.
Qed.
Lemma key_skip s w z : s_rest s = w ++ cEQ :: z -> forallb is_xml_whitespace w = true ->
  exists s' W, skip_space s = POk s' /\ ks s' = ks s ++ W /\ spaces W /\ (before_value s' \/ stuck s').
Proof.
  intros R H. destruct w as [|d w].
  - exists s, []. cbn [app] in R. unfold skip_space, peek. rewrite R. cbn [app hd_error is_xml_whitespace].
    split; [reflexivity|]. split; [now rewrite app_nil_r|]. split; [constructor|]. left. now exists z.
  - destruct (ws_loop_key _ z H (s_pre s) (s_line s, s_col s)) as (y & Hy & E). rewrite <- R in E.
    change (s_rest (parse_whitespace s) = y) in E. destruct (ws_ks s) as (x & Ex & Hx).
    exists (parse_whitespace s), [x]. cbn in H. apply andb_true_iff in H as [H _].
    split.
    + unfold skip_space. unfold peek at 1. rewrite R. cbn [app hd_error]. rewrite H. unfold peek. rewrite E. destruct Hy as [-> |(r & ->)]; reflexivity.
    + split; [exact Ex|]. split; [constructor; [exact Hx|constructor]|]. destruct Hy as [-> |(r & ->)]; [left; now exists z|right; now exists r].
Qed.

Lemma begin_key N X : name_tokens Kelement_key N -> spaces X -> begins item_tokens (N ++ X).
Proof.
  intros HN HX. destruct (value_some LElem) as (V & HV). exists (Tok Kequals 1 1 [cEQ] [] :: [] ++ V). rewrite <- app_assoc.
  apply it_key; [exact HN|exact HX|split; reflexivity|constructor|exact HV].
Qed.
Lemma element_yields fuel body ek s : kind_start ek s -> (forall s', yields_s doc_tokens s' (body s')) ->
  yields_s item_tokens s (parse_element fuel body ek s).
Proof.
  intros St Hb. unfold parse_element.
  set (s1 := match ek with EElement => eat_name s | EDoctype => eat_marked_name cBANG s | EPi => eat_marked_name cQM s end).
  pose proof (element_head_ks ek s St (next_is_equal (s_rest s1) 0)) as E2. cbv zeta in E2. fold s1 in E2.
  set (s2 := match ek with
            | EElement => emit_element_name (next_is_equal (s_rest s1) 0) (s_line s) (s_col s) (between s s1) s1
            | _ => emit (if next_is_equal (s_rest s1) 0 then Kelement_key else Kelement_name) (s_line s) (s_col s) (between s s1) [] s1
            end) in *.
  assert (R2 : s_rest s2 = s_rest s1).
  { unfold s2. destruct ek; [|reflexivity..]. unfold emit_element_name. destruct (split_colon _) as [[a b]|]; reflexivity. }
  clearbody s2. destruct E2 as (N & E2 & HN). destruct (next_is_equal (s_rest s1) 0) eqn:Key; cbn [name_kind] in HN.
  { (* a key *)
    apply next_equal_split in Key; [|discriminate]. destruct Key as (w & z & Kr & Kw). rewrite <- R2 in Kr.
    destruct (key_skip s2 w z Kr Kw) as (s3 & W & E3 & K3 & HW & [B3|B3]); rewrite E3; cbn [pbind].
    - destruct B3 as (r & R3). assert (P3 : peek s3 = Some cEQ) by (unfold peek; now rewrite R3).
      replace (peek_is cLP s3) with false by (unfold peek_is; now rewrite P3). cbn [pbind].
      replace (skip_space s3) with (POk s3) by (unfold skip_space; now rewrite P3). cbn [pbind].
      assert (Pe : peek_is cEQ s3 = true) by (unfold peek_is; now rewrite P3). rewrite Pe.
      destruct (single_ks Kequals cEQ (set_equals (Some (here s3)) s3) Pe ltac:(discriminate)) as (x & Ex & Hx).
      change (ks (set_equals (Some (here s3)) s3)) with (ks s3) in Ex. rewrite K3, E2, <- !app_assoc in Ex.
      apply yields_weak. eapply yields_sub; [|eapply (yields_after _ s); [exact Ex|apply (value_yields _ LElem); auto]].
      intros V (A & C & -> & -> & X & U & -> & HX & HU). rewrite <- !app_assoc. apply (it_key N W x X U); assumption.
    - assert (P3 : peek s3 = Some cTAB) by now apply stuck_peek.
      replace (peek_is cLP s3) with false by (unfold peek_is; now rewrite P3). cbn [pbind].
      destruct (stuck_skip s3 B3) as (x & Hx & E4 & K4). rewrite E4. cbn [pbind].
      apply stuck_white in B3. assert (P4 : peek (parse_whitespace s3) = Some cTAB) by now apply stuck_peek.
      replace (peek_is cEQ (parse_whitespace s3)) with false by (unfold peek_is; now rewrite P4).
      replace (peek_is cLB (parse_whitespace s3)) with false by (unfold peek_is; now rewrite P4).
      exists (N ++ W ++ [x]). rewrite K4, K3, E2, <- !app_assoc. split; [reflexivity|]. right. split; [exact B3|].
      intros X HX. rewrite <- !app_assoc. apply begin_key; [exact HN|]. apply Forall_app. split; [exact HW|]. apply Forall_app.
      split; [constructor; [exact Hx|constructor]|exact HX]. }
  clear R2.
  eapply (yields_s_sub (seq (fun V => V = N) (seq spaces (seq apar_tokens (seq spaces content_tokens))))).
  { intros W (A & C & -> & -> & D & F & -> & HD & G & H & -> & HG & I & J & -> & HI & HJ). now apply it_elem. }
  eapply yields_s_after; [exact E2|].
  apply yields_first; [|apply skip_ks|].
  { exists ([] ++ [] ++ []). exists [], []. split; [reflexivity|]. split; [constructor|]. exists [], []. split; [reflexivity|]. split; constructor. }
  intros s3 _. apply yields_first.
  - exists ([] ++ []). exists [], []. split; [reflexivity|]. split; constructor.
  - destruct (peek_is cLP s3) eqn:P; [|apply (yields_ok _ []); [now rewrite app_nil_r|constructor]].
    destruct (single_ks Kapar_left cLP (set_attr (Some (here s3)) s3) P ltac:(discriminate)) as (x & Ex & Hx).
    eapply yields_sub; [|eapply (yields_after _ s3); [exact Ex|]].
    2: { apply yields_bind; [apply (closed_some Kapar_right cRP)|apply attributes_yields|intros s' _; apply (closing_yields E_ATTRIBUTES_NOT_CLOSED Kapar_right cRP s'); discriminate]. }
    intros W (A & C & -> & -> & D & F & -> & H & X & Y & -> & HX & (y & -> & Hy)). cbn. rewrite app_assoc. apply ap_some; [exact Hx| |exact Hy].
    clear - H HX. induction H; cbn; rewrite <- ?app_assoc; [rewrite <- (app_nil_r X); apply attrs_space; [exact HX|constructor]|constructor..]; auto.
  - intros s4 _. apply yields_first; [apply content_some|apply skip_ks|]. intros s5 _.
    destruct (peek_is cEQ s5) eqn:Pe; [|destruct (peek_is cLB s5) eqn:Pb; [|apply yields_weak; apply (yields_ok _ []); [now rewrite app_nil_r|constructor]]].
    + destruct (single_ks Kequals cEQ (set_equals (Some (here s5)) s5) Pe ltac:(discriminate)) as (x & Ex & Hx).
      apply yields_weak. eapply yields_sub; [|eapply (yields_after _ s5); [exact Ex|apply (value_yields _ LElem); auto]].
      intros W (A & C & -> & -> & X & U & -> & HX & HU). apply (ct_value x X U); [exact Hx|exact HX|exact HU].
    + destruct (single_ks Kbrace_left cLB (set_body (Some (here s5)) s5) Pb ltac:(discriminate)) as (x & Ex & Hx).
      eapply yields_s_sub; [|eapply (yields_s_after _ s5); [exact Ex|]].
      2: { apply yields_s_bind; [apply (closed_some Kbrace_right cRB)|apply Hb| |].
           - intros s' _. apply yields_weak. apply (closing_yields E_BODY_NOT_CLOSED Kbrace_right cRB s'). discriminate.
           - intros s' Hs. apply (stuck_closing E_BODY_NOT_CLOSED Kbrace_right cRB s'); [discriminate|exact Hs]. }
      intros W (A & C & -> & -> & D & F & -> & H & X & Y & -> & HX & (y & -> & Hy)). cbn. rewrite app_assoc. apply ct_body; [exact Hx| |exact Hy]. now apply doc_space.
Qed.

Lemma parse_yields fuel : forall s, yields_s doc_tokens s (parse_xmq fuel s).
Proof.
  assert (Ne : some doc_tokens) by (exists []; constructor).
  assert (Nil : forall s, yields_s doc_tokens s (POk s)) by (intros s; apply yields_weak; apply (yields_ok _ []); [now rewrite app_nil_r|constructor]).
  induction fuel as [|fuel IH]; intros s; cbn [parse_xmq]; destruct (s_rest s) as [|c r] eqn:R.
  - apply Nil.
  - apply yields_weak. now apply yields_nofuel.
  - apply Nil.
  - assert (It : forall L x, (forall W, L W -> item_tokens W) -> yields_s L s x -> yields_s doc_tokens s (s' <- x ; parse_xmq fuel s')).
    { intros L x HL Y. eapply yields_s_sub; [|apply yields_s_bind; [exact Ne|exact Y|intros; apply IH|apply stuck_parse]].
      intros W (A & C & -> & H1 & H2). apply dt_item; auto. }
    rewrite <- R.
    destruct (is_xmq_token_whitespace c).
    { destruct (ws_ks s) as (x & E & Hx). eapply yields_s_sub; [|eapply yields_s_after; [exact E|apply IH]]. intros W (A & C & -> & -> & H). apply (dt_space x C Hx H). }
    destruct (c =? cQ). { eapply It; [|apply yields_weak, quote_yields]. intros W (x & -> & Hx). apply it_quote, Hx. }
    destruct (N.eqb_spec c cAMP) as [->|_]. { eapply It; [|apply yields_weak, entity_yields; eapply peek_rest; exact R]. intros W (x & -> & Hx). apply it_entity, Hx. }
    destruct (is_comment_start c _) eqn:Cs.
    { unfold is_comment_start in Cs. apply andb_true_iff in Cs as [C1 C2]. apply N.eqb_eq in C1. subst c. cbn [N.eqb Pos.eqb orb] in C2.
      destruct r as [|c r]; [discriminate|]. eapply It; [|apply yields_weak, (comment_yields _ s r c R)].
      - intros W [(t & -> & Ht)|(n & t & C & Hn & -> & Ht & HC)]; [now apply it_line|now apply (it_block n)].
      - apply orb_true_iff in C2 as [C2|C2]; apply N.eqb_eq in C2; cbn in C2; auto. }
    destruct (is_xmq_element_start c) eqn:Es. { eapply It; [|apply element_yields; [exists c, r; auto|exact IH]]. auto. }
    destruct (is_doctype_start _) eqn:Ds. { eapply It; [|apply element_yields; [exact Ds|exact IH]]. auto. }
    destruct (is_pi_start _) eqn:Ps. { eapply It; [|apply element_yields; [exact Ps|exact IH]]. auto. }
    destruct (c =? cRB); [apply Nil|].
    apply yields_weak. destruct (possibly_lost_content s) as [[|]|]; [now apply yields_err..|exact I].
Qed.

Theorem tokens_grammar fuel src aft :
  match tokenize fuel src aft with
  | POk s => doc_tokens (tokens s)
  | PErr _ s | PNoFuel s => begins doc_tokens (tokens s)
  | _ => True
  end.
Proof.
  unfold tokenize. pose proof (parse_yields fuel (init src aft)) as Y.
  destruct (parse_xmq fuel (init src aft)) as [s|e s| | |s]; cbn [pbind yields_s] in *; auto.
  - destruct Y as (W & E & H). change (ks (init src aft)) with (@nil token) in E. cbn in E. unfold ks in E.
    destruct (s_rest s) eqn:R; rewrite E; destruct H as [H|[(r & St) H]].
    + exact H.
    + rewrite R in St. discriminate.
    + exists []. now rewrite app_nil_r.
    + rewrite <- (app_nil_r W). apply H. constructor.
  - destruct Y as (W & E & H). change (ks (init src aft)) with (@nil token) in E. cbn in E. unfold ks in E. now rewrite E.
  - destruct Y as (W & E & H). change (ks (init src aft)) with (@nil token) in E. cbn in E. unfold ks in E. now rewrite E.
Qed.
