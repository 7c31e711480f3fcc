(** What the rules of IxmlTrans.v derive: the texts the grammar describes. *)
From Coq Require Import NArith ZArith Bool String List Lia.
From Coq Require Import ZifyBool ZifyNat ZifyN.
From Verif Require Import Bytes BytesFacts Ixml IxmlSpec IxmlNames IxmlTrans.
Import ListNotations.
Local Open Scope N_scope.
Local Open Scope list_scope.

Scheme factor_mind := Induction for factor Sort Prop
  with term_mind := Induction for term Sort Prop
  with alt_mind := Induction for alt Sort Prop
  with alts_mind := Induction for alts Sort Prop.
Combined Scheme grammar_ind from factor_mind, term_mind, alt_mind, alts_mind.
Scheme m_factor_mind := Minimality for m_factor Sort Prop
  with m_term_mind := Minimality for m_term Sort Prop
  with m_reps_mind := Minimality for m_reps Sort Prop
  with m_sreps_mind := Minimality for m_sreps Sort Prop
  with m_alt_mind := Minimality for m_alt Sort Prop
  with m_alts_mind := Minimality for m_alts Sort Prop.
Combined Scheme matches_ind from m_factor_mind, m_term_mind, m_reps_mind, m_sreps_mind, m_alt_mind, m_alts_mind.
Scheme yields_mind := Minimality for yields Sort Prop
  with yields_all_mind := Minimality for yields_all Sort Prop.
Combined Scheme yields_ind2 from yields_mind, yields_all_mind.

(** ** Names of the rules *)
Definition named (lo hi : N) (r : irule) : Prop :=
  (exists k, lo <= k < hi /\ r_name r = gname k) \/ (exists u, r_name r = 124 :: 43 :: u /\ r_rhs r = []).
Lemma named_le lo hi lo' hi' r : named lo hi r -> lo' <= lo -> hi <= hi' -> named lo' hi' r.
Proof. intros [(k & H & E)|H] H1 H2; [left; exists k; split; [lia|exact E]|right; exact H]. Qed.
Definition piece (lo : N) (o : bout) : Prop := lo <= o_gen o /\ Forall (named lo (o_gen o)) (o_new o).
Lemma forall_named_le lo hi lo' hi' l : Forall (named lo hi) l -> lo' <= lo -> hi <= hi' -> Forall (named lo' hi') l.
Proof. intros H H1 H2. eapply Forall_impl; [|exact H]. intros r Hr. eapply named_le; eauto. Qed.
Lemma named_gen lo hi k ts : lo <= k < hi -> named lo hi (gen_rule (gname k) ts).
Proof. intros H. left. exists k. auto. Qed.

Lemma piece_wrap lo o rs m : piece lo o -> (forall r, In r rs -> r_name r = gname (o_gen o)) -> piece lo (b_wrap o (gname (o_gen o)) rs m).
Proof.
  intros (H1 & H2) H. split; cbn [b_wrap o_gen o_new]; [lia|]. apply Forall_app. split; [eapply forall_named_le; [exact H2|lia|lia]|].
  apply Forall_forall. intros r Hr. left. exists (o_gen o). split; [lia|now apply H].
Qed.
Lemma piece_seq lo o p : piece lo o -> piece (o_gen o) p -> piece lo (b_seq o p).
Proof.
  intros (H1 & H2) (H3 & H4). split; cbn [b_seq o_gen o_new]; [lia|]. apply Forall_app.
  split; [eapply forall_named_le; [exact H2|lia|lia]|eapply forall_named_le; [exact H4|lia|lia]].
Qed.
Lemma pieces :
  (forall f gen mark, piece gen (b_factor f gen mark)) /\
  (forall t gen mark, piece gen (b_term t gen mark)) /\
  (forall a gen mark, piece gen (b_alt a gen mark)) /\
  (forall a n mk gen mark, gen <= o_gen (b_alts n mk a gen mark) /\
     Forall (fun r => named gen (o_gen (b_alts n mk a gen mark)) r \/ r_name r = n) (o_new (b_alts n mk a gen mark))).
Proof.
  apply grammar_ind.
  - intros tm [|c [|c2 cs]] gen mark; (split; cbn [b_factor o_gen o_new]; [lia|]); try apply Forall_nil.
    apply Forall_cons; [apply named_gen; lia|apply Forall_nil].
  - intros. split; cbn [b_factor o_gen o_new]; [lia|apply Forall_nil].
  - intros. split; cbn [b_factor o_gen o_new]; [lia|apply Forall_nil].
  - intros. split; cbn [b_factor o_gen o_new]; [lia|apply Forall_nil].
  - intros cs gen mark. split; cbn [b_factor o_gen o_new]; [lia|]. apply Forall_cons; [|apply Forall_nil]. right. exists (utf8 cs). auto.
  - intros a IH gen mark. destruct (IH (gname gen) cMINUS (gen + 1) mark) as (H1 & H2). split; cbn [b_factor o_gen o_new]; [lia|].
    apply Forall_cons; [apply named_gen; lia|]. eapply Forall_impl; [|exact H2]. intros r [Hr|Hr]; [eapply named_le; [exact Hr|lia|lia]|].
    left. exists gen. split; [lia|exact Hr].
  - intros. split; cbn [b_factor o_gen o_new]; [lia|apply Forall_nil].
  - intros f IH gen mark. apply IH.
  - intros f IH gen mark. apply piece_wrap; [apply IH|]. cbn [b_opt In]. intros r [<- |[<- |[]]]; reflexivity.
  - intros f IH gen mark. apply piece_wrap; [apply IH|]. cbn [b_reps0 In]. intros r [<- |[<- |[]]]; reflexivity.
  - intros f IH gen mark. apply piece_wrap; [apply IH|]. cbn [b_reps In]. intros r [<- |[<- |[]]]; reflexivity.
  - intros f IH s IHs gen mark. cbn [b_term].
    apply (piece_wrap gen (b_wrap (b_seq (b_factor f gen mark) _) (gname (o_gen (b_seq (b_factor f gen mark) _))) _ _)).
    + apply piece_wrap; [apply piece_seq; [apply IH|apply IHs]|]. cbn [b_sreps In]. intros r [<- |[<- |[]]]; reflexivity.
    + cbn [b_opt In]. intros r [<- |[<- |[]]]; reflexivity.
  - intros f IH s IHs gen mark. cbn [b_term].
    apply (piece_wrap gen (b_seq (b_factor f gen mark) _)).
    + apply piece_seq; [apply IH|apply IHs].
    + cbn [b_sreps In]. intros r [<- |[<- |[]]]; reflexivity.
  - intros gen mark. split; cbn [b_alt o_gen o_new]; [lia|apply Forall_nil].
  - intros t IH a IHa gen mark. cbn [b_alt]. apply piece_seq; [apply IH|apply IHa].
  - intros a IH n mk gen mark. destruct (IH gen mark) as (H1 & H2). cbn [b_alts]. split; [exact H1|]. eapply Forall_impl; [|exact H2]. auto.
  - intros a IH r IHr n mk gen mark. cbn [b_alts o_gen o_new]. destruct (IH gen mark) as (H1 & H2).
    destruct (IHr n mk (o_gen (b_alt a gen mark)) (o_mark (b_alt a gen mark))) as (H3 & H4). split; [lia|]. apply Forall_app. split.
    + eapply Forall_impl; [|exact H2]. intros x Hx. left. eapply named_le; [exact Hx|lia|lia].
    + apply Forall_cons; [right; reflexivity|]. eapply Forall_impl; [|exact H4]. intros x [Hx|Hx]; [left; eapply named_le; [exact Hx|lia|lia]|right; exact Hx].
Qed.
Definition piece_factor := proj1 pieces.
Definition piece_term := proj1 (proj2 pieces).
Definition piece_alt := proj1 (proj2 (proj2 pieces)).
Definition piece_alts := proj2 (proj2 (proj2 pieces)).

Lemma adds_one f gen mark : adds f = true -> exists t, o_ts (b_factor f gen mark) = [t].
Proof.
  destruct f as [tm [|c [|c2 cs]]| | | | | |]; intros H; try discriminate H; cbn [b_factor o_ts]; eauto.
Qed.

(** ** Sets *)
Definition in_part (c : Z) (p : cpart) : Prop :=
  match p with CRange a b => (a <= c <= b)%Z | CCat n => in_category n c end.
Definition in_charset (cs : icharset) (c : Z) : Prop :=
  if c_exclude cs then ~ Exists (in_part c) (c_parts cs) else Exists (in_part c) (c_parts cs).
Lemma in_parts c ms : Exists (in_part c) (set_parts ms) <-> Exists (in_member c) ms.
Proof.
  unfold set_parts. induction ms as [|m ms IH]; cbn [flat_map].
  - split; intros H; inversion H.
  - rewrite Exists_app, Exists_cons, IH. apply or_iff_compat_r. destruct m as [cs|a b|v|n]; cbn [member_parts in_member].
    + rewrite Exists_exists. split.
      * intros (p & Hp & Hc). apply in_map_iff in Hp as (u & <- & Hu). cbn [in_part] in Hc. replace c with u by lia. exact Hu.
      * intros H. exists (CRange c c). split; [apply in_map_iff; exists c; auto|cbn [in_part]; lia].
    + rewrite Exists_cons, Exists_nil. cbn [in_part]. tauto.
    + rewrite Exists_cons, Exists_nil. cbn [in_part]. split; [intros [H|[]]; lia|intros ->; left; lia].
    + rewrite Exists_cons, Exists_nil. cbn [in_part]. tauto.
Qed.
Lemma in_charset_set ex ms c : in_charset (ICharset ex (set_parts ms)) c <-> in_set ex ms c.
Proof. unfold in_charset, in_set. cbn [c_exclude c_parts]. destruct ex; rewrite in_parts; reflexivity. Qed.

(** The names in a grammar that was written down are names *)
Fixpoint fine_factor (f : factor) : Prop :=
  match f with FNt _ n _ => name_ok n | FGroup a => fine_alts a | _ => True end
with fine_term (t : term) : Prop :=
  match t with
  | TOne f | TOpt f | TStar f | TPlus f => fine_factor f
  | TStarSep f s | TPlusSep f s => fine_factor f /\ fine_factor s
  end
with fine_alt (a : alt) : Prop :=
  match a with ANil => True | ACons t a => fine_term t /\ fine_alt a end
with fine_alts (a : alts) : Prop :=
  match a with AOne a => fine_alt a | AMore a r => fine_alt a /\ fine_alts r end.

Section lang.
Variable y : ygrammar.
Variable G : grammar.
Variable used : Z -> Prop.
Hypothesis HT : forall s c, In (s, c) (y_terms y) -> s = term_name c /\ code_ok c.
Hypothesis HR : forall s rhs, In (s, rhs) (y_rules y) -> hd 0 s <> 35.
Hypothesis HI : forall u rhs, In (124 :: 43 :: u, rhs) (y_rules y) -> rhs = [].

Definition set_ok (n : bytes) (cs : icharset) : Prop :=
  forall rhs, In (n, rhs) (y_rules y) <-> exists c, used c /\ in_charset cs c /\ rhs = [term_name c].
Hypothesis HU : forall c, used c -> In (term_name c, c) (y_terms y).

(** Derivations with a bound on their height *)
Fixpoint yall (P : bytes -> list Z -> Prop) (rhs : list bytes) (w : list Z) : Prop :=
  match rhs with
  | [] => w = []
  | s :: r => exists v u, w = v ++ u /\ P s v /\ yall P r u
  end.
Fixpoint yk (k : nat) (s : bytes) (w : list Z) : Prop :=
  match k with
  | O => False
  | S k => (exists c, In (s, c) (y_terms y) /\ w = [c]) \/ (exists rhs, In (s, rhs) (y_rules y) /\ yall (yk k) rhs w)
  end.
Lemma yall_mono (P Q : bytes -> list Z -> Prop) rhs : (forall s w, P s w -> Q s w) -> forall w, yall P rhs w -> yall Q rhs w.
Proof.
  intros H. induction rhs as [|s r IH]; intros w Hw; cbn [yall] in *; [exact Hw|].
  destruct Hw as (v & u & -> & Hv & Hu). exists v, u. auto.
Qed.
Lemma yk_S k : forall s w, yk k s w -> yk (S k) s w.
Proof.
  induction k as [|k IH]; intros s w H; [elim H|]. cbn [yk] in H. destruct H as [H|(rhs & H1 & H2)]; [left; exact H|].
  right. exists rhs. split; [exact H1|]. eapply yall_mono; [exact IH|exact H2].
Qed.
Lemma yk_le k j s w : (k <= j)%nat -> yk k s w -> yk j s w.
Proof. intros H. induction H as [|j _ IH]; intros X; [exact X|]. apply yk_S. auto. Qed.
Lemma yk_yields k : forall s w, yk k s w -> yields y s w.
Proof.
  induction k as [|k IH]; intros s w H; [elim H|]. cbn [yk] in H. destruct H as [(c & H & ->)|(rhs & H1 & H2)]; [now apply y_term|].
  apply y_rule with (rhs := rhs); [exact H1|]. clear H1. revert w H2. induction rhs as [|x r IHr]; intros w H2; cbn [yall] in H2.
  - subst. apply y_nil.
  - destruct H2 as (v & u & -> & Hv & Hu). apply y_cons; auto.
Qed.
Lemma yields_yk : (forall s w, yields y s w -> exists k, yk k s w) /\ (forall rhs w, yields_all y rhs w -> exists k, yall (yk k) rhs w).
Proof.
  apply yields_ind2.
  - intros s c H. exists 1%nat. left. eauto.
  - intros s rhs w H _ (k & Hk). exists (S k). right. eauto.
  - exists O. reflexivity.
  - intros s rhs v w _ (k & Hk) _ (j & Hj). exists (Nat.max k j). exists v, w. split; [reflexivity|]. split.
    + eapply yk_le; [|exact Hk]. lia.
    + eapply yall_mono; [|exact Hj]. intros ? ?. apply yk_le. lia.
Qed.

Lemma rule_inv k s w : hd 0 s <> 35 -> yk k s w -> exists j rhs, k = S j /\ In (s, rhs) (y_rules y) /\ yall (yk j) rhs w.
Proof.
  intros H Hk. destruct k as [|k]; [elim Hk|]. destruct Hk as [(c & Hc & _)|(rhs & H1 & H2)].
  - apply HT in Hc as (-> & _). now elim H.
  - eauto.
Qed.
Lemma term_inv k c w : code_ok c -> yk k (term_name c) w -> w = [c].
Proof.
  intros H Hk. destruct k as [|k]; [elim Hk|]. destruct Hk as [(d & Hd & ->)|(rhs & H1 & _)].
  - apply HT in Hd as (E & Hd). apply term_name_inj in E; [now subst|exact H|exact Hd].
  - apply HR in H1. now elim H1.
Qed.

(** The rules of a piece are there, and there are no others with its names *)
Record good (lo : N) (o : bout) : Prop := {
  good_in : forall r, In r (o_new o) -> In (rule_names r) (y_rules y);
  good_only : forall k rhs, lo <= k < o_gen o -> In (gname k, rhs) (y_rules y) -> exists r, In r (o_new o) /\ rule_names r = (gname k, rhs);
  good_codes : forall c, In c (o_codes o) -> In (term_name c, c) (y_terms y);
  good_sets : forall n cs, In (INonterm n (Some cs)) (o_nts o) -> set_ok n cs }.

Lemma good_sub lo o lo1 o1 : good lo o -> incl (o_new o1) (o_new o) -> incl (o_codes o1) (o_codes o) -> incl (o_nts o1) (o_nts o) ->
  lo <= lo1 -> o_gen o1 <= o_gen o ->
  (forall r k, In r (o_new o) -> lo1 <= k < o_gen o1 -> r_name r = gname k -> In r (o_new o1)) -> good lo1 o1.
Proof.
  intros [H1 H2 H3 H4] I1 I2 I3 L1 L2 H. split.
  - intros r Hr. apply H1, I1, Hr.
  - intros k rhs Hk Hi. destruct (H2 k rhs) as (r & Hr & E); [lia|exact Hi|]. exists r. split; [|exact E]. apply (H r k); [exact Hr|lia|]. unfold rule_names in E. congruence.
  - intros c Hc. apply H3, I2, Hc.
  - intros n cs Hn. apply H4, I3, Hn.
Qed.
Lemma named_not lo hi r k : named lo hi r -> r_name r = gname k -> lo <= k < hi.
Proof.
  intros [(j & Hj & E)|(u & E & _)] E'; rewrite E in E'.
  - apply gname_inj in E'. now subst.
  - symmetry in E'. now apply gname_ins in E'.
Qed.
Lemma good_wrap_in lo o rs m : good lo (b_wrap o (gname (o_gen o)) rs m) -> (forall r, In r rs -> r_name r = gname (o_gen o)) -> good lo o.
Proof.
  intros H Hr. eapply good_sub; [exact H| | | | | |]; cbn [b_wrap o_new o_codes o_nts o_gen].
  - apply incl_appl, incl_refl.
  - apply incl_refl.
  - apply incl_appl, incl_refl.
  - lia.
  - lia.
  - intros r k Hi Hk E. apply in_app_iff in Hi as [Hi|Hi]; [exact Hi|]. rewrite (Hr r Hi) in E. apply gname_inj in E. lia.
Qed.
Lemma good_seq_l lo o p : good lo (b_seq o p) -> piece lo o -> piece (o_gen o) p -> good lo o.
Proof.
  intros H (P1 & P2) (P3 & P4). eapply good_sub; [exact H| | | | | |]; cbn [b_seq o_new o_codes o_nts o_gen]; try (apply incl_appl, incl_refl); try lia.
  intros r k Hi Hk E. apply in_app_iff in Hi as [Hi|Hi]; [exact Hi|]. rewrite Forall_forall in P4. apply (named_not _ _ _ _ (P4 r Hi)) in E. lia.
Qed.
Lemma good_seq_r lo o p : good lo (b_seq o p) -> piece lo o -> piece (o_gen o) p -> good (o_gen o) p.
Proof.
  intros H (P1 & P2) (P3 & P4). eapply good_sub; [exact H| | | | | |]; cbn [b_seq o_new o_codes o_nts o_gen]; try (apply incl_appr, incl_refl); try lia.
  intros r k Hi Hk E. apply in_app_iff in Hi as [Hi|Hi]; [|exact Hi]. rewrite Forall_forall in P2. apply (named_not _ _ _ _ (P2 r Hi)) in E. lia.
Qed.

(** The rules of a generated name *)
Lemma wrap_only lo o rs m rhs : piece lo o -> good lo (b_wrap o (gname (o_gen o)) rs m) -> In (gname (o_gen o), rhs) (y_rules y) ->
  exists r, In r rs /\ rhs = map t_name (r_rhs r).
Proof.
  intros (P1 & P2) H Hi. destruct (good_only _ _ H (o_gen o) rhs) as (r & Hr & E); [cbn [b_wrap o_gen]; lia|exact Hi|].
  cbn [b_wrap o_new] in Hr. unfold rule_names in E. apply in_app_iff in Hr as [Hr|Hr].
  - rewrite Forall_forall in P2. assert (X : r_name r = gname (o_gen o)) by congruence. apply (named_not _ _ _ _ (P2 r Hr)) in X. lia.
  - exists r. split; [exact Hr|congruence].
Qed.
Lemma wrap_in lo o rs m r : good lo (b_wrap o (gname (o_gen o)) rs m) -> In r rs -> In (rule_names r) (y_rules y).
Proof. intros H Hr. apply (good_in _ _ H). cbn [b_wrap o_new]. apply in_app_iff. auto. Qed.
Lemma gname_hd k : hd 0 (gname k) <> 35. Proof. discriminate. Qed.

(** ** What is derived is described *)
Definition U (k : nat) : Prop := forall n w, name_ok n -> yk k n w -> exists r, In r G /\ ru_name r = n /\ m_alts G (ru_alts r) w.
Definition names (ts : list iterm) : list bytes := map t_name ts.
Definition sound_at (k : nat) (ts : list iterm) (M : list Z -> Prop) : Prop := forall w, yall (yk k) (names ts) w -> M w.
Definition sound_factor f := forall gen mark, ok_factor f = true -> fine_factor f -> good gen (b_factor f gen mark) ->
  forall k, (forall j, (j <= k)%nat -> U j) -> sound_at k (o_ts (b_factor f gen mark)) (m_factor G f).
Definition sound_term t := forall gen mark, ok_term t = true -> fine_term t -> good gen (b_term t gen mark) ->
  forall k, (forall j, (j <= k)%nat -> U j) -> sound_at k (o_ts (b_term t gen mark)) (m_term G t).
Definition sound_alt a := forall gen mark, ok_alt a = true -> fine_alt a -> good gen (b_alt a gen mark) ->
  forall k, (forall j, (j <= k)%nat -> U j) -> sound_at k (o_ts (b_alt a gen mark)) (m_alt G a).
(** [n] is not the name of a rule that is generated after [gen] *)
Definition other (n : bytes) (gen : N) : Prop := (forall k, gen <= k -> n <> gname k) /\ (forall u, n <> 124 :: 43 :: u).
Definition alts_rhs (n : bytes) (o : bout) (ts : list iterm) : Prop :=
  ts = o_ts o \/ exists r, In r (o_new o) /\ r_name r = n /\ ts = r_rhs r.
Definition sound_alts a := forall n mk gen mark, ok_alts a = true -> fine_alts a -> other n gen -> good gen (b_alts n mk a gen mark) ->
  forall k, (forall j, (j <= k)%nat -> U j) -> forall ts, alts_rhs n (b_alts n mk a gen mark) ts -> sound_at k ts (m_alts G a).

Lemma yall_one P s w : yall P [s] w -> P s w.
Proof. cbn [yall]. intros (v & u & -> & H & ->). now rewrite app_nil_r. Qed.
Lemma yall_app P a : forall b w, yall P (a ++ b) w -> exists v u, w = v ++ u /\ yall P a v /\ yall P b u.
Proof.
  induction a as [|s a IH]; intros b w H; cbn [app yall] in *.
  - exists [], w. auto.
  - destruct H as (v & u & -> & Hv & Hu). destruct (IH b u Hu) as (v' & u' & -> & H1 & H2). exists (v ++ v'), u'. split; [apply app_assoc|].
    split; [exists v, v'; auto|exact H2].
Qed.
Lemma sound_chars k m cs w : Forall code_ok cs -> yall (yk k) (names (b_chars m cs)) w -> w = cs.
Proof.
  revert w. induction cs as [|c cs IH]; intros w Hc H; cbn [b_chars names map yall t_name] in H; [exact H|].
  inversion Hc as [|? ? H1 H2]; subst. destruct H as (v & u & -> & Hv & Hu). apply term_inv in Hv; [|exact H1]. subst v.
  cbn [app]. f_equal. apply IH; [exact H2|exact Hu].
Qed.

Lemma reps_sound (t n : bytes) (M : list Z -> Prop) (R : list Z -> Prop) :
  hd 0 n <> 35 ->
  (forall rhs, In (n, rhs) (y_rules y) -> rhs = [t] \/ rhs = [n; t]) ->
  (forall w, M w -> R w) -> (forall v w, R v -> M w -> R (v ++ w)) ->
  forall k, (forall j w, (j <= k)%nat -> yk j t w -> M w) -> forall w, yk k n w -> R w.
Proof.
  intros Hn Hr H1 H2 k. induction k as [k IH] using (well_founded_induction Wf_nat.lt_wf). intros Ht w Hw.
  apply rule_inv in Hw as (j & rhs & -> & Hi & Hy); [|exact Hn]. apply Hr in Hi as [-> | ->].
  - apply yall_one in Hy. apply H1. apply (Ht j); [lia|exact Hy].
  - cbn [yall] in Hy. destruct Hy as (v & u & -> & Hv & (v2 & u2 & -> & Hv2 & ->)). rewrite app_nil_r. apply H2.
    + apply (IH j); [lia| |exact Hv]. intros i x Hi. apply Ht. lia.
    + apply (Ht j); [lia|exact Hv2].
Qed.
Lemma sreps_sound (t s n : bytes) (M S R : list Z -> Prop) :
  hd 0 n <> 35 ->
  (forall rhs, In (n, rhs) (y_rules y) -> rhs = [t] \/ rhs = [n; s; t]) ->
  (forall w, M w -> R w) -> (forall u v w, R u -> S v -> M w -> R (u ++ v ++ w)) ->
  forall k, (forall j w, (j <= k)%nat -> yk j t w -> M w) -> (forall j w, (j <= k)%nat -> yk j s w -> S w) -> forall w, yk k n w -> R w.
Proof.
  intros Hn Hr H1 H2 k. induction k as [k IH] using (well_founded_induction Wf_nat.lt_wf). intros Ht Hs w Hw.
  apply rule_inv in Hw as (j & rhs & -> & Hi & Hy); [|exact Hn]. apply Hr in Hi as [-> | ->].
  - apply yall_one in Hy. apply H1. apply (Ht j); [lia|exact Hy].
  - cbn [yall] in Hy. destruct Hy as (v & u & -> & Hv & (v2 & u2 & -> & Hv2 & (v3 & u3 & -> & Hv3 & ->))). rewrite app_nil_r. apply H2.
    + apply (IH j); [lia| | |exact Hv]; intros i x Hi; [apply Ht|apply Hs]; lia.
    + apply (Hs j); [lia|exact Hv2].
    + apply (Ht j); [lia|exact Hv3].
Qed.
Lemma sound_name f gen mark : sound_factor f -> adds f = true -> ok_factor f = true -> fine_factor f -> good gen (b_factor f gen mark) ->
  forall k, (forall j, (j <= k)%nat -> U j) -> forall j w, (j <= k)%nat -> yk j (o_name (b_factor f gen mark)) w -> m_factor G f w.
Proof.
  intros H Ha Ho Hf Hg k HU' j w Hj Hw. apply (H gen mark Ho Hf Hg j); [intros i Hi; apply HU'; lia|].
  destruct (adds_one f gen mark Ha) as (t & E). unfold o_name in Hw. rewrite E in *. cbn [names map yall]. exists w, []. rewrite app_nil_r. auto.
Qed.
Ltac wrap_names := let r := fresh in cbn [b_opt b_reps b_reps0 b_sreps In]; intros r [<- |[<- |[]]]; reflexivity.

Lemma opt_only t m n rhs : (exists r, In r (b_opt t m n) /\ rhs = map t_name (r_rhs r)) -> rhs = [t] \/ rhs = [].
Proof. intros (r & [<- |[<- |[]]] & ->); auto. Qed.
Lemma reps_only t m n rhs : (exists r, In r (b_reps t m n) /\ rhs = map t_name (r_rhs r)) -> rhs = [t] \/ rhs = [n; t].
Proof. intros (r & [<- |[<- |[]]] & ->); auto. Qed.
Lemma reps0_only t m n rhs : (exists r, In r (b_reps0 t m n) /\ rhs = map t_name (r_rhs r)) -> rhs = [] \/ rhs = [n; t].
Proof. intros (r & [<- |[<- |[]]] & ->); auto. Qed.
Lemma sreps_only t m s sm n rhs : (exists r, In r (b_sreps t m s sm n) /\ rhs = map t_name (r_rhs r)) -> rhs = [t] \/ rhs = [n; s; t].
Proof. intros (r & [<- |[<- |[]]] & ->); auto. Qed.

Lemma reps0_sound (t n : bytes) (M R : list Z -> Prop) :
  hd 0 n <> 35 ->
  (forall rhs, In (n, rhs) (y_rules y) -> rhs = [] \/ rhs = [n; t]) ->
  (forall w, M w -> R w) -> (forall v w, R v -> M w -> R (v ++ w)) ->
  forall k, (forall j w, (j <= k)%nat -> yk j t w -> M w) -> forall w, yk k n w -> w = [] \/ R w.
Proof.
  intros Hn Hr H1 H2 k. induction k as [k IH] using (well_founded_induction Wf_nat.lt_wf). intros Ht w Hw.
  apply rule_inv in Hw as (j & rhs & -> & Hi & Hy); [|exact Hn]. apply Hr in Hi as [-> | ->].
  - left. exact Hy.
  - cbn [yall] in Hy. destruct Hy as (v & u & -> & Hv & (v2 & u2 & -> & Hv2 & ->)). rewrite app_nil_r. right.
    assert (Hm : M v2) by (apply (Ht j); [lia|exact Hv2]). destruct (IH j) with (w := v) as [-> |X]; [lia| |exact Hv| |].
    + intros i x Hi. apply Ht. lia.
    + apply H1, Hm.
    + apply H2; assumption.
Qed.

Lemma sound : (forall f, sound_factor f) /\ (forall t, sound_term t) /\ (forall a, sound_alt a) /\ (forall a, sound_alts a).
Proof.
  apply grammar_ind.
  - (* string *) intros tm cs gen mark _ _ Hg k _ w Hw.
    assert (Hc : Forall code_ok cs).
    { apply Forall_forall. intros c Hc. assert (X : In c (o_codes (b_factor (FStr tm cs) gen mark))). { destruct cs as [|c1 [|c2 cs]]; exact Hc. }
      apply (good_codes _ _ Hg) in X. apply HT in X. apply X. }
    assert (E : w = cs); [|subst; apply m_str]. destruct cs as [|c1 [|c2 cs]].
    + exact Hw.
    + apply (sound_chars k tm [c1]); assumption.
    + cbn [b_factor o_ts names map t_name] in Hw. apply yall_one in Hw. apply rule_inv in Hw as (j & rhs & -> & Hi & Hy); [|apply gname_hd].
      destruct (good_only _ _ Hg gen rhs) as (r & Hr & E); [cbn [b_factor o_gen]; lia|exact Hi|]. cbn [b_factor o_new] in Hr. destruct Hr as [<- |[]].
      unfold rule_names in E. cbn [gen_rule r_name r_rhs] in E. assert (E' : rhs = names (b_chars tm (c1 :: c2 :: cs))) by (unfold names; congruence). subst rhs.
      eapply sound_chars; [exact Hc|exact Hy].
  - (* encoded *) intros tm c gen mark _ _ Hg k _ w Hw. assert (Hc : Forall code_ok [c]).
    { apply Forall_cons; [|apply Forall_nil]. apply (HT (term_name c)). apply (good_codes _ _ Hg). left. reflexivity. }
    apply (sound_chars k tm [c]) in Hw; [|exact Hc]. subst. apply m_hex.
  - (* set *) intros tm ex ms gen mark _ _ Hg k _ w Hw. cbn [b_factor o_ts names map t_name] in Hw. apply yall_one in Hw.
    apply rule_inv in Hw as (j & rhs & -> & Hi & Hy); [|unfold set_name, charset_name_text; destruct ex; discriminate].
    assert (S1 : set_ok (set_name tm ex ms) (ICharset ex (set_parts ms))) by (apply (good_sets _ _ Hg); left; reflexivity).
    apply S1 in Hi as (c & Hu & Hc & ->). apply yall_one in Hy. apply term_inv in Hy.
    + subst. apply m_set. apply in_charset_set, Hc.
    + apply HU in Hu. now apply HT in Hu.
  - (* name *) intros m n al gen mark _ Hf Hg k HU' w Hw. cbn [b_factor o_ts names map t_name] in Hw. apply yall_one in Hw.
    destruct (HU' k (le_n k) n w Hf Hw) as (r & H1 & H2 & H3). eapply m_nt; eassumption.
  - (* insertion *) intros cs gen mark _ _ Hg k _ w Hw. cbn [b_factor o_ts names map t_name] in Hw. apply yall_one in Hw.
    apply rule_inv in Hw as (j & rhs & -> & Hi & Hy); [|discriminate]. apply HI in Hi. subst. cbn [yall] in Hy. subst. apply m_ins.
  - (* group *) intros a IH gen mark Ho Hf Hg k HU' w Hw. apply m_group. cbn [b_factor] in *. set (o := b_alts (gname gen) cMINUS a (gen + 1) mark) in *.
    cbn [o_ts names map t_name] in Hw. apply yall_one in Hw. apply rule_inv in Hw as (j & rhs & -> & Hi & Hy); [|apply gname_hd].
    destruct (piece_alts a (gname gen) cMINUS (gen + 1) mark) as (P1 & P2). fold o in P1, P2.
    destruct (good_only _ _ Hg gen rhs) as (r & Hr & E); [cbn [o_gen]; lia|exact Hi|]. cbn [o_new] in Hr. unfold rule_names in E.
    assert (Oth : other (gname gen) (gen + 1)).
    { split; [intros i Hj E'; apply gname_inj in E'; lia|intros u; apply gname_ins]. }
    assert (Hg' : good (gen + 1) o).
    { eapply good_sub; [exact Hg| | | | | |]; cbn [o_new o_codes o_nts o_gen]; try lia; try apply incl_refl; try apply incl_tl, incl_refl.
      intros r' i [<- |Hr'] Hk E'; [|exact Hr']. cbn [gen_rule r_name] in E'. apply gname_inj in E'. lia. }
    assert (Ar : alts_rhs (gname gen) o (r_rhs r)).
    { destruct Hr as [<- |Hr]; [left; reflexivity|]. right. exists r. split; [exact Hr|]. split; [congruence|reflexivity]. }
    eapply (IH (gname gen) cMINUS (gen + 1) mark Ho Hf Oth Hg' j); [|exact Ar|].
    + intros i Hj. apply HU'. lia.
    + unfold names. replace (map t_name (r_rhs r)) with rhs by congruence. exact Hy.
  - (* () *) intros gen mark _ _ _ k _ w Hw. cbn in Hw. subst. apply m_empty.
  - (* one *) intros f IH gen mark Ho Hf Hg k HU' w Hw. apply m_one. eapply IH; eassumption.
  - (* ? *) intros f IH gen mark Ho Hf Hg k HU' w Hw. cbn [ok_term fine_term] in Ho, Hf. apply andb_true_iff in Ho as (Ha & Ho).
    cbn [b_term] in *. set (o := b_factor f gen mark) in *. cbn [b_wrap o_ts names map t_name] in Hw. apply yall_one in Hw.
    apply rule_inv in Hw as (j & rhs & -> & Hi & Hy); [|apply gname_hd].
    apply (wrap_only gen o _ _ _ (piece_factor f gen mark) Hg) in Hi. apply opt_only in Hi.
    assert (Hg' : good gen o) by (eapply good_wrap_in; [exact Hg|wrap_names]). destruct Hi as [-> | ->].
    + apply m_opt_yes. apply yall_one in Hy. eapply (sound_name f gen mark IH Ha Ho Hf Hg' (S j) HU' j); [lia|exact Hy].
    + cbn [yall] in Hy. subst. apply m_opt_no.
  - (* * *) intros f IH gen mark Ho Hf Hg k HU' w Hw. cbn [ok_term fine_term] in Ho, Hf. apply andb_true_iff in Ho as (Ha & Ho).
    cbn [b_term] in *. set (o := b_factor f gen mark) in *. cbn [b_wrap o_ts names map t_name] in Hw. apply yall_one in Hw.
    assert (Hg' : good gen o) by (eapply good_wrap_in; [exact Hg|wrap_names]).
    destruct (reps0_sound (o_name o) (gname (o_gen o)) (m_factor G f) (m_reps G f) (gname_hd _)) with (k := k) (w := w) as [-> |X]; [| | | |exact Hw|apply m_star_none|apply m_star_some, X].
    + intros rhs Hi. apply (wrap_only gen o _ _ _ (piece_factor f gen mark) Hg) in Hi. now apply reps0_only in Hi.
    + intros; now apply m_reps_one.
    + intros; now apply m_reps_more.
    + eapply (sound_name f gen mark IH Ha Ho Hf Hg' k HU').
  - (* + *) intros f IH gen mark Ho Hf Hg k HU' w Hw. cbn [ok_term fine_term] in Ho, Hf. apply andb_true_iff in Ho as (Ha & Ho).
    cbn [b_term] in *. set (o := b_factor f gen mark) in *. cbn [b_wrap o_ts names map t_name] in Hw. apply yall_one in Hw.
    assert (Hg' : good gen o) by (eapply good_wrap_in; [exact Hg|wrap_names]). apply m_plus.
    eapply (reps_sound (o_name o) (gname (o_gen o)) (m_factor G f) (m_reps G f) (gname_hd _)); [| | | |exact Hw].
    + intros rhs Hi. apply (wrap_only gen o _ _ _ (piece_factor f gen mark) Hg) in Hi. now apply reps_only in Hi.
    + intros; now apply m_reps_one.
    + intros; now apply m_reps_more.
    + eapply (sound_name f gen mark IH Ha Ho Hf Hg' k HU').
  - (* ** *) intros f IH s IHs gen mark Ho Hf Hg k HU' w Hw. cbn [ok_term fine_term] in Ho, Hf. apply andb_true_iff in Ho as (Ho & Hos).
    apply andb_true_iff in Ho as (Ha & Ho). apply andb_true_iff in Hos as (Has & Hos). destruct Hf as (Hf & Hfs).
    cbn [b_term] in *. set (o := b_factor f gen mark) in *. set (p := b_factor s (o_gen o) (o_mark o)) in *.
    pose proof (piece_factor f gen mark) as Po. pose proof (piece_factor s (o_gen o) (o_mark o)) as Pp. fold o in Po. fold p in Pp.
    set (q := b_wrap (b_seq o p) (gname (o_gen p)) (b_sreps (o_name o) (o_mark o) (o_name p) (o_mark p) (gname (o_gen p))) (o_mark p)) in *.
    assert (Eq : o_gen q = o_gen p + 1) by reflexivity. rewrite <- Eq in *.
    assert (Pq : piece gen q). { apply (piece_wrap gen (b_seq o p)); [apply piece_seq; assumption|wrap_names]. }
    assert (Hq : good gen q) by (eapply good_wrap_in; [exact Hg|wrap_names]).
    assert (Hs : good gen (b_seq o p)) by (eapply (good_wrap_in gen (b_seq o p)); [exact Hq|wrap_names]).
    assert (H1 : good gen o) by (eapply good_seq_l; eassumption). assert (H2 : good (o_gen o) p) by (eapply good_seq_r; eassumption).
    cbn [b_wrap o_ts names map t_name] in Hw. apply yall_one in Hw.
    apply rule_inv in Hw as (j & rhs & -> & Hi & Hy); [|apply gname_hd]. apply (wrap_only gen q _ _ _ Pq Hg) in Hi. apply opt_only in Hi. destruct Hi as [-> | ->].
    2: { cbn [yall] in Hy. subst. apply m_starsep_none. }
    apply yall_one in Hy. apply m_starsep_some.
    eapply (sreps_sound (o_name o) (o_name p) (gname (o_gen p)) (m_factor G f) (m_factor G s) (m_sreps G f s) (gname_hd _)); [| | | | |exact Hy].
    + intros rhs Hi. apply (wrap_only gen (b_seq o p) _ _ _ (piece_seq _ _ _ Po Pp) Hq) in Hi. now apply sreps_only in Hi.
    + intros; now apply m_sreps_one.
    + intros; now apply m_sreps_more.
    + eapply (sound_name f gen mark IH Ha Ho Hf H1). intros i Hi. apply HU'. lia.
    + eapply (sound_name s (o_gen o) (o_mark o) IHs Has Hos Hfs H2). intros i Hi. apply HU'. lia.
  - (* ++ *) intros f IH s IHs gen mark Ho Hf Hg k HU' w Hw. cbn [ok_term fine_term] in Ho, Hf. apply andb_true_iff in Ho as (Ho & Hos).
    apply andb_true_iff in Ho as (Ha & Ho). apply andb_true_iff in Hos as (Has & Hos). destruct Hf as (Hf & Hfs).
    cbn [b_term] in *. set (o := b_factor f gen mark) in *. set (p := b_factor s (o_gen o) (o_mark o)) in *.
    pose proof (piece_factor f gen mark) as Po. pose proof (piece_factor s (o_gen o) (o_mark o)) as Pp. fold o in Po. fold p in Pp.
    assert (Hs : good gen (b_seq o p)) by (eapply (good_wrap_in gen (b_seq o p)); [exact Hg|wrap_names]).
    assert (H1 : good gen o) by (eapply good_seq_l; eassumption). assert (H2 : good (o_gen o) p) by (eapply good_seq_r; eassumption).
    cbn [b_wrap o_ts names map t_name] in Hw. apply yall_one in Hw. apply m_plussep.
    eapply (sreps_sound (o_name o) (o_name p) (gname (o_gen p)) (m_factor G f) (m_factor G s) (m_sreps G f s) (gname_hd _)); [| | | | |exact Hw].
    + intros rhs Hi. apply (wrap_only gen (b_seq o p) _ _ _ (piece_seq _ _ _ Po Pp) Hg) in Hi. now apply sreps_only in Hi.
    + intros; now apply m_sreps_one.
    + intros; now apply m_sreps_more.
    + exact (sound_name f gen mark IH Ha Ho Hf H1 k HU').
    + exact (sound_name s (o_gen o) (o_mark o) IHs Has Hos Hfs H2 k HU').
  - (* nil *) intros gen mark _ _ _ k _ w Hw. cbn in Hw. subst. apply m_nil.
  - (* cons *) intros t IH a IHa gen mark Ho Hf Hg k HU' w Hw. cbn [ok_alt fine_alt] in Ho, Hf. apply andb_true_iff in Ho as (Ho & Hoa). destruct Hf as (Hf & Hfa).
    cbn [b_alt] in *. set (o := b_term t gen mark) in *. set (p := b_alt a (o_gen o) (o_mark o)) in *.
    pose proof (piece_term t gen mark) as Po. pose proof (piece_alt a (o_gen o) (o_mark o)) as Pp. fold o in Po. fold p in Pp.
    cbn [b_seq o_ts] in Hw. unfold names in Hw. rewrite map_app in Hw. apply yall_app in Hw as (v & u & -> & Hv & Hu). apply m_cons.
    + eapply (IH gen mark Ho Hf); [eapply good_seq_l; eassumption|exact HU'|exact Hv].
    + eapply (IHa (o_gen o) (o_mark o) Hoa Hfa); [eapply good_seq_r; eassumption|exact HU'|exact Hu].
  - (* last *) intros a IH n mk gen mark Ho Hf Oth Hg k HU' ts Hts w Hw. cbn [b_alts] in *. apply m_last.
    destruct Hts as [-> |(r & Hr & E & ->)]; [eapply (IH gen mark); eassumption|]. exfalso. destruct (piece_alt a gen mark) as (_ & P2).
    rewrite Forall_forall in P2. destruct Oth as (O1 & O2). destruct (P2 r Hr) as [(i & Hi & E')|(u & E' & _)]; rewrite E in E'; [eapply O1; [|exact E']; lia|eapply O2; exact E'].
  - (* more *) intros a IH r IHr n mk gen mark Ho Hf Oth Hg k HU' ts Hts w Hw. cbn [ok_alts fine_alts] in Ho, Hf. apply andb_true_iff in Ho as (Ho & Hor). destruct Hf as (Hf & Hfr).
    cbn [b_alts] in *. set (o := b_alt a gen mark) in *. set (p := b_alts n mk r (o_gen o) (o_mark o)) in *.
    destruct (piece_alt a gen mark) as (P1 & P2). fold o in P1, P2. destruct (piece_alts r n mk (o_gen o) (o_mark o)) as (P3 & P4). fold p in P3, P4.
    rewrite Forall_forall in P2, P4. pose proof Oth as (O1 & O2).
    assert (No : forall x, In x (o_new o) -> r_name x <> n).
    { intros x Hx E. destruct (P2 x Hx) as [(i & Hi & E')|(u & E' & _)]; rewrite E in E'; [eapply O1; [|exact E']; lia|eapply O2; exact E']. }
    assert (Go : good gen o).
    { eapply good_sub; [exact Hg| | | | | |]; cbn [o_new o_codes o_nts o_gen]; try (apply incl_appl, incl_refl); try lia.
      intros x i Hx Hi E. apply in_app_iff in Hx as [Hx|[<- |Hx]]; [exact Hx| |].
      - cbn [r_name] in E. now apply O1 in E.
      - destruct (P4 x Hx) as [Hn|Hn]; [apply (named_not _ _ _ _ Hn) in E; lia|]. rewrite Hn in E. now apply O1 in E. }
    assert (Gp : good (o_gen o) p).
    { eapply good_sub; [exact Hg| | | | | |]; cbn [o_new o_codes o_nts o_gen]; try (apply incl_appr, incl_refl); try lia.
      - apply incl_appr, incl_tl, incl_refl.
      - intros x i Hx Hi E. apply in_app_iff in Hx as [Hx|[<- |Hx]]; [|cbn [r_name] in E; apply O1 in E; [elim E|lia]|exact Hx].
        apply (named_not _ _ _ _ (P2 x Hx)) in E. lia. }
    assert (Op : other n (o_gen o)) by (split; [intros i Hi; apply O1; lia|exact O2]).
    destruct Hts as [-> |(x & Hx & E & ->)].
    + cbn [o_ts] in Hw. apply m_first. eapply (IH gen mark Ho Hf Go k HU'). exact Hw.
    + cbn [o_new] in Hx. apply m_later. apply in_app_iff in Hx as [Hx|[<- |Hx]].
      * now apply No in Hx.
      * eapply (IHr n mk (o_gen o) (o_mark o) Hor Hfr Op Gp k HU'); [left; reflexivity|exact Hw].
      * eapply (IHr n mk (o_gen o) (o_mark o) Hor Hfr Op Gp k HU'); [right; exists x; auto|exact Hw].
Qed.

(** ** What is described is derived *)
Definition complete_factor f w := forall gen mark, ok_factor f = true -> fine_factor f -> good gen (b_factor f gen mark) -> Forall used w ->
  yields_all y (names (o_ts (b_factor f gen mark))) w.
Definition complete_term t w := forall gen mark, ok_term t = true -> fine_term t -> good gen (b_term t gen mark) -> Forall used w ->
  yields_all y (names (o_ts (b_term t gen mark))) w.
Definition complete_alt a w := forall gen mark, ok_alt a = true -> fine_alt a -> good gen (b_alt a gen mark) -> Forall used w ->
  yields_all y (names (o_ts (b_alt a gen mark))) w.
Definition complete_alts a w := forall n mk gen mark, ok_alts a = true -> fine_alts a -> other n gen -> good gen (b_alts n mk a gen mark) -> Forall used w ->
  exists ts, alts_rhs n (b_alts n mk a gen mark) ts /\ yields_all y (names ts) w.
(** the rule is there *)
Hypothesis HG : forall r, In r G -> exists gen mark, ok_alts (ru_alts r) = true /\ fine_alts (ru_alts r) /\ other (ru_name r) gen /\
  good gen (b_alts (ru_name r) (ru_mark r) (ru_alts r) gen mark) /\
  In (ru_name r, names (o_ts (b_alts (ru_name r) (ru_mark r) (ru_alts r) gen mark))) (y_rules y).
(** the repetitions: for any name that stands for the factor *)
Definition complete_reps f w := ok_factor f = true -> fine_factor f -> forall gen mark, good gen (b_factor f gen mark) -> adds f = true -> Forall used w ->
  forall n, (In (n, [o_name (b_factor f gen mark)]) (y_rules y) -> In (n, [n; o_name (b_factor f gen mark)]) (y_rules y) -> yields y n w) /\
            (In (n, []) (y_rules y) -> In (n, [n; o_name (b_factor f gen mark)]) (y_rules y) -> yields y n w).
Definition complete_sreps f s w := ok_factor f = true -> fine_factor f -> ok_factor s = true -> fine_factor s ->
  forall gen mark gen2 mark2, good gen (b_factor f gen mark) -> good gen2 (b_factor s gen2 mark2) -> adds f = true -> adds s = true -> Forall used w ->
  forall n, In (n, [o_name (b_factor f gen mark)]) (y_rules y) -> In (n, [n; o_name (b_factor s gen2 mark2); o_name (b_factor f gen mark)]) (y_rules y) -> yields y n w.

Lemma yields_all_one s w : yields y s w -> yields_all y [s] w.
Proof. intros H. replace w with (w ++ []) by apply app_nil_r. apply y_cons; [exact H|apply y_nil]. Qed.
Lemma yields_all_inv_one s w : yields_all y [s] w -> yields y s w.
Proof. intros H. inversion H as [|? ? v u H1 H2]; subst. inversion H2; subst. now rewrite app_nil_r. Qed.
Lemma yields_all_app a : forall b v w, yields_all y a v -> yields_all y b w -> yields_all y (a ++ b) (v ++ w).
Proof.
  induction a as [|s a IH]; intros b v w Ha Hb; inversion Ha; subst; [exact Hb|]. cbn [app]. rewrite <- app_assoc. apply y_cons; auto.
Qed.
Lemma complete_name f w gen mark : complete_factor f w -> ok_factor f = true -> fine_factor f -> good gen (b_factor f gen mark) -> adds f = true -> Forall used w ->
  yields y (o_name (b_factor f gen mark)) w.
Proof.
  intros H Ho Hf Hg Ha Hw. specialize (H gen mark Ho Hf Hg Hw). destruct (adds_one f gen mark Ha) as (t & E). unfold o_name. rewrite E in *. now apply yields_all_inv_one.
Qed.
Lemma complete_chars m cs : (forall c, In c cs -> In (term_name c, c) (y_terms y)) -> yields_all y (names (b_chars m cs)) cs.
Proof.
  induction cs as [|c cs IH]; intros H; [apply y_nil|]. cbn [b_chars map names t_name]. change (c :: cs) with ([c] ++ cs).
  apply y_cons; [apply y_term, H; left; reflexivity|]. apply IH. intros d Hd. apply H. right. exact Hd.
Qed.
Lemma rule_yields s rhs w : In (s, rhs) (y_rules y) -> yields_all y rhs w -> yields y s w.
Proof. intros. eapply y_rule; eassumption. Qed.

Lemma complete : (forall f w, m_factor G f w -> complete_factor f w) /\ (forall t w, m_term G t w -> complete_term t w) /\
  (forall f w, m_reps G f w -> complete_reps f w) /\ (forall f s w, m_sreps G f s w -> complete_sreps f s w) /\
  (forall a w, m_alt G a w -> complete_alt a w) /\ (forall a w, m_alts G a w -> complete_alts a w).
Proof.
  apply matches_ind.
  - intros tm cs gen mark _ _ Hg _.
    assert (Hc : forall c, In c cs -> In (term_name c, c) (y_terms y)).
    { intros c Hc. apply (good_codes _ _ Hg). destruct cs as [|c1 [|c2 cs]]; exact Hc. }
    destruct cs as [|c1 [|c2 cs]].
    + apply y_nil.
    + apply (complete_chars tm [c1] Hc).
    + cbn [b_factor o_ts names map t_name]. apply yields_all_one. eapply rule_yields; [|apply (complete_chars tm (c1 :: c2 :: cs) Hc)].
      apply (good_in _ _ Hg (gen_rule (gname gen) (b_chars tm (c1 :: c2 :: cs)))). left. reflexivity.
  - intros tm c gen mark _ _ Hg _. apply (complete_chars tm [c]). intros d [<- |[]]. apply (good_codes _ _ Hg). left. reflexivity.
  - intros tm ex ms c Hc gen mark _ _ Hg Hu. inversion Hu as [|? ? Hu1 _]; subst. cbn [b_factor o_ts names map t_name]. apply yields_all_one.
    assert (S1 : set_ok (set_name tm ex ms) (ICharset ex (set_parts ms))) by (apply (good_sets _ _ Hg); left; reflexivity).
    eapply rule_yields.
    + apply S1. exists c. split; [exact Hu1|]. split; [apply in_charset_set, Hc|reflexivity].
    + apply yields_all_one, y_term, HU, Hu1.
  - intros m n al r w Hr E _ IH gen mark _ _ _ Hw. cbn [b_factor o_ts names map t_name]. apply yields_all_one.
    destruct (HG r Hr) as (gen' & mark' & Ho & Hf & Oth & Hg & Hi). destruct (IH _ _ gen' mark' Ho Hf Oth Hg Hw) as (ts & Hts & Hy). subst n.
    destruct Hts as [-> |(x & Hx & En & ->)].
    + eapply rule_yields; [exact Hi|exact Hy].
    + apply (good_in _ _ Hg) in Hx. unfold rule_names in Hx. rewrite En in Hx. eapply rule_yields; [exact Hx|exact Hy].
  - intros cs gen mark _ _ Hg _. cbn [b_factor o_ts names map t_name]. apply yields_all_one. eapply rule_yields; [|apply y_nil].
    apply (good_in _ _ Hg (IRule (ins_name cs) None cSP [])). left. reflexivity.
  - intros a w _ IH gen mark Ho Hf Hg Hw. cbn [b_factor] in *. set (o := b_alts (gname gen) cMINUS a (gen + 1) mark) in *.
    assert (Oth : other (gname gen) (gen + 1)).
    { split; [intros i Hj E'; apply gname_inj in E'; lia|intros u; apply gname_ins]. }
    assert (Hg' : good (gen + 1) o).
    { eapply good_sub; [exact Hg| | | | | |]; cbn [o_new o_codes o_nts o_gen]; try lia; try apply incl_refl; try apply incl_tl, incl_refl.
      intros r' i [<- |Hr'] Hk E'; [|exact Hr']. cbn [gen_rule r_name] in E'. apply gname_inj in E'. lia. }
    destruct (IH _ _ _ _ Ho Hf Oth Hg' Hw) as (ts & Hts & Hy). cbn [o_ts names map t_name]. apply yields_all_one.
    eapply rule_yields; [|exact Hy]. destruct Hts as [-> |(x & Hx & En & ->)].
    + apply (good_in _ _ Hg (gen_rule (gname gen) (o_ts o))). left. reflexivity.
    + unfold names. rewrite <- En. apply (good_in _ _ Hg x). right. exact Hx.
  - intros gen mark _ _ _ _. apply y_nil.
  - intros f w _ IH gen mark Ho Hf Hg Hw. apply IH; assumption.
  - intros f gen mark Ho Hf Hg _. cbn [b_term] in *. cbn [b_wrap o_ts names map t_name]. apply yields_all_one. eapply rule_yields; [|apply y_nil].
    apply (wrap_in _ _ _ _ (gen_rule (gname (o_gen (b_factor f gen mark))) []) Hg). right. left. reflexivity.
  - intros f w _ IH gen mark Ho Hf Hg Hw. cbn [ok_term fine_term] in Ho, Hf. apply andb_true_iff in Ho as (Ha & Ho).
    cbn [b_term] in *. cbn [b_wrap o_ts names map t_name]. apply yields_all_one.
    eapply rule_yields; [apply (wrap_in _ _ _ _ (gen_rule (gname (o_gen (b_factor f gen mark))) [ITerm (o_mark (b_factor f gen mark)) (o_name (b_factor f gen mark))]) Hg); left; reflexivity|].
    apply yields_all_one. apply complete_name; try assumption. eapply good_wrap_in; [exact Hg|wrap_names].
  - intros f gen mark Ho Hf Hg _. cbn [b_term] in *. cbn [b_wrap o_ts names map t_name]. apply yields_all_one. eapply rule_yields; [|apply y_nil].
    apply (wrap_in _ _ _ _ (gen_rule (gname (o_gen (b_factor f gen mark))) []) Hg). left. reflexivity.
  - intros f w _ IH gen mark Ho Hf Hg Hw. cbn [ok_term fine_term] in Ho, Hf. apply andb_true_iff in Ho as (Ha & Ho).
    cbn [b_term] in *. set (o := b_factor f gen mark) in *. cbn [b_wrap o_ts names map t_name]. apply yields_all_one.
    assert (Hg' : good gen o) by (eapply good_wrap_in; [exact Hg|wrap_names]).
    apply (proj2 (IH Ho Hf gen mark Hg' Ha Hw (gname (o_gen o)))).
    + apply (wrap_in _ _ _ _ (gen_rule (gname (o_gen o)) []) Hg). left. reflexivity.
    + apply (wrap_in _ _ _ _ (gen_rule (gname (o_gen o)) [ITerm cMINUS (gname (o_gen o)); ITerm (o_mark o) (o_name o)]) Hg). right. left. reflexivity.
  - intros f w _ IH gen mark Ho Hf Hg Hw. cbn [ok_term fine_term] in Ho, Hf. apply andb_true_iff in Ho as (Ha & Ho).
    cbn [b_term] in *. set (o := b_factor f gen mark) in *. cbn [b_wrap o_ts names map t_name]. apply yields_all_one.
    assert (Hg' : good gen o) by (eapply good_wrap_in; [exact Hg|wrap_names]).
    apply (proj1 (IH Ho Hf gen mark Hg' Ha Hw (gname (o_gen o)))).
    + apply (wrap_in _ _ _ _ (gen_rule (gname (o_gen o)) [ITerm (o_mark o) (o_name o)]) Hg). left. reflexivity.
    + apply (wrap_in _ _ _ _ (gen_rule (gname (o_gen o)) [ITerm cMINUS (gname (o_gen o)); ITerm (o_mark o) (o_name o)]) Hg). right. left. reflexivity.
  - intros f s gen mark Ho Hf Hg _. cbn [b_term] in *. cbn [b_wrap o_ts names map t_name]. apply yields_all_one. eapply rule_yields; [|apply y_nil].
    match goal with |- In (?n, []) _ => apply (good_in _ _ Hg (gen_rule n [])) end. cbn [b_wrap o_new]. apply in_app_iff. right. right. left. reflexivity.
  - intros f s w _ IH gen mark Ho Hf Hg Hw. cbn [ok_term fine_term] in Ho, Hf. apply andb_true_iff in Ho as (Ho & Hos).
    apply andb_true_iff in Ho as (Ha & Ho). apply andb_true_iff in Hos as (Has & Hos). destruct Hf as (Hf & Hfs).
    cbn [b_term] in *. set (o := b_factor f gen mark) in *. set (p := b_factor s (o_gen o) (o_mark o)) in *.
    pose proof (piece_factor f gen mark) as Po. pose proof (piece_factor s (o_gen o) (o_mark o)) as Pp. fold o in Po. fold p in Pp.
    set (q := b_wrap (b_seq o p) (gname (o_gen p)) (b_sreps (o_name o) (o_mark o) (o_name p) (o_mark p) (gname (o_gen p))) (o_mark p)) in *.
    assert (Eq : o_gen q = o_gen p + 1) by reflexivity. rewrite <- Eq in *.
    assert (Hq : good gen q) by (eapply good_wrap_in; [exact Hg|wrap_names]).
    assert (Hs : good gen (b_seq o p)) by (eapply (good_wrap_in gen (b_seq o p)); [exact Hq|wrap_names]).
    assert (H1 : good gen o) by (eapply good_seq_l; eassumption). assert (H2 : good (o_gen o) p) by (eapply good_seq_r; eassumption).
    cbn [b_wrap o_ts names map t_name]. apply yields_all_one.
    eapply rule_yields; [apply (wrap_in _ _ _ _ (gen_rule (gname (o_gen q)) [ITerm cMINUS (gname (o_gen p))]) Hg); left; reflexivity|].
    apply yields_all_one. apply (IH Ho Hf Hos Hfs gen mark (o_gen o) (o_mark o) H1 H2 Ha Has Hw (gname (o_gen p))).
    + apply (wrap_in gen (b_seq o p) _ _ (gen_rule (gname (o_gen p)) [ITerm (o_mark o) (o_name o)]) Hq). left. reflexivity.
    + apply (wrap_in gen (b_seq o p) _ _ (gen_rule (gname (o_gen p)) [ITerm cMINUS (gname (o_gen p)); ITerm (o_mark p) (o_name p); ITerm (o_mark o) (o_name o)]) Hq). right. left. reflexivity.
  - intros f s w _ IH gen mark Ho Hf Hg Hw. cbn [ok_term fine_term] in Ho, Hf. apply andb_true_iff in Ho as (Ho & Hos).
    apply andb_true_iff in Ho as (Ha & Ho). apply andb_true_iff in Hos as (Has & Hos). destruct Hf as (Hf & Hfs).
    cbn [b_term] in *. set (o := b_factor f gen mark) in *. set (p := b_factor s (o_gen o) (o_mark o)) in *.
    pose proof (piece_factor f gen mark) as Po. pose proof (piece_factor s (o_gen o) (o_mark o)) as Pp. fold o in Po. fold p in Pp.
    assert (Hs : good gen (b_seq o p)) by (eapply (good_wrap_in gen (b_seq o p)); [exact Hg|wrap_names]).
    assert (H1 : good gen o) by (eapply good_seq_l; eassumption). assert (H2 : good (o_gen o) p) by (eapply good_seq_r; eassumption).
    cbn [b_wrap o_ts names map t_name]. apply yields_all_one. apply (IH Ho Hf Hos Hfs gen mark (o_gen o) (o_mark o) H1 H2 Ha Has Hw (gname (o_gen p))).
    + apply (wrap_in gen (b_seq o p) _ _ (gen_rule (gname (o_gen p)) [ITerm (o_mark o) (o_name o)]) Hg). left. reflexivity.
    + apply (wrap_in gen (b_seq o p) _ _ (gen_rule (gname (o_gen p)) [ITerm cMINUS (gname (o_gen p)); ITerm (o_mark p) (o_name p); ITerm (o_mark o) (o_name o)]) Hg). right. left. reflexivity.
  - intros f w _ IH Ho Hf gen mark Hg Ha Hw n. assert (Hy : yields y (o_name (b_factor f gen mark)) w) by (apply complete_name; assumption). split; intros R1 R2.
    + eapply rule_yields; [exact R1|]. now apply yields_all_one.
    + eapply rule_yields; [exact R2|]. change w with ([] ++ w). apply y_cons; [eapply rule_yields; [exact R1|apply y_nil]|]. now apply yields_all_one.
  - intros f v w _ IH1 _ IH2 Ho Hf gen mark Hg Ha Hw n. apply Forall_app in Hw as (Hv & Hw).
    assert (Hy : yields y (o_name (b_factor f gen mark)) w) by (apply complete_name; assumption).
    destruct (IH1 Ho Hf gen mark Hg Ha Hv n) as (I1 & I2). split; intros R1 R2.
    + eapply rule_yields; [exact R2|]. apply y_cons; [now apply I1|now apply yields_all_one].
    + eapply rule_yields; [exact R2|]. apply y_cons; [now apply I2|now apply yields_all_one].
  - intros f s w _ IH Ho Hf Hos Hfs gen mark gen2 mark2 Hg Hg2 Ha Has Hw n R1 R2.
    eapply rule_yields; [exact R1|]. apply yields_all_one. apply complete_name; assumption.
  - intros f s u v w _ IH1 _ IH2 _ IH3 Ho Hf Hos Hfs gen mark gen2 mark2 Hg Hg2 Ha Has Hw n R1 R2.
    apply Forall_app in Hw as (Hu & Hw). apply Forall_app in Hw as (Hv & Hw).
    eapply rule_yields; [exact R2|]. apply y_cons; [eapply IH1; eassumption|]. apply y_cons; [apply complete_name; assumption|].
    apply yields_all_one. apply complete_name; assumption.
  - intros gen mark _ _ _ _. apply y_nil.
  - intros t a v w _ IH _ IHa gen mark Ho Hf Hg Hw. cbn [ok_alt fine_alt] in Ho, Hf. apply andb_true_iff in Ho as (Ho & Hoa). destruct Hf as (Hf & Hfa).
    apply Forall_app in Hw as (Hv & Hw). cbn [b_alt] in *. set (o := b_term t gen mark) in *. set (p := b_alt a (o_gen o) (o_mark o)) in *.
    pose proof (piece_term t gen mark) as Po. pose proof (piece_alt a (o_gen o) (o_mark o)) as Pp. fold o in Po. fold p in Pp.
    cbn [b_seq o_ts]. unfold names. rewrite map_app. apply yields_all_app.
    + apply IH; try assumption. eapply good_seq_l; eassumption.
    + apply IHa; try assumption. eapply good_seq_r; eassumption.
  - intros a w _ IH n mk gen mark Ho Hf Oth Hg Hw. cbn [b_alts] in *. eexists. split; [left; reflexivity|]. apply IH; assumption.
  - intros a r w _ IH n mk gen mark Ho Hf Oth Hg Hw. cbn [ok_alts fine_alts] in Ho, Hf. apply andb_true_iff in Ho as (Ho & Hor). destruct Hf as (Hf & Hfr).
    cbn [b_alts] in *. set (o := b_alt a gen mark) in *. set (p := b_alts n mk r (o_gen o) (o_mark o)) in *.
    eexists. split; [left; reflexivity|]. cbn [o_ts]. apply IH; try assumption. fold o.
    destruct (piece_alt a gen mark) as (P1 & P2). fold o in P1, P2. destruct (piece_alts r n mk (o_gen o) (o_mark o)) as (P3 & P4). fold p in P3, P4.
    rewrite Forall_forall in P2, P4. pose proof Oth as (O1 & O2).
    eapply good_sub; [exact Hg| | | | | |]; cbn [o_new o_codes o_nts o_gen]; try (apply incl_appl, incl_refl); try lia.
    intros x i Hx Hi E. apply in_app_iff in Hx as [Hx|[<- |Hx]]; [exact Hx| |].
    + cbn [r_name] in E. now apply O1 in E.
    + destruct (P4 x Hx) as [Hn|Hn]; [apply (named_not _ _ _ _ Hn) in E; lia|]. rewrite Hn in E. now apply O1 in E.
  - intros a r w _ IH n mk gen mark Ho Hf Oth Hg Hw. cbn [ok_alts fine_alts] in Ho, Hf. apply andb_true_iff in Ho as (Ho & Hor). destruct Hf as (Hf & Hfr).
    cbn [b_alts] in *. set (o := b_alt a gen mark) in *. set (p := b_alts n mk r (o_gen o) (o_mark o)) in *.
    destruct (piece_alt a gen mark) as (P1 & P2). fold o in P1, P2. destruct (piece_alts r n mk (o_gen o) (o_mark o)) as (P3 & P4). fold p in P3, P4.
    rewrite Forall_forall in P2, P4. pose proof Oth as (O1 & O2).
    assert (Gp : good (o_gen o) p).
    { eapply good_sub; [exact Hg| | | | | |]; cbn [o_new o_codes o_nts o_gen]; try (apply incl_appr, incl_refl); try lia.
      - apply incl_appr, incl_tl, incl_refl.
      - intros x i Hx Hi E. apply in_app_iff in Hx as [Hx|[<- |Hx]]; [|cbn [r_name] in E; apply O1 in E; [elim E|lia]|exact Hx].
        apply (named_not _ _ _ _ (P2 x Hx)) in E. lia. }
    assert (Op : other n (o_gen o)) by (split; [intros i Hi; apply O1; lia|exact O2]).
    destruct (IH n mk (o_gen o) (o_mark o) Hor Hfr Op Gp Hw) as (ts & Hts & Hy). fold p in Hts. exists ts. split; [|exact Hy]. right. cbn [o_new].
    destruct Hts as [-> |(x & Hx & En & ->)].
    + exists (IRule n None mk (o_ts p)). split; [apply in_app_iff; right; left; reflexivity|]. auto.
    + exists x. split; [apply in_app_iff; right; right; exact Hx|]. auto.
Qed.
End lang.
