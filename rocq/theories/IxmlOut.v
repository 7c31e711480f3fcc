(** What the trees for the rules of IxmlTrans.v stand for: the items that the
    grammar gives for the text.  As IxmlLang.v, with marks and items. *)
From Coq Require Import NArith ZArith Bool String List Lia.
From Coq Require Import ZifyBool ZifyNat ZifyN.
From Verif Require Import Bytes BytesFacts Dom Ixml IxmlSpec IxmlNames IxmlTrans IxmlLang IxmlDoc IxmlDocSpec.
Import ListNotations.
Local Open Scope N_scope.
Local Open Scope list_scope.

Scheme o_factor_mind := Minimality for o_factor Sort Prop
  with o_term_mind := Minimality for o_term Sort Prop
  with o_reps_mind := Minimality for o_reps Sort Prop
  with o_sreps_mind := Minimality for o_sreps Sort Prop
  with o_alt_mind := Minimality for o_alt Sort Prop
  with o_alts_mind := Minimality for o_alts Sort Prop.
Combined Scheme outputs_ind from o_factor_mind, o_term_mind, o_reps_mind, o_sreps_mind, o_alt_mind, o_alts_mind.

(** ** Marks *)
Lemma hex_end_is e : hex_end e = end_hex e.
Proof. now destruct e. Qed.
Lemma hex_member_is m : hex_member m = member_hex m.
Proof. destruct m; cbn [hex_member member_hex]; rewrite ?hex_end_is; reflexivity. Qed.
Lemma hex_members ms : existsb hex_member ms = existsb member_hex ms.
Proof. induction ms as [|m ms IH]; cbn [existsb]; [reflexivity|]. now rewrite hex_member_is, IH. Qed.
Lemma last_marks :
  (forall f gen m, o_mark (b_factor f gen m) = last_factor f m) /\
  (forall t gen m, o_mark (b_term t gen m) = last_term t m) /\
  (forall a gen m, o_mark (b_alt a gen m) = last_alt a m) /\
  (forall a n mk gen m, o_mark (b_alts n mk a gen m) = last_alts a m).
Proof.
  apply grammar_ind; try (intros; reflexivity).
  - intros tm [|c [|c2 cs]] gen m; reflexivity.
  - intros a IH gen m. cbn [b_factor o_mark last_factor]. apply IH.
  - intros f IH gen m. apply IH.
  - intros f IH gen m. apply IH.
  - intros f IH gen m. apply IH.
  - intros f IH gen m. apply IH.
  - intros f IH s IHs gen m. cbn [b_term b_wrap o_mark last_term]. now rewrite IHs, IH.
  - intros t IH a IHa gen m. cbn [b_alt b_seq o_mark last_alt]. now rewrite IHa, IH.
  - intros a IH n mk gen m. apply IH.
  - intros a IH r IHr n mk gen m. cbn [b_alts o_mark last_alts]. now rewrite IHr, IH.
Qed.
Definition last_factor_is := proj1 last_marks.
Definition last_term_is := proj1 (proj2 last_marks).
Definition last_alt_is := proj1 (proj2 (proj2 last_marks)).
Definition last_alts_is := proj2 (proj2 (proj2 last_marks)).

(** ** The marks of the rules *)
Definition made (r : irule) : Prop :=
  (exists k, r_name r = gname k /\ r_alias r = None /\ r_mark r = cMINUS) \/ (exists u, r = IRule (124 :: 43 :: u) None cSP []).
Lemma made_gen k ts : made (gen_rule (gname k) ts).
Proof. left. exists k. auto. Qed.
Lemma made_wrap o k rs m : Forall made (o_new o) -> (forall r, In r rs -> exists ts, r = gen_rule (gname k) ts) -> Forall made (o_new (b_wrap o (gname k) rs m)).
Proof.
  intros H Hr. cbn [b_wrap o_new]. apply Forall_app. split; [exact H|]. apply Forall_forall. intros r Hi. destruct (Hr r Hi) as (ts & ->). apply made_gen.
Qed.
Lemma made_seq o p : Forall made (o_new o) -> Forall made (o_new p) -> Forall made (o_new (b_seq o p)).
Proof. intros H1 H2. cbn [b_seq o_new]. apply Forall_app. auto. Qed.
Lemma made_rules :
  (forall f gen mark, Forall made (o_new (b_factor f gen mark))) /\
  (forall t gen mark, Forall made (o_new (b_term t gen mark))) /\
  (forall a gen mark, Forall made (o_new (b_alt a gen mark))) /\
  (forall a n mk gen mark, Forall (fun r => made r \/ (r_name r = n /\ r_alias r = None /\ r_mark r = mk)) (o_new (b_alts n mk a gen mark))).
Proof.
  apply grammar_ind.
  - intros tm [|c [|c2 cs]] gen mark; cbn [b_factor o_new]; try apply Forall_nil. apply Forall_cons; [apply made_gen|apply Forall_nil].
  - intros. apply Forall_nil.
  - intros. apply Forall_nil.
  - intros. apply Forall_nil.
  - intros cs gen mark. cbn [b_factor o_new]. apply Forall_cons; [|apply Forall_nil]. right. exists (utf8 cs). reflexivity.
  - intros a IH gen mark. cbn [b_factor o_new]. apply Forall_cons; [apply made_gen|]. eapply Forall_impl; [|apply IH]. intros r [Hr|(A & B & C)]; [exact Hr|]. left. exists gen. auto.
  - intros. apply Forall_nil.
  - intros f IH gen mark. apply IH.
  - intros f IH gen mark. cbn [b_term]. apply made_wrap; [apply IH|]. cbn [b_opt In]. intros r [<- |[<- |[]]]; eexists; reflexivity.
  - intros f IH gen mark. cbn [b_term]. apply made_wrap; [apply IH|]. cbn [b_reps0 In]. intros r [<- |[<- |[]]]; eexists; reflexivity.
  - intros f IH gen mark. cbn [b_term]. apply made_wrap; [apply IH|]. cbn [b_reps In]. intros r [<- |[<- |[]]]; eexists; reflexivity.
  - intros f IH s IHs gen mark. cbn [b_term]. apply made_wrap; [apply made_wrap|].
    + apply made_seq; [apply IH|apply IHs].
    + cbn [b_sreps In]. intros r [<- |[<- |[]]]; eexists; reflexivity.
    + cbn [b_opt In]. intros r [<- |[<- |[]]]; eexists; reflexivity.
  - intros f IH s IHs gen mark. cbn [b_term]. apply made_wrap.
    + apply made_seq; [apply IH|apply IHs].
    + cbn [b_sreps In]. intros r [<- |[<- |[]]]; eexists; reflexivity.
  - intros. apply Forall_nil.
  - intros t IH a IHa gen mark. cbn [b_alt]. apply made_seq; [apply IH|apply IHa].
  - intros a IH n mk gen mark. cbn [b_alts]. eapply Forall_impl; [|apply IH]. auto.
  - intros a IH r IHr n mk gen mark. cbn [b_alts o_new]. apply Forall_app. split; [eapply Forall_impl; [|apply IH]; auto|].
    apply Forall_cons; [right; auto|apply IHr].
Qed.
Definition made_alt := proj1 (proj2 (proj2 made_rules)).
Definition made_alts := proj2 (proj2 (proj2 made_rules)).

(** ** What a tree stands for *)
Definition node_items (n : bytes) (m : N) (its : list item) : list item :=
  match n with 124 :: 43 :: s => [IIns s] | _ => wrap m n its end.

(** names of generated rules *)
Definition gen_name (n : bytes) : Prop := (exists k, n = gname k) \/ hd 0 n = 91 \/ hd 0 n = 126.
Lemma gname_gen k : gen_name (gname k). Proof. left. eauto. Qed.
Lemma gen_not_term n : gen_name n -> hd 0 n <> 35.
Proof. intros [(k & ->)|[E|E]]; [discriminate|rewrite E; discriminate|rewrite E; discriminate]. Qed.
Lemma gen_items n m its : gen_name n -> node_items n m its = wrap m n its.
Proof.
  intros H. unfold node_items. destruct n as [|a [|b s]]; try reflexivity; destruct (N.eq_dec a 124) as [-> |Ha].
  - reflexivity.
  - destruct a as [|p]; [reflexivity|]. repeat (destruct p as [p|p|]; try reflexivity).
  - destruct (N.eq_dec b 43) as [-> |Hb].
    + exfalso. destruct H as [(k & E)|[E|E]]; [symmetry in E; now apply gname_ins in E|discriminate E|discriminate E].
    + destruct b as [|p]; [reflexivity|]. repeat (destruct p as [p|p|]; try reflexivity). now elim Hb.
  - destruct a as [|p]; [reflexivity|]. repeat (destruct p as [p|p|]; try reflexivity). now elim Ha.
Qed.

Section lang.
Variable y : mgrammar.
Variable G : grammar.
Variable used : Z -> Prop.
Hypothesis HT : forall s c, In (s, c) (mg_terms y) -> s = term_name c /\ code_ok c.
Hypothesis HR : forall r, In r (mg_rules y) -> hd 0 (r_name r) <> 35.
Hypothesis HI : forall r u, In r (mg_rules y) -> r_name r = 124 :: 43 :: u -> r = IRule (124 :: 43 :: u) None cSP [].
Hypothesis HM : forall r, In r (mg_rules y) -> gen_name (r_name r) -> r_alias r = None /\ r_mark r = cMINUS.

Definition set_mark (n : bytes) : N :=
  if ((nth 0 n 0 =? 91) && (nth 1 n 0 =? cMINUS)) || ((nth 1 n 0 =? 91) && (nth 2 n 0 =? cMINUS)) then cMINUS else 0.
Definition set_ok (n : bytes) (cs : icharset) : Prop :=
  Forall cpart_ok (c_parts cs) /\
  forall r, (In r (mg_rules y) /\ r_name r = n) <-> exists c, used c /\ in_charset cs c /\ r = IRule n None cMINUS [ITerm (set_mark n) (term_name c)].
Hypothesis HU : forall c, used c -> In (term_name c, c) (mg_terms y).

(** The items for a term, with a bound on the height of the tree *)
Fixpoint yall (P : iterm -> list Z -> list item -> Prop) (ts : list iterm) (w : list Z) (o : list item) : Prop :=
  match ts with
  | [] => w = [] /\ o = []
  | s :: r => exists v u a b, w = v ++ u /\ o = a ++ b /\ P s v a /\ yall P r u b
  end.
Definition eff (m : N) (r : irule) : N := if m =? 0 then r_mark r else m.
Fixpoint yk (k : nat) (t : iterm) (w : list Z) (o : list item) : Prop :=
  match k with
  | O => False
  | S k => (exists c, In (t_name t, c) (mg_terms y) /\ w = [c] /\ o = char_items (t_mark t) c) \/
           (exists r i, In r (mg_rules y) /\ r_name r = t_name t /\ yall (yk k) (r_rhs r) w i /\ o = node_items (node_name r) (eff (t_mark t) r) i)
  end.
Inductive yo : iterm -> list Z -> list item -> Prop :=
| yo_term m s c : In (s, c) (mg_terms y) -> yo (ITerm m s) [c] (char_items m c)
| yo_rule m s r w i o : In r (mg_rules y) -> r_name r = s -> yos (r_rhs r) w i -> o = node_items (node_name r) (eff m r) i -> yo (ITerm m s) w o
with yos : list iterm -> list Z -> list item -> Prop :=
| yo_nil : yos [] [] []
| yo_cons s ts v w i j : yo s v i -> yos ts w j -> yos (s :: ts) (v ++ w) (i ++ j).

Lemma yall_mono (P Q : iterm -> list Z -> list item -> Prop) ts : (forall s w o, P s w o -> Q s w o) -> forall w o, yall P ts w o -> yall Q ts w o.
Proof.
  intros H. induction ts as [|s r IH]; intros w o Hw; cbn [yall] in *; [exact Hw|].
  destruct Hw as (v & u & a & b & -> & -> & Hv & Hu). exists v, u, a, b. auto.
Qed.
Lemma yk_S k : forall s w o, yk k s w o -> yk (S k) s w o.
Proof.
  induction k as [|k IH]; intros s w o H; [elim H|]. cbn [yk] in H. destruct H as [H|(r & i & H1 & H2 & H3 & H4)]; [left; exact H|].
  right. exists r, i. split; [exact H1|]. split; [exact H2|]. split; [|exact H4]. eapply yall_mono; [exact IH|exact H3].
Qed.
Lemma yk_le k j s w o : (k <= j)%nat -> yk k s w o -> yk j s w o.
Proof. intros H. induction H as [|j _ IH]; intros X; [exact X|]. apply yk_S. auto. Qed.

Lemma rule_inv k t w o : hd 0 (t_name t) <> 35 -> yk k t w o ->
  exists j r i, k = S j /\ In r (mg_rules y) /\ r_name r = t_name t /\ yall (yk j) (r_rhs r) w i /\ o = node_items (node_name r) (eff (t_mark t) r) i.
Proof.
  intros H Hk. destruct k as [|k]; [elim Hk|]. destruct Hk as [(c & Hc & _)|(r & i & H1)].
  - apply HT in Hc as (E & _). rewrite E in H. now elim H.
  - exists k, r, i. split; [reflexivity|exact H1].
Qed.
Definition flat (m : N) : Prop := m = 0 \/ m = cMINUS.
Lemma flat_items r m i : In r (mg_rules y) -> gen_name (r_name r) -> flat m -> node_items (node_name r) (eff m r) i = i.
Proof.
  intros Hr Hn Hm. destruct (HM r Hr Hn) as (Ea & Em). unfold node_name. rewrite Ea, gen_items by exact Hn. unfold eff. rewrite Em.
  destruct Hm as [-> | ->]; reflexivity.
Qed.
Lemma gen_inv k m n w o : gen_name n -> flat m -> yk k (ITerm m n) w o ->
  exists j r, k = S j /\ In r (mg_rules y) /\ r_name r = n /\ yall (yk j) (r_rhs r) w o.
Proof.
  intros Hn Hm Hk. apply rule_inv in Hk as (j & r & i & -> & Hr & En & Hy & ->); [|cbn [t_name]; now apply gen_not_term]. cbn [t_name t_mark] in *.
  exists j, r. rewrite flat_items; [auto|exact Hr|now rewrite En|exact Hm].
Qed.
Lemma gen_yo m n r w o : gen_name n -> flat m -> In r (mg_rules y) -> r_name r = n -> yos (r_rhs r) w o -> yo (ITerm m n) w o.
Proof.
  intros Hn Hm Hr En Hy. eapply yo_rule; [exact Hr|exact En|exact Hy|]. symmetry. apply flat_items; [exact Hr|now rewrite En|exact Hm].
Qed.
Lemma term_inv k m c w o : code_ok c -> yk k (ITerm m (term_name c)) w o -> w = [c] /\ o = char_items m c.
Proof.
  intros H Hk. destruct k as [|k]; [elim Hk|]. destruct Hk as [(d & Hd & -> & ->)|(r & i & H1 & E & _)]; cbn [t_name t_mark] in *.
  - apply HT in Hd as (E & Hd). apply term_name_inj in E; [now subst|exact H|exact Hd].
  - apply HR in H1. rewrite E in H1. now elim H1.
Qed.

(** Terms that stand for the same *)
Definition same (s t : iterm) : Prop :=
  t_name s = t_name t /\ (t_mark s = t_mark t \/ (gen_name (t_name s) /\ flat (t_mark s) /\ flat (t_mark t)) \/ exists u, t_name s = 124 :: 43 :: u).
Lemma same_sym s t : same s t -> same t s.
Proof. intros (E & H). split; [now symmetry|]. rewrite <- E. destruct H as [H|[(A & B & C)|H]]; auto. Qed.
Lemma same_items s t r i : same s t -> In r (mg_rules y) -> r_name r = t_name s -> node_items (node_name r) (eff (t_mark s) r) i = node_items (node_name r) (eff (t_mark t) r) i.
Proof.
  intros (E & [H|[(A & B & C)|(u & Hu)]]) Hr En.
  - now rewrite H.
  - rewrite !flat_items; try assumption; try reflexivity; now rewrite En.
  - rewrite Hu in En. rewrite (HI r u Hr En). reflexivity.
Qed.
Lemma same_chars s t c : same s t -> In (t_name s, c) (mg_terms y) -> char_items (t_mark s) c = char_items (t_mark t) c.
Proof.
  intros (E & [H|[(A & _)|(u & Hu)]]) Hc.
  - now rewrite H.
  - apply HT in Hc as (Ec & _). apply gen_not_term in A. rewrite Ec in A. now elim A.
  - apply HT in Hc as (Ec & _). rewrite Hu in Ec. discriminate Ec.
Qed.
Lemma yk_same k s t w o : same s t -> yk k s w o -> yk k t w o.
Proof.
  intros H Hk. destruct k as [|k]; [elim Hk|]. destruct Hk as [(c & Hc & -> & ->)|(r & i & Hr & En & Hy & ->)].
  - left. exists c. split; [now rewrite <- (proj1 H)|]. split; [reflexivity|]. now apply same_chars.
  - right. exists r, i. split; [exact Hr|]. split; [now rewrite <- (proj1 H)|]. split; [exact Hy|]. now apply same_items.
Qed.
Lemma yo_same s t w o : same s t -> yo s w o -> yo t w o.
Proof.
  intros H Hk. destruct t as [m' n']. destruct Hk as [m n c Hc|m n r w i o Hr En Hy ->].
  - assert (E : char_items m c = char_items m' c) by exact (same_chars _ _ c H Hc). rewrite E. destruct H as (E' & _). cbn [t_name] in E'. subst n'. now apply yo_term.
  - eapply yo_rule; [exact Hr| |exact Hy|].
    + rewrite En. exact (proj1 H).
    + exact (same_items _ _ r i H Hr En).
Qed.

(** The rules of a piece are there, and there are no others with its names *)
Record good (lo : N) (o : bout) : Prop := {
  good_in : forall r, In r (o_new o) -> In r (mg_rules y);
  good_only : forall k r, lo <= k < o_gen o -> In r (mg_rules y) -> r_name r = gname k -> In r (o_new o);
  good_codes : forall c, In c (o_codes o) -> In (term_name c, c) (mg_terms y);
  good_sets : forall n cs, In (INonterm n (Some cs)) (o_nts o) -> set_ok n cs }.

Lemma good_sub lo o lo1 o1 : good lo o -> incl (o_new o1) (o_new o) -> incl (o_codes o1) (o_codes o) -> incl (o_nts o1) (o_nts o) ->
  lo <= lo1 -> o_gen o1 <= o_gen o ->
  (forall r k, In r (o_new o) -> lo1 <= k < o_gen o1 -> r_name r = gname k -> In r (o_new o1)) -> good lo1 o1.
Proof.
  intros [H1 H2 H3 H4] I1 I2 I3 L1 L2 H. split.
  - intros r Hr. apply H1, I1, Hr.
  - intros k r Hk Hi E. apply (H r k); [|lia|exact E]. apply (H2 k); [lia|exact Hi|exact E].
  - intros c Hc. apply H3, I2, Hc.
  - intros n cs Hn. apply H4, I3, Hn.
Qed.
Lemma good_wrap_in lo o rs m : good lo (b_wrap o (gname (o_gen o)) rs m) -> (forall r, In r rs -> r_name r = gname (o_gen o)) -> good lo o.
Proof.
  intros H Hr. eapply good_sub; [exact H| | | | | |]; cbn [b_wrap o_new o_codes o_nts o_gen].
  - apply incl_appl, incl_refl.
  - apply incl_refl.
  - apply incl_appl, incl_refl.
  - lia.
  - lia.
  - intros r k Hi Hk E. apply in_app_iff in Hi as [Hi|Hi]; [exact Hi|]. rewrite (Hr r Hi) in E. apply gname_inj in E. lia.
Qed.
Lemma good_seq_l lo o p : good lo (b_seq o p) -> piece lo o -> piece (o_gen o) p -> good lo o.
Proof.
  intros H (P1 & P2) (P3 & P4). eapply good_sub; [exact H| | | | | |]; cbn [b_seq o_new o_codes o_nts o_gen]; try (apply incl_appl, incl_refl); try lia.
  intros r k Hi Hk E. apply in_app_iff in Hi as [Hi|Hi]; [exact Hi|]. rewrite Forall_forall in P4. apply (named_not _ _ _ _ (P4 r Hi)) in E. lia.
Qed.
Lemma good_seq_r lo o p : good lo (b_seq o p) -> piece lo o -> piece (o_gen o) p -> good (o_gen o) p.
Proof.
  intros H (P1 & P2) (P3 & P4). eapply good_sub; [exact H| | | | | |]; cbn [b_seq o_new o_codes o_nts o_gen]; try (apply incl_appr, incl_refl); try lia.
  intros r k Hi Hk E. apply in_app_iff in Hi as [Hi|Hi]; [|exact Hi]. rewrite Forall_forall in P2. apply (named_not _ _ _ _ (P2 r Hi)) in E. lia.
Qed.
Lemma wrap_only lo o rs m r : piece lo o -> good lo (b_wrap o (gname (o_gen o)) rs m) -> In r (mg_rules y) -> r_name r = gname (o_gen o) -> In r rs.
Proof.
  intros (P1 & P2) H Hi E. pose proof (good_only _ _ H (o_gen o) r) as Hr. cbn [b_wrap o_gen o_new] in Hr. specialize (Hr ltac:(lia) Hi E).
  apply in_app_iff in Hr as [Hr|Hr]; [|exact Hr]. rewrite Forall_forall in P2. apply (named_not _ _ _ _ (P2 r Hr)) in E. lia.
Qed.
Lemma wrap_in lo o rs m r : good lo (b_wrap o (gname (o_gen o)) rs m) -> In r rs -> In r (mg_rules y).
Proof. intros H Hr. apply (good_in _ _ H). cbn [b_wrap o_new]. apply in_app_iff. auto. Qed.

(** The name and the mark that an option or a repetition uses *)
Definition rep_term (o : bout) : iterm := ITerm (o_mark o) (o_name o).
Lemma plain_flat m : plain m = true -> flat m.
Proof. unfold plain, flat, cMINUS. lia. Qed.
Lemma set_name_gen tm ex ms : gen_name (set_name tm ex ms).
Proof. unfold gen_name, set_name, charset_name_text. cbn [c_exclude]. destruct ex; cbn [app hd]; auto. Qed.
Lemma rep_same f gen mark : adds f = true -> marks_factor f mark = true -> marks_rep f mark = true ->
  exists t, o_ts (b_factor f gen mark) = [t] /\ same t (rep_term (b_factor f gen mark)).
Proof.
  intros Ha Hm Hr. destruct f as [tm [|c [|c2 cs]]|tm c|tm ex ms|m n al|cs|a|]; try discriminate Ha; unfold rep_term, o_name; cbn [marks_factor marks_rep] in *; (eexists; split; [cbn [b_factor o_ts]; reflexivity|]);
    cbn [b_factor o_ts o_mark t_name t_mark]; (split; cbn [t_name t_mark]; [reflexivity|]).
  - left. reflexivity.
  - right. left. split; [apply gname_gen|]. split; [right; reflexivity|]. now apply plain_flat.
  - left. reflexivity.
  - right. left. split; [apply set_name_gen|]. split; [now apply plain_flat|]. rewrite <- hex_members. now apply plain_flat.
  - left. reflexivity.
  - right. right. eexists. reflexivity.
  - right. left. split; [apply gname_gen|]. split; [right; reflexivity|]. rewrite last_alts_is. now apply plain_flat.
Qed.

(** ** What is in a tree is given *)
Definition U (k : nat) : Prop := forall m n w o, name_ok n -> yk k (ITerm m n) w o ->
  exists r i, In r G /\ ru_name r = n /\ o_alts G (ru_alts r) w i /\ o = wrap (if m =? 0 then ru_mark r else m) (label r) i.
Definition sound_at (k : nat) (ts : list iterm) (M : list Z -> list item -> Prop) : Prop := forall w o, yall (yk k) ts w o -> M w o.
Definition sound_factor f := forall gen mark, marks_factor f mark = true -> ok_factor f = true -> fine_factor f -> good gen (b_factor f gen mark) ->
  forall k, (forall j, (j <= k)%nat -> U j) -> sound_at k (o_ts (b_factor f gen mark)) (o_factor G f).
Definition sound_term t := forall gen mark, marks_term t mark = true -> ok_term t = true -> fine_term t -> good gen (b_term t gen mark) ->
  forall k, (forall j, (j <= k)%nat -> U j) -> sound_at k (o_ts (b_term t gen mark)) (o_term G t).
Definition sound_alt a := forall gen mark, marks_alt a mark = true -> ok_alt a = true -> fine_alt a -> good gen (b_alt a gen mark) ->
  forall k, (forall j, (j <= k)%nat -> U j) -> sound_at k (o_ts (b_alt a gen mark)) (o_alt G a).
Definition sound_alts a := forall n mk gen mark, marks_alts a mark = true -> ok_alts a = true -> fine_alts a -> other n gen -> good gen (b_alts n mk a gen mark) ->
  forall k, (forall j, (j <= k)%nat -> U j) -> forall ts, alts_rhs n (b_alts n mk a gen mark) ts -> sound_at k ts (o_alts G a).

Lemma yall_one P s w o : yall P [s] w o -> P s w o.
Proof. cbn [yall]. intros (v & u & a & b & -> & -> & H & -> & ->). now rewrite !app_nil_r. Qed.
Lemma yall_app P a : forall b w o, yall P (a ++ b) w o -> exists v u i j, w = v ++ u /\ o = i ++ j /\ yall P a v i /\ yall P b u j.
Proof.
  induction a as [|s a IH]; intros b w o H; cbn [app yall] in *.
  - exists [], w, [], o. auto.
  - destruct H as (v & u & i & j & -> & -> & Hv & Hu). destruct (IH b u j Hu) as (v' & u' & i' & j' & -> & -> & H1 & H2). exists (v ++ v'), u', (i ++ i'), j'.
    split; [apply app_assoc|]. split; [apply app_assoc|]. split; [exists v, v', i, i'; auto|exact H2].
Qed.
Lemma sound_chars k m cs : forall w o, Forall code_ok cs -> yall (yk k) (b_chars m cs) w o -> w = cs /\ o = flat_map (char_items m) cs.
Proof.
  induction cs as [|c cs IH]; intros w o Hc H; cbn [b_chars map yall] in H; [exact H|].
  inversion Hc as [|? ? H1 H2]; subst. destruct H as (v & u & i & j & -> & -> & Hv & Hu). apply term_inv in Hv as (-> & ->); [|exact H1].
  destruct (IH u j H2 Hu) as (-> & ->). split; reflexivity.
Qed.

Lemma reps_sound (t : iterm) (n : bytes) (M R : list Z -> list item -> Prop) :
  gen_name n ->
  (forall r, In r (mg_rules y) -> r_name r = n -> r_rhs r = [t] \/ r_rhs r = [ITerm cMINUS n; t]) ->
  (forall w o, M w o -> R w o) -> (forall v w i j, R v i -> M w j -> R (v ++ w) (i ++ j)) ->
  forall k, (forall j w o, (j <= k)%nat -> yk j t w o -> M w o) -> forall w o, yk k (ITerm cMINUS n) w o -> R w o.
Proof.
  intros Hn Hr H1 H2 k. induction k as [k IH] using (well_founded_induction Wf_nat.lt_wf). intros Ht w o Hw.
  apply gen_inv in Hw as (j & r & -> & Hi & En & Hy); [|exact Hn|right; reflexivity]. destruct (Hr r Hi En) as [E|E]; rewrite E in Hy.
  - apply yall_one in Hy. apply H1. apply (Ht j); [lia|exact Hy].
  - cbn [yall] in Hy. destruct Hy as (v & u & a & b & -> & -> & Hv & (v2 & u2 & a2 & b2 & -> & -> & Hv2 & -> & ->)). rewrite !app_nil_r. apply H2.
    + apply (IH j); [lia| |exact Hv]. intros i x p Hp. apply Ht. lia.
    + apply (Ht j); [lia|exact Hv2].
Qed.
Lemma sreps_sound (t s : iterm) (n : bytes) (M S R : list Z -> list item -> Prop) :
  gen_name n ->
  (forall r, In r (mg_rules y) -> r_name r = n -> r_rhs r = [t] \/ r_rhs r = [ITerm cMINUS n; s; t]) ->
  (forall w o, M w o -> R w o) -> (forall u v w i j k, R u i -> S v j -> M w k -> R (u ++ v ++ w) (i ++ j ++ k)) ->
  forall k, (forall j w o, (j <= k)%nat -> yk j t w o -> M w o) -> (forall j w o, (j <= k)%nat -> yk j s w o -> S w o) -> forall w o, yk k (ITerm cMINUS n) w o -> R w o.
Proof.
  intros Hn Hr H1 H2 k. induction k as [k IH] using (well_founded_induction Wf_nat.lt_wf). intros Ht Hs w o Hw.
  apply gen_inv in Hw as (j & r & -> & Hi & En & Hy); [|exact Hn|right; reflexivity]. destruct (Hr r Hi En) as [E|E]; rewrite E in Hy.
  - apply yall_one in Hy. apply H1. apply (Ht j); [lia|exact Hy].
  - cbn [yall] in Hy. destruct Hy as (v & u & a & b & -> & -> & Hv & (v2 & u2 & a2 & b2 & -> & -> & Hv2 & (v3 & u3 & a3 & b3 & -> & -> & Hv3 & -> & ->))). rewrite !app_nil_r. apply H2.
    + apply (IH j); [lia| | |exact Hv]; intros i x p Hp; [apply Ht|apply Hs]; lia.
    + apply (Hs j); [lia|exact Hv2].
    + apply (Ht j); [lia|exact Hv3].
Qed.
Lemma reps0_sound (t : iterm) (n : bytes) (M R : list Z -> list item -> Prop) :
  gen_name n ->
  (forall r, In r (mg_rules y) -> r_name r = n -> r_rhs r = [] \/ r_rhs r = [ITerm cMINUS n; t]) ->
  (forall w o, M w o -> R w o) -> (forall v w i j, R v i -> M w j -> R (v ++ w) (i ++ j)) ->
  forall k, (forall j w o, (j <= k)%nat -> yk j t w o -> M w o) -> forall w o, yk k (ITerm cMINUS n) w o -> (w = [] /\ o = []) \/ R w o.
Proof.
  intros Hn Hr H1 H2 k. induction k as [k IH] using (well_founded_induction Wf_nat.lt_wf). intros Ht w o Hw.
  apply gen_inv in Hw as (j & r & -> & Hi & En & Hy); [|exact Hn|right; reflexivity]. destruct (Hr r Hi En) as [E|E]; rewrite E in Hy.
  - left. exact Hy.
  - cbn [yall] in Hy. destruct Hy as (v & u & a & b & -> & -> & Hv & (v2 & u2 & a2 & b2 & -> & -> & Hv2 & -> & ->)). rewrite !app_nil_r. right.
    assert (Hm : M v2 a2) by (apply (Ht j); [lia|exact Hv2]). destruct (IH j) with (w := v) (o := a) as [(-> & ->)|X]; [lia| |exact Hv| |].
    + intros i x p Hp. apply Ht. lia.
    + apply H1, Hm.
    + apply H2; assumption.
Qed.
Lemma sound_name f gen mark : sound_factor f -> adds f = true -> marks_factor f mark = true -> marks_rep f mark = true -> ok_factor f = true -> fine_factor f -> good gen (b_factor f gen mark) ->
  forall k, (forall j, (j <= k)%nat -> U j) -> forall j w o, (j <= k)%nat -> yk j (rep_term (b_factor f gen mark)) w o -> o_factor G f w o.
Proof.
  intros H Ha Hm Hr Ho Hf Hg k HU' j w o Hj Hw. apply (H gen mark Hm Ho Hf Hg j); [intros i Hi; apply HU'; lia|].
  destruct (rep_same f gen mark Ha Hm Hr) as (t & E & S1). rewrite E. cbn [yall]. exists w, [], o, []. rewrite !app_nil_r. split; [reflexivity|]. split; [reflexivity|]. split; [|auto].
  eapply yk_same; [apply same_sym; exact S1|exact Hw].
Qed.
Ltac wrap_names := let r := fresh in cbn [b_opt b_reps b_reps0 b_sreps In]; intros r [<- |[<- |[]]]; reflexivity.

Lemma opt_only t m n r : In r (b_opt t m n) -> r_rhs r = [ITerm m t] \/ r_rhs r = [].
Proof. intros [<- |[<- |[]]]; auto. Qed.
Lemma reps_only t m n r : In r (b_reps t m n) -> r_rhs r = [ITerm m t] \/ r_rhs r = [ITerm cMINUS n; ITerm m t].
Proof. intros [<- |[<- |[]]]; auto. Qed.
Lemma reps0_only t m n r : In r (b_reps0 t m n) -> r_rhs r = [] \/ r_rhs r = [ITerm cMINUS n; ITerm m t].
Proof. intros [<- |[<- |[]]]; auto. Qed.
Lemma sreps_only t m s sm n r : In r (b_sreps t m s sm n) -> r_rhs r = [ITerm m t] \/ r_rhs r = [ITerm cMINUS n; ITerm sm s; ITerm m t].
Proof. intros [<- |[<- |[]]]; auto. Qed.
Lemma flat_minus : flat cMINUS. Proof. right. reflexivity. Qed.
Lemma set_first qs : Forall cpart_ok qs -> forall c r, parts_name qs ++ [93] = c :: r -> c <> 91 /\ c <> 45.
Proof.
  intros Hq c r Ec. destruct qs as [|q qs]; [cbn [parts_name app] in Ec; split; congruence|].
  inversion Hq as [|? ? Q1 Q2]; subst. rewrite parts_name_cons in Ec. destruct q as [a b|n].
  - destruct Q1 as (Q3 & Q4). rewrite part_name_range in Ec by assumption. unfold range_name, term_name in Ec. destruct (a =? b)%Z; cbn [app] in Ec; (assert (c = cHASH) by congruence); subst c; split; discriminate.
  - destruct (category_name n Q1) as (d & r' & -> & Hd & _). cbn [part_name app] in Ec. assert (c = d) by congruence. subst. split; intros ->; discriminate Hd.
Qed.
Lemma set_mark_is tm ex ms : Forall cpart_ok (set_parts ms) -> plain tm = true -> set_mark (set_name tm ex ms) = tm.
Proof.
  intros Hp H. apply plain_flat in H. unfold set_mark, set_name, charset_name_text. cbn [c_exclude c_parts].
  destruct H as [-> | ->]; [|destruct ex; reflexivity]. change ((0 =? 0) || (0 =? cSP)) with true. cbn iota.
  destruct (parts_name (set_parts ms) ++ [93]) as [|c r] eqn:E; [destruct (parts_name (set_parts ms)); discriminate E|].
  destruct (set_first _ Hp c r E) as (H1 & H2). apply N.eqb_neq in H1, H2. unfold cMINUS.
  destruct ex; cbn [app nth]; rewrite ?H1, ?H2, ?andb_false_r; reflexivity.
Qed.

Lemma name_flat n : name_ok n -> forall m its, node_items n m its = wrap m n its.
Proof.
  intros (c & r & -> & H & _) m its. unfold node_items. assert (Hc : c <> 124) by (intros ->; discriminate H).
  destruct c as [|p]; [reflexivity|]. repeat (destruct p as [p|p|]; try reflexivity). now elim Hc.
Qed.
Lemma name_not_special n : name_ok n -> (forall k, n <> gname k) /\ (forall u, n <> 124 :: 43 :: u).
Proof.
  intros (c & r & -> & H & _). split; [intros k E; unfold gname in E|intros u E]; (assert (c = 124) by congruence); subst; discriminate H.
Qed.
Lemma sound : (forall f, sound_factor f) /\ (forall t, sound_term t) /\ (forall a, sound_alt a) /\ (forall a, sound_alts a).
Proof.
  apply grammar_ind.
  - (* string *) intros tm cs gen mark _ _ _ Hg k _ w o Hw.
    assert (Hc : Forall code_ok cs).
    { apply Forall_forall. intros c Hc. assert (X : In c (o_codes (b_factor (FStr tm cs) gen mark))). { destruct cs as [|c1 [|c2 cs]]; exact Hc. }
      apply (good_codes _ _ Hg) in X. apply HT in X. apply X. }
    assert (E : w = cs /\ o = flat_map (char_items tm) cs); [|destruct E as (-> & ->); apply o_str]. destruct cs as [|c1 [|c2 cs]].
    + exact Hw.
    + apply (sound_chars k tm [c1]); assumption.
    + cbn [b_factor o_ts] in Hw. apply yall_one in Hw. apply gen_inv in Hw as (j & r & -> & Hi & En & Hy); [|apply gname_gen|apply flat_minus].
      pose proof (good_only _ _ Hg gen r) as Hr. cbn [b_factor o_gen o_new] in Hr. specialize (Hr ltac:(lia) Hi En). destruct Hr as [<- |[]].
      cbn [gen_rule r_rhs] in Hy. eapply sound_chars; [exact Hc|exact Hy].
  - (* encoded *) intros tm c gen mark _ _ _ Hg k _ w o Hw. assert (Hc : Forall code_ok [c]).
    { apply Forall_cons; [|apply Forall_nil]. apply (HT (term_name c)). apply (good_codes _ _ Hg). left. reflexivity. }
    apply (sound_chars k tm [c]) in Hw as (-> & ->); [|exact Hc]. cbn [flat_map]. rewrite app_nil_r. apply o_hex.
  - (* set *) intros tm ex ms gen mark Hm _ _ Hg k _ w o Hw. cbn [marks_factor] in Hm. cbn [b_factor o_ts] in Hw. apply yall_one in Hw.
    apply gen_inv in Hw as (j & r & -> & Hi & En & Hy); [|apply set_name_gen|now apply plain_flat].
    assert (S1 : set_ok (set_name tm ex ms) (ICharset ex (set_parts ms))) by (apply (good_sets _ _ Hg); left; reflexivity). destruct S1 as (S0 & S1).
    destruct (proj1 (S1 r) (conj Hi En)) as (c & Hu & Hc & ->). cbn [r_rhs] in Hy. apply yall_one in Hy. rewrite set_mark_is in Hy by assumption. apply term_inv in Hy as (-> & ->).
    + apply o_set. apply in_charset_set, Hc.
    + apply HU in Hu. now apply HT in Hu.
  - (* name *) intros m n al gen mark Hm _ Hf Hg k HU' w o Hw. cbn [marks_factor] in Hm. destruct al; [discriminate Hm|]. cbn [b_factor o_ts] in Hw. apply yall_one in Hw.
    destruct (HU' k (le_n k) m n w o Hf Hw) as (r & i & H1 & H2 & H3 & ->). apply (o_nt G m n None r w i H1 H2 H3).
  - (* insertion *) intros cs gen mark _ _ _ Hg k _ w o Hw. cbn [b_factor o_ts] in Hw. apply yall_one in Hw.
    apply rule_inv in Hw as (j & r & i & -> & Hi & En & Hy & ->); [|discriminate]. cbn [t_name] in En. rewrite (HI r _ Hi En) in *. destruct Hy as (-> & ->). apply o_ins.
  - (* group *) intros a IH gen mark Hm Ho Hf Hg k HU' w o Hw. apply o_group. cbn [b_factor] in *. set (b := b_alts (gname gen) cMINUS a (gen + 1) mark) in *.
    cbn [o_ts] in Hw. apply yall_one in Hw. apply gen_inv in Hw as (j & r & -> & Hi & En & Hy); [|apply gname_gen|apply flat_minus].
    destruct (piece_alts a (gname gen) cMINUS (gen + 1) mark) as (P1 & P2). fold b in P1, P2.
    pose proof (good_only _ _ Hg gen r) as Hr. cbn [o_gen o_new] in Hr. specialize (Hr ltac:(lia) Hi En).
    assert (Oth : other (gname gen) (gen + 1)).
    { split; [intros i Hj E'; apply gname_inj in E'; lia|intros u; apply gname_ins]. }
    assert (Hg' : good (gen + 1) b).
    { eapply good_sub; [exact Hg| | | | | |]; cbn [o_new o_codes o_nts o_gen]; try lia; try apply incl_refl; try apply incl_tl, incl_refl.
      intros r' i [<- |Hr'] Hk E'; [|exact Hr']. cbn [gen_rule r_name] in E'. apply gname_inj in E'. lia. }
    assert (Ar : alts_rhs (gname gen) b (r_rhs r)).
    { destruct Hr as [<- |Hr]; [left; reflexivity|]. right. exists r. auto. }
    eapply (IH (gname gen) cMINUS (gen + 1) mark Hm Ho Hf Oth Hg' j); [|exact Ar|exact Hy]. intros i Hj. apply HU'. lia.
  - (* () *) intros gen mark _ _ _ _ k _ w o (-> & ->). apply o_empty.
  - (* one *) intros f IH gen mark Hm Ho Hf Hg k HU' w o Hw. apply o_one. eapply IH; eassumption.
  - (* ? *) intros f IH gen mark Hm Ho Hf Hg k HU' w o Hw. cbn [ok_term fine_term marks_term] in Hm, Ho, Hf. apply andb_true_iff in Ho as (Ha & Ho). apply andb_true_iff in Hm as (Hm & Hrep).
    cbn [b_term] in *. set (b := b_factor f gen mark) in *. cbn [b_wrap o_ts] in Hw. apply yall_one in Hw.
    apply gen_inv in Hw as (j & r & -> & Hi & En & Hy); [|apply gname_gen|apply flat_minus].
    apply (wrap_only gen b _ _ _ (piece_factor f gen mark) Hg) in Hi; [|exact En]. apply opt_only in Hi.
    assert (Hg' : good gen b) by (eapply good_wrap_in; [exact Hg|wrap_names]). destruct Hi as [E|E]; rewrite E in Hy.
    + apply o_opt_yes. apply yall_one in Hy. eapply (sound_name f gen mark IH Ha Hm Hrep Ho Hf Hg' (S j) HU' j); [lia|exact Hy].
    + destruct Hy as (-> & ->). apply o_opt_no.
  - (* * *) intros f IH gen mark Hm Ho Hf Hg k HU' w o Hw. cbn [ok_term fine_term marks_term] in Hm, Ho, Hf. apply andb_true_iff in Ho as (Ha & Ho). apply andb_true_iff in Hm as (Hm & Hrep).
    cbn [b_term] in *. set (b := b_factor f gen mark) in *. cbn [b_wrap o_ts] in Hw. apply yall_one in Hw.
    assert (Hg' : good gen b) by (eapply good_wrap_in; [exact Hg|wrap_names]).
    destruct (reps0_sound (rep_term b) (gname (o_gen b)) (o_factor G f) (o_reps G f) (gname_gen _)) with (k := k) (w := w) (o := o) as [(-> & ->)|X]; [| | | |exact Hw|apply o_star_none|apply o_star_some, X].
    + intros r Hi En. apply (wrap_only gen b _ _ _ (piece_factor f gen mark) Hg) in Hi; [|exact En]. now apply reps0_only in Hi.
    + intros; now apply o_reps_one.
    + intros; now apply o_reps_more.
    + eapply (sound_name f gen mark IH Ha Hm Hrep Ho Hf Hg' k HU').
  - (* + *) intros f IH gen mark Hm Ho Hf Hg k HU' w o Hw. cbn [ok_term fine_term marks_term] in Hm, Ho, Hf. apply andb_true_iff in Ho as (Ha & Ho). apply andb_true_iff in Hm as (Hm & Hrep).
    cbn [b_term] in *. set (b := b_factor f gen mark) in *. cbn [b_wrap o_ts] in Hw. apply yall_one in Hw.
    assert (Hg' : good gen b) by (eapply good_wrap_in; [exact Hg|wrap_names]). apply o_plus.
    eapply (reps_sound (rep_term b) (gname (o_gen b)) (o_factor G f) (o_reps G f) (gname_gen _)); [| | | |exact Hw].
    + intros r Hi En. apply (wrap_only gen b _ _ _ (piece_factor f gen mark) Hg) in Hi; [|exact En]. now apply reps_only in Hi.
    + intros; now apply o_reps_one.
    + intros; now apply o_reps_more.
    + eapply (sound_name f gen mark IH Ha Hm Hrep Ho Hf Hg' k HU').
  - (* ** *) intros f IH s IHs gen mark Hm Ho Hf Hg k HU' w o Hw. cbn [ok_term fine_term marks_term] in Hm, Ho, Hf. apply andb_true_iff in Ho as (Ho & Hos).
    apply andb_true_iff in Ho as (Ha & Ho). apply andb_true_iff in Hos as (Has & Hos). destruct Hf as (Hf & Hfs).
    apply andb_true_iff in Hm as (Hm & Hms). apply andb_true_iff in Hm as (Hm & Hrep). apply andb_true_iff in Hms as (Hms & Hreps).
    rewrite <- (last_factor_is f gen mark) in Hms, Hreps.
    cbn [b_term] in *. set (b := b_factor f gen mark) in *. set (p := b_factor s (o_gen b) (o_mark b)) in *.
    pose proof (piece_factor f gen mark) as Po. pose proof (piece_factor s (o_gen b) (o_mark b)) as Pp. fold b in Po. fold p in Pp.
    set (q := b_wrap (b_seq b p) (gname (o_gen p)) (b_sreps (o_name b) (o_mark b) (o_name p) (o_mark p) (gname (o_gen p))) (o_mark p)) in *.
    assert (Eq : o_gen q = o_gen p + 1) by reflexivity. rewrite <- Eq in *.
    assert (Pq : piece gen q). { apply (piece_wrap gen (b_seq b p)); [apply piece_seq; assumption|wrap_names]. }
    assert (Hq : good gen q) by (eapply good_wrap_in; [exact Hg|wrap_names]).
    assert (Hs : good gen (b_seq b p)) by (eapply (good_wrap_in gen (b_seq b p)); [exact Hq|wrap_names]).
    assert (H1 : good gen b) by (eapply good_seq_l; eassumption). assert (H2 : good (o_gen b) p) by (eapply good_seq_r; eassumption).
    cbn [b_wrap o_ts] in Hw. apply yall_one in Hw.
    apply gen_inv in Hw as (j & r & -> & Hi & En & Hy); [|apply gname_gen|apply flat_minus]. apply (wrap_only gen q _ _ _ Pq Hg) in Hi; [|exact En]. apply opt_only in Hi. destruct Hi as [E|E]; rewrite E in Hy.
    2: { destruct Hy as (-> & ->). apply o_starsep_none. }
    apply yall_one in Hy. apply o_starsep_some.
    eapply (sreps_sound (rep_term b) (rep_term p) (gname (o_gen p)) (o_factor G f) (o_factor G s) (o_sreps G f s) (gname_gen _)); [| | | | |exact Hy].
    + intros r' Hi En'. apply (wrap_only gen (b_seq b p) _ _ _ (piece_seq _ _ _ Po Pp) Hq) in Hi; [|exact En']. now apply sreps_only in Hi.
    + intros; now apply o_sreps_one.
    + intros; now apply o_sreps_more.
    + eapply (sound_name f gen mark IH Ha Hm Hrep Ho Hf H1). intros i Hi. apply HU'. lia.
    + eapply (sound_name s (o_gen b) (o_mark b) IHs Has Hms Hreps Hos Hfs H2). intros i Hi. apply HU'. lia.
  - (* ++ *) intros f IH s IHs gen mark Hm Ho Hf Hg k HU' w o Hw. cbn [ok_term fine_term marks_term] in Hm, Ho, Hf. apply andb_true_iff in Ho as (Ho & Hos).
    apply andb_true_iff in Ho as (Ha & Ho). apply andb_true_iff in Hos as (Has & Hos). destruct Hf as (Hf & Hfs).
    apply andb_true_iff in Hm as (Hm & Hms). apply andb_true_iff in Hm as (Hm & Hrep). apply andb_true_iff in Hms as (Hms & Hreps).
    rewrite <- (last_factor_is f gen mark) in Hms, Hreps.
    cbn [b_term] in *. set (b := b_factor f gen mark) in *. set (p := b_factor s (o_gen b) (o_mark b)) in *.
    pose proof (piece_factor f gen mark) as Po. pose proof (piece_factor s (o_gen b) (o_mark b)) as Pp. fold b in Po. fold p in Pp.
    assert (Hs : good gen (b_seq b p)) by (eapply (good_wrap_in gen (b_seq b p)); [exact Hg|wrap_names]).
    assert (H1 : good gen b) by (eapply good_seq_l; eassumption). assert (H2 : good (o_gen b) p) by (eapply good_seq_r; eassumption).
    cbn [b_wrap o_ts] in Hw. apply yall_one in Hw. apply o_plussep.
    eapply (sreps_sound (rep_term b) (rep_term p) (gname (o_gen p)) (o_factor G f) (o_factor G s) (o_sreps G f s) (gname_gen _)); [| | | | |exact Hw].
    + intros r' Hi En'. apply (wrap_only gen (b_seq b p) _ _ _ (piece_seq _ _ _ Po Pp) Hg) in Hi; [|exact En']. now apply sreps_only in Hi.
    + intros; now apply o_sreps_one.
    + intros; now apply o_sreps_more.
    + exact (sound_name f gen mark IH Ha Hm Hrep Ho Hf H1 k HU').
    + exact (sound_name s (o_gen b) (o_mark b) IHs Has Hms Hreps Hos Hfs H2 k HU').
  - (* nil *) intros gen mark _ _ _ _ k _ w o (-> & ->). apply o_nil.
  - (* cons *) intros t IH a IHa gen mark Hm Ho Hf Hg k HU' w o Hw. cbn [ok_alt fine_alt marks_alt] in Hm, Ho, Hf. apply andb_true_iff in Ho as (Ho & Hoa). destruct Hf as (Hf & Hfa).
    apply andb_true_iff in Hm as (Hm & Hma). rewrite <- (last_term_is t gen mark) in Hma.
    cbn [b_alt] in *. set (b := b_term t gen mark) in *. set (p := b_alt a (o_gen b) (o_mark b)) in *.
    pose proof (piece_term t gen mark) as Po. pose proof (piece_alt a (o_gen b) (o_mark b)) as Pp. fold b in Po. fold p in Pp.
    cbn [b_seq o_ts] in Hw. apply yall_app in Hw as (v & u & i & j & -> & -> & Hv & Hu). apply o_cons.
    + eapply (IH gen mark Hm Ho Hf); [eapply good_seq_l; eassumption|exact HU'|exact Hv].
    + eapply (IHa (o_gen b) (o_mark b) Hma Hoa Hfa); [eapply good_seq_r; eassumption|exact HU'|exact Hu].
  - (* last *) intros a IH n mk gen mark Hm Ho Hf Oth Hg k HU' ts Hts w o Hw. cbn [b_alts] in *. apply o_last.
    destruct Hts as [-> |(r & Hr & E & ->)]; [eapply (IH gen mark); eassumption|]. exfalso. destruct (piece_alt a gen mark) as (_ & P2).
    rewrite Forall_forall in P2. destruct Oth as (O1 & O2). destruct (P2 r Hr) as [(i & Hi & E')|(u & E' & _)]; rewrite E in E'; [eapply O1; [|exact E']; lia|eapply O2; exact E'].
  - (* more *) intros a IH r IHr n mk gen mark Hm Ho Hf Oth Hg k HU' ts Hts w o Hw. cbn [ok_alts fine_alts marks_alts] in Hm, Ho, Hf. apply andb_true_iff in Ho as (Ho & Hor). destruct Hf as (Hf & Hfr).
    apply andb_true_iff in Hm as (Hm & Hmr). rewrite <- (last_alt_is a gen mark) in Hmr.
    cbn [b_alts] in *. set (b := b_alt a gen mark) in *. set (p := b_alts n mk r (o_gen b) (o_mark b)) in *.
    destruct (piece_alt a gen mark) as (P1 & P2). fold b in P1, P2. destruct (piece_alts r n mk (o_gen b) (o_mark b)) as (P3 & P4). fold p in P3, P4.
    rewrite Forall_forall in P2, P4. pose proof Oth as (O1 & O2).
    assert (No : forall x, In x (o_new b) -> r_name x <> n).
    { intros x Hx E. destruct (P2 x Hx) as [(i & Hi & E')|(u & E' & _)]; rewrite E in E'; [eapply O1; [|exact E']; lia|eapply O2; exact E']. }
    assert (Go : good gen b).
    { eapply good_sub; [exact Hg| | | | | |]; cbn [o_new o_codes o_nts o_gen]; try (apply incl_appl, incl_refl); try lia.
      intros x i Hx Hi E. apply in_app_iff in Hx as [Hx|[<- |Hx]]; [exact Hx| |].
      - cbn [r_name] in E. now apply O1 in E.
      - destruct (P4 x Hx) as [Hn|Hn]; [apply (named_not _ _ _ _ Hn) in E; lia|]. rewrite Hn in E. now apply O1 in E. }
    assert (Gp : good (o_gen b) p).
    { eapply good_sub; [exact Hg| | | | | |]; cbn [o_new o_codes o_nts o_gen]; try (apply incl_appr, incl_refl); try lia.
      - apply incl_appr, incl_tl, incl_refl.
      - intros x i Hx Hi E. apply in_app_iff in Hx as [Hx|[<- |Hx]]; [|cbn [r_name] in E; apply O1 in E; [elim E|lia]|exact Hx].
        apply (named_not _ _ _ _ (P2 x Hx)) in E. lia. }
    assert (Op : other n (o_gen b)) by (split; [intros i Hi; apply O1; lia|exact O2]).
    destruct Hts as [-> |(x & Hx & E & ->)].
    + cbn [o_ts] in Hw. apply o_first. eapply (IH gen mark Hm Ho Hf Go k HU'). exact Hw.
    + cbn [o_new] in Hx. apply o_later. apply in_app_iff in Hx as [Hx|[<- |Hx]].
      * now apply No in Hx.
      * eapply (IHr n mk (o_gen b) (o_mark b) Hmr Hor Hfr Op Gp k HU'); [left; reflexivity|exact Hw].
      * eapply (IHr n mk (o_gen b) (o_mark b) Hmr Hor Hfr Op Gp k HU'); [right; exists x; auto|exact Hw].
Qed.

(** ** What is given is in a tree *)
Definition complete_factor f w o := forall gen mark, marks_factor f mark = true -> ok_factor f = true -> fine_factor f -> good gen (b_factor f gen mark) -> Forall used w ->
  yos (o_ts (b_factor f gen mark)) w o.
Definition complete_term t w o := forall gen mark, marks_term t mark = true -> ok_term t = true -> fine_term t -> good gen (b_term t gen mark) -> Forall used w ->
  yos (o_ts (b_term t gen mark)) w o.
Definition complete_alt a w o := forall gen mark, marks_alt a mark = true -> ok_alt a = true -> fine_alt a -> good gen (b_alt a gen mark) -> Forall used w ->
  yos (o_ts (b_alt a gen mark)) w o.
Definition complete_alts a w o := forall n mk gen mark, marks_alts a mark = true -> ok_alts a = true -> fine_alts a -> other n gen -> good gen (b_alts n mk a gen mark) -> Forall used w ->
  exists ts, alts_rhs n (b_alts n mk a gen mark) ts /\ yos ts w o.
(** the rule is there *)
Definition one_alias (r : grule) : Prop := ru_alias r = None \/ exists a, ru_alts r = AOne a.
Hypothesis HG : forall r, In r G -> exists gen mark, marks_alts (ru_alts r) mark = true /\ ok_alts (ru_alts r) = true /\ fine_alts (ru_alts r) /\ other (ru_name r) gen /\
  good gen (b_alts (ru_name r) (ru_mark r) (ru_alts r) gen mark) /\ one_alias r /\ name_ok (ru_name r) /\ name_ok (label r) /\
  In (IRule (ru_name r) (ru_alias r) (ru_mark r) (o_ts (b_alts (ru_name r) (ru_mark r) (ru_alts r) gen mark))) (mg_rules y).
Definition complete_reps f w o := ok_factor f = true -> fine_factor f -> forall gen mark, marks_factor f mark = true -> marks_rep f mark = true -> good gen (b_factor f gen mark) -> adds f = true -> Forall used w ->
  forall n, gen_name n ->
    (In (gen_rule n [rep_term (b_factor f gen mark)]) (mg_rules y) -> In (gen_rule n [ITerm cMINUS n; rep_term (b_factor f gen mark)]) (mg_rules y) -> yo (ITerm cMINUS n) w o) /\
    (In (gen_rule n []) (mg_rules y) -> In (gen_rule n [ITerm cMINUS n; rep_term (b_factor f gen mark)]) (mg_rules y) -> yo (ITerm cMINUS n) w o).
Definition complete_sreps f s w o := ok_factor f = true -> fine_factor f -> ok_factor s = true -> fine_factor s ->
  forall gen mark gen2 mark2, marks_factor f mark = true -> marks_rep f mark = true -> marks_factor s mark2 = true -> marks_rep s mark2 = true ->
  good gen (b_factor f gen mark) -> good gen2 (b_factor s gen2 mark2) -> adds f = true -> adds s = true -> Forall used w ->
  forall n, gen_name n -> In (gen_rule n [rep_term (b_factor f gen mark)]) (mg_rules y) ->
    In (gen_rule n [ITerm cMINUS n; rep_term (b_factor s gen2 mark2); rep_term (b_factor f gen mark)]) (mg_rules y) -> yo (ITerm cMINUS n) w o.

Lemma yos_one s w o : yo s w o -> yos [s] w o.
Proof. intros H. replace w with (w ++ []) by apply app_nil_r. replace o with (o ++ []) by apply app_nil_r. apply yo_cons; [exact H|apply yo_nil]. Qed.
Lemma yos_inv_one s w o : yos [s] w o -> yo s w o.
Proof. intros H. inversion H as [|? ? v u i j H1 H2]; subst. inversion H2; subst. now rewrite !app_nil_r. Qed.
Lemma yos_app a : forall b v w i j, yos a v i -> yos b w j -> yos (a ++ b) (v ++ w) (i ++ j).
Proof.
  induction a as [|s a IH]; intros b v w i j Ha Hb; inversion Ha; subst; [exact Hb|]. cbn [app]. rewrite <- !app_assoc. apply yo_cons; auto.
Qed.
Lemma complete_name f w o gen mark : complete_factor f w o -> marks_factor f mark = true -> marks_rep f mark = true -> ok_factor f = true -> fine_factor f -> good gen (b_factor f gen mark) -> adds f = true -> Forall used w ->
  yo (rep_term (b_factor f gen mark)) w o.
Proof.
  intros H Hm Hr Ho Hf Hg Ha Hw. specialize (H gen mark Hm Ho Hf Hg Hw). destruct (rep_same f gen mark Ha Hm Hr) as (t & E & S1). rewrite E in H. apply yos_inv_one in H. eapply yo_same; eassumption.
Qed.
Lemma complete_chars m cs : (forall c, In c cs -> In (term_name c, c) (mg_terms y)) -> yos (b_chars m cs) cs (flat_map (char_items m) cs).
Proof.
  induction cs as [|c cs IH]; intros H; [apply yo_nil|]. cbn [b_chars map flat_map]. change (c :: cs) with ([c] ++ cs).
  apply yo_cons; [apply yo_term, H; left; reflexivity|]. apply IH. intros d Hd. apply H. right. exact Hd.
Qed.
Lemma gen_rule_yo n ts w o : gen_name n -> In (gen_rule n ts) (mg_rules y) -> yos ts w o -> yo (ITerm cMINUS n) w o.
Proof. intros Hn Hr Hy. eapply gen_yo; [exact Hn|apply flat_minus|exact Hr|reflexivity|exact Hy]. Qed.

Lemma complete : (forall f w o, o_factor G f w o -> complete_factor f w o) /\ (forall t w o, o_term G t w o -> complete_term t w o) /\
  (forall f w o, o_reps G f w o -> complete_reps f w o) /\ (forall f s w o, o_sreps G f s w o -> complete_sreps f s w o) /\
  (forall a w o, o_alt G a w o -> complete_alt a w o) /\ (forall a w o, o_alts G a w o -> complete_alts a w o).
Proof.
  apply outputs_ind.
  - intros tm cs gen mark _ _ _ Hg _.
    assert (Hc : forall c, In c cs -> In (term_name c, c) (mg_terms y)).
    { intros c Hc. apply (good_codes _ _ Hg). destruct cs as [|c1 [|c2 cs]]; exact Hc. }
    destruct cs as [|c1 [|c2 cs]].
    + apply yo_nil.
    + apply (complete_chars tm [c1] Hc).
    + cbn [b_factor o_ts]. apply yos_one. eapply gen_rule_yo; [apply gname_gen| |apply (complete_chars tm (c1 :: c2 :: cs) Hc)].
      apply (good_in _ _ Hg (gen_rule (gname gen) (b_chars tm (c1 :: c2 :: cs)))). left. reflexivity.
  - intros tm c gen mark _ _ _ Hg _. assert (E : char_items tm c = flat_map (char_items tm) [c]) by (cbn [flat_map]; now rewrite app_nil_r). rewrite E.
    apply (complete_chars tm [c]). intros d [<- |[]]. apply (good_codes _ _ Hg). left. reflexivity.
  - intros tm ex ms c Hc gen mark Hm _ _ Hg Hu. cbn [marks_factor] in Hm. inversion Hu as [|? ? Hu1 _]; subst. cbn [b_factor o_ts]. apply yos_one.
    assert (S1 : set_ok (set_name tm ex ms) (ICharset ex (set_parts ms))) by (apply (good_sets _ _ Hg); left; reflexivity). destruct S1 as (S0 & S1).
    assert (Hr : In (IRule (set_name tm ex ms) None cMINUS [ITerm (set_mark (set_name tm ex ms)) (term_name c)]) (mg_rules y)).
    { apply S1. exists c. split; [exact Hu1|]. split; [apply in_charset_set, Hc|reflexivity]. }
    rewrite set_mark_is in Hr by assumption. eapply gen_yo; [apply set_name_gen|now apply plain_flat|exact Hr|reflexivity|].
    apply yos_one, yo_term, HU, Hu1.
  - intros m n al r w i Hr E _ IH gen mark Hm _ _ _ Hw. cbn [marks_factor] in Hm. destruct al; [discriminate Hm|]. cbn [b_factor o_ts]. apply yos_one.
    destruct (HG r Hr) as (gen' & mark' & Hmk & Ho & Hf & Oth & Hg & Al & Nn & Nl & Hi). destruct (IH (ru_name r) (ru_mark r) gen' mark' Hmk Ho Hf Oth Hg Hw) as (ts & Hts & Hy). subst n.
    destruct Hts as [-> |(x & Hx & En & ->)].
    + eapply yo_rule; [exact Hi|reflexivity|exact Hy|]. unfold node_name, eff. cbn [r_alias r_name r_mark]. fold (label r). now rewrite name_flat.
    + pose proof (made_alts (ru_alts r) (ru_name r) (ru_mark r) gen' mark') as M. rewrite Forall_forall in M. destruct Oth as (O1 & O2). destruct (name_not_special _ Nn) as (N1 & N2).
      destruct (M x Hx) as [[(k & E & _)|(u & E)]|(_ & Ea & Em)].
      * exfalso. rewrite En in E. now apply N1 in E.
      * exfalso. rewrite E in En. cbn [r_name] in En. symmetry in En. now apply N2 in En.
      * assert (El : label r = ru_name r).
        { unfold label. destruct Al as [-> |(a & Eal)]; [reflexivity|]. exfalso. rewrite Eal in Hx. cbn [b_alts] in Hx. pose proof (made_alt a gen' mark') as M1. rewrite Forall_forall in M1.
          destruct (M1 x Hx) as [(k & E & _)|(u & E)]; [rewrite En in E; now apply N1 in E|]. rewrite E in En. cbn [r_name] in En. symmetry in En. now apply N2 in En. }
        eapply yo_rule; [exact (good_in _ _ Hg x Hx)|exact En|exact Hy|]. unfold node_name, eff. rewrite Ea, En, Em, El. now rewrite name_flat.
  - intros cs gen mark _ _ _ Hg _. cbn [b_factor o_ts]. apply yos_one. eapply yo_rule; [apply (good_in _ _ Hg (IRule (ins_name cs) None cSP [])); left; reflexivity|reflexivity|apply yo_nil|reflexivity].
  - intros a w o _ IH gen mark Hm Ho Hf Hg Hw. cbn [b_factor] in *. set (b := b_alts (gname gen) cMINUS a (gen + 1) mark) in *.
    assert (Oth : other (gname gen) (gen + 1)).
    { split; [intros i Hj E'; apply gname_inj in E'; lia|intros u; apply gname_ins]. }
    assert (Hg' : good (gen + 1) b).
    { eapply good_sub; [exact Hg| | | | | |]; cbn [o_new o_codes o_nts o_gen]; try lia; try apply incl_refl; try apply incl_tl, incl_refl.
      intros r' i [<- |Hr'] Hk E'; [|exact Hr']. cbn [gen_rule r_name] in E'. apply gname_inj in E'. lia. }
    destruct (IH (gname gen) cMINUS (gen + 1) mark Hm Ho Hf Oth Hg' Hw) as (ts & Hts & Hy). cbn [o_ts]. apply yos_one.
    destruct Hts as [-> |(x & Hx & En & ->)].
    + eapply gen_rule_yo; [apply gname_gen| |exact Hy]. apply (good_in _ _ Hg (gen_rule (gname gen) (o_ts b))). left. reflexivity.
    + eapply gen_yo; [apply gname_gen|apply flat_minus| |exact En|exact Hy]. apply (good_in _ _ Hg x). right. exact Hx.
  - intros gen mark _ _ _ _ _. apply yo_nil.
  - intros f w o _ IH gen mark Hm Ho Hf Hg Hw. apply IH; assumption.
  - intros f gen mark Hm Ho Hf Hg _. cbn [b_term] in *. cbn [b_wrap o_ts]. apply yos_one. eapply gen_rule_yo; [apply gname_gen| |apply yo_nil].
    apply (wrap_in _ _ _ _ (gen_rule (gname (o_gen (b_factor f gen mark))) []) Hg). right. left. reflexivity.
  - intros f w o _ IH gen mark Hm Ho Hf Hg Hw. cbn [ok_term fine_term marks_term] in Hm, Ho, Hf. apply andb_true_iff in Ho as (Ha & Ho). apply andb_true_iff in Hm as (Hm & Hrep).
    cbn [b_term] in *. cbn [b_wrap o_ts]. apply yos_one.
    eapply gen_rule_yo; [apply gname_gen|apply (wrap_in _ _ _ _ (gen_rule (gname (o_gen (b_factor f gen mark))) [rep_term (b_factor f gen mark)]) Hg); left; reflexivity|].
    apply yos_one. apply complete_name; try assumption. eapply good_wrap_in; [exact Hg|wrap_names].
  - intros f gen mark Hm Ho Hf Hg _. cbn [b_term] in *. cbn [b_wrap o_ts]. apply yos_one. eapply gen_rule_yo; [apply gname_gen| |apply yo_nil].
    apply (wrap_in _ _ _ _ (gen_rule (gname (o_gen (b_factor f gen mark))) []) Hg). left. reflexivity.
  - intros f w o _ IH gen mark Hm Ho Hf Hg Hw. cbn [ok_term fine_term marks_term] in Hm, Ho, Hf. apply andb_true_iff in Ho as (Ha & Ho). apply andb_true_iff in Hm as (Hm & Hrep).
    cbn [b_term] in *. set (b := b_factor f gen mark) in *. cbn [b_wrap o_ts]. apply yos_one.
    assert (Hg' : good gen b) by (eapply good_wrap_in; [exact Hg|wrap_names]).
    apply (proj2 (IH Ho Hf gen mark Hm Hrep Hg' Ha Hw (gname (o_gen b)) (gname_gen _))).
    + apply (wrap_in _ _ _ _ (gen_rule (gname (o_gen b)) []) Hg). left. reflexivity.
    + apply (wrap_in _ _ _ _ (gen_rule (gname (o_gen b)) [ITerm cMINUS (gname (o_gen b)); rep_term b]) Hg). right. left. reflexivity.
  - intros f w o _ IH gen mark Hm Ho Hf Hg Hw. cbn [ok_term fine_term marks_term] in Hm, Ho, Hf. apply andb_true_iff in Ho as (Ha & Ho). apply andb_true_iff in Hm as (Hm & Hrep).
    cbn [b_term] in *. set (b := b_factor f gen mark) in *. cbn [b_wrap o_ts]. apply yos_one.
    assert (Hg' : good gen b) by (eapply good_wrap_in; [exact Hg|wrap_names]).
    apply (proj1 (IH Ho Hf gen mark Hm Hrep Hg' Ha Hw (gname (o_gen b)) (gname_gen _))).
    + apply (wrap_in _ _ _ _ (gen_rule (gname (o_gen b)) [rep_term b]) Hg). left. reflexivity.
    + apply (wrap_in _ _ _ _ (gen_rule (gname (o_gen b)) [ITerm cMINUS (gname (o_gen b)); rep_term b]) Hg). right. left. reflexivity.
  - intros f s gen mark Hm Ho Hf Hg _. cbn [b_term] in *. cbn [b_wrap o_ts]. apply yos_one.
    match goal with |- yo (ITerm _ ?n) _ _ => eapply (gen_rule_yo n []); [apply gname_gen| |apply yo_nil]; apply (good_in _ _ Hg (gen_rule n [])) end. cbn [b_wrap o_new]. apply in_app_iff. right. right. left. reflexivity.
  - intros f s w o _ IH gen mark Hm Ho Hf Hg Hw. cbn [ok_term fine_term marks_term] in Hm, Ho, Hf. apply andb_true_iff in Ho as (Ho & Hos).
    apply andb_true_iff in Ho as (Ha & Ho). apply andb_true_iff in Hos as (Has & Hos). destruct Hf as (Hf & Hfs).
    apply andb_true_iff in Hm as (Hm & Hms). apply andb_true_iff in Hm as (Hm & Hrep). apply andb_true_iff in Hms as (Hms & Hreps).
    rewrite <- (last_factor_is f gen mark) in Hms, Hreps.
    cbn [b_term] in *. set (b := b_factor f gen mark) in *. set (p := b_factor s (o_gen b) (o_mark b)) in *.
    pose proof (piece_factor f gen mark) as Po. pose proof (piece_factor s (o_gen b) (o_mark b)) as Pp. fold b in Po. fold p in Pp.
    set (q := b_wrap (b_seq b p) (gname (o_gen p)) (b_sreps (o_name b) (o_mark b) (o_name p) (o_mark p) (gname (o_gen p))) (o_mark p)) in *.
    assert (Eq : o_gen q = o_gen p + 1) by reflexivity. rewrite <- Eq in *.
    assert (Hq : good gen q) by (eapply good_wrap_in; [exact Hg|wrap_names]).
    assert (Hs : good gen (b_seq b p)) by (eapply (good_wrap_in gen (b_seq b p)); [exact Hq|wrap_names]).
    assert (H1 : good gen b) by (eapply good_seq_l; eassumption). assert (H2 : good (o_gen b) p) by (eapply good_seq_r; eassumption).
    cbn [b_wrap o_ts]. apply yos_one.
    eapply gen_rule_yo; [apply gname_gen|apply (wrap_in _ _ _ _ (gen_rule (gname (o_gen q)) [ITerm cMINUS (gname (o_gen p))]) Hg); left; reflexivity|].
    apply yos_one. apply (IH Ho Hf Hos Hfs gen mark (o_gen b) (o_mark b) Hm Hrep Hms Hreps H1 H2 Ha Has Hw (gname (o_gen p)) (gname_gen _)).
    + apply (wrap_in gen (b_seq b p) _ _ (gen_rule (gname (o_gen p)) [rep_term b]) Hq). left. reflexivity.
    + apply (wrap_in gen (b_seq b p) _ _ (gen_rule (gname (o_gen p)) [ITerm cMINUS (gname (o_gen p)); rep_term p; rep_term b]) Hq). right. left. reflexivity.
  - intros f s w o _ IH gen mark Hm Ho Hf Hg Hw. cbn [ok_term fine_term marks_term] in Hm, Ho, Hf. apply andb_true_iff in Ho as (Ho & Hos).
    apply andb_true_iff in Ho as (Ha & Ho). apply andb_true_iff in Hos as (Has & Hos). destruct Hf as (Hf & Hfs).
    apply andb_true_iff in Hm as (Hm & Hms). apply andb_true_iff in Hm as (Hm & Hrep). apply andb_true_iff in Hms as (Hms & Hreps).
    rewrite <- (last_factor_is f gen mark) in Hms, Hreps.
    cbn [b_term] in *. set (b := b_factor f gen mark) in *. set (p := b_factor s (o_gen b) (o_mark b)) in *.
    pose proof (piece_factor f gen mark) as Po. pose proof (piece_factor s (o_gen b) (o_mark b)) as Pp. fold b in Po. fold p in Pp.
    assert (Hs : good gen (b_seq b p)) by (eapply (good_wrap_in gen (b_seq b p)); [exact Hg|wrap_names]).
    assert (H1 : good gen b) by (eapply good_seq_l; eassumption). assert (H2 : good (o_gen b) p) by (eapply good_seq_r; eassumption).
    cbn [b_wrap o_ts]. apply yos_one. apply (IH Ho Hf Hos Hfs gen mark (o_gen b) (o_mark b) Hm Hrep Hms Hreps H1 H2 Ha Has Hw (gname (o_gen p)) (gname_gen _)).
    + apply (wrap_in gen (b_seq b p) _ _ (gen_rule (gname (o_gen p)) [rep_term b]) Hg). left. reflexivity.
    + apply (wrap_in gen (b_seq b p) _ _ (gen_rule (gname (o_gen p)) [ITerm cMINUS (gname (o_gen p)); rep_term p; rep_term b]) Hg). right. left. reflexivity.
  - intros f w o _ IH Ho Hf gen mark Hm Hrep Hg Ha Hw n Hn. assert (Hy : yo (rep_term (b_factor f gen mark)) w o) by (apply complete_name; assumption). split; intros R1 R2.
    + eapply gen_rule_yo; [exact Hn|exact R1|]. now apply yos_one.
    + eapply gen_rule_yo; [exact Hn|exact R2|]. change w with ([] ++ w). change o with ([] ++ o). apply yo_cons; [eapply gen_rule_yo; [exact Hn|exact R1|apply yo_nil]|]. now apply yos_one.
  - intros f v w i j _ IH1 _ IH2 Ho Hf gen mark Hm Hrep Hg Ha Hw n Hn. apply Forall_app in Hw as (Hv & Hw).
    assert (Hy : yo (rep_term (b_factor f gen mark)) w j) by (apply complete_name; assumption).
    destruct (IH1 Ho Hf gen mark Hm Hrep Hg Ha Hv n Hn) as (I1 & I2). split; intros R1 R2.
    + eapply gen_rule_yo; [exact Hn|exact R2|]. apply yo_cons; [now apply I1|now apply yos_one].
    + eapply gen_rule_yo; [exact Hn|exact R2|]. apply yo_cons; [now apply I2|now apply yos_one].
  - intros f s w o _ IH Ho Hf Hos Hfs gen mark gen2 mark2 Hm Hrep Hms Hreps Hg Hg2 Ha Has Hw n Hn R1 R2.
    eapply gen_rule_yo; [exact Hn|exact R1|]. apply yos_one. apply complete_name; assumption.
  - intros f s u v w i j k _ IH1 _ IH2 _ IH3 Ho Hf Hos Hfs gen mark gen2 mark2 Hm Hrep Hms Hreps Hg Hg2 Ha Has Hw n Hn R1 R2.
    apply Forall_app in Hw as (Hu & Hw). apply Forall_app in Hw as (Hv & Hw).
    eapply gen_rule_yo; [exact Hn|exact R2|]. apply yo_cons; [apply (IH1 Ho Hf Hos Hfs gen mark gen2 mark2); assumption|]. apply yo_cons; [apply complete_name; assumption|].
    apply yos_one. apply complete_name; assumption.
  - intros gen mark _ _ _ _ _. apply yo_nil.
  - intros t a v w i j _ IH _ IHa gen mark Hm Ho Hf Hg Hw. cbn [ok_alt fine_alt marks_alt] in Hm, Ho, Hf. apply andb_true_iff in Ho as (Ho & Hoa). destruct Hf as (Hf & Hfa).
    apply andb_true_iff in Hm as (Hm & Hma). rewrite <- (last_term_is t gen mark) in Hma.
    apply Forall_app in Hw as (Hv & Hw). cbn [b_alt] in *. set (b := b_term t gen mark) in *. set (p := b_alt a (o_gen b) (o_mark b)) in *.
    pose proof (piece_term t gen mark) as Po. pose proof (piece_alt a (o_gen b) (o_mark b)) as Pp. fold b in Po. fold p in Pp.
    cbn [b_seq o_ts]. apply yos_app.
    + apply IH; try assumption. eapply good_seq_l; eassumption.
    + apply IHa; try assumption. eapply good_seq_r; eassumption.
  - intros a w o _ IH n mk gen mark Hm Ho Hf Oth Hg Hw. cbn [b_alts] in *. eexists. split; [left; reflexivity|]. apply IH; assumption.
  - intros a r w o _ IH n mk gen mark Hm Ho Hf Oth Hg Hw. cbn [ok_alts fine_alts marks_alts] in Hm, Ho, Hf. apply andb_true_iff in Ho as (Ho & Hor). destruct Hf as (Hf & Hfr).
    apply andb_true_iff in Hm as (Hm & Hmr).
    cbn [b_alts] in *. set (b := b_alt a gen mark) in *. set (p := b_alts n mk r (o_gen b) (o_mark b)) in *.
    eexists. split; [left; reflexivity|]. cbn [o_ts]. apply IH; try assumption. fold b.
    destruct (piece_alt a gen mark) as (P1 & P2). fold b in P1, P2. destruct (piece_alts r n mk (o_gen b) (o_mark b)) as (P3 & P4). fold p in P3, P4.
    rewrite Forall_forall in P2, P4. pose proof Oth as (O1 & O2).
    eapply good_sub; [exact Hg| | | | | |]; cbn [o_new o_codes o_nts o_gen]; try (apply incl_appl, incl_refl); try lia.
    intros x i Hx Hi E. apply in_app_iff in Hx as [Hx|[<- |Hx]]; [exact Hx| |].
    + cbn [r_name] in E. now apply O1 in E.
    + destruct (P4 x Hx) as [Hn|Hn]; [apply (named_not _ _ _ _ Hn) in E; lia|]. rewrite Hn in E. now apply O1 in E.
  - intros a r w o _ IH n mk gen mark Hm Ho Hf Oth Hg Hw. cbn [ok_alts fine_alts marks_alts] in Hm, Ho, Hf. apply andb_true_iff in Ho as (Ho & Hor). destruct Hf as (Hf & Hfr).
    apply andb_true_iff in Hm as (Hm & Hmr). rewrite <- (last_alt_is a gen mark) in Hmr.
    cbn [b_alts] in *. set (b := b_alt a gen mark) in *. set (p := b_alts n mk r (o_gen b) (o_mark b)) in *.
    destruct (piece_alt a gen mark) as (P1 & P2). fold b in P1, P2. destruct (piece_alts r n mk (o_gen b) (o_mark b)) as (P3 & P4). fold p in P3, P4.
    rewrite Forall_forall in P2, P4. pose proof Oth as (O1 & O2).
    assert (Gp : good (o_gen b) p).
    { eapply good_sub; [exact Hg| | | | | |]; cbn [o_new o_codes o_nts o_gen]; try (apply incl_appr, incl_refl); try lia.
      - apply incl_appr, incl_tl, incl_refl.
      - intros x i Hx Hi E. apply in_app_iff in Hx as [Hx|[<- |Hx]]; [|cbn [r_name] in E; apply O1 in E; [elim E|lia]|exact Hx].
        apply (named_not _ _ _ _ (P2 x Hx)) in E. lia. }
    assert (Op : other n (o_gen b)) by (split; [intros i Hi; apply O1; lia|exact O2]).
    destruct (IH n mk (o_gen b) (o_mark b) Hmr Hor Hfr Op Gp Hw) as (ts & Hts & Hy). fold p in Hts. exists ts. split; [|exact Hy]. right. cbn [o_new].
    destruct Hts as [-> |(x & Hx & En & ->)].
    + exists (IRule n None mk (o_ts p)). split; [apply in_app_iff; right; left; reflexivity|]. auto.
    + exists x. split; [apply in_app_iff; right; right; exact Hx|]. auto.
Qed.
End lang.
