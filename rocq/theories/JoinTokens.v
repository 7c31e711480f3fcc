(** The tokens of the grammar can be joined (JoinSpec.v). *)
From Coq Require Import NArith List Bool String.
From Verif Require Import Bytes BytesFacts Parser Dom NsDom ParserSpec TokenSpec JoinSpec.
From Verif Require Grammar.
Import ListNotations.

Lemma given_suffix A C : declarations_given (A ++ C) -> declarations_given C.
Proof. intros H A' t C' E K. apply (H (A ++ A') t C'); [|exact K]. rewrite <- app_assoc, E. reflexivity. Qed.
Lemma apart_suffix root A C : root_apart root (A ++ C) -> root_apart root C.
Proof.
  intros H x E. destruct (H x E) as [H1 H2]. split; [exact H1|]. intros A' p c n C' E' K. apply (H2 (A ++ A') p c n C'); [|exact K].
  rewrite <- app_assoc, E'. reflexivity.
Qed.

Section Root.
Variable root : option bytes.
Definition can (T : list token) : Prop := exists J, joined root T J.
Definition pre (T : list token) : Prop := declarations_given T /\ root_apart root T.
Lemma pre_suffix A C : pre (A ++ C) -> pre C.
Proof. intros [G R]. split; [exact (given_suffix _ _ G)|exact (apart_suffix _ _ _ R)]. Qed.

Lemma can_keep t C : no_namespace (t_kind t) -> can C -> can (t :: C).
Proof. intros K (J & H). exists (t :: J). now constructor. Qed.
Lemma can_keeps A C : Forall (fun t => no_namespace (t_kind t)) A -> can C -> can (A ++ C).
Proof. intros F H. induction F as [|t A K F IH]; [exact H|]. exact (can_keep _ _ K IH). Qed.
Lemma tok_plain k P t : tok k P t -> no_namespace k -> no_namespace (t_kind t).
Proof. intros [-> _]. auto. Qed.
Ltac kind_ok := unfold no_namespace; repeat split; discriminate.
Lemma spaces_plain W : spaces W -> Forall (fun t => no_namespace (t_kind t)) W.
Proof. intros F. eapply Forall_impl; [|exact F]. intros t H. apply (tok_plain _ _ _ H). kind_ok. Qed.
Lemma element_value_plain V : TokenSpec.element_value V -> Forall (fun t => no_namespace (t_kind t)) V.
Proof.
  intros [t H|t H|t H|l C r Hl HC Hr]; try (constructor; [apply (tok_plain _ _ _ H); kind_ok|constructor]).
  constructor; [apply (tok_plain _ _ _ Hl); kind_ok|]. apply Forall_app. split.
  - eapply Forall_impl; [|exact HC]. intros t [H|[H|H]]; apply (tok_plain _ _ _ H); kind_ok.
  - constructor; [apply (tok_plain _ _ _ Hr); kind_ok|constructor].
Qed.
Lemma attr_value_plain V : TokenSpec.attr_value V -> Forall (fun t => no_namespace (t_kind t)) V.
Proof.
  intros [t H|t H|t H|l C r Hl HC Hr]; try (constructor; [apply (tok_plain _ _ _ H); kind_ok|constructor]).
  constructor; [apply (tok_plain _ _ _ Hl); kind_ok|]. apply Forall_app. split.
  - eapply Forall_impl; [|exact HC]. intros t [H|[H|H]]; apply (tok_plain _ _ _ H); kind_ok.
  - constructor; [apply (tok_plain _ _ _ Hr); kind_ok|constructor].
Qed.

(** The first token that is not white space is not an equals sign. *)
Definition no_equals (C : list token) : Prop := forall W e R, C = W ++ e :: R -> spaces W -> t_kind e <> Kequals.
Lemma no_equals_space t C : tok Kwhitespace ws_text t -> no_equals C -> no_equals (t :: C).
Proof.
  intros [K _] H W e R E S. destruct W as [|w W]; cbn in E; injection E as <- E.
  - rewrite K. discriminate.
  - inversion S; subst. exact (H W e R eq_refl H3).
Qed.
Lemma no_equals_first t C : t_kind t <> Kwhitespace -> t_kind t <> Kequals -> no_equals (t :: C).
Proof.
  intros K1 K2 W e R E S. destruct W as [|w W]; cbn in E; injection E as <- E; [exact K2|].
  inversion S as [|x l [K _] _]; subst. contradiction.
Qed.
Lemma space_split W e R W' e' R' : W ++ e :: R = W' ++ e' :: R' -> spaces W -> spaces W' ->
  t_kind e <> Kwhitespace -> t_kind e' <> Kwhitespace -> W = W' /\ e = e' /\ R = R'.
Proof.
  revert W'. induction W as [|w W IH]; intros W' E S S' K K'; destruct W' as [|w' W']; cbn in E; injection E as E0 E.
  - auto.
  - subst. inversion S' as [|x l [X _] _]; subst. contradiction.
  - subst. inversion S as [|x l [X _] _]; subst. contradiction.
  - subst w'. inversion S; inversion S'; subst. destruct (IH W' E H2 H6 K K') as (-> & H). auto.
Qed.

(** The tokens of a declaration, without its name. *)
Lemma declaration_rest D R t C : t_kind t = Kns_declaration -> t :: C = D ++ R -> declaration D ->
  (t_suffix t = [] /\ exists W e X v, C = W ++ e :: X ++ v :: R /\ spaces W /\ t_kind e = Kequals /\ spaces X /\ uri_value v /\ not_empty v) \/
  (t_suffix t <> [] /\ exists c n W e X v, C = c :: n :: W ++ e :: X ++ v :: R /\ spaces W /\ t_kind e = Kequals /\ spaces X /\ uri_value v).
Proof.
  intros K E H. destruct H as [t1 W e X v K1 Sf SW Ke SX U Ne|t1 c n W e X v K1 Sf Kc Kn SW Ke SX U]; cbn [app] in E; injection E as -> E; [left|right]; (split; [exact Sf|]).
  - exists W, e, X, v. repeat split; auto. rewrite E, <- app_assoc. cbn. rewrite <- app_assoc. reflexivity.
  - exists c, n, W, e, X, v. repeat split; auto. rewrite E. rewrite <- app_assoc. cbn. rewrite <- app_assoc. reflexivity.
Qed.
Lemma uri_not_space v : uri_value v -> t_kind v <> Kwhitespace.
Proof. intros [->| ->]; discriminate. Qed.
Lemma first_of_value V : TokenSpec.attr_value V -> exists v R, V = v :: R /\ t_kind v <> Kwhitespace /\ (uri_value v -> R = []).
Proof.
  intros [t [K _]|t [K _]|t [K _]|l C r [K _] _ _]; do 2 eexists; (split; [reflexivity|]); rewrite K; (split; [discriminate|]); auto.
  unfold uri_value. rewrite K. intros [|]; discriminate.
Qed.

Lemma can_attr A C : attr_tokens A -> pre (A ++ C) -> no_equals C -> can C -> can (A ++ C).
Proof.
  intros H P NE HC. destruct H as [N HN|N W e X V HN HW He HX HV].
  - destruct HN as [t Ht Hx|p c n Hp Hx Hc Hn|t Ht Hs|t c n Ht Hs Hc Hn].
    + apply can_keep; [apply (tok_plain _ _ _ Ht); kind_ok|exact HC].
    + destruct HC as (J & HC). destruct Hp as [Kp Np], Hc as [Kc Tc], Hn as [Kn [Nn _]].
      eexists. cbn [app]. apply (j_attr root p c n (Tok Kattr_key 1 1 (t_text p ++ cCOLON :: t_text n) [])); auto. exact HC.
    + exfalso. destruct Ht as [Kt _]. destruct (proj1 P [] t C eq_refl Kt) as (D & R & E & HD).
      destruct (declaration_rest D R t C Kt E HD) as [(_ & W & e & X & v & E1 & SW & Ke & _)|(S1 & _)]; [|contradiction].
      exact (NE W e _ E1 SW Ke).
    + exfalso. destruct Ht as [Kt _]. destruct (proj1 P [] t (c :: n :: C) eq_refl Kt) as (D & R & E & HD).
      destruct (declaration_rest D R t _ Kt E HD) as [(S1 & _)|(S1 & c' & n' & W & e & X & v & E1 & SW & Ke & _)]; [congruence|].
      injection E1 as _ _ E1. exact (NE W e _ E1 SW Ke).
  - assert (Rest : can ((W ++ e :: X ++ V) ++ C)).
    { apply can_keeps; [|exact HC]. apply Forall_app. split; [exact (spaces_plain _ HW)|].
      constructor; [apply (tok_plain _ _ _ He); kind_ok|]. apply Forall_app. split; [exact (spaces_plain _ HX)|exact (attr_value_plain _ HV)]. }
    destruct He as [Ke _]. rewrite <- app_assoc in P |- *.
    assert (Ke' : t_kind e <> Kwhitespace) by (rewrite Ke; discriminate).
    destruct (first_of_value V HV) as (v & RV & -> & Kv & Uv).
    destruct HN as [t Ht Hx|p c n Hp Hx Hc Hn|t Ht Hs|t c n Ht Hs Hc Hn].
    + apply can_keep; [apply (tok_plain _ _ _ Ht); kind_ok|exact Rest].
    + destruct Rest as (J & Rest). destruct Hp as [Kp Np], Hc as [Kc Tc], Hn as [Kn [Nn _]].
      eexists. cbn [app]. apply (j_attr root p c n (Tok Kattr_key 1 1 (t_text p ++ cCOLON :: t_text n) [])); auto. exact Rest.
    + destruct Ht as [Kt _]. destruct (proj1 P [] t _ eq_refl Kt) as (D & R & E & HD).
      destruct (declaration_rest D R t _ Kt E HD) as [(_ & W' & e' & X' & v' & E1 & SW & Ke1 & SX & U & Ne)|(S1 & _)]; [|contradiction].
      rewrite <- app_assoc in E1. cbn [app] in E1. apply space_split in E1; auto; [|rewrite Ke1; discriminate].
      destruct E1 as (<- & <- & E1). rewrite <- app_assoc in E1. cbn [app] in E1. apply space_split in E1; auto; [|exact (uri_not_space _ U)].
      destruct E1 as (<- & <- & E1). rewrite (Uv U) in *. destruct HC as (J & HC).
      exists (Tok Kwhitespace 1 1 (List.concat (map t_text (t :: W ++ e :: X ++ [v]))) [] :: J).
      apply (j_decl root (t :: W ++ e :: X ++ [v])); auto. constructor; auto.
    + destruct Ht as [Kt _]. destruct (proj1 P [] t _ eq_refl Kt) as (D & R & E & HD).
      destruct (declaration_rest D R t _ Kt E HD) as [(S1 & _)|(S1 & c' & n' & W' & e' & X' & v' & E1 & SW & Ke1 & SX & U)]; [congruence|].
      injection E1 as <- <- E1.
      rewrite <- app_assoc in E1. cbn [app] in E1. apply space_split in E1; auto; [|rewrite Ke1; discriminate].
      destruct E1 as (<- & <- & E1). rewrite <- app_assoc in E1. cbn [app] in E1. apply space_split in E1; auto; [|exact (uri_not_space _ U)].
      destruct E1 as (<- & <- & E1). rewrite (Uv U) in *. destruct HC as (J & HC).
      exists (Tok Kwhitespace 1 1 (List.concat (map t_text (t :: c :: n :: W ++ e :: X ++ [v]))) [] :: J).
      apply (j_decl root (t :: c :: n :: W ++ e :: X ++ [v])); auto. destruct Hc as [Kc _], Hn as [Kn _]. constructor; auto.
Qed.
Lemma attr_first A : attr_tokens A -> exists t R, A = t :: R /\ t_kind t <> Kwhitespace /\ t_kind t <> Kequals.
Proof.
  assert (F : forall N, attr_name N -> exists t R, N = t :: R /\ t_kind t <> Kwhitespace /\ t_kind t <> Kequals).
  { intros N [t [K _] _|p c n [K _] _ _ _|t [K _] _|t c n [K _] _ _ _]; do 2 eexists; (split; [reflexivity|]); rewrite K; split; discriminate. }
  intros [N HN|N W e X V HN _ _ _ _]; destruct (F N HN) as (t & R & -> & H); do 2 eexists; (split; [reflexivity|exact H]).
Qed.
Lemma no_equals_attrs A C : attrs_tokens A -> no_equals C -> no_equals (A ++ C).
Proof.
  intros H NE. induction H as [|t A Ht H IH|B A HB H IH]; [exact NE|exact (no_equals_space _ _ Ht IH)|].
  destruct (attr_first B HB) as (t & R & -> & K1 & K2). exact (no_equals_first _ _ K1 K2).
Qed.
Lemma can_attrs A C : attrs_tokens A -> pre (A ++ C) -> no_equals C -> can C -> can (A ++ C).
Proof.
  intros H P NE HC. induction H as [|t A Ht H IH|B A HB H IH]; [exact HC| |].
  - apply can_keep; [apply (tok_plain _ _ _ Ht); kind_ok|]. apply IH. exact (pre_suffix [t] _ P).
  - rewrite <- app_assoc in P |- *. apply can_attr; auto; [exact (no_equals_attrs _ _ H NE)|].
    apply IH. exact (pre_suffix B _ P).
Qed.
Lemma can_apar A C : apar_tokens A -> pre (A ++ C) -> can C -> can (A ++ C).
Proof.
  intros [|l B r Hl HB Hr] P HC; [exact HC|]. cbn [app] in *. rewrite <- app_assoc in *. cbn [app] in *.
  apply can_keep; [apply (tok_plain _ _ _ Hl); kind_ok|]. apply can_attrs; auto.
  - exact (pre_suffix [l] _ P).
  - destruct Hr as [Kr _]. apply no_equals_first; rewrite Kr; discriminate.
  - apply can_keep; [apply (tok_plain _ _ _ Hr); kind_ok|exact HC].
Qed.
Lemma can_name k N C : k = Kelement_name \/ k = Kelement_key -> name_tokens k N -> pre (N ++ C) -> can C -> can (N ++ C).
Proof.
  intros Hk H P HC. assert (NN : no_namespace k) by (destruct Hk as [->| ->]; kind_ok).
  destruct H as [t Ht|p c n Hp Hs Hc Hn|t n Ht _|t Ht]; try (apply can_keep; [exact (tok_plain _ _ _ Ht NN)|exact HC]).
  destruct HC as (J & HC). destruct Hp as [Kp Np], Hc as [Kc Tc], Hn as [Kn [Nn Nc]].
  exists (Tok k 1 1 (t_text p ++ cCOLON :: t_text n) [] :: J). cbn [app].
  assert (R : root <> Some (t_text n) /\ root <> Some (t_text p ++ cCOLON :: t_text n)).
  { split; intros E; destruct (proj2 P _ E) as [R1 R2].
    - exact (R2 [] p c n C eq_refl Kp eq_refl).
    - apply R1. apply in_or_app. right. left. reflexivity. }
  destruct R as [R1 R2]. apply j_elem; auto. now rewrite Kn.
Qed.

Lemma can_doc T : doc_tokens T -> forall C, pre (T ++ C) -> can C -> can (T ++ C).
Proof.
  revert T. fix IH 2. intros T [|t D Ht HD|A D HA HD] C P HC.
  - exact HC.
  - apply can_keep; [apply (tok_plain _ _ _ Ht); kind_ok|]. apply (IH D HD); [exact (pre_suffix [t] _ P)|exact HC].
  - rewrite <- app_assoc in *. assert (HC' : can (D ++ C)) by (apply (IH D HD); [exact (pre_suffix A _ P)|exact HC]).
    revert P HC'. generalize (D ++ C). clear C HC HD D. intros C P HC.
    destruct HA as [t Ht|t Ht|t Ht|n t B _ Ht HB|N W B X V HN HW HB HX HV|N W e X V HN HW He HX HV].
    + apply can_keep; [apply (tok_plain _ _ _ Ht); kind_ok|exact HC].
    + apply can_keep; [apply (tok_plain _ _ _ Ht); kind_ok|exact HC].
    + apply can_keep; [apply (tok_plain _ _ _ Ht); kind_ok|exact HC].
    + apply can_keep; [apply (tok_plain _ _ _ Ht); kind_ok|]. apply can_keeps; [|exact HC].
      eapply Forall_impl; [|exact HB]. intros x Hx. apply (tok_plain _ _ _ Hx). kind_ok.
    + rewrite <- !app_assoc in *. pose proof (pre_suffix N _ P) as P1. pose proof (pre_suffix W _ P1) as P2.
      pose proof (pre_suffix B _ P2) as P3. pose proof (pre_suffix X _ P3) as P4.
      apply (can_name Kelement_name); auto. apply can_keeps; [exact (spaces_plain _ HW)|].
      apply can_apar; auto. apply can_keeps; [exact (spaces_plain _ HX)|].
      destruct HV as [|e Y V He HY HV|l D r Hl HD Hr].
      * exact HC.
      * cbn [app]. apply can_keep; [apply (tok_plain _ _ _ He); kind_ok|]. rewrite <- app_assoc.
        apply can_keeps; [exact (spaces_plain _ HY)|]. apply can_keeps; [exact (element_value_plain _ HV)|exact HC].
      * cbn [app] in *. apply can_keep; [apply (tok_plain _ _ _ Hl); kind_ok|]. rewrite <- app_assoc in *. cbn [app] in *.
        apply (IH D HD); [exact (pre_suffix [l] _ P4)|]. apply can_keep; [apply (tok_plain _ _ _ Hr); kind_ok|exact HC].
    + rewrite <- !app_assoc in *. apply (can_name Kelement_key); auto. apply can_keeps; [exact (spaces_plain _ HW)|].
      cbn [app]. apply can_keep; [apply (tok_plain _ _ _ He); kind_ok|]. rewrite <- app_assoc.
      apply can_keeps; [exact (spaces_plain _ HX)|]. apply can_keeps; [exact (element_value_plain _ HV)|exact HC].
Qed.
End Root.

Theorem joined_exists root T : doc_tokens T -> declarations_given T -> root_apart root T -> exists J, joined root T J.
Proof.
  intros H G R. pose proof (can_doc root T H []) as X. rewrite app_nil_r in X. apply X; [split; auto|]. exists []. constructor.
Qed.
