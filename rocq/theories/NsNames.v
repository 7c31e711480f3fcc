(** The names of the elements of a document are the ones in the source. *)
From Coq Require Import NArith ZArith List Bool Arith String Lia.
From Verif Require Import Bytes BytesFacts Outcome Utf8 Quote Parser Detect Dom NsDom NsSpec NsProofs NsCore NsDoc.
Import ListNotations.

Implicit Types lost : Prop.

Definition ename := (option nsref * bytes)%type.

(** The namespaces and names of the elements, in the order of their start. *)
Fixpoint enode (x : nnode) : list ename :=
  match x with
  | NElem e k => (e_ns e, e_name e) :: flat_map enode k
  | _ => []
  end.
Definition enodes (k : list nnode) : list ename := flat_map enode k.
Fixpoint estack (st : list gframe) : list ename :=
  match st with
  | [] => []
  | GDoc k :: r => estack r ++ enodes (rev k)
  | GElem e k :: r => estack r ++ (e_ns e, e_name e) :: enodes (rev k)
  | _ :: r => estack r
  end.

Lemma enodes_app a b : enodes (a ++ b) = enodes a ++ enodes b.
Proof. apply flat_map_app. Qed.
Lemma enodes_part p k : enodes (rev (n_add_part p k)) = enodes (rev k).
Proof.
  unfold n_add_part. destruct p as [t|n]; [destruct k as [|[| [u|m] | | |] k]|]; cbn; rewrite ?enodes_app; cbn; rewrite ?app_nil_r; reflexivity.
Qed.
Lemma enodes_part' p k : enodes (rev (n_add_part p (rev k))) = enodes k.
Proof. rewrite enodes_part, rev_involutive. reflexivity. Qed.

Definition ekeeps (f : gframe -> option gframe) : Prop :=
  forall g g' r, g <> GSame -> f g = Some g' -> estack (g' :: r) = estack (g :: r).

Lemma change_top_names f st st' : ekeeps f -> change_top f st = Some st' -> estack st' = estack st.
Proof.
  intros K. revert st'. induction st as [|g r IH]; intros st' E; [discriminate|].
  destruct g; cbn in E;
    try (match type of E with option_map _ (f ?g) = _ => destruct (f g) as [g'|] eqn:Ef end;
         cbn in E; [|discriminate]; injection E as <-; apply (K _ _ r) in Ef; [exact Ef|discriminate]).
  destruct (change_top f r) as [r'|] eqn:Er; cbn in E; [|discriminate]. injection E as <-. exact (IH r' eq_refl).
Qed.

Lemma ekeeps_part_into p : ekeeps (part_into p).
Proof. intros [k|e k|n x ps|] g' r G E; cbn in E; try discriminate; injection E as <-; cbn; rewrite ?enodes_part; reflexivity. Qed.
Lemma ekeeps_node_into x : (forall e k, x <> NElem e k) -> ekeeps (node_into x).
Proof.
  intros X g g' r G E. assert (N : enode x = []) by (destruct x; try reflexivity; exfalso; eapply X; eauto).
  destruct g as [k|e k|n y ps|]; cbn in E; try discriminate; injection E as <-; cbn; rewrite enodes_app; cbn; rewrite N, ?app_nil_r; reflexivity.
Qed.
Lemma part_into_kid_names p k k' : part_into_kid p k = Some k' -> enodes (rev k') = enodes (rev k).
Proof.
  unfold part_into_kid. destruct k as [|[e c| | | |] r]; try discriminate. intros [= <-]. cbn. rewrite !enodes_app. cbn.
  change (flat_map enode) with enodes. rewrite enodes_part'. reflexivity.
Qed.
Lemma ekeeps_part_into_last p : ekeeps (part_into_last p).
Proof.
  intros g g' r G E. destruct g as [k|e k|n y ps|]; cbn in E; try discriminate;
    (destruct (part_into_kid p k) as [k'|] eqn:Ek; cbn in E; [|discriminate]); injection E as <-; cbn;
    rewrite (part_into_kid_names p k k' Ek); reflexivity.
Qed.
Lemma ekeeps_part_into_attr p : ekeeps (part_into_attr p).
Proof.
  intros g g' r G E. destruct g as [k|e k|n y ps|]; cbn in E; try discriminate.
  destruct (last_attr e) as [[a e']|] eqn:L; [|discriminate]. injection E as <-.
  destruct (last_attr_some e a e' L) as (L1 & L2 & L3 & L4). cbn. rewrite L1, L2. reflexivity.
Qed.
Lemma ekeeps_comment_into v : ekeeps (comment_into v).
Proof.
  intros g g' r G E. destruct g as [k|e k|n y ps|]; cbn in E; try discriminate;
    (destruct (comment_more v k) as [k'|] eqn:Ek; cbn in E; [|discriminate]); injection E as <-; cbn;
    unfold comment_more in Ek; destruct k as [|[| |t| |] k]; try discriminate; injection Ek as <-; cbn; rewrite !enodes_app; reflexivity.
Qed.

Lemma close_names f g r g' l : n_close_into f g = Some (g', l) -> estack (g' :: r) = estack (f :: g :: r).
Proof.
  intros E. destruct f as [k|e k|n x ps|]; destruct g as [k2|m k2|n2 x2 ps2|]; cbn in E; try discriminate;
    injection E as <- <-; cbn; rewrite ?enodes_app; cbn; change (flat_map enode) with enodes; rewrite ?app_nil_r, <- ?app_assoc; reflexivity.
Qed.
Lemma pop_names s s' : n_pop s = NOk s' -> estack (n_stack s') = estack (n_stack s).
Proof.
  unfold n_pop. destruct (n_stack s) as [|f [|g r]]; try discriminate.
  destruct (n_close_into f g) as [[g' l]|] eqn:C; [|discriminate]. intros [= <-]. exact (close_names f g r g' l C).
Qed.
Lemma push_names s s' : n_push_last s = NOk s' -> estack (n_stack s') = estack (n_stack s).
Proof.
  unfold n_push_last. destruct (n_last s) eqn:L, (n_stack s) as [|[k|e k|n x ps|] r] eqn:ES; try discriminate.
  1: destruct k as [|[e c| | | |] k]; try discriminate.
  2: destruct k as [|[e2 c| | | |] k]; try discriminate.
  3: { destruct (last_attr e) as [[a e']|] eqn:La; [|discriminate]. intros [= <-].
    destruct (last_attr_some e a e' La) as (L1 & L2 & L3 & L4). cbn. rewrite L1, L2. reflexivity. }
  all: intros [= <-]; cbn; rewrite ?enodes_app; cbn; change (flat_map enode) with enodes; rewrite ?rev_involutive, ?app_nil_r, <- ?app_assoc; reflexivity.
Qed.
Lemma close_up_names f r d : n_close_up f r = Some d -> enodes d = estack (f :: r).
Proof.
  revert f. induction r as [|g r IH]; intros f E; cbn [n_close_up] in E.
  - destruct f; try discriminate. injection E as <-. reflexivity.
  - destruct (n_close_into f g) as [[g' l]|] eqn:C; [|discriminate]. rewrite (IH g' E). exact (close_names f g r g' l C).
Qed.
Lemma add_elem_names st st' e : change_top (node_into (NElem e [])) st = Some st' -> estack st' = estack st ++ [(e_ns e, e_name e)].
Proof.
  revert st'. induction st as [|g r IH]; intros st' E; [discriminate|]. destruct g as [k|m k|n x ps|]; cbn in E; try discriminate.
  - injection E as <-. cbn. rewrite enodes_app. cbn. now rewrite app_assoc.
  - injection E as <-. cbn. rewrite enodes_app. cbn. rewrite <- app_assoc. reflexivity.
  - destruct (change_top _ r) as [r'|]; [|discriminate]. injection E as <-. exact (IH r' eq_refl).
Qed.

(** ** What has been written so far *)

(** A name of the document and the name as it is written: the same, or the
    prefix is lost if [lost]. *)
Definition agrees (lost : Prop) (h : list nsobj) (w : option bytes * bytes) (x : ename) : Prop :=
  snd x = snd w /\ (ref_prefix h (fst x) = fst w \/ (lost /\ ref_prefix h (fst x) = None)) /\
  match fst x with Some (NsNum i) => i < List.length h | _ => True end.

Lemma agrees_ext lost h o w x : agrees lost h w x -> agrees lost (h ++ [o]) w x.
Proof.
  intros (H1 & H2 & H3). unfold agrees. destruct x as [[[|i]|] n]; cbn in *; auto.
  rewrite prefix_app, app_length by exact H3. repeat split; auto. lia.
Qed.
Lemma agrees_set lost h i v w x : agrees lost h w x -> agrees lost (set_href h i v) w x.
Proof.
  intros (H1 & H2 & H3). unfold agrees. destruct x as [[[|j]|] n]; cbn in *; auto.
  rewrite prefix_set, set_href_length. auto.
Qed.
Lemma agrees_none lost h w x n : ref_prefix h n = ref_prefix h (fst x) -> match n with Some (NsNum i) => i < List.length h | _ => True end ->
  agrees lost h w x -> agrees lost h w (n, snd x).
Proof. intros E L (H1 & H2 & H3). split; [exact H1|]. cbn. rewrite E. auto. Qed.

Record Names (lost : Prop) (root : option bytes) (W : list (option bytes * bytes)) (s : nst) : Prop := mkNames {
  nm_inv : Inv s;
  nm_first : n_last s = LNone -> W = [] /\ estack (n_stack s) = [];
  nm_ref : forall n, n_default s = Some n -> lost;
  nm_all : exists W0, (W0 = [] \/ exists n, root = Some n /\ W0 = [(None, n)]) /\
    Forall2 (agrees lost (n_heap s)) (W0 ++ W) (estack (n_stack s)) }.

Lemma names_same lost root W s s' : Inv s' -> n_heap s' = n_heap s -> (n_last s' = LNone -> n_last s = LNone) ->
  n_default s' = n_default s -> estack (n_stack s') = estack (n_stack s) ->
  Names lost root W s -> Names lost root W s'.
Proof.
  intros I H L D E [N1 N2 N3 N4]. split; auto.
  - intros X. destruct (N2 (L X)) as [? ?]. split; [assumption|]. congruence.
  - intros n. rewrite D. apply N3.
  - rewrite H, E. exact N4.
Qed.

Lemma names_on_top lost root W f l s s' : ekeeps f -> (l = LNone -> n_last s = LNone) -> Inv s' -> on_top f l s = NOk s' ->
  Names lost root W s -> Names lost root W s'.
Proof.
  intros K L I E. apply on_top_ok in E. destruct E as (st & E & ->). apply names_same; auto.
  cbn. exact (change_top_names f _ _ K E).
Qed.
Lemma names_add_last lost root W p s s' : Inv s' -> n_add_last p s = NOk s' -> Names lost root W s -> Names lost root W s'.
Proof.
  intros I. unfold n_add_last. destruct (n_last s) eqn:L; try discriminate; intros E; (eapply names_on_top; [| |exact I|exact E]); try discriminate.
  - apply ekeeps_part_into_last.
  - apply ekeeps_part_into_attr.
  - apply ekeeps_part_into.
Qed.
Lemma names_add_node lost root W x l s s' : (forall e k, x <> NElem e k) -> (l = LNone -> n_last s = LNone) ->
  Inv s' -> n_add_node x l s = NOk s' -> Names lost root W s -> Names lost root W s'.
Proof. intros X L. apply names_on_top; [now apply ekeeps_node_into|exact L]. Qed.

Lemma names_value_text lost root W t s s' : Inv s' -> n_element_value_text t s = NOk s' -> Names lost root W s -> Names lost root W s'.
Proof.
  intros I. unfold n_element_value_text. destruct (n_pi s) as [name|].
  - intros E N. eapply (names_add_node _ _ _ _ _ (set_pi None s)); [| |exact I|exact E|]; [discriminate|apply keep_last_none|].
    eapply names_same; [..|exact N]; try reflexivity; auto. eapply inv_fields; [..|exact (nm_inv _ _ _ _ N)]; reflexivity.
  - destruct (n_doctype s); [|apply names_add_last; exact I].
    intros E N. eapply (names_add_node _ _ _ _ _ (set_doctype false s)); [| |exact I|exact E|]; [discriminate|apply keep_last_none|].
    eapply names_same; [..|exact N]; try reflexivity; auto. eapply inv_fields; [..|exact (nm_inv _ _ _ _ N)]; reflexivity.
Qed.
Lemma names_value_quote lost root W t s s' : Inv s' -> n_element_value_quote t s = NOk s' -> Names lost root W s -> Names lost root W s'.
Proof.
  intros I. unfold n_element_value_quote. destruct (n_pi s) as [name|].
  - destruct t as [|c t]; [discriminate|].
    intros E N. eapply (names_add_node _ _ _ _ _ (set_pi None s)); [| |exact I|exact E|]; [discriminate|apply keep_last_none|].
    eapply names_same; [..|exact N]; try reflexivity; auto. eapply inv_fields; [..|exact (nm_inv _ _ _ _ N)]; reflexivity.
  - destruct (n_doctype s); [discriminate|apply names_add_last; exact I].
Qed.

Lemma Forall2_impl {X Y} (R S : X -> Y -> Prop) a b : (forall x y, R x y -> S x y) -> Forall2 R a b -> Forall2 S a b.
Proof. intros H F. induction F; constructor; auto. Qed.

Lemma clear_names lost h st st' W : lost -> change_top clear_ns st = Some st' ->
  Forall2 (agrees lost h) W (estack st) -> Forall2 (agrees lost h) W (estack st').
Proof.
  intros Lo. revert st' W. induction st as [|g r IH]; intros st' W E F; [discriminate|].
  destruct g as [k|e k|n x ps|]; cbn in E; try discriminate.
  - injection E as <-. cbn in *. apply Forall2_app_inv_r in F. destruct F as (W1 & W2 & F1 & F2 & ->).
    apply Forall2_app; [exact F1|]. inversion F2 as [|w y W3 l3 A B]; subst. constructor; [|exact B].
    destruct A as (A1 & _ & _). split; [exact A1|]. split; [right; split; [exact Lo|reflexivity]|exact I].
  - destruct (change_top clear_ns r) as [r'|]; [|discriminate]. injection E as <-. cbn in *. eauto.
Qed.

Lemma names_attr_value lost root W v s s' : Inv s' -> attr_value v s = NOk s' -> Names lost root W s -> Names lost root W s'.
Proof.
  intros I. unfold attr_value. destruct (n_decl s) as [n|] eqn:D; [|apply names_add_last; exact I].
  intros E [N1 N2 N3 (W0 & N4 & N5)]. destruct (update_last n v s s' E) as (U1 & U2 & U3 & U4).
  unfold update_href in E.
  assert (Keep : forall s1, (s1 = s \/ exists i, s1 = set_heap (set_href (n_heap s) i v) s) ->
    s' = set_decl None s1 -> Names lost root W s').
  { intros s1 H E1. assert (Hs : n_stack s1 = n_stack s /\ n_last s1 = n_last s /\ n_default s1 = n_default s /\
      Forall2 (agrees lost (n_heap s1)) (W0 ++ W) (estack (n_stack s))).
    { destruct H as [-> | [i ->]]; cbn; repeat split; auto. eapply Forall2_impl; [|exact N5]. intros w x. apply agrees_set. }
    destruct Hs as (H1 & H2 & H3 & H4). subst s'. split; auto; cbn.
    - rewrite H1, H2. exact N2.
    - rewrite H3. exact N3.
    - exists W0. rewrite H1. auto. }
  set (s1 := match n with NsXml => s | NsNum i => _ end) in E.
  assert (H1 : s1 = s \/ exists i, s1 = set_heap (set_href (n_heap s) i v) s) by (unfold s1; destruct n; eauto).
  destruct v as [|c v]; [|injection E as <-; now apply (Keep s1)].
  destruct (n_default s) as [d|] eqn:Dn; [|injection E as <-; now apply (Keep s1)].
  destruct (nsref_eqb n d); [|injection E as <-; now apply (Keep s1)].
  destruct (on_top clear_ns (n_last s) (set_decl None s1)) as [s3| | |] eqn:Ot; try discriminate. cbn [nbind] in E.
  injection E as <-. apply on_top_ok in Ot. destruct Ot as (st' & Ot & ->). cbn in Ot, U1 |- *.
  assert (St : n_stack s1 = n_stack s) by (destruct H1 as [-> | [i ->]]; reflexivity). rewrite St in Ot.
  split; auto; cbn.
  - intros L. destruct N1 as [_ F]. destruct (F L) as (_ & _ & X). congruence.
  - discriminate.
  - exists W0. split; [exact N4|]. eapply clear_names; [exact (N3 d eq_refl)|exact Ot|].
    destruct H1 as [-> | [i ->]]; [exact N5|]. cbn. eapply Forall2_impl; [|exact N5]. intros w x. apply agrees_set.
Qed.

Lemma names_attr_key lost root W x s s' : Inv s' -> attr_key x s = NOk s' -> Names lost root W s -> Names lost root W s'.
Proof.
  intros I. unfold attr_key. destruct (n_ans s) as [p|].
  2: { destruct (n_stack s) as [|[|e k| |] r] eqn:Es; try discriminate. intros [= <-].
       apply names_same; auto; try discriminate. rewrite Es. reflexivity. }
  unfold top_elem. destruct (n_stack s) as [|[|e k| |] r] eqn:Es; try discriminate.
  destruct (no_elem k); [|discriminate].
  destruct (search_ns (n_heap s) p (e_defs e) r) as [n|].
  - intros [= <-]. apply names_same; auto; try discriminate. rewrite Es. reflexivity.
  - unfold new_ns. destruct (find_def (n_heap s) (Some p) (e_defs e)); intros [= <-] N.
    + eapply names_same; [..|exact N]; auto; try discriminate. rewrite Es. reflexivity.
    + destruct N as [N1 N2 N3 (W0 & N4 & N5)]. split; auto; cbn; try discriminate.
      exists W0. split; [exact N4|]. rewrite Es in N5. eapply Forall2_impl; [|exact N5]. intros w y. apply agrees_ext.
Qed.

Lemma names_ns_declaration lost root W x s s' : (x = [] -> lost) -> Inv s' -> ns_declaration x s = NOk s' ->
  Names lost root W s -> Names lost root W s'.
Proof.
  intros Lo I. unfold ns_declaration, top_elem. destruct (n_stack s) as [|[|e k| |] r] eqn:Es; try discriminate.
  destruct (no_elem k); [|discriminate].
  set (p := match x with [] => None | _ :: n => Some (c_str n) end).
  assert (Lp : p = None -> lost) by (unfold p; destruct x; [auto|discriminate]). clearbody p.
  intros E [N1 N2 N3 (W0 & N4 & N5)]. rewrite Es in N5. cbn in N5.
  apply Forall2_app_inv_r in N5. destruct N5 as (Wa & Wb & F1 & F2 & Ew). inversion F2 as [|w y Wc l3 A B]; subst.
  assert (Sn : n_last s <> LNone).
  { intros L. destruct N1 as [_ F]. destruct (F L) as (F0 & _). rewrite Es in F0. discriminate. }
  assert (Done : forall h i defs, (h = n_heap s \/ h = n_heap s ++ [NsObj p None]) -> i < List.length h -> prefix_of h i = p ->
    s' = set_decl (Some (NsNum i)) (let s1 := set_heap h (set_stack (GElem (ED (match p, e_ns e with None, None => Some (NsNum i) | _, y => y end) (e_name e) defs (e_attrs e)) k :: r) (n_last s) s) in
                        match p with None => set_default (Some (NsNum i)) s1 | Some _ => s1 end) -> Names lost root W s').
  { intros h i defs Hh Li Pi E'. split; auto.
    - rewrite E'. destruct p; cbn; intros L; contradiction.
    - rewrite E'. destruct p; cbn; [exact N3|]. intros n _. now apply Lp.
    - exists W0. split; [exact N4|].
      assert (Ex : forall w y, agrees lost (n_heap s) w y -> agrees lost h w y)
        by (destruct Hh as [-> | ->]; [auto|intros; now apply agrees_ext]).
      replace (n_heap s') with h by (rewrite E'; destruct p; reflexivity).
      replace (n_stack s') with (GElem (ED (match p, e_ns e with None, None => Some (NsNum i) | _, y => y end) (e_name e) defs (e_attrs e)) k :: r)
        by (rewrite E'; destruct p; reflexivity).
      cbn. rewrite Ew. apply Forall2_app; [eapply Forall2_impl; [exact Ex|exact F1]|].
      constructor; [|eapply Forall2_impl; [exact Ex|exact B]].
      destruct p as [q|]; [exact (Ex _ _ A)|]. destruct (e_ns e) as [n|]; [exact (Ex _ _ A)|].
      apply Ex in A. apply (agrees_none lost h w (None, e_name e)) ; auto. }
  destruct (find_def (n_heap s) p (e_defs e)) as [j|] eqn:Fd.
  - destruct (find_def_some _ _ _ _ Fd) as [J1 J2]. apply (Done (n_heap s) j (e_defs e)); auto.
    + destruct N1 as [[C1 _ _ _] _]. rewrite Es in C1. apply (range_scope _ _ _ C1). cbn [scope]. rewrite ids_cons.
      apply in_or_app. now left.
    + injection E as <-. destruct p, (e_ns e); reflexivity.
  - unfold new_ns in E. rewrite Fd in E.
    apply (Done (n_heap s ++ [NsObj p None]) (List.length (n_heap s)) (e_defs e ++ [List.length (n_heap s)])); auto.
    + rewrite app_length. cbn. lia.
    + now rewrite prefix_new.
    + injection E as <-. destruct p, (e_ns e); reflexivity.
Qed.

(** The namespace of an element that is found has its prefix. *)
Lemma search_up_prefix h p st n : search_up h p st = Some n -> exists i, n = NsNum i /\ prefix_of h i = Some p.
Proof.
  induction st as [|[k|e k|m x ps|] r IH]; cbn; try discriminate; auto.
  destruct (find_def h (Some p) (e_defs e)) as [i|] eqn:Fd.
  - intros [= <-]. apply find_def_some in Fd. exists i. tauto.
  - unfold own_ns. destruct (e_ns e) as [[|i]|]; auto.
    destruct (obeq (prefix_of h i) (Some p)) eqn:O; auto. intros [= <-]. apply obeq_iff in O. eauto.
Qed.
Lemma search_prefix h p st n : search_ns h p [] st = Some n -> ref_prefix h (Some n) = Some p /\
  match n with NsNum i => i < List.length h | NsXml => True end.
Proof.
  unfold search_ns. destruct (beq p (B "xml")) eqn:X.
  - intros [= <-]. apply beq_eq in X. subst p. split; [reflexivity|exact I].
  - cbn. intros E. destruct (search_up_prefix h p st n E) as (i & -> & P). cbn. split; [exact P|].
    unfold prefix_of in P. destruct (nth_error h i) eqn:Nt; [|discriminate]. apply nth_error_Some. congruence.
Qed.

Lemma names_create lost root W name s s' : Inv s' -> n_create_element root name s = NOk s' ->
  Names lost root W s -> Names lost root (W ++ [(n_ens s, name)]) s' /\ n_ens s' = None.
Proof.
  intros I E [N1 N2 N3 (W0 & N4 & N5)]. unfold n_create_element in E.
  set (s1 := match n_last s with LNone => _ | _ => s end) in E.
  assert (H1 : n_heap s1 = n_heap s /\ n_ens s1 = n_ens s /\ n_default s1 = n_default s /\
     exists W1, (W1 = [] \/ exists n, root = Some n /\ W1 = [(None, n)]) /\
       Forall2 (agrees lost (n_heap s)) (W1 ++ W) (estack (n_stack s1))).
  { unfold s1. destruct (n_last s) eqn:L; [|eauto 6..].
    destruct (N2 eq_refl) as [-> Es]. rewrite Es in N5. rewrite app_nil_r in N5. inversion N5; subst.
    destruct root as [n|]; [|repeat split; exists []; rewrite Es; split; [now left|constructor]].
    destruct (beq name n); [repeat split; exists []; rewrite Es; split; [now left|constructor]|].
    repeat split. exists [(None, n)]. split; [right; eauto|]. cbn. rewrite Es. cbn. constructor; [|constructor].
    split; [reflexivity|]. split; [now left|exact Logic.I]. }
  clearbody s1. destruct H1 as (Hh & He & Hd & W1 & H3 & H4).
  unfold element_ns in E. rewrite Hh, He, Hd in E.
  assert (Done : forall n h defs,
    (forall w y, agrees lost (n_heap s) w y -> agrees lost h w y) -> agrees lost h (n_ens s, name) (n, name) ->
    n_add_node (NElem (ED n name defs []) []) LKid (set_ens None (set_heap h s1)) = NOk s' ->
    Names lost root (W ++ [(n_ens s, name)]) s' /\ n_ens s' = None).
  { intros n h defs Ex Ag E1. apply on_top_ok in E1. destruct E1 as (st & E1 & ->). cbn in E1. apply add_elem_names in E1. cbn in E1.
    split; [|reflexivity]. split; auto; cbn.
    - discriminate.
    - intros m M. rewrite Hd in M. exact (N3 m M).
    - exists W1. split; [exact H3|]. rewrite E1, app_assoc. apply Forall2_app; [eapply Forall2_impl; [exact Ex|exact H4]|].
      constructor; [exact Ag|constructor]. }
  destruct (n_ens s) as [p|].
  - destruct (search_ns (n_heap s) p [] (n_stack s1)) as [n|] eqn:Se.
    + apply search_prefix in Se. destruct Se as [S1 S2]. eapply Done; [| |exact E]; auto.
      split; [reflexivity|]. split; [left; exact S1|destruct n; exact S2].
    + eapply Done; [| |exact E].
      * intros w y. apply agrees_ext.
      * split; [reflexivity|]. cbn. rewrite prefix_new, app_length. cbn. split; [now left|lia].
  - eapply Done; [| |exact E]; auto. split; [reflexivity|]. cbn.
    destruct (n_default s) as [n|] eqn:Dn; [|split; [now left|exact Logic.I]].
    destruct N1 as [[_ C2 _ _] _]. destruct (C2 n Dn) as (d & -> & D2 & D3 & _). cbn. rewrite D3. auto.
Qed.

(** ** All tokens *)
Definition step_written (t : token) (pending : option bytes) : list (option bytes * bytes) * option bytes :=
  match t_kind t with
  | Kelement_ns => ([], Some (c_str (t_text t)))
  | Kelement_name | Kelement_key =>
    if element_name (c_str (t_text t)) then ([(pending, c_str (t_text t))], None) else ([], pending)
  | _ => ([], pending)
  end.
Lemma written_step t T pending :
  written pending (t :: T) = fst (step_written t pending) ++ written (snd (step_written t pending)) T.
Proof.
  cbn. unfold step_written. destruct (t_kind t); try reflexivity; destruct (element_name _); reflexivity.
Qed.

Lemma create_node_split root name s : n_create_node root name s =
  if element_name name then n_create_element root name s
  else NOk (if beq name (B "!DOCTYPE") then set_doctype true s else set_pi (Some (tl name)) s).
Proof.
  unfold n_create_node, element_name. destruct (beq name (B "!DOCTYPE")); [reflexivity|].
  destruct name as [|c r]; [reflexivity|]. cbn [negb andb]. destruct (c =? cQM)%N; reflexivity.
Qed.

Lemma ens_on_top f l s s' : on_top f l s = NOk s' -> n_ens s' = n_ens s.
Proof. intros E. apply on_top_ok in E. destruct E as (st & _ & ->). reflexivity. Qed.
Lemma ens_add_last p s s' : n_add_last p s = NOk s' -> n_ens s' = n_ens s.
Proof. unfold n_add_last. destruct (n_last s); try discriminate; apply ens_on_top. Qed.
Lemma ens_attr_value v s s' : attr_value v s = NOk s' -> n_ens s' = n_ens s.
Proof.
  unfold attr_value. destruct (n_decl s) as [n|]; [|apply ens_add_last]. unfold update_href.
  set (s1 := match n with NsXml => s | NsNum i => _ end).
  assert (H1 : n_ens s1 = n_ens s) by (unfold s1; destruct n; reflexivity). clearbody s1. intros E.
  assert (G : NOk (set_decl None s1) = NOk s' -> n_ens s' = n_ens s) by (intros [= <-]; exact H1).
  destruct v; [|auto]. destruct (n_default s) as [d|]; [|auto]. destruct (nsref_eqb n d); [|auto].
  destruct (on_top clear_ns (n_last s) (set_decl None s1)) as [s3| | |] eqn:Ot; try discriminate. injection E as <-.
  apply ens_on_top in Ot. cbn in *. congruence.
Qed.

Lemma names_step lost root W t aft s s' : (declares_default t -> lost) -> ncallback root t aft s = NOk s' ->
  Names lost root W s ->
  Names lost root (W ++ fst (step_written t (n_ens s))) s' /\ n_ens s' = snd (step_written t (n_ens s)).
Proof.
  intros Lo E N. assert (I : Inv s') by (exact (inv_step _ _ _ _ _ E (nm_inv _ _ _ _ N))).
  unfold ncallback in E.
  assert (V : forall r f, n_with_value r f = NOk s' -> exists v, f v = NOk s').
  { intros r f. unfold n_with_value. destruct r as [[a v]| | | |]; try discriminate. eauto. }
  assert (En : forall x f, n_with_entity x f = NOk s' -> exists p, f p = NOk s').
  { intros x f. unfold n_with_entity. destruct (entity_part x) as [p|]; try discriminate. eauto. }
  assert (Top : forall p, n_add_top p s = NOk s' -> Names lost root W s' /\ n_ens s' = n_ens s).
  { intros p Ep. split; [|exact (ens_on_top _ _ _ _ Ep)]. eapply names_on_top; [apply (ekeeps_part_into p)| |exact I|exact Ep|exact N]. discriminate. }
  assert (Push : n_push_last s = NOk s' -> Names lost root W s' /\ n_ens s' = n_ens s).
  { intros Ep. pose proof (push_names s s' Ep) as Pn. destruct (push_iff s s' Ep) as (st & -> & P1 & P2). split; [|reflexivity].
    eapply names_same; [..|exact N]; auto. discriminate. }
  assert (Pop : n_pop s = NOk s' -> Names lost root W s' /\ n_ens s' = n_ens s).
  { intros Ep. pose proof (pop_names s s' Ep) as Pn. destruct (pop_iff s s' Ep) as (st & l & -> & P1 & P2). split; [|reflexivity].
    assert (l <> LNone).
    { unfold n_pop in Ep. destruct (n_stack s) as [|f [|g r]]; try discriminate.
      destruct (n_close_into f g) as [[g' l']|] eqn:Cl; [|discriminate].
      assert (l' = l) by (apply (f_equal (fun o => match o with NOk x => n_last x | _ => l end)) in Ep; exact Ep).
      subst l'. destruct f, g; try discriminate; injection Cl as <- <-; discriminate. }
    eapply names_same; [..|exact N]; auto. intros X. contradiction. }
  unfold step_written. destruct (t_kind t) eqn:K; cbn [fst snd]; rewrite ?app_nil_r;
    try (exact (Push E)); try (exact (Pop E));
    try (apply V in E; destruct E as [v E]; exact (Top _ E));
    try (apply En in E; destruct E as [p E]; exact (Top _ E));
    try (injection E as <-; split; [eapply names_same; [..|exact N]; auto|reflexivity]; fail).
  - (* comment *) apply V in E. destruct E as [v E]. split; [|exact (ens_on_top _ _ _ _ E)].
    eapply names_add_node; [| |exact I|exact E|exact N]; discriminate.
  - (* comment continuation *) apply V in E. destruct E as [v E]. unfold n_append_comment in E.
    destruct (n_last s) eqn:L; try discriminate. split; [|exact (ens_on_top _ _ _ _ E)].
    eapply names_on_top; [apply ekeeps_comment_into| |exact I|exact E|exact N]. discriminate.
  - (* element_name *) rewrite create_node_split in E. destruct (element_name (c_str (t_text t))); cbn [fst snd].
    + exact (names_create lost root W _ s s' I E N).
    + rewrite app_nil_r. injection E as <-. split; [|destruct (beq _ _); reflexivity].
      eapply names_same; [..|exact N]; auto; destruct (beq _ _); reflexivity || auto.
  - rewrite create_node_split in E. destruct (element_name (c_str (t_text t))); cbn [fst snd].
    + exact (names_create lost root W _ s s' I E N).
    + rewrite app_nil_r. injection E as <-. split; [|destruct (beq _ _); reflexivity].
      eapply names_same; [..|exact N]; auto; destruct (beq _ _); reflexivity || auto.
  - (* element_value_text *) split; [exact (names_value_text _ _ _ _ _ _ I E N)|].
    unfold n_element_value_text in E. destruct (n_pi s); [apply ens_on_top in E; exact E|].
    destruct (n_doctype s); [apply ens_on_top in E; exact E|exact (ens_add_last _ _ _ E)].
  - apply V in E. destruct E as [v E]. split; [exact (names_value_quote _ _ _ _ _ _ I E N)|].
    unfold n_element_value_quote in E. destruct (n_pi s); [destruct v; [discriminate|]; apply ens_on_top in E; exact E|].
    destruct (n_doctype s); [discriminate|exact (ens_add_last _ _ _ E)].
  - apply En in E. destruct E as [p E]. split; [exact (names_add_last _ _ _ _ _ _ I E N)|exact (ens_add_last _ _ _ E)].
  - (* attr_ns *) unfold attr_ns in E. destruct (n_decl s) eqn:D; injection E as <-; [split; auto|]. split; [|reflexivity].
    eapply names_same; [..|exact N]; auto.
  - (* attr_key *) split; [exact (names_attr_key _ _ _ _ _ _ I E N)|].
    unfold attr_key in E. destruct (n_ans s).
    + destruct (top_elem s) as [[[e k] r]|]; [|discriminate].
      destruct (match search_ns _ _ _ _ with Some _ => _ | None => _ end) as [[n h] d]. injection E as <-. reflexivity.
    + destruct (n_stack s) as [|[| | |] r]; try discriminate. injection E as <-. reflexivity.
  - split; [exact (names_attr_value _ _ _ _ _ _ I E N)|exact (ens_attr_value _ _ _ E)].
  - apply V in E. destruct E as [v E]. split; [exact (names_attr_value _ _ _ _ _ _ I E N)|exact (ens_attr_value _ _ _ E)].
  - apply En in E. destruct E as [p E]. split; [exact (names_add_last _ _ _ _ _ _ I E N)|exact (ens_add_last _ _ _ E)].
  - (* ns_declaration *) split.
    + eapply names_ns_declaration; [|exact I|exact E|exact N]. intros X. apply Lo. split; auto.
    + unfold ns_declaration in E. destruct (top_elem s) as [[[e k] r]|]; [|discriminate].
      destruct (match find_def _ _ _ with Some _ => _ | None => _ end) as [[i h] d].
      injection E as <-. destruct (t_suffix t); reflexivity.
Qed.

Lemma names_build lost root T aft W s s' : (forall t, In t T -> declares_default t -> lost) ->
  nbuild root T aft s = NOk s' -> Names lost root W s -> Names lost root (W ++ written (n_ens s) T) s'.
Proof.
  revert W s. induction T as [|t T IH]; intros W s Lo E N.
  - cbn in *. injection E as <-. now rewrite app_nil_r.
  - cbn [nbuild] in E. destruct (ncallback root t _ s) as [s1| | |] eqn:Es; try discriminate. cbn [nbind] in E.
    destruct (names_step lost root W t _ s s1 (Lo t (or_introl eq_refl)) Es N) as [N1 N2].
    rewrite written_step, app_assoc, <- N2. apply IH; auto. intros u U. apply Lo. now right.
Qed.

Lemma elements_view h d : flat_map elements (map (view h) d) = map (fun x => (ref_prefix h (fst x), snd x)) (enodes d).
Proof.
  assert (G : forall x, elements (view h x) = map (fun y => (ref_prefix h (fst y), snd y)) (enode x)).
  { intros x. induction x as [e k IH| | | |] using nnode_ind2; try reflexivity. cbn [view elements enode map fst snd]. f_equal.
    induction IH as [|y k H1 H2 IHk]; [reflexivity|]. cbn [map flat_map]. rewrite map_app, H1, IHk. reflexivity. }
  unfold enodes. induction d as [|x d IH]; [reflexivity|]. cbn [map flat_map]. rewrite map_app, G, IH. reflexivity.
Qed.

Theorem built_names lost root T aft s d : (forall t, In t T -> declares_default t -> lost) ->
  nbuild root T aft ninit = NOk s -> n_close_all (n_stack s) = Some d ->
  exists W0, (W0 = [] \/ exists n, root = Some n /\ W0 = [(None, n)]) /\
  Forall2 (fun w x => snd x = snd w /\ (fst x = fst w \/ (lost /\ fst x = None)))
    (W0 ++ written None T) (flat_map elements (map (view (n_heap s)) d)).
Proof.
  intros Lo E Cl. assert (N : Names lost root [] ninit).
  { split; cbn; auto; try discriminate. { apply inv_init. } exists []. split; [now left|constructor]. }
  apply (names_build lost root T aft [] ninit s Lo E) in N. cbn [n_ens ninit app] in N. destruct N as [_ _ _ (W0 & N4 & N5)].
  exists W0. split; [exact N4|]. unfold n_close_all in Cl. destruct (n_stack s) as [|f r] eqn:St; [discriminate|].
  rewrite elements_view, (close_up_names f r d Cl). clear - N5.
  induction N5 as [|w x l m A B IH]; [constructor|]. cbn [map]. constructor; [|exact IH]. destruct A as (A1 & A2 & _). cbn. auto.
Qed.
