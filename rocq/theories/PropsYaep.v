(** Properties C73 and C74: the analysis of a grammar before a text is parsed. *)
From Coq Require Import NArith ZArith List Bool Arith Lia String.
From Verif Require Import Bytes BytesFacts Outcome Ixml Yaep YaepSpec YaepFix YaepGram YaepProofs.
Import ListNotations.
Local Open Scope list_scope.

(** * Reading *)
Lemma read_terminals_ok l names codes ts : read_terminals l names codes = YOk ts ->
  NoDup names -> NoDup codes ->
  ts = names ++ map fst l /\ Forall (fun t => (0 <= snd t)%Z) l /\ NoDup (names ++ map fst l) /\ NoDup (codes ++ map snd l).
Proof.
  revert names codes. induction l as [|(n & c) l IH]; intros names codes H Hn Hc; cbn [read_terminals] in H.
  - injection H as <-. rewrite !app_nil_r. repeat split; [constructor | exact Hn | exact Hc].
  - destruct (c <? 0)%Z eqn:E1; [discriminate H|]. destruct (mem n names) eqn:E2; [discriminate H|].
    destruct (existsb (Z.eqb c) codes) eqn:E3; [discriminate H|].
    assert (D1 : NoDup (names ++ [n])).
    { apply mem_not_in in E2. rewrite <- (rev_involutive (names ++ [n])). apply NoDup_rev. rewrite rev_app_distr. cbn [rev app].
      constructor; [now rewrite <- in_rev | now apply NoDup_rev]. }
    assert (N3 : ~ In c codes).
    { intro A. assert (X : existsb (Z.eqb c) codes = true) by (apply existsb_exists; exists c; split; [exact A | apply Z.eqb_refl]). rewrite X in E3. discriminate E3. }
    assert (D2 : NoDup (codes ++ [c])).
    { rewrite <- (rev_involutive (codes ++ [c])). apply NoDup_rev. rewrite rev_app_distr. cbn [rev app].
      constructor; [now rewrite <- in_rev | now apply NoDup_rev]. }
    destruct (IH _ _ H D1 D2) as (A & A2 & A3 & A4). cbn [map fst snd]. rewrite <- !app_assoc in *. cbn [app] in *.
    repeat split; [exact A | constructor; [cbn [snd]; apply Z.ltb_ge in E1; exact E1 | exact A2] | exact A3 | exact A4].
Qed.
Lemma read_terminals_accepts l names codes : Forall (fun t => (0 <= snd t)%Z) l -> NoDup (names ++ map fst l) -> NoDup (codes ++ map snd l) ->
  read_terminals l names codes = YOk (names ++ map fst l).
Proof.
  revert names codes. induction l as [|(n & c) l IH]; intros names codes H Hn Hc; cbn [read_terminals map].
  - now rewrite app_nil_r.
  - inversion H as [|? ? H1 H2]. cbn [snd fst map] in *. apply Z.ltb_ge in H1. rewrite H1.
    assert (E2 : mem n names = false).
    { apply mem_not_in. intro A. apply NoDup_remove_2 in Hn. apply Hn, in_or_app. now left. }
    assert (E3 : existsb (Z.eqb c) codes = false).
    { destruct (existsb (Z.eqb c) codes) eqn:E; [|reflexivity]. apply existsb_exists in E. destruct E as (c' & A & D). apply Z.eqb_eq in D. subst c'.
      apply NoDup_remove_2 in Hc. destruct Hc. apply in_or_app. now left. }
    rewrite E2, E3. rewrite IH; [now rewrite <- app_assoc | exact H2 | now rewrite <- app_assoc | now rewrite <- app_assoc].
Qed.
Lemma read_terminals_err l names codes c n : read_terminals l names codes = YError c n ->
  (c = 6%N /\ exists z, In (n, z) l /\ (z < 0)%Z) \/
  (c = 5%N /\ exists a z b, l = a ++ (n, z) :: b /\ In n (names ++ map fst a)) \/
  (c = 7%N /\ exists a z b, l = a ++ (n, z) :: b /\ In z (codes ++ map snd a)).
Proof.
  revert names codes. induction l as [|(m & z) l IH]; intros names codes H; cbn [read_terminals] in H; [discriminate H|].
  destruct (z <? 0)%Z eqn:E1.
  { injection H as <- <-. left. split; [reflexivity|]. exists z. split; [now left|]. now apply Z.ltb_lt. }
  destruct (mem m names) eqn:E2.
  { injection H as <- <-. right. left. split; [reflexivity|]. exists [], z, l. split; [reflexivity|]. rewrite app_nil_r. now apply mem_in. }
  destruct (existsb (Z.eqb z) codes) eqn:E3.
  { injection H as <- <-. right. right. split; [reflexivity|]. exists [], z, l. split; [reflexivity|]. rewrite app_nil_r.
    apply existsb_exists in E3. destruct E3 as (z' & A & D). apply Z.eqb_eq in D. now subst z'. }
  destruct (IH _ _ H) as [(-> & w & A & D)|[(-> & a & w & b & -> & D)|(-> & a & w & b & -> & D)]].
  - left. split; [reflexivity|]. exists w. split; [now right | exact D].
  - right. left. split; [reflexivity|]. exists ((m, z) :: a), w, b. split; [reflexivity|]. cbn [map fst]. now rewrite <- app_assoc in D.
  - right. right. split; [reflexivity|]. exists ((m, z) :: a), w, b. split; [reflexivity|]. cbn [map snd]. now rewrite <- app_assoc in D.
Qed.

Lemma find_or_add_spec s x : ys_terms (find_or_add s x) = ys_terms s /\ ys_rules (find_or_add s x) = ys_rules s /\
  (forall z, In z (ys_nts (find_or_add s x)) <-> In z (ys_nts s) \/ (z = x /\ ~ In x (ys_terms s))).
Proof.
  unfold find_or_add. destruct (mem x (ys_terms s) || mem x (ys_nts s)) eqn:E; cbn [ys_terms ys_nts ys_rules]; repeat split; try reflexivity.
  - intro H. now left.
  - intros [H|[-> H]]; [exact H|]. apply orb_true_iff in E. destruct E as [E|E]; apply mem_in in E; [contradiction | exact E].
  - intro H. apply in_app_or in H. destruct H as [H|[<-|[]]]; [now left|]. right. split; [reflexivity|].
    apply orb_false_iff in E. now apply mem_not_in.
  - intros [H|[-> H]]; apply in_or_app; [now left | right; now left].
Qed.
Lemma add_all_spec l s : ys_terms (fold_left find_or_add l s) = ys_terms s /\ ys_rules (fold_left find_or_add l s) = ys_rules s /\
  (forall z, In z (ys_nts (fold_left find_or_add l s)) <-> In z (ys_nts s) \/ (In z l /\ ~ In z (ys_terms s))).
Proof.
  revert s. induction l as [|x l IH]; intro s; cbn [fold_left].
  - repeat split; try reflexivity; [now left|]. intros [H|[[] _]]; exact H.
  - destruct (IH (find_or_add s x)) as (A & C & D). destruct (find_or_add_spec s x) as (A' & C' & D').
    split; [now rewrite A|]. split; [now rewrite C|]. intro z. rewrite D, D', A'. cbn [In]. split.
    + intros [[H|[-> H]]|[H1 H2]]; [now left | right; split; [now left | exact H] | right; split; [now right | exact H2]].
    + intros [H|[[<-|H] H2]]; [now left; left | left; now right | right; now split].
Qed.
Lemma read_rules_spec l s : (forall r, In r l -> ~ In (fst r) (ys_terms s)) ->
  exists s', read_rules false l s = YOk s' /\ ys_terms s' = ys_terms s /\ ys_rules s' = ys_rules s ++ l /\
  (forall z, In z (ys_nts s') <-> In z (ys_nts s) \/ (occurs z l /\ ~ In z (ys_terms s))).
Proof.
  revert s. induction l as [|(lhs & rhs) l IH]; intros s H; cbn [read_rules].
  - exists s. rewrite app_nil_r. repeat split; try reflexivity; [now left|]. intros [A|[(? & ? & [] & _) _]]; exact A.
  - unfold read_rule at 1. assert (Hl : ~ In lhs (ys_terms s)) by (apply (H (lhs, rhs)); now left).
    rewrite (proj2 (mem_not_in lhs (ys_terms s)) Hl). cbn [ybind].
    destruct (find_or_add_spec s lhs) as (A1 & A2 & A3). destruct (add_all_spec rhs (find_or_add s lhs)) as (B1 & B2 & B3).
    destruct (IH (add_rule (lhs, rhs) (fold_left find_or_add rhs (find_or_add s lhs)))) as (s' & E & C1 & C2 & C3).
    { intros r Hr. cbn [add_rule ys_terms]. rewrite B1, A1. apply H. now right. }
    exists s'. split; [exact E|]. cbn [add_rule ys_terms ys_rules ys_nts] in *. split; [now rewrite C1, B1|].
    split; [rewrite C2, B2, A2, <- app_assoc; reflexivity|].
    intro z. rewrite C3, B3, A3, B1, A1. split.
    + intros [[[D|[-> D]]|[D1 D2]]|[(l' & r' & D1 & D2) D3]].
      * now left.
      * right. split; [|exact D]. exists lhs, rhs. split; [now left | now left].
      * right. split; [|exact D2]. exists lhs, rhs. split; [now left | now right].
      * right. split; [|exact D3]. exists l', r'. split; [now right | exact D2].
    + intros [D|[(l' & r' & [D1|D1] & D2) D3]].
      * left. left. now left.
      * injection D1 as <- <-. destruct D2 as [->|D2]; [left; left; right; now split | left; right; now split].
      * right. split; [|exact D3]. exists l', r'. now split.
Qed.
Lemma read_rules_err l s c n : read_rules false l s = YError c n -> c = 9%N /\ In n (ys_terms s) /\ exists rhs, In (n, rhs) l.
Proof.
  revert s. induction l as [|(lhs & rhs) l IH]; intros s H; cbn [read_rules] in H; [discriminate H|].
  unfold read_rule at 1 in H. destruct (mem lhs (ys_terms s)) eqn:E.
  - cbn [ybind] in H. injection H as <- <-. apply mem_in in E. split; [reflexivity|]. split; [exact E|]. exists rhs. now left.
  - cbn [ybind] in H. apply IH in H. destruct H as (-> & A & r & D). cbn [add_rule ys_terms] in A.
    rewrite (proj1 (add_all_spec rhs _)), (proj1 (find_or_add_spec s lhs)) in A.
    split; [reflexivity|]. split; [exact A|]. exists r. now right.
Qed.
Lemma read_rules_lhs l s s' : read_rules false l s = YOk s' -> forall r, In r l -> ~ In (fst r) (ys_terms s).
Proof.
  revert s. induction l as [|(lhs & rhs) l IH]; intros s H r Hr; [destruct Hr|]. cbn [read_rules] in H. unfold read_rule at 1 in H.
  destruct (mem lhs (ys_terms s)) eqn:E; [discriminate H|]. cbn [ybind] in H. destruct Hr as [<-|Hr]; [now apply mem_not_in|].
  apply IH with (r := r) in H; [|exact Hr]. cbn [add_rule ys_terms] in H.
  now rewrite (proj1 (add_all_spec rhs _)), (proj1 (find_or_add_spec s lhs)) in H.
Qed.
Lemma error_rule_spec start s : add_error_rule start s =
  YState (ys_terms s) (ys_nts s) (ys_rules s ++ if existsb (errs start) (ys_rules s) then [] else [(AXIOM, [TERM_ERROR; END_MARKER])]).
Proof.
  unfold add_error_rule.
  match goal with |- context [existsb ?p (rules_of s start)] => assert (E : existsb p (rules_of s start) = existsb (errs start) (ys_rules s)) end.
  { apply eq_true_iff_eq. rewrite !existsb_exists. split.
    - intros ((x & rhs) & A & D). apply rules_of_in in A. destruct A as [A1 A2]. cbn [fst snd] in *. subst x.
      exists (start, rhs). split; [exact A1|]. unfold errs. destruct rhs as [|z rhs]; [discriminate D|]. rewrite beq_refl'. exact D.
    - intros ((x & rhs) & A & D). unfold errs in D. destruct rhs as [|z rhs]; [discriminate D|].
      apply andb_true_iff in D. destruct D as [D1 D2]. apply beq_eq in D1. subst x. exists (start, z :: rhs).
      split; [apply rules_of_in; now split|]. exact D2. }
  rewrite E. destruct (existsb (errs start) (ys_rules s)); [|reflexivity]. rewrite app_nil_r. now destruct s.
Qed.

(** What is read *)
Definition read_as (g : ygrammar) (y : ystate) : Prop :=
  ys_terms y = map fst (y_terms g) ++ [B "error"; B "$eof"] /\ ys_rules y = full_rules g /\
  forall x, In x (ys_nts y) <-> nonterminal_of g x.
Lemma terminal_of_in g y x : read_as g y -> In x (ys_terms y) <-> terminal_of g x.
Proof.
  intros (-> & _). unfold terminal_of. rewrite in_app_iff. cbn [In]. split; intros [A|A].
  - now left.
  - right. destruct A as [<-|[<-|[]]]; [now left | now right].
  - now left.
  - right. destruct A as [->| ->]; [now left | right; now left].
Qed.
Lemma not_eof_S : B "$eof" <> B "$S". Proof. intro H. vm_compute in H. discriminate H. Qed.
Lemma not_error_S : B "error" <> B "$S". Proof. intro H. vm_compute in H. discriminate H. Qed.
Lemma not_error_eof : B "error" <> B "$eof". Proof. intro H. vm_compute in H. discriminate H. Qed.

Lemma read_first ts start rhs rest : ~ In start (ts ++ [TERM_ERROR]) -> ~ In AXIOM ts -> start <> AXIOM -> ~ In END_MARKER ts -> start <> END_MARKER ->
  read_rules true ((start, rhs) :: rest) (YState (ts ++ [TERM_ERROR]) [] []) =
  read_rules false ((start, rhs) :: rest) (YState (ts ++ [TERM_ERROR; END_MARKER]) [start; AXIOM] [(AXIOM, [start; END_MARKER])]).
Proof.
  intros H1 H2 H3 H4 H5. cbn [read_rules]. unfold read_rule. cbn [ys_terms ys_nts ys_rules].
  assert (M1 : mem start (ts ++ [TERM_ERROR]) = false) by now apply mem_not_in.
  assert (M2 : mem start (ts ++ [TERM_ERROR; END_MARKER]) = false).
  { apply mem_not_in. intro A. apply in_app_or in A. destruct A as [A|[A|[A|[]]]]; [apply H1, in_or_app; now left | apply H1, in_or_app; right; now left | now apply H5]. }
  rewrite M1, M2.
  assert (F1 : find_or_add (YState (ts ++ [TERM_ERROR]) [] []) start = YState (ts ++ [TERM_ERROR]) [start] []).
  { unfold find_or_add. cbn [ys_terms ys_nts ys_rules]. now rewrite M1. }
  rewrite !F1. cbn [ys_terms ys_nts ys_rules].
  assert (M3 : mem AXIOM (ts ++ [TERM_ERROR]) || mem AXIOM [start] = false).
  { apply orb_false_iff. split; apply mem_not_in; intro A.
    - apply in_app_or in A. destruct A as [A|[A|[]]]; [now apply H2 | exact (not_error_S A)].
    - destruct A as [A|[]]. now apply H3. }
  rewrite M3.
  assert (F2 : find_or_add (YState (ts ++ [TERM_ERROR]) [start] []) AXIOM = YState (ts ++ [TERM_ERROR]) [start; AXIOM] []).
  { unfold find_or_add. cbn [ys_terms ys_nts ys_rules]. now rewrite M3. }
  rewrite !F2. cbn [ys_terms ys_nts ys_rules].
  assert (M4 : mem END_MARKER (ts ++ [TERM_ERROR]) || mem END_MARKER [start; AXIOM] = false).
  { apply orb_false_iff. split; apply mem_not_in; intro A.
    - apply in_app_or in A. destruct A as [A|[A|[]]]; [now apply H4 | exact (not_error_eof A)].
    - destruct A as [A|[A|[]]]; [now apply H5 | exact (not_eof_S (eq_sym A))]. }
  rewrite M4. unfold add_rule at 2. cbn [ybind ys_terms ys_nts ys_rules app].
  assert (F3 : forall rs, find_or_add (YState (ts ++ [TERM_ERROR; END_MARKER]) [start; AXIOM] rs) start = YState (ts ++ [TERM_ERROR; END_MARKER]) [start; AXIOM] rs).
  { intro rs. unfold find_or_add. cbn [ys_terms ys_nts ys_rules].
    assert (M5 : mem start [start; AXIOM] = true) by (apply mem_in; now left). now rewrite M5, orb_true_r. }
  rewrite F3, <- app_assoc. reflexivity.
Qed.

Lemma read_accepts g : names_ok g -> exists y, read_symbols g = YOk y /\ read_as g y.
Proof.
  intros (H1 & H2 & H3 & H4 & (start & rhs & rest & E & Hs) & H6). unfold read_symbols.
  rewrite (read_terminals_accepts (y_terms g) [] [] H1 H2 H3). cbn [ybind app]. rewrite Forall_forall in H4, H6.
  assert (Hfix : forall n, In n [B "error"; B "$S"; B "$eof"] -> ~ In n (map fst (y_terms g))).
  { intros n Hn A. apply in_map_iff in A. destruct A as (t & <- & A). exact (H4 t A Hn). }
  rewrite (proj2 (mem_not_in TERM_ERROR _) (Hfix _ (or_introl eq_refl))).
  assert (T0 : ~ terminal_of g start) by (apply (H6 (start, rhs)); rewrite E; now left).
  rewrite E. rewrite read_first.
  2: { intro A. apply T0. apply in_app_or in A. destruct A as [A|[<-|[]]]; [now left | right; now left]. }
  2: { apply Hfix. right. now left. }
  2: exact Hs.
  2: { apply Hfix. right. right. now left. }
  2: { intros ->. apply T0. right. now right. }
  destruct (read_rules_spec ((start, rhs) :: rest) (YState (map fst (y_terms g) ++ [TERM_ERROR; END_MARKER]) [start; AXIOM] [(AXIOM, [start; END_MARKER])])) as (s & Es & T & Rr & Nn).
  { intros r Hr A. rewrite <- E in Hr. apply (H6 r Hr). cbn [ys_terms] in A. apply in_app_or in A.
    destruct A as [A|[A|[A|[]]]]; [now left | right; left; now symmetry | right; right; now symmetry]. }
  rewrite Es. cbn [ybind]. eexists. split; [reflexivity|]. rewrite error_rule_spec. unfold read_as. cbn [ys_terms ys_nts ys_rules] in *.
  assert (RR : (ys_rules s ++ (if existsb (errs start) (ys_rules s) then [] else [(AXIOM, [TERM_ERROR; END_MARKER])])) = full_rules g).
  { unfold full_rules. rewrite Rr, E. cbn [app existsb].
    assert (X : errs start (AXIOM, [start; END_MARKER]) = false).
    { unfold errs. destruct (beq start AXIOM) eqn:D; [|reflexivity]. apply beq_eq in D. contradiction. }
    rewrite X. cbn [orb]. reflexivity. }
  split; [exact T|]. split; [exact RR|].
  intro x. rewrite Nn. unfold nonterminal_of.
  assert (TT : forall z, In z (map fst (y_terms g) ++ [TERM_ERROR; END_MARKER]) <-> terminal_of g z).
  { intro z. unfold terminal_of. rewrite in_app_iff. cbn [In]. split; intros [A|A].
    - now left.
    - right. destruct A as [<-|[<-|[]]]; [now left | now right].
    - now left.
    - right. destruct A as [->| ->]; [now left | right; now left]. }
  rewrite TT. rewrite <- RR, Rr. split.
  - intros [[<-|[<-|[]]]|[(l & r & A & D) D2]].
    + split; [|exact T0]. exists AXIOM, [start; END_MARKER]. split; [now left | right; now left].
    + split; [exists AXIOM, [start; END_MARKER]; split; [now left | now left]|]. rewrite <- TT. intro A. apply in_app_or in A. destruct A as [A|[A|[A|[]]]].
      * revert A. apply Hfix. right. now left.
      * exact (not_error_S A).
      * exact (not_eof_S A).
    + split; [|exact D2]. exists l, r. split; [right; apply in_or_app; now left | exact D].
  - intros [(l & r & A & D) D2]. cbn [app] in A. destruct A as [A|A].
    + injection A as <- <-. left. destruct D as [->|[<-|[<-|[]]]]; [right; now left | now left |]. destruct D2. right. now right.
    + rewrite app_comm_cons in A. apply in_app_or in A. destruct A as [A|A].
      * right. split; [|exact D2]. exists l, r. now split.
      * match type of A with context [if ?c then _ else _] => destruct c end; [destruct A|]. destruct A as [A|[]]. injection A as <- <-. destruct D as [->|[<-|[<-|[]]]].
        -- left. right. now left.
        -- destruct D2. right. now left.
        -- destruct D2. right. now right.
Qed.
Lemma read_err g c n : read_symbols g = YError c n -> reason g c n.
Proof.
  unfold read_symbols. destruct (read_terminals (y_terms g) [] []) as [ts|c' n'] eqn:E; cbn [ybind].
  2: { intro H. injection H as -> ->. apply read_terminals_err in E. cbn [app] in E. unfold reason. tauto. }
  apply read_terminals_ok in E; [|constructor | constructor]. destruct E as (-> & _ & H2 & _). cbn [app] in *.
  unfold reason. destruct (mem TERM_ERROR (map fst (y_terms g))) eqn:E1.
  { intro H. injection H as <- <-. do 3 right. left. apply mem_in in E1. split; [reflexivity|]. split; [now left | now left]. }
  destruct (y_rules g) as [|(start & rhs) rest] eqn:Er.
  { cbn [read_rules ybind]. intro H. injection H as <- <-. do 4 right. left. now split. }
  destruct (read_rules true ((start, rhs) :: rest) _) as [s|c' n'] eqn:E; cbn [ybind]; [discriminate|].
  intro H. injection H as -> ->. apply mem_not_in in E1.
  destruct (mem start (map fst (y_terms g) ++ [TERM_ERROR])) eqn:M1.
  { cbn [read_rules] in E. unfold read_rule at 1 in E. cbn [ys_terms] in E. rewrite M1 in E. cbn [ybind] in E. injection E as <- <-.
    do 5 right. split; [reflexivity|]. apply mem_in in M1. split; [|exists rhs; now left].
    apply in_app_or in M1. destruct M1 as [M1|[<-|[]]]; [now left | right; now left]. }
  assert (F1 : find_or_add (YState (map fst (y_terms g) ++ [TERM_ERROR]) [] []) start = YState (map fst (y_terms g) ++ [TERM_ERROR]) [start] []).
  { unfold find_or_add. cbn [ys_terms ys_nts ys_rules]. now rewrite M1. }
  destruct (mem AXIOM (map fst (y_terms g) ++ [TERM_ERROR]) || mem AXIOM [start]) eqn:M2.
  { cbn [read_rules] in E. unfold read_rule at 1 in E. cbn [ys_terms] in E. rewrite M1, !F1 in E. cbn [ys_terms ys_nts] in E. rewrite M2 in E. cbn [ybind] in E. injection E as <- <-.
    do 3 right. left. split; [reflexivity|]. split; [right; now left|]. apply orb_true_iff in M2. destruct M2 as [M2|M2]; apply mem_in in M2.
    - left. apply in_app_or in M2. destruct M2 as [M2|[M2|[]]]; [exact M2 | destruct (not_error_S M2)].
    - right. left. split; [reflexivity|]. destruct M2 as [->|[]]. now exists rhs, rest. }
  assert (F2 : find_or_add (YState (map fst (y_terms g) ++ [TERM_ERROR]) [start] []) AXIOM = YState (map fst (y_terms g) ++ [TERM_ERROR]) [start; AXIOM] []).
  { unfold find_or_add. cbn [ys_terms ys_nts ys_rules]. now rewrite M2. }
  destruct (mem END_MARKER (map fst (y_terms g) ++ [TERM_ERROR]) || mem END_MARKER [start; AXIOM]) eqn:M3.
  { cbn [read_rules] in E. unfold read_rule at 1 in E. cbn [ys_terms] in E. rewrite M1, !F1 in E. cbn [ys_terms ys_nts] in E. rewrite M2, !F2 in E. cbn [ys_terms ys_nts] in E. rewrite M3 in E. cbn [ybind] in E. injection E as <- <-.
    do 3 right. left. split; [reflexivity|]. split; [right; right; now left|]. apply orb_true_iff in M3. destruct M3 as [M3|M3]; apply mem_in in M3.
    - left. apply in_app_or in M3. destruct M3 as [M3|[M3|[]]]; [exact M3 | destruct (not_error_eof M3)].
    - right. right. split; [reflexivity|]. destruct M3 as [->|[M3|[]]]; [now exists rhs, rest | destruct (not_eof_S (eq_sym M3))]. }
  apply mem_not_in in M1. apply orb_false_iff in M2, M3. destruct M2 as [M2 M2'], M3 as [M3 M3']. apply mem_not_in in M2, M2', M3, M3'.
  rewrite read_first in E.
  2: exact M1.
  2: { intro A. apply M2, in_or_app. now left. }
  2: { intros ->. apply M2'. now left. }
  2: { intro A. apply M3, in_or_app. now left. }
  2: { intros ->. apply M3'. now left. }
  apply read_rules_err in E. destruct E as (-> & A & r & D). do 5 right. split; [reflexivity|]. split; [|now exists r].
  cbn [ys_terms] in A. apply in_app_or in A. destruct A as [A|[<-|[<-|[]]]]; [now left | right; now left | right; now right].
Qed.
(** No reason for a refusal is there when the names are in order. *)
Lemma reason_not_ok g c n : reason g c n -> ~ names_ok g.
Proof.
  intros H (H1 & H2 & H3 & H4 & (start & rhs & rest & E & Hs) & H6). rewrite Forall_forall in H1, H4, H6.
  destruct H as [(_ & z & A & D)|[(_ & a & z & b & A & D)|[(_ & a & z & b & A & D)|[(_ & A & D)|[(_ & A)|(_ & A & r & D)]]]]].
  - generalize (H1 _ A). cbn [snd]. lia.
  - rewrite A, map_app in H2. cbn [map fst] in H2. apply NoDup_remove_2 in H2. apply H2, in_or_app. now left.
  - rewrite A, map_app in H3. cbn [map snd] in H3. apply NoDup_remove_2 in H3. apply H3, in_or_app. now left.
  - destruct D as [D|[(-> & r & l & D)|(-> & r & l & D)]].
    + apply in_map_iff in D. destruct D as (t & <- & D). exact (H4 t D A).
    + rewrite E in D. injection D as D _ _. now apply Hs.
    + apply (H6 (B "$eof", r)); [rewrite D; now left|]. right. now right.
  - rewrite E in A. discriminate A.
  - now apply (H6 _ D).
Qed.
Lemma read_ok g y : read_symbols g = YOk y -> names_ok g /\ read_as g y.
Proof.
  intro H.
  assert (Hn : names_ok g).
  { unfold read_symbols in H. destruct (read_terminals (y_terms g) [] []) as [ts|c' n'] eqn:E; [|discriminate H]. cbn [ybind] in H.
    apply read_terminals_ok in E; [|constructor | constructor]. destruct E as (-> & H1 & H2 & H3). cbn [app] in *.
    destruct (mem TERM_ERROR (map fst (y_terms g))) eqn:E1; [discriminate H|]. apply mem_not_in in E1.
    destruct (y_rules g) as [|(start & rhs) rest] eqn:Er; [discriminate H|].
    destruct (read_rules true ((start, rhs) :: rest) _) as [s|c' n'] eqn:E; [|discriminate H]. clear H.
    assert (E0 := E). cbn [read_rules] in E. unfold read_rule at 1 in E. cbn [ys_terms] in E.
    destruct (mem start (map fst (y_terms g) ++ [TERM_ERROR])) eqn:M1; [discriminate E|].
    assert (F1 : find_or_add (YState (map fst (y_terms g) ++ [TERM_ERROR]) [] []) start = YState (map fst (y_terms g) ++ [TERM_ERROR]) [start] []).
    { unfold find_or_add. cbn [ys_terms ys_nts ys_rules]. now rewrite M1. }
    rewrite !F1 in E. cbn [ys_terms ys_nts] in E.
    destruct (mem AXIOM (map fst (y_terms g) ++ [TERM_ERROR]) || mem AXIOM [start]) eqn:M2; [discriminate E|].
    assert (F2 : find_or_add (YState (map fst (y_terms g) ++ [TERM_ERROR]) [start] []) AXIOM = YState (map fst (y_terms g) ++ [TERM_ERROR]) [start; AXIOM] []).
    { unfold find_or_add. cbn [ys_terms ys_nts ys_rules]. now rewrite M2. }
    rewrite !F2 in E. cbn [ys_terms ys_nts] in E.
    destruct (mem END_MARKER (map fst (y_terms g) ++ [TERM_ERROR]) || mem END_MARKER [start; AXIOM]) eqn:M3; [discriminate E|]. clear E F1 F2.
    apply mem_not_in in M1. apply orb_false_iff in M2, M3. destruct M2 as [M2 M2'], M3 as [M3 M3']. apply mem_not_in in M2, M2', M3, M3'.
    assert (N2 : ~ In AXIOM (map fst (y_terms g))) by (intro A; apply M2, in_or_app; now left).
    assert (N3 : ~ In END_MARKER (map fst (y_terms g))) by (intro A; apply M3, in_or_app; now left).
    assert (N4 : start <> AXIOM) by (intros ->; apply M2'; now left).
    rewrite read_first in E0; [|exact M1 | exact N2 | exact N4 | exact N3 | intros ->; apply M3'; now left].
    assert (E1' := read_rules_lhs _ _ _ E0). cbn [ys_terms] in E1'.
    split; [exact H1|]. split; [exact H2|]. split; [exact H3|]. split; [|split].
    - apply Forall_forall. intros t Ht A. apply (in_map fst) in Ht. destruct A as [A|[A|[A|[]]]]; rewrite <- A in Ht; contradiction.
    - exists start, rhs, rest. now split.
    - rewrite Er. apply Forall_forall. intros r Hr A. apply (E1' r Hr). apply in_or_app. destruct A as [A|[->| ->]]; [now left | right; now left | right; right; now left]. }
  destruct (read_accepts g Hn) as (y' & E & A). rewrite E in H. injection H as <-. now split.
Qed.

(** * The checks *)
Lemma read_wf g y : names_ok g -> read_as g y -> wf y.
Proof.
  intros Hn Hy. assert (Ht := fun x => terminal_of_in g y x Hy). destruct Hy as (T & Rr & N).
  destruct Hn as (_ & _ & _ & H4 & (start & rhs & rest & E & Hs) & H6). rewrite Forall_forall in H4, H6.
  assert (HS : ~ terminal_of g (B "$S")).
  { intros [A|[A|A]].
    - apply in_map_iff in A. destruct A as (t & A & D). apply (H4 t D). rewrite A. right. now left.
    - exact (not_error_S (eq_sym A)).
    - exact (not_eof_S (eq_sym A)). }
  assert (Hl : forall x r, In (x, r) (full_rules g) -> ~ terminal_of g x).
  { intros x r A. unfold full_rules in A. rewrite E in A. destruct A as [A|A]; [injection A as <- _; exact HS|].
    rewrite <- E in A. apply in_app_or in A. destruct A as [A|A]; [exact (H6 _ A)|].
    match type of A with context [if ?c then _ else _] => destruct c end; [destruct A|]. destruct A as [A|[]]. injection A as <- _. exact HS. }
  assert (Hd : forall x, terminal_of g x \/ ~ terminal_of g x).
  { intro x. rewrite <- Ht. destruct (in_dec (list_eq_dec N.eq_dec) x (ys_terms y)); [now left | now right]. }
  constructor.
  - intros x r H. rewrite Rr in H. apply N. split; [exists x, r; split; [exact H | now left]|]. now apply (Hl x r).
  - intros x r z H Hz. rewrite Rr in H. destruct (Hd z) as [A|A]; [left; now apply Ht|]. right. apply N. split; [|exact A].
    exists x, r. split; [exact H | now right].
  - intros x A D. apply N in D. destruct D as [_ D]. apply D. now apply Ht.
  - apply N. split; [|exact HS]. exists (B "$S"), [start; B "$eof"]. split; [|now left]. unfold full_rules. rewrite E. now left.
Qed.
Lemma first_error_none l test : first_error l test = None <-> forall x, In x l -> test x = None.
Proof.
  induction l as [|x l IH]; cbn [first_error].
  - split; [intros _ x [] | reflexivity].
  - destruct (test x) eqn:E.
    + split; [discriminate|]. intro H. specialize (H x (or_introl eq_refl)). rewrite E in H. discriminate H.
    + rewrite IH. split; intros H z.
      * intros [<-|A]; [exact E | now apply H].
      * intro A. apply H. now right.
Qed.
Lemma first_error_some l test c n : first_error l test = Some (c, n) -> In n l /\ test n = Some c.
Proof.
  induction l as [|x l IH]; cbn [first_error]; [discriminate|]. destruct (test x) eqn:E.
  - intro H. injection H as -> ->. split; [now left | exact E].
  - intro H. apply IH in H. destruct H as [A D]. split; [now right | exact D].
Qed.

Section Checks.
Variable g : ygrammar.
Notation R := (full_rules g).
Definition deriv_flags (f : flags) : Prop :=
  (forall x, f (KEmpty x) = true <-> nullable R x) /\
  (forall x, f (KDeriv x) = true <-> productive R (terminal_of g) x) /\
  (forall x, f (KAccess x) = true <-> reachable R (B "$S") x).
Definition set_flags (f : flags) : Prop :=
  forall x t, nonterminal_of g x -> terminal_of g t ->
    (f (KFirst x t) = true <-> first R x t) /\ (f (KFollow x t) = true <-> follow R x t).
Lemma check_flags strict y : names_ok g -> read_as g y -> exists f,
  deriv_flags f /\ (forall x, nonterminal_of g x -> f (KUnloop x) = false <-> looped y x) /\
  match found_error strict y f with
  | Some (c, n) => check_grammar strict y = Ok (YError c n)
  | None => exists f', check_grammar strict y = Ok (YOk f') /\ deriv_flags f' /\ set_flags f'
  end.
Proof.
  intros Hn Hy. assert (W := read_wf g y Hn Hy). assert (Ht := fun x => terminal_of_in g y x Hy).
  destruct (ead_result y W) as (f0 & E0 & A1 & A2 & A3). destruct (loop_result y W f0 A1) as (f1 & E1 & B1 & B2).
  destruct Hy as (T & Rr & N).
  assert (P : forall x, productive (ys_rules y) (terminal y) x <-> productive R (terminal_of g) x).
  { intro x. rewrite Rr. unfold productive, terminal. split; intros (w & C & D); exists w; (split; [|exact D]); revert C; apply Forall_impl; intros z; now rewrite Ht. }
  assert (D1 : deriv_flags f1).
  { split; [|split]; intro x; rewrite B1 by discriminate; [rewrite A1, Rr | rewrite A2, P | rewrite A3, Rr]; reflexivity. }
  exists f1. split; [exact D1|]. split; [intros x Hx; apply B2; now apply N|].
  unfold check_grammar. rewrite E0. cbn [obind]. rewrite E1. cbn [obind].
  destruct (found_error strict y f1) as [[c n]|]; [reflexivity|].
  destruct (ff_result y W f1) as (f2 & E2 & C1 & C2 & C3).
  { intro x. rewrite B1 by discriminate. apply A1. }
  { intros x H. rewrite B1 in H by discriminate. now apply A2. }
  { intros x H. rewrite B1 in H by discriminate. now apply A3. }
  exists f2. rewrite E2. cbn [obind]. split; [reflexivity|]. split.
  - destruct D1 as (D1 & D2 & D3). split; [|split]; intro x; rewrite C1 by discriminate; [apply D1 | apply D2 | apply D3].
  - intros x t Hx Htt. rewrite <- Rr. split; [apply C2 | apply C3]; try (now apply N); now apply Ht.
Qed.
End Checks.

Lemma loops_found g y : names_ok g -> read_as g y -> (exists x, derives_itself (full_rules g) x) <-> exists x, nonterminal_of g x /\ looped y x.
Proof.
  intros Hn Hy. assert (W := read_wf g y Hn Hy). destruct Hy as (T & Rr & N). rewrite <- Rr. split.
  - intros (x & H). assert (H' := H). apply (derives_itself_path y W) in H. exists x. split.
    + apply N. destruct H' as (u & Hs & _). apply step_single in Hs. now apply (wf_lhs _ W x u).
    + split; [now apply path_end in H | now exists x].
  - intros (x & _ & _ & z & _ & H). exists z. now apply (derives_itself_path y W).
Qed.
Lemma nt_dec g y x : read_as g y -> In x (ys_nts y) <-> nonterminal_of g x.
Proof. intros (_ & _ & N). apply N. Qed.

(** ** C73: what is found out about the symbols *)
(** For every grammar that is taken, the flags and sets of its symbols are those of
    the grammar's derivations. *)
Theorem C73_analysis : forall strict g y f, yaep_read_grammar strict g = Ok (YOk (y, f)) ->
  let R := full_rules g in
  (forall x, In x (ys_terms y) <-> terminal_of g x) /\ (forall x, In x (ys_nts y) <-> nonterminal_of g x) /\
  (forall x, f (KEmpty x) = true <-> nullable R x) /\
  (forall x, f (KDeriv x) = true <-> productive R (terminal_of g) x) /\
  (forall x, f (KAccess x) = true <-> reachable R (B "$S") x) /\
  (forall x t, nonterminal_of g x -> terminal_of g t -> f (KFirst x t) = true <-> first R x t) /\
  (forall x t, nonterminal_of g x -> terminal_of g t -> f (KFollow x t) = true <-> follow R x t).
Proof.
  intros strict g y f H R. unfold yaep_read_grammar in H. destruct (read_symbols g) as [y'|c n] eqn:E; [|discriminate H].
  destruct (read_ok g y' E) as [Hn Hy]. destruct (check_flags g strict y' Hn Hy) as (f1 & D & L & M).
  destruct (found_error strict y' f1) as [[c n]|]; [rewrite M in H; discriminate H|].
  destruct M as (f2 & E2 & (D1 & D2 & D3) & D4). rewrite E2 in H. cbn [obind] in H. injection H as <- <-.
  split; [intro x; now apply terminal_of_in|]. split; [intro x; now apply nt_dec|]. split; [exact D1|]. split; [exact D2|]. split; [exact D3|].
  split; intros x t Hx Ht; now apply D4.
Qed.

(** ** C74: which grammars are taken *)
(** The loops always end. *)
Theorem C74_ends : forall strict g, exists r, yaep_read_grammar strict g = Ok r.
Proof.
  intros strict g. unfold yaep_read_grammar. destruct (read_symbols g) as [y|c n] eqn:E; [|eexists; reflexivity].
  destruct (read_ok g y E) as [Hn Hy]. destruct (check_flags g strict y Hn Hy) as (f1 & D & L & M).
  destruct (found_error strict y f1) as [[c n]|]; [rewrite M; eexists; reflexivity|].
  destruct M as (f2 & E2 & _). rewrite E2. eexists; reflexivity.
Qed.
(** Without the strict checks: the names are in order, some text derives from the
    start, and nothing derives itself. *)
Theorem C74_taken : forall g,
  (exists y f, yaep_read_grammar false g = Ok (YOk (y, f))) <->
  names_ok g /\ productive (full_rules g) (terminal_of g) (B "$S") /\ forall x, ~ derives_itself (full_rules g) x.
Proof.
  intro g. unfold yaep_read_grammar. split.
  - intros (y & f & H). destruct (read_symbols g) as [y'|c n] eqn:E; [|discriminate H].
    destruct (read_ok g y' E) as [Hn Hy]. destruct (check_flags g false y' Hn Hy) as (f1 & (D1 & D2 & D3) & L & M).
    destruct (found_error false y' f1) as [[c n]|] eqn:F; [rewrite M in H; discriminate H|].
    unfold found_error in F. destruct (f1 (KDeriv AXIOM)) eqn:A; cbn [negb] in F; [|discriminate F].
    split; [exact Hn|]. split; [now apply D2|]. intros x Hx.
    destruct (proj1 (loops_found g y' Hn Hy) (ex_intro _ x Hx)) as (z & Hz & Hl).
    rewrite first_error_none in F. specialize (F z (proj2 (nt_dec g y' z Hy) Hz)). rewrite (proj2 (L z Hz) Hl) in F. discriminate F.
  - intros (Hn & Hp & Hl). destruct (read_accepts g Hn) as (y & E & Hy). rewrite E.
    destruct (check_flags g false y Hn Hy) as (f1 & (D1 & D2 & D3) & L & M).
    assert (F : found_error false y f1 = None).
    { unfold found_error. rewrite (proj2 (D2 (B "$S")) Hp : f1 (KDeriv AXIOM) = true). cbn [negb]. apply first_error_none. intros x Hx. apply (nt_dec g y x Hy) in Hx.
      destruct (f1 (KUnloop x)) eqn:A; [reflexivity|]. exfalso. apply (L x Hx) in A.
      destruct (proj2 (loops_found g y Hn Hy) (ex_intro _ x (conj Hx A))) as (z & Hz). now apply (Hl z). }
    rewrite F in M. destruct M as (f2 & E2 & _). exists y, f2. now rewrite E2.
Qed.
(** With them, every nonterminal occurs in a derivation from the start, and derives a text. *)
Theorem C74_taken_strict : forall g,
  (exists y f, yaep_read_grammar true g = Ok (YOk (y, f))) <->
  names_ok g /\ (forall x, nonterminal_of g x -> productive (full_rules g) (terminal_of g) x /\ reachable (full_rules g) (B "$S") x) /\
  forall x, ~ derives_itself (full_rules g) x.
Proof.
  intro g. unfold yaep_read_grammar. split.
  - intros (y & f & H). destruct (read_symbols g) as [y'|c n] eqn:E; [|discriminate H].
    destruct (read_ok g y' E) as [Hn Hy]. destruct (check_flags g true y' Hn Hy) as (f1 & (D1 & D2 & D3) & L & M).
    destruct (found_error true y' f1) as [[c n]|] eqn:F; [rewrite M in H; discriminate H|].
    unfold found_error in F. destruct (first_error (ys_nts y') _) as [e|] eqn:A in F; [discriminate F|].
    split; [exact Hn|]. split.
    + intros x Hx. rewrite first_error_none in A. specialize (A x (proj2 (nt_dec g y' x Hy) Hx)). cbv beta in A.
      destruct (f1 (KDeriv x)) eqn:B1; [|discriminate A]. destruct (f1 (KAccess x)) eqn:B2; [|discriminate A].
      split; [now apply D2 | now apply D3].
    + intros x Hx. destruct (proj1 (loops_found g y' Hn Hy) (ex_intro _ x Hx)) as (z & Hz & Hl).
      rewrite first_error_none in F. specialize (F z (proj2 (nt_dec g y' z Hy) Hz)). rewrite (proj2 (L z Hz) Hl) in F. discriminate F.
  - intros (Hn & Hp & Hl). destruct (read_accepts g Hn) as (y & E & Hy). rewrite E.
    destruct (check_flags g true y Hn Hy) as (f1 & (D1 & D2 & D3) & L & M).
    assert (F : found_error true y f1 = None).
    { unfold found_error. match goal with |- match ?e with _ => _ end = _ => assert (A : e = None) end.
      { apply first_error_none. intros x Hx. apply (nt_dec g y x Hy) in Hx. destruct (Hp x Hx) as [P1 P2].
        apply D2 in P1. apply D3 in P2. now rewrite P1, P2. }
      rewrite A. apply first_error_none. intros x Hx. apply (nt_dec g y x Hy) in Hx.
      destruct (f1 (KUnloop x)) eqn:B1; [reflexivity|]. exfalso. apply (L x Hx) in B1.
      destruct (proj2 (loops_found g y Hn Hy) (ex_intro _ x (conj Hx B1))) as (z & Hz). now apply (Hl z). }
    rewrite F in M. destruct M as (f2 & E2 & _). exists y, f2. now rewrite E2.
Qed.
(** What is reported is there: bad names, a nonterminal from which no text derives or
    that is not reached, or one that leads to a nonterminal that derives itself. *)
Theorem C74_reported : forall strict g c n, yaep_read_grammar strict g = Ok (YError c n) ->
  reason g c n \/
  names_ok g /\ nonterminal_of g n /\
    ((c = 15%N /\ ~ productive (full_rules g) (terminal_of g) n) \/
     (c = 14%N /\ strict = true /\ ~ reachable (full_rules g) (B "$S") n) \/
     (c = 16%N /\ exists z, derives_itself (full_rules g) z /\ exists u, step (full_rules g) [n] u /\ steps (full_rules g) u [z])).
Proof.
  intros strict g c n H. unfold yaep_read_grammar in H. destruct (read_symbols g) as [y|c' n'] eqn:E.
  2: { injection H as -> ->. left. now apply read_err. }
  right. destruct (read_ok g y E) as [Hn Hy]. assert (W := read_wf g y Hn Hy). destruct (check_flags g strict y Hn Hy) as (f1 & (D1 & D2 & D3) & L & M).
  destruct (found_error strict y f1) as [[c' n']|] eqn:F.
  2: { destruct M as (f2 & E2 & _). rewrite E2 in H. discriminate H. }
  rewrite M in H. cbn [obind] in H. injection H as -> ->. split; [exact Hn|].
  assert (Hloop : first_error (ys_nts y) (fun x => if negb (f1 (KUnloop x)) then Some LOOP_NONTERM else None) = Some (c, n) ->
    nonterminal_of g n /\ c = 16%N /\ exists z, derives_itself (full_rules g) z /\ exists u, step (full_rules g) [n] u /\ steps (full_rules g) u [z]).
  { intro A. apply first_error_some in A. destruct A as [A B1]. apply (nt_dec g y n Hy) in A. split; [exact A|].
    destruct (f1 (KUnloop n)) eqn:B2; [discriminate B1|]. cbn [negb] in B1. injection B1 as <-. split; [reflexivity|].
    apply (L n A) in B2. destruct B2 as (_ & z & P1 & P2). destruct Hy as (_ & Rr & _). rewrite <- Rr. exists z.
    split; [now apply (derives_itself_path y W)|]. now apply path_steps. }
  unfold found_error in F. destruct strict.
  - destruct (first_error (ys_nts y) _) as [e|] eqn:A in F.
    + injection F as ->. apply first_error_some in A. destruct A as [A B1]. cbv beta in B1. apply (nt_dec g y n Hy) in A. split; [exact A|].
      destruct (f1 (KDeriv n)) eqn:C1; cbn [negb] in B1.
      * destruct (f1 (KAccess n)) eqn:C2; cbn [negb] in B1; [discriminate B1|]. injection B1 as <-. right. left. split; [reflexivity|]. split; [reflexivity|].
        intro X. apply D3 in X. rewrite X in C2. discriminate C2.
      * injection B1 as <-. left. split; [reflexivity|]. intro X. apply D2 in X. rewrite X in C1. discriminate C1.
    + destruct (Hloop F) as (X1 & X2). split; [exact X1|]. right. now right.
  - destruct (f1 (KDeriv AXIOM)) eqn:C1; cbn [negb] in F.
    + destruct (Hloop F) as (X1 & X2). split; [exact X1|]. right. now right.
    + injection F as <- <-. split; [apply (nt_dec g y _ Hy), (wf_axiom _ W)|]. left. split; [reflexivity|].
      intro X. apply (D2 (B "$S")) in X. change (f1 (KDeriv AXIOM) = true) in X. rewrite X in C1. discriminate C1.
Qed.
(** Bad names are always refused, whatever else the grammar says. *)
Theorem C74_names : forall strict g, names_ok g <-> ~ exists c n, yaep_read_grammar strict g = Ok (YError c n) /\ reason g c n.
Proof.
  intros strict g. split.
  - intros Hn (c & n & _ & H). exact (reason_not_ok g c n H Hn).
  - intro H. destruct (read_symbols g) as [y|c n] eqn:E; [now apply read_ok in E|].
    exfalso. apply H. exists c, n. split; [|now apply read_err]. unfold yaep_read_grammar. now rewrite E.
Qed.
(** The rules that are added do not change the texts. *)
Theorem C74_same_texts : forall g start rhs rest w, y_rules g = (start, rhs) :: rest -> names_ok g ->
  ~ occurs (B "$S") (y_rules g) -> Forall (fun t => In t (map fst (y_terms g))) w ->
  steps (full_rules g) [B "$S"] (w ++ [B "$eof"]) <-> steps (y_rules g) [start] w.
Proof.
  intros g start rhs rest w E Hn HS Hw.
  assert (Hfix : forall n, In n [B "error"; B "$S"; B "$eof"] -> ~ In n (map fst (y_terms g))).
  { destruct Hn as (_ & _ & _ & H4 & _). rewrite Forall_forall in H4. intros n Hx A. apply in_map_iff in A. destruct A as (t & <- & A). exact (H4 t A Hx). }
  assert (Hin : forall r, In r (full_rules g) <-> r = (B "$S", [start; B "$eof"]) \/ In r (y_rules g) \/
            (r = (B "$S", [B "error"; B "$eof"]) /\ existsb (errs start) (y_rules g) = false)).
  { intro r. unfold full_rules. rewrite E. rewrite <- E. cbn [In]. rewrite in_app_iff. destruct (existsb (errs start) (y_rules g)); cbn [In]; split.
    - intros [<-|[A|[]]]; [now left | right; now left].
    - intros [->|[A|[_ A]]]; [now left | right; now left | discriminate A].
    - intros [<-|[A|[<-|[]]]]; [now left | right; now left | right; right; now split].
    - intros [->|[A|[-> _]]]; [now left | right; now left | right; right; now left]. }
  assert (Hno : forall u v, steps (full_rules g) u v -> ~ In (B "$S") u -> steps (y_rules g) u v).
  { intros u v H. induction H as [u|u u' v Hs _ IH]; intro A; [apply steps_refl|]. destruct Hs as [p x r q Hr].
    assert (Hr' : In (x, r) (y_rules g)).
    { apply Hin in Hr. destruct Hr as [Hr|[Hr|[Hr _]]]; [|exact Hr|]; injection Hr as -> ->; destruct A; apply in_elt. }
    eapply steps_more; [constructor; exact Hr'|]. apply IH. intro D. apply in_app_or in D. destruct D as [D|D].
    - apply A, in_or_app. now left.
    - apply in_app_or in D. destruct D as [D|D].
      + apply HS. exists x, r. split; [exact Hr' | now right].
      + apply A, in_or_app. right. now right. }
  assert (Hup : forall u v, steps (y_rules g) u v -> steps (full_rules g) u v).
  { intros u v H. induction H as [u|u u' v Hs _ IH]; [apply steps_refl|]. eapply steps_more; [|exact IH]. destruct Hs as [p x r q Hr]. constructor. apply Hin. right. now left. }
  destruct (read_accepts g Hn) as (y & _ & Hy). assert (W := read_wf g y Hn Hy). assert (Ht := fun x => terminal_of_in g y x Hy). destruct Hy as (_ & Rr & _).
  assert (Heof : forall v, steps (full_rules g) [B "$eof"] v -> v = [B "$eof"]).
  { intros v H. rewrite <- Rr in H. apply (steps_terminal y W) in H; [exact H|]. apply Ht. right. now right. }
  split.
  - intro H. remember [B "$S"] as s eqn:Es in H. remember (w ++ [B "$eof"]) as e eqn:Ee in H. destruct H as [s|s v e Hs H].
    + exfalso. rewrite Es in Ee. destruct w as [|w0 [|w1 w]]; cbn [app] in Ee; [|discriminate Ee|discriminate Ee].
      injection Ee as Ee. discriminate Ee.
    + rewrite Es in Hs. apply step_single in Hs. apply Hin in Hs. destruct Hs as [Hs|[Hs|[Hs _]]].
      * apply (f_equal snd) in Hs. cbn [snd] in Hs. rewrite Hs in H. change [start; B "$eof"] with ([start] ++ [B "$eof"]) in H. rewrite Ee in H.
        destruct (steps_split _ _ _ _ H) as (w1 & w2 & A1 & A2 & A3). apply Heof in A3. rewrite A3 in A1. apply app_inj_tail in A1. destruct A1 as [<- _].
        apply Hno; [exact A2|]. intros [A|[]]. apply HS. exists start, rhs. split; [rewrite E; now left | now left].
      * destruct HS. exists (B "$S"), v. split; [exact Hs | now left].
      * apply (f_equal snd) in Hs. cbn [snd] in Hs. rewrite Hs in H. change [B "error"; B "$eof"] with ([B "error"] ++ [B "$eof"]) in H. rewrite Ee in H.
        destruct (steps_split _ _ _ _ H) as (w1 & w2 & A1 & A2 & A3). apply Heof in A3. rewrite A3 in A1. apply app_inj_tail in A1. destruct A1 as [<- _].
        rewrite <- Rr in A2. apply (steps_terminal y W) in A2; [|apply Ht; right; now left]. rewrite A2 in Hw. inversion Hw as [|? ? X _]. exfalso. apply (Hfix (B "error")); [now left | exact X].
  - intro H. apply Hup in H. eapply steps_more; [apply (step_rule1 _ (B "$S") [start; B "$eof"]), Hin; now left|].
    apply (steps_app _ [start] w [B "$eof"] [B "$eof"] H), steps_refl.
Qed.
(** A start symbol without a rule for errors gets one, so that something derives from it. *)
Theorem C74_loops_only : forall g start rhs rest, y_rules g = (start, rhs) :: rest -> names_ok g ->
  (forall tail, ~ In (start, B "error" :: tail) (y_rules g)) ->
  ((exists y f, yaep_read_grammar false g = Ok (YOk (y, f))) <-> forall x, ~ derives_itself (full_rules g) x).
Proof.
  intros g start rhs rest E Hn He. rewrite C74_taken. split; [intros (_ & _ & H); exact H|]. intro H. split; [exact Hn|]. split; [|exact H].
  exists [B "error"; B "$eof"]. split.
  - constructor; [right; now left|]. constructor; [right; now right | constructor].
  - apply steps_rule. unfold full_rules. rewrite E. rewrite <- E. right. apply in_or_app. right.
    assert (X : existsb (errs start) (y_rules g) = false).
    { destruct (existsb (errs start) (y_rules g)) eqn:X; [|reflexivity]. apply existsb_exists in X. destruct X as ((x & r) & A & D).
      unfold errs in D. destruct r as [|z r]; [discriminate D|]. apply andb_true_iff in D. destruct D as [D1 D2]. apply beq_eq in D1, D2. subst x z.
      exfalso. now apply (He r). }
    rewrite X. now left.
Qed.

(** ** Grammars *)
Definition ta : bytes * Z := (B "a", 97%Z).
Definition tb : bytes * Z := (B "b", 98%Z).
(** s: x b s | ; x: a x | y; y: ; with an unused z: a z *)
Definition ex_g : ygrammar := YGrammar [ta; tb]
  [(B "s", [B "x"; B "b"; B "s"]); (B "s", []); (B "x", [B "a"; B "x"]); (B "x", [B "y"]); (B "y", []); (B "z", [B "a"; B "z"])].
Definition show (f : flags) : list bool :=
  [f (KEmpty (B "s")); f (KEmpty (B "x")); f (KEmpty (B "z")); f (KDeriv (B "y")); f (KDeriv (B "z")); f (KAccess (B "y")); f (KAccess (B "z"));
   f (KFirst (B "s") (B "a")); f (KFirst (B "s") (B "b")); f (KFirst (B "s") (B "$eof"));
   f (KFollow (B "x") (B "b")); f (KFollow (B "x") (B "a")); f (KFollow (B "s") (B "$eof")); f (KFollow (B "y") (B "b"))].
Example ex_taken : match yaep_read_grammar false ex_g with Ok (YOk (y, f)) =>
    show f = [true; true; false; true; false; true; false; true; true; false; true; false; true; true] /\
    ys_nts y = [B "s"; B "$S"; B "x"; B "y"; B "z"]
  | _ => False end.
Proof. vm_compute. split; reflexivity. Qed.
Example ex_strict : yaep_read_grammar true ex_g = Ok (YError 15 (B "z")).
Proof. vm_compute. reflexivity. Qed.
Lemma taken_ok g : (exists y f, yaep_read_grammar false g = Ok (YOk (y, f))) -> names_ok g.
Proof. intro H. now apply C74_taken in H. Qed.
(** The theorems apply to it: z derives nothing, x can disappear. *)
Example ex_by_theorem : names_ok ex_g /\ nullable (full_rules ex_g) (B "x") /\ ~ productive (full_rules ex_g) (terminal_of ex_g) (B "z") /\
  ~ follow (full_rules ex_g) (B "x") (B "a") /\ forall x, ~ derives_itself (full_rules ex_g) x.
Proof.
  destruct (yaep_read_grammar false ex_g) as [[(y & f)|c n]| | | |] eqn:E; try (vm_compute in E; discriminate E).
  assert (T := proj1 (C74_taken ex_g) (ex_intro _ y (ex_intro _ f E))). destruct T as (Hn & _ & Hl).
  destruct (C73_analysis _ _ _ _ E) as (A1 & A2 & A3 & A4 & A5 & A6 & A7).
  assert (F : f (KEmpty (B "x")) = true /\ f (KDeriv (B "z")) = false /\ f (KFollow (B "x") (B "a")) = false /\ In (B "x") (ys_nts y) /\ In (B "a") (ys_terms y)).
  { assert (X : match yaep_read_grammar false ex_g with Ok (YOk (y, f)) =>
      f (KEmpty (B "x")) = true /\ f (KDeriv (B "z")) = false /\ f (KFollow (B "x") (B "a")) = false /\ In (B "x") (ys_nts y) /\ In (B "a") (ys_terms y) | _ => True end).
    { vm_compute. repeat split; auto 10. }
    rewrite E in X. exact X. }
  destruct F as (F1 & F2 & F3 & F4 & F5). split; [exact Hn|]. split; [now apply A3|].
  split; [intro X; apply A4 in X; rewrite X in F2; discriminate F2|]. split; [|exact Hl].
  intro X. apply A7 in X; [rewrite X in F3; discriminate F3 | now apply A2 | now apply A1].
Qed.
(** A loop through an empty nonterminal: s: x y; y: s | a; x: . *)
Definition ex_loop : ygrammar := YGrammar [ta]
  [(B "s", [B "x"; B "y"]); (B "y", [B "s"]); (B "y", [B "a"]); (B "x", [])].
Example ex_loop_found : yaep_read_grammar false ex_loop = Ok (YError 16 (B "s")).
Proof. vm_compute. reflexivity. Qed.
Example ex_names : map (yaep_read_grammar false)
    [YGrammar [ta; ta] []; YGrammar [ta; (B "b", 97%Z)] []; YGrammar [(B "a", (-1)%Z)] []; YGrammar [(B "error", 1%Z)] []; YGrammar [ta] [];
     YGrammar [ta] [(B "a", [])]; YGrammar [ta] [(B "s", []); (B "$eof", [])]; YGrammar [ta] [(B "$S", [])]; YGrammar [ta] [(B "$eof", [])]] =
  [Ok (YError 5 (B "a")); Ok (YError 7 (B "b")); Ok (YError 6 (B "a")); Ok (YError 4 (B "error")); Ok (YError 8 []);
   Ok (YError 9 (B "a")); Ok (YError 9 (B "$eof")); Ok (YError 4 (B "$S")); Ok (YError 4 (B "$eof"))].
Proof. vm_compute. reflexivity. Qed.

(** ** What is not so *)
(** The nonterminal in the message "can derive only itself" need not derive itself:
    here a leads to b, and b is the one. *)
Definition bad_loop : ygrammar := YGrammar [ta] [(B "s", [B "x"]); (B "x", [B "y"]); (B "y", [B "y"]); (B "y", [B "a"])].
Theorem C74_named_loop_refuted : exists g n, yaep_read_grammar false g = Ok (YError 16 n) /\ ~ derives_itself (full_rules g) n.
Proof.
  exists bad_loop, (B "x"). split; [vm_compute; reflexivity|].
  assert (X : forall u v, steps (full_rules bad_loop) u v -> Forall (fun x => x = B "y" \/ x = B "a") u -> Forall (fun x => x = B "y" \/ x = B "a") v).
  { induction 1 as [u|u u' v Hs _ IH]; intro A; [exact A|]. apply IH. destruct Hs as [p x r q Hr]. apply Forall_app in A. destruct A as [A1 A2].
    inversion A2 as [|? ? A3 A4]. apply Forall_app. split; [exact A1|]. apply Forall_app. split; [|exact A4].
    change (full_rules bad_loop) with [(B "$S", [B "s"; B "$eof"]); (B "s", [B "x"]); (B "x", [B "y"]); (B "y", [B "y"]); (B "y", [B "a"]); (B "$S", [B "error"; B "$eof"])] in Hr.
    destruct Hr as [Hr|[Hr|[Hr|[Hr|[Hr|[Hr|[]]]]]]]; pose proof (f_equal fst Hr) as Hx; pose proof (f_equal snd Hr) as Hy; cbn [fst snd] in Hx, Hy; rewrite <- Hy;
      try (destruct A3 as [A3|A3]; rewrite <- Hx in A3; vm_compute in A3; discriminate A3); constructor; auto. }
  intros (u & Hs & H). apply step_single in Hs.
  change (full_rules bad_loop) with [(B "$S", [B "s"; B "$eof"]); (B "s", [B "x"]); (B "x", [B "y"]); (B "y", [B "y"]); (B "y", [B "a"]); (B "$S", [B "error"; B "$eof"])] in Hs.
  assert (Hu : u = [B "y"]).
  { destruct Hs as [Hr|[Hr|[Hr|[Hr|[Hr|[Hr|[]]]]]]]; pose proof (f_equal fst Hr) as Hx; pose proof (f_equal snd Hr) as Hy; cbn [fst snd] in Hx, Hy;
      try (vm_compute in Hx; discriminate Hx). now symmetry. }
  rewrite Hu in H. apply X in H; [|constructor; [now left | constructor]]. inversion H as [|? ? A _]. destruct A as [A|A]; vm_compute in A; discriminate A.
Qed.
(** A grammar that describes no text at all is taken: the rule for errors hides it. *)
Definition no_text : ygrammar := YGrammar [ta] [(B "s", [B "a"; B "s"])].
Theorem C74_no_text_refuted : exists g start rhs rest y f, y_rules g = (start, rhs) :: rest /\ yaep_read_grammar false g = Ok (YOk (y, f)) /\
  forall w, Forall (fun t => In t (map fst (y_terms g))) w -> ~ steps (y_rules g) [start] w.
Proof.
  destruct (yaep_read_grammar false no_text) as [[(y & f)|c n]| | | |] eqn:E; try (vm_compute in E; discriminate E).
  exists no_text, (B "s"), [B "a"; B "s"], [], y, f. split; [reflexivity|]. split; [exact E|]. clear E.
  assert (X : forall u v, steps (y_rules no_text) u v -> In (B "s") u -> In (B "s") v).
  { induction 1 as [u|u u' v Hs _ IH]; intro A; [exact A|]. apply IH. destruct Hs as [p x r q Hr]. destruct Hr as [Hr|[]].
    pose proof (f_equal snd Hr) as Hy. cbn [fst snd] in Hy. rewrite <- Hy. apply in_or_app. right. right. now left. }
  intros w Hw H. apply X in H; [|now left]. rewrite Forall_forall in Hw. specialize (Hw _ H). destruct Hw as [Hw|[]]. vm_compute in Hw. discriminate Hw.
Qed.
(** A later rule may be called $S, and then there are texts without an end. *)
Definition two_starts : ygrammar := YGrammar [ta; tb] [(B "s", [B "a"]); (B "$S", [B "b"])].
Theorem C74_second_start_refuted : exists g y f, yaep_read_grammar false g = Ok (YOk (y, f)) /\ steps (full_rules g) [B "$S"] [B "b"].
Proof.
  destruct (yaep_read_grammar false two_starts) as [[(y & f)|c n]| | | |] eqn:E; try (vm_compute in E; discriminate E).
  exists two_starts, y, f. split; [exact E|]. apply steps_rule. vm_compute. auto.
Qed.

Print Assumptions C73_analysis.
Print Assumptions C74_ends.
Print Assumptions C74_taken.
Print Assumptions C74_taken_strict.
Print Assumptions C74_reported.
Print Assumptions C74_names.
Print Assumptions C74_same_texts.
Print Assumptions C74_loops_only.
Print Assumptions C74_named_loop_refuted.
Print Assumptions C74_no_text_refuted.
Print Assumptions C74_second_start_refuted.
