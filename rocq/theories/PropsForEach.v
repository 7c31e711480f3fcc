(** Property C67: what the shell gets in for-each. *)
From Coq Require Import NArith ZArith List Bool Arith Lia String.
From Verif Require Import Bytes BytesFacts Outcome Quote Dom PropsClines TreeEditSpec ForEach ForEachSpec.
Import ListNotations.
Local Open Scope N_scope.
Local Open Scope list_scope.

Lemma safe_name_char c : shell_safe c = true <-> name_char c.
Proof. unfold shell_safe, name_char, cUND. rewrite !orb_true_iff, !andb_true_iff, !N.leb_le, N.eqb_eq. intuition lia. Qed.
Lemma safe_plain n : plain n (make_shell_safe_name n).
Proof.
  unfold plain, make_shell_safe_name. induction n as [|c n IH]; cbn [map]; constructor; [|exact IH]. destruct (shell_safe c) eqn:E.
  - left. split; [now apply safe_name_char|reflexivity].
  - right. split; [|reflexivity]. intros X. apply safe_name_char in X. congruence.
Qed.
Lemma safe_no_dollar n : ~ In 36 (make_shell_safe_name n).
Proof.
  unfold make_shell_safe_name. intros H. apply in_map_iff in H as (c & E & _). destruct (shell_safe c) eqn:X; [|discriminate E]. subst c. discriminate X.
Qed.
Lemma until_some l n q : until_brace l = Some (n, q) -> l = n ++ [125] ++ q /\ ~ In 125 n.
Proof.
  revert n q. induction l as [|c l IH]; intros n q H; [discriminate H|]. cbn [until_brace] in H. destruct (N.eqb_spec c cRB) as [->|Hc].
  - injection H as <- <-. split; [reflexivity|]. intros [].
  - destruct (until_brace l) as [(n' & q')|]; [|discriminate H]. injection H as <- <-. destruct (IH _ _ eq_refl) as (-> & X). split; [reflexivity|]. intros [Y|Y]; [now apply Hc|now apply X].
Qed.
Lemma until_none l : until_brace l = None -> ~ In 125 l.
Proof.
  induction l as [|c l IH]; intros H; [intros []|]. cbn [until_brace] in H. destruct (N.eqb_spec c cRB) as [->|Hc]; [discriminate H|].
  destruct (until_brace l) as [(? & ?)|]; [discriminate H|]. intros [Y|Y]; [now apply Hc|now apply IH].
Qed.
Lemma grab_some l n q : grab_name l = Some (n, q) -> l = variable n ++ q /\ ~ In 125 n.
Proof.
  intros H. assert (E : exists r, l = 36 :: 123 :: r /\ until_brace r = Some (n, q)).
  { unfold grab_name in H. repeat (match type of H with context [match ?z with _ => _ end] => destruct z; try discriminate H end; [idtac]). eauto. }
  destruct E as (r & -> & E). apply until_some in E as (-> & X). unfold variable. split; [now rewrite <- !app_assoc|exact X].
Qed.
Lemma grab_none l : grab_name l = None -> forall n r, l <> variable n ++ r.
Proof.
  intros H n r ->. unfold variable in H. rewrite <- !app_assoc in H. cbn [app grab_name] in H. apply until_none in H. apply H. apply in_or_app. right. now left.
Qed.

(** The loop goes over what has no dollar without change. *)
Lemma loop_plain x : forall a fuel l, ~ In 36 a -> shell_loop (List.length a + fuel) x (a ++ l) = obind (shell_loop fuel x l) (fun r => Ok (a ++ fst r, snd r)).
Proof.
  induction a as [|c a IH]; intros fuel l H.
  - cbn. destruct (shell_loop fuel x l) as [(? & ?)| | | |]; reflexivity.
  - cbn [List.length Nat.add app shell_loop]. destruct (N.eqb_spec c 36) as [->|_]; [exfalso; apply H; now left|]. rewrite IH by (intros X; apply H; now right).
    destruct (shell_loop fuel x l) as [(? & ?)| | | |]; reflexivity.
Qed.
Lemma loop_more x : forall fuel l r k, shell_loop fuel x l = Ok r -> shell_loop (k + fuel) x l = Ok r.
Proof.
  induction fuel as [|fuel IH]; intros l r k H; [discriminate H|]. rewrite Nat.add_succ_r. cbn [shell_loop] in *. destruct l as [|c l]; [exact H|].
  assert (G : forall l' (f : bytes * list bytes -> out (bytes * list bytes)), obind (shell_loop fuel x l') f = Ok r -> obind (shell_loop (k + fuel) x l') f = Ok r).
  { intros l' f. destruct (shell_loop fuel x l') as [r'| | | |] eqn:E; try discriminate. now rewrite (IH _ _ k E). }
  destruct (c =? 36); [|now apply G]. destruct (grab_name (c :: l)) as [(n & q)|]; [|now apply G]. destruct (content_of x n); cbn [obind] in *; try discriminate. now apply G.
Qed.

(** The value that a name stands for in an element *)
Definition seen (x : node) (n : bytes) : bytes :=
  match x with Elem m _ kids => grab_content m kids x n | _ => [] end.
Definition element (x : node) : Prop := match x with Elem _ _ _ => True | _ => False end.
Lemma loop_prepared x : element x -> forall len l, (List.length l < len)%nat -> exists s e, shell_loop len (Some x) l = Ok (s, e) /\ prepared (seen x) l s e.
Proof.
  intros Hx. induction len as [|len IH]; intros l L; [lia|]. cbn [shell_loop]. destruct l as [|c r]; [exists [], []; split; [reflexivity|constructor]|].
  cbn [List.length] in L. assert (G : grab_name (c :: r) = None -> exists s e, obind (shell_loop len (Some x) r) (fun '(s, e) => Ok (c :: s, e)) = Ok (s, e) /\ prepared (seen x) (c :: r) s e).
  { intros N. destruct (IH r ltac:(lia)) as (s & e & E & P). rewrite E. cbn [obind]. exists (c :: s), e. split; [reflexivity|]. constructor; [|exact P]. now apply grab_none. }
  destruct (N.eqb_spec c 36) as [->|Hc].
  - destruct (grab_name (36 :: r)) as [(n & q)|] eqn:N; [|now apply G]. clear G. apply grab_some in N as (N & Nb).
    destruct x as [m ats kids| | | |]; try contradiction Hx. cbn [content_of obind].
    assert (R : r = [123] ++ n ++ [125] ++ q) by (unfold variable in N; rewrite <- !app_assoc in N; cbn [app] in N; injection N as N; exact N).
    set (m' := make_shell_safe_name n). assert (LM : List.length m' = List.length n) by apply map_length.
    assert (LR : List.length r = (List.length ([cLB] ++ m' ++ [cRB]) + List.length q)%nat) by (rewrite R; repeat (rewrite ?app_length; cbn [List.length app]); lia).
    destruct (IH q ltac:(lia)) as (s & e & E & P).
    assert (EE : shell_loop len (Some (Elem m ats kids)) ([cLB] ++ m' ++ [cRB] ++ q) = Ok ([cLB] ++ m' ++ [cRB] ++ s, e)).
    { destruct (IH ([cLB] ++ m' ++ [cRB] ++ q)) as (s0 & e0 & E0 & _).
      { replace (List.length ([cLB] ++ m' ++ [cRB] ++ q)) with (List.length r); [lia|]. rewrite LR. repeat (rewrite ?app_length; cbn [List.length app]). lia. }
      rewrite E0. apply (loop_more _ _ _ _ (List.length ([cLB] ++ m' ++ [cRB]))) in E0.
      replace ([cLB] ++ m' ++ [cRB] ++ q) with (([cLB] ++ m' ++ [cRB]) ++ q) in E0 by now rewrite <- !app_assoc. rewrite loop_plain in E0.
      - rewrite E in E0. cbn [obind fst snd] in E0. rewrite <- !app_assoc in E0. symmetry. exact E0.
      - intros X. apply in_app_or in X as [[X|[]]|X]; [discriminate X|]. apply in_app_or in X as [X|[X|[]]]; [now apply safe_no_dollar in X|discriminate X]. }
    rewrite EE. cbn [obind]. rewrite N. eexists _, _. split; [reflexivity|].
    change (36 :: [cLB] ++ m' ++ [cRB] ++ s) with ([36; 123] ++ m' ++ [125] ++ s).
    replace ([36; 123] ++ m' ++ [125] ++ s) with (variable m' ++ s) by (unfold variable; now rewrite <- !app_assoc).
    apply (p_var (seen (Elem m ats kids)) n m' q s e Nb); [apply safe_plain|exact P].
  - apply G. destruct (grab_name (c :: r)) as [(n & q)|] eqn:N; [|reflexivity]. apply grab_some in N as (N & _). unfold variable in N. cbn [app] in N. injection N as N _. congruence.
Qed.

(** ** Values *)
Lemma append_text x : no_references x -> append_text_node x = all_text x.
Proof.
  induction x as [n ats kids IH|p|t|n c|t] using node_ind2; intros H; try reflexivity.
  - cbn [append_text_node]. unfold all_text. cbn [nodes_of flat_map own_text app].
    assert (K : Forall no_references kids).
    { apply Forall_forall. intros k Hk r X. apply (H r). cbn [nodes_of]. right. apply in_flat_map. now exists k. }
    clear H. induction kids as [|k kids IHk]; [reflexivity|]. inversion IH as [|? ? I1 I2]; subst. inversion K as [|? ? K1 K2]; subst. cbn [flat_map]. rewrite flat_map_app, I1 by exact K1. unfold all_text at 1. f_equal. now apply IHk.
  - destruct p as [t|r]; [unfold all_text; cbn; now rewrite app_nil_r|]. exfalso. apply (H r). now left.
Qed.
Lemma child_texts n kids : flat_map (fun k => match k with Elem m _ ks => if beq m n then text_children ks else [] | _ => [] end) kids = flat_map own_text (flat_map kids_of (filter (named n) kids)).
Proof.
  induction kids as [|k kids IH]; [reflexivity|]. cbn [flat_map filter]. rewrite IH. destruct k as [m ats ks|p|t|m c|t]; try reflexivity. cbn [named]. destruct (beq m n); [|reflexivity].
  cbn [flat_map kids_of]. rewrite flat_map_app. reflexivity.
Qed.
(** C67: the values: the text of the children of a name, two dots for the name of
    the element, one dot for all text in it *)
Theorem C67_value_partial : forall n ats kids, let x := Elem n ats kids in
  seen x (B "..") = n /\
  (no_references x -> seen x (B ".") = all_text x) /\
  forall c, c <> B "." -> c <> B ".." -> seen x c = child_text c x.
Proof.
  intros n ats kids x. split; [reflexivity|]. split.
  - intros H. change (seen x (B ".")) with (append_text_node x). now apply append_text.
  - intros c H1 H2. unfold x, seen, grab_content. destruct (beq c (B "..")) eqn:E1; [apply beq_eq in E1; contradiction|]. destruct (beq c (B ".")) eqn:E2; [apply beq_eq in E2; contradiction|]. apply child_texts.
Qed.
Print Assumptions C67_value_partial.

(** C67: the shell gets the command with plain names in its variables, and in
    the environment, after what was in it, one line for every variable. *)
Theorem C67_prepared : forall environ n ats kids cmd, exists cmd' env,
  invoke_shell environ (Some (Elem n ats kids)) cmd = Ok (cmd', environ ++ env) /\ prepared (seen (Elem n ats kids)) cmd cmd' env.
Proof.
  intros environ n ats kids cmd. destruct (loop_prepared (Elem n ats kids) I (S (List.length cmd)) cmd) as (s & e & E & P); [lia|]. exists s, e. unfold invoke_shell. rewrite E. split; [reflexivity|exact P].
Qed.
Print Assumptions C67_prepared.

Lemma variable_inj n m s t : ~ In 125 n -> ~ In 125 m -> variable n ++ s = variable m ++ t -> n = m /\ s = t.
Proof.
  unfold variable. rewrite <- !app_assoc. cbn [app]. intros Hn Hm E. injection E as E. revert m Hm E. induction n as [|c n IH]; intros m Hm E; destruct m as [|d m]; cbn [app] in E.
  - now injection E as ->.
  - exfalso. injection E as E _. apply Hm. now left.
  - exfalso. injection E as E _. apply Hn. now left.
  - injection E as -> E. destruct (IH (fun X => Hn (or_intror X)) m (fun X => Hm (or_intror X)) E) as (-> & ->). auto.
Qed.
Lemma plain_fun n m m' : plain n m -> plain n m' -> m = m'.
Proof.
  intros H. revert m'. induction H as [|c d n m Hc H IH]; intros m' H'; inversion H' as [|? ? ? ? Hc' H'']; subst; [reflexivity|]. f_equal; [|now apply IH].
  destruct Hc as [(A & ->)|(A & ->)], Hc' as [(A' & ->)|(A' & ->)]; tauto.
Qed.
Lemma prepared_command v w cmd s e : prepared v cmd s e -> forall s' e', prepared w cmd s' e' -> s' = s.
Proof.
  induction 1 as [|n m r r' e Hn Hm P IH|c r r' e Hc P IH]; intros s' e' H'.
  - inversion H'; reflexivity.
  - remember (variable n ++ r) as l eqn:El. destruct H' as [|n2 m2 r2 r2' e2 Hn2 Hm2 P2|c2 r2 r2' e2 Hc2 P2]; [discriminate El| |now apply Hc2 in El].
    apply variable_inj in El as (-> & ->); auto. rewrite (plain_fun _ _ _ Hm2 Hm). f_equal. now apply IH with e2.
  - remember (c :: r) as l eqn:El. destruct H' as [|n2 m2 r2 r2' e2 Hn2 Hm2 P2|c2 r2 r2' e2 Hc2 P2]; [discriminate El|exfalso; exact (Hc n2 r2 eq_refl)|]. injection El as -> ->. f_equal. now apply IH with e2.
Qed.
(** C67: nothing in the document changes the command: what the shell runs is
    the same for all elements. *)
Theorem C67_command_is_fixed : forall environ environ' cmd n ats kids n' ats' kids', exists cmd' env env',
  invoke_shell environ (Some (Elem n ats kids)) cmd = Ok (cmd', environ ++ env) /\
  invoke_shell environ' (Some (Elem n' ats' kids')) cmd = Ok (cmd', environ' ++ env').
Proof.
  intros environ environ' cmd n ats kids n' ats' kids'. destruct (C67_prepared environ n ats kids cmd) as (s & e & E & P). destruct (C67_prepared environ' n' ats' kids' cmd) as (s' & e' & E' & P').
  rewrite (prepared_command _ _ _ _ _ P _ _ P') in E'. eauto.
Qed.
Print Assumptions C67_command_is_fixed.
(** C67: only names of variables are defined, whatever is in the command and in
    the document. *)
Theorem C67_only_plain_names : forall environ n ats kids cmd, exists cmd' env,
  invoke_shell environ (Some (Elem n ats kids)) cmd = Ok (cmd', environ ++ env) /\
  Forall (fun l => exists m v, is_line m l v /\ Forall name_char m) env.
Proof.
  intros environ n ats kids cmd. destruct (C67_prepared environ n ats kids cmd) as (s & e & E & P). exists s, e. split; [exact E|]. clear E.
  induction P as [|n0 m r r' e Hn Hm P IH|c r r' e Hc P IH]; auto. constructor; [|exact IH]. eexists m, _. split; [reflexivity|].
  clear -Hm. induction Hm as [|c d a b H _ IH]; constructor; auto. destruct H as [(H & ->)|(_ & ->)]; [exact H|]. unfold name_char. lia.
Qed.
Print Assumptions C67_only_plain_names.

(** All names in the command are plain. *)
Definition plain_names (cmd : bytes) : Prop := forall a n b, cmd = a ++ variable n ++ b -> ~ In 125 n -> Forall name_char n.
Lemma plain_id n m : Forall name_char n -> plain n m -> m = n.
Proof. intros H P. induction P as [|c d a b Hc P IH]; [reflexivity|]. inversion H as [|? ? H1 H2]; subst. rewrite IH by exact H2. destruct Hc as [(_ & ->)|(X & _)]; [reflexivity|contradiction]. Qed.
Lemma line_split n m v w : Forall name_char n -> Forall name_char m -> n ++ [61] ++ v = m ++ [61] ++ w -> n = m /\ v = w.
Proof.
  revert m. induction n as [|c n IH]; intros m Hn Hm E; destruct m as [|d m]; cbn [app] in E.
  - now injection E as ->.
  - exfalso. injection E as E _. inversion Hm as [|? ? H1 H2]; subst. unfold name_char in H1. lia.
  - exfalso. injection E as E _. inversion Hn as [|? ? H1 H2]; subst. unfold name_char in H1. lia.
  - injection E as -> E. inversion Hn; inversion Hm; subst. destruct (IH m) as (-> & ->); auto.
Qed.
(** C67: if all names in the command are plain, the command is not changed, and
    every variable in it that was not in the environment before has its value. *)
Theorem C67_variables_partial : forall environ x0 ats kids cmd, plain_names cmd -> let x := Elem x0 ats kids in exists env,
  invoke_shell environ (Some x) cmd = Ok (cmd, environ ++ env) /\
  forall a n b, cmd = a ++ variable n ++ b -> ~ In 125 n ->
  (forall l v, In l environ -> ~ is_line n l v) -> value_in (environ ++ env) n (seen x n).
Proof.
  intros environ x0 ats kids cmd Hp x. destruct (C67_prepared environ x0 ats kids cmd) as (s & e & E & P). fold x in P, E. exists e.
  assert (Q : s = cmd /\ (Forall (fun l => exists m, is_line m l (seen x m) /\ Forall name_char m) e) /\ forall a n b, cmd = a ++ variable n ++ b -> ~ In 125 n -> In (n ++ [61] ++ seen x n) e).
  { clear E. induction P as [|n0 m r r' e Hn Hm P IH|c r r' e Hc P IH].
    - split; [reflexivity|]. split; [constructor|]. intros a n b H. destruct a; discriminate H.
    - assert (N0 : Forall name_char n0) by (apply (Hp [] n0 r); [reflexivity|exact Hn]). apply plain_id in Hm; [|exact N0]. subst m.
      destruct IH as (-> & F & G). { intros a n b H. apply (Hp (variable n0 ++ a) n b). now rewrite H, <- app_assoc. }
      split; [reflexivity|]. split; [constructor; [exists n0; split; [reflexivity|exact N0]|exact F]|].
      intros a n b H Hb. destruct (Nat.le_gt_cases (List.length (variable n0)) (List.length a)) as [L|L].
      + right. assert (exists a', a = variable n0 ++ a' /\ r = a' ++ variable n ++ b) as (a' & -> & Hr).
        { exists (skipn (List.length (variable n0)) a). assert (H' := H). apply (f_equal (firstn (List.length (variable n0)))) in H'. rewrite firstn_app, Nat.sub_diag, firstn_all in H'. cbn [firstn] in H'. rewrite app_nil_r in H'.
          rewrite firstn_app in H'. replace (List.length (variable n0) - List.length a)%nat with 0%nat in H' by lia. cbn [firstn] in H'. rewrite app_nil_r in H'.
          assert (Ea : a = variable n0 ++ skipn (List.length (variable n0)) a) by (rewrite H' at 1; now rewrite firstn_skipn).
          split; [exact Ea|]. rewrite Ea, <- app_assoc in H. now apply app_inv_head in H. }
        apply (G a' n b Hr Hb).
      + left. destruct a as [|c a].
        * apply variable_inj in H as (-> & _); auto.
        * exfalso. (* the variable would start inside of the first one *)
          unfold variable in H, L. rewrite <- !app_assoc in H. cbn [app List.length] in H, L. injection H as <- H. destruct a as [|d a]; [discriminate H|]. injection H as <- H.
          rewrite app_length in L. cbn [List.length] in L.
          apply (f_equal (fun z => nth_error z (List.length a))) in H. rewrite (nth_error_app2 a) in H by lia. rewrite Nat.sub_diag in H. cbn [nth_error] in H.
          destruct (Nat.le_gt_cases (List.length n0) (List.length a)) as [L2|L2].
          -- rewrite nth_error_app2 in H by lia. replace (List.length a - List.length n0)%nat with 0%nat in H by lia. discriminate H.
          -- rewrite nth_error_app1 in H by lia. apply nth_error_In in H. rewrite Forall_forall in N0. specialize (N0 _ H). unfold name_char in N0. lia.
    - destruct IH as (-> & F & G). { intros a n b H. apply (Hp (c :: a) n b). now rewrite H. }
      split; [reflexivity|]. split; [exact F|]. intros a n b H Hb. destruct a as [|d a].
      + exfalso. now apply Hc in H.
      + injection H as <- H. now apply (G a n b H Hb). }
  destruct Q as (-> & F & G). split; [exact E|]. intros a n b H Hb Ho. specialize (G a n b H Hb). assert (Pn := Hp a n b H Hb). clear -F G Pn Ho.
  assert (X : exists a b, e = a ++ (n ++ [61] ++ seen x n) :: b /\ forall k w, In k a -> ~ is_line n k w).
  { induction e as [|l e IH]; [destruct G|]. inversion F as [|? ? F1 F2]; subst. destruct F1 as (m & Fl & Fm). unfold is_line in Fl. destruct (list_eq_dec N.eq_dec m n) as [->|Hm].
    - exists [], e. subst l. split; [reflexivity|]. intros k w [].
    - destruct G as [G|G]; [exfalso; rewrite Fl in G; apply line_split in G as (G & _); auto|]. destruct (IH F2 G) as (a & b & -> & K). exists (l :: a), b. split; [reflexivity|]. intros k w [<-|Hk]; [|now apply K].
      unfold is_line. intros Y. rewrite Fl in Y. apply line_split in Y as (Y & _); auto. }
  destruct X as (a' & b' & -> & K). exists (environ ++ a'), (n ++ [61] ++ seen x n), b'. split; [now rewrite <- app_assoc|]. split; [reflexivity|]. intros k w Hk. apply in_app_or in Hk as [Hk|Hk]; [now apply Ho|now apply K].
Qed.
Print Assumptions C67_variables_partial.

(** An order: <order id=1><item>two; rm *</item>text<item>three</item></order> *)
Definition order : node := Elem (B "order") [(B "id", [PText (B "1")])] [Elem (B "item") [] [Part (PText (B "two; rm *"))]; Part (PText (B "text")); Elem (B "item") [] [Part (PText (B " three"))]].
Example C67_ex : invoke_shell [B "PATH=/bin"] (Some order) (B "echo ${item} ${..} ${.}") =
  Ok (B "echo ${item} ${__} ${_}", [B "PATH=/bin"; B "item=two; rm * three"; B "__=order"; B "_=two; rm *text three"])
  /\ no_references order.
Proof. split; [vm_compute; reflexivity|]. intros r H. cbn in H. repeat (destruct H as [H|H]; [discriminate H|]). destruct H. Qed.
Example C67_variables_ex : plain_names (B "echo ${item}") /\ B "echo ${item}" = B "echo " ++ variable (B "item") ++ [] /\ ~ In 125 (B "item").
Proof.
  split; [|split; [reflexivity|intros H; cbn in H; repeat (destruct H as [H|H]; [discriminate H|]); destruct H]].
  intros a n b H Hn. unfold variable in H. rewrite <- !app_assoc in H. cbn in H.
  assert (E : n = B "item").
  { do 5 (destruct a as [|? a]; cbn [app] in H; [discriminate H|injection H as <- H]). destruct a as [|? a]; cbn [app] in H.
    - injection H as H. do 4 (destruct n as [|? n]; cbn [app] in H; [discriminate H|injection H as <- H]). destruct n as [|? n]; [reflexivity|]. cbn [app] in H. injection H as <- H. exfalso. apply Hn. cbn. tauto.
    - injection H as <- H. do 6 (destruct a as [|? a]; cbn [app] in H; [discriminate H|injection H as <- H]). destruct a; discriminate H. }
  rewrite E. unfold name_char. cbn. repeat (constructor; [lia|]). constructor.
Qed.
(** Two names can be the same when they are plain: both variables then are the
    first one; *)
Theorem C67_same_plain_refuted : let x := Elem (B "e") [] [Elem (B "a-b") [] [Part (PText (B "1"))]; Elem (B "a_b") [] [Part (PText (B "2"))]] in
  invoke_shell [] (Some x) (B "${a-b}${a_b}") = Ok (B "${a_b}${a_b}", [B "a_b=1"; B "a_b=2"]).
Proof. vm_compute. reflexivity. Qed.
(** a variable that was in the environment before is there twice, and the old
    value is the first; *)
Theorem C67_old_variable_refuted : let x := Elem (B "e") [] [Elem (B "HOME") [] [Part (PText (B "1"))]] in
  invoke_shell [B "HOME=/root"] (Some x) (B "${HOME}") = Ok (B "${HOME}", [B "HOME=/root"; B "HOME=1"]).
Proof. vm_compute. reflexivity. Qed.
(** references are replaced with the word TODO or lost; *)
Theorem C67_references_refuted : let x := Elem (B "e") [] [Elem (B "a") [] [Part (PText (B "1")); Part (PRef (B "lt")); Part (PText (B "2"))]] in
  invoke_shell [] (Some x) (B "${.}${a}") = Ok (B "${_}${a}", [B "_=1TODO2"; B "a=12"]).
Proof. vm_compute. reflexivity. Qed.
(** text in elements inside of a child is not in its variable; *)
Theorem C67_inner_text_refuted : let x := Elem (B "e") [] [Elem (B "a") [] [Elem (B "b") [] [Part (PText (B "1"))]]] in
  invoke_shell [] (Some x) (B "${a}") = Ok (B "${a}", [B "a="]).
Proof. vm_compute. reflexivity. Qed.
(** and if what was selected is outside of all elements, NULL is used. *)
Theorem C67_outside_refuted : invoke_shell [] None (B "${a}") = UB.
Proof. vm_compute. reflexivity. Qed.
