(** C76: sets that are taken from the table are those that would be built *)
From Coq Require Import NArith ZArith List Bool Arith String Lia.
From Verif Require Import Bytes BytesFacts Outcome Ixml Yaep YaepSpec YaepParse YaepParseFacts YaepCache PropsYaep PropsYaepParse.
Import ListNotations.
Local Open Scope list_scope.
Local Open Scope nat_scope.

Lemma items_eqb_eq a b : items_eqb a b = true <-> a = b.
Proof.
  revert b. induction a as [|x a IH]; intros [|z b]; cbn [items_eqb]; split; intro H; try discriminate H; try reflexivity.
  - apply andb_true_iff in H. destruct H as [H1 H2]. apply item_eqb_eq in H1. apply IH in H2. now subst.
  - injection H as <- <-. apply andb_true_iff. split; [now apply item_eqb_eq | now apply IH].
Qed.
Lemma nth_firstn {A} (l : list A) n j : j < n -> nth_error (firstn n l) j = nth_error l j.
Proof.
  revert n j. induction l as [|a l IH]; intros [|n] [|j] H; try lia; try reflexivity. cbn [firstn nth_error]. apply IH. lia.
Qed.

Section C.
Variable y : ystate.
Variable f : flags.
Definition canon (s : sset) : Prop := expand y f (s_started s) = Ok s.
Lemma expand_started st s : expand y f st = Ok s -> s_started s = st.
Proof. unfold expand. destruct (grow _ _ _ _ _ _ _ _) as [init| | | |]; cbn [obind]; intro H; try discriminate H. injection H as <-. reflexivity. Qed.
Lemma expand_canon st s : expand y f st = Ok s -> canon s.
Proof. intro H. unfold canon. now rewrite (expand_started _ _ H). Qed.
Lemma same_canon a b : canon a -> canon b -> same_set a b = true -> a = b.
Proof. unfold canon, same_set. intros Ha Hb H. apply items_eqb_eq in H. rewrite H in Ha. rewrite Ha in Hb. now injection Hb. Qed.

(** ** Matched lengths *)
Definition bounded (sets : list sset) : Prop := forall j s it, nth_error sets j = Some s -> In it (items s) -> snd it <= j.
Lemma items_bound s k : (forall it, In it (s_started s) -> snd it <= k) -> forall it, In it (items s) -> snd it <= k.
Proof.
  intros H it Hi. unfold items in Hi. rewrite !in_app_iff, !in_map_iff in Hi. destruct Hi as [Hi|[(p & <- & Hi)|(d & <- & Hi)]]; [now apply H | | cbn [snd]; lia].
  cbn [snd]. destruct (nth_in_or_default (snd p) (map snd (s_started s)) 0) as [A| ->]; [|lia].
  apply in_map_iff in A. destruct A as (q & <- & A). now apply H.
Qed.
Lemma complete_more sets next : forall fuel i st st', complete y f fuel sets next i st = Ok st' -> bounded sets -> (forall it, In it st -> snd it <= List.length sets) ->
  (exists z, st' = st ++ z) /\ forall it, In it st' -> snd it <= List.length sets.
Proof.
  induction fuel as [|fuel IH]; intros i st st' H Hb Hs; cbn [complete] in H; [discriminate H|].
  destruct (nth_error st i) as [[d m]|] eqn:E.
  2: { injection H as <-. split; [exists []; now rewrite app_nil_r | exact Hs]. }
  destruct (empty_tail f d); [|now apply IH in H].
  destruct (List.length sets <? m) eqn:Em; [discriminate H|]. apply Nat.ltb_ge in Em.
  destruct (nth_error sets (List.length sets - m)) as [prev|] eqn:Ep; [|discriminate H].
  destruct (predicted prev (dlhs d)) as [|e0 l0] eqn:El.
  - destruct (beq (dlhs d) AXIOM && negb (completed prev AXIOM)); [now apply IH in H | discriminate H].
  - rewrite <- El in H. destruct (shift_all_ext y f next m (predicted prev (dlhs d)) st) as (z & Ez).
    apply IH in H; [|exact Hb|].
    + destruct H as [(z2 & ->) H]. split; [|exact H]. exists (z ++ z2). now rewrite Ez, app_assoc.
    + intros it Hi. apply shift_all_in in Hi. destruct Hi as [Hi|(e & He & _ & ->)]; [now apply Hs|]. cbn [snd].
      apply predicted_in in He. destruct He as [He _]. assert (B := Hb _ _ _ Ep He). lia.
Qed.
Lemma next_canon sets set x next new i : next_set y f sets set x next = Ok new -> bounded sets -> List.length sets = S i -> nth_error sets i = Some set ->
  canon new /\ forall it, In it (s_started new) -> snd it <= S i.
Proof.
  unfold next_set. intros H Hb Hl Hs. destruct (complete _ _ _ _ _ _ _) as [st| | | |] eqn:E; cbn [obind] in H; try discriminate H.
  split; [now apply expand_canon in H|]. rewrite (expand_started _ _ H). rewrite <- Hl. eapply complete_more; [exact E | exact Hb|].
  intros it Hi. apply shift_all_in in Hi. destruct Hi as [[]|(e & He & _ & ->)]. cbn [snd]. apply predicted_in in He. destruct He as [He _]. assert (B := Hb _ _ _ Hs He). lia.
Qed.

(** ** The same steps at another place *)
Lemma complete_move sets next p i st' : p <= i -> List.length sets = S i -> nth_error sets p = nth_error sets i ->
  (forall d m, In (d, m) st' -> m <= S p /\ (m <= 1 \/ nth_error sets (i + 1 - m) = nth_error sets (p + 1 - m))) -> bounded sets ->
  forall fuel fuel' j st, fuel <= fuel' -> (forall it, In it st -> snd it <= S p) -> complete y f fuel (firstn (S p) sets) next j st = Ok st' -> complete y f fuel' sets next j st = Ok st'.
Proof.
  intros Hp Hl Hpi Hm Hb. assert (Lf : List.length (firstn (S p) sets) = S p) by (rewrite firstn_length; lia).
  assert (Hb' : bounded (firstn (S p) sets)).
  { intros j s it Hj. destruct (Nat.lt_ge_cases j (S p)) as [Lj|Lj]; [rewrite nth_firstn in Hj by exact Lj; now apply Hb|].
    assert (Z : j < List.length (firstn (S p) sets)) by (apply nth_error_Some; congruence). lia. }
  induction fuel as [|fuel IH]; intros fuel' j st Hf Hs H; [discriminate H|]. destruct fuel' as [|fuel']; [lia|].
  assert (Hmore : exists z, st' = st ++ z). { eapply complete_more; [exact H | exact Hb' |]. now rewrite Lf. }
  cbn [complete] in H |- *. unfold item in *. destruct (nth_error st j) as [[d m]|] eqn:E in H |- *; [|exact H].
  destruct (empty_tail f d) in H |- *; [|apply IH; [lia | exact Hs | exact H]]. rewrite Lf in H.
  destruct (S p <? m) eqn:Em; [discriminate H|]. apply Nat.ltb_ge in Em.
  assert (Hin : In (d, m) st') by (destruct Hmore as (z & ->); apply in_or_app; left; eapply nth_error_In; exact E).
  destruct (Hm d m Hin) as [M1 M2]. rewrite Hl. assert (Em2 : (S i <? m) = false) by (apply Nat.ltb_ge; lia). rewrite Em2.
  destruct (Nat.eq_dec m 0) as [-> |Hm0].
  { exfalso. rewrite Nat.sub_0_r in H. assert (Z : nth_error (firstn (S p) sets) (S p) = None) by (apply nth_error_None; lia). rewrite Z in H. discriminate H. }
  rewrite nth_firstn in H by lia.
  assert (Same : nth_error sets (S i - m) = nth_error sets (S p - m)).
  { destruct M2 as [M2|M2]; [replace m with 1 by lia; cbn [Nat.sub]; rewrite !Nat.sub_0_r; now symmetry|]. replace (S i - m) with (i + 1 - m) by lia. replace (S p - m) with (p + 1 - m) by lia. exact M2. }
  rewrite Same. destruct (nth_error sets (S p - m)) as [prev|] eqn:Ep in H |- *; [|discriminate H].
  destruct (predicted prev (dlhs d)) as [|e0 l0] eqn:El in H |- *.
  - destruct (beq (dlhs d) AXIOM && negb (completed prev AXIOM)) in H |- *; [apply IH; [lia | exact Hs | exact H] | discriminate H].
  - apply IH; [lia | | exact H]. intros it Hi. apply shift_all_in in Hi. destruct Hi as [Hi|(e & He & _ & ->)]; [now apply Hs|].
    cbn [snd]. assert (He' : In e (predicted prev (dlhs d))) by (rewrite El; exact He). clear He. rename He' into He. apply predicted_in in He. destruct He as [He _]. assert (Q := Hb _ _ _ Ep He). lia.
Qed.

Lemma next_move sets set x next p i s : p <= i -> List.length sets = S i -> nth_error sets p = Some set -> nth_error sets i = Some set -> bounded sets ->
  (forall it, In it (s_started s) -> snd it <= S p) ->
  (forall d m, In (d, m) (s_started s) -> m <= 1 \/ nth_error sets (i + 1 - m) = nth_error sets (p + 1 - m)) ->
  next_set y f (firstn (S p) sets) set x next = Ok s -> next_set y f sets set x next = Ok s.
Proof.
  intros Hp Hl H1 H2 Hb Hs Hc H. unfold next_set in *. destruct (complete _ _ _ (firstn (S p) sets) _ _ _) as [st| | | |] eqn:E; cbn [obind] in H; try discriminate H.
  assert (Es := expand_started _ _ H). rewrite Es in *.
  rewrite (complete_move sets next p i st Hp Hl) with (fuel := S (List.length (all_drules y) * S (List.length (firstn (S p) sets)))); [exact H | congruence | | exact Hb | | | exact E].
  - intros d m Hd. split; [exact (Hs (d, m) Hd) | exact (Hc d m Hd)].
  - rewrite firstn_length. apply le_n_S, Nat.mul_le_mono_l. lia.
  - intros it Hi. apply shift_all_in in Hi. destruct Hi as [[]|(e & He & _ & ->)]. cbn [snd]. apply predicted_in in He. destruct He as [He _]. assert (Q := Hb _ _ _ H1 He). lia.
Qed.

(** ** The table *)
Definition slot_ok (sets : list sset) (e : centry) (q : sset * nat) : Prop :=
  snd q < List.length sets /\ nth_error sets (snd q) = Some (c_set e) /\ predicted (c_set e) (c_term e) <> [] /\
  next_set y f (firstn (S (snd q)) sets) (c_set e) (c_term e) (c_look e) = Ok (fst q) /\ forall it, In it (s_started (fst q)) -> snd it <= S (snd q).
Definition table_ok (sets : list sset) (table : list centry) : Prop :=
  forall e, In e table -> canon (c_set e) /\ forall q, In q (c_results e) -> slot_ok sets e q.
Lemma slot_more sets new e q : slot_ok sets e q -> slot_ok (sets ++ [new]) e q.
Proof.
  intros (A1 & A2 & A3 & A4 & A5). split; [rewrite app_length; lia|]. split; [rewrite nth_error_app1 by exact A1; exact A2|]. split; [exact A3|]. split; [|exact A5].
  rewrite firstn_app. replace (S (snd q) - List.length sets) with 0 by lia. cbn [firstn]. now rewrite app_nil_r.
Qed.
Lemma table_more sets new table : table_ok sets table -> table_ok (sets ++ [new]) table.
Proof. intros H e He. destruct (H e He) as [A1 A2]. split; [exact A1|]. intros q Hq. apply slot_more. now apply A2. Qed.

Lemma check_ok sets k place l : (forall s, In s sets -> canon s) -> place < k -> List.length sets = S k -> (forall it, In it l -> snd it <= S place) ->
  exists b, check_cached sets k place l = Ok b /\ (b = true -> forall d m, In (d, m) l -> m <= 1 \/ nth_error sets (k + 1 - m) = nth_error sets (place + 1 - m)).
Proof.
  intros Hc Hp Hl. induction l as [|[d m] l IH]; intro Hm; cbn [check_cached].
  - exists true. split; [reflexivity|]. intros _ d m [].
  - destruct IH as (b & E & Hb). { intros it Hi. apply Hm. now right. }
    assert (Mm := Hm (d, m) (or_introl eq_refl)). cbn [snd] in Mm.
    destruct (m <=? 1) eqn:E1.
    + exists b. split; [exact E|]. intros Eb d' m' [Z|Z]; [injection Z as <- <-; left; now apply Nat.leb_le | now apply (Hb Eb d')].
    + apply Nat.leb_gt in E1. assert (E2 : (k + 1 <? m) = false) by (apply Nat.ltb_ge; lia). assert (E3 : (place + 1 <? m) = false) by (apply Nat.ltb_ge; lia). rewrite E2, E3. cbn [orb].
      destruct (nth_error sets (k + 1 - m)) as [a|] eqn:Ea; [|apply nth_error_None in Ea; lia].
      destruct (nth_error sets (place + 1 - m)) as [c|] eqn:Ec; [|apply nth_error_None in Ec; lia].
      destruct (same_set a c) eqn:Es; [|exists false; split; [reflexivity | discriminate]].
      exists b. split; [exact E|]. intros Eb d' m' [Z|Z]; [|now apply (Hb Eb d')]. injection Z as <- <-. right. rewrite Ea, Ec. f_equal. apply same_canon; [| | exact Es]; apply Hc; eapply nth_error_In; eassumption.
Qed.
Lemma look_same a b : same_look a b = true <-> a = b.
Proof.
  destruct a as [a|], b as [b|]; cbn [same_look]; split; intro H; try discriminate H; try reflexivity.
  - apply beq_eq in H. now subst.
  - injection H as ->. now apply beq_eq.
Qed.
Lemma entry_key set x next e : canon set -> canon (c_set e) -> is_entry set x next e = true -> c_set e = set /\ c_term e = x /\ c_look e = next.
Proof.
  intros H1 H2 H. unfold is_entry in H. apply andb_true_iff in H. destruct H as [H H5]. apply andb_true_iff in H. destruct H as [H3 H4].
  split; [now apply same_canon|]. split; [now apply beq_eq | now apply look_same].
Qed.
Lemma put_in {A} i (x : A) l z : In z (put i x l) -> z = x \/ In z l.
Proof.
  revert i. induction l as [|a l IH]; intros i H; cbn [put] in H.
  - destruct H as [<-|[]]. now left.
  - destruct i as [|i]; destruct H as [<-|H]; [now left | right; now right | right; now left |]. apply IH in H. destruct H as [->|H]; [now left | right; now right].
Qed.

Lemma cached_same : forall toks table hits sets set i r, List.length sets = S i -> nth_error sets i = Some set -> (forall s, In s sets -> canon s) -> bounded sets ->
  table_ok sets table -> (forall e q, In e table -> In q (c_results e) -> snd q < i) ->
  parse_loop y f sets set i toks = Ok r -> exists n, parse_cached y f table hits sets set i toks = Ok (r, n).
Proof.
  induction toks as [|x toks IH]; intros table hits sets set i r Hl Hs Hc Hb Ht Hlt H; cbn [parse_loop parse_cached] in *.
  - injection H as <-. now exists hits.
  - assert (Cs : canon set) by (apply Hc; eapply nth_error_In; exact Hs).
    assert (Hfound : forall l e, In e table -> is_entry set x (hd_error toks) e = true -> (forall q, In q l -> In q (c_results e)) ->
      exists o, find_result sets i l = Ok o /\ forall s, o = Some s -> predicted set x <> [] /\ next_set y f sets set x (hd_error toks) = Ok s).
    { intros l e He Hk Hq. destruct (Ht e He) as [Ce Se]. destruct (entry_key _ _ _ _ Cs Ce Hk) as (K1 & K2 & K3).
      induction l as [|[s p] l IHl]; cbn [find_result].
      - exists None. split; [reflexivity | discriminate].
      - assert (Hq0 := Hq (s, p) (or_introl eq_refl)). destruct (Se _ Hq0) as (S1 & S2 & S3 & S4 & S5). assert (Hpi := Hlt e (s, p) He Hq0). cbn [fst snd] in *.
        destruct (check_ok sets i p (rev (s_started s)) Hc Hpi Hl) as (b & Eb & Hbt). { intros it Hi. apply S5. now apply in_rev. }
        rewrite Eb. cbn [obind]. destruct b; [|apply IHl; intros q Q; apply Hq; now right].
        exists (Some s). split; [reflexivity|]. intros s' Q. injection Q as <-. rewrite K1, K2, K3 in *. split; [exact S3|].
        apply (next_move sets set x (hd_error toks) p i s); try assumption; [lia|]. intros d m Hd. apply (Hbt eq_refl d). now apply in_rev in Hd. }
    assert (Hnew : forall new, predicted set x <> [] -> next_set y f sets set x (hd_error toks) = Ok new -> parse_loop y f (sets ++ [new]) new (S i) toks = Ok r /\
      List.length (sets ++ [new]) = S (S i) /\ nth_error (sets ++ [new]) (S i) = Some new /\ (forall s, In s (sets ++ [new]) -> canon s) /\ bounded (sets ++ [new]) /\ (forall it, In it (s_started new) -> snd it <= S i)).
    { intros new Hp En. destruct (next_canon sets set x (hd_error toks) new i En Hb Hl Hs) as [N1 N2].
      split. { destruct (predicted set x) as [|e0 l0]; [now destruct Hp|]. rewrite En in H. exact H. }
      split; [rewrite app_length; cbn [List.length]; lia|]. split; [rewrite nth_error_app2 by lia; rewrite Hl, Nat.sub_diag; reflexivity|].
      split; [intros s Q; apply in_app_or in Q; destruct Q as [Q|[<-|[]]]; [now apply Hc | exact N1]|]. split; [|exact N2].
      intros j s it Hj Hi. destruct (Nat.lt_ge_cases j (List.length sets)) as [Lj|Lj]; [rewrite nth_error_app1 in Hj by exact Lj; now apply (Hb j s)|].
      rewrite nth_error_app2 in Hj by exact Lj. destruct (j - List.length sets) as [|q] eqn:Ej; cbn [nth_error] in Hj; [|destruct q; discriminate Hj]. injection Hj as <-.
      replace j with (S i) by lia. now apply (items_bound new (S i)). }
    assert (Hbuild : forall table0, table_ok sets table0 -> (forall e q, In e table0 -> In q (c_results e) -> snd q < i) ->
      exists n, match predicted set x with
        | [] => Ok ((Some i, sets), hits)
        | _ :: _ => obind (next_set y f sets set x (hd_error toks)) (fun new => parse_cached y f (save table0 set x (hd_error toks) new i) hits (sets ++ [new]) new (S i) toks)
        end = Ok (r, n)).
    { intros table0 Ht0 Hlt0. destruct (predicted set x) as [|e0 l0] eqn:El; [injection H as <-; now exists hits|].
      destruct (next_set y f sets set x (hd_error toks)) as [new| | | |] eqn:En; cbn [obind] in H |- *; try discriminate H.
      destruct (Hnew new ltac:(discriminate) eq_refl) as (B1 & B2 & B3 & B4 & B5 & B6).
      assert (Hsave : forall e, In e (save table0 set x (hd_error toks) new i) -> In e table0 \/ exists e', In e' table0 /\ is_entry set x (hd_error toks) e' = true /\ e = save_in new i e').
      { clear. induction table0 as [|a t IHt]; cbn [save]; intros e He; [destruct He|]. destruct (is_entry set x (hd_error toks) a) eqn:Ea.
        - destruct He as [<-|He]; [right; exists a; split; [now left | now split] | left; now right].
        - destruct He as [<-|He]; [left; now left|]. apply IHt in He. destruct He as [He|(e' & A1 & A2)]; [left; now right | right; exists e'; split; [now right | exact A2]]. }
      apply IH; try assumption.
      - intros e He. apply Hsave in He. destruct He as [He|(e' & A1 & A2 & ->)]; [now apply (table_more _ new _ Ht0)|].
        destruct (Ht0 e' A1) as [C1 C2]. cbn [save_in c_set]. split; [exact C1|]. intros q Hq. cbn [save_in c_results] in Hq. apply put_in in Hq. destruct Hq as [->|Hq]; [|apply slot_more, (C2 q Hq)].
        destruct (entry_key _ _ _ _ Cs C1 A2) as (K1 & K2 & K3). unfold slot_ok. cbn [save_in c_set c_term c_look fst snd]. rewrite K1, K2, K3.
        split; [rewrite app_length; cbn [List.length]; lia|]. split; [rewrite nth_error_app1 by lia; exact Hs|]. split; [congruence|]. split; [|exact B6].
        rewrite firstn_app, <- Hl, Nat.sub_diag, firstn_all. cbn [firstn]. rewrite app_nil_r. exact En.
      - intros e q He Hq. apply Hsave in He. destruct He as [He|(e' & A1 & A2 & ->)]; [assert (Z := Hlt0 e q He Hq); lia|].
        cbn [save_in c_results] in Hq. apply put_in in Hq. destruct Hq as [->|Hq]; [cbn [snd]; lia|]. assert (Z := Hlt0 e' q A1 Hq). lia. }
    unfold lookup. destruct (find (is_entry set x (hd_error toks)) table) as [e|] eqn:Ef.
    + apply find_some in Ef. destruct Ef as [He Hk]. destruct (Hfound (c_results e) e He Hk (fun q Q => Q)) as (o & Eo & Ho). rewrite Eo. cbn [obind].
      destruct o as [s|]; [|now apply Hbuild].
      destruct (Ho s eq_refl) as [P1 P2]. destruct (Hnew s P1 P2) as (B1 & B2 & B3 & B4 & B5 & _). apply IH; try assumption.
      * now apply table_more.
      * intros e' q He' Hq. assert (Z := Hlt e' q He' Hq). lia.
    + cbn [obind]. apply Hbuild.
      * intros e He. apply in_app_or in He. destruct He as [He|[<-|[]]]; [now apply Ht|]. cbn [c_set c_results]. split; [exact Cs | intros q []].
      * intros e q He Hq. apply in_app_or in He. destruct He as [He|[<-|[]]]; [now apply (Hlt e)|]. destruct Hq.
Qed.
Lemma perform_same toks r : perform_parse y f toks = Ok r -> exists n, perform_parse_cached y f toks = Ok (r, n).
Proof.
  unfold perform_parse, perform_parse_cached. destruct (build_start_set y f) as [s0| | | |] eqn:E; cbn [obind]; intro H; try discriminate H.
  unfold build_start_set in E. apply cached_same; try assumption; try reflexivity.
  - intros s [<-|[]]. now apply expand_canon in E.
  - intros j s it Hj Hi. destruct j as [|[|j]]; try discriminate Hj. injection Hj as <-. apply (items_bound s0 0); [|exact Hi].
    rewrite (expand_started _ _ E). intros it' Hi'. apply in_map_iff in Hi'. destruct Hi' as (r' & <- & _). cbn [snd]. lia.
  - intros e [].
  - intros e q [].
Qed.
End C.

(** * C76 *)
(** For every grammar and text: if the sets that are built one by one give a result,
    the parser that takes sets from its table gives the same result and the same sets. *)
Theorem C76_same_sets : forall y f toks e sets, perform_parse y f toks = Ok (e, sets) -> exists hits, perform_parse_cached y f toks = Ok ((e, sets), hits).
Proof. intros y f toks e sets. apply perform_same. Qed.
(** So for the grammars that are taken the parser as it is ends, and takes texts of the grammar only; *)
Theorem C76_ends : forall strict g y f w, yaep_read_grammar strict g = Ok (YOk (y, f)) -> plain g -> tokens g w ->
  exists e sets hits, perform_parse_cached y f (text w) = Ok ((e, sets), hits).
Proof.
  intros strict g y f w H Hp Hw. destruct (C75_ends strict g y f w H Hp Hw) as (e & sets & E). apply perform_same in E. destruct E as (n & E). now exists e, sets, n.
Qed.
Lemma cached_result strict g y f w r hits : yaep_read_grammar strict g = Ok (YOk (y, f)) -> plain g -> tokens g w ->
  perform_parse_cached y f (text w) = Ok (r, hits) -> perform_parse y f (text w) = Ok r.
Proof.
  intros H Hp Hw E. destruct (C75_ends strict g y f w H Hp Hw) as (e & sets & P). rewrite P. apply perform_same in P. destruct P as (n & P). rewrite E in P. injection P as -> _. reflexivity.
Qed.
Theorem C76_taken_is_text : forall strict g y f start w sets hits, yaep_read_grammar strict g = Ok (YOk (y, f)) -> plain g -> starts g start -> tokens g w ->
  perform_parse_cached y f (text w) = Ok ((None, sets), hits) -> steps (y_rules g) [start] w /\ has_tree sets = true.
Proof.
  intros strict g y f start w sets hits H Hp Hst Hw E. apply (cached_result strict g) in E; try assumption. now apply (C75_taken_is_text strict g y f).
Qed.
(** and without two empty symbols at the start of a rule exactly these. *)
Theorem C76_exact : forall strict g y f start w, yaep_read_grammar strict g = Ok (YOk (y, f)) -> plain g -> starts g start -> tokens g w -> no_empty_pair g ->
  (exists sets hits, perform_parse_cached y f (text w) = Ok ((None, sets), hits)) <-> steps (y_rules g) [start] w.
Proof.
  intros strict g y f start w H Hp Hst Hw C. rewrite <- (C75_exact strict g y f start w H Hp Hst Hw C). split.
  - intros (sets & hits & E). exists sets. now apply (cached_result strict g) in E.
  - intros (sets & E). exists sets. apply perform_same in E. exact E.
Qed.
(** The slots of an entry are at most three. *)
Lemma put_length {A} i (x : A) l : List.length (put i x l) = if i <? List.length l then List.length l else S (List.length l).
Proof.
  revert i. induction l as [|a l IH]; intro i; [reflexivity|]. cbn [put]. destruct i as [|i]; [reflexivity|]. cbn [List.length]. rewrite IH.
  change (S i <? S (List.length l)) with (i <? List.length l). now destruct (i <? List.length l).
Qed.
Definition entry_fits (e : centry) : Prop := List.length (c_results e) <= MAX_CACHED /\ c_curr e < MAX_CACHED /\ (List.length (c_results e) < MAX_CACHED -> c_curr e = List.length (c_results e)).
Theorem C76_slots : (forall set x next, entry_fits (CEntry set x next [] 0)) /\ forall e new k, entry_fits e ->
  entry_fits (save_in new k e) /\ nth_error (c_results (save_in new k e)) (c_curr e) = Some (new, k).
Proof.
  split; [intros; unfold entry_fits, MAX_CACHED; cbn; lia|].
  intros [s x n l c] new k (H1 & H2 & H3). unfold entry_fits, save_in, MAX_CACHED in *. cbn [c_results c_curr] in *.
  destruct l as [|a [|b [|d [|? l]]]]; cbn [List.length] in *; try lia.
  - assert (c = 0) by lia. subst c. cbn. repeat split; lia.
  - assert (c = 1) by lia. subst c. cbn. repeat split; lia.
  - assert (c = 2) by lia. subst c. cbn. repeat split; lia.
  - destruct c as [|[|[|c]]]; [| | |lia]; cbn; repeat split; lia.
Qed.

(** The table is used: in a list of eight elements five sets come from it. *)
Definition hits_of (g : ygrammar) (w : list bytes) : option (option nat * nat) :=
  match yaep_read_grammar false g with
  | Ok (YOk (y, f)) => match perform_parse_cached y f (text w) with Ok ((e, s), n) => Some (e, n) | _ => None end
  | _ => None
  end.
Definition elems : ygrammar := YGrammar [(B "x", 120); (B "(", 40); (B ")", 41)]%Z [(B "L", [B "V"; B "L"]); (B "L", [B "V"]); (B "V", [B "x"]); (B "V", [B "("; B "L"; B ")"])].
Example C76_ex : hits_of elems (repeat (B "x") 8) = Some (None, 5) /\ hits_of elems (repeat (B "x") 8 ++ [B ")"]) = Some (Some 8, 5) /\
  hits_of elems [B "("; B "("; B "x"; B ")"; B ")"; B "("; B "("; B "x"; B ")"; B ")"] = Some (None, 2).
Proof. repeat split; vm_compute; reflexivity. Qed.
Print Assumptions C76_same_sets.
Print Assumptions C76_ends.
Print Assumptions C76_taken_is_text.
Print Assumptions C76_exact.
Print Assumptions C76_slots.
