(** Proofs about hashmap.c and quicksort_strings.c. *)
From Coq Require Import NArith ZArith List Bool PeanoNat Lia Permutation Sorting.Sorted.
From Verif Require Import Bytes BytesFacts Containers ContainersProofs.
Import ListNotations.

Lemma beq_spec : forall a b, Bool.reflect (a = b) (beq a b).
Proof.
  intros a b. destruct (beq a b) eqn:E; constructor.
  - apply beq_eq. exact E.
  - intro H. subst. rewrite beq_refl in E. discriminate.
Qed.

(* ------------------------------------------------------------------ *)
(** * Hashmap *)

Definition idx (n : nat) (key : bytes) : nat := N.to_nat (N.modulo (hash_code key) (N.of_nat n)).

Lemma idx_lt : forall n key, 0 < n -> idx n key < n.
Proof.
  intros n key H. unfold idx.
  pose proof (N.mod_lt (hash_code key) (N.of_nat n) ltac:(lia)). lia.
Qed.

Record hm_wf (m : hashmap) (n : nat) : Prop := mk_hm_wf {
  hw_len : List.length (hm_slots m) = n;
  hw_pos : 0 < n;
  hw_idx : forall i ch k v, nth_error (hm_slots m) i = Some ch -> In (k, v) ch ->
           idx n k = i /\ v <> 0%N;
  hw_nodup : forall i ch, nth_error (hm_slots m) i = Some ch -> NoDup (map fst ch);
  hw_size : hm_size m = List.length (concat (hm_slots m)) }.

Definition hlookup (m : hashmap) (n : nat) (key : bytes) : N :=
  chain_get (nth (idx n key) (hm_slots m) []) key.

Lemma hm_index_ok : forall m n key, hm_wf m n -> hm_index m key = Done (idx n key).
Proof.
  intros m n key [Hl Hp _ _ _]. unfold hm_index. rewrite Hl. destruct n; [lia|]. reflexivity.
Qed.

Lemma nth_error_nth_ok {A} : forall (l : list A) i d, i < List.length l -> nth_error l i = Some (nth i l d).
Proof. intros. apply nth_error_nth'. exact H. Qed.

Lemma hashmap_get_ok : forall m n key, hm_wf m n -> hashmap_get m key = Done (hlookup m n key).
Proof.
  intros m n key W. unfold hashmap_get. rewrite (hm_index_ok _ _ _ W). cbn [bind].
  destruct W as [Hl Hp _ _ _]. rewrite nth_error_nth_ok with (d := []).
  - reflexivity.
  - rewrite Hl. apply idx_lt. exact Hp.
Qed.

Lemma chain_put_get : forall ch k v k',
  chain_get (fst (chain_put ch k v)) k' = if beq k k' then v else chain_get ch k'.
Proof.
  induction ch as [|[k0 v0] ch IH]; intros k v k'; cbn [chain_put chain_get].
  - reflexivity.
  - destruct (beq_spec k0 k).
    + subst. cbn [fst chain_get]. destruct (beq_spec k k'); reflexivity.
    + specialize (IH k v k'). destruct (chain_put ch k v) as [r' ad]. cbn [fst chain_get] in *.
      destruct (beq_spec k0 k').
      * subst. destruct (beq_spec k k'); [subst; congruence | reflexivity].
      * exact IH.
Qed.

Lemma chain_put_in : forall ch k v k' v',
  In (k', v') (fst (chain_put ch k v)) -> (k' = k /\ v' = v) \/ In (k', v') ch.
Proof.
  induction ch as [|[k0 v0] ch IH]; intros k v k' v' H; cbn [chain_put] in H.
  - simpl in H. destruct H as [H|[]]. injection H as <- <-. auto.
  - destruct (beq_spec k0 k).
    + subst. simpl in H. destruct H as [H|H]; [injection H as <- <-; auto | simpl; auto].
    + specialize (IH k v k' v'). destruct (chain_put ch k v) as [r' ad]. simpl in *.
      destruct H as [H|H]; [auto|]. destruct (IH H); auto.
Qed.

Lemma chain_put_keys : forall ch k v,
  map fst (fst (chain_put ch k v)) = if snd (chain_put ch k v) then map fst ch ++ [k] else map fst ch.
Proof.
  induction ch as [|[k0 v0] ch IH]; intros k v; cbn [chain_put].
  - reflexivity.
  - destruct (beq_spec k0 k).
    + subst. reflexivity.
    + specialize (IH k v). destruct (chain_put ch k v) as [r' ad]. simpl in *. rewrite IH.
      destruct ad; reflexivity.
Qed.

Lemma chain_put_added : forall ch k v, snd (chain_put ch k v) = true -> ~ In k (map fst ch).
Proof.
  induction ch as [|[k0 v0] ch IH]; intros k v; cbn [chain_put].
  - simpl. auto.
  - destruct (beq_spec k0 k).
    + simpl. discriminate.
    + specialize (IH k v). destruct (chain_put ch k v) as [r' ad]. simpl in *.
      intros H. specialize (IH H). intros [?|?]; auto.
Qed.

Lemma set_nth_ok {A} : forall (l : list A) i x, i < List.length l ->
  exists l', set_nth i x l = Some l' /\ List.length l' = List.length l /\
    (forall j, nth_error l' j = if Nat.eqb j i then Some x else nth_error l j).
Proof.
  induction l; intros i x H; [simpl in H; lia|]. destruct i; cbn [set_nth].
  - eexists; split; [reflexivity|]. split; [reflexivity|]. intros [|j]; reflexivity.
  - destruct (IHl i x) as (l' & -> & Hl & Hj); [simpl in H; lia|].
    eexists; split; [reflexivity|]. split; [simpl; lia|]. intros [|j]; [reflexivity|]. simpl. apply Hj.
Qed.

Lemma set_nth_concat {A} : forall (l : list (list A)) i x l' old,
  set_nth i x l = Some l' -> nth_error l i = Some old ->
  List.length (concat l') + List.length old = List.length (concat l) + List.length x.
Proof.
  induction l; intros i x l' old H1 H2; destruct i; simpl in *; try discriminate.
  - injection H1 as <-. injection H2 as <-. simpl. rewrite !app_length. lia.
  - destruct (set_nth i x l) eqn:E; [|discriminate]. injection H1 as <-. simpl. rewrite !app_length.
    specialize (IHl _ _ _ _ E H2). lia.
Qed.

Lemma hashmap_put_ok : forall m n k v, hm_wf m n -> v <> 0%N ->
  exists m', hashmap_put m k v = Done m' /\ hm_wf m' n /\
    (forall k', hlookup m' n k' = if beq k k' then v else hlookup m n k').
Proof.
  intros m n k v W Hv. unfold hashmap_put. destruct (N.eqb_spec v 0); [congruence|].
  rewrite (hm_index_ok _ _ _ W). cbn [bind]. destruct W as [Hl Hp Hi Hn Hs].
  pose proof (idx_lt n k Hp) as Hlt.
  rewrite nth_error_nth_ok with (d := []) by lia.
  set (ch := nth (idx n k) (hm_slots m) []).
  assert (Hch : nth_error (hm_slots m) (idx n k) = Some ch) by (apply nth_error_nth_ok; lia).
  pose proof (chain_put_get ch k v) as Hg. pose proof (chain_put_in ch k v) as Hin.
  pose proof (chain_put_keys ch k v) as Hk. pose proof (chain_put_added ch k v) as Ha.
  destruct (chain_put ch k v) as [ch' ad]. cbn [fst snd] in *.
  destruct (set_nth_ok (hm_slots m) (idx n k) ch') as (sl & Es & Hsl & Hnth); [lia|].
  rewrite Es. eexists; split; [reflexivity|]. split.
  - constructor; cbn [hm_slots hm_size].
    + lia.
    + exact Hp.
    + intros i c k0 v0 H1 H2. rewrite Hnth in H1. destruct (Nat.eqb_spec i (idx n k)).
      * injection H1 as <-. apply Hin in H2. destruct H2 as [[-> ->]|H2].
        -- auto.
        -- subst i. eapply Hi; eauto.
      * eapply Hi; eauto.
    + intros i c H1. rewrite Hnth in H1. destruct (Nat.eqb_spec i (idx n k)).
      * injection H1 as <-. rewrite Hk. specialize (Hn _ _ Hch). destruct ad; [|exact Hn].
        apply (Permutation_NoDup (l := k :: map fst ch)).
        -- apply Permutation_cons_append.
        -- constructor; auto.
      * eapply Hn; eauto.
    + pose proof (set_nth_concat _ _ _ _ _ Es Hch) as Hc.
      apply (f_equal (@List.length bytes)) in Hk. rewrite map_length in Hk.
      destruct ad; rewrite ?app_length, map_length in Hk; simpl in Hk; lia.
  - intros k'. unfold hlookup. cbn [hm_slots].
    assert (Hlt' : idx n k' < n) by (apply idx_lt; exact Hp).
    assert (Hx : nth_error sl (idx n k') = Some (nth (idx n k') sl [])) by (apply nth_error_nth_ok; lia).
    rewrite Hnth in Hx. destruct (Nat.eqb_spec (idx n k') (idx n k)) as [E|E].
    + injection Hx as <-. rewrite Hg. unfold ch. rewrite E. reflexivity.
    + assert (Hy : nth_error (hm_slots m) (idx n k') = Some (nth (idx n k') (hm_slots m) [])) by (apply nth_error_nth_ok; lia).
      rewrite Hy in Hx. injection Hx as <-.
      destruct (beq_spec k k'); [subst; congruence|reflexivity].
Qed.

Lemma last_put_lookup : forall puts m n, hm_wf m n -> Forall (fun p => snd p <> 0%N) puts ->
  exists m', run_puts m puts = Done m' /\ hm_wf m' n /\
    (forall k, hlookup m' n k = let l := last_put puts k in if N.eqb l 0 then hlookup m n k else l).
Proof.
  induction puts as [|[k v] puts IH]; intros m n W F; simpl.
  - eexists; split; [reflexivity|]. auto.
  - inversion F; subst. simpl in *.
    destruct (hashmap_put_ok m n k v W) as (m1 & E & W1 & L1); [assumption|]. rewrite E. cbn [bind].
    destruct (IH m1 n W1) as (m2 & E2 & W2 & L2); [assumption|].
    eexists; split; [exact E2|]. split; [exact W2|]. intros k0. rewrite L2. cbv zeta.
    destruct (N.eqb_spec (last_put puts k0) 0).
    + rewrite L1. destruct (beq k k0); [|reflexivity]. destruct (N.eqb_spec v 0); congruence.
    + destruct (N.eqb_spec (last_put puts k0) 0); congruence.
Qed.

Lemma create_wf : forall n, 0 < n -> hm_wf (hashmap_create n) n.
Proof.
  intros n H. unfold hashmap_create. constructor; cbn [hm_slots hm_size].
  - apply repeat_length.
  - exact H.
  - intros i ch k v H1 H2. apply nth_error_In in H1. apply repeat_spec in H1. subst. destruct H2.
  - intros i ch H1. apply nth_error_In in H1. apply repeat_spec in H1. subst. constructor.
  - clear. induction n; simpl; auto.
Qed.

Lemma create_lookup : forall n k, hlookup (hashmap_create n) n k = 0%N.
Proof.
  intros. unfold hlookup, hashmap_create. cbn [hm_slots]. rewrite nth_repeat. reflexivity.
Qed.

Lemma skipn_add {A} : forall a b (l : list A), skipn a (skipn b l) = skipn (a + b) l.
Proof.
  intros a b. induction b; intros l; [rewrite Nat.add_0_r; reflexivity|].
  rewrite Nat.add_succ_r. destruct l; [rewrite !skipn_nil; reflexivity|]. apply IHb.
Qed.

(** Iteration visits the concatenation of the chains. *)
Lemma next_slot_spec : forall slots off,
  match next_slot slots off with
  | None => concat slots = []
  | Some (off', ch) => ch <> [] /\ off < off' /\
      concat slots = ch ++ concat (skipn (off' - off) slots)
  end.
Proof.
  induction slots as [|ch slots IH]; intros off; simpl.
  - reflexivity.
  - destruct ch as [|e ch].
    + specialize (IH (S off)). destruct (next_slot slots (S off)) as [[off' ch']|].
      * destruct IH as (Hne & Hlt & Hc). split; [exact Hne|]. split; [lia|]. simpl. rewrite Hc.
        replace (off' - off) with (S (off' - S off)) by lia. reflexivity.
      * exact IH.
    + split; [discriminate|]. split; [lia|]. replace (S off - off) with 1 by lia. reflexivity.
Qed.

Definition it_remaining (m : hashmap) (i : hm_iter) : list (bytes * N) :=
  tl (it_node i) ++ concat (skipn (it_entered i) (hm_slots m)).

Lemma next_kv_spec : forall m i,
  match hashmap_next_key_value m i with
  | None => it_remaining m i = []
  | Some (k, v, i') => it_remaining m i = (k, v) :: it_remaining m i'
  end.
Proof.
  intros m i. unfold hashmap_next_key_value, it_remaining.
  destruct (tl (it_node i)) as [|[k v] r] eqn:Et.
  - pose proof (next_slot_spec (skipn (it_entered i) (hm_slots m)) (it_entered i)) as H.
    destruct (next_slot _ _) as [[off ch]|].
    + destruct H as (Hne & Hlt & Hc). destruct ch as [|[k v] r]; [congruence|].
      cbn [it_node it_entered tl app]. rewrite Hc. cbn [app]. f_equal. f_equal. f_equal.
      rewrite skipn_add. f_equal. lia.
    + exact H.
  - cbn [it_node it_entered tl app]. reflexivity.
Qed.

Lemma iterate_all_spec : forall m l i fuel, it_remaining m i = l -> List.length l < fuel ->
  iterate_all fuel m i = Some l.
Proof.
  intros m l. induction l as [|e l IH]; intros i fuel H Hf; (destruct fuel; [lia|]); cbn [iterate_all];
    pose proof (next_kv_spec m i) as Hn; destruct (hashmap_next_key_value m i) as [[[k v] i']|];
    rewrite H in Hn; try discriminate; [reflexivity|].
  injection Hn as -> Hn. rewrite (IH i' fuel); auto. simpl in Hf. lia.
Qed.

Lemma iterate_start : forall m, it_remaining m hashmap_iterate = concat (hm_slots m).
Proof. reflexivity. Qed.

Lemma chain_get_in : forall ch k v, NoDup (map fst ch) -> v <> 0%N ->
  (In (k, v) ch <-> chain_get ch k = v).
Proof.
  induction ch as [|[k0 v0] ch IH]; intros k v Hn Hv; simpl.
  - split; [tauto|congruence].
  - inversion Hn; subst. destruct (beq_spec k0 k).
    + subst. split.
      * intros [E|E]; [injection E; auto|]. exfalso. apply H1. apply in_map_iff. exists (k, v). auto.
      * intros ->. auto.
    + rewrite <- IH by assumption. split.
      * intros [E|E]; [injection E; congruence|auto].
      * auto.
Qed.

Lemma NoDup_concat_idx : forall (slots : list (list (bytes * N))) (f : bytes -> nat) base,
  (forall i ch, nth_error slots i = Some ch -> NoDup (map fst ch)) ->
  (forall i ch k v, nth_error slots i = Some ch -> In (k, v) ch -> f k = base + i) ->
  NoDup (map fst (concat slots)).
Proof.
  induction slots as [|ch slots IH]; intros f base H1 H2; simpl; [constructor|].
  rewrite map_app.
  assert (Hd : NoDup (map fst (concat slots))).
  { apply (IH f (S base)).
    - intros i c Hc. apply (H1 (S i) c Hc).
    - intros i c k v Hc Hi. rewrite (H2 (S i) c k v Hc Hi). lia. }
  pose proof (H1 0 ch eq_refl) as Hc.
  assert (Hdis : forall k, In k (map fst ch) -> ~ In k (map fst (concat slots))).
  { intros k Ha Hb. apply in_map_iff in Ha. destruct Ha as ([k1 v1] & <- & Ha).
    apply in_map_iff in Hb. destruct Hb as ([k2 v2] & E & Hb). simpl in E. subst k2.
    apply in_concat in Hb. destruct Hb as (c & Hc1 & Hc2). apply In_nth_error in Hc1. destruct Hc1 as (i & Hi).
    pose proof (H2 0 ch k1 v1 eq_refl Ha). pose proof (H2 (S i) c k1 v2 Hi Hc2). simpl in *. lia. }
  clear - Hd Hc Hdis. induction (map fst ch) as [|x l IH]; simpl; [exact Hd|].
  inversion Hc; subst. constructor.
  - rewrite in_app_iff. intros [?|?]; [tauto|]. apply (Hdis x); simpl; auto.
  - apply IH; auto. intros k Hk. apply Hdis. simpl; auto.
Qed.

Lemma hm_wf_entries : forall m n, hm_wf m n ->
  NoDup (map fst (concat (hm_slots m))) /\
  (forall k v, In (k, v) (concat (hm_slots m)) <-> v <> 0%N /\ hlookup m n k = v).
Proof.
  intros m n [Hl Hp Hi Hn Hs]. split.
  - apply (NoDup_concat_idx _ (idx n) 0); auto. intros. simpl. eapply Hi; eauto.
  - intros k v. unfold hlookup.
    assert (Hx : nth_error (hm_slots m) (idx n k) = Some (nth (idx n k) (hm_slots m) [])).
    { apply nth_error_nth_ok. rewrite Hl. apply idx_lt. exact Hp. }
    split.
    + intros H. apply in_concat in H. destruct H as (c & Hc1 & Hc2).
      apply In_nth_error in Hc1. destruct Hc1 as (i & Hi1).
      destruct (Hi _ _ _ _ Hi1 Hc2) as [E Hv]. split; [exact Hv|].
      rewrite E, Hi1 in Hx. injection Hx as Hx. rewrite E, <- Hx.
      apply chain_get_in; auto. eapply Hn; eauto.
    + intros [Hv Hg]. apply chain_get_in in Hg; [| eapply Hn; eauto | exact Hv].
      apply in_concat. eexists. split; [|exact Hg]. eapply nth_error_In; eauto.
Qed.

Lemma hashmap_map_spec : forall n puts, 0 < n -> Forall (fun p => snd p <> 0%N) puts ->
  exists m, run_puts (hashmap_create n) puts = Done m /\
    forall k, hashmap_get m k = Done (last_put puts k).
Proof.
  intros n puts Hn F. destruct (last_put_lookup puts _ n (create_wf n Hn) F) as (m & E & W & L).
  exists m. split; [exact E|]. intros k. rewrite (hashmap_get_ok _ _ _ W), L, create_lookup. cbv zeta.
  destruct (N.eqb_spec (last_put puts k) 0) as [->|]; reflexivity.
Qed.

Lemma hashmap_iter_spec : forall n puts, 0 < n -> Forall (fun p => snd p <> 0%N) puts ->
  exists m l, run_puts (hashmap_create n) puts = Done m /\
    (forall fuel, List.length l < fuel -> iterate_all fuel m hashmap_iterate = Some l) /\
    hashmap_size m = List.length l /\
    NoDup (map fst l) /\
    (forall k v, In (k, v) l <-> v <> 0%N /\ last_put puts k = v).
Proof.
  intros n puts Hn F. destruct (last_put_lookup puts _ n (create_wf n Hn) F) as (m & E & W & L).
  exists m, (concat (hm_slots m)). split; [exact E|]. split; [|split; [|split]].
  - intros fuel Hf. apply iterate_all_spec; auto.
  - destruct W; assumption.
  - eapply hm_wf_entries; eauto.
  - intros k v. destruct (hm_wf_entries _ _ W) as [_ H]. rewrite H, L, create_lookup. cbv zeta.
    destruct (N.eqb_spec (last_put puts k) 0) as [->|]; reflexivity.
Qed.

(* ------------------------------------------------------------------ *)
(** * Quicksort *)

Lemma strlt_irrefl : forall a, strlt a a = false.
Proof. induction a; simpl; auto. rewrite N.ltb_irrefl. exact IHa. Qed.

Lemma strlt_trans : forall a b c, strlt a b = true -> strlt b c = true -> strlt a c = true.
Proof.
  induction a; intros [|b0 b] [|c0 c]; simpl; try discriminate; auto.
  destruct (N.ltb_spec a b0), (N.ltb_spec b0 a), (N.ltb_spec b0 c0), (N.ltb_spec c0 b0),
    (N.ltb_spec a c0), (N.ltb_spec c0 a); try discriminate; try lia; auto.
  apply IHa.
Qed.

(** strcmp orders totally: never both below. *)
Lemma strlt_asym : forall a b, strlt a b = true -> strlt b a = false.
Proof.
  intros a b H. destruct (strlt b a) eqn:E; auto.
  pose proof (strlt_trans _ _ _ H E) as T. rewrite strlt_irrefl in T. discriminate.
Qed.

Lemma strlt_total : forall a b, strlt a b = false -> strlt b a = false -> a = b.
Proof.
  induction a; intros [|b0 b]; simpl; try discriminate; auto.
  destruct (N.ltb_spec a b0), (N.ltb_spec b0 a); try discriminate; try lia; auto.
  intros. f_equal; [lia|auto].
Qed.

Lemma strle_trans : forall a b c, strle a b -> strle b c -> strle a c.
Proof.
  unfold strle. intros a b c H1 H2. destruct (strlt c a) eqn:E; auto.
  destruct (strlt a b) eqn:E1.
  - rewrite (strlt_trans _ _ _ E E1) in H2. discriminate.
  - pose proof (strlt_total _ _ E1 H1). subst. congruence.
Qed.

Lemma swap_same : forall A x B, swap (A ++ x :: B) (List.length A) (List.length A) = Some (A ++ x :: B).
Proof.
  intros. unfold swap. rewrite nth_error_app2, Nat.sub_diag by lia. cbn [nth_error].
  rewrite !set_nth_app. reflexivity.
Qed.

Lemma app_assoc_cons {A} : forall (L : list A) x M y R, L ++ x :: M ++ y :: R = (L ++ x :: M) ++ y :: R.
Proof. intros. rewrite <- app_assoc. reflexivity. Qed.

Lemma swap_two : forall L x M y R,
  swap (L ++ x :: M ++ y :: R) (List.length L) (List.length (L ++ x :: M)) = Some (L ++ y :: M ++ x :: R) /\
  swap (L ++ x :: M ++ y :: R) (List.length (L ++ x :: M)) (List.length L) = Some (L ++ y :: M ++ x :: R).
Proof.
  intros L x M y R.
  assert (H1 : nth_error (L ++ x :: M ++ y :: R) (List.length L) = Some x).
  { rewrite nth_error_app2, Nat.sub_diag by lia. reflexivity. }
  assert (H2 : nth_error (L ++ x :: M ++ y :: R) (List.length (L ++ x :: M)) = Some y).
  { rewrite app_assoc_cons. rewrite nth_error_app2, Nat.sub_diag by lia. reflexivity. }
  assert (H3 : List.length (L ++ x :: M) = List.length (L ++ y :: M)) by (rewrite !app_length; reflexivity).
  unfold swap. rewrite H1, H2. split.
  - rewrite set_nth_app. rewrite H3, app_assoc_cons, set_nth_app, <- app_assoc_cons. reflexivity.
  - rewrite app_assoc_cons, set_nth_app, <- app_assoc_cons, set_nth_app. reflexivity.
Qed.

Lemma partition_loop_step : forall t i piv len arr a p,
  nth_error arr i = Some a -> nth_error arr (len - 1) = Some p ->
  partition_loop (S t) i piv len arr =
  if strlt a p then
    match swap arr i piv with
    | Some arr' => partition_loop t (S i) (S piv) len arr'
    | None => None
    end
  else partition_loop t (S i) piv len arr.
Proof. intros. cbn [partition_loop]. rewrite H, H0. reflexivity. Qed.

Lemma partition_loop_spec : forall R L M p,
  Forall (fun x => strlt x p = true) L -> Forall (fun x => strlt x p = false) M ->
  let arr := L ++ M ++ R ++ [p] in
  exists L' M', partition_loop (S (List.length R)) (List.length L + List.length M) (List.length L)
                               (List.length arr) arr = Some (L' ++ M' ++ [p], List.length L') /\
    Permutation (L ++ M ++ R) (L' ++ M') /\
    Forall (fun x => strlt x p = true) L' /\ Forall (fun x => strlt x p = false) M'.
Proof.
  induction R as [|x R IH]; intros L M p HL HM arr.
  - cbn [List.length partition_loop]. unfold arr. cbn [app].
    assert (E : L ++ M ++ [p] = (L ++ M) ++ [p]) by (rewrite app_assoc; reflexivity).
    replace (nth_error (L ++ M ++ [p]) (List.length L + List.length M)) with (Some p).
    2:{ rewrite E, nth_error_app2; rewrite app_length; [|lia]. rewrite Nat.sub_diag. reflexivity. }
    replace (List.length (L ++ M ++ [p]) - 1) with (List.length (L ++ M)).
    2:{ rewrite !app_length. simpl. lia. }
    replace (nth_error (L ++ M ++ [p]) (List.length (L ++ M))) with (Some p).
    2:{ rewrite E, nth_error_app2 by lia. rewrite Nat.sub_diag. reflexivity. }
    rewrite strlt_irrefl. exists L, M. rewrite app_nil_r. auto.
  - set (n := List.length arr).
    assert (Hi : nth_error arr (List.length L + List.length M) = Some x).
    { unfold arr. rewrite app_assoc, nth_error_app2; rewrite app_length; [|lia].
      rewrite Nat.sub_diag. reflexivity. }
    assert (Hp : nth_error arr (n - 1) = Some p).
    { unfold n, arr. replace (L ++ M ++ (x :: R) ++ [p]) with ((L ++ M ++ x :: R) ++ [p]).
      2:{ rewrite <- !app_assoc. reflexivity. }
      rewrite nth_error_app2; rewrite (app_length _ [p]); simpl; [|lia].
      replace (_ - _) with 0 by lia. reflexivity. }
    change (List.length (x :: R)) with (S (List.length R)).
    rewrite (partition_loop_step _ _ _ _ _ _ _ Hi Hp).
    destruct (strlt x p) eqn:Ex.
    + destruct M as [|m M].
      * cbn [List.length]. rewrite Nat.add_0_r. unfold arr. cbn [app].
        rewrite swap_same.
        destruct (IH (L ++ [x]) [] p) as (L' & M' & E & P & H1 & H2).
        { apply Forall_app; split; auto. } { constructor. }
        cbn [app] in E. rewrite <- !app_assoc in E. cbn [app] in E.
        rewrite !app_length in E. cbn [List.length] in E. rewrite Nat.add_0_r in E.
        unfold n, arr. cbn [app]. rewrite !app_length. cbn [List.length].
        rewrite !app_length in *. cbn [List.length] in *.
        replace (List.length L + 1) with (S (List.length L)) in E by lia.
        rewrite E. exists L', M'. split; [reflexivity|]. split; [|auto].
        cbn [app] in *. rewrite <- app_assoc in P. exact P.
      * pose proof (Forall_inv HM) as Hm. pose proof (Forall_inv_tail HM) as HM'.
        assert (Earr : arr = L ++ m :: M ++ x :: (R ++ [p])).
        { unfold arr. rewrite <- ?app_assoc. cbn [app]. reflexivity. }
        replace (List.length L + List.length (m :: M)) with (List.length (L ++ m :: M)) by (rewrite app_length; reflexivity).
        rewrite Earr. rewrite (proj2 (swap_two L m M x (R ++ [p]))).
        destruct (IH (L ++ [x]) (M ++ [m]) p) as (L' & M' & E & P & H1 & H2).
        { apply Forall_app; split; auto. } { apply Forall_app; split; auto. }
        replace ((L ++ [x]) ++ (M ++ [m]) ++ R ++ [p]) with (L ++ x :: M ++ m :: R ++ [p]) in E.
        2:{ rewrite <- !app_assoc. reflexivity. }
        replace (List.length (L ++ x :: M ++ m :: R ++ [p])) with n in E.
        2:{ unfold n. rewrite Earr. rewrite !app_length. cbn [List.length]. rewrite !app_length. reflexivity. }
        replace (S (List.length (L ++ m :: M))) with (List.length (L ++ [x]) + List.length (M ++ [m])).
        2:{ rewrite !app_length. cbn [List.length]. lia. }
        replace (S (List.length L)) with (List.length (L ++ [x])) by (rewrite app_length; simpl; lia).
        rewrite E. exists L', M'. split; [reflexivity|]. split; [|auto].
        rewrite <- P. rewrite <- !app_assoc. apply Permutation_app_head. cbn [app].
        rewrite <- !Permutation_middle. apply perm_swap.
    + destruct (IH L (M ++ [x]) p) as (L' & M' & E & P & H1 & H2); auto.
      { apply Forall_app; split; auto. }
      replace (L ++ (M ++ [x]) ++ R ++ [p]) with arr in E.
      2:{ unfold arr. rewrite <- !app_assoc. reflexivity. }
      replace (List.length L + List.length (M ++ [x])) with (S (List.length L + List.length M)) in E.
      2:{ rewrite app_length; simpl; lia. }
      fold n in E. rewrite E. exists L', M'. split; [reflexivity|]. split; [|auto].
      rewrite <- P, <- app_assoc. reflexivity.
Qed.

Lemma StronglySorted_app {A} (R : A -> A -> Prop) : forall l1 l2,
  StronglySorted R l1 -> StronglySorted R l2 ->
  (forall x y, In x l1 -> In y l2 -> R x y) -> StronglySorted R (l1 ++ l2).
Proof.
  induction l1; intros l2 H1 H2 H; simpl; auto. inversion H1; subst. constructor.
  - apply IHl1; auto. intros; apply H; simpl; auto.
  - apply Forall_app. split; auto. apply Forall_forall. intros; apply H; simpl; auto.
Qed.

Lemma quicksort_spec : forall fuel arr, List.length arr < fuel ->
  exists r, quicksort_strings fuel arr = Some r /\ Permutation arr r /\ StronglySorted strle r.
Proof.
  induction fuel as [|f IH]; intros arr Hlt; [lia|]. cbn [quicksort_strings]. cbv zeta.
  destruct (Nat.leb_spec (List.length arr) 1) as [H1|H1].
  - exists arr. split; [reflexivity|]. split; [reflexivity|].
    destruct arr as [|a [|b arr]]; simpl in *; try lia; repeat constructor.
  - destruct (exists_last (l := arr)) as [R [p E]]; [destruct arr; simpl in *; [lia|discriminate]|].
    destruct (partition_loop_spec R [] [] p) as (L & M & Ep & P & HL & HM); try constructor.
    cbn [app List.length Nat.add] in Ep, P. rewrite <- E in Ep.
    replace (S (List.length R)) with (List.length arr) in Ep by (rewrite E, app_length; simpl; lia).
    rewrite Ep. pose proof (Permutation_length P) as Hlen.
    assert (Hs : exists M', swap (L ++ M ++ [p]) (List.length L) (List.length arr - 1) = Some (L ++ p :: M')
                            /\ Permutation M M').
    { replace (List.length arr - 1) with (List.length (L ++ M)).
      2:{ rewrite <- Hlen, E, app_length. simpl. lia. }
      destruct M as [|m M].
      - rewrite app_nil_r. exists []. split; [apply swap_same|constructor].
      - exists (M ++ [m]). split; [|apply Permutation_cons_append].
        change (L ++ (m :: M) ++ [p]) with (L ++ m :: M ++ [p]). apply (proj1 (swap_two L m M p [])). }
    destruct Hs as (M' & Es & PM). rewrite Es.
    assert (Ef : firstn (List.length L) (L ++ p :: M') = L).
    { rewrite firstn_app, firstn_all, Nat.sub_diag. simpl. apply app_nil_r. }
    assert (Esk : skipn (S (List.length L)) (L ++ p :: M') = M').
    { replace (S (List.length L)) with (List.length (L ++ [p])) by (rewrite app_length; simpl; lia).
      replace (L ++ p :: M') with ((L ++ [p]) ++ M') by (rewrite <- app_assoc; reflexivity).
      rewrite skipn_app, skipn_all, Nat.sub_diag. reflexivity. }
    rewrite Ef, Esk. rewrite nth_error_app2, Nat.sub_diag by lia. cbn [nth_error].
    rewrite app_length in Hlen. rewrite E, app_length in Hlt. simpl in Hlt.
    pose proof (Permutation_length PM) as HlenM.
    destruct (IH L) as (l & -> & Pl & Sl); [lia|].
    destruct (IH M') as (r & -> & Pr & Sr); [lia|].
    exists (l ++ p :: r). split; [reflexivity|]. split.
    + rewrite E, P. rewrite <- app_assoc, Pl, PM, Pr. apply Permutation_app_head.
      symmetry. apply Permutation_cons_append.
    + assert (HLl : forall x, In x l -> strlt x p = true).
      { intros x Hx. rewrite Forall_forall in HL. apply HL. eapply Permutation_in; [symmetry; exact Pl|exact Hx]. }
      assert (HMr : forall x, In x r -> strlt x p = false).
      { intros x Hx. rewrite Forall_forall in HM. apply HM.
        eapply Permutation_in; [symmetry; exact PM|]. eapply Permutation_in; [symmetry; exact Pr|exact Hx]. }
      apply StronglySorted_app; auto.
      * constructor; auto. apply Forall_forall. intros x Hx. apply HMr. exact Hx.
      * intros x y Hx [<-|Hy].
        -- apply strlt_asym. apply HLl. exact Hx.
        -- apply strle_trans with p; [apply strlt_asym, HLl, Hx | apply HMr; exact Hy].
Qed.
