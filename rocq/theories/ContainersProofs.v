(** Proofs about the container modules. *)
From Coq Require Import NArith ZArith List Bool PeanoNat Lia Permutation Sorting.Sorted.
From Verif Require Import Bytes BytesFacts Containers.
Import ListNotations.

(* ------------------------------------------------------------------ *)
(** * Specifications *)

(** A history of calls on a stack and what the caller sees. *)
Inductive stack_op := SPush (d : N) | SPop | SRock | SSize.
Inductive obs := OData (d : N) | OSize (n : nat) | OUnit | OAbort | OBad.

(** The implementation run on a history; a failed assert ends it. *)
Fixpoint run_stack (s : stack) (ops : list stack_op) : list obs :=
  match ops with
  | [] => []
  | SPush d :: r => OUnit :: run_stack (stack_push s d) r
  | SPop :: r =>
    match stack_pop s with
    | Done (d, s') => OData d :: run_stack s' r
    | Abort => [OAbort]
    | Bad => [OBad]
    end
  | SRock :: r =>
    match stack_rock s with
    | Done (d, s') => OData d :: run_stack s' r
    | Abort => [OAbort]
    | Bad => [OBad]
    end
  | SSize :: r => OSize (s_size s) :: run_stack s r
  end.

(** What a stack should do: a list with its top at the end; pop takes the
    last pushed, rock takes the first pushed of those still there. *)
Fixpoint spec_stack (l : list N) (ops : list stack_op) : list obs :=
  match ops with
  | [] => []
  | SPush d :: r => OUnit :: spec_stack (l ++ [d]) r
  | SPop :: r =>
    match l with
    | [] => [OAbort]
    | _ => OData (last l 0%N) :: spec_stack (removelast l) r
    end
  | SRock :: r =>
    match l with
    | [] => [OAbort]
    | d :: l' => OData d :: spec_stack l' r
    end
  | SSize :: r => OSize (List.length l) :: spec_stack l r
  end.

(** Vectors: a list that grows at the end. *)
Inductive vec_op := VPush (d : N) | VPop | VAt (i : nat) | VSize.
Inductive vobs := VOData (d : option N) | VOSize (n : nat) | VOUnit | VOAbort | VOBad.

Fixpoint run_vector (v : vector) (ops : list vec_op) : list vobs :=
  match ops with
  | [] => []
  | VPush d :: r =>
    match vector_push_back v d with
    | Done v' => VOUnit :: run_vector v' r
    | Abort => [VOAbort]
    | Bad => [VOBad]
    end
  | VPop :: r =>
    match vector_pop_back v with
    | Done (d, v') => VOData d :: run_vector v' r
    | Abort => [VOAbort]
    | Bad => [VOBad]
    end
  | VAt i :: r =>
    match vector_element_at v i with
    | Done d => VOData d :: run_vector v r
    | Abort => [VOAbort]
    | Bad => [VOBad]
    end
  | VSize :: r => VOSize (v_size v) :: run_vector v r
  end.

Fixpoint spec_vector (l : list N) (ops : list vec_op) : list vobs :=
  match ops with
  | [] => []
  | VPush d :: r => VOUnit :: spec_vector (l ++ [d]) r
  | VPop :: r =>
    match l with
    | [] => [VOAbort]
    | _ => VOData (Some (last l 0%N)) :: spec_vector (removelast l) r
    end
  | VAt i :: r =>
    match nth_error l i with
    | Some d => VOData (Some d) :: spec_vector l r
    | None => [VOAbort]
    end
  | VSize :: r => VOSize (List.length l) :: spec_vector l r
  end.

(** Memory buffers: a growing byte string. *)
Inductive mb_op :=
| MRegion (s : bytes) | MString (s : bytes) | MChar (c : N) | MNull | MDropNull.

Definition mb_step (mb : membuffer) (o : mb_op) : res membuffer :=
  match o with
  | MRegion s => membuffer_append_region mb s
  | MString s => membuffer_append mb s
  | MChar c => membuffer_append_char mb c
  | MNull => membuffer_append_null mb
  | MDropNull => membuffer_drop_last_null mb
  end.
Fixpoint run_mb (mb : membuffer) (ops : list mb_op) : res membuffer :=
  match ops with
  | [] => Done mb
  | o :: r => bind (mb_step mb o) (fun mb' => run_mb mb' r)
  end.

Definition spec_mb_step (s : bytes) (o : mb_op) : bytes :=
  match o with
  | MRegion t | MString t => s ++ t
  | MChar c => s ++ [c]
  | MNull => s ++ [0%N]
  | MDropNull => match s with
                 | [] => []
                 | _ => if N.eqb (last s 1%N) 0 then removelast s else s
                 end
  end.
Definition spec_mb (s : bytes) (ops : list mb_op) : bytes := fold_left spec_mb_step ops s.

(** Hash maps: a finite map given by the history of puts, last put wins. *)
Fixpoint last_put (puts : list (bytes * N)) (key : bytes) : N :=
  match puts with
  | [] => 0%N
  | (k, v) :: r =>
    let later := last_put r key in
    if N.eqb later 0 then (if beq k key then v else 0%N) else later
  end.
Fixpoint run_puts (m : hashmap) (puts : list (bytes * N)) : res hashmap :=
  match puts with
  | [] => Done m
  | (k, v) :: r => bind (hashmap_put m k v) (fun m' => run_puts m' r)
  end.

(** Sorted by strcmp: no later string compares below an earlier one. *)
Definition strle (a b : bytes) : Prop := strlt b a = false.

(* ------------------------------------------------------------------ *)
(** * Stack proofs *)

Inductive linked (h : nat -> option cell) : option nat -> list nat -> list N -> Prop :=
| linked_nil : linked h None [] []
| linked_cons : forall a b addrs x xs,
    h a = Some (mkcell x b) -> linked h b addrs xs -> linked h (Some a) (a :: addrs) (x :: xs).

Inductive stack_repr (s : stack) (l : list N) : Prop :=
| mk_stack_repr : forall addrs,
    linked (s_heap s) (s_top s) addrs l -> NoDup addrs ->
    Forall (fun a => a < s_next s) addrs ->
    (addrs <> [] -> s_bottom s = Some (last addrs 0)) ->
    s_size s = List.length l -> stack_repr s l.

Lemma linked_upd_notin : forall h p addrs l a v,
  linked h p addrs l -> ~ In a addrs -> linked (upd h a v) p addrs l.
Proof.
  induction 1; intros Hn; econstructor.
  - unfold upd. destruct (Nat.eqb_spec a0 a); [subst; simpl in Hn; tauto | eassumption].
  - apply IHlinked. simpl in Hn; tauto.
Qed.

Lemma linked_cons_inv : forall h p a addrs l, linked h p (a :: addrs) l ->
  exists b x xs, p = Some a /\ l = x :: xs /\ h a = Some (mkcell x b) /\ linked h b addrs xs.
Proof. intros h p a addrs l H. inversion H; subst. eauto 10. Qed.

Lemma linked_length : forall h p addrs l, linked h p addrs l -> List.length addrs = List.length l.
Proof. induction 1; simpl; congruence. Qed.

Lemma Forall_lt_notin : forall n l, Forall (fun a => a < n) l -> ~ In n l.
Proof.
  intros n l H Hin. rewrite Forall_forall in H. specialize (H _ Hin). lia.
Qed.

Lemma stack_push_repr : forall s l d, stack_repr s l -> stack_repr (stack_push s d) (d :: l).
Proof.
  intros s l d [addrs Hl Hnd Hf Hb Hs]. unfold stack_push.
  pose proof (Forall_lt_notin _ _ Hf) as Hnin.
  destruct (s_top s) as [t|] eqn:Ht; inversion Hl; subst.
  - apply (mk_stack_repr _ _ (s_next s :: t :: addrs0)); simpl; auto.
    + econstructor; [unfold upd; rewrite Nat.eqb_refl; reflexivity |].
      apply linked_upd_notin; auto.
    + constructor; auto.
    + constructor; [lia|]. eapply Forall_impl; [|exact Hf]. simpl; intros; lia.
    + intros _. apply Hb. discriminate.
  - apply (mk_stack_repr _ _ [s_next s]); simpl; auto.
    + econstructor; [unfold upd; rewrite Nat.eqb_refl; reflexivity | constructor].
    + constructor; [tauto | constructor].
Qed.

Lemma stack_pop_repr : forall s x l, stack_repr s (x :: l) ->
  exists s', stack_pop s = Done (x, s') /\ stack_repr s' l.
Proof.
  intros s x l [addrs Hl Hnd Hf Hb Hs]. unfold stack_pop.
  destruct (s_top s) as [t|] eqn:Ht; inversion Hl; subst.
  match goal with H : s_heap s t = _ |- _ => rewrite H end.
  eexists; split; [reflexivity|].
  inversion Hnd; subst. inversion Hf; subst.
  apply (mk_stack_repr _ _ addrs0); simpl; auto.
  - apply linked_upd_notin; auto.
  - intros Hne. rewrite Hb by discriminate. destruct addrs0; [congruence | reflexivity].
  - rewrite Hs. reflexivity.
Qed.

Lemma stack_pop_empty : forall s, stack_repr s [] -> stack_pop s = Abort.
Proof.
  intros s [addrs Hl _ _ _ _]. unfold stack_pop. destruct (s_top s); inversion Hl. reflexivity.
Qed.

Lemma last_snoc {A} : forall (l : list A) x d, last (l ++ [x]) d = x.
Proof. induction l; simpl; auto. intros. destruct (l ++ [x]) eqn:E; [destruct l; discriminate|]. rewrite <- E. auto. Qed.

(** find_element_above finds the last but one address. *)
Lemma find_above_spec : forall h addrs p l a b fuel,
  linked h p (addrs ++ [a; b]) l -> NoDup (addrs ++ [a; b]) ->
  List.length (addrs ++ [a; b]) <= fuel ->
  find_element_above fuel h p b = Done (Some a).
Proof.
  induction addrs as [|a1 addrs IH]; intros p l a b fuel Hl Hnd Hlen; cbn [app] in *.
  - destruct fuel; [simpl in Hlen; lia|].
    apply linked_cons_inv in Hl. destruct Hl as (b1 & x & xs & -> & -> & Ha & Hl).
    apply linked_cons_inv in Hl. destruct Hl as (b2 & y & ys & -> & -> & Hb & Hl).
    simpl. rewrite Ha. simpl. rewrite Nat.eqb_refl. reflexivity.
  - destruct fuel; [simpl in Hlen; lia|].
    apply linked_cons_inv in Hl. destruct Hl as (b1 & x & xs & -> & -> & Ha & Hl).
    simpl. rewrite Ha. simpl.
    inversion Hnd as [|? ? Hni Hnd']; subst.
    destruct b1 as [q|]; [|inversion Hl; destruct addrs; discriminate].
    destruct (Nat.eqb_spec q b) as [->|Hne].
    + exfalso. destruct addrs as [|c addrs]; cbn [app] in *.
      * apply linked_cons_inv in Hl. destruct Hl as (? & ? & ? & E & _). injection E as ->.
        inversion Hnd'; subst. simpl in *; tauto.
      * apply linked_cons_inv in Hl. destruct Hl as (? & ? & ? & E & _). injection E as ->.
        inversion Hnd'; subst. apply H1. rewrite in_app_iff. simpl; tauto.
    + eapply IH; eauto. simpl in Hlen. lia.
Qed.

Lemma linked_app_inv : forall h addrs p l a b,
  linked h p (addrs ++ [a; b]) l ->
  exists ca cb, h a = Some (mkcell ca (Some b)) /\ h b = Some (mkcell cb None)
                /\ exists l', l = l' ++ [ca; cb].
Proof.
  induction addrs as [|a1 addrs IH]; intros p l a b Hl; cbn [app] in *.
  - apply linked_cons_inv in Hl. destruct Hl as (b1 & x & xs & -> & -> & Ha & Hl).
    apply linked_cons_inv in Hl. destruct Hl as (b2 & y & ys & -> & -> & Hb & Hl).
    inversion Hl; subst. exists x, y. repeat split; auto. exists []. reflexivity.
  - apply linked_cons_inv in Hl. destruct Hl as (b1 & x & xs & -> & -> & Ha & Hl).
    destruct (IH _ _ _ _ Hl) as (ca & cb & Ha' & Hb & l' & E).
    exists ca, cb. repeat split; auto. exists (x :: l'). subst. reflexivity.
Qed.

(** Dropping the last address after clearing the below pointer above it. *)
Lemma linked_drop_last : forall h addrs p l a b ca cb,
  linked h p (addrs ++ [a; b]) (l ++ [ca; cb]) -> NoDup (addrs ++ [a; b]) ->
  linked (upd (upd h a (Some (mkcell ca None))) b None) p (addrs ++ [a]) (l ++ [ca]).
Proof.
  induction addrs as [|a1 addrs IH]; intros p l a b ca cb Hl Hnd.
  - simpl in *. pose proof (linked_length _ _ _ _ Hl) as Hlen. rewrite app_length in Hlen. simpl in Hlen.
    destruct l; [|simpl in Hlen; lia]. simpl in *.
    apply linked_cons_inv in Hl. destruct Hl as (b1 & x & xs & -> & _ & Ha & Hl).
    econstructor; [|constructor].
    unfold upd. inversion Hnd; subst. simpl in *.
    destruct (Nat.eqb_spec a b); [subst; tauto|]. rewrite Nat.eqb_refl. reflexivity.
  - pose proof (linked_length _ _ _ _ Hl) as Hlen. simpl in Hlen. rewrite !app_length in Hlen. simpl in Hlen.
    destruct l as [|x l]; [simpl in Hlen; lia|]. cbn [app] in *.
    apply linked_cons_inv in Hl. destruct Hl as (b1 & x' & xs & -> & E & Ha & Hl). injection E as <- <-.
    inversion Hnd as [|? ? Hni Hnd']; subst.
    econstructor; [|eapply IH; eauto].
    unfold upd. rewrite in_app_iff in Hni. simpl in Hni.
    destruct (Nat.eqb_spec a1 b); [subst; tauto|]. destruct (Nat.eqb_spec a1 a); [subst; tauto|]. exact Ha.
Qed.

Lemma list_split_last2 {A} : forall (l : list A), 2 <= List.length l ->
  exists l' a b, l = l' ++ [a; b].
Proof.
  intros l H. destruct (exists_last (l := l)) as [l1 [b E]]; [destruct l; simpl in *; [lia|discriminate]|].
  subst. rewrite app_length in H. simpl in H.
  destruct (exists_last (l := l1)) as [l2 [a E]]; [destruct l1; simpl in *; [lia|discriminate]|].
  subst. exists l2, a, b. rewrite <- app_assoc. reflexivity.
Qed.

Lemma NoDup_app_drop {A} : forall (l : list A) a b, NoDup (l ++ [a; b]) -> NoDup (l ++ [a]).
Proof.
  intros l a b H. rewrite <- (app_nil_r (l ++ [a])). apply (NoDup_remove_1 (l ++ [a]) [] b). rewrite <- app_assoc. exact H.
Qed.

Lemma stack_rock_repr : forall s l x, stack_repr s (l ++ [x]) ->
  exists s', stack_rock s = Done (x, s') /\ stack_repr s' l.
Proof.
  intros s l x H. destruct l as [|y l].
  - destruct (stack_pop_repr _ _ _ H) as (s' & E & R). exists s'. split; auto.
    destruct H as [addrs Hl Hnd Hf Hb Hs]. unfold stack_rock. simpl in Hs. rewrite Hs.
    inversion Hl; subst. rewrite Hb by discriminate. exact E.
  - destruct H as [addrs Hl Hnd Hf Hb Hs]. pose proof (linked_length _ _ _ _ Hl) as Hlen.
    rewrite app_length in Hlen. simpl in Hlen.
    destruct (list_split_last2 addrs) as (ad & a & b & E); [lia|]. subst addrs.
    destruct (linked_app_inv _ _ _ _ _ _ Hl) as (ca & cb & Ha & Hbb & l' & El).
    assert (El2 : y :: l = l' ++ [ca] /\ x = cb).
    { apply app_inj_tail. rewrite El. rewrite <- app_assoc. reflexivity. }
    destruct El2 as [El2 ->].
    unfold stack_rock. rewrite Hb by (destruct ad; discriminate).
    replace (last (ad ++ [a; b]) 0) with b.
    2:{ replace (ad ++ [a; b]) with ((ad ++ [a]) ++ [b]) by (rewrite <- app_assoc; reflexivity).
        rewrite last_snoc. reflexivity. }
    rewrite Hs. rewrite app_length. simpl List.length. replace (S (List.length l) + 1) with (S (S (List.length l))) by lia.
    rewrite Hbb. erewrite find_above_spec; eauto.
    2:{ rewrite Hlen. lia. }
    simpl. rewrite Ha. simpl. eexists; split; [reflexivity|].
    apply (mk_stack_repr _ _ (ad ++ [a])); simpl.
    + rewrite El2. eapply linked_drop_last; eauto. rewrite El in Hl. exact Hl.
    + eapply NoDup_app_drop; eauto.
    + apply Forall_app in Hf. destruct Hf as [Hf1 Hf2]. apply Forall_app. split; auto.
      inversion Hf2; subst; auto.
    + intros _. rewrite last_snoc. reflexivity.
    + reflexivity.
Qed.

Lemma stack_rock_empty : forall s, stack_repr s [] -> stack_rock s = Abort.
Proof.
  intros s [addrs Hl _ _ _ Hs]. unfold stack_rock. simpl in Hs. rewrite Hs.
  destruct (s_bottom s); reflexivity.
Qed.

Lemma stack_create_repr : stack_repr stack_create [].
Proof. apply (mk_stack_repr _ _ []); simpl; auto; try constructor. congruence. Qed.

Lemma run_stack_spec : forall ops s l, stack_repr s (rev l) -> run_stack s ops = spec_stack l ops.
Proof.
  induction ops as [|o ops IH]; intros s l R; [reflexivity|].
  destruct o; simpl.
  - f_equal. apply IH. rewrite rev_app_distr. simpl. apply stack_push_repr. exact R.
  - destruct (list_eq_dec N.eq_dec l []) as [->|Hne].
    + simpl in R. rewrite stack_pop_empty by exact R. reflexivity.
    + destruct (exists_last Hne) as [l' [x E]]. subst. rewrite rev_app_distr in R. simpl in R.
      destruct (stack_pop_repr _ _ _ R) as (s' & E & R'). rewrite E.
      rewrite last_snoc, removelast_last. rewrite (IH _ _ R'). destruct l'; reflexivity.
  - destruct l as [|x l].
    + simpl in R. rewrite stack_rock_empty by exact R. reflexivity.
    + simpl in R. destruct (stack_rock_repr _ _ _ R) as (s' & E & R'). rewrite E.
      f_equal. apply IH. exact R'.
  - f_equal; [|apply IH; exact R]. f_equal. destruct R as [? ? ? ? ? Hs]. rewrite Hs, rev_length. reflexivity.
Qed.

(* ------------------------------------------------------------------ *)
(** * Vector proofs *)

Lemma set_nth_app {A} : forall (l : list A) x y r, set_nth (List.length l) x (l ++ y :: r) = Some (l ++ x :: r).
Proof. induction l; intros; simpl; auto. rewrite IHl. reflexivity. Qed.

Definition vec_repr (v : vector) (l : list N) : Prop :=
  v_size v = List.length l /\ 0 < List.length (v_elems v) /\
  exists r, v_elems v = map Some l ++ r.

Lemma vec_push_repr : forall v l d, vec_repr v l ->
  exists v', vector_push_back v d = Done v' /\ vec_repr v' (l ++ [d]).
Proof.
  intros v l d (Hs & Hpos & r & E). unfold vector_push_back. rewrite Hs, E.
  replace (S (List.length l) - 1) with (List.length l) by lia.
  rewrite app_length, map_length.
  assert (Hset : forall y r', set_nth (List.length l) (Some d) (map Some l ++ y :: r')
                              = Some (map Some l ++ Some d :: r')).
  { intros. rewrite <- (map_length (@Some N) l) at 1. apply set_nth_app. }
  assert (Hfin : forall r', vec_repr (mkvector (map Some l ++ Some d :: r') (S (List.length l))) (l ++ [d])).
  { intros r'. unfold vec_repr; cbn [v_size v_elems]. rewrite !app_length. cbn [List.length].
    split; [lia|]. split; [lia|]. exists r'. rewrite map_app, <- app_assoc. reflexivity. }
  destruct (Nat.ltb_spec (List.length l + List.length r) (S (List.length l))) as [Hlt|Hge].
  - assert (r = []) by (destruct r; simpl in *; [auto|lia]). subst r.
    rewrite app_nil_r. rewrite E, app_nil_r, map_length in Hpos.
    cbn [List.length]. rewrite Nat.add_0_r.
    set (k := if (1024 <=? List.length l) then _ else _).
    assert (Hk : exists k', k - List.length l = S k').
    { exists (pred (k - List.length l)). unfold k. destruct (1024 <=? List.length l); lia. }
    destruct Hk as [k' Hk]. rewrite Hk. cbn [repeat]. rewrite Hset. eauto.
  - destruct r as [|y r]; [simpl in Hge; lia|]. rewrite Hset. eauto.
Qed.

Lemma vec_pop_repr : forall v l x, vec_repr v (l ++ [x]) ->
  exists v', vector_pop_back v = Done (Some x, v') /\ vec_repr v' l.
Proof.
  intros v l x (Hs & Hpos & r & E). unfold vector_pop_back. rewrite Hs, E, app_length.
  replace (List.length l + List.length [x]) with (S (List.length l)) by (simpl; lia).
  rewrite map_app, <- app_assoc. cbn [map app].
  replace (List.length l) with (List.length (map (@Some N) l)) by (rewrite map_length; lia).
  rewrite set_nth_app, nth_error_app2, Nat.sub_diag by lia. cbn [nth_error].
  eexists; split; [reflexivity|]. unfold vec_repr; cbn [v_size v_elems]. rewrite map_length, app_length. simpl.
  split; [lia|]. split; [lia|]. eexists; reflexivity.
Qed.

Lemma vec_at_repr : forall v l i, vec_repr v l ->
  vector_element_at v i = match nth_error l i with Some d => Done (Some d) | None => Abort end.
Proof.
  intros v l i (Hs & _ & r & E). unfold vector_element_at. rewrite Hs, E.
  destruct (Nat.ltb_spec i (List.length l)).
  - rewrite nth_error_app1 by (rewrite map_length; lia). rewrite nth_error_map.
    destruct (nth_error l i) eqn:En; [reflexivity|]. apply nth_error_None in En. lia.
  - destruct (nth_error l i) eqn:En; [|reflexivity].
    assert (nth_error l i <> None) by congruence. apply nth_error_Some in H0. lia.
Qed.

Lemma run_vector_spec : forall ops v l, vec_repr v l -> run_vector v ops = spec_vector l ops.
Proof.
  induction ops as [|o ops IH]; intros v l R; [reflexivity|].
  destruct o; simpl.
  - destruct (vec_push_repr _ _ d R) as (v' & E & R'). rewrite E. f_equal. apply IH. exact R'.
  - destruct (list_eq_dec N.eq_dec l []) as [->|Hne].
    + destruct R as (Hs & _). unfold vector_pop_back. rewrite Hs. reflexivity.
    + destruct (exists_last Hne) as [l' [x E]]. subst.
      destruct (vec_pop_repr _ _ _ R) as (v' & E & R'). rewrite E, last_snoc, removelast_last.
      rewrite (IH _ _ R'). destruct l'; reflexivity.
  - rewrite (vec_at_repr _ _ i R). destruct (nth_error l i); [|reflexivity]. f_equal. apply IH. exact R.
  - f_equal; [|apply IH; exact R]. f_equal. apply R.
Qed.

Lemma vec_create_repr : vec_repr vector_create [].
Proof. unfold vec_repr, vector_create. simpl. split; [auto|]. split; [lia|]. eexists; reflexivity. Qed.

(* ------------------------------------------------------------------ *)
(** * Membuffer proofs *)

Definition mb_repr (mb : membuffer) (s : bytes) : Prop :=
  mb_used mb = List.length s /\ exists r, mb_buf mb = map Some s ++ r.

Lemma write_at_app : forall s src r1 r2, List.length r1 = List.length src ->
  write_at (List.length s) src (map Some s ++ r1 ++ r2) = Some (map Some (s ++ src) ++ r2).
Proof.
  induction s; intros src r1 r2 H; cbn [List.length map app write_at].
  - revert r1 H. induction src; intros r1 H; destruct r1; try discriminate; [reflexivity|].
    simpl in *. rewrite IHsrc by lia. reflexivity.
  - rewrite IHs by exact H. reflexivity.
Qed.

Lemma pick_spec : forall max used add, used <= max ->
  exists m, pick_buffer_new_size max used add = Done m /\ max <= m /\ used + add <= m.
Proof.
  intros max used add H. unfold pick_buffer_new_size.
  destruct (Nat.ltb_spec max used); [lia|]. cbv zeta.
  destruct (Nat.ltb_spec max (used + add)).
  - destruct (Nat.ltb_spec (max + 1024) (used + add)).
    + destruct (Nat.leb_spec (used + add) (max + 1024 + add)); [|lia]. eexists; split; [reflexivity|lia].
    + destruct (Nat.leb_spec (used + add) (max + 1024)); [|lia]. eexists; split; [reflexivity|lia].
  - destruct (Nat.ltb_spec max (used + add)); [lia|].
    destruct (Nat.leb_spec (used + add) max); [|lia]. eexists; split; [reflexivity|lia].
Qed.

Lemma split_at_length {A} : forall (l : list A) n, n <= List.length l ->
  exists a b, l = a ++ b /\ List.length a = n.
Proof.
  intros l n H. exists (firstn n l), (skipn n l). rewrite firstn_skipn. split; auto.
  rewrite firstn_length. lia.
Qed.

Lemma append_region_repr : forall mb s t, mb_repr mb s ->
  exists mb', membuffer_append_region mb t = Done mb' /\ mb_repr mb' (s ++ t).
Proof.
  intros mb s t (Hu & r & E). unfold membuffer_append_region. rewrite Hu.
  destruct (pick_spec (List.length (mb_buf mb)) (List.length s) (List.length t)) as (m & Em & H1 & H2).
  { rewrite E, app_length, map_length. lia. }
  rewrite Em. cbn [bind].
  assert (Hb : exists r', (if Nat.ltb (List.length (mb_buf mb)) m then grow (mb_buf mb) m else mb_buf mb)
                          = map Some s ++ r' /\ List.length t <= List.length r').
  { rewrite E in *. destruct (Nat.ltb_spec (List.length (map Some s ++ r)) m).
    - unfold grow. eexists. rewrite <- app_assoc. split; [reflexivity|].
      rewrite app_length, repeat_length. rewrite app_length, map_length in *. lia.
    - exists r. split; auto. rewrite app_length, map_length in *. lia. }
  destruct Hb as (r' & -> & Hl). destruct (split_at_length _ _ Hl) as (r1 & r2 & -> & Hl1).
  rewrite write_at_app by exact Hl1. eexists; split; [reflexivity|].
  unfold mb_repr; simpl. rewrite app_length. split; [reflexivity|]. eexists; reflexivity.
Qed.

Lemma append_loop_repr : forall t s buf r, buf = map Some s ++ r ->
  exists r', membuffer_append_loop t buf (List.length s) = Done (map Some (s ++ t) ++ r', List.length (s ++ t)).
Proof.
  induction t; intros s buf r E; cbn [membuffer_append_loop].
  - rewrite app_nil_r. exists r. rewrite E. reflexivity.
  - assert (Hb : exists r', (if Nat.leb (List.length buf) (List.length s)
          then bind (pick_buffer_new_size (List.length buf) (List.length s) 1) (fun max => Done (grow buf max))
          else Done buf) = Done (map Some s ++ r') /\ 1 <= List.length r').
    { destruct (Nat.leb_spec (List.length buf) (List.length s)).
      - destruct (pick_spec (List.length buf) (List.length s) 1) as (m & Em & H1 & H2).
        { rewrite E, app_length, map_length. lia. }
        rewrite Em. cbn [bind]. unfold grow. rewrite E, <- app_assoc. eexists; split; [reflexivity|].
        rewrite E in *. rewrite app_length, repeat_length. rewrite app_length, map_length in *. lia.
      - exists r. rewrite E. split; auto. rewrite E, app_length, map_length in H. lia. }
    destruct Hb as (r' & -> & Hl). cbn [bind].
    destruct (split_at_length _ _ Hl) as (r1 & r2 & -> & Hl1).
    rewrite write_at_app by exact Hl1.
    destruct (IHt (s ++ [a]) _ r2 eq_refl) as (r'' & E'').
    replace (List.length (s ++ [a])) with (S (List.length s)) in E'' by (rewrite app_length; simpl; lia).
    rewrite E''. rewrite <- app_assoc. eexists; reflexivity.
Qed.

Lemma append_repr : forall mb s t, mb_repr mb s ->
  exists mb', membuffer_append mb t = Done mb' /\ mb_repr mb' (s ++ t).
Proof.
  intros mb s t (Hu & r & E). unfold membuffer_append. rewrite Hu.
  destruct (append_loop_repr t s _ r E) as (r' & ->). cbn [bind fst snd].
  eexists; split; [reflexivity|]. split; [reflexivity|]. eexists; reflexivity.
Qed.

Lemma drop_null_repr : forall mb s, mb_repr mb s ->
  exists mb', membuffer_drop_last_null mb = Done mb' /\
    mb_repr mb' (spec_mb_step s MDropNull).
Proof.
  intros mb s (Hu & r & E). unfold membuffer_drop_last_null. rewrite Hu.
  destruct (list_eq_dec N.eq_dec s []) as [->|Hne].
  - simpl. eexists; split; [reflexivity|]. split; [exact Hu| exists r; exact E].
  - destruct (exists_last Hne) as [s' [x Es]]. subst s. rewrite app_length.
    assert (Hm : spec_mb_step (s' ++ [x]) MDropNull = if (x =? 0)%N then s' else s' ++ [x]).
    { unfold spec_mb_step. rewrite last_snoc, removelast_last. destruct s'; reflexivity. }
    rewrite Hm. clear Hm.
    replace (List.length s' + List.length [x]) with (S (List.length s')) by (simpl; lia).
    rewrite E, map_app, <- app_assoc.
    rewrite nth_error_app2 by (rewrite map_length; lia). rewrite map_length, Nat.sub_diag. cbn [nth_error map app].
    destruct x as [|p].
    + eexists; split; [reflexivity|]. simpl. split; [reflexivity|].
      simpl. eexists. reflexivity.
    + eexists; split; [reflexivity|]. simpl. split; [exact Hu|]. exists r. exact E.
Qed.

Lemma mb_step_repr : forall o mb s, mb_repr mb s ->
  exists mb', mb_step mb o = Done mb' /\ mb_repr mb' (spec_mb_step s o).
Proof.
  intros o mb s R. destruct o; simpl.
  - apply append_region_repr; auto.
  - apply append_repr; auto.
  - apply append_region_repr; auto.
  - apply append_region_repr; auto.
  - apply drop_null_repr; auto.
Qed.

Lemma run_mb_spec : forall ops mb s, mb_repr mb s ->
  exists mb', run_mb mb ops = Done mb' /\ mb_repr mb' (spec_mb s ops).
Proof.
  induction ops; intros mb s R; simpl.
  - eauto.
  - destruct (mb_step_repr a _ _ R) as (mb' & E & R'). rewrite E. cbn [bind]. apply IHops. exact R'.
Qed.

Lemma mb_repr_content : forall mb s, mb_repr mb s ->
  membuffer_content mb = map Some s /\ membuffer_used mb = List.length s.
Proof.
  intros mb s (Hu & r & E). unfold membuffer_content, membuffer_used. split; [|exact Hu].
  rewrite Hu, E. rewrite <- (map_length (@Some N) s). rewrite firstn_app, Nat.sub_diag, firstn_all.
  simpl. apply app_nil_r.
Qed.

Lemma mb_repr_back : forall mb s, mb_repr mb s -> membuffer_back mb = Done (last s 0%N).
Proof.
  intros mb s (Hu & r & E). unfold membuffer_back. rewrite Hu.
  destruct (list_eq_dec N.eq_dec s []) as [->|Hne]; [reflexivity|].
  destruct (exists_last Hne) as [s' [x Es]]. subst s. rewrite app_length.
  replace (List.length s' + List.length [x]) with (S (List.length s')) by (simpl; lia).
  rewrite last_snoc, E, map_app, <- app_assoc.
  rewrite nth_error_app2 by (rewrite map_length; lia). rewrite map_length, Nat.sub_diag. reflexivity.
Qed.

Lemma new_mb_repr : mb_repr new_membuffer [].
Proof. split; [reflexivity|]. exists []. reflexivity. Qed.
Lemma reuse_mb_repr : forall s, mb_repr (membuffer_reuse s) s.
Proof. split; [reflexivity|]. exists []. simpl. rewrite app_nil_r. reflexivity. Qed.
