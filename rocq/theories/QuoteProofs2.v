(** Proofs about whole quotes: removal of the quote characters, single line
    quotes, and invariance under a change of indentation. *)
From Coq Require Import NArith List Bool Arith Lia.
From Verif Require Import Bytes BytesFacts Outcome Quote QuoteSpec QuoteProofs.
Import ListNotations.
Local Open Scope N_scope.

Lemma nth_rep_lt q d r j : (j < d)%nat -> nth_error (rep q d ++ r) j = Some q.
Proof.
  intros H. rewrite nth_error_app1 by (rewrite rep_len; auto). unfold rep. now apply nth_error_repeat.
Qed.

Definition first_is (c : N) (s : bytes) : bool := match s with x :: _ => x =? c | [] => false end.
Definition last_is (c : N) (s : bytes) : bool := first_is c (rev s).

(** Removing q from both ends of q^d s q^d removes exactly d, unless s both
    starts and ends with q. *)
Lemma peel_spec q d s : (1 <= d)%nat -> first_is q s && last_is q s = false ->
  forall fuel j, (j <= d)%nat -> (d - j < fuel)%nat ->
  peel fuel q (rep q d ++ s ++ rep q d) j = Ok d.
Proof.
  intros Hd Hs. set (t := rep q d ++ s ++ rep q d).
  assert (Hlen : List.length t = (d + List.length s + d)%nat).
  { unfold t. rewrite !app_length, !rep_len. lia. }
  assert (Hback : forall j, (j < d)%nat -> nth_error t (List.length t - j - 1) = Some q).
  { intros j Hj. rewrite Hlen. unfold t. rewrite app_assoc. rewrite nth_error_app2 by (rewrite app_length, rep_len; lia).
    rewrite app_length, rep_len. unfold rep. apply nth_error_repeat. lia. }
  induction fuel as [|fuel IH]; intros j Hj Hf; [lia|].
  cbn [peel]. destruct (Nat.eq_dec j d) as [->|Hne].
  - destruct s as [|c s].
    + assert (nth_error t d = Some q) as ->.
      { unfold t. cbn [app]. rewrite nth_error_app2 by (rewrite rep_len; lia). rewrite rep_len, Nat.sub_diag.
        unfold rep. apply nth_error_repeat. lia. }
      rewrite N.eqb_refl. cbn [List.length] in Hlen.
      destruct (Nat.ltb_spec d (List.length t)); [|lia].
      assert (nth_error t (List.length t - d - 1) = Some q) as ->.
      { rewrite Hlen. unfold t. cbn [app]. apply nth_rep_lt. lia. }
      rewrite N.eqb_refl. destruct (Nat.ltb_spec d (List.length t - d)); [lia|reflexivity].
    + assert (nth_error t d = Some c) as ->.
      { unfold t. rewrite nth_error_app2 by (rewrite rep_len; lia). rewrite rep_len, Nat.sub_diag. reflexivity. }
      cbn [first_is] in Hs. destruct (N.eqb_spec c q) as [->|]; [|reflexivity].
      cbn [andb] in Hs.
      destruct (Nat.ltb_spec d (List.length t)); [|lia].
      destruct (@exists_last _ (q :: s) ltac:(discriminate)) as (x & e & E).
      assert (nth_error t (List.length t - d - 1) = Some e) as ->.
      { rewrite Hlen. unfold t. rewrite E, app_length. cbn [List.length].
        rewrite nth_error_app2 by (rewrite rep_len; lia). rewrite rep_len. rewrite <- app_assoc.
        rewrite nth_error_app2 by lia. replace (_ - _)%nat with 0%nat by lia. reflexivity. }
      unfold last_is in Hs. rewrite E, rev_app_distr in Hs. cbn in Hs. rewrite Hs. reflexivity.
  - unfold t at 1. rewrite nth_rep_lt by lia. rewrite N.eqb_refl.
    destruct (Nat.ltb_spec j (List.length t)); [|lia].
    rewrite Hback by lia. rewrite N.eqb_refl.
    destruct (Nat.ltb_spec j (List.length t - j)); [|lia]. cbn [andb]. apply IH; lia.
Qed.

Lemma slice_mid (a s b : bytes) : slice (List.length a) (List.length a + List.length s) (a ++ s ++ b) = s.
Proof.
  unfold slice. rewrite skipn_app_exact. replace (_ - _)%nat with (List.length s) by lia.
  rewrite firstn_app, Nat.sub_diag, firstn_all. cbn. apply app_nil_r.
Qed.

(** xmq_un_quote on a quote of depth d. *)
Lemma un_quote_trim indent space d s aft : (1 <= d)%nat -> first_is cQ s && last_is cQ s = false ->
  un_quote indent space (rep cQ d ++ s ++ rep cQ d) aft true
  = trim_quote (indent + d) space s (rep cQ d ++ aft).
Proof.
  intros Hd Hs. unfold un_quote. rewrite (peel_spec cQ d s Hd Hs) by (rewrite ?app_length, ?rep_len; lia).
  cbn [obind]. rewrite !app_length, !rep_len.
  destruct (Nat.ltb_spec (d + (List.length s + d) - d) d); [lia|].
  replace (d + (List.length s + d) - d)%nat with (d + List.length s)%nat by lia.
  pose proof (slice_mid (rep cQ d) s (rep cQ d)) as E. rewrite rep_len in E. rewrite E. f_equal.
  rewrite app_assoc. f_equal.
  replace (d + List.length s)%nat with (List.length (rep cQ d ++ s)) by (rewrite app_length, rep_len; lia).
  rewrite skipn_app_exact. reflexivity.
Qed.

Theorem un_quote_text_block indent d s aft : (1 <= d)%nat -> first_is cQ s && last_is cQ s = false ->
  ~ In cCR s -> ~ In 0 s ->
  exists n, un_quote indent cSP (rep cQ d ++ s ++ rep cQ d) aft true = Ok (n, text_block (indent + d) s)
            /\ (List.length (text_block (indent + d) s) < n)%nat.
Proof. intros Hd Hs H1 H2. rewrite un_quote_trim by auto. apply trim_quote_text_block; auto. Qed.

(** ** Single lines *)
Lemma split_single s : ~ In cNL s -> split_lines s = [s].
Proof. intros H. apply (split_join [s]); [discriminate|]. constructor; auto. Qed.

Lemma text_block_single indent s : ~ In cNL s -> text_block indent s = s.
Proof. intros H. unfold text_block. rewrite split_single by auto. reflexivity. Qed.

(** ** Moving a quote to the right *)
Definition moved (k : nat) (l l' : bytes) : Prop :=
  (blank l = true /\ blank l' = true) \/ l' = rep cSP k ++ l.

Lemma moved_blank k l l' : moved k l l' -> blank l' = blank l.
Proof. intros [[H1 H2]|H]; [congruence|]. subst. apply blank_spaces. Qed.

Lemma columns_spaces k l : columns (rep cSP k ++ l) = (k + columns l)%nat.
Proof. induction k; cbn; auto. Qed.

Lemma moved_used k ls ls' : Forall2 (moved k) ls ls' -> used_columns ls' = map (fun n => n + k)%nat (used_columns ls).
Proof.
  induction 1 as [|l l' ls ls' H HF IH]; auto. rewrite !used_cons. rewrite (moved_blank _ _ _ H), IH.
  destruct (blank l) eqn:E; auto. destruct H as [[H _]|H]; [congruence|]. subst l'. cbn [map].
  rewrite columns_spaces. f_equal. lia.
Qed.

Lemma drop_columns_add k n l : drop_columns (n + k) (rep cSP k ++ l) = drop_columns n l.
Proof.
  induction k as [|k IH]; cbn [rep repeat app]; [now rewrite Nat.add_0_r|].
  rewrite Nat.add_succ_r, drop_columns_eq. change (cSP =? cSP) with true. cbv iota. exact IH.
Qed.

Lemma moved_clean k n l l' : moved k l l' -> clean_line (n + k) l' = clean_line n l.
Proof.
  intros H. unfold clean_line. rewrite (moved_blank _ _ _ H). destruct (blank l) eqn:E; auto.
  destruct H as [[H _]|H]; [congruence|]. subst. rewrite rstrip_spaces by auto. apply drop_columns_add.
Qed.

Lemma moved_clean_lines k n keep ls ls' : Forall2 (moved k) ls ls' -> (keep = true -> blank (last ls []) = false) ->
  clean_lines (n + k) keep ls' = clean_lines n keep ls.
Proof.
  induction 1 as [|l l' ls ls' H HF IH]; intros Hk; auto. destruct HF as [|m m' ls ls' Hm HF].
  - cbn [clean_lines last] in *. destruct keep; [|f_equal; now apply moved_clean].
    specialize (Hk eq_refl). f_equal. destruct H as [[H _]|H]; [congruence|]. subst. apply drop_columns_add.
  - rewrite !(clean_cons _ _ _ (_ :: _)) by discriminate. f_equal; [now apply moved_clean|].
    apply IH. intros E. specialize (Hk E). exact Hk.
Qed.

Lemma min_list_add d k l : l <> [] -> min_list d (map (fun n => n + k)%nat l) = (min_list 0 l + k)%nat.
Proof.
  destruct l as [|x l]; [congruence|]. intros _. cbn [map]. rewrite !min_list_cons.
  revert x. induction l as [|y l IH]; intros x; cbn [map fold_right]; [lia|]. rewrite IH. lia.
Qed.

Lemma moved_lead k ls ls' : Forall2 (moved k) ls ls' -> lead_blank ls' = lead_blank ls.
Proof. induction 1 as [|l l' ls ls' H HF IH]; auto. cbn. now rewrite (moved_blank _ _ _ H), IH. Qed.

Lemma lead_blank_eq (R : bytes -> bytes -> Prop) ls ls' : (forall a b, R a b -> blank b = blank a) ->
  Forall2 R ls ls' -> lead_blank ls' = lead_blank ls.
Proof. intros HR. induction 1 as [|l l' ls ls' H HF IH]; auto. cbn. now rewrite (HR _ _ H), IH. Qed.

Lemma Forall2_rev' {A B} (R : A -> B -> Prop) l l' : Forall2 R l l' -> Forall2 R (rev l) (rev l').
Proof. induction 1; cbn; auto. apply Forall2_app; auto. Qed.

Lemma Forall2_firstn {A B} (R : A -> B -> Prop) n l l' : Forall2 R l l' -> Forall2 R (firstn n l) (firstn n l').
Proof. intros H. revert n. induction H; intros [|n]; cbn; auto. Qed.

Lemma Forall2_skipn {A B} (R : A -> B -> Prop) n l l' : Forall2 R l l' -> Forall2 R (skipn n l) (skipn n l').
Proof. intros H. revert n. induction H; intros [|n]; cbn; auto. Qed.

Theorem text_block_moved indent k l0 ls ls' : Forall (fun l => ~ In cNL l) (l0 :: ls) ->
  Forall (fun l => ~ In cNL l) ls' -> Forall2 (moved k) ls ls' ->
  text_block (indent + k) (join_lines (l0 :: ls')) = text_block indent (join_lines (l0 :: ls)).
Proof.
  intros HF HF' HM. unfold text_block.
  rewrite !split_join by (first [discriminate | exact HF | constructor; [now inversion HF|exact HF']]).
  assert (Hlen : List.length ls' = List.length ls) by (clear -HM; induction HM; cbn; auto).
  cbn [List.length]. rewrite Hlen.
  destruct (Nat.eqb_spec (S (List.length ls)) 1) as [E1|E1].
  { destruct ls; [|cbn in E1; lia]. destruct ls'; [|cbn in Hlen; lia]. reflexivity. }
  set (R := fun a b => moved k a b \/ a = b).
  assert (HR : forall a b, R a b -> blank b = blank a).
  { intros a b [H|H]; [now apply moved_blank in H|now subst]. }
  assert (HRall : Forall2 R (l0 :: ls) (l0 :: ls')).
  { constructor; [right; auto|]. clear -HM. induction HM; constructor; auto. left; auto. }
  rewrite (lead_blank_eq R (rev (l0 :: ls)) (rev (l0 :: ls')) HR) by (now apply Forall2_rev').
  set (bottom := lead_blank (rev (l0 :: ls))).
  destruct (Nat.eqb_spec bottom (S (List.length ls))) as [|Hb]; auto.
  assert (Hcore : Forall2 R (firstn (S (List.length ls) - bottom) (l0 :: ls)) (firstn (S (List.length ls) - bottom) (l0 :: ls')))
    by (now apply Forall2_firstn).
  rewrite (lead_blank_eq R _ _ HR Hcore).
  destruct (lead_blank_rev_split (l0 :: ls)) as (core & bl & E & Hbl & Hlbl & Hcl). assert (Hlbl' : List.length bl = bottom) by exact Hlbl. clear Hlbl. rename Hlbl' into Hlbl. clearbody bottom.
  assert (Hlen2 : S (List.length ls) = (List.length core + List.length bl)%nat).
  { change (S (List.length ls)) with (List.length (l0 :: ls)). rewrite E. apply app_length. }
  assert (Ecore : firstn (S (List.length ls) - bottom) (l0 :: ls) = core).
  { rewrite <- Hlbl. replace (S (List.length ls) - List.length bl)%nat with (List.length core) by lia.
    rewrite E, firstn_app, Nat.sub_diag, firstn_all. cbn. apply app_nil_r. }
  rewrite Ecore.
  destruct core as [|c0 core]; [cbn in Hlen2; exfalso; lia|].
  destruct Hcl as [Hcl|Hcl]; [discriminate|].
  cbn [app] in E. injection E as -> E.
  replace (S (List.length ls) - bottom)%nat with (S (List.length ls - bottom)) by (cbn in Hlen2; lia).
  cbn [firstn].
  assert (HM2 : Forall2 (moved k) core (firstn (List.length ls - bottom) ls')).
  { assert (Ec : firstn (List.length ls - bottom) ls = core).
    { assert (Hk : (List.length ls - bottom)%nat = List.length core) by (cbn in Hlen2; lia).
      rewrite Hk, E, firstn_app, Nat.sub_diag, firstn_all. cbn. apply app_nil_r. }
    rewrite <- Ec at 1. now apply Forall2_firstn. }
  set (core' := firstn (List.length ls - bottom) ls') in *. clearbody core'.
  assert (Hne : lead_blank (c0 :: core) = 0%nat \/ exists t, lead_blank (c0 :: core) = S t /\ blank c0 = true /\ t = lead_blank core).
  { cbn. destruct (blank c0); eauto. }
  destruct Hne as [Ht|(t & Ht & Hc0 & Et)]; rewrite Ht; cbn [Nat.eqb].
  - cbn [skipn tl hd]. do 2 f_equal. f_equal.
    set (n := min_list 0 (indent :: used_columns core)).
    assert (En : min_list 0 ((indent + k)%nat :: used_columns core') = (n + k)%nat).
    { rewrite (moved_used k core core' HM2).
      change ((indent + k)%nat :: map (fun n => (n + k)%nat) (used_columns core))
        with (map (fun n => (n + k)%nat) (indent :: used_columns core)).
      rewrite min_list_add by discriminate. reflexivity. }
    rewrite En.
    apply moved_clean_lines.
    + constructor; auto. right. rewrite app_assoc. f_equal. unfold rep. rewrite <- repeat_app. f_equal. lia.
    + intros _. destruct core; [cbn in *; now rewrite blank_spaces|]. exact Hcl.
  - cbn [skipn]. do 2 f_equal. f_equal.
    assert (HMs : Forall2 (moved k) (skipn t core) (skipn t core')) by (now apply Forall2_skipn).
    destruct (lead_blank_split core) as (a & b & Eab & Ha & Hal & Hbh).
    assert (Esk : skipn t core = b) by (rewrite Et, <- Hal, Eab; apply skipn_app_exact).
    assert (Hb2 : b <> []).
    { intros ->. rewrite app_nil_r in Eab. subst a. destruct (exists_last (l := c0 :: core) ltac:(discriminate)) as (q & y & E2).
      rewrite E2, last_last in Hcl. assert (Forall (fun l => blank l = true) (c0 :: core)) by (constructor; auto).
      rewrite E2 in H. apply Forall_app in H. destruct H as [_ H]. inversion H; congruence. }
    rewrite Esk in *.
    rewrite (moved_used k b _ HMs). rewrite min_list_add.
    2:{ destruct b as [|l b]; [congruence|]. rewrite used_cons, Hbh. discriminate. }
    apply moved_clean_lines; auto. intros _.
    assert (El : last (c0 :: core) [] = last b []).
    { rewrite Eab. clear -Hb2. change (c0 :: a ++ b) with ((c0 :: a) ++ b). induction (c0 :: a) as [|x q IH]; auto.
      cbn [app]. rewrite last_cons; auto. destruct q; cbn; auto. discriminate. }
    rewrite <- El. exact Hcl.
Qed.
