(** The text that the printer writes between the quotes, or in a comment, over
    several lines means the text that was printed. *)
From Coq Require Import NArith List Bool Arith Lia.
From Verif Require Import Bytes BytesFacts Outcome Quote QuoteSpec QuoteProofs QuoteProofs2.
Import ListNotations.
Local Open Scope N_scope.

Definition nl_free (l : bytes) : Prop := ~ In cNL l.
(** The line moved to the right by K columns. *)
Definition indl (K : nat) (l : bytes) : bytes := match l with [] => [] | _ => rep cSP K ++ l end.

Lemma spaces_nl_free k : nl_free (rep cSP k).
Proof. intros I. apply repeat_spec in I. discriminate I. Qed.
Lemma spaces_blank k : blank (rep cSP k) = true.
Proof. rewrite <- (app_nil_r (rep cSP k)). now rewrite blank_spaces. Qed.
Lemma indl_ne K l : blank l = false -> indl K l = rep cSP K ++ l.
Proof. destruct l; [discriminate|reflexivity]. Qed.
Lemma indl_blank K l : blank (indl K l) = blank l.
Proof. destruct l; [reflexivity|]. unfold indl. apply blank_spaces. Qed.
Lemma indl_nl_free K l : nl_free l -> nl_free (indl K l).
Proof.
  intros H. destruct l; auto. unfold indl. intros I. apply in_app_or in I as [I|I]; [now apply (spaces_nl_free K)|now apply H].
Qed.
Lemma stripped_blank l : rstrip l = l -> blank l = true -> l = [].
Proof. intros E B. rewrite <- E. now apply rstrip_blank. Qed.
Lemma last_map {A B} (f : A -> B) l d d' : l <> [] -> last (map f l) d' = f (last l d).
Proof.
  induction l as [|x l IH]; [congruence|]. intros _. destruct l as [|y l]; [reflexivity|]. cbn [map]. rewrite (last_cons (f x)) by discriminate.
  rewrite (last_cons x) by discriminate. apply IH. discriminate.
Qed.

(** Cleaning removes the K columns again. *)
Lemma clean_indl K keep ls : ls <> [] -> Forall (fun l => rstrip l = l) (removelast ls) ->
  blank (last ls []) = false -> (keep = false -> rstrip (last ls []) = last ls []) ->
  clean_lines K keep (map (indl K) ls) = ls.
Proof.
  assert (D : forall l, drop_columns K (rep cSP K ++ l) = l).
  { intros l. rewrite drop_columns_spaces, Nat.sub_diag by lia. reflexivity. }
  assert (C1 : forall l, rstrip l = l -> clean_line K (indl K l) = l).
  { intros l E. unfold clean_line. rewrite indl_blank. destruct (blank l) eqn:B; [now rewrite (stripped_blank l)|].
    rewrite indl_ne, rstrip_spaces, E by auto. apply D. }
  induction ls as [|l ls IH]; [congruence|]. intros _ F B Hk. destruct ls as [|m ls].
  - cbn [map clean_lines last] in *. destruct keep; f_equal; [|now apply C1, Hk]. rewrite indl_ne by auto. apply D.
  - cbn [removelast] in F. inversion F; subst. rewrite last_cons in B, Hk by discriminate. cbn [map].
    rewrite clean_cons by discriminate. rewrite C1 by assumption. f_equal. apply (IH ltac:(discriminate)); auto.
Qed.

Lemma lead_blank_app a b : Forall (fun l => blank l = true) a -> lead_blank (a ++ b) = (List.length a + lead_blank b)%nat.
Proof. induction 1 as [|l a H F IH]; [reflexivity|]. cbn. now rewrite H, IH. Qed.

(** The meaning of a text with blank lines at the top and at the bottom. *)
Lemma text_block_frame ind tops body bots :
  Forall (fun l => blank l = true) tops -> Forall (fun l => blank l = true) bots -> Forall nl_free (tops ++ body ++ bots) ->
  body <> [] -> blank (hd [] body) = false -> blank (last body []) = false -> (2 <= List.length (tops ++ body ++ bots))%nat ->
  text_block ind (join_lines (tops ++ body ++ bots)) =
  join_lines (repeat [] (List.length tops - 1)
    ++ clean_lines (min_list 0 (match tops with [] => ind :: used_columns (tl body) | _ => used_columns body end)) (Nat.eqb (List.length bots) 0)
         (match tops with [] => (rep cSP ind ++ hd [] body) :: tl body | _ => body end)
    ++ repeat [] (List.length bots - 1)).
Proof.
  intros Ht Hb Hf Hn B1 B2 L. unfold text_block. cbv zeta.
  assert (Hne : tops ++ body ++ bots <> []) by (intros E; apply app_eq_nil in E as [_ E]; apply app_eq_nil in E as [E _]; contradiction).
  rewrite split_join by assumption. destruct (Nat.eqb_spec (List.length (tops ++ body ++ bots)) 1); [lia|].
  assert (Eb : lead_blank (rev (tops ++ body ++ bots)) = List.length bots).
  { rewrite !rev_app_distr, <- app_assoc. rewrite lead_blank_app by now apply Forall_rev. rewrite rev_length.
    destruct (exists_last Hn) as (q & x & E). rewrite E, rev_app_distr in *. rewrite last_last in B2. cbn. rewrite B2. lia. }
  rewrite Eb. assert (Hl : (1 <= List.length body)%nat) by (destruct body; [congruence|cbn; lia]).
  rewrite !app_length in *. destruct (Nat.eqb_spec (List.length bots) (List.length tops + (List.length body + List.length bots))); [lia|].
  rewrite app_assoc. replace (List.length tops + (List.length body + List.length bots) - List.length bots)%nat with (List.length (tops ++ body)) by (rewrite app_length; lia).
  rewrite firstn_app, Nat.sub_diag, firstn_all. cbn [firstn]. rewrite app_nil_r.
  assert (Et : lead_blank (tops ++ body) = List.length tops).
  { rewrite lead_blank_app by assumption. destruct body as [|x r]; [congruence|]. cbn in B1 |- *. rewrite B1. lia. }
  rewrite Et, skipn_app_exact. destruct tops; reflexivity.
Qed.

Lemma min_ge K l : (forall x, In x l -> (K <= x)%nat) -> fold_right Nat.min K l = K.
Proof. induction l as [|x l IH]; intros H; cbn; [reflexivity|]. rewrite IH by (intros; apply H; now right). specialize (H x (or_introl eq_refl)). lia. Qed.
Lemma min_list_in K l : In K l -> (forall x, In x l -> (K <= x)%nat) -> min_list 0 l = K.
Proof.
  intros I H. pose proof (min_list_le 0 l K I). assert (X : forall l d, l <> [] -> In (min_list d l) l).
  { clear. induction l as [|x l IH]; intros d H; [congruence|]. cbn. destruct l as [|y l]; [left; cbn; lia|].
    specialize (IH x ltac:(discriminate)). destruct (Nat.min_dec x (min_list x (y :: l))) as [E|E]; rewrite E; auto. }
  assert (Hl : l <> []) by (intros ->; destruct I). specialize (H _ (X l 0%nat Hl)). lia.
Qed.
Lemma used_indl K ls x : In x (used_columns (map (indl K) ls)) -> (K <= x)%nat.
Proof.
  unfold used_columns. rewrite in_map_iff. intros (l & <- & I). apply filter_In in I as [I Bl]. apply in_map_iff in I as (m & <- & I).
  rewrite indl_blank in Bl. apply negb_true_iff in Bl. rewrite indl_ne, columns_spaces by assumption. lia.
Qed.
Lemma used_zero K ls l : In l ls -> blank l = false -> columns l = 0%nat -> In K (used_columns (map (indl K) ls)).
Proof.
  intros I Bl C. unfold used_columns. apply in_map_iff. exists (indl K l). rewrite indl_ne, columns_spaces by assumption. split; [lia|].
  apply filter_In. split; [apply in_map_iff; exists l; split; auto; now apply indl_ne|]. now rewrite blank_spaces, Bl.
Qed.

(** Lines that are moved to the right by K columns, except for the first one
    if it follows the opening quote. *)
Definition placed_lines (K : nat) (tops body : list bytes) : list bytes :=
  match tops with [] => hd [] body :: map (indl K) (tl body) | _ => map (indl K) body end.
Theorem block_lines ind K tops body bots :
  Forall (fun l => blank l = true) tops -> Forall (fun l => blank l = true) bots -> Forall nl_free (tops ++ body ++ bots) ->
  body <> [] -> blank (hd [] body) = false -> blank (last body []) = false ->
  Forall (fun l => rstrip l = l) (removelast body) -> (bots <> [] -> rstrip (last body []) = last body []) ->
  (tops = [] -> ind = K) -> (tops <> [] -> exists l, In l body /\ blank l = false /\ columns l = 0%nat) ->
  text_block ind (join_lines (tops ++ placed_lines K tops body ++ bots)) =
  join_lines (repeat [] (List.length tops - 1) ++ body ++ repeat [] (List.length bots - 1)).
Proof.
  intros Ht Hb Hf Hn B1 B2 S1 S2 H0 H1. assert (Hbody : Forall nl_free body) by (apply Forall_app in Hf as [_ Hf]; now apply Forall_app in Hf as [Hf _]).
  assert (Hfi : Forall nl_free (map (indl K) body)).
  { apply Forall_map. revert Hbody. apply Forall_impl. intros l. apply indl_nl_free. }
  assert (Hk : Nat.eqb (List.length bots) 0 = false -> rstrip (last body []) = last body []).
  { intros E. apply S2. intros ->. discriminate. }
  apply Forall_app in Hf as [Hf1 Hf]. apply Forall_app in Hf as [_ Hf2].
  destruct (Nat.leb_spec 2 (List.length (tops ++ placed_lines K tops body ++ bots))) as [L|L].
  - assert (Hp : Forall nl_free (placed_lines K tops body)).
    { unfold placed_lines. destruct tops; auto. destruct body as [|f r]; [congruence|]. cbn [hd tl]. inversion Hbody; subst. constructor; auto. now inversion Hfi. }
    assert (Hh : hd [] (map (indl K) body) = indl K (hd [] body)) by (destruct body; reflexivity).
    rewrite text_block_frame; auto.
    + f_equal. f_equal. f_equal. destruct tops as [|t0 tops].
      * specialize (H0 eq_refl). subst ind. cbn [placed_lines hd tl].
        assert (E : (rep cSP K ++ hd [] body) :: map (indl K) (tl body) = map (indl K) body).
        { destruct body as [|f r]; [congruence|]. cbn [hd tl map] in *. now rewrite indl_ne. }
        rewrite E, min_list_cons, min_ge by (intros x; apply used_indl). now apply clean_indl.
      * destruct (H1 ltac:(discriminate)) as (l & I & Bl & Cl). cbn [placed_lines]. rewrite (min_list_in K) by (eauto using used_zero, used_indl). now apply clean_indl.
    + repeat (apply Forall_app; split); auto.
    + unfold placed_lines. destruct tops; [discriminate|]. intros E. apply map_eq_nil in E. contradiction.
    + unfold placed_lines. destruct tops; [exact B1|]. now rewrite Hh, indl_blank.
    + unfold placed_lines. destruct tops.
      * destruct body as [|f r]; [congruence|]. cbn [hd tl]. destruct r as [|g r]; [exact B2|]. cbn [map]. rewrite last_cons by discriminate.
        rewrite last_cons in B2 by discriminate. change (indl K g :: map (indl K) r) with (map (indl K) (g :: r)).
        rewrite (last_map _ _ []) by discriminate. now rewrite indl_blank.
      * rewrite (last_map _ _ []) by assumption. now rewrite indl_blank.
  - assert (tops = [] /\ bots = [] /\ exists f, body = [f]) as (-> & -> & f & ->).
    { unfold placed_lines in L. rewrite !app_length in L. destruct tops, bots, body as [|f [|g r]]; cbn in L; try lia; try congruence. eauto. }
    cbn. inversion Hbody; subst. now apply text_block_single.
Qed.
