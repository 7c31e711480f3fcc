(** Proofs for C36, continued: the tokens of the whole source, the document
    made from them, and the detection of the content type. *)
From Coq Require Import NArith ZArith List Bool Arith Lia String.
From Verif Require Import Bytes BytesFacts Outcome Quote QuoteSpec QuoteProofs QuoteProofs2 Parser ParserSpec ParserProofs Detect DetectProofs Dom Grammar
  LexProofs Respace RespaceLex RespaceProofs.
From Verif Require ParserTerm ParserMono PropsParser BuildProofs.
Import ListNotations.
Local Open Scope N_scope.
Local Open Scope pout_scope.

Lemma parse_xmq_rest f : forall s s1, parse_xmq f s = POk s1 -> s_rest s1 = [] \/ exists r, s_rest s1 = cRB :: r.
Proof.
  induction f as [|f IH]; intros s s1; cbn [parse_xmq]; destruct (s_rest s) as [|c r] eqn:E;
    try (injection 1 as <-; auto); try discriminate.
  assert (K : forall p, (s2 <- p ; parse_xmq f s2) = POk s1 -> s_rest s1 = [] \/ exists r, s_rest s1 = cRB :: r).
  { intros p H. destruct p; cbn in H; try discriminate. eauto. }
  destruct (is_xmq_token_whitespace c); eauto.
  destruct (c =? cQ); eauto. destruct (c =? cAMP); eauto.
  destruct (is_comment_start c _); eauto.
  destruct (is_xmq_element_start c); eauto.
  destruct (is_doctype_start (c :: r)); eauto.
  destruct (is_pi_start (c :: r)); eauto.
  destruct (c =? cRB) eqn:C.
  - injection 1 as <-. right. exists r. rewrite E. now apply N.eqb_eq in C as ->.
  - destruct (possibly_lost_content s) as [[]|]; discriminate.
Qed.

Lemma between_resp T x y : between_tokens T x y -> resp x T.
Proof.
  intros [(A & C & E & XA & XC) H2 H3 _]. constructor; auto.
  intros A' t C' E' L. rewrite E in E'.
  assert (Q : (exists D, A' ++ [t] ++ D = A) \/ (exists D, A ++ D = A')).
  { clear - E'. revert A' E'. induction A as [|a A IH]; intros A' E'; [right; exists A'; auto|].
    destruct A' as [|a' A']; cbn in E'.
    - injection E' as <- E'. left. exists A. reflexivity.
    - injection E' as <- E'. destruct (IH A' E') as [(D & <-)|(D & <-)]; [left|right]; exists D; reflexivity. }
  destruct Q as [(D & <-)|(D & <-)]; rewrite !texts_cat in *; rewrite <- XA in L.
  - rewrite texts_one, !app_length in L. lia.
  - rewrite !app_length in L. lia.
Qed.

(** Adding w between x and y. *)
Lemma tokens_insert f x y w aft s : spaces w ->
  tokenize f (x ++ y) (0 :: aft) = POk s -> between_tokens (tokens s) x y ->
  exists s', tokenize (enough (x ++ w ++ y)) (x ++ w ++ y) (0 :: aft) = POk s'
    /\ contents (tokens s') = contents (tokens s)
    /\ Forall2 (moved x w) (spots (tokens s)) (spots (tokens s'))
    /\ s_rest s' = [] /\ s_aft s' = 0 :: aft.
Proof.
  intros Hw H Bt. destruct (list_eq_dec N.eq_dec w []) as [-> |Hw0].
  - exists s.
    assert (H' : tokenize (enough (x ++ y)) (x ++ y) (0 :: aft) = POk s).
    { destruct (ParserMono.tokenize_term (x ++ y) (0 :: aft) eq_refl) as (_ & S). cbn zeta in S.
      destruct (ParserMono.tokenize_mono f (Nat.max f (enough (x ++ y))) (x ++ y) (0 :: aft)) as [(q & Q)|Q]; [lia|congruence|].
      specialize (S (Nat.max f (enough (x ++ y)))). destruct S as [S|(_ & (q & S))]; [unfold enough; lia|congruence|congruence]. }
    assert (R : s_rest s = [] /\ s_aft s = 0 :: aft).
    { pose proof (tokenize_good (enough (x ++ y)) (x ++ y) (0 :: aft) (init_inv _ _)) as G. rewrite H' in G. destruct G as (_ & U & A & _).
      split; [|apply (adv_nul _ _ _ A eq_refl)].
      unfold tokenize in H'. destruct (parse_xmq _ _) as [s1| | | |]; try discriminate. cbn in H'. destruct (s_rest s1) eqn:E; [|discriminate]. now injection H' as <-. }
    cbn [app]. split; [exact H'|]. split; auto. split; auto.
    pose proof (bt_split _ _ _ Bt) as (A & C & E & XA & XC). rewrite E, spots_app, XA. apply Forall2_app.
    + apply (moved_before x [] (map shape A) [] x); auto; unfold spots; rewrite texts_shapes, XA; [lia|exists []; now rewrite app_nil_r].
    + pose proof (moved_after x [] (map shape C) []) as M. cbn [app] in M. rewrite app_nil_r in M. exact M.
  - unfold tokenize in H. destruct (parse_xmq f (init (x ++ y) (0 :: aft))) as [s1| | | |] eqn:E; cbn in H; try discriminate.
    destruct (s_rest s1) eqn:R; [|discriminate]. injection H as ->.
    assert (S0 : sim x y w (init (x ++ y) (0 :: aft)) (init (x ++ w ++ y) (0 :: aft))).
    { constructor; [apply init_inv|reflexivity|reflexivity|reflexivity|constructor|]. right. exists x. auto. }
    destruct (xmq_sim x y w Hw Hw0 (bt_char _ _ _ Bt) f _ _ _ S0 E (between_resp _ _ _ Bt)) as (k & s1' & K & S1).
    exists s1'.
    assert (R' : s_rest s1' = []).
    { destruct (sm_place _ _ _ _ _ S1) as [[Q _]|(p & _ & Q1 & Q2 & _)]; [congruence|]. exfalso.
      rewrite R in Q1. symmetry in Q1. apply app_eq_nil in Q1 as [-> ->]. cbn [app] in Q2. rewrite app_nil_r in Q2.
      pose proof (parse_xmq_rest _ _ _ (K k (le_n _))) as [P|(r & P)]; [congruence|].
      destruct w as [|c v]; [congruence|]. rewrite P in Q2. injection Q2 as <- <-.
      destruct (Hw cRB (or_introl eq_refl)); discriminate. }
    split.
    + set (src' := x ++ w ++ y) in *.
      destruct (ParserMono.tokenize_term src' (0 :: aft) eq_refl) as (_ & S). cbn zeta in S.
      specialize (S (Nat.max k (enough src'))).
      assert (Q : tokenize (Nat.max k (enough src')) src' (0 :: aft) = POk s1').
      { unfold tokenize. rewrite K by lia. cbn. now rewrite R'. }
      destruct S as [S|(_ & (q & S))]; [unfold enough; lia|congruence|congruence].
    + split; [apply (sm_toks _ _ _ _ _ S1)|]. split; [apply (sm_spots _ _ _ _ _ S1)|]. split; auto.
      rewrite (sm_aft _ _ _ _ _ S1). pose proof (parse_xmq_good f (init (x ++ y) (0 :: aft)) (init_inv _ _)) as G. rewrite E in G.
      destruct G as (_ & U & A & _). apply (adv_nul _ _ _ A eq_refl).
Qed.

(* ---------- the values of quotes and comments ---------- *)

(** The same value, apart from the size of the allocated memory. *)
Definition vsame (r r' : out (nat * bytes)) : Prop := forall f, with_value r f = with_value r' f.

Lemma in_slice a b t c : In c (slice a b t) -> In c t.
Proof. intros H. unfold slice in H. apply BuildProofs.in_firstn in H. now apply BuildProofs.in_skipn in H. Qed.

Lemma trim_same i i' s aft aft' : plain s -> (i = i' \/ ~ In cNL s) -> vsame (trim_quote i cSP s aft) (trim_quote i' cSP s aft').
Proof.
  intros [H0 H1] Hi f. destruct (trim_quote_text_block i s aft H1 H0) as (n & -> & _).
  destruct (trim_quote_text_block i' s aft' H1 H0) as (n' & -> & _). cbn.
  destruct Hi as [-> |Hi]; auto. now rewrite !text_block_single.
Qed.

Lemma plain_slice a b t : plain t -> plain (slice a b t).
Proof. intros [H1 H2]. split; intros H; apply in_slice in H; auto. Qed.
Lemma nl_slice (P : Prop) a b t : P \/ ~ In cNL t -> P \/ ~ In cNL (slice a b t).
Proof. intros [H|H]; auto. right. intros G. apply in_slice in G. auto. Qed.

Lemma un_quote_same i i' t aft aft' : plain t -> (i = i' \/ ~ In cNL t) -> vsame (un_quote i cSP t aft true) (un_quote i' cSP t aft' true).
Proof.
  intros Hp Hi f. unfold un_quote. destruct (peel _ cQ t 0) as [j| | | |]; cbn [obind]; auto.
  destruct (Nat.ltb _ j); auto. apply trim_same; [now apply plain_slice|]. apply nl_slice. destruct Hi; auto.
Qed.

Lemma un_comment_same i i' t aft aft' : plain t -> (i = i' \/ ~ In cNL t) -> vsame (un_comment i cSP t aft) (un_comment i' cSP t aft').
Proof.
  intros Hp Hi f. unfold un_comment. destruct (Nat.eqb (List.length t) 0); auto.
  destruct (nth_error t (count_lead cSLASH t)) as [c|].
  - destruct (negb (c =? cSTAR)).
    + destruct (Nat.ltb _ _); auto. apply trim_same; [now apply plain_slice|]. now apply nl_slice.
    + destruct (peel _ cSLASH t 0) as [j| | | |]; cbn [obind]; auto.
      destruct (nth_error t j) as [a|]; destruct (List.length t - j)%nat as [|b'] eqn:Eb; auto.
      destruct (nth_error t b') as [b|]; auto. destruct (negb _); auto.
      destruct (Nat.ltb (Datatypes.S j) (List.length t)) eqn:L.
      * apply Nat.ltb_lt in L. rewrite !nth_error_app1 by lia.
        destruct (nth_error t (Datatypes.S j)) as [c1|]; auto. destruct b' as [|b2]; auto.
        assert (Hi2 : (i + j + 1)%nat = (i' + j + 1)%nat \/ ~ In cNL t) by (destruct Hi; auto).
        destruct (c1 =? cSP); (destruct (nth_error t b2) as [c2|]; auto); (destruct (Nat.ltb _ _); auto);
          (apply trim_same; [now apply plain_slice|]; apply nl_slice; destruct Hi; auto).
      * apply Nat.ltb_ge in L. assert (b' = 0%nat) as -> by lia.
        destruct (nth_error (t ++ aft) (Datatypes.S j)), (nth_error (t ++ aft') (Datatypes.S j)); auto.
  - destruct (Nat.ltb (List.length t) 2); auto. apply trim_same.
    + destruct Hp as [H1 H2]. split; intros H; apply BuildProofs.in_skipn in H; auto.
    + destruct Hi as [Hi|Hi]; auto. right. intros H. apply BuildProofs.in_skipn in H. auto.
Qed.

(** The same effect of a token. *)
Lemma callback_same root t t' aft aft' s : shape t' = shape t -> plain (t_text t) -> (t_col t = t_col t' \/ ~ In cNL (t_text t)) ->
  callback root t aft s = callback root t' aft' s.
Proof.
  intros E Hp Hc. unfold shape in E. injection E as E1 E2. unfold callback. rewrite E1, E2.
  assert (Q : forall f, with_value (quote_value (t_col t) (t_text t) aft) f = with_value (quote_value (t_col t') (t_text t) aft') f).
  { apply un_quote_same; auto. destruct Hc as [-> |]; auto. }
  assert (C : forall f, with_value (comment_value (t_col t) (t_text t) aft) f = with_value (comment_value (t_col t') (t_text t) aft') f).
  { apply un_comment_same; auto. destruct Hc as [-> |]; auto. }
  assert (C2 : forall f, with_value (continuation_value (t_col t) (t_text t) aft) f = with_value (continuation_value (t_col t') (t_text t) aft') f).
  { assert (I : forall c k, In c (rep cSLASH k ++ t_text t) -> c = cSLASH \/ In c (t_text t)).
    { intros c k H. apply in_app_iff in H as [H|H]; auto. left. now apply repeat_spec in H. }
    apply un_comment_same.
    - destruct Hp as [H1 H2]. split; intros H; apply I in H as [H|H]; auto; discriminate.
    - destruct Hc as [-> |Hc]; auto. right. intros H. apply I in H as [H|H]; auto. discriminate. }
  destruct (t_kind t); rewrite ?Q, ?C, ?C2; reflexivity.
Qed.

(* ---------- the document ---------- *)

(** The tokens apart from white space with the memory after them. *)
Fixpoint solids (T : list token) (aft : bytes) : list (token * bytes) :=
  match T with
  | [] => []
  | t :: T' => (if is_white t then [] else [(t, List.concat (map t_text T') ++ aft)]) ++ solids T' aft
  end.
Fixpoint bfold (root : option bytes) (l : list (token * bytes)) (s : bst) : bout :=
  match l with
  | [] => BOk s
  | (t, a) :: l' => bbind (callback root t a s) (bfold root l')
  end.
Lemma build_solids root T aft : forall s, build root T aft s = bfold root (solids T aft) s.
Proof.
  induction T as [|t T IH]; intros s; auto. cbn [build solids].
  destruct (is_white t) eqn:W.
  - unfold is_white in W. cbn [app]. rewrite <- IH. unfold callback. destruct (t_kind t); try discriminate. reflexivity.
  - cbn [app bfold]. destruct (callback root t _ s); cbn [bbind]; auto.
Qed.
Lemma bfold_same root l l' : Forall2 (fun p p' => forall s, callback root (fst p) (snd p) s = callback root (fst p') (snd p') s) l l' ->
  forall s, bfold root l s = bfold root l' s.
Proof.
  induction 1 as [|[t a] [t' a'] l l' H _ IH]; intros s; auto. cbn [bfold fst snd] in *. rewrite H.
  destruct (callback root t' a' s); cbn [bbind]; auto.
Qed.

(** Where a token is and what it is. *)
Definition at_spot (T : list token) (p : token * bytes) (q : bytes * (kind * bytes)) : Prop :=
  t_col (fst p) = col_after (fst q) /\ shape (fst p) = snd q
  /\ exists A C, T = A ++ fst p :: C /\ texts A = fst q /\ is_white (fst p) = false.
Lemma solid_is t : solid_shape (shape t) = negb (is_white t).
Proof. unfold solid_shape, is_white, shape. cbn. destruct (t_kind t); reflexivity. Qed.
Lemma solids_spots T aft : placed T -> Forall2 (at_spot T) (solids T aft) (spots T).
Proof.
  intros P.
  assert (K : forall C A, T = A ++ C -> Forall2 (at_spot T) (solids C aft) (spots_of (texts A) (map shape C))).
  { induction C as [|t C IH]; intros A E; [constructor|]. cbn [solids map spots_of]. rewrite solid_is. apply Forall2_app.
    - destruct (is_white t) eqn:W; constructor; [|constructor]. split; [|split; auto]; cbn [fst snd].
      + now destruct (P A t C E).
      + exists A, C. auto.
    - change (snd (shape t)) with (t_text t). rewrite <- (texts_one t), <- texts_cat. apply IH. now rewrite <- app_assoc. }
  apply (K T []). reflexivity.
Qed.

Lemma Forall2_join {A A' C C'} (R : A -> C -> Prop) (S : C -> C' -> Prop) (R' : A' -> C' -> Prop) (Q : A -> A' -> Prop) :
  (forall a c c' a', R a c -> S c c' -> R' a' c' -> Q a a') ->
  forall l m m' l', Forall2 R l m -> Forall2 S m m' -> Forall2 R' l' m' -> Forall2 Q l l'.
Proof.
  intros H. induction l as [|a l IH]; intros m m' l' H1 H2 H3; inversion H1; subst; inversion H2; subst; inversion H3; subst; constructor; eauto.
Qed.

Lemma build_insert root x y w aft s s' b :
  placed (tokens s) -> placed (tokens s') -> plain_values (tokens s) -> columns_kept (tokens s) x w ->
  Forall2 (moved x w) (spots (tokens s)) (spots (tokens s')) ->
  build root (tokens s') aft b = build root (tokens s) y b.
Proof.
  intros P P' Hp Hc Hm. rewrite !build_solids. symmetry. apply bfold_same.
  refine (Forall2_join _ _ _ _ _ _ _ _ _ (solids_spots _ _ P) Hm (solids_spots _ _ P')).
  intros [t a] [u k] [u' k'] [t' a'] (H1 & H2 & (A & C & E & EA & W)) (H3 & H4) (H5 & H6 & _) b'. cbn [fst snd] in *.
  assert (I : In t (tokens s)) by (rewrite E; apply in_elt).
  apply callback_same; [congruence| |].
  - now apply Hp.
  - rewrite H1, H5. destruct H4 as [[-> _]|(v & -> & ->)]; auto.
    destruct (in_dec N.eq_dec cNL (t_text t)) as [D|D]; auto. left. symmetry. now apply (Hc A t C v).
Qed.

(* ---------- detection ---------- *)

Lemma markup_not_xmq m n : detect_markup m n <> DOk CXMQ.
Proof.
  unfold detect_markup. destruct (find_word_ignore_case (tl m) (n - 1) (B "html")) as [[?|]|]; cbn [dbind]; try discriminate.
  destruct (find_word_ignore_case m n (B "<!doctype")) as [[[m2 n2]|]|]; cbn [dbind]; try discriminate.
  destruct (find_word_ignore_case (tl m2) (n2 - 1) (B "html")) as [[?|]|]; cbn [dbind]; discriminate.
Qed.
Lemma xmq_not_lt s aft r : drop_ws s = cLT :: r -> detect_content_type s aft <> DOk CXMQ.
Proof.
  intros D. unfold detect_content_type. rewrite skip_ws_drop, D.
  assert ((Z.of_nat (List.length (cLT :: r)) <=? 0)%Z = false) as -> by (cbn [List.length]; lia).
  unfold detect_at. cbn [app]. change (cLT =? cLT) with true. cbv iota.
  destruct (startswith_within _ _ (B "<?xml")); [discriminate|].
  destruct (startswith_within _ _ (B "<!--")); [|apply markup_not_xmq].
  destruct (zip_past_comment _ _) as [m1 n1]. destruct (n1 - 3 <=? 0)%Z; [discriminate|apply markup_not_xmq].
Qed.

Lemma drop_ws_app a b : drop_ws (a ++ b) = match drop_ws a with [] => drop_ws b | _ => drop_ws a ++ b end.
Proof. induction a as [|c a IH]; auto. cbn [app drop_ws]. destruct (is_xml_whitespace c); auto. Qed.
Lemma drop_ws_spaces w : spaces w -> drop_ws w = [].
Proof.
  induction w as [|c w IH]; auto. intros H. cbn [drop_ws].
  destruct (H c (or_introl eq_refl)) as [-> | ->]; apply IH; intros d Hd; apply H; now right.
Qed.

Lemma detect_insert x y w aft : spaces w ->
  detect_content_type (x ++ y) (0 :: aft) = DOk CXMQ -> detect_content_type (x ++ w ++ y) (0 :: aft) = DOk CXMQ.
Proof.
  intros Hw H.
  assert (NL : forall r, drop_ws (x ++ y) <> cLT :: r) by (intros r E; now apply (xmq_not_lt _ (0 :: aft) r) in E).
  rewrite (detect_spec_general _ _ (or_intror NL)) in H.
  destruct (drop_ws x) as [|c r] eqn:X.
  - assert (E : drop_ws (x ++ w ++ y) = drop_ws (x ++ y)).
    { rewrite !drop_ws_app, X, (drop_ws_spaces w Hw). reflexivity. }
    rewrite detect_spec_general by (right; intros r; rewrite E; apply NL). unfold detect_spec in *. rewrite E. exact H.
  - assert (E : drop_ws (x ++ y) = c :: r ++ y) by (rewrite drop_ws_app, X; reflexivity).
    assert (E' : drop_ws (x ++ w ++ y) = c :: r ++ w ++ y) by (rewrite drop_ws_app, X; reflexivity).
    assert (C : c <> cLT) by (intros ->; apply (NL _ E)).
    rewrite detect_spec_general by (right; intros r'; rewrite E'; congruence). unfold detect_spec in *. rewrite E in H. rewrite E'.
    destruct (N.eqb_spec c cLT); [contradiction|]. destruct (existsb (N.eqb c) _); [discriminate|].
    destruct (existsb (beq (c :: r ++ w ++ y)) _) eqn:J; [|reflexivity]. exfalso.
    destruct w as [|d v]; [cbn [app] in J; rewrite J in H; discriminate|].
    apply existsb_exists in J as (u & Hu & Bu). apply beq_eq in Bu.
    assert (K : exists z, In z [B "true"; B "false"; B "null"] /\ c :: r = z /\ y = []).
    { assert (Hd : d = cSP \/ d = cNL) by (apply Hw; now left).
      assert (Q : exists z, In z [B "true"; B "false"; B "null"] /\ (u = z \/ u = z ++ [cNL])).
      { cbn [In] in Hu. repeat destruct Hu as [<-|Hu]; try (eexists; split; [|eauto]; cbn [In]; auto; fail). }
      destruct Q as (z & Hz & Ez). exists z. split; auto.
      assert (Z : ~ In d z). { intros I. cbn [In] in Hz. repeat destruct Hz as [<-|Hz]; try destruct Hz; vm_compute in I; destruct Hd as [-> | ->]; vm_compute in I; intuition discriminate. }
      assert (I : In d u) by (rewrite <- Bu; change (c :: r ++ (d :: v) ++ y) with ((c :: r) ++ d :: v ++ y); apply in_elt).
      destruct Ez as [-> | ->]; [contradiction|].
      assert (D : d = cNL) by (apply in_app_iff in I as [I|[I|[]]]; [contradiction|auto]). subst d.
      change (c :: r ++ (cNL :: v) ++ y) with ((c :: r) ++ cNL :: v ++ y) in Bu.
      assert (L : forall a t b, ~ In cNL a -> t ++ cNL :: b = a ++ [cNL] -> t = a /\ b = []).
      { clear. induction a as [|e a IH]; intros t b N E.
        - destruct t as [|f t]; cbn in E; [injection E as ->; auto|]. injection E as _ E. destruct t; discriminate.
        - destruct t as [|f t]; cbn in E; [exfalso; injection E as <- _; apply N; now left|].
          injection E as -> E. destruct (IH t b) as [-> ->]; auto. intros Q. apply N. now right. }
      destruct (L z (c :: r) (v ++ y) Z Bu) as [Q1 Q2]. apply app_eq_nil in Q2 as [_ Q2]. auto. }
    destruct K as (z & Hz & Ez & ->). rewrite app_nil_r, Ez in H.
    cbn [In] in Hz. repeat destruct Hz as [<-|Hz]; try destruct Hz; discriminate H.
Qed.

(* ---------- the whole ---------- *)

Theorem parse_insert root x y w aft s d : spaces w ->
  tokenize (enough (x ++ y)) (x ++ y) (0 :: aft) = POk s -> between_tokens (tokens s) x y -> plain_values (tokens s) -> columns_kept (tokens s) x w ->
  parse_buffer (enough (x ++ y)) root (x ++ y) (0 :: aft) = Document d ->
  parse_buffer (enough (x ++ w ++ y)) root (x ++ w ++ y) (0 :: aft) = Document d.
Proof.
  intros Hw Ht Bt Hp Ck Hd. destruct (tokens_insert _ x y w aft s Hw Ht Bt) as (s' & Ht' & _ & Sp & R' & A').
  unfold parse_buffer in Hd |- *. rewrite Ht in Hd. rewrite Ht'.
  destruct (detect_content_type (x ++ y) (0 :: aft)) as [[]|] eqn:Dt; try discriminate.
  rewrite (detect_insert x y w aft Hw Dt).
  pose proof (PropsParser.C16_token_positions _ _ _ _ (or_introl Ht)) as P. pose proof (PropsParser.C16_token_positions _ _ _ _ (or_introl Ht')) as P'.
  rewrite (build_insert root x (s_rest s ++ s_aft s) w _ s s' _ P P'); auto.
Qed.

(** Places between tokens that are not empty. *)
Lemma between_intro A C : Forall (fun t => t_text t <> []) (A ++ C) ->
  (forall t C', C = t :: C' -> ~ joined_before t) -> (forall t A', A = A' ++ [t] -> ~ joined_after t) ->
  (texts C = [] \/ exists c r, texts C = c :: r /\ starts_char c = true /\ (c = cSP \/ c = cNL \/ c = cCR \/ ~ begins_white (texts C))) ->
  between_tokens (A ++ C) (texts A) (texts C).
Proof.
  intros F H1 H2 H3.
  assert (U : forall A' C', A ++ C = A' ++ C' -> texts A' = texts A -> A' = A /\ C' = C).
  { clear H1 H2 H3. induction A as [|a A IH]; intros A' C' E X.
    - destruct A' as [|b A']; [auto|]. exfalso. cbn in E. rewrite E in F. inversion F as [|? ? Q _]; subst.
      change (b :: A') with ([b] ++ A') in X. rewrite texts_cat, texts_one in X. apply app_eq_nil in X as [X _]. auto.
    - destruct A' as [|b A'].
      + exfalso. inversion F as [|? ? Q _]; subst. change (a :: A) with ([a] ++ A) in X. rewrite texts_cat, texts_one in X. symmetry in X. apply app_eq_nil in X as [X _]. auto.
      + cbn in E. injection E as <- E. change (a :: A) with ([a] ++ A) in X. change (a :: A') with ([a] ++ A') in X. rewrite !texts_cat in X. apply app_inv_head in X.
        inversion F; subst. destruct (IH H2 A' C' E X) as [-> ->]. auto. }
  constructor; auto.
  - exists A, C. auto.
  - intros A' t C' E X. destruct (U A' (t :: C') E X) as [-> E2]. eapply H1. symmetry. exact E2.
  - intros A' t C' E X. destruct (U (A' ++ [t]) C') as [E1 _]; [rewrite <- app_assoc; exact E|exact X|]. eapply H2. symmetry. exact E1.
Qed.
