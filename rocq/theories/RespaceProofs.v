(** Proofs for C36: the parser reads the same tokens when spaces and newlines
    are added at a place between tokens.  A simulation: the parser of the source
    with the added white space follows the parser of the source, and reads the
    added white space when it gets there. *)
From Coq Require Import NArith ZArith List Bool Arith Lia String.
From Verif Require Import Bytes BytesFacts Parser ParserSpec ParserProofs Dom Grammar LexProofs Respace RespaceLex.
From Verif Require ParserTerm ParserMono.
Import ListNotations.
Local Open Scope N_scope.
Local Open Scope pout_scope.

Definition solid_shape (p : kind * bytes) : bool := match fst p with Kwhitespace => false | _ => true end.
Lemma contents_shapes T : contents T = filter solid_shape (map shape T).
Proof.
  induction T as [|t T IH]; auto. unfold contents in *. cbn [filter map]. unfold is_white at 1, solid_shape at 1, shape at 1. cbn [fst].
  destruct (t_kind t); cbn [negb map]; rewrite IH; reflexivity.
Qed.
Lemma contents_app A C : contents (A ++ C) = contents A ++ contents C.
Proof. unfold contents. now rewrite filter_app, map_app. Qed.
Lemma ate_tokens t sh s s1 : ate t sh s s1 -> exists T, tokens s1 = tokens s ++ T /\ map shape T = sh.
Proof. intros [_ _ _ (T & H & E)]. exists T. split; auto. unfold tokens. now rewrite H, rev_app_distr, rev_involutive. Qed.
Lemma ate_contents t sh s s1 : ate t sh s s1 -> contents (tokens s1) = contents (tokens s) ++ filter solid_shape sh.
Proof. intros A. destruct (ate_tokens _ _ _ _ A) as (T & -> & <-). now rewrite contents_app, (contents_shapes T). Qed.

(** The tokens apart from white space, with the bytes before them. *)
Fixpoint spots_of (u : bytes) (sh : list (kind * bytes)) : list (bytes * (kind * bytes)) :=
  match sh with
  | [] => []
  | p :: r => (if solid_shape p then [(u, p)] else []) ++ spots_of (u ++ snd p) r
  end.
Definition spots (T : list token) : list (bytes * (kind * bytes)) := spots_of [] (map shape T).
Lemma spots_of_app a : forall u b, spots_of u (a ++ b) = spots_of u a ++ spots_of (u ++ List.concat (map snd a)) b.
Proof.
  induction a as [|p a IH]; intros u b; cbn [app spots_of map List.concat]; [now rewrite app_nil_r|].
  now rewrite IH, <- !app_assoc.
Qed.
Lemma texts_shapes T : List.concat (map snd (map shape T)) = texts T.
Proof. unfold texts. rewrite map_map. reflexivity. Qed.
Lemma spots_app T U : spots (T ++ U) = spots T ++ spots_of (texts T) (map shape U).
Proof. unfold spots. rewrite map_app, spots_of_app, texts_shapes. reflexivity. Qed.
Lemma texts_cat A C : texts (A ++ C) = texts A ++ texts C.
Proof. unfold texts. now rewrite map_app, concat_app. Qed.
Lemma ate_spots t sh s s1 : ate t sh s s1 -> spots (tokens s1) = spots (tokens s) ++ spots_of (texts (tokens s)) sh.
Proof. intros A. destruct (ate_tokens _ _ _ _ A) as (T & -> & <-). now rewrite spots_app. Qed.
Lemma ate_texts t sh s s1 : ate t sh s s1 -> texts (tokens s1) = texts (tokens s) ++ List.concat (map snd sh).
Proof. intros A. destruct (ate_tokens _ _ _ _ A) as (T & -> & <-). now rewrite texts_cat, texts_shapes. Qed.

Section Insert.
Variables x y w : bytes.
Hypothesis Hw : spaces w.
Hypothesis Hw0 : w <> [].
Hypothesis Hy : y = [] \/ exists c r, y = c :: r /\ starts_char c = true /\ (c = cSP \/ c = cNL \/ c = cCR \/ ~ begins_white y).

Lemma y_char : char_next y.
Proof. destruct Hy as [-> |(c & r & -> & H & _)]; cbn; auto. Qed.
Lemma w_char : forall z, char_next (w ++ z).
Proof. intros z. destruct w as [|c r]; [congruence|]. destruct (Hw c (or_introl eq_refl)) as [-> | ->]; reflexivity. Qed.
Lemma w_cons : exists c r, w = c :: r /\ (c = cSP \/ c = cNL).
Proof. destruct w as [|c r]; [congruence|]. exists c, r. split; auto. apply Hw. left; auto. Qed.

(** The tokens read so far respect the place. *)
Record resp (T : list token) : Prop := {
  rs_in : forall A t C, T = A ++ t :: C -> ~ (List.length (texts A) < List.length x < List.length (texts A) + List.length (t_text t))%nat;
  rs_before : forall A t C, T = A ++ t :: C -> texts A = x -> ~ joined_before t;
  rs_after : forall A t C, T = A ++ t :: C -> texts (A ++ [t]) = x -> ~ joined_after t }.

Lemma resp_app T U : resp (T ++ U) -> resp T.
Proof.
  intros [H1 H2 H3].
  constructor; intros A t C E; [apply (H1 A t (C ++ U))|apply (H2 A t (C ++ U))|apply (H3 A t (C ++ U))]; now rewrite E, <- app_assoc.
Qed.

Definition near (z z' : bytes) : Prop := z' = z \/ exists p, z = p ++ y /\ z' = p ++ w ++ y.

Lemma near_starts P z z' : P cSP = false -> P cNL = false -> near z z' -> ~ starts P z -> ~ starts P z'.
Proof.
  intros P1 P2 [-> |(p & -> & ->)] H; auto. intros (c & r & E & G). destruct p as [|d p].
  - cbn in E. destruct w_cons as (a & v & E2 & Ha). rewrite E2 in E. cbn in E. injection E as <- <-. destruct Ha as [-> | ->]; congruence.
  - cbn in E. injection E as <- <-. apply H. exists d, (p ++ y). auto.
Qed.

(** The same token, before the place or after it. *)
Definition moved (a a' : bytes * (kind * bytes)) : Prop :=
  snd a' = snd a /\ ((fst a' = fst a /\ exists q, x = fst a ++ q) \/ exists v, fst a = x ++ v /\ fst a' = x ++ w ++ v).
Definition past (s s' : pst) : Prop := exists v, texts (tokens s) = x ++ v /\ texts (tokens s') = x ++ w ++ v.

Record sim (s s' : pst) : Prop := {
  sm_inv : inv s;
  sm_nul : nul_after s;
  sm_aft : s_aft s' = s_aft s;
  sm_toks : contents (tokens s') = contents (tokens s);
  sm_spots : Forall2 moved (spots (tokens s)) (spots (tokens s'));
  sm_place : s_rest s' = s_rest s /\ past s s' \/ exists p, x = rev (s_pre s) ++ p /\ s_rest s = p ++ y /\ s_rest s' = p ++ w ++ y
                /\ texts (tokens s') = texts (tokens s) }.
(** The place is not here. *)
Definition ready (s s' : pst) : Prop := sim s s'
  /\ (s_rest s' = s_rest s /\ past s s' \/ exists p, p <> [] /\ x = rev (s_pre s) ++ p /\ s_rest s = p ++ y /\ s_rest s' = p ++ w ++ y
                /\ texts (tokens s') = texts (tokens s)).

Lemma ready_sim s s' : ready s s' -> sim s s'.
Proof. now intros []. Qed.
Lemma sim_nul s s' : sim s s' -> nul_after s'.
Proof. intros S. unfold nul_after. rewrite (sm_aft _ _ S). apply (sm_nul _ _ S). Qed.

Lemma ready_hd s s' : ready s s' -> hd_error (s_rest s') = hd_error (s_rest s).
Proof. intros [_ [[-> _]|(p & Hp & _ & -> & -> & _)]]; auto. destruct p; [congruence|reflexivity]. Qed.
Lemma ready_cons s s' c r : ready s s' -> s_rest s = c :: r -> exists r', s_rest s' = c :: r'.
Proof. intros R E. apply ready_hd in R. rewrite E in R. destruct (s_rest s') as [|d r']; [discriminate|]. injection R as ->. eauto. Qed.
Lemma ready_nil s s' : ready s s' -> s_rest s = [] -> s_rest s' = [].
Proof. intros R E. apply ready_hd in R. rewrite E in R. destruct (s_rest s') as [|d r']; [auto|discriminate]. Qed.
Lemma peek_hd s s' : s_aft s' = s_aft s -> nul_after s -> hd_error (s_rest s') = hd_error (s_rest s) -> peek s' = peek s.
Proof. unfold peek. intros A _ H. rewrite A. destruct (s_rest s'), (s_rest s); cbn in *; congruence. Qed.
Lemma ready_peek s s' : ready s s' -> peek s' = peek s.
Proof. intros R. apply peek_hd; [apply (sm_aft _ _ (proj1 R))|apply (sm_nul _ _ (proj1 R))|now apply ready_hd]. Qed.
Lemma ready_peek_is c s s' : ready s s' -> peek_is c s' = peek_is c s.
Proof. intros R. unfold peek_is. now rewrite (ready_peek _ _ R). Qed.

(** Taking a text that ends before or at the place. *)
Definition fits (t : bytes) (s : pst) : Prop :=
  forall p, p <> [] -> x = rev (s_pre s) ++ p -> s_rest s = p ++ y -> (List.length t <= List.length p)%nat.

Lemma app_prefix (t z p u : bytes) : t ++ z = p ++ u -> (List.length t <= List.length p)%nat -> exists q, p = t ++ q /\ z = q ++ u.
Proof.
  revert p. induction t as [|a t IH]; intros p E L; [exists p; auto|]. destruct p as [|b p]; [cbn in L; lia|].
  injection E as <- E. destruct (IH p E) as (q & -> & ->); [cbn in L; lia|]. exists q. auto.
Qed.

(** The emitted tokens cover no more than the bytes taken. *)
Lemma moved_before sh : forall u p, x = u ++ p -> (List.length (List.concat (map snd sh)) <= List.length p)%nat ->
  (exists q, p = List.concat (map snd sh) ++ q) -> Forall2 moved (spots_of u sh) (spots_of u sh).
Proof.
  induction sh as [|[k t] sh IH]; intros u p X L (q & Q); cbn [spots_of snd map List.concat] in *; [constructor|].
  apply Forall2_app.
  - destruct (solid_shape (k, t)); constructor; auto. split; auto. left. split; auto. exists p. exact X.
  - rewrite Q, <- app_assoc in X. apply (IH _ (List.concat (map snd sh) ++ q)); [now rewrite <- app_assoc|rewrite app_length; lia|eauto].
Qed.
Lemma moved_after sh : forall v, Forall2 moved (spots_of (x ++ v) sh) (spots_of (x ++ w ++ v) sh).
Proof.
  induction sh as [|[k t] sh IH]; intros v; cbn [spots_of snd]; [constructor|]. apply Forall2_app.
  - destruct (solid_shape (k, t)); constructor; auto. split; auto. right. exists v. auto.
  - replace ((x ++ w ++ v) ++ t) with (x ++ w ++ v ++ t) by now rewrite <- !app_assoc. rewrite <- (app_assoc x v t). apply IH.
Qed.

Lemma ate_covers t sh s s1 : inv s -> ate t sh s s1 -> inv s1 -> List.concat (map snd sh) = t.
Proof.
  intros I A I1. pose proof (ate_texts _ _ _ _ A) as E. rewrite (inv_texts _ I), (inv_texts _ I1), (a_pre _ _ _ _ A), rev_app_distr, rev_involutive in E.
  now apply app_inv_head in E.
Qed.

Lemma advance t sh s s' s1 : ready s s' -> fits t s -> ate t sh s s1 -> inv s1 ->
  exists z', s_rest s' = t ++ z' /\ near (s_rest s1) z'
   /\ forall s1', ate t sh s' s1' -> sim s1 s1'.
Proof.
  intros [S P] F A I. pose proof (ate_covers _ _ _ _ (sm_inv _ _ S) A I) as Cv. pose proof (inv_texts _ (sm_inv _ _ S)) as It.
  pose proof (ate_texts _ _ _ _ A) as Et. rewrite Cv in Et.
  assert (G : exists z', s_rest s' = t ++ z'
    /\ ((z' = s_rest s1 /\ past s s') \/ exists p, x = rev (s_pre s1) ++ p /\ s_rest s1 = p ++ y /\ z' = p ++ w ++ y
          /\ x = texts (tokens s) ++ t ++ p /\ texts (tokens s') = texts (tokens s))).
  { destruct P as [[E Pa]|(p & Hp & X & E1 & E2 & E3)].
    - exists (s_rest s1). split; auto. rewrite E. apply (a_rest _ _ _ _ A).
    - specialize (F p Hp X E1). rewrite (a_rest _ _ _ _ A) in E1. destruct (app_prefix _ _ _ _ E1 F) as (q & -> & Q).
      exists (q ++ w ++ y). split; [now rewrite E2, <- app_assoc|]. right. exists q.
      assert (X2 : x = rev (s_pre s1) ++ q) by (rewrite X, (a_pre _ _ _ _ A), rev_app_distr, rev_involutive, <- app_assoc; reflexivity).
      repeat split; auto. rewrite It. exact X. }
  destruct G as (z' & R & Z). exists z'. split; auto. split.
  - destruct Z as [[-> _]|(p & _ & Z1 & Z2 & _)]; [now left|right; eauto].
  - intros s1' A'. pose proof (ate_texts _ _ _ _ A') as Et'. rewrite Cv in Et'. constructor; auto.
    + apply (ate_nul _ _ _ _ A), (sm_nul _ _ S).
    + rewrite (a_aft _ _ _ _ A), (a_aft _ _ _ _ A'). apply (sm_aft _ _ S).
    + rewrite (ate_contents _ _ _ _ A), (ate_contents _ _ _ _ A'). f_equal. apply (sm_toks _ _ S).
    + rewrite (ate_spots _ _ _ _ A), (ate_spots _ _ _ _ A'). apply Forall2_app; [apply (sm_spots _ _ S)|].
      destruct Z as [[_ (v & V1 & V2)]|(p & _ & _ & _ & X & X2)].
      * rewrite V1, V2. apply moved_after.
      * rewrite X2. apply (moved_before _ _ (t ++ p)); auto; rewrite Cv; [rewrite app_length; lia|eauto].
    + rewrite (ate_rest _ _ _ _ z' A' R). destruct Z as [[-> (v & V1 & V2)]|(p & Z1 & Z2 & Z3 & X & X2)].
      * left. split; auto. exists (v ++ t). rewrite Et, Et', V1, V2, <- !app_assoc. auto.
      * right. exists p. repeat split; auto. congruence.
Qed.

Lemma resp_one k t s s1 : inv s -> ate t [(k, t)] s s1 -> resp (tokens s1) -> fits t s.
Proof.
  intros I A Rs p Hp X E. destruct (ate_tokens _ _ _ _ A) as (T & ET & ES). destruct T as [|tk [|]]; try discriminate.
  injection ES as _ Et. pose proof (rs_in _ Rs (tokens s) tk [] ET) as G.
  rewrite (inv_texts _ I), Et in G. rewrite X, app_length in G. assert (List.length p <> 0)%nat by (destruct p; [congruence|discriminate]). lia.
Qed.

Lemma resp_name a b k1 k2 s s1 : inv s -> ate (a ++ cCOLON :: b) [(k1, a); (Kns_colon, [cCOLON]); (k2, b)] s s1 ->
  resp (tokens s1) -> fits (a ++ cCOLON :: b) s.
Proof.
  intros I A Rs p Hp X E. destruct (ate_tokens _ _ _ _ A) as (T & ET & ES).
  destruct T as [|t1 [|t2 [|t3 [|]]]]; try discriminate. injection ES as K1 T1 K2 T2 K3 T3.
  assert (Lp : (List.length p <> 0)%nat) by (destruct p; [congruence|discriminate]).
  assert (Lx : List.length x = (List.length (rev (s_pre s)) + List.length p)%nat) by (rewrite X, app_length; lia).
  pose proof (rs_in _ Rs (tokens s) t1 [t2; t3] ET) as G1.
  assert (ET2 : tokens s1 = (tokens s ++ [t1]) ++ t2 :: [t3]) by (rewrite ET, <- app_assoc; reflexivity).
  assert (ET3 : tokens s1 = (tokens s ++ [t1; t2]) ++ t3 :: []) by (rewrite ET, <- app_assoc; reflexivity).
  pose proof (rs_in _ Rs _ t3 [] ET3) as G3.
  pose proof (rs_before _ Rs _ t2 [t3] ET2) as G2.
  pose proof (rs_after _ Rs _ t2 [t3] ET2) as G4. rewrite <- app_assoc in G4. cbn [app] in G4.
  rewrite !texts_app, (inv_texts _ I) in *. unfold texts in G2, G3, G4. cbn [map List.concat] in *. rewrite ?app_nil_r, T1, ?T2, ?T3 in *.
  rewrite app_length in *. cbn [List.length] in *.
  destruct (Nat.le_gt_cases (List.length a + S (List.length b)) (List.length p)) as [|L]; auto. exfalso.
  assert (Q : p ++ y = a ++ cCOLON :: b ++ s_rest s1) by (rewrite <- E, (a_rest _ _ _ _ A), <- app_assoc; reflexivity).
  destruct (Nat.lt_trichotomy (List.length p) (List.length a)) as [L1|[L1|L1]].
  - rewrite ?app_length in *. cbn [List.length] in *. lia.
  - assert (P1 : p = a).
    { destruct (app_prefix _ _ _ _ (eq_sym Q)) as (q & Q1 & _); [lia|]. rewrite Q1, app_length in L1. destruct q; [now rewrite app_nil_r in Q1|cbn in L1; lia]. }
    apply G2; [now rewrite X, P1|]. left. exact K2.
  - destruct (Nat.eq_dec (List.length p) (S (List.length a))) as [L2|L2].
    + assert (P1 : p = a ++ [cCOLON]).
      { assert (Q' : p ++ y = (a ++ [cCOLON]) ++ b ++ s_rest s1) by (rewrite Q, <- app_assoc; reflexivity).
        destruct (app_prefix _ _ _ _ (eq_sym Q')) as (q & Q1 & _); [rewrite app_length; cbn; lia|].
        rewrite Q1, !app_length in L2. cbn in L2. destruct q; [now rewrite app_nil_r in Q1|cbn in L2; lia]. }
      apply G4; [now rewrite X, P1|]. left. exact K2.
    + apply G3. rewrite ?app_length. cbn [List.length]. lia.
Qed.

Lemma fits_one c s : fits [c] s.
Proof. intros p Hp _ _. destruct p; [congruence|cbn; lia]. Qed.

(** good, without what is not needed here *)
Lemma good_inv s s1 : good s (POk s1) -> inv s -> inv s1 /\ exists T, tokens s1 = tokens s ++ T.
Proof. intros G I. destruct (G I) as (I1 & T & A & _). split; auto. exists T. apply (adv_toks _ _ _ A). Qed.
Lemma resp_back s r s1 : good s r -> r = POk s1 -> inv s -> resp (tokens s1) -> resp (tokens s).
Proof. intros G -> I R. destruct (good_inv _ _ G I) as (_ & T & E). rewrite E in R. now apply resp_app in R. Qed.

(* ---------- the tokens ---------- *)

Lemma single_sim k c s s' : ready s s' -> peek_is c s = true -> c <> 0 -> good s (POk (single k c s)) ->
  sim (single k c s) (single k c s').
Proof.
  intros R P Hc G. pose proof (proj1 R) as S. destruct (nul_peek _ _ (sm_nul _ _ S) P Hc) as (r & E).
  destruct (ready_cons _ _ _ _ R E) as (r' & E').
  destruct (advance [c] _ s s' _ R (fits_one c s) (ate_single k c s r E) (proj1 (good_inv _ _ G (sm_inv _ _ S)))) as (z & _ & _ & H).
  apply H. eapply ate_single; eauto.
Qed.

Lemma quote_sim l s s' s1 : ready s s' -> peek_is cQ s = true -> parse_quote l s = POk s1 -> resp (tokens s1) ->
  exists s1', parse_quote l s' = POk s1' /\ sim s1 s1'.
Proof.
  intros R P H Rs. pose proof (proj1 R) as S. pose proof (parse_quote_good l s P) as G. rewrite H in G.
  destruct (quote_local _ _ _ H) as (t & A & Hn & _ & L).
  destruct (advance t _ s s' s1 R (resp_one _ _ _ _ (sm_inv _ _ S) A Rs) A (proj1 (good_inv _ _ G (sm_inv _ _ S)))) as (z & E & N & X).
  destruct (L s' z E) as (s1' & E1 & A'); [now apply (near_starts (is cQ) (s_rest s1))|]. eauto.
Qed.

Lemma entity_sim l s s' s1 : ready s s' -> peek_is cAMP s = true -> parse_entity l s = POk s1 -> resp (tokens s1) ->
  exists s1', parse_entity l s' = POk s1' /\ sim s1 s1'.
Proof.
  intros R P H Rs. pose proof (proj1 R) as S. pose proof (parse_entity_good l s P) as G. rewrite H in G.
  destruct (entity_local _ _ _ (sm_nul _ _ S) P H) as (t & A & _ & L).
  destruct (advance t _ s s' s1 R (resp_one _ _ _ _ (sm_inv _ _ S) A Rs) A (proj1 (good_inv _ _ G (sm_inv _ _ S)))) as (z & E & N & X).
  destruct (L s' z (sim_nul _ _ S) E) as (s1' & E1 & A'); eauto.
  - now apply near_starts.
  - now apply near_starts.
Qed.

Lemma value_loop_local z z' : near z z' -> forall t pre p, (forall pre p, exists q, value_loop pre z p = Cur pre z q) ->
  (forall u v, t = u ++ v -> v <> [] -> is_safe_value_char (v ++ z) = true) ->
  exists q, value_loop pre (t ++ z') p = Cur (rev t ++ pre) z' q.
Proof.
  intros N. assert (NS : forall v, v <> [] -> is_safe_value_char (v ++ z) = true -> is_safe_value_char (v ++ z') = true).
  { intros v Hv H. destruct N as [-> |(p & -> & ->)]; auto. rewrite app_assoc in H. rewrite app_assoc.
    rewrite <- (safe_local (v ++ p) y (w ++ y)); auto using y_char, w_char. destruct v; [congruence|discriminate]. }
  assert (NU : is_safe_value_char z = false -> is_safe_value_char z' = false).
  { intros H. destruct N as [-> |(p & -> & ->)]; auto. destruct p as [|c p].
    - cbn [app]. destruct w_cons as (c & r & -> & [-> | ->]); reflexivity.
    - rewrite <- (safe_local (c :: p) y (w ++ y)); auto using y_char, w_char. discriminate. }
  induction t as [|c t IH]; intros pre p Hz Ht; cbn [app].
  - assert (U : is_safe_value_char z = false).
    { destruct z as [|c r]; auto. destruct (is_safe_value_char (c :: r)) eqn:E; auto. exfalso.
      destruct (Hz [] (1, 1)) as (q & Hq). cbn [value_loop] in Hq. rewrite E in Hq.
      destruct (value_loop_eaten r [c] (inc c (1, 1))) as (t & _ & X & _). rewrite Hq in X. cbn [k_rest] in X.
      apply (f_equal (@List.length _)) in X. rewrite app_length in X. cbn in X. lia. }
    apply NU in U. exists p. destruct z' as [|d r]; [reflexivity|]. cbn [value_loop]. now rewrite U.
  - cbn [value_loop]. change (c :: t ++ z') with ((c :: t) ++ z'). rewrite (NS (c :: t)); [|discriminate|apply (Ht [] (c :: t)); auto; discriminate].
    destruct (IH (c :: pre) (inc c p) Hz) as (q & ->).
    + intros u v E Hv. apply (Ht (c :: u) v); auto. now rewrite E.
    + exists q. f_equal. cbn [rev]. now rewrite <- app_assoc.
Qed.

Lemma value_loop_spec : forall rest pre p, exists t z, rest = t ++ z /\ k_pre (value_loop pre rest p) = rev t ++ pre
  /\ k_rest (value_loop pre rest p) = z /\ (forall pre p, exists q, value_loop pre z p = Cur pre z q)
  /\ (forall u v, t = u ++ v -> v <> [] -> is_safe_value_char (v ++ z) = true).
Proof.
  induction rest as [|c r IH]; intros pre p; cbn [value_loop].
  - exists [], []. repeat split; auto. { intros; eexists; reflexivity. } intros u v E Hv. destruct u, v; try discriminate. congruence.
  - destruct (is_safe_value_char (c :: r)) eqn:E.
    + destruct (IH (c :: pre) (inc c p)) as (t & z & H1 & H2 & H3 & H4 & H5). exists (c :: t), z.
      split; [cbn; now f_equal|]. split; [cbn [rev]; now rewrite <- app_assoc|]. split; auto. split; auto.
      intros u v X Hv. destruct u as [|d u]; [|injection X as <- X; eauto]. cbn in X. subst v. cbn [app]. now rewrite <- H1.
    + exists [], (c :: r). repeat split; auto.
      * intros pre' p'. exists p'. cbn [value_loop]. now rewrite E.
      * intros u v X Hv. destruct u, v; try discriminate. congruence.
Qed.

Lemma text_value_sim l s s' : ready s s' -> resp (tokens (parse_text_value l s)) ->
  sim (parse_text_value l s) (parse_text_value l s').
Proof.
  intros R Rs. pose proof (proj1 R) as S.
  destruct (value_loop_spec (s_rest s) (s_pre s) (s_line s, s_col s)) as (t & z & H1 & H2 & H3 & H4 & H5).
  set (k := match l with LAttr => Kattr_value_text | _ => Kelement_value_text end).
  assert (A : ate t [(k, t)] s (parse_text_value l s)).
  { apply ate_emit_from, ate_set_cur; [exact H2|]. now rewrite H3. }
  assert (Rz : s_rest (parse_text_value l s) = z) by exact H3.
  destruct (advance t _ s s' _ R (resp_one _ _ _ _ (sm_inv _ _ S) A Rs) A (proj1 (good_inv _ _ (parse_text_value_good l s) (sm_inv _ _ S)))) as (z' & E & N & X).
  rewrite Rz in N. apply X. apply ate_emit_from.
  destruct (value_loop_local z z' N t (s_pre s') (s_line s', s_col s') H4 H5) as (q & Hq). rewrite E, Hq. apply ate_set_cur; cbn; auto.
Qed.

Lemma continuations_sim num : (1 <= num)%nat -> forall f s s' s1, sim s s' -> starb (s_rest s) = true ->
  continuations f num s = POk s1 -> resp (tokens s1) ->
  starb (s_rest s') = true /\ exists k s1', (forall f', (k <= f')%nat -> continuations f' num s' = POk s1') /\ sim s1 s1'.
Proof.
  intros Hn. induction f as [|f IH]; intros s s' s1 S Hs H Rs; [discriminate|].
  assert (P : peek_is cSTAR s = true).
  { destruct (s_rest s) as [|c r] eqn:E; [discriminate|]. rewrite (peek_is_rest _ _ _ _ E). exact Hs. }
  pose proof (continuations_good (Datatypes.S f) num s Hn P) as GA. rewrite H in GA. cbn [continuations] in H.
  destruct (s_rest s) as [|c u] eqn:E; [discriminate|]. apply N.eqb_eq in Hs. subst c.
  destruct (eat_comment_to_close num s) as [r more] eqn:C. destruct r as [s2| | | |]; try discriminate. cbn [pbind] in H.
  destruct (close_local num [] u s s2 more (sm_nul _ _ S) (or_introl eq_refl) E C) as (t & A & Hz & Hm & L). cbn [app] in *.
  apply (ate_emit_from Kcomment_continuation) in A. set (sm := emit_from Kcomment_continuation s s2) in *.
  assert (Rm : s_rest sm = s_rest s2) by reflexivity.
  assert (GM : good s (POk sm)).
  { pose proof (eat_comment_to_close_spec num s Hn (or_intror (or_intror P))) as HH. rewrite C in HH. destruct HH as (t0 & M & _).
    eapply ok_moved; eauto; discriminate. }
  assert (RM : resp (tokens sm)).
  { destruct more; [|injection H as <-; exact Rs].
    assert (Pm : peek_is cSTAR sm = true).
    { rewrite <- Rm in Hm. destruct (s_rest sm) as [|c r] eqn:Er; [discriminate|]. rewrite (peek_is_rest _ _ _ _ Er). now symmetry. }
    apply (resp_back sm _ s1 (continuations_good f num sm Hn Pm) H); auto. apply (proj1 (good_inv _ _ GM (sm_inv _ _ S))). }
  assert (RD : ready s s').
  { split; auto. destruct (sm_place _ _ S) as [Q|(p & X & Q1 & Q2)]; [now left|]. right. exists p. split; auto. intros ->.
    rewrite app_nil_r in X. destruct (ate_tokens _ _ _ _ A) as (T & ET & ES). destruct T as [|tk [|]]; try discriminate.
    injection ES as Kt _. apply (rs_before _ RM (tokens s) tk [] ET); [|right; exact Kt]. rewrite (inv_texts _ (sm_inv _ _ S)). now symmetry. }
  destruct (advance _ _ s s' sm RD (resp_one _ _ _ _ (sm_inv _ _ S) A RM) A (proj1 (good_inv _ _ GM (sm_inv _ _ S)))) as (z & E' & N & X).
  rewrite Rm in N. split; [now rewrite E'|].
  destruct (L s' z (sim_nul _ _ S) E') as (s2' & C' & A'); [now apply (near_starts (is cSLASH) (s_rest s2))|].
  pose proof (X _ (ate_emit_from Kcomment_continuation _ _ _ A')) as SM.
  destruct more.
  - destruct (IH sm (emit_from Kcomment_continuation s' s2') s1 SM) as (Hs' & k & s1' & HF & S1); auto.
    exists (Datatypes.S k), s1'. split; [|exact S1]. intros f' Hf. destruct f' as [|f']; [lia|]. cbn [continuations].
    assert (Z : starb z = true).
    { rewrite <- Hs'. change (s_rest (emit_from Kcomment_continuation s' s2')) with (s_rest s2'). now rewrite (ate_rest _ _ _ _ z A' E'). }
    rewrite C', Z. cbn [pbind]. apply HF. lia.
  - injection H as <-. exists 1%nat, (emit_from Kcomment_continuation s' s2'). split; [|exact SM].
    intros f' Hf. destruct f' as [|f']; [lia|]. cbn [continuations]. rewrite C'. cbn [pbind].
    assert (Z : starb z = false).
    { destruct (starb z) eqn:Z; auto. exfalso. assert (St : starts (is cSTAR) z) by (destruct z as [|d v]; [discriminate|exists d, v; auto]).
      revert St. apply (near_starts (is cSTAR) (s_rest s2)); auto. intros (d & v & Q & G). rewrite Q in Hm. unfold is in G. cbn in Hm. congruence. }
    now rewrite Z.
Qed.

Lemma comment_sim f s s' s1 c r : ready s s' -> s_rest s = cSLASH :: c :: r -> c = cSLASH \/ c = cSTAR ->
  parse_comment f s = POk s1 -> resp (tokens s1) ->
  (exists r', s_rest s' = cSLASH :: c :: r') /\
  exists k s1', (forall f', (k <= f')%nat -> parse_comment f' s' = POk s1') /\ sim s1 s1'.
Proof.
  intros R E Hc H Rs. pose proof (proj1 R) as S. pose proof (parse_comment_good f s r c E Hc) as G. rewrite H in G.
  pose proof (good_inv _ _ G (sm_inv _ _ S)) as [I1 _].
  unfold parse_comment in H. rewrite (count_slashes_val _ _ (sm_nul _ _ S)) in H.
  destruct (starb (skipn (slashes (s_rest s)) (s_rest s))) eqn:B.
  - destruct (slashes_split (s_rest s)) as (u & Hu & Hn). set (n := slashes (s_rest s)) in *.
    assert (Hn1 : (1 <= n)%nat) by (unfold n; rewrite E; cbn; lia).
    rewrite Hu, skipn_rep in B. destruct u as [|d u]; [discriminate|]. apply N.eqb_eq in B. subst d.
    destruct (eat_comment_to_close n s) as [q more] eqn:C. destruct q as [s2| | | |]; try discriminate. cbn [pbind] in H.
    destruct (close_local n (rep cSLASH n) u s s2 more (sm_nul _ _ S) (or_intror (conj eq_refl Hn1)) Hu C) as (t & A & Hz & Hm & L).
    apply (ate_emit_from Kcomment) in A. set (sm := emit_from Kcomment s s2) in *.
    assert (Rm : s_rest sm = s_rest s2) by reflexivity.
    assert (GM : good s (POk sm)).
    { pose proof (eat_comment_to_close_spec n s Hn1 (or_introl (ex_intro _ u (conj Hu Hn1)))) as HH. rewrite C in HH. destruct HH as (t0 & M & _).
      eapply ok_moved; eauto; discriminate. }
    assert (RM : resp (tokens sm)).
    { destruct more; [|injection H as <-; exact Rs].
      assert (Pm : peek_is cSTAR sm = true).
      { rewrite <- Rm in Hm. destruct (s_rest sm) as [|e v] eqn:Er; [discriminate|]. rewrite (peek_is_rest _ _ _ _ Er). now symmetry. }
      apply (resp_back sm _ s1 (continuations_good f n sm Hn1 Pm) H); auto. apply (proj1 (good_inv _ _ GM (sm_inv _ _ S))). }
    destruct (advance _ _ s s' sm R (resp_one _ _ _ _ (sm_inv _ _ S) A RM) A (proj1 (good_inv _ _ GM (sm_inv _ _ S)))) as (z & E' & N & X).
    rewrite Rm in N.
    destruct (L s' z (sim_nul _ _ S) E') as (s2' & C' & A'); [now apply (near_starts (is cSLASH) (s_rest s2))|].
    pose proof (X _ (ate_emit_from Kcomment _ _ _ A')) as SM.
    assert (E'' : s_rest s' = rep cSLASH n ++ cSTAR :: t ++ z) by (rewrite E', <- app_assoc; reflexivity).
    assert (CS : count_slashes (s_rest s') (s_aft s') = Some (n, true)).
    { rewrite (count_slashes_val _ _ (sim_nul _ _ S)), E''.
      rewrite slashes_rep; [|intros (e & v & Q1 & Q2); injection Q1 as <- <-; discriminate]. now rewrite skipn_rep. }
    split.
    { rewrite E''. rewrite E in Hu. destruct n as [|[|n0]]; [lia| |]; cbn in Hu.
      - injection Hu as -> _. eexists. reflexivity.
      - injection Hu as -> _. eexists. reflexivity. }
    destruct more.
    + assert (Hs : starb (s_rest sm) = true) by (rewrite Rm; now symmetry).
      destruct (continuations_sim n Hn1 f sm (emit_from Kcomment s' s2') s1 SM Hs H Rs) as (Hs' & k & s1' & HF & S1).
      exists k, s1'. split; [|exact S1]. intros f' Hf. unfold parse_comment. rewrite CS.
      assert (Z : starb z = true).
      { rewrite <- Hs'. change (s_rest (emit_from Kcomment s' s2')) with (s_rest s2'). now rewrite (ate_rest _ _ _ _ z A' E'). }
      rewrite C', Z. cbn [pbind]. apply HF. lia.
    + injection H as <-. exists 0%nat, (emit_from Kcomment s' s2'). split; [|exact SM].
      intros f' _. unfold parse_comment. rewrite CS, C'. cbn [pbind].
      assert (Z : starb z = false).
      { destruct (starb z) eqn:Z; auto. exfalso. assert (St : starts (is cSTAR) z) by (destruct z as [|d v]; [discriminate|exists d, v; auto]).
        revert St. apply (near_starts (is cSTAR) (s_rest s2)); auto. intros (d & v & Q & G'). rewrite Q in Hm. unfold is in G'. cbn in Hm. congruence. }
      now rewrite Z.
  - injection H as <-.
    assert (Hc2 : c = cSLASH).
    { destruct Hc as [-> | ->]; auto. exfalso. rewrite E in B. cbn in B. discriminate. }
    subst c. destruct (line_comment_local s r (slashes (s_rest s)) (sm_nul _ _ S) E) as (t & A & (r2 & Ht) & D).
    { rewrite (count_slashes_val _ _ (sm_nul _ _ S)). now rewrite B. }
    destruct (advance _ _ s s' _ R (resp_one _ _ _ _ (sm_inv _ _ S) A Rs) A I1) as (z & E' & N & X).
    split; [rewrite E', Ht; eexists; reflexivity|].
    destruct D as [(D1 & D2 & D3 & D4)|(D1 & D2)].
    + assert (Z : z = []).
      { change (s_rest (emit_from Kcomment s (eat_comment_to_eol s))) with (s_rest (eat_comment_to_eol s)) in N. rewrite D2 in N.
        destruct N as [N|(p & N1 & N2)]; auto. exfalso. symmetry in N1. apply app_eq_nil in N1. destruct N1 as [-> Y]. cbn [app] in N2.
        (* the place would be the end of the comment *)
        destruct R as [_ [[Q _]|(p & Hp & X1 & X2 & X3 & _)]].
        - rewrite E' in Q. rewrite (a_rest _ _ _ _ A) in Q. apply app_inv_head in Q.
          change (s_rest (emit_from Kcomment s (eat_comment_to_eol s))) with (s_rest (eat_comment_to_eol s)) in Q. rewrite D2 in Q. subst z.
          rewrite Y, app_nil_r in N2. auto.
        - rewrite Y, app_nil_r in X2. pose proof (a_rest _ _ _ _ A) as X4.
          change (s_rest (emit_from Kcomment s (eat_comment_to_eol s))) with (s_rest (eat_comment_to_eol s)) in X4. rewrite D2, app_nil_r in X4.
          destruct (ate_tokens _ _ _ _ A) as (T & ET & ES). destruct T as [|tk [|]]; try discriminate. injection ES as Kt Tt.
          apply (rs_after _ Rs (tokens s) tk [] ET).
          + rewrite texts_app, texts_one, (inv_texts _ (sm_inv _ _ S)), Tt, X1. congruence.
          + right. rewrite Kt, Tt. split; auto. split; auto. exists r2. split; auto. intros m v Q. apply (D3 (Datatypes.S (Datatypes.S m)) v). rewrite Ht, Q. reflexivity. }
      subst z. rewrite app_nil_r in E'. destruct (D4 s' (sim_nul _ _ S) E') as (s1' & HF & A'). exists 0%nat, s1'. auto.
    + destruct (D2 s' z (sim_nul _ _ S) E') as (s1' & HF & A'). exists 0%nat, s1'. auto.
Qed.

(* ---------- white space ---------- *)

Definition spnl (c : N) : Prop := c = cSP \/ c = cNL \/ c = cCR.
Lemma spnl_xml c : spnl c -> is_xml_whitespace c = true.
Proof. intros [-> |[-> | ->]]; reflexivity. Qed.
Lemma spnl_xmq c : spnl c -> is_xmq_token_whitespace c = true.
Proof. intros [-> |[-> | ->]]; reflexivity. Qed.

Lemma ws_ate s t z : (forall pre q, exists q2, ws_loop pre (s_rest s) q = Cur (rev t ++ pre) z q2) -> s_rest s = t ++ z ->
  ate t [(Kwhitespace, t)] s (parse_whitespace s).
Proof.
  intros H E. unfold parse_whitespace. apply ate_emit_from. destruct (H (s_pre s) (s_line s, s_col s)) as (q & ->).
  apply ate_set_cur; cbn; auto.
Qed.

Lemma pw_sim s s' : sim s s' -> ready (parse_whitespace s) (parse_whitespace s').
Proof.
  intros S. pose proof (good_inv _ _ (parse_whitespace_good s) (sm_inv _ _ S)) as [I1 _].
  pose proof (inv_texts _ (sm_inv _ _ S)) as It.
  assert (G : forall t t' z z', ate t [(Kwhitespace, t)] s (parse_whitespace s) -> ate t' [(Kwhitespace, t')] s' (parse_whitespace s') ->
    s_rest s = t ++ z -> s_rest s' = t' ++ z' ->
    ((z' = z /\ exists v, texts (tokens s) ++ t = x ++ v /\ texts (tokens s') ++ t' = x ++ w ++ v)
      \/ exists p, p <> [] /\ x = rev (s_pre s) ++ t ++ p /\ z = p ++ y /\ z' = p ++ w ++ y /\ t' = t /\ texts (tokens s') = texts (tokens s)) ->
    ready (parse_whitespace s) (parse_whitespace s')).
  { intros t t' z z' A A' E E' P. apply (ate_rest _ _ _ _ z A) in E. apply (ate_rest _ _ _ _ z' A') in E'.
    pose proof (ate_texts _ _ _ _ A) as Et. pose proof (ate_texts _ _ _ _ A') as Et'. cbn [map snd List.concat] in Et, Et'. rewrite app_nil_r in Et, Et'.
    assert (P' : s_rest (parse_whitespace s') = s_rest (parse_whitespace s) /\ past (parse_whitespace s) (parse_whitespace s')
      \/ exists p, p <> [] /\ x = rev (s_pre (parse_whitespace s)) ++ p
        /\ s_rest (parse_whitespace s) = p ++ y /\ s_rest (parse_whitespace s') = p ++ w ++ y
        /\ texts (tokens (parse_whitespace s')) = texts (tokens (parse_whitespace s))).
    { unfold past. rewrite E, E', (a_pre _ _ _ _ A), rev_app_distr, rev_involutive, Et, Et'. destruct P as [[-> V]|(p & P0 & P1 & P2 & P3 & -> & ->)]; [now left|].
      right. exists p. rewrite <- app_assoc. auto. }
    split; [|exact P']. constructor; auto.
    - apply (ate_nul _ _ _ _ A), (sm_nul _ _ S).
    - rewrite (a_aft _ _ _ _ A), (a_aft _ _ _ _ A'). apply (sm_aft _ _ S).
    - rewrite (ate_contents _ _ _ _ A), (ate_contents _ _ _ _ A'). cbn [filter solid_shape fst]. rewrite !app_nil_r. apply (sm_toks _ _ S).
    - rewrite (ate_spots _ _ _ _ A), (ate_spots _ _ _ _ A'). cbn [spots_of solid_shape fst]. rewrite !app_nil_r. apply (sm_spots _ _ S).
    - destruct P' as [Q|(p & _ & Q)]; eauto. }
  destruct (sm_place _ _ S) as [[E (v & V1 & V2)]|(p & X & E1 & E2 & E3)].
  - destruct (ws_loop_uniform _ (s_rest s) (le_n _)) as (t & z & H1 & H2).
    apply (G t t z z); auto; [apply (ws_ate s t z); auto| |congruence|].
    + apply (ws_ate s' t z); rewrite E; auto.
    + left. split; auto. exists (v ++ t). rewrite V1, V2, <- !app_assoc. auto.
  - destruct (ws_loop_insert w y Hw y_char (w_char y) _ p (le_n _)) as [(t & p' & -> & Hp & H1 & H2)|(t & z & Y & H1 & H2)].
    + apply (G t t (p' ++ y) (p' ++ w ++ y)).
      * apply (ws_ate s t (p' ++ y)); rewrite E1; auto. now rewrite <- app_assoc.
      * apply (ws_ate s' t (p' ++ w ++ y)); rewrite E2; auto. now rewrite <- app_assoc.
      * now rewrite E1, <- app_assoc.
      * now rewrite E2, <- app_assoc.
      * right. exists p'. repeat split; auto.
    + apply (G (p ++ t) (p ++ w ++ t) z z).
      * apply (ws_ate s (p ++ t) z); rewrite E1; auto. now rewrite Y, <- app_assoc.
      * apply (ws_ate s' (p ++ w ++ t) z); rewrite E2; auto. now rewrite Y, <- !app_assoc.
      * now rewrite E1, Y, <- app_assoc.
      * now rewrite E2, Y, <- !app_assoc.
      * left. split; auto. exists t. rewrite E3, It, !app_assoc, <- X. rewrite <- !app_assoc. auto.
Qed.

Lemma sync s s' : sim s s' -> ready s s'
  \/ (exists c r c' r', s_rest s = c :: r /\ s_rest s' = c' :: r' /\ spnl c /\ spnl c')
  \/ (exists c' r', s_rest s' = c' :: r' /\ spnl c' /\ ready s (parse_whitespace s')
        /\ (forall c r, s_rest s = c :: r -> is_xml_whitespace c = false)).
Proof.
  intros S. destruct (sm_place _ _ S) as [E|(p & X & E1 & E2 & E3)]; [left; split; auto|].
  destruct p as [|a p]; [|left; split; auto; right; exists (a :: p); split; [discriminate|auto]]. right. cbn [app] in *.
  destruct w_cons as (c' & r' & W & Hc1). assert (Hc' : spnl c') by (unfold spnl; tauto). clear Hc1.
  destruct Hy as [Y|(c & r & Y & _ & C)].
  2: destruct C as [C|[C|[C|C]]].
  2, 3, 4: left; exists c, r, c', (r' ++ y); rewrite E1, E2, W; (split; [exact Y|split; [reflexivity|split; [unfold spnl; auto|exact Hc']]]).
  all: right; exists c', (r' ++ y); split; [now rewrite E2, W|]; split; [exact Hc'|].
  all: assert (Cy : count_ws y = 0%nat) by first [rewrite Y; reflexivity|now apply solid_count].
  all: split; [|intros d v Ed; apply (solid_not_xml d v); rewrite <- Ed, E1; now apply solid_count].
  all: assert (A' : ate w [(Kwhitespace, w)] s' (parse_whitespace s'))
    by (apply (ws_ate s' w y); auto; intros pre q; rewrite E2; destruct (ws_loop_spaces w y Hw pre q) as (q1 & ->);
        exists q1; destruct y as [|d v]; [reflexivity|]; cbn [ws_loop]; rewrite Cy; reflexivity).
  all: pose proof (ate_rest _ _ _ _ y A' E2) as R'.
  all: pose proof (ate_texts _ _ _ _ A') as Et'; cbn [map snd List.concat] in Et'; rewrite app_nil_r in Et'.
  all: assert (Pa : past s (parse_whitespace s'))
    by (exists []; rewrite Et', E3, (inv_texts _ (sm_inv _ _ S)); rewrite app_nil_r in X; rewrite <- X, !app_nil_r; auto).
  all: split; [constructor|left; split; [congruence|exact Pa]].
  all: try apply (sm_inv _ _ S); try apply (sm_nul _ _ S).
  all: try (rewrite (a_aft _ _ _ _ A'); apply (sm_aft _ _ S)).
  all: try (rewrite (ate_contents _ _ _ _ A'); cbn [filter solid_shape fst]; rewrite app_nil_r; apply (sm_toks _ _ S)).
  all: try (rewrite (ate_spots _ _ _ _ A'); cbn [spots_of solid_shape fst]; rewrite !app_nil_r; apply (sm_spots _ _ S)).
  all: left; split; [congruence|exact Pa].
Qed.

Lemma pw_peek s : nul_after s -> exists d, peek (parse_whitespace s) = Some d.
Proof.
  intros N. destruct (ws_loop_uniform _ (s_rest s) (le_n _)) as (t & z & H1 & H2).
  pose proof (ate_nul _ _ _ _ (ws_ate s t z H2 H1) N) as N'. unfold nul_after, peek in *.
  destruct (s_rest (parse_whitespace s)); cbn; [|eauto]. destruct (s_aft (parse_whitespace s)); [discriminate|cbn; eauto].
Qed.

Lemma skip_ws s c r : nul_after s -> s_rest s = c :: r -> is_xml_whitespace c = true -> skip_space s = POk (parse_whitespace s).
Proof.
  intros N E H. unfold skip_space. rewrite (peek_rest _ _ _ E), H. destruct (pw_peek s N) as (d & ->). reflexivity.
Qed.
Lemma skip_none s : nul_after s -> (forall c r, s_rest s = c :: r -> is_xml_whitespace c = false) -> skip_space s = POk s.
Proof.
  intros N H. unfold skip_space, peek, nul_after in *. destruct (s_rest s) as [|c r]; cbn.
  - destruct (s_aft s); [discriminate|]. injection N as ->. reflexivity.
  - rewrite (H c r eq_refl). reflexivity.
Qed.

Lemma skip_sim s s' s1 : sim s s' -> skip_space s = POk s1 -> exists s1', skip_space s' = POk s1' /\ ready s1 s1'.
Proof.
  intros S H. pose proof (sm_nul _ _ S) as N. pose proof (sim_nul _ _ S) as N'.
  destruct (sync _ _ S) as [R|[(c & r & c' & r' & E & E' & C & C')|(c' & r' & E' & C' & R & Q)]].
  - destruct (s_rest s) as [|c r] eqn:E.
    + rewrite skip_none in H; auto; [|intros c r G; congruence]. injection H as <-. exists s'. split; auto.
      apply skip_none; auto. intros c r G. apply (ready_nil _ _ R) in E. congruence.
    + destruct (ready_cons _ _ _ _ R E) as (r' & E'). destruct (is_xml_whitespace c) eqn:W.
      * rewrite (skip_ws s c r N E W) in H. injection H as <-. rewrite (skip_ws s' c r' N' E' W). eexists. split; [reflexivity|].
        now apply pw_sim.
      * rewrite skip_none in H; auto; [|intros d v G; congruence]. injection H as <-. exists s'. split; auto.
        apply skip_none; auto. intros d v G. congruence.
  - rewrite (skip_ws s c r N E (spnl_xml _ C)) in H. injection H as <-. rewrite (skip_ws s' c' r' N' E' (spnl_xml _ C')).
    eexists. split; [reflexivity|]. now apply pw_sim.
  - rewrite skip_none in H; auto. injection H as <-. rewrite (skip_ws s' c' r' N' E' (spnl_xml _ C')). eauto.
Qed.

(* ---------- compounds and values ---------- *)

Lemma children_sim l : forall f s s' s1, sim s s' -> compound_children f l s = POk s1 -> resp (tokens s1) ->
  exists k s1', (forall f', (k <= f')%nat -> compound_children f' l s' = POk s1') /\ sim s1 s1'.
Proof.
  induction f as [|f IH].
  - (* only the end *)
    intros s s' s1 S H Rs. cbn [compound_children] in H. destruct (s_rest s) eqn:E; [|discriminate]. injection H as <-.
    destruct (sync _ _ S) as [R|[(c & r & c' & r' & E1 & _)|(c' & r' & E' & C' & R & Q)]]; [|congruence|].
    + exists 0%nat, s'. split; [|exact S]. intros f' _. destruct f'; cbn [compound_children]; now rewrite (ready_nil _ _ R E).
    + exists 1%nat, (parse_whitespace s'). split; [|apply R]. intros f' Hf. destruct f' as [|f']; [lia|]. cbn [compound_children]. rewrite E', (spnl_xml _ C').
      destruct f'; cbn [compound_children]; now rewrite (ready_nil _ _ R E).
  - assert (RDY : forall s s' s1, ready s s' -> compound_children (S f) l s = POk s1 -> resp (tokens s1) ->
      exists k s1', (forall f', (k <= f')%nat -> compound_children f' l s' = POk s1') /\ sim s1 s1').
    { intros s s' s1 R H Rs. pose proof (proj1 R) as S. pose proof (compound_children_good (Datatypes.S f) l s) as G. cbn [compound_children] in H.
      destruct (s_rest s) as [|c r] eqn:E.
      { injection H as <-. exists 0%nat, s'. split; [|exact S]. intros f' _. destruct f'; cbn [compound_children]; now rewrite (ready_nil _ _ R E). }
      destruct (ready_cons _ _ _ _ R E) as (r' & E').
      assert (STEP : forall k s1' (F : nat -> pst -> pout), sim s1 s1' -> (forall f', (k <= f')%nat -> F f' s' = POk s1') ->
         (forall f', compound_children (Datatypes.S f') l s' = F f' s') ->
         exists k s1', (forall f', (k <= f')%nat -> compound_children f' l s' = POk s1') /\ sim s1 s1').
      { intros k s1' F S1 HF HE. exists (Datatypes.S k), s1'. split; [|exact S1]. intros f' Hf. destruct f' as [|f']; [lia|]. rewrite HE. apply HF. lia. }
      destruct (is_xml_whitespace c) eqn:W.
      { destruct (IH _ _ _ (ready_sim _ _ (pw_sim _ _ S)) H Rs) as (k & s1' & HF & S1).
        apply (STEP k s1' (fun f' s => compound_children f' l (parse_whitespace s))); auto.
        intros f'. cbn [compound_children]. now rewrite E', W. }
      destruct (c =? cRP) eqn:C1.
      { injection H as <-. exists 1%nat, s'. split; [|exact S]. intros f' Hf. destruct f' as [|f']; [lia|]. cbn [compound_children]. now rewrite E', W, C1. }
      destruct (c =? cQ) eqn:C2.
      { assert (P : peek_is cQ s = true) by (rewrite (peek_is_rest _ _ _ _ E); exact C2).
        destruct (parse_quote l s) as [s2| | | |] eqn:Q; try discriminate. cbn [pbind] in H.
        pose proof (parse_quote_good l s P) as G2. rewrite Q in G2. pose proof (good_inv _ _ G2 (sm_inv _ _ S)) as [I2 _].
        pose proof (resp_back s2 _ s1 (compound_children_good f l s2) H I2 Rs) as R2.
        destruct (quote_sim l s s' s2 R P Q R2) as (s2' & Q' & S2).
        destruct (IH _ _ _ S2 H Rs) as (k & s1' & HF & S1).
        apply (STEP k s1' (fun f' s => compound_children f' l s2')); auto.
        intros f'. cbn [compound_children]. now rewrite E', W, C1, C2, Q'. }
      destruct (c =? cAMP) eqn:C3; [|discriminate].
      assert (P : peek_is cAMP s = true) by (rewrite (peek_is_rest _ _ _ _ E); exact C3).
      destruct (parse_entity l s) as [s2| | | |] eqn:Q; try discriminate. cbn [pbind] in H.
      pose proof (parse_entity_good l s P) as G2. rewrite Q in G2. pose proof (good_inv _ _ G2 (sm_inv _ _ S)) as [I2 _].
      pose proof (resp_back s2 _ s1 (compound_children_good f l s2) H I2 Rs) as R2.
      destruct (entity_sim l s s' s2 R P Q R2) as (s2' & Q' & S2).
      destruct (IH _ _ _ S2 H Rs) as (k & s1' & HF & S1).
      apply (STEP k s1' (fun f' s => compound_children f' l s2')); auto.
      intros f'. cbn [compound_children]. now rewrite E', W, C1, C2, C3, Q'. }
    intros s s' s1 S H Rs.
    destruct (sync _ _ S) as [R|[(c & r & c' & r' & E & E' & C & C')|(c' & r' & E' & C' & R & Q)]]; [eauto| |].
    + cbn [compound_children] in H. rewrite E, (spnl_xml _ C) in H.
      destruct (IH _ _ _ (ready_sim _ _ (pw_sim _ _ S)) H Rs) as (k & s1' & HF & S1). exists (Datatypes.S k), s1'. split; [|exact S1].
      intros f' Hf. destruct f' as [|f']; [lia|]. cbn [compound_children]. rewrite E', (spnl_xml _ C'). apply HF. lia.
    + destruct (RDY _ _ _ R H Rs) as (k & s1' & HF & S1). exists (Datatypes.S k), s1'. split; [|exact S1].
      intros f' Hf. destruct f' as [|f']; [lia|]. cbn [compound_children]. rewrite E', (spnl_xml _ C'). apply HF. lia.
Qed.

Lemma single_inv k c s : peek_is c s = true -> c <> 0 -> bracket_text (Tok k 0 0 [c] []) -> inv s -> inv (single k c s).
Proof. intros P Hc B I. apply (single_spec k c s P Hc B I). Qed.
Lemma single_toks k c s r : s_rest s = c :: r -> exists T, tokens (single k c s) = tokens s ++ T.
Proof. intros E. destruct (ate_tokens _ _ _ _ (ate_single k c s r E)) as (T & H & _). eauto. Qed.

Lemma single_ready k c s s' : ready s s' -> peek_is c s = true -> c <> 0 -> bracket_text (Tok k 0 0 [c] []) ->
  sim (single k c s) (single k c s').
Proof.
  intros R P Hc B. pose proof (proj1 R) as S. destruct (nul_peek _ _ (sm_nul _ _ S) P Hc) as (r & E).
  destruct (ready_cons _ _ _ _ R E) as (r' & E').
  destruct (advance [c] _ s s' _ R (fits_one c s) (ate_single k c s r E) (single_inv _ _ _ P Hc B (sm_inv _ _ S))) as (z & _ & _ & H).
  apply H. eapply ate_single; eauto.
Qed.

(** A closing bracket after white space. *)
Definition close_with (k : kind) (c e : N) (s : pst) : pout :=
  s2 <- skip_space s ; if negb (peek_is c s2) then PErr e s2 else POk (single k c s2).

Lemma close_sim k c e s s' s1 : c <> 0 -> bracket_text (Tok k 0 0 [c] []) -> sim s s' -> close_with k c e s = POk s1 ->
  exists s1', close_with k c e s' = POk s1' /\ sim s1 s1'.
Proof.
  unfold close_with. intros Hc B S H. destruct (skip_space s) as [s2| | | |] eqn:Q; try discriminate. cbn [pbind] in H.
  destruct (peek_is c s2) eqn:P; [|discriminate]. cbn [negb] in H. injection H as <-.
  destruct (skip_sim _ _ _ S Q) as (s2' & Q' & R). rewrite Q'. cbn [pbind]. rewrite (ready_peek_is c _ _ R), P. cbn [negb].
  eexists. split; [reflexivity|]. now apply single_ready.
Qed.

Lemma skip_tokens s s1 : skip_space s = POk s1 -> exists T, tokens s1 = tokens s ++ T.
Proof.
  unfold skip_space. destruct (peek s) as [c|]; [|discriminate]. destruct (is_xml_whitespace c).
  - destruct (peek (parse_whitespace s)); [|discriminate]. intros [= <-].
    unfold parse_whitespace, emit_from, tokens. cbn. eauto.
  - intros [= <-]. exists []. now rewrite app_nil_r.
Qed.
Lemma close_tokens k c e s s1 : close_with k c e s = POk s1 -> c <> 0 -> nul_after s -> exists T, tokens s1 = tokens s ++ T.
Proof.
  unfold close_with. intros H Hc N. destruct (skip_space s) as [s2| | | |] eqn:Q; try discriminate. cbn [pbind] in H.
  destruct (peek_is c s2) eqn:P; [|discriminate]. cbn [negb] in H. injection H as <-.
  destruct (skip_tokens _ _ Q) as (T & E). unfold single, emit_from, tokens, emit, step in *.
  destruct (inc c _) as [a b]. destruct (s_rest s2); [destruct (s_aft s2)|]; cbn [s_toks rev]; rewrite E, <- app_assoc; eauto.
Qed.

Lemma compound_sim f l s s' s1 : ready s s' -> peek_is cLP s = true -> parse_compound f l s = POk s1 -> resp (tokens s1) ->
  exists k s1', (forall f', (k <= f')%nat -> parse_compound f' l s' = POk s1') /\ sim s1 s1'.
Proof.
  intros R P H Rs. unfold parse_compound in H. pose proof (single_ready Kcpar_left cLP s s' R P ltac:(discriminate) eq_refl) as S1.
  cbv zeta in H. destruct (compound_children f _ _) as [s2| | | |] eqn:Q; try discriminate. cbn [pbind] in H. fold (close_with Kcpar_right cRP E_COMPOUND_NOT_CLOSED s2) in H.
  pose proof (compound_children_good f (enter_compound l) (single Kcpar_left cLP s)) as G. rewrite Q in G.
  pose proof (G (sm_inv _ _ S1)) as (I2 & T2 & A2 & _).
  assert (R2 : resp (tokens s2)).
  { destruct (close_tokens _ _ _ _ _ H ltac:(discriminate) (adv_nul_after _ _ _ A2 (sm_nul _ _ S1))) as (T & E). rewrite E in Rs. now apply resp_app in Rs. }
  destruct (children_sim _ _ _ _ _ S1 Q R2) as (k & s2' & HF & S2).
  destruct (close_sim Kcpar_right cRP _ s2 s2' s1 ltac:(discriminate) eq_refl S2 H) as (s1' & H' & S3).
  exists k, s1'. split; [|exact S3]. intros f' Hf. unfold parse_compound. cbv zeta. rewrite (HF f' Hf). exact H'.
Qed.

Lemma value_sim f l s s' s1 : sim s s' -> parse_value f l s = POk s1 -> resp (tokens s1) ->
  exists k s1', (forall f', (k <= f')%nat -> parse_value f' l s' = POk s1') /\ sim s1 s1'.
Proof.
  intros S H Rs. unfold parse_value in H. destruct (skip_space s) as [s2| | | |] eqn:Q; try discriminate. cbn [pbind] in H.
  destruct (skip_sim _ _ _ S Q) as (s2' & Q' & R).
  destruct (peek_is cQ s2) eqn:P1.
  { destruct (quote_sim l s2 s2' s1 R P1 H Rs) as (s1' & H' & S1). exists 0%nat, s1'. split; [|exact S1]. intros f' _.
    unfold parse_value. rewrite Q'. cbn [pbind]. now rewrite (ready_peek_is _ _ _ R), P1. }
  destruct (peek_is cAMP s2) eqn:P2.
  { destruct (entity_sim l s2 s2' s1 R P2 H Rs) as (s1' & H' & S1). exists 0%nat, s1'. split; [|exact S1]. intros f' _.
    unfold parse_value. rewrite Q'. cbn [pbind]. now rewrite !(ready_peek_is _ _ _ R), P1, P2. }
  destruct (peek_is cLP s2) eqn:P3.
  { destruct (compound_sim f l s2 s2' s1 R P3 H Rs) as (k & s1' & H' & S1). exists k, s1'. split; [|exact S1]. intros f' Hf.
    unfold parse_value. rewrite Q'. cbn [pbind]. rewrite !(ready_peek_is _ _ _ R), P1, P2, P3. now apply H'. }
  destruct (peek s2) as [c|] eqn:Pk; [|discriminate]. destruct (peek1 s2) as [cc|] eqn:Pk1; [|discriminate].
  destruct (unsafe_value_start c cc) eqn:U; [discriminate|]. injection H as <-.
  assert (X : exists cc', peek1 s2' = Some cc' /\ unsafe_value_start c cc' = false).
  { pose proof (proj1 R) as S2. destruct R as [_ [[E _]|(p & Hp & _ & E1 & E2 & _)]].
    - exists cc. split; auto. unfold peek1 in *. now rewrite E, (sm_aft _ _ S2).
    - destruct p as [|a [|b p]]; [congruence| |].
      + destruct w_cons as (d & v & W & D). exists d. split; [unfold peek1; rewrite E2, W; reflexivity|].
        unfold peek in Pk. rewrite E1 in Pk. cbn in Pk. injection Pk as ->. unfold unsafe_value_start in *.
        destruct D as [-> | ->]; rewrite andb_false_r; destruct (c =? cEQ), (c =? cAMP); auto.
      + exists b. unfold peek1 in *. rewrite E1 in Pk1. rewrite E2. cbn in *. split; congruence. }
  destruct X as (cc' & X1 & X2).
  exists 0%nat, (parse_text_value l s2'). split; [|now apply text_value_sim]. intros f' _.
  unfold parse_value. rewrite Q'. cbn [pbind]. now rewrite !(ready_peek_is _ _ _ R), P1, P2, P3, (ready_peek _ _ R), Pk, X1, X2.
Qed.

(* ---------- attributes ---------- *)

Lemma attr_name_sim s s' : ready s s' ->
  let h s := emit_attr_name (s_line s) (s_col s) (between s (eat_name s)) (eat_name s) in
  resp (tokens (h s)) -> sim (h s) (h s').
Proof.
  intros R h Rs. pose proof (proj1 R) as S. destruct (name_local s) as (n & A & Hn & Hz & L).
  assert (Ah : ate n (attr_shapes n) s (h s)).
  { unfold h. rewrite (between_ate _ _ _ _ A). now apply ate_attr. }
  assert (I1 : inv (h s)).
  { destruct (eat_name_moved s) as (t & M & H & _). unfold h. rewrite (between_moved _ _ _ M). apply (attr_name_good s _ t M H (sm_inv _ _ S)). }
  assert (F : fits n s).
  { pose proof Ah as A2. unfold attr_shapes in A2. destruct (split_colon n) as [[ns b]|] eqn:E.
    - apply split_colon_eq in E. subst n. destruct (beq ns _); eapply resp_name; eauto; apply (sm_inv _ _ S).
    - eapply resp_one; eauto. apply (sm_inv _ _ S). }
  destruct (advance n _ s s' _ R F Ah I1) as (z & E & N & X). apply X.
  assert (Rz : s_rest (h s) = s_rest (eat_name s)).
  { unfold h, emit_attr_name. destruct (split_colon _) as [[]|]; [destruct (beq _ _)|]; reflexivity. }
  rewrite Rz in N.
  pose proof (L s' z E) as A'. unfold h. rewrite (between_ate n [] s' _).
  2:{ apply A'. now apply (near_starts is_xmq_text_name (s_rest (eat_name s))). }
  apply ate_attr. apply A'. now apply (near_starts is_xmq_text_name (s_rest (eat_name s))).
Qed.

Lemma attribute_sim f s s' s1 : ready s s' -> parse_attribute f s = POk s1 -> resp (tokens s1) ->
  exists k s1', (forall f', (k <= f')%nat -> parse_attribute f' s' = POk s1') /\ sim s1 s1'.
Proof.
  intros R H Rs. pose proof (proj1 R) as S. unfold parse_attribute in H. cbv zeta in H.
  set (h := fun s => emit_attr_name (s_line s) (s_col s) (between s (eat_name s)) (eat_name s)) in *.
  change (emit_attr_name (s_line s) (s_col s) (between s (eat_name s)) (eat_name s)) with (h s) in H.
  assert (I1 : inv (h s)).
  { destruct (eat_name_moved s) as (t & M & G & _). unfold h. rewrite (between_moved _ _ _ M). apply (attr_name_good s _ t M G (sm_inv _ _ S)). }
  destruct (skip_space (h s)) as [s2| | | |] eqn:Q; try discriminate. cbn [pbind] in H.
  pose proof (skip_space_good (h s)) as G2. rewrite Q in G2. destruct (good_inv _ _ G2 I1) as (I2 & T2 & E2).
  assert (R2 : resp (tokens s2)).
  { destruct (peek_is cEQ s2) eqn:P; [|now injection H as <-].
    eapply (resp_back s2 _ s1 (good_pre_ok _ _ _ (single_equals_good s2 P) (parse_value_good f LAttr _))); eauto. }
  assert (R1 : resp (tokens (h s))) by (rewrite E2 in R2; now apply resp_app in R2).
  destruct (skip_sim _ _ _ (attr_name_sim s s' R R1) Q) as (s2' & Q' & RD). fold (h s') in Q'.
  destruct (peek_is cEQ s2) eqn:P.
  - destruct (value_sim f LAttr _ _ s1 (single_ready Kequals cEQ _ _ RD P ltac:(discriminate) eq_refl) H Rs) as (k & s1' & HF & S1).
    exists k, s1'. split; [|exact S1]. intros f' Hf. unfold parse_attribute. cbv zeta. fold (h s'). rewrite Q'. cbn [pbind].
    rewrite (ready_peek_is _ _ _ RD), P. now apply HF.
  - injection H as <-. exists 0%nat, s2'. split; [|apply RD]. intros f' _. unfold parse_attribute. cbv zeta. fold (h s'). rewrite Q'. cbn [pbind].
    now rewrite (ready_peek_is _ _ _ RD), P.
Qed.

Lemma attributes_sim : forall f s s' s1, sim s s' -> Parser.attributes f s = POk s1 -> resp (tokens s1) ->
  exists k s1', (forall f', (k <= f')%nat -> Parser.attributes f' s' = POk s1') /\ sim s1 s1'.
Proof.
  induction f as [|f IH].
  - intros s s' s1 S H Rs. cbn [Parser.attributes] in H. destruct (s_rest s) eqn:E; [|discriminate]. injection H as <-.
    destruct (sync _ _ S) as [R|[(c & r & c' & r' & E1 & _)|(c' & r' & E' & C' & R & Q)]]; [|congruence|].
    + exists 0%nat, s'. split; [|exact S]. intros f' _. destruct f'; cbn [Parser.attributes]; now rewrite (ready_nil _ _ R E).
    + exists 1%nat, (parse_whitespace s'). split; [|apply R]. intros f' Hf. destruct f' as [|f']; [lia|]. cbn [Parser.attributes]. rewrite E', (spnl_xml _ C').
      destruct f'; cbn [Parser.attributes]; now rewrite (ready_nil _ _ R E).
  - assert (RDY : forall s s' s1, ready s s' -> Parser.attributes (S f) s = POk s1 -> resp (tokens s1) ->
      exists k s1', (forall f', (k <= f')%nat -> Parser.attributes f' s' = POk s1') /\ sim s1 s1').
    { intros s s' s1 R H Rs. pose proof (proj1 R) as S. cbn [Parser.attributes] in H.
      destruct (s_rest s) as [|c r] eqn:E.
      { injection H as <-. exists 0%nat, s'. split; [|exact S]. intros f' _. destruct f'; cbn [Parser.attributes]; now rewrite (ready_nil _ _ R E). }
      destruct (ready_cons _ _ _ _ R E) as (r' & E').
      destruct (is_xml_whitespace c) eqn:W.
      { destruct (IH _ _ _ (ready_sim _ _ (pw_sim _ _ S)) H Rs) as (k & s1' & HF & S1).
        exists (Datatypes.S k), s1'. split; [|exact S1]. intros f' Hf. destruct f' as [|f']; [lia|]. cbn [Parser.attributes]. rewrite E', W. apply HF. lia. }
      destruct (c =? cRP) eqn:C1.
      { injection H as <-. exists 1%nat, s'. split; [|exact S]. intros f' Hf. destruct f' as [|f']; [lia|]. cbn [Parser.attributes]. now rewrite E', W, C1. }
      destruct (is_attribute_key_start c) eqn:C2.
      2:{ injection H as <-. exists 1%nat, s'. split; [|exact S]. intros f' Hf. destruct f' as [|f']; [lia|]. cbn [Parser.attributes]. now rewrite E', W, C1, C2. }
      destruct (parse_attribute (Datatypes.S f) s) as [s2| | | |] eqn:Q; try discriminate. cbn [pbind] in H.
      pose proof (parse_attribute_good (Datatypes.S f) s) as G2. rewrite Q in G2. pose proof (good_inv _ _ G2 (sm_inv _ _ S)) as [I2 _].
      pose proof (resp_back s2 _ s1 (attributes_good f s2) H I2 Rs) as R2.
      destruct (attribute_sim _ s s' s2 R Q R2) as (k2 & s2' & Q' & S2).
      destruct (IH _ _ _ S2 H Rs) as (k & s1' & HF & S1).
      exists (Datatypes.S (k + k2)), s1'. split; [|exact S1]. intros f' Hf. destruct f' as [|f']; [lia|]. cbn [Parser.attributes].
      rewrite E', W, C1, C2, Q' by lia. cbn [pbind]. apply HF. lia. }
    intros s s' s1 S H Rs.
    destruct (sync _ _ S) as [R|[(c & r & c' & r' & E & E' & C & C')|(c' & r' & E' & C' & R & Q)]]; [eauto| |].
    + cbn [Parser.attributes] in H. rewrite E, (spnl_xml _ C) in H.
      destruct (IH _ _ _ (ready_sim _ _ (pw_sim _ _ S)) H Rs) as (k & s1' & HF & S1). exists (Datatypes.S k), s1'. split; [|exact S1].
      intros f' Hf. destruct f' as [|f']; [lia|]. cbn [Parser.attributes]. rewrite E', (spnl_xml _ C'). apply HF. lia.
    + destruct (RDY _ _ _ R H Rs) as (k & s1' & HF & S1). exists (Datatypes.S k), s1'. split; [|exact S1].
      intros f' Hf. destruct f' as [|f']; [lia|]. cbn [Parser.attributes]. rewrite E', (spnl_xml _ C'). apply HF. lia.
Qed.

(* ---------- elements ---------- *)

Definition attrs_part (f : nat) (s : pst) : pout :=
  if peek_is cLP s then
    s <- Parser.attributes f (single Kapar_left cLP (set_attr (Some (here s)) s)) ; close_with Kapar_right cRP E_ATTRIBUTES_NOT_CLOSED s
  else POk s.
Definition rest_part (f : nat) (body : pst -> pout) (s : pst) : pout :=
  if peek_is cEQ s then
    parse_value f LElem (single Kequals cEQ (set_equals (Some (here s)) s))
  else if peek_is cLB s then
    s <- body (single Kbrace_left cLB (set_body (Some (here s)) s)) ; close_with Kbrace_right cRB E_BODY_NOT_CLOSED s
  else POk s.
Lemma element_tail_parts f body s : ParserTerm.element_tail f body s
  = (s3 <- skip_space s ; s4 <- attrs_part f s3 ; s5 <- skip_space s4 ; rest_part f body s5).
Proof. reflexivity. Qed.

Lemma attrs_part_good f s : good s (attrs_part f s).
Proof.
  unfold attrs_part. destruct (peek_is cLP s) eqn:E; [|apply good_self].
  eapply good_pre_ok; [apply good_marks, set_attr_marks|].
  apply (bracket_good Kapar_left cLP Kapar_right cRP E_ATTRIBUTES_NOT_CLOSED (Parser.attributes f)); auto; try discriminate; try reflexivity.
  + unfold opens. auto.
  + intros s' K. unfold error_mark. cbn. unfold keeps, s_marks in K. cbn in K.
    inversion K as [|? ? ? ? _ K2]; subst. inversion K2 as [|? ? ? ? K3 _]; subst. apply K3. discriminate.
  + apply attributes_good.
Qed.
Lemma rest_part_good f body s : (forall s, good s (body s)) -> good s (rest_part f body s).
Proof.
  intros Hb. unfold rest_part. destruct (peek_is cEQ s) eqn:E1.
  + eapply good_pre_ok; [apply good_marks, set_equals_marks|].
    eapply good_pre_ok; [now apply single_equals_good|apply parse_value_good].
  + destruct (peek_is cLB s) eqn:E2; [|apply good_self].
    eapply good_pre_ok; [apply good_marks, set_body_marks|].
    apply (bracket_good Kbrace_left cLB Kbrace_right cRB E_BODY_NOT_CLOSED body); auto; try discriminate; try reflexivity.
    * unfold opens. auto.
    * intros s' K. unfold error_mark. cbn. unfold keeps, s_marks in K. cbn in K.
      inversion K as [|? ? ? ? K3 _]; subst. apply K3. discriminate.
Qed.

Lemma marks_ready s s' a a' : ready s s' -> same_but_marks s a ->
  s_rest a' = s_rest s' -> s_aft a' = s_aft s' -> s_toks a' = s_toks s' -> ready a a'.
Proof.
  intros [S P] M E1 E2 E3. pose proof (good_inv _ _ (good_marks _ _ M) (sm_inv _ _ S)) as [I _].
  destruct M as (H1 & H2 & H3 & H4 & H5 & H6 & H7).
  assert (T1 : tokens a' = tokens s') by (unfold tokens; now rewrite E3).
  assert (T2 : tokens a = tokens s) by (unfold tokens; now rewrite H6).
  assert (P' : s_rest a' = s_rest a /\ past a a' \/ exists p, p <> [] /\ x = rev (s_pre a) ++ p /\ s_rest a = p ++ y /\ s_rest a' = p ++ w ++ y
            /\ texts (tokens a') = texts (tokens a)).
  { unfold past. rewrite E1, H1, H2, T1, T2. exact P. }
  split; auto. constructor; auto.
  - unfold nul_after. rewrite H3. apply (sm_nul _ _ S).
  - rewrite E2, H3. apply (sm_aft _ _ S).
  - rewrite T1, T2. apply (sm_toks _ _ S).
  - rewrite T1, T2. apply (sm_spots _ _ S).
  - destruct P' as [Q|(p & _ & Q)]; eauto.
Qed.

Lemma attrs_part_sim f s s' s1 : ready s s' -> attrs_part f s = POk s1 -> resp (tokens s1) ->
  exists k s1', (forall f', (k <= f')%nat -> attrs_part f' s' = POk s1') /\ sim s1 s1'.
Proof.
  intros R H Rs. unfold attrs_part in *. rewrite (ready_peek_is _ _ _ R). destruct (peek_is cLP s) eqn:P.
  - assert (R1 : ready (set_attr (Some (here s)) s) (set_attr (Some (here s')) s')).
    { eapply marks_ready; eauto using set_attr_marks; reflexivity. }
    pose proof (single_ready Kapar_left cLP _ _ R1 P ltac:(discriminate) eq_refl) as S1.
    destruct (Parser.attributes f _) as [s2| | | |] eqn:Q; try discriminate. cbn [pbind] in H.
    pose proof (attributes_good f (single Kapar_left cLP (set_attr (Some (here s)) s))) as G. rewrite Q in G.
    pose proof (G (sm_inv _ _ S1)) as (I2 & T2 & A2 & _).
    assert (R2 : resp (tokens s2)).
    { destruct (close_tokens _ _ _ _ _ H ltac:(discriminate) (adv_nul_after _ _ _ A2 (sm_nul _ _ S1))) as (T & E). rewrite E in Rs. now apply resp_app in Rs. }
    destruct (attributes_sim _ _ _ _ S1 Q R2) as (k & s2' & HF & S2).
    destruct (close_sim Kapar_right cRP _ s2 s2' s1 ltac:(discriminate) eq_refl S2 H) as (s1' & H' & S3).
    exists k, s1'. split; [|exact S3]. intros f' Hf. rewrite (HF f' Hf). exact H'.
  - injection H as <-. exists 0%nat, s'. split; auto. apply R.
Qed.

Definition body_sim (body : pst -> pout) (body' : nat -> pst -> pout) : Prop :=
  forall s s' s1, sim s s' -> body s = POk s1 -> resp (tokens s1) ->
    exists k s1', (forall f', (k <= f')%nat -> body' f' s' = POk s1') /\ sim s1 s1'.

Lemma rest_part_sim f body body' s s' s1 : (forall s, good s (body s)) -> body_sim body body' ->
  ready s s' -> rest_part f body s = POk s1 -> resp (tokens s1) ->
  exists k s1', (forall f' g', (k <= f')%nat -> (k <= g')%nat -> rest_part f' (body' g') s' = POk s1') /\ sim s1 s1'.
Proof.
  intros Gb Hb R H Rs. unfold rest_part in *. rewrite !(ready_peek_is _ _ _ R). destruct (peek_is cEQ s) eqn:P.
  - assert (R1 : ready (set_equals (Some (here s)) s) (set_equals (Some (here s')) s')).
    { eapply marks_ready; eauto using set_equals_marks; reflexivity. }
    destruct (value_sim f LElem _ _ s1 (single_ready Kequals cEQ _ _ R1 P ltac:(discriminate) eq_refl) H Rs) as (k & s1' & HF & S1).
    exists k, s1'. split; auto.
  - destruct (peek_is cLB s) eqn:P2.
    + assert (R1 : ready (set_body (Some (here s)) s) (set_body (Some (here s')) s')).
      { eapply marks_ready; eauto using set_body_marks; reflexivity. }
      pose proof (single_ready Kbrace_left cLB _ _ R1 P2 ltac:(discriminate) eq_refl) as S1.
      destruct (body _) as [s2| | | |] eqn:Q; try discriminate. cbn [pbind] in H.
      pose proof (Gb (single Kbrace_left cLB (set_body (Some (here s)) s))) as G. rewrite Q in G.
      pose proof (G (sm_inv _ _ S1)) as (I2 & T2 & A2 & _).
      assert (R2 : resp (tokens s2)).
      { destruct (close_tokens _ _ _ _ _ H ltac:(discriminate) (adv_nul_after _ _ _ A2 (sm_nul _ _ S1))) as (T & E). rewrite E in Rs. now apply resp_app in Rs. }
      destruct (Hb _ _ _ S1 Q R2) as (k & s2' & HF & S2).
      destruct (close_sim Kbrace_right cRB _ s2 s2' s1 ltac:(discriminate) eq_refl S2 H) as (s1' & H' & S3).
      exists k, s1'. split; [|exact S3]. intros f' g' _ Hg. rewrite (HF g' Hg). exact H'.
    + injection H as <-. exists 0%nat, s'. split; auto. apply R.
Qed.

Lemma tail_sim f body body' s s' s1 : (forall s, good s (body s)) -> body_sim body body' ->
  sim s s' -> ParserTerm.element_tail f body s = POk s1 -> resp (tokens s1) ->
  exists k s1', (forall f' g', (k <= f')%nat -> (k <= g')%nat -> ParserTerm.element_tail f' (body' g') s' = POk s1') /\ sim s1 s1'.
Proof.
  intros Gb Hb S H Rs. rewrite element_tail_parts in H.
  destruct (skip_space s) as [s3| | | |] eqn:Q3; try discriminate. cbn [pbind] in H.
  destruct (attrs_part f s3) as [s4| | | |] eqn:Q4; try discriminate. cbn [pbind] in H.
  destruct (skip_space s4) as [s5| | | |] eqn:Q5; try discriminate. cbn [pbind] in H.
  destruct (skip_sim _ _ _ S Q3) as (s3' & Q3' & R3).
  pose proof (attrs_part_good f s3) as G4. rewrite Q4 in G4. destruct (good_inv _ _ G4 (sm_inv _ _ (proj1 R3))) as (I4 & _).
  pose proof (skip_space_good s4) as G5. rewrite Q5 in G5. destruct (good_inv _ _ G5 I4) as (I5 & T5 & E5).
  pose proof (resp_back s5 _ s1 (rest_part_good f body s5 Gb) H I5 Rs) as R5.
  assert (R4 : resp (tokens s4)) by (rewrite E5 in R5; now apply resp_app in R5).
  destruct (attrs_part_sim f s3 s3' s4 R3 Q4 R4) as (k4 & s4' & HF4 & S4).
  destruct (skip_sim _ _ _ S4 Q5) as (s5' & Q5' & R5').
  destruct (rest_part_sim f body body' s5 s5' s1 Gb Hb R5' H Rs) as (k & s1' & HF & S1).
  exists (k + k4)%nat, s1'. split; [|exact S1]. intros f' g' Hf Hg. rewrite element_tail_parts, Q3'. cbn [pbind].
  rewrite HF4 by lia. cbn [pbind]. rewrite Q5'. cbn [pbind]. apply HF; lia.
Qed.

Lemma near_equal z z' : near z z' -> next_is_equal z' 0 = next_is_equal z 0.
Proof. intros [-> |(p & -> & ->)]; auto. apply next_is_equal_insert; auto. discriminate. Qed.

Lemma head_sim ek s s' : ready s s' -> ParserTerm.ek_at ek s -> resp (tokens (ParserTerm.element_head ek s)) ->
  sim (ParserTerm.element_head ek s) (ParserTerm.element_head ek s').
Proof.
  intros R A Rs. pose proof (proj1 R) as S.
  pose proof (good_inv _ _ (ParserTerm.element_head_good ek s A) (sm_inv _ _ S)) as [I1 _].
  assert (MARKED : forall c, (exists r, s_rest s = c :: r) ->
     let h s := let s1 := eat_marked_name c s in emit (if next_is_equal (s_rest s1) 0 then Kelement_key else Kelement_name) (s_line s) (s_col s) (between s s1) [] s1 in
     inv (h s) -> resp (tokens (h s)) -> sim (h s) (h s')).
  { clear A Rs I1. intros c (r & E) h I1 Rs. destruct (ready_cons _ _ _ _ R E) as (r' & E').
    pose proof (ate_step c s r E) as A1. destruct (name_local (step c s)) as (n & A & Hn & Hz & L).
    pose proof (ate_trans _ _ _ _ _ _ _ A1 A) as A2. cbn [app] in A2. fold (eat_marked_name c s) in *. set (k := fun b : bool => if b then Kelement_key else Kelement_name) in *.
    pose proof (ate_emits [Tok (k (next_is_equal (s_rest (eat_marked_name c s)) 0)) (s_line s) (s_col s) (between s (eat_marked_name c s)) []] _ _ _ A2) as Ah.
    cbn [map] in Ah. unfold shape in Ah. cbn [t_kind t_text] in Ah. rewrite (between_ate _ _ _ _ A2) in Ah at 1.
    change (emits _ _) with (h s) in Ah.
    destruct (advance _ _ s s' _ R (resp_one _ _ _ _ (sm_inv _ _ S) Ah Rs) Ah I1) as (z & E2 & N & X). apply X.
    change (s_rest (h s)) with (s_rest (eat_marked_name c s)) in N.
    pose proof (ate_step c s' _ E') as B1. cbn [app] in E2. rewrite E2 in E'. injection E' as <-.
    pose proof (ate_rest _ _ _ _ _ B1 E2) as RB1.
    pose proof (L (step c s') z RB1 (near_starts is_xmq_text_name _ _ eq_refl eq_refl N Hz)) as B2.
    pose proof (ate_trans _ _ _ _ _ _ _ B1 B2) as B3. cbn [app] in B3. fold (eat_marked_name c s') in B3.
    pose proof (ate_emits [Tok (k (next_is_equal (s_rest (eat_marked_name c s')) 0)) (s_line s') (s_col s') (between s' (eat_marked_name c s')) []] _ _ _ B3) as Bh.
    cbn [map] in Bh. unfold shape in Bh. cbn [t_kind t_text] in Bh. rewrite (between_ate _ _ _ _ B3) in Bh at 1.
    change (emits _ _) with (h s') in Bh.
    assert (RZ : s_rest (eat_marked_name c s') = z) by (apply (ate_rest _ _ _ _ z B3); exact E2).
    rewrite RZ, (near_equal _ _ N) in Bh. exact Bh. }
  destruct ek; cbn in A.
  - clear MARKED A. unfold ParserTerm.element_head in *. cbv zeta in *. destruct (name_local s) as (n & A & Hn & Hz & L).
    rewrite (between_ate _ _ _ _ A) in *.
    set (key := next_is_equal (s_rest (eat_name s)) 0) in *.
    pose proof (ate_elem key (s_line s) (s_col s) n n s _ A) as Ah.
    assert (F : fits n s).
    { pose proof Ah as A2. unfold elem_shapes in A2. destruct (split_colon n) as [[ns b]|] eqn:E.
      - apply split_colon_eq in E. subst n. eapply resp_name; eauto; apply (sm_inv _ _ S).
      - eapply resp_one; eauto. apply (sm_inv _ _ S). }
    destruct (advance n _ s s' _ R F Ah I1) as (z & E & N & X). apply X.
    rewrite ParserTerm.emit_element_rest in N.
    pose proof (L s' z E (near_starts is_xmq_text_name _ _ eq_refl eq_refl N Hz)) as A'.
    rewrite (between_ate _ _ _ _ A'). rewrite (ate_rest _ _ _ _ z A' E), (near_equal _ _ N). now apply ate_elem.
  - exact (MARKED cBANG A I1 Rs).
  - exact (MARKED cQM A I1 Rs).
Qed.

Lemma element_sim f body body' ek s s' s1 : (forall s, good s (body s)) -> body_sim body body' ->
  ready s s' -> ParserTerm.ek_at ek s -> parse_element f body ek s = POk s1 -> resp (tokens s1) ->
  exists k s1', (forall f' g', (k <= f')%nat -> (k <= g')%nat -> parse_element f' (body' g') ek s' = POk s1') /\ sim s1 s1'.
Proof.
  intros Gb Hb R A H Rs. rewrite ParserTerm.parse_element_eq in H.
  pose proof (good_inv _ _ (ParserTerm.element_head_good ek s A) (sm_inv _ _ (proj1 R))) as [I1 _].
  pose proof (resp_back _ _ s1 (ParserTerm.element_tail_good f body _ Gb) H I1 Rs) as R1.
  destruct (tail_sim f body body' _ _ s1 Gb Hb (head_sim ek s s' R A R1) H Rs) as (k & s1' & HF & S1).
  exists k, s1'. split; [|exact S1]. intros f' g' Hf Hg. rewrite ParserTerm.parse_element_eq. now apply HF.
Qed.

(* ---------- the parser ---------- *)

Lemma doctype_near s s' : ready s s' -> is_doctype_start (s_rest s) = true -> resp (tokens (ParserTerm.element_head EDoctype s)) ->
  is_doctype_start (s_rest s') = true.
Proof.
  intros R D Rs. pose proof (proj1 R) as S.
  assert (Q : exists c z, s_rest s = B "!DOCTYPE" ++ c :: z /\ ((c =? cEQ) || (c =? cSP) || (c =? cTAB) || (c =? cNL) || (c =? cCR)) = true).
  { unfold is_doctype_start in D. apply andb_true_iff in D as [D1 D2]. apply is_prefix_iff in D1. destruct D1 as (v & V). rewrite V in D2.
    change (skipn 8 (B "!DOCTYPE" ++ v)) with v in D2. destruct v as [|c z]; [discriminate|]. eauto. }
  destruct Q as (c & z & E & C).
  destruct R as [_ [[Q _]|(p & Hp & X & E1 & E2 & _)]]; [now rewrite Q|].
  assert (L : (8 <= List.length p)%nat).
  { (* the name token is !DOCTYPE *)
    pose proof (ate_step cBANG s _ E) as A1. destruct (name_local (step cBANG s)) as (n & A & Hn & Hz & _).
    pose proof (ate_rest _ _ _ _ _ A1 E) as R1. pose proof (a_rest _ _ _ _ A) as R2. rewrite R1 in R2.
    pose proof (ate_trans _ _ _ _ _ _ _ A1 A) as A2. cbn [app] in A2. fold (eat_marked_name cBANG s) in *.
    assert (Ln : (7 <= List.length n)%nat).
    { destruct (Nat.le_gt_cases 7 (List.length n)) as [|G]; auto. exfalso.
      destruct n as [|n1 [|n2 [|n3 [|n4 [|n5 [|n6 [|n7 n]]]]]]]; cbn in G; try lia; cbn in R2; inversion R2 as [R3];
        apply Hz; rewrite <- ?R3; eexists; eexists; (split; [first [reflexivity|symmetry; eassumption]|reflexivity]). }
    assert (Ah : exists k, ate (cBANG :: n) [(k, cBANG :: n)] s (ParserTerm.element_head EDoctype s)).
    { unfold ParserTerm.element_head. cbv zeta. eexists.
      match goal with |- ate _ _ _ (emit ?k ?l ?c ?t [] ?s1) => pose proof (ate_emits [Tok k l c t []] _ _ _ A2) as Ah end.
      cbn [map] in Ah. unfold shape in Ah. cbn [t_kind t_text] in Ah. rewrite (between_ate _ _ _ _ A2) in Ah at 1. exact Ah. }
    destruct Ah as (k & Ah). pose proof (resp_one _ _ _ _ (sm_inv _ _ S) Ah Rs p Hp X E1). cbn in *. lia. }
  unfold is_doctype_start. rewrite E1 in E. destruct (app_prefix _ _ _ _ (eq_sym E) L) as (q & -> & Q). rewrite E2, <- app_assoc.
  change (skipn 8 (B "!DOCTYPE" ++ q ++ w ++ y)) with (q ++ w ++ y).
  replace (is_prefix (B "!DOCTYPE") (B "!DOCTYPE" ++ q ++ w ++ y)) with true by (symmetry; apply is_prefix_iff; eauto).
  destruct q as [|d q]; cbn [app andb].
  - destruct w_cons as (a & v & -> & Ha). cbn [app]. destruct Ha as [-> | ->]; reflexivity.
  - injection Q as -> _. exact C.
Qed.

Lemma xmq_sim : forall f s s' s1, sim s s' -> parse_xmq f s = POk s1 -> resp (tokens s1) ->
  exists k s1', (forall f', (k <= f')%nat -> parse_xmq f' s' = POk s1') /\ sim s1 s1'.
Proof.
  induction f as [|f IH].
  - intros s s' s1 S H Rs. cbn [parse_xmq] in H. destruct (s_rest s) eqn:E; [|discriminate]. injection H as <-.
    destruct (sync _ _ S) as [R|[(c & r & c' & r' & E1 & _)|(c' & r' & E' & C' & R & Q)]]; [|congruence|].
    + exists 0%nat, s'. split; [|exact S]. intros f' _. destruct f'; cbn [parse_xmq]; now rewrite (ready_nil _ _ R E).
    + exists 1%nat, (parse_whitespace s'). split; [|apply R]. intros f' Hf. destruct f' as [|f']; [lia|]. cbn [parse_xmq]. rewrite E', (spnl_xmq _ C').
      destruct f'; cbn [parse_xmq]; now rewrite (ready_nil _ _ R E).
  - assert (RDY : forall s s' s1, ready s s' -> parse_xmq (S f) s = POk s1 -> resp (tokens s1) ->
      exists k s1', (forall f', (k <= f')%nat -> parse_xmq f' s' = POk s1') /\ sim s1 s1').
    { intros s s' s1 R H Rs. pose proof (proj1 R) as S. cbn [parse_xmq] in H.
      destruct (s_rest s) as [|c r] eqn:E.
      { injection H as <-. exists 0%nat, s'. split; [|exact S]. intros f' _. destruct f'; cbn [parse_xmq]; now rewrite (ready_nil _ _ R E). }
      destruct (ready_cons _ _ _ _ R E) as (r' & E').
      destruct (is_xmq_token_whitespace c) eqn:W.
      { destruct (IH _ _ _ (ready_sim _ _ (pw_sim _ _ S)) H Rs) as (k & s1' & HF & S1).
        exists (Datatypes.S k), s1'. split; [|exact S1]. intros f' Hf. destruct f' as [|f']; [lia|]. cbn [parse_xmq]. rewrite E', W. apply HF. lia. }
      destruct (c =? cQ) eqn:C2.
      { assert (P : peek_is cQ s = true) by (rewrite (peek_is_rest _ _ _ _ E); exact C2).
        destruct (parse_quote LXmq s) as [s2| | | |] eqn:Q; try discriminate. cbn [pbind] in H.
        pose proof (parse_quote_good LXmq s P) as G2. rewrite Q in G2. pose proof (good_inv _ _ G2 (sm_inv _ _ S)) as [I2 _].
        pose proof (resp_back s2 _ s1 (parse_xmq_good f s2) H I2 Rs) as R2.
        destruct (quote_sim LXmq s s' s2 R P Q R2) as (s2' & Q' & S2).
        destruct (IH _ _ _ S2 H Rs) as (k & s1' & HF & S1).
        exists (Datatypes.S k), s1'. split; [|exact S1]. intros f' Hf. destruct f' as [|f']; [lia|]. cbn [parse_xmq]. rewrite E', W, C2, Q'. apply HF. lia. }
      destruct (c =? cAMP) eqn:C3.
      { assert (P : peek_is cAMP s = true) by (rewrite (peek_is_rest _ _ _ _ E); exact C3).
        destruct (parse_entity LXmq s) as [s2| | | |] eqn:Q; try discriminate. cbn [pbind] in H.
        pose proof (parse_entity_good LXmq s P) as G2. rewrite Q in G2. pose proof (good_inv _ _ G2 (sm_inv _ _ S)) as [I2 _].
        pose proof (resp_back s2 _ s1 (parse_xmq_good f s2) H I2 Rs) as R2.
        destruct (entity_sim LXmq s s' s2 R P Q R2) as (s2' & Q' & S2).
        destruct (IH _ _ _ S2 H Rs) as (k & s1' & HF & S1).
        exists (Datatypes.S k), s1'. split; [|exact S1]. intros f' Hf. destruct f' as [|f']; [lia|]. cbn [parse_xmq]. rewrite E', W, C2, C3, Q'. apply HF. lia. }
      destruct (is_comment_start c (if (c =? cSLASH) || (c =? cLP) then hd 0 r else 0)) eqn:CM.
      { assert (CS : c = cSLASH /\ exists d v, r = d :: v /\ (d = cSLASH \/ d = cSTAR)).
        { unfold is_comment_start in CM. apply andb_true_iff in CM as [D1 D2]. rewrite D1 in D2. cbn [orb] in D2.
          apply N.eqb_eq in D1. split; auto. destruct r as [|d v]; [discriminate|]. cbn [hd] in D2. apply orb_true_iff in D2. rewrite !N.eqb_eq in D2. eauto. }
        destruct CS as (-> & d & v & -> & Hd).
        destruct (parse_comment (Datatypes.S f) s) as [s2| | | |] eqn:Q; try discriminate. cbn [pbind] in H.
        pose proof (parse_comment_good (Datatypes.S f) s v d E Hd) as G2. rewrite Q in G2. pose proof (good_inv _ _ G2 (sm_inv _ _ S)) as [I2 _].
        pose proof (resp_back s2 _ s1 (parse_xmq_good f s2) H I2 Rs) as R2.
        destruct (comment_sim _ s s' s2 d v R E Hd Q R2) as ((v' & E2') & k2 & s2' & Q' & S2).
        destruct (IH _ _ _ S2 H Rs) as (k & s1' & HF & S1).
        exists (Datatypes.S (k + k2)), s1'. split; [|exact S1]. intros f' Hf. destruct f' as [|f']; [lia|]. cbn [parse_xmq]. rewrite E2'.
        change (is_xmq_token_whitespace cSLASH) with false. change (cSLASH =? cQ) with false. change (cSLASH =? cAMP) with false. cbn iota.
        replace (is_comment_start cSLASH _) with true by (destruct Hd as [-> | ->]; reflexivity).
        rewrite Q' by lia. cbn [pbind]. apply HF. lia. }
      assert (CM' : forall cc, c <> cSLASH -> is_comment_start c cc = false).
      { intros cc Hc. unfold is_comment_start. apply N.eqb_neq in Hc. now rewrite Hc. }
      assert (Hbody : body_sim (parse_xmq f) parse_xmq) by (intros a a' a1; apply IH).
      assert (EL : forall ek, ParserTerm.ek_at ek s -> (s2 <- parse_element (Datatypes.S f) (parse_xmq f) ek s ; parse_xmq f s2) = POk s1 ->
         (resp (tokens (ParserTerm.element_head ek s)) ->
          forall f', parse_xmq (Datatypes.S f') s' = (s2 <- parse_element (Datatypes.S f') (parse_xmq f') ek s' ; parse_xmq f' s2)) ->
         exists k s1', (forall f', (k <= f')%nat -> parse_xmq f' s' = POk s1') /\ sim s1 s1').
      { intros ek A H2 HE. destruct (parse_element (Datatypes.S f) (parse_xmq f) ek s) as [s2| | | |] eqn:Q; try discriminate. cbn [pbind] in H2.
        assert (G2 : good s (parse_element (Datatypes.S f) (parse_xmq f) ek s)).
        { rewrite ParserTerm.parse_element_eq. eapply good_pre_ok; [apply (ParserTerm.element_head_good _ _ A)|]. apply ParserTerm.element_tail_good. apply parse_xmq_good. }
        rewrite Q in G2. pose proof (good_inv _ _ G2 (sm_inv _ _ S)) as [I2 _].
        pose proof (resp_back s2 _ s1 (parse_xmq_good f s2) H2 I2 Rs) as R2.
        destruct (element_sim _ _ parse_xmq ek s s' s2 (parse_xmq_good f) Hbody R A Q R2) as (k2 & s2' & Q' & S2).
        destruct (IH _ _ _ S2 H2 Rs) as (k & s1' & HF & S1).
        assert (RH : resp (tokens (ParserTerm.element_head ek s))).
        { rewrite ParserTerm.parse_element_eq in Q.
          apply (resp_back _ _ s2 (ParserTerm.element_tail_good (Datatypes.S f) (parse_xmq f) _ (parse_xmq_good f)) Q); auto.
          apply (proj1 (good_inv _ _ (ParserTerm.element_head_good ek s A) (sm_inv _ _ S))). }
        exists (Datatypes.S (k + k2)), s1'. split; [|exact S1]. intros f' Hf. destruct f' as [|f']; [lia|].
        rewrite (HE RH). rewrite Q' by lia. cbn [pbind]. apply HF. lia. }
      destruct (is_xmq_element_start c) eqn:C4.
      { assert (Hc : c <> cSLASH) by (intros ->; discriminate).
        apply (EL EElement); auto.
        - exists c, r. split; auto. unfold is_xmq_element_start in C4. unfold is_xmq_text_name.
          destruct (in_range 97 122 c), (in_range 65 90 c), (c =? cUND); try discriminate; cbn; rewrite ?orb_true_r; reflexivity.
        - intros _ f'. cbn [parse_xmq]. now rewrite E', W, C2, C3, CM', C4. }
      destruct (is_doctype_start (c :: r)) eqn:C5.
      { assert (Hc : c = cBANG).
        { unfold is_doctype_start in C5. apply andb_true_iff in C5 as [D _]. cbn in D. apply andb_true_iff in D as [D _]. destruct c as [|q]; [discriminate|]. apply Pos.eqb_eq in D. now subst. }
        apply (EL EDoctype); auto.
        - exists r. now rewrite E, Hc.
        - intros RH f'. cbn [parse_xmq]. pose proof (doctype_near s s' R ltac:(rewrite E; exact C5) RH) as D'. rewrite E' in D' |- *.
          rewrite W, C2, C3, CM', C4, D'; [reflexivity|]. rewrite Hc. discriminate. }
      destruct (is_pi_start (c :: r)) eqn:C6.
      { assert (Hc : c = cQM) by (cbn in C6; destruct r; [discriminate|now apply N.eqb_eq]).
        apply (EL EPi); auto.
        - exists r. now rewrite E, Hc.
        - intros _ f'. cbn [parse_xmq].
          assert (P' : is_pi_start (s_rest s') = true).
          { rewrite E'. destruct r as [|d v]; [discriminate|]. destruct r' as [|d' v']; [|exact C6]. exfalso.
            destruct R as [_ [[Q _]|(p & Hp & _ & E1 & E2 & _)]]; [congruence|]. rewrite E' in E2. destruct p as [|a [|b p]]; [congruence| |discriminate].
            cbn in E2. destruct w_cons as (a' & v' & W' & _). rewrite W' in E2. discriminate. }
          assert (D' : is_doctype_start (s_rest s') = false) by (rewrite E', Hc; reflexivity).
          rewrite E' in P', D' |- *. rewrite W, C2, C3, CM', C4, D', P'; [reflexivity|]. rewrite Hc. discriminate. }
      destruct (c =? cRB) eqn:C7.
      { injection H as <-. apply N.eqb_eq in C7. subst c. exists 1%nat, s'. split; [|exact S]. intros f' Hf. destruct f' as [|f']; [lia|].
        cbn [parse_xmq]. rewrite E'. destruct r'; reflexivity. }
      exfalso. destruct (possibly_lost_content s) as [[|]|]; discriminate. }
    intros s s' s1 S H Rs.
    destruct (sync _ _ S) as [R|[(c & r & c' & r' & E & E' & C & C')|(c' & r' & E' & C' & R & Q)]]; [eauto| |].
    + cbn [parse_xmq] in H. rewrite E, (spnl_xmq _ C) in H.
      destruct (IH _ _ _ (ready_sim _ _ (pw_sim _ _ S)) H Rs) as (k & s1' & HF & S1). exists (Datatypes.S k), s1'. split; [|exact S1].
      intros f' Hf. destruct f' as [|f']; [lia|]. cbn [parse_xmq]. rewrite E', (spnl_xmq _ C'). apply HF. lia.
    + destruct (RDY _ _ _ R H Rs) as (k & s1' & HF & S1). exists (Datatypes.S k), s1'. split; [|exact S1].
      intros f' Hf. destruct f' as [|f']; [lia|]. cbn [parse_xmq]. rewrite E', (spnl_xmq _ C'). apply HF. lia.
Qed.

End Insert.
