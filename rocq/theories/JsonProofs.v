(** Proofs about the JSON reader: strings, numbers, index suffixes,
    termination. *)
From Coq Require Import NArith ZArith List Bool Arith Lia String.
From Verif Require Import Bytes BytesFacts Utf8 Utf8Proofs Outcome Parser Dom Json JsonSpec CQuote CQuoteProofs.
Import ListNotations.
Local Open Scope N_scope.

(** ** Strings *)
Lemma hex_digit_value h v : hex_digit h v -> hex_value h = Some v /\ v < 16.
Proof.
  unfold hex_digit, hex_value, in_range. intros H.
  destruct (N.leb_spec 48 h), (N.leb_spec h 57), (N.leb_spec 97 h), (N.leb_spec h 102), (N.leb_spec 65 h), (N.leb_spec h 70); cbn [andb]; split; try f_equal; lia.
Qed.
Lemma hex4_value h1 h2 h3 h4 a b c d : hex_digit h1 a -> hex_digit h2 b -> hex_digit h3 c -> hex_digit h4 d ->
  hex4 h1 h2 h3 h4 = Some (((a * 16 + b) * 16 + c) * 16 + d).
Proof.
  intros A1 A2 A3 A4. destruct (hex_digit_value _ _ A1) as [E1 L1], (hex_digit_value _ _ A2) as [E2 L2], (hex_digit_value _ _ A3) as [E3 L3], (hex_digit_value _ _ A4) as [E4 L4].
  unfold hex4. rewrite E1, E2, E3, E4. f_equal.
  rewrite <- !N.lor_assoc. rewrite (lor_shiftl_add c d 4) by (change (2 ^ 4) with 16; lia). change (2 ^ 4) with 16.
  rewrite (lor_shiftl_add b _ 8) by (change (2 ^ 8) with 256; lia). change (2 ^ 8) with 256.
  rewrite (lor_shiftl_add a _ 12) by (change (2 ^ 12) with 4096; lia). change (2 ^ 12) with 4096. lia.
Qed.
Lemma hex_escape_spec h u z : hex_escape h u -> u <= 0xffff /\
  json_string (h ++ z) = obind (json_string z) (fun '(o, x) => Ok (utf8_spec u ++ o, x)).
Proof.
  intros (h1 & h2 & h3 & h4 & a & b & c & d & -> & A1 & A2 & A3 & A4 & ->).
  assert (L : ((a * 16 + b) * 16 + c) * 16 + d <= 0xffff).
  { destruct (hex_digit_value _ _ A1), (hex_digit_value _ _ A2), (hex_digit_value _ _ A3), (hex_digit_value _ _ A4). lia. }
  split; auto. cbn [app json_string]. change (92 =? cDQ) with false. change (92 =? cBSL) with true. change (json_escape 117) with (@None N).
  change (117 =? 117) with true. cbv iota. rewrite (hex4_value _ _ _ _ _ _ _ _ A1 A2 A3 A4). rewrite encode_matches_spec by lia. reflexivity.
Qed.
(** The bytes of a character that is neither quote nor backslash are copied. *)
Lemma copy_bytes t z : Forall (fun c => c <> cDQ /\ c <> cBSL) t ->
  json_string (t ++ z) = obind (json_string z) (fun '(o, x) => Ok (t ++ o, x)).
Proof.
  induction 1 as [|c t [H1 H2] H IH].
  - cbn [app]. destruct (json_string z) as [[o x]| | | |]; reflexivity.
  - cbn [app json_string]. apply N.eqb_neq in H1, H2. rewrite H1, H2. rewrite IH. destruct (json_string z) as [[o x]| | | |]; reflexivity.
Qed.
Lemma char_bytes u : u <= 0x10ffff -> u <> 34 -> u <> 92 -> Forall (fun c => c <> cDQ /\ c <> cBSL) (utf8_spec u).
Proof.
  intros H H1 H2. destruct (peek_spec u [] H) as (c & t & E & _ & L & G). rewrite E. destruct (N.lt_ge_cases u 128) as [X|X].
  - destruct (L X) as [-> ->]. constructor; auto.
  - destruct (G X) as [F _]. eapply Forall_impl; [|exact F]. cbn. unfold cDQ, cBSL. lia.
Qed.
Lemma escape_value e u : In (e, u) escapes -> json_escape e = Some u.
Proof. cbn. intros H. repeat destruct H as [H|H]; try contradiction; injection H as <- <-; reflexivity. Qed.
Theorem string_spec t s : string_text false t s -> forall z, json_string (t ++ 34 :: z) = Ok (s, z).
Proof.
  induction 1 as [|u t s C L N1 N2 H IH|e u t s I H IH|t s F H IH|h u t s X NS H IH|h l u v t s F X1 X2 R1 R2 H IH]; intros z; try discriminate F.
  - reflexivity.
  - rewrite <- app_assoc, copy_bytes by (apply char_bytes; [apply C|assumption|assumption]). rewrite IH. reflexivity.
  - cbn [app json_string]. change (92 =? cDQ) with false. change (92 =? cBSL) with true. cbv iota. rewrite (escape_value _ _ I). rewrite IH. reflexivity.
  - rewrite <- app_assoc. rewrite (proj2 (hex_escape_spec _ _ _ X)), IH. reflexivity.
Qed.

(** ** Index suffixes *)
Lemma back_digits_spec r : exists ds, Forall digit ds /\ r = ds ++ back_digits r
  /\ forall c c' r', back_digits r = c :: c' :: r' -> ~ digit c.
Proof.
  induction r as [|c r IH]; [exists []; repeat split; auto; discriminate|].
  cbn [back_digits]. destruct r as [|d r]; [exists []; repeat split; auto; discriminate|].
  destruct (is_digit c) eqn:E.
  - destruct IH as (ds & F & E2 & N). exists (c :: ds). split; [constructor; auto; unfold is_digit, in_range, digit in *; rewrite andb_true_iff, !N.leb_le in E; lia|].
    split; auto. cbn [app]. now f_equal.
  - exists []. repeat split; auto. intros x y z X. injection X as <- _ _. unfold is_digit, in_range, digit in *. rewrite andb_false_iff, !N.leb_gt in E. lia.
Qed.
Lemma back_digits_skip ds c d r : Forall digit ds -> ~ digit c -> back_digits (ds ++ c :: d :: r) = c :: d :: r.
Proof.
  intros F N. induction F as [|x ds H F IH]; cbn [app back_digits].
  - replace (is_digit c) with false; [reflexivity|]. symmetry. unfold is_digit, in_range, digit in *. rewrite andb_false_iff, !N.leb_gt. lia.
  - destruct (ds ++ c :: d :: r) eqn:E; [destruct ds; discriminate E|]. replace (is_digit x) with true; [exact IH|].
    symmetry. unfold is_digit, in_range, digit in *. rewrite andb_true_iff, !N.leb_le. lia.
Qed.
(** A suffix of digits in brackets, maybe none, with something before it. *)
Definition has_index (k p : bytes) : Prop := p <> [] /\ exists ds, Forall digit ds /\ k = p ++ 91 :: ds ++ [93].
Theorem trim_index_removes k p : has_index k p -> trim_index k = p.
Proof.
  intros (Np & ds & F & ->). unfold trim_index. rewrite rev_app_distr. cbn [rev]. rewrite rev_app_distr. cbn [rev app].
  change (93 =? cRBK) with true. cbv iota. rewrite <- app_assoc. cbn [app].
  destruct (rev p) as [|d r] eqn:E; [apply (f_equal (@rev N)) in E; rewrite rev_involutive in E; contradiction|].
  rewrite back_digits_skip; [|now apply Forall_rev|unfold digit; lia]. change (91 =? cLBK) with true. apply (f_equal (@rev N)) in E. rewrite rev_involutive in E. rewrite E. reflexivity.
Qed.
Theorem trim_index_keeps k : (~ exists p, has_index k p) -> trim_index k = k.
Proof.
  intros H. unfold trim_index. destruct (rev k) as [|c r] eqn:E; auto. destruct (N.eqb_spec c cRBK) as [->|]; auto.
  destruct (back_digits_spec r) as (ds & F & E2 & Nd). destruct (back_digits r) as [|b [|p r']]; auto.
  destruct (N.eqb_spec b cLBK) as [->|]; auto. exfalso. apply H. exists (rev (p :: r')). split.
  - cbn. intros X. apply app_eq_nil in X. destruct X; discriminate.
  - exists (rev ds). split; [now apply Forall_rev|]. apply (f_equal (@rev N)) in E. rewrite rev_involutive in E. rewrite E, E2.
    cbn [rev]. rewrite rev_app_distr. cbn [rev]. rewrite <- !app_assoc. reflexivity.
Qed.

(** ** Termination *)
Lemma eat_ws_len r : forall k, (List.length (eat_ws k r) <= List.length r)%nat.
Proof.
  induction r as [|c r IH]; intros k; [cbn; lia|]. cbn [eat_ws]. destruct k; [|specialize (IH k); cbn [List.length]; lia].
  destruct (count_ws (c :: r)); [lia|]. specialize (IH n). cbn [List.length]. lia.
Qed.
Lemma json_string_len r : forall v x, json_string r = Ok (v, x) -> (List.length x <= List.length r)%nat.
Proof.
  remember (List.length r) as n eqn:En. assert (Hn : (List.length r <= n)%nat) by lia. clear En. revert r Hn.
  induction n as [|n IH]; intros r Hn v x H.
  { destruct r; [|cbn in Hn; lia]. cbn in H. injection H as <- <-. cbn. lia. }
  destruct r as [|c r]; [cbn in H; injection H as <- <-; cbn; lia|]. cbn [List.length] in Hn. cbn [json_string] in H.
  destruct (c =? cDQ); [injection H as <- <-; lia|]. destruct (c =? cBSL).
  - destruct r as [|e r]; [discriminate|]. cbn [List.length] in Hn. destruct (json_escape e).
    + destruct (json_string r) as [[o z]| | | |] eqn:E; try discriminate. cbn in H. injection H as _ <-. apply IH in E; lia.
    + destruct (e =? 117); [|discriminate]. destruct r as [|h1 [|h2 [|h3 [|h4 r]]]]; try discriminate. cbn [List.length] in Hn.
      destruct (hex4 h1 h2 h3 h4); [|discriminate]. destruct (encode_utf8 _); [|discriminate].
      destruct (json_string r) as [[o z]| | | |] eqn:E; try discriminate. cbn in H. injection H as _ <-. apply IH in E; lia.
  - destruct (json_string r) as [[o z]| | | |] eqn:E; try discriminate. cbn in H. injection H as _ <-. apply IH in E; lia.
Qed.
Lemma json_string_total r : exists x, json_string r = Ok x \/ json_string r = Err E_JSON_INVALID_ESCAPE.
Proof.
  remember (List.length r) as n eqn:En. assert (Hn : (List.length r <= n)%nat) by lia. clear En. revert r Hn.
  induction n as [|n IH]; intros r Hn.
  { destruct r; [|cbn in Hn; lia]. eexists. left. reflexivity. }
  destruct r as [|c r]; [eexists; left; reflexivity|]. cbn [List.length] in Hn. cbn [json_string].
  assert (J : forall (b r' : bytes), (List.length r' <= n)%nat -> exists x, obind (json_string r') (fun '(o, z) => Ok (b ++ o, z)) = Ok x
            \/ obind (json_string r') (fun '(o, z) => Ok (b ++ o, z)) = Err E_JSON_INVALID_ESCAPE).
  { intros b r' L. destruct (IH r' L) as ([o z] & [-> | ->]); [eexists; left; reflexivity|exists (@nil N, @nil N); right; reflexivity]. }
  destruct (c =? cDQ); [eexists; left; reflexivity|]. destruct (c =? cBSL).
  - destruct r as [|e r]; [exists ([], []); right; reflexivity|]. cbn [List.length] in Hn. destruct (json_escape e) as [y|].
    + destruct (J [y] r ltac:(lia)) as (x & H). exists x. exact H.
    + destruct (e =? 117); [|exists ([], []); right; reflexivity]. destruct r as [|h1 [|h2 [|h3 [|h4 r]]]]; try (exists ([], []); right; reflexivity).
      cbn [List.length] in Hn. destruct (hex4 h1 h2 h3 h4) as [u|] eqn:Eh; [|exists ([], []); right; reflexivity].
      destruct (encode_utf8 (Z.of_N u)) eqn:Eu; [apply J; lia|]. exfalso.
      assert (L : u <= 0xffff).
      { unfold hex4 in Eh. assert (HV : forall h v, hex_value h = Some v -> v < 16).
        { unfold hex_value, in_range. intros h v. destruct (N.leb_spec 48 h), (N.leb_spec h 57), (N.leb_spec 97 h), (N.leb_spec h 102), (N.leb_spec 65 h), (N.leb_spec h 70); cbn [andb]; try discriminate; intros X; assert (SI : forall a b : N, Some a = Some b -> a = b) by congruence; apply SI in X; lia. }
        destruct (hex_value h1) as [a|] eqn:A1; [|discriminate]. destruct (hex_value h2) as [b|] eqn:A2; [|discriminate].
        destruct (hex_value h3) as [d|] eqn:A3; [|discriminate]. destruct (hex_value h4) as [g|] eqn:A4; [|discriminate]. injection Eh as <-.
        apply HV in A1, A2, A3, A4.
        rewrite <- !N.lor_assoc. rewrite (lor_shiftl_add d g 4) by (change (2 ^ 4) with 16; lia). change (2 ^ 4) with 16.
        rewrite (lor_shiftl_add b _ 8) by (change (2 ^ 8) with 256; lia). change (2 ^ 8) with 256.
        rewrite (lor_shiftl_add a _ 12) by (change (2 ^ 12) with 4096; lia). change (2 ^ 12) with 4096. lia. }
      rewrite encode_matches_spec in Eu by lia. discriminate.
  - destruct (J [c] r ltac:(lia)) as (x & H). exists x. exact H.
Qed.

(** What is left is always a suffix. *)
Definition suffix (x r : bytes) : Prop := exists p, r = p ++ x.
Lemma suffix_refl r : suffix r r.
Proof. now exists []. Qed.
Lemma suffix_trans x y z : suffix x y -> suffix y z -> suffix x z.
Proof. intros (p & ->) (q & ->). exists (q ++ p). now rewrite app_assoc. Qed.
Lemma suffix_cons c r : suffix r (c :: r).
Proof. now exists [c]. Qed.
Lemma suffix_tl r : suffix (tl r) r.
Proof. destruct r; [apply suffix_refl|apply suffix_cons]. Qed.
Lemma suffix_skipn n r : suffix (skipn n r) r.
Proof. exists (firstn n r). symmetry. apply firstn_skipn. Qed.
Lemma suffix_len x r : suffix x r -> (List.length x <= List.length r)%nat.
Proof. intros (p & ->). rewrite app_length. lia. Qed.
Lemma suffix_ws r : forall k, suffix (eat_ws k r) r.
Proof.
  induction r as [|c r IH]; intros k; [apply suffix_refl|]. cbn [eat_ws]. destruct k.
  - destruct (count_ws (c :: r)); [apply suffix_refl|]. eapply suffix_trans; [apply IH|apply suffix_cons].
  - eapply suffix_trans; [apply IH|apply suffix_cons].
Qed.
Lemma suffix_string r : forall v x, json_string r = Ok (v, x) -> suffix x r.
Proof.
  remember (List.length r) as n eqn:En. assert (Hn : (List.length r <= n)%nat) by lia. clear En. revert r Hn.
  induction n as [|n IH]; intros r Hn v x H.
  { destruct r; [|cbn in Hn; lia]. cbn in H. injection H as <- <-. apply suffix_refl. }
  destruct r as [|c r]; [cbn in H; injection H as <- <-; apply suffix_refl|]. cbn [List.length] in Hn. cbn [json_string] in H.
  destruct (c =? cDQ); [injection H as <- <-; apply suffix_cons|]. destruct (c =? cBSL).
  - destruct r as [|e r]; [discriminate|]. cbn [List.length] in Hn. destruct (json_escape e).
    + destruct (json_string r) as [[o z]| | | |] eqn:E; try discriminate. cbn in H. injection H as _ <-. apply IH in E; [|lia].
      eapply suffix_trans; [exact E|]. now exists [c; e].
    + destruct (e =? 117); [|discriminate]. destruct r as [|h1 [|h2 [|h3 [|h4 r]]]]; try discriminate. cbn [List.length] in Hn.
      destruct (hex4 h1 h2 h3 h4); [|discriminate]. destruct (encode_utf8 _); [|discriminate].
      destruct (json_string r) as [[o z]| | | |] eqn:E; try discriminate. cbn in H. injection H as _ <-. apply IH in E; [|lia].
      eapply suffix_trans; [exact E|]. now exists [c; e; h1; h2; h3; h4].
  - destruct (json_string r) as [[o z]| | | |] eqn:E; try discriminate. cbn in H. injection H as _ <-. apply IH in E; [|lia].
    eapply suffix_trans; [exact E|apply suffix_cons].
Qed.

Lemma jlift_ok x r r' b : jlift x r = JOk r' b -> r' = r /\ x = BOk b.
Proof. destruct x; cbn; intros H; try discriminate. now injection H as <- <-. Qed.
Lemma jlift_hang x r : jlift x r <> JHang.
Proof. destruct x; discriminate. Qed.
Lemma jlift_fuel x r : jlift x r <> JNoFuel.
Proof. destruct x; discriminate. Qed.
Lemma jbind_ok x f r b : jbind x f = JOk r b -> exists r1 b1, x = JOk r1 b1 /\ f r1 b1 = JOk r b.
Proof. destruct x; cbn; intros H; try discriminate. eauto. Qed.

Theorem rest_is_suffix fuel :
  (forall root key r b r' b', parse_json fuel root key r b = JOk r' b' -> suffix r' r) /\
  (forall root r b r' b', array_items fuel root r b = JOk r' b' -> suffix r' r) /\
  (forall root r b r' b', object_items fuel root r b = JOk r' b' -> suffix r' r).
Proof.
  induction fuel as [|f (IP & IA & IO)]; [repeat split; discriminate|]. split; [|split].
  - intros root key r b r' b' H. cbn [parse_json] in H. apply jbind_ok in H. destruct H as (r1 & b1 & H & X).
    injection X as <- <-. eapply suffix_trans; [apply suffix_ws|]. eapply suffix_trans; [|apply (suffix_ws r 0)].
    set (q := eat_ws 0 r) in *. clearbody q. destruct (at_i q =? cDQ).
    { destruct (json_string (tl q)) as [[v x]| | | |] eqn:E; try discriminate. apply jlift_ok in H. destruct H as [-> _].
      eapply suffix_trans; [eapply suffix_string; exact E|apply suffix_tl]. }
    destruct (is_prefix (B "true") q); [apply jlift_ok in H; destruct H as [-> _]; apply suffix_skipn|].
    destruct (is_prefix (B "false") q); [apply jlift_ok in H; destruct H as [-> _]; apply suffix_skipn|].
    destruct (is_prefix (B "null") q); [apply jlift_ok in H; destruct H as [-> _]; apply suffix_skipn|].
    destruct (is_jnumber q); [apply jlift_ok in H; destruct H as [-> _]; apply suffix_skipn|].
    destruct (at_i q =? cLB).
    { apply jbind_ok in H. destruct H as (r2 & b2 & H & X). apply jlift_ok in H. destruct H as [-> _].
      eapply suffix_trans; [eapply IO; exact X|apply suffix_tl]. }
    destruct (at_i q =? cLBK); [|discriminate].
    apply jbind_ok in H. destruct H as (r2 & b2 & H & X). apply jlift_ok in H. destruct H as [-> _].
    eapply suffix_trans; [eapply IA; exact X|apply suffix_tl].
  - intros root r b r' b' H. cbn [array_items] in H. destruct r as [|c r]; [discriminate|].
    eapply suffix_trans; [|apply (suffix_ws (c :: r) 0)]. set (q := eat_ws 0 (c :: r)) in *. clearbody q.
    destruct (at_i q =? cRBK); [apply jlift_ok in H; destruct H as [-> _]; apply suffix_tl|].
    apply jbind_ok in H. destruct H as (r2 & b2 & H & X). apply IP in H. eapply suffix_trans; [|exact H].
    destruct (at_i r2 =? cCOMMA); [eapply suffix_trans; [eapply IA; exact X|apply suffix_tl]|].
    destruct (at_i r2 =? cRBK); [apply jlift_ok in X; destruct X as [-> _]; apply suffix_tl|discriminate].
  - intros root r b r' b' H. cbn [object_items] in H. destruct r as [|c r]; [discriminate|].
    eapply suffix_trans; [|apply (suffix_ws (c :: r) 0)]. set (q := eat_ws 0 (c :: r)) in *. clearbody q.
    destruct (at_i q =? cRB); [apply jlift_ok in H; destruct H as [-> _]; apply suffix_tl|].
    destruct (negb (at_i q =? cDQ)); [discriminate|].
    destruct (json_string (tl q)) as [[k r1]| | | |] eqn:E; try discriminate.
    destruct (negb _); [discriminate|]. apply jbind_ok in H. destruct H as (r2 & b2 & H & X). apply IP in H.
    eapply suffix_trans; [|eapply suffix_trans; [eapply suffix_string; exact E|apply suffix_tl]].
    eapply suffix_trans; [|apply (suffix_ws r1 0)]. eapply suffix_trans; [|apply suffix_tl]. eapply suffix_trans; [|exact H].
    destruct (at_i r2 =? cCOMMA); [eapply suffix_trans; [eapply IO; exact X|apply suffix_tl]|].
    destruct (at_i r2 =? cRB); [apply jlift_ok in X; destruct X as [-> _]; apply suffix_tl|discriminate].
Qed.

Lemma at_i_len r c : (at_i r =? c) = true -> c <> 0 -> (S (List.length (tl r)) = List.length r)%nat.
Proof. intros H Hc. apply N.eqb_eq in H. destruct r; cbn in *; [congruence|reflexivity]. Qed.

Theorem enough_fuel fuel :
  (forall root key r b, (2 * List.length r + 1 <= fuel)%nat -> parse_json fuel root key r b <> JNoFuel) /\
  (forall root r b, (2 * List.length r + 2 <= fuel)%nat -> array_items fuel root r b <> JNoFuel) /\
  (forall root r b, (2 * List.length r + 2 <= fuel)%nat -> object_items fuel root r b <> JNoFuel).
Proof.
  induction fuel as [|f (IP & IA & IO)]; [repeat split; lia|]. destruct (rest_is_suffix f) as (SP & SA & SO). split; [|split].
  - intros root key r b L. cbn [parse_json]. pose proof (eat_ws_len r 0) as W. set (q := eat_ws 0 r) in *. clearbody q.
    assert (J : forall x, x <> JNoFuel -> jbind x (fun r b => JOk (eat_ws 0 r) b) <> JNoFuel) by (intros [] ?; cbn; congruence). apply J.
    destruct (at_i q =? cDQ).
    { destruct (json_string_total (tl q)) as ([v x] & [-> | ->]); [apply jlift_fuel|discriminate]. }
    destruct (is_prefix (B "true") q); [apply jlift_fuel|]. destruct (is_prefix (B "false") q); [apply jlift_fuel|].
    destruct (is_prefix (B "null") q); [apply jlift_fuel|]. destruct (is_jnumber q); [apply jlift_fuel|].
    destruct (at_i q =? cLB) eqn:E1.
    { apply at_i_len in E1; [|discriminate]. destruct (open_container root key [] b); cbn; try discriminate. apply IO. lia. }
    destruct (at_i q =? cLBK) eqn:E2; [|discriminate].
    apply at_i_len in E2; [|discriminate]. destruct (open_container root key [([65], None)] b); cbn; try discriminate. apply IA. lia.
  - intros root r b L. cbn [array_items]. destruct r as [|c r]; [discriminate|]. pose proof (eat_ws_len (c :: r) 0) as W.
    set (q := eat_ws 0 (c :: r)) in *. clearbody q. destruct (at_i q =? cRBK); [apply jlift_fuel|].
    destruct (parse_json f root None q b) as [r2 b2| | | | | |] eqn:E; try discriminate; [|exfalso; eapply IP; [|exact E]; lia].
    apply SP in E. apply suffix_len in E. cbn [jbind]. destruct (at_i r2 =? cCOMMA) eqn:E2.
    + apply at_i_len in E2; [|discriminate]. apply IA. lia.
    + destruct (at_i r2 =? cRBK); [apply jlift_fuel|discriminate].
  - intros root r b L. cbn [object_items]. destruct r as [|c r]; [discriminate|]. pose proof (eat_ws_len (c :: r) 0) as W.
    set (q := eat_ws 0 (c :: r)) in *. clearbody q. destruct (at_i q =? cRB); [apply jlift_fuel|].
    destruct (at_i q =? cDQ) eqn:E0; [|discriminate]. cbn [negb]. apply at_i_len in E0; [|discriminate].
    destruct (json_string_total (tl q)) as ([k r1] & [E1 | ->]); [|discriminate]. rewrite E1. apply json_string_len in E1.
    pose proof (eat_ws_len r1 0) as W1. set (q1 := eat_ws 0 r1) in *. clearbody q1.
    destruct (at_i q1 =? cCOLON) eqn:E3; [|discriminate]. cbn [negb]. apply at_i_len in E3; [|discriminate].
    destruct (parse_json f root (Some k) (tl q1) b) as [r2 b2| | | | | |] eqn:E; try discriminate; [|exfalso; eapply IP; [|exact E]; lia].
    apply SP in E. apply suffix_len in E. cbn [jbind]. destruct (at_i r2 =? cCOMMA) eqn:E2.
    + apply at_i_len in E2; [|discriminate]. apply IO. lia.
    + destruct (at_i r2 =? cRB); [apply jlift_fuel|discriminate].
Qed.

(** The program can only hang when the source ends after a left brace or a
    comma. *)
Definition ends_open (r : bytes) : Prop := exists p c, r = p ++ [c] /\ In c [123; 44].
Lemma ends_suffix x r : suffix x r -> ends_open x -> ends_open r.
Proof. intros (p & ->) (q & c & -> & I). exists (p ++ q), c. rewrite app_assoc. auto. Qed.
Lemma at_i_last r c : (at_i r =? c) = true -> In c [123; 44] -> tl r = [] -> ends_open r.
Proof.
  intros H I E. apply N.eqb_eq in H. destruct r as [|d r]; cbn in H, E.
  - subst c. destruct I as [I|[I|[]]]; discriminate I.
  - subst. exists [], c. auto.
Qed.
Theorem hangs_only_at_end fuel :
  (forall root key r b, parse_json fuel root key r b = JHang -> ends_open r) /\
  (forall root r b, array_items fuel root r b = JHang -> ends_open r) /\
  (forall root r b, object_items fuel root r b = JHang -> r = [] \/ ends_open r).
Proof.
  induction fuel as [|f (IP & IA & IO)]; [repeat split; discriminate|]. destruct (rest_is_suffix f) as (SP & SA & SO). split; [|split].
  - intros root key r b H. cbn [parse_json] in H. apply (ends_suffix (eat_ws 0 r)); [apply suffix_ws|]. set (q := eat_ws 0 r) in *. clearbody q.
    assert (J : forall x, jbind x (fun r b => JOk (eat_ws 0 r) b) = JHang -> x = JHang) by (intros []; cbn; congruence). apply J in H. clear J.
    destruct (at_i q =? cDQ).
    { destruct (json_string (tl q)) as [[v x]| | | |]; try discriminate. now apply jlift_hang in H. }
    destruct (is_prefix (B "true") q); [now apply jlift_hang in H|]. destruct (is_prefix (B "false") q); [now apply jlift_hang in H|].
    destruct (is_prefix (B "null") q); [now apply jlift_hang in H|]. destruct (is_jnumber q); [now apply jlift_hang in H|].
    destruct (at_i q =? cLB) eqn:E1.
    { destruct (open_container root key [] b); try discriminate H. cbn in H. apply IO in H. destruct H as [H|H]; [|eapply ends_suffix; [apply suffix_tl|exact H]].
      eapply at_i_last; eauto. cbn. auto. }
    destruct (at_i q =? cLBK) eqn:E2; [|discriminate].
    destruct (open_container root key [([65], None)] b); try discriminate H. cbn in H. apply IA in H. eapply ends_suffix; [apply suffix_tl|exact H].
  - intros root r b H. cbn [array_items] in H. destruct r as [|c r]; [discriminate|]. apply (ends_suffix (eat_ws 0 (c :: r))); [apply suffix_ws|].
    set (q := eat_ws 0 (c :: r)) in *. clearbody q. destruct (at_i q =? cRBK); [now apply jlift_hang in H|].
    destruct (parse_json f root None q b) as [r2 b2| | | | | |] eqn:E; try discriminate H; [|eapply IP; exact E].
    apply SP in E. eapply ends_suffix; [exact E|]. cbn [jbind] in H. destruct (at_i r2 =? cCOMMA) eqn:E2.
    + apply IA in H. eapply ends_suffix; [apply suffix_tl|exact H].
    + destruct (at_i r2 =? cRBK); [now apply jlift_hang in H|discriminate].
  - intros root r b H. cbn [object_items] in H. destruct r as [|c r]; [now left|]. right. apply (ends_suffix (eat_ws 0 (c :: r))); [apply suffix_ws|].
    set (q := eat_ws 0 (c :: r)) in *. clearbody q. destruct (at_i q =? cRB); [now apply jlift_hang in H|].
    destruct (at_i q =? cDQ) eqn:E0; [|discriminate]. cbn [negb] in H.
    destruct (json_string (tl q)) as [[k r1]| | | |] eqn:E1; try discriminate. apply suffix_string in E1.
    apply (ends_suffix (eat_ws 0 r1)); [eapply suffix_trans; [apply suffix_ws|eapply suffix_trans; [exact E1|apply suffix_tl]]|]. set (q1 := eat_ws 0 r1) in *. clearbody q1.
    destruct (negb _); [discriminate|]. apply (ends_suffix (tl q1)); [apply suffix_tl|].
    destruct (parse_json f root (Some k) (tl q1) b) as [r2 b2| | | | | |] eqn:E; try discriminate H; [|eapply IP; exact E].
    apply SP in E. eapply ends_suffix; [exact E|]. cbn [jbind] in H. destruct (at_i r2 =? cCOMMA) eqn:E2.
    + apply IO in H. destruct H as [H|H]; [|eapply ends_suffix; [apply suffix_tl|exact H]]. eapply at_i_last; eauto. cbn. auto.
    + destruct (at_i r2 =? cRB); [now apply jlift_hang in H|discriminate].
Qed.

(** ** Numbers *)
Lemma digit_is c : digit c -> is_digit c = true.
Proof. unfold digit, is_digit, in_range. intros H. rewrite andb_true_iff, !N.leb_le. lia. Qed.
Lemma is_digit_spec c : is_digit c = true <-> digit c.
Proof. unfold digit, is_digit, in_range. rewrite andb_true_iff, !N.leb_le. tauto. Qed.
Lemma digit_not c d : digit c -> ~ digit d -> (c =? d) = false.
Proof. intros H N. apply N.eqb_neq. intros ->. contradiction. Qed.
Lemma digit_not_ended c : digit c -> number_ended c = false.
Proof. intros H. unfold number_ended, cSP, cNL, cCOMMA, cRB, cRBK. rewrite !(digit_not c) by (auto; unfold digit; lia). reflexivity. Qed.
Lemma loop_digits ds : Forall digit ds -> forall fe fes ld dot i z, ds <> [] ->
  jnumber_loop fe fes false ld dot i (ds ++ z) = jnumber_loop fe false false true dot (i + List.length ds) z.
Proof.
  induction 1 as [|c ds H F IH]; intros fe fes ld dot i z Hn; [congruence|].
  assert (E : jnumber_loop fe fes false ld dot i ((c :: ds) ++ z) = jnumber_loop fe false false true dot (S i) (ds ++ z)).
  { cbn [app jnumber_loop]. unfold cDOT, cMINUS. rewrite !(digit_not c) by (auto; unfold digit; lia). cbn [orb].
    rewrite (digit_not_ended c H), (digit_is c H). cbn [negb andb]. destruct fe, fes; reflexivity. }
  rewrite E. destruct ds as [|d ds]; [cbn [app List.length]; f_equal; lia|]. rewrite IH by discriminate. f_equal. cbn [List.length]. lia.
Qed.
Lemma ended_stops fe fes lz ld dot i c z : number_ended c = true -> jnumber_loop fe fes lz ld dot i (c :: z) = Some i.
Proof.
  intros H. cbn [jnumber_loop]. rewrite H. assert (X : (c =? cDOT) = false /\ ((c =? 101) || (c =? 69)) = false).
  { unfold number_ended, cSP, cNL, cCOMMA, cRB, cRBK, cDOT in *. rewrite !orb_true_iff, !N.eqb_eq in H. rewrite orb_false_iff, !N.eqb_neq. lia. }
  destruct X as [-> ->]. destruct lz; auto. now destruct (fe && negb fes).
Qed.
Definition number_stop (z : bytes) : Prop := z = [] \/ exists c r, z = c :: r /\ In c [32; 10; 44; 125; 93].
Lemma stop_end fe fes lz dot i z : number_stop z -> jnumber_loop fe fes lz true dot i z = Some i.
Proof.
  intros [-> | (c & r & -> & I)]; [reflexivity|]. apply ended_stops. cbn in I. unfold number_ended, cSP, cNL, cCOMMA, cRB, cRBK.
  repeat destruct I as [<-|I]; try reflexivity. destruct I.
Qed.
Lemma loop_exp e dot i z : json_exp e -> number_stop z ->
  jnumber_loop false false false true dot i (e ++ z) = Some (i + List.length e)%nat.
Proof.
  intros [-> | (x & sg & ds & -> & Ix & Is & [Hn F])] Hz; [cbn [app List.length]; rewrite stop_end by auto; f_equal; lia|].
  cbn [app]. rewrite <- app_assoc.
  assert (E : forall y, jnumber_loop false false false true dot i (x :: y) = jnumber_loop true false false false dot (S i) y).
  { intros y. cbn in Ix. destruct Ix as [<-|[<-|[]]]; reflexivity. }
  rewrite E. cbn [List.length]. rewrite app_length.
  assert (S1 : forall c y, c = 43 \/ c = 45 -> jnumber_loop true false false false dot (S i) (c :: y) = jnumber_loop true true false false dot (S (S i)) y)
    by (intros c y [-> | ->]; reflexivity).
  cbn in Is. destruct Is as [<-|[<-|[<-|[]]]]; cbn [app]; [|rewrite S1 by auto|rewrite S1 by auto];
    rewrite loop_digits by auto; rewrite stop_end by auto; f_equal; cbn [List.length]; lia.
Qed.
Lemma loop_frac f e i z : json_frac f -> json_exp e -> number_stop z ->
  jnumber_loop false false false true false i (f ++ e ++ z) = Some (i + List.length f + List.length e)%nat.
Proof.
  intros [-> | (ds & -> & [Hn F])] He Hz; [cbn [app List.length]; rewrite loop_exp by auto; f_equal; lia|].
  cbn [app]. change (jnumber_loop false false false true false i (46 :: ds ++ e ++ z)) with (jnumber_loop false false false false true (S i) (ds ++ e ++ z)).
  rewrite loop_digits, loop_exp by auto. f_equal. cbn [List.length]. lia.
Qed.
Theorem number_accepted t z : json_number t -> ~ zero_exp t -> number_stop z -> is_jnumber (t ++ z) = Some (List.length t).
Proof.
  intros (mi & d & f & e & -> & Im & Hi & Hf & He) Hz Hs. rewrite <- !app_assoc.
  assert (Di : d <> [] /\ Forall digit d).
  { destruct Hi as [-> | (c & r & -> & Hc & F)]; (split; [discriminate|]); constructor; auto; unfold digit; lia. }
  cbn in Im. destruct Im as [<-|[<-|[]]].
  - cbn [app]. destruct Hi as [-> | (c & r & -> & Hc & F)].
    + destruct Hf as [-> | (ds & -> & [Hn F])].
      * destruct He as [-> | (x & sg & ds & -> & Ix & _)]; [|exfalso; apply Hz; exists x, (sg ++ ds); auto].
        cbn [app]. change (is_jnumber (48 :: z)) with (jnumber_loop false false true true false 1 z). now apply stop_end.
      * cbn [app]. change (is_jnumber (48 :: 46 :: ds ++ e ++ z)) with (jnumber_loop false false false false true 2 (ds ++ e ++ z)).
        rewrite loop_digits, loop_exp by auto. f_equal. cbn [List.length]. rewrite app_length. lia.
    + cbn [app]. assert (E : is_jnumber (c :: r ++ f ++ e ++ z) = jnumber_loop false false false true false 1 (r ++ f ++ e ++ z)).
      { unfold is_jnumber. rewrite (digit_is c) by (unfold digit; lia). unfold cMINUS. rewrite !(proj2 (N.eqb_neq c _)) by lia. reflexivity. }
      rewrite E. destruct r as [|y r]; [cbn [app]; rewrite loop_frac by auto; f_equal; cbn [List.length]; rewrite app_length; lia|].
      rewrite loop_digits, loop_frac by (auto; discriminate). f_equal. cbn [List.length app]. rewrite !app_length. cbn [List.length]. lia.
  - cbn [app]. change (is_jnumber (45 :: d ++ f ++ e ++ z)) with (jnumber_loop false false false false false 1 (d ++ f ++ e ++ z)).
    destruct Di as [Dn Dd]. rewrite loop_digits, loop_frac by auto. f_equal. cbn [List.length]. rewrite !app_length. lia.
Qed.
Lemma number_whole t : json_number t -> ~ zero_exp t -> json_is_number t = true.
Proof.
  intros H Hz. unfold json_is_number. pose proof (number_accepted t [] H Hz (or_introl eq_refl)) as E. rewrite app_nil_r in E. rewrite E. apply Nat.eqb_refl.
Qed.

(** What an accepted number looks like. *)
Definition count_in (l : list N) (s : bytes) : nat := List.length (filter (fun c => existsb (N.eqb c) l) s).
Definition dots : list N := [46].
Definition exps : list N := [101; 69].
Definition number_char (c : N) : Prop := digit c \/ In c [45; 43; 46; 101; 69].
Lemma loop_shape s : forall fe fes lz ld dot i, (lz = true -> dot = false) -> jnumber_loop fe fes lz ld dot i s = Some (i + List.length s)%nat ->
  Forall number_char s /\ (s = [] -> ld = true) /\ (s <> [] -> digit (List.last s 0))
  /\ (count_in dots s + (if dot then 1 else 0) <= 1)%nat /\ (count_in exps s + (if fe then 1 else 0) <= 1)%nat
  /\ (forall p c q, s = p ++ c :: q -> In c [43; 45] -> fe = true \/ exists e, In e p /\ In e [101; 69]).
Proof.
  induction s as [|c s IH]; intros fe fes lz ld dot i Hlz H.
  - cbn in H. destruct ld; [|discriminate]. repeat split; auto; try congruence; try (destruct dot; cbn; lia); try (destruct fe; cbn; lia).
    intros [|x p] c q E; discriminate E.
  - cbn [List.length] in H.
    assert (Stop : forall n, Some i <> Some (i + S n)%nat) by (intros n X; injection X; lia).
    assert (Step : forall fe' fes' lz' ld' dot', jnumber_loop fe' fes' lz' ld' dot' (S i) s = Some (i + S (List.length s))%nat -> lz' = false ->
      number_char c -> (ld' = true -> digit c) ->
      (fe' = true -> fe = true \/ In c [101; 69]) -> (In c [43; 45] -> fe = true) ->
      ((if existsb (N.eqb c) dots then 1 else 0) + (if dot then 1 else 0) <= (if dot' then 1 else 0))%nat ->
      ((if existsb (N.eqb c) exps then 1 else 0) + (if fe then 1 else 0) <= (if fe' then 1 else 0))%nat ->
      Forall number_char (c :: s) /\ (c :: s = [] -> ld = true) /\ (c :: s <> [] -> digit (List.last (c :: s) 0))
      /\ (count_in dots (c :: s) + (if dot then 1 else 0) <= 1)%nat /\ (count_in exps (c :: s) + (if fe then 1 else 0) <= 1)%nat
      /\ (forall p d q, c :: s = p ++ d :: q -> In d [43; 45] -> fe = true \/ exists e, In e p /\ In e [101; 69])).
    { intros fe' fes' lz' ld' dot' E Hz' Hc Hl Hf Hs Hd He. rewrite Nat.add_succ_r in E. change (S (i + List.length s)) with (S i + List.length s)%nat in E.
      destruct (IH fe' fes' lz' ld' dot' (S i) ltac:(congruence) E) as (A1 & A2 & A3 & A4 & A5 & A6). split; [now constructor|]. split; [discriminate|]. split; [|split; [|split]].
      - intros _. destruct s as [|d s]; [cbn; auto|]. change (List.last (c :: d :: s) 0) with (List.last (d :: s) 0). apply A3. discriminate.
      - unfold count_in in *. cbn [filter]. destruct (existsb (N.eqb c) dots); cbn [List.length] in *; destruct dot, dot'; lia.
      - unfold count_in in *. cbn [filter]. destruct (existsb (N.eqb c) exps); cbn [List.length] in *; destruct fe, fe'; lia.
      - intros [|x p] d q E2 I; injection E2 as -> E2; [left; auto|]. destruct (A6 p d q E2 I) as [->|(e & I1 & I2)].
        + destruct (Hf eq_refl) as [->|I2]; [now left|]. right. exists x. split; [now left|exact I2].
        + right. exists e. split; [now right|exact I2]. }
    assert (NE : forall d, c <> d -> (c =? d) = false) by (intros; now apply N.eqb_neq).
    cbn [jnumber_loop] in H. destruct lz.
    { rewrite (Hlz eq_refl) in *. destruct (number_ended c); [now apply Stop in H|]. destruct (N.eqb_spec c cDOT) as [->|]; [|discriminate]. cbn [negb] in H.
      eapply Step; [exact H|reflexivity|right; cbn; tauto|discriminate|tauto| |cbn; lia|cbn; lia]. cbn. intros [X|[X|[]]]; discriminate X. }
    destruct (N.eqb_spec c cDOT) as [->|N46].
    { destruct dot; [discriminate|].
      eapply Step; [exact H|reflexivity|right; cbn; tauto|discriminate|tauto| |cbn; lia|cbn; lia]. cbn. intros [X|[X|[]]]; discriminate X. }
    destruct ((c =? 101) || (c =? 69)) eqn:Ee.
    { destruct fe; [discriminate|]. rewrite orb_true_iff, !N.eqb_eq in Ee.
      eapply Step; [exact H|reflexivity|right; cbn; lia|discriminate|cbn; lia|cbn; lia| |].
      - destruct Ee as [-> | ->]; cbn; lia.
      - destruct Ee as [-> | ->]; cbn; lia. }
    rewrite orb_false_iff, !N.eqb_neq in Ee. destruct Ee as [N101 N69].
    assert (Ed : existsb (N.eqb c) dots = false) by (cbn; unfold cDOT in *; now rewrite (NE _ N46)).
    assert (Ex : existsb (N.eqb c) exps = false) by (cbn; now rewrite (NE _ N101), (NE _ N69)).
    destruct (fe && negb fes) eqn:Ef.
    + rewrite andb_true_iff in Ef. destruct Ef as [-> _]. destruct (number_ended c); [now apply Stop in H|].
      destruct (negb (is_digit c) && negb (c =? cMINUS) && negb (c =? 43)) eqn:Es; [discriminate|].
      destruct ((c =? 43) || (c =? cMINUS)) eqn:Eg.
      * rewrite orb_true_iff, !N.eqb_eq in Eg. unfold cMINUS in Eg. eapply Step; [exact H|reflexivity|right; cbn; lia|discriminate|tauto|tauto| |]; rewrite ?Ed, ?Ex; cbn; lia.
      * rewrite orb_false_iff in Eg. destruct Eg as [G1 G2]. rewrite G1, G2 in Es. cbn [negb] in Es. rewrite !andb_true_r, negb_false_iff, is_digit_spec in Es.
        eapply Step; [exact H|reflexivity|now left|auto|tauto|tauto| |]; rewrite ?Ed, ?Ex; cbn; lia.
    + destruct (number_ended c); [now apply Stop in H|]. destruct (is_digit c) eqn:Es; [|discriminate]. cbn [negb] in H. rewrite is_digit_spec in Es.
      eapply Step; [exact H|reflexivity|now left|auto|tauto| | |]; rewrite ?Ed, ?Ex; try (destruct dot, fe; cbn; lia).
      cbn. unfold digit in Es. lia.
Qed.
Theorem number_shape t : json_is_number t = true ->
  Forall number_char t /\ (exists c r, t = c :: r /\ (digit c \/ c = 45)) /\ digit (List.last t 0)
  /\ (count_in dots t <= 1)%nat /\ (count_in exps t <= 1)%nat
  /\ (forall p c q, t = p ++ c :: q -> In c [43; 45] -> p = [] \/ exists e, In e p /\ In e [101; 69]).
Proof.
  unfold json_is_number. destruct (is_jnumber t) as [n|] eqn:E; [|discriminate]. intros H. apply Nat.eqb_eq in H. subst n.
  destruct t as [|c t]; [discriminate|]. cbn [is_jnumber] in E.
  destruct (negb (is_digit c) && negb (c =? cMINUS)) eqn:Ec; [discriminate|].
  assert (Hc : digit c \/ c = 45).
  { rewrite andb_false_iff, !negb_false_iff, is_digit_spec, N.eqb_eq in Ec. exact Ec. }
  cbn [List.length] in E. change (S (List.length t)) with (1 + List.length t)%nat in E.
  destruct (loop_shape _ _ _ _ _ _ _ ltac:(reflexivity) E) as (A1 & A2 & A3 & A4 & A5 & A6).
  assert (X : existsb (N.eqb c) dots = false /\ existsb (N.eqb c) exps = false).
  { cbn. unfold digit in Hc. rewrite !(proj2 (N.eqb_neq c _)) by lia. auto. }
  destruct X as [X1 X2]. unfold count_in. cbn [filter]. rewrite X1, X2. fold (count_in dots t) (count_in exps t). split; [|split; [|split; [|split; [|split]]]]; auto; try lia.
  - constructor; auto. destruct Hc; [now left|right; subst; cbn; tauto].
  - exists c, t. auto.
  - destruct t as [|d t]; [|change (List.last (c :: d :: t) 0) with (List.last (d :: t) 0); apply A3; discriminate].
    cbn. specialize (A2 eq_refl). rewrite negb_true_iff in A2. apply N.eqb_neq in A2. unfold cMINUS in A2. destruct Hc; congruence.
  - intros [|x p] d q Eq I; [now left|]. injection Eq as -> Eq. right. destruct (A6 p d q Eq I) as [Y|(e & I1 & I2)]; [discriminate|]. exists e. split; [now right|auto].
Qed.
