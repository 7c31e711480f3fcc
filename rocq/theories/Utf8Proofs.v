(** Proofs about the UTF-8 model. *)
From Coq Require Import NArith ZArith List Bool Lia.
From Coq Require Import ZifyBool ZifyNat ZifyN.
From Verif Require Import Bytes BytesFacts Utf8.
Import ListNotations.
Local Open Scope N_scope.

(** Specification of UTF-8 (RFC 3629), with plain arithmetic. *)
Definition utf8_spec (u : N) : bytes :=
  if u <? 128 then [u]
  else if u <? 2048 then [192 + u / 64; 128 + u mod 64]
  else if u <? 65536 then [224 + u / 4096; 128 + (u / 64) mod 64; 128 + u mod 64]
  else [240 + u / 262144; 128 + (u / 4096) mod 64; 128 + (u / 64) mod 64; 128 + u mod 64].

Lemma below_spec : forall (n : nat) (P : N -> bool),
  forallb P (map N.of_nat (seq 0 n)) = true ->
  forall x, x < N.of_nat n -> P x = true.
Proof.
  intros n P H x Hx. rewrite forallb_forall in H. apply H.
  apply in_map_iff. exists (N.to_nat x). split. lia. apply in_seq. lia.
Qed.

Lemma lor_128 : forall x, x < 64 -> N.lor 128 x = 128 + x.
Proof.
  intros x H. apply N.eqb_eq. revert x H.
  apply (below_spec 64 (fun x => N.lor 128 x =? 128 + x)). vm_compute. reflexivity.
Qed.
Lemma lor_192 : forall x, x < 32 -> N.lor 192 x = 192 + x.
Proof.
  intros x H. apply N.eqb_eq. revert x H.
  apply (below_spec 32 (fun x => N.lor 192 x =? 192 + x)). vm_compute. reflexivity.
Qed.
Lemma lor_224 : forall x, x < 16 -> N.lor 224 x = 224 + x.
Proof.
  intros x H. apply N.eqb_eq. revert x H.
  apply (below_spec 16 (fun x => N.lor 224 x =? 224 + x)). vm_compute. reflexivity.
Qed.
Lemma lor_240 : forall x, x < 8 -> N.lor 240 x = 240 + x.
Proof.
  intros x H. apply N.eqb_eq. revert x H.
  apply (below_spec 8 (fun x => N.lor 240 x =? 240 + x)). vm_compute. reflexivity.
Qed.

Lemma land_mask : forall x n, N.land x (N.ones n) = x mod 2 ^ n.
Proof. intros; apply N.land_ones. Qed.
Lemma land_3f : forall x, N.land x 63 = x mod 64.
Proof. intros; apply (N.land_ones x 6). Qed.
Lemma land_1f : forall x, N.land x 31 = x mod 32.
Proof. intros; apply (N.land_ones x 5). Qed.
Lemma land_0f : forall x, N.land x 15 = x mod 16.
Proof. intros; apply (N.land_ones x 4). Qed.
Lemma land_07 : forall x, N.land x 7 = x mod 8.
Proof. intros; apply (N.land_ones x 3). Qed.

Lemma shiftr_6 : forall x, N.shiftr x 6 = x / 64.
Proof. intros; apply (N.shiftr_div_pow2 x 6). Qed.
Lemma shiftr_12 : forall x, N.shiftr x 12 = x / 4096.
Proof. intros; apply (N.shiftr_div_pow2 x 12). Qed.
Lemma shiftr_18 : forall x, N.shiftr x 18 = x / 262144.
Proof. intros; apply (N.shiftr_div_pow2 x 18). Qed.

Lemma lor_shiftl_add : forall a b n, b < 2 ^ n -> N.lor (N.shiftl a n) b = a * 2 ^ n + b.
Proof.
  intros a b n Hb.
  assert (Hd : N.land (N.shiftl a n) b = 0).
  { apply N.bits_inj. intro k. rewrite N.land_spec, N.bits_0.
    destruct (N.lt_ge_cases k n) as [Hk|Hk].
    - rewrite N.shiftl_spec_low; auto.
    - assert (N.testbit b k = false).
      { destruct (N.eq_dec b 0) as [->|Hnz]. apply N.bits_0.
        apply N.bits_above_log2.
        apply N.lt_le_trans with n; auto.
        apply N.log2_lt_pow2; lia. }
      rewrite H. apply andb_false_r. }
  rewrite <- N.lxor_lor by auto. rewrite <- N.add_nocarry_lxor by auto.
  rewrite N.shiftl_mul_pow2. reflexivity.
Qed.

Theorem encode_matches_spec : forall u, u <= 0x10ffff ->
  encode_utf8 (Z.of_N u) = Some (utf8_spec u).
Proof.
  intros u Hu. unfold encode_utf8, utf8_spec.
  rewrite N2Z.id.
  rewrite land_3f, land_1f, land_0f, land_07, !land_3f, shiftr_6, shiftr_12, shiftr_18.
  destruct (Z.leb_spec (Z.of_N u) 127).
  - replace (u <? 128) with true by lia. f_equal. f_equal.
    rewrite Z.mod_small by lia. lia.
  - replace (u <? 128) with false by lia.
    destruct (Z.leb_spec (Z.of_N u) 2047).
    + replace (u <? 2048) with true by lia.
      rewrite lor_128 by (apply N.mod_lt; lia).
      rewrite lor_192 by (apply N.mod_lt; lia).
      rewrite (N.mod_small (u / 64) 32); auto.
      apply N.div_lt_upper_bound; lia.
    + replace (u <? 2048) with false by lia.
      destruct (Z.leb_spec (Z.of_N u) 65535).
      * replace (u <? 65536) with true by lia.
        rewrite !lor_128 by (apply N.mod_lt; lia).
        rewrite lor_224 by (apply N.mod_lt; lia).
        rewrite (N.mod_small (u / 4096) 16); auto.
        apply N.div_lt_upper_bound; lia.
      * replace (u <? 65536) with false by lia.
        destruct (Z.leb_spec (Z.of_N u) 1114111); [|lia].
        rewrite !lor_128 by (apply N.mod_lt; lia).
        rewrite lor_240 by (apply N.mod_lt; lia).
        rewrite (N.mod_small (u / 262144) 8); auto.
        apply N.div_lt_upper_bound; lia.
Qed.

Lemma is_cont_128 : forall x, x < 64 -> is_cont (128 + x) = true.
Proof.
  intros x H. revert x H.
  apply (below_spec 64 (fun x => is_cont (128 + x))). vm_compute. reflexivity.
Qed.

(** Splitting: classes of lead bytes. *)
Lemma lead1 : forall x, x < 128 -> N.land x 128 =? 0 = true.
Proof. apply (below_spec 128 (fun x => N.land x 128 =? 0)). vm_compute. reflexivity. Qed.

Ltac enum_bool n P :=
  let H := fresh in
  pose proof (below_spec n P) as H; cbv beta in H.

Lemma lead2 : forall x, x < 32 ->
  (N.land (192 + x) 128 =? 0) = false /\ (N.land (192 + x) 224 =? 192) = true
  /\ N.land (192 + x) 31 = x.
Proof.
  intros x H.
  assert (A : negb (N.land (192 + x) 128 =? 0) && (N.land (192 + x) 224 =? 192)
              && (N.land (192 + x) 31 =? x) = true).
  { revert x H. apply (below_spec 32 (fun x => negb (N.land (192 + x) 128 =? 0)
      && (N.land (192 + x) 224 =? 192) && (N.land (192 + x) 31 =? x))).
    vm_compute. reflexivity. }
  apply andb_true_iff in A. destruct A as [A C]. apply andb_true_iff in A. destruct A as [A B].
  apply negb_true_iff in A. apply N.eqb_eq in C. auto.
Qed.
Lemma lead3 : forall x, x < 16 ->
  (N.land (224 + x) 128 =? 0) = false /\ (N.land (224 + x) 224 =? 192) = false
  /\ (N.land (224 + x) 240 =? 224) = true /\ N.land (224 + x) 15 = x.
Proof.
  intros x H.
  assert (A : negb (N.land (224 + x) 128 =? 0) && negb (N.land (224 + x) 224 =? 192)
              && (N.land (224 + x) 240 =? 224) && (N.land (224 + x) 15 =? x) = true).
  { revert x H. apply (below_spec 16 (fun x => negb (N.land (224 + x) 128 =? 0) && negb (N.land (224 + x) 224 =? 192)
              && (N.land (224 + x) 240 =? 224) && (N.land (224 + x) 15 =? x))).
    vm_compute. reflexivity. }
  apply andb_true_iff in A. destruct A as [A D].
  apply andb_true_iff in A. destruct A as [A C]. apply andb_true_iff in A. destruct A as [A B].
  apply negb_true_iff in A. apply negb_true_iff in B. apply N.eqb_eq in D. auto.
Qed.
Lemma lead4 : forall x, x < 8 ->
  (N.land (240 + x) 128 =? 0) = false /\ (N.land (240 + x) 224 =? 192) = false
  /\ (N.land (240 + x) 240 =? 224) = false /\ (N.land (240 + x) 248 =? 240) = true
  /\ N.land (240 + x) 7 = x.
Proof.
  intros x H.
  assert (A : negb (N.land (240 + x) 128 =? 0) && negb (N.land (240 + x) 224 =? 192)
              && negb (N.land (240 + x) 240 =? 224) && (N.land (240 + x) 248 =? 240)
              && (N.land (240 + x) 7 =? x) = true).
  { revert x H. apply (below_spec 8 (fun x => negb (N.land (240 + x) 128 =? 0) && negb (N.land (240 + x) 224 =? 192)
              && negb (N.land (240 + x) 240 =? 224) && (N.land (240 + x) 248 =? 240)
              && (N.land (240 + x) 7 =? x))).
    vm_compute. reflexivity. }
  apply andb_true_iff in A. destruct A as [A E].
  apply andb_true_iff in A. destruct A as [A D].
  apply andb_true_iff in A. destruct A as [A C]. apply andb_true_iff in A. destruct A as [A B].
  apply negb_true_iff in A. apply negb_true_iff in B. apply negb_true_iff in C. apply N.eqb_eq in E. auto.
Qed.

Lemma cont_val : forall x, x < 64 -> N.land (128 + x) 63 = x.
Proof.
  intros x H. apply N.eqb_eq. revert x H.
  apply (below_spec 64 (fun x => N.land (128 + x) 63 =? x)). vm_compute. reflexivity.
Qed.

Theorem decode_spec : forall u rest, u <= 0x10ffff ->
  decode_utf8 (utf8_spec u ++ rest) = DecOk u (List.length (utf8_spec u)).
Proof.
  intros u rest Hu. unfold utf8_spec.
  assert (M6 : forall y, y mod 64 < 64) by (intro; apply N.mod_lt; lia).
  destruct (N.ltb_spec u 128).
  - cbn [app]; unfold decode_utf8; cbv iota beta. rewrite lead1 by auto. reflexivity.
  - destruct (N.ltb_spec u 2048).
    + assert (D : u / 64 < 32) by (apply N.div_lt_upper_bound; lia).
      destruct (lead2 _ D) as (A1 & A2 & A3).
      cbn [app]; unfold decode_utf8; cbv iota beta. rewrite A1, A2, A3.
      rewrite is_cont_128, cont_val by auto.
      rewrite lor_shiftl_add by apply M6.
      f_equal. change (2^6) with 64.
      rewrite N.mul_comm. symmetry. apply N.div_mod. lia.
    + destruct (N.ltb_spec u 65536).
      * assert (D : u / 4096 < 16) by (apply N.div_lt_upper_bound; lia).
        destruct (lead3 _ D) as (A1 & A2 & A3 & A4).
        cbn [app]; unfold decode_utf8; cbv iota beta. rewrite A1, A2, A3, A4.
        rewrite !is_cont_128, !cont_val by auto. simpl andb. cbv iota.
        rewrite <- N.lor_assoc. rewrite (lor_shiftl_add _ _ 6) by apply M6.
        pose proof (M6 (u/64)). pose proof (M6 u).
        rewrite lor_shiftl_add by (change (2^6) with 64; change (2^12) with 4096; lia).
        f_equal. change (2^6) with 64; change (2^12) with 4096.
        change 4096 with (64*64). rewrite <- N.div_div by lia.
        pose proof (N.div_mod u 64 ltac:(lia)). pose proof (N.div_mod (u/64) 64 ltac:(lia)). lia.
      * assert (D : u / 262144 < 8) by (apply N.div_lt_upper_bound; lia).
        destruct (lead4 _ D) as (A1 & A2 & A3 & A4 & A5).
        cbn [app]; unfold decode_utf8; cbv iota beta. rewrite A1, A2, A3, A4, A5.
        rewrite !is_cont_128, !cont_val by auto. simpl andb. cbv iota.
        rewrite <- !N.lor_assoc. rewrite (lor_shiftl_add _ _ 6) by apply M6.
        pose proof (M6 (u/64)). pose proof (M6 u). pose proof (M6 (u/4096)).
        change (2^6) with 64.
        rewrite (lor_shiftl_add _ _ 12) by (change (2^12) with 4096; lia).
        change (2^12) with 4096.
        rewrite (lor_shiftl_add _ _ 18) by (change (2^18) with 262144; lia).
        change (2^18) with 262144.
        f_equal.
        assert (E1 : u / 262144 = u / 64 / 64 / 64) by (rewrite !N.div_div by lia; reflexivity).
        assert (E2 : u / 4096 = u / 64 / 64) by (rewrite !N.div_div by lia; reflexivity).
        rewrite E1, E2.
        pose proof (N.div_mod u 64 ltac:(lia)). pose proof (N.div_mod (u/64) 64 ltac:(lia)).
        pose proof (N.div_mod (u/64/64) 64 ltac:(lia)). lia.
Qed.

Lemma utf8_spec_bytes : forall u, u <= 0x10ffff -> bytes_ok (utf8_spec u).
Proof.
  intros u Hu. unfold utf8_spec, bytes_ok, is_byte.
  assert (M6 : forall y, y mod 64 < 64) by (intro; apply N.mod_lt; lia).
  pose proof (M6 u). pose proof (M6 (u/64)). pose proof (M6 (u/4096)).
  destruct (N.ltb_spec u 128); [repeat constructor; lia|].
  destruct (N.ltb_spec u 2048).
  { assert (u / 64 < 32) by (apply N.div_lt_upper_bound; lia). repeat constructor; lia. }
  destruct (N.ltb_spec u 65536).
  { assert (u / 4096 < 16) by (apply N.div_lt_upper_bound; lia). repeat constructor; lia. }
  assert (u / 262144 < 8) by (apply N.div_lt_upper_bound; lia). repeat constructor; lia.
Qed.

(** Which bytes are of which class. *)
Lemma byte_class : forall c, is_byte c ->
  ((N.land c 128 =? 0) = true -> c < 128) /\
  ((N.land c 224 =? 192) = true -> exists x, x < 32 /\ c = 192 + x) /\
  ((N.land c 240 =? 224) = true -> exists x, x < 16 /\ c = 224 + x) /\
  ((N.land c 248 =? 240) = true -> exists x, x < 8 /\ c = 240 + x) /\
  (is_cont c = true -> exists x, x < 64 /\ c = 128 + x).
Proof.
  intros c Hc.
  assert (A : implb (N.land c 128 =? 0) (c <? 128)
           && implb (N.land c 224 =? 192) ((192 <=? c) && (c <? 224))
           && implb (N.land c 240 =? 224) ((224 <=? c) && (c <? 240))
           && implb (N.land c 248 =? 240) ((240 <=? c) && (c <? 248))
           && implb (is_cont c) ((128 <=? c) && (c <? 192)) = true).
  { revert c Hc. apply (below_spec 256 (fun c => implb (N.land c 128 =? 0) (c <? 128)
           && implb (N.land c 224 =? 192) ((192 <=? c) && (c <? 224))
           && implb (N.land c 240 =? 224) ((224 <=? c) && (c <? 240))
           && implb (N.land c 248 =? 240) ((240 <=? c) && (c <? 248))
           && implb (is_cont c) ((128 <=? c) && (c <? 192)))). vm_compute. reflexivity. }
  apply andb_true_iff in A. destruct A as [A A5].
  apply andb_true_iff in A. destruct A as [A A4].
  apply andb_true_iff in A. destruct A as [A A3].
  apply andb_true_iff in A. destruct A as [A1 A2].
  split; [|split; [|split; [|split]]]; intro H.
  - rewrite H in A1; simpl in A1; apply N.ltb_lt in A1; auto.
  - rewrite H in A2; simpl in A2; bsplit. exists (c - 192). clear -H0 H1. lia.
  - rewrite H in A3; simpl in A3; bsplit. exists (c - 224). clear -H0 H1. lia.
  - rewrite H in A4; simpl in A4; bsplit. exists (c - 240). clear -H0 H1. lia.
  - rewrite H in A5; simpl in A5; bsplit. exists (c - 128). clear -H0 H1. lia.
Qed.

Lemma DecOk_inj : forall a b c d, DecOk a b = DecOk c d -> a = c /\ b = d.
Proof. intros a b c d H. inversion H. auto. Qed.

(** A successful decode of minimal length is the canonical encoding. *)
Theorem decode_sound : forall s u n, bytes_ok s ->
  decode_utf8 s = DecOk u n ->
  (1 <= n <= 4)%nat /\ (n <= List.length s)%nat /\ u < 2097152 /\
  (n = List.length (utf8_spec u) -> firstn n s = utf8_spec u).
Proof.
  intros s u n Hs H. destruct s as [|c r]; [discriminate|].
  inversion Hs as [|? ? Hc Hr]; subst. unfold decode_utf8 in H.
  destruct (byte_class c Hc) as (C1 & C2 & C3 & C4 & _).
  destruct (N.land c 128 =? 0) eqn:E1.
  { apply DecOk_inj in H; destruct H as [<- <-]. specialize (C1 eq_refl). cbn [List.length]. split; [lia|split; [lia|split; [lia|]]].
    intros _. unfold utf8_spec. replace (c <? 128) with true by lia. reflexivity. }
  destruct (N.land c 224 =? 192) eqn:E2.
  { destruct (C2 eq_refl) as (x & Hx & ->).
    destruct r as [|cc r]; [discriminate|].
    destruct (is_cont cc) eqn:K; [|discriminate]. apply DecOk_inj in H; destruct H as [<- <-].
    inversion Hr as [|? ? Hcc _]; subst.
    destruct (byte_class cc Hcc) as (_ & _ & _ & _ & B5). destruct (B5 K) as (y & Hy & ->).
    rewrite cont_val by auto. destruct (lead2 _ Hx) as (_ & _ & ->).
    rewrite lor_shiftl_add by (change (2^6) with 64; auto). change (2^6) with 64.
    cbn [List.length]. split; [lia|split; [lia|split; [lia|]]].
    unfold utf8_spec. destruct (N.ltb_spec (x*64+y) 128); [cbn [List.length]; lia|].
    destruct (N.ltb_spec (x*64+y) 2048); [|cbn [List.length]; lia]. intros _.
    rewrite N.div_add_l, N.div_small, N.add_0_r by lia.
    rewrite N.add_comm with (n:=x*64), N.mod_add, N.mod_small by lia. reflexivity. }
  destruct (N.land c 240 =? 224) eqn:E3.
  { destruct (C3 eq_refl) as (x & Hx & ->).
    destruct r as [|cc [|ccc r]]; try discriminate.
    destruct (is_cont cc && is_cont ccc) eqn:K; [|discriminate]. apply DecOk_inj in H; destruct H as [<- <-].
    apply andb_true_iff in K. destruct K as [K1 K2].
    inversion Hr as [|? ? Hcc Hr2]; subst. inversion Hr2 as [|? ? Hccc _]; subst.
    destruct (byte_class cc Hcc) as (_ & _ & _ & _ & B5). destruct (B5 K1) as (y & Hy & ->).
    destruct (byte_class ccc Hccc) as (_ & _ & _ & _ & B6). destruct (B6 K2) as (z & Hz & ->).
    rewrite !cont_val by auto. destruct (lead3 _ Hx) as (_ & _ & _ & ->).
    rewrite <- N.lor_assoc.
    rewrite (lor_shiftl_add _ _ 6) by (change (2^6) with 64; auto). change (2^6) with 64.
    rewrite (lor_shiftl_add _ _ 12) by (change (2^12) with 4096; lia). change (2^12) with 4096.
    cbn [List.length]. split; [lia|split; [lia|split; [lia|]]].
    remember (x*4096 + (y*64+z)) as u.
    unfold utf8_spec. destruct (N.ltb_spec u 128); [cbn [List.length]; lia|].
    destruct (N.ltb_spec u 2048); [cbn [List.length]; lia|]. destruct (N.ltb_spec u 65536); [|cbn [List.length]; lia]. intros _.
    assert (U1 : u / 64 = x*64 + y).
    { replace u with ((x*64+y)*64+z) by lia. rewrite N.div_add_l, N.div_small by lia. lia. }
    assert (U2 : u / 4096 = x).
    { change 4096 with (64*64). rewrite <- N.div_div, U1 by lia. rewrite N.div_add_l, N.div_small by lia. lia. }
    assert (U3 : u mod 64 = z).
    { replace u with (z+(x*64+y)*64) by lia. rewrite N.mod_add, N.mod_small by lia. lia. }
    assert (U4 : (u/64) mod 64 = y).
    { rewrite U1, N.add_comm, N.mod_add, N.mod_small by lia. lia. }
    rewrite U2, U3, U4. reflexivity. }
  destruct (N.land c 248 =? 240) eqn:E4; [|discriminate].
  destruct (C4 eq_refl) as (x & Hx & ->).
  destruct r as [|cc [|ccc [|cccc r]]]; try discriminate.
  destruct (is_cont cc && is_cont ccc && is_cont cccc) eqn:K; [|discriminate]. apply DecOk_inj in H; destruct H as [<- <-].
  apply andb_true_iff in K. destruct K as [K K3]. apply andb_true_iff in K. destruct K as [K1 K2].
  inversion Hr as [|? ? Hcc Hr2]; subst. inversion Hr2 as [|? ? Hccc Hr3]; subst. inversion Hr3 as [|? ? Hcccc _]; subst.
  destruct (byte_class cc Hcc) as (_ & _ & _ & _ & B5). destruct (B5 K1) as (y & Hy & ->).
  destruct (byte_class ccc Hccc) as (_ & _ & _ & _ & B6). destruct (B6 K2) as (z & Hz & ->).
  destruct (byte_class cccc Hcccc) as (_ & _ & _ & _ & B7). destruct (B7 K3) as (w & Hw & ->).
  rewrite !cont_val by auto. destruct (lead4 _ Hx) as (_ & _ & _ & _ & ->).
  rewrite <- !N.lor_assoc.
  rewrite (lor_shiftl_add _ _ 6) by (change (2^6) with 64; auto). change (2^6) with 64.
  rewrite (lor_shiftl_add _ _ 12) by (change (2^12) with 4096; lia). change (2^12) with 4096.
  rewrite (lor_shiftl_add _ _ 18) by (change (2^18) with 262144; lia). change (2^18) with 262144.
  cbn [List.length]. split; [lia|split; [lia|split; [lia|]]].
  remember (x*262144 + (y*4096 + (z*64+w))) as u.
  unfold utf8_spec. destruct (N.ltb_spec u 128); [cbn [List.length]; lia|].
  destruct (N.ltb_spec u 2048); [cbn [List.length]; lia|]. destruct (N.ltb_spec u 65536); [cbn [List.length]; lia|]. intros _.
  assert (U1 : u / 64 = x*4096 + y*64 + z).
  { replace u with ((x*4096+y*64+z)*64+w) by lia. rewrite N.div_add_l, N.div_small by lia. lia. }
  assert (U2 : u / 4096 = x*64+y).
  { change 4096 with (64*64). rewrite <- N.div_div, U1 by lia.
    replace (x*4096 + y*64 + z) with ((x*64+y)*64+z) by lia. rewrite N.div_add_l, N.div_small by lia. lia. }
  assert (U5 : u / 262144 = x).
  { change 262144 with (4096*64). rewrite <- N.div_div, U2 by lia. rewrite N.div_add_l, N.div_small by lia. lia. }
  assert (U3 : u mod 64 = w).
  { replace u with (w+(x*4096+y*64+z)*64) by lia. rewrite N.mod_add, N.mod_small by lia. lia. }
  assert (U4 : (u/64) mod 64 = z).
  { rewrite U1. replace (x*4096 + y*64 + z) with (z+(x*64+y)*64) by lia. rewrite N.mod_add, N.mod_small by lia. lia. }
  assert (U6 : (u/4096) mod 64 = y).
  { rewrite U2, N.add_comm, N.mod_add, N.mod_small by lia. lia. }
  rewrite U5, U3, U4, U6. reflexivity.
Qed.

(** Overlong, surrogate and too large sequences are accepted. *)
Example decode_overlong : decode_utf8 [192; 128] = DecOk 0 2.
Proof. vm_compute; reflexivity. Qed.
Example decode_surrogate : decode_utf8 [237; 160; 128] = DecOk 0xd800 3.
Proof. vm_compute; reflexivity. Qed.
Example decode_too_large : decode_utf8 [247; 191; 191; 191] = DecOk 0x1fffff 4.
Proof. vm_compute; reflexivity. Qed.

(** Code point counting. *)
Lemma u_len_app : forall a b, u_len (a ++ b) = (u_len a + u_len b)%nat.
Proof. induction a; simpl; intros; auto. destruct (is_cont a); rewrite IHa; auto. Qed.

Lemma is_cont_small : forall x, x < 128 -> is_cont x = false.
Proof.
  intros x H. apply negb_true_iff. revert x H.
  apply (below_spec 128 (fun x => negb (is_cont x))). vm_compute. reflexivity.
Qed.
Lemma is_cont_lead : forall x, x < 64 -> is_cont (192 + x) = false.
Proof.
  intros x H. apply negb_true_iff. revert x H.
  apply (below_spec 64 (fun x => negb (is_cont (192 + x)))). vm_compute. reflexivity.
Qed.

Lemma u_len_char : forall u, u <= 0x10ffff -> u_len (utf8_spec u) = 1%nat.
Proof.
  intros u Hu. unfold utf8_spec.
  assert (M6 : forall y, y mod 64 < 64) by (intro; apply N.mod_lt; lia).
  destruct (N.ltb_spec u 128); [simpl; rewrite is_cont_small by auto; reflexivity|].
  destruct (N.ltb_spec u 2048).
  { assert (u / 64 < 32) by (apply N.div_lt_upper_bound; lia).
    cbn [u_len]. rewrite is_cont_lead, is_cont_128 by (auto; lia). reflexivity. }
  destruct (N.ltb_spec u 65536).
  { assert (u / 4096 < 16) by (apply N.div_lt_upper_bound; lia).
    cbn [u_len]. replace (224 + u/4096) with (192 + (32 + u/4096)) by lia.
    rewrite is_cont_lead, !is_cont_128 by (auto; lia). reflexivity. }
  assert (u / 262144 < 8) by (apply N.div_lt_upper_bound; lia).
  cbn [u_len]. replace (240 + u/262144) with (192 + (48 + u/262144)) by lia.
  rewrite is_cont_lead, !is_cont_128 by (auto; lia). reflexivity.
Qed.

Theorem u_len_counts_code_points : forall us, Forall (fun u => u <= 0x10ffff) us ->
  str_b_u_len (concat (map utf8_spec us)) =
  (List.length (concat (map utf8_spec us)), List.length us).
Proof.
  intros us H. unfold str_b_u_len. f_equal.
  induction H; simpl; auto. rewrite u_len_app, u_len_char by auto. simpl. congruence.
Qed.
