(** C71: colours are what their notation says, on a terminal, in html and in tex. *)
From Coq Require Import NArith ZArith List Bool Arith Lia String.
From Verif Require Import Bytes BytesFacts Outcome Printer ColorDef GettersSpec ColorDefSpec.
Import ListNotations.
Local Open Scope N_scope.
Local Open Scope list_scope.

(** *** Digits *)
Lemma some_inj A (x y : A) : Some x = Some y -> x = y.
Proof. congruence. Qed.
Lemma color_digit_spec c v : color_digit c = Some v -> exists d, v = Z.of_N d /\ digit 16 c d.
Proof.
  unfold color_digit. intros H. unfold digit.
  destruct (N.leb_spec 48 c) as [A1|A1], (N.leb_spec c 57) as [A2|A2]; cbn [andb] in H;
    [assert (Hv : v = _) by (symmetry; exact (some_inj _ _ _ H)); rewrite Hv; exists (c - 48); split; [lia|]; split; [lia|]; left; lia|..];
    (destruct (N.leb_spec 97 c) as [A3|A3], (N.leb_spec c 102) as [A4|A4]; cbn [andb] in H;
      [assert (Hv : v = _) by (symmetry; exact (some_inj _ _ _ H)); rewrite Hv; exists (c - 97 + 10); split; [lia|]; split; [lia|]; right; lia|..]);
    (destruct (N.leb_spec 65 c) as [A5|A5], (N.leb_spec c 70) as [A6|A6]; cbn [andb] in H;
      [assert (Hv : v = _) by (symmetry; exact (some_inj _ _ _ H)); rewrite Hv; exists (c - 65 + 10); split; [lia|]; split; [lia|]; right; lia|..]); discriminate H.
Qed.
Lemma color_digit_of c d : digit 16 c d -> color_digit c = Some (Z.of_N d).
Proof.
  intros (L & [(L' & ->)|((L' & _) & [-> | ->])]); unfold color_digit.
  - rewrite (proj2 (N.leb_le 48 (48 + d))), (proj2 (N.leb_le (48 + d) 57)) by lia. cbn [andb]. f_equal. lia.
  - rewrite (proj2 (N.leb_le 48 (97 + (d - 10)))) by lia. rewrite (proj2 (N.leb_gt (97 + (d - 10)) 57)) by lia. cbn [andb].
    rewrite (proj2 (N.leb_le 97 (97 + (d - 10)))), (proj2 (N.leb_le (97 + (d - 10)) 102)) by lia. cbn [andb]. f_equal. lia.
  - rewrite (proj2 (N.leb_le 48 (65 + (d - 10)))) by lia. rewrite (proj2 (N.leb_gt (65 + (d - 10)) 57)) by lia. cbn [andb].
    rewrite (proj2 (N.leb_gt 97 (65 + (d - 10)))) by lia. cbn [andb].
    rewrite (proj2 (N.leb_le 65 (65 + (d - 10)))), (proj2 (N.leb_le (65 + (d - 10)) 70)) by lia. cbn [andb]. f_equal. lia.
Qed.
Lemma numeral_nonempty b s v : numeral b s v -> s <> [].
Proof. destruct 1; [discriminate|]. intros E. symmetry in E. now apply app_cons_not_nil in E. Qed.
Lemma two_hex_of s v : two_hex s v -> exists c cc, s = [c; cc] /\ hex_to_number c cc = Some (Z.of_N v) /\ v < 256.
Proof.
  intros (L & H). destruct H as [c d D|s v c d H D]; [discriminate L|].
  rewrite app_length in L. cbn [List.length] in L. destruct H as [c' d' D'|s v c' d' H D'].
  - exists c', c. split; [reflexivity|]. unfold hex_to_number. rewrite (color_digit_of _ _ D), (color_digit_of _ _ D').
    destruct D as (D & _), D' as (D' & _). split; [f_equal; lia|lia].
  - rewrite app_length in L. cbn [List.length] in L. apply numeral_nonempty in H. destruct s; [contradiction|cbn [List.length] in L; lia].
Qed.
Lemma hex_two c cc v : hex_to_number c cc = Some v -> exists n, v = Z.of_N n /\ two_hex [c; cc] n.
Proof.
  unfold hex_to_number. destruct (color_digit c) as [h|] eqn:H; [|discriminate]. destruct (color_digit cc) as [l|] eqn:L; [|discriminate].
  intros E. injection E as <-. apply color_digit_spec in H, L. destruct H as (a & -> & D), L as (b & -> & D').
  exists (a * 16 + b). split; [lia|]. split; [reflexivity|]. apply (nu_more 16 [c] a cc b); [now constructor|assumption].
Qed.

(** *** Decimal numbers *)
Lemma decimal_loop_app f : forall n acc, decimal_loop f n acc = decimal_loop f n [] ++ acc.
Proof.
  induction f as [|f IH]; intros n acc; [reflexivity|]. cbn [decimal_loop]. destruct (n <? 10); [reflexivity|].
  rewrite (IH (n / 10) (_ :: acc)), (IH (n / 10) [_]). now rewrite <- app_assoc.
Qed.
Lemma mod_digit n : digit 10 (48 + n mod 10) (n mod 10).
Proof. assert (n mod 10 < 10) by (apply N.mod_lt; discriminate). split; [assumption|]. left. split; [assumption|reflexivity]. Qed.
Lemma decimal_loop_numeral f : forall n, n < 2 ^ N.of_nat f -> f <> O ->
  numeral 10 (decimal_loop f n []) n /\ (n <> 0 -> forall r, decimal_loop f n [] <> 48 :: r) /\ (n < 10 -> decimal_loop f n [] = [48 + n]).
Proof.
  induction f as [|f IH]; intros n L F; [congruence|]. cbn [decimal_loop]. destruct (N.ltb_spec n 10) as [T|T].
  - rewrite (N.mod_small n 10 T). split; [constructor; split; [assumption|]; left; now split|]. split; [|reflexivity].
    intros Z r E. apply (f_equal (hd 0)) in E. cbn [hd] in E. lia.
  - assert (F' : f <> O) by (intros ->; cbn in L; lia).
    assert (L' : n / 10 < 2 ^ N.of_nat f).
    { apply N.div_lt_upper_bound; [discriminate|]. rewrite Nat2N.inj_succ, N.pow_succ_r' in L. lia. }
    destruct (IH (n / 10) L' F') as (A & A' & _). rewrite decimal_loop_app. split; [|split; [|lia]].
    + assert (E : n = n / 10 * 10 + n mod 10) by (rewrite N.mul_comm; apply N.div_mod; discriminate). rewrite E at 3.
      apply nu_more; [assumption|apply mod_digit].
    + intros _ r E. assert (Z : n / 10 <> 0) by (intros Z; apply N.div_small_iff in Z; [lia|discriminate]).
      specialize (A' Z). destruct (decimal_loop f (n / 10) []) as [|x l] eqn:D; [now apply numeral_nonempty in A|].
      cbn [app] in E. injection E as -> _. now apply (A' l).
Qed.
Lemma log_bound n : n < 2 ^ N.of_nat (S (N.to_nat (N.log2 n))).
Proof.
  rewrite Nat2N.inj_succ, N2Nat.id. destruct (N.eq_dec n 0) as [->|Z]; [reflexivity|]. apply N.log2_spec. lia.
Qed.
Lemma decimal_param n : param (decimal n) n.
Proof.
  unfold decimal. destruct (decimal_loop_numeral _ n (log_bound n)) as (A & A' & A''); [discriminate|]. split; [assumption|].
  destruct (N.eq_dec n 0) as [->|Z]; [left; apply A''; reflexivity|right; now apply A'].
Qed.
Lemma decimal_loop_length f : forall n k, n < 10 ^ N.of_nat k -> (1 <= k)%nat -> (List.length (decimal_loop f n []) <= k)%nat.
Proof.
  induction f as [|f IH]; intros n k L K; [cbn; lia|]. cbn [decimal_loop]. destruct (n <? 10) eqn:T; [cbn; lia|]. apply N.ltb_ge in T.
  rewrite decimal_loop_app, app_length. cbn [List.length]. destruct k as [|k]; [lia|].
  assert (1 <= k)%nat. { destruct k; [cbn in L; lia|lia]. }
  rewrite Nat2N.inj_succ, N.pow_succ_r' in L. assert (n / 10 < 10 ^ N.of_nat k) by (apply N.div_lt_upper_bound; [discriminate|lia]).
  specialize (IH (n / 10) k H0 H). lia.
Qed.
Lemma print_int_length z : (-1 <= z < 256)%Z -> (List.length (print_int z) <= 3)%nat.
Proof.
  intros L. unfold print_int. destruct (Z.ltb_spec z 0).
  - assert (z = (-1)%Z) as -> by lia. vm_compute. lia.
  - unfold decimal. apply decimal_loop_length; [|lia]. change (10 ^ N.of_nat 3) with 1000. lia.
Qed.
Lemma print_int_long z : (- 2 ^ 31 <= z < 2 ^ 31)%Z -> (List.length (print_int z) <= 11)%nat.
Proof.
  intros L. unfold print_int, decimal. change (2 ^ 31)%Z with 2147483648%Z in L. destruct (Z.ltb_spec z 0); cbn [List.length].
  - apply le_n_S. apply decimal_loop_length; [|lia]. change (10 ^ N.of_nat 10) with 10000000000. lia.
  - enough (List.length (decimal_loop (S (N.to_nat (N.log2 (Z.to_N z)))) (Z.to_N z) []) <= 10)%nat by lia.
    apply decimal_loop_length; [|lia]. change (10 ^ N.of_nat 10) with 10000000000. lia.
Qed.
Lemma print_int_pos n : print_int (Z.of_N n) = decimal n.
Proof. unfold print_int. destruct (Z.ltb_spec (Z.of_N n) 0); [lia|]. now rewrite N2Z.id. Qed.

(** *** Hexadecimal numbers *)
Lemma hex_char_digit d : d < 16 -> digit 16 (hex_char d) d.
Proof.
  intros L. unfold hex_char. split; [assumption|]. destruct (N.ltb_spec d 10); [left; now split|]. right. split; [lia|]. left; reflexivity.
Qed.
Lemma print_02x_byte n : n < 256 -> print_02x (Z.of_N n) = [hex_char (n / 16); hex_char (n mod 16)].
Proof.
  intros L. unfold print_02x. rewrite Z.mod_small by lia. rewrite N2Z.id.
  assert (M : n / 16 < 16) by (apply N.div_lt_upper_bound; [discriminate|lia]).
  change (hex_loop 8 n []) with (if n <? 16 then [hex_char (n mod 16)] else hex_loop 7 (n / 16) [hex_char (n mod 16)]).
  destruct (N.ltb_spec n 16) as [T|T].
  - cbn [List.length Nat.ltb Nat.leb]. rewrite (N.div_small n 16 T). reflexivity.
  - cbn [hex_loop]. rewrite (proj2 (N.ltb_lt _ _) M), (N.mod_small _ _ M). reflexivity.
Qed.
Lemma print_02x_two n : n < 256 -> two_hex (print_02x (Z.of_N n)) n.
Proof.
  intros L. rewrite (print_02x_byte n L). split; [reflexivity|].
  assert (E : n = n / 16 * 16 + n mod 16) by (rewrite N.mul_comm; apply N.div_mod; discriminate). rewrite E at 3.
  apply (nu_more 16 [hex_char (n / 16)] _ (hex_char (n mod 16))).
  - constructor. apply hex_char_digit. apply N.div_lt_upper_bound; [discriminate|lia].
  - apply hex_char_digit. apply N.mod_lt. discriminate.
Qed.

(** *** Reading *)
Definition loose_marks (m : bytes) (bo un : bool) : Prop :=
  exists xs, (List.length xs <= 2)%nat /\ m = flat_map (fun x => [95; x]) xs /\ (bo = true <-> In 66 xs) /\ (un = true <-> In 85 xs).

Lemma color_mark_other s b u : (forall r, s <> 95 :: r) -> color_mark (Some s) b u = Ok (Some s, b, u).
Proof.
  intros H. unfold color_mark. destruct s as [|c r]; [reflexivity|]. destruct (N.eqb_spec c 95) as [->|]; [now destruct (H r)|reflexivity].
Qed.
Lemma web_split w r g b : web_color w r g b -> exists r1 r2 g1 g2 b1 b2, w = [35; r1; r2; g1; g2; b1; b2] /\
  hex_to_number r1 r2 = Some (Z.of_N r) /\ hex_to_number g1 g2 = Some (Z.of_N g) /\ hex_to_number b1 b2 = Some (Z.of_N b) /\ rgb r g b.
Proof.
  intros (sr & sg & sb & -> & R & G & Bl). apply two_hex_of in R, G, Bl.
  destruct R as (r1 & r2 & -> & R & ?), G as (g1 & g2 & -> & G & ?), Bl as (b1 & b2 & -> & Bl & ?).
  exists r1, r2, g1, g2, b1, b2. repeat split; assumption.
Qed.
(** The bytes of the notation *)
Lemma web_rgb w r g b : web_color w r g b -> rgb r g b.
Proof. intros H. apply web_split in H. now destruct H as (? & ? & ? & ? & ? & ? & _ & _ & _ & _ & H). Qed.
Lemma read_web w r g b m : web_color w r g b -> string_to_color_def (w ++ m) =
  obind (color_mark (Some m) false false) (fun '(s1, bo, un) => obind (color_mark s1 bo un) (fun '(s2, bo, un) =>
    match s2 with None => UB | Some [] => Ok (true, Color (Z.of_N r) (Z.of_N g) (Z.of_N b) bo un) | Some (_ :: _) => Ok (false, no_color) end)).
Proof.
  intros H. apply web_split in H. destruct H as (r1 & r2 & g1 & g2 & b1 & b2 & -> & R & G & Bl & _). cbn [app string_to_color_def N.eqb Pos.eqb negb].
  now rewrite R, G, Bl.
Qed.

(** Every colour and every mark is read as what it stands for. *)
Theorem C71_notation_is_read : forall s r g b bo un, color_notation s r g b bo un ->
  rgb r g b /\ string_to_color_def s = Ok (true, Color (Z.of_N r) (Z.of_N g) (Z.of_N b) bo un).
Proof.
  intros s r g b bo un (w & m & -> & W & M). split; [now apply (web_rgb w)|]. rewrite (read_web _ _ _ _ _ W). now destruct M.
Qed.

Lemma read_shape s b d : string_to_color_def s = Ok (b, d) -> b = true ->
  exists w m r g bl, s = w ++ m /\ web_color w r g bl /\ red d = Z.of_N r /\ green d = Z.of_N g /\ blue d = Z.of_N bl.
Proof.
  intros H ->. destruct s as [|h [|r1 [|r2 [|g1 [|g2 [|b1 [|b2 rest]]]]]]]; try discriminate H. cbn [string_to_color_def] in H.
  destruct (N.eqb_spec h 35) as [->|]; [|discriminate H]. cbn [negb] in H.
  destruct (hex_to_number r1 r2) as [zr|] eqn:R; [|discriminate H]. destruct (hex_to_number g1 g2) as [zg|] eqn:G; [|discriminate H].
  destruct (hex_to_number b1 b2) as [zb|] eqn:Bl; [|discriminate H].
  apply hex_two in R, G, Bl. destruct R as (r & -> & R), G as (g & -> & G), Bl as (bl & -> & Bl).
  destruct (color_mark (Some rest) false false) as [((s1 & bo) & un)|?| | |]; try discriminate H. cbn [obind] in H.
  destruct (color_mark s1 bo un) as [((s2 & bo2) & un2)|?| | |]; try discriminate H. cbn [obind] in H.
  destruct s2 as [[|]|]; try discriminate H. assert (d = Color (Z.of_N r) (Z.of_N g) (Z.of_N bl) bo2 un2) as -> by congruence.
  exists [35; r1; r2; g1; g2; b1; b2], rest, r, g, bl. split; [reflexivity|]. split; [|repeat split].
  exists [r1; r2], [g1; g2], [b1; b2]. split; [reflexivity|split; [assumption|split; assumption]].
Qed.

(** And what is read is such a colour; after it are at most two marks, of which
    only B and U count. *)
Theorem C71_what_is_read : forall s d, string_to_color_def s = Ok (true, d) ->
  exists w m r g b, s = w ++ m /\ web_color w r g b /\ loose_marks m (bold d) (underline d)
    /\ red d = Z.of_N r /\ green d = Z.of_N g /\ blue d = Z.of_N b.
Proof.
  intros s d H. destruct (read_shape _ _ _ H eq_refl) as (w & m & r & g & b & -> & W & R & G & Bl).
  exists w, m, r, g, b. split; [reflexivity|]. split; [assumption|]. split; [|repeat split; assumption].
  rewrite (read_web _ _ _ _ _ W) in H. clear W R G Bl.
  destruct m as [|c m]; [|destruct (N.eq_dec c 95) as [->|Nc]].
  - assert (d = Color (Z.of_N r) (Z.of_N g) (Z.of_N b) false false) as -> by (cbn in H; congruence).
    exists []. repeat split; cbn; try lia; try discriminate; contradiction.
  - destruct m as [|x m]; [discriminate H|]. cbn [color_mark N.eqb Pos.eqb obind orb] in H.
    destruct m as [|c m]; [|destruct (N.eq_dec c 95) as [->|Nc]].
    + cbn [color_mark obind] in H. match type of H with Ok (true, ?e) = _ => assert (d = e) as -> by congruence end.
      exists [x]. cbn [bold underline List.length flat_map app In]. repeat split; try lia; rewrite N.eqb_eq; intuition.
    + destruct m as [|y m]; [discriminate H|]. cbn [color_mark N.eqb Pos.eqb obind orb] in H. destruct m as [|z m]; [|discriminate H].
      match type of H with Ok (true, ?e) = _ => assert (d = e) as -> by congruence end.
      exists [x; y]. cbn [bold underline List.length flat_map app In]. repeat split; try lia; rewrite orb_true_iff, !N.eqb_eq; intuition.
    + rewrite (proj2 (N.eqb_neq c 95) Nc) in H. discriminate H.
  - rewrite color_mark_other in H by (intros q Q; congruence). cbn [obind] in H.
    rewrite color_mark_other in H by (intros q Q; congruence). discriminate H.
Qed.

(** What is not read leaves the same definition behind, of no colour. *)
Theorem C71_refused : forall s d, string_to_color_def s = Ok (false, d) ->
  d = no_color /\ forall r g b bo un, ~ color_notation s r g b bo un.
Proof.
  intros s d H. split.
  - destruct s as [|h [|r1 [|r2 [|g1 [|g2 [|b1 [|b2 rest]]]]]]]; try (cbn in H; congruence). cbn [string_to_color_def] in H.
    destruct (negb (h =? 35)); [congruence|].
    destruct (hex_to_number r1 r2); [|congruence]. destruct (hex_to_number g1 g2); [|congruence]. destruct (hex_to_number b1 b2); [|congruence].
    destruct (color_mark (Some rest) false false) as [((s1 & bo) & un)|?| | |]; try discriminate H. cbn [obind] in H.
    destruct (color_mark s1 bo un) as [((s2 & bo2) & un2)|?| | |]; try discriminate H. cbn [obind] in H. destruct s2 as [[|]|]; congruence.
  - intros r g b bo un C. apply C71_notation_is_read in C. destruct C as (_ & C). congruence.
Qed.

(** The memory behind the text is read only if the text ends with the underscore
    of a mark. *)
Theorem C71_reads_inside : forall s, (forall p, s <> p ++ [95]) -> exists b d, string_to_color_def s = Ok (b, d).
Proof.
  intros s H. destruct s as [|h [|r1 [|r2 [|g1 [|g2 [|b1 [|b2 rest]]]]]]]; try (eexists; eexists; reflexivity). cbn [string_to_color_def].
  destruct (negb (h =? 35)); [eexists; eexists; reflexivity|].
  destruct (hex_to_number r1 r2); [|eexists; eexists; reflexivity]. destruct (hex_to_number g1 g2); [|eexists; eexists; reflexivity].
  destruct (hex_to_number b1 b2); [|eexists; eexists; reflexivity].
  assert (A : forall b u m, (forall p, m <> p ++ [95]) -> exists m' b' u', color_mark (Some m) b u = Ok (Some m', b', u') /\ forall p, m' <> p ++ [95]).
  { intros b u m M. destruct m as [|c m]; [exists [], b, u; split; [reflexivity|exact M]|]. cbn [color_mark].
    destruct (N.eqb_spec c 95) as [->|]; [|exists (c :: m), b, u; split; [reflexivity|exact M]].
    destruct m as [|x m]; [now destruct (M [])|]. eexists m, _, _. split; [reflexivity|]. intros p ->. now apply (M (95 :: x :: p)). }
  destruct (A false false rest) as (m1 & bo & un & -> & M1); [intros p ->; now apply (H ([h; r1; r2; g1; g2; b1; b2] ++ p))|]. cbn [obind].
  destruct (A bo un m1 M1) as (m2 & bo2 & un2 & -> & M2). cbn [obind]. destruct m2; eexists; eexists; reflexivity.
Qed.
Theorem C71_reads_inside_refuted : exists w r g b, web_color w r g b /\ string_to_color_def (w ++ B "_") = UB /\ string_to_color_def (w ++ B "_B_") = UB.
Proof.
  exists (B "#aabbcc"), 170, 187, 204. split; [|split; reflexivity].
  assert (T : forall c d e, two_hex [c; d] e <-> hex_to_number c d = Some (Z.of_N e)).
  { intros c d e. split; [intros T; apply two_hex_of in T; destruct T as (? & ? & E & T & _); injection E as <- <-; exact T|].
    intros T. apply hex_two in T. destruct T as (n & E & T). apply N2Z.inj in E. now subst. }
  exists [97; 97], [98; 98], [99; 99]. split; [reflexivity|]. split; [|split]; apply T; reflexivity.
Qed.
(** A mark that means nothing is not refused. *)
Theorem C71_unknown_mark_refuted : exists s d, string_to_color_def s = Ok (true, d) /\ forall r g b bo un, ~ color_notation s r g b bo un.
Proof.
  exists (B "#aabbcc_i"). eexists. split; [reflexivity|]. intros r g b bo un (w & m & E & W & M). apply web_split in W.
  destruct W as (r1 & r2 & g1 & g2 & b1 & b2 & -> & _). destruct M; discriminate E.
Qed.

(** *** A terminal *)
Lemma ansi_terminal r g b bo un : terminal_color (ansi_text (Color (Z.of_N r) (Z.of_N g) (Z.of_N b) bo un)) r g b bo un.
Proof.
  unfold terminal_color, sgr, ansi_text. cbn [red green blue bold underline]. rewrite !print_int_pos.
  assert (P : forall n, n < 100 -> param (decimal n) n) by (intros n _; apply decimal_param).
  assert (L : params (B "38" ++ [59] ++ B "2" ++ [59] ++ decimal r ++ [59] ++ decimal g ++ [59] ++ decimal b) [38; 2; r; g; b]).
  { apply pa_more; [apply (P 38); reflexivity|]. apply pa_more; [apply (P 2); reflexivity|]. apply pa_more; [apply decimal_param|].
    apply pa_more; [apply decimal_param|]. apply pa_one, decimal_param. }
  exists (B "0;" ++ (if bo then B "1;" else []) ++ (if un then B "4;" else []) ++ B "38" ++ [59] ++ B "2" ++ [59] ++ decimal r ++ [59] ++ decimal g ++ [59] ++ decimal b).
  split; [destruct bo, un; repeat rewrite <- app_assoc; reflexivity|].
  assert (U : params ((if un then B "4;" else []) ++ B "38" ++ [59] ++ B "2" ++ [59] ++ decimal r ++ [59] ++ decimal g ++ [59] ++ decimal b)
                ((if un then [4] else []) ++ [38; 2; r; g; b])).
  { destruct un; [|exact L]. apply (pa_more (B "4") 4); [apply (P 4); reflexivity|exact L]. }
  apply (pa_more (B "0") 0); [apply (P 0); reflexivity|].
  destruct bo; [|exact U]. apply (pa_more (B "1") 1); [apply (P 1); reflexivity|exact U].
Qed.

Lemma ansi_length d k : (List.length (print_int (red d)) <= k)%nat -> (List.length (print_int (green d)) <= k)%nat ->
  (List.length (print_int (blue d)) <= k)%nat -> (List.length (ansi_text d) <= 16 + 3 * k)%nat.
Proof.
  intros R G Bl. unfold ansi_text. rewrite !app_length. destruct (bold d), (underline d); cbn [List.length B list_ascii_of_string map]; lia.
Qed.
Lemma into_buffer_ok size s : N.of_nat (List.length s) + 1 <= size -> into_buffer size s = Ok s.
Proof. intros H. unfold into_buffer. now rewrite (proj2 (N.leb_le _ _) H). Qed.

(** Every colour has its escape sequence, and 32 bytes are enough for it, also
    after an unreadable colour. *)
Theorem C71_terminal : forall size r g b bo un, rgb r g b -> 32 <= size ->
  exists t, generate_ansi_color size (Color (Z.of_N r) (Z.of_N g) (Z.of_N b) bo un) = Ok (Some t) /\ terminal_color t r g b bo un.
Proof.
  intros size r g b bo un (R & G & Bl) S. unfold generate_ansi_color. rewrite (proj2 (N.ltb_ge _ _) S).
  eexists. split; [|apply ansi_terminal]. rewrite into_buffer_ok; [reflexivity|].
  pose proof (ansi_length (Color (Z.of_N r) (Z.of_N g) (Z.of_N b) bo un) 3). cbn [red green blue] in H.
  pose proof (print_int_length (Z.of_N r)). pose proof (print_int_length (Z.of_N g)). pose proof (print_int_length (Z.of_N b)). lia.
Qed.
Theorem C71_terminal_unreadable : forall size, 32 <= size -> exists t, generate_ansi_color size no_color = Ok (Some t).
Proof.
  intros size S. unfold generate_ansi_color. rewrite (proj2 (N.ltb_ge _ _) S). eexists. rewrite into_buffer_ok; [reflexivity|].
  match goal with |- ?a <= _ => let v := eval vm_compute in a in change a with v end. lia.
Qed.
(** An unreadable colour is written all the same, as no terminal knows it. *)
Theorem C71_terminal_unreadable_refuted : exists t, generate_ansi_color 128 no_color = Ok (Some t) /\ forall ns, ~ sgr t ns.
Proof.
  eexists. split; [reflexivity|]. intros ns (p & E & H).
  assert (D : forall s n, numeral 10 s n -> Forall (fun c => 48 <= c <= 57) s).
  { induction 1 as [c d D|s v c d _ IH D]; [constructor; [|constructor]|apply Forall_app; split; [assumption|constructor; [|constructor]]];
      destruct D as (D & [D'|D']); lia. }
  assert (A : Forall (fun c => 48 <= c <= 57 \/ c = 59) p).
  { clear E. induction H as [s n (H & _)|s n r ns (H & _) _ IH].
    - eapply Forall_impl; [|apply (D _ _ H)]. cbn. intros; now left.
    - apply Forall_app. split; [eapply Forall_impl; [|apply (D _ _ H)]; cbn; intros; now left|]. apply Forall_app. split; [|exact IH].
      constructor; [now right|constructor]. }
  assert (In 45 p).
  { match type of E with ?t = _ => assert (I : In 45 t) by (vm_compute; tauto) end. rewrite E in I. apply in_app_or in I.
    destruct I as [[I|[I|[]]]|I]; try discriminate I. apply in_app_or in I. destruct I as [I|[I|[]]]; [exact I|discriminate I]. }
  rewrite Forall_forall in A. specialize (A _ H0). lia.
Qed.

Definition int32_color (d : color_def) : Prop := int32 (red d) /\ int32 (green d) /\ int32 (blue d).
Lemma add_color_ok d used : int32_color d -> used + 50 <= 4096 ->
  exists used', add_color d used = Ok (ansi_text d, used') /\ used' <= used + 50.
Proof.
  intros (R & G & Bl) U. pose proof (ansi_length d 11 (print_int_long _ R) (print_int_long _ G) (print_int_long _ Bl)).
  unfold add_color, generate_ansi_color. change (128 <? 32) with false. cbn iota. rewrite into_buffer_ok by lia. cbn [obind].
  rewrite (proj2 (N.leb_le _ 4096)) by lia. eexists. split; [reflexivity|lia].
Qed.
Lemma add_colors_ok ds : forall used, Forall int32_color ds -> used + 50 * N.of_nat (List.length ds) <= 4096 ->
  add_colors ds used = Ok (map ansi_text ds).
Proof.
  induction ds as [|d ds IH]; intros used F U; [reflexivity|]. inversion F as [|? ? F1 F2]; subst. cbn [List.length] in U.
  destruct (add_color_ok d used F1) as (used' & E & U'); [lia|]. cbn [add_colors map]. rewrite E. cbn [obind]. now rewrite IH by (assumption || lia).
Qed.
(** The commands of the thirteen colours of a theme fit, whatever the theme is. *)
Theorem C71_commands_fit : forall ds, Forall int32_color ds -> List.length ds = 13%nat -> exists ts, add_colors ds 0 = Ok ts.
Proof. intros ds F L. eexists. apply add_colors_ok; [assumption|rewrite L; vm_compute; discriminate]. Qed.

Definition colour := (N * N * N * (bool * bool))%type.
Definition written (s : bytes) (c : colour) : Prop := let '(r, g, b, (bo, un)) := c in color_notation s r g b bo un.
Definition shown (t : bytes) (c : colour) : Prop := let '(r, g, b, (bo, un)) := c in terminal_color t r g b bo un.
Definition def_of (c : colour) : color_def := let '(r, g, b, (bo, un)) := c in Color (Z.of_N r) (Z.of_N g) (Z.of_N b) bo un.

Lemma install_ok l cs : Forall2 written l cs -> install_colors l = Ok (map def_of cs) /\ Forall int32_color (map def_of cs).
Proof.
  induction 1 as [|s c l cs W _ IH]; [split; [reflexivity|constructor]|]. destruct IH as (IH & IH'). destruct c as (((r & g) & b) & (bo & un)).
  apply C71_notation_is_read in W. destruct W as ((R & G & Bl) & W). cbn [install_colors map]. rewrite W. cbn [obind]. rewrite IH. split; [reflexivity|].
  constructor; [|exact IH']. unfold int32_color, int32. cbn [def_of red green blue]. change (2 ^ 31)%Z with 2147483648%Z. lia.
Qed.
Lemma Forall2_map_shown cs : Forall2 shown (map ansi_text (map def_of cs)) cs.
Proof. induction cs as [|(((r & g) & b) & (bo & un)) cs IH]; constructor; [apply ansi_terminal|exact IH]. Qed.

Lemma F2_length A C (P : A -> C -> Prop) l k : Forall2 P l k -> List.length l = List.length k.
Proof. induction 1; cbn [List.length]; congruence. Qed.

(** From the notations of a theme to the terminal: each of the thirteen colours is
    switched on by the sequence for it. *)
Theorem C71_theme_on_a_terminal : forall l cs, Forall2 written l cs -> List.length l = 13%nat ->
  exists ds ts, install_colors l = Ok ds /\ add_colors ds 0 = Ok ts /\ Forall2 shown ts cs.
Proof.
  intros l cs W L. destruct (install_ok l cs W) as (I & F). exists (map def_of cs), (map ansi_text (map def_of cs)). split; [exact I|].
  split; [|apply Forall2_map_shown]. apply add_colors_ok; [exact F|]. rewrite map_length. apply F2_length in W. rewrite <- W, L. vm_compute. discriminate.
Qed.
Lemma two_hex_calc c d e : hex_to_number c d = Some (Z.of_N e) -> two_hex [c; d] e.
Proof. intros T. apply hex_two in T. destruct T as (n & E & T). apply N2Z.inj in E. now subst. Qed.
Lemma web_calc r1 r2 g1 g2 b1 b2 r g b : hex_to_number r1 r2 = Some (Z.of_N r) -> hex_to_number g1 g2 = Some (Z.of_N g) ->
  hex_to_number b1 b2 = Some (Z.of_N b) -> web_color [35; r1; r2; g1; g2; b1; b2] r g b.
Proof. intros R G Bl. exists [r1; r2], [g1; g2], [b1; b2]. split; [reflexivity|]. split; [|split]; now apply two_hex_calc. Qed.
Ltac written_by m k := match goal with |- written ?s _ => let w := eval vm_compute in (firstn 7 s) in exists w, m end;
  split; [reflexivity|]; split; [apply web_calc; reflexivity|exact k].
(** The default themes are such notations. *)
Theorem C71_default_themes : (exists cs, Forall2 written default_darkbg_colors cs /\ List.length cs = 13%nat) /\
  (exists cs, Forall2 written default_lightbg_colors cs /\ List.length cs = 13%nat).
Proof.
  split.
  - exists [(42,161,179,(false,false)); (38,162,105,(true,false)); (192,97,203,(false,false)); (169,169,169,(false,false)); (255,140,0,(false,false));
            (136,180,247,(false,false)); (38,162,105,(true,false)); (136,180,247,(false,false)); (97,150,236,(false,false)); (192,97,203,(false,false));
            (42,161,179,(false,false)); (136,0,0,(false,true)); (192,97,203,(false,false))].
    split; [|reflexivity].
    repeat (constructor; [first [written_by (@nil N) mk_none|written_by (B "_B") mk_bold|written_by (B "_U") mk_under]|]). constructor.
  - exists [(42,161,179,(false,false)); (38,162,105,(true,false)); (192,97,203,(false,false)); (105,105,105,(false,false)); (168,108,0,(false,false));
            (0,96,253,(false,false)); (38,162,105,(true,false)); (0,96,253,(false,false)); (18,72,140,(false,false)); (192,97,203,(false,false));
            (26,145,163,(false,false)); (136,0,0,(false,true)); (192,97,203,(false,false))].
    split; [|reflexivity].
    repeat (constructor; [first [written_by (@nil N) mk_none|written_by (B "_B") mk_bold|written_by (B "_U") mk_under]|]). constructor.
Qed.

(** *** Html *)
Lemma html_css r g b bo un name : rgb r g b -> css_color (html_text (Color (Z.of_N r) (Z.of_N g) (Z.of_N b) bo un) name) name r g b bo un.
Proof.
  intros (R & G & Bl). exists ([35] ++ print_02x (Z.of_N r) ++ print_02x (Z.of_N g) ++ print_02x (Z.of_N b)). split.
  - eexists _, _, _. split; [reflexivity|]. split; [|split]; now apply print_02x_two.
  - unfold html_text. cbn [red green blue bold underline].
    change (B "{color:#") with (B "{color:" ++ [35]). repeat rewrite <- app_assoc. reflexivity.
Qed.
(** The rule of a colour in the style, for names of up to 69 bytes *)
Theorem C71_html : forall r g b bo un name, rgb r g b -> (List.length name <= 69)%nat ->
  exists v t, generate_html_color 128 (Color (Z.of_N r) (Z.of_N g) (Z.of_N b) bo un) name = Ok (v, Some t) /\ css_color t name r g b bo un.
Proof.
  intros r g b bo un name C L. exists false. eexists. split; [|now apply html_css].
  unfold generate_html_color. change (128 <? 64) with false. cbn iota. rewrite into_buffer_ok; [reflexivity|].
  destruct C as (R & G & Bl). unfold html_text. cbn [red green blue bold underline].
  rewrite !print_02x_byte by assumption. rewrite !app_length. destruct bo, un; cbn [List.length B list_ascii_of_string map]; lia.
Qed.
(** A css colour is read again as the colour it was. *)
Theorem C71_html_read_again : forall t name r g b bo un, css_color t name r g b bo un ->
  exists w rest, t = name ++ B "{color:" ++ w ++ B ";" ++ rest /\ string_to_color_def w = Ok (true, Color (Z.of_N r) (Z.of_N g) (Z.of_N b) false false).
Proof.
  intros t name r g b bo un (w & W & ->). eexists w, _. split; [reflexivity|]. apply C71_notation_is_read.
  exists w, []. split; [now rewrite app_nil_r|]. split; [exact W|constructor].
Qed.
Inductive rules : bytes -> list colour -> list bytes -> Prop :=
| ru_nil : rules [] [] []
| ru_cons t r g b bo un name rest cs names : css_color t name r g b bo un -> rules rest cs names ->
    rules (t ++ rest) ((r, g, b, (bo, un)) :: cs) (name :: names).
Lemma style_ok cs : forall names, List.length cs = List.length names -> Forall (fun c : colour => let '(r, g, b, _) := c in rgb r g b) cs ->
  Forall (fun n => (List.length n <= 69)%nat) names -> exists t, style_rules (map def_of cs) names = Ok t /\ rules t cs names.
Proof.
  induction cs as [|(((r & g) & b) & (bo & un)) cs IH]; intros [|n names] L F N; try discriminate L; [exists []; split; [reflexivity|constructor]|].
  inversion F as [|? ? F1 F2]; inversion N as [|? ? N1 N2]; subst. destruct (IH names) as (t & E & T); [now injection L|assumption|assumption|].
  destruct (C71_html r g b bo un n F1 N1) as (v & t1 & E1 & T1). exists (t1 ++ t). split; [|now constructor].
  cbn [map style_rules def_of]. rewrite E1. cbn [obind]. rewrite E. reflexivity.
Qed.
(** From the notations of a theme to the style sheet: a rule for each name *)
Theorem C71_theme_in_html : forall l cs, Forall2 written l cs -> List.length l = 13%nat ->
  exists ds t, install_colors l = Ok ds /\ style_rules ds color_names = Ok t /\ rules t cs color_names.
Proof.
  intros l cs W L. destruct (install_ok l cs W) as (I & _). exists (map def_of cs). destruct (style_ok cs color_names) as (t & E & T).
  - apply F2_length in W. now rewrite <- W, L.
  - clear -W. induction W as [|s c l cs W _ IH]; constructor; [|exact IH]. destruct c as (((r & g) & b) & (bo & un)).
    now apply C71_notation_is_read in W.
  - repeat constructor; vm_compute; lia.
  - exists t. auto.
Qed.
(** The function that writes the rule always says that it could not. *)
Theorem C71_html_reported_refuted : forall size d name v t, generate_html_color size d name = Ok (v, t) -> v = false.
Proof.
  intros size d name v t. unfold generate_html_color. destruct (size <? 64); [congruence|]. destruct (into_buffer size _); cbn [obind]; congruence.
Qed.

(** *** Tex *)
Lemma tex_is r g b bo un name : tex_color (tex_text (Color (Z.of_N r) (Z.of_N g) (Z.of_N b) bo un) name) name r g b.
Proof.
  exists (decimal r), (decimal g), (decimal b). split; [apply decimal_param|]. split; [apply decimal_param|]. split; [apply decimal_param|].
  unfold tex_text. cbn [red green blue]. now rewrite !print_int_pos.
Qed.
Theorem C71_tex : forall r g b bo un name, rgb r g b -> (List.length name <= 95)%nat ->
  exists t, generate_tex_color 128 (Color (Z.of_N r) (Z.of_N g) (Z.of_N b) bo un) name = Some t /\ tex_color t name r g b.
Proof.
  intros r g b bo un name (R & G & Bl) L. eexists. split; [reflexivity|]. rewrite firstn_all2; [apply tex_is|].
  unfold tex_text. rewrite !app_length. cbn [red green blue].
  pose proof (print_int_length (Z.of_N r)). pose proof (print_int_length (Z.of_N g)). pose proof (print_int_length (Z.of_N b)).
  cbn [List.length B list_ascii_of_string map]. change (N.to_nat (128 - 1)) with 127%nat. lia.
Qed.
(** Each of the colours is defined on a line of its own, and all of it fits into
    the buffer. *)
Theorem C71_tex_style : forall mode dark light,
  Forall (fun d => exists r g b bo un, rgb r g b /\ d = Color (Z.of_N r) (Z.of_N g) (Z.of_N b) bo un) light -> List.length light = List.length color_names ->
  exists lines, tex_style mode dark light = Ok (List.concat (map (fun l => l ++ [10]) lines)) /\
  Forall2 (fun dn l => exists r g b, red (fst dn) = Z.of_N r /\ green (fst dn) = Z.of_N g /\ blue (fst dn) = Z.of_N b /\ tex_color l (snd dn) r g b)
    (combine light color_names) lines.
Proof.
  intros mode dark light F L. unfold tex_style. revert L.
  assert (K : Forall (fun n : bytes => (List.length n <= 6)%nat) color_names) by (vm_compute; repeat constructor).
  assert (C : List.length color_names = 13%nat) by reflexivity.
  revert K C. generalize color_names as names. intros names K C L.
  assert (X : exists lines, tex_lines light names = List.concat (map (fun l => l ++ [10]) lines) /\ (List.length (tex_lines light names) <= 100 * List.length names)%nat /\
    Forall2 (fun dn l => exists r g b, red (fst dn) = Z.of_N r /\ green (fst dn) = Z.of_N g /\ blue (fst dn) = Z.of_N b /\ tex_color l (snd dn) r g b) (combine light names) lines).
  { clear C. revert names K L. induction F as [|d ds (r & g & b & bo & un & R & ->) F IH]; intros [|n names] K L; try discriminate L.
    - exists []. split; [reflexivity|]. split; [cbn; lia|constructor].
    - apply Forall_cons_iff in K. destruct K as [Kn K]. injection L as L. destruct (IH names K L) as (lines & E & S1 & F2).
      destruct (C71_tex r g b bo un n R ltac:(lia)) as (t & Et & Tt). exists (t :: lines). cbn [tex_lines]. rewrite Et.
      split; [cbn [map List.concat]; rewrite E, <- app_assoc; reflexivity|]. split.
      + rewrite !app_length. cbn [List.length]. assert (List.length t <= 97)%nat; [|lia].
        destruct R as (R & G & Bl). apply (f_equal (fun o => match o with Some t => t | None => [] end)) in Et. cbn [generate_tex_color] in Et. subst t.
        unfold generate_tex_color. cbn iota. change (128 <? 128) with false. cbn iota. rewrite firstn_length. etransitivity; [apply Nat.le_min_r|].
        unfold tex_text. rewrite !app_length. cbn [red green blue].
        pose proof (print_int_length (Z.of_N r)). pose proof (print_int_length (Z.of_N g)). pose proof (print_int_length (Z.of_N b)).
        cbn [List.length B list_ascii_of_string map]. lia.
      + cbn [combine]. constructor; [|exact F2]. exists r, g, b. cbn [fst snd red green blue]. auto. }
  destruct X as (lines & E & S1 & F2). exists lines. split; [|exact F2]. unfold into_buffer. rewrite C in S1.
  destruct (N.leb_spec (N.of_nat (List.length (tex_lines light names)) + 1) 4096) as [_|B1]; [now rewrite E|lia].
Qed.
(** In tex the colours are those of the light theme, also if the dark one was
    asked for. *)
Theorem C71_tex_theme_refuted : exists dark light t, install_colors default_darkbg_colors = Ok dark /\ install_colors default_lightbg_colors = Ok light
  /\ tex_style true dark light = Ok t /\ tex_style true light light = Ok t /\ tex_style true dark dark <> Ok t.
Proof.
  eexists _, _, _. split; [vm_compute; reflexivity|]. split; [vm_compute; reflexivity|]. split; [vm_compute; reflexivity|].
  split; [vm_compute; reflexivity|]. vm_compute. discriminate.
Qed.

(** *** The tag around the content *)
Theorem C71_pre_tag : forall dark id clazz, (List.length (match id with Some i => i | None => [] end) + List.length (match clazz with Some c => c | None => [] end) <= 980)%nat ->
  pre_of (pre_tag dark id clazz) (if dark then B "xmq_dark" else B "xmq_light") id clazz.
Proof.
  intros dark id clazz L. unfold pre_of, pre_tag. rewrite firstn_all2; [reflexivity|]. unfold pre_text. rewrite !app_length.
  destruct dark, id, clazz; rewrite ?app_length; cbn [List.length B list_ascii_of_string map] in *; lia.
Qed.
(** A longer id or class is cut, and the tag is not closed. *)
Theorem C71_pre_tag_refuted : exists id, ~ In 62 (pre_tag true (Some id) None).
Proof.
  exists (repeat 97 1100). intros H. assert (E : existsb (N.eqb 62) (pre_tag true (Some (repeat 97 1100)) None) = true).
  { apply existsb_exists. exists 62. split; [exact H|reflexivity]. }
  vm_compute in E. discriminate E.
Qed.

(** Examples *)
Example ex_written : written (B "#26A269_B_U") (38, 162, 105, (true, true)).
Proof. exists (B "#26A269"), (B "_B_U"). split; [reflexivity|]. split; [apply web_calc; reflexivity|constructor]. Qed.
Example ex_ansi : generate_ansi_color 32 (Color 38 162 105 true true) = Ok (Some ([27] ++ B "[0;1;4;38;2;38;162;105m")).
Proof. reflexivity. Qed.
Example ex_html : generate_html_color 128 (Color 38 162 5 true false) (B "xmqQ") = Ok (false, Some (B "xmqQ{color:#26a205;font-weight:600;}")).
Proof. reflexivity. Qed.
Example ex_tex : generate_tex_color 128 (Color 38 162 5 true false) (B "xmqQ") = Some (B "\definecolor{xmqQ}{RGB}{38,162,5}").
Proof. reflexivity. Qed.
Example ex_pre : pre_tag true (Some (B "a")) (Some (B "b")) = B "<pre id=" ++ [34] ++ B "a" ++ [34] ++ B " class=" ++ [34] ++ B "xmq xmq_dark b" ++ [34] ++ B ">".
Proof. reflexivity. Qed.
Example ex_refused : string_to_color_def (B "#26a26g") = Ok (false, no_color) /\ string_to_color_def (B "#26a269x") = Ok (false, no_color).
Proof. split; reflexivity. Qed.

Print Assumptions C71_notation_is_read.
Print Assumptions C71_what_is_read.
Print Assumptions C71_refused.
Print Assumptions C71_reads_inside.
Print Assumptions C71_reads_inside_refuted.
Print Assumptions C71_unknown_mark_refuted.
Print Assumptions C71_terminal.
Print Assumptions C71_terminal_unreadable.
Print Assumptions C71_terminal_unreadable_refuted.
Print Assumptions C71_commands_fit.
Print Assumptions C71_theme_on_a_terminal.
Print Assumptions C71_default_themes.
Print Assumptions C71_html.
Print Assumptions C71_html_read_again.
Print Assumptions C71_theme_in_html.
Print Assumptions C71_html_reported_refuted.
Print Assumptions C71_tex.
Print Assumptions C71_tex_theme_refuted.
Print Assumptions C71_pre_tag.
Print Assumptions C71_pre_tag_refuted.
Print Assumptions C71_tex_style.
