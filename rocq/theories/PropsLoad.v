(** C54: a document is read from a file or from the standard input as from a
    buffer with the same bytes, however the reads are split or interrupted. *)
From Coq Require Import NArith ZArith List Bool String Lia.
From Verif Require Import Bytes BytesFacts Outcome Containers ContainersProofs Parser Dom NsDom Load.
Import ListNotations.
Local Open Scope N_scope.

(** ** Proofs *)
Lemma size_pos : SIZE = 18446744073709551616.
Proof. reflexivity. Qed.
Lemma len_app a b : len (a ++ b) = len a + len b.
Proof. unfold len. rewrite app_length. lia. Qed.
Lemma len_firstn k b : N.of_nat k <= len b -> len (firstn k b) = N.of_nat k.
Proof. unfold len. intros H. rewrite firstn_length_le; lia. Qed.

(** The loop, for a file size that a long can hold: what has been read is the
    start of the file. *)
Lemma read_blocks_ok sched : forall fsize block n buf rest, fsize < SIZE / 2 -> block <= 10000 -> n <= fsize -> n = len buf ->
  exists n' done rest', read_blocks sched (fsize + 1) fsize block n buf rest = Some (n', buf ++ done) /\
    rest = done ++ rest' /\ n' = len (buf ++ done) /\ n' <= fsize /\
    (0 < block -> Forall (fun s => 0 < s) sched -> fsize - n <= len rest -> fsize - n <= N.of_nat (List.length sched) -> n' = fsize).
Proof.
  change (SIZE / 2) with 9223372036854775808. induction sched as [|s sched IH]; intros fsize block n buf rest Hf Hb Hn Hl; cbn [read_blocks].
  - exists n, [], rest. rewrite app_nil_r. repeat split; auto. cbn. lia.
  - assert (Hb' : exists b, (if fsize <? (n + block) mod SIZE then (fsize + SIZE - n) mod SIZE else block) = b /\ b <= 10000 /\ n + b <= fsize /\ (0 < block -> b = 0 -> n = fsize)).
    { rewrite size_pos. rewrite (N.mod_small (n + block)) by lia. destruct (N.ltb_spec fsize (n + block)).
      - exists (fsize - n). split; [|lia]. replace (fsize + 18446744073709551616 - n) with (fsize - n + 1 * 18446744073709551616) by lia.
        rewrite N.mod_add by discriminate. apply N.mod_small. lia.
      - exists block. lia. }
    destruct Hb' as (b & -> & B1 & B2 & B3). clear Hb.
    set (r := N.min b (N.min s (len rest))). assert (R : r <= b /\ r <= s /\ r <= len rest) by (unfold r; lia).
    destruct (N.eqb_spec r 0) as [R0|R0].
    + exists n, [], rest. rewrite app_nil_r. repeat split; auto. intros H1 H2 H3 H4. inversion H2; subst. unfold r in R0.
      assert (b = 0 \/ len rest = 0) as [X|X] by lia; [auto|lia].
    + destruct (N.ltb_spec (fsize + 1) (n + r)); [lia|].
      assert (Lf : len (firstn (N.to_nat r) rest) = r) by (rewrite len_firstn; lia).
      assert (Sp : rest = firstn (N.to_nat r) rest ++ skipn (N.to_nat r) rest) by (symmetry; apply firstn_skipn).
      assert (Ll : len rest = r + len (skipn (N.to_nat r) rest)) by (rewrite Sp at 1; rewrite len_app, Lf; reflexivity).
      destruct (N.ltb_spec (n + r) fsize).
      * destruct (IH fsize b (n + r) (buf ++ firstn (N.to_nat r) rest) (skipn (N.to_nat r) rest)) as (n' & d & rest' & E & E1 & E2 & E3 & E4); try lia.
        { rewrite len_app, Lf. lia. }
        exists n', (firstn (N.to_nat r) rest ++ d), rest'. rewrite app_assoc. split; [exact E|]. split; [rewrite <- app_assoc, <- E1; exact Sp|].
        split; [exact E2|]. split; [exact E3|]. intros H1 H2 H3 H4. apply E4; [lia|now inversion H2|lia|]. cbn [List.length] in H4. lia.
      * exists (n + r), (firstn (N.to_nat r) rest), (skipn (N.to_nat r) rest). rewrite len_app, Lf. repeat split; auto; lia.
Qed.

Lemma tell_size tell : (0 <= tell < Z.of_N (SIZE / 2))%Z -> Z.to_N (tell mod Z.of_N SIZE) = Z.to_N tell /\ Z.to_N tell < SIZE / 2.
Proof.
  change (Z.of_N (SIZE / 2)) with 9223372036854775808%Z. change (Z.of_N SIZE) with 18446744073709551616%Z. change (SIZE / 2) with 9223372036854775808.
  intros H. rewrite Z.mod_small by lia. lia.
Qed.
Lemma load_file_cases opens mem tell content sched : (0 <= tell < Z.of_N (SIZE / 2))%Z ->
  load_file opens mem tell content sched = CannotRead \/ load_file opens mem tell content sched = NoMemory /\ mem = false \/
  load_file opens mem tell content sched = Loaded (Z.to_N tell) (map Some (firstn (Z.to_nat tell) content ++ [0])) /\ Z.to_N tell <= len content.
Proof.
  intros H. destruct (tell_size tell H) as [E L]. unfold load_file. rewrite E. destruct opens; [|now left]. destruct mem; [|now right; left].
  set (fsize := Z.to_N tell) in *. assert (Z.to_nat tell = N.to_nat fsize) as Zn by (unfold fsize; lia). rewrite Zn. clearbody fsize.
  assert (L' : fsize < 9223372036854775808) by exact L. cbn [negb].
  assert (A : (fsize + 1) mod SIZE = fsize + 1) by (apply N.mod_small; rewrite size_pos; lia). rewrite A.
  destruct (read_blocks_ok sched fsize (if 10000 <? fsize then 10000 else fsize) 0 [] content L) as (n' & d & r' & E0 & E1 & E2 & E3 & _); try reflexivity; try lia.
  { destruct (N.ltb_spec 10000 fsize); lia. }
  rewrite E0. destruct (N.eqb_spec n' fsize) as [->|X]; [|now left]. cbn [negb app] in *.
  destruct (N.leb_spec (fsize + 1) fsize); [lia|]. right. right. rewrite E1, E2. unfold len. rewrite Nat2N.id, firstn_app, firstn_all, Nat.sub_diag.
  cbn [firstn]. rewrite app_nil_r, app_length. split; [reflexivity|lia].
Qed.

Lemma read_stdin_ok ev : forall rest mb s, mb_repr mb s ->
  read_stdin ev rest mb = Waiting \/ read_stdin ev rest mb = ReadFails /\ In Fails ev \/
  read_stdin ev rest mb = Loaded (len (s ++ rest)) (map Some (s ++ rest ++ [0])).
Proof.
  induction ev as [|e ev IH]; intros rest mb s R; cbn [read_stdin]; [now left|]. destruct e as [k| |].
  - destruct rest as [|c rest].
    + destruct (append_region_repr mb s [0] R) as (mb' & E & R'). unfold membuffer_append_null, membuffer_append_char. rewrite E.
      destruct (mb_repr_content mb' _ R') as [C U]. unfold membuffer_used in U. rewrite C, U. right. right. rewrite app_nil_r. f_equal.
      unfold len. rewrite app_length. cbn. lia.
    + set (x := c :: rest) in *. set (n := N.to_nat _). destruct (append_region_repr mb s (firstn n x) R) as (mb' & -> & R').
      specialize (IH (skipn n x) mb' _ R'). rewrite <- !app_assoc in IH. rewrite firstn_skipn in IH.
      rewrite (app_assoc (firstn n x)) in IH. rewrite firstn_skipn in IH. destruct IH as [IH|[[IH F]|IH]]; auto. right; left. split; [exact IH|now right].
  - destruct (IH rest mb s R) as [E|[[E F]|E]]; auto. right; left. split; [exact E|now right].
  - right; left. split; [reflexivity|now left].
Qed.
Definition gives (e : read_event) : bool := match e with Gives _ => true | _ => false end.
Lemma read_stdin_ends ev : forall rest mb s, mb_repr mb s -> (List.length rest < List.length (filter gives ev))%nat -> read_stdin ev rest mb <> Waiting.
Proof.
  induction ev as [|e ev IH]; intros rest mb s R H; [cbn in H; lia|]. destruct e as [k| |]; cbn [read_stdin]; try discriminate.
  - destruct rest as [|c rest].
    + destruct (membuffer_append_null mb); discriminate.
    + set (x := c :: rest) in *. set (n := N.to_nat _). assert (N1 : (1 <= n)%nat) by (pose proof (N.le_max_l 1 (N.min k (N.min 1024 (len x)))) as Q; unfold n; clear - Q; set (q := N.max _ _) in *; clearbody q; lia).
      destruct (append_region_repr mb s (firstn n x) R) as (mb' & -> & R').
      apply (IH _ _ _ R'). rewrite skipn_length. clearbody n. cbn [filter gives List.length x] in H. unfold x in *. cbn [List.length] in *. lia.
  - apply (IH _ _ _ R). exact H.
Qed.
Lemma written_all b : written_bytes (map Some b) = Some b.
Proof. induction b as [|c b IH]; [reflexivity|]. cbn. now rewrite IH. Qed.
Lemma parse_whole fuel root b : parse_loaded fuel root (Loaded (len b) (map Some (b ++ [0]))) = nparse_buffer fuel root b [0].
Proof.
  cbn [parse_loaded]. rewrite written_all. unfold len. rewrite Nat2N.id, firstn_app, skipn_app, firstn_all, skipn_all, Nat.sub_diag.
  cbn [firstn skipn]. rewrite app_nil_r. reflexivity.
Qed.

(** ** The properties.  [sched] and [ev] say how the operating system splits and
    interrupts the reads. *)

(** A file that is loaded is loaded whole and followed by a null byte. *)
Theorem C54_file_whole : forall opens mem content sched n b,
  (Z.of_N (len content) < 2 ^ 63)%Z ->
  load_file opens mem (Z.of_N (len content)) content sched = Loaded n b ->
  n = len content /\ b = map Some (content ++ [0]).
Proof.
  intros opens mem content sched n b H E.
  destruct (load_file_cases opens mem (Z.of_N (len content)) content sched) as [X|[[X _]|[X _]]]; [split; [lia|exact H]|congruence..|].
  rewrite E in X. injection X as -> ->. split; [lia|]. unfold len. rewrite nat_N_Z, Nat2Z.id, firstn_all. reflexivity.
Qed.
Print Assumptions C54_file_whole.

(** The size is the one of ftell: a file that is longer by now is cut, one that
    is shorter is not loaded. *)
Theorem C54_file_size : forall opens mem tell content sched n b,
  (0 <= tell < 2 ^ 63)%Z -> load_file opens mem tell content sched = Loaded n b ->
  n = Z.to_N tell /\ n <= len content /\ b = map Some (firstn (Z.to_nat tell) content ++ [0]).
Proof.
  intros opens mem tell content sched n b H E.
  destruct (load_file_cases opens mem tell content sched H) as [X|[[X _]|[X L]]]; [congruence..|].
  rewrite E in X. injection X as -> ->. auto.
Qed.
Print Assumptions C54_file_size.

(** Nothing is written outside of the buffer. *)
Theorem C54_file_safe : forall opens mem tell content sched,
  (0 <= tell < 2 ^ 63)%Z -> load_file opens mem tell content sched <> Overrun /\ load_file opens mem tell content sched <> LoadAborts.
Proof.
  intros opens mem tell content sched H.
  destruct (load_file_cases opens mem tell content sched H) as [->|[[-> _]|[-> _]]]; split; discriminate.
Qed.
Print Assumptions C54_file_safe.

(** But for a file without positions, where ftell returns -1, 10000 bytes are
    read into a buffer of size 0. *)
Theorem C54_pipe_refuted : forall content sched k,
  content <> [] -> 0 < k -> load_file true true (-1) content (k :: sched) = Overrun.
Proof.
  intros content sched k C K. unfold load_file. cbn [negb].
  change (Z.to_N (-1 mod Z.of_N SIZE)) with (18446744073709551615). change ((18446744073709551615 + 1) mod SIZE) with 0.
  cbn [read_blocks]. change (10000 <? 18446744073709551615) with true. cbn iota. change ((0 + 10000) mod SIZE) with 10000.
  change (18446744073709551615 <? 10000) with false. cbn iota. unfold len.
  destruct content as [|c r]; [contradiction|]. cbn [List.length].
  destruct (N.eqb_spec (N.min 10000 (N.min k (N.of_nat (S (List.length r))))) 0); [lia|].
  destruct (N.ltb_spec 0 (0 + N.min 10000 (N.min k (N.of_nat (S (List.length r)))))); [reflexivity|lia].
Qed.
Print Assumptions C54_pipe_refuted.

(** If every fread delivers something then the file is loaded. *)
Theorem C54_file_loads : forall content sched,
  (Z.of_N (len content) < 2 ^ 63)%Z -> Forall (fun k => 0 < k) sched -> (List.length content <= List.length sched)%nat ->
  load_file true true (Z.of_N (len content)) content sched = Loaded (len content) (map Some (content ++ [0])).
Proof.
  intros content sched H F L.
  assert (X : load_file true true (Z.of_N (len content)) content sched <> CannotRead).
  { destruct (tell_size (Z.of_N (len content))) as [E Lt]; [split; [lia|exact H]|]. unfold load_file. rewrite E. rewrite N2Z.id in *. cbn [negb].
    assert (Lt' : len content < 9223372036854775808) by exact Lt.
    assert (A : (len content + 1) mod SIZE = len content + 1) by (apply N.mod_small; rewrite size_pos; lia). rewrite A.
    destruct (read_blocks_ok sched (len content) (if 10000 <? len content then 10000 else len content) 0 [] content Lt) as (n' & d & r' & E0 & E1 & E2 & E3 & E4); try reflexivity; try lia.
    { destruct (N.ltb_spec 10000 (len content)); lia. }
    rewrite E0. assert (n' = len content) as ->.
    { destruct content as [|c r]; [cbn in *; lia|]. apply E4; auto; try lia.
      - destruct (N.ltb_spec 10000 (len (c :: r))); [lia|]. unfold len. cbn. lia.
      - unfold len. lia. }
    rewrite N.eqb_refl. cbn [negb]. destruct (len content + 1 <=? len content); discriminate. }
  destruct (load_file_cases true true (Z.of_N (len content)) content sched) as [Y|[[_ Y]|[Y _]]]; [split; [lia|exact H]|contradiction|discriminate|].
  rewrite Y, N2Z.id. unfold len. rewrite nat_N_Z, Nat2Z.id, firstn_all. reflexivity.
Qed.
Print Assumptions C54_file_loads.

(** The standard input is loaded whole, or read reports an error, or there is no
    end of the input yet. *)
Theorem C54_stdin_whole : forall ev content,
  load_stdin ev content = Waiting \/ load_stdin ev content = ReadFails /\ In Fails ev \/
  load_stdin ev content = Loaded (len content) (map Some (content ++ [0])).
Proof. intros ev content. exact (read_stdin_ok ev content new_membuffer [] new_mb_repr). Qed.
Print Assumptions C54_stdin_whole.

(** Without an error it is loaded when enough reads return, however many are
    interrupted. *)
Theorem C54_stdin_loads : forall ev content,
  ~ In Fails ev -> (List.length content < List.length (filter gives ev))%nat ->
  load_stdin ev content = Loaded (len content) (map Some (content ++ [0])).
Proof.
  intros ev content F L. destruct (C54_stdin_whole ev content) as [X|[[_ X]|X]]; [|contradiction|exact X].
  exfalso. exact (read_stdin_ends ev content new_membuffer [] new_mb_repr L X).
Qed.
Print Assumptions C54_stdin_loads.

(** The document is the one of a buffer with the same bytes. *)
Theorem C54_file_document : forall fuel root content sched n b,
  (Z.of_N (len content) < 2 ^ 63)%Z ->
  load_file true true (Z.of_N (len content)) content sched = Loaded n b ->
  parse_loaded fuel root (Loaded n b) = nparse_buffer fuel root content [0].
Proof. intros fuel root content sched n b H E. destruct (C54_file_whole _ _ _ _ _ _ H E) as [-> ->]. apply parse_whole. Qed.
Print Assumptions C54_file_document.
Theorem C54_stdin_document : forall fuel root content ev n b,
  load_stdin ev content = Loaded n b ->
  parse_loaded fuel root (Loaded n b) = nparse_buffer fuel root content [0].
Proof.
  intros fuel root content ev n b E. destruct (C54_stdin_whole ev content) as [X|[[X _]|X]]; rewrite E in X; try discriminate.
  injection X as -> ->. apply parse_whole.
Qed.
Print Assumptions C54_stdin_document.

(** A file that is not read to its end is an error. *)
Theorem C54_short_file : forall fuel root opens content tell sched,
  (0 <= tell < 2 ^ 63)%Z -> len content < Z.to_N tell ->
  parse_loaded fuel root (load_file opens true tell content sched) = NError E_CANNOT_READ_FILE.
Proof.
  intros fuel root opens content tell sched H L.
  destruct (load_file_cases opens true tell content sched H) as [->|[[_ X]|[_ X]]]; [reflexivity|discriminate|lia].
Qed.
Print Assumptions C54_short_file.

(** When reading the standard input fails, no error number is set. *)
Theorem C54_stdin_error_refuted : forall fuel root, exists ev content,
  parse_loaded fuel root (load_stdin ev content) = NError 0.
Proof. intros fuel root. exists [Fails], (B "a"). reflexivity. Qed.
Print Assumptions C54_stdin_error_refuted.

(** ** Examples *)
Example file_split : load_file true true 5 (B "a=b c") [2; 1; 9; 9] = Loaded 5 (map Some (B "a=b c" ++ [0])).
Proof. vm_compute. reflexivity. Qed.
Example file_error : load_file true true 5 (B "a=b c") [2; 1] = CannotRead.
Proof. vm_compute. reflexivity. Qed.
Example stdin_split : load_stdin [Gives 2; Interrupted; Gives 0; Interrupted; Interrupted; Gives 5; Gives 1] (B "a=b c") = Loaded 5 (map Some (B "a=b c" ++ [0])).
Proof. vm_compute. reflexivity. Qed.
Example stdin_enough : ~ In Fails [Gives 2; Interrupted; Gives 0; Interrupted; Gives 5; Gives 7] /\
  (List.length (B "a=b") < List.length (filter gives [Gives 2; Interrupted; Gives 0; Interrupted; Gives 5; Gives 7]))%nat.
Proof. split; [cbn; intuition discriminate|cbn; lia]. Qed.
