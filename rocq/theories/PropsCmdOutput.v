(** C84: the output is written whole, where the user asked for it *)
From Coq Require Import NArith ZArith List Bool Arith String Lia.
From Verif Require Import Bytes BytesFacts CmdLine CmdOutput.
Import ListNotations.
Local Open Scope string_scope.
Local Open Scope list_scope.
Local Open Scope nat_scope.

(** * Specification *)
(** The declaration that libxml2 writes for a version, and for standalone if the document has it *)
Definition declaration (version : bytes) (standalone : option bytes) : bytes :=
  B "<?xml version=" ++ [34%N] ++ version ++ [34%N] ++ B " encoding=" ++ [34%N] ++ B "utf-8" ++ [34%N] ++
  match standalone with Some s => B " standalone=" ++ [34%N] ++ s ++ [34%N] | None => [] end ++ B "?>" ++ [10%N].
Definition no_nul (l : bytes) : Prop := ~ In 0%N l.
(** An output that can be printed: shorter than 2 GiB and without a byte 0 *)
Definition printable (l : bytes) : Prop := (Z.of_nat (List.length l) < 2 ^ 31)%Z /\ no_nul l.
Definition separator (b : byte) : Prop := b = 47%N \/ b = 92%N.

(** * Proofs *)
Lemma until_nul_all l : no_nul l -> until_nul l = l.
Proof.
  induction l as [|b l IH]; intro H; [reflexivity|]. cbn. destruct (N.eqb_spec b 0) as [E|E].
  - exfalso. apply H. left. exact E.
  - f_equal. apply IH. intro Q. apply H. now right.
Qed.
Lemma to_int_small z : (0 <= z < 2 ^ 31)%Z -> to_int z = z.
Proof. intro H. unfold to_int. rewrite Z.mod_small; lia. Qed.
Lemma console_all l : printable l -> console_write l = Written l.
Proof.
  intros [H N]. unfold console_write. rewrite to_int_small by lia.
  destruct (Z.ltb_spec (Z.of_nat (List.length l)) 0) as [E|E]; [lia|].
  rewrite Nat2Z.id, firstn_all. now rewrite until_nul_all.
Qed.
Lemma printable_skip k l : printable l -> printable (skipn k l).
Proof.
  intros [H N]. split.
  - rewrite skipn_length. lia.
  - intro Q. apply N. rewrite <- (firstn_skipn k l). apply in_or_app. now right.
Qed.
Lemma before_sep_no l : Forall (fun b => ~ separator b) (before_sep l).
Proof.
  induction l as [|b l IH]; cbn; [constructor|]. destruct (is_sep b) eqn:E; [constructor|]. constructor; [|exact IH].
  unfold is_sep in E. apply orb_false_iff in E as [E1 E2]. apply N.eqb_neq in E1, E2. intros [Q|Q]; congruence.
Qed.
Lemma before_sep_stop a s l : Forall (fun b => ~ separator b) a -> separator s -> before_sep (a ++ s :: l) = a.
Proof.
  intros Fa S. induction Fa as [|b a N Fa IH]; cbn.
  - unfold is_sep. destruct S as [-> | ->]; reflexivity.
  - assert (is_sep b = false) as ->.
    { unfold is_sep. apply orb_false_iff. split; apply N.eqb_neq; intro Q; apply N; [now left|now right]. }
    now rewrite IH.
Qed.
Lemma before_sep_end a : Forall (fun b => ~ separator b) a -> before_sep a = a.
Proof.
  intro Fa. induction Fa as [|b a N Fa IH]; cbn; [reflexivity|].
  assert (is_sep b = false) as ->.
  { unfold is_sep. apply orb_false_iff. split; apply N.eqb_neq; intro Q; apply N; [now left|now right]. }
  now rewrite IH.
Qed.
Lemma forall_firstn (P : byte -> Prop) k l : Forall P l -> Forall P (firstn k l).
Proof. intro H. revert k. induction H as [|b l Pb H IH]; intros [|k]; cbn; constructor; auto. Qed.
Lemma no_sep_dec l : forallb (fun b => negb (is_sep b)) l = true -> Forall (fun b => ~ separator b) l.
Proof.
  intro H. rewrite forallb_forall in H. apply Forall_forall. intros b I S. specialize (H b I).
  unfold is_sep in H. destruct S as [-> | ->]; discriminate H.
Qed.

(** * Theorems *)

(** Without --omit-decl, and in formats other than xml, the bytes of the output are written, all and
    unchanged, by each of the three. *)
Theorem C84_all_written c omit out room : omit = false \/ c <> CToXml -> printable out -> List.length out <= room ->
  print_output out (output_skip c omit) = Written out /\
  save_output out (output_skip c omit) true room = Some (Stored true (Some out) false) /\
  browse_output out (output_skip c omit) true room = Some (Stored true (Some out) false).
Proof.
  intros O P R. assert (output_skip c omit = 0) as -> by (destruct O as [-> | O]; destruct c; congruence || reflexivity).
  unfold print_output, save_output, browse_output. cbn [negb skipn Nat.ltb Nat.leb]. rewrite Nat.sub_0_r, !firstn_all, (firstn_all2 out R), Nat.eqb_refl.
  repeat split. now apply console_all.
Qed.

(** With --omit-decl, print and save-to write what follows the declaration of a document of
    version 1.0 without standalone. *)
Theorem C84_omit_decl body room : printable body -> List.length body <= room ->
  let out := declaration (B "1.0") None ++ body in
  print_output out (output_skip CToXml true) = Written body /\
  save_output out (output_skip CToXml true) true room = Some (Stored true (Some body) false).
Proof.
  intros P R out. assert (S : skipn 39 out = body) by reflexivity.
  assert (L : List.length out = 39 + List.length body) by reflexivity.
  unfold print_output, save_output, output_skip. cbn [negb]. rewrite S, L.
  assert (39 + List.length body <? 39 = false) as -> by (apply Nat.ltb_ge; lia).
  replace (39 + List.length body - 39) with (List.length body) by lia.
  rewrite firstn_all, (firstn_all2 body R), Nat.eqb_refl. split; [now apply console_all|reflexivity].
Qed.

(** Exactly then: with standalone, or with a version that has not three characters, something else
    is written. *)
Theorem C84_omit_decl_only version standalone body room : body <> [] -> List.length body + List.length (declaration version standalone) <= room ->
  (exists m, save_output (declaration version standalone ++ body) (output_skip CToXml true) true room = Some (Stored true (Some body) m))
  <-> List.length version = 3 /\ standalone = None.
Proof.
  intros NE R. set (d := declaration version standalone) in *.
  assert (LD : List.length d = 36 + List.length version + match standalone with Some s => 14 + List.length s | None => 0 end).
  { unfold d, declaration. rewrite !app_length. destruct standalone as [s|]; [rewrite !app_length|]; cbn; lia. }
  assert (NB : 0 < List.length body) by (destruct body; [congruence|cbn; lia]).
  unfold save_output, output_skip. cbn [negb]. rewrite app_length.
  destruct (Nat.ltb_spec (List.length d + List.length body) 39) as [X|X].
  { split; [intros [m Q]; discriminate Q|]. intros [V ->]. lia. }
  rewrite (firstn_all2 (n := List.length d + List.length body - 39)) by (rewrite skipn_length, app_length; lia).
  rewrite (firstn_all2 (n := room)) by (rewrite skipn_length, app_length; lia).
  split.
  - intros [m Q0]. assert (Q : skipn 39 (d ++ body) = body) by congruence. apply (f_equal (@List.length byte)) in Q. rewrite skipn_length, app_length in Q.
    destruct standalone as [s|]; [lia|]. split; [lia|reflexivity].
  - intros [V ->]. assert (D : List.length d = 39) by lia.
    assert (E : skipn 39 (d ++ body) = body) by (rewrite skipn_app, skipn_all2, D by lia; reflexivity).
    rewrite E. eexists. reflexivity.
Qed.
Theorem C84_standalone_refuted :
  print_output (declaration (B "1.0") (Some (B "yes")) ++ B "<a/>") (output_skip CToXml true)
  = Written (B "andalone=" ++ [34%N] ++ B "yes" ++ [34%N] ++ B "?>" ++ [10%N] ++ B "<a/>").
Proof. vm_compute. reflexivity. Qed.

(** What print writes to the terminal is what save-to writes to the file, for any number of
    bytes left out. *)
Theorem C84_print_is_save out skip room b f m : (Z.of_nat (List.length out) < 2 ^ 31)%Z -> List.length out <= room ->
  print_output out skip = Written b -> save_output out skip true room = Some (Stored true (Some f) m) ->
  m = false /\ f = skipn skip out /\ (exists r, f = b ++ r) /\ (no_nul out -> b = f).
Proof.
  intros L R HP HS. unfold print_output, save_output in *. cbn [negb] in HS.
  destruct (Nat.ltb_spec (List.length out) skip) as [X|X]; [discriminate HP|].
  rewrite (firstn_all2 (n := List.length out - skip)) in HS by (rewrite skipn_length; lia).
  rewrite (firstn_all2 (n := room)) in HS by (rewrite skipn_length; lia).
  rewrite skipn_length, Nat.eqb_refl in HS. injection HS as <- <-.
  unfold console_write in HP. rewrite to_int_small in HP by (rewrite skipn_length; lia).
  destruct (Z.ltb_spec (Z.of_nat (List.length (skipn skip out))) 0) as [E|E]; [lia|].
  rewrite Nat2Z.id, firstn_all in HP. injection HP as <-. repeat split.
  - generalize (skipn skip out). intro l. induction l as [|c l [r IH]]; [now exists []|]. cbn. destruct (N.eqb c 0); [now exists (c :: l)|].
    exists r. cbn. now rewrite <- IH.
  - intro N. apply until_nul_all. intro Q. apply N. rewrite <- (firstn_skipn skip out). apply in_or_app. now right.
Qed.

(** An output of 4 GiB: print writes nothing; of 2 GiB: it reads outside of the output. *)
Theorem C84_print_large_refuted :
  (forall out, Z.of_nat (List.length out) = (2 ^ 32)%Z -> print_output out 0 = Written []) /\
  (forall out, Z.of_nat (List.length out) = (2 ^ 31)%Z -> no_nul out -> print_output out 0 = Outside).
Proof.
  split.
  - intros out L. unfold print_output, console_write. cbn [Nat.ltb Nat.leb skipn]. rewrite L.
    replace (to_int (2 ^ 32)) with 0%Z by reflexivity. reflexivity.
  - intros out L N. unfold print_output, console_write. cbn [Nat.ltb Nat.leb skipn]. rewrite L.
    replace (to_int (2 ^ 31)) with (- 2 ^ 31)%Z by reflexivity. cbn [Z.ltb].
    assert (has_nul out = false) as ->; [|reflexivity].
    apply not_true_iff_false. intro Q. unfold has_nul in Q. apply existsb_exists in Q as [b [I E]]. apply N.eqb_eq in E. subst b. now apply N.
Qed.
Theorem C84_print_large_ex : exists out, Z.of_nat (List.length out) = (2 ^ 31)%Z /\ no_nul out.
Proof.
  exists (repeat 97%N (Z.to_nat (2 ^ 31))). split.
  - rewrite repeat_length, Z2Nat.id; lia.
  - intro Q. apply repeat_spec in Q. discriminate Q.
Qed.

(** browse after to-xml --omit-decl: the declaration is in the file, and the last 39 bytes of the
    output are not. *)
Theorem C84_browse_omit_refuted version standalone body room : body <> [] ->
  let out := declaration version standalone ++ body in
  39 <= List.length out -> List.length out <= room ->
  exists f lost, browse_output out (output_skip CToXml true) true room = Some (Stored true (Some f) false) /\
    out = f ++ lost /\ List.length lost = 39.
Proof.
  intros NE out L R. exists (firstn (List.length out - 39) out), (skipn (List.length out - 39) out). split; [|split].
  - unfold browse_output, output_skip. cbn [negb]. assert (List.length out <? 39 = false) as -> by (apply Nat.ltb_ge; lia).
    rewrite (firstn_all2 (n := room)) by (rewrite firstn_length; lia). rewrite firstn_length, Nat.min_l, Nat.eqb_refl by lia. reflexivity.
  - symmetry. apply firstn_skipn.
  - rewrite skipn_length. lia.
Qed.

(** The file that browse writes is in the current directory, for any name of the input. *)
Theorem C84_browse_here input : Forall (fun b => ~ separator b) (browse_name input) /\
  (exists r, browse_name input = B "xmq_browsing_" ++ r) /\ List.length (browse_name input) <= 1022.
Proof.
  unfold browse_name. split; [|split].
  - apply forall_firstn. apply Forall_app. split; [apply no_sep_dec; reflexivity|]. apply Forall_app. split; [|apply no_sep_dec; reflexivity].
    destruct input as [i|]; [|apply no_sep_dec; reflexivity]. cbn. apply Forall_rev, before_sep_no.
  - rewrite firstn_app. exists (firstn (1022 - List.length (B "xmq_browsing_")) (browse_file input ++ B ".html")). f_equal.
  - rewrite firstn_length. lia.
Qed.
Theorem C84_browse_name dir s base : separator s -> Forall (fun b => ~ separator b) base -> List.length base <= 1004 ->
  browse_name (Some (dir ++ s :: base)) = B "xmq_browsing_" ++ base ++ B ".html" /\
  browse_name (Some base) = B "xmq_browsing_" ++ base ++ B ".html".
Proof.
  intros S N L. assert (Q : forall b, b = base -> firstn 1022 (B "xmq_browsing_" ++ b ++ B ".html") = B "xmq_browsing_" ++ base ++ B ".html").
  { intros b ->. apply firstn_all2. rewrite !app_length. cbn. lia. }
  unfold browse_name, browse_file. split; apply Q.
  - rewrite rev_app_distr. cbn [rev]. rewrite <- app_assoc. cbn [app]. rewrite before_sep_stop; [apply rev_involutive| |exact S]. now apply Forall_rev.
  - rewrite before_sep_end by (now apply Forall_rev). apply rev_involutive.
Qed.

(** save-to: if the file cannot be opened the command fails; whenever bytes are missing in the file
    there is a message. *)
Theorem C84_save_message_partial out skip opens room r : save_output out skip opens room = Some r ->
  (opens = false <-> ok r = false) /\ (file r = None <-> ok r = false) /\ (message r = false <-> file r = Some (skipn skip out)).
Proof.
  unfold save_output. destruct opens; cbn [negb].
  - destruct (Nat.ltb_spec (List.length out) skip) as [X|X]; [discriminate|]. intro Q. injection Q as <-. cbn.
    rewrite (firstn_all2 (n := List.length out - skip)) by (rewrite skipn_length; lia).
    split; [split; discriminate|]. split; [split; discriminate|]. rewrite negb_false_iff, Nat.eqb_eq, firstn_length, skipn_length. split.
    + intro E. f_equal. apply firstn_all2. rewrite skipn_length. lia.
    + intro E. injection E as E. apply (f_equal (@List.length byte)) in E. rewrite firstn_length, skipn_length in E. lia.
  - intro Q. injection Q as <-. cbn. repeat split; discriminate.
Qed.
(** But the status is that of success, with any part of the output missing. *)
Theorem C84_save_status_refuted out room : exists f m, save_output out 0 true room = Some (Stored true (Some f) m) /\ f = firstn room out.
Proof.
  unfold save_output. cbn [negb Nat.ltb Nat.leb skipn]. rewrite Nat.sub_0_r, firstn_all. eexists _, _. split; reflexivity.
Qed.

(** browse: there is a message, and no browser, whenever the file is not there or bytes are missing in it. *)
Theorem C84_browse_message_partial out opens room r : browse_output out 0 opens room = Some r ->
  (opens = false <-> file r = None) /\ (message r = false <-> file r = Some out).
Proof.
  unfold browse_output. destruct opens; cbn [negb].
  - cbn [Nat.ltb Nat.leb]. rewrite Nat.sub_0_r, firstn_all. intro Q. injection Q as <-. cbn.
    split; [split; discriminate|]. rewrite negb_false_iff, Nat.eqb_eq, firstn_length. split.
    + intro E. f_equal. apply firstn_all2. lia.
    + intro E. injection E as E. apply (f_equal (@List.length byte)) in E. rewrite firstn_length in E. lia.
  - intro Q. injection Q as <-. cbn. repeat split; discriminate.
Qed.
(** But the status is that of success, also if there is no file. *)
Theorem C84_browse_status_refuted out skip opens room r : browse_output out skip opens room = Some r -> ok r = true.
Proof. unfold browse_output. destruct opens, (List.length out <? skip); cbn; intro Q; try discriminate Q; now injection Q as <-. Qed.

(** The hypotheses are met. *)
Example C84_ex : printable (B "<a/>") /\ B "<a/>" <> [] /\
  print_output (declaration (B "1.0") None ++ B "<a/>") (output_skip CToXml true) = Written (B "<a/>") /\
  save_output (B "a{b}") 0 true 2 = Some (Stored true (Some (B "a{")) true) /\
  browse_output (declaration (B "1.0") None ++ B "<a/>") 39 true 100 = Some (Stored true (Some (B "<?xm")) false) /\
  browse_name (Some (B "/tmp/x/data.xml")) = B "xmq_browsing_data.xml.html" /\ browse_name None = B "xmq_browsing_stdin.html".
Proof. repeat split; try reflexivity; try discriminate. unfold no_nul. cbn. intuition discriminate. Qed.

Print Assumptions C84_all_written.
Print Assumptions C84_omit_decl.
Print Assumptions C84_omit_decl_only.
Print Assumptions C84_standalone_refuted.
Print Assumptions C84_print_is_save.
Print Assumptions C84_print_large_refuted.
Print Assumptions C84_print_large_ex.
Print Assumptions C84_browse_omit_refuted.
Print Assumptions C84_browse_here.
Print Assumptions C84_browse_name.
Print Assumptions C84_save_message_partial.
Print Assumptions C84_save_status_refuted.
Print Assumptions C84_browse_message_partial.
Print Assumptions C84_browse_status_refuted.
Print Assumptions C84_ex.
