(** Property theorems C01-C14 and C44: text functions, detection, containers.
    The specifications are in Utf8Proofs.v (utf8_spec), DetectProofs.v
    (html_reads, detect_spec, no_double_dash), ContainersProofs.v (spec_stack,
    spec_vector, spec_mb, last_put, strle). *)
From Coq Require Import NArith ZArith List Bool String Lia Permutation Sorting.Sorted.
From Verif Require Import Bytes BytesFacts Utf8 Utf8Proofs Detect DetectProofs
  Containers ContainersProofs HashSortProofs UnicodeTables Category CategoryProofs.
Import ListNotations.
Local Open Scope N_scope.

(** ** C01 *)
Theorem C01_utf8_round_trip : forall u rest, u <= 0x10ffff ->
  exists bs, encode_utf8 (Z.of_N u) = Some bs /\ bs = utf8_spec u /\
    bytes_ok bs /\ decode_utf8 (bs ++ rest) = DecOk u (List.length bs).
Proof.
  intros u rest H. exists (utf8_spec u). split; [apply encode_matches_spec; exact H|].
  split; [reflexivity|]. split; [apply utf8_spec_bytes; exact H|]. apply decode_spec; exact H.
Qed.
Print Assumptions C01_utf8_round_trip.
Example C01_ex : encode_utf8 8364 = Some [0xe2; 0x82; 0xac]
  /\ decode_utf8 [0xe2; 0x82; 0xac; 65] = DecOk 8364 3.
Proof. split; reflexivity. Qed.

(** ** C02: decoding is not limited to well-formed UTF-8 *)
Theorem C02_decode_accepts_ill_formed_refuted :
  exists s u n, bytes_ok s /\ decode_utf8 s = DecOk u n /\
    (firstn n s <> utf8_spec u) .
Proof.
  exists [192; 128], 0, 2%nat. split; [repeat constructor|]. split; [reflexivity|]. discriminate.
Qed.
Print Assumptions C02_decode_accepts_ill_formed_refuted.
Theorem C02_decode_accepts_surrogate_refuted :
  exists s u n, bytes_ok s /\ decode_utf8 s = DecOk u n /\ 0xd800 <= u <= 0xdfff.
Proof. exists [0xed; 0xa0; 0x80], 0xd800, 3%nat. split; [repeat constructor|]. split; [reflexivity|lia]. Qed.
Print Assumptions C02_decode_accepts_surrogate_refuted.
Theorem C02_decode_accepts_too_large_refuted :
  exists s u n, bytes_ok s /\ decode_utf8 s = DecOk u n /\ 0x10ffff < u.
Proof. exists [0xf7; 0xbf; 0xbf; 0xbf], 0x1fffff, 4%nat. split; [repeat constructor|]. split; [reflexivity|lia]. Qed.
Print Assumptions C02_decode_accepts_too_large_refuted.
(** What does hold: no read past the range, 1 to 4 bytes, and the bytes are
    the canonical encoding unless they are an overlong form. *)
Theorem C02_decode_sound_partial : forall s u n, bytes_ok s ->
  decode_utf8 s = DecOk u n ->
  (1 <= n <= 4)%nat /\ (n <= List.length s)%nat /\ u < 2097152 /\
  (n = List.length (utf8_spec u) -> firstn n s = utf8_spec u).
Proof. exact decode_sound. Qed.
Print Assumptions C02_decode_sound_partial.

(** ** C03 *)
Theorem C03_comment_escaping_reversible : forall s, comment_from_xml (comment_to_xml s) = s.
Proof. exact comment_round_trip. Qed.
Print Assumptions C03_comment_escaping_reversible.
(** The escaped text fits the allocated buffer (the assert at xmq.c:3193
    holds) and is a C string again. *)
Theorem C03_comment_escape_size : forall s t, escape_xml_comment s = Some t ->
  (List.length t + 1 = List.length s + count_escapes s * 3 + 1)%nat /\ (nul_free s -> nul_free t).
Proof.
  intros s t H. unfold escape_xml_comment in H. destruct (Nat.eqb (count_escapes s) 0); [discriminate|].
  injection H as <-. rewrite escape_length. split; [lia|]. apply escape_nul_free.
Qed.
Print Assumptions C03_comment_escape_size.
Example C03_ex : comment_to_xml (B "a--b-" ++ dle) = B "a-" ++ dle ++ B "-b-" ++ dle ++ dle
  /\ comment_from_xml (B "a-" ++ dle ++ B "-b-" ++ dle ++ dle) = B "a--b-" ++ dle.
Proof. split; reflexivity. Qed.

(** ** C04 *)
Theorem C04_no_double_dash_partial : forall s a b, comment_to_xml s <> a ++ [cMINUS; cMINUS] ++ b.
Proof. intros s. rewrite comment_to_xml_eq. exact (escape_no_dd s). Qed.
Print Assumptions C04_no_double_dash_partial.
(** A trailing dash is kept, so the written text is followed by three dashes
    and a greater-than sign, which xml forbids. *)
Theorem C04_trailing_dash_refuted : exists s a, nul_free s /\ comment_to_xml s = a ++ [cMINUS].
Proof. exists (B "a-"), (B "a"). split; [intro H; vm_compute in H; intuition discriminate | reflexivity]. Qed.
Print Assumptions C04_trailing_dash_refuted.
Example C04_ex : comment_to_xml (B "---") = [cMINUS] ++ dle ++ [cMINUS] ++ dle ++ [cMINUS].
Proof. reflexivity. Qed.

(** ** C05 *)
Theorem C05_html_safe : forall s,
  ~ In cLT (write_safe_html s) /\ ~ In cGT (write_safe_html s) /\ ~ In cDQ (write_safe_html s) /\
  html_reads (write_safe_html s) s /\
  (forall s', html_reads (write_safe_html s) s' -> s' = s).
Proof.
  intros s. destruct (write_safe_html_no_markup s) as (A & B & C).
  repeat split; auto using write_safe_html_reads.
  intros s' H. eapply html_reads_det; [exact H|apply write_safe_html_reads].
Qed.
Print Assumptions C05_html_safe.
Theorem C05_html_injective : forall s t, write_safe_html s = write_safe_html t -> s = t.
Proof.
  intros s t E. eapply html_reads_det; [apply write_safe_html_reads|]. rewrite E. apply write_safe_html_reads.
Qed.
Print Assumptions C05_html_injective.
Example C05_ex : write_safe_html (B "a<b&c>") = B "a&lt;b&amp;c&gt;".
Proof. reflexivity. Qed.

(** ** C06 *)
Theorem C06_detection_partial : forall s aft, (4 <= List.length aft)%nat ->
  detect_content_type s (0 :: aft) = DOk (detect_spec s).
Proof. exact detect_spec_correct. Qed.
Print Assumptions C06_detection_partial.
Theorem C06_leading_whitespace_partial : forall ws s aft,
  Forall (fun c => is_xml_whitespace c = true) ws ->
  detect_content_type (ws ++ s) aft = detect_content_type s aft.
Proof. exact detect_ws. Qed.
Print Assumptions C06_leading_whitespace_partial.
(** Without bytes after the terminating NUL the scan may read outside. *)
Theorem C06_detection_reads_past_nul_refuted : exists s, detect_content_type s [0] = DUB.
Proof. exists (B "<!doctype"). reflexivity. Qed.
Print Assumptions C06_detection_reads_past_nul_refuted.
(** Without a NUL at stop the byte at stop matters. *)
Theorem C06_detection_depends_on_stop_refuted : exists s a1 a2,
  detect_content_type s a1 = DOk CHTML /\ detect_content_type s a2 = DOk CXML.
Proof. exists (B "<html"), [0], (B "5"). split; reflexivity. Qed.
Print Assumptions C06_detection_depends_on_stop_refuted.
(** A comment and a newline before the html tag hide it; a negative json
    number is taken for xmq. *)
Theorem C06_html_after_comment_refuted : exists c,
  detect_spec (c ++ B "<html>") = CHTML /\ detect_spec (c ++ [cNL] ++ B "<html>") = CXML.
Proof. exists (B "<!-- x -->"). split; reflexivity. Qed.
Print Assumptions C06_html_after_comment_refuted.
Theorem C06_negative_json_number_refuted : detect_spec (B "12") = CJSON /\ detect_spec (B "-12") = CXMQ.
Proof. split; reflexivity. Qed.
Print Assumptions C06_negative_json_number_refuted.
Example C06_ex : detect_spec (B "  <!DOCTYPE Html>") = CHTML /\ detect_spec (B "nulls") = CXMQ
  /\ detect_spec (B "null" ++ [10]) = CJSON /\ detect_spec (B "a=1") = CXMQ /\ detect_spec (B "<a/>") = CXML.
Proof. repeat split. Qed.

(** ** C07 *)
Theorem C07_bom_partial : forall s,
  (s <> [] -> skip_any_potential_bom ([0xef; 0xbb; 0xbf] ++ s) = Some s) /\
  (s <> [] -> skip_any_potential_bom ([0xff; 0xfe] ++ s) = None /\
              skip_any_potential_bom ([0xfe; 0xff] ++ s) = None) /\
  ((forall r, s <> [0xef; 0xbb; 0xbf] ++ r) -> (forall r, s <> [0xff; 0xfe] ++ r) ->
   (forall r, s <> [0xfe; 0xff] ++ r) -> skip_any_potential_bom s = Some s).
Proof.
  intros s. split; [|split].
  - exact (bom_utf8 s).
  - intros H. destruct s; [congruence|]. split; reflexivity.
  - intros H1 H2 H3. destruct (skip_any_potential_bom s) as [r|] eqn:E.
    + unfold skip_any_potential_bom in E.
      repeat match type of E with
             | match ?x with _ => _ end = _ => destruct x; try (injection E as <-; reflexivity); try discriminate
             end.
      exfalso. eapply H1. reflexivity.
    + exfalso. unfold skip_any_potential_bom in E.
      repeat match type of E with
             | match ?x with _ => _ end = _ => destruct x; try discriminate
             end; (eapply H2; reflexivity) || (eapply H3; reflexivity).
Qed.
Print Assumptions C07_bom_partial.
Theorem C07_bom_only_refuted : skip_any_potential_bom [0xef; 0xbb; 0xbf] <> Some [].
Proof. discriminate. Qed.
Print Assumptions C07_bom_only_refuted.
Example C07_ex : skip_any_potential_bom (B "abc") = Some (B "abc").
Proof. reflexivity. Qed.

(** ** C08 *)
Theorem C08_stack : forall ops, run_stack stack_create ops = spec_stack [] ops.
Proof. intros. apply run_stack_spec. exact stack_create_repr. Qed.
Print Assumptions C08_stack.
Example C08_ex : spec_stack [] [SPush 1; SPush 2; SPush 3; SRock; SPop; SSize; SPop; SPop]
  = [OUnit; OUnit; OUnit; OData 1; OData 3; OSize 1; OData 2; OAbort].
Proof. reflexivity. Qed.

(** ** C09 *)
Theorem C09_vector : forall ops, run_vector vector_create ops = spec_vector [] ops.
Proof. intros. apply run_vector_spec. exact vec_create_repr. Qed.
Print Assumptions C09_vector.
Example C09_ex : spec_vector [] [VPush 1; VPush 2; VAt 0; VPop; VSize; VAt 1]
  = [VOUnit; VOUnit; VOData (Some 1); VOData (Some 2); VOSize 1; VOAbort].
Proof. reflexivity. Qed.

(** ** C10 *)
Theorem C10_membuffer : forall start ops,
  exists mb, run_mb (membuffer_reuse start) ops = Done mb /\
    membuffer_content mb = map Some (spec_mb start ops) /\
    membuffer_used mb = List.length (spec_mb start ops) /\
    membuffer_back mb = Done (last (spec_mb start ops) 0).
Proof.
  intros start ops. destruct (run_mb_spec ops _ _ (reuse_mb_repr start)) as (mb & E & R).
  exists mb. split; [exact E|]. destruct (mb_repr_content _ _ R). auto using mb_repr_back.
Qed.
Print Assumptions C10_membuffer.
Theorem C10_membuffer_new : forall ops,
  exists mb, run_mb new_membuffer ops = Done mb /\
    membuffer_content mb = map Some (spec_mb [] ops) /\
    membuffer_used mb = List.length (spec_mb [] ops).
Proof.
  intros ops. destruct (run_mb_spec ops _ _ new_mb_repr) as (mb & E & R).
  exists mb. split; [exact E|]. apply mb_repr_content. exact R.
Qed.
Print Assumptions C10_membuffer_new.
Example C10_ex : spec_mb [] [MString (B "ab"); MNull; MDropNull; MChar 99; MDropNull; MRegion (B "de")] = B "abcde".
Proof. reflexivity. Qed.

(** ** C11, C12 *)
Theorem C11_hashmap : forall n puts, (0 < n)%nat -> Forall (fun p => snd p <> 0) puts ->
  exists m, run_puts (hashmap_create n) puts = Done m /\
    forall k, hashmap_get m k = Done (last_put puts k).
Proof. exact hashmap_map_spec. Qed.
Print Assumptions C11_hashmap.
Theorem C12_hashmap_iteration : forall n puts, (0 < n)%nat -> Forall (fun p => snd p <> 0) puts ->
  exists m l, run_puts (hashmap_create n) puts = Done m /\
    (forall fuel, (List.length l < fuel)%nat -> iterate_all fuel m hashmap_iterate = Some l) /\
    hashmap_size m = List.length l /\
    NoDup (map fst l) /\
    (forall k v, In (k, v) l <-> v <> 0 /\ last_put puts k = v).
Proof. exact hashmap_iter_spec. Qed.
Print Assumptions C12_hashmap_iteration.
Example C11_ex : last_put [(B "a", 1); (B "b", 2); (B "a", 3)] (B "a") = 3
  /\ match run_puts (hashmap_create 2) [(B "a", 1); (B "b", 2); (B "a", 3); (B "c", 4)] with
     | Done m => hashmap_size m = 3%nat /\ hashmap_get m (B "a") = Done 3 /\ hashmap_get m (B "x") = Done 0
                 /\ iterate_all 9 m hashmap_iterate = Some [(B "b", 2); (B "a", 3); (B "c", 4)]
     | _ => False
     end.
Proof. vm_compute. repeat split. Qed.

(** ** C13 *)
Theorem C13_quicksort : forall arr, exists r,
  quicksort_strings (S (List.length arr)) arr = Some r /\ Permutation arr r /\ StronglySorted strle r.
Proof. intros arr. apply quicksort_spec. lia. Qed.
Print Assumptions C13_quicksort.
Example C13_ex : quicksort_strings 5 [B "b"; B "a"; B "ab"; B "a"] = Some [B "a"; B "a"; B "ab"; B "b"].
Proof. reflexivity. Qed.

(** ** C14 *)
Theorem C14_category : forall cat code, ascending cat ->
  exists b, category_has_code code cat = Some b /\ (b = true <-> In code cat).
Proof. exact category_has_code_spec. Qed.
Print Assumptions C14_category.
(** All tables of text.c are sorted, so the lookup is exact for each. *)
Theorem C14_category_tables : forall cat code, In cat unicode_tables ->
  exists b, category_has_code code cat = Some b /\ (b = true <-> In code cat).
Proof. intros cat code H. apply category_has_code_spec, all_tables_ascending. exact H. Qed.
Print Assumptions C14_category_tables.
(** The tables hold no code point above 0xffff: supplementary characters
    (listed there cut to four hex digits) are in no category. *)
Theorem C14_supplementary_never_found_refuted : forall cat code, In cat unicode_tables ->
  (0xffff < code)%Z -> category_has_code code cat = Some false.
Proof.
  intros cat code H Hc. destruct (C14_category_tables cat code H) as (b & E & Hb). rewrite E.
  destruct b; [|reflexivity]. exfalso. assert (Hi : In code cat) by (apply Hb; reflexivity).
  assert (F : forallb (forallb (fun x => Z.leb x 0xffff)) unicode_tables = true) by (vm_compute; reflexivity).
  rewrite forallb_forall in F. specialize (F _ H). rewrite forallb_forall in F. specialize (F _ Hi).
  apply Z.leb_le in F. lia.
Qed.
Print Assumptions C14_supplementary_never_found_refuted.
Example C14_ex : category_has_code 0x41 unicode_Lu = Some true /\ category_has_code 0x61 unicode_Lu = Some false.
Proof. split; vm_compute; reflexivity. Qed.

(** ** C44 *)
Theorem C44_display_width : forall us, Forall (fun u => u <= 0x10ffff) us ->
  str_b_u_len (List.concat (map utf8_spec us)) =
  (List.length (List.concat (map utf8_spec us)), List.length us).
Proof. exact u_len_counts_code_points. Qed.
Print Assumptions C44_display_width.
Example C44_ex : str_b_u_len (utf8_spec 97 ++ utf8_spec 8364 ++ utf8_spec 0x1f600) = (8%nat, 3%nat).
Proof. reflexivity. Qed.
