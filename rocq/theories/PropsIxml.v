(** Property C60: the BNF rules that an ixml grammar is turned into, and that
    are handed to the yaep parser together with a text, derive the text if and
    only if the grammar describes it.

    [ixml_build fuel src] reads a grammar (Ixml.v), [use_grammar g content] is
    xmqParseBufferWithIXML up to the call of yaep.  [w_grammar], [describes],
    [derives] and [ok_grammar] are in IxmlSpec.v.  The yaep parser itself is
    not modelled. *)
From Coq Require Import NArith ZArith List Bool Arith Lia String.
From Verif Require Import Bytes Utf8Proofs Ixml IxmlSpec IxmlTrans IxmlParse IxmlUse.
Import ListNotations.
Local Open Scope N_scope.
Local Open Scope list_scope.

(** Every grammar that is written down is read, and the rules for a text
    derive the text exactly when the grammar describes it.  Missing: yaep, and
    the grammars that the reader gets wrong, see below. *)
Theorem C60_grammar_describes_its_texts_partial : forall G src w,
  w_grammar G src -> ok_grammar G = true -> Forall code_ok w ->
  exists n, forall fuel, (n <= fuel)%nat -> exists g y g',
    ixml_build fuel src = IOk g /\ use_grammar g (utf8 w) = IOk (y, g') /\ yaep_names_ok y /\
    (derives y w <-> describes G w).
Proof.
  intros G src w HG Hok Hw. destruct (build_spec G src HG) as (n & Hn).
  { unfold ok_grammar in Hok. rewrite forallb_forall in Hok |- *. intros r Hr. specialize (Hok r Hr). apply andb_true_iff in Hok. tauto. }
  destruct (use_spec G src w HG Hok Hw) as (y & g' & U1 & U2 & U3). exists n. intros fuel Hf. eexists _, y, g'. split; [exact (Hn fuel Hf)|]. auto.
Qed.
Print Assumptions C60_grammar_describes_its_texts_partial.

(** ** A grammar that meets the hypotheses

<<
ixml version "1.0". {numbers {signed}}
num > n: sign?, digit++(","; -#3b), +"x" | .
sign = "+"; "-".
-digit: ["0"-"9"; Lu].
>> *)
Definition w1 (s : string) : word := map Z.of_N (B s).
Definition ex_src : bytes :=
  B "ixml version '1.0'. {numbers {signed}} num > n: sign?, digit++("","" ; -#3b), +""x"" | ." ++
  B "sign = ""+"";""-"".-digit:[""0""-""9""; Lu].".
Definition ex_sep : factor := FGroup (AMore (ACons (TOne (FStr 0 (w1 ","))) ANil) (AOne (ACons (TOne (FHex 45 0x3b)) ANil))).
Definition ex_G : grammar :=
  [GRule 0 (B "num") (Some (B "n"))
     (AMore (ACons (TOpt (FNt 0 (B "sign") None)) (ACons (TPlusSep (FNt 0 (B "digit") None) ex_sep) (ACons (TOne (FIns (w1 "x"))) ANil))) (AOne ANil));
   GRule 0 (B "sign") None (AMore (ACons (TOne (FStr 0 (w1 "+"))) ANil) (AOne (ACons (TOne (FStr 0 (w1 "-"))) ANil)));
   GRule 45 (B "digit") None (AOne (ACons (TOne (FSet 0 false [MRange (RChar 48) (RChar 57); MCat (B "Lu")])) ANil))].
Local Notation ws0 := ww_nil.
Local Notation ws1 := (ww_blank 32 [] (or_introl eq_refl) ww_nil).
Ltac name_tac := eexists _, _; split; [reflexivity|]; split; [vm_compute; reflexivity|vm_compute; reflexivity].
Ltac codes_tac := repeat (apply Forall_cons || apply Forall_nil); try (split; [unfold code_ok; cbn; lia|discriminate]).
Lemma str_dq cs : Forall (fun c => code_ok c /\ c <> 0%Z) cs -> w_string cs (34 :: List.concat (map (w_char 34) cs) ++ [34]).
Proof. intros H. apply w_str; [left; reflexivity|exact H]. Qed.
Example ex_written : w_grammar ex_G ex_src.
Proof.
  assert (S1 : forall s, forallb (fun c => (0 <? c) && (c <? 128)) (B s) = true -> Forall (fun c => code_ok c /\ c <> 0%Z) (w1 s)).
  { intros s H. unfold w1. apply Forall_forall. intros c Hc. apply in_map_iff in Hc as (x & <- & Hx). rewrite forallb_forall in H. specialize (H x Hx). apply andb_true_iff in H as (H1 & H2). apply N.ltb_lt in H1, H2. unfold code_ok. lia. }
  assert (C1 : w_ws (B " {numbers {signed}} ")).
  { apply (ww_blank 32); [left; reflexivity|]. apply (ww_comment (B "{numbers {signed}}") (B " ")); [|exact ws1].
    apply (wc (B "numbers {signed}")). do 8 (apply wb_char; [discriminate|discriminate|discriminate|]).
    apply (wb_comment (B "{signed}") []); [|discriminate|apply wb_nil]. apply (wc (B "signed")).
    do 6 (apply wb_char; [discriminate|discriminate|discriminate|]). apply wb_nil. }
  assert (V : w_prolog (B "ixml version '1.0'.")).
  { refine (w_version (w1 "1.0") (B " ") (B " ") (B "'1.0'") [] ws1 _ ws1 _ _ ws0); [discriminate|discriminate|].
    apply (w_str 39 (w1 "1.0")); [right; reflexivity|]. apply S1. reflexivity. }
  assert (Sep : w_factor ex_sep (B "("","" ; -#3b)")).
  { unfold ex_sep. refine (wf_group _ [] (B ""","" ; -#3b") [] _ ws0 _ ws0); [reflexivity|].
    refine (wl_more _ _ (B ""","" ") 59 (B " ") (B "-#3b") _ (or_introl eq_refl) ws1 _).
    - apply wa_one, wt_one. refine (wf_str 0 (w1 ",") [] (B """,""") (B " ") wt_none _ ws1). apply (str_dq (w1 ",")). apply S1. reflexivity.
    - apply wl_one, wa_one, wt_one. refine (wf_hex 45 0x3b (B "-") (B "#3b") [] _ _ ws0).
      + apply (wt_mark 45 []); [right; reflexivity|apply Forall_nil].
      + apply (w_digits _ (B "3b")); [discriminate| |unfold code_ok; lia].
        exact (n_digit (B "3") 3 98 11 (n_digit [] 0 51 3 n_none (or_introl eq_refl)) (or_introl eq_refl)). }
  assert (Nt : forall n, name_ok n -> w_factor (FNt 0 n None) n).
  { intros n Hn. replace n with ([] ++ (n ++ [])) at 2 by apply app_nil_r. apply wf_nt; [apply wm_none|]. apply wn_plain; [exact Hn|exact ws0]. }
  assert (R1 : w_rule (hd (GRule 0 [] None (AOne ANil)) ex_G) (B "num > n: sign?, digit++("","" ; -#3b), +""x"" | .")).
  { cbn [ex_G hd nth]. refine (w_rule_ 0 (B "num") (Some (B "n")) _ [] (B "num > n") 58 (B " ") [] (B "sign?, digit++("","" ; -#3b), +""x"" | ") wm_none _ (or_intror eq_refl) ws1 _ ws0).
    - refine (wn_alias (B "num") (B "n") (B " ") (B " ") [] _ _ ws1 ws1 ws0); name_tac.
    - refine (wl_more _ _ (B "sign?, digit++("","" ; -#3b), +""x"" ") 124 (B " ") [] _ (or_intror eq_refl) ws1 wl_empty).
      refine (wa_more _ _ (B "sign?") (B " ") (B "digit++("","" ; -#3b), +""x"" ") _ ws1 _).
      + refine (wt_opt _ (B "sign") [] _ ws0). apply Nt. name_tac.
      + refine (wa_more _ _ (B "digit++("","" ; -#3b)") (B " ") (B "+""x"" ") _ ws1 _).
        * refine (wt_plussep _ _ (B "digit") [] (B "("","" ; -#3b)") _ ws0 Sep). apply Nt. name_tac.
        * apply wa_one, wt_one. refine (wf_ins (w1 "x") [] (B """x""") (B " ") ws0 _ ws1). apply (str_dq (w1 "x")). apply S1. reflexivity. }
  assert (R2 : w_rule (nth 1 ex_G (GRule 0 [] None (AOne ANil))) (B "sign = ""+"";""-"".")).
  { cbn [ex_G hd nth]. refine (w_rule_ 0 (B "sign") None _ [] (B "sign ") 61 (B " ") [] (B """+"";""-""") wm_none _ (or_introl eq_refl) ws1 _ ws0).
    - refine (wn_plain (B "sign") (B " ") _ ws1). name_tac.
    - refine (wl_more _ _ (B """+""") 59 [] (B """-""") _ (or_introl eq_refl) ws0 _).
      + apply wa_one, wt_one. refine (wf_str 0 (w1 "+") [] (B """+""") [] wt_none _ ws0). apply (str_dq (w1 "+")). apply S1. reflexivity.
      + apply wl_one, wa_one, wt_one. refine (wf_str 0 (w1 "-") [] (B """-""") [] wt_none _ ws0). apply (str_dq (w1 "-")). apply S1. reflexivity. }
  assert (R3 : w_rule (nth 2 ex_G (GRule 0 [] None (AOne ANil))) (B "-digit:[""0""-""9""; Lu].")).
  { cbn [ex_G hd nth]. refine (w_rule_ 45 (B "digit") None _ (B "-") (B "digit") 58 [] [] (B "[""0""-""9""; Lu]") _ _ (or_intror eq_refl) ws0 _ ws0).
    - apply (wm_mark 45 []); [right; right; reflexivity|apply Forall_nil].
    - refine (wn_plain (B "digit") [] _ ws0). name_tac.
    - apply wl_one, wa_one, wt_one. refine (wf_set 0 false _ [] [] [] (B """0""-""9""; Lu") [] wt_none eq_refl ws0 _ ws0).
      refine (ws_more _ _ (B """0""-""9""") 59 (B " ") (B "Lu") _ (or_introl eq_refl) ws1 _ _); [|discriminate|].
      + refine (wm_range (RChar 48) (RChar 57) (B """0""") (B """9""") [] [] [] _ _ ws0 ws0 ws0).
        * apply (we_char true 34 48); [left; reflexivity|unfold code_ok; lia|discriminate|discriminate].
        * apply (we_char false 34 57); [left; reflexivity|unfold code_ok; lia|discriminate|discriminate].
      + apply ws_one. refine (wm_cat (B "Lu") [] _ ws0). eexists _, _. split; [left; reflexivity|left; reflexivity]. }
  exact (wg_version ex_G [] (B "ixml version '1.0'.") (B " {numbers {signed}} ") _ ws0 V C1 (wr_more _ _ _ _ R1 (wr_more _ _ _ _ R2 (wr_one _ _ R3)))).
Qed.
Example ex_ok : ok_grammar ex_G = true.
Proof. vm_compute. reflexivity. Qed.
(** The text -1,A is described, and derived by the rules handed to yaep. *)
Example ex_described : describes ex_G (w1 "-1,A").
Proof.
  exists (hd (GRule 0 [] None (AOne ANil)) ex_G), (tl ex_G), (hd (GRule 0 [] None (AOne ANil)) ex_G). split; [reflexivity|]. split; [left; reflexivity|]. split; [reflexivity|].
  cbn [ex_G hd ru_alts]. apply m_first. refine (m_cons _ _ _ (w1 "-") (w1 "1,A") _ _).
  - apply m_opt_yes. eapply m_nt; [right; left; reflexivity|reflexivity|]. apply m_later, m_last. refine (m_cons _ _ _ (w1 "-") [] _ (m_nil _)). apply m_one, m_str.
  - assert (D : forall c, in_set false [MRange (RChar 48) (RChar 57); MCat (B "Lu")] c -> m_factor ex_G (FNt 0 (B "digit") None) [c]).
    { intros c Hc. eapply m_nt; [right; right; left; reflexivity|reflexivity|]. apply m_last. refine (m_cons _ _ _ [c] [] _ (m_nil _)). apply m_one, m_set, Hc. }
    refine (m_cons _ _ _ (w1 "1,A") [] _ (m_cons _ _ _ [] [] (m_one _ _ _ (m_ins _ _)) (m_nil _))). apply m_plussep.
    refine (m_sreps_more _ _ _ (w1 "1") (w1 ",") (w1 "A") (m_sreps_one _ _ _ _ (D 49%Z _)) _ (D 65%Z _)).
    + apply Exists_cons_hd. cbn. lia.
    + apply m_group, m_first. refine (m_cons _ _ _ (w1 ",") [] _ (m_nil _)). apply m_one, m_str.
    + apply Exists_cons_tl, Exists_cons_hd. cbn [in_member]. eexists _, _. split; [left; reflexivity|]. split; [left; reflexivity|]. vm_compute. left. reflexivity.
Qed.
Example ex_derived : exists n, forall fuel, (n <= fuel)%nat -> exists g y g',
  ixml_build fuel ex_src = IOk g /\ use_grammar g (B "-1,A") = IOk (y, g') /\ yaep_names_ok y /\ derives y (w1 "-1,A").
Proof.
  destruct (C60_grammar_describes_its_texts_partial ex_G ex_src (w1 "-1,A") ex_written ex_ok) as (n & Hn).
  { repeat (apply Forall_cons || apply Forall_nil); unfold code_ok; cbn; lia. }
  exists n. intros fuel Hf. destruct (Hn fuel Hf) as (g & y & g' & E1 & E2 & E3 & E4). exists g, y, g'. split; [exact E1|]. split; [exact E2|]. split; [exact E3|]. apply E4, ex_described.
Qed.

(** ** Grammars that are not read as they are written *)

(** An option of the empty group is taken as an option of the factor before:
    the grammar
<<
a: "x", ()?, "y".
>>
    describes xy only, and the rules derive y as well. *)
Definition bad_G : grammar :=
  [GRule 0 (B "a") None (AOne (ACons (TOne (FStr 0 (w1 "x"))) (ACons (TOpt FEmpty) (ACons (TOne (FStr 0 (w1 "y"))) ANil))))].
Definition bad_src : bytes := B "a: ""x"", ()?, ""y"".".
Theorem C60_empty_group_refuted : exists G src w g y g',
  w_grammar G src /\ Forall code_ok w /\ ixml_build 100 src = IOk g /\ use_grammar g (utf8 w) = IOk (y, g') /\
  derives y w /\ ~ describes G w.
Proof.
  exists bad_G, bad_src, (w1 "y"). eexists _, _, _. split; [|split; [|split; [|split; [|split]]]].
  - assert (St : forall c, (0 < c < 128)%Z -> c <> 34%Z -> forall z, w_ws z -> w_factor (FStr 0 [c]) ([] ++ ([34; Z.to_N c; 34] ++ z))).
    { intros c Hc H34 z Hz. refine (wf_str 0 [c] [] [34; Z.to_N c; 34] z wt_none _ Hz).
      assert (E : [34; Z.to_N c; 34] = 34 :: List.concat (map (w_char 34) [c]) ++ [34]).
      { cbn [map List.concat app]. unfold w_char. destruct (N.eqb_spec (Z.to_N c) 34) as [E|_]; [lia|]. unfold utf8_spec. destruct (N.ltb_spec (Z.to_N c) 128); [reflexivity|lia]. }
      rewrite E. apply str_dq. apply Forall_cons; [|apply Forall_nil]. unfold code_ok. lia. }
    assert (R : w_rule (hd (GRule 0 [] None (AOne ANil)) bad_G) bad_src).
    { cbn [bad_G hd]. refine (w_rule_ 0 (B "a") None _ [] (B "a") 58 (B " ") [] (B """x"", ()?, ""y""") wm_none _ (or_intror eq_refl) ws1 _ ws0).
      - refine (wn_plain (B "a") [] _ ws0). name_tac.
      - apply wl_one. refine (wa_more _ _ (B """x""") (B " ") (B "()?, ""y""") _ ws1 _).
        + apply wt_one. refine (St 120%Z _ _ [] ws0); [lia|discriminate].
        + refine (wa_more _ _ (B "()?") (B " ") (B """y""") _ ws1 _).
          * refine (wt_opt _ (B "()") [] _ ws0). exact (wf_empty [] [] ws0 ws0).
          * apply wa_one, wt_one. refine (St 121%Z _ _ [] ws0); [lia|discriminate]. }
    refine (wg_plain bad_G [] bad_src ws0 (wr_one _ _ R) _). intros r rs E. injection E as <- _. discriminate.
  - apply Forall_cons; [unfold code_ok; cbn; lia|apply Forall_nil].
  - vm_compute. reflexivity.
  - vm_compute. reflexivity.
  - eexists _, _, _. split; [reflexivity|]. eapply y_rule; [left; reflexivity|].
    refine (y_cons _ _ _ [] (w1 "y") _ (y_cons _ _ _ (w1 "y") [] _ (y_nil _))).
    + eapply y_rule; [right; right; left; reflexivity|]. apply y_nil.
    + apply y_term. right. left. reflexivity.
  - intros (r0 & rs & r & E & Hr & _ & H). destruct Hr as [<- |[]]. cbn [ru_alts] in H.
    inversion H as [a w' Ha| |]; subst. remember (w1 "y") as v eqn:Ev. inversion Ha as [|t a u v' Ht Ha']; subst.
    inversion Ht as [f w' Hf| | | | | | | |]; subst. inversion Hf; subst. discriminate.
Qed.
Print Assumptions C60_empty_group_refuted.

(** The name of a set is written to a buffer of 1024 bytes without a check. *)
Definition long_set (n : nat) : bytes := B "a: [""" ++ repeat 65 n ++ B """].".
Theorem C60_long_set_refuted : exists n, ixml_build 1000 (long_set n) = IUB.
Proof. exists 256%nat. vm_compute. reflexivity. Qed.

(** A comment that is not closed, after a member of a set: the check for a
    range never returns. *)
Theorem C60_comment_hangs_refuted : ixml_build 1000 (B "a: [""x"" {") = IHang.
Proof. vm_compute. reflexivity. Qed.

(** Asserts fail on these grammars: the first two are correct ixml. *)
Theorem C60_asserts_refuted : Forall (fun s => ixml_build 1000 (B s) = IAbort)
  ["a: +#41."; "a: [-#41]."; "a: ()?."; "a: ~""x""."; "a: ""a""++."; "a: b> ."]%string.
Proof. repeat (apply Forall_cons; [vm_compute; reflexivity|]). apply Forall_nil. Qed.

(** These are correct ixml and are refused: two comments in a comment, a rule
    with the name ixml, an empty alternative before a semicolon or first in a
    group, and a range from a quote. *)
Theorem C60_refused_refuted : Forall (fun s => ixml_build 1000 (B s) = IErr)
  ["{{a}{b}c} a: ""x""."; "ixml : ""x""."; "a: ; ""x""."; "a: (|""x"")."; "a: ['''' - 'z']."]%string.
Proof. repeat (apply Forall_cons; [vm_compute; reflexivity|]). apply Forall_nil. Qed.

(** And these are not and are read: terms without a comma, rules without space
    in between, and a closing brace outside of a comment. *)
Theorem C60_accepted_refuted : Forall (fun s => exists g, ixml_build 1000 (B s) = IOk g)
  ["a: ""x"" ""y""."; "a: b.b: ""x""."; "a: } ""x""."]%string.
Proof. repeat (apply Forall_cons; [eexists; vm_compute; reflexivity|]). apply Forall_nil. Qed.

(** yaep refuses the names of a grammar with a rule called error. *)
Theorem C60_error_name_refuted : exists g y g',
  ixml_build 1000 (B "error: ""x"".") = IOk g /\ use_grammar g (B "x") = IOk (y, g') /\ ~ yaep_names_ok y.
Proof.
  eexists _, _, _. split; [vm_compute; reflexivity|]. split; [vm_compute; reflexivity|].
  intros (_ & _ & _ & _ & _ & H). inversion H as [|x l Hx _]; subst. apply Hx. left. reflexivity.
Qed.

(** A grammar can be used once: the second time no rule is handed to yaep. *)
Theorem C60_second_use_refuted : exists g y1 g1 y2 g2,
  ixml_build 1000 (B "a: ""x"".") = IOk g /\ use_grammar g (B "x") = IOk (y1, g1) /\ use_grammar g1 (B "x") = IOk (y2, g2) /\
  yaep_names_ok y1 /\ y_rules y2 = [].
Proof.
  eexists _, _, _, _, _. split; [vm_compute; reflexivity|]. split; [vm_compute; reflexivity|]. split; [vm_compute; reflexivity|]. split; [|reflexivity].
  unfold yaep_names_ok. cbn [y_terms y_rules map fst snd].
  split; [repeat constructor; intros []|]. split; [repeat constructor; intros []|]. split; [repeat constructor; cbn; lia|]. split; [intros [E|[]]; discriminate E|]. split; [discriminate|].
  apply Forall_cons; [|apply Forall_nil]. cbn [In]. intros [E|[E|[E|[E|[]]]]]; discriminate E.
Qed.
Print Assumptions C60_second_use_refuted.
