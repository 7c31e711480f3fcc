(** A way to write a grammar down: every grammar with proper names, marks and
    characters can be written. *)
From Coq Require Import NArith ZArith Bool String List Lia.
From Coq Require Import ZifyBool ZifyNat ZifyN.
From Verif Require Import Bytes BytesFacts Utf8Proofs Ixml IxmlSpec IxmlLang.
Import ListNotations.
Local Open Scope N_scope.
Local Open Scope list_scope.

Definition name_okb (n : bytes) : bool := match n with [] => false | c :: r => name_start c && forallb name_follower r end.
Definition code_okb (c : Z) : bool := ((0 <=? c) && (c <? 1114112))%Z.
Definition char_okb (c : Z) : bool := code_okb c && negb (c =? 0)%Z.
Definition categoryb (n : bytes) : bool :=
  existsb (fun e => beq n (fst e) || beq n (firstn 1 (fst e)) || (beq n (B "LC") && existsb (beq (fst e)) [B "Lu"; B "Ll"; B "Lt"])) general.
Definition tmarkb (m : N) : bool := (m =? 0) || (m =? 94) || (m =? 45).
Definition markb (m : N) : bool := (m =? 64) || tmarkb m.

Definition digit (v : Z) : N := nth (Z.to_nat v) (B "0123456789abcdef") 0.
Fixpoint digits (k : nat) (v : Z) : bytes := match k with O => [] | S k => digits k (v / 16) ++ [digit (v mod 16)] end.
Definition p_hex (c : Z) : bytes := 35 :: digits 6 c.
Definition p_mark (m : N) : bytes := if m =? 0 then [] else [m].
Definition p_string (q : N) (cs : word) : bytes := q :: List.concat (map (w_char q) cs) ++ [q].
Definition p_naming (n : bytes) (al : option bytes) : bytes := match al with None => n | Some a => n ++ B ">" ++ a end.
Definition p_end (e : range_end) : bytes :=
  match e with RChar c => p_string (if Z.eqb c 34 then 39 else 34) [c] | RHex c => p_hex c end.
Definition p_member (m : member) : bytes :=
  match m with
  | MStr cs => p_string 34 cs
  | MRange a b => p_end a ++ B "-" ++ p_end b
  | MHex c => p_hex c
  | MCat n => n
  end.
Fixpoint p_members (ms : list member) : bytes :=
  match ms with [] => [] | [m] => p_member m | m :: ms => p_member m ++ 59 :: p_members ms end.
Fixpoint p_factor (f : factor) : bytes :=
  match f with
  | FStr tm cs => p_mark tm ++ p_string 34 cs
  | FHex tm c => p_mark tm ++ p_hex c
  | FSet tm ex ms => p_mark tm ++ (if ex then B "~" else []) ++ B "[" ++ p_members ms ++ B "]"
  | FNt m n al => p_mark m ++ p_naming n al
  | FIns cs => B "+" ++ p_string 34 cs
  | FGroup a => B "(" ++ p_alts a ++ B ")"
  | FEmpty => B "()"
  end
with p_term (t : term) : bytes :=
  match t with
  | TOne f => p_factor f
  | TOpt f => p_factor f ++ B "?"
  | TStar f => p_factor f ++ B "*"
  | TPlus f => p_factor f ++ B "+"
  | TStarSep f s => p_factor f ++ B "**" ++ p_factor s
  | TPlusSep f s => p_factor f ++ B "++" ++ p_factor s
  end
with p_alt (a : alt) : bytes :=
  match a with ANil => [] | ACons t ANil => p_term t | ACons t a => p_term t ++ B "," ++ p_alt a end
with p_alts (a : alts) : bytes :=
  match a with AOne a => p_alt a | AMore a r => p_alt a ++ B "|" ++ p_alts r end.
Definition p_rule (r : grule) : bytes := p_mark (ru_mark r) ++ p_naming (ru_name r) (ru_alias r) ++ 58 :: p_alts (ru_alts r) ++ B ".".
Definition p_rules (G : grammar) : bytes := flat_map p_rule G.

Definition can_naming (n : bytes) (al : option bytes) : bool := name_okb n && match al with None => true | Some a => name_okb a end.
Definition can_end (e : range_end) : bool := match e with RChar c => char_okb c | RHex c => code_okb c end.
Definition can_member (m : member) : bool :=
  match m with
  | MStr cs => forallb char_okb cs
  | MRange a b => can_end a && can_end b
  | MHex c => code_okb c
  | MCat n => categoryb n
  end.
Fixpoint can_factor (f : factor) : bool :=
  match f with
  | FStr tm cs => tmarkb tm && forallb char_okb cs
  | FHex tm c => tmarkb tm && code_okb c
  | FSet tm ex ms => tmarkb tm && forallb can_member ms
  | FNt m n al => markb m && can_naming n al
  | FIns cs => forallb char_okb cs
  | FGroup a => negb (starts_empty a) && can_alts a
  | FEmpty => true
  end
with can_term (t : term) : bool :=
  match t with
  | TOne f | TOpt f | TStar f | TPlus f => can_factor f
  | TStarSep f s | TPlusSep f s => can_factor f && can_factor s
  end
with can_alt (a : alt) : bool :=
  match a with ANil => true | ACons t a => can_term t && can_alt a end
with can_alts (a : alts) : bool :=
  match a with AOne a => can_alt a | AMore a r => can_alt a && can_alts r end.
Definition can_rule (r : grule) : bool := markb (ru_mark r) && can_naming (ru_name r) (ru_alias r) && can_alts (ru_alts r).
Definition can_grammar (G : grammar) : bool :=
  match G with [] => false | r :: _ => negb (beq (ru_name r) (B "ixml")) end && forallb can_rule G.

Lemma name_okb_is n : name_okb n = true -> name_ok n.
Proof. destruct n as [|c r]; [discriminate|]. cbn [name_okb]. intros H. apply andb_true_iff in H as (H1 & H2). exists c, r. auto. Qed.
Lemma code_okb_is c : code_okb c = true -> code_ok c.
Proof. unfold code_okb, code_ok. lia. Qed.
Lemma char_okb_is c : char_okb c = true -> code_ok c /\ c <> 0%Z.
Proof. unfold char_okb. intros H. apply andb_true_iff in H as (H1 & H2). split; [now apply code_okb_is|lia]. Qed.
Lemma categoryb_is n : categoryb n = true -> is_category n.
Proof.
  unfold categoryb. intros H. apply existsb_exists in H as ((b & t) & Hi & H). exists b, t. split; [exact Hi|]. cbn [fst] in H. unfold covers.
  apply orb_true_iff in H as [H|H]; [apply orb_true_iff in H as [H|H]|].
  - apply beq_eq in H. auto.
  - apply beq_eq in H. auto.
  - apply andb_true_iff in H as (H1 & H2). apply beq_eq in H1. apply existsb_exists in H2 as (x & Hx & H2). apply beq_eq in H2. subst. auto.
Qed.
Lemma number_digits k : forall v, (0 <= v < 16 ^ Z.of_nat k)%Z -> number (digits k v) v.
Proof.
  induction k as [|k IH]; intros v Hv.
  - cbn [digits]. cbn in Hv. replace v with 0%Z by lia. apply n_none.
  - cbn [digits]. rewrite Nat2Z.inj_succ, Z.pow_succ_r in Hv by lia. pose proof (Z.div_mod v 16 ltac:(lia)) as E. pose proof (Z.mod_pos_bound v 16 ltac:(lia)) as Hm.
    replace v with (16 * (v / 16) + Z.of_nat (Z.to_nat (v mod 16)))%Z at 3 by lia. apply n_digit.
    + apply IH. split; [apply Z.div_pos; lia|apply Z.div_lt_upper_bound; lia].
    + left. unfold digit. apply nth_error_nth'. change (List.length (B "0123456789abcdef")) with 16%nat. lia.
Qed.
Lemma p_hex_ok c : code_okb c = true -> w_hex c (p_hex c).
Proof.
  intros H. apply code_okb_is in H. unfold p_hex. apply w_digits; [|apply number_digits; unfold code_ok in H; cbn; lia|exact H].
  cbn [digits]. intros E. apply app_eq_nil in E as (_ & E). discriminate E.
Qed.
Lemma p_mark_ok m : markb m = true -> w_mark m (p_mark m).
Proof. unfold markb, tmarkb, p_mark. intros H. destruct (m =? 0) eqn:E; [apply N.eqb_eq in E; subst; apply wm_none|]. apply wm_mark; [lia|apply Forall_nil]. Qed.
Lemma p_tmark_ok m : tmarkb m = true -> w_tmark m (p_mark m).
Proof. unfold tmarkb, p_mark. intros H. destruct (m =? 0) eqn:E; [apply N.eqb_eq in E; subst; apply wt_none|]. apply wt_mark; [lia|apply Forall_nil]. Qed.
Lemma p_string_ok q cs : quote q -> forallb char_okb cs = true -> w_string cs (p_string q cs).
Proof.
  intros Hq H. apply w_str; [exact Hq|]. apply Forall_forall. intros c Hc. rewrite forallb_forall in H. now apply char_okb_is, H.
Qed.
Lemma p_naming_ok n al : can_naming n al = true -> w_naming n al (p_naming n al).
Proof.
  unfold can_naming, p_naming. intros H. apply andb_true_iff in H as (H1 & H2). apply name_okb_is in H1. destruct al as [a|].
  - apply name_okb_is in H2. pose proof (wn_alias n a [] [] [] H1 H2 ww_nil ww_nil ww_nil) as W. cbn [app] in W. rewrite app_nil_r in W. exact W.
  - pose proof (wn_plain n [] H1 ww_nil) as W. now rewrite app_nil_r in W.
Qed.
Lemma p_end_ok first e : can_end e = true -> w_end first e (p_end e).
Proof.
  destruct e as [c|c]; cbn [can_end p_end]; intros H.
  - apply char_okb_is in H as (H1 & H2). unfold p_string. cbn [map List.concat]. rewrite app_nil_r. apply we_char; [destruct (Z.eqb c 34); [right|left]; reflexivity|exact H1|exact H2|].
    intros _. destruct (Z.eqb_spec c 34); lia.
  - apply we_hex. now apply p_hex_ok.
Qed.
Lemma p_member_ok m : can_member m = true -> w_member m (p_member m).
Proof.
  destruct m as [cs|a b|c|n]; cbn [can_member p_member]; intros H.
  - pose proof (wm_str cs (p_string 34 cs) [] (p_string_ok 34 cs (or_introl eq_refl) H) ww_nil) as W. now rewrite app_nil_r in W.
  - apply andb_true_iff in H as (H1 & H2). pose proof (wm_range a b (p_end a) (p_end b) [] [] [] (p_end_ok true a H1) (p_end_ok false b H2) ww_nil ww_nil ww_nil) as W. cbn [app] in W. rewrite app_nil_r in W. exact W.
  - pose proof (wm_hex c (p_hex c) [] (p_hex_ok c H) ww_nil) as W. now rewrite app_nil_r in W.
  - pose proof (wm_cat n [] (categoryb_is n H) ww_nil) as W. now rewrite app_nil_r in W.
Qed.
Lemma p_members_ok ms : forallb can_member ms = true -> w_members ms (p_members ms).
Proof.
  induction ms as [|m ms IH]; intros H; [apply ws_none|]. cbn [forallb] in H. apply andb_true_iff in H as (H1 & H2). apply p_member_ok in H1. specialize (IH H2). destruct ms as [|m2 ms].
  - apply ws_one. exact H1.
  - exact (ws_more m (m2 :: ms) (p_member m) 59 [] _ H1 (or_introl eq_refl) ww_nil ltac:(discriminate) IH).
Qed.
Lemma p_ok :
  (forall f, can_factor f = true -> w_factor f (p_factor f)) /\
  (forall t, can_term t = true -> w_term t (p_term t)) /\
  (forall a, can_alt a = true -> a = ANil \/ w_alt a (p_alt a)) /\
  (forall a, can_alts a = true -> w_alts a (p_alts a)).
Proof.
  apply grammar_ind; cbn [can_factor can_term can_alt can_alts p_factor p_term p_alt p_alts].
  - intros tm cs H. apply andb_true_iff in H as (H1 & H2). pose proof (wf_str tm cs _ _ [] (p_tmark_ok tm H1) (p_string_ok 34 cs (or_introl eq_refl) H2) ww_nil) as W. now rewrite app_nil_r in W.
  - intros tm c H. apply andb_true_iff in H as (H1 & H2). pose proof (wf_hex tm c _ _ [] (p_tmark_ok tm H1) (p_hex_ok c H2) ww_nil) as W. now rewrite app_nil_r in W.
  - intros tm ex ms H. apply andb_true_iff in H as (H1 & H2).
    refine (wf_set tm ex ms _ (if ex then B "~" else []) [] _ [] (p_tmark_ok tm H1) _ ww_nil (p_members_ok ms H2) ww_nil). destruct ex; [exists []; split; [reflexivity|apply Forall_nil]|reflexivity].
  - intros m n al H. apply andb_true_iff in H as (H1 & H2). apply wf_nt; [now apply p_mark_ok|now apply p_naming_ok].
  - intros cs H. pose proof (wf_ins cs [] _ [] ww_nil (p_string_ok 34 cs (or_introl eq_refl) H) ww_nil) as W. cbn [app] in W. rewrite app_nil_r in W. exact W.
  - intros a IH H. apply andb_true_iff in H as (H1 & H2). apply negb_true_iff in H1. exact (wf_group a [] _ [] H1 ww_nil (IH H2) ww_nil).
  - intros _. exact (wf_empty [] [] ww_nil ww_nil).
  - intros f IH H. apply wt_one. auto.
  - intros f IH H. exact (wt_opt f _ [] (IH H) ww_nil).
  - intros f IH H. exact (wt_star f _ [] (IH H) ww_nil).
  - intros f IH H. exact (wt_plus f _ [] (IH H) ww_nil).
  - intros f IH s IHs H. apply andb_true_iff in H as (H1 & H2). exact (wt_starsep f s _ [] _ (IH H1) ww_nil (IHs H2)).
  - intros f IH s IHs H. apply andb_true_iff in H as (H1 & H2). exact (wt_plussep f s _ [] _ (IH H1) ww_nil (IHs H2)).
  - intros _. left. reflexivity.
  - intros t IH a IHa H. apply andb_true_iff in H as (H1 & H2). right. destruct a as [|t2 a]; [apply wa_one; auto|]. destruct (IHa H2) as [E|W]; [discriminate E|]. exact (wa_more t (ACons t2 a) _ [] _ (IH H1) ww_nil W).
  - intros a IH H. destruct (IH H) as [-> |W]; [apply wl_empty|now apply wl_one].
  - intros a IH r IHr H. apply andb_true_iff in H as (H1 & H2). destruct (IH H1) as [-> |W].
    + exact (wl_more_empty r [] _ ww_nil (IHr H2)).
    + exact (wl_more a r _ 124 [] _ W (or_intror eq_refl) ww_nil (IHr H2)).
Qed.
Lemma p_rule_ok r : can_rule r = true -> w_rule r (p_rule r).
Proof.
  destruct r as [m n al a]. unfold can_rule, p_rule. cbn [ru_mark ru_name ru_alias ru_alts]. intros H. apply andb_true_iff in H as (H & H3). apply andb_true_iff in H as (H1 & H2).
  exact (w_rule_ m n al a _ _ 58 [] [] _ (p_mark_ok m H1) (p_naming_ok n al H2) (or_intror eq_refl) ww_nil (proj2 (proj2 (proj2 p_ok)) a H3) ww_nil).
Qed.
Lemma p_rules_ok G : G <> [] -> forallb can_rule G = true -> w_rules G (p_rules G).
Proof.
  induction G as [|r G IH]; intros Hn H; [now elim Hn|]. cbn [forallb] in H. apply andb_true_iff in H as (H1 & H2). apply p_rule_ok in H1. unfold p_rules. cbn [flat_map]. fold (p_rules G). destruct G as [|r2 G].
  - cbn [p_rules flat_map]. rewrite app_nil_r. now apply wr_one.
  - apply wr_more; [exact H1|]. apply IH; [discriminate|exact H2].
Qed.
Theorem p_grammar_ok G : can_grammar G = true -> w_grammar G (p_rules G).
Proof.
  unfold can_grammar. intros H. apply andb_true_iff in H as (H1 & H2). destruct G as [|r G]; [discriminate H1|].
  refine (wg_plain (r :: G) [] _ ww_nil (p_rules_ok (r :: G) _ H2) _); [discriminate|]. intros r' rs E. injection E as <- _. intros E. rewrite E in H1. discriminate H1.
Qed.
