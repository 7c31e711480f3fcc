(** Reading the smallest pieces of an ixml grammar: white space, names,
    strings, encoded characters and the members of sets. *)
From Coq Require Import NArith ZArith Bool String List Lia.
From Coq Require Import ZifyBool ZifyNat ZifyN.
From Verif Require Import Bytes BytesFacts Utf8 Utf8Proofs Ixml IxmlSpec IxmlNames IxmlTrans.
Import ListNotations.
Local Open Scope N_scope.
Local Open Scope list_scope.

(** ** Characters *)
Ltac charb := unfold ix_alt_start, ix_naming, ix_ws, ix_mark, ix_tmark, ix_naming, ix_name_start, ix_name_follower, ix_hex, ix_quote, ix_alt_start, ix_alt_end, in_range,
  cSP, cTAB, cNL, cCR, cLB, cRB, cMINUS, cUND, cDQ, cQ, cHASH, cLP, cRP, cSEMI, cDOT, cGT, cEQ, cCOLON, cQM, cSTAR in *; lia.
Lemma blank_ws c : blank c -> ix_ws c = true. Proof. unfold blank. charb. Qed.
Lemma blank_not_lb c : blank c -> (c =? cLB) = false. Proof. unfold blank. charb. Qed.

(** ** White space *)
Lemma comment_spec : forall n s, (length s <= n)%nat -> w_body s -> forall k fuel, (length s < fuel)%nat -> comment_loop fuel (s ++ 125 :: k) = IOk k.
Proof.
  induction n as [|n IH]; intros s Hn Hs k fuel Hf; (destruct fuel as [|f]; [lia|]).
  - destruct s as [|c s]; [|cbn [length] in Hn; lia]. reflexivity.
  - inversion Hs as [|c s' H0 H1 H2 Hb|c r Hc Hr Hb]; subst.
    + reflexivity.
    + cbn [app comment_loop]. unfold eob, peek. cbn [hd].
      replace (c =? 0) with false by lia. unfold cLB, cRB in *. replace (c =? 123) with false by lia. cbn [ibind hd]. replace (c =? 125) with false by lia. cbn [tl].
      cbn [length] in Hn, Hf. apply IH; [lia|exact Hb|lia].
    + inversion Hc as [b Hb']; subst. change (B "{") with [123] in *. change (B "}") with [125] in *.
      cbn [app length] in *. rewrite !app_length in *. cbn [length] in *. rewrite <- app_assoc. cbn [app comment_loop]. unfold eob. cbn [peek hd]. cbn iota.
      change (123 =? 0) with false. change (123 =? cLB) with true. cbn iota. cbn [tl].
      rewrite <- !app_assoc. cbn [app]. rewrite (IH b); [|lia|exact Hb'|lia]. cbn [ibind].
      destruct r as [|c r]; cbn [app peek hd].
      * reflexivity.
      * cbn [hd] in Hr. inversion Hb as [|c' s' H0 H1 H2 Hb2|c' r' Hc2 Hr2 Hb2]; subst.
        -- unfold cRB. replace (c =? 125) with false by lia. cbn [tl length] in *. apply IH; [lia|exact Hb2|lia].
        -- match goal with H : ?x ++ _ = c :: r |- _ => inversion Hc2; subst; change (B "{") with [123] in *; cbn [app] in H; injection H as <- _; now elim Hr end.
Qed.
Lemma parse_comment_spec s k : w_comment s -> parse_comment (s ++ k) = IOk k.
Proof.
  intros H. inversion H as [b Hb]; subst. unfold parse_comment. change (B "{") with [123]. change (B "}") with [125]. cbn [app tl length]. rewrite <- app_assoc. cbn [app].
  apply (comment_spec (length b)); [lia|exact Hb|]. rewrite app_length. cbn [length]. lia.
Qed.
Lemma skip_comment_spec : forall n s, (length s <= n)%nat -> w_body s -> forall x k fuel, (length s < fuel)%nat -> skip_comment fuel (x :: s ++ 125 :: k) = Some k.
Proof.
  induction n as [|n IH]; intros s Hn Hs x k fuel Hf; (destruct fuel as [|f]; [lia|]).
  - destruct s as [|c s]; [|cbn [length] in Hn; lia]. reflexivity.
  - inversion Hs as [|c s' H0 H1 H2 Hb|c r Hc Hr Hb]; subst.
    + reflexivity.
    + cbn [app skip_comment tl]. unfold eob, peek. cbn [hd].
      unfold cLB, cRB in *. replace (c =? 123) with false by lia. cbn iota. cbn [hd]. replace (c =? 125) with false by lia. replace (c =? 0) with false by lia.
      cbn [length] in Hn, Hf. apply IH; [lia|exact Hb|lia].
    + inversion Hc as [b Hb']; subst. change (B "{") with [123] in *. change (B "}") with [125] in *.
      cbn [app length] in *. rewrite !app_length in *. cbn [length] in *. rewrite <- app_assoc. cbn [app skip_comment tl]. unfold eob. cbn [peek hd].
      change (123 =? cLB) with true. cbn iota.
      rewrite <- !app_assoc. cbn [app]. rewrite (IH b); [|lia|exact Hb'|lia].
      destruct r as [|c r]; cbn [app peek hd].
      * reflexivity.
      * cbn [hd] in Hr. inversion Hb as [|c' s' H0 H1 H2 Hb2|c' r' Hc2 Hr2 Hb2]; subst.
        -- unfold cRB. replace (c =? 125) with false by lia. replace (c =? 0) with false by lia. cbn [tl length] in *. apply IH; [lia|exact Hb2|lia].
        -- match goal with H : ?x ++ _ = c :: r |- _ => inversion Hc2; subst; change (B "{") with [123] in *; cbn [app] in H; injection H as <- _; now elim Hr end.
Qed.
Lemma comment_hd s : w_comment s -> exists r, s = 123 :: r.
Proof. intros H. inversion H; subst. eexists. reflexivity. Qed.

Lemma ws_loop_spec z : w_ws z -> forall k fuel, ix_ws (peek k) = false -> (length z < fuel)%nat -> ws_loop fuel (z ++ k) = IOk k.
Proof.
  induction 1 as [|c z Hc Hz IH|s r Hs Hr IH]; intros k fuel Hk Hf; (destruct fuel as [|f]; [lia|]).
  - cbn [app ws_loop]. now rewrite Hk.
  - cbn [app ws_loop peek hd]. rewrite (blank_ws c Hc), (blank_not_lb c Hc). cbn [tl]. apply IH; [exact Hk|cbn [length] in Hf; lia].
  - rewrite <- app_assoc. destruct (comment_hd s Hs) as (b & ->). rewrite app_length in Hf. cbn [length] in Hf. cbn [app ws_loop]. cbn [peek hd]. change (ix_ws 123) with true. change (123 =? cLB) with true. cbn iota.
    change (123 :: b ++ r ++ k) with ((123 :: b) ++ r ++ k). rewrite parse_comment_spec by exact Hs. cbn [ibind]. apply IH; [exact Hk|lia].
Qed.
Lemma skip_ws_spec z : w_ws z -> forall k fuel, ix_ws (peek k) = false -> (length z < fuel)%nat -> skip_ws fuel (z ++ k) = IOk k.
Proof.
  induction 1 as [|c z Hc Hz IH|s r Hs Hr IH]; intros k fuel Hk Hf; (destruct fuel as [|f]; [lia|]).
  - cbn [app skip_ws]. now rewrite Hk.
  - cbn [app skip_ws peek hd]. rewrite (blank_ws c Hc), (blank_not_lb c Hc). cbn [tl]. apply IH; [exact Hk|cbn [length] in Hf; lia].
  - rewrite <- app_assoc. inversion Hs as [b Hb]; subst. rewrite !app_length in Hf. change (B "{") with [123] in *. change (B "}") with [125] in *. cbn [length] in Hf.
    rewrite <- !app_assoc. cbn [app skip_ws]. cbn [peek hd]. change (ix_ws 123) with true. change (123 =? cLB) with true. cbn iota.
    rewrite (skip_comment_spec (length b)); [|lia|exact Hb|cbn [length]; rewrite app_length; cbn [length]; lia]. apply IH; [exact Hk|lia].
Qed.
Lemma parse_ws_spec z k : w_ws z -> ix_ws (peek k) = false -> parse_ws (z ++ k) = IOk k.
Proof. intros Hz Hk. apply ws_loop_spec; [exact Hz|exact Hk|]. rewrite app_length. lia. Qed.
Lemma parse_ws_id k : ix_ws (peek k) = false -> parse_ws k = IOk k.
Proof. apply (parse_ws_spec []). apply ww_nil. Qed.
Lemma ws_first z : w_ws z -> z = [] \/ exists c r, z = c :: r /\ ix_ws c = true.
Proof.
  destruct 1 as [|c z Hc Hz|s r Hs Hr]; [left; reflexivity| |]; right.
  - exists c, z. split; [reflexivity|now apply blank_ws].
  - destruct (comment_hd s Hs) as (b & ->). exists 123, (b ++ r). split; reflexivity.
Qed.
(** what holds of the white space characters and of the character after them *)
Lemma ws_then (p : N -> bool) z k : w_ws z -> (forall c, ix_ws c = true -> p c = false) -> p (peek k) = false -> p (peek (z ++ k)) = false.
Proof. intros Hz Hp Hk. destruct (ws_first z Hz) as [-> |(c & r & -> & Hc)]; [exact Hk|]. cbn [app peek hd]. auto. Qed.
Lemma blanks_ws b : blanks b -> w_ws b.
Proof. induction 1; [apply ww_nil|apply ww_blank; assumption]. Qed.
Lemma drop_blanks b k : blanks b -> ix_ws (peek k) = false -> drop_while ix_ws (b ++ k) = k.
Proof.
  intros Hb Hk. induction Hb as [|c b Hc Hb IH]; cbn [app drop_while].
  - destruct k as [|c k]; [reflexivity|]. cbn [drop_while]. cbn [peek hd] in Hk. now rewrite Hk.
  - now rewrite (blank_ws c Hc).
Qed.

(** ** Names *)
Lemma take_while_all (p : N -> bool) l k : forallb p l = true -> p (peek k) = false -> take_while p (l ++ k) = l /\ drop_while p (l ++ k) = k.
Proof.
  intros Hl Hk. destruct k as [|c k].
  - rewrite app_nil_r. clear Hk. induction l as [|c l IH]; [split; reflexivity|]. cbn [forallb] in Hl. apply andb_true_iff in Hl as (H1 & H2).
    destruct (IH H2) as (I1 & I2). cbn [take_while drop_while]. rewrite H1, I1, I2. auto.
  - apply take_stop; assumption.
Qed.
Lemma name_first n : name_ok n -> exists c r, n = c :: r /\ ix_name_start c = true.
Proof. intros Hn. apply name_is in Hn as (c & r & E & H & _). eauto. Qed.
Lemma parse_name_spec n k : name_ok n -> ix_name_follower (peek k) = false -> parse_name (n ++ k) = IOk (n, k).
Proof.
  intros Hn Hk. apply name_is in Hn as (c & r & -> & H1 & H2). unfold parse_name. cbn [app peek hd tl]. rewrite H1.
  destruct (take_while_all ix_name_follower r k H2 Hk) as (-> & ->). reflexivity.
Qed.
Lemma ws_not_follower c : ix_ws c = true -> ix_name_follower c = false. Proof. charb. Qed.
Lemma start_not_ws c : ix_name_start c = true -> ix_ws c = false. Proof. charb. Qed.
Lemma mark_not_start c : ix_name_start c = true -> ix_mark c = false. Proof. charb. Qed.
Lemma w_mark_cases m t : w_mark m t -> (m = 0 /\ t = []) \/ (exists b, t = m :: b /\ ix_mark m = true /\ blanks b).
Proof. destruct 1 as [|c s Hc Hs]; [left; auto|right]. exists s. split; [reflexivity|]. split; [charb|exact Hs]. Qed.
Lemma w_tmark_cases m t : w_tmark m t -> (m = 0 /\ t = []) \/ (exists b, t = m :: b /\ ix_tmark m = true /\ blanks b).
Proof. destruct 1 as [|c s Hc Hs]; [left; auto|right]. exists s. split; [reflexivity|]. split; [charb|exact Hs]. Qed.
(** after a name: *)
Definition after_name (c : N) : Prop := ix_ws c = false /\ ix_name_follower c = false /\ (c =? cGT) = false.
Lemma parse_naming_spec m n al t s k : w_mark m t -> w_naming n al s -> after_name (peek k) -> parse_naming (t ++ s ++ k) = IOk (m, n, al, k).
Proof.
  intros Hm Hs (K1 & K2 & K3).
  assert (X : forall n z r, name_ok n -> w_ws z -> ix_ws (peek r) = false -> ix_name_follower (peek r) = false ->
     parse_naming (t ++ n ++ z ++ r) = if peek r =? cGT then ido (a, s) <- parse_alias r; IOk (m, n, Some a, s) else IOk (m, n, None, r)).
  { clear n Hs. intros n z r Hn Hz Hr1 Hr2. destruct (name_first n Hn) as (c & l & E & Hc).
    assert (P : ix_ws (peek (n ++ z ++ r)) = false) by (subst n; cbn [app peek hd]; now apply start_not_ws).
    assert (Q : ix_name_start (peek (n ++ z ++ r)) = true) by (subst n; exact Hc).
    assert (F : ix_name_follower (peek (z ++ r)) = false) by (apply ws_then; [exact Hz|apply ws_not_follower|exact Hr2]).
    unfold parse_naming. destruct (w_mark_cases m t Hm) as [(-> & ->)|(b & -> & Hmk & Hb)].
    - cbn [app]. rewrite (mark_not_start _ Q). cbn iota zeta. rewrite parse_ws_id by exact P. cbn [ibind]. rewrite Q. cbn [negb].
      rewrite parse_name_spec; [|exact Hn|exact F]. cbn [ibind]. rewrite parse_ws_spec; [|exact Hz|exact Hr1]. cbn [ibind]. reflexivity.
    - cbn [app peek hd tl]. rewrite Hmk. cbn iota zeta. rewrite parse_ws_spec; [|now apply blanks_ws|exact P]. cbn [ibind]. fold (peek (n ++ z ++ r)). rewrite Q. cbn [negb].
      rewrite parse_name_spec; [|exact Hn|exact F]. cbn [ibind]. rewrite parse_ws_spec; [|exact Hz|exact Hr1]. cbn [ibind]. reflexivity. }
  destruct Hs as [n z Hn Hz|n a z1 z2 z3 Hn Ha Hz1 Hz2 Hz3].
  - rewrite <- app_assoc, X; try assumption. now rewrite K3.
  - rewrite <- !app_assoc, X; try assumption; try reflexivity. change (B ">") with [62]. cbn [app peek hd]. change (62 =? cGT) with true. cbn iota.
    unfold parse_alias. cbn [tl]. destruct (name_first a Ha) as (c & l & E & Hc).
    rewrite parse_ws_spec; [|exact Hz2|subst a; cbn [app peek hd]; now apply start_not_ws]. cbn [ibind].
    rewrite parse_name_spec; [|exact Ha|apply ws_then; [exact Hz3|apply ws_not_follower|exact K2]]. cbn [ibind]. rewrite parse_ws_spec; [|exact Hz3|exact K1]. reflexivity.
Qed.

(** ** Strings *)
Lemma utf8_first u : 0 < u <= 0x10ffff -> exists c r, utf8_spec u = c :: r /\ c <> 0 /\ (c = u \/ 128 <= c).
Proof.
  intros H. unfold utf8_spec. repeat match goal with |- context[if ?b then _ else _] => destruct b eqn:? end; eexists _, _; (split; [reflexivity|]); split; try lia.
Qed.
Lemma utf8_bytes u : 0 < u <= 0x10ffff -> forall c, In c (utf8_spec u) -> c <> 0 /\ (c = u \/ 128 <= c).
Proof.
  intros H c. unfold utf8_spec. repeat match goal with |- context[if ?b then _ else _] => destruct b eqn:? end; cbn [In]; intros Hc;
    repeat (destruct Hc as [<- |Hc]; [split; lia|]); elim Hc.
Qed.
Definition char_ok (c : Z) : Prop := code_ok c /\ c <> 0%Z.
Lemma char_n c : char_ok c -> 0 < Z.to_N c <= 0x10ffff /\ Z.of_N (Z.to_N c) = c.
Proof. unfold char_ok, code_ok. lia. Qed.
Lemma quote_ascii q : quote q -> q < 128 /\ q <> 0. Proof. unfold quote. lia. Qed.
Lemma string_loop_spec q cs : quote q -> Forall char_ok cs -> forall k fuel, (peek k =? q) = false -> (length cs < fuel)%nat ->
  string_loop fuel q (List.concat (map (w_char q) cs) ++ q :: k) = IOk (cs, k).
Proof.
  intros Hq. pose proof (quote_ascii q Hq) as (Q1 & Q2). induction 1 as [|c cs Hc Hcs IH]; intros k fuel Hk Hf; (destruct fuel as [|f]; [lia|]).
  - cbn [map List.concat app string_loop]. unfold eob, peek1. cbn [peek hd tl]. fold (peek k). rewrite Hk, N.eqb_refl. replace (q =? 0) with false by lia. reflexivity.
  - cbn [map List.concat]. rewrite <- app_assoc. destruct (char_n c Hc) as (C1 & C2). cbn [length] in Hf.
    assert (D : decode_utf8 (utf8_spec (Z.to_N c) ++ List.concat (map (w_char q) cs) ++ q :: k) = DecOk (Z.to_N c) (length (utf8_spec (Z.to_N c)))) by (apply decode_spec; lia).
    assert (E : skipn (length (utf8_spec (Z.to_N c))) (utf8_spec (Z.to_N c) ++ List.concat (map (w_char q) cs) ++ q :: k) = List.concat (map (w_char q) cs) ++ q :: k) by (rewrite skipn_app, skipn_all, Nat.sub_diag; reflexivity).
    unfold w_char at 1. destruct (Z.to_N c =? q) eqn:Eq.
    + apply N.eqb_eq in Eq. cbn [app string_loop]. unfold eob, peek1. cbn [peek hd tl]. rewrite N.eqb_refl. replace (q =? 0) with false by lia. cbn [negb andb]. cbn iota zeta.
      assert (Us : utf8_spec (Z.to_N c) = [q]). { unfold utf8_spec. rewrite Eq. replace (q <? 128) with true by lia. reflexivity. }
      rewrite Us in D, E. cbn [app] in D, E. rewrite D, E. rewrite IH; [|exact Hk|lia]. cbn [ibind]. now rewrite C2.
    + destruct (utf8_first (Z.to_N c) C1) as (b & r & Eu & B0 & B1). cbn [string_loop]. unfold eob.
      assert (P : peek (utf8_spec (Z.to_N c) ++ List.concat (map (w_char q) cs) ++ q :: k) = b) by (rewrite Eu; reflexivity). rewrite P.
      replace (b =? 0) with false by lia. replace (b =? q) with false by (apply N.eqb_neq in Eq; lia). cbn [andb]. cbn iota zeta.
      rewrite D, E. rewrite IH; [|exact Hk|lia]. cbn [ibind]. now rewrite C2.
Qed.
Lemma until_zero_id cs : Forall char_ok cs -> until_zero cs = cs.
Proof. induction 1 as [|c cs (_ & Hc) Hcs IH]; [reflexivity|]. cbn [until_zero]. replace (c =? 0)%Z with false by lia. now rewrite IH. Qed.
Lemma w_char_len q c : char_ok c -> (1 <= length (w_char q c))%nat.
Proof.
  intros Hc. unfold w_char. destruct (_ =? q); [cbn [length]; lia|]. destruct (char_n c Hc) as (C1 & _). destruct (utf8_first _ C1) as (b & r & -> & _). cbn [length]. lia.
Qed.
Lemma w_chars_len q cs : Forall char_ok cs -> (length cs <= length (List.concat (map (w_char q) cs)))%nat.
Proof. induction 1 as [|c cs Hc Hcs IH]; cbn [map List.concat length]; [lia|]. rewrite app_length. pose proof (w_char_len q c Hc). lia. Qed.
Lemma parse_string_spec cs s k : w_string cs s -> ix_quote (peek k) = false -> parse_string (s ++ k) = IOk (cs, k).
Proof.
  intros Hs Hk. destruct Hs as [q cs Hq Hcs]. change (Forall char_ok cs) in Hcs. unfold parse_string. cbn [app peek hd tl]. replace (ix_quote q) with true by (unfold quote in Hq; charb).
  rewrite <- app_assoc. cbn [app]. rewrite string_loop_spec; [|exact Hq|exact Hcs|unfold quote in Hq; charb|].
  - cbn [ibind]. now rewrite until_zero_id.
  - cbn [length]. rewrite app_length. pose proof (w_chars_len q cs Hcs). lia.
Qed.
Lemma string_first cs s : w_string cs s -> exists q r, s = q :: r /\ ix_quote q = true.
Proof. intros H. destruct H as [q cs Hq]. eexists _, _. split; [reflexivity|]. unfold quote in Hq. charb. Qed.

(** ** Encoded characters *)
Lemma to_int_code c : code_ok c -> to_int c = c.
Proof.
  unfold code_ok, to_int. intros H. rewrite Z.min_l by lia. rewrite Z.mod_small; lia.
Qed.
Lemma hex_first c s : w_hex c s -> exists r, s = 35 :: r.
Proof. destruct 1. eauto. Qed.
Lemma skip_tmark_spec m t k : w_tmark m t -> ix_ws (peek k) = false -> ix_tmark (peek k) = false -> skip_tmark (t ++ k) = k.
Proof.
  intros Hm Hk Ht. unfold skip_tmark. destruct (w_tmark_cases m t Hm) as [(-> & ->)|(b & -> & Hmk & Hb)]; cbn [app].
  - now rewrite Ht.
  - cbn [peek hd tl]. rewrite Hmk. now apply drop_blanks.
Qed.
(** reading a mark of a terminal *)
Lemma tmark_spec m t k : w_tmark m t -> ix_ws (peek k) = false -> ix_tmark (peek k) = false ->
  (if ix_tmark (peek (t ++ k)) then peek (t ++ k) else 0) = m /\
  (if ix_tmark (peek (t ++ k)) then parse_ws (tl (t ++ k)) else IOk (t ++ k)) = IOk k.
Proof.
  intros Hm Hk Ht. destruct (w_tmark_cases m t Hm) as [(-> & ->)|(b & -> & Hmk & Hb)]; cbn [app].
  - now rewrite Ht.
  - cbn [peek hd tl]. rewrite Hmk. split; [reflexivity|]. apply parse_ws_spec; [now apply blanks_ws|exact Hk].
Qed.
Lemma ws_not_hex c : ix_ws c = true -> ix_hex c = false. Proof. charb. Qed.
Lemma parse_encoded_spec m t c s z k : w_tmark m t -> w_hex c s -> w_ws z -> ix_ws (peek k) = false -> ix_hex (peek k) = false ->
  parse_encoded (t ++ s ++ z ++ k) = IOk (m, c, k).
Proof.
  intros Hm Hs Hz K1 K2. apply hex_is in Hs as (ds & -> & Hd1 & Hd2 & Hv & Hc). unfold parse_encoded, encoded_start.
  rewrite (skip_tmark_spec m t ((35 :: ds) ++ z ++ k) Hm eq_refl eq_refl). cbn [app peek hd]. change (35 =? cHASH) with true. cbn [negb].
  destruct (tmark_spec m t ((35 :: ds) ++ z ++ k) Hm eq_refl eq_refl) as (T1 & T2). cbn [app] in T1, T2. fold (peek (t ++ 35 :: ds ++ z ++ k)). rewrite T1. cbv zeta.
  assert (E : parse_ws (if ix_tmark (peek (t ++ 35 :: ds ++ z ++ k)) then tl (t ++ 35 :: ds ++ z ++ k) else t ++ 35 :: ds ++ z ++ k) = IOk (35 :: ds ++ z ++ k)).
  { destruct (ix_tmark (peek (t ++ 35 :: ds ++ z ++ k))); [exact T2|]. injection T2 as ->. apply parse_ws_id. reflexivity. }
  rewrite E. cbn [ibind peek hd tl]. change (35 =? cHASH) with true. cbn [negb].
  assert (F : ix_hex (peek (z ++ k)) = false) by (apply ws_then; [exact Hz|apply ws_not_hex|exact K2]).
  destruct ds as [|d ds]; [now elim Hd1|]. cbn [app peek hd]. assert (Hd : ix_hex d = true) by (cbn [forallb] in Hd2; now apply andb_true_iff in Hd2 as (? & _)). rewrite Hd. cbn [negb].
  unfold parse_hex. change (d :: ds ++ z ++ k) with ((d :: ds) ++ z ++ k). destruct (take_while_all ix_hex (d :: ds) (z ++ k) Hd2 F) as (-> & ->).
  rewrite parse_ws_spec; [|exact Hz|exact K1]. cbn [ibind]. rewrite Hv. now rewrite to_int_code.
Qed.

(** ** Sets *)
Definition after_member (c : N) : Prop := c = 59 \/ c = 124 \/ c = 93.
Lemma skip_to_string q cs : quote q -> Forall char_ok cs -> forall r,
  skip_to q (List.concat (map (w_char q) cs) ++ q :: r) = Some r \/ exists r', skip_to q (List.concat (map (w_char q) cs) ++ q :: r) = Some (q :: r').
Proof.
  intros Hq. pose proof (quote_ascii q Hq) as (Q1 & Q2). induction 1 as [|c cs Hc Hcs IH]; intros r.
  - left. cbn [map List.concat app skip_to]. now rewrite N.eqb_refl.
  - cbn [map List.concat]. rewrite <- app_assoc. unfold w_char at 1 3. destruct (Z.to_N c =? q) eqn:Eq.
    + right. cbn [app skip_to]. rewrite N.eqb_refl. eexists. reflexivity.
    + apply N.eqb_neq in Eq. destruct (char_n c Hc) as (C1 & _).
      assert (X : forall l x, (forall b, In b l -> b <> 0 /\ (b = Z.to_N c \/ 128 <= b)) -> skip_to q (l ++ x) = skip_to q x).
      { induction l as [|b l IHl]; intros x Hl; [reflexivity|]. cbn [app skip_to]. destruct (Hl b (or_introl eq_refl)) as (B0 & B1).
        replace (b =? q) with false by lia. replace (b =? 0) with false by lia. apply IHl. intros b' Hb'. apply Hl. right. exact Hb'. }
      rewrite X by (apply utf8_bytes; exact C1). apply IH.
Qed.
Lemma skip_to_char q c r : quote q -> char_ok c -> c <> Z.of_N q -> skip_to q (w_char q c ++ q :: r) = Some r.
Proof.
  intros Hq Hc Hn. pose proof (quote_ascii q Hq) as (Q1 & Q2). destruct (char_n c Hc) as (C1 & C2). unfold w_char. destruct (Z.to_N c =? q) eqn:Eq; [apply N.eqb_eq in Eq; elim Hn; rewrite <- Eq; symmetry; exact C2|]. apply N.eqb_neq in Eq.
  assert (X : forall l x, (forall b, In b l -> b <> 0 /\ (b = Z.to_N c \/ 128 <= b)) -> skip_to q (l ++ x) = skip_to q x).
  { induction l as [|b l IHl]; intros x Hl; [reflexivity|]. cbn [app skip_to]. destruct (Hl b (or_introl eq_refl)) as (B0 & B1).
    replace (b =? q) with false by lia. replace (b =? 0) with false by lia. apply IHl. intros b' Hb'. apply Hl. right. exact Hb'. }
  rewrite X by (apply utf8_bytes; exact C1). cbn [skip_to]. now rewrite N.eqb_refl.
Qed.
Lemma skip_ws_one z k n : w_ws z -> ix_ws (peek k) = false -> (length (z ++ k) <= n)%nat -> skip_ws (S n) (z ++ k) = IOk k.
Proof. intros Hz Hk Hn. apply skip_ws_spec; [exact Hz|exact Hk|]. rewrite app_length in Hn. lia. Qed.
Lemma skip_ws_id k n : ix_ws (peek k) = false -> skip_ws (S n) k = IOk k.
Proof. intros H. cbn [skip_ws]. now rewrite H. Qed.
Lemma range_start_string cs s z k : w_string cs s -> w_ws z -> ix_ws (peek k) = false -> (peek k =? cMINUS) = false -> range_start (s ++ z ++ k) = IOk false.
Proof.
  intros Hs Hz K1 K2. destruct Hs as [q cs Hq Hcs]. change (Forall char_ok cs) in Hcs. unfold range_start, skip_string. cbn [app peek hd tl]. replace (ix_quote q) with true by (unfold quote in Hq; charb).
  rewrite <- app_assoc. cbn [app]. destruct (skip_to_string q cs Hq Hcs (z ++ k)) as [-> |(r & ->)].
  - rewrite skip_ws_one; [|exact Hz|exact K1|repeat (cbn [length]; rewrite ?app_length); lia]. cbn [ibind]. now rewrite K2.
  - rewrite skip_ws_id; [|cbn [peek hd]; unfold quote in Hq; charb]. cbn [ibind peek hd]. f_equal. unfold quote in Hq. charb.
Qed.
Lemma range_start_hex c s z k : w_hex c s -> w_ws z -> ix_ws (peek k) = false -> ix_hex (peek k) = false -> range_start (s ++ z ++ k) = IOk (peek k =? cMINUS).
Proof.
  intros Hs Hz K1 K2. apply hex_is in Hs as (ds & -> & Hd1 & Hd2 & Hv & Hc). unfold range_start, encoded_start, skip_tmark, skip_encoded. cbn [app peek hd tl].
  change (ix_quote 35) with false. change (ix_tmark 35) with false. cbn iota. cbn [peek hd]. change (35 =? cHASH) with true. cbn iota.
  assert (F : ix_hex (peek (z ++ k)) = false) by (apply ws_then; [exact Hz|apply ws_not_hex|exact K2]).
  destruct (take_while_all ix_hex ds (z ++ k) Hd2 F) as (_ & ->). rewrite skip_ws_one; [reflexivity|exact Hz|exact K1|]. cbn [length]. rewrite !app_length. lia.
Qed.
Lemma range_start_end a s z k : w_end true a s -> w_ws z -> (peek k =? cMINUS) = true -> range_start (s ++ z ++ k) = IOk true.
Proof.
  intros Hs Hz K. assert (K1 : ix_ws (peek k) = false) by charb. remember true as f. destruct Hs as [f q c Hq Hc Hn Hf|f c s Hs]; subst f.
  - unfold range_start, skip_string. cbn [app peek hd tl]. replace (ix_quote q) with true by (unfold quote in Hq; charb). rewrite <- app_assoc. cbn [app].
    rewrite skip_to_char; [|exact Hq|split; assumption|auto]. rewrite skip_ws_one; [|exact Hz|exact K1|repeat (cbn [length]; rewrite ?app_length); lia]. cbn [ibind]. now rewrite K.
  - rewrite (range_start_hex c); [now rewrite K|exact Hs|exact Hz|exact K1|charb].
Qed.
Lemma end_string q c : quote q -> code_ok c -> c <> 0%Z -> w_string [c] (q :: w_char q c ++ [q]).
Proof.
  intros Hq Hc Hn. replace (w_char q c ++ [q]) with (List.concat (map (w_char q) [c]) ++ [q]) by (cbn [map List.concat]; now rewrite app_nil_r).
  apply w_str; [exact Hq|]. apply Forall_cons; [split; assumption|apply Forall_nil].
Qed.
Definition end_mark (e : range_end) (g : gst) : gst := if end_hex e then set_mark 0 g else g.
Lemma ws_not_quote c : ix_ws c = true -> ix_quote c = false. Proof. charb. Qed.
Lemma parse_range_end_spec f a s z k g : w_end f a s -> w_ws z -> ix_ws (peek k) = false -> ix_hex (peek k) = false -> ix_quote (peek k) = false ->
  exists r, parse_range_end (s ++ z ++ k) g = IOk (end_code a, r, end_mark a g) /\ parse_ws r = IOk k.
Proof.
  intros Hs Hz K1 K2 K3. destruct Hs as [f q c Hq Hc Hn Hf|f c s Hs]; unfold parse_range_end.
  - exists (z ++ k). split; [|now apply parse_ws_spec]. assert (P : ix_quote (peek ((q :: w_char q c ++ [q]) ++ z ++ k)) = true) by (cbn [app peek hd]; unfold quote in Hq; charb). rewrite P.
    rewrite (parse_string_spec [c]); [reflexivity|now apply end_string|apply ws_then; [exact Hz|apply ws_not_quote|exact K3]].
  - exists k. split; [|now apply parse_ws_id]. destruct (hex_first c s Hs) as (r & E). assert (P : ix_quote (peek (s ++ z ++ k)) = false) by (subst s; reflexivity). rewrite P.
    change (s ++ z ++ k) with ([] ++ s ++ z ++ k). rewrite (parse_encoded_spec 0 [] c); try assumption; [reflexivity|apply wt_none].
Qed.
Definition members_mark (hex : bool) (g : gst) : gst := if hex then set_mark 0 g else g.
Lemma end_starts f b s r : w_end f b s -> ix_ws (peek (s ++ r)) = false /\ (ix_quote (peek (s ++ r)) || encoded_start (s ++ r)) = true.
Proof.
  intros Hs. destruct Hs as [f q c Hq Hc Hn Hf|f c s Hs].
  - cbn [app peek hd]. unfold quote in Hq. split; [charb|]. apply orb_true_iff. left. charb.
  - destruct (hex_first c s Hs) as (x & ->). split; reflexivity.
Qed.
Lemma set_mark_twice g : set_mark 0 (set_mark 0 g) = set_mark 0 g. Proof. reflexivity. Qed.
Lemma after_member_facts c : after_member c -> ix_ws c = false /\ ix_hex c = false /\ ix_quote c = false /\ (c =? cMINUS) = false /\ in_range 97 122 c = false /\ (c =? 67) = false /\ c <> 0.
Proof. intros [-> |[-> | ->]]; repeat split; try reflexivity; discriminate. Qed.
Lemma ws_not_code c : ix_ws c = true -> in_range 97 122 c || (c =? 67) = false. Proof. charb. Qed.
Lemma parse_part_spec m s k g : w_member m s -> after_member (peek k) -> parse_part (s ++ k) g = IOk (member_parts m, k, members_mark (member_hex m) g).
Proof.
  intros Hs Hk. destruct (after_member_facts _ Hk) as (K1 & K2 & K3 & K4 & K5 & K6 & K7). unfold parse_part.
  destruct Hs as [cs s z Hs Hz|a b s1 s2 z1 z2 z3 H1 H2 Hz1 Hz2 Hz3|c s z Hs Hz|n z Hn Hz].
  - rewrite <- app_assoc. rewrite (range_start_string cs); try assumption. cbn [ibind]. destruct (string_first cs s Hs) as (q & r & E & Hq).
    assert (P : encoded_start (s ++ z ++ k) = false /\ code_start (s ++ z ++ k) = O /\ ix_quote (peek (s ++ z ++ k)) = true).
    { subst s. unfold encoded_start, skip_tmark, code_start. cbn [app peek hd]. replace (ix_tmark q) with false by charb. cbn [peek hd].
      split; [charb|]. replace (in_range 65 90 q) with false by charb. auto. }
    destruct P as (P1 & P2 & P3). rewrite P1, P2, P3. rewrite (parse_string_spec cs); [|exact Hs|apply ws_then; [exact Hz|apply ws_not_quote|exact K3]].
    cbn [ibind]. rewrite parse_ws_spec; [|exact Hz|exact K1]. reflexivity.
  - change (B "-") with [45]. rewrite <- !app_assoc. rewrite (range_start_end a); [|exact H1|exact Hz1|reflexivity]. cbn [ibind]. unfold parse_range.
    destruct (parse_range_end_spec true a s1 z1 ([45] ++ z2 ++ s2 ++ z3 ++ k) g H1 Hz1 eq_refl eq_refl eq_refl) as (r & -> & Hr). cbn [ibind]. rewrite Hr. cbn [ibind app peek hd tl].
    change (45 =? cMINUS) with true. cbn [negb]. destruct (end_starts false b s2 (z3 ++ k) H2) as (E1 & E2).
    rewrite parse_ws_spec; [|exact Hz2|exact E1]. cbn [ibind]. fold (peek (s2 ++ z3 ++ k)). rewrite E2.
    destruct (parse_range_end_spec false b s2 z3 k (end_mark a g) H2 Hz3 K1 K2 K3) as (r2 & -> & Hr2). cbn [ibind]. rewrite Hr2. cbn [ibind member_parts].
    do 2 f_equal. unfold members_mark, end_mark. cbn [member_hex]. destruct (end_hex a), (end_hex b); reflexivity.
  - rewrite <- app_assoc. rewrite (range_start_hex c); try assumption. rewrite K4. cbn [ibind]. destruct (hex_first c s Hs) as (r & E).
    assert (P : encoded_start (s ++ z ++ k) = true) by (subst s; reflexivity). rewrite P.
    change (s ++ z ++ k) with ([] ++ s ++ z ++ k). rewrite (parse_encoded_spec 0 [] c); try assumption; [reflexivity|apply wt_none].
  - apply category_is in Hn. destruct (category_name n Hn) as (c & l & E & Hc & Hl & Hlen). rewrite <- app_assoc.
    assert (F : in_range 97 122 (peek (z ++ k)) || (peek (z ++ k) =? 67) = false).
    { apply (ws_then (fun c => in_range 97 122 c || (c =? 67))); [exact Hz|apply ws_not_code|]. now rewrite K5, K6. }
    assert (P : range_start (n ++ z ++ k) = IOk false /\ encoded_start (n ++ z ++ k) = false).
    { subst n. unfold range_start, encoded_start, skip_tmark. cbn [app peek hd]. replace (ix_quote c) with false by charb. replace (ix_tmark c) with false by charb. cbn [peek hd].
      replace (c =? cHASH) with false by charb. auto. }
    destruct P as (P1 & P2). rewrite P1. cbn [ibind]. rewrite P2.
    assert (L : exists j, code_start (n ++ z ++ k) = S j /\ length n = S j).
    { subst n. unfold code_start, peek1. cbn [app peek hd tl]. rewrite Hc. destruct l as [|d [|e l]].
      - cbn [app]. fold (peek (z ++ k)). rewrite F. exists 0%nat. auto.
      - cbn [app hd]. cbn [forallb] in Hl. rewrite andb_true_r in Hl. rewrite Hl. exists 1%nat. auto.
      - cbn [length] in Hlen. lia. }
    destruct L as (j & L1 & L2). rewrite L1. rewrite <- L2, firstn_app, firstn_all, Nat.sub_diag, firstn_O, app_nil_r.
    destruct (category_parts n) as [ts|] eqn:Ec; [|now elim Hn]. rewrite skipn_app, skipn_all, Nat.sub_diag. cbn [skipn app]. rewrite parse_ws_spec; [|exact Hz|exact K1]. reflexivity.
Qed.
Lemma member_first m s : w_member m s -> exists c r, s = c :: r /\ c <> 0 /\ ix_ws c = false.
Proof.
  destruct 1 as [cs s z Hs Hz|a b s1 s2 z1 z2 z3 H1 H2 Hz1 Hz2 Hz3|c s z Hs Hz|n z Hn Hz].
  - destruct (string_first cs s Hs) as (q & r & -> & Hq). exists q, (r ++ z). split; [reflexivity|]. split; charb.
  - remember true as f. destruct H1 as [f q c Hq Hc Hne Hf|f c s Hs].
    + eexists q, _. split; [reflexivity|]. unfold quote in Hq. split; charb.
    + destruct (hex_first c s Hs) as (x & ->). eexists _, _. split; [reflexivity|]. split; [discriminate|reflexivity].
  - destruct (hex_first c s Hs) as (x & ->). eexists _, _. split; [reflexivity|]. split; [discriminate|reflexivity].
  - apply category_is in Hn. destruct (category_name n Hn) as (c & l & -> & Hc & _). exists c, (l ++ z). split; [reflexivity|]. split; charb.
Qed.
Lemma members_first ms s k : w_members ms s -> ix_ws (peek (s ++ 93 :: k)) = false /\ eob (s ++ 93 :: k) = false.
Proof.
  unfold eob. destruct 1 as [|m s Hs|m ms s c z r Hs Hc Hz Hms Hr]; [split; reflexivity| |]; destruct (member_first m s Hs) as (x & l & -> & H0 & Hw); cbn [app peek hd]; (split; [exact Hw|lia]).
Qed.
Lemma members_mark_or a b g : members_mark b (members_mark a g) = members_mark (a || b) g.
Proof. destruct a, b; reflexivity. Qed.
Lemma parts_loop_spec ms s : w_members ms s -> forall k g fuel, (length s < fuel)%nat ->
  parts_loop fuel (s ++ 93 :: k) g = IOk (set_parts ms, 93 :: k, members_mark (existsb member_hex ms) g).
Proof.
  induction 1 as [|m s Hs|m ms s c z r Hs Hc Hz Hms Hr IH]; intros k g fuel Hf; (destruct fuel as [|f]; [lia|]).
  - reflexivity.
  - destruct (members_first [m] s k) as (_ & E); [now apply ws_one|]. cbn [parts_loop]. rewrite E. rewrite (parse_part_spec m); [|exact Hs|right; right; reflexivity].
    cbn [ibind]. change (peek (93 :: k) =? 93) with true. cbn iota. unfold set_parts. cbn [flat_map existsb]. now rewrite app_nil_r, orb_false_r.
  - destruct (members_first (m :: ms) (s ++ c :: z ++ r) k) as (_ & E); [now apply ws_more|]. cbn [parts_loop]. rewrite E. rewrite <- app_assoc in *. cbn [app] in *.
    rewrite (parse_part_spec m); [|exact Hs|cbn [peek hd]; unfold sep in Hc; unfold after_member; tauto]. cbn [ibind peek hd]. replace (c =? 93) with false by (unfold sep in Hc; lia).
    replace (ix_alt_end c) with true by (unfold sep in Hc; charb). cbn [tl]. rewrite <- app_assoc. destruct (members_first ms r k Hr) as (W & _). rewrite parse_ws_spec; [|exact Hz|exact W]. cbn [ibind].
    rewrite app_length in Hf. cbn [length] in Hf. rewrite app_length in Hf. rewrite IH by lia. cbn [ibind]. unfold set_parts. cbn [flat_map existsb]. now rewrite members_mark_or.
Qed.
