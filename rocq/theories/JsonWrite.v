(** The JSON that the writer prints for the document of a JSON value. *)
From Coq Require Import NArith ZArith List Bool Arith Lia String.
From Verif Require Import Bytes BytesFacts Utf8 Utf8Proofs Outcome Quote Parser Dom Json JsonPrint JsonSpec CQuote CQuoteProofs JsonProofs JsonRead.
Import ListNotations.
Local Open Scope N_scope.
Local Open Scope jprint_scope.

(** ** What is printed *)
Definition cq (s : bytes) : bytes := match quote_as_c s [0] false with Ok o => o | _ => [] end.
Definition commas (l : list bytes) : bytes :=
  match l with [] => [] | x :: r => x ++ List.concat (map (fun y => 44 :: y) r) end.
Definition show_key (k : bytes) : bytes := 34 :: (if is_element_name k then k else cq k) ++ [34; 58].
Fixpoint show (v : jv) : bytes :=
  match v with
  | JNull => B "null"
  | JBool true => B "true"
  | JBool false => B "false"
  | JNum t => t
  | JStr s => 34 :: cq s ++ [34]
  | JArr l => 91 :: commas (map show l) ++ [93]
  | JObj l => 123 :: commas (map (fun kv => show_key (fst kv) ++ show (snd kv)) l) ++ [125]
  end.

Lemma good_chars us : Forall good_char us -> Forall (fun u => 0 < u <= 0x10ffff) us.
Proof. intros H. eapply Forall_impl; [|exact H]. intros u [[A _] D]. cbn in D. lia. Qed.
Lemma quote_as_c_out us q : Forall good_char us -> quote_as_c (List.concat (map utf8_spec us)) [0] q
  = Ok ((if q then [cDQ] else []) ++ List.concat (map quoted_char us) ++ (if q then [cDQ] else [])).
Proof.
  intros H. apply good_chars in H. unfold quote_as_c. destruct us as [|u us]; [destruct q; reflexivity|].
  destruct (List.concat (map utf8_spec (u :: us))) eqn:E.
  - exfalso. cbn in E. destruct (peek_spec u [] ltac:(apply Forall_inv in H; lia)) as (c & t & X & _). rewrite X in E. discriminate E.
  - rewrite <- E. rewrite quote_c_out by assumption. reflexivity.
Qed.
Lemma put_c_out s c : good_text s -> put_c s false c = JP (cq s) (List.last (cq s) c).
Proof. intros (us & -> & F). unfold put_c, cq. rewrite quote_as_c_out by auto. reflexivity. Qed.
Lemma utf8_ascii u : u < 128 -> utf8_spec u = [u].
Proof. intros H. unfold utf8_spec. destruct (N.ltb_spec u 0x80); [reflexivity|lia]. Qed.
Lemma cq_text s : good_text s -> string_text false (cq s) s.
Proof.
  intros (us & -> & F). unfold cq. rewrite quote_as_c_out by auto. cbn [app]. rewrite app_nil_r.
  induction F as [|u us H F IH]; [constructor|]. cbn [map List.concat]. unfold quoted_char at 1. destruct H as [C D].
  destruct (N.ltb_spec u 128) as [L|L].
  - rewrite (utf8_ascii u L). cbn [app]. unfold escape_c.
    destruct (N.eqb_spec u cDQ) as [->|Q]; [apply st_escape; [cbn; tauto|exact IH]|].
    destruct (N.eqb_spec u cBSL) as [->|S1]; [apply st_escape; [cbn; tauto|exact IH]|].
    unfold cDQ, cBSL in Q, S1. cbn [negb]. rewrite !andb_true_r.
    destruct D as [[D1 D2]|D].
    + replace ((32 <=? u) && (u <=? 126)) with true by (symmetry; apply andb_true_iff; rewrite !N.leb_le; lia).
      pose proof (st_char false u _ _ C D1 Q S1 IH) as X. rewrite (utf8_ascii u L) in X. exact X.
    + cbn in D. repeat (destruct D as [D|D]; [subst u; cbn; apply st_escape; [cbn; tauto|exact IH]|]). contradiction.
  - apply st_char; auto; try lia.
Qed.
Lemma name_text n : forallb is_xmq_text_name n = true -> string_text false n n.
Proof.
  induction n as [|c n IH]; intros H; [constructor|]. cbn [forallb] in H. rewrite andb_true_iff in H. destruct H as [Hc H].
  assert (R : 35 <= c <= 122 /\ c <> 92).
  { unfold is_xmq_text_name, in_range in Hc. rewrite !orb_true_iff, !andb_true_iff, !N.leb_le, !N.eqb_eq in Hc.
    unfold cMINUS, cUND, cDOT, cCOLON, cHASH in Hc. lia. }
  pose proof (st_char false c n n) as X. rewrite (utf8_ascii c) in X by lia. cbn [app] in X. apply X; auto; try lia.
  unfold character, surrogate. lia.
Qed.
Lemma element_name_text n : is_element_name n = true -> forallb is_xmq_text_name n = true.
Proof.
  destruct n as [|c n]; [discriminate|]. cbn. rewrite !andb_true_iff. intros [H ->]. split; auto.
  unfold is_xmq_element_start, is_xmq_text_name in *. rewrite !orb_true_iff in *. tauto.
Qed.
Lemma key_text k : plain_key k -> exists q, show_key k = 34 :: q ++ [34; 58] /\ string_text false q k.
Proof.
  intros (G & _). unfold show_key. destruct (is_element_name k) eqn:E.
  - exists k. split; auto. apply name_text, element_name_text, E.
  - exists (cq k). split; auto. now apply cq_text.
Qed.

(** ** What is printed denotes the value *)
Lemma ws_nil : ws [].
Proof. constructor. Qed.
Lemma after_nil v : after false v [].
Proof. split; [constructor|]. right. destruct v; exact I. Qed.
Fixpoint depth (v : jv) : nat :=
  match v with
  | JArr l => S (fold_right (fun y m => Nat.max (depth y) m) 0%nat l)
  | JObj l => S (fold_right (fun y m => Nat.max (depth (snd y)) m) 0%nat l)
  | _ => 1%nat
  end.
Lemma depth_in v l : In v l -> (depth v <= fold_right (fun y m => Nat.max (depth y) m) 0%nat l)%nat.
Proof. induction l as [|x l IH]; [intros []|]. intros [->|H]; cbn; [lia|]. apply IH in H. lia. Qed.
Lemma depth_in2 kv l : In kv l -> (depth (snd kv) <= fold_right (fun (y : bytes * jv) m => Nat.max (depth (snd y)) m) 0%nat l)%nat.
Proof. induction l as [|x l IH]; [intros []|]. intros [->|H]; cbn; [lia|]. apply IH in H. lia. Qed.
Lemma elements_commas l : l <> [] -> Forall (fun v => value_text false (show v) v) l -> elements_text false (commas (map show l)) l.
Proof.
  intros N F. induction F as [|v l H F IH]; [congruence|]. destruct l as [|v2 l].
  - cbn. pose proof (et_one false [] (show v) [] v ws_nil H (after_nil v)) as X. cbn in X. exact X.
  - cbn [map commas List.concat]. specialize (IH ltac:(discriminate)).
    pose proof (et_more false [] (show v) [] v _ _ ws_nil H (after_nil v) IH) as X. cbn [app] in X. exact X.
Qed.
Definition show_member (kv : bytes * jv) : bytes := show_key (fst kv) ++ show (snd kv).
Lemma members_commas l : l <> [] -> Forall (fun kv => plain_key (fst kv) /\ value_text false (show (snd kv)) (snd kv)) l ->
  members_text false (commas (map show_member l)) l.
Proof.
  intros N F. induction F as [|[k v] l [K H] F IH]; [congruence|]. cbn [fst snd] in K, H. destruct (key_text k K) as (q & Eq & Q). destruct l as [|v2 l].
  - cbn [map commas List.concat]. rewrite app_nil_r. unfold show_member. cbn [fst snd]. rewrite Eq.
    pose proof (mt_one false [] q k [] [] (show v) [] v ws_nil Q ws_nil ws_nil H (after_nil v)) as X. cbn [app] in X. rewrite app_nil_r in X.
    cbn [app]. rewrite <- app_assoc. exact X.
  - cbn [map commas List.concat]. specialize (IH ltac:(discriminate)). unfold show_member at 1. cbn [fst snd]. rewrite Eq.
    pose proof (mt_more false [] q k [] [] (show v) [] v _ _ ws_nil Q ws_nil ws_nil H (after_nil v) IH) as X. cbn [app] in X.
    cbn [app]. rewrite <- !app_assoc. exact X.
Qed.
Lemma show_text h : forall v, (depth v <= h)%nat -> good v -> value_text false (show v) v.
Proof.
  induction h as [|h IH]; intros v D G; [destruct v; cbn in D; lia|]. destruct G as [|b|t T Z|s T|l G|l N G]; cbn [show].
  - constructor.
  - destruct b; constructor.
  - constructor; auto.
  - constructor. now apply cq_text.
  - destruct l as [|v l]; [apply (vt_arr0 false []); constructor|]. apply vt_arr, elements_commas; [discriminate|].
    rewrite Forall_forall in *. intros x I. apply IH; auto. cbn [depth] in D. apply depth_in in I. lia.
  - destruct l as [|v l]; [apply (vt_obj0 false []); constructor|]. apply vt_obj. apply members_commas; [discriminate|].
    rewrite Forall_forall in *. intros x I. destruct (G x I) as (K & Gx & _). split; auto. apply IH; auto. cbn [depth] in D. apply depth_in2 in I. lia.
Qed.

(** ** Printing *)
Definition closed (c : N) : Prop := c <> 0 /\ c <> 123 /\ c <> 91 /\ c <> 44.
Definition sep (c : N) : bytes := match check_comma c with JP o _ => o | _ => [] end.
Definition sepc (c : N) : N := match check_comma c with JP _ d => d | _ => c end.
Lemma comma_sep c : check_comma c = JP (sep c) (sepc c).
Proof. unfold sep, sepc, check_comma. destruct (c =? 0); [reflexivity|]. now destruct (negb _ && _ && _). Qed.
Lemma sep_closed c : closed c -> sep c = [44] /\ sepc c = 44.
Proof.
  intros (H0 & H1 & H2 & H3). unfold sep, sepc, check_comma. destruct (N.eqb_spec c 0); [contradiction|].
  unfold cLB, cLBK, cCOMMA in *. destruct (N.eqb_spec c 123); [contradiction|]. destruct (N.eqb_spec c 91); [contradiction|]. destruct (N.eqb_spec c 44); [contradiction|]. auto.
Qed.
Lemma sep_again c : sep (sepc c) = [] /\ sepc (sepc c) = sepc c.
Proof.
  unfold sep, sepc, check_comma. destruct (N.eqb_spec c 0) as [->|]; [auto|].
  destruct (negb (c =? cLB) && negb (c =? cLBK) && negb (c =? cCOMMA)) eqn:E; [auto|]. cbn. rewrite E. destruct (c =? 0); auto.
Qed.
Lemma jseq_ok f g c o c1 o' c2 : f c = JP o c1 -> g c1 = JP o' c2 -> (f ;; g) c = JP (o ++ o') c2.
Proof. intros H1 H2. unfold jseq. now rewrite H1, H2. Qed.
Lemma put_ok o c : put o c = JP o (List.last o c).
Proof. reflexivity. Qed.

(** The loops print a comma before every item but the first. *)
Lemma each_ok {A} (f : list node -> node -> jprint) (g : A -> node) (t : A -> bytes) l : forall before c,
  (forall b x c, In x l -> exists d, f b (g x) c = JP (sep c ++ t x) d /\ closed d) ->
  exists d, each f before (map g l) c = JP (match l with [] => [] | _ => sep c end ++ commas (map t l)) d.
Proof.
  induction l as [|x l IH]; intros before c H; [exists c; split; auto|].
  destruct (H before x c (or_introl eq_refl)) as (d & E & Cd). cbn [map each].
  destruct (IH (before ++ [g x]) d) as (d2 & E2); [intros b y c0 I; apply H; now right|].
  exists d2. rewrite (jseq_ok _ _ _ _ _ _ _ E E2). f_equal. cbn [map commas]. rewrite <- app_assoc. do 2 f_equal.
  destruct l as [|y l]; [reflexivity|]. destruct (sep_closed d Cd) as [-> _]. cbn [map commas List.concat]. reflexivity.
Qed.

Lemma last_default (l : bytes) c d : l <> [] -> List.last l c = List.last l d.
Proof. induction l as [|x l IH]; [congruence|]. intros _. destruct l; [reflexivity|]. cbn in *. apply IH. discriminate. Qed.
Lemma string_out t force c : good_text t -> (force = true \/ need_string_type t = false) ->
  exists d, json_value [Part (PText t)] force c = JP (34 :: cq t ++ [34]) d /\ closed d.
Proof.
  intros G H. cbn [json_value]. replace (negb force && (json_is_number t || json_is_keyword t)) with false.
  2: { symmetry. destruct H as [->|H]; [reflexivity|]. unfold need_string_type in H. rewrite orb_comm, H. apply andb_false_r. }
  destruct t as [|x t].
  - exists 34. split; [reflexivity|]. repeat split; discriminate.
  - exists 34. split; [|repeat split; discriminate]. change (34 :: cq (x :: t) ++ [34]) with ([34] ++ cq (x :: t) ++ [34]). eapply jseq_ok; [reflexivity|].
    eapply jseq_ok; [now apply put_c_out|reflexivity].
Qed.
Lemma word_out t c : need_string_type t = true -> closed (List.last t 0) -> exists d, json_value [Part (PText t)] false c = JP t d /\ closed d.
Proof.
  intros H C. cbn [json_value]. unfold need_string_type in H. rewrite orb_comm in H. rewrite H. cbn [negb andb].
  exists (List.last t c). split; [reflexivity|]. rewrite (last_default t c 0); [exact C|]. intros ->. destruct C as [C _]. now apply C.
Qed.
Lemma number_last t : json_number t -> ~ zero_exp t -> closed (List.last t 0).
Proof.
  intros H Z. pose proof (number_shape t (number_whole t H Z)) as (_ & _ & D & _). unfold digit in D. unfold closed. lia.
Qed.

(** Where a value is printed: an item of an array or the root, or under a key. *)
Definition context (cont : bool) (k n : bytes) (a : list attr) (v : jv) : Prop :=
  cont = false /\ n = [95] /\ a = []
  \/ cont = true /\ n = key_name k /\ a = key_attrs k /\ plain_key k /\ (is_element_name k = false -> ~ empty_container v).
Definition prefix (cont : bool) (k : bytes) : bytes := if cont then show_key k else [].
Definition typed (more : list attr) : Prop := more = [] \/ more = [([83], [])] \/ more = [([65], [])].
Lemma context_attrs cont k n a v : context cont k n a v -> a = [] \/ a = [([95], [PText k])].
Proof.
  intros [(_ & _ & ->)|(_ & _ & -> & _)]; [now left|]. unfold key_attrs. destruct (is_element_name k); [now left|]. destruct k; [now left|now right].
Qed.
Lemma beq_false a b : a <> b -> beq a b = false.
Proof. intros H. destruct (beq a b) eqn:E; auto. apply beq_eq in E. contradiction. Qed.
Lemma parts_one t : parts_text [PText t] = t.
Proof. unfold parts_text. cbn. apply app_nil_r. Qed.
Lemma key_out cont k n (a : list attr) v (more : list attr) u c : context cont k n a v -> typed more ->
  exists d, (if cont then element_name n (a ++ more) 1 u ;; put [cCOLON] else nop) c = JP (prefix cont k) d.
Proof.
  intros [(-> & -> & ->)|(-> & -> & -> & K & _)] T; [eexists; reflexivity|]. unfold element_name, prefix, show_key, key_name, key_attrs.
  exists 58. destruct (is_element_name k) eqn:E.
  - assert (K95 : k <> [cUND]) by (intros ->; destruct K as (_ & _ & K & _); apply K; eexists; reflexivity).
    rewrite (beq_false k [cUND] K95). cbn [negb].
    change (34 :: k ++ [34; 58]) with ((34 :: k) ++ [34; 58]). replace ((34 :: k) ++ [34; 58]) with (([34] ++ k ++ [] ++ [34]) ++ [58]) by (cbn [app]; now rewrite <- app_assoc).
    eapply jseq_ok; [|reflexivity]. eapply jseq_ok; [reflexivity|]. eapply jseq_ok; [reflexivity|]. eapply jseq_ok; reflexivity.
  - change (beq [95] [cUND]) with true. cbn [negb].
    replace (34 :: cq k ++ [34; 58]) with (([34] ++ cq k ++ [] ++ [34]) ++ [58]) by (cbn [app]; now rewrite <- app_assoc).
    eapply jseq_ok; [|reflexivity]. eapply jseq_ok; [reflexivity|]. eapply (jseq_ok _ _ _ (cq k) (List.last (cq k) 34)); [|eapply jseq_ok; reflexivity].
    destruct k as [|x k].
    + destruct T as [->|[->| ->]]; reflexivity.
    + change (put_c (parts_text [PText (x :: k)]) false 34 = JP (cq (x :: k)) (List.last (cq (x :: k)) 34)).
      rewrite parts_one. apply put_c_out. apply K.
Qed.
Lemma key_names_count k l : NoDup (map fst l) -> In k (map fst l) -> k <> [95] -> is_element_name k = true ->
  count_name k (map member_dom l) = 1%nat.
Proof.
  intros N I K E. assert (NM : forall kv, node_name (member_dom kv) = key_name (fst kv)).
  { intros [x v]. unfold member_dom. cbn [fst snd]. destruct v as [|[|]| | | |]; reflexivity. }
  assert (Z : forall l, ~ In k (map fst l) -> filter (fun x => beq (node_name x) k) (map member_dom l) = []).
  { intros l0. induction l0 as [|kv l0 IH]; [reflexivity|]. cbn [map filter]. intros H. rewrite NM.
    replace (beq (key_name (fst kv)) k) with false; [apply IH; intros X; apply H; now right|]. symmetry. apply beq_false. unfold key_name.
    destruct (is_element_name (fst kv)); [|congruence]. intros X. apply H. now left. }
  unfold count_name. induction l as [|kv l IH]; [destruct I|]. cbn [map filter] in *. rewrite NM. inversion N as [|? ? N1 N2]; subst.
  destruct I as [I|I].
  - assert (Ek : key_name (fst kv) = k) by (unfold key_name; rewrite I, E; reflexivity). rewrite Ek.
    replace (beq k k) with true by (symmetry; now apply beq_eq). cbn [List.length]. rewrite Z by (rewrite <- I; exact N1). reflexivity.
  - rewrite beq_false; [now apply IH|]. unfold key_name. destruct (is_element_name (fst kv)); [|congruence]. intros X. apply N1. rewrite X. exact I.
Qed.
Lemma total_one kv l : NoDup (map fst l) -> In kv l -> plain_key (fst kv) -> total_of (member_dom kv) (map member_dom l) = 1%nat.
Proof.
  intros N I K. unfold total_of.
  assert (NM : node_name (member_dom kv) = key_name (fst kv)).
  { destruct kv as [x v]. unfold member_dom. cbn [fst snd]. destruct v as [|[|]| | | |]; reflexivity. }
  rewrite NM. unfold key_name. destruct (is_element_name (fst kv)) eqn:E; [|reflexivity].
  assert (K95 : fst kv <> [95]) by (intros X; destruct K as (_ & _ & K & _); apply K; rewrite X; eexists; reflexivity).
  rewrite beq_false by exact K95. apply key_names_count; auto. now apply in_map.
Qed.
Lemma other_plain (a more : list attr) k : a = [] \/ a = [([95], [PText k])] -> typed more -> other_attr (a ++ more) = false.
Proof. intros [->| ->] [->|[->| ->]]; reflexivity. Qed.
Lemma not_key_value {A} (g : A -> node) l : (forall x, is_part (g x) = false) -> is_key_value (map g l) = false.
Proof. intros H. destruct l; [reflexivity|]. cbn. rewrite H. destruct (map g l); reflexivity. Qed.
Lemma dom_elem n a v : is_part (dom n a v) = false.
Proof. destruct v as [|[|]| | | |]; reflexivity. Qed.
Lemma has_S (a : list attr) k (more : list attr) : a = [] \/ a = [([95], [PText k])] -> typed more -> has_attr (B "S") (a ++ more) = match more with [([83], _)] => true | _ => false end.
Proof. intros [->| ->] [->|[->| ->]]; reflexivity. Qed.
Lemma has_A (a : list attr) k (more : list attr) : a = [] \/ a = [([95], [PText k])] -> typed more -> has_attr (B "A") (a ++ more) = match more with [([65], _)] => true | _ => false end.
Proof. intros [->| ->] [->|[->| ->]]; reflexivity. Qed.
Lemma attributes_none a k c : a = [] \/ a = [([95], [PText k])] -> attributes a c = JP [] c.
Proof. intros [->| ->]; reflexivity. Qed.

Lemma scalar_out f cont k n (a : list attr) v (more : list attr) t c u : context cont k n a v -> typed more -> (more = [([65], [])] -> False) ->
  (forall c, exists d, json_value [Part (PText t)] (match more with [([83], _)] => true | _ => false end) c = JP (show v) d /\ closed d) ->
  exists d, json_node (S f) cont 1 u (Elem n (a ++ more) [Part (PText t)]) c = JP (sep c ++ prefix cont k ++ show v) d /\ closed d.
Proof.
  intros X T NA H. pose proof (context_attrs _ _ _ _ _ X) as A. cbn [json_node is_key_value forallb is_part andb].
  rewrite (other_plain a more k) by auto. cbn [negb andb]. rewrite (has_S a k more) by auto.
  destruct (key_out cont k n a v more u (sepc c) X T) as (d1 & E1). destruct (H d1) as (d2 & E2 & C).
  exists d2. split; [|exact C]. eapply jseq_ok; [apply comma_sep|]. eapply jseq_ok; [exact E1|exact E2].
Qed.

Lemma null_out k n (a : list attr) v cont u c t f : context cont k n a v -> need_string_type t = true -> closed (List.last t 0) -> show v = t ->
  exists d, json_node (S f) cont 1 u (Elem n a [Part (PText t)]) c = JP (sep c ++ prefix cont k ++ show v) d /\ closed d.
Proof.
  intros X N C E. rewrite <- (app_nil_r a). apply scalar_out; auto; [now left|discriminate|]. intros c0. rewrite E. now apply word_out.
Qed.
Lemma node_out h : forall v cont k n (a : list attr) u c, (depth v <= h)%nat -> good v -> context cont k n a v -> (cont = false -> u = 0%nat) ->
  exists d, json_node h cont 1 u (dom n a v) c = JP (sep c ++ prefix cont k ++ show v) d /\ closed d.
Proof.
  induction h as [|h IH]; intros v cont k n a u c D G X U; [destruct v; cbn in D; lia|].
  pose proof (context_attrs _ _ _ _ _ X) as A. destruct G as [|b|t T Z|s T|l G|l N G].
  - apply (null_out k n a JNull); auto. repeat split; discriminate.
  - destruct b; apply (null_out k n a (JBool _)); auto; repeat split; discriminate.
  - apply (null_out k n a (JNum t)); auto; [|now apply number_last]. unfold need_string_type. rewrite number_whole by auto. apply orb_true_r.
  - cbn [dom]. apply scalar_out; auto.
    + destruct (need_string_type s); [right; now left|now left].
    + destruct (need_string_type s); discriminate.
    + intros c0. cbn [show]. apply string_out; auto. destruct (need_string_type s); [now left|now right].
  - cbn [dom show]. assert (TA : typed [([65], [])]) by (right; now right).
    assert (I0 : forall c0, exists d, each (fun _ y => check_comma ;;
        match y with
        | Elem _ b l => if has_attr (B "S") b then json_value l true else json_node h false 1 0 y
        | _ => json_node h false 1 0 y
        end) [] (map (dom [95] []) l) c0 = JP (match l with [] => [] | _ => sep c0 end ++ commas (map show l)) d).
    { intros c0. apply each_ok. intros _ x c1 I. rewrite Forall_forall in G.
      assert (Gx := G x I). assert (Dx : (depth x <= h)%nat) by (cbn [depth] in D; apply depth_in in I; lia).
      destruct (IH x false [] [95] [] 0%nat (sepc c1) Dx Gx) as (d & E & Cd); [left; auto|auto|].
      destruct (sep_again c1) as [S1 S2]. rewrite S1 in E. cbn [app prefix] in E.
      assert (Or : forall g, g (sepc c1) = JP (show x) d -> exists d0, (check_comma ;; g) c1 = JP (sep c1 ++ show x) d0 /\ closed d0).
      { intros g Hg. exists d. split; [|exact Cd]. eapply jseq_ok; [apply comma_sep|exact Hg]. }
      destruct x as [|b|t|s|l0|l0]; [..|now apply Or|]; try (destruct b); try (now apply Or).
      cbn [dom app]. destruct (need_string_type s) eqn:Es; [|apply Or; cbn [dom app] in E; rewrite Es in E; exact E].
      change (has_attr (B "S") [([83], [])]) with true. cbv iota. inversion Gx; subst.
      destruct (string_out s true (sepc c1)) as (d2 & E2 & C2); auto. exists d2. split; [|exact C2]. eapply jseq_ok; [apply comma_sep|exact E2]. }
    destruct l as [|v l].
    + cbn [map json_node is_key_value andb]. rewrite (has_A a k [([65], [])]) by auto. cbv iota.
      destruct X as [(-> & -> & ->)|(-> & -> & -> & K & Em)].
      * exists 93. split; [|repeat split; discriminate]. eapply jseq_ok; [apply comma_sep|]. reflexivity.
      * assert (X : context true k (key_name k) (key_attrs k) (JArr [])) by (right; auto).
        destruct (key_out true k _ _ (JArr []) [([65], [])] u (sepc c) X TA) as (d1 & E1).
        unfold leaf_node. rewrite (has_A (key_attrs k) k [([65], [])]) by auto. cbv iota.
        assert (Ek : is_element_name k = true) by (destruct (is_element_name k) eqn:E; auto; exfalso; apply Em; auto; now left).
        assert (K95 : key_name k <> [cUND]) by (unfold key_name; rewrite Ek; intros ->; destruct K as (_ & _ & K & _); apply K; eexists; reflexivity).
        rewrite (beq_false _ _ K95). exists 93. split; [|repeat split; discriminate].
        eapply jseq_ok; [apply comma_sep|]. eapply jseq_ok; [exact E1|reflexivity].
    + cbn [json_node]. rewrite not_key_value by (intros; apply dom_elem). cbn [andb]. rewrite (has_A a k [([65], [])]) by auto. cbn [map] in *.
      destruct (key_out cont k n a (JArr (v :: l)) [([65], [])] 0%nat (sepc c) X TA) as (d1 & E1).
      destruct (I0 91) as (d2 & E2). exists 93. split; [|repeat split; discriminate].
      replace (91 :: commas (show v :: map show l) ++ [93]) with ([91] ++ (sep 91 ++ commas (show v :: map show l)) ++ [93]) by reflexivity.
      eapply jseq_ok; [apply comma_sep|]. eapply jseq_ok; [exact E1|]. eapply jseq_ok; [reflexivity|]. eapply jseq_ok; [exact E2|reflexivity].
  - change (dom n a (JObj l)) with (Elem n a (map member_dom l)). change (show (JObj l)) with (123 :: commas (map show_member l) ++ [125]).
    assert (I0 : forall c0, exists d, each (fun before y => json_node h true (total_of y (map member_dom l)) (used_of y before) y) [] (map member_dom l) c0
       = JP (match l with [] => [] | _ => sep c0 end ++ commas (map show_member l)) d).
    { intros c0. apply each_ok. intros b x c1 I. rewrite Forall_forall in G. destruct (G x I) as (Kx & Gx & Ex).
      rewrite (total_one x l N I Kx). apply (IH (snd x) true (fst x) (key_name (fst x)) (key_attrs (fst x))); auto.
      - cbn [depth] in D. apply depth_in2 in I. lia.
      - right. auto.
      - discriminate. }
    destruct l as [|v l].
    + cbn [map json_node is_key_value andb]. pose proof (has_A a k [] A (or_introl eq_refl)) as HA. rewrite app_nil_r in HA. rewrite HA. cbv iota.
      destruct X as [(-> & -> & ->)|(-> & -> & -> & K & Em)].
      * exists 125. split; [|repeat split; discriminate]. eapply jseq_ok; [apply comma_sep|]. reflexivity.
      * assert (X : context true k (key_name k) (key_attrs k) (JObj [])) by (right; auto).
        destruct (key_out true k _ _ (JObj []) [] u (sepc c) X (or_introl eq_refl)) as (d1 & E1). rewrite app_nil_r in E1.
        unfold leaf_node. rewrite HA. cbv iota.
        assert (Ek : is_element_name k = true) by (destruct (is_element_name k) eqn:E; auto; exfalso; apply Em; auto; now right).
        assert (K95 : key_name k <> [cUND]) by (unfold key_name; rewrite Ek; intros ->; destruct K as (_ & _ & K & _); apply K; eexists; reflexivity).
        rewrite (beq_false _ _ K95). exists 125. split; [|repeat split; discriminate].
        assert (Ea : key_attrs k = []) by (unfold key_attrs; now rewrite Ek). rewrite Ea in *.
        eapply jseq_ok; [apply comma_sep|]. eapply jseq_ok; [exact E1|reflexivity].
    + cbn [json_node]. rewrite not_key_value by (intros; apply dom_elem). cbn [andb].
      pose proof (has_A a k [] A (or_introl eq_refl)) as HA. rewrite app_nil_r in HA. rewrite HA. cbv iota.
      destruct (key_out cont k n a (JObj (v :: l)) [] u (sepc c) X (or_introl eq_refl)) as (d1 & E1). rewrite app_nil_r in E1.
      assert (Nm : negb cont && negb (beq n [cUND]) = false) by (destruct X as [(-> & -> & ->)|(-> & _)]; reflexivity).
      rewrite Nm. destruct (I0 123) as (d2 & E2). exists 125. split; [|repeat split; discriminate].
      replace (123 :: commas (map show_member (v :: l)) ++ [125]) with ([123] ++ [] ++ [] ++ (sep 123 ++ commas (map show_member (v :: l))) ++ [125]) by reflexivity.
      eapply jseq_ok; [apply comma_sep|]. eapply jseq_ok; [exact E1|]. eapply jseq_ok; [reflexivity|]. eapply jseq_ok; [reflexivity|].
      eapply jseq_ok; [apply (attributes_none a k); exact A|]. eapply jseq_ok; [exact E2|reflexivity].
Qed.

(** ** The whole document *)
Lemma fixup_dom h : forall v n a, (depth v <= h)%nat -> fixup_json (dom n a v) = Some (dom n a v).
Proof.
  induction h as [|h IH]; intros v n a D; [destruct v; cbn in D; lia|]. destruct v as [|[|]|t|s|l|l]; try reflexivity.
  - cbn [dom fixup_json]. replace (collapse_text (map (dom [95] []) l)) with NoCollapse.
    2: { destruct l as [|v l]; [reflexivity|]. unfold collapse_text. cbn [map]. pose proof (dom_elem [95] [] v). destruct (dom [95] [] v) as [| [|] | | |]; try reflexivity; discriminate. }
    replace (_ (map (dom [95] []) l)) with (Some (map (dom [95] []) l)); [reflexivity|]. cbn [depth] in D.
    induction l as [|v l IHl]; [reflexivity|]. cbn [map]. cbn [fold_right] in D. rewrite IH by lia. rewrite <- IHl by lia. reflexivity.
  - cbn [dom fixup_json]. fold member_dom. replace (collapse_text (map member_dom l)) with NoCollapse.
    2: { destruct l as [|v l]; [reflexivity|]. unfold collapse_text. cbn [map]. pose proof (dom_elem (key_name (fst v)) (key_attrs (fst v)) (snd v)) as Q. fold (member_dom v) in Q. destruct (member_dom v) as [| [|] | | |]; try reflexivity; discriminate. }
    replace (_ (map member_dom l)) with (Some (map member_dom l)); [reflexivity|]. cbn [depth] in D.
    induction l as [|v l IHl]; [reflexivity|]. cbn [map]. cbn [fold_right] in D. assert (Hm : fixup_json (member_dom v) = Some (member_dom v)) by (unfold member_dom; apply IH; lia).
    rewrite Hm. rewrite <- IHl by lia. reflexivity.
Qed.

Lemma depth_height v : forall n a, (depth v <= height (dom n a v))%nat.
Proof.
  assert (H : forall h v n a, (depth v <= h)%nat -> (depth v <= height (dom n a v))%nat).
  { clear v. induction h as [|h IH]; intros v n a D; [destruct v; cbn in D; lia|]. destruct v as [|[|]|t|s|l|l]; try (cbn; lia).
    - cbn [depth dom height] in *. apply le_n_S. apply le_S_n in D. induction l as [|v l IHl]; [cbn; lia|]. cbn [map fold_right] in *.
      pose proof (IH v [95] [] ltac:(lia)). specialize (IHl ltac:(lia)). lia.
    - cbn [depth dom height] in *. apply le_n_S. apply le_S_n in D. induction l as [|v l IHl]; [cbn; lia|]. cbn [map fold_right] in *.
      pose proof (IH (snd v) (key_name (fst v)) (key_attrs (fst v)) ltac:(lia)). specialize (IHl ltac:(lia)). lia. }
  intros n a. now apply (H (depth v)).
Qed.
(** The printed text of the document of a good value denotes the value. *)
Theorem json_write v : good v -> print_json [dom [95] [] v] = JText (show v ++ [10]) /\ value_text false (show v) v.
Proof.
  intros G. split; [|now apply (show_text (depth v))]. unfold print_json.
  assert (E : exists a k, dom [95] [] v = Elem [95] a k) by (destruct v as [|[|]| | | |]; cbn; eauto). destruct E as (a & k & E). rewrite E. rewrite <- E.
  rewrite (fixup_dom (depth v)) by lia.
  destruct (node_out (height (dom [95] [] v)) v false [] [95] [] 0%nat 0) as (d & O & _); auto; [apply depth_height|left; auto|].
  cbn [sep check_comma prefix app] in O. rewrite (jseq_ok _ _ _ _ _ _ _ O (put_ok [cNL] d)). reflexivity.
Qed.
