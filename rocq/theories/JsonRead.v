(** The document that the JSON reader builds for a JSON value. *)
From Coq Require Import NArith ZArith List Bool Arith Lia String.
From Verif Require Import Bytes BytesFacts Utf8 Utf8Proofs Outcome Quote Parser Dom Json JsonSpec CQuote CQuoteProofs JsonProofs.
Import ListNotations.
Local Open Scope N_scope.

(** ** The class of values *)
(** Characters that the program writes as JSON strings allow: no NUL, no delete,
    and of the control characters only those with an escape of their own. *)
Definition good_char (u : N) : Prop := character u /\ (32 <= u /\ u <> 127 \/ In u [8; 9; 10; 12; 13]).
Definition good_text (s : bytes) : Prop := exists us, s = List.concat (map utf8_spec us) /\ Forall good_char us.
Definition empty_container (v : jv) : Prop := v = JArr [] \/ v = JObj [].
(** Keys without a meaning of their own: no index suffix, no leading underscore,
    not one of the names of texts, comments and doctypes, and no colon in a key
    that is an element name. *)
Definition plain_key (k : bytes) : Prop :=
  good_text k /\ (~ exists p, has_index k p) /\ ~ (exists r, k = 95 :: r)
  /\ k <> B "|" /\ k <> B "//" /\ k <> B "!DOCTYPE" /\ (is_element_name k = true -> ~ In 58 k).
Inductive good : jv -> Prop :=
| g_null : good JNull
| g_bool b : good (JBool b)
| g_num t : json_number t -> ~ zero_exp t -> good (JNum t)
| g_str s : good_text s -> good (JStr s)
| g_arr l : Forall good l -> good (JArr l)
| g_obj l : NoDup (map fst l) -> Forall (fun kv => plain_key (fst kv) /\ good (snd kv)
      /\ (is_element_name (fst kv) = false -> ~ empty_container (snd kv))) l -> good (JObj l).

(** ** The document of a value *)
Definition key_name (k : bytes) : bytes := if is_element_name k then k else [95].
Definition key_attrs (k : bytes) : list attr :=
  if is_element_name k then [] else match k with [] => [] | _ => [([95], [PText k])] end.
Fixpoint dom (n : bytes) (a : list attr) (v : jv) : node :=
  match v with
  | JNull => Elem n a [Part (PText (B "null"))]
  | JBool true => Elem n a [Part (PText (B "true"))]
  | JBool false => Elem n a [Part (PText (B "false"))]
  | JNum t => Elem n a [Part (PText t)]
  | JStr s => Elem n (a ++ if need_string_type s then [([83], [])] else []) [Part (PText s)]
  | JArr l => Elem n (a ++ [([65], [])]) (map (dom [95] []) l)
  | JObj l => Elem n a (map (fun kv => dom (key_name (fst kv)) (key_attrs (fst kv)) (snd kv)) l)
  end.
Definition dom_key (key : option bytes) (v : jv) : node :=
  match key with None => dom [95] [] v | Some k => dom (key_name k) (key_attrs k) v end.
Definition plain_opt (key : option bytes) : Prop := match key with None => True | Some k => plain_key k end.

(** ** Texts have no NUL *)
Lemma utf8_no_nul u : 0 < u <= 0x10ffff -> ~ In 0 (utf8_spec u).
Proof.
  intros [H1 H2] I. destruct (peek_spec u [] H2) as (c & t & E & _ & L & G). rewrite E in I. destruct (N.lt_ge_cases u 128) as [X|X].
  - destruct (L X) as [-> ->]. destruct I as [I|[]]. lia.
  - destruct (G X) as [F _]. rewrite Forall_forall in F. apply F in I. lia.
Qed.
Lemma good_no_nul s : good_text s -> ~ In 0 s.
Proof.
  intros (us & -> & F) I. apply in_concat in I. destruct I as (b & I1 & I2). apply in_map_iff in I1. destruct I1 as (u & <- & I1).
  rewrite Forall_forall in F. apply F in I1. destruct I1 as [[C _] D]. apply (utf8_no_nul u); auto. cbn in D. lia.
Qed.
Lemma c_str_id s : ~ In 0 s -> c_str s = s.
Proof.
  induction s as [|c s IH]; intros H; [reflexivity|]. cbn [c_str]. destruct (N.eqb_spec c 0) as [->|]; [exfalso; apply H; now left|].
  f_equal. apply IH. intros I. apply H. now right.
Qed.

(** ** Building *)
Definition ready (b : bst) : Prop :=
  b_pi b = None /\ b_doctype b = false /\ match b_stack b with FDoc _ :: _ => True | FElem _ _ _ :: _ => True | _ => False end.
Definition attr_of (x : bytes * option bytes) : attr :=
  (c_str (fst x), match snd x with Some v => [PText (c_str v)] | None => [] end).
Lemma put_attrs_spec l : forall n ra k r la p d, l <> [] ->
  put_attrs l (BS (FElem n ra k :: r) la p d) = BOk (BS (FElem n (rev (map attr_of l) ++ ra) k :: r) LastAttr p d).
Proof.
  induction l as [|[m v] l IH]; intros n ra k r la p d H; [congruence|].
  assert (E : put_attrs ((m, v) :: l) (BS (FElem n ra k :: r) la p d)
              = put_attrs l (BS (FElem n (attr_of (m, v) :: ra) k :: r) LastAttr p d)) by (destruct v; reflexivity).
  rewrite E. destruct l as [|x l]; [reflexivity|]. rewrite IH by discriminate. cbn [map rev]. rewrite <- !app_assoc. reflexivity.
Qed.
Definition plain_name (n : bytes) : Prop := n <> B "!DOCTYPE" /\ (forall r, n <> cQM :: r) /\ has_colon n = false.
Lemma open_element_spec n l b : plain_name n -> ready b ->
  open_element None n l b = add_node (Elem n (map attr_of l) []) LastKid b.
Proof.
  intros (N1 & N2 & N3) (P1 & P2 & P3). destruct b as [st la pi dt]. cbn in P1, P2, P3. subst pi dt. unfold open_element. rewrite N3.
  assert (C : create_node None n (BS st la None false) = add_node (Elem n [] []) LastKid (BS st la None false)).
  { unfold create_node. destruct (beq n (B "!DOCTYPE")) eqn:E; [apply beq_eq in E; congruence|].
    destruct n as [|c n]; [unfold create_element_node; destruct la; reflexivity|]. destruct (N.eqb_spec c cQM) as [->|]; [now elim (N2 n)|].
    unfold create_element_node. destruct la; reflexivity. }
  rewrite C. destruct st as [|[k|m a k|m k] r]; try contradiction P3; cbn.
  - destruct l as [|x l]; [reflexivity|]. unfold push_last, with_stack. cbn [b_last b_stack bbind b_pi b_doctype rev].
    rewrite put_attrs_spec by discriminate. cbn [bbind pop b_stack close_into]. rewrite app_nil_r, rev_involutive. reflexivity.
  - destruct l as [|x l]; [reflexivity|]. unfold push_last, with_stack. cbn [b_last b_stack bbind b_pi b_doctype rev].
    rewrite put_attrs_spec by discriminate. cbn [bbind pop b_stack close_into]. rewrite app_nil_r, rev_involutive. reflexivity.
Qed.
Lemma value_spec n a v b : ready b -> ~ In 0 v ->
  bbind (add_node (Elem n a []) LastKid b) (element_value_text v) = add_node (Elem n a [Part (PText v)]) LastKid b.
Proof.
  intros (P1 & P2 & P3) H. destruct b as [st la pi dt]. cbn in P1, P2, P3. subst pi dt.
  destruct st as [|[k|m x k|m k] r]; try contradiction P3; cbn; unfold element_value_text; cbn; rewrite c_str_id by auto; reflexivity.
Qed.
Lemma push_spec n a b : ready b ->
  bbind (add_node (Elem n a []) LastKid b) push_last = BOk (BS (FElem n (rev a) [] :: b_stack b) LastOld None false).
Proof.
  intros (P1 & P2 & P3). destruct b as [st la pi dt]. cbn in P1, P2, P3. subst pi dt.
  destruct st as [|[k|m x k|m k] r]; try contradiction P3; reflexivity.
Qed.
Lemma pop_spec n a ks b la : ready b ->
  pop (BS (FElem n (rev a) (rev ks) :: b_stack b) la None false) = add_node (Elem n a ks) LastKid b.
Proof.
  intros (P1 & P2 & P3). destruct b as [st l0 pi dt]. cbn in P1, P2, P3. subst pi dt.
  destruct st as [|[k|m x k|m k] r]; try contradiction P3; cbn; now rewrite !rev_involutive.
Qed.
Lemma ready_next x b b' : ready b -> add_node x LastKid b = BOk b' -> ready b'.
Proof.
  intros (P1 & P2 & P3) H. destruct b as [st l0 pi dt]. cbn in P1, P2, P3. subst pi dt.
  destruct st as [|[k|m y k|m k] r]; try contradiction P3; cbn in H; injection H as <-; split; auto.
Qed.

Lemma element_name_plain n : is_element_name n = true -> ~ In 58 n -> plain_name n.
Proof.
  intros H C. destruct n as [|c n]; [discriminate|]. cbn in H. rewrite andb_true_iff in H. destruct H as [H _].
  split; [|split].
  - intros E. injection E as -> _. discriminate H.
  - intros r E. injection E as -> _. discriminate H.
  - destruct (has_colon (c :: n)) eqn:E; auto. exfalso. apply C. unfold has_colon in E. rewrite existsb_exists in E. destruct E as (x & I & E).
    apply N.eqb_eq in E. now subst x.
Qed.
Lemma underscore_plain : plain_name [95].
Proof. split; [discriminate|split; [intros r E; discriminate|reflexivity]]. Qed.
(** The name and attributes that are created for a key. *)
Definition kn (key : option bytes) : bytes := match key with None => [95] | Some k => key_name k end.
Definition ka (key : option bytes) : list attr := match key with None => [] | Some k => key_attrs k end.
Lemma dom_key_kn key v : dom_key key v = dom (kn key) (ka key) v.
Proof. destruct key; reflexivity. Qed.
Lemma key_spec key : plain_opt key -> let '(n, u) := name_of_key (option_map trim_index key) in
  n = kn key /\ map attr_of (unsafe_attr u) = ka key /\ plain_name n.
Proof.
  destruct key as [k|]; cbn [plain_opt option_map kn ka]; [|intros _; split; auto using underscore_plain].
  intros (G & T & U & _ & _ & _ & C). rewrite trim_index_keeps by exact T. unfold name_of_key, key_name, key_attrs.
  destruct k as [|c k]; [split; [|split]; auto using underscore_plain|].
  destruct (is_element_name (c :: k)) eqn:E; [split; [|split]; auto; now apply element_name_plain; auto|].
  split; [|split]; auto using underscore_plain. cbn [unsafe_attr map]. unfold attr_of. cbn [fst snd]. rewrite (c_str_id (c :: k)) by (now apply good_no_nul). reflexivity.
Qed.
Lemma open_text_spec key more v b : plain_opt key -> ready b -> ~ In 0 v ->
  open_text None (option_map trim_index key) more v b = add_node (Elem (kn key) (ka key ++ map attr_of more) [Part (PText v)]) LastKid b.
Proof.
  intros Hk Hb Hv. unfold open_text. pose proof (key_spec key Hk) as H. destruct (name_of_key _) as [n u]. destruct H as (-> & H & P).
  rewrite open_element_spec by auto. rewrite map_app, H. now apply value_spec.
Qed.
Lemma open_container_spec key more b : plain_opt key -> ready b ->
  open_container None key more b = BOk (BS (FElem (kn key) (rev (ka key ++ map attr_of more)) [] :: b_stack b) LastOld None false).
Proof.
  intros Hk Hb. unfold open_container. pose proof (key_spec key Hk) as H. destruct (name_of_key _) as [n u]. destruct H as (-> & H & P).
  rewrite open_element_spec by auto. rewrite map_app, H. now apply push_spec.
Qed.
Lemma put_string_spec key v b : plain_opt key -> ready b -> good_text v ->
  put_string None key v b = add_node (dom_key key (JStr v)) LastKid b.
Proof.
  intros Hk Hb Hv. pose proof (good_no_nul v Hv) as Nv. rewrite dom_key_kn. cbn [dom]. unfold put_string.
  pose proof (key_spec key Hk) as H. pose proof (open_text_spec key (if need_string_type v then [([83], None)] else []) v b Hk Hb Nv) as O.
  destruct (name_of_key (option_map trim_index key)) as [n u] eqn:En. destruct H as (-> & H & P).
  assert (Plain : (if match u, kn key with None, c :: _ :: _ => c =? cUND | _, _ => false end
     then if has_colon (kn key) || is_prefix (B "_xmlns") (kn key) then BUnmodelled else bbind (attr_key (tl (kn key)) b) (attr_value v)
     else open_text None (option_map trim_index key) (if need_string_type v then [([83], None)] else []) v b)
     = add_node (Elem (kn key) (ka key ++ (if need_string_type v then [([83], [])] else [])) [Part (PText v)]) LastKid b).
  { replace (match u with None => _ | _ => _ end) with false.
    - rewrite O. destruct (need_string_type v); reflexivity.
    - destruct u; [reflexivity|]. destruct key as [k|]; [|reflexivity]. destruct Hk as (_ & _ & U & _). cbn [kn]. unfold key_name.
      destruct (is_element_name k); [|reflexivity]. destruct k as [|c [|d k]]; auto. symmetry. apply N.eqb_neq. intros ->. apply U. eexists. reflexivity. }
  destruct key as [k|]; [|exact Plain]. cbn [option_map] in *. destruct Hk as (G & T & U & K1 & K2 & K3 & C).
  rewrite trim_index_keeps in * by exact T.
  assert (X : forall l, k <> l -> beq k l = false) by (intros l Hl; destruct (beq k l) eqn:E; auto; apply beq_eq in E; contradiction).
  rewrite (X _ K1), (X _ K2), (X _ K3). rewrite (X (B "_//")) by (intros ->; apply U; eexists; reflexivity). rewrite (X (B "_")) by (intros ->; apply U; eexists; reflexivity).
  exact Plain.
Qed.
Lemma put_null_spec key b : plain_opt key -> ready b -> put_null None key b = add_node (dom_key key JNull) LastKid b.
Proof.
  intros Hk Hb. rewrite dom_key_kn. cbn [dom]. unfold put_null.
  pose proof (open_text_spec key [] (B "null") b Hk Hb ltac:(cbn; intuition discriminate)) as O. cbn [map] in O. rewrite app_nil_r in O.
  destruct key as [k|]; [|exact O]. cbn [option_map] in *. destruct Hk as (G & T & U & _). rewrite trim_index_keeps in * by exact T.
  destruct k as [|c [|d k]]; try exact O. destruct (N.eqb_spec c cUND) as [->|]; [exfalso; apply U; eexists; reflexivity|exact O].
Qed.
Lemma put_word_spec key v b : plain_opt key -> ready b -> ~ In 0 v ->
  put_word None key v b = add_node (Elem (kn key) (ka key) [Part (PText v)]) LastKid b.
Proof. intros Hk Hb Hv. unfold put_word. rewrite open_text_spec by auto. cbn [map]. now rewrite app_nil_r. Qed.

(** ** Reading *)
Lemma eat_ws_solid c r : c < 128 -> is_xml_whitespace c = false -> eat_ws 0 (c :: r) = c :: r.
Proof.
  intros H W. cbn [eat_ws]. replace (count_ws (c :: r)) with 0%nat; [reflexivity|]. symmetry. unfold count_ws. rewrite W.
  replace (c =? 0xc2) with false by (symmetry; apply N.eqb_neq; lia). replace (c =? 0xe2) with false by (symmetry; apply N.eqb_neq; lia).
  cbn [andb]. destruct r as [|d [|e r]]; reflexivity.
Qed.
Lemma eat_ws_app w z : ws w -> eat_ws 0 (w ++ z) = eat_ws 0 z.
Proof.
  induction 1 as [|c w H _ IH]; [reflexivity|]. cbn [app eat_ws].
  assert (X : count_ws (c :: w ++ z) = 1%nat) by (apply ParserProofs.count_ws_1; cbn in H; intuition (subst; reflexivity)). rewrite X. exact IH.
Qed.
Definition delim (z : bytes) : Prop := z = [] \/ exists c r, z = c :: r /\ In c [44; 93; 125].
Lemma eat_ws_delim z : delim z -> eat_ws 0 z = z.
Proof. intros [->|(c & r & -> & H)]; [reflexivity|]. apply eat_ws_solid; cbn in H; intuition (subst; try reflexivity; lia). Qed.
Lemma number_first t : json_number t -> exists c r, t = c :: r /\ (digit c \/ c = 45).
Proof.
  intros (m & i & f & e & -> & M & I & _). cbn in M. destruct M as [<-|[<-|[]]].
  - destruct I as [->|(c & r & -> & H & _)]; cbn; eauto. exists 48, (f ++ e). split; auto. left. unfold digit. lia.
    exists c, (r ++ f ++ e). split; auto. left. unfold digit. lia.
  - cbn. eauto.
Qed.
Lemma value_first t v : value_text false t v -> exists c r, t = c :: r /\ c < 128 /\ is_xml_whitespace c = false /\ ~ In c [93; 125; 44].
Proof.
  destruct 1; try (eexists; eexists; split; [reflexivity|split; [reflexivity|split; [reflexivity|cbn; intuition discriminate]]]).
  destruct (number_first t H) as (c & r & -> & D). exists c, r. unfold digit in D. split; auto. split; [lia|]. split; [|cbn; lia].
  destruct (is_xml_whitespace c) eqn:E; auto. unfold is_xml_whitespace in E. rewrite !orb_true_iff, !N.eqb_eq in E. unfold cSP, cTAB, cNL, cCR in E. lia.
Qed.
Lemma number_after t w z : after false (JNum t) w -> delim z -> number_stop (w ++ z).
Proof.
  intros [W [H|H]] D; [discriminate|]. destruct w as [|c w].
  - cbn. destruct D as [->|(c & r & -> & D)]; [now left|]. right. exists c, r. split; auto. cbn in *. intuition.
  - right. exists c, (w ++ z). split; auto. cbn in *. intuition.
Qed.
Lemma after_ws v w : after false v w -> ws w.
Proof. now intros [H _]. Qed.
Lemma number_no_nul t : json_number t -> ~ In 0 t.
Proof.
  intros (m & i & f & e & -> & M & I & F & E) H. rewrite !in_app_iff in H.
  assert (D : forall l, Forall digit l -> ~ In 0 l) by (intros l X Y; rewrite Forall_forall in X; apply X in Y; unfold digit in Y; lia).
  destruct H as [H|[H|[H|H]]].
  - cbn in M. destruct M as [<-|[<-|[]]]; cbn in H; intuition discriminate.
  - destruct I as [->|(c & r & -> & C & I)]; cbn in H; [intuition discriminate|]. destruct H as [H|H]; [lia|now apply (D r)].
  - destruct F as [->|(ds & -> & _ & F)]; cbn in H; [contradiction|]. destruct H as [H|H]; [lia|now apply (D ds)].
  - destruct E as [->|(x & sg & ds & -> & X & S1 & _ & F0)]; cbn in H; [contradiction|]. destruct H as [H|H]; [cbn in X; lia|].
    rewrite in_app_iff in H. destruct H as [H|H]; [cbn in S1; destruct S1 as [<-|[<-|[<-|[]]]]; cbn in H; intuition discriminate|now apply (D ds)].
Qed.

Lemma attr_A : attr_of ([65], None) = ([65], []).
Proof. reflexivity. Qed.
Ltac len := repeat ((rewrite app_length in * ) || (progress (cbn [List.length app] in * ))).
Scheme value_ind := Induction for value_text Sort Prop
  with elements_ind := Induction for elements_text Sort Prop
  with members_ind := Induction for members_text Sort Prop.
Combined Scheme text_ind from value_ind, elements_ind, members_ind.

Definition reads_value (t : bytes) (v : jv) : Prop := forall f key z b b' w w', good v -> plain_opt key -> ws w -> after false v w' -> delim z -> ready b ->
  add_node (dom_key key v) LastKid b = BOk b' -> (2 * List.length (w ++ t ++ w' ++ z) + 1 <= f)%nat ->
  parse_json f None key (w ++ t ++ w' ++ z) b = JOk z b'.
Definition with_kids (ns : list node) (b : bst) (n : bytes) (a : list attr) (ks : list node) : bst :=
  BS (FElem n (rev a) (rev (ks ++ ns)) :: b_stack b) LastKid None false.
Definition reads_elements (t : bytes) (l : list jv) : Prop := forall f z b b0 n a ks, Forall good l -> ready b0 ->
  b_stack b = FElem n (rev a) (rev ks) :: b_stack b0 -> b_pi b = None -> b_doctype b = false -> (2 * List.length (t ++ cRBK :: z) + 2 <= f)%nat ->
  array_items f None (t ++ 93 :: z) b = jlift (add_node (Elem n a (ks ++ map (dom [95] []) l)) LastKid b0) z.
Definition member_dom (kv : bytes * jv) : node := dom (key_name (fst kv)) (key_attrs (fst kv)) (snd kv).
Definition reads_members (t : bytes) (l : list (bytes * jv)) : Prop := forall f z b b0 n a ks,
  Forall (fun kv => plain_key (fst kv) /\ good (snd kv)) l -> ready b0 ->
  b_stack b = FElem n (rev a) (rev ks) :: b_stack b0 -> b_pi b = None -> b_doctype b = false -> (2 * List.length (t ++ cRB :: z) + 2 <= f)%nat ->
  object_items f None (t ++ 125 :: z) b = jlift (add_node (Elem n a (ks ++ map member_dom l)) LastKid b0) z.

Lemma parse_start (t w w' z : bytes) : ws w -> (exists c r, t = c :: r /\ c < 128 /\ is_xml_whitespace c = false /\ ~ In c [93; 125; 44]) ->
  eat_ws 0 (w ++ t ++ w' ++ z) = t ++ w' ++ z.
Proof. intros W (c & r & -> & H1 & H2 & _). rewrite eat_ws_app by auto. now apply eat_ws_solid. Qed.
Lemma add_kid x n a ks b0 b : b_stack b = FElem n (rev a) (rev ks) :: b_stack b0 -> b_pi b = None -> b_doctype b = false ->
  add_node x LastKid b = BOk (BS (FElem n (rev a) (rev (ks ++ [x])) :: b_stack b0) LastKid None false).
Proof. destruct b as [st la p d]. cbn. intros -> -> ->. rewrite rev_app_distr. reflexivity. Qed.
Lemma pop_kid n a ks b0 b : ready b0 -> b_stack b = FElem n (rev a) (rev ks) :: b_stack b0 -> b_pi b = None -> b_doctype b = false ->
  pop b = add_node (Elem n a ks) LastKid b0.
Proof. intros H. destruct b as [st la p d]. cbn [b_stack b_pi b_doctype]. intros -> -> ->. now apply pop_spec. Qed.
Lemma ready_elem b n a ks b0 : b_stack b = FElem n a ks :: b0 -> b_pi b = None -> b_doctype b = false -> ready b.
Proof. intros H1 H2 H3. unfold ready. rewrite H1. auto. Qed.

Lemma values_read :
  (forall t v, value_text false t v -> reads_value t v)
  /\ (forall t l, elements_text false t l -> reads_elements t l)
  /\ (forall t l, members_text false t l -> reads_members t l).
Proof.
  apply (text_ind false (fun t v _ => reads_value t v) (fun t l _ => reads_elements t l) (fun t l _ => reads_members t l)).
  - intros f key z b b' w w' G K W A D R E F. destruct f as [|f]; [lia|]. cbn [parse_json].
    rewrite (parse_start (B "null") w w' z W) by (apply (value_first _ JNull); constructor).
    cbn [B app at_i]. change (is_prefix (B "true") _) with false. change (is_prefix (B "false") _) with false. cbn.
    rewrite put_null_spec by auto. rewrite E. cbn. rewrite eat_ws_app by (now apply (after_ws JNull)). now rewrite eat_ws_delim.
  - intros f key z b b' w w' G K W A D R E F. destruct f as [|f]; [lia|]. cbn [parse_json].
    rewrite (parse_start (B "true") w w' z W) by (apply (value_first _ (JBool true)); constructor).
    cbn. rewrite put_word_spec by (auto; cbn; intuition discriminate). rewrite dom_key_kn in E. cbn [dom] in E. cbn in E. rewrite E. cbn.
    rewrite eat_ws_app by (now apply (after_ws (JBool true))). now rewrite eat_ws_delim.
  - intros f key z b b' w w' G K W A D R E F. destruct f as [|f]; [lia|]. cbn [parse_json].
    rewrite (parse_start (B "false") w w' z W) by (apply (value_first _ (JBool false)); constructor).
    cbn. rewrite put_word_spec by (auto; cbn; intuition discriminate). rewrite dom_key_kn in E. cbn [dom] in E. cbn in E. rewrite E. cbn.
    rewrite eat_ws_app by (now apply (after_ws (JBool false))). now rewrite eat_ws_delim.
  - intros t Ht Hz f key z b b' w w' G K W A D R E F. destruct f as [|f]; [lia|]. cbn [parse_json].
    destruct Hz as [Hz|Hz]; [discriminate|].
    rewrite (parse_start t w w' z W) by (apply (value_first _ (JNum t)); constructor; auto).
    destruct (number_first t Ht) as (c & r & Et & C).
    assert (Q : (at_i (t ++ w' ++ z) =? cDQ) = false) by (rewrite Et; cbn; apply N.eqb_neq; unfold digit in C; unfold cDQ; lia).
    rewrite Q. assert (P : forall p x, ~ digit p -> p <> 45 -> is_prefix (p :: x) (t ++ w' ++ z) = false).
    { intros p x P1 P2. rewrite Et. cbn. replace (p =? c) with false; [reflexivity|]. symmetry. apply N.eqb_neq. intros ->. intuition. }
    change (B "true") with [116;114;117;101]. change (B "false") with [102;97;108;115;101]. change (B "null") with [110;117;108;108]. rewrite !P by (unfold digit; lia).
    rewrite (number_accepted t (w' ++ z) Ht Hz (number_after t w' z A D)).
    rewrite firstn_app, firstn_all, Nat.sub_diag, app_nil_r, skipn_app, skipn_all, Nat.sub_diag. cbn [skipn app].
    rewrite put_word_spec by (auto using number_no_nul). rewrite dom_key_kn in E. cbn [dom] in E. rewrite E. cbn.
    rewrite eat_ws_app by (now apply (after_ws (JNum t))). now rewrite eat_ws_delim.
  - intros t s Ht f key z b b' w w' G K W A D R E F. destruct f as [|f]; [lia|]. cbn [parse_json].
    rewrite (parse_start (34 :: t ++ [34]) w w' z W) by (apply (value_first _ (JStr s)); constructor; auto).
    cbn [app at_i tl]. rewrite N.eqb_refl. rewrite <- app_assoc. cbn [app]. rewrite string_spec with (s := s) by exact Ht.
    inversion G; subst. rewrite put_string_spec by auto. rewrite E. cbn [jlift jbind]. rewrite eat_ws_app by (now apply (after_ws (JStr s))). now rewrite eat_ws_delim.
  - (* empty array *) intros w0 W0 f key z b b' w w' G K W A D R E F. destruct f as [|f]; [lia|]. cbn [parse_json].
    rewrite (parse_start (91 :: w0 ++ [93]) w w' z W) by (apply (value_first _ (JArr [])); constructor; auto).
    cbn [app at_i tl]. change (91 =? cDQ) with false. change (is_prefix (B "true") (91 :: _)) with false. change (is_prefix (B "false") (91 :: _)) with false.
    change (is_prefix (B "null") (91 :: _)) with false. change (is_jnumber (91 :: _)) with (@None nat). change (91 =? cLB) with false. change (91 =? cLBK) with true.
    cbv iota. rewrite open_container_spec by auto. cbn [jlift jbind].
    rewrite !app_length in F. cbn [List.length] in F. rewrite !app_length in F. cbn [List.length] in F. destruct f as [|f]; [lia|]. cbn [array_items].
    rewrite <- app_assoc. cbn [app]. replace (eat_ws 0 (w0 ++ 93 :: w' ++ z)) with (93 :: w' ++ z) by (rewrite eat_ws_app by auto; symmetry; apply eat_ws_solid; reflexivity).
    destruct (w0 ++ 93 :: w' ++ z) eqn:Q; [destruct w0; discriminate|]. cbn [at_i tl]. change (93 =? cRBK) with true. cbv iota.
    rewrite (pop_spec _ _ [] b LastOld R). rewrite dom_key_kn in E. cbn [dom map] in E. cbn [map]. rewrite attr_A. match goal with |- context [jlift ?x _] => replace x with (BOk b') by (symmetry; exact E) end. cbn [jlift jbind].
    rewrite eat_ws_app by (now apply (after_ws (JArr []))). now rewrite eat_ws_delim.
  - (* array *) intros t l T IH f key z b b' w w' G K W A D R E F. destruct f as [|f]; [lia|]. cbn [parse_json].
    rewrite (parse_start (91 :: t ++ [93]) w w' z W) by (apply (value_first _ (JArr l)); constructor; auto).
    cbn [app at_i tl]. change (91 =? cDQ) with false. change (is_prefix (B "true") (91 :: _)) with false. change (is_prefix (B "false") (91 :: _)) with false.
    change (is_prefix (B "null") (91 :: _)) with false. change (is_jnumber (91 :: _)) with (@None nat). change (91 =? cLB) with false. change (91 =? cLBK) with true.
    cbv iota. rewrite open_container_spec by auto. cbn [jlift jbind].
    rewrite !app_length in F. cbn [List.length] in F. rewrite !app_length in F. cbn [List.length] in F.
    rewrite <- app_assoc. cbn [app]. inversion G as [| | | |l0 G0|]; subst l0.
    rewrite (IH f (w' ++ z) _ b (kn key) (ka key ++ map attr_of [([65], None)]) []); auto.
    2: { rewrite !app_length. cbn [List.length]. rewrite !app_length. lia. }
    rewrite dom_key_kn in E. cbn [dom] in E. cbn [map app]. rewrite attr_A. match goal with |- context [jlift ?x _] => replace x with (BOk b') by (symmetry; exact E) end. cbn [jlift jbind].
    rewrite eat_ws_app by (now apply (after_ws (JArr l))). now rewrite eat_ws_delim.
  - (* empty object *) intros w0 W0 f key z b b' w w' G K W A D R E F. destruct f as [|f]; [lia|]. cbn [parse_json].
    rewrite (parse_start (123 :: w0 ++ [125]) w w' z W) by (apply (value_first _ (JObj [])); constructor; auto).
    cbn [app at_i tl]. change (123 =? cDQ) with false. change (is_prefix (B "true") (123 :: _)) with false. change (is_prefix (B "false") (123 :: _)) with false.
    change (is_prefix (B "null") (123 :: _)) with false. change (is_jnumber (123 :: _)) with (@None nat). change (123 =? cLB) with true.
    cbv iota. rewrite open_container_spec by auto. cbn [jlift jbind].
    rewrite !app_length in F. cbn [List.length] in F. rewrite !app_length in F. cbn [List.length] in F. destruct f as [|f]; [lia|]. cbn [object_items].
    rewrite <- app_assoc. cbn [app]. replace (eat_ws 0 (w0 ++ 125 :: w' ++ z)) with (125 :: w' ++ z) by (rewrite eat_ws_app by auto; symmetry; apply eat_ws_solid; reflexivity).
    destruct (w0 ++ 125 :: w' ++ z) eqn:Q; [destruct w0; discriminate|]. cbn [at_i tl]. change (125 =? cRB) with true. cbv iota.
    rewrite (pop_spec _ _ [] b LastOld R). rewrite dom_key_kn in E. cbn [dom map] in E. cbn [map]. rewrite app_nil_r, E. cbn [jlift jbind].
    rewrite eat_ws_app by (now apply (after_ws (JObj []))). now rewrite eat_ws_delim.
  - (* object *) intros t l T IH f key z b b' w w' G K W A D R E F. destruct f as [|f]; [lia|]. cbn [parse_json].
    rewrite (parse_start (123 :: t ++ [125]) w w' z W) by (apply (value_first _ (JObj l)); constructor; auto).
    cbn [app at_i tl]. change (123 =? cDQ) with false. change (is_prefix (B "true") (123 :: _)) with false. change (is_prefix (B "false") (123 :: _)) with false.
    change (is_prefix (B "null") (123 :: _)) with false. change (is_jnumber (123 :: _)) with (@None nat). change (123 =? cLB) with true.
    cbv iota. rewrite open_container_spec by auto. cbn [jlift jbind].
    rewrite !app_length in F. cbn [List.length] in F. rewrite !app_length in F. cbn [List.length] in F.
    rewrite <- app_assoc. cbn [app]. inversion G as [| | | | |l0 Gn G0]; subst l0.
    rewrite (IH f (w' ++ z) _ b (kn key) (ka key ++ map attr_of []) []); auto.
    2: { eapply Forall_impl; [|exact G0]. cbn. intuition. }
    2: { rewrite !app_length. cbn [List.length]. rewrite !app_length. lia. }
    rewrite dom_key_kn in E. cbn [dom] in E. cbn [map app]. rewrite app_nil_r. unfold member_dom. rewrite E. cbn [jlift jbind].
    rewrite eat_ws_app by (now apply (after_ws (JObj l))). now rewrite eat_ws_delim.
  - (* last element *) intros w t w' v W V IH A f z b b0 n a ks G R S1 S2 S3 F. destruct f as [|f]; [lia|]. cbn [array_items].
    inversion G as [|v0 l0 G1 _]; subst v0 l0.
    rewrite <- !app_assoc in *. pose proof (value_first t v V) as (c & r & Et & C1 & C2 & C3).
    rewrite (parse_start t w w' (93 :: z) W) by eauto 8. destruct (w ++ t ++ w' ++ 93 :: z) eqn:Q; [subst t; destruct w; discriminate|]. try rewrite <- Q in F. clear Q.
    replace (at_i (t ++ w' ++ 93 :: z) =? cRBK) with false by (subst t; symmetry; cbn [app at_i]; apply N.eqb_neq; intros ->; apply C3; now left).
    pose proof (add_kid (dom [95] [] v) n a ks b0 b S1 S2 S3) as Ek.
    change (t ++ w' ++ 93 :: z) with ([] ++ t ++ w' ++ 93 :: z).
    rewrite (IH f None (93 :: z) b _ [] w' G1 I (Forall_nil _) A) with (3 := Ek); [|right; exists 93, z; cbn; auto|now apply (ready_elem b n (rev a) (rev ks) (b_stack b0))|].
    2: { len. lia. }
    cbn [jbind at_i tl]. change (93 =? cCOMMA) with false. change (93 =? cRBK) with true. cbv iota.
    rewrite (pop_spec n a (ks ++ [dom [95] [] v]) b0 LastKid R). reflexivity.
  - (* element *) intros w t w' v r0 l W V IH A T IHl f z b b0 n a ks G R S1 S2 S3 F. destruct f as [|f]; [lia|]. cbn [array_items].
    inversion G as [|v0 l0 G1 G2]; subst v0 l0.
    repeat (rewrite <- app_assoc in * || cbn [app] in * ). pose proof (value_first t v V) as (c & r & Et & C1 & C2 & C3).
    rewrite (parse_start t w w' (44 :: r0 ++ 93 :: z) W) by eauto 8. destruct (w ++ t ++ w' ++ 44 :: r0 ++ 93 :: z) eqn:Q; [subst t; destruct w; discriminate|]. try rewrite <- Q in F. clear Q.
    replace (at_i (t ++ w' ++ 44 :: r0 ++ 93 :: z) =? cRBK) with false by (subst t; symmetry; cbn [app at_i]; apply N.eqb_neq; intros ->; apply C3; now left).
    pose proof (add_kid (dom [95] [] v) n a ks b0 b S1 S2 S3) as Ek.
    change (t ++ w' ++ 44 :: r0 ++ 93 :: z) with ([] ++ t ++ w' ++ 44 :: r0 ++ 93 :: z).
    rewrite (IH f None (44 :: r0 ++ 93 :: z) b _ [] w' G1 I (Forall_nil _) A) with (3 := Ek); [|right; exists 44, (r0 ++ 93 :: z); cbn; auto|now apply (ready_elem b n (rev a) (rev ks) (b_stack b0))|].
    2: { len. lia. }
    cbn [jbind at_i tl]. change (44 =? cCOMMA) with true. cbv iota.
    rewrite (IHl f z _ b0 n a (ks ++ [dom [95] [] v])); auto.
    2: { subst t. len. lia. }
    rewrite <- app_assoc. reflexivity.
  - (* last member *) intros w q k w1 w2 t w' v W Q1 W1 W2 V IH A f z b b0 n a ks G R S1 S2 S3 F. destruct f as [|f]; [lia|]. cbn [object_items].
    inversion G as [|v0 l0 [G0 G1] _]; subst v0 l0. cbn [fst snd] in G0, G1.
    repeat (rewrite <- app_assoc in * || cbn [app] in * ).
    rewrite eat_ws_app by auto. rewrite eat_ws_solid by reflexivity.
    destruct (w ++ 34 :: _) eqn:Q; [destruct w; discriminate|]. try rewrite <- Q in F. clear Q.
    cbn [at_i tl]. change (34 =? cRB) with false. change (34 =? cDQ) with true. cbn [negb]. cbv iota.
    rewrite (string_spec q k Q1). rewrite eat_ws_app by auto. rewrite eat_ws_solid by reflexivity. cbn [at_i tl]. change (58 =? cCOLON) with true. cbn [negb]. cbv iota.
    pose proof (add_kid (member_dom (k, v)) n a ks b0 b S1 S2 S3) as Ek.
    rewrite (IH f (Some k) (125 :: z) b _ w2 w' G1 G0 W2 A) with (3 := Ek); [|right; exists 125, z; cbn; auto|now apply (ready_elem b n (rev a) (rev ks) (b_stack b0))|].
    2: { len. lia. }
    cbn [jbind at_i tl]. change (125 =? cCOMMA) with false. change (125 =? cRB) with true. cbv iota.
    rewrite (pop_spec n a (ks ++ [member_dom (k, v)]) b0 LastKid R). reflexivity.
  - (* member *) intros w q k w1 w2 t w' v r0 l W Q1 W1 W2 V IH A T IHl f z b b0 n a ks G R S1 S2 S3 F. destruct f as [|f]; [lia|]. cbn [object_items].
    inversion G as [|v0 l0 [G0 G1] G2]; subst v0 l0. cbn [fst snd] in G0, G1.
    repeat (rewrite <- app_assoc in * || cbn [app] in * ).
    rewrite eat_ws_app by auto. rewrite eat_ws_solid by reflexivity.
    destruct (w ++ 34 :: _) eqn:Q; [destruct w; discriminate|]. try rewrite <- Q in F. clear Q.
    cbn [at_i tl]. change (34 =? cRB) with false. change (34 =? cDQ) with true. cbn [negb]. cbv iota.
    rewrite (string_spec q k Q1). rewrite eat_ws_app by auto. rewrite eat_ws_solid by reflexivity. cbn [at_i tl]. change (58 =? cCOLON) with true. cbn [negb]. cbv iota.
    pose proof (add_kid (member_dom (k, v)) n a ks b0 b S1 S2 S3) as Ek.
    rewrite (IH f (Some k) (44 :: r0 ++ 125 :: z) b _ w2 w' G1 G0 W2 A) with (3 := Ek); [|right; exists 44, (r0 ++ 125 :: z); cbn; auto|now apply (ready_elem b n (rev a) (rev ks) (b_stack b0))|].
    2: { len. lia. }
    cbn [jbind at_i tl]. change (44 =? cCOMMA) with true. cbv iota.
    rewrite (IHl f z _ b0 n a (ks ++ [member_dom (k, v)])); auto.
    2: { len. lia. }
    rewrite <- app_assoc. reflexivity.
Qed.

(** Reading a JSON text of a good value gives the document of the value. *)
Theorem json_read src v : json_text false src v -> good v ->
  parse_buffer_json (2 * List.length src + 1) None src = JDocument [dom [95] [] v].
Proof.
  intros (w & t & w' & -> & W & V & A) G. destruct values_read as [H _].
  set (b := BS [FDoc []] LastNone None false).
  assert (R : ready b) by (split; cbn; auto).
  pose proof (H t v V (2 * List.length (w ++ t ++ w') + 1)%nat None [] b _ w w' G I W A (or_introl eq_refl) R eq_refl) as P.
  rewrite !app_nil_r in P. unfold parse_buffer_json, tokenize_json. fold b. rewrite P by lia. reflexivity.
Qed.
