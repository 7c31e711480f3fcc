(** Compact printing of a document with namespaces gives a text of the grammar of
    NsGrammar.v, which is read as the same document. *)
From Coq Require Import NArith ZArith List Bool Arith Lia String Permutation.
From Verif Require Import Bytes BytesFacts Outcome Utf8 Utf8Proofs Quote QuoteSpec QuoteProofs QuoteProofs2 Parser ParserSpec Detect Dom NsDom NsSpec Printer NsPrinter
  Grammar NsGrammar LexProofs BuildProofs GrammarProofs Compact Stray CompactProofs CompactDoc NsCompact.
Import ListNotations.
Local Open Scope N_scope.
Local Open Scope op_scope.

(** The written form of a document. *)
Definition decl_item (d : decl) : NsGrammar.item := Declaration (d_prefix d) (match d_uri d with Some u => u | None => [] end).
Definition attr_item (a : vattr) : NsGrammar.item := Attribute (va_prefix a) (va_name a) (va_value a).
Definition items (l : list vattr) (ds : list decl) : list NsGrammar.item := map attr_item l ++ map decl_item ds.
Fixpoint wform (x : vnode) : NsGrammar.written :=
  match x with
  | VElem p _ n ds l ks => WElem p n (items l ds) (map wform ks)
  | VPart p => WPart p
  | VComment t => WComment t
  | VPI n c => WPI n c
  | VDoctype c => WDoctype c
  end.

Definition qual (p : option bytes) (n : bytes) : bytes := match p with None => n | Some q => q ++ cCOLON :: n end.

Lemma seq_same a b c d : (forall s, a s = c s) -> (forall s, b s = d s) -> forall s : pr, (a ;; b) s = (c ;; d) s.
Proof. intros H1 H2 s. unfold seq. rewrite H1. destruct (c s) as [x s1]. now rewrite H2. Qed.
Lemma nop_seq a s : (nop ;; a) s = a s.
Proof. unfold seq, nop. now destruct (a s). Qed.
Lemma writes_same a b c o c' : (forall s, a s = b s) -> writes b c o c' -> writes a c o c'.
Proof. intros H W s E K P. rewrite H. now apply W. Qed.

Section compact.
Variable C : cfg.
Hypothesis HC : compact C = true.

(** ** Attributes and declarations *)
Definition value_of (i : NsGrammar.item) : list part := match i with Attribute _ _ v => v | Declaration _ u => [PText u] end.
Definition item_ok (i : NsGrammar.item) : Prop :=
  match i with
  | Attribute p n v => qattr_ok p n /\ (v = [] \/ value_ok C v /\ forall ps, v <> PText [] :: ps)
  | Declaration p u => match p with None => True | Some q => local_name q end /\ pi_ok C u
  end.
Fixpoint items_ok (l : list NsGrammar.item) : Prop :=
  match l with
  | [] => True
  | i :: r => item_ok i /\ (r = [] \/ ~ ends_in [cSEMI] (value_of i)) /\ items_ok r
  end.
Lemma attrs_items l ds : vattrs_ok C l ds -> items_ok (items l ds).
Proof.
  unfold items. induction l as [|a l IH].
  - cbn [map app vattrs_ok]. induction ds as [|d ds IH]; [auto|]. cbn [decls_ok map]. intros ((H1 & u & Eu & H2) & H3 & H4).
    cbn [items_ok]. split; [|split; auto].
    + unfold decl_item. cbn [item_ok]. rewrite Eu. auto.
    + destruct H3 as [-> |H3]; [now left|]. right. unfold decl_item. cbn [value_of]. rewrite Eu. now apply H3.
  - cbn [map app vattrs_ok items_ok]. intros ((H1 & H2) & H3 & H4). split; [split; auto|]. split; auto.
    destruct H3 as [(-> & ->)|H3]; [now left|now right].
Qed.
Definition v_item (al : nat) (i : NsGrammar.item) : op :=
  match i with
  | Attribute p n v => v_attribute C al (VAttr p None n v)
  | Declaration p u => v_declaration C al (Decl p (Some u))
  end.
Fixpoint v_items (al : nat) (l : list NsGrammar.item) : op :=
  match l with [] => nop | i :: r => v_item al i ;; v_items al r end.
Lemma items_print al l ds : vattrs_ok C l ds -> forall s, (v_attribute_list C al l ;; v_declaration_list C al ds) s = v_items al (items l ds) s.
Proof.
  unfold items. induction l as [|a l IH]; cbn [map app vattrs_ok v_attribute_list].
  - intros H s. rewrite nop_seq. revert H s. induction ds as [|d ds IH]; cbn [decls_ok map v_items v_declaration_list]; [reflexivity|].
    intros ((_ & u & Eu & _) & _ & H). apply seq_same; auto. destruct d as [p u']. cbn in Eu. subst u'. reflexivity.
  - intros (_ & _ & H) s. rewrite <- seq_assoc. cbn [v_items]. revert s. apply seq_same; auto.
Qed.

Lemma writes_qual p n c : qual p n <> [] -> n <> [] -> (forall q, p = Some q -> q <> []) ->
  writes (v_prefix p ;; print_str n) c (qual p n) (List.last n 0).
Proof.
  intros _ Hn Hq. destruct p as [q|]; cbn [v_prefix qual].
  - eapply writes_eq; [eapply writes_seq; [eapply writes_seq; [apply writes_str; now apply Hq|apply writes_str; discriminate]|now apply writes_str]| |reflexivity].
    now rewrite <- app_assoc.
  - eapply writes_same; [apply nop_seq|]. now apply writes_str.
Qed.
Lemma name_starts n : is_name n -> starts is_xmq_text_name n.
Proof. intros (H1 & H2). destruct n as [|c r]; [congruence|]. cbn in H2. apply andb_true_iff in H2 as [H2 _]. exists c, r. auto. Qed.

Lemma qattr_facts p n : qattr_ok p n -> attr_label (qual p n) p n /\ n <> [] /\ is_xmq_text_name (List.last n 0) = true
  /\ starts is_xmq_text_name (qual p n) /\ forall q, p = Some q -> q <> [].
Proof.
  destruct p as [q|]; cbn [qattr_ok qual].
  - intros (H1 & H2). split; [now constructor|]. split; [apply H2|]. split; [apply name_last, H2|]. split; [apply starts_app, name_starts, H1|].
    intros q' E. injection E as <-. apply H1.
  - intros H1. split; [now constructor|]. split; [apply H1|]. split; [apply name_last, H1|]. split; [apply name_starts, H1|discriminate].
Qed.
Definition dlabel (p : option bytes) : bytes := match p with None => B "xmlns" | Some q => B "xmlns:" ++ q end.
Lemma dlabel_facts p : match p with None => True | Some q => local_name q end -> decl_label (dlabel p) p /\ starts is_xmq_text_name (dlabel p)
  /\ (forall c, exists c', writes (print_str (B "xmlns") ;; match p with None => nop | Some q => print_str [cCOLON] ;; print_str q end) c (dlabel p) c').
Proof.
  destruct p as [q|]; intros H; cbn [dlabel]; (split; [now constructor|split; [now eexists _, _|]]); intros c; eexists.
  - eapply writes_eq; [eapply writes_seq; [apply writes_str; discriminate|eapply writes_seq; [apply writes_str; discriminate|apply writes_str, H]]|reflexivity|reflexivity].
  - eapply writes_eq; [eapply writes_seq; [apply writes_str; discriminate|apply writes_nop]| |reflexivity]. apply app_nil_r.
Qed.

Lemma writes_item al i : item_ok i -> exists t e c', In e [Equo; Eany; Ebare; Ename] /\ starts is_xmq_text_name t /\ end_char e c' /\
  (forall c, writes (v_item al i) c (sepb (sep_attribute c) ++ t) c') /\
  (forall pre w y, after e w y -> entry pre t w y i) /\
  (e = Ebare -> exists t, value_of i = [PText t] /\ bare t [] /\ c' = List.last t 0).
Proof.
  destruct i as [p n ps|p u]; cbn [item_ok value_of v_item].
  - intros (Hn & Hv). destruct (qattr_facts p n Hn) as (L & Nn & Nl & S & Nq).
    assert (Wq : forall c, writes (v_prefix p ;; print_str n) c (qual p n) (List.last n 0)).
    { intros c. apply writes_qual; auto. destruct S as (? & ? & -> & _). discriminate. }
    destruct Hv as [-> |(Hv & He)].
    + exists (qual p n), Ename, (List.last n 0). split; [cbn; auto|]. split; [exact S|]. split; [exact Nl|]. split; [|split; [|discriminate]].
      * intros c. unfold v_attribute. cbn [va_prefix va_name va_value has_value when].
        eapply writes_seq; [apply writes_space_attribute; exact HC|].
        eapply writes_same; [intros s; apply seq_assoc|]. eapply writes_eq; [eapply writes_seq; [apply Wq|apply writes_nop]| |reflexivity]. apply app_nil_r.
      * intros pre w y (A1 & A2). apply en_key; auto. intros (c & r & -> & Hc). apply A2. exists c, r. split; auto. apply N.eqb_eq in Hc. subst c. reflexivity.
    + destruct (writes_value C HC Parser.LAttr ps Hv (or_intror eq_refl)) as (v & e & c' & He' & [W E V Bq _]).
      exists (qual p n ++ [cEQ] ++ v), e, c'. split; [cbn in *; tauto|]. split; [now apply starts_app|]. split; [exact E|]. split; [|split; [|exact Bq]].
      * intros c. unfold v_attribute. cbn [va_prefix va_name va_value]. assert (X : has_value ps = true).
        { destruct ps as [|[[|? ?]|?] ?]; auto; [destruct Hv as (Hv & _); congruence|]. exfalso. eapply He. reflexivity. }
        rewrite X. cbn [when]. eapply writes_seq; [apply writes_space_attribute; exact HC|].
        eapply writes_same; [intros s; apply seq_assoc|]. eapply writes_seq; [apply Wq|]. eapply writes_seq; [apply equals_compact; exact HC|exact W].
      * intros pre w y A. destruct (V ((pre ++ qual p n) ++ [] ++ [cEQ] ++ []) w y A) as (V1 & V2). apply en_value; auto.
        apply (as_value (pre ++ qual p n) [] []); [apply gap_nil, solid_ascii; reflexivity|now apply gap_nil|exact V1].
  - intros (Hp & Hu). destruct (dlabel_facts p Hp) as (L & S & Wl).
    destruct (writes_calm C HC Parser.LAttr u (or_intror eq_refl) Hu) as (v & e & c' & He & W & E & V & Bu).
    exists (dlabel p ++ [] ++ [cEQ] ++ [] ++ v), e, c'. split; [cbn in *; tauto|]. split; [now apply starts_app|]. split; [exact E|]. split; [|split].
    + intros c. unfold v_declaration. cbn [d_prefix d_uri]. destruct (Wl c) as (c1 & W1).
      eapply writes_seq; [apply writes_space_attribute; exact HC|]. eapply writes_same; [intros s; apply seq_assoc|].
      cbn [app]. eapply writes_seq; [exact W1|]. apply (writes_seq _ _ _ _ _ [cEQ] v (equals_compact C HC _ _)). exact W.
    + intros pre w y A. destruct (V (pre ++ dlabel p ++ [] ++ [cEQ] ++ []) w y A) as (V1 & V2).
      apply en_decl; auto; [apply gap_nil, solid_ascii; reflexivity|now apply gap_nil].
    + intros Eb. destruct (Bu Eb) as (B1 & B2). exists u. auto.
Qed.

Definition lead_item (l : list NsGrammar.item) (c : N) : bytes := match l with [] => [] | _ => sepb (sep_attribute c) end.
Lemma writes_items al l : items_ok l -> exists t, (l = [] -> t = []) /\ (l <> [] -> starts is_xmq_text_name t) /\
  (forall c, exists c', writes (v_items al l) c (lead_item l c ++ t) c') /\
  (forall pre z, starts (is cRP) z -> entries pre t z l).
Proof.
  induction l as [|a l IH]; intros H.
  - exists []. repeat split; auto; [congruence|intros c; exists c; apply writes_nop|intros; now apply es_end].
  - destruct H as (Ha & Hs & Hl). destruct (IH Hl) as (t2 & T0 & T1 & T2 & T3). clear IH.
    destruct (writes_item al a Ha) as (t & e & c' & He & S & E & W & A & Bq).
    exists (t ++ lead_item l c' ++ t2). split; [discriminate|]. split; [intros _; now apply starts_app|]. split.
    + intros c. destruct (T2 c') as (c'' & W2). exists c''. cbn [v_items lead_item]. rewrite app_assoc. eapply writes_seq; [apply W|exact W2].
    + intros pre z Hz. apply es_cons; [| |now apply T3].
      * apply A. destruct l as [|b l].
        -- rewrite (T0 eq_refl). cbn [lead_item app]. unfold after.
           destruct He as [<-|[<-|[<-|[<-|[]]]]]; cbn [app]; auto.
           ++ apply (starts_other _ _ _ Hz). intros d Hd. apply N.eqb_eq in Hd. now subst.
           ++ right. destruct Hz as (d & r & -> & Hd). apply N.eqb_eq in Hd. subst. now apply starts_cons.
           ++ split; apply (starts_other _ _ _ Hz); intros d Hd; apply N.eqb_eq in Hd; now subst.
        -- cbn [lead_item]. assert (T1' : starts is_xmq_text_name (t2 ++ z)) by (apply starts_app, T1; discriminate).
           destruct He as [<-|[<-|[<-|[<-|[]]]]]; cbn [after]; auto.
           ++ cbn in E. subst c'. cbn [sepb sep_attribute among existsb]. apply (starts_other _ _ _ T1'). apply name_not. reflexivity.
           ++ right. destruct (sep_bare c' E) as (X & _). rewrite X; [now apply starts_cons|]. intros ->.
              destruct (Bq eq_refl) as (u & Eu & Bu & El). destruct Hs as [Hs|Hs]; [discriminate|]. apply Hs. exists u. rewrite <- El. repeat split; auto; try apply Bu. now left.
           ++ cbn in E. assert (X : sep_attribute c' = true) by (clear - E; revert c' E; apply name_all; reflexivity). rewrite X. cbn [sepb app]. split.
              ** rewrite starts_cons. discriminate.
              ** apply (starts_other _ _ _ T1'). apply name_not. reflexivity.
      * destruct l as [|b l]; cbn [lead_item].
        -- rewrite (T0 eq_refl). now apply gap_nil, rp_solid.
        -- apply sepb_gap, name_solid, starts_app, T1. discriminate.
Qed.

(** ** Names *)
Lemma qname_facts p n : qname_ok p n -> element_label (qual p n) p n /\ n <> [] /\ is_xmq_text_name (List.last n 0) = true
  /\ starts is_xmq_element_start (qual p n) /\ forall q, p = Some q -> q <> [].
Proof.
  destruct p as [q|]; cbn [qname_ok qual].
  - intros (H1 & H2). split; [now constructor|]. split; [apply H2|]. split; [apply name_last, H2|]. split; [apply starts_app, H1|].
    intros q' E. injection E as <-. destruct H1 as ((? & ? & -> & _) & _). discriminate.
  - intros H1. pose proof H1 as ((c & r & En & Hc) & H3). assert (Hn : n <> []) by (rewrite En; discriminate).
    split; [now constructor|]. split; [exact Hn|]. split; [apply name_last; split; auto; apply H3|]. split; [exists c, r; auto|discriminate].
Qed.
Lemma writes_nhead p n l ds : qname_ok p n -> vattrs_ok C l ds -> exists h e c', In e [Ename; Epar] /\ end_char e c' /\ starts is_xmq_element_start h /\
  (forall c, writes (v_name C p n l ds) c (sepb (sep_element c) ++ h) c') /\
  (forall pre z, (e = Ename -> ~ starts is_xmq_text_name z) -> nhead pre h z p n (items l ds)).
Proof.
  intros Hn Hl. destruct (qname_facts p n Hn) as (L & Nn & Nl & S & Nq).
  assert (Wq : forall c, writes (v_prefix p ;; print_str n) c (qual p n) (List.last n 0)).
  { intros c. apply writes_qual; auto. destruct S as (? & ? & -> & _). discriminate. }
  assert (Cs : items l ds = [] \/ items l ds <> []) by (destruct (items l ds); [now left|right; discriminate]).
  destruct Cs as [Ei|Ei].
  - assert (X : l = [] /\ ds = []) by (destruct l, ds; try discriminate; auto). destruct X as (-> & ->).
    exists (qual p n), Ename, (List.last n 0). split; [now left|]. split; [exact Nl|]. split; auto. split.
    + intros c. unfold v_name. eapply writes_seq; [apply writes_space_key; exact HC|].
      eapply writes_same; [intros s; apply seq_assoc|]. eapply writes_eq; [eapply writes_seq; [apply Wq|apply writes_nop]| |reflexivity]. apply app_nil_r.
    + intros pre z Hz. apply nh_plain; auto.
  - destruct (writes_items (if compact C then 0%nat else v_width l ds) (items l ds) (attrs_items l ds Hl)) as (t & _ & T1 & T2 & T3).
    destruct (T2 cLP) as (c' & W).
    exists (qual p n ++ [cLP] ++ t ++ [cRP]), Epar, cRP. split; [cbn; auto|]. split; [reflexivity|]. split; [now apply starts_app|]. split.
    + intros c. assert (Ev : forall s, v_name C p n l ds s = (space_key C ;; v_prefix p ;; print_str n ;; print_str [cLP] ;; v_attributes C l ds ;; print_str [cRP]) s).
      { intros s. unfold v_name. destruct l, ds; try reflexivity. exfalso; apply Ei; reflexivity. }
      eapply writes_same; [exact Ev|]. eapply writes_seq; [apply writes_space_key; exact HC|].
      eapply writes_same; [intros s; apply seq_assoc|]. eapply writes_seq; [apply Wq|].
      eapply writes_seq; [apply writes_str; discriminate|]. eapply writes_seq; [|apply writes_str; discriminate].
      unfold v_attributes. apply writes_ask. intros s0 _ _ _.
      eapply writes_eq; [eapply writes_seq; [apply writes_line|]; eapply writes_same; [intros s; apply seq_assoc|]; eapply writes_seq; [eapply writes_same; [apply items_print; exact Hl|exact W]|apply writes_line]| |reflexivity].
      cbn [app]. rewrite app_nil_r. destruct (items l ds); [congruence|reflexivity].
    + intros pre z _. apply (nh_items pre (qual p n) [] []); auto.
      * apply gap_nil, solid_ascii; reflexivity.
      * apply gap_nil. cbn [app]. apply name_solid, starts_app, T1, Ei.
      * apply T3. exists cRP, z. auto.
Qed.

(** ** Chunks of the output *)
Record nchunk := NChunk { nc : chunk; nw : NsGrammar.written }.
Definition mk (f : fkind) (b : bytes) (c : N) (e : ekind) (w : NsGrammar.written) : nchunk := NChunk (Chunk f b c e (Part (PText []))) w.
Record ngood (k : nchunk) : Prop := {
  ng_first : starts (first_char (k_first (nc k))) (k_body (nc k));
  ng_end : end_char (k_end (nc k)) (k_last (nc k));
  ng_solids : forall pre w t2 z ks, gap w (t2 ++ z) -> after (k_end (nc k)) w (t2 ++ z) ->
    nsolids (pre ++ k_body (nc k) ++ w) t2 z ks -> nsolids pre (k_body (nc k) ++ w ++ t2) z (nw k :: ks) }.
Lemma nafter_next x y z : ngood x -> ngood y -> may_follow (nc x) (nc y) -> after (k_end (nc x)) (sepb (sepf (k_first (nc y)) (k_last (nc x)))) (k_body (nc y) ++ z).
Proof. intros [_ E _] [F _ _] M. apply (after_next_gen C); auto. now apply starts_app. Qed.
Lemma nchunks_solids e z : closed e z -> forall l pre, l <> [] -> Forall ngood l -> in_order (map nc l) -> nsolids pre (souts (map nc l) ++ e) z (map nw l).
Proof.
  intros Hc. assert (A : forall k, after k e z /\ gap e z).
  { intros k. destruct Hc as [(-> & H)|(-> & ->)]; split; auto using after_brace, after_nl.
    - apply gap_nil. destruct H as (c & r & -> & H). apply N.eqb_eq in H. subst c. apply solid_ascii; reflexivity.
    - split; [|intros H; inversion H]. right. exists cNL, []. split; auto. split; [reflexivity|constructor]. }
  assert (Hz : z = [] \/ starts (is cRB) z) by (destruct Hc as [(_ & ?)|(_ & ?)]; auto).
  induction l as [|x l IH]; intros pre Hn G O; [congruence|]. inversion G; subst. cbn [souts map]. destruct l as [|y l].
  - cbn [outs map]. rewrite app_nil_r. rewrite <- (app_nil_r e). apply (ng_solids x H1); cbn [app]; [apply (A Eany)|apply A|]. now apply ns_end.
  - cbn [map outs]. destruct O as (O1 & O2). inversion H2; subst.
    replace ((k_body (nc x) ++ sepb (sepf (k_first (nc y)) (k_last (nc x))) ++ k_body (nc y) ++ outs (k_last (nc y)) (map nc l)) ++ e)
      with (k_body (nc x) ++ sepb (sepf (k_first (nc y)) (k_last (nc x))) ++ (souts (map nc (y :: l)) ++ e)) by (cbn [map souts]; now rewrite <- !app_assoc).
    apply (ng_solids x H1).
    + apply sepb_gap. cbn [map souts]. rewrite <- !app_assoc. eapply (first_solid C HC), starts_app, (ng_first y); auto.
    + cbn [map souts]. rewrite <- !app_assoc. now apply nafter_next.
    + apply IH; auto. discriminate.
Qed.

Record vpnode (x : vnode) (l : list nchunk) : Prop := {
  v_ne : l <> [];
  v_good : Forall ngood l;
  v_order : in_order (map nc l);
  v_den : forall m, (forall t, x = VPart (PText t) -> forall u r, merge_written m <> WPart (PText u) :: r) ->
    merge_written (map nw l ++ m) = wform x :: merge_written m;
  v_first : forall k r, l = k :: r -> incl (unsepf (k_first (nc k))) (vunseparated x);
  v_last : forall k r, l = r ++ [k] -> k_end (nc k) = Ebare -> exists t, vlast_value x = Some [PText t] /\ bare t [] /\ k_last (nc k) = List.last t 0 }.
Lemma none_chunk x k : ngood k -> nw k = wform x -> (forall t, x <> VPart (PText t)) -> incl (unsepf (k_first (nc k))) (vunseparated x) ->
  (k_end (nc k) = Ebare -> exists t, vlast_value x = Some [PText t] /\ bare t [] /\ k_last (nc k) = List.last t 0) -> vpnode x [k].
Proof.
  intros G D T F L. constructor.
  - discriminate.
  - constructor; auto.
  - exact I.
  - intros m _. cbn [map app]. rewrite D. destruct x as [p u n ds l b|[t|n]|t|n t|t]; try reflexivity. exfalso. now apply (T t).
  - intros k' r E. injection E as <- <-. exact F.
  - intros k' r E. destruct r as [|? [|? ?]]; try discriminate. now injection E as <-.
Qed.
Definition ntchunk (t : tok) : nchunk := NChunk (tchunk t) (WPart (tok_part t)).
Lemma ntok_good t : tok_ok t -> ngood (ntchunk t).
Proof.
  intros H. destruct (tok_good C HC t H) as [G1 G2 _]. constructor; auto.
  cbn. intros pre w t2 z ks G A S. apply ns_flat; auto. apply nf_piece. apply (tok_piece C); auto. intros Hq. rewrite Hq in A. exact A.
Qed.
Lemma nmerge_text_nodes ts m : Forall text_tok ts -> ts <> [] -> (forall u r, merge_written m <> WPart (PText u) :: r) ->
  merge_written (map (fun t => WPart (tok_part t)) ts ++ m) = WPart (PText (texts_of ts)) :: merge_written m.
Proof.
  induction ts as [|t ts IH]; intros F Hn Hm; [congruence|]. inversion F; subst.
  assert (X : exists u, tok_part t = PText u /\ tok_text t = u) by (destruct t; cbn in *; eauto; contradiction).
  destruct X as (u & E1 & E2). cbn [map app merge_written]. rewrite E1. destruct ts as [|t2 ts].
  - cbn [map app]. unfold texts_of. cbn. rewrite app_nil_r, E2. destruct (merge_written m) as [|[| [v|]| | |] r] eqn:E; auto. exfalso. now apply (Hm v r).
  - rewrite IH by (auto; discriminate). unfold texts_of. cbn [map List.concat]. now rewrite E2.
Qed.
Lemma map_ntchunk ts : map nc (map ntchunk ts) = map tchunk ts.
Proof. now rewrite map_map. Qed.

Definition vprints (x : vnode) (l : list nchunk) : Prop := (forall al, produces (v_node C al x) (map nc l)) /\ vpnode x l.

Lemma vnode_text t : text_ok C t -> exists l, vprints (VPart (PText t)) l.
Proof.
  intros T. destruct (shows_nonempty C HC LXmq t T eq_refl) as (ts & P & O & X & E & N). exists (map ntchunk ts). split.
  - intros al c. cbn [v_node]. rewrite map_ntchunk. destruct (outs_toks ts c) as [-> ->]. apply writes_ask. intros s _ _ _.
    eapply writes_eq; [eapply writes_seq; [apply P|apply writes_line]| |reflexivity]. now rewrite app_nil_r.
  - constructor.
    + now destruct ts.
    + apply Forall_map. revert O. apply Forall_impl. exact ntok_good.
    + rewrite map_ntchunk. apply in_order_toks.
    + intros m Hm. rewrite map_map. cbn [nw ntchunk wform]. rewrite nmerge_text_nodes; auto; [now rewrite E|]. eauto.
    + intros k r Ek. destruct ts as [|u ts]; [discriminate|]. injection Ek as <- _. cbn. destruct (is_quote u); intros y Hy; cbn in *; tauto.
    + intros k r Ek. assert (I : In k (map ntchunk ts)) by (rewrite Ek; apply in_or_app; right; now left). apply in_map_iff in I as (u & <- & _).
      cbn. destruct (is_quote u); discriminate.
Qed.
Lemma vnode_ref n : is_name n -> ~ starts (is cHASH) n -> exists l, vprints (VPart (PRef n)) l.
Proof.
  intros H1 H2. exists [ntchunk (TR n)]. split.
  - intros al c. cbn [v_node map]. change [nc (ntchunk (TR n))] with (map tchunk [TR n]). destruct (outs_toks [TR n] c) as [-> ->]. now apply (prints_ref C HC).
  - apply none_chunk; try reflexivity; try discriminate; [|intros y Hy; exact Hy]. apply ntok_good. split; auto.
Qed.
Lemma vnode_leaf p u n ds l : qname_ok p n -> vattrs_ok C l ds -> exists k, vprints (VElem p u n ds l []) k.
Proof.
  intros Hn Hl. destruct (writes_nhead p n l ds Hn Hl) as (h & e & c' & He & E & S & W & H).
  exists [mk Fkey h c' e (WElem p n (items l ds) [])]. split.
  - intros al c. cbn [v_node map nc mk outs ending k_first k_body k_last sepf]. rewrite app_nil_r. apply W.
  - apply none_chunk; try reflexivity; try discriminate; try (intros y Hy; exact Hy).
    + constructor; cbn [nc nw mk k_first k_body k_last k_end]; auto.
      * rewrite <- (app_nil_r h). eapply key_good; eauto.
      * intros pre w t2 z ks G A X. apply ns_flat; auto. apply nf_leaf.
        -- apply H. intros ->. apply A.
        -- destruct He as [<-|[<-|[]]]; apply A.
    + cbn. intros ->. destruct He as [|[|[]]]; discriminate.
Qed.
Lemma all_parts_same k : v_parts k = all_parts k.
Proof. induction k as [|[]]; reflexivity. Qed.
Lemma all_parts_map ps : all_parts (map VPart ps) = Some ps.
Proof. induction ps as [|p ps IH]; [reflexivity|]. cbn. now rewrite IH. Qed.
Lemma vnode_value p u n ds l ps : qname_ok p n -> vattrs_ok C l ds -> value_ok C ps -> exists k, vprints (VElem p u n ds l (map VPart ps)) k.
Proof.
  intros Hn Hl Hv. destruct (writes_nhead p n l ds Hn Hl) as (h & e & c' & He & E & S & W & H).
  destruct (writes_value C HC Parser.LElem ps Hv (or_introl eq_refl)) as (v & e2 & c2 & He2 & [W2 E2 V2 B2 _]).
  exists [mk Fkey (h ++ [cEQ] ++ v) c2 e2 (WElem p n (items l ds) (map WPart ps))]. split.
  - intros al c. cbn [v_node map nc mk outs ending k_first k_body k_last sepf]. rewrite app_nil_r.
    assert (K : v_key_value (map VPart ps) = Some ps).
    { unfold v_key_value. destruct (map VPart ps) eqn:Em; [|now rewrite all_parts_same, <- Em, all_parts_map]. destruct ps; [destruct Hv as (Hv & _); congruence|discriminate]. }
    destruct (map VPart ps) eqn:Em; [discriminate K|]. rewrite K. rewrite app_assoc. eapply writes_seq; [apply W|]. eapply writes_seq; [|exact W2].
    apply writes_ask. intros s _ _ _. apply equals_compact. exact HC.
  - apply none_chunk; try discriminate; try (intros y Hy; exact Hy).
    + constructor; cbn [nc nw mk k_first k_body k_last k_end]; auto.
      * eapply key_good; eauto.
      * intros pre w t2 z ks G A X. apply ns_flat; auto. destruct (V2 ((pre ++ h) ++ [] ++ [cEQ] ++ []) w (t2 ++ z) A) as (V3 & V4).
        apply (nf_value pre h ([] ++ [cEQ] ++ [] ++ v)).
        -- apply H. intros _. cbn. rewrite starts_cons. discriminate.
        -- apply as_value; [apply gap_nil, solid_ascii; reflexivity|now apply gap_nil|exact V3].
    + cbn [nw mk wform]. rewrite map_map. reflexivity.
    + cbn [nc mk k_end k_last vlast_value]. rewrite all_parts_map. intros Eb. destruct (B2 Eb) as (t & -> & B & L). exists t. split; auto.
Qed.
Lemma vnode_pi n t : forallb is_xmq_text_name n = true -> pi_ok C t -> exists k, vprints (VPI n t) k.
Proof.
  intros Hn HP. pose proof HP as (Ht & T & N & K & Tb & Tt & Q1 & Q2). destruct (add_spaces_id t Q1 Q2) as (Ea & Ep).
  destruct (writes_calm C HC Parser.LElem t (or_introl eq_refl) HP) as (v & e & c' & He & W & E & V & B).
  exists [mk Fkey ([cQM] ++ n ++ [] ++ [cEQ] ++ [] ++ v) c' e (WPI n t)]. split.
  - intros al c. cbn [v_node map nc mk outs ending k_first k_body k_last sepf]. rewrite app_nil_r. unfold print_pi. rewrite Ea, HC, no_newlines_id by auto.
    destruct (writes_str0 n cQM) as (c1 & W1). change ([] ++ [cEQ] ++ [] ++ v) with ([cEQ] ++ v).
    eapply writes_seq; [apply writes_space_key; exact HC|]. eapply writes_seq; [apply writes_str; discriminate|]. eapply writes_seq; [exact W1|].
    eapply writes_seq; [apply equals_compact; exact HC|exact W].
  - apply none_chunk; try reflexivity; try discriminate; try (intros y Hy; exact Hy).
    + constructor; cbn [nc nw mk k_first k_body k_last k_end]; auto; [now apply starts_cons|].
      intros pre w t2 z ks G A X. apply ns_flat; auto. destruct (V (pre ++ [cQM] ++ n ++ [] ++ [cEQ] ++ []) w (t2 ++ z) A) as (V1 & V2).
      rewrite <- Ep. apply nf_pi; auto; [apply gap_nil, solid_ascii; reflexivity|now apply gap_nil].
    + cbn [nc mk k_end k_last vlast_value]. intros Eb. destruct (B Eb) as (B1 & B2). exists t. auto.
Qed.
Lemma vnode_doctype t : bare t [] -> exists k, vprints (VDoctype t) k.
Proof.
  intros Bt. exists [mk Fkey (B "!DOCTYPE" ++ [] ++ [cEQ] ++ [] ++ t) (List.last t 0) Ebare (WDoctype t)]. split.
  - intros al c. cbn [v_node map nc mk outs ending k_first k_body k_last sepf]. rewrite app_nil_r. unfold print_doctype, print_text.
    rewrite HC, no_newlines_id, (bare_text C) by (auto; eapply bare_nl; eauto). change ([] ++ [cEQ] ++ [] ++ t) with ([cEQ] ++ t).
    eapply writes_seq; [apply writes_space_key; exact HC|]. eapply writes_seq; [apply writes_str; discriminate|].
    eapply writes_seq; [apply equals_compact; exact HC|]. eapply writes_eq; [apply writes_range; eapply bare_stray; exact Bt|reflexivity|]. destruct Bt as (Bt & _). destruct t; [congruence|reflexivity].
  - apply none_chunk; try reflexivity; try discriminate; try (intros y Hy; exact Hy).
    + constructor; cbn [nc nw mk k_first k_body k_last k_end]; auto; [now apply starts_cons|now apply last_bare|].
      intros pre w t2 z ks G A X. apply ns_flat; auto. assert (B3 : bare t (w ++ t2 ++ z)) by now apply bare_after.
      apply nf_doctype; auto; [apply gap_nil, solid_ascii; reflexivity|]. apply gap_nil. now apply bare_first.
    + cbn [nc mk k_last vlast_value]. intros _. exists t. auto.
Qed.
Lemma vnode_comment t : comment_ok t -> exists k, vprints (VComment t) k.
Proof.
  intros H. destruct (writes_comment C HC t H) as (b & S & W & Cm). exists [mk Fcom b cSLASH Ecom (WComment t)]. split.
  - intros al c. cbn [v_node map nc mk outs ending k_first k_body k_last sepf]. rewrite app_nil_r. apply W.
  - apply none_chunk; try reflexivity; try discriminate; try (intros y Hy; exact Hy).
    constructor; cbn [nc nw mk k_first k_body k_last k_end]; auto; [reflexivity|].
    intros pre w t2 z ks G A X. apply ns_flat; auto. apply nf_comment. now apply Cm.
Qed.

Lemma v_body p u n ds l k al : all_parts k = None ->
  v_node C al (VElem p u n ds l k) = (v_name C p n l ds ;; space_opening_brace C ;; print_str [cLB] ;;
        set_line (fun s => p_line s + add_indent C)%Z ;; v_nodes C 0 (Some 0%nat) k ;;
        set_line (fun s => p_line s - add_indent C)%Z ;;
        space_closing_brace C ;; print_str [cRB]).
Proof.
  intros H. cbn [v_node]. destruct k as [|x k0] eqn:Ek; [discriminate|]. rewrite <- Ek in *. unfold v_key_value. rewrite Ek in H |- *. rewrite all_parts_same, H. rewrite <- Ek.
  rewrite Ek. cbn [v_nodes]. reflexivity.
Qed.

Record vpnodes (d : list vnode) (l : list nchunk) : Prop := {
  w_good : Forall ngood l;
  w_order : in_order (map nc l);
  w_den : merge_written (map nw l) = map wform d;
  w_ne : d <> [] -> l <> [];
  w_first : forall k r, l = k :: r -> exists x d', d = x :: d' /\ incl (unsepf (k_first (nc k))) (vunseparated x) }.

Scheme vnode_ok_ind2 := Minimality for vnode_ok Sort Prop with vnodes_ok_ind2 := Minimality for vnodes_ok Sort Prop.
Lemma vnodes_chunks d : vnodes_ok C d -> exists l, (forall al again, produces (v_nodes C al again d) (map nc l)) /\ vpnodes d l.
Proof.
  apply (vnodes_ok_ind2 C (fun x => exists l, vprints x l)
     (fun d => exists l, (forall al again, produces (v_nodes C al again d) (map nc l)) /\ vpnodes d l)).
  - intros [t|n] H; [now apply vnode_text|]. destruct H. now apply vnode_ref.
  - apply vnode_comment.
  - apply vnode_pi.
  - apply vnode_doctype.
  - apply vnode_leaf.
  - apply vnode_value.
  - intros p u n ds l k Hn Hl Hk _ (ks & P & [G O D Ne F]). destruct (writes_nhead p n l ds Hn Hl) as (h & e & c' & He & E & S & W & H).
    assert (Hks : ks <> []) by (apply Ne; intros ->; discriminate).
    exists [mk Fkey (h ++ [] ++ [cLB] ++ [] ++ souts (map nc ks) ++ [cRB]) cRB Eany (WElem p n (items l ds) (map wform k))]. split.
    + intros al c. rewrite v_body by auto. cbn [map nc mk outs ending k_first k_body k_last sepf]. rewrite app_nil_r, app_assoc. eapply writes_seq; [apply W|].
      unfold space_opening_brace, space_closing_brace. rewrite HC. cbn [negb when].
      eapply writes_eq.
      * eapply writes_seq; [apply writes_last, writes_nop|]. eapply writes_seq; [apply writes_str; discriminate|]. eapply writes_seq; [apply writes_line|].
        eapply writes_seq; [apply P|]. eapply writes_seq; [apply writes_line|]. eapply writes_seq; [apply writes_nop|]. apply writes_str; discriminate.
      * cbn [app]. do 2 f_equal. destruct ks as [|k1 ks]; [congruence|]. cbn [map outs souts]. change (List.last [cLB] 0) with cLB. destruct (k_first (nc k1)); reflexivity.
      * reflexivity.
    + apply none_chunk; try reflexivity; try discriminate; try (intros y Hy; exact Hy).
      constructor; cbn [nc nw mk k_first k_body k_last k_end].
      * now apply key_good.
      * cbn. auto.
      * intros pre w t2 z kk Gp _ X. rewrite <- D at 1. rewrite <- !app_assoc. apply ns_body; auto.
        -- apply H. intros _. cbn. rewrite starts_cons. discriminate.
        -- apply gap_nil, solid_ascii; reflexivity.
        -- apply gap_nil. cbn [app]. destruct ks as [|k1 ks]; [congruence|]. cbn [map souts]. rewrite <- !app_assoc.
           apply (first_solid C HC (k_first (nc k1))), starts_app, ng_first. now inversion G.
        -- rewrite <- (app_nil_r (souts (map nc ks))). apply nchunks_solids; auto. left. split; auto. apply starts_cons. reflexivity.
        -- rewrite <- !app_assoc in X. exact X.
  - exists []. split; [intros al again c; apply writes_nop|]. constructor; cbn; auto; try congruence; try discriminate.
  - intros x r _ (l1 & P1 & [N1 G1 O1 D1 F1 L1]) Sb _ (l2 & P2 & [G2 O2 D2 N2 F2]). exists (l1 ++ l2). split.
    + intros al again. cbn [v_nodes]. rewrite map_app.
      destruct (match again with Some O => if compact C then (al, again) else v_find_width (x :: r) | _ => (al, again) end) as [al' again'].
      now apply produces_seq.
    + constructor.
      * apply Forall_app; auto.
      * rewrite map_app. apply in_order_app; auto. intros u v a b E1 E2 Eb I.
        apply map_eq_app in E1. destruct E1 as (a1 & a2 & -> & _ & E1). destruct a2 as [|k1 [|? ?]]; try discriminate. injection E1 as <-.
        destruct l2 as [|k2 l2]; [discriminate|]. injection E2 as <- _.
        destruct (L1 k1 a1 eq_refl Eb) as (t & Lv & Bt & Et).
        destruct (F2 k2 l2 eq_refl) as (y & d' & Ed & Hi). destruct (Sb y d' Ed) as (_ & Hs). apply (Hs _ Lv). exists t. repeat split; auto; try apply Bt. rewrite <- Et. now apply Hi.
      * rewrite map_app, D1; [now rewrite D2|]. intros t Ex u r' E. rewrite D2 in E.
        destruct r as [|y r]; [discriminate|]. injection E as Ey _. destruct (Sb y r eq_refl) as (Hs & _). apply Hs. split; eauto.
        destruct y; try discriminate. injection Ey as ->. eauto.
      * intros _ E. apply app_eq_nil in E as [E _]. contradiction.
      * intros k r' E. destruct l1 as [|k1 l1]; [congruence|]. injection E as <- <-. exists x, r. split; auto. eapply F1; eauto.
Qed.

(** The compact output is the written form of the document. *)
Theorem compact_writes_down d : d <> [] -> vnodes_ok C d -> exists o, v_print_doc C d = (o, true) /\ writes_down o (map wform d).
Proof.
  intros Hd H. destruct (vnodes_chunks d H) as (l & P & [G O D N F]). specialize (N Hd).
  destruct (P 0%nat (Some 0%nat) 0 (PR 0 0 0 true) eq_refl eq_refl) as (s' & E & _ & K & _); [cbn; lia|].
  exists (souts (map nc l) ++ [cNL]). split.
  - unfold v_print_doc. destruct d as [|x d]; [congruence|]. rewrite E, K. do 2 f_equal.
    destruct l as [|k l]; [congruence|]. cbn [map outs souts]. destruct (k_first (nc k)); reflexivity.
  - exists [], (souts (map nc l) ++ [cNL]), (map nw l). split; [reflexivity|]. split; [|split; [|now rewrite D]].
    + apply gap_nil. destruct l as [|k l]; [congruence|]. cbn [map souts]. rewrite <- app_assoc. apply (first_solid C HC (k_first (nc k))), starts_app, ng_first. now inversion G.
    + apply nchunks_solids; auto. right. auto.
Qed.
End compact.
