(** What the callbacks of the document builder make: the node that the written
    node means (NsGrammar.v). *)
From Coq Require Import NArith ZArith List Bool Arith Lia String Permutation.
From Verif Require Import Detect Bytes BytesFacts Outcome Utf8 Utf8Proofs Quote QuoteSpec
  Parser ParserSpec Dom NsDom NsSpec Grammar NsGrammar BuildProofs GrammarProofs NsReads.
Import ListNotations.
Local Open Scope N_scope.

Definition odecl (o : nsobj) : decl := Decl (o_prefix o) (o_href o).

(** ** The table of namespace objects *)
Lemma obeq_iff a b : obeq a b = true <-> a = b.
Proof.
  destruct a as [a|], b as [b|]; cbn; split; intros H; try discriminate; auto.
  - f_equal. now apply beq_eq.
  - injection H as ->. apply beq_refl.
Qed.
Lemma obeq_refl a : obeq a a = true.
Proof. now apply obeq_iff. Qed.
Lemma prefix_of_lt h h2 i : (i < List.length h)%nat -> prefix_of (h ++ h2) i = prefix_of h i.
Proof. intros H. unfold prefix_of. now rewrite nth_error_app1. Qed.
Lemma nth_lt {A} (l : list A) i x : nth_error l i = Some x -> (i < List.length l)%nat.
Proof. intros H. apply nth_error_Some. congruence. Qed.
Lemma nth_block {A} (h objs h3 : list A) j x : nth_error objs j = Some x -> nth_error (h ++ objs ++ h3) (List.length h + j) = Some x.
Proof.
  intros H. rewrite nth_error_app2 by lia. replace (List.length h + j - List.length h)%nat with j by lia.
  rewrite nth_error_app1; [exact H|]. now apply nth_lt in H.
Qed.
Lemma find_def_stable h h2 p defs : Forall (fun i => (i < List.length h)%nat) defs -> find_def (h ++ h2) p defs = find_def h p defs.
Proof.
  unfold find_def. induction 1 as [|i defs Hi _ IH]; auto. cbn [find]. rewrite prefix_of_lt by exact Hi. now rewrite IH.
Qed.
Lemma find_def_block objs p : forall h,
  (exists j, nth_error (map o_prefix objs) j = Some p /\
     find_def (h ++ objs) p (List.seq (List.length h) (List.length objs)) = Some (List.length h + j)%nat)
  \/ (~ In p (map o_prefix objs) /\ find_def (h ++ objs) p (List.seq (List.length h) (List.length objs)) = None).
Proof.
  induction objs as [|o objs IH]; intros h.
  - right. split; [intros []|reflexivity].
  - cbn [List.length List.seq map].
    assert (X : prefix_of (h ++ o :: objs) (List.length h) = o_prefix o).
    { unfold prefix_of. rewrite nth_error_app2 by lia. rewrite Nat.sub_diag. reflexivity. }
    unfold find_def. cbn [find]. rewrite X. destruct (obeq (o_prefix o) p) eqn:E.
    + left. exists 0%nat. split; [|f_equal; lia]. apply obeq_iff in E. now rewrite <- E.
    + specialize (IH (h ++ [o])). rewrite <- app_assoc in IH. cbn [app] in IH. rewrite app_length in IH. cbn [List.length] in IH.
      replace (List.length h + 1)%nat with (S (List.length h)) in IH by lia. unfold find_def in IH.
      destruct IH as [(j & Hj & IH)|(Hj & IH)].
      * left. exists (S j). split; [exact Hj|]. rewrite IH. f_equal. lia.
      * right. split; [|exact IH]. intros [Y|Y]; [|contradiction]. apply obeq_iff in Y. congruence.
Qed.
Lemma set_href_block h objs j v : (j < List.length objs)%nat -> set_href (h ++ objs) (List.length h + j) v = h ++ set_href objs j v.
Proof.
  intros H. unfold set_href. rewrite nth_error_app2 by lia. replace (List.length h + j - List.length h)%nat with j by lia.
  destruct (nth_error objs j) as [o|] eqn:E; [|apply nth_error_None in E; lia].
  rewrite firstn_app_2, <- app_assoc. f_equal. cbn [app]. f_equal. f_equal.
  rewrite skipn_app. rewrite skipn_all2 by lia. cbn [app]. f_equal. lia.
Qed.
Lemma set_href_split objs j v : forall o, nth_error objs j = Some o -> exists a b,
  objs = a ++ o :: b /\ set_href objs j v = a ++ NsObj (o_prefix o) (Some v) :: b /\ List.length a = j.
Proof.
  intros o H. destruct (nth_error_split _ _ H) as (a & b & E & L). exists a, b. split; [exact E|]. split; [|exact L].
  unfold set_href. rewrite H. subst objs j.
  replace (firstn (List.length a) (a ++ o :: b)) with a.
  - f_equal. f_equal. rewrite skipn_app. rewrite skipn_all2 by lia.
    replace (S (List.length a) - List.length a)%nat with 1%nat by lia. reflexivity.
  - rewrite firstn_app, Nat.sub_diag, firstn_all. cbn [firstn]. now rewrite app_nil_r.
Qed.

(** ** The declarations in scope and the stack *)
Definition frame_lt (h : list nsobj) (g : gframe) : Prop :=
  match g with
  | GElem e _ => Forall (fun i => (i < List.length h)%nat) (e_defs e) /\ forall i, e_ns e = Some (NsNum i) -> (i < List.length h)%nat
  | _ => True
  end.
Record Env (h : list nsobj) (st : list gframe) (df : option nsref) (sc : list decl) : Prop := {
  env_in : forall q u, In (Decl (Some q) u) sc -> exists i, search_up h q st = Some (NsNum i) /\ nth_error h i = Some (NsObj (Some q) u);
  env_out : forall q, ~ In (Some q) (map d_prefix sc) -> search_up h q st = None;
  env_def : forall u, In (Decl None u) sc -> exists i, df = Some (NsNum i) /\ nth_error h i = Some (NsObj None u);
  env_nodef : ~ In None (map d_prefix sc) -> df = None;
  env_lt : Forall (frame_lt h) st;
  env_nodup : NoDup (map d_prefix sc) }.

Lemma search_up_stable h h2 q st : Forall (frame_lt h) st -> search_up (h ++ h2) q st = search_up h q st.
Proof.
  induction 1 as [|g st Hg _ IH]; auto. destruct g as [k|e k|a n k|]; cbn [search_up]; auto.
  destruct Hg as (H1 & H2). rewrite (find_def_stable _ _ _ _ H1). destruct (find_def h (Some q) (e_defs e)); auto.
  assert (X : own_ns (h ++ h2) q (e_ns e) = own_ns h q (e_ns e)).
  { destruct (e_ns e) as [[|i]|]; auto. cbn [own_ns]. now rewrite prefix_of_lt by (now apply H2). }
  now rewrite X, IH.
Qed.
Lemma frame_lt_app h h2 g : frame_lt h g -> frame_lt (h ++ h2) g.
Proof.
  destruct g as [k|e k|a n k|]; auto. intros (H1 & H2). split.
  - eapply Forall_impl; [|exact H1]. intros i Hi. cbn in Hi. rewrite app_length. lia.
  - intros i Hi. apply H2 in Hi. rewrite app_length. lia.
Qed.
Lemma env_extend h h2 st df sc : Env h st df sc -> Env (h ++ h2) st df sc.
Proof.
  intros [H1 H2 H3 H4 H5 H6]. constructor; auto.
  - intros q u X. destruct (H1 q u X) as (i & A & B). exists i. rewrite search_up_stable by exact H5. split; [exact A|].
    rewrite nth_error_app1; [exact B|]. now apply nth_lt in B.
  - intros q X. rewrite search_up_stable by exact H5. auto.
  - intros u X. destruct (H3 u X) as (i & A & B). exists i. split; [exact A|]. rewrite nth_error_app1; [exact B|]. now apply nth_lt in B.
  - eapply Forall_impl; [|exact H5]. intros g. apply frame_lt_app.
Qed.
Lemma search_up_kids h q f k r : search_up h q (gwith f k :: r) = search_up h q (f :: r).
Proof. destruct f; reflexivity. Qed.
Lemma env_kids h f k r df sc : Env h (f :: r) df sc -> Env h (gwith f k :: r) df sc.
Proof.
  intros [H1 H2 H3 H4 H5 H6]. constructor; auto.
  - intros q u X. destruct (H1 q u X) as (i & A & B). exists i. rewrite search_up_kids. auto.
  - intros q X. rewrite search_up_kids. auto.
  - inversion H5; subst. constructor; auto. destruct f; auto.
Qed.

Lemma resolves_in sc : NoDup (map d_prefix sc) -> forall p u, In (Decl p u) sc -> resolves sc p u.
Proof.
  induction sc as [|d sc IH]; intros N p u H; [contradiction|]. cbn [map] in N. inversion N; subst. destruct H as [-> |H].
  - apply (res_here (Decl p u)).
  - apply res_outer; [|now apply IH]. intros E. apply H2. rewrite E. apply (in_map d_prefix _ _ H).
Qed.
Lemma resolves_out sc p : ~ In p (map d_prefix sc) -> resolves sc p None.
Proof.
  induction sc as [|d sc IH]; intros H; [constructor|]. apply res_outer.
  - intros E. apply H. now left.
  - apply IH. intros X. apply H. now right.
Qed.

Lemma find_def_in h p defs i : find_def h p defs = Some i -> prefix_of h i = p.
Proof. unfold find_def. intros H. apply find_some in H. destruct H as (_ & H). now apply obeq_iff in H. Qed.
Lemma search_up_num h q st ref : search_up h q st = Some ref -> exists i, ref = NsNum i.
Proof.
  induction st as [|g st IH]; [discriminate|]. destruct g as [k|e k|a n k|]; cbn [search_up]; auto.
  destruct (find_def h (Some q) (e_defs e)) as [i|]; [intros H; injection H as <-; eauto|].
  destruct (own_ns h q (e_ns e)) as [x|] eqn:E; auto.
  intros H. injection H as <-. unfold own_ns in E. destruct (e_ns e) as [[|i]|]; try discriminate.
  destruct (obeq _ _); try discriminate. injection E as <-. eauto.
Qed.

Lemma no_dup_prefix {A B} (f : A -> B) l x y : NoDup (map f l) -> In x l -> In y l -> f x = f y -> x = y.
Proof.
  induction l as [|a l IH]; intros N Hx Hy E; [contradiction|]. cbn [map] in N. inversion N; subst.
  destruct Hx as [-> |Hx], Hy as [-> |Hy]; auto.
  - exfalso. apply H1. rewrite E. now apply in_map.
  - exfalso. apply H1. rewrite <- E. now apply in_map.
Qed.

Lemma Forall2_imp {A B} (P Q : A -> B -> Prop) l m : (forall x y, P x y -> Q x y) -> Forall2 P l m -> Forall2 Q l m.
Proof. intros H. induction 1; constructor; auto. Qed.

(** ** The head of an element *)
Section Head.
Variables (h0 : list nsobj) (st0 : list gframe) (df0 : option nsref) (sc D : list decl) (p : option bytes) (n : bytes).
Hypothesis HE : Env h0 st0 df0 sc.
Hypothesis HD : NoDup (map d_prefix D).
Hypothesis HF : Forall (fun d => d_prefix d <> Some (B "xml") /\ ~ In (d_prefix d) (map d_prefix sc)) D.
Hypothesis HN : ~ In (Decl None (Some [])) D.

Definition ref_ok (objs : list nsobj) (q : bytes) (ref : nsref) : Prop :=
  (q = B "xml" /\ ref = NsXml) \/
  (q <> B "xml" /\
   ((exists j, ref = NsNum (List.length h0 + j) /\ nth_error (map o_prefix objs) j = Some (Some q)) \/
    (~ In (Some q) (map d_prefix D) /\ search_up h0 q st0 = Some ref))).
Definition attr_ok (objs : list nsobj) (a : option bytes * bytes * list part) (x : nattr) : Prop :=
  a_name x = snd (fst a) /\ a_parts x = snd a /\
  match fst (fst a) with
  | None => a_ns x = None
  | Some q => exists ref, a_ns x = Some ref /\ ref_ok objs q ref
  end.
Definition local_default (objs : list nsobj) (x : option nsref) : Prop :=
  exists j, x = Some (NsNum (List.length h0 + j)) /\ nth_error (map o_prefix objs) j = Some None.
Definition dflt_ok (objs : list nsobj) (x : option nsref) : Prop :=
  local_default objs x \/ (~ In None (map o_prefix objs) /\ x = df0).
Definition ens_ok (objs : list nsobj) (x : option nsref) : Prop :=
  match p with
  | Some q => exists ref, x = Some ref /\ ref_ok objs q ref
  | None => dflt_ok objs x
  end.
Record Inv (l1 : list NsGrammar.item) (e : edata) (objs : list nsobj) (df : option nsref) : Prop := {
  i_name : e_name e = n;
  i_defs : e_defs e = List.seq (List.length h0) (List.length objs);
  i_nodup : NoDup (map o_prefix objs);
  i_in : forall x, In x (map o_prefix objs) -> In x (map d_prefix D);
  i_done : forall d, In d (declared l1) -> In d (map odecl objs);
  i_attrs : Forall2 (attr_ok objs) (attributed l1) (e_attrs e);
  i_ns : ens_ok objs (e_ns e);
  i_df : dflt_ok objs df }.

Lemma ref_ok_mono objs objs' q ref :
  (forall j x, nth_error (map o_prefix objs) j = Some x -> nth_error (map o_prefix objs') j = Some x) ->
  ref_ok objs q ref -> ref_ok objs' q ref.
Proof. intros M [H|(H1 & [(j & H2 & H3)|H2])]; [now left|right; split; auto; left; eauto|right; split; auto]. Qed.
Lemma attr_ok_mono objs objs' a x :
  (forall j x, nth_error (map o_prefix objs) j = Some x -> nth_error (map o_prefix objs') j = Some x) ->
  attr_ok objs a x -> attr_ok objs' a x.
Proof.
  intros M (H1 & H2 & H3). split; auto. split; auto. destruct (fst (fst a)); auto.
  destruct H3 as (ref & H3 & H4). exists ref. split; auto. eapply ref_ok_mono; eauto.
Qed.
Lemma grow_mono objs o : forall j x, nth_error (map o_prefix objs) j = Some x -> nth_error (map o_prefix (objs ++ [o])) j = Some x.
Proof. intros j x H. rewrite map_app, nth_error_app1; [exact H|]. now apply nth_lt in H. Qed.

Lemma seq_grow k m : List.seq k m ++ [(k + m)%nat] = List.seq k (S m).
Proof. rewrite <- Nat.add_1_r, seq_app. reflexivity. Qed.

(** A prefix is looked up. *)
Lemma lookup objs q : is_known (map d_prefix D ++ map d_prefix sc) (Some q) -> NoDup (map o_prefix objs) ->
  (forall x, In x (map o_prefix objs) -> In x (map d_prefix D)) ->
  (exists ref, search_ns (h0 ++ objs) q (List.seq (List.length h0) (List.length objs)) st0 = Some ref /\ ref_ok objs q ref)
  \/ (search_ns (h0 ++ objs) q (List.seq (List.length h0) (List.length objs)) st0 = None /\
      find_def (h0 ++ objs) (Some q) (List.seq (List.length h0) (List.length objs)) = None /\
      q <> B "xml" /\ ~ In (Some q) (map o_prefix objs) /\ In (Some q) (map d_prefix D)).
Proof.
  intros K N I. unfold search_ns. destruct (beq q (B "xml")) eqn:X.
  { apply beq_eq in X. left. exists NsXml. split; auto. left. auto. }
  assert (Hx : q <> B "xml") by (intros ->; rewrite beq_refl in X; discriminate).
  destruct (find_def_block objs (Some q) h0) as [(j & Hj & ->)|(Hj & Fd)].
  { left. eexists. split; [reflexivity|]. right. split; auto. left. eauto. }
  rewrite Fd. rewrite search_up_stable by apply HE. destruct (search_up h0 q st0) as [ref|] eqn:S.
  - left. exists ref. split; auto. right. split; auto. right. split; auto. intros Y.
    apply in_map_iff in Y. destruct Y as (d & Ed & Y). rewrite Forall_forall in HF. destruct (HF d Y) as (_ & Z).
    assert (C : search_up h0 q st0 = None) by (apply (env_out _ _ _ _ HE); now rewrite <- Ed). congruence.
  - right. repeat split; auto. destruct K as [K|[K|K]]; [discriminate|congruence|].
    apply in_app_or in K. destruct K as [K|K]; auto. exfalso. apply in_map_iff in K. destruct K as ([dp du] & Ed & K). cbn in Ed. subst dp.
    destruct (env_in _ _ _ _ HE _ _ K) as (i & C & _). congruence.
Qed.

Lemma declared_app a b : declared (a ++ b) = declared a ++ declared b.
Proof. unfold declared. apply flat_map_app. Qed.
Lemma attributed_app a b : attributed (a ++ b) = attributed a ++ attributed b.
Proof. unfold attributed. apply flat_map_app. Qed.

Definition HSt (e : edata) (objs : list nsobj) (df : option nsref) (la : nlast) : nst :=
  St (GElem e [] :: st0) la (h0 ++ objs) df.

Lemma attr_step l1 a m v e objs df la :
  Inv l1 e objs df -> is_known (map d_prefix D ++ map d_prefix sc) a ->
  exists e' objs', item_added (Attribute a m v) (HSt e objs df la) (HSt e' objs' df LAttr) /\ Inv (l1 ++ [Attribute a m v]) e' objs' df.
Proof.
  intros [I1 I2 I3 I4 I5 I6 I7 I8] K.
  assert (DD : declared (l1 ++ [Attribute a m v]) = declared l1) by (rewrite declared_app; apply app_nil_r).
  assert (AA : attributed (l1 ++ [Attribute a m v]) = attributed l1 ++ [(a, m, v)]) by (now rewrite attributed_app).
  destruct e as [ens en edefs eat]. cbn [e_name e_defs e_attrs e_ns] in *. subst en edefs.
  destruct a as [q|].
  - destruct (lookup objs q K I3 I4) as [(ref & S & R)|(S & Fd & Hx & Hno & Hin)].
    + exists (ED ens n (List.seq (List.length h0) (List.length objs)) (eat ++ [NAttr (Some ref) m v])), objs. split.
      * apply ia_attr with (b1 := HSt (ED ens n (List.seq (List.length h0) (List.length objs)) (eat ++ [NAttr (Some ref) m []])) objs df LAttr); [|apply nfill_attr].
        intros Nq Nm. cbn [nkey_effect]. unfold attr_ns. cbn [HSt St n_decl nbind]. cbn [no_nul] in Nq. rewrite c_str_plain by exact Nq.
        unfold attr_key, set_ans, HSt, St. cbn [n_ans n_heap n_stack top_elem no_elem n_last n_pi n_doctype n_ens n_decl n_default e_defs e_ns e_name e_attrs].
        unfold top_elem. cbn [n_stack no_elem e_defs e_ns e_name e_attrs]. rewrite S. rewrite c_str_plain by exact Nm. reflexivity.
      * constructor; cbn [e_name e_defs e_attrs e_ns]; auto.
        -- now rewrite DD.
        -- rewrite AA. apply Forall2_app; auto. constructor; [|constructor]. split; auto. split; auto. cbn. eauto.
    + pose proof (grow_mono objs (NsObj (Some q) None)) as M.
      exists (ED ens n (List.seq (List.length h0) (List.length (objs ++ [NsObj (Some q) None]))) (eat ++ [NAttr (Some (NsNum (List.length h0 + List.length objs))) m v])), (objs ++ [NsObj (Some q) None]). split.
      * apply ia_attr with (b1 := HSt (ED ens n (List.seq (List.length h0) (List.length (objs ++ [NsObj (Some q) None]))) (eat ++ [NAttr (Some (NsNum (List.length h0 + List.length objs))) m []])) (objs ++ [NsObj (Some q) None]) df LAttr); [|apply nfill_attr].
        intros Nq Nm. cbn [nkey_effect]. unfold attr_ns. cbn [HSt St n_decl nbind]. cbn [no_nul] in Nq. rewrite c_str_plain by exact Nq.
        unfold attr_key, set_ans, HSt, St. cbn [n_ans n_heap n_stack n_last n_pi n_doctype n_ens n_decl n_default].
        unfold top_elem. cbn [n_stack no_elem e_defs e_ns e_name e_attrs]. rewrite S. unfold new_ns. rewrite Fd. rewrite c_str_plain by exact Nm.
        rewrite !app_length. cbn [List.length]. rewrite seq_grow, Nat.add_1_r, <- app_assoc. reflexivity.
      * constructor; cbn [e_name e_defs e_attrs e_ns]; auto.
        -- rewrite map_app. cbn [map o_prefix].
           apply (Permutation_NoDup (l := Some q :: map o_prefix objs)); [apply Permutation_cons_append|]. constructor; auto.
        -- intros x Hx'. rewrite map_app in Hx'. apply in_app_or in Hx'. destruct Hx' as [Hx'|[<- |[]]]; auto.
        -- intros d Hd. rewrite DD in Hd. rewrite map_app. apply in_or_app. left. auto.
        -- rewrite AA. apply Forall2_app.
           ++ eapply Forall2_imp; [|exact I6]. intros x y. apply attr_ok_mono. exact M.
           ++ constructor; [|constructor]. split; auto. split; auto. cbn [fst]. eexists. split; [reflexivity|]. right. split; auto. left.
              exists (List.length objs). split; auto. rewrite map_app, nth_error_app2 by (now rewrite map_length). rewrite map_length, Nat.sub_diag. reflexivity.
        -- unfold ens_ok in *. destruct p as [q'|].
           ++ destruct I7 as (ref & H1 & H2). exists ref. split; auto. eapply ref_ok_mono; eauto.
           ++ destruct I7 as [(j & H1 & H2)|(H1 & H2)]; [left; exists j; auto|right; split; auto].
              rewrite map_app. intros X. apply in_app_or in X. destruct X as [X|[X|[]]]; auto. discriminate.
        -- destruct I8 as [(j & H1 & H2)|(H1 & H2)]; [left; exists j; auto|right; split; auto].
           rewrite map_app. intros X. apply in_app_or in X. destruct X as [X|[X|[]]]; auto. discriminate.
  - exists (ED ens n (List.seq (List.length h0) (List.length objs)) (eat ++ [NAttr None m v])), objs. split.
    + apply ia_attr with (b1 := HSt (ED ens n (List.seq (List.length h0) (List.length objs)) (eat ++ [NAttr None m []])) objs df LAttr); [|apply nfill_attr].
      intros _ Nm. cbn [nkey_effect]. unfold attr_key, HSt, St. cbn [n_ans n_stack]. unfold add_attr. cbn [e_ns e_name e_defs e_attrs].
      rewrite c_str_plain by exact Nm. reflexivity.
    + constructor; cbn [e_name e_defs e_attrs e_ns]; auto.
      * now rewrite DD.
      * rewrite AA. apply Forall2_app; auto. constructor; [|constructor]. split; [reflexivity|split; reflexivity].
Qed.

Lemma set_href_prefix objs j v : map o_prefix (set_href objs j v) = map o_prefix objs.
Proof.
  destruct (nth_error objs j) as [o|] eqn:E; [|unfold set_href; now rewrite E].
  destruct (set_href_split objs j v o E) as (a & b & E1 & E2 & _). rewrite E2, E1, !map_app. reflexivity.
Qed.
Lemma set_href_length objs j v : List.length (set_href objs j v) = List.length objs.
Proof. rewrite <- (map_length o_prefix), set_href_prefix. apply map_length. Qed.

(** The object for a declaration: the one there is, or a new one. *)
Lemma decl_object objs q :
  exists j objs', find_def (h0 ++ objs') q (List.seq (List.length h0) (List.length objs')) = Some (List.length h0 + j)%nat /\
    nth_error (map o_prefix objs') j = Some q /\
    ((objs' = objs /\ find_def (h0 ++ objs) q (List.seq (List.length h0) (List.length objs)) = Some (List.length h0 + j)%nat) \/
     (objs' = objs ++ [NsObj q None] /\ j = List.length objs /\ ~ In q (map o_prefix objs) /\
      find_def (h0 ++ objs) q (List.seq (List.length h0) (List.length objs)) = None)).
Proof.
  destruct (find_def_block objs q h0) as [(j & H1 & H2)|(H1 & H2)].
  - exists j, objs. split; [exact H2|]. split; [exact H1|]. left. split; [reflexivity|exact H2].
  - exists (List.length objs), (objs ++ [NsObj q None]).
    assert (X : nth_error (map o_prefix (objs ++ [NsObj q None])) (List.length objs) = Some q).
    { rewrite map_app, nth_error_app2 by (now rewrite map_length). rewrite map_length, Nat.sub_diag. reflexivity. }
    split; [|split; [exact X|right; split; [reflexivity|split; [reflexivity|split; [exact H1|exact H2]]]]]. destruct (find_def_block (objs ++ [NsObj q None]) q h0) as [(j & H3 & H4)|(H3 & H4)].
    + rewrite H4. f_equal. f_equal. assert (j = List.length objs); [|lia].
      destruct (Nat.eq_dec j (List.length objs)) as [|Ne]; auto. exfalso. apply H1.
      assert (j < List.length objs)%nat. { apply nth_lt in H3. rewrite map_length, app_length in H3. cbn in H3. lia. }
      rewrite map_app, nth_error_app1 in H3 by (now rewrite map_length). eapply nth_error_In; eauto.
    + exfalso. apply H3. eapply nth_error_In; eauto.
Qed.

Lemma decl_step l1 a u e objs df la :
  Inv l1 e objs df -> In (Decl a (Some u)) D -> ~ In a (map d_prefix (declared l1)) ->
  exists e' objs' df', item_added (Declaration a u) (HSt e objs df la) (HSt e' objs' df' la) /\ Inv (l1 ++ [Declaration a u]) e' objs' df'
    /\ (a <> None -> df' = df).
Proof.
  intros [I1 I2 I3 I4 I5 I6 I7 I8] K Hnew.
  assert (DD : declared (l1 ++ [Declaration a u]) = declared l1 ++ [Decl a (Some u)]) by (now rewrite declared_app).
  assert (AA : attributed (l1 ++ [Declaration a u]) = attributed l1) by (rewrite attributed_app; apply app_nil_r).
  destruct e as [ens en edefs eat]. cbn [e_name e_defs e_attrs e_ns] in *. subst en edefs.
  destruct (decl_object objs a) as (j & objs1 & Fj & Nj & Hobj).
  assert (M : forall k x, nth_error (map o_prefix objs) k = Some x -> nth_error (map o_prefix objs1) k = Some x).
  { destruct Hobj as [(-> & _)|(-> & _)]; auto. apply grow_mono. }
  assert (Lj : (j < List.length objs1)%nat) by (apply nth_lt in Nj; now rewrite map_length in Nj).
  assert (N1 : NoDup (map o_prefix objs1)).
  { destruct Hobj as [(-> & _)|(-> & _ & Hno & _)]; auto. rewrite map_app.
    apply (Permutation_NoDup (l := a :: map o_prefix objs)); [apply Permutation_cons_append|]. constructor; auto. }
  assert (In1 : forall x, In x (map o_prefix objs1) -> In x (map d_prefix D)).
  { intros x Hx. destruct Hobj as [(-> & _)|(-> & _ & Hno & _)]; auto. rewrite map_app in Hx. apply in_app_or in Hx.
    destruct Hx as [Hx|[<- |[]]]; auto. apply (in_map d_prefix _ _ K). }
  assert (Old : forall o, In o objs -> In o objs1).
  { intros o Ho. destruct Hobj as [(-> & _)|(-> & _)]; auto. apply in_or_app. now left. }
  set (ens' := match a, ens with None, None => Some (NsNum (List.length h0 + j)) | _, x => x end).
  set (df' := match a with None => Some (NsNum (List.length h0 + j)) | Some _ => df end).
  set (objs2 := set_href objs1 j u).
  assert (P2 : map o_prefix objs2 = map o_prefix objs1) by apply set_href_prefix.
  assert (L2 : List.length objs2 = List.length objs1) by apply set_href_length.
  assert (B1 : no_nul a -> ndecl_effect a (HSt (ED ens n (List.seq (List.length h0) (List.length objs)) eat) objs df la)
     = NOk (NS (GElem (ED ens' n (List.seq (List.length h0) (List.length objs1)) eat) [] :: st0) la None false (h0 ++ objs1) None None
               (Some (NsNum (List.length h0 + j))) df')).
  { intros Na.
    assert (X : forall sfx, match sfx with [] => None | _ :: m => Some (c_str m) end = a ->
       ns_declaration sfx (HSt (ED ens n (List.seq (List.length h0) (List.length objs)) eat) objs df la)
     = NOk (NS (GElem (ED ens' n (List.seq (List.length h0) (List.length objs1)) eat) [] :: st0) la None false (h0 ++ objs1) None None
               (Some (NsNum (List.length h0 + j))) df')).
    { intros sfx Hs. unfold ns_declaration, top_elem, HSt, St. cbn [n_stack no_elem]. cbv zeta. rewrite Hs. cbn [n_heap e_defs e_ns e_name e_attrs].
      destruct Hobj as [(-> & Fd)|(-> & -> & Hno & Fd)].
      - rewrite Fd. unfold ens', df'. destruct a, ens; reflexivity.
      - rewrite Fd. unfold new_ns. rewrite Fd. rewrite !app_length. cbn [List.length]. rewrite seq_grow, Nat.add_1_r, <- app_assoc.
        unfold ens', df'. destruct a, ens; reflexivity. }
    unfold ndecl_effect. destruct a as [q|].
    - rewrite X; [reflexivity|]. cbn [no_nul] in Na. now rewrite c_str_plain.
    - now apply X. }
  assert (Dn : match a with Some _ => forall d, df' = Some (NsNum d) -> d <> (List.length h0 + j)%nat | None => u <> [] end).
  { destruct a as [q|].
    - unfold df'. intros d Ed Hd. subst d. destruct I8 as [(k & H1 & H2)|(H1 & H2)].
      + rewrite Ed in H1. injection H1 as H1. apply M in H2. replace k with j in H2 by lia. congruence.
      + destruct (in_dec (fun x y : option bytes => ltac:(decide equality; apply list_eq_dec; apply N.eq_dec)) None (map d_prefix sc)) as [Hs|Hs].
        * apply in_map_iff in Hs. destruct Hs as ([dp du] & Edp & Hs). cbn in Edp. subst dp.
          destruct (env_def _ _ _ _ HE _ Hs) as (i & Ei & Hi). apply nth_lt in Hi. assert (X : Some (NsNum i) = Some (NsNum (List.length h0 + j))) by congruence.
          injection X as X. lia.
        * rewrite (env_nodef _ _ _ _ HE Hs) in H2. congruence.
    - intros ->. contradiction. }
  assert (B2 : NsDom.attr_value u (NS (GElem (ED ens' n (List.seq (List.length h0) (List.length objs1)) eat) [] :: st0) la None false (h0 ++ objs1) None None
               (Some (NsNum (List.length h0 + j))) df') = NOk (HSt (ED ens' n (List.seq (List.length h0) (List.length objs2)) eat) objs2 df' la)).
  { unfold NsDom.attr_value. cbn [n_decl]. unfold update_href. cbn [n_heap]. rewrite set_href_block by exact Lj. fold objs2. rewrite L2.
    unfold set_decl, set_heap. cbn [n_stack n_last n_pi n_doctype n_heap n_ens n_ans n_decl n_default].
    destruct u as [|c u]; [|reflexivity]. destruct df' as [[|d]|] eqn:Ed; [reflexivity| |reflexivity].
    cbn [nsref_eqb]. destruct (Nat.eqb_spec (List.length h0 + j) d) as [<-|]; [|reflexivity].
    exfalso. destruct a as [q|]; [|congruence]. now apply (Dn _ eq_refl). }
  exists (ED ens' n (List.seq (List.length h0) (List.length objs2)) eat), objs2, df'. split; [|split].
  - eapply ia_decl; [exact B1|]. exact B2.
  - assert (Nf : a = None -> df0 = None).
    { intros ->. apply (env_nodef _ _ _ _ HE). rewrite Forall_forall in HF. destruct (HF _ K) as (_ & X). exact X. }
    constructor; cbn [e_name e_defs e_attrs e_ns]; auto.
    + now rewrite P2.
    + now rewrite P2.
    + intros d Hd. rewrite DD in Hd. apply in_app_or in Hd.
      destruct (nth_error objs1 j) as [o|] eqn:Eo; [|apply nth_error_None in Eo; lia].
      assert (Po : o_prefix o = a). { rewrite nth_error_map, Eo in Nj. cbn in Nj. congruence. }
      destruct (set_href_split objs1 j u o Eo) as (x & y & E1 & E2 & _). fold objs2 in E2. destruct Hd as [Hd|[<- |[]]].
      * pose proof (I5 d Hd) as X. apply in_map_iff in X. destruct X as (o' & Eo' & Ho'). apply Old in Ho'. rewrite E1 in Ho'.
        apply in_map_iff. exists o'. split; auto. rewrite E2. apply in_app_or in Ho'. apply in_or_app. destruct Ho' as [Ho'|[Ho'|Ho']]; auto.
        -- exfalso. subst o'. apply Hnew. rewrite <- Po. apply (in_map d_prefix) in Hd. rewrite <- Eo' in Hd. exact Hd.
        -- right. now right.
      * apply in_map_iff. exists (NsObj a (Some u)). split; auto. rewrite E2, Po. apply in_or_app. right. now left.
    + rewrite AA. eapply Forall2_imp; [|exact I6]. intros x y. apply attr_ok_mono. intros k z Hz. rewrite P2. auto.
    + unfold ens_ok in *. destruct p as [q'|].
      * destruct I7 as (ref & H1 & H2). exists ref. split.
        -- unfold ens'. destruct a; auto. now rewrite H1.
        -- eapply ref_ok_mono; [|exact H2]. intros k z Hz. rewrite P2. auto.
      * unfold dflt_ok, local_default. rewrite P2. destruct I7 as [(k & H1 & H2)|(H1 & H2)].
        -- left. exists k. split; auto. unfold ens'. destruct a; auto. now rewrite H1.
        -- destruct a as [q|].
           ++ right. unfold ens'. split; auto. destruct Hobj as [(-> & _)|(-> & _)]; auto.
              rewrite map_app. intros X. apply in_app_or in X. destruct X as [X|[X|[]]]; auto. discriminate.
           ++ left. exists j. split; auto. unfold ens'. rewrite H2, Nf by auto. reflexivity.
    + unfold dflt_ok, local_default. rewrite P2. unfold df'. destruct a as [q|].
      * destruct I8 as [(k & H1 & H2)|(H1 & H2)]; [left; exists k; auto|right; split; auto].
        destruct Hobj as [(-> & _)|(-> & _)]; auto.
        rewrite map_app. intros X. apply in_app_or in X. destruct X as [X|[X|[]]]; auto. discriminate.
      * left. exists j. auto.
  - unfold df'. destruct a; congruence.
Qed.

Lemma items_step l2 : forall l1 e objs df la,
  Inv l1 e objs df -> D = declared (l1 ++ l2) ->
  Forall (fun a => is_known (map d_prefix D ++ map d_prefix sc) (fst (fst a))) (attributed l2) ->
  exists e' objs' df' la', items_added l2 (HSt e objs df la) (HSt e' objs' df' la') /\ Inv (l1 ++ l2) e' objs' df'
    /\ (~ In None (map d_prefix (declared l2)) -> df' = df).
Proof.
  induction l2 as [|i l2 IH]; intros l1 e objs df la I ED0 FK.
  - exists e, objs, df, la. split; [constructor|]. rewrite app_nil_r. auto.
  - assert (E1 : D = declared ((l1 ++ [i]) ++ l2)) by (now rewrite <- app_assoc).
    destruct i as [a m v|a u].
    + cbn in FK. inversion FK as [|x y F1 F2]; subst x y. destruct (attr_step l1 a m v e objs df la I F1) as (e1 & objs1 & S1 & I1).
      destruct (IH _ _ _ _ LAttr I1 E1 F2) as (e2 & objs2 & df2 & la2 & S2 & I2 & F3).
      exists e2, objs2, df2, la2. split; [econstructor; eauto|]. rewrite <- app_assoc in I2. split; auto.
    + destruct (decl_step l1 a u e objs df la I) as (e1 & objs1 & df1 & S1 & I1 & F1).
      { rewrite ED0, declared_app. apply in_or_app. right. now left. }
      { intros X. rewrite ED0, declared_app, map_app in HD. cbn in HD. apply NoDup_remove_2 in HD. apply HD. apply in_or_app. now left. }
      destruct (IH _ _ _ _ la I1 E1 FK) as (e2 & objs2 & df2 & la2 & S2 & I2 & F3).
      exists e2, objs2, df2, la2. split; [econstructor; eauto|]. rewrite <- app_assoc in I2. split; auto.
      intros X. cbn in X. rewrite F3; [apply F1|]; intros Y; apply X; auto.
Qed.
End Head.

(** What is asked of the head of an element. *)
Record head_ok (sc : list decl) (p : option bytes) (l : list NsGrammar.item) : Prop := {
  ho_nodup : NoDup (map d_prefix (declared l));
  ho_new : Forall (fun d => d_prefix d <> Some (B "xml") /\ ~ In (d_prefix d) (map d_prefix sc)) (declared l);
  ho_empty : ~ In (Decl None (Some [])) (declared l);
  ho_known : is_known (map d_prefix (declared l) ++ map d_prefix sc) p;
  ho_attrs : Forall (fun a => is_known (map d_prefix (declared l) ++ map d_prefix sc) (fst (fst a))) (attributed l) }.

Lemma create_is n s : is_name n -> n_create_node None n s = n_create_element None n s.
Proof.
  intros H. destruct (name_first _ H) as (c & r & -> & Hc). unfold n_create_node.
  rewrite beq_false by (intros X; injection X as -> _; discriminate). now rewrite (name_ne c cQM Hc) by reflexivity.
Qed.
Lemma create_no_root n s : n_create_element None n s =
  let '(x, h, defs, ens) := element_ns s in n_add_node (NElem (ED x n defs []) []) LKid (set_ens ens (set_heap h s)).
Proof. unfold n_create_element. destruct (n_last s); reflexivity. Qed.
Lemma gwith_same f : gopen f -> gwith f (gkids f) = f.
Proof. destruct f; auto; contradiction. Qed.

Lemma label_effect f r la h df sc p n l : gopen f -> Env h (f :: r) df sc -> head_ok sc p l ->
  exists e objs, (is_name n -> nlabel_effect p n (St (f :: r) la h df) = NOk (St (gwith f (NElem e [] :: gkids f) :: r) LKid (h ++ objs) df))
    /\ Inv h (f :: r) df (declared l) p n [] e objs df.
Proof.
  intros Ho HE [K1 K2 K3 K4 K5]. destruct p as [q|].
  - destruct (lookup h (f :: r) df sc (declared l) HE K2 [] q K4 (NoDup_nil _) (fun x X => match X with end))
      as [(ref & S & R)|(S & Fd & Hx & Hno & Hin)].
    + rewrite app_nil_r in S. cbn [List.length List.seq] in S.
      exists (ED (Some ref) n [] []), []. split.
      * intros Hn. unfold nlabel_effect. rewrite create_is by exact Hn. rewrite create_no_root. unfold element_ns, set_ens, St.
        cbn [n_ens n_heap n_stack]. rewrite S. rewrite app_nil_r. destruct f; try contradiction; reflexivity.
      * constructor; cbn; auto; try contradiction.
        -- constructor.
        -- exists ref. auto.
        -- right. auto.
    + rewrite app_nil_r in S. cbn [List.length List.seq] in S.
      exists (ED (Some (NsNum (List.length h))) n [List.length h] []), [NsObj (Some q) None]. split.
      * intros Hn. unfold nlabel_effect. rewrite create_is by exact Hn. rewrite create_no_root. unfold element_ns, set_ens, St.
        cbn [n_ens n_heap n_stack]. rewrite S. destruct f; try contradiction; reflexivity.
      * constructor; cbn; auto; try contradiction.
        -- constructor; [intros []|constructor].
        -- intros x [<- |[]]. exact Hin.
        -- exists (NsNum (List.length h)). split; auto. right. split; auto. left. exists 0%nat. split; [f_equal; lia|reflexivity].
        -- right. split; auto. cbn. intros [X|[]]. discriminate.
  - exists (ED df n [] []), []. split.
    + intros Hn. unfold nlabel_effect. rewrite create_is by exact Hn. rewrite create_no_root. unfold element_ns, St.
      cbn [n_ens n_heap n_stack n_default]. rewrite app_nil_r. destruct f; try contradiction; reflexivity.
    + constructor; cbn; auto; try contradiction.
      * constructor.
      * right. auto.
      * right. auto.
Qed.

Lemma head_effect f r la h df sc p n l : gopen f -> Env h (f :: r) df sc -> head_ok sc p l ->
  exists e objs df', head_added p n l (St (f :: r) la h df) (St (gwith f (NElem e [] :: gkids f) :: r) LKid (h ++ objs) df')
    /\ Inv h (f :: r) df (declared l) p n l e objs df' /\ (~ In None (map d_prefix (declared l)) -> df' = df).
Proof.
  intros Ho HE HK. destruct (label_effect f r la h df sc p n l Ho HE HK) as (e0 & objs0 & L & I0). destruct HK as [K1 K2 K3 K4 K5].
  destruct (items_step h (f :: r) df sc (declared l) p n HE K1 K2 K3 l [] e0 objs0 df LTop I0 eq_refl K5)
    as (e & objs & df' & la' & S & I & Fd).
  exists e, objs, df'. split; [|split; auto].
  eapply head_add; [exact L| |exact S|].
  - unfold n_push_last, HSt, St. cbn [n_last n_stack]. destruct f; try contradiction; reflexivity.
  - unfold n_pop, HSt, St. cbn [n_stack]. destruct f; try contradiction; reflexivity.
Qed.

(** ** The finished head *)
Lemma odecl_prefix objs : map d_prefix (map odecl objs) = map o_prefix objs.
Proof. rewrite map_map. reflexivity. Qed.

Lemma view_defs objs h3 : forall h,
  map (fun i => Decl (prefix_of (h ++ objs ++ h3) i) (href_of (h ++ objs ++ h3) i)) (List.seq (List.length h) (List.length objs)) = map odecl objs.
Proof.
  induction objs as [|o objs IH]; intros h; [reflexivity|]. cbn [List.length List.seq map]. f_equal.
  - unfold prefix_of, href_of. rewrite nth_error_app2 by lia. rewrite Nat.sub_diag. reflexivity.
  - specialize (IH (h ++ [o])). rewrite <- app_assoc in IH. cbn [app] in IH |- *. rewrite app_length in IH. cbn [List.length] in IH.
    rewrite Nat.add_1_r in IH. exact IH.
Qed.

Section Finished.
Variables (h : list nsobj) (st : list gframe) (df df' : option nsref) (sc : list decl) (p : option bytes) (n : bytes)
  (l : list NsGrammar.item) (e : edata) (objs : list nsobj).
Hypothesis HE : Env h st df sc.
Hypothesis HK : head_ok sc p l.
Hypothesis HI : Inv h st df (declared l) p n l e objs df'.

Lemma fin_perm : Permutation (declared l) (map odecl objs).
Proof.
  apply NoDup_Permutation.
  - apply (NoDup_map_inv d_prefix). apply HK.
  - apply (NoDup_map_inv d_prefix). rewrite odecl_prefix. apply HI.
  - intros d. split; [apply HI|]. intros Hd.
    pose proof (in_map d_prefix _ _ Hd) as X. rewrite odecl_prefix in X. apply (i_in _ _ _ _ _ _ _ _ _ _ HI) in X.
    apply in_map_iff in X. destruct X as (d' & E' & Hd'). pose proof (i_done _ _ _ _ _ _ _ _ _ _ HI d' Hd') as Y.
    assert (d' = d); [|now subst]. apply (no_dup_prefix d_prefix (map odecl objs)); auto. rewrite odecl_prefix. apply HI.
Qed.
Lemma fin_fresh x : In x (map o_prefix objs) -> ~ In x (map d_prefix sc).
Proof.
  intros H. apply (i_in _ _ _ _ _ _ _ _ _ _ HI) in H. apply in_map_iff in H. destruct H as (d & <- & Hd).
  pose proof (ho_new _ _ _ HK) as X. rewrite Forall_forall in X. apply (X d Hd).
Qed.
Lemma nodup_app {A} (a b : list A) : NoDup a -> NoDup b -> (forall x, In x a -> ~ In x b) -> NoDup (a ++ b).
Proof.
  induction 1 as [|x a Hx _ IH]; intros Hb D; auto. cbn [app]. constructor.
  - intros X. apply in_app_or in X. destruct X as [X|X]; auto. apply (D x); auto. now left.
  - apply IH; auto. intros y Hy. apply D. now right.
Qed.
Lemma fin_nodup : NoDup (map d_prefix (map odecl objs ++ sc)).
Proof.
  rewrite map_app, odecl_prefix. apply nodup_app.
  - apply HI.
  - apply HE.
  - apply fin_fresh.
Qed.

(** The references have the right prefix and URI. *)
Lemma nth_prefix j x : nth_error (map o_prefix objs) j = Some x -> exists u, nth_error objs j = Some (NsObj x u).
Proof. rewrite nth_error_map. destruct (nth_error objs j) as [[a u]|]; [|discriminate]. cbn. intros H. injection H as ->. eauto. Qed.
Lemma outer_ref q ref : search_up h q st = Some ref -> exists i u, ref = NsNum i /\ nth_error h i = Some (NsObj (Some q) u) /\ In (Decl (Some q) u) sc.
Proof.
  intros H. assert (X : In (Some q) (map d_prefix sc)).
  { destruct (in_dec (fun x y : option bytes => ltac:(decide equality; apply list_eq_dec; apply N.eq_dec)) (Some q) (map d_prefix sc)) as [Hs|Hs]; auto.
    rewrite (env_out _ _ _ _ HE q Hs) in H. discriminate. }
  apply in_map_iff in X. destruct X as ([dp u] & Ed & X). cbn in Ed. subst dp. destruct (env_in _ _ _ _ HE q u X) as (i & A & C).
  exists i, u. split; [congruence|auto].
Qed.
Lemma ref_num h3 i o : nth_error (h ++ objs ++ h3) i = Some o ->
  ref_prefix (h ++ objs ++ h3) (Some (NsNum i)) = o_prefix o /\ ref_uri (h ++ objs ++ h3) (Some (NsNum i)) = o_href o.
Proof. intros H. cbn. unfold prefix_of, href_of. now rewrite H. Qed.
Lemma fin_ref h3 q ref : ref_ok h st (declared l) objs q ref ->
  ref_prefix (h ++ objs ++ h3) (Some ref) = Some q /\ uri_of (map odecl objs ++ sc) (Some q) (ref_uri (h ++ objs ++ h3) (Some ref)).
Proof.
  intros [(-> & ->)|(Hx & [(j & -> & Hj)|(Hd & Hs)])].
  - split; auto. left. auto.
  - destruct (nth_prefix _ _ Hj) as (u & Hu). destruct (ref_num h3 _ _ (nth_block h objs h3 j _ Hu)) as (-> & ->). split; auto.
    right. split; [congruence|]. apply resolves_in; [apply fin_nodup|]. apply in_or_app. left. apply nth_error_In in Hu.
    apply (in_map odecl) in Hu. exact Hu.
  - destruct (outer_ref _ _ Hs) as (i & u & -> & Hi & Hu).
    assert (X : nth_error (h ++ objs ++ h3) i = Some (NsObj (Some q) u)) by (rewrite nth_error_app1; [exact Hi|now apply nth_lt in Hi]).
    destruct (ref_num h3 _ _ X) as (-> & ->). split; auto. right. split; [congruence|]. apply resolves_in; [apply fin_nodup|].
    apply in_or_app. now right.
Qed.
Lemma fin_default h3 x : dflt_ok h df objs x ->
  ref_prefix (h ++ objs ++ h3) x = None /\ uri_of (map odecl objs ++ sc) None (ref_uri (h ++ objs ++ h3) x).
Proof.
  intros [(j & -> & Hj)|(Hn & ->)].
  - destruct (nth_prefix _ _ Hj) as (u & Hu). destruct (ref_num h3 _ _ (nth_block h objs h3 j _ Hu)) as (-> & ->). split; auto.
    right. split; [discriminate|]. apply resolves_in; [apply fin_nodup|]. apply in_or_app. left. apply nth_error_In in Hu.
    apply (in_map odecl) in Hu. exact Hu.
  - destruct (in_dec (fun x y : option bytes => ltac:(decide equality; apply list_eq_dec; apply N.eq_dec)) None (map d_prefix sc)) as [Hs|Hs].
    + apply in_map_iff in Hs. destruct Hs as ([dp u] & Ed & Hs). cbn in Ed. subst dp. destruct (env_def _ _ _ _ HE u Hs) as (i & Ei & Hi). rewrite Ei.
      assert (X : nth_error (h ++ objs ++ h3) i = Some (NsObj None u)) by (rewrite nth_error_app1; [exact Hi|now apply nth_lt in Hi]).
      destruct (ref_num h3 _ _ X) as (-> & ->). split; auto. right. split; [discriminate|]. apply resolves_in; [apply fin_nodup|].
      apply in_or_app. now right.
    + rewrite (env_nodef _ _ _ _ HE Hs). split; auto. right. split; [discriminate|]. apply resolves_out. rewrite map_app, odecl_prefix.
      intros X. apply in_app_or in X. destruct X; auto.
Qed.
Lemma fin_ns h3 : ref_prefix (h ++ objs ++ h3) (e_ns e) = p /\ uri_of (map odecl objs ++ sc) p (ref_uri (h ++ objs ++ h3) (e_ns e)).
Proof.
  pose proof (i_ns _ _ _ _ _ _ _ _ _ _ HI) as X. unfold ens_ok in X.
  assert (Cp : p = None \/ exists q, p = Some q) by (clear; destruct p; eauto). destruct Cp as [Cp|(q & Cp)]; rewrite Cp in X |- *; [|].
  2:{ destruct X as (ref & -> & X). now apply fin_ref. }
  - now apply fin_default.
Qed.
Lemma fin_attrs h3 : Forall2 (attr_means (map odecl objs ++ sc)) (attributed l) (map (view_attr (h ++ objs ++ h3)) (e_attrs e)).
Proof.
  pose proof (i_attrs _ _ _ _ _ _ _ _ _ _ HI) as X. induction X as [|[[a m] v] x la lx H _ IH]; [constructor|]. cbn [map]. constructor; auto.
  destruct H as (H1 & H2 & H3). cbn [fst snd] in *. unfold view_attr. rewrite H1, H2. destruct a as [q|].
  - destruct H3 as (ref & -> & H3). destruct (fin_ref h3 q ref H3) as (-> & Y). now constructor.
  - rewrite H3. cbn. constructor.
Qed.

(** The environment of the children. *)
Lemma fin_search q : ~ In (Some q) (map o_prefix objs) -> forall k, search_up (h ++ objs) q (GElem e k :: st) = search_up h q st.
Proof.
  intros Hq k. cbn [search_up]. rewrite (i_defs _ _ _ _ _ _ _ _ _ _ HI).
  destruct (find_def_block objs (Some q) h) as [(j & Hj & _)|(_ & ->)]; [exfalso; apply Hq; eapply nth_error_In; eauto|].
  rewrite search_up_stable by apply HE.
  destruct (own_ns (h ++ objs) q (e_ns e)) as [x|] eqn:E; auto. symmetry.
  unfold own_ns in E. destruct (e_ns e) as [[|i]|] eqn:En; try discriminate. destruct (obeq _ _) eqn:Eq; [|discriminate].
  injection E as <-. apply obeq_iff in Eq.
  destruct (fin_ns []) as (Hp & _). rewrite app_nil_r in Hp. rewrite En in Hp. cbn in Hp. rewrite Eq in Hp.
  pose proof (i_ns _ _ _ _ _ _ _ _ _ _ HI) as X. unfold ens_ok in X. rewrite <- Hp in X. rewrite En in X.
  destruct X as (ref & E1 & [(_ & E2)|(_ & [(j & E2 & Hj)|(_ & E2)])]); injection E1 as <-.
  - discriminate.
  - exfalso. apply Hq. eapply nth_error_In; eauto.
  - exact E2.
Qed.
Lemma fin_env k : Env (h ++ objs) (GElem e k :: st) df' (map odecl objs ++ sc).
Proof.
  assert (L : forall q u, In (Decl q u) (map odecl objs) -> exists j, nth_error objs j = Some (NsObj q u)).
  { intros q u X. apply in_map_iff in X. destruct X as ([a b] & E & X). injection E as -> ->. now apply In_nth_error in X. }
  assert (LP : forall q u, In (Decl q u) (map odecl objs) -> In q (map o_prefix objs)).
  { intros q u X. apply (in_map d_prefix) in X. now rewrite odecl_prefix in X. }
  constructor.
  - intros q u X. apply in_app_or in X. destruct X as [X|X].
    + cbn [search_up]. rewrite (i_defs _ _ _ _ _ _ _ _ _ _ HI).
      destruct (find_def_block objs (Some q) h) as [(j & Hj & ->)|(Hn & _)]; [|exfalso; eapply Hn, LP; eauto].
      exists (List.length h + j)%nat. split; auto. destruct (nth_prefix _ _ Hj) as (u' & Hu').
      assert (Y : In (Decl (Some q) u') (map odecl objs)) by (apply nth_error_In, (in_map odecl) in Hu'; exact Hu').
      assert (Z : Decl (Some q) u = Decl (Some q) u').
      { apply (no_dup_prefix d_prefix (map odecl objs)); auto. rewrite odecl_prefix. apply HI. }
      injection Z as ->. pose proof (nth_block h objs [] j _ Hu') as W. now rewrite app_nil_r in W.
    + rewrite fin_search.
      * destruct (env_in _ _ _ _ HE q u X) as (i & A & C). exists i. split; auto. rewrite nth_error_app1; [exact C|now apply nth_lt in C].
      * intros Y. apply fin_fresh in Y. apply Y. apply (in_map d_prefix _ _ X).
  - intros q X. rewrite map_app, odecl_prefix in X. rewrite fin_search.
    + apply HE. intros Y. apply X. apply in_or_app. now right.
    + intros Y. apply X. apply in_or_app. now left.
  - intros u X. apply in_app_or in X. destruct X as [X|X].
    + destruct (i_df _ _ _ _ _ _ _ _ _ _ HI) as [(j & Ej & Hj)|(Hn & Ej)]; rewrite Ej; [|exfalso; eapply Hn, LP; eauto].
      exists (List.length h + j)%nat. split; auto. destruct (nth_prefix _ _ Hj) as (u' & Hu').
      assert (Y : In (Decl None u') (map odecl objs)) by (apply nth_error_In, (in_map odecl) in Hu'; exact Hu').
      assert (Z : Decl None u = Decl None u').
      { apply (no_dup_prefix d_prefix (map odecl objs)); auto. rewrite odecl_prefix. apply HI. }
      injection Z as ->. pose proof (nth_block h objs [] j _ Hu') as W. now rewrite app_nil_r in W.
    + destruct (i_df _ _ _ _ _ _ _ _ _ _ HI) as [(j & Ej & Hj)|(Hn & Ej)]; rewrite Ej.
      * exfalso. apply nth_error_In in Hj. apply fin_fresh in Hj. apply Hj. apply (in_map d_prefix _ _ X).
      * destruct (env_def _ _ _ _ HE u X) as (i & Ei & Hi). exists i. split; auto. rewrite nth_error_app1; [exact Hi|now apply nth_lt in Hi].
  - intros X. rewrite map_app, odecl_prefix in X. destruct (i_df _ _ _ _ _ _ _ _ _ _ HI) as [(j & Ej & Hj)|(Hn & Ej)]; rewrite Ej.
    + exfalso. apply X. apply in_or_app. left. eapply nth_error_In; eauto.
    + apply HE. intros Y. apply X. apply in_or_app. now right.
  - constructor.
    + cbn. split.
      * rewrite (i_defs _ _ _ _ _ _ _ _ _ _ HI). rewrite Forall_forall. intros i Hi. apply in_seq in Hi. rewrite app_length. lia.
      * intros i Hi. pose proof (i_ns _ _ _ _ _ _ _ _ _ _ HI) as X. unfold ens_ok in X. rewrite Hi in X. rewrite app_length.
        assert (DO : dflt_ok h df objs (Some (NsNum i)) -> (i < List.length h + List.length objs)%nat).
        { intros [(j & E1 & Hj)|(_ & E1)].
          - injection E1 as ->. apply nth_lt in Hj. rewrite map_length in Hj. lia.
          - destruct (in_dec (fun x y : option bytes => ltac:(decide equality; apply list_eq_dec; apply N.eq_dec)) None (map d_prefix sc)) as [Hs|Hs].
            + apply in_map_iff in Hs. destruct Hs as ([dp u] & Ed & Hs). cbn in Ed. subst dp. destruct (env_def _ _ _ _ HE u Hs) as (i' & E2 & Hi').
              apply nth_lt in Hi'. assert (i = i') by congruence. lia.
            + rewrite (env_nodef _ _ _ _ HE Hs) in E1. discriminate. }
        assert (Cp : p = None \/ exists q, p = Some q) by (clear; destruct p; eauto).
        destruct Cp as [Cp|(q & Cp)]; rewrite Cp in X; auto.
        destruct X as (ref & E1 & [(_ & E2)|(_ & [(j & E2 & Hj)|(_ & E2)])]); injection E1 as <-.
        -- discriminate.
        -- injection E2 as ->. apply nth_lt in Hj. rewrite map_length in Hj. lia.
        -- destruct (outer_ref _ _ E2) as (i' & u & E3 & Hi' & _). injection E3 as ->. apply nth_lt in Hi'. lia.
    + eapply Forall_impl; [|apply HE]. intros g. apply frame_lt_app.
  - apply fin_nodup.
Qed.

(** The finished element. *)
Lemma fin_means h3 ks nks : Forall2 (fun w x => means (map odecl objs ++ sc) w (view (h ++ objs ++ h3) x)) ks nks ->
  means sc (WElem p n l ks) (view (h ++ objs ++ h3) (NElem e nks)).
Proof.
  intros HKs. cbn [view]. rewrite (i_name _ _ _ _ _ _ _ _ _ _ HI), (i_defs _ _ _ _ _ _ _ _ _ _ HI), view_defs.
  destruct (fin_ns h3) as (-> & U). apply m_elem; auto.
  - apply fin_perm.
  - apply fin_attrs.
  - clear - HKs. induction HKs; constructor; auto.
Qed.
End Finished.
