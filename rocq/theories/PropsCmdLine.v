(** C83: the command line is performed as it is written *)
From Coq Require Import NArith ZArith List Bool Arith String Lia.
From Verif Require Import Bytes BytesFacts CmdLine.
Import ListNotations.
Local Open Scope string_scope.
Local Open Scope list_scope.
Local Open Scope nat_scope.

(** * Specification *)
Definition conversions : list cmd := [CToXmq; CToXml; CToHtmq; CToHtml; CToJson; CToText; CToClines; CRenderTerminal; CRenderHtml; CRenderTex; CRenderRaw; CTokenize].
Definition outputs : list cmd := [CNoOutput; CPrint; CSaveTo; CPager; CBrowser].
Definition one_of (cs : list cmd) (s : step) : Prop := In (s_cmd s) cs.
Definition which (cs : list cmd) (l : list step) : list step := filter (fun s => if in_dec cmd_eq_dec (s_cmd s) cs then true else false) l.
(** The words are arguments of the command, in turn. *)
Inductive arguments (F : files) (c : cmd) : fields -> list bytes -> fields -> Prop :=
| ar_none o : arguments F c o [] o
| ar_more o a o' l o'' : handle_option F c o a = Taken o' -> arguments F c o' l o'' -> arguments F c o (a :: l) o''.
(** The words are a command, its arguments, the next command, and so on.  A word is an
    argument if the command before takes it. *)
Inductive spelled (F : files) : list bytes -> list step -> Prop :=
| sp_last n args o : cmd_from n <> CNone -> arguments F (cmd_from n) no_fields args o -> spelled F (n :: args) [Step (cmd_from n) args o]
| sp_more n args o n' words l : cmd_from n <> CNone -> arguments F (cmd_from n) no_fields args o ->
    handle_option F (cmd_from n) o n' = Refused -> spelled F (n' :: words) l -> spelled F (n :: args ++ n' :: words) (Step (cmd_from n) args o :: l).
(** Nothing is to be printed: for-each or no-output, and no conversion after it. *)
Definition silent (l : list step) : Prop := exists a s b, l = a ++ s :: b /\ (s_cmd s = CForEach \/ s_cmd s = CNoOutput) /\ Forall (fun s => ~ one_of conversions s) b.
(** The commands that are performed for those that are written. *)
Inductive completed : list step -> list step -> Prop :=
| co_silent l : silent l -> completed l l
| co_given l : ~ silent l -> Exists (one_of conversions) l -> Exists (one_of outputs) l -> completed l l
| co_print l : ~ silent l -> Exists (one_of conversions) l -> ~ Exists (one_of outputs) l -> completed l (l ++ [plain_step CPrint])
| co_both l : ~ silent l -> ~ Exists (one_of conversions) l -> ~ Exists (one_of outputs) l -> completed l (l ++ [plain_step CToXmq; plain_step CPrint])
| co_convert a o b : ~ silent (a ++ o :: b) -> ~ Exists (one_of conversions) (a ++ o :: b) -> one_of outputs o ->
    completed (a ++ o :: b) (a ++ plain_step (if cmd_eq_dec (s_cmd o) CBrowser then CRenderHtml else CToXmq) :: o :: b).
(** An option: it starts with - and is not the single - that stands for the standard input. *)
Definition option_word (a : bytes) : Prop := (exists r, a = B "-" ++ r) /\ a <> B "-".
Definition the_file (f : option bytes) : list bytes := match f with Some f => [f] | None => [] end.

(** * Proofs *)
Lemma cmd_beq_ok a b : cmd_beq a b = true <-> a = b.
Proof. split; [apply internal_cmd_dec_bl|apply internal_cmd_dec_lb]. Qed.
Lemma cmd_beq_no a b : cmd_beq a b = false <-> a <> b.
Proof. rewrite <- not_true_iff_false, cmd_beq_ok. reflexivity. Qed.
Lemma to_which l : which conversions l = filter (fun s => is_to (s_cmd s)) l.
Proof. apply filter_ext. intros [c a o]. cbn. destruct c; reflexivity. Qed.
Lemma output_which l : which outputs l = filter (fun s => is_output (s_cmd s)) l.
Proof. apply filter_ext. intros [c a o]. cbn. destruct c; reflexivity. Qed.
Lemma to_in s : is_to (s_cmd s) = true <-> one_of conversions s.
Proof. unfold one_of. destruct (s_cmd s); cbn; split; intro H; try discriminate H; try (now auto 20); repeat (destruct H as [H|H]; [discriminate H|]); destruct H. Qed.
Lemma output_in s : is_output (s_cmd s) = true <-> one_of outputs s.
Proof. unfold one_of. destruct (s_cmd s); cbn; split; intro H; try discriminate H; try (now auto 20); repeat (destruct H as [H|H]; [discriminate H|]); destruct H. Qed.
Lemma quiet_in s : is_quiet (s_cmd s) = true <-> s_cmd s = CForEach \/ s_cmd s = CNoOutput.
Proof. destruct (s_cmd s); cbn; split; intro H; try discriminate H; auto; destruct H as [H|H]; discriminate H. Qed.
Lemma to_exists l : Exists (one_of conversions) l <-> 0 < List.length (which conversions l).
Proof.
  rewrite to_which. induction l as [|s l IH]; cbn; [split; [intro H; inversion H|lia]|]. destruct (is_to (s_cmd s)) eqn:E.
  - split; [cbn; lia|]. intros _. constructor. now apply to_in.
  - rewrite <- IH. split; intro H; [inversion H as [x y Q|x y Q]; subst; [apply to_in in Q; congruence|exact Q]|now apply Exists_cons_tl].
Qed.
Lemma output_exists l : Exists (one_of outputs) l <-> 0 < List.length (which outputs l).
Proof.
  rewrite output_which. induction l as [|s l IH]; cbn; [split; [intro H; inversion H|lia]|]. destruct (is_output (s_cmd s)) eqn:E.
  - split; [cbn; lia|]. intros _. constructor. now apply output_in.
  - rewrite <- IH. split; intro H; [inversion H as [x y Q|x y Q]; subst; [apply output_in in Q; congruence|exact Q]|now apply Exists_cons_tl].
Qed.
Lemma which_app cs a b : which cs (a ++ b) = which cs a ++ which cs b.
Proof. apply filter_app. Qed.

(** ** Splitting the words *)
Fixpoint remember_all (l : list step) (st : state) : option state :=
  match l with [] => Some st | s :: l => match remember s st with Some st => remember_all l st | None => None end end.
(** The words after those that are taken already. *)
Definition goes_on (F : files) (c : cmd) (o : fields) (args words : list bytes) (ss : list step) : Prop :=
  exists more o', arguments F c o more o' /\
    ((words = more /\ ss = [Step c (args ++ more) o']) \/
     exists n' rest l, words = more ++ n' :: rest /\ handle_option F c o' n' = Refused /\ spelled F (n' :: rest) l /\ ss = Step c (args ++ more) o' :: l).
Lemma goes_on_spelled F n words ss : cmd_from n <> CNone -> goes_on F (cmd_from n) no_fields [] words ss <-> spelled F (n :: words) ss.
Proof.
  intro Hn. split.
  - intros (more & o' & Ha & [(-> & ->)|(n' & rest & l & -> & Hr & Hs & ->)]); [now apply sp_last|now apply sp_more].
  - intro H. inversion H as [n0 args o Hn0 Ha E1 E2|n0 args o n' w l Hn0 Ha Hr Hs E1 E2]; subst.
    + exists words, o. split; [exact Ha|]. left. now split.
    + exists args, o. split; [exact Ha|]. right. exists n', w, l. auto.
Qed.
Lemma read_spec F words : forall c o args st st', read_commands F c o args words st = ReadOk st' <-> exists ss, goes_on F c o args words ss /\ remember_all ss st = Some st'.
Proof.
  induction words as [|a words IH]; intros c o args st st'; cbn [read_commands].
  - split.
    + destruct (remember (Step c args o) st) as [s1|] eqn:R; [|discriminate]. intro E. injection E as <-. exists [Step c args o]. split; [|cbn; now rewrite R].
      exists [], o. split; [constructor|]. left. now rewrite app_nil_r.
    + intros (ss & (more & o' & Ha & [(<- & ->)|(n' & rest & l & E & _)]) & R); [|destruct more; discriminate E]. inversion Ha; subst. rewrite app_nil_r in R. cbn in R. destruct (remember _ st) as [s1|]; [|discriminate R]. congruence.
  - destruct (handle_option F c o a) as [o1| |] eqn:Eh.
    + rewrite IH. split; intros (ss & (more & o' & Ha & Hd) & R); exists ss; (split; [|exact R]).
      * exists (a :: more), o'. split; [now apply (ar_more F c o a o1)|]. rewrite <- app_assoc in Hd. cbn in Hd. destruct Hd as [(-> & ->)|(n' & rest & l & -> & Q)]; [left; now split|right; exists n', rest, l; now split].
      * destruct more as [|a' more].
        { inversion Ha; subst. destruct Hd as [(E & _)|(n' & rest & l & E & Hr & _)]; [discriminate E|]. injection E as <- <-. rewrite Hr in Eh. discriminate Eh. }
        inversion Ha as [|o0 a0 o2 l0 o3 Hh Ha']; subst. exists more, o'. rewrite <- app_assoc. cbn.
        destruct Hd as [(E & ->)|(n' & rest & l & E & Q)]; injection E as <- ->; rewrite Eh in Hh; injection Hh as <-; (split; [exact Ha'|]); [left; now split|right; exists n', rest, l; now split].
    + assert (Z : forall ss, goes_on F c o args (a :: words) ss -> exists l, cmd_from a <> CNone /\ goes_on F (cmd_from a) no_fields [] words l /\ ss = Step c args o :: l).
      { intros ss (more & o' & Ha & Hd). destruct more as [|a' more].
        - inversion Ha; subst. rewrite app_nil_r in Hd. destruct Hd as [(E & _)|(n' & rest & l & E & _ & Hs & ->)]; [discriminate E|]. injection E as <- <-. exists l.
          assert (Hc : cmd_from a <> CNone) by now inversion Hs. split; [exact Hc|]. split; [now apply goes_on_spelled|reflexivity].
        - inversion Ha as [|o0 a0 o2 l0 o3 Hh Ha']; subst. destruct Hd as [(E & _)|(n' & rest & l & E & _)]; injection E as <- _; rewrite Hh in Eh; discriminate Eh. }
      destruct (cmd_beq (cmd_from a) CNone) eqn:En.
      * split; [discriminate|]. intros (ss & Hg & _). destruct (Z ss Hg) as (l & Hc & _). apply cmd_beq_ok in En. contradiction.
      * apply cmd_beq_no in En. split.
        -- destruct (remember (Step c args o) st) as [s1|] eqn:R; [|discriminate]. intro E. apply IH in E. destruct E as (l & Hg & Hr). exists (Step c args o :: l). split; [|cbn; now rewrite R].
           exists [], o. split; [constructor|]. right. exists a, words, l. rewrite app_nil_r. split; [reflexivity|]. split; [exact Eh|]. split; [now apply goes_on_spelled|reflexivity].
        -- intros (ss & Hg & R). destruct (Z ss Hg) as (l & _ & Hl & ->). cbn in R. destruct (remember (Step c args o) st) as [s1|]; [|discriminate R]. apply IH. now exists l.
    + split; [discriminate|]. intros (ss & (more & o' & Ha & Hd) & _). destruct more as [|a' more].
      * inversion Ha; subst. destruct Hd as [(E & _)|(n' & rest & l & E & Hr & _)]; [discriminate E|]. injection E as <- <-. rewrite Hr in Eh. discriminate Eh.
      * inversion Ha as [|o0 a0 o2 l0 o3 Hh Ha']; subst. destruct Hd as [(E & _)|(n' & rest & l & E & _)]; injection E as <- _; rewrite Hh in Eh; discriminate Eh.
Qed.

(** ** What is remembered *)
Definition inv (st : state) : Prop :=
  List.length (which conversions (st_steps st)) = (if st_to st then 1 else 0) /\
  (match st_output st with
   | None => which outputs (st_steps st) = []
   | Some n => exists a s b, st_steps st = a ++ s :: b /\ List.length a = n /\ one_of outputs s /\ which outputs a = [] /\ which outputs b = []
   end) /\
  (st_print st = false <-> silent (st_steps st)).
Lemma silent_snoc l s : silent (l ++ [s]) <-> s_cmd s = CForEach \/ s_cmd s = CNoOutput \/ (~ one_of conversions s /\ silent l).
Proof.
  split.
  - intros (a & t & b & E & Q & Hb). destruct b as [|b0 b1] eqn:Eb; [|destruct (@exists_last _ (b0 :: b1)) as (b' & t' & Eb'); [discriminate|rewrite Eb' in *; clear b0 b1 Eb Eb']].
    + apply app_inj_tail in E as [-> <-]. tauto.
    + rewrite app_comm_cons, app_assoc in E. apply app_inj_tail in E as [-> <-]. right. right. apply Forall_app in Hb as [Hb Ht]. inversion Ht; subst. split; [assumption|]. now exists a, t, b'.
  - intros [E|[E|(Hn & a & t & b & -> & Q & Hb)]].
    + exists l, s, []. split; [reflexivity|]. split; [tauto|constructor].
    + exists l, s, []. split; [reflexivity|]. split; [tauto|constructor].
    + exists a, t, (b ++ [s]). rewrite <- app_assoc. split; [reflexivity|]. split; [exact Q|]. apply Forall_app. split; [exact Hb|]. now repeat constructor.
Qed.
Lemma to_one s : which conversions [s] = if is_to (s_cmd s) then [s] else [].
Proof. rewrite to_which. reflexivity. Qed.
Lemma output_one s : which outputs [s] = if is_output (s_cmd s) then [s] else [].
Proof. rewrite output_which. reflexivity. Qed.
Lemma start_inv : inv start_state.
Proof. split; [reflexivity|]. split; [reflexivity|]. split; [discriminate|]. intros (a & s & b & E & _). destruct a; discriminate E. Qed.
Lemma remember_print s st : inv st ->
  ((if is_quiet (s_cmd s) then false else if is_to (s_cmd s) then true else st_print st) = false <-> silent (st_steps st ++ [s])).
Proof.
  intros (_ & _ & I3). rewrite silent_snoc. destruct (is_quiet (s_cmd s)) eqn:Q.
  - apply quiet_in in Q. tauto.
  - assert (Q' : ~ (s_cmd s = CForEach \/ s_cmd s = CNoOutput)) by (rewrite <- quiet_in; congruence). destruct (is_to (s_cmd s)) eqn:T.
    + apply to_in in T. split; [discriminate|]. tauto.
    + assert (T' : ~ one_of conversions s) by (rewrite <- to_in; congruence). tauto.
Qed.
Lemma remember_inv s st st' : inv st -> remember s st = Some st' -> inv st' /\ st_steps st' = st_steps st ++ [s].
Proof.
  intros Hi R. pose proof (remember_print s st Hi) as P. destruct Hi as (I1 & I2 & _). unfold remember in R. destruct (is_to (s_cmd s) && st_to st) eqn:E; [discriminate R|].
  assert (L : List.length (which conversions (st_steps st ++ [s])) = if is_to (s_cmd s) || st_to st then 1 else 0).
  { rewrite which_app, to_one, app_length, I1. destruct (is_to (s_cmd s)), (st_to st); try discriminate E; reflexivity. }
  destruct (is_output (s_cmd s)) eqn:O.
  - destruct (st_output st) as [n|]; [discriminate R|]. injection R as <-. split; [|reflexivity]. split; [exact L|]. split; [|exact P]. cbn [st_output st_steps]. exists (st_steps st), s, []. repeat split; auto. now apply output_in.
  - injection R as <-. split; [|reflexivity]. split; [exact L|]. split; [|exact P]. cbn [st_output st_steps]. destruct (st_output st) as [n|].
    + destruct I2 as (a & t & b & -> & H1 & H2 & H3 & H4). exists a, t, (b ++ [s]). rewrite <- app_assoc. repeat split; auto. now rewrite which_app, H4, output_one, O.
    + now rewrite which_app, I2, output_one, O.
Qed.
Lemma remember_some s st : inv st -> List.length (which conversions (st_steps st ++ [s])) <= 1 -> List.length (which outputs (st_steps st ++ [s])) <= 1 -> exists st', remember s st = Some st'.
Proof.
  intros (I1 & I2 & _). rewrite !which_app, !app_length, I1, to_one, output_one. intros L1 L2. unfold remember.
  destruct (is_to (s_cmd s)), (st_to st); cbn in L1; try lia; cbn [andb orb]; (destruct (is_output (s_cmd s)); [|eexists; reflexivity]); (destruct (st_output st) as [n|]; [|eexists; reflexivity]);
    destruct I2 as (a & t & b & E & _ & Ht & _); rewrite E, which_app in L2; change (t :: b) with ([t] ++ b) in L2; rewrite which_app, output_one in L2; apply output_in in Ht; rewrite Ht, !app_length in L2; cbn in L2; lia.
Qed.
Lemma remember_all_inv l : forall st st', inv st -> remember_all l st = Some st' -> inv st' /\ st_steps st' = st_steps st ++ l.
Proof.
  induction l as [|s l IH]; cbn; intros st st' Hi R; [injection R as <-; split; [exact Hi|now rewrite app_nil_r]|]. destruct (remember s st) as [s1|] eqn:E; [|discriminate R].
  destruct (remember_inv s st s1 Hi E) as (H1 & H2). destruct (IH s1 st' H1 R) as (H3 & H4). split; [exact H3|]. now rewrite H4, H2, <- app_assoc.
Qed.
Lemma remember_all_some l : forall st, inv st -> List.length (which conversions (st_steps st ++ l)) <= 1 -> List.length (which outputs (st_steps st ++ l)) <= 1 -> exists st', remember_all l st = Some st'.
Proof.
  induction l as [|s l IH]; cbn; intros st Hi L1 L2; [now exists st|]. destruct (remember_some s st Hi) as (s1 & E).
  - change (s :: l) with ([s] ++ l) in L1. rewrite app_assoc, which_app, app_length in L1. lia.
  - change (s :: l) with ([s] ++ l) in L2. rewrite app_assoc, which_app, app_length in L2. lia.
  - rewrite E. destruct (remember_inv s st s1 Hi E) as (H1 & H2). apply IH; [exact H1| |]; rewrite H2, <- app_assoc; assumption.
Qed.
Lemma inv_counts st : inv st -> List.length (which conversions (st_steps st)) <= 1 /\ List.length (which outputs (st_steps st)) <= 1.
Proof.
  intros (I1 & I2 & _). split; [rewrite I1; destruct (st_to st); lia|]. destruct (st_output st) as [n|]; [|rewrite I2; cbn; lia]. destruct I2 as (a & t & b & -> & _ & _ & H3 & H4).
  change (t :: b) with ([t] ++ b). rewrite !which_app, H3, H4, app_nil_r. cbn [app]. rewrite output_one. destruct (is_output _); cbn; lia.
Qed.
Lemma no_which l : which outputs l = [] <-> ~ Exists (one_of outputs) l.
Proof. rewrite output_exists. destruct (which outputs l); cbn; split; intro H; try reflexivity; try lia; discriminate H. Qed.
Lemma firstn_app_exact {A} (a b : list A) : firstn (List.length a) (a ++ b) = a.
Proof. induction a; cbn; [now destruct b|now f_equal]. Qed.
Lemma skipn_app_exact {A} (a b : list A) : skipn (List.length a) (a ++ b) = b.
Proof. induction a; cbn; [now destruct b|assumption]. Qed.
Lemma nth_app_exact {A} (a b : list A) x : nth_error (a ++ x :: b) (List.length a) = Some x.
Proof. induction a; cbn; [reflexivity|assumption]. Qed.
Lemma add_completed st : inv st -> completed (st_steps st) (add_missing st).
Proof.
  intros (I1 & I2 & I3). unfold add_missing. destruct (st_print st) eqn:P.
  - assert (S : ~ silent (st_steps st)) by (intro X; apply I3 in X; discriminate X). destruct (st_to st) eqn:T; cbn [negb andb].
    + assert (C : Exists (one_of conversions) (st_steps st)) by (apply to_exists; rewrite I1; lia). destruct (st_output st) as [n|].
      * apply co_given; [exact S|exact C|]. destruct I2 as (a & t & b & -> & _ & H & _). apply Exists_app. right. now constructor.
      * apply co_print; [exact S|exact C|now apply no_which].
    + assert (C : ~ Exists (one_of conversions) (st_steps st)) by (rewrite to_exists, I1; lia). destruct (st_output st) as [n|].
      * destruct I2 as (a & t & b & E & <- & H & _). rewrite E in *. unfold insert_at. rewrite firstn_app_exact, skipn_app_exact, nth_app_exact.
        pose proof (co_convert a t b S C H) as Q. destruct (cmd_eq_dec (s_cmd t) CBrowser) as [Eb|Eb]; [rewrite Eb; exact Q|]. apply cmd_beq_no in Eb. rewrite Eb. exact Q.
      * rewrite <- app_assoc. apply co_both; [exact S|exact C|now apply no_which].
  - rewrite andb_false_r. replace (match st_output st with Some _ => st_steps st | None => st_steps st end) with (st_steps st) by (now destruct (st_output st)). apply co_silent. now apply I3.
Qed.
Lemma split_which a b a' b' (t t' : step) : a ++ t :: b = a' ++ t' :: b' -> one_of outputs t -> one_of outputs t' -> List.length (which outputs (a ++ t :: b)) <= 1 -> a = a' /\ t = t' /\ b = b'.
Proof.
  revert a'. induction a as [|x a IH]; intros [|x' a'] E Ht Ht' L.
  - injection E as <- <-. auto.
  - exfalso. cbn [app] in *. injection E as <- ->. rewrite output_which in L. cbn in L. apply output_in in Ht. rewrite Ht in L. rewrite filter_app in L. cbn in L. apply output_in in Ht'. rewrite Ht', app_length in L. cbn in L. lia.
  - exfalso. cbn [app] in *. injection E as -> <-. rewrite output_which in L. cbn in L. apply output_in in Ht'. rewrite Ht' in L. rewrite filter_app in L. cbn in L. apply output_in in Ht. rewrite Ht, app_length in L. cbn in L. lia.
  - cbn [app] in *. injection E as <- E. destruct (IH a' E Ht Ht') as (-> & -> & ->); [|auto]. rewrite output_which in L |- *. cbn in L. destruct (is_output (s_cmd x)); cbn in L; lia.
Qed.
Lemma completed_fun l r r' : List.length (which outputs l) <= 1 -> completed l r -> completed l r' -> r = r'.
Proof.
  intros L H H'. destruct H as [l S|l S C O|l S C O|l S C O|a o b S C O]; inversion H' as [l1 S1|l1 S1 C1 O1|l1 S1 C1 O1|l1 S1 C1 O1|a1 o1 b1 S1 C1 O1 E1]; subst; try contradiction; try reflexivity;
    try (exfalso; apply O; apply Exists_app; right; now constructor); try (exfalso; apply O1; apply Exists_app; right; now constructor).
  destruct (split_which _ _ _ _ _ _ E1 O1 O) as (-> & -> & ->); [rewrite E1; exact L|reflexivity].
Qed.
Lemma name_no_option a : cmd_from a <> CNone -> is_option a = false.
Proof.
  unfold cmd_from. destruct (find _ cmd_names) as [p|] eqn:E; [|congruence]. intros _. apply find_some in E. destruct E as (Hin & Hb). apply beq_eq in Hb. subst a.
  unfold cmd_names in Hin. cbn [In] in Hin. repeat (destruct Hin as [<-|Hin]; [reflexivity|]). destruct Hin.
Qed.
Definition accepted (F : files) (words : list bytes) (written : list step) : Prop :=
  ((words = [] /\ written = []) \/ spelled F words written) /\ List.length (which conversions written) <= 1 /\ List.length (which outputs written) <= 1.
Lemma tokenizes_in l : tokenizes l = true <-> Exists (fun s => s_cmd s = CTokenize) l.
Proof. unfold tokenizes. rewrite existsb_exists, Exists_exists. split; intros (s & H1 & H2); exists s; (split; [exact H1|]); now apply cmd_beq_ok. Qed.
Lemma parse_spec F file before words loads file' steps : parse_commands F file before words = Parsed loads file' steps <->
  file' = file /\ exists written, accepted F words written /\ completed written steps /\ (loads = false <-> Exists (fun s => s_cmd s = CTokenize) written).
Proof.
  destruct words as [|a words]; cbn [parse_commands].
  - pose proof (add_completed start_state start_inv) as A. cbn [st_steps start_state] in A. split.
    + intro E. injection E as <- <- <-. split; [reflexivity|]. exists []. split; [split; [left; auto|cbn; auto]|]. split; [exact A|]. split; [discriminate|]. intro H. inversion H.
    + intros (-> & written & ([(_ & ->)|H] & _) & C & L); [|inversion H]. f_equal; [|apply (completed_fun [] _ _ ltac:(cbn; lia) A C)]. destruct loads; [reflexivity|]. assert (X : Exists (fun s : step => s_cmd s = CTokenize) []) by now apply L. inversion X.
  - destruct (cmd_beq (cmd_from a) CNone) eqn:En.
    + split; [discriminate|]. intros (_ & written & ([(E & _)|H] & _) & _); [discriminate E|]. apply cmd_beq_ok in En. inversion H; subst; contradiction.
    + apply cmd_beq_no in En. destruct (read_commands F (cmd_from a) no_fields [] words start_state) as [st| |] eqn:R.
      * pose proof (proj1 (read_spec F words _ _ _ _ _) R) as (ss & Hg & Hr). apply goes_on_spelled in Hg; [|exact En]. destruct (remember_all_inv ss _ _ start_inv Hr) as (Hi & Hs). cbn in Hs.
        split.
        -- intro E. injection E as <- <- <-. split; [reflexivity|]. exists ss. rewrite Hs. split; [split; [now right|]|split; [|rewrite negb_false_iff; apply tokenizes_in]].
           ++ rewrite <- Hs. now apply inv_counts.
           ++ rewrite <- Hs. now apply add_completed.
        -- intros (-> & written & ([(E & _)|H] & L1 & L2) & C & L); [discriminate E|]. destruct (remember_all_some written start_state start_inv L1 L2) as (st2 & R2).
           assert (R3 : read_commands F (cmd_from a) no_fields [] words start_state = ReadOk st2) by (apply read_spec; exists written; split; [now apply goes_on_spelled|exact R2]).
           rewrite R in R3. injection R3 as <-. destruct (remember_all_inv written _ _ start_inv R2) as (_ & Hs2). cbn in Hs2. rewrite <- Hs2 in C, L. f_equal; [|apply (completed_fun (st_steps st) _ _ ltac:(now apply inv_counts) (add_completed st Hi) C)].
           rewrite <- tokenizes_in in L. destruct loads, (tokenizes (st_steps st)); try reflexivity; cbn; [assert (X : true = false) by (now apply L); discriminate X|assert (X : false = true) by (now apply L); discriminate X].
      * split; [discriminate|]. intros (-> & written & ([(E & _)|H] & L1 & L2) & C & L); [discriminate E|]. destruct (remember_all_some written start_state start_inv L1 L2) as (st2 & R2).
        assert (R3 : read_commands F (cmd_from a) no_fields [] words start_state = ReadOk st2) by (apply read_spec; exists written; split; [now apply goes_on_spelled|exact R2]). rewrite R in R3. discriminate R3.
      * split; [discriminate|]. intros (-> & written & ([(E & _)|H] & L1 & L2) & C & L); [discriminate E|]. destruct (remember_all_some written start_state start_inv L1 L2) as (st2 & R2).
        assert (R3 : read_commands F (cmd_from a) no_fields [] words start_state = ReadOk st2) by (apply read_spec; exists written; split; [now apply goes_on_spelled|exact R2]). rewrite R in R3. discriminate R3.
Qed.

Lemma line_spec F global words : forall before loads file steps, xmq_parse_cmd_line F global before words = Parsed loads file steps <->
  exists options rest written, words = options ++ the_file file ++ rest /\ Forall (fun a => is_option a = true /\ global a = GlobalOk) options /\
    (forall f, file = Some f -> is_option f = false /\ cmd_from f = CNone) /\
    accepted F rest written /\ completed written steps /\ (loads = false <-> Exists (fun s => s_cmd s = CTokenize) written).
Proof.
  induction words as [|a words IH]; intros before loads file steps; cbn [xmq_parse_cmd_line].
  - rewrite parse_spec. split.
    + intros (-> & written & H). exists [], [], written. repeat split; auto; try apply H; discriminate.
    + intros (options & rest & written & E & _ & _ & H). destruct options; [|discriminate E]. destruct file; [discriminate E|]. cbn in E. subst rest. split; [reflexivity|]. now exists written.
  - destruct (is_option a) eqn:Eo.
    + assert (Z : forall options rest, a :: words = options ++ the_file file ++ rest -> (forall f, file = Some f -> is_option f = false /\ cmd_from f = CNone) -> (exists written, accepted F rest written) -> exists l, options = a :: l /\ words = l ++ the_file file ++ rest).
      { intros [|x options] rest E Hf (written & [(-> & _)|Hs] & _).
        - destruct file as [f|]; [|discriminate E]. injection E as <- _. destruct (Hf a eq_refl). congruence.
        - destruct file as [f|].
          + injection E as <- _. destruct (Hf a eq_refl). congruence.
          + cbn in E. subst rest. assert (N0 : cmd_from a <> CNone) by now inversion Hs. apply name_no_option in N0. congruence.
        - injection E as <- E. now exists options.
        - injection E as <- E. now exists options. }
      destruct (global a) eqn:Eg.
      * rewrite IH. split.
        -- intros (options & rest & written & E & Ho & H). exists (a :: options), rest, written. split; [cbn; now f_equal|]. split; [now constructor|exact H].
        -- intros (options & rest & written & E & Ho & Hf & H). destruct (Z options rest E Hf (ex_intro _ written (proj1 H))) as (l & -> & E'). exists l, rest, written. inversion Ho; subst. auto.
      * split; [discriminate|]. intros (options & rest & written & E & Ho & Hf & H). destruct (Z options rest E Hf (ex_intro _ written (proj1 H))) as (l & -> & E'). inversion Ho as [|x y (_ & Q) _]. congruence.
      * split; [discriminate|]. intros (options & rest & written & E & Ho & Hf & H). destruct (Z options rest E Hf (ex_intro _ written (proj1 H))) as (l & -> & E'). inversion Ho as [|x y (_ & Q) _]. congruence.
    + assert (Z : forall options, Forall (fun a => is_option a = true /\ global a = GlobalOk) options -> forall r, a :: words = options ++ r -> options = []).
      { intros [|x options] Ho r E; [reflexivity|]. injection E as <- _. inversion Ho as [|x y (Q & _) _]. congruence. }
      destruct (cmd_beq (cmd_from a) CNone) eqn:En; rewrite parse_spec.
      * apply cmd_beq_ok in En. split.
        -- intros (-> & written & H). exists [], words, written. split; [reflexivity|]. split; [constructor|]. split; [intros f E; injection E as <-; auto|exact H].
        -- intros (options & rest & written & E & Ho & Hf & H). rewrite (Z options Ho _ E) in E. destruct file as [f|]; cbn in E; [injection E as <- <-; split; [reflexivity|now exists written]|]. subst rest. destruct H as (([(E & _)|Hs] & _) & _); [discriminate E|]. inversion Hs; subst; contradiction.
      * apply cmd_beq_no in En. split.
        -- intros (-> & written & H). exists [], (a :: words), written. split; [reflexivity|]. split; [constructor|]. split; [discriminate|exact H].
        -- intros (options & rest & written & E & Ho & Hf & H). rewrite (Z options Ho _ E) in E. destruct file as [f|]; cbn in E; [injection E as <- _; destruct (Hf a eq_refl); contradiction|]. subst rest. split; [reflexivity|now exists written].
Qed.

Lemma is_option_word a : is_option a = true <-> option_word a.
Proof.
  unfold is_option, option_word. split.
  - intro H. destruct a as [|x [|y a]]; [discriminate H|destruct x as [|p]; [discriminate H|]; repeat (destruct p as [p|p|]; try discriminate H)|].
    assert (x = 45%N) as ->.
    { destruct x as [|p]; [discriminate H|]. repeat (destruct p as [p|p|]; try discriminate H). reflexivity. }
    split; [exists (y :: a); reflexivity|discriminate].
  - intros ((r & ->) & N). destruct r as [|y r]; [exfalso; now apply N|reflexivity].
Qed.
Lemma is_not_option_word a : is_option a = false <-> ~ option_word a.
Proof. rewrite <- is_option_word. destruct (is_option a); split; congruence. Qed.

(** * C83 *)
(** The words are options, perhaps a file, and commands with their arguments, in this order and with no word left.
    There is at most one conversion and at most one output, and what is performed is what is written,
    with the conversion and the print that were left out.  All such command lines are taken, and no others. *)
Theorem C83_words_to_commands : forall F global argv0 words loads file steps,
  xmq_parse_cmd_line F global argv0 words = Parsed loads file steps <->
  exists options rest written, words = options ++ the_file file ++ rest /\
    Forall (fun a => option_word a /\ global a = GlobalOk) options /\
    (forall f, file = Some f -> ~ option_word f /\ cmd_from f = CNone) /\
    ((rest = [] /\ written = []) \/ spelled F rest written) /\
    List.length (which conversions written) <= 1 /\ List.length (which outputs written) <= 1 /\
    completed written steps /\ (loads = false <-> Exists (fun s => s_cmd s = CTokenize) written).
Proof.
  intros. rewrite line_spec. unfold accepted. split; intros (options & rest & written & E & Ho & Hf & H); exists options, rest, written; (split; [exact E|]); (split; [|split; [|tauto]]).
  - eapply Forall_impl; [|exact Ho]. intros a (Q & G). split; [now apply is_option_word|exact G].
  - intros f Ef. destruct (Hf f Ef) as (Q & G). split; [now apply is_not_option_word|exact G].
  - eapply Forall_impl; [|exact Ho]. intros a (Q & G). split; [now apply is_option_word|exact G].
  - intros f Ef. destruct (Hf f Ef) as (Q & G). split; [now apply is_not_option_word|exact G].
Qed.
(** They are performed in this order, and none after one that fails. *)
Lemma perform_exit s e b rc : perform_command s e b = ExitsWith rc -> s_cmd s = CHelp.
Proof.
  destruct s as [c ar f]. destruct e as [d o]. unfold perform_command, on_doc, cmd_output. cbn. destruct c; try reflexivity; intro P; destruct d, o, b; cbn in P; try discriminate P;
    destruct (has_xpath f), (has_entity f), (has_add f), (has_save f); cbn in P; discriminate P.
Qed.
Lemma perform_prefix ok l : forall e done rc done', perform_all ok l e done = Ended rc done' ->
  exists a b, l = a ++ b /\ done' = done ++ a /\ (b = [] /\ rc = 0 \/ exists s b', b = s :: b' /\ (rc = 1 \/ s_cmd s = CHelp)).
Proof.
  induction l as [|s l IH]; cbn; intros e done rc done' H; [injection H as <- <-; exists [], []; split; [reflexivity|]; split; [now rewrite app_nil_r|now left]|].
  destruct (perform_command s e (ok s)) as [e'| |rc'|] eqn:P; [| | |discriminate H].
  - destruct (IH _ _ _ _ H) as (a & b & -> & -> & Q). exists (s :: a), b. rewrite <- app_assoc. auto.
  - injection H as E1 E2. subst rc done'. exists [], (s :: l). split; [reflexivity|]. split; [now rewrite app_nil_r|]. right. exists s, l. auto.
  - injection H as E1 E2. subst rc done'. exists [], (s :: l). split; [reflexivity|]. split; [now rewrite app_nil_r|]. right. exists s, l. split; [reflexivity|]. right.
    now apply (perform_exit _ _ _ _ P).
Qed.
Theorem C83_in_order : forall F global ok argv0 words rc done, xmq_main F global ok argv0 words = Ended rc done -> done <> [] ->
  exists loads file steps left, xmq_parse_cmd_line F global argv0 words = Parsed loads file steps /\ load_step loads file :: steps = done ++ left /\
    (left = [] /\ rc = 0 \/ exists s l, left = s :: l /\ (rc = 1 \/ s_cmd s = CHelp)).
Proof.
  unfold xmq_main. intros F global ok argv0 words rc done H Hd. destruct (xmq_parse_cmd_line F global argv0 words) as [loads file steps| |] eqn:P; try (injection H as _ <-; now contradiction Hd).
  exists loads, file, steps. unfold run_commands in H.
  assert (Q : perform_all ok (load_step loads file :: steps) (PEnv false ONone) [] = Ended rc done).
  { destruct steps as [|s steps]; [exact H|]. destruct (cmd_beq (s_cmd s) CHelp); [|exact H]. destruct (cmd_help s); injection H as _ <-; now contradiction Hd. }
  destruct (perform_prefix _ _ _ _ _ _ Q) as (a & b & E & -> & R). cbn [app]. exists b. auto.
Qed.

(** ** Crashes *)
Definition add_alone (s : step) : Prop := s_cmd s = CAdd /\ has_add (s_fields s) = false.
Lemma which_cons cs s l : which cs (s :: l) = which cs [s] ++ which cs l.
Proof. exact (which_app cs [s] l). Qed.
Lemma perform_next s e b e' : p_doc e = true -> perform_command s e b = Next e' -> p_doc e' = true /\ (p_out e' = OFreed -> one_of outputs s \/ p_out e = OFreed).
Proof.
  destruct s as [c ar f], e as [d o]. unfold perform_command, on_doc, cmd_output, cmd_help, one_of. cbn. intros -> P.
  destruct c, o, b; cbn in P; try discriminate P; try (injection P as <-; cbn; split; [reflexivity|]; intro Q; try discriminate Q; auto 10; fail);
    destruct (has_xpath f), (has_entity f), (has_add f), (has_save f), (help_of f) as [h|]; cbn in P; try discriminate P; try (injection P as <-; cbn; split; [reflexivity|]; intro Q; try discriminate Q; auto 10; fail);
    destruct (cmd_beq (cmd_from h) CNone); cbn in P; try discriminate P; injection P as <-; cbn; (split; [reflexivity|]); intro Q; try discriminate Q; auto 10.
Qed.
Lemma perform_ub s e b : p_doc e = true -> perform_command s e b = UB -> add_alone s \/ (one_of outputs s /\ p_out e = OFreed).
Proof.
  destruct s as [c ar f], e as [d o]. unfold perform_command, on_doc, cmd_output, cmd_help, one_of, add_alone. cbn. intros -> P.
  destruct c, o, b; cbn in P; try discriminate P; auto 10; 
    destruct (has_xpath f), (has_entity f), (has_add f), (has_save f), (help_of f) as [h|]; cbn in P; try discriminate P; auto 10;
    destruct (cmd_beq (cmd_from h) CNone); cbn in P; discriminate P.
Qed.
Lemma perform_no_crash ok l : forall e done d, p_doc e = true -> List.length (which outputs l) <= 1 -> (p_out e = OFreed -> which outputs l = []) ->
  perform_all ok l e done = Crashed d -> Exists add_alone l.
Proof.
  induction l as [|s l IH]; cbn [perform_all]; intros e done d Hd L Hf H; [discriminate H|]. rewrite which_cons, app_length in L. destruct (perform_command s e (ok s)) as [e'| |rc'|] eqn:P; try discriminate H.
  - destruct (perform_next s e _ e' Hd P) as (N1 & N2). apply Exists_cons_tl. apply (IH e' _ _ N1) in H; [exact H|lia|]. intro Q. destruct (N2 Q) as [O|O].
    + apply output_in in O. rewrite output_one, O in L. cbn in L. destruct (which outputs l); [reflexivity|cbn in L; lia].
    + specialize (Hf O). rewrite which_cons in Hf. now apply app_eq_nil in Hf.
  - destruct (perform_ub s e _ Hd P) as [A|(O & Q)]; [now constructor|]. specialize (Hf Q). rewrite which_cons, output_one in Hf. apply output_in in O. rewrite O in Hf. discriminate Hf.
Qed.
Lemma plain_out c : c = CToXmq \/ c = CRenderHtml -> which outputs [plain_step c] = [].
Proof. intros [->| ->]; reflexivity. Qed.
Lemma completed_outputs l r : completed l r -> List.length (which outputs l) <= 1 -> List.length (which outputs r) <= 1.
Proof.
  intros H L. destruct H as [l S|l S C O|l S C O|l S C O|a o b S C O]; try exact L.
  - rewrite which_app. apply no_which in O. rewrite O. cbn. lia.
  - rewrite which_app. apply no_which in O. rewrite O. cbn. lia.
  - rewrite which_app, which_cons, plain_out; [|destruct (cmd_eq_dec _ _); auto]. rewrite which_app in L. exact L.
Qed.
Lemma completed_in l r s : completed l r -> In s l -> In s r.
Proof. intros H Hs. destruct H as [l S|l S C O|l S C O|l S C O|a o b S C O]; try exact Hs; try (apply in_or_app; now left). apply in_app_or in Hs. apply in_or_app. cbn in *. tauto. Qed.
(** The full statement is that no command line crashes.  It does only if there is a tokenize command beside others, or an add
    command without argument. *)
Theorem C83_crash_only_partial : forall F global ok argv0 words d, xmq_main F global ok argv0 words = Crashed d ->
  exists loads file steps, xmq_parse_cmd_line F global argv0 words = Parsed loads file steps /\ (Exists (fun s => s_cmd s = CTokenize) steps \/ Exists add_alone steps).
Proof.
  unfold xmq_main. intros F global ok argv0 words d H. destruct (xmq_parse_cmd_line F global argv0 words) as [loads file steps| |] eqn:P; try discriminate H. exists loads, file, steps. split; [reflexivity|].
  apply C83_words_to_commands in P. destruct P as (_ & _ & written & _ & _ & _ & _ & _ & L & C & T).
  destruct loads.
  - right. pose proof (completed_outputs _ _ C L) as L'. assert (Q : perform_all ok (load_step true file :: steps) (PEnv false ONone) [] = Crashed d).
    { unfold run_commands in H. destruct steps as [|s steps]; [exact H|]. destruct (cmd_beq (s_cmd s) CHelp); [|exact H]. destruct (cmd_help s); discriminate H. }
    cbn [perform_all load_step s_cmd perform_command] in Q. destruct (ok _); [|discriminate Q]. apply perform_no_crash in Q; [exact Q|reflexivity|exact L'|discriminate].
  - left. destruct T as (T & _). specialize (T eq_refl). apply Exists_exists in T. destruct T as (s & T1 & T2). apply Exists_exists. exists s. split; [now apply (completed_in written)|exact T2].
Qed.

(** ** All commands are performed *)
(** A command has the argument that it needs. *)
Definition has_its_word (s : step) : Prop :=
  match s_cmd s with CDelete => has_xpath (s_fields s) = true | CDeleteEntity => has_entity (s_fields s) = true | CAdd => has_add (s_fields s) = true | CSaveTo => has_save (s_fields s) = true | CHelp => False | _ => True end.
Lemma perform_fine s e : p_doc e = true -> has_its_word s -> (one_of outputs s -> s_cmd s <> CNoOutput -> p_out e = OData) ->
  exists e', perform_command s e true = Next e' /\ p_doc e' = true /\ (one_of conversions s -> p_out e' = OData) /\ (~ one_of outputs s -> p_out e = OData -> p_out e' = OData).
Proof.
  destruct s as [c ar f], e as [d o]. unfold perform_command, on_doc, cmd_output, one_of, has_its_word. cbn. intros -> Hw Ho.
  destruct c; try rewrite Hw; cbn; try contradiction Hw;
    try (eexists; split; [reflexivity|]; cbn; split; [reflexivity|]; split; [intro Q; try reflexivity; repeat (destruct Q as [Q|Q]; [discriminate Q|]); destruct Q|]; intros Q1 Q2; try exact Q2; try reflexivity; exfalso; apply Q1; auto 10; fail);
    (rewrite Ho; [|auto 10|discriminate]); cbn; (eexists; split; [reflexivity|]; cbn; split; [reflexivity|]; split; [intro Q; repeat (destruct Q as [Q|Q]; [discriminate Q|]); destruct Q|]; intros Q1 Q2; exfalso; apply Q1; auto 10).
Qed.
Lemma perform_all_fine ok l : (forall s, ok s = true) -> forall e done, p_doc e = true -> Forall has_its_word l -> List.length (which outputs l) <= 1 ->
  (forall a s b, l = a ++ s :: b -> one_of outputs s -> s_cmd s <> CNoOutput -> p_out e = OData \/ Exists (one_of conversions) a) -> perform_all ok l e done = Ended 0 (done ++ l).
Proof.
  intro Hok. induction l as [|s l IH]; cbn [perform_all]; intros e done Hd Hw L Hr; [now rewrite app_nil_r|]. inversion Hw as [|x y Hs Hl]; subst. rewrite which_cons, app_length in L.
  destruct (perform_fine s e Hd Hs) as (e' & P & Hd' & Hc & Ho).
  { intros O NO. destruct (Hr [] s l eq_refl O NO) as [Q|Q]; [exact Q|inversion Q]. }
  rewrite Hok, P, (IH e'); [now rewrite <- app_assoc|exact Hd'|exact Hl|lia|]. intros a t b E O NO. assert (NS : ~ one_of outputs s).
  { intro X. apply output_in in X, O. rewrite output_one, X, E, which_app, which_cons, output_one, O, !app_length in L. cbn in L. lia. }
  destruct (Hr (s :: a) t b ltac:(cbn; now rewrite E) O NO) as [Q|Q]; [left; now apply Ho|]. inversion Q as [x y Q1|x y Q1]; subst; [left; now apply Hc|now right].
Qed.
Lemma not_both s : one_of conversions s -> one_of outputs s -> False.
Proof. unfold one_of. destruct (s_cmd s); cbn; intros H H'; repeat (destruct H as [H|H]; [discriminate H|]); try exact H; repeat (destruct H' as [H'|H']; [discriminate H'|]); exact H'. Qed.
(** If each command would return true, the program performs all of them with status 0: what is printed was converted before.
    The full statement has no conditions on the order and on for-each. *)
Theorem C83_all_performed_partial : forall F global ok argv0 words options file rest written,
  words = options ++ the_file file ++ rest -> Forall (fun a => option_word a /\ global a = GlobalOk) options ->
  (forall f, file = Some f -> ~ option_word f /\ cmd_from f = CNone) ->
  (rest = [] /\ written = []) \/ spelled F rest written -> List.length (which conversions written) <= 1 -> List.length (which outputs written) <= 1 ->
  (forall s, ok s = true) -> Forall has_its_word written -> ~ Exists (fun s => s_cmd s = CTokenize) written ->
  ~ silent written -> (forall a s b, written = a ++ s :: b -> one_of conversions s -> ~ Exists (one_of outputs) a) ->
  exists steps, completed written steps /\ xmq_main F global ok argv0 words = Ended 0 (load_step true file :: steps).
Proof.
  intros F global ok argv0 words options file rest written Ew Ho Hf Hs L1 L2 Hok Hw Ht Hq Hb.
  assert (X : exists steps, completed written steps).
  { destruct (remember_all_some written start_state start_inv L1 L2) as (st & R). destruct (remember_all_inv _ _ _ start_inv R) as (Hi & E). cbn in E. exists (add_missing st). rewrite <- E. now apply add_completed. }
  destruct X as (steps & C). exists steps. split; [exact C|]. unfold xmq_main.
  assert (P : xmq_parse_cmd_line F global argv0 words = Parsed true file steps).
  { apply C83_words_to_commands. exists options, rest, written. split; [exact Ew|]. split; [exact Ho|]. split; [exact Hf|]. split; [exact Hs|]. split; [exact L1|]. split; [exact L2|]. split; [exact C|]. split; [discriminate|]. intro. contradiction. }
  rewrite P. assert (Hw' : Forall has_its_word steps).
  { destruct C as [l S|l S C O|l S C O|l S C O|a o b S C O]; try exact Hw.
    - apply Forall_app. split; [exact Hw|]. now repeat constructor.
    - apply Forall_app. split; [exact Hw|]. now repeat constructor.
    - apply Forall_app in Hw as [W1 W2]. apply Forall_app. split; [exact W1|]. constructor; [|exact W2]. now destruct (cmd_eq_dec _ _). }
  assert (Q : perform_all ok (load_step true file :: steps) (PEnv false ONone) [] = Ended 0 (load_step true file :: steps)).
  { cbn [perform_all load_step s_cmd perform_command]. rewrite Hok. rewrite (perform_all_fine ok steps Hok); [reflexivity|reflexivity|exact Hw'|now apply (completed_outputs written)|].
    intros a s b E O NO. right. destruct C as [l S|l S C O'|l S C O'|l S C O'|a' o b' S C O'].
    - contradiction.
    - rewrite E in C. apply Exists_app in C as [C|C]; [exact C|]. inversion C as [x y C1|x y C1]; subst; [destruct (not_both s C1 O)|]. apply Exists_exists in C1. destruct C1 as (t & T1 & T2). apply in_split in T1. destruct T1 as (b1 & b2 & ->).
      exfalso. apply (Hb (a ++ s :: b1) t b2); [now rewrite <- app_assoc|exact T2|]. apply Exists_app. right. now constructor.
    - assert (Z : b = [] \/ exists b0 z, b = b0 ++ [z]) by (destruct b as [|z b0]; [now left|right; destruct (@exists_last _ (z :: b0)) as (u & v & ->); [discriminate|now exists u, v]]).
      destruct Z as [->|(b0 & z & ->)]; [apply app_inj_tail in E as [<- _]; exact C|]. rewrite app_comm_cons, app_assoc in E. apply app_inj_tail in E as [-> _]. exfalso. apply O'. apply Exists_app. right. now constructor.
    - change [plain_step CToXmq; plain_step CPrint] with ([plain_step CToXmq] ++ [plain_step CPrint]) in E. rewrite app_assoc in E.
      assert (Z : b = [] \/ exists b0 z, b = b0 ++ [z]) by (destruct b as [|z b0]; [now left|right; destruct (@exists_last _ (z :: b0)) as (u & v & ->); [discriminate|now exists u, v]]).
      destruct Z as [->|(b0 & z & ->)]; [apply app_inj_tail in E as [<- _]; apply Exists_app; right; constructor; now left|]. rewrite app_comm_cons, app_assoc in E. apply app_inj_tail in E as [E _].
      assert (Y : Exists (one_of outputs) (l ++ [plain_step CToXmq])) by (rewrite E; apply Exists_app; right; now constructor). apply Exists_app in Y as [Y|Y]; [contradiction|]. inversion Y as [x y Y1|x y Y1]; subst; [|inversion Y1]. apply output_in in Y1. discriminate Y1.
    - pose proof (completed_outputs _ _ (co_convert a' o b' S C O') L2) as L'. change (plain_step (if cmd_eq_dec (s_cmd o) CBrowser then CRenderHtml else CToXmq) :: o :: b') with ([plain_step (if cmd_eq_dec (s_cmd o) CBrowser then CRenderHtml else CToXmq)] ++ o :: b') in E, L'.
      rewrite app_assoc in E, L'. destruct (split_which _ _ _ _ _ _ E O' O L') as (<- & _). apply Exists_app. right. constructor. destruct (cmd_eq_dec _ _); cbn; unfold one_of; cbn; auto 12. }
  unfold run_commands. destruct steps as [|s steps]; [exact Q|]. destruct (cmd_beq (s_cmd s) CHelp) eqn:E; [|exact Q]. apply cmd_beq_ok in E. inversion Hw' as [|x y W _]; subst. unfold has_its_word in W. rewrite E in W. destruct W.
Qed.

(** * Cases *)
Definition all_files : files := Build_files (fun _ => true) (fun _ => true) (fun _ => true) (fun _ => true).
Definition line (l : list string) : ended := xmq_main all_files (fun _ => GlobalOk) (fun _ => true) (B "xmq") (map B l).
Definition done_cmds (e : ended) : option (nat * list (cmd * list bytes)) := match e with Ended rc l => Some (rc, map (fun s => (s_cmd s, s_args s)) l) | Crashed _ => None end.
Example C83_ex : done_cmds (line ["--trim=none"; "data.json"; "select"; "/_/work"; "delete"; "//@class"; "to-xml"; "--omit-decl"]) =
    Some (0, [(CLoad, [B "data.json"]); (CSelect, [B "/_/work"]); (CDelete, [B "//@class"]); (CToXml, [B "--omit-decl"]); (CPrint, [])]) /\
  done_cmds (line ["a.xmq"; "browse"]) = Some (0, [(CLoad, [B "a.xmq"]); (CRenderHtml, []); (CBrowser, [])]) /\
  done_cmds (line ["a.xmq"; "save-to"; "b.xmq"; "delete"; "delete"]) = Some (0, [(CLoad, [B "a.xmq"]); (CToXmq, []); (CSaveTo, [B "b.xmq"]); (CDelete, [B "delete"])]) /\
  done_cmds (line ["a.xmq"; "for-each"; "//b"; "--shell=ls"]) = Some (0, [(CLoad, [B "a.xmq"]); (CForEach, [B "//b"; B "--shell=ls"])]) /\
  done_cmds (line ["a.xmq"; "to-xml"; "to-json"]) = Some (1, []).
Proof. repeat split; vm_compute; reflexivity. Qed.
(** The hypotheses of C83_all_performed_partial are met. *)
Example C83_ex_hyps : exists written, spelled all_files (map B ["delete"; "//a"; "print"]) written /\ List.length (which conversions written) <= 1 /\ List.length (which outputs written) <= 1 /\
  Forall has_its_word written /\ ~ Exists (fun s => s_cmd s = CTokenize) written /\ ~ silent written /\ (forall a s b, written = a ++ s :: b -> one_of conversions s -> ~ Exists (one_of outputs) a).
Proof.
  exists [Step CDelete [B "//a"] (set_xpath no_fields); plain_step CPrint]. split.
  { apply (sp_more all_files (B "delete") [B "//a"] (set_xpath no_fields) (B "print") [] [plain_step CPrint]); [discriminate| |reflexivity|apply (sp_last all_files (B "print") [] no_fields); [discriminate|constructor]]. apply (ar_more _ _ _ _ (set_xpath no_fields)); [reflexivity|constructor]. }
  split; [cbn; lia|]. split; [cbn; lia|]. split; [repeat constructor|]. split.
  { intro H. inversion H as [x y Q|x y Q]; subst; [discriminate Q|]. inversion Q as [x y Q'|x y Q']; subst; [discriminate Q'|inversion Q']. }
  split.
  { intros (a & s & b & E & Q & _). destruct a as [|a1 [|a2 a]]; cbn in E; [injection E as <- <-|injection E as _ <- <-|injection E as _ _ E; destruct a; discriminate E]; cbn in Q; destruct Q as [Q|Q]; discriminate Q. }
  intros a s b E Hs. apply to_in in Hs. destruct a as [|a1 [|a2 a]]; cbn in E; [injection E as <- <-|injection E as _ <- <-|injection E as _ _ E; destruct a; discriminate E]; cbn in Hs; discriminate Hs.
Qed.

(** print is asked for, but nothing is converted after a for-each, also if it comes later. *)
Theorem C83_print_with_for_each_refuted : done_cmds (line ["a.xmq"; "for-each"; "//b"; "--shell=ls"; "print"]) = Some (1, [(CLoad, [B "a.xmq"]); (CForEach, [B "//b"; B "--shell=ls"])]) /\
  done_cmds (line ["a.xmq"; "print"; "for-each"; "//b"; "--shell=ls"]) = Some (1, [(CLoad, [B "a.xmq"])]).
Proof. split; vm_compute; reflexivity. Qed.
(** With tokenize the file is not loaded, and the commands before it use a null pointer; so does add without an argument. *)
Theorem C83_crash_refuted : (exists d, line ["a.xmq"; "select"; "/a"; "tokenize"] = Crashed d) /\ (exists d, line ["a.xmq"; "add"] = Crashed d).
Proof. split; eexists; vm_compute; reflexivity. Qed.
(** The status of help is turned round: 1 for a command, 0 for an unknown command. *)
Theorem C83_help_status_refuted : forall F global ok argv0 a, xmq_main F global ok argv0 [B "help"; a] = Ended (if cmd_eq_dec (cmd_from a) CNone then 0 else 1) [].
Proof.
  intros. unfold xmq_main. cbn [xmq_parse_cmd_line]. change (is_option (B "help")) with false. cbv iota. unfold parse_commands. change (cmd_from (B "help")) with CHelp. change (cmd_beq CHelp CNone) with false. cbv iota.
  assert (H : forall o, handle_option F CHelp o a = Taken (set_help a o)) by reflexivity. cbn [read_commands]. rewrite H. unfold remember. change (is_to (s_cmd (Step CHelp ([] ++ [a]) (set_help a no_fields)))) with false.
  cbv iota beta. cbn [andb is_output cmd_group s_cmd]. cbv zeta. unfold add_missing. cbn [st_to st_print st_output st_steps start_state orb negb andb app is_quiet cmd_group s_cmd]. cbn [cmd_beq]. cbv iota. cbn [app run_commands s_cmd cmd_beq]. unfold cmd_help. cbn [s_fields help_of set_help].
  destruct (cmd_eq_dec (cmd_from a) CNone) as [E|E]; [rewrite E; reflexivity|]. apply cmd_beq_no in E. now rewrite E.
Qed.
(** The message for an unknown command names the word before it. *)
Theorem C83_names_wrong_word_refuted : forall F global argv0 f w words, ~ option_word f -> cmd_from f = CNone -> cmd_from w = CNone ->
  xmq_parse_cmd_line F global argv0 (f :: w :: words) = Exits1 (Some f).
Proof. intros F global argv0 f w words Hf Ef Ew. apply is_not_option_word in Hf. cbn [xmq_parse_cmd_line]. rewrite Hf, Ef. unfold parse_commands. rewrite Ew. reflexivity. Qed.
(** The last example of the help text (xmq-cli.c:1701) is not taken. *)
Theorem C83_help_example_refuted : xmq_parse_cmd_line all_files (fun _ => GlobalOk) (B "xmq") (map B ["work.xml"; "validate"; "--silent"; "work.xsd"; "noout"]) = Exits1 None.
Proof. vm_compute. reflexivity. Qed.
Print Assumptions C83_words_to_commands.
Print Assumptions C83_in_order.
Print Assumptions C83_crash_only_partial.
Print Assumptions C83_all_performed_partial.
Print Assumptions C83_print_with_for_each_refuted.
Print Assumptions C83_crash_refuted.
Print Assumptions C83_help_status_refuted.
Print Assumptions C83_names_wrong_word_refuted.
Print Assumptions C83_help_example_refuted.

(** ** The arguments of a command *)
(** The options of each command, as listed by xmq help; [true]: a value follows. *)
Definition escape_flags : list (string * bool) := [("--escape-newlines", false); ("--escape-non-7bit", false); ("--escape-tabs", false); ("--indent=", true)].
Definition render_flags : list (string * bool) := [("--class=", true); ("--color", false); ("--id=", true); ("--mono", false); ("--nostyle", false); ("--onlystyle", false); ("--theme=", true);
  ("--use-cr=", true); ("--use-es=", true); ("--use-et=", true); ("--use-is=", true); ("--use-nl=", true)].
Definition flags (c : cmd) : list (string * bool) :=
  match c with
  | CToHtml | CToJson | CToText | CToClines => [("--compact", false)]
  | CToXml => [("--compact", false); ("-o", false); ("--omit-decl", false)]
  | CToXmq | CToHtmq => ("--compact", false) :: escape_flags
  | CRenderTerminal | CRenderHtml | CRenderTex | CRenderRaw => ("--compact", false) :: escape_flags ++ render_flags
  | CTokenize => [("--type=debugtokens", false); ("--type=debugcontent", false); ("--type=terminal", false); ("--type=html", false); ("--type=tex", false); ("--type=location", false)]
  | CQuoteC | CUnquoteC => [("--add-nl", false)]
  | CForEach => [("--shell=", true)]
  | CDeleteEntity | CReplaceEntity => [("--with-file=", true); ("--with-text-file=", true)]
  | CTransform => [("--stringparam=", true); ("--param=", true)]
  | CLoad => [("--alias=", true)]
  | CValidate => [("--silent", true)]
  | _ => []
  end.
Definition flag (c : cmd) (a : bytes) : bool := existsb (fun p => if snd p : bool then starts a (fst p) else is_word a (fst p)) (flags c).
(** How many other words it takes. *)
Definition wanted (c : cmd) : nat :=
  match c with
  | CSaveTo | CSelect | CDelete | CReplace | CAddRoot | CAdd | CForEach | CLoad | CSubstEntity | CSubstChars | CTransform | CValidate => 1
  | CDeleteEntity | CReplaceEntity => 2
  | _ => 0
  end.
Definition nb (b : bool) : nat := if b then 1 else 0.
Definition words_in (c : cmd) (o : fields) : nat :=
  match c with
  | CSaveTo => nb (has_save o) | CSelect | CDelete | CReplace | CAddRoot | CForEach => nb (has_xpath o) | CAdd => nb (has_add o) | CLoad => nb (has_in o)
  | CSubstEntity | CSubstChars => nb (has_entity o) | CTransform => nb (has_xslt o) | CValidate => nb (has_xsd o)
  | CDeleteEntity | CReplaceEntity => nb (has_entity o) + nb (has_content o || has_node o)
  | _ => 0
  end.

Ltac open_opts := unfold handle_option, opt_save_help, opt_compact, opt_escape, opt_render, opt_tokenize, opt_words, opt_entity, opt_transform, opt_load_validate in *;
  cbn -[is_word starts after cmd_from string_param_ok param_ok] in *; unfold when in *; cbn -[is_word starts after cmd_from string_param_ok param_ok] in *.
Ltac no_flags Fl := unfold flag, flags, escape_flags, render_flags in Fl; cbn [app existsb fst snd] in Fl; repeat match type of Fl with (_ || _)%bool = false => let E := fresh "E" in apply orb_false_iff in Fl as [E Fl]; try rewrite E in * end.
Ltac cases_in H := repeat (first [discriminate H | match type of H with
  | context [if ?b then _ else _] => destruct b eqn:?; cbn -[is_word starts after cmd_from string_param_ok param_ok] in H end]).
Lemma take_more F c o a o' : handle_option F c o a = Taken o' -> words_in c o <= words_in c o'.
Proof.
  destruct o as [sv xp ad en ct nd xs i xd hp]. intro H. destruct c; try (cbn [words_in]; lia);
    open_opts; cases_in H; injection H as <-; cbn; subst; cbn; try lia; try (destruct en, ct, nd; cbn; lia); repeat match goal with |- context [nb ?b] => destruct b; cbn end; lia.
Qed.
Lemma take_word F c o a o' : c <> CHelp -> (c = CValidate -> forall f, f_schema F f = true) -> flag c a = false -> handle_option F c o a = Taken o' -> words_in c o < words_in c o'.
Proof.
  destruct o as [sv xp ad en ct nd xs i xd hp]. intros Hh Hv Fl H. destruct c; try (now contradiction Hh);
    no_flags Fl; open_opts; repeat match goal with E : is_word _ _ = false |- _ => rewrite E in H; clear E | E : starts _ _ = false |- _ => rewrite E in H; clear E end; cbn -[is_word starts after cmd_from string_param_ok param_ok] in H; try discriminate H;
    try rewrite (Hv eq_refl) in H; cases_in H; try (injection H as <-; cbn; subst; cbn; try lia; try (destruct en, ct, nd; cbn in *; try discriminate; lia); repeat match goal with |- context [nb ?b] => destruct b; cbn in * end; try discriminate; try lia).
  all: try discriminate.
Qed.
Lemma words_wanted c o : words_in c o <= wanted c.
Proof. destruct o as [sv xp ad en ct nd xs i xd hp]. destruct c; cbn; unfold nb; try lia; destruct sv, xp, ad, en, ct, nd, xs, i, xd; cbn; lia. Qed.
Lemma arguments_words F c o l o' : c <> CHelp -> (c = CValidate -> forall f, f_schema F f = true) -> arguments F c o l o' -> words_in c o + List.length (filter (fun a => negb (flag c a)) l) <= words_in c o'.
Proof.
  intros Hh Hv H. induction H as [o|o a o1 l o2 Ha Hl IH]; cbn; [lia|]. destruct (flag c a) eqn:E; cbn; [pose proof (take_more F c o a o1 Ha); lia|pose proof (take_word F c o a o1 Hh Hv E Ha); lia].
Qed.
Lemma starts_dash a s r : B s = (45 :: 45 :: r)%N -> starts a s = true -> is_option a = true.
Proof. unfold starts. intros -> H. apply beq_eq in H. destruct a as [|x [|y a]]; cbn in H; try discriminate H. injection H as -> _. reflexivity. Qed.
Lemma word_dash a s x r : B s = (45 :: x :: r)%N -> is_word a s = true -> is_option a = true.
Proof. unfold is_word. intros E H. apply beq_eq in H. subst a. rewrite E. reflexivity. Qed.
Lemma flag_option c a : flag c a = true -> is_option a = true.
Proof.
  intro H. unfold flag in H. apply existsb_exists in H. destruct H as ((n, p) & Hin & H). cbn [fst snd] in H.
  destruct c; cbn [flags escape_flags render_flags app In] in Hin; repeat (destruct Hin as [Hin|Hin]; [injection Hin as <- <-; first [eapply starts_dash; [|exact H]; reflexivity | eapply word_dash; [|exact H]; reflexivity]|]); destruct Hin.
Qed.
Lemma stops_option F c o a : handle_option F c o a = Stops -> is_option a = true.
Proof.
  destruct (starts a "--indent=") eqn:E1; [intros _; exact (starts_dash a "--indent=" _ eq_refl E1)|]. destruct (starts a "--type=") eqn:E2; [intros _; exact (starts_dash a "--type=" _ eq_refl E2)|]. intro H. exfalso.
  destruct o as [sv xp ad en ct nd xs i xd hp]. destruct c; open_opts; try rewrite E1 in H; try rewrite E2 in H; cbn -[is_word starts after cmd_from string_param_ok param_ok] in H; cases_in H.
Qed.
(** A command takes its options and not more than [wanted] other words.  (Help takes all words; validate takes a second word if the first
    one is not a schema.) *)
Theorem C83_free_words : forall F c l o, c <> CHelp -> (c = CValidate -> forall f, f_schema F f = true) -> arguments F c no_fields l o -> List.length (filter (fun a => negb (flag c a)) l) <= wanted c.
Proof. intros F c l o Hh Hv H. pose proof (arguments_words F c _ _ _ Hh Hv H). pose proof (words_wanted c o). lia. Qed.
(** When it has these words the name of a command starts the next command. *)
Theorem C83_next_command : forall F c l o n, c <> CHelp -> (c = CValidate -> forall f, f_schema F f = true) -> arguments F c no_fields l o ->
  List.length (filter (fun a => negb (flag c a)) l) = wanted c -> cmd_from n <> CNone -> handle_option F c o n = Refused.
Proof.
  intros F c l o n Hh Hv H L Hn. apply name_no_option in Hn. destruct (handle_option F c o n) as [o'| |] eqn:E; [exfalso|reflexivity|apply stops_option in E; congruence].
  assert (Fl : flag c n = false) by (destruct (flag c n) eqn:X; [apply flag_option in X; congruence|reflexivity]). pose proof (take_word F c o n o' Hh Hv Fl E). pose proof (arguments_words F c _ _ _ Hh Hv H). pose proof (words_wanted c o'). lia.
Qed.
(** Until then these commands take any word, also the name of a command. *)
Theorem C83_first_word : forall F c a, In c [CSaveTo; CSelect; CDelete; CReplace; CAddRoot; CAdd; CForEach; CLoad] -> exists o, handle_option F c no_fields a = Taken o.
Proof. intros F c a H. cbn [In] in H. repeat (destruct H as [<-|H]; [try (eexists; reflexivity)|]); [|destruct H]. open_opts. destruct (starts a "--alias="); eexists; reflexivity. Qed.
(** The commands that substitute entities never take the name of a command. *)
Theorem C83_substitute_word : forall F c o a, In c [CSubstEntity; CSubstChars] -> cmd_from a <> CNone -> handle_option F c o a = Refused.
Proof.
  intros F c o a H N. assert (E : cmd_beq (cmd_from a) CNone = false) by (now apply cmd_beq_no).
  cbn [In] in H. destruct H as [<-|[<-|[]]]; open_opts; rewrite E; reflexivity.
Qed.
(** Options are taken at any place, if their values can be used. *)
Definition usable (F : files) (a : bytes) : Prop :=
  (starts a "--indent=" = true -> forallb is_digit (after a "--indent=") = true) /\ (starts a "--with-file=" = true -> f_doc F (after a "--with-file=") = true) /\
  (starts a "--with-text-file=" = true -> f_text F (after a "--with-text-file=") = true) /\ (starts a "--stringparam=" = true -> string_param_ok (after a "--stringparam=") = true) /\
  (starts a "--param=" = true -> param_ok (after a "--param=") = true).
Theorem C83_options_taken : forall F c o a, flag c a = true -> usable F a -> exists o', handle_option F c o a = Taken o'.
Proof.
  intros F c o a Fl (U1 & U2 & U3 & U4 & U5). unfold flag in Fl. apply existsb_exists in Fl. destruct Fl as ((n, p) & Hin & H). cbn [fst snd] in H.
  destruct c; cbn [flags escape_flags render_flags app In] in Hin; try (destruct Hin; fail);
  repeat (destruct Hin as [Hin|Hin]; [injection Hin as <- <-; first
    [ (unfold is_word in H; apply beq_eq in H; subst a; eexists; reflexivity)
    | (open_opts; rewrite H, ?orb_true_r; cbn -[is_word starts after cmd_from string_param_ok param_ok]; try rewrite (U1 H); try rewrite (U2 H); try rewrite (U3 H); try rewrite (U4 H); try rewrite (U5 H);
       repeat (first [eexists; reflexivity | match goal with |- context [if ?b then _ else _] => destruct b eqn:?; cbn -[is_word starts after cmd_from string_param_ok param_ok]; try (match goal with Q : starts a _ = true |- _ => first [rewrite (U1 Q) | rewrite (U2 Q) | rewrite (U4 Q)] end) end])) ] |]); try (destruct Hin; fail).
all: first [discriminate (U1 eq_refl) | discriminate (U2 eq_refl) | discriminate (U3 eq_refl) | discriminate (U4 eq_refl) | discriminate (U5 eq_refl)].
Qed.
(** delete-entity takes the name of the next command as a second word; for-each takes --shell= as its path, if it comes first. *)
Theorem C83_delete_entity_refuted : done_cmds (line ["a.xmq"; "delete-entity"; "DATE"; "to-xml"]) = Some (0, [(CLoad, [B "a.xmq"]); (CDeleteEntity, [B "DATE"; B "to-xml"]); (CToXmq, []); (CPrint, [])]) /\
  done_cmds (line ["a.xmq"; "for-each"; "--shell=ls"; "//b"]) = Some (1, []).
Proof. split; vm_compute; reflexivity. Qed.
Example C83_ex_words : exists o, arguments all_files CToXml no_fields (map B ["--compact"; "-o"]) o /\ arguments all_files CReplaceEntity no_fields (map B ["DATE"; "2024-02-08"]) (set_content (set_entity no_fields)) /\
  flag CRenderHtml (B "--theme=dark") = true /\ usable all_files (B "--theme=dark") /\ flag CToXml (B "--theme=dark") = false.
Proof.
  exists no_fields. split; [repeat (eapply ar_more; [reflexivity|]); constructor|]. split; [repeat (eapply ar_more; [reflexivity|]); constructor|]. split; [reflexivity|]. split; [|reflexivity]. repeat split; intro H; discriminate H.
Qed.
(** The words for the commands are the names that the messages use, but page and browse, which can be shortened. *)
Theorem C83_names : forall s c, c <> CNone -> cmd_from s = c <->
  match c with CPager => s = B "page" \/ s = B "pa" | CBrowser => s = B "browse" \/ s = B "br" | _ => s = cmd_name c end.
Proof.
  intros s c Hc. split.
  - intros <-. revert Hc. unfold cmd_from. destruct (find _ cmd_names) as [p|] eqn:E; [|congruence]. intros _. apply find_some in E. destruct E as (Hin & Hb). apply beq_eq in Hb. subst s.
    unfold cmd_names in Hin. cbn [In] in Hin. repeat (destruct Hin as [<-|Hin]; [cbn [fst snd]; first [reflexivity | left; reflexivity | right; reflexivity]|]). destruct Hin.
  - destruct c; try (intros ->; reflexivity); try (now contradiction Hc); intros [->| ->]; reflexivity.
Qed.
(** tokenize alone *)
Theorem C83_tokenize : forall F global ok argv0 f args o, ~ option_word f -> cmd_from f = CNone -> (forall s, ok s = true) -> arguments F CTokenize no_fields args o ->
  xmq_main F global ok argv0 (f :: B "tokenize" :: args) = Ended 0 [load_step false (Some f); Step CTokenize args o; plain_step CPrint].
Proof.
  intros F global ok argv0 f args o Hf Ef Hok Ha. unfold xmq_main.
  assert (P : xmq_parse_cmd_line F global argv0 (f :: B "tokenize" :: args) = Parsed false (Some f) ([Step CTokenize args o] ++ [plain_step CPrint])).
  { apply C83_words_to_commands. exists [], (B "tokenize" :: args), [Step CTokenize args o]. split; [reflexivity|]. split; [constructor|]. split; [intros f' E; injection E as <-; auto|]. split; [right; apply (sp_last F (B "tokenize")); [discriminate|exact Ha]|].
    split; [cbn; lia|]. split; [cbn; lia|]. split.
    - apply co_print.
      + intros (a & s & b & E & Q & _). destruct a as [|a1 a]; [injection E as <- _; cbn in Q; destruct Q as [Q|Q]; discriminate Q|injection E as _ E; destruct a; discriminate E].
      + constructor. unfold one_of. cbn. auto 20.
      + intro H. inversion H as [x y Q|x y Q]; subst; [apply output_in in Q; discriminate Q|inversion Q].
    - split; [|reflexivity]. intros _. now constructor. }
  rewrite P. cbn. now rewrite Hok.
Qed.
Print Assumptions C83_free_words.
Print Assumptions C83_next_command.
Print Assumptions C83_first_word.
Print Assumptions C83_substitute_word.
Print Assumptions C83_options_taken.
Print Assumptions C83_delete_entity_refuted.
Print Assumptions C83_names.
Print Assumptions C83_tokenize.
