(** C85: the options before the commands mean what they say, and the input is what the command line names *)
From Coq Require Import NArith ZArith List Bool Arith String Lia Permutation.
From Verif Require Import Bytes BytesFacts CmdLine LoadCmd PropsCmdLine.
Import ListNotations.
Local Open Scope string_scope.
Local Open Scope list_scope.
Local Open Scope nat_scope.

(** * Specification *)
(** The words that switch something on *)
Definition flag_words : list ((gopts -> bool) * list string) :=
  [(g_help, ["--help"; "-h"]); (g_version, ["--version"]); (g_license, ["--license"]); (g_no_input, ["-z"]); (g_content, ["-i"]);
   (g_nomerge, ["--no-merge"]); (g_trim_none, ["--trim=none"]); (g_trim_heur, ["--trim=heuristic"]);
   (g_all_parses, ["--ixml-all-parses"]); (g_recover, ["--ixml-try-to-recover"])].
(** The words for the format of the input *)
Definition format_words : list (string * format) :=
  [("--xmq", FXmq); ("--json", FJson); ("--clines", FClines); ("--xml", FXml); ("--ixml", FIxml); ("--html", FHtml); ("--text", FText)].
Definition message_words : list string := ["--xml-of-ixml"; "--trace"; "--debug"; "--verbose"; "--log-xmq"; "-lx"; "--lines"].
(** A grammar that can be used: its name ends with .ixml and has something before, and it can be read. *)
Definition usable_grammar (readable : bytes -> bool) (f : bytes) : Prop :=
  (exists g, g <> [] /\ f = g ++ B ".ixml") /\ readable f = true.
Definition grammar_word (a f : bytes) : Prop := a = B "--ixml=" ++ f.
(** The options that are taken *)
Definition allowed (readable : bytes -> bool) (a : bytes) : Prop :=
  (exists g ws s, In (g, ws) flag_words /\ In s ws /\ a = B s) \/ (exists s f, In (s, f) format_words /\ a = B s) \/
  (exists s, In s message_words /\ a = B s) \/ (exists r, a = B "--root=" ++ r) \/ (exists f, grammar_word a f /\ usable_grammar readable f).
(** The last word of the list that chooses something decides. *)
Definition decides {A} (choice : bytes -> A -> Prop) (l : list bytes) (x : option A) : Prop :=
  match x with
  | Some x => exists l1 a l2, l = l1 ++ a :: l2 /\ choice a x /\ Forall (fun b => forall y, ~ choice b y) l2
  | None => Forall (fun b => forall y, ~ choice b y) l
  end.
Definition format_choice (a : bytes) (f : format) : Prop := exists s, In (s, f) format_words /\ a = B s.
Definition root_choice (a r : bytes) : Prop := a = B "--root=" ++ r.

(** * Proofs *)
Lemma word_true a s : is_word a s = true <-> a = B s.
Proof. unfold is_word. apply beq_eq. Qed.
Lemma starts_split a s : starts a s = true -> a = B s ++ after a s.
Proof. unfold starts, after. intro H. apply beq_eq in H. rewrite <- H at 1. symmetry. apply firstn_skipn. Qed.
Lemma starts_app s r : starts (B s ++ r) s = true.
Proof. unfold starts. apply beq_eq. rewrite firstn_app, firstn_all, Nat.sub_diag. apply app_nil_r. Qed.
Lemma after_app s r : after (B s ++ r) s = r.
Proof. unfold after. rewrite skipn_app, skipn_all, Nat.sub_diag. reflexivity. Qed.
Lemma starts_iff a s : starts a s = true <-> exists r, a = B s ++ r.
Proof. split; [intro H; exists (after a s); now apply starts_split|intros (r & ->); apply starts_app]. Qed.
Lemma ends_iff a s : ends a s = true <-> exists g, a = g ++ B s.
Proof.
  unfold ends. rewrite beq_eq. split.
  - intro H. exists (firstn (List.length a - List.length (B s)) a). rewrite <- H at 2. symmetry. apply firstn_skipn.
  - intros (g & ->). rewrite app_length. replace (List.length g + List.length (B s) - List.length (B s)) with (List.length g) by lia.
    rewrite skipn_app, skipn_all, Nat.sub_diag. reflexivity.
Qed.
(** Each way through the chain of comparisons *)
Ltac leaf a := 
  repeat match goal with
  | H : (_ || _)%bool = true |- _ => apply orb_true_iff in H; destruct H as [H|H]
  end;
  repeat match goal with
  | H : is_word a _ = true |- _ => apply word_true in H; subst a
  end.
Ltac chain H := 
  match type of H with (if ?b then _ else _) = _ => let Q := fresh "Q" in destruct b eqn:Q; [|chain H] | _ => idtac end.

Lemma handle_cases r o a o' : handle_global_option r o a = GTaken o' ->
  (exists s w, In (s, w) [("--help", with_help); ("-h", with_help); ("-z", with_no_input); ("-i", with_content); ("--license", with_license); ("--version", with_version);
      ("--ixml-all-parses", with_all_parses); ("--ixml-try-to-recover", with_recover); ("--no-merge", with_nomerge); ("--trim=none", with_trim_none); ("--trim=heuristic", with_trim_heur);
      ("--xmq", with_format FXmq); ("--json", with_format FJson); ("--clines", with_format FClines); ("--xml", with_format FXml); ("--ixml", with_format FIxml); ("--html", with_format FHtml); ("--text", with_format FText);
      ("--xml-of-ixml", fun o => o); ("--trace", fun o => o); ("--debug", fun o => o); ("--verbose", fun o => o); ("--log-xmq", fun o => o); ("-lx", fun o => o); ("--lines", fun o => o)]
    /\ a = B s /\ o' = w o) \/
  (exists w, a = B "--root=" ++ w /\ o' = with_root w o) \/
  (exists w, a = B "--ixml=" ++ w /\ o' = with_grammar w o /\ g_grammar o = None /\ usable_grammar r w).
Proof.
  unfold handle_global_option. intro H. chain H.
  all: try (injection H as <-).
  all: leaf a.
  all: try discriminate H.
  all: try (left; eexists _, _; split; [|split; [reflexivity|reflexivity]]; cbn [In]; repeat (first [left; reflexivity | right]); fail).
  all: try (left; eexists _, (fun o => o); split; [|split; [reflexivity|reflexivity]]; cbn [In]; repeat (first [left; reflexivity | right]); fail).
  - right. left. exists (after a "--root="). split; [now apply starts_split|reflexivity].
  - left. unfold option_trim in H. match goal with Q : starts a "--trim=" = true |- _ => apply starts_split in Q; rewrite Q end.
    destruct (is_word (after a "--trim=") "none") eqn:N; [|destruct (is_word (after a "--trim=") "heuristic") eqn:N'; [|discriminate H]].
    + apply word_true in N. rewrite N. injection H as <-. exists "--trim=none", with_trim_none. split; [cbn [In]; tauto|split; reflexivity].
    + apply word_true in N'. rewrite N'. injection H as <-. exists "--trim=heuristic", with_trim_heur. split; [cbn [In]; tauto|split; reflexivity].
  - right. right. unfold option_ixml in H. destruct (g_grammar o) eqn:G; [discriminate H|]. exists (after a "--ixml="). set (w := after a "--ixml=") in *.
    destruct (Nat.ltb_spec (List.length w) 6) as [L|L]; [discriminate H|]. cbn [orb] in H.
    destruct (negb (ends w ".ixml") && negb (ends w ".xml") && negb (ends w ".xmq")); [discriminate H|].
    destruct (ends w ".ixml") eqn:E; [|discriminate H]. destruct (r w) eqn:R; [|discriminate H]. injection H as <-.
    split; [now apply starts_split|]. split; [reflexivity|]. split; [reflexivity|]. split; [|exact R].
    apply ends_iff in E as (g & E). exists g. split; [|exact E]. intros ->. rewrite E in L. clear -L. cbn in L. lia.
Qed.

Ltac each H := cbn [In] in H; repeat (destruct H as [H|H]; [injection H as <- <-|]); [..|destruct H].
(** What one option changes *)
Lemma handle_flag r o a o' g ws : handle_global_option r o a = GTaken o' -> In (g, ws) flag_words -> (g o' = true <-> g o = true \/ exists s, In s ws /\ a = B s).
Proof.
  intros H I. assert (E : g o' = (g o || existsb (is_word a) ws)%bool).
  { apply handle_cases in H. destruct H as [(s & w & Hin & -> & ->)|[(w & -> & ->)|(w & -> & -> & _)]].
    - each Hin; unfold flag_words in I; each I; cbn; rewrite ?orb_true_r, ?orb_false_r; reflexivity.
    - unfold flag_words in I; each I; cbn; rewrite ?orb_false_r; reflexivity.
    - unfold flag_words in I; each I; cbn; rewrite ?orb_false_r; reflexivity. }
  rewrite E, orb_true_iff, existsb_exists. split; (intros [Q|(s & Hs & Q)]; [now left|right; exists s; split; [exact Hs|now apply word_true]]).
Qed.
Definition pick_format (a : bytes) : option format := option_map snd (find (fun p => is_word a (fst p)) format_words).
Definition pick_root (a : bytes) : option bytes := if starts a "--root=" then Some (after a "--root=") else None.
Definition pick_grammar (a : bytes) : option bytes := if starts a "--ixml=" then Some (after a "--ixml=") else None.
Lemma pick_format_ok a f : pick_format a = Some f <-> format_choice a f.
Proof.
  unfold pick_format, format_choice. split.
  - destruct (find _ format_words) as [(s, f')|] eqn:E; [|discriminate]. intro H. injection H as <-. apply find_some in E as (I & Q). exists s. split; [exact I|now apply word_true].
  - intros (s & I & ->). unfold format_words in I. each I; reflexivity.
Qed.
Lemma pick_root_ok a w : pick_root a = Some w <-> root_choice a w.
Proof.
  unfold pick_root, root_choice. split.
  - destruct (starts a "--root=") eqn:E; [|discriminate]. intro H. injection H as <-. now apply starts_split.
  - intros ->. now rewrite starts_app, after_app.
Qed.
Lemma pick_grammar_ok a w : pick_grammar a = Some w <-> grammar_word a w.
Proof.
  unfold pick_grammar, grammar_word. split.
  - destruct (starts a "--ixml=") eqn:E; [|discriminate]. intro H. injection H as <-. now apply starts_split.
  - intros ->. now rewrite starts_app, after_app.
Qed.
Lemma handle_picks r o a o' : handle_global_option r o a = GTaken o' ->
  g_format o' = match pick_format a with Some f => f | None => g_format o end /\
  g_root o' = match pick_root a with Some w => Some w | None => g_root o end /\
  g_grammar o' = match pick_grammar a with Some w => Some w | None => g_grammar o end /\
  (forall w, pick_grammar a = Some w -> g_grammar o = None).
Proof.
  intro H. apply handle_cases in H. destruct H as [(s & w & Hin & -> & ->)|[(w & -> & ->)|(w & -> & -> & G & _)]].
  - each Hin; repeat split; discriminate.
  - split; [reflexivity|]. split; [now rewrite (proj2 (pick_root_ok _ w) eq_refl)|]. split; [reflexivity|]. intros x Q. cbn in Q. discriminate Q.
  - split; [reflexivity|]. split; [reflexivity|]. rewrite (proj2 (pick_grammar_ok _ w) eq_refl). split; [reflexivity|]. intros _ _. exact G.
Qed.
Lemma handle_allowed r o a : (exists o', handle_global_option r o a = GTaken o') <-> allowed r a /\ ((exists w, grammar_word a w) -> g_grammar o = None).
Proof.
  split.
  - intros (o' & H). pose proof (handle_picks _ _ _ _ H) as (_ & _ & _ & G). split; [|intros (w & W); apply (G w); now apply pick_grammar_ok].
    apply handle_cases in H. unfold allowed. destruct H as [(s & w & Hin & -> & _)|[(w & -> & _)|(w & -> & _ & _ & U)]].
    + assert (In s (flat_map snd flag_words) \/ In s (map fst format_words) \/ In s message_words) as [I|[I|I]] by (each Hin; cbn; tauto).
      * left. apply in_flat_map in I as ((g & ws) & I1 & I2). exists g, ws, s. auto.
      * right. left. apply in_map_iff in I as ((s' & f) & <- & I). exists s', f. auto.
      * right. right. left. exists s. auto.
    + right. right. right. left. now exists w.
    + right. right. right. right. exists w. split; [reflexivity|exact U].
  - intros (A & G). destruct A as [(g & ws & s & I & Is & ->)|[(s & f & I & ->)|[(s & I & ->)|[(w & ->)|(w & -> & (g & Ng & ->) & R)]]]].
    + unfold flag_words in I. each I; cbn [In] in Is; repeat (destruct Is as [<-|Is]; [eexists; reflexivity|]); destruct Is.
    + unfold format_words in I. each I; eexists; reflexivity.
    + cbn [message_words In] in I. repeat (destruct I as [<-|I]; [eexists; reflexivity|]). destruct I.
    + eexists. reflexivity.
    + assert (GN : g_grammar o = None) by (apply G; now exists (g ++ B ".ixml")). exists (with_grammar (g ++ B ".ixml") o).
      set (x := g ++ B ".ixml") in *. change (option_ixml r o x = GTaken (with_grammar x o)). unfold option_ixml. rewrite GN.
      assert (E : ends x ".ixml" = true) by (apply ends_iff; now exists g). rewrite E, R. cbn [negb andb]. rewrite orb_false_r.
      assert (List.length x <? 6 = false) as ->; [|reflexivity]. apply Nat.ltb_ge. unfold x. rewrite app_length. destruct g; [congruence|cbn; lia].
Qed.
(** The options in turn *)
Inductive takes (r : bytes -> bool) : gopts -> list bytes -> gopts -> Prop :=
| tk_none o : takes r o [] o
| tk_more o a o' l o'' : handle_global_option r o a = GTaken o' -> takes r o' l o'' -> takes r o (a :: l) o''.
Lemma allowed_option r a : allowed r a -> option_word a.
Proof.
  intro A. apply is_option_word. destruct A as [(g & ws & s & I & Is & ->)|[(s & f & I & ->)|[(s & I & ->)|[(w & ->)|(w & -> & _)]]]]; try reflexivity.
  - unfold flag_words in I. each I; cbn [In] in Is; repeat (destruct Is as [<-|Is]; [reflexivity|]); destruct Is.
  - unfold format_words in I. each I; reflexivity.
  - cbn [message_words In] in I. repeat (destruct I as [<-|I]; [reflexivity|]). destruct I.
Qed.
Definition no_more (input : option bytes) (commands : list bytes) : Prop :=
  match input with
  | Some w => ~ option_word w /\ cmd_from w = CNone
  | None => match commands with [] => True | c :: _ => ~ option_word c /\ cmd_from c <> CNone end
  end.
Lemma read_takes r words o o' input commands : read_options r o words = Read o' input commands <->
  exists options, words = options ++ the_file input ++ commands /\ takes r o options o' /\ no_more input commands.
Proof.
  revert o. induction words as [|a words IH]; intro o; cbn [read_options].
  - split.
    + intro H. injection H as <- <- <-. exists []. repeat split. constructor.
    + intros ([|x options] & E & T & N); [|discriminate E]. destruct input; [discriminate E|]. cbn in E. subst commands. now inversion T.
  - destruct (is_option a) eqn:Oa.
    + split.
      * intro H. destruct (handle_global_option r o a) as [o1| |] eqn:E; try discriminate H. apply IH in H as (options & -> & T & N).
        exists (a :: options). split; [reflexivity|]. split; [now apply tk_more with o1|exact N].
      * intros ([|x options] & E & T & N).
        -- exfalso. apply is_option_word in Oa. destruct input as [w|]; cbn in E; [injection E as -> _; destruct N; contradiction|]. subst commands. destruct N; contradiction.
        -- injection E as <- E. inversion T as [|o0 a0 o1 l0 o2 Hh Ht]; subst. rewrite Hh. apply IH. now exists options.
    + assert (Z : forall options o1, takes r o options o1 -> forall rest, a :: words = options ++ rest -> options = [] /\ o1 = o).
      { intros options o1 T rest E. inversion T as [|o0 a0 o2 l0 o3 Hh Ht]; subst; [auto|]. injection E as <- _. exfalso.
        assert (A : allowed r a) by (apply (handle_allowed r o a); now exists o2). apply allowed_option, is_option_word in A. congruence. }
      apply is_not_option_word in Oa. destruct (cmd_beq (cmd_from a) CNone) eqn:C.
      * apply cmd_beq_ok in C. split.
        -- intro H. injection H as <- <- <-. exists []. repeat split; auto. constructor.
        -- intros (options & E & T & N). destruct (Z _ _ T _ E) as (-> & ->). destruct input as [w|]; cbn in E; [injection E as <- <-; reflexivity|]. subst commands. destruct N; contradiction.
      * apply cmd_beq_no in C. split.
        -- intro H. injection H as <- <- <-. exists []. repeat split; auto. constructor.
        -- intros (options & E & T & N). destruct (Z _ _ T _ E) as (-> & ->). destruct input as [w|]; cbn in E; [injection E as <- <-; destruct N; contradiction|]. now subst commands.
Qed.
Lemma takes_flag r o l o' g ws : takes r o l o' -> In (g, ws) flag_words -> (g o' = true <-> g o = true \/ exists s, In s ws /\ In (B s) l).
Proof.
  intros T I. induction T as [o|o a o1 l o2 H T IH].
  - split; [now left|]. intros [Q|(s & _ & [])]. exact Q.
  - rewrite IH, (handle_flag _ _ _ _ _ _ H I). cbn [In]. split.
    + intros [[Q|(s & Is & ->)]|(s & Is & Q)]; [now left|right; exists s; auto|right; exists s; auto].
    + intros [Q|(s & Is & [Q|Q])]; [auto|left; right; exists s; auto|right; exists s; auto].
Qed.
Lemma takes_decides {A} r (choice : bytes -> A -> Prop) (pick : bytes -> option A) (get : gopts -> option A -> Prop) :
  (forall a x, pick a = Some x <-> choice a x) ->
  (forall o a o' x, handle_global_option r o a = GTaken o' -> get o' x -> match pick a with Some y => x = Some y | None => get o x end) ->
  forall o l o' x, takes r o l o' -> get o' x -> (exists y, x = Some y /\ decides choice l (Some y)) \/ (decides choice l None /\ get o x).
Proof.
  intros P S o l o' x T. induction T as [o|o a o1 l o2 H T IH]; intro G.
  - right. split; [constructor|exact G].
  - destruct (IH G) as [(y & -> & l1 & b & l2 & -> & C & F)|(F & G1)].
    + left. exists y. split; [reflexivity|]. exists (a :: l1), b, l2. auto.
    + pose proof (S _ _ _ _ H G1) as Q. destruct (pick a) as [y|] eqn:E.
      * left. exists y. split; [exact Q|]. exists [], a, l. split; [reflexivity|]. split; [now apply P|exact F].
      * right. split; [|exact Q]. constructor; [|exact F]. intros y C. apply P in C. congruence.
Qed.

Definition grammars (l : list bytes) : list bytes := filter (fun a => starts a "--ixml=") l.
Definition count_grammar (o : gopts) : nat := match g_grammar o with Some _ => 1 | None => 0 end.
Lemma grammar_starts a : starts a "--ixml=" = true <-> exists w, grammar_word a w.
Proof. apply starts_iff. Qed.
Lemma handle_count r o a o1 : handle_global_option r o a = GTaken o1 -> count_grammar o1 = count_grammar o + (if starts a "--ixml=" then 1 else 0).
Proof.
  intro H. destruct (handle_picks _ _ _ _ H) as (_ & _ & G & U). unfold count_grammar, pick_grammar in *. rewrite G. destruct (starts a "--ixml=").
  - now rewrite (U _ eq_refl).
  - lia.
Qed.
Lemma takes_iff r l o : (exists o', takes r o l o') <-> Forall (allowed r) l /\ (List.length (grammars l) + count_grammar o <= 1 \/ grammars l = []).
Proof.
  revert o. induction l as [|a l IH]; intro o.
  - split; [intros _; split; [constructor|now right]|]. intros _. exists o. constructor.
  - cbn [grammars filter]. fold (grammars l). split.
    + intros (o' & T). inversion T as [|o0 a0 o1 l0 o2 H Ht]; subst. pose proof (handle_count _ _ _ _ H) as C.
      destruct (proj1 (handle_allowed r o a) (ex_intro _ o1 H)) as (A & U). destruct (proj1 (IH o1) (ex_intro _ o' Ht)) as (Al & Q). split; [now constructor|].
      destruct (starts a "--ixml=") eqn:E.
      * left. assert (count_grammar o = 0) by (unfold count_grammar; rewrite (U (proj1 (grammar_starts a) E)); reflexivity). cbn [List.length]. destruct Q as [Q|Q]; [|rewrite Q; cbn]; lia.
      * destruct Q as [Q|Q]; [left; lia|now right].
    + intros (A & Q). inversion A as [|x y Aa Al]; subst.
      assert (Ha : exists o1, handle_global_option r o a = GTaken o1).
      { apply handle_allowed. split; [exact Aa|]. intro G. apply grammar_starts in G. rewrite G in Q. destruct Q as [Q|Q]; [|discriminate Q]. cbn [List.length] in Q.
        unfold count_grammar in Q. destruct (g_grammar o); [lia|reflexivity]. }
      destruct Ha as (o1 & H). pose proof (handle_count _ _ _ _ H) as C. destruct (proj2 (IH o1)) as (o' & T).
      * split; [exact Al|]. destruct (starts a "--ixml="); [left; destruct Q as [Q|Q]; [cbn [List.length] in Q; lia|discriminate Q]|]. destruct Q as [Q|Q]; [left; lia|now right].
      * exists o'. now apply tk_more with o1.
Qed.
Lemma takes_grammar r o l o' : takes r o l o' -> forall f, g_grammar o' = Some f <-> g_grammar o = Some f \/ exists a, In a l /\ grammar_word a f.
Proof.
  intro T. induction T as [o|o a o1 l o2 H T IH]; intro f.
  - split; [now left|]. intros [Q|(a & [] & _)]. exact Q.
  - rewrite IH. destruct (handle_picks _ _ _ _ H) as (_ & _ & G & U). rewrite G. destruct (pick_grammar a) as [w|] eqn:P.
    + rewrite (U w eq_refl). apply pick_grammar_ok in P. split.
      * intros [Q|(b & I & W)]; right; [injection Q as <-; exists a; split; [now left|exact P]|exists b; split; [now right|exact W]].
      * intros [Q|(b & [<-|I] & W)]; [discriminate Q| |right; now exists b]. left. unfold grammar_word in *. rewrite P in W. apply app_inv_head in W. now subst.
    + split.
      * intros [Q|(b & I & W)]; [now left|right; exists b; split; [now right|exact W]].
      * intros [Q|(b & [<-|I] & W)]; [now left| |right; now exists b]. apply pick_grammar_ok in W. congruence.
Qed.

(** * C85 *)
(** Which command lines are taken: options that are known, with at most one grammar. *)
Theorem C85_taken : forall r words, (exists o input commands, read_options r no_options words = Read o input commands) <->
  exists options rest, words = options ++ rest /\ Forall (allowed r) options /\ List.length (grammars options) <= 1 /\
    (forall a l, rest = a :: l -> ~ option_word a).
Proof.
  intros r words. split.
  - intros (o & input & commands & H). apply read_takes in H as (options & E & T & N). exists options, (the_file input ++ commands). split; [exact E|].
    destruct (proj1 (takes_iff r options no_options) (ex_intro _ o T)) as (A & Q). split; [exact A|]. split; [destruct Q as [Q|Q]; [cbn in Q; lia|rewrite Q; cbn; lia]|].
    intros a l Er. destruct input as [w|]; cbn in Er; [injection Er as <- _; now apply N|]. subst commands. now apply N.
  - intros (options & rest & -> & A & L & N). destruct (proj2 (takes_iff r options no_options)) as (o & T); [split; [exact A|left; cbn; lia]|].
    destruct rest as [|a l].
    + exists o, None, []. apply read_takes. exists options. repeat split. exact T.
    + specialize (N a l eq_refl). destruct (cmd_eq_dec (cmd_from a) CNone) as [C|C].
      * exists o, (Some a), l. apply read_takes. exists options. repeat split; auto.
      * exists o, None, (a :: l). apply read_takes. exists options. repeat split; auto.
Qed.
(** What they mean: a flag is set if one of its words is given, at any place; the last format and the last root
    count; the grammar is the one that is given. *)
Theorem C85_options : forall r words o input commands, read_options r no_options words = Read o input commands ->
  exists options, words = options ++ the_file input ++ commands /\ Forall option_word options /\
    (forall g ws, In (g, ws) flag_words -> (g o = true <-> exists s, In s ws /\ In (B s) options)) /\
    (decides format_choice options (Some (g_format o)) \/ (decides format_choice options None /\ g_format o = Detect)) /\
    decides root_choice options (g_root o) /\
    (forall f, g_grammar o = Some f <-> exists a, In a options /\ grammar_word a f) /\
    (forall w, input = Some w -> ~ option_word w /\ cmd_from w = CNone) /\
    (input = None -> forall c l, commands = c :: l -> cmd_from c <> CNone).
Proof.
  intros r words o input commands H. apply read_takes in H as (options & E & T & N). exists options. split; [exact E|].
  split; [eapply Forall_impl; [|exact (proj1 (proj1 (takes_iff r options no_options) (ex_intro _ o T)))]; intros a; apply allowed_option|].
  split. { intros g ws I. rewrite (takes_flag _ _ _ _ _ _ T I). split; [intros [Q|Q]; [|exact Q]|now right]. exfalso. unfold flag_words in I. each I; discriminate Q. }
  split.
  { destruct (takes_decides r format_choice pick_format (fun o x => x = Some (g_format o)) pick_format_ok) with (o := no_options) (l := options) (o' := o) (x := Some (g_format o)) as [(y & Q & D)|(D & Q)]; auto.
    - intros o1 a o2 x Hh ->. destruct (handle_picks _ _ _ _ Hh) as (G & _). rewrite G. destruct (pick_format a); reflexivity.
    - left. injection Q as ->. exact D.
    - right. split; [exact D|]. now injection Q. }
  split.
  { destruct (takes_decides r root_choice pick_root (fun o x => x = g_root o) pick_root_ok) with (o := no_options) (l := options) (o' := o) (x := g_root o) as [(y & Q & D)|(D & Q)]; auto.
    - intros o1 a o2 x Hh ->. destruct (handle_picks _ _ _ _ Hh) as (_ & G & _). rewrite G. destruct (pick_root a); reflexivity.
    - rewrite Q. exact D.
    - rewrite Q. exact D. }
  split. { intro f. rewrite (takes_grammar _ _ _ _ T f). split; [intros [Q|Q]; [discriminate Q|exact Q]|now right]. }
  split; [intros w ->; exact N|]. intros -> c l ->. apply N.
Qed.
(** Not two words of the list choose differently. *)
Definition one_choice {A} (choice : bytes -> A -> Prop) (l : list bytes) : Prop := forall a b x y, In a l -> In b l -> choice a x -> choice b y -> x = y.
Lemma decides_in {A} (choice : bytes -> A -> Prop) l x : decides choice l (Some x) -> exists a, In a l /\ choice a x.
Proof. intros (l1 & a & l2 & -> & C & _). exists a. split; [apply in_or_app; right; now left|exact C]. Qed.
Lemma decides_none {A} (choice : bytes -> A -> Prop) l a x : decides choice l None -> In a l -> ~ choice a x.
Proof. intros F I. cbn in F. rewrite Forall_forall in F. now apply F. Qed.
Lemma decides_same {A} (choice : bytes -> A -> Prop) l l' x x' : Permutation l l' -> one_choice choice l -> decides choice l x -> decides choice l' x' -> x = x'.
Proof.
  intros P O D D'. assert (P' : forall a, In a l' -> In a l) by (intros a; apply Permutation_in; now apply Permutation_sym).
  destruct x as [x|], x' as [x'|].
  - apply decides_in in D as (a & I & C). apply decides_in in D' as (b & J & C'). f_equal. apply (O a b); auto.
  - apply decides_in in D as (a & I & C). exfalso. apply (decides_none _ _ a x D'); [|exact C]. now apply (Permutation_in a P).
  - apply decides_in in D' as (b & J & C'). exfalso. apply (decides_none _ _ b x' D); auto.
  - reflexivity.
Qed.
Lemma bool_same (b b' : bool) : (b = true <-> b' = true) -> b = b'.
Proof. destruct b, b'; intuition congruence. Qed.
Lemma takes_order r l l' o o' : Permutation l l' -> one_choice format_choice l -> one_choice root_choice l -> takes r no_options l o -> takes r no_options l' o' -> o = o'.
Proof.
  intros P Of Or T T'.
  assert (H : forall m p, takes r no_options m p -> read_options r no_options (m ++ []) = Read p None []) by (intros m p Q; apply read_takes; exists m; repeat split; exact Q).
  assert (Fl : forall g ws, In (g, ws) flag_words -> g o = g o').
  { intros g ws I. apply bool_same. rewrite (takes_flag _ _ _ _ _ _ T I), (takes_flag _ _ _ _ _ _ T' I).
    split; (intros [Q|(s & Is & Q)]; [now left|right; exists s; split; [exact Is|]]); [exact (Permutation_in _ P Q)|exact (Permutation_in _ (Permutation_sym P) Q)]. }
  assert (G : g_grammar o = g_grammar o').
  { assert (S : forall f, g_grammar o = Some f <-> g_grammar o' = Some f).
    { intro f. rewrite (takes_grammar _ _ _ _ T f), (takes_grammar _ _ _ _ T' f).
      split; (intros [Q|(s & Is & Q)]; [now left|right; exists s; split; [|exact Q]]); [exact (Permutation_in _ P Is)|exact (Permutation_in _ (Permutation_sym P) Is)]. }
    destruct (g_grammar o) as [f|]; [symmetry; now apply S|]. destruct (g_grammar o') as [f|]; [now apply S|reflexivity]. }
  destruct (C85_options _ _ _ _ _ (H _ _ T)) as (m & E & _ & _ & Df & Dr & _). destruct (C85_options _ _ _ _ _ (H _ _ T')) as (m' & E' & _ & _ & Df' & Dr' & _).
  cbn in E, E'. rewrite !app_nil_r in E, E'. subst m m'.
  assert (R : g_root o = g_root o') by (now apply (decides_same root_choice l l')).
  assert (F : g_format o = g_format o').
  { destruct Df as [D|(D & ->)], Df' as [D'|(D' & ->)]; try reflexivity; pose proof (decides_same _ _ _ _ _ P Of D D') as Q; congruence. }
  pose proof (Fl g_help ["--help"; "-h"] ltac:(cbn; tauto)) as E0.
  pose proof (Fl g_version ["--version"] ltac:(cbn; tauto)) as E1.
  pose proof (Fl g_license ["--license"] ltac:(cbn; tauto)) as E2.
  pose proof (Fl g_no_input ["-z"] ltac:(cbn; tauto)) as E3.
  pose proof (Fl g_content ["-i"] ltac:(cbn; tauto)) as E4.
  pose proof (Fl g_nomerge ["--no-merge"] ltac:(cbn; tauto)) as E5.
  pose proof (Fl g_trim_none ["--trim=none"] ltac:(cbn; tauto)) as E6.
  pose proof (Fl g_trim_heur ["--trim=heuristic"] ltac:(cbn; tauto)) as E7.
  pose proof (Fl g_all_parses ["--ixml-all-parses"] ltac:(cbn; tauto)) as E8.
  pose proof (Fl g_recover ["--ixml-try-to-recover"] ltac:(cbn; tauto)) as E9.
  clear - E0 E1 E2 E3 E4 E5 E6 E7 E8 E9 G R F. destruct o, o'. cbn in *. subst. reflexivity.
Qed.
Lemma filter_count (f : bytes -> bool) l l' : Permutation l l' -> List.length (filter f l) = List.length (filter f l').
Proof.
  intro P. induction P as [|x l l' P IH|x y l|l1 l2 l3 P1 IH1 P2 IH2]; cbn; [reflexivity| | |congruence].
  - destruct (f x); cbn; [f_equal|]; exact IH.
  - destruct (f x), (f y); reflexivity.
Qed.
(** The options mean the same in any order, unless two formats or two roots are given. *)
Theorem C85_order : forall r options options' rest o input commands, Permutation options options' -> Forall option_word options ->
  one_choice format_choice options -> one_choice root_choice options -> (forall a l, rest = a :: l -> ~ option_word a) ->
  read_options r no_options (options ++ rest) = Read o input commands -> read_options r no_options (options' ++ rest) = Read o input commands.
Proof.
  intros r options options' rest o input commands P Ow Of Or N H. apply read_takes in H as (m & E & T & Nm).
  assert (m = options /\ rest = the_file input ++ commands) as (-> & Er).
  { assert (Om : Forall option_word m) by (eapply Forall_impl; [|exact (proj1 (proj1 (takes_iff r m no_options) (ex_intro _ o T)))]; intros a; apply allowed_option).
    assert (Nr : forall a l, the_file input ++ commands = a :: l -> ~ option_word a).
    { intros a l Q. destruct input as [w|]; cbn in Q; [injection Q as <- _; now apply Nm|]. subst commands. now apply Nm. }
    clear T P Of Or Nm. revert m E Om. induction Ow as [|a l Wa Wl IH]; intros [|b m] E Om; cbn in E.
    - auto.
    - exfalso. inversion Om; subst. now apply (N _ _ eq_refl).
    - exfalso. now apply (Nr _ _ (eq_sym E)).
    - injection E as <- E. inversion Om; subst. destruct (IH m E) as (-> & Q); auto. }
  destruct (proj1 (takes_iff r options no_options) (ex_intro _ o T)) as (A & C).
  destruct (proj2 (takes_iff r options' no_options)) as (o' & T').
  { split; [now apply (Permutation_Forall P)|]. assert (L : List.length (grammars options) = List.length (grammars options')).
    { now apply filter_count. }
    left. rewrite <- L. destruct C as [C|C]; [exact C|rewrite C; cbn; lia]. }
  rewrite (takes_order _ _ _ _ _ P Of Or T T'). apply read_takes. exists options'. rewrite Er. auto.
Qed.
Example C85_ex_order : let l := map B ["--no-merge"; "--xml"; "--ixml=g.ixml"; "--xml"] in one_choice format_choice l /\ one_choice root_choice l /\ Forall option_word l /\ Permutation l (rev l).
Proof.
  cbv zeta. repeat split.
  - intros a b x y Ia Ib C C'. apply pick_format_ok in C, C'. cbn [map In] in Ia, Ib.
    repeat (destruct Ia as [<-|Ia]; [try discriminate C|]); [..|destruct Ia]; repeat (destruct Ib as [<-|Ib]; [try discriminate C'|]); try (destruct Ib; fail); cbn in C, C'; congruence.
  - intros a b x y Ia Ib C C'. apply pick_root_ok in C. cbn [map In] in Ia. repeat (destruct Ia as [<-|Ia]; [discriminate C|]). destruct Ia.
  - repeat constructor; apply is_option_word; reflexivity.
  - apply Permutation_rev.
Qed.
(** With these options the rest of the line is read as in C83: the same input and the same commands. *)
Definition global_of (r : bytes -> bool) (a : bytes) : global_result :=
  match handle_global_option r no_options a with GTaken _ => GlobalOk | GUnknown => GlobalRefused | GEnds => GlobalExits end.
Lemma line_rest F r words o o' input commands argv0 : read_options r o words = Read o' input commands ->
  exists before, xmq_parse_cmd_line F (global_of r) argv0 words = parse_commands F input before commands.
Proof.
  revert o argv0. induction words as [|a words IH]; intros o argv0 H; cbn [read_options] in H; cbn [xmq_parse_cmd_line].
  - injection H as <- <- <-. now exists argv0.
  - destruct (is_option a).
    + destruct (handle_global_option r o a) as [o1| |] eqn:E; try discriminate H.
      destruct (proj1 (handle_allowed r o a) (ex_intro _ o1 E)) as (A & _). destruct (proj2 (handle_allowed r no_options a)) as (o2 & E2); [split; [exact A|reflexivity]|].
      unfold global_of at 1. rewrite E2. now apply (IH o1).
    + destruct (cmd_beq (cmd_from a) CNone).
      * injection H as <- <- <-. now exists a.
      * injection H as <- <- <-. now exists argv0.
Qed.
Theorem C85_line : forall F r words o input commands argv0 loads file steps, read_options r no_options words = Read o input commands ->
  xmq_parse_cmd_line F (global_of r) argv0 words = Parsed loads file steps ->
  file = input /\ exists written, ((commands = [] /\ written = []) \/ spelled F commands written) /\
    List.length (which conversions written) <= 1 /\ List.length (which outputs written) <= 1 /\
    completed written steps /\ (loads = false <-> Exists (fun s => s_cmd s = CTokenize) written).
Proof.
  intros F r words o input commands argv0 loads file steps H P. destruct (line_rest F r words no_options o input commands argv0 H) as (before & E).
  rewrite E in P. apply parse_spec in P as (-> & written & Q). split; [reflexivity|]. exists written. unfold accepted in Q. tauto.
Qed.
Example C85_ex_line : let ws := map B ["--xml"; "-"; "select"; "/a"; "to-json"] in exists o loads steps, read_options (fun _ => true) no_options ws = Read o (Some (B "-")) (map B ["select"; "/a"; "to-json"]) /\
  xmq_parse_cmd_line all_files (global_of (fun _ => true)) (B "xmq") ws = Parsed loads (Some (B "-")) steps /\ map s_cmd steps = [CSelect; CToJson; CPrint].
Proof. cbv zeta. eexists _, _, _. split; [vm_compute; reflexivity|]. split; [vm_compute; reflexivity|]. vm_compute. reflexivity. Qed.
(** Where the input comes from: nowhere with -z; the word itself with -i; else the named file, and the standard
    input if no file or - is given.  With a grammar not from the standard input. *)
Theorem C85_source_partial : forall r words o input commands, read_options r no_options words = Read o input commands ->
  exists options, words = options ++ the_file input ++ commands /\
    (In (B "-z") options -> cmd_load o input = Load Nowhere) /\
    (~ In (B "-z") options -> forall w, input = Some w -> w <> B "-" ->
      (forall a f, In a options -> grammar_word a f -> cmd_load o input = LoadGrammar (if g_content o then AWord w else AFile w) f (g_all_parses o) (g_recover o)) /\
      ((forall a f, In a options -> ~ grammar_word a f) -> cmd_load o input = LoadAs (if g_content o then AWord w else AFile w) (g_format o) (g_root o) (g_nomerge o) (g_trim_none o) (g_trim_heur o))) /\
    (~ In (B "-z") options -> ~ In (B "-i") options -> (forall a f, In a options -> ~ grammar_word a f) -> input = None \/ input = Some (B "-") ->
      cmd_load o input = LoadAs Stdin (g_format o) (g_root o) (g_nomerge o) (g_trim_none o) (g_trim_heur o)) /\
    (g_content o = true <-> In (B "-i") options).
Proof.
  intros r words o input commands H. destruct (C85_options _ _ _ _ _ H) as (options & E & _ & Fl & _ & _ & G & _). exists options. split; [exact E|].
  assert (Z : g_no_input o = true <-> In (B "-z") options).
  { rewrite (Fl g_no_input ["-z"]) by (cbn; tauto). cbn [In]. split; [intros (s & [<-|[]] & Q); exact Q|intro Q; exists "-z"; auto]. }
  assert (I : g_content o = true <-> In (B "-i") options).
  { rewrite (Fl g_content ["-i"]) by (cbn; tauto). cbn [In]. split; [intros (s & [<-|[]] & Q); exact Q|intro Q; exists "-i"; auto]. }
  assert (NG : (forall a f, In a options -> ~ grammar_word a f) -> g_grammar o = None).
  { intro Q. destruct (g_grammar o) as [f|] eqn:Eg; [|reflexivity]. destruct (proj1 (G f) eq_refl) as (a & Ia & W). exfalso. now apply (Q a f). }
  unfold cmd_load. split; [intro Q; apply Z in Q; now rewrite Q|].
  split; [|split; [|exact I]].
  - intros Q w -> Nw. assert (g_no_input o = false) as -> by (apply not_true_iff_false; tauto). assert (is_word w "-" = false) as -> by (apply not_true_iff_false; rewrite word_true; exact Nw). split.
    + intros a f Ia W. rewrite (proj2 (G f) (ex_intro _ a (conj Ia W))). reflexivity.
    + intro Q'. rewrite (NG Q'). destruct (g_content o); reflexivity.
  - intros Q Q1 Q2 In_. assert (g_no_input o = false) as -> by (apply not_true_iff_false; tauto). assert (g_content o = false) as -> by (apply not_true_iff_false; tauto). rewrite (NG Q2).
    destruct In_ as [-> | ->]; reflexivity.
Qed.
(** With a grammar and no file the standard input is not read: the document is empty. *)
Theorem C85_grammar_stdin_refuted : forall r words o input commands, read_options r no_options words = Read o input commands ->
  g_grammar o <> None -> input = None \/ input = Some (B "-") -> cmd_load o input = Load Nowhere.
Proof. intros r words o input commands _ G [-> | ->]; unfold cmd_load; destruct (g_no_input o); try reflexivity; destruct (g_grammar o); congruence || reflexivity. Qed.
(** A null pointer is used exactly with -i, without -z and a grammar, and without a word for the content. *)
Theorem C85_crash_only : forall o input, cmd_load o input = NullUsed <->
  g_content o = true /\ g_no_input o = false /\ g_grammar o = None /\ (input = None \/ input = Some (B "-")).
Proof.
  intros o input. unfold cmd_load. destruct (g_no_input o); [split; [discriminate|intros (_ & Q & _); discriminate Q]|].
  assert (M : match input with Some w => if is_word w "-" then None else Some w | None => None end = None <-> input = None \/ input = Some (B "-")).
  { destruct input as [w|]; [|tauto]. destruct (is_word w "-") eqn:Q.
    - apply word_true in Q. subst w. tauto.
    - split; [discriminate|]. intros [X|X]; [discriminate X|]. injection X as ->. discriminate Q. }
  destruct (match input with Some w => if is_word w "-" then None else Some w | None => None end) as [w|] eqn:Em.
  - split; [destruct (g_grammar o); [discriminate|]; destruct (g_content o); discriminate|]. intros (_ & _ & _ & Q). apply M in Q. discriminate Q.
  - destruct (g_grammar o); [split; [discriminate|intros (_ & _ & Q & _); discriminate Q]|]. destruct (g_content o); [tauto|]. split; [discriminate|intros (Q & _); discriminate Q].
Qed.
(** With -i the content cannot be the name of a command or - (a null pointer is used), and it
    cannot start with - (it is taken for an option). *)
Definition loads_of (ws : list string) : option loading :=
  match read_options (fun _ => true) no_options (map B ws) with Read o i _ => Some (cmd_load o i) | _ => None end.
Theorem C85_content_refuted : loads_of ["-i"; "select"] = Some NullUsed /\ loads_of ["-i"; "-"] = Some NullUsed /\ loads_of ["-i"] = Some NullUsed /\
  read_options (fun _ => true) no_options (map B ["-i"; "-5"]) = Unrecognized (B "-5").
Proof. repeat split; vm_compute; reflexivity. Qed.
(** A grammar in a file .xml or .xmq, which the message offers, is never taken. *)
Theorem C85_grammar_name_refuted : forall r o f, g_grammar o = None -> 6 <= List.length f -> (exists g, f = g ++ B ".xml" \/ f = g ++ B ".xmq") -> ends f ".ixml" = false ->
  handle_global_option r o (B "--ixml=" ++ f) = GUnknown.
Proof.
  intros r o f G L (g & Q) E. change (option_ixml r o f = GUnknown). unfold option_ixml. rewrite G, E. assert (List.length f <? 6 = false) as -> by (apply Nat.ltb_ge; lia).
  assert (ends f ".xml" = true \/ ends f ".xmq" = true) as [-> | ->].
  { destruct Q as [Q|Q]; [left|right]; apply ends_iff; now exists g. }
  - reflexivity.
  - now rewrite andb_false_r.
Qed.
(** The last --trim does not count: both stay set. *)
Theorem C85_trim_refuted : loads_of ["--trim=none"; "--trim=heuristic"; "a.xml"] = Some (LoadAs (AFile (B "a.xml")) Detect None false true true) /\
  loads_of ["--trim=heuristic"; "--trim=none"; "a.xml"] = Some (LoadAs (AFile (B "a.xml")) Detect None false true true).
Proof. split; vm_compute; reflexivity. Qed.
Example C85_ex : loads_of ["--xml"; "--root=top"; "--json"; "--no-merge"; "--root=r"; "a.txt"; "select"; "/a"] = Some (LoadAs (AFile (B "a.txt")) FJson (Some (B "r")) true false false) /\
  loads_of ["--ixml=g.ixml"; "-i"; "a=1"] = Some (LoadGrammar (AWord (B "a=1")) (B "g.ixml") false false) /\ loads_of ["--ixml=g.ixml"] = Some (Load Nowhere) /\
  loads_of ["-"] = Some (LoadAs Stdin Detect None false false false) /\ loads_of ["-z"; "a.xml"] = Some (Load Nowhere) /\
  handle_global_option (fun _ => true) no_options (B "--ixml=grammar.xml") = GUnknown /\ ends (B "grammar.xml") ".ixml" = false /\
  allowed (fun _ => true) (B "--root=x") /\ usable_grammar (fun _ => true) (B "g.ixml").
Proof.
  repeat split; try (vm_compute; reflexivity).
  - right. right. right. left. exists (B "x"). reflexivity.
  - exists (B "g"). split; [discriminate|reflexivity].
Qed.

Print Assumptions C85_taken.
Print Assumptions C85_options.
Print Assumptions C85_source_partial.
Print Assumptions C85_grammar_stdin_refuted.
Print Assumptions C85_crash_only.
Print Assumptions C85_content_refuted.
Print Assumptions C85_grammar_name_refuted.
Print Assumptions C85_trim_refuted.
Print Assumptions C85_ex.
Print Assumptions C85_order.
Print Assumptions C85_ex_order.
Print Assumptions C85_line.
Print Assumptions C85_ex_line.
