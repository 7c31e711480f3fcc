(** Removing the markup from a rendered document gives the document printed
    without colors. *)
From Coq Require Import NArith ZArith List Bool Arith Lia String.
From Verif Require Import Bytes Utf8 Quote Parser Dom NsDom Printer NsPrinter RenderSpec Render.
Import ListNotations.
Local Open Scope N_scope.

Section shows.
Variable strip : bytes -> option bytes.

(** The bytes [h] are seen as [t], whatever comes after. *)
Definition shows (h t : bytes) : Prop := forall r, strip (h ++ r) = add t (strip r).

Lemma shows_nil : shows [] [].
Proof. intro r. cbn. destruct (strip r); reflexivity. Qed.
Lemma shows_app a x b y : shows a x -> shows b y -> shows (a ++ b) (x ++ y).
Proof.
  intros A Bb r. rewrite <- app_assoc, A, Bb. destruct (strip r) as [z|]; [|reflexivity].
  cbn. now rewrite app_assoc.
Qed.
Lemma shows_mark a b y : shows a [] -> shows b y -> shows (a ++ b) y.
Proof. intros A Bb. exact (shows_app _ _ _ _ A Bb). Qed.
Lemma shows_rep (h : bytes) (c : N) n : shows h [c] -> shows (List.concat (repeat h n)) (rep c n).
Proof.
  intro H. induction n as [|n IH]; [exact shows_nil|]. cbn.
  exact (shows_app h [c] _ (rep c n) H IH).
Qed.
End shows.

Section sim.
Variable strip : bytes -> option bytes.
Variable clean : bytes -> Prop.
Variable T : theme.
Notation shows := (shows strip).

Definition markup (b : option bytes) : Prop := match b with Some b => shows b [] | None => True end.

Record faithful : Prop := Faithful {
  f_clean : forall a b, clean (a ++ b) -> clean a /\ clean b;
  f_pre : forall c, markup (fst (strings T c));
  f_post : forall c, markup (snd (strings T c));
  f_indent : shows (indentation_space T) [cSP];
  f_space : shows (explicit_space T) [cSP];
  f_tab : shows (explicit_tab T) [cTAB];
  f_nl : shows (explicit_nl T) [cNL];
  f_char : forall c a, c <> cSP -> c <> cTAB -> Forall (fun d => is_cont d = true) a -> clean (c :: a) ->
                       shows (match esc T c with Some e => e | None => c :: a end) (c :: a);
  f_quote : shows [cQ] [cQ];
  f_slash : shows [cSLASH] [cSLASH];
  f_star : shows [cSTAR] [cSTAR];
  f_bad : clean (B "&badutf8;") -> shows (B "&badutf8;") (B "&badutf8;") }.

Hypothesis F : faithful.

Definition inv (s : rs) : Prop := markup (r_replay s) /\ markup (r_restart s).
Definition sim (a : rop) (b : op) : Prop :=
  forall s, inv s ->
    r_p (snd (a s)) = snd (b (r_p s)) /\ inv (snd (a s)) /\
    (clean (fst (b (r_p s))) -> shows (fst (a s)) (fst (b (r_p s)))).

Lemma sim_nop : sim rnop nop.
Proof. intros s I. split; [reflexivity|split; [exact I|intros _; apply shows_nil]]. Qed.
Lemma sim_seq a b c d : sim a b -> sim c d -> sim (rseq a c) (seq b d).
Proof.
  intros H K s I. destruct (H s I) as (E & I1 & S1). unfold rseq, seq.
  destruct (a s) as [x s1]. destruct (b (r_p s)) as [y p1]. cbn [fst snd] in E, I1, S1. subst p1.
  destruct (K s1 I1) as (E2 & I2 & S2). destruct (c s1) as [x2 s2]. destruct (d (r_p s1)) as [y2 p2].
  cbn [fst snd] in *. split; [exact E2|split; [exact I2|]]. intro Cl. apply (f_clean F) in Cl.
  apply shows_app; [apply S1|apply S2]; apply Cl.
Qed.
Lemma sim_ext a b b' : (forall p, b' p = b p) -> sim a b -> sim a b'.
Proof. intros E H s I. rewrite E. exact (H s I). Qed.
Lemma sim_left a b c : sim a nop -> sim b c -> sim (rseq a b) c.
Proof.
  intros H K. apply (sim_ext _ (seq nop c)); [|exact (sim_seq _ _ _ _ H K)].
  intro p. unfold seq, nop. destruct (c p). reflexivity.
Qed.
Lemma sim_right a b c : sim a c -> sim b nop -> sim (rseq a b) c.
Proof.
  intros H K. apply (sim_ext _ (seq c nop)); [|exact (sim_seq _ _ _ _ H K)].
  intro p. unfold seq, nop. destruct (c p). now rewrite app_nil_r.
Qed.
Lemma sim_when c a b : sim a b -> sim (rwhen c a) (when c b).
Proof. intro H. destruct c; [exact H|exact sim_nop]. Qed.
Lemma sim_if (c : bool) a b a' b' : sim a b -> sim a' b' -> sim (if c then a else a') (if c then b else b').
Proof. intros H K. destruct c; assumption. Qed.
Lemma sim_ask {A} (f : pr -> A) k k' : (forall x, sim (k x) (k' x)) -> sim (rask f k) (ask f k').
Proof. intros H s I. exact (H _ s I). Qed.
Lemma sim_put x y : (clean y -> shows x y) -> sim (rput x) (put y).
Proof. intros H s I. split; [reflexivity|split; [exact I|exact H]]. Qed.
Lemma sim_mark m : markup m -> sim (wput m) nop.
Proof.
  intros H s I. split; [reflexivity|split; [exact I|intros _]]. cbn.
  destruct m; [exact H|apply shows_nil].
Qed.
Lemma sim_pre c : sim (wput (pre T c)) nop.
Proof. apply sim_mark, (f_pre F). Qed.
Lemma sim_post c : sim (wput (post T c)) nop.
Proof. apply sim_mark, (f_post F). Qed.
(** Operations that write nothing *)
Lemma sim_on a : (forall p, fst (a p) = []) -> sim (on a) a.
Proof.
  intros E s I. unfold on. specialize (E (r_p s)). destruct (a (r_p s)) as [o p]. cbn [fst snd] in *. subst o.
  split; [reflexivity|split; [exact I|intros _; apply shows_nil]].
Qed.
Ltac on_state := apply sim_on; intro; reflexivity.

(** ** Characters *)
Lemma sim_color_pre c : sim (color_pre T c) nop.
Proof. apply sim_pre. Qed.
Lemma sim_color_post c : sim (color_post T c) nop.
Proof.
  intros s I. unfold color_post. pose proof (f_post F c) as M. unfold post.
  destruct (snd (strings T c)) as [b|].
  - split; [reflexivity|split; [exact I|intros _; exact M]].
  - exact (sim_mark (r_replay s) (proj1 I) s I).
Qed.
Definition wrote (ch : bytes) : bytes :=
  match ch with [] => [] | c :: _ => if is_blank c then [c] else ch end.
Definition is_char (ch : bytes) : Prop :=
  match ch with [] => False | _ :: a => Forall (fun d => is_cont d = true) a end.
Lemma sim_char ch : is_char ch -> sim (one_char T ch) (put (wrote ch)).
Proof.
  destruct ch as [|c a]; [intros []|]. cbn [is_char]. intro A. unfold one_char.
  apply sim_left.
  { destruct (is_unicode_whitespace (c :: a)); [apply sim_color_pre|exact sim_nop]. }
  apply sim_right.
  2: { destruct (is_unicode_whitespace (c :: a)); [apply sim_color_post|exact sim_nop]. }
  apply sim_put. cbn [wrote]. unfold is_blank.
  destruct (N.eqb_spec c cSP) as [->|Ns]; [intros _; exact (f_space F)|].
  destruct (N.eqb_spec c cTAB) as [->|Nt]; [intros _; exact (f_tab F)|].
  cbn [orb]. intro Cl. exact (f_char F c a Ns Nt A Cl).
Qed.
Lemma sim_chars l :
  Forall is_char l -> sim (reach (map (one_char T) l)) (put (List.concat (map wrote l))).
Proof.
  induction 1 as [|ch l H L IH]; [exact sim_nop|]. cbn [map reach List.concat].
  apply (sim_ext _ (seq (put (wrote ch)) (put (List.concat (map wrote l))))); [reflexivity|].
  apply sim_seq; [exact (sim_char ch H)|exact IH].
Qed.

Lemma chars_cons c r :
  chars_of (c :: r) =
    match r with
    | d :: _ =>
      if is_cont d then
        match chars_of r with g :: gs => (c :: g) :: gs | [] => [[c]] end
      else [c] :: chars_of r
    | [] => [[c]]
    end.
Proof. reflexivity. Qed.
Lemma chars_some c r : exists g gs, chars_of (c :: r) = (c :: g) :: gs.
Proof.
  revert c. induction r as [|d r IH]; intro c; rewrite chars_cons; [eexists _, _; reflexivity|].
  destruct (is_cont d); [|eexists _, _; reflexivity].
  destruct (IH d) as (g & gs & ->). eexists _, _. reflexivity.
Qed.
Lemma chars_ok b : Forall is_char (chars_of b).
Proof.
  induction b as [|c r IH]; [constructor|]. rewrite chars_cons.
  destruct r as [|d r]; [repeat constructor|]. destruct (is_cont d) eqn:D.
  - destruct (chars_some d r) as (g & gs & E). rewrite E in *. inversion IH as [|x y Hd Tl]; subst.
    constructor; [|exact Tl]. cbn in *. constructor; [exact D|exact Hd].
  - constructor; [constructor|exact IH].
Qed.
Lemma written_after_cont b :
  written_after true b = match b with
                         | [] => []
                         | c :: r => if is_cont c then written_after true r else written_after false b
                         end.
Proof. destruct b as [|c r]; [reflexivity|]. cbn. destruct (is_cont c); reflexivity. Qed.
Lemma cont_blank c : is_cont c = true -> is_blank c = false.
Proof.
  unfold is_blank. intro H. destruct (N.eqb_spec c cSP) as [->|_]; [discriminate H|].
  destruct (N.eqb_spec c cTAB) as [->|_]; [discriminate H|reflexivity].
Qed.
Lemma wrote_chars b : List.concat (map wrote (chars_of b)) = written b.
Proof.
  unfold written.
  enough (G : List.concat (map wrote (chars_of b)) = written_after false b /\
              written_after true b =
                match b with
                | [] => []
                | c :: _ => if is_cont c then List.concat (map wrote (tl (chars_of b))) else written_after false b
                end) by apply G.
  induction b as [|c r [IH1 IH2]]; [split; reflexivity|]. split.
  - rewrite chars_cons. cbn [written_after andb]. destruct r as [|d r].
    { cbn. unfold is_blank. now destruct ((c =? cSP) || (c =? cTAB)). }
    destruct (is_cont d) eqn:D.
    + destruct (chars_some d r) as (g & gs & E). rewrite E in *. cbn [map List.concat tl wrote] in *.
      rewrite (cont_blank d D) in IH1. destruct (is_blank c).
      * rewrite IH2. reflexivity.
      * rewrite <- IH1. reflexivity.
    + cbn [map List.concat wrote]. rewrite IH1. destruct (is_blank c); [|reflexivity].
      rewrite IH2. reflexivity.
  - cbn [written_after andb]. destruct (is_cont c) eqn:D; [|reflexivity].
    rewrite IH2, chars_cons. destruct r as [|d r]; [reflexivity|]. destruct (is_cont d) eqn:D2.
    + destruct (chars_some d r) as (g & gs & E). rewrite E. reflexivity.
    + cbn [tl]. symmetry. exact IH1.
Qed.

Lemma sim_add n : sim (on (add_cur n)) (add_cur n).
Proof. on_state. Qed.
Lemma sim_last c : sim (on (set_last c)) (set_last c).
Proof. on_state. Qed.
Lemma sim_line f : sim (on (set_line f)) (set_line f).
Proof. on_state. Qed.
Lemma sim_reset : sim (on reset_line) reset_line.
Proof. on_state. Qed.
Lemma sim_fuel : sim (on no_fuel) no_fuel.
Proof. on_state. Qed.

Lemma wrote_singles (b : bytes) : List.concat (map wrote (map (fun c => [c]) b)) = b.
Proof.
  induction b as [|c r IH]; [reflexivity|]. cbn [map List.concat wrote]. rewrite IH.
  destruct (is_blank c); reflexivity.
Qed.
Lemma sim_str b : sim (r_str T b) (print_str b).
Proof.
  destruct b as [|c r]; [exact sim_nop|]. unfold r_str, print_str.
  apply sim_seq; [|apply sim_seq; [apply sim_add|apply sim_last]].
  rewrite <- (wrote_singles (c :: r)) at 2. apply sim_chars.
  apply Forall_forall. intros x X. apply in_map_iff in X. destruct X as (d & <- & _). constructor.
Qed.
Lemma sim_range b : sim (r_range T b) (print_range b).
Proof.
  destruct b as [|c r]; [exact sim_nop|]. unfold r_range, print_range.
  apply sim_seq; [|apply sim_seq; [apply sim_add|apply sim_last]].
  rewrite <- wrote_chars. apply sim_chars, chars_ok.
Qed.
Lemma sim_colored c a b : sim a b -> sim (colored T c a) b.
Proof.
  intros H s I. unfold colored.
  assert (G : sim (rseq (wput (pre T c)) (rseq a (wput (post T c)))) b)
    by (apply sim_left; [apply sim_pre|apply sim_right; [exact H|apply sim_post]]).
  pose proof (f_pre F c) as M. unfold pre in *. destruct (fst (strings T c)) as [p|].
  - set (s1 := RS (r_p s) (Some p) (r_restart s)).
    destruct (G s1 (conj M (proj2 I))) as (E & I2 & Sh).
    destruct (rseq _ _ s1) as [o s2]. cbn [fst snd] in *.
    destruct (r_replay s) as [q|] eqn:Q.
    + split; [exact E|split; [|exact Sh]]. split; [|exact (proj2 I2)].
      pose proof (proj1 I) as R. rewrite Q in R. exact R.
    + split; [exact E|split; [exact I2|exact Sh]].
  - destruct (G s I) as (E & I2 & Sh). destruct (rseq _ _ s) as [o s2].
    split; [exact E|split; [exact I2|exact Sh]].
Qed.
Lemma sim_cstr c b : sim (c_str T c b) (print_str b).
Proof. apply sim_colored, sim_str. Qed.

(** ** White space, quotes and lines *)
Lemma sim_white n : sim (r_white_spaces T n) (white_spaces n).
Proof.
  unfold r_white_spaces, white_spaces. apply sim_left; [apply sim_pre|].
  apply sim_seq; [|apply sim_right; [apply sim_add|apply sim_post]].
  apply sim_put. intros _. apply shows_rep, (f_indent F).
Qed.
Lemma sim_quoted n : sim (r_quoted_spaces T n) (quoted_spaces n).
Proof.
  unfold r_quoted_spaces. apply sim_left; [apply sim_pre|].
  apply (sim_ext _ (seq (put [cQ]) (seq (put (rep cSP n)) (seq (add_cur (Z.of_nat n))
           (seq (set_last cQ) (put [cQ])))))).
  { intro p. unfold quoted_spaces, seq, put, add_cur, set_last. cbn. now rewrite app_nil_r. }
  apply sim_seq; [apply sim_put; intros _; exact (f_quote F)|].
  apply sim_seq; [apply sim_put; intros _; apply shows_rep, (f_space F)|].
  apply sim_seq; [apply sim_add|apply sim_seq; [apply sim_last|]].
  apply sim_right; [|apply sim_post]. apply sim_put. intros _. exact (f_quote F).
Qed.
Lemma concat_rep (c : N) n : List.concat (repeat [c] n) = rep c n.
Proof. induction n as [|n IH]; [reflexivity|]. cbn. now rewrite IH. Qed.
Lemma sim_quotes n c : sim (r_quotes T n c) (print_quotes n).
Proof.
  unfold r_quotes, print_quotes. apply sim_left; [apply sim_pre|].
  apply sim_seq; [|apply sim_seq; [apply sim_add|apply sim_right; [apply sim_last|apply sim_post]]].
  apply sim_put. intros _. rewrite <- concat_rep at 1. apply shows_rep, (f_quote F).
Qed.
Lemma sim_restart : sim restart nop.
Proof. intros s I. exact (sim_mark _ (proj2 I) s I). Qed.
Lemma sim_nl a b : markup a -> markup b -> sim (r_nl T a b) print_nl.
Proof.
  intros A Bb. unfold r_nl. apply sim_left; [exact (sim_mark _ Bb)|].
  apply (sim_ext _ (seq (put [cNL]) reset_line)); [reflexivity|].
  apply sim_seq; [apply sim_put; intros _; exact (f_nl F)|].
  apply sim_right; [apply sim_reset|]. apply sim_right; [apply sim_restart|exact (sim_mark _ A)].
Qed.
Lemma sim_nl_indent a b : markup a -> markup b -> sim (r_nl_and_indent T a b) nl_and_indent.
Proof.
  intros A Bb. unfold r_nl_and_indent. apply sim_left; [exact (sim_mark _ Bb)|].
  apply (sim_ext _ (seq (put [cNL]) (seq reset_line (ask p_line white_spaces)))); [reflexivity|].
  apply sim_seq; [apply sim_put; intros _; exact (f_nl F)|].
  apply sim_seq; [apply sim_reset|].
  apply sim_right; [apply sim_ask; intro; apply sim_white|].
  apply sim_right; [apply sim_restart|exact (sim_mark _ A)].
Qed.
Lemma sim_nl0 : sim (r_nl0 T) nl_and_indent.
Proof. now apply sim_nl_indent. Qed.
Lemma sim_entity_char c s : sim (r_char_entity T c s) (char_entity s).
Proof.
  unfold r_char_entity, char_entity. destruct (decode_utf8 s) as [uc n| |].
  - apply sim_left; [apply sim_pre|]. apply sim_seq; [apply sim_cstr|].
    apply sim_left; [apply sim_post|]. apply sim_seq; [apply sim_last|apply sim_add].
  - apply sim_left; [apply sim_pre|]. apply sim_right; [|apply sim_post]. apply sim_put, (f_bad F).
  - apply sim_left; [apply sim_pre|]. apply sim_right; [|apply sim_post]. apply sim_put, (f_bad F).
Qed.
Lemma sim_slashes a b n :
  shows a a -> shows b b -> sim (r_slashes T a b n) (slashes a b n).
Proof.
  intros A Bb. unfold r_slashes, slashes. apply sim_left; [apply sim_pre|]. apply sim_right; [|apply sim_post].
  apply sim_put. intros _. apply shows_app; [exact A|]. apply shows_app; [|exact Bb].
  rewrite <- concat_rep at 1. apply shows_rep, (f_slash F).
Qed.

Section settings.
Variable C : cfg.

Ltac space :=
  apply sim_ask; intro;
  repeat (apply sim_if || apply sim_when || exact sim_nop || apply sim_nl0 || apply sim_white).
Lemma sim_space_attribute : sim (r_space_attribute T C) (space_attribute C).
Proof. space. Qed.
Lemma sim_space_entity : sim (r_space_entity T C) (space_entity C).
Proof. space. Qed.
Lemma sim_space_quote l : sim (r_space_quote T C l) (space_quote C l).
Proof. space. Qed.
Lemma sim_space_key : sim (r_space_key T C) (space_key C).
Proof. space. Qed.
Lemma sim_space_open : sim (r_space_opening_brace T C) (space_opening_brace C).
Proof. space. Qed.
Lemma sim_space_close : sim (r_space_closing_brace T C) (space_closing_brace C).
Proof. apply sim_when, sim_nl0. Qed.
Lemma sim_space_comment : sim (r_space_comment T C) (space_comment C).
Proof. space. Qed.

Lemma sim_all_ws fuel l s : sim (r_all_whitespace T C fuel l s) (all_whitespace C fuel l s).
Proof.
  revert s. induction fuel as [|fuel IH]; intro s; destruct s as [|c r]; try exact sim_nop; [apply sim_fuel|].
  cbn [r_all_whitespace all_whitespace]. apply sim_if.
  - apply sim_seq; [apply sim_space_quote|apply sim_seq; [apply sim_quoted|apply IH]].
  - apply sim_seq; [apply sim_space_entity|apply sim_seq; [apply sim_entity_char|apply IH]].
Qed.

Lemma take_cont_ok r : Forall (fun d => is_cont d = true) (fst (take_cont r)).
Proof.
  induction r as [|c r IH]; [constructor|]. cbn. destruct (is_cont c) eqn:E; [|constructor].
  destruct (take_cont r). constructor; [exact E|exact IH].
Qed.
Lemma sim_quote_chars fuel c0 s : sim (r_quote_chars T fuel c0 s) (quote_chars fuel s).
Proof.
  revert s. induction fuel as [|fuel IH]; intro s; destruct s as [|c r]; try exact sim_nop; [apply sim_fuel|].
  cbn [r_quote_chars quote_chars]. apply sim_if.
  - apply sim_seq; [|apply IH].
    assert (N1 : sim (r_nl T (pre T c0) (post T c0)) print_nl) by (apply sim_nl; [apply (f_pre F)|apply (f_post F)]).
    destruct r as [|d r]; [exact N1|]. apply sim_if; [|exact N1].
    apply sim_nl_indent; [apply (f_pre F)|apply (f_post F)].
  - pose proof (take_cont_ok r) as K. destruct (take_cont r) as [a b]. cbn [fst] in K.
    apply sim_seq; [exact (sim_char (c :: a) K)|].
    apply sim_seq; [apply sim_last|apply sim_seq; [apply sim_add|apply IH]].
Qed.
Lemma sim_set_restart m : markup m -> sim (set_restart m) nop.
Proof.
  intros M s I. split; [reflexivity|split; [|intros _; apply shows_nil]]. split; [exact (proj1 I)|exact M].
Qed.
Lemma sim_quote_lines c0 s : sim (r_quote_lines T c0 s) (quote_lines s).
Proof.
  intros s0 I. revert s0 I.
  assert (G : forall m, markup m ->
            sim (rseq (wput (pre T c0)) (rseq (set_restart match post T c0 with None => pre T c0 | Some _ => None end)
               (rseq (rwhen (starts_with cNL s) (r_nl T (pre T c0) (post T c0)))
               (rseq (r_quote_chars T (List.length s) c0 s)
               (rseq (rwhen (ends_with cNL s)
                 (rseq (on (set_line (fun p => p_line p - 1)%Z))
                   (rseq (if all_are cNL s then rseq (on reset_line) (rask p_line (r_white_spaces T))
                          else r_nl_and_indent T None (post T c0))
                         (on (set_line (fun p => p_line p + 1)%Z)))))
               (rseq (rwhen (negb (ends_with cNL s)) (wput (post T c0))) (set_restart m)))))))
             (quote_lines s)).
  - intros m M. unfold quote_lines.
    apply sim_left; [apply sim_pre|]. apply sim_left.
    { apply sim_set_restart. pose proof (f_pre F c0). unfold pre, post in *. destruct (snd _); [exact I|assumption]. }
    apply sim_seq; [apply sim_when, sim_nl; [apply (f_pre F)|apply (f_post F)]|].
    apply sim_seq; [apply sim_quote_chars|].
    apply sim_right.
    2: { apply sim_left; [|exact (sim_set_restart m M)]. destruct (ends_with cNL s); [exact sim_nop|apply sim_post]. }
    apply sim_when. apply sim_seq; [apply sim_line|]. apply sim_seq; [|apply sim_line].
    apply sim_if; [apply sim_seq; [apply sim_reset|apply sim_ask; intro; apply sim_white]|].
    apply sim_nl_indent; [exact I|apply (f_post F)].
  - intros s0 I. exact (G (r_restart s0) (proj2 I) s0 I).
Qed.
Lemma sim_leaf c s : sim (r_safe_leaf_quote T c s) (safe_leaf_quote s).
Proof.
  apply sim_ask. intro old. destruct (count_necessary_quotes s false) as [[numq nls] cc].
  apply sim_if.
  - repeat (apply sim_seq; [first [apply sim_line|apply sim_quotes|apply sim_nl0|apply sim_quote_lines]|]).
    apply sim_line.
  - repeat (apply sim_seq; [first [apply sim_line|apply sim_quotes|apply sim_nl0|apply sim_quote_lines]|]).
    apply sim_quotes.
Qed.

Lemma sim_newlines l m :
  sim (r_newline_entities T C l m)
      ((fix nls (m : nat) : op :=
          match m with O => nop | S m => seq (space_entity C) (seq (char_entity [cNL]) (nls m)) end) m).
Proof.
  induction m as [|m IH]; [exact sim_nop|]. cbn [r_newline_entities].
  apply sim_seq; [apply sim_space_entity|apply sim_seq; [apply sim_entity_char|exact IH]].
Qed.
Lemma sim_pieces fuel rec rec' l s aft :
  (forall a b, sim (rec a b) (rec' a b)) ->
  sim (r_pieces T C fuel rec l s aft) (pieces C fuel rec' l s aft).
Proof.
  intro R. revert s. induction fuel as [|fuel IH]; intro s; destruct s as [|c r]; try exact sim_nop; [apply sim_fuel|].
  cbn [r_pieces pieces]. destruct (find_next_escape C (c :: r)) as [|k].
  - apply sim_seq; [apply sim_space_entity|]. apply sim_seq; [apply sim_entity_char|].
    apply sim_seq; [apply sim_newlines|apply IH].
  - destruct (count_necessary_quotes _ false) as [[q nls] comp]. apply sim_seq; [|apply IH].
    apply sim_if; [apply sim_seq; [apply sim_space_quote|apply sim_leaf]|apply R].
Qed.
Lemma sim_times n a b : sim a b -> sim (rtimes n a) (times n b).
Proof. intro H. induction n as [|n IH]; [exact sim_nop|]. apply sim_seq; [exact H|exact IH]. Qed.
Lemma sim_value_text fuel l s aft : sim (r_value_text T C fuel l s aft) (value_text C fuel l s aft).
Proof.
  revert s aft. induction fuel as [|fuel IH]; intros s aft; [apply sim_fuel|].
  cbn [r_value_text value_text]. destruct s as [|c r].
  { apply sim_seq; [apply sim_space_quote|apply sim_cstr]. }
  set (s := c :: r).
  apply sim_if; [apply sim_seq; [apply sim_space_entity|apply sim_times, sim_cstr]|].
  apply sim_if; [apply sim_seq; [apply sim_space_quote|apply sim_quoted]|].
  apply sim_if; [apply sim_all_ws|].
  apply sim_if; [apply sim_colored, sim_range|].
  destruct (match has_leading_space_nl s with (Some n, O) => (firstn n s, skipn n s) | _ => ([], s) end) as [lead s1].
  destruct (match has_ending_nl_space s1 with
            | (Some n, O) => let n := (n + count_lead cSP (skipn n s1))%nat in (firstn n s1, skipn n s1)
            | _ => (s1, []) end) as [s2 trail].
  apply sim_seq; [apply sim_all_ws|]. apply sim_seq; [|apply sim_all_ws].
  apply sim_pieces. intros a b. apply IH.
Qed.
Lemma sim_text l s : sim (r_text T C l s) (print_text C l s).
Proof. apply sim_value_text. Qed.
Lemma sim_entity n : sim (r_entity T C n) (print_entity C n).
Proof.
  apply sim_seq; [apply sim_space_entity|]. apply sim_seq; [apply sim_cstr|]. apply sim_seq; apply sim_cstr.
Qed.
Lemma sim_part l p : sim (r_part T C l p) (print_part C l p).
Proof. destruct p; [apply sim_text|apply sim_entity]. Qed.
Lemma sim_parts l ps : sim (r_parts T C l ps) (print_parts C l ps).
Proof. induction ps as [|p ps IH]; [exact sim_nop|]. apply sim_seq; [apply sim_part|exact IH]. Qed.
Lemma sim_white1 b : sim (rwhen b (r_white_spaces T 1)) (when b (white_spaces 1)).
Proof. apply sim_when, sim_white. Qed.
Lemma sim_value l ps : sim (r_value T C l ps) (print_value C l ps).
Proof.
  apply sim_ask. intro old. apply sim_if.
  - apply sim_seq; [apply sim_cstr|]. apply sim_seq; [apply sim_white1|]. apply sim_seq; [apply sim_line|].
    apply sim_seq; [apply sim_parts|]. apply sim_seq; [apply sim_white1|]. apply sim_seq; [apply sim_cstr|apply sim_line].
  - apply sim_seq; [apply sim_parts|apply sim_line].
Qed.
Lemma sim_equals pad : sim (r_equals T C pad) (print_equals C pad).
Proof.
  apply sim_seq; [apply sim_when, sim_white|]. apply sim_seq; [apply sim_cstr|apply sim_white1].
Qed.
Lemma sim_prefix c p : sim (r_prefix T c p) (v_prefix p).
Proof. destruct p as [p|]; [|exact sim_nop]. apply sim_seq; apply sim_cstr. Qed.
Lemma sim_attribute align a : sim (r_attribute T C align a) (v_attribute C align a).
Proof.
  apply sim_seq; [apply sim_space_attribute|]. apply sim_seq; [apply sim_prefix|].
  apply sim_seq; [apply sim_cstr|]. apply sim_when, sim_seq; [apply sim_equals|apply sim_value].
Qed.
Lemma sim_declaration align d : sim (r_declaration T C align d) (v_declaration C align d).
Proof.
  apply sim_seq; [apply sim_space_attribute|]. apply sim_seq; [apply sim_cstr|].
  apply sim_seq.
  - destruct (d_prefix d); [apply sim_seq; apply sim_cstr|exact sim_nop].
  - destruct (d_uri d); [apply sim_seq; [apply sim_equals|apply sim_text]|exact sim_nop].
Qed.
Lemma sim_attributes l ds : sim (r_attributes T C l ds) (v_attributes C l ds).
Proof.
  apply sim_ask. intro old. apply sim_seq; [apply sim_line|]. apply sim_seq.
  { generalize (if compact C then 0%nat else v_width l ds). intro w.
    induction l as [|a l IH]; [exact sim_nop|]. apply sim_seq; [apply sim_attribute|exact IH]. }
  apply sim_seq; [|apply sim_line].
  generalize (if compact C then 0%nat else v_width l ds). intro w.
  induction ds as [|a ds IH]; [exact sim_nop|]. apply sim_seq; [apply sim_declaration|exact IH].
Qed.
Lemma sim_crange b : sim (c_range T b) (print_range b).
Proof. apply sim_colored, sim_range. Qed.
Lemma sim_comment_rest fuel n s : sim (r_comment_rest T C fuel n s) (comment_rest C fuel n s).
Proof.
  revert s. induction fuel as [|fuel IH]; intro s; destruct s as [|c r]; try exact sim_nop; [apply sim_fuel|].
  cbn [r_comment_rest comment_rest]. destruct (cut_line (c :: r)) as [l t].
  apply sim_seq.
  - apply sim_if; [apply sim_slashes; exact (f_star F)|].
    assert (N1 : sim (r_nl T None None) print_nl) by now apply sim_nl.
    destruct l; [|apply sim_nl0]. destruct t as [[|]|]; try apply sim_nl0. exact N1.
  - apply sim_seq; [apply sim_crange|]. destruct t; [apply IH|exact sim_nop].
Qed.
Lemma sim_comment_lines s : sim (r_comment_lines T C s) (comment_lines C s).
Proof.
  apply sim_ask. intro old.
  apply sim_seq; [apply sim_slashes; [apply shows_nil|exact (f_star F)]|].
  apply sim_seq; [apply sim_white1|]. apply sim_seq; [apply sim_line|]. apply sim_seq; [apply sim_crange|].
  apply sim_seq; [destruct (snd (cut_line s)); [apply sim_comment_rest|exact sim_nop]|].
  apply sim_seq; [apply sim_white1|].
  apply sim_seq; [apply sim_slashes; [exact (f_star F)|apply shows_nil]|].
  apply sim_seq; [apply sim_last|apply sim_line].
Qed.
Lemma sim_assoc a b c d : sim a (seq b (seq c d)) -> sim a (seq (seq b c) d).
Proof.
  apply sim_ext. intro p. unfold seq. destruct (b p) as [x p1]. destruct (c p1) as [y p2].
  destruct (d p2) as [z p3]. now rewrite app_assoc.
Qed.
Lemma sim_assoc' a b c d : sim a (seq (seq b c) d) -> sim a (seq b (seq c d)).
Proof.
  apply sim_ext. intro p. unfold seq. destruct (b p) as [x p1]. destruct (c p1) as [y p2].
  destruct (d p2) as [z p3]. now rewrite app_assoc.
Qed.
Lemma sim_comment s : sim (r_comment T C s) (print_comment C s).
Proof.
  apply sim_seq; [apply sim_space_comment|]. apply sim_if.
  - apply sim_if.
    + apply (sim_ext _ (seq (seq (print_str [cSLASH; cSTAR]) (seq (print_range s) (print_str [cSTAR; cSLASH])))
                            (set_last cSLASH))).
      { intro p. unfold seq. destruct (print_str [cSLASH; cSTAR] p) as [x p1].
        destruct (print_range s p1) as [y p2]. destruct (print_str [cSTAR; cSLASH] p2) as [z p3].
        destruct (set_last cSLASH p3) as [u p4]. now rewrite <- !app_assoc. }
      apply sim_seq; [|apply sim_last]. apply sim_colored.
      apply sim_seq; [apply sim_str|]. apply sim_seq; [apply sim_range|apply sim_str].
    + apply sim_assoc'. apply sim_seq; [|apply sim_last]. apply sim_colored.
      apply sim_seq; [apply sim_str|apply sim_range].
  - apply sim_seq; [apply sim_comment_lines|apply sim_last].
Qed.
Lemma sim_name key p n a ds : sim (r_name T C key p n a ds) (v_name C p n a ds).
Proof.
  apply sim_seq; [apply sim_space_key|]. apply sim_seq; [apply sim_prefix|]. apply sim_seq; [apply sim_cstr|].
  assert (G : sim (rseq (c_str T (CTok Kapar_left) [cLP]) (rseq (r_attributes T C a ds) (c_str T (CTok Kapar_right) [cRP])))
                  (seq (print_str [cLP]) (seq (v_attributes C a ds) (print_str [cRP])))).
  { apply sim_seq; [apply sim_cstr|]. apply sim_seq; [apply sim_attributes|apply sim_cstr]. }
  destruct a; [|exact G]. destruct ds; [exact sim_nop|exact G].
Qed.
Lemma sim_doctype s : sim (r_doctype T C s) (print_doctype C s).
Proof.
  apply sim_seq; [apply sim_space_key|]. apply sim_seq; [apply sim_cstr|].
  apply sim_seq; [apply sim_equals|apply sim_text].
Qed.
Lemma sim_pi n s : sim (r_pi T C n s) (print_pi C n s).
Proof.
  apply sim_seq; [apply sim_space_key|]. apply sim_assoc'.
  apply sim_seq; [apply sim_colored, sim_seq; apply sim_str|].
  apply sim_seq; [apply sim_equals|apply sim_text].
Qed.

Fixpoint sim_node (x : vnode) : forall align, sim (r_node T C align x) (v_node C align x).
Proof.
  destruct x as [p u n ds a k|[t|n]|t|n c|c]; intro align.
  - assert (K : forall l align again,
               sim ((fix nodes (align : nat) (again : option nat) (l : list vnode) : rop :=
                      match l with
                      | [] => rnop
                      | x :: r =>
                        let '(align, again) :=
                          match again with
                          | Some O => if compact C then (align, again) else v_find_width l
                          | _ => (align, again)
                          end in
                        rseq (r_node T C align x)
                          (nodes align (match again with Some (S m) => Some m | _ => again end) r)
                      end) align again l)
                   ((fix nodes (align : nat) (again : option nat) (l : list vnode) : op :=
                      match l with
                      | [] => nop
                      | x :: r =>
                        let '(align, again) :=
                          match again with
                          | Some O => if compact C then (align, again) else v_find_width l
                          | _ => (align, again)
                          end in
                        seq (v_node C align x)
                          (nodes align (match again with Some (S m) => Some m | _ => again end) r)
                      end) align again l)).
    { induction l as [|x l IH]; intros al ag; [exact sim_nop|].
      destruct (match ag with Some O => if compact C then (al, ag) else v_find_width (x :: l) | _ => (al, ag) end)
        as [al' ag'].
      apply sim_seq; [apply sim_node|apply IH]. }
    cbn [r_node v_node]. destruct k as [|k1 k]; [apply sim_name|].
    destruct (v_key_value (k1 :: k)) as [ps|].
    + apply sim_seq; [apply sim_name|]. apply sim_seq; [apply sim_ask; intro; apply sim_equals|apply sim_value].
    + apply sim_seq; [apply sim_name|]. apply sim_seq; [apply sim_space_open|]. apply sim_seq; [apply sim_cstr|].
      apply sim_seq; [apply sim_line|]. apply sim_seq; [exact (K (k1 :: k) 0%nat (Some 0%nat))|].
      apply sim_seq; [apply sim_line|]. apply sim_seq; [apply sim_space_close|apply sim_cstr].
  - apply sim_ask. intro old. apply sim_seq; [apply sim_text|apply sim_line].
  - apply sim_entity.
  - apply sim_comment.
  - apply sim_pi.
  - apply sim_doctype.
Qed.
Lemma sim_nodes l : forall align again, sim (r_nodes T C align again l) (v_nodes C align again l).
Proof.
  induction l as [|x l IH]; intros al ag; [exact sim_nop|]. cbn [r_nodes v_nodes].
  destruct (match ag with Some O => if compact C then (al, ag) else v_find_width (x :: l) | _ => (al, ag) end)
    as [al' ag'].
  apply sim_seq; [apply sim_node|apply IH].
Qed.

(** The rendered document shows the document printed without colors. *)
Lemma render_shows d h t ht :
  d <> [] -> shows (head T) h -> shows (tail T ++ [cNL]) t ->
  clean (fst (v_nodes C 0 (Some 0%nat) d (PR 0 0 0 true))) ->
  ht = fst (v_nodes C 0 (Some 0%nat) d (PR 0 0 0 true)) ->
  shows (fst (render_doc T C d)) (h ++ ht ++ t) /\
  snd (render_doc T C d) = snd (v_print_doc C d).
Proof.
  intros D Hh Ht Cl ->. unfold render_doc, v_print_doc. destruct d as [|x d]; [easy|].
  destruct (sim_nodes (x :: d) 0%nat (Some 0%nat) (RS (PR 0 0 0 true) None None)) as (E & _ & S0);
    [split; exact I|].
  cbn [r_p] in E, S0. destruct (r_nodes _ _ _ _ _ _) as [o s]. destruct (v_nodes _ _ _ _ _) as [o2 p].
  cbn [fst snd] in *. split; [|now rewrite E].
  apply shows_app; [exact Hh|]. apply shows_app; [exact (S0 Cl)|exact Ht].
Qed.
End settings.
End sim.
