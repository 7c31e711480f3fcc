(** The themes for terminals, html and tex are faithful in the sense of
    RenderProofs.v. *)
From Coq Require Import NArith ZArith List Bool Arith Lia Ascii String.
From Verif Require Import Bytes Utf8 Quote Parser Dom NsDom Printer NsPrinter RenderSpec Render RenderProofs.
From Verif Require NsPlain.
Import ListNotations.
Local Open Scope N_scope.

Lemma add_nil r : add [] r = r.
Proof. now destruct r. Qed.
Lemma add_app a b r : add (a ++ b) r = add a (add b r).
Proof. destruct r; [|reflexivity]. cbn. now rewrite app_assoc. Qed.

(** ** Without markup *)
Lemma plain_shows h t : shows Some h t <-> h = t.
Proof.
  split; [|intros -> r; reflexivity]. intro H. specialize (H []). cbn in H. injection H as H.
  now rewrite !app_nil_r in H.
Qed.
Lemma plain_faithful : faithful Some (fun _ => True) plain_theme.
Proof.
  split; try (intros; exact I); try (apply plain_shows; reflexivity).
  - intros. split; exact I.
  - intros. apply plain_shows. reflexivity.
  - intros. apply plain_shows. reflexivity.
Qed.
Lemma render_plain C d : render_doc plain_theme C d = v_print_doc C d.
Proof.
  destruct d as [|x d]; [reflexivity|].
  destruct (render_shows Some (fun _ => True) plain_theme plain_faithful C (x :: d) [] [cNL]
              (fst (v_nodes C 0 (Some 0%nat) (x :: d) (PR 0 0 0 true)))) as [A Bb];
    [easy|now apply plain_shows|now apply plain_shows|exact I|reflexivity|].
  apply plain_shows in A. destruct (render_doc plain_theme C (x :: d)) as [o k]. cbn [fst snd] in *. subst o k.
  unfold v_print_doc. destruct (v_nodes _ _ _ _ _). reflexivity.
Qed.

(** Without namespaces *)
Section plain.
Variable C : cfg.
Notation plain := NsPlain.plain.
Lemma plain_parts k : v_parts (map plain k) = as_parts k.
Proof.
  induction k as [|x k IH]; [reflexivity|]. destruct x; try reflexivity. cbn. now rewrite IH.
Qed.
Lemma plain_key_value k : v_key_value (map plain k) = key_value k.
Proof. destruct k; [reflexivity|]. exact (plain_parts (n :: k)). Qed.
Lemma plain_key_eq x : v_plain_key (plain x) = plain_key x.
Proof.
  destruct x as [n a k| | | |]; try reflexivity. cbn. destruct a; [|reflexivity].
  cbn. now rewrite plain_key_value.
Qed.
Lemma plain_key_width l : v_key_width (map plain l) = key_width l.
Proof. induction l as [|x l IH]; [reflexivity|]. cbn. now rewrite plain_key_eq, IH. Qed.
Lemma plain_find_width l : v_find_width (map plain l) = find_width l.
Proof. unfold v_find_width, find_width. now rewrite plain_key_width. Qed.
Lemma seq_ext (a a' b b' : op) p : (forall p, a p = a' p) -> (forall p, b p = b' p) -> seq a b p = seq a' b' p.
Proof. intros A B. unfold seq. rewrite A. destruct (a' p) as [x p1]. now rewrite B. Qed.
Lemma seq_nop_l a p : seq nop a p = a p.
Proof. unfold seq, nop. now destruct (a p). Qed.
Lemma plain_attribute_list w l : forall p,
  v_attribute_list C w (map NsPlain.plain_attr l) p = attribute_list C w l p.
Proof.
  induction l as [|a l IH]; intro p; [reflexivity|]. cbn [map v_attribute_list attribute_list].
  apply seq_ext; [|exact IH]. intro q. unfold v_attribute, print_attribute.
  cbn [va_prefix va_name va_value NsPlain.plain_attr v_prefix qwidth].
  apply seq_ext; [reflexivity|]. intro q1. apply seq_nop_l.
Qed.
Lemma plain_width l : v_width (map NsPlain.plain_attr l) [] = attr_width l.
Proof. unfold v_width, attr_width. cbn [map]. rewrite app_nil_r, map_map. reflexivity. Qed.
Lemma plain_attributes l p : v_attributes C (map NsPlain.plain_attr l) [] p = print_attributes C l p.
Proof.
  unfold v_attributes, print_attributes, ask. rewrite plain_width.
  apply seq_ext; [reflexivity|]. intro q. apply seq_ext; [apply plain_attribute_list|].
  intro q1. apply seq_nop_l.
Qed.
Lemma plain_name n l p : v_name C None n (map NsPlain.plain_attr l) [] p = print_name C n l p.
Proof.
  unfold v_name, print_name. apply seq_ext; [reflexivity|]. intro q. cbn [v_prefix]. rewrite seq_nop_l.
  apply seq_ext; [reflexivity|]. intro q1.
  destruct l as [|a l]; [reflexivity|]. cbn [map].
  apply seq_ext; [reflexivity|]. intro q2. apply seq_ext; [|reflexivity]. intro q3.
  exact (plain_attributes (a :: l) q3).
Qed.

Fixpoint plain_node (x : node) : forall align p, v_node C align (plain x) p = print_node C align x p.
Proof.
  destruct x as [n a k|[t|n]|t|n c|c]; intros align p; try reflexivity.
  assert (K : forall l align again p,
             (fix nodes (align : nat) (again : option nat) (l : list vnode) : op :=
                match l with
                | [] => nop
                | x :: r =>
                  let '(align, again) :=
                    match again with
                    | Some O => if compact C then (align, again) else v_find_width l
                    | _ => (align, again)
                    end in
                  seq (v_node C align x)
                    (nodes align (match again with Some (S m) => Some m | _ => again end) r)
                end) align again (map plain l) p =
             (fix nodes (align : nat) (again : option nat) (l : list node) : op :=
                match l with
                | [] => nop
                | x :: r =>
                  let '(align, again) :=
                    match again with
                    | Some O => if compact C then (align, again) else find_width l
                    | _ => (align, again)
                    end in
                  seq (print_node C align x)
                    (nodes align (match again with Some (S m) => Some m | _ => again end) r)
                end) align again l p).
  { induction l as [|x l IH]; intros al ag q; [reflexivity|]. cbn [map].
    change (plain x :: map plain l) with (map plain (x :: l)). rewrite plain_find_width.
    destruct (match ag with Some O => if compact C then (al, ag) else find_width (x :: l) | _ => (al, ag) end)
      as [al' ag'].
    apply seq_ext; [apply plain_node|apply IH]. }
  cbn [plain v_node print_node]. destruct k as [|k1 k]; [apply plain_name|].
  cbn [map]. change (plain k1 :: map plain k) with (map plain (k1 :: k)). rewrite plain_key_value.
  destruct (key_value (k1 :: k)) as [ps|].
  - apply seq_ext; [apply plain_name|reflexivity].
  - apply seq_ext; [apply plain_name|]. intro q1. apply seq_ext; [reflexivity|]. intro q2.
    apply seq_ext; [reflexivity|]. intro q3. apply seq_ext; [reflexivity|]. intro q4.
    apply seq_ext; [|reflexivity]. exact (K (k1 :: k) 0%nat (Some 0%nat)).
Qed.
Lemma plain_nodes l : forall align again p,
  v_nodes C align again (map plain l) p = print_nodes C align again l p.
Proof.
  induction l as [|x l IH]; intros al ag q; [reflexivity|]. cbn [map v_nodes print_nodes].
  change (plain x :: map plain l) with (map plain (x :: l)). rewrite plain_find_width.
  destruct (match ag with Some O => if compact C then (al, ag) else find_width (x :: l) | _ => (al, ag) end)
    as [al' ag'].
  apply seq_ext; [apply plain_node|apply IH].
Qed.
Lemma plain_doc d : v_print_doc C (map plain d) = print_doc C d.
Proof.
  unfold v_print_doc, print_doc. destruct d as [|x d]; [reflexivity|]. cbn [map].
  change (plain x :: map plain d) with (map plain (x :: d)). now rewrite plain_nodes.
Qed.
End plain.

(** ** Terminals *)
Definition param (c : N) : bool := in_range 48 57 c || (c =? cSEMI).
Lemma ansi_params l r : forallb param l = true -> ansi AParams (l ++ r) = ansi AParams r.
Proof.
  induction l as [|c l IH]; [reflexivity|]. cbn [forallb]. intro H. apply andb_prop in H. destruct H as [P H].
  cbn [app ansi]. destruct (N.eqb_spec c 109) as [->|_]; [discriminate P|].
  unfold param in P. rewrite P. exact (IH H).
Qed.
Lemma decimal_loop_params fuel n acc :
  forallb param acc = true -> forallb param (decimal_loop fuel n acc) = true.
Proof.
  revert n acc. induction fuel as [|fuel IH]; intros n acc H; [exact H|]. cbn [decimal_loop].
  assert (G : forallb param ((48 + n mod 10) :: acc) = true).
  { cbn [forallb]. rewrite H, andb_true_r. unfold param, in_range.
    assert (n mod 10 < 10) by (apply N.mod_lt; discriminate).
    replace (48 <=? 48 + n mod 10) with true by (symmetry; apply N.leb_le; lia).
    replace (48 + n mod 10 <=? 57) with true by (symmetry; apply N.leb_le; lia). reflexivity. }
  destruct (n <? 10); [exact G|apply IH, G].
Qed.
Lemma decimal_params n : forallb param (decimal n) = true.
Proof. apply decimal_loop_params. reflexivity. Qed.
Lemma ansi_color_shows d : shows ansi_text (ansi_color d) [].
Proof.
  intro r. rewrite add_nil. unfold ansi_color, ansi_text.
  set (ps := (B "0;" ++ (if bold d then B "1;" else []) ++ (if underline d then B "4;" else []) ++
              B "38;2;" ++ decimal (red d) ++ B ";" ++ decimal (green d) ++ B ";" ++ decimal (blue d))).
  assert (P : forallb param ps = true).
  { unfold ps. rewrite !forallb_app, !decimal_params. now destruct (bold d), (underline d). }
  assert (E : 27 :: B "[0;" ++ (if bold d then B "1;" else []) ++ (if underline d then B "4;" else []) ++
              B "38;2;" ++ decimal (red d) ++ B ";" ++ decimal (green d) ++ B ";" ++ decimal (blue d) ++ B "m"
              = 27 :: 91 :: ps ++ B "m").
  { unfold ps. change (B "[0;") with (91 :: B "0;"). rewrite <- !app_assoc. reflexivity. }
  rewrite E. cbn [app]. cbn [ansi N.eqb Pos.eqb]. rewrite <- app_assoc. rewrite (ansi_params ps _ P). reflexivity.
Qed.
Lemma NOCOLOR_shows : shows ansi_text NOCOLOR [].
Proof. intro r. rewrite add_nil. reflexivity. Qed.
Lemma ansi_char c : c <> 27 -> shows ansi_text [c] [c].
Proof. intros H r. unfold ansi_text. cbn [app ansi]. destruct (N.eqb_spec c 27); [contradiction|reflexivity]. Qed.
Lemma ansi_chars l : ~ In 27 l -> shows ansi_text l l.
Proof.
  induction l as [|c l IH]; intro H; [apply shows_nil|].
  apply (shows_app ansi_text [c] [c] l l); [apply ansi_char; intros ->; apply H; now left|].
  apply IH. intro X. apply H. now right.
Qed.
Lemma terminal_faithful defs : faithful ansi_text no_escape_byte (terminal_theme defs).
Proof.
  split.
  - intros a b H. split; intro X; apply H, in_or_app; [now left|now right].
  - intro c. unfold terminal_theme. cbn [strings fst]. destruct (name_of c); [apply ansi_color_shows|].
    destruct c; try exact I. exact NOCOLOR_shows.
  - intro c. exact I.
  - now apply ansi_char.
  - now apply ansi_char.
  - now apply ansi_char.
  - now apply ansi_char.
  - intros c a _ _ _ Cl. apply ansi_chars. exact Cl.
  - now apply ansi_char.
  - now apply ansi_char.
  - now apply ansi_char.
  - intro H. exact (ansi_chars _ H).
Qed.

(** ** Html *)
Lemma stray_factor l a b : stray_after l a \/ stray_after l b -> stray_after l (a ++ b).
Proof.
  intros [(x & c & d & y & -> & H)|(x & c & d & y & -> & H)].
  - exists x, c, d, (y ++ b). split; [now rewrite <- app_assoc|exact H].
  - exists (a ++ x), c, d, y. split; [now rewrite <- app_assoc|exact H].
Qed.
Lemma clean_stray l c a : ~ stray_after l (c :: a) -> In c l -> Forall (fun d => is_cont d = true) a -> a = [].
Proof.
  intros H L K. destruct a as [|d a]; [reflexivity|]. exfalso. apply H. inversion K; subst.
  exists [], c, d, a. split; [reflexivity|split; assumption].
Qed.
Lemma html_char c : c <> cLT -> c <> cAMP -> shows html_text [c] [c].
Proof.
  intros L A r. unfold html_text. cbn [app html].
  destruct (N.eqb_spec c cLT); [contradiction|]. destruct (N.eqb_spec c cAMP); [contradiction|reflexivity].
Qed.
Lemma html_conts a : Forall (fun d => is_cont d = true) a -> shows html_text a a.
Proof.
  induction 1 as [|d a H A IH]; [apply shows_nil|].
  apply (shows_app html_text [d] [d] a a); [|exact IH]. apply html_char; intros ->; discriminate H.
Qed.
Lemma html_tag_mode l r : forallb (fun c => negb (c =? cGT)) l = true -> html HTag (l ++ cGT :: r) = html HText r.
Proof.
  induction l as [|c l IH]; [reflexivity|]. cbn [forallb]. intro H. apply andb_prop in H. destruct H as [P H].
  cbn [app html]. destruct (c =? cGT); [discriminate P|exact (IH H)].
Qed.
Lemma html_tag l : forallb (fun c => negb (c =? cGT)) l = true -> shows html_text ([cLT] ++ l ++ [cGT]) [].
Proof.
  intros H r. rewrite add_nil. unfold html_text. rewrite <- !app_assoc. cbn [app html]. cbn [N.eqb Pos.eqb].
  exact (html_tag_mode l r H).
Qed.
Lemma name_no_gt n : forallb (fun c => negb (c =? cGT)) (name_text n) = true.
Proof. destruct n; reflexivity. Qed.
Lemma html_faithful dm : faithful html_text html_clean (html_theme dm).
Proof.
  split.
  - intros a b H. split; intro X; apply H, stray_factor; [now left|now right].
  - intro c. unfold html_theme. cbn [strings]. destruct (name_of c) as [n|]; [|exact I]. cbn [fst].
    apply html_tag, name_no_gt.
  - intro c. unfold html_theme. cbn [strings]. destruct (name_of c) as [n|]; [|exact I]. cbn [snd].
    exact (html_tag (cSLASH :: name_text n) (name_no_gt n)).
  - now apply html_char.
  - now apply html_char.
  - now apply html_char.
  - now apply html_char.
  - intros c a _ _ K Cl. unfold html_theme. cbn [esc]. unfold html_escape.
    destruct (N.eqb_spec c cAMP) as [->|Na].
    { rewrite (clean_stray _ _ _ Cl (or_introl eq_refl) K). intro r. reflexivity. }
    destruct (N.eqb_spec c cLT) as [->|Nl].
    { rewrite (clean_stray _ _ _ Cl (or_intror (or_introl eq_refl)) K). intro r. reflexivity. }
    destruct (N.eqb_spec c cGT) as [->|Ng].
    { rewrite (clean_stray _ _ _ Cl (or_intror (or_intror (or_introl eq_refl))) K). intro r. reflexivity. }
    apply (shows_app html_text [c] [c] a a); [now apply html_char|exact (html_conts a K)].
  - now apply html_char.
  - now apply html_char.
  - now apply html_char.
  - intros _ r. unfold html_text. destruct (html HText r) eqn:E; cbn; rewrite E; reflexivity.
Qed.

(** ** Tex *)
Definition ordinary (c : N) : bool := negb (RenderSpec.among c (B "\{}%~#$^&_")).
Lemma tex_char c : ordinary c = true -> shows tex_text [c] [c].
Proof.
  intros H r. unfold tex_text. cbn [app tex]. unfold ordinary in H.
  change (B "\{}%~#$^&_") with [92; 123; 125; 37; 126; 35; 36; 94; 38; 95] in H.
  change (B "#$^&_") with [35; 36; 94; 38; 95].
  cbn [RenderSpec.among existsb] in *. rewrite !negb_orb in H. repeat (apply andb_prop in H as [? H]).
  repeat match goal with X : negb (_ =? _) = true |- _ => apply negb_true_iff in X end.
  unfold cBSL, cLB, cRB in *.
  repeat match goal with X : (c =? _) = false |- _ => rewrite X end. reflexivity.
Qed.
Lemma tex_conts a : Forall (fun d => is_cont d = true) a -> shows tex_text a a.
Proof.
  induction 1 as [|d a H A IH]; [apply shows_nil|].
  apply (shows_app tex_text [d] [d] a a); [|exact IH]. apply tex_char.
  unfold ordinary. apply negb_true_iff. destruct (RenderSpec.among d _) eqn:E; [|reflexivity].
  apply existsb_exists in E. destruct E as (x & X & E). apply N.eqb_eq in E. subst x. exfalso.
  cbn in X. repeat (destruct X as [<-|X]; [discriminate H|]). exact X.
Qed.
Lemma tex_faithful : faithful tex_text tex_clean tex_theme.
Proof.
  split.
  - intros a b (H1 & H2 & H3). split; (split; [|split]).
    + intros c X Y. apply (H1 c X), in_or_app. now left.
    + intros (x & y & ->). apply H2. exists x, (y ++ b). now rewrite <- !app_assoc.
    + intro X. apply H3, stray_factor. now left.
    + intros c X Y. apply (H1 c X), in_or_app. now right.
    + intros (x & y & ->). apply H2. exists (a ++ x), y. now rewrite <- !app_assoc.
    + intro X. apply H3, stray_factor. now right.
  - intro c. unfold tex_theme. cbn [strings]. destruct (name_of c) as [n|]; [|exact I]. cbn [fst].
    intro r. rewrite add_nil. destruct n; exact (add_nil _).
  - intro c. unfold tex_theme. cbn [strings]. destruct (name_of c) as [n|]; [|exact I]. cbn [snd].
    intro r. rewrite add_nil. reflexivity.
  - intro r. reflexivity.
  - now apply tex_char.
  - now apply tex_char.
  - intro r. reflexivity.
  - intros c a _ _ K (H1 & H2 & H3). unfold tex_theme. cbn [esc]. unfold tex_escape.
    assert (E : forall e, In e (B "&#{}_'") -> c = e -> a = []).
    { intros e X ->. exact (clean_stray _ _ _ H3 X K). }
    destruct (N.eqb_spec c cBSL) as [->|N0].
    { exfalso. apply (H1 cBSL); [now left|now left]. }
    destruct (N.eqb_spec c cAMP) as [->|N1]; [rewrite (E cAMP); [intro r; reflexivity|cbn; tauto|reflexivity]|].
    destruct (N.eqb_spec c cHASH) as [->|N2]; [rewrite (E cHASH); [intro r; reflexivity|cbn; tauto|reflexivity]|].
    destruct (N.eqb_spec c cLB) as [->|N3]; [rewrite (E cLB); [intro r; reflexivity|cbn; tauto|reflexivity]|].
    destruct (N.eqb_spec c cRB) as [->|N4]; [rewrite (E cRB); [intro r; reflexivity|cbn; tauto|reflexivity]|].
    destruct (N.eqb_spec c cUND) as [->|N5]; [rewrite (E cUND); [intro r; reflexivity|cbn; tauto|reflexivity]|].
    destruct (N.eqb_spec c cQ) as [->|N6]; [rewrite (E cQ); [intro r; reflexivity|cbn; tauto|reflexivity]|].
    apply (shows_app tex_text [c] [c] a a); [|exact (tex_conts a K)]. apply tex_char.
    unfold ordinary. apply negb_true_iff. destruct (RenderSpec.among c _) eqn:X; [|reflexivity].
    apply existsb_exists in X. destruct X as (x & X & Y). apply N.eqb_eq in Y. subst x. exfalso.
    cbn in X. cbn in H1.
    repeat (destruct X as [X|X];
      [first [exact (N0 (eq_sym X))|exact (N1 (eq_sym X))|exact (N2 (eq_sym X))|exact (N3 (eq_sym X))
             |exact (N4 (eq_sym X))|exact (N5 (eq_sym X))
             |apply (H1 c); [rewrite <- X; tauto|now left]]|]).
    exact X.
  - now apply tex_char.
  - now apply tex_char.
  - now apply tex_char.
  - intros (_ & H & _). exfalso. apply H. exists [], []. reflexivity.
Qed.

(** ** Documents *)
Lemma doc_shows strip clean T C d h t :
  faithful strip clean T -> d <> [] ->
  shows strip (head T) h -> shows strip (tail T ++ [cNL]) (cNL :: t) ->
  clean (fst (v_print_doc C d)) -> strip [] = Some [] ->
  strip (fst (render_doc T C d)) = Some (h ++ fst (v_print_doc C d) ++ t) /\
  snd (render_doc T C d) = snd (v_print_doc C d).
Proof.
  intros F D Hh Ht Cl E. 
  assert (X : fst (v_print_doc C d) = fst (v_nodes C 0 (Some 0%nat) d (PR 0 0 0 true)) ++ [cNL]).
  { unfold v_print_doc. destruct d; [easy|]. destruct (v_nodes _ _ _ _ _). reflexivity. }
  rewrite X in *. destruct (f_clean _ _ _ F _ _ Cl) as [Cl1 _].
  destruct (render_shows strip clean T F C d h (cNL :: t) _ D Hh Ht Cl1 eq_refl) as [A Bb].
  split; [|exact Bb]. specialize (A []). rewrite app_nil_r, E in A. rewrite A. cbn [add option_map].
  rewrite app_nil_r. rewrite <- app_assoc. reflexivity.
Qed.
