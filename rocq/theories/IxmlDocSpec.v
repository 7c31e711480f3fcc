(** Specification for the documents that ixml grammars give, independent of
    the code: what the parts of a text contribute to the document, following
    the marks of the grammar. *)
From Coq Require Import NArith ZArith Bool String List.
From Verif Require Import Bytes Utf8Proofs Dom Ixml IxmlSpec.
Import ListNotations.
Local Open Scope N_scope.
Local Open Scope list_scope.

(** A part of the document: a character of the text, an inserted string, an
    attribute or an element. *)
Inductive item :=
| IChar (c : Z)
| IIns (s : bytes)
| IAttr (n : bytes) (its : list item)
| IElem (n : bytes) (its : list item).

(** Marks: - leaves a character out, and puts the content of a nonterminal in
    place of the nonterminal; @ makes an attribute; otherwise a character is
    kept and a nonterminal makes an element. *)
Definition char_items (m : N) (c : Z) : list item := if m =? 45 then [] else [IChar c].
Definition wrap (m : N) (n : bytes) (its : list item) : list item :=
  if m =? 45 then its else if m =? 64 then [IAttr n its] else [IElem n its].
Definition label (r : grule) : bytes := match ru_alias r with Some a => a | None => ru_name r end.

(** [o_factor f w its]: [f] describes the text [w], and gives [its]. *)
Section outputs.
Variable G : grammar.
Inductive o_factor : factor -> word -> list item -> Prop :=
| o_str tm cs : o_factor (FStr tm cs) cs (flat_map (char_items tm) cs)
| o_hex tm c : o_factor (FHex tm c) [c] (char_items tm c)
| o_set tm ex ms c : in_set ex ms c -> o_factor (FSet tm ex ms) [c] (char_items tm c)
| o_nt m n al r w its : In r G -> ru_name r = n -> o_alts (ru_alts r) w its ->
    o_factor (FNt m n al) w (wrap (if m =? 0 then ru_mark r else m) (match al with Some a => a | None => label r end) its)
| o_ins cs : o_factor (FIns cs) [] [IIns (utf8 cs)]
| o_group a w its : o_alts a w its -> o_factor (FGroup a) w its
| o_empty : o_factor FEmpty [] []
with o_term : term -> word -> list item -> Prop :=
| o_one f w its : o_factor f w its -> o_term (TOne f) w its
| o_opt_no f : o_term (TOpt f) [] []
| o_opt_yes f w its : o_factor f w its -> o_term (TOpt f) w its
| o_star_none f : o_term (TStar f) [] []
| o_star_some f w its : o_reps f w its -> o_term (TStar f) w its
| o_plus f w its : o_reps f w its -> o_term (TPlus f) w its
| o_starsep_none f s : o_term (TStarSep f s) [] []
| o_starsep_some f s w its : o_sreps f s w its -> o_term (TStarSep f s) w its
| o_plussep f s w its : o_sreps f s w its -> o_term (TPlusSep f s) w its
with o_reps : factor -> word -> list item -> Prop :=
| o_reps_one f w its : o_factor f w its -> o_reps f w its
| o_reps_more f v w i j : o_reps f v i -> o_factor f w j -> o_reps f (v ++ w) (i ++ j)
with o_sreps : factor -> factor -> word -> list item -> Prop :=
| o_sreps_one f s w its : o_factor f w its -> o_sreps f s w its
| o_sreps_more f s u v w i j k : o_sreps f s u i -> o_factor s v j -> o_factor f w k -> o_sreps f s (u ++ v ++ w) (i ++ j ++ k)
with o_alt : alt -> word -> list item -> Prop :=
| o_nil : o_alt ANil [] []
| o_cons t a v w i j : o_term t v i -> o_alt a w j -> o_alt (ACons t a) (v ++ w) (i ++ j)
with o_alts : alts -> word -> list item -> Prop :=
| o_last a w its : o_alt a w its -> o_alts (AOne a) w its
| o_first a r w its : o_alt a w its -> o_alts (AMore a r) w its
| o_later a r w its : o_alts r w its -> o_alts (AMore a r) w its.

Definition gives (w : word) (its : list item) : Prop :=
  exists r0 rs r i, G = r0 :: rs /\ In r G /\ ru_name r = ru_name r0 /\ o_alts (ru_alts r) w i /\
    its = wrap (ru_mark r) (label r) i.
End outputs.

(** The document: the value of an attribute is all text in it; adjacent texts
    of an element are one text. *)
Fixpoint text_of (i : item) : bytes :=
  match i with
  | IChar c => utf8 [c]
  | IIns s => s
  | IAttr _ its => flat_map text_of its
  | IElem _ its => flat_map text_of its
  end.
Fixpoint join (l : list node) : list node :=
  match l with
  | [] => []
  | Part (PText a) :: r =>
    match join r with
    | Part (PText b) :: k => Part (PText (a ++ b)) :: k
    | k => Part (PText a) :: k
    end
  | n :: r => n :: join r
  end.
Definition attrs_of (its : list item) : list attr :=
  flat_map (fun i => match i with IAttr n s => [(n, [PText (flat_map text_of s)])] | _ => [] end) its.
Fixpoint nodes_of (i : item) : list node :=
  match i with
  | IChar c => [Part (PText (utf8 [c]))]
  | IIns s => [Part (PText s)]
  | IAttr _ _ => []
  | IElem n its => [Elem n (attrs_of its) (join (flat_map nodes_of its))]
  end.
(** The document has one element at the top. *)
Definition document (its : list item) (d : node) : Prop :=
  exists n s, its = [IElem n s] /\ nodes_of (IElem n s) = [d].

(** No insertion inside of an attribute (the code leaves it out) *)
Fixpoint no_ins (i : item) : bool :=
  match i with
  | IChar _ => true
  | IIns _ => false
  | IAttr _ its => forallb no_ins its
  | IElem _ its => forallb no_ins its
  end.
Fixpoint attrs_plain (i : item) : bool :=
  match i with
  | IAttr _ its => forallb no_ins its
  | IElem _ its => forallb attrs_plain its
  | _ => true
  end.

(** ** Restrictions

    The reader loses track of some marks and aliases.  [last_factor f m] is
    the last mark that was read at the end of [f]: it is used in place of the
    mark of a repeated or optional factor. *)
Definition plain (m : N) : bool := (m =? 0) || (m =? 45).
Definition hex_end (e : range_end) : bool := match e with RHex _ => true | RChar _ => false end.
Definition hex_member (m : member) : bool :=
  match m with MHex _ => true | MRange a b => hex_end a || hex_end b | _ => false end.
Fixpoint last_factor (f : factor) (m : N) : N :=
  match f with
  | FStr tm _ | FHex tm _ => tm
  | FSet _ _ ms => if existsb hex_member ms then 0 else m
  | FNt m' _ _ => m'
  | FGroup a => last_alts a m
  | FIns _ | FEmpty => m
  end
with last_term (t : term) (m : N) : N :=
  match t with
  | TOne f | TOpt f | TStar f | TPlus f => last_factor f m
  | TPlusSep f s => last_factor s (last_factor f m)
  | TStarSep _ _ => 45
  end
with last_alt (a : alt) (m : N) : N :=
  match a with ANil => m | ACons t a => last_alt a (last_term t m) end
with last_alts (a : alts) (m : N) : N :=
  match a with AOne a => last_alt a m | AMore a r => last_alts r (last_alt a m) end.
(** A factor that is repeated or optional: a group, a set or a string of more
    than one character is read with the last mark. *)
Definition marks_rep (f : factor) (m : N) : bool :=
  match f with
  | FGroup _ | FSet _ _ _ | FStr _ (_ :: _ :: _) => plain (last_factor f m)
  | _ => true
  end.
(** [marks_factor f m]: the mark before [f] is [m].  A set has no ^, the alias
    of a nonterminal in an alternative is not used. *)
Fixpoint marks_factor (f : factor) (m : N) : bool :=
  match f with
  | FSet tm _ _ => plain tm
  | FNt _ _ al => match al with None => true | Some _ => false end
  | FGroup a => marks_alts a m
  | _ => true
  end
with marks_term (t : term) (m : N) : bool :=
  match t with
  | TOne f => marks_factor f m
  | TOpt f | TStar f | TPlus f => marks_factor f m && marks_rep f m
  | TStarSep f s | TPlusSep f s =>
    marks_factor f m && marks_rep f m && (marks_factor s (last_factor f m) && marks_rep s (last_factor f m))
  end
with marks_alt (a : alt) (m : N) : bool :=
  match a with ANil => true | ACons t a => marks_term t m && marks_alt a (last_term t m) end
with marks_alts (a : alts) (m : N) : bool :=
  match a with AOne a => marks_alt a m | AMore a r => marks_alt a m && marks_alts r (last_alt a m) end.
(** The alias of a rule is used for its first alternative only. *)
Definition marks_rule (r : grule) (m : N) : bool :=
  match ru_alias r, ru_alts r with Some _, AMore _ _ => false | _, _ => true end && marks_alts (ru_alts r) m.
Fixpoint marks_rules (G : grammar) (m : N) : bool :=
  match G with [] => true | r :: G => marks_rule r m && marks_rules G (last_alts (ru_alts r) m) end.
Definition marks_ok (G : grammar) : bool := marks_rules G 0.
