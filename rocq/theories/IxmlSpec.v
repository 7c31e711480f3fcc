(** Specification for ixml grammars, independent of the code: the grammars,
    the texts they describe, how a grammar is written, and the texts that BNF
    rules derive. *)
From Coq Require Import NArith ZArith Bool String List.
From Verif Require Import Bytes Utf8Proofs UnicodeTables Ixml.
Import ListNotations.
Local Open Scope N_scope.
Local Open Scope list_scope.

(** A text is a list of code points. *)
Notation word := (list Z) (only parsing).
Definition code_ok (c : Z) : Prop := (0 <= c <= 0x10ffff)%Z.
Definition utf8 (w : word) : bytes := List.concat (map (fun c => utf8_spec (Z.to_N c)) w).

(** ** Grammars

    Marks are characters: 0 (none), or one of @ ^ -.  A member of a set is a
    string (any of its characters), a range, an encoded character or the name
    of a unicode category. *)
Inductive range_end := RChar (c : Z) | RHex (c : Z).
Definition end_code (e : range_end) : Z := match e with RChar c => c | RHex c => c end.
Inductive member := MStr (cs : word) | MRange (a b : range_end) | MHex (c : Z) | MCat (n : bytes).

Inductive factor :=
| FStr (tm : N) (cs : word)                                 (* "abc" *)
| FHex (tm : N) (c : Z)                                     (* #41 *)
| FSet (tm : N) (ex : bool) (ms : list member)              (* ["a"-"z"; Lu] or ~[...] *)
| FNt (m : N) (n : bytes) (al : option bytes)               (* name>alias *)
| FIns (cs : word)                                          (* +"abc" *)
| FGroup (a : alts)                                         (* ( ... ) *)
| FEmpty                                                    (* () *)
with term :=
| TOne (f : factor)
| TOpt (f : factor)                                         (* f? *)
| TStar (f : factor)                                        (* f* *)
| TPlus (f : factor)                                        (* f+ *)
| TStarSep (f s : factor)                                   (* f**s *)
| TPlusSep (f s : factor)                                   (* f++s *)
with alt := ANil | ACons (t : term) (a : alt)
with alts := AOne (a : alt) | AMore (a : alt) (r : alts).

Record grule := GRule { ru_mark : N; ru_name : bytes; ru_alias : option bytes; ru_alts : alts }.
Definition grammar := list grule.

(** ** The texts a grammar describes *)

(** The general categories of Unicode, with the tables of text.c.  One letter
    stands for all categories that start with it, LC for the cased letters. *)
Definition general : list (bytes * list Z) :=
  [(B "Lu", unicode_Lu); (B "Ll", unicode_Ll); (B "Lt", unicode_Lt); (B "Lm", unicode_Lm); (B "Lo", unicode_Lo);
   (B "Mn", unicode_Mn); (B "Mc", unicode_Mc); (B "Me", unicode_Me); (B "Nd", unicode_Nd); (B "Nl", unicode_Nl);
   (B "No", unicode_No); (B "Pc", unicode_Pc); (B "Pd", unicode_Pd); (B "Ps", unicode_Ps); (B "Pe", unicode_Pe);
   (B "Pi", unicode_Pi); (B "Pf", unicode_Pf); (B "Po", unicode_Po); (B "Sm", unicode_Sm); (B "Sc", unicode_Sc);
   (B "Sk", unicode_Sk); (B "So", unicode_So); (B "Zs", unicode_Zs); (B "Zl", unicode_Zl); (B "Zp", unicode_Zp);
   (B "Cc", unicode_Cc); (B "Cf", unicode_Cf); (B "Cs", unicode_Cs); (B "Co", unicode_Co); (B "Cn", unicode_Cn)].
Definition covers (n b : bytes) : Prop := n = b \/ n = firstn 1 b \/ (n = B "LC" /\ In b [B "Lu"; B "Ll"; B "Lt"]).
Definition is_category (n : bytes) : Prop := exists b t, In (b, t) general /\ covers n b.
Definition in_category (n : bytes) (c : Z) : Prop := exists b t, In (b, t) general /\ covers n b /\ In c t.
Definition in_member (c : Z) (m : member) : Prop :=
  match m with
  | MStr cs => In c cs
  | MRange a b => (end_code a <= c <= end_code b)%Z
  | MHex v => c = v
  | MCat n => in_category n c
  end.
Definition in_set (ex : bool) (ms : list member) (c : Z) : Prop :=
  if ex then ~ Exists (in_member c) ms else Exists (in_member c) ms.

Section matches.
Variable G : grammar.

Inductive m_factor : factor -> word -> Prop :=
| m_str tm cs : m_factor (FStr tm cs) cs
| m_hex tm c : m_factor (FHex tm c) [c]
| m_set tm ex ms c : in_set ex ms c -> m_factor (FSet tm ex ms) [c]
| m_nt m n al r w : In r G -> ru_name r = n -> m_alts (ru_alts r) w -> m_factor (FNt m n al) w
| m_ins cs : m_factor (FIns cs) []
| m_group a w : m_alts a w -> m_factor (FGroup a) w
| m_empty : m_factor FEmpty []
with m_term : term -> word -> Prop :=
| m_one f w : m_factor f w -> m_term (TOne f) w
| m_opt_no f : m_term (TOpt f) []
| m_opt_yes f w : m_factor f w -> m_term (TOpt f) w
| m_star_none f : m_term (TStar f) []
| m_star_some f w : m_reps f w -> m_term (TStar f) w
| m_plus f w : m_reps f w -> m_term (TPlus f) w
| m_starsep_none f s : m_term (TStarSep f s) []
| m_starsep_some f s w : m_sreps f s w -> m_term (TStarSep f s) w
| m_plussep f s w : m_sreps f s w -> m_term (TPlusSep f s) w
(** one or more times f *)
with m_reps : factor -> word -> Prop :=
| m_reps_one f w : m_factor f w -> m_reps f w
| m_reps_more f v w : m_reps f v -> m_factor f w -> m_reps f (v ++ w)
(** one or more times f, with s in between *)
with m_sreps : factor -> factor -> word -> Prop :=
| m_sreps_one f s w : m_factor f w -> m_sreps f s w
| m_sreps_more f s u v w : m_sreps f s u -> m_factor s v -> m_factor f w -> m_sreps f s (u ++ v ++ w)
with m_alt : alt -> word -> Prop :=
| m_nil : m_alt ANil []
| m_cons t a v w : m_term t v -> m_alt a w -> m_alt (ACons t a) (v ++ w)
with m_alts : alts -> word -> Prop :=
| m_last a w : m_alt a w -> m_alts (AOne a) w
| m_first a r w : m_alt a w -> m_alts (AMore a r) w
| m_later a r w : m_alts r w -> m_alts (AMore a r) w.

(** The first rule describes the texts of the grammar; a name with more than
    one rule stands for any of them. *)
Definition describes (w : word) : Prop :=
  exists r0 rs r, G = r0 :: rs /\ In r G /\ ru_name r = ru_name r0 /\ m_alts (ru_alts r) w.
End matches.

(** ** The texts that BNF rules derive *)
Section yields.
Variable y : ygrammar.
Inductive yields : bytes -> word -> Prop :=
| y_term s c : In (s, c) (y_terms y) -> yields s [c]
| y_rule s rhs w : In (s, rhs) (y_rules y) -> yields_all rhs w -> yields s w
with yields_all : list bytes -> word -> Prop :=
| y_nil : yields_all [] []
| y_cons s rhs v w : yields s v -> yields_all rhs w -> yields_all (s :: rhs) (v ++ w).
Definition derives (w : word) : Prop := exists s rhs rs, y_rules y = (s, rhs) :: rs /\ yields s w.
End yields.

(** ** How a grammar is written *)

Definition blank (c : N) : Prop := c = 32 \/ c = 9 \/ c = 10 \/ c = 13.
Definition blanks (s : bytes) : Prop := Forall blank s.

(** Comments nest.  A comment inside a comment is not directly followed by
    another one (the reader does not get that right). *)
Inductive w_comment : bytes -> Prop :=
| wc s : w_body s -> w_comment (B "{" ++ s ++ B "}")
with w_body : bytes -> Prop :=
| wb_nil : w_body []
| wb_char c s : c <> 0 -> c <> 123 -> c <> 125 -> w_body s -> w_body (c :: s)
| wb_comment s r : w_comment s -> hd 0 r <> 123 -> w_body r -> w_body (s ++ r).
Inductive w_ws : bytes -> Prop :=
| ww_nil : w_ws []
| ww_blank c s : blank c -> w_ws s -> w_ws (c :: s)
| ww_comment s r : w_comment s -> w_ws r -> w_ws (s ++ r).

Definition among (s : string) (c : N) : bool := existsb (N.eqb c) (B s).
Definition name_start : N -> bool := among "ABCDEFGHIJKLMNOPQRSTUVWXYZabcdefghijklmnopqrstuvwxyz_".
Definition name_follower : N -> bool := among "ABCDEFGHIJKLMNOPQRSTUVWXYZabcdefghijklmnopqrstuvwxyz_0123456789-".
Definition name_ok (n : bytes) : Prop :=
  exists c r, n = c :: r /\ name_start c = true /\ forallb name_follower r = true.

(** A string: in quotes, a quote inside is doubled. *)
Definition w_char (q : N) (c : Z) : bytes := if Z.to_N c =? q then [q; q] else utf8_spec (Z.to_N c).
Definition quote (q : N) : Prop := q = 34 \/ q = 39.
Inductive w_string : word -> bytes -> Prop :=
| w_str q cs : quote q -> Forall (fun c => code_ok c /\ c <> 0%Z) cs ->
    w_string cs (q :: List.concat (map (w_char q) cs) ++ [q]).

(** An encoded character: # and hexadecimal digits *)
Definition hexadecimal (c : N) (d : nat) : Prop :=
  nth_error (B "0123456789abcdef") d = Some c \/ nth_error (B "0123456789ABCDEF") d = Some c.
Inductive number : bytes -> Z -> Prop :=
| n_none : number [] 0
| n_digit ds v c d : number ds v -> hexadecimal c d -> number (ds ++ [c]) (16 * v + Z.of_nat d).
Inductive w_hex : Z -> bytes -> Prop :=
| w_digits c ds : ds <> [] -> number ds c -> code_ok c -> w_hex c (35 :: ds).

(** Marks, followed by blanks *)
Inductive w_tmark : N -> bytes -> Prop :=
| wt_none : w_tmark 0 []
| wt_mark c s : c = 94 \/ c = 45 -> blanks s -> w_tmark c (c :: s).
Inductive w_mark : N -> bytes -> Prop :=
| wm_none : w_mark 0 []
| wm_mark c s : c = 64 \/ c = 94 \/ c = 45 -> blanks s -> w_mark c (c :: s).

(** A name with an alias, and white space after it *)
Inductive w_naming : bytes -> option bytes -> bytes -> Prop :=
| wn_plain n z : name_ok n -> w_ws z -> w_naming n None (n ++ z)
| wn_alias n a z1 z2 z3 : name_ok n -> name_ok a -> w_ws z1 -> w_ws z2 -> w_ws z3 ->
    w_naming n (Some a) (n ++ z1 ++ B ">" ++ z2 ++ a ++ z3).

(** The end of a range as a string of one character; the first string of a
    range is not a quote in quotes of its kind (the reader does not take
    that). *)
Inductive w_end : bool -> range_end -> bytes -> Prop :=
| we_char first q c : quote q -> code_ok c -> c <> 0%Z -> (first = true -> c <> Z.of_N q) ->
    w_end first (RChar c) (q :: w_char q c ++ [q])
| we_hex first c s : w_hex c s -> w_end first (RHex c) s.
(** A member of a set with white space after it *)
Inductive w_member : member -> bytes -> Prop :=
| wm_str cs s z : w_string cs s -> w_ws z -> w_member (MStr cs) (s ++ z)
| wm_range a b s1 s2 z1 z2 z3 : w_end true a s1 -> w_end false b s2 -> w_ws z1 -> w_ws z2 -> w_ws z3 ->
    w_member (MRange a b) (s1 ++ z1 ++ B "-" ++ z2 ++ s2 ++ z3)
| wm_hex c s z : w_hex c s -> w_ws z -> w_member (MHex c) (s ++ z)
| wm_cat n z : is_category n -> w_ws z -> w_member (MCat n) (n ++ z).
Definition sep (c : N) : Prop := c = 59 \/ c = 124.
Inductive w_members : list member -> bytes -> Prop :=
| ws_none : w_members [] []
| ws_one m s : w_member m s -> w_members [m] s
| ws_more m ms s c z r : w_member m s -> sep c -> w_ws z -> ms <> [] -> w_members ms r ->
    w_members (m :: ms) (s ++ c :: z ++ r).

(** Factors, terms and alternatives, each with the white space after it.  The
    alternatives of a group do not start with an empty one, and an empty
    alternative is not followed by a semicolon (the reader takes neither). *)
Definition starts_empty (a : alts) : bool :=
  match a with AOne ANil => true | AMore ANil _ => true | _ => false end.
Inductive w_factor : factor -> bytes -> Prop :=
| wf_str tm cs t s z : w_tmark tm t -> w_string cs s -> w_ws z -> w_factor (FStr tm cs) (t ++ s ++ z)
| wf_hex tm c t s z : w_tmark tm t -> w_hex c s -> w_ws z -> w_factor (FHex tm c) (t ++ s ++ z)
| wf_set tm (ex : bool) ms t x z1 s z2 : w_tmark tm t ->
    (if ex then exists b, x = 126 :: b /\ blanks b else x = []) -> w_ws z1 -> w_members ms s -> w_ws z2 ->
    w_factor (FSet tm ex ms) (t ++ x ++ B "[" ++ z1 ++ s ++ B "]" ++ z2)
| wf_nt m n al t s : w_mark m t -> w_naming n al s -> w_factor (FNt m n al) (t ++ s)
| wf_ins cs z1 s z2 : w_ws z1 -> w_string cs s -> w_ws z2 -> w_factor (FIns cs) (B "+" ++ z1 ++ s ++ z2)
| wf_group a z1 s z2 : starts_empty a = false -> w_ws z1 -> w_alts a s -> w_ws z2 ->
    w_factor (FGroup a) (B "(" ++ z1 ++ s ++ B ")" ++ z2)
| wf_empty z1 z2 : w_ws z1 -> w_ws z2 -> w_factor FEmpty (B "(" ++ z1 ++ B ")" ++ z2)
with w_term : term -> bytes -> Prop :=
| wt_one f s : w_factor f s -> w_term (TOne f) s
| wt_opt f s z : w_factor f s -> w_ws z -> w_term (TOpt f) (s ++ B "?" ++ z)
| wt_star f s z : w_factor f s -> w_ws z -> w_term (TStar f) (s ++ B "*" ++ z)
| wt_plus f s z : w_factor f s -> w_ws z -> w_term (TPlus f) (s ++ B "+" ++ z)
| wt_starsep f g s z r : w_factor f s -> w_ws z -> w_factor g r -> w_term (TStarSep f g) (s ++ B "**" ++ z ++ r)
| wt_plussep f g s z r : w_factor f s -> w_ws z -> w_factor g r -> w_term (TPlusSep f g) (s ++ B "++" ++ z ++ r)
(** an alternative that is not empty *)
with w_alt : alt -> bytes -> Prop :=
| wa_one t s : w_term t s -> w_alt (ACons t ANil) s
| wa_more t a s z r : w_term t s -> w_ws z -> w_alt a r -> w_alt (ACons t a) (s ++ B "," ++ z ++ r)
with w_alts : alts -> bytes -> Prop :=
| wl_one a s : w_alt a s -> w_alts (AOne a) s
| wl_empty : w_alts (AOne ANil) []
| wl_more a r s c z t : w_alt a s -> sep c -> w_ws z -> w_alts r t -> w_alts (AMore a r) (s ++ c :: z ++ t)
| wl_more_empty r z t : w_ws z -> w_alts r t -> w_alts (AMore ANil r) (B "|" ++ z ++ t).

Inductive w_rule : grule -> bytes -> Prop :=
| w_rule_ m n al a t s c z1 z2 l : w_mark m t -> w_naming n al s -> c = 61 \/ c = 58 -> w_ws z1 -> w_alts a l -> w_ws z2 ->
    w_rule (GRule m n al a) (t ++ s ++ c :: z1 ++ l ++ B "." ++ z2).
Inductive w_rules : grammar -> bytes -> Prop :=
| wr_one r s : w_rule r s -> w_rules [r] s
| wr_more r rs s t : w_rule r s -> w_rules rs t -> w_rules (r :: rs) (s ++ t).
(** ixml version "1.0" . *)
Inductive w_prolog : bytes -> Prop :=
| w_version cs z1 z2 s z3 : w_ws z1 -> z1 <> [] -> w_ws z2 -> z2 <> [] -> w_string cs s -> w_ws z3 ->
    w_prolog (B "ixml" ++ z1 ++ B "version" ++ z2 ++ s ++ z3 ++ B ".").
(** Without a version the first rule is not called ixml (the reader takes
    that for the start of a version). *)
Inductive w_grammar : grammar -> bytes -> Prop :=
| wg_plain G z s : w_ws z -> w_rules G s -> (forall r rs, G = r :: rs -> ru_name r <> B "ixml") -> w_grammar G (z ++ s)
| wg_version G z1 v z2 s : w_ws z1 -> w_prolog v -> w_ws z2 -> w_rules G s -> w_grammar G (z1 ++ v ++ z2 ++ s).

(** ** Restrictions

    [adds f]: the factor is not an empty string or an empty group.  Repetition
    and option are applied to such factors only (the reader gets the others
    wrong), no name is error (yaep keeps that name for itself), and the
    generated name of a set fits in its buffer. *)
Definition adds (f : factor) : bool :=
  match f with FStr _ [] => false | FEmpty => false | _ => true end.
Definition member_parts (m : member) : list cpart :=
  match m with
  | MStr cs => map (fun c => CRange c c) cs
  | MRange a b => [CRange (end_code a) (end_code b)]
  | MHex c => [CRange c c]
  | MCat n => [CCat n]
  end.
Definition set_parts (ms : list member) : list cpart := flat_map member_parts ms.
Definition set_fits (tm : N) (ex : bool) (ms : list member) : bool :=
  Nat.ltb (length (charset_name_text (ICharset ex (set_parts ms)) tm)) (N.to_nat 1024).
Definition not_error (n : bytes) : bool := negb (beq n (B "error")).
Fixpoint ok_factor (f : factor) : bool :=
  match f with
  | FSet tm ex ms => set_fits tm ex ms
  | FNt _ n _ => not_error n
  | FGroup a => ok_alts a
  | _ => true
  end
with ok_term (t : term) : bool :=
  match t with
  | TOne f => ok_factor f
  | TOpt f | TStar f | TPlus f => adds f && ok_factor f
  | TStarSep f s | TPlusSep f s => adds f && ok_factor f && (adds s && ok_factor s)
  end
with ok_alt (a : alt) : bool :=
  match a with ANil => true | ACons t a => ok_term t && ok_alt a end
with ok_alts (a : alts) : bool :=
  match a with AOne a => ok_alt a | AMore a r => ok_alt a && ok_alts r end.
Definition ok_grammar (G : grammar) : bool := forallb (fun r => not_error (ru_name r) && ok_alts (ru_alts r)) G.
