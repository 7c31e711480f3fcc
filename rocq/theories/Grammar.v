(** The xmq language, independently of the program that reads it: which texts
    are documents, and which document each of them denotes.

    [solids pre t z ks] says: the text [t], when it comes after [pre] and
    before [z], denotes the nodes [ks].  What comes before matters only for the
    column at which a multi-line quote or comment starts, what comes after
    decides where a name or value ends.

    Left out: names with a namespace, carriage returns inside of quotes and
    comments, hexadecimal entities without semicolon, doctypes given as a quote
    and processing instructions without a value. *)
From Coq Require Import NArith ZArith List Bool Arith String.
From Verif Require Import Bytes Utf8Proofs QuoteSpec ParserSpec Dom.
Import ListNotations.
Local Open Scope N_scope.

(** The text z starts with a character of class p. *)
Definition starts (p : N -> bool) (z : bytes) : Prop := exists c r, z = c :: r /\ p c = true.
Definition is (c : N) (d : N) : bool := d =? c.
Definition one_of (l : list N) (d : N) : bool := existsb (fun c => d =? c) l.

(** ** White space between tokens *)

(** Space, tab, carriage return, newline, no-break space, and the quads U+2000
    to U+2003. *)
Inductive begins_white : bytes -> Prop :=
| bw_1 c r : is_xml_whitespace c = true -> begins_white (c :: r)
| bw_2 r : begins_white (0xc2 :: 0xa0 :: r)
| bw_3 e r : In e [0x80; 0x81; 0x82; 0x83] -> begins_white (0xe2 :: 0x80 :: e :: r).

(** Nothing, or white space without tabs that starts with an ascii character. *)
Definition space (w : bytes) : Prop :=
  w = [] \/ exists c t, w = c :: t /\ is_xmq_token_whitespace c = true /\ ws_text t.
(** All white space before y belongs to w. *)
Definition gap (w y : bytes) : Prop := space w /\ ~ begins_white y.

(** ** Quotes *)

(** The column (from 0) of what follows pre. *)
Definition column (pre : bytes) : nat := N.to_nat (col_after pre - 1).

Definition plain (b : bytes) : Prop := ~ In 0 b /\ ~ In cCR b.

(** Every run of quotes in b is shorter than d, and there is none at its ends. *)
Definition quote_body (d : nat) (b : bytes) : Prop :=
  b <> [] /\ ~ starts (is cQ) b /\ ~ starts (is cQ) (rev b)
  /\ forall x k y, b = x ++ rep cQ k ++ y -> (k < d)%nat.

(** The quote t, the text z that follows it, and its value. *)
Inductive quote (pre : bytes) : bytes -> bytes -> bytes -> Prop :=
| q_empty z : ~ starts (is cQ) z -> quote pre [cQ; cQ] z []
| q_text d b z : (1 <= d)%nat -> d <> 2%nat -> quote_body d b -> plain b -> ~ starts (is cQ) z ->
    quote pre (rep cQ d ++ b ++ rep cQ d) z (text_block (column pre + d) b).

(** ** Entities *)

Definition is_name (n : bytes) : Prop := n <> [] /\ forallb is_xmq_text_name n = true.

Definition dec_digit (c : N) : option N := if in_range 48 57 c then Some (c - 48) else None.
Definition hex_digit (c : N) : option N :=
  if in_range 48 57 c then Some (c - 48)
  else if in_range 97 102 c then Some (c - 87)
  else if in_range 65 70 c then Some (c - 55) else None.
(** The number written with digits in some base. *)
Fixpoint number (base : N) (digit : N -> option N) (s : bytes) (acc : N) : option N :=
  match s with
  | [] => Some acc
  | c :: r => match digit c with Some d => number base digit r (acc * base + d) | None => None end
  end.

Inductive entity : bytes -> part -> Prop :=
| e_named n : is_name n -> ~ starts (is cHASH) n -> entity (cAMP :: n ++ [cSEMI]) (PRef n)
| e_dec n u : n <> [] -> number 10 dec_digit n 0 = Some u -> 0 < u <= 0x10ffff ->
    entity (cAMP :: cHASH :: n ++ [cSEMI]) (PText (utf8_spec u))
| e_hex n u : n <> [] -> number 16 hex_digit n 0 = Some u -> 0 < u <= 0x10ffff ->
    entity (cAMP :: cHASH :: 120 :: n ++ [cSEMI]) (PText (utf8_spec u)).

(** ** Values *)

(** Bytes that end a value that is not quoted, apart from white space. *)
Definition ends_value : list N := [cLP; cRP; cQ; cDQ; cLB; cRB].
Definition value_end (z : bytes) : Prop := z = [] \/ begins_white z \/ starts (one_of ends_value) z.
(** A value may not start like this. *)
Definition bad_start (t : bytes) : Prop :=
  starts (one_of [cEQ; cAMP]) t \/ exists r, t = cSLASH :: cSLASH :: r \/ t = cSLASH :: cSTAR :: r.
(** The value t without quotes, followed by z. *)
Definition bare (t z : bytes) : Prop :=
  t <> [] /\ ~ In 0 t /\ ~ bad_start t /\ value_end z
  /\ forall x y, t = x ++ y -> y <> [] -> ~ value_end (y ++ z).

(** A quote or an entity. *)
Inductive piece (pre : bytes) : bytes -> bytes -> part -> Prop :=
| pc_quote t z v : quote pre t z v -> piece pre t z (PText v)
| pc_entity t z p : entity t p -> piece pre t z p.

(** Quotes and entities up to the closing parenthesis of a compound value. *)
Inductive pieces : bytes -> bytes -> bytes -> list part -> Prop :=
| ps_end pre z : starts (is cRP) z -> pieces pre [] z []
| ps_cons pre t p w t2 z ps :
    piece pre t (w ++ t2 ++ z) p -> gap w (t2 ++ z) -> pieces (pre ++ t ++ w) t2 z ps ->
    pieces pre (t ++ w ++ t2) z (p :: ps).

(** Adjacent texts are one text. *)
Fixpoint merge_parts (l : list part) : list part :=
  match l with
  | [] => []
  | PText t :: r => match merge_parts r with
                    | PText u :: r' => PText (t ++ u) :: r'
                    | r' => PText t :: r'
                    end
  | p :: r => p :: merge_parts r
  end.

Inductive value (pre : bytes) : bytes -> bytes -> list part -> Prop :=
| v_bare t z : bare t z -> value pre t z [PText t]
| v_piece t z p : piece pre t z p -> value pre t z [p]
| v_compound w t z ps : gap w (t ++ [cRP] ++ z) -> pieces (pre ++ [cLP] ++ w) t ([cRP] ++ z) ps ->
    value pre ([cLP] ++ w ++ t ++ [cRP]) z (merge_parts ps).

(** The equals sign and the value, with white space around the sign. *)
Inductive assigned (pre : bytes) : bytes -> bytes -> list part -> Prop :=
| as_value w1 w2 v z ps : gap w1 ([cEQ] ++ w2 ++ v ++ z) -> gap w2 (v ++ z) ->
    value (pre ++ w1 ++ [cEQ] ++ w2) v z ps ->
    assigned pre (w1 ++ [cEQ] ++ w2 ++ v) z ps.

(** ** Attributes *)

Definition attr_name (n : bytes) : Prop := is_name n /\ ~ In cCOLON n /\ n <> B "xmlns".

(** An attribute followed by white space w and then y. *)
Inductive attribute (pre : bytes) : bytes -> bytes -> bytes -> attr -> Prop :=
| at_key n w y : attr_name n -> ~ starts is_xmq_text_name (w ++ y) -> ~ starts (is cEQ) y ->
    attribute pre n w y (n, [])
| at_value n v w y ps : attr_name n -> assigned (pre ++ n) v (w ++ y) ps ->
    attribute pre (n ++ v) w y (n, ps).

Inductive attributes : bytes -> bytes -> bytes -> list attr -> Prop :=
| ats_end pre z : starts (is cRP) z -> attributes pre [] z []
| ats_cons pre t w t2 z a l :
    attribute pre t w (t2 ++ z) a -> gap w (t2 ++ z) -> attributes (pre ++ t ++ w) t2 z l ->
    attributes pre (t ++ w ++ t2) z (a :: l).

(** ** Elements *)

Definition element_name (n : bytes) : Prop :=
  starts is_xmq_element_start n /\ forallb is_xmq_text_name n = true /\ ~ In cCOLON n.

(** The name of an element and its attributes, up to z. *)
Inductive head (pre : bytes) : bytes -> bytes -> bytes -> list attr -> Prop :=
| h_plain n z : element_name n -> ~ starts is_xmq_text_name z -> head pre n z n []
| h_attrs n w1 w2 t z l : element_name n -> gap w1 ([cLP] ++ w2 ++ t ++ [cRP] ++ z) ->
    gap w2 (t ++ [cRP] ++ z) -> attributes (pre ++ n ++ w1 ++ [cLP] ++ w2) t ([cRP] ++ z) l ->
    head pre (n ++ w1 ++ [cLP] ++ w2 ++ t ++ [cRP]) z n l.

(** ** Comments *)

(** A block comment with n slashes ends at the first asterisk that is followed
    by n slashes. *)
Definition comment_body (n : nat) (b : bytes) : Prop :=
  plain b /\ forall x k y, b ++ [cSTAR] = x ++ [cSTAR] ++ rep cSLASH k ++ y -> (k < n)%nat.
(** One space is removed at each end. *)
Definition strip_front (b : bytes) : nat * bytes :=
  match b with c :: r => if c =? cSP then (1%nat, r) else (0%nat, b) | [] => (0%nat, []) end.
Definition strip_back (b : bytes) : bytes :=
  match rev b with c :: r => if c =? cSP then rev r else b | [] => [] end.
Definition comment_text (col : nat) (b : bytes) : bytes :=
  text_block (col + fst (strip_front b)) (strip_back (snd (strip_front b))).

Definition segment (n : nat) (b : bytes) : bytes := [cSTAR] ++ b ++ [cSTAR] ++ rep cSLASH n.

(** A body and further bodies on the next lines; only the first one starts with
    slashes ([front]). *)
Inductive bodies (n : nat) : bytes -> bytes -> bytes -> bytes -> bytes -> Prop :=
| bs_last pre front b z : comment_body n b -> ~ starts (one_of [cSLASH; cSTAR]) z ->
    bodies n pre front (front ++ segment n b) z (comment_text (column pre + n + 1) b)
| bs_more pre front b t z v : comment_body n b ->
    bodies n (pre ++ front ++ segment n b) [] t z v ->
    bodies n pre front (front ++ segment n b ++ t) z
           (comment_text (column pre + n + 1) b ++ [cNL] ++ v).

Inductive comment (pre : bytes) : bytes -> bytes -> bytes -> Prop :=
| c_line n b z : (2 <= n)%nat -> plain b -> ~ In cNL b -> ~ starts (one_of [cSLASH; cSTAR]) b ->
    comment pre (rep cSLASH n ++ b ++ [cNL]) z (rstrip (snd (strip_front b)))
| c_block n t z v : (1 <= n)%nat -> bodies n pre (rep cSLASH n) t z v -> comment pre t z v.

(** ** Nodes *)

Fixpoint merge_nodes (l : list node) : list node :=
  match l with
  | [] => []
  | Part (PText t) :: r => match merge_nodes r with
                           | Part (PText u) :: r' => Part (PText (t ++ u)) :: r'
                           | r' => Part (PText t) :: r'
                           end
  | x :: r => x :: merge_nodes r
  end.

(** A single bare or quoted text. *)
Inductive text_value (pre : bytes) : bytes -> bytes -> bytes -> Prop :=
| tv_bare t z : bare t z -> text_value pre t z t
| tv_quote t z v : quote pre t z v -> text_value pre t z v.

(** A processing instruction whose value starts or ends with a quote gets a
    space there. *)
Definition pad_quotes (v : bytes) : bytes :=
  (if match v with c :: _ => c =? cQ | [] => false end then [cSP] else []) ++ v
  ++ (if match rev v with c :: _ => c =? cQ | [] => false end then [cSP] else []).

(** A node without a body, followed by white space w and then y. *)
Inductive flat (pre : bytes) : bytes -> bytes -> bytes -> node -> Prop :=
| f_piece t w y p : piece pre t (w ++ y) p -> flat pre t w y (Part p)
| f_comment t w y v : comment pre t (w ++ y) v -> flat pre t w y (Comment v)
| f_leaf t w y n l : head pre t (w ++ y) n l -> ~ starts (one_of [cLP; cEQ; cLB]) y ->
    flat pre t w y (Elem n l [])
| f_value t v w y n l ps : head pre t (v ++ w ++ y) n l -> assigned (pre ++ t) v (w ++ y) ps ->
    flat pre (t ++ v) w y (Elem n l (map Part ps))
| f_pi n w1 w2 v w y x : forallb is_xmq_text_name n = true ->
    gap w1 ([cEQ] ++ w2 ++ v ++ w ++ y) -> gap w2 (v ++ w ++ y) ->
    text_value (pre ++ [cQM] ++ n ++ w1 ++ [cEQ] ++ w2) v (w ++ y) x -> x <> [] ->
    flat pre ([cQM] ++ n ++ w1 ++ [cEQ] ++ w2 ++ v) w y (PI n (pad_quotes x))
| f_doctype w1 w2 v w y :
    gap w1 ([cEQ] ++ w2 ++ v ++ w ++ y) -> gap w2 (v ++ w ++ y) -> bare v (w ++ y) ->
    flat pre (B "!DOCTYPE" ++ w1 ++ [cEQ] ++ w2 ++ v) w y (Doctype v).

(** Nodes up to the end of the source or a closing brace, without white space
    in front. *)
Inductive solids : bytes -> bytes -> bytes -> list node -> Prop :=
| s_end pre z : z = [] \/ starts (is cRB) z -> solids pre [] z []
| s_flat pre t w t2 z x ks :
    flat pre t w (t2 ++ z) x -> gap w (t2 ++ z) -> solids (pre ++ t ++ w) t2 z ks ->
    solids pre (t ++ w ++ t2) z (x :: ks)
| s_body pre h n l w1 w2 b w t2 z kb ks :
    head pre h (w1 ++ [cLB] ++ w2 ++ b ++ [cRB] ++ w ++ t2 ++ z) n l ->
    gap w1 ([cLB] ++ w2 ++ b ++ [cRB] ++ w ++ t2 ++ z) -> gap w2 (b ++ [cRB] ++ w ++ t2 ++ z) ->
    solids (pre ++ h ++ w1 ++ [cLB] ++ w2) b ([cRB] ++ w ++ t2 ++ z) kb ->
    gap w (t2 ++ z) -> solids (pre ++ h ++ w1 ++ [cLB] ++ w2 ++ b ++ [cRB] ++ w) t2 z ks ->
    solids pre (h ++ w1 ++ [cLB] ++ w2 ++ b ++ [cRB] ++ w ++ t2) z (Elem n l (merge_nodes kb) :: ks).

(** The text src denotes the document d. *)
Definition denotes (src : bytes) (d : list node) : Prop :=
  exists w t ks, src = w ++ t /\ gap w t /\ solids w t [] ks /\ d = merge_nodes ks.
