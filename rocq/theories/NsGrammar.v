(** The xmq language with namespaces, independently of the program that reads
    it: Grammar.v with prefixes in the names of elements and attributes, and
    with namespace declarations.

    [nsolids pre t z ks] says: the text [t], when it comes after [pre] and before
    [z], is the written form of the nodes [ks]; [means sc k x] says: the node [x] of
    a document is what the written node [k] means in the scope of the declarations
    [sc].

    Left out: what Grammar.v leaves out, names with more than one colon, and
    declarations without a value or with an entity or a compound value. *)
From Coq Require Import NArith ZArith List Bool Arith String Permutation.
From Verif Require Import Bytes Utf8Proofs QuoteSpec ParserSpec Dom NsDom NsSpec.
From Verif Require Import Grammar.
Import ListNotations.
Local Open Scope N_scope.

(** ** Documents as they are written *)

(** name = value, x:name = value, xmlns = uri and xmlns:x = uri *)
Inductive item :=
| Attribute (prefix : option bytes) (name : bytes) (v : list part)
| Declaration (prefix : option bytes) (uri : bytes).

Inductive written :=
| WElem (prefix : option bytes) (name : bytes) (items : list item) (kids : list written)
| WPart (p : part)
| WComment (t : bytes)
| WPI (name content : bytes)
| WDoctype (content : bytes).

(** ** Texts *)

Definition local_name (n : bytes) : Prop := is_name n /\ ~ In cCOLON n.

Inductive element_label : bytes -> option bytes -> bytes -> Prop :=
| el_plain n : Grammar.element_name n -> element_label n None n
| el_prefixed p n : Grammar.element_name p -> local_name n -> element_label (p ++ cCOLON :: n) (Some p) n.

Inductive attr_label : bytes -> option bytes -> bytes -> Prop :=
| al_plain n : Grammar.attr_name n -> attr_label n None n
| al_prefixed p n : Grammar.attr_name p -> local_name n -> attr_label (p ++ cCOLON :: n) (Some p) n.

Inductive decl_label : bytes -> option bytes -> Prop :=
| dl_default : decl_label (B "xmlns") None
| dl_prefix p : local_name p -> decl_label (B "xmlns:" ++ p) (Some p).

(** An attribute or a declaration, followed by white space w and then y. *)
Inductive entry (pre : bytes) : bytes -> bytes -> bytes -> item -> Prop :=
| en_key m w y p n : attr_label m p n -> ~ starts is_xmq_text_name (w ++ y) -> ~ starts (is cEQ) y ->
    entry pre m w y (Attribute p n [])
| en_value m v w y p n ps : attr_label m p n -> assigned (pre ++ m) v (w ++ y) ps ->
    entry pre (m ++ v) w y (Attribute p n ps)
| en_decl m w1 w2 v w y p u : decl_label m p ->
    gap w1 ([cEQ] ++ w2 ++ v ++ w ++ y) -> gap w2 (v ++ w ++ y) ->
    text_value (pre ++ m ++ w1 ++ [cEQ] ++ w2) v (w ++ y) u ->
    entry pre (m ++ w1 ++ [cEQ] ++ w2 ++ v) w y (Declaration p u).

Inductive entries : bytes -> bytes -> bytes -> list item -> Prop :=
| es_end pre z : starts (is cRP) z -> entries pre [] z []
| es_cons pre t w t2 z a l :
    entry pre t w (t2 ++ z) a -> gap w (t2 ++ z) -> entries (pre ++ t ++ w) t2 z l ->
    entries pre (t ++ w ++ t2) z (a :: l).

(** The name of an element and its attributes, up to z. *)
Inductive nhead (pre : bytes) : bytes -> bytes -> option bytes -> bytes -> list item -> Prop :=
| nh_plain m z p n : element_label m p n -> ~ starts is_xmq_text_name z -> nhead pre m z p n []
| nh_items m w1 w2 t z p n l : element_label m p n -> gap w1 ([cLP] ++ w2 ++ t ++ [cRP] ++ z) ->
    gap w2 (t ++ [cRP] ++ z) -> entries (pre ++ m ++ w1 ++ [cLP] ++ w2) t ([cRP] ++ z) l ->
    nhead pre (m ++ w1 ++ [cLP] ++ w2 ++ t ++ [cRP]) z p n l.

(** Adjacent texts are one text. *)
Fixpoint merge_written (l : list written) : list written :=
  match l with
  | [] => []
  | WPart (PText t) :: r => match merge_written r with
                            | WPart (PText u) :: r' => WPart (PText (t ++ u)) :: r'
                            | r' => WPart (PText t) :: r'
                            end
  | x :: r => x :: merge_written r
  end.

(** A node without a body, followed by white space w and then y. *)
Inductive nflat (pre : bytes) : bytes -> bytes -> bytes -> written -> Prop :=
| nf_piece t w y p : piece pre t (w ++ y) p -> nflat pre t w y (WPart p)
| nf_comment t w y v : comment pre t (w ++ y) v -> nflat pre t w y (WComment v)
| nf_leaf t w y p n l : nhead pre t (w ++ y) p n l -> ~ starts (one_of [cLP; cEQ; cLB]) y ->
    nflat pre t w y (WElem p n l [])
| nf_value t v w y p n l ps : nhead pre t (v ++ w ++ y) p n l -> assigned (pre ++ t) v (w ++ y) ps ->
    nflat pre (t ++ v) w y (WElem p n l (map WPart ps))
| nf_pi n w1 w2 v w y x : forallb is_xmq_text_name n = true ->
    gap w1 ([cEQ] ++ w2 ++ v ++ w ++ y) -> gap w2 (v ++ w ++ y) ->
    text_value (pre ++ [cQM] ++ n ++ w1 ++ [cEQ] ++ w2) v (w ++ y) x -> x <> [] ->
    nflat pre ([cQM] ++ n ++ w1 ++ [cEQ] ++ w2 ++ v) w y (WPI n (pad_quotes x))
| nf_doctype w1 w2 v w y :
    gap w1 ([cEQ] ++ w2 ++ v ++ w ++ y) -> gap w2 (v ++ w ++ y) -> bare v (w ++ y) ->
    nflat pre (B "!DOCTYPE" ++ w1 ++ [cEQ] ++ w2 ++ v) w y (WDoctype v).

Inductive nsolids : bytes -> bytes -> bytes -> list written -> Prop :=
| ns_end pre z : z = [] \/ starts (is cRB) z -> nsolids pre [] z []
| ns_flat pre t w t2 z x ks :
    nflat pre t w (t2 ++ z) x -> gap w (t2 ++ z) -> nsolids (pre ++ t ++ w) t2 z ks ->
    nsolids pre (t ++ w ++ t2) z (x :: ks)
| ns_body pre h p n l w1 w2 b w t2 z kb ks :
    nhead pre h (w1 ++ [cLB] ++ w2 ++ b ++ [cRB] ++ w ++ t2 ++ z) p n l ->
    gap w1 ([cLB] ++ w2 ++ b ++ [cRB] ++ w ++ t2 ++ z) -> gap w2 (b ++ [cRB] ++ w ++ t2 ++ z) ->
    nsolids (pre ++ h ++ w1 ++ [cLB] ++ w2) b ([cRB] ++ w ++ t2 ++ z) kb ->
    gap w (t2 ++ z) -> nsolids (pre ++ h ++ w1 ++ [cLB] ++ w2 ++ b ++ [cRB] ++ w) t2 z ks ->
    nsolids pre (h ++ w1 ++ [cLB] ++ w2 ++ b ++ [cRB] ++ w ++ t2) z (WElem p n l (merge_written kb) :: ks).

(** The text src is the written form of d. *)
Definition writes_down (src : bytes) (d : list written) : Prop :=
  exists w t ks, src = w ++ t /\ gap w t /\ nsolids w t [] ks /\ d = merge_written ks.

(** ** Meaning *)

(** The declarations and the attributes of an element. *)
Definition declared (l : list item) : list decl :=
  flat_map (fun i => match i with Declaration p u => [Decl p (Some u)] | _ => [] end) l.
Definition attributed (l : list item) : list (option bytes * bytes * list part) :=
  flat_map (fun i => match i with Attribute p n v => [(p, n, v)] | _ => [] end) l.

(** A name with prefix p has the URI u: the prefix xml is bound by definition,
    every other prefix by the innermost declaration. *)
Definition uri_of (sc : list decl) (p u : option bytes) : Prop :=
  (p = Some (B "xml") /\ u = Some XML_NS) \/ (p <> Some (B "xml") /\ resolves sc p u).

Inductive attr_means (sc : list decl) : option bytes * bytes * list part -> vattr -> Prop :=
| am_plain n v : attr_means sc (None, n, v) (VAttr None None n v)
| am_prefixed p u n v : uri_of sc (Some p) u -> attr_means sc (Some p, n, v) (VAttr (Some p) u n v).

(** The declarations of an element have no order. *)
Inductive means (sc : list decl) : written -> vnode -> Prop :=
| m_elem p u n l ks ds at_ ks' :
    Permutation (declared l) ds -> uri_of (ds ++ sc) p u ->
    Forall2 (attr_means (ds ++ sc)) (attributed l) at_ ->
    Forall2 (means (ds ++ sc)) ks ks' ->
    means sc (WElem p n l ks) (VElem p u n ds at_ ks')
| m_part p : means sc (WPart p) (VPart p)
| m_comment t : means sc (WComment t) (VComment t)
| m_pi n c : means sc (WPI n c) (VPI n c)
| m_doctype c : means sc (WDoctype c) (VDoctype c).

(** ** The documents for which the reader is shown to be right *)

Definition is_known (known : list (option bytes)) (p : option bytes) : Prop :=
  p = None \/ p = Some (B "xml") \/ In p known.

(** Every prefix is declared, and no prefix is declared twice in the same place
    or inside of the scope of a declaration for it; [dflt] tells whether the element
    may declare a default namespace, which is not empty. *)
Inductive scoped (known : list (option bytes)) : bool -> written -> Prop :=
| sc_elem (dflt : bool) p n l ks :
    NoDup (map d_prefix (declared l)) ->
    Forall (fun d => d_prefix d <> Some (B "xml") /\ ~ In (d_prefix d) known) (declared l) ->
    (dflt = false -> ~ In None (map d_prefix (declared l))) -> ~ In (Decl None (Some [])) (declared l) ->
    is_known (map d_prefix (declared l) ++ known) p ->
    Forall (fun a => is_known (map d_prefix (declared l) ++ known) (fst (fst a))) (attributed l) ->
    Forall (scoped (map d_prefix (declared l) ++ known) false) ks ->
    scoped known dflt (WElem p n l ks)
| sc_part dflt p : scoped known dflt (WPart p)
| sc_comment dflt t : scoped known dflt (WComment t)
| sc_pi dflt n c : scoped known dflt (WPI n c)
| sc_doctype dflt c : scoped known dflt (WDoctype c).

Definition is_welem (x : written) : bool := match x with WElem _ _ _ _ => true | _ => false end.

(** One root element, which is the only one that may declare a default
    namespace; or several, and no default namespace. *)
Definition well_scoped (d : list written) : Prop :=
  exists dflt : bool, Forall (scoped [] dflt) d /\
    (dflt = true -> (List.length (filter is_welem d) <= 1)%nat).
