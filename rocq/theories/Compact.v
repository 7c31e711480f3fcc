(** The documents for which the compact output is proved to be read back as the
    same document.  Each condition excludes a case in which the printer is known
    to fail (the theorems C27_..._refuted show one document for each) or a node
    that the grammar of Grammar.v leaves out. *)
From Coq Require Import NArith ZArith List Bool Arith String.
From Verif Require Import Bytes Utf8 Utf8Proofs QuoteSpec Dom Printer Grammar.
Import ListNotations.
Local Open Scope N_scope.

(** At most two quotes in a row. *)
Definition few_quotes (t : bytes) : Prop := forall x y, t <> x ++ [cQ; cQ; cQ] ++ y.
Definition only (p : N -> bool) (t : bytes) : Prop := forall c, In c t -> p c = true.
(** No continuation byte of utf8 comes directly after a space or tab. *)
Definition no_stray (t : bytes) : Prop :=
  forall x c d y, t = x ++ c :: d :: y -> c = cSP \/ c = cTAB -> is_cont d = false.

Section compact.
Variable C : cfg.

(** The text of a text node. *)
Record text_ok (t : bytes) : Prop := {
  tx_nul : ~ In 0 t;
  tx_stray : no_stray t;
  tx_quotes : few_quotes t;
  tx_other : t = [] \/ ~ only (is cQ) t;
  (* only valid utf8 can be escaped *)
  tx_utf8 : escape_non_7bit C = true -> exists us, t = List.concat (map utf8_spec us) /\ Forall (fun u => u <= 0x10ffff) us }.

Definition part_ok (p : part) : Prop :=
  match p with
  | PText t => text_ok t
  | PRef n => is_name n /\ ~ starts (is cHASH) n
  end.
Definition is_text (p : part) : bool := match p with PText _ => true | PRef _ => false end.
(** No two texts are neighbours. *)
Fixpoint alternating (ps : list part) : Prop :=
  match ps with
  | p :: (q :: _) as r => ~ (is_text p = true /\ is_text q = true) /\ alternating r
  | _ => True
  end.
(** Tabs and spaces only, at least two, with a tab. *)
Definition tabbed (t : bytes) : Prop :=
  (2 <= List.length t)%nat /\ only (one_of [cSP; cTAB]) t /\ In cTAB t /\ escape_tabs C = false.
Definition value_ok (ps : list part) : Prop :=
  ps <> [] /\ Forall part_ok ps /\ alternating ps /\ forall t, ps = [PText t] -> ~ tabbed t.

(** An attribute without value has no parts. *)
Definition attr_ok (a : attr) : Prop :=
  attr_name (fst a) /\ (snd a = [] \/ value_ok (snd a) /\ forall ps, snd a <> PText [] :: ps).
(** The value can be written without quotes and ends with one of these. *)
Definition ends_in (l : list N) (ps : list part) : Prop :=
  exists t, ps = [PText t] /\ bare t [] /\ In (List.last t 0) l.
Fixpoint attrs_ok (l : list attr) : Prop :=
  match l with
  | [] => True
  | a :: r => attr_ok a /\ (r = [] \/ ~ ends_in [cSEMI] (snd a)) /\ attrs_ok r
  end.

(** One line of a comment. *)
Definition trimmed (b : bytes) : Prop := ~ starts (is cSP) b /\ ~ starts (is cSP) (rev b).
Definition comment_ok (t : bytes) : Prop :=
  plain t /\ no_stray t /\
  if has_newlines t
  then Forall trimmed (split_lines t) /\ List.last (split_lines t) [] <> []
  else trimmed t /\ forall x y, t <> x ++ [cSTAR; cSLASH] ++ y.

(** The text of a processing instruction: nothing in it has to be escaped. *)
Definition pi_ok (t : bytes) : Prop :=
  t <> [] /\ text_ok t /\ ~ In cNL t /\ (forall c, In c t -> must_escape C c = false) /\ ~ tabbed t /\ t <> [cTAB]
  /\ ~ starts (is cQ) t /\ ~ starts (is cQ) (rev t).

(** The value at the end of a node, if it has one. *)
Definition last_value (x : node) : option (list part) :=
  match x with
  | Elem _ _ k => as_parts k
  | PI _ t | Doctype t => Some [PText t]
  | _ => None
  end.
(** No space is printed between a node that ends like this and y. *)
Definition unseparated (y : node) : list N :=
  match y with
  | Elem _ _ _ | PI _ _ | Doctype _ => [cSEMI; cSLASH]
  | Part _ => [cSEMI; cEQ]
  | Comment _ => [cSEMI]
  end.
Definition siblings (x y : node) : Prop :=
  ~ ((exists t, x = Part (PText t)) /\ exists t, y = Part (PText t))
  /\ forall ps, last_value x = Some ps -> ~ ends_in (unseparated y) ps.

Inductive node_ok : node -> Prop :=
| ok_part p : part_ok p -> node_ok (Part p)
| ok_comment t : comment_ok t -> node_ok (Comment t)
| ok_pi n t : forallb is_xmq_text_name n = true -> pi_ok t -> node_ok (PI n t)
| ok_doctype t : bare t [] -> node_ok (Doctype t)
| ok_leaf n l : element_name n -> attrs_ok l -> node_ok (Elem n l [])
| ok_value n l ps : element_name n -> attrs_ok l -> value_ok ps -> node_ok (Elem n l (map Part ps))
| ok_body n l k : element_name n -> attrs_ok l -> as_parts k = None -> nodes_ok k -> node_ok (Elem n l k)
with nodes_ok : list node -> Prop :=
| ok_nil : nodes_ok []
| ok_cons x r : node_ok x -> (forall y r', r = y :: r' -> siblings x y) -> nodes_ok r -> nodes_ok (x :: r).

End compact.
