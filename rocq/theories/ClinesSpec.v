(** Specification for the output as c-lines, independent of the code: the
    entries of a document, and how a list of entries is written. *)
From Coq Require Import NArith ZArith List Bool String.
From Verif Require Import Bytes Utf8Proofs CQuoteProofs Dom.
Import ListNotations.
Local Open Scope N_scope.
Local Open Scope list_scope.

(** The names of the elements from the root down to the one with the value,
    the name of its attribute if it is the value of one, and the value. *)
Record entry := Entry { e_path : list bytes; e_key : option bytes; e_value : bytes }.

Definition part_text (p : part) : bytes := match p with PText t => t | PRef _ => [] end.
(** The entries of a node in an element at [path], in the order of the
    document: the attributes, then the texts and the elements; an element
    without content has an empty value. *)
Fixpoint entries (path : list bytes) (x : node) : list entry :=
  match x with
  | Elem n ats kids =>
    map (fun a => Entry (path ++ [n]) (Some (fst a)) (flat_map part_text (snd a))) ats ++
    match kids with
    | [] => [Entry (path ++ [n]) None []]
    | _ => flat_map (entries (path ++ [n])) kids
    end
  | Part p => [Entry path None (part_text p)]
  | _ => []
  end.
Definition doc_entries (d : list node) : list entry := flat_map (entries []) d.

(** A line: a slash and a name for each element, a slash, an at sign and a
    name for an attribute, an equals sign, and the value as a C string
    ([c_string], CQuoteProofs.v) in quotes. *)
Definition place (e : entry) : bytes :=
  flat_map (fun n => B "/" ++ n) (e_path e) ++ match e_key e with Some k => B "/@" ++ k | None => [] end.
Inductive written : list entry -> bytes -> Prop :=
| wr_nil : written [] []
| wr_line e es q o : c_string q (e_value e) -> written es o ->
    written (e :: es) (place e ++ B "=""" ++ q ++ [cDQ; cNL] ++ o).

(** A text in utf8 without NUL *)
Definition utf8_text (t : bytes) : Prop :=
  exists us, Forall (fun u => 0 < u <= 0x10ffff) us /\ t = List.concat (map utf8_spec us).
(** Texts and values are utf8, and there are no references to entities. *)
Definition is_ptext (p : part) : bool := match p with PText _ => true | PRef _ => false end.
Fixpoint texts_only (x : node) : Prop :=
  match x with
  | Elem _ ats kids =>
    Forall (fun a => forallb is_ptext (snd a) = true /\ utf8_text (flat_map part_text (snd a))) ats /\
    (fix all l := match l with [] => True | y :: r => texts_only y /\ all r end) kids
  | Part p => is_ptext p = true /\ utf8_text (part_text p)
  | _ => True
  end.

(** A name that does not get mixed up with the rest of a line *)
Definition line_name (n : bytes) : Prop := ~ In cSLASH n /\ ~ In cEQ n /\ (forall r, n <> 64 :: r).
Definition entry_ok (e : entry) : Prop := Forall line_name (e_path e) /\ match e_key e with Some k => ~ In cEQ k /\ ~ In cSLASH k | None => True end.
Fixpoint line_names (x : node) : Prop :=
  match x with
  | Elem n ats kids =>
    line_name n /\ Forall (fun a : attr => ~ In cEQ (fst a) /\ ~ In cSLASH (fst a)) ats /\
    (fix all l := match l with [] => True | y :: r => line_names y /\ all r end) kids
  | _ => True
  end.
