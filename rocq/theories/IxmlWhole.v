(** Model of the whole of xmqParseBufferWithIXML (xmq.c:4594-4655) for one parse and
    without error recovery: the grammar is handed to yaep, the content is parsed
    (IxmlRun.v), a tree is built (YaepTree.v), its nodes get their names and marks, and
    the document is made of it (IxmlDoc.v). *)
From Coq Require Import NArith ZArith List Bool Arith String.
From Verif Require Import Bytes Outcome Dom Ixml IxmlDoc Yaep YaepParse YaepCache IxmlRun YaepTree.
Import ListNotations.
Local Open Scope list_scope.

(** What yaepParse returns with the tree at run->root, or how the process ends *)
Inductive tran := TRan (ret : bool) (t : option dtree) | TExit | TAbort | TUB | TFuel.
Definition of_tree (o : out (bool * option dtree)) : tran :=
  match o with Ok (ret, t) => TRan ret t | Err _ => TUB | UB => TUB | Abrt => TAbort | NoFuel => TFuel end.
(** yaep.c:7189-7318 yaepParse: the tokens are read, then parsed, then the tree is
    built.  [fuel] is for build_parse_tree. *)
Definition yaep_tree (fuel : nat) (l : list (bytes * Z)) (lo hi : Z) (y : ystate) (f : flags) (codes : list Z) : tran :=
  of_tree (obind (read_tokens l lo hi (codes ++ [END_MARKER_CODE])) (fun toks =>
  match toks with
  | None => Ok (false, None)
  | Some toks =>
    obind (perform_parse_cached y f toks) (fun r =>
    obind (build_parse_tree y (snd (fst r)) fuel) (fun t => Ok (true, t)))
  end)).
(** xmq.c:4594-4642, as in parse_with_ixml (IxmlRun.v) *)
Definition ixml_tree (fuel : nat) (g : gst) (content : bytes) : tran :=
  match use_grammar g content, scan_content (List.length content) content with
  | IOk (y, _), IOk codes =>
    match yaep_read_grammar false y with
    | Ok (YOk (s, f)) => match code_range (coded y) with Some (lo, hi) => yaep_tree fuel (coded y) lo hi s f codes | None => TAbort end
    | Ok (YError _ _) => TUB
    | _ => TFuel
    end
  | IExit, _ | _, IExit => TExit
  | IAbort, _ | _, IAbort => TAbort
  | IFuel, _ | _, IFuel => TFuel
  | _, _ => TUB
  end.

(** The names and marks of the nodes (yaep.c:6776-6815 and 6960-7010): a terminal node
    has the code of the terminal and the mark of the term, if that has one, and
    otherwise a mark that was never written ([junk]).  An abstract node has the name
    that ixml.c:1485-1486 gives it, and the mark of the term or else that of the rule.
    Rules with the same symbols are not told apart by the model of the parser, so any
    rule with the symbols of the node can be the rule of the node. *)
Section Marks.
Variable y : mgrammar.
Variable junk : N -> Prop.
Inductive marked : iterm -> dtree -> ytree -> Prop :=
| mk_term m s c k : In (s, c) (mg_terms y) -> (if (m =? 0)%N then junk k else k = m) -> marked (ITerm m s) (DTerm s) (YTerm c k)
| mk_node m r ts ks : In r (mg_rules y) -> all_marked (r_rhs r) ts ks ->
    marked (ITerm m (r_name r)) (DNode (rule_names r) ts) (YNode (node_name r) (if (m =? 0)%N then r_mark r else m) ks)
with all_marked : list iterm -> list dtree -> list ytree -> Prop :=
| mk_nil : all_marked [] [] []
| mk_cons i is t ts k ks : marked i t k -> all_marked is ts ks -> all_marked (i :: is) (t :: ts) (k :: ks).
End Marks.

(** xmq.c:4636-4655: the value that is returned and the children of the document *)
Inductive done := Done (ret : bool) (d : list node) | DoneExit | DoneAbort | DoneUB | DoneFuel.
(** If there is no tree nothing is added to the document (xmq.c:4476).  If there is one,
    its root stands for the start symbol, which has no mark in the rule for the axiom. *)
Inductive whole (fuel : nat) (junk : N -> Prop) (g : gst) (content : bytes) : done -> Prop :=
| wh_none ret : ixml_tree fuel g content = TRan ret None -> whole fuel junk g content (Done ret [])
| wh_tree ret t y r rs T d : ixml_tree fuel g content = TRan ret (Some t) -> use_marks g content = IOk y -> mg_rules y = r :: rs ->
    marked y junk (ITerm 0 (r_name r)) t T -> gen_doc T [] = DOk d -> whole fuel junk g content (Done ret d)
| wh_doc_ub ret t y r rs T : ixml_tree fuel g content = TRan ret (Some t) -> use_marks g content = IOk y -> mg_rules y = r :: rs ->
    marked y junk (ITerm 0 (r_name r)) t T -> gen_doc T [] = DUB -> whole fuel junk g content DoneUB
| wh_exit : ixml_tree fuel g content = TExit -> whole fuel junk g content DoneExit
| wh_abort : ixml_tree fuel g content = TAbort -> whole fuel junk g content DoneAbort
| wh_ub : ixml_tree fuel g content = TUB -> whole fuel junk g content DoneUB
| wh_fuel : ixml_tree fuel g content = TFuel -> whole fuel junk g content DoneFuel.
