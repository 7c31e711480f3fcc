(** Model of xmqParseBufferWithIXML (xmq.c:4594-4655) up to the document: the grammar
    is handed to yaep (Yaep.v), the characters of the content become tokens, and
    these are parsed (YaepParse.v, YaepCache.v).

    Error recovery is off.  The document that is made of the tree is in IxmlDoc.v. *)
From Coq Require Import NArith ZArith List Bool Arith String.
From Verif Require Import Bytes Outcome Ixml Yaep YaepParse YaepCache.
Import ListNotations.
Local Open Scope list_scope.

(** yaep.c:5081-5082, 2269 *)
Definition END_MARKER_CODE : Z := -1.
Definition TERM_ERROR_CODE : Z := -2.
Definition MAX_CODES : Z := 200000.
(** The terminals with their codes, in the order of their numbers (yaep.c:5117-5146,
    5190-5192) *)
Definition coded (y : ygrammar) : list (bytes * Z) := y_terms y ++ [(TERM_ERROR, TERM_ERROR_CODE); (END_MARKER, END_MARKER_CODE)].
(** yaep.c:3276-3305 symb_finish_adding_terms: the least and the greatest code, or a
    failing assert.  The codes are int and at most 0x10ffff, so the difference does
    not overflow. *)
Definition code_range (l : list (bytes * Z)) : option (Z * Z) :=
  match map snd l with
  | [] => None
  | c :: cs =>
    let lo := fold_left Z.min cs c in
    let hi := fold_left Z.max cs c in
    if (hi - lo <? MAX_CODES)%Z then Some (lo, hi) else None
  end.
(** yaep.c:3129-3156 symb_find_by_code, with the vector.  The entries of the vector
    for codes without a terminal are not set: reading them is undefined. *)
Inductive found := Symb (n : bytes) | NoSymb | NotSet.
Definition find_by_code (l : list (bytes * Z)) (lo hi code : Z) : found :=
  if (code <? lo)%Z || (hi + 1 <=? code)%Z then NoSymb
  else match find (fun t => Z.eqb (snd t) code) (rev l) with Some t => Symb (fst t) | None => NotSet end.

(** What the caller sees: the returned value and whether there is a tree; or the
    process exits, aborts, or does something undefined. *)
Inductive ran := Ran (ret tree : bool) | RanExit | RanAbort | RanUB | RanFuel.

(** yaep.c:5392-5404 read_input, 3760-3773 tok_add: [None] is an error, that is a
    code without a symbol. *)
Fixpoint read_tokens (l : list (bytes * Z)) (lo hi : Z) (codes : list Z) : out (option (list bytes)) :=
  match codes with
  | [] => Ok (Some [])
  | c :: codes =>
    match find_by_code l lo hi c with
    | NotSet => UB
    | NoSymb => Ok None
    | Symb n => obind (read_tokens l lo hi codes) (fun r => Ok (option_map (cons n) r))
    end
  end.
Definition of_out (o : out ran) : ran := match o with Ok r => r | Err _ => RanUB | UB => RanUB | Abrt => RanAbort | NoFuel => RanFuel end.
(** yaep.c:7189-7318 yaepParse, and xmq.c:4636-4655: true is returned also if there
    is no tree.  Whether there is one is decided by the first test of
    build_parse_tree (yaep.c:6665-6677); the rest of it is in YaepTree.v, and all of it
    together in IxmlWhole.v. *)
Definition yaep_parse (l : list (bytes * Z)) (lo hi : Z) (y : ystate) (f : flags) (codes : list Z) : ran :=
  of_out (obind (read_tokens l lo hi (codes ++ [END_MARKER_CODE])) (fun toks =>
  match toks with
  | None => Ok (Ran false false)
  | Some toks => obind (perform_parse_cached y f toks) (fun r => Ok (Ran true (has_tree (snd (fst r)))))
  end)).
(** xmq.c:4594-4655.  If yaep does not take the grammar there is a longjmp to
    ixml_build_yaep_grammar (ixml.c:1541), that has returned: this is undefined.
    default_read_token (yaep.c:7697-7713) decodes the content like the scan before
    (ixml.c:1724-1737), so it gives the same codes. *)
Definition parse_with_ixml (g : gst) (content : bytes) : ran :=
  match use_grammar g content, scan_content (List.length content) content with
  | IOk (y, _), IOk codes =>
    match yaep_read_grammar false y with
    | Ok (YOk (s, f)) => match code_range (coded y) with Some (lo, hi) => yaep_parse (coded y) lo hi s f codes | None => RanAbort end
    | Ok (YError _ _) => RanUB
    | _ => RanFuel
    end
  | IExit, _ | _, IExit => RanExit
  | IAbort, _ | _, IAbort => RanAbort
  | IFuel, _ | _, IFuel => RanFuel
  | _, _ => RanUB
  end.
