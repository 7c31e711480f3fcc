(** Model of the warning for an ambiguous text that xmqParseBufferWithIXML prints
    (xmq.c:4594-4646), for one parse and without error recovery.  The run is the one of
    ixml_tree (IxmlWhole.v), with the flag of YaepAmb.v. *)
From Coq Require Import NArith ZArith List Bool Arith String.
From Verif Require Import Bytes Outcome Ixml Yaep YaepParse YaepCache IxmlRun YaepTree YaepAmb.
Import ListNotations.
Local Open Scope list_scope.

(** yaep.c:7189-7318 yaepParse: the value of ambiguous_p (false at 7224 before the text is
    parsed) *)
Definition yaep_flag (fuel : nat) (l : list (bytes * Z)) (lo hi : Z) (y : ystate) (f : flags) (codes : list Z) : out bool :=
  obind (read_tokens l lo hi (codes ++ [END_MARKER_CODE])) (fun toks =>
  match toks with
  | None => Ok false
  | Some toks =>
    obind (perform_parse_cached y f toks) (fun r =>
    obind (build_flag y (snd (fst r)) fuel) (fun p => Ok (snd p)))
  end).
(** xmq.c:4594-4646: the warning is printed.  It is not, if the process ends before. *)
Definition ixml_warns (fuel : nat) (g : gst) (content : bytes) : bool :=
  match use_grammar g content, scan_content (List.length content) content with
  | IOk (y, _), IOk codes =>
    match yaep_read_grammar false y with
    | Ok (YOk (s, f)) =>
      match code_range (coded y) with
      | Some (lo, hi) => match yaep_flag fuel (coded y) lo hi s f codes with Ok b => b | _ => false end
      | None => false
      end
    | _ => false
    end
  | _, _ => false
  end.
