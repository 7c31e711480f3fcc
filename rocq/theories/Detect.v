(** Models of content type detection and byte order mark handling (xmq.c),
    of xml comment escaping (xmq.c) and of html/tex rendering (xmq.c,
    xmq_internals.c). *)
From Coq Require Import NArith ZArith List Bool String.
From Verif Require Import Bytes.
Import ListNotations.
Local Open Scope N_scope.

(* ------------------------------------------------------------------ *)
(** * Content type detection

    A position is the list [m] of all bytes readable from it onwards (the
    rest of the buffer, then what follows stop) together with [n], the number
    of bytes left before stop (stop - i). *)

Inductive content := CXMQ | CXML | CHTML | CJSON.
Inductive det (A : Type) := DOk (a : A) | DUB.
Arguments DOk {A} a.
Arguments DUB {A}.
Definition dbind {A B} (r : det A) (f : A -> det B) : det B :=
  match r with DOk a => f a | DUB => DUB end.
Definition rd (m : bytes) (k : nat) : det N :=
  match nth_error m k with Some c => DOk c | None => DUB end.

(** tolower and isalnum of the C locale. *)
Definition tolower (c : N) : N := if in_range 65 90 c then c + 32 else c.
Definition isalnum (c : N) : bool := in_range 48 57 c || in_range 65 90 c || in_range 97 122 c.

(** strncasecmp(m, word, strlen word) == 0; stops reading at the first
    difference. *)
Fixpoint strncasecmp_eq (m word : bytes) : det bool :=
  match word with
  | [] => DOk true
  | w :: word' =>
    match m with
    | [] => DUB
    | c :: m' => if tolower c =? tolower w then strncasecmp_eq m' word' else DOk false
    end
  end.

(** strncmp(m, word, strlen word) == 0 *)
Fixpoint strncmp_eq (m word : bytes) : det bool :=
  match word with
  | [] => DOk true
  | w :: word' =>
    match m with
    | [] => DUB
    | c :: m' => if c =? w then strncmp_eq m' word' else DOk false
    end
  end.

(** xmq.c:1035 while (i < stop && is_xml_whitespace( *i)) i++ *)
Fixpoint skip_xml_ws (m : bytes) (n : Z) : bytes * Z :=
  match m with
  | c :: r => if (0 <? n)%Z && is_xml_whitespace c then skip_xml_ws r (n - 1) else (m, n)
  | [] => (m, n)
  end.

(** xmq.c:1030-1046 find_word_ignore_case: the position after the word. *)
Definition find_word_ignore_case (m : bytes) (n : Z) (word : bytes) : det (option (bytes * Z)) :=
  let '(m, n) := skip_xml_ws m n in
  dbind (strncasecmp_eq m word) (fun eq =>
  if eq then
    let len := List.length word in
    let n' := (n - Z.of_nat len)%Z in
    if (0 <=? n')%Z then
      dbind (rd m len) (fun c =>
      if is_xml_whitespace c || (c =? 0) || negb (isalnum c)
      then DOk (Some (skipn len m, n'))
      else DOk None)
    else DOk None
  else DOk None).

(** xmq.c:1076-1083: find the end of the comment; the result is the position
    i before i += 3. *)
Fixpoint zip_past_comment (m : bytes) (n : Z) : bytes * Z :=
  match m with
  | c0 :: r =>
    if (2 <? n)%Z then
      match r with
      | c1 :: c2 :: _ =>
        if (c0 =? cMINUS) && (c1 =? cMINUS) && (c2 =? cGT) then (m, n)
        else zip_past_comment r (n - 1)
      | _ => (m, n)
      end
    else (m, n)
  | [] => (m, n)
  end.

(** xmq.c:1096-1118: what follows a less-than sign (or a comment). *)
Definition detect_markup (m : bytes) (n : Z) : det content :=
  dbind (find_word_ignore_case (tl m) (n - 1) (B "html")) (fun is_html =>
  match is_html with
  | Some _ => DOk CHTML
  | None =>
    dbind (find_word_ignore_case m n (B "<!doctype")) (fun dt =>
    match dt with
    | Some (m2, n2) =>
      dbind (find_word_ignore_case (tl m2) (n2 - 1) (B "html")) (fun is_html =>
      match is_html with
      | Some _ => DOk CHTML
      | None => DOk CXML
      end)
    | None => DOk CXML
    end)
  end).

Definition startswith_within (m : bytes) (n : Z) (w : bytes) : bool :=
  (Z.of_nat (List.length w) <=? n)%Z && is_prefix w m.

(** xmq.c:1048-1153 xmqDetectContentType, at the first byte that is not
    whitespace. *)
Definition detect_at (m : bytes) (n : Z) : det content :=
  match m with
  | [] => DUB
  | c :: _ =>
    if c =? cLT then
      if startswith_within m n (B "<?xml") then DOk CXML
      else if startswith_within m n (B "<!--") then
        let '(m1, n1) := zip_past_comment m n in
        let m2 := skipn 3 m1 in
        let n2 := (n1 - 3)%Z in
        if (n2 <=? 0)%Z then DOk CXML else detect_markup m2 n2
      else detect_markup m n
    else if (c =? cLB) || (c =? cDQ) || (c =? 91) || in_range 48 57 c then DOk CJSON
    else
      let l := if (c =? 116) || (c =? 110) then 4%nat else if c =? 102 then 5%nat else 0%nat in
      if Nat.eqb l 0 then DOk CXMQ
      else if (Z.of_nat l - 1 <? n)%Z then
        dbind (if (n =? Z.of_nat l)%Z then DOk true
               else dbind (rd m l) (fun d => DOk ((d =? cNL) && (n =? Z.of_nat l + 1)%Z)))
          (fun ends =>
        if ends then
          dbind (strncmp_eq m (B "true")) (fun a => if a then DOk CJSON else
          dbind (strncmp_eq m (B "false")) (fun b => if b then DOk CJSON else
          dbind (strncmp_eq m (B "null")) (fun d => if d then DOk CJSON else DOk CXMQ)))
        else DOk CXMQ)
      else DOk CXMQ
  end.

Definition detect_content_type (s aft : bytes) : det content :=
  let '(m, n) := skip_xml_ws (s ++ aft) (Z.of_nat (List.length s)) in
  if (n <=? 0)%Z then DOk CXMQ else detect_at m n.

(** xmq.c:1797-1825 skip_any_potential_bom; [None] is NULL. *)
Definition skip_any_potential_bom (s : bytes) : option bytes :=
  match s with
  | 0xef :: 0xbb :: 0xbf :: x :: r => Some (x :: r)
  | 0xff :: 0xfe :: _ :: _ => None
  | 0xfe :: 0xff :: _ :: _ => None
  | _ => Some s
  end.

(* ------------------------------------------------------------------ *)
(** * XML comments *)

(** The escape character, utf8 e2 90 90. *)
Definition dle : bytes := [0xe2; 0x90; 0x90].

(** The test in escape_xml_comment, on the bytes after a dash (the bytes
    before the terminating NUL; the NUL is none of the tested bytes). *)
Definition needs_dle (r : bytes) : bool := is_prefix [cMINUS] r || is_prefix dle r.

(** xmq.c:3153-3195 escape_xml_comment: the count of the first loop and the
    output of the second. *)
Fixpoint count_escapes (s : bytes) : nat :=
  match s with
  | [] => 0
  | c :: r => (if (c =? cMINUS) && needs_dle r then 1 else 0) + count_escapes r
  end.
Fixpoint escape_loop (s : bytes) : bytes :=
  match s with
  | [] => []
  | c :: r => if (c =? cMINUS) && needs_dle r then c :: dle ++ escape_loop r else c :: escape_loop r
  end.
(** [None] is NULL: no escape needed. *)
Definition escape_xml_comment (s : bytes) : option bytes :=
  if Nat.eqb (count_escapes s) 0 then None else Some (escape_loop s).

(** xmq.c:3197-3240 unescape_xml_comment. *)
Fixpoint count_unescapes (s : bytes) : nat :=
  match s with
  | [] => 0
  | c :: r => (if (c =? cMINUS) && is_prefix dle r then 1 else 0) + count_unescapes r
  end.
Fixpoint unescape_loop (fuel : nat) (s : bytes) : bytes :=
  match fuel with
  | O => s
  | S f =>
    match s with
    | [] => []
    | c :: r =>
      if (c =? cMINUS) && is_prefix dle r then c :: unescape_loop f (skipn 3 r)
      else c :: unescape_loop f r
    end
  end.
Definition unescape_xml_comment (s : bytes) : option bytes :=
  if Nat.eqb (count_unescapes s) 0 then None else Some (unescape_loop (List.length s) s).

(** xmq.c:3242-3260 fixup_html / fixup_comments: the comment node gets the
    returned string, or keeps its content when NULL is returned. *)
Definition or_same (o : option bytes) (s : bytes) : bytes :=
  match o with Some t => t | None => s end.
Definition comment_to_xml (s : bytes) : bytes := or_same (escape_xml_comment s) s.
Definition comment_from_xml (s : bytes) : bytes := or_same (unescape_xml_comment s) s.

(* ------------------------------------------------------------------ *)
(** * Rendering *)

(** xmq.c:820-834 write_safe_html: the bytes written *)
Fixpoint write_safe_html (s : bytes) : bytes :=
  match s with
  | [] => []
  | c :: r =>
    (if c =? cAMP then B "&amp;"
     else if c =? cLT then B "&lt;"
     else if c =? cGT then B "&gt;"
     else if c =? cDQ then B "&quot;"
     else [c]) ++ write_safe_html r
  end.

(** xmq.c:836-848 write_safe_tex *)
Fixpoint write_safe_tex (s : bytes) : bytes :=
  match s with
  | [] => []
  | c :: r =>
    (if c =? cAMP then [cBSL; cAMP]
     else if c =? cBSL then [cBSL; cBSL]
     else if c =? cUND then [cBSL; cUND]
     else [c]) ++ write_safe_tex r
  end.

(** xmq_internals.c:281-305 needs_escape, for the html and tex formats. *)
Definition needs_escape_html (c : N) : option bytes :=
  if c =? cAMP then Some (B "&amp;")
  else if c =? cLT then Some (B "&lt;")
  else if c =? cGT then Some (B "&gt;")
  else None.
Definition needs_escape_tex (c : N) : option bytes :=
  if c =? cBSL then Some (B "\backslash;")
  else if c =? cAMP then Some (B "\&")
  else if c =? cHASH then Some (B "\#")
  else if c =? cLB then Some (B "\{")
  else if c =? cRB then Some (B "\}")
  else if c =? cUND then Some (B "\_")
  else if c =? cQ then Some (B "{'}")
  else None.
