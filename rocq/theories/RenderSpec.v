(** Specification for the rendering of a document with colors: what a reader of
    the terminal, of the html page and of the typeset page sees.  Each function
    removes the markup from bytes; [None] stands for markup that is broken. *)
From Coq Require Import NArith List Bool String.
From Verif Require Import Bytes Utf8.
Import ListNotations.
Local Open Scope N_scope.

Definition add (t : bytes) (r : option bytes) : option bytes := option_map (app t) r.

(** ** Terminals: ESC [ digits and semicolons m selects a color. *)
Inductive ansi_mode := AText | AEscape | AParams.
Fixpoint ansi (m : ansi_mode) (h : bytes) : option bytes :=
  match h with
  | [] => match m with AText => Some [] | _ => None end
  | c :: r =>
    match m with
    | AText => if c =? 27 then ansi AEscape r else add [c] (ansi AText r)
    | AEscape => if c =? 91 (* [ *) then ansi AParams r else None
    | AParams =>
      if c =? 109 (* m *) then ansi AText r
      else if in_range 48 57 c || (c =? cSEMI) then ansi AParams r
      else None
    end
  end.
Definition ansi_text (h : bytes) : option bytes := ansi AText h.

(** ** Html: tags are not shown, a reference is shown as its character; an
    ampersand that does not start one of these references is shown as such. *)
Inductive html_mode := HText | HTag | HSkip (n : nat).
Fixpoint html (m : html_mode) (h : bytes) : option bytes :=
  match h with
  | [] => match m with HText => Some [] | _ => None end
  | c :: r =>
    match m with
    | HTag => html (if c =? cGT then HText else HTag) r
    | HSkip (S (S n)) => html (HSkip (S n)) r
    | HSkip _ => html HText r
    | HText =>
      if c =? cLT then html HTag r
      else if c =? cAMP then
        if is_prefix (B "amp;") r then add [cAMP] (html (HSkip 4) r)
        else if is_prefix (B "lt;") r then add [cLT] (html (HSkip 3) r)
        else if is_prefix (B "gt;") r then add [cGT] (html (HSkip 3) r)
        else if is_prefix (B "quot;") r then add [cDQ] (html (HSkip 5) r)
        else add [c] (html HText r)
      else add [c] (html HText r)
    end
  end.
Definition html_text (h : bytes) : option bytes := html HText h.

(** ** Tex: a word after a backslash is a command; the space or line end after
    it belongs to it.  Braces are not shown, a percent sign starts a comment, a
    tilde is a space, and the other special characters must be escaped. *)
Inductive tex_mode := TText | TEscape | TWord (w : bytes) | TComment.
Definition letter (c : N) : bool := in_range 97 122 c || in_range 65 90 c.
Definition symbol (w : bytes) : bytes :=
  if beq w (B "xmqI") then [cSP]
  else if beq w (B "linebreak") then [cNL]
  else if beq w (B "backslash") then [cBSL]
  else [].
Definition among (c : N) (l : bytes) : bool := existsb (fun d => c =? d) l.
Fixpoint tex (m : tex_mode) (h : bytes) : option bytes :=
  match h with
  | [] => match m with TText | TComment => Some [] | TWord w => Some (symbol w) | TEscape => None end
  | c :: r =>
    let text :=
      if c =? cBSL then tex TEscape r
      else if among c [cLB; cRB] then tex TText r
      else if c =? 37 (* percent *) then tex TComment r
      else if c =? 126 (* tilde *) then add [cSP] (tex TText r)
      else if among c (B "#$^&_") then None
      else add [c] (tex TText r) in
    match m with
    | TText => text
    | TEscape =>
      if letter c then tex (TWord [c]) r
      else if among c (B "#$%&_{}") then add [c] (tex TText r)
      else None
    | TWord w =>
      if letter c then tex (TWord (w ++ [c])) r
      else add (symbol w) (if (c =? cSP) || (c =? cNL) then tex TText r else text)
    | TComment => tex (if c =? cNL then TText else TComment) r
    end
  end.
Definition tex_text (h : bytes) : option bytes := tex TText h.

(** ** Conditions on the output without colors *)

(** A continuation byte follows one of the given bytes; never so in utf8. *)
Definition stray_after (l : bytes) (o : bytes) : Prop :=
  exists a c d b, o = a ++ c :: d :: b /\ In c l /\ is_cont d = true.

Definition no_escape_byte (o : bytes) : Prop := ~ In 27 o.
Definition html_clean (o : bytes) : Prop := ~ stray_after [cAMP; cLT; cGT] o.
(** Characters that are not escaped for tex, or not correctly *)
Definition tex_clean (o : bytes) : Prop :=
  (forall c, In c (B "\%$^~") -> ~ In c o) /\
  (~ exists a b, o = a ++ B "&badutf8;" ++ b) /\
  ~ stray_after (B "&#{}_'") o.

(** ** Nesting of html tags: the names of the tags that are open at the end;
    [None] stands for an end tag that does not end the last open tag. *)
Inductive tag_mode := GText | GName (n : bytes) | GRest (n : bytes).
Definition tag_end (n : bytes) (open : list bytes) : option (list bytes) :=
  match n with
  | 47 (* slash *) :: m =>
    match open with
    | t :: open => if beq t m then Some open else None
    | [] => None
    end
  | _ => Some (n :: open)
  end.
Fixpoint tags (m : tag_mode) (open : list bytes) (h : bytes) : option (list bytes) :=
  match h with
  | [] => match m with GText => Some open | _ => None end
  | c :: r =>
    match m with
    | GText => if c =? cLT then tags (GName []) open r else tags GText open r
    | GName n =>
      if c =? cGT then match tag_end n open with Some open => tags GText open r | None => None end
      else if c =? cSP then tags (GRest n) open r
      else tags (GName (n ++ [c])) open r
    | GRest n =>
      if c =? cGT then match tag_end n open with Some open => tags GText open r | None => None end
      else tags (GRest n) open r
    end
  end.
Definition well_nested (h : bytes) : Prop := tags GText [] h = Some [].
