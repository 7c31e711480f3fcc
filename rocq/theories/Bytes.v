(** Bytes, byte strings and the character classes used all over the C code.

    A C [char] is modelled by the [N] value of its byte (0..255).  Comparisons
    such as [c >= 'a'] are unaffected by the signedness of [char] for the
    constants below 128 that occur in the code. *)
From Coq Require Import NArith List Bool Ascii String.
Import ListNotations.
Local Open Scope N_scope.

Notation byte := N (only parsing).
Notation bytes := (list N) (only parsing).

(** A byte is a value below 256; a C string contains no NUL. *)
Definition is_byte (b : N) : Prop := b < 256.
Definition bytes_ok (s : bytes) : Prop := Forall is_byte s.
Definition nul_free (s : bytes) : Prop := ~ In 0 s.

(** Literals: [B "abc"] is the byte string abc. *)
Fixpoint B (s : string) : bytes :=
  match s with
  | EmptyString => []
  | String a r => N_of_ascii a :: B r
  end.

(** Named characters. *)
Definition cTAB : N := 9.
Definition cNL : N := 10.
Definition cCR : N := 13.
Definition cSP : N := 32.
Definition cBANG : N := 33. (* exclamation mark *)
Definition cDQ : N := 34. (* double quote *)
Definition cHASH : N := 35. (* hash *)
Definition cAMP : N := 38. (* ampersand *)
Definition cQ : N := 39. (* single quote *)
Definition cLP : N := 40. (* left parenthesis *)
Definition cRP : N := 41. (* right parenthesis *)
Definition cSTAR : N := 42. (* asterisk *)
Definition cMINUS : N := 45. (* minus *)
Definition cDOT : N := 46. (* dot *)
Definition cSLASH : N := 47. (* slash *)
Definition cCOLON : N := 58. (* colon *)
Definition cSEMI : N := 59. (* semicolon *)
Definition cLT : N := 60. (* less than *)
Definition cEQ : N := 61. (* equals *)
Definition cGT : N := 62. (* greater than *)
Definition cQM : N := 63. (* question mark *)
Definition cBSL : N := 92. (* backslash *)
Definition cUND : N := 95. (* underscore *)
Definition cLB : N := 123. (* left brace *)
Definition cRB : N := 125. (* right brace *)

Definition in_range (lo hi c : N) : bool := (lo <=? c) && (c <=? hi).

(** text.c:393-400 is_xmq_text_name *)
Definition is_xmq_text_name (c : N) : bool :=
  in_range 97 122 c || in_range 65 90 c || in_range 48 57 c
  || (c =? cMINUS) || (c =? cUND) || (c =? cDOT) || (c =? cCOLON) || (c =? cHASH).

(** text.c:402-408 is_xmq_element_start *)
Definition is_xmq_element_start (c : N) : bool :=
  in_range 97 122 c || in_range 65 90 c || (c =? cUND).

(** text.c:427-434 is_xmq_token_whitespace *)
Definition is_xmq_token_whitespace (c : N) : bool :=
  (c =? cSP) || (c =? cNL) || (c =? cCR).

(** text.c:436-443 is_xml_whitespace *)
Definition is_xml_whitespace (c : N) : bool :=
  (c =? cSP) || (c =? cNL) || (c =? cTAB) || (c =? cCR).

(** text.c:156-161 is_lowercase_hex *)
Definition is_lowercase_hex (c : N) : bool :=
  in_range 48 57 c || in_range 97 102 c.

(** xmq_internals.c:255-261 is_hex *)
Definition is_hex (c : N) : bool :=
  in_range 48 57 c || in_range 97 102 c || in_range 65 70 c.

(** xmq_internals.c:263-270 hex_value; [None] is the assert(false). *)
Definition hex_value (c : N) : option N :=
  if in_range 48 57 c then Some (c - 48)
  else if in_range 97 102 c then Some (10 + (c - 97))
  else if in_range 65 70 c then Some (10 + (c - 65))
  else None.

(** text.c:456-460 to_hex (upper case), for a nibble. *)
Definition to_hex (n : N) : N := if n <=? 9 then 48 + n else 55 + n.

(** Equality of byte strings. *)
Fixpoint beq (a b : bytes) : bool :=
  match a, b with
  | [], [] => true
  | x :: a', y :: b' => (x =? y) && beq a' b'
  | _, _ => false
  end.

(** [is_prefix a b]: a is a prefix of b (strncmp with the length of a). *)
Fixpoint is_prefix (a b : bytes) : bool :=
  match a, b with
  | [], _ => true
  | x :: a', y :: b' => (x =? y) && is_prefix a' b'
  | _, [] => false
  end.

(** [repeatN c n] as a byte string: n copies of c. *)
Definition rep (c : N) (n : nat) : bytes := List.repeat c n.
