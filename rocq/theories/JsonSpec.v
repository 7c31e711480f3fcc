(** Specification of JSON texts (RFC 8259), independent of the program: which
    bytes are a number, what text a string literal denotes, and which value a
    JSON text denotes.

    With [full = true] the relations are those of RFC 8259.  With [full = false]
    they leave out what the program does not read as JSON does: the escape of a
    slash, the two escapes of a surrogate pair, numbers that start with 0e or
    0E, and a tab or carriage return right after a number. *)
From Coq Require Import NArith List Bool String.
From Verif Require Import Bytes Utf8Proofs.
Import ListNotations.
Local Open Scope N_scope.

(** ** Numbers *)
Definition digit (c : N) : Prop := 48 <= c <= 57.
Definition digits (t : bytes) : Prop := t <> [] /\ Forall digit t.
Definition json_int (t : bytes) : Prop :=
  t = [48] \/ exists c r, t = c :: r /\ 49 <= c <= 57 /\ Forall digit r.
Definition json_frac (t : bytes) : Prop := t = [] \/ exists ds, t = 46 :: ds /\ digits ds.
Definition json_exp (t : bytes) : Prop :=
  t = [] \/ exists e sign ds, t = e :: sign ++ ds /\ In e [101; 69] /\ In sign [[]; [43]; [45]] /\ digits ds.
(** number = [ minus ] int [ frac ] [ exp ] *)
Definition json_number (t : bytes) : Prop :=
  exists minus i f e, t = minus ++ i ++ f ++ e /\ In minus [[]; [45]] /\ json_int i /\ json_frac f /\ json_exp e.
(** A number that starts with 0e *)
Definition zero_exp (t : bytes) : Prop := exists e r, t = 48 :: e :: r /\ In e [101; 69].

(** ** Strings *)
Definition surrogate (u : N) : Prop := 0xd800 <= u <= 0xdfff.
Definition character (u : N) : Prop := u <= 0x10ffff /\ ~ surrogate u.
Definition escapes : list (N * N) := [(34, 34); (92, 92); (98, 8); (102, 12); (110, 10); (114, 13); (116, 9)].
Definition hex_digit (c v : N) : Prop :=
  48 <= c <= 57 /\ v = c - 48 \/ 65 <= c <= 70 /\ v = c - 55 \/ 97 <= c <= 102 /\ v = c - 87.
(** backslash, u and four digits *)
Definition hex_escape (t : bytes) (u : N) : Prop :=
  exists h1 h2 h3 h4 a b c d, t = [92; 117; h1; h2; h3; h4]
    /\ hex_digit h1 a /\ hex_digit h2 b /\ hex_digit h3 c /\ hex_digit h4 d
    /\ u = ((a * 16 + b) * 16 + c) * 16 + d.
(** What is between the quotes, and the UTF-8 text it denotes. *)
Inductive string_text (full : bool) : bytes -> bytes -> Prop :=
| st_nil : string_text full [] []
| st_char u t s : character u -> 32 <= u -> u <> 34 -> u <> 92 ->
    string_text full t s -> string_text full (utf8_spec u ++ t) (utf8_spec u ++ s)
| st_escape e u t s : In (e, u) escapes -> string_text full t s -> string_text full (92 :: e :: t) (u :: s)
| st_slash t s : full = true -> string_text full t s -> string_text full (92 :: 47 :: t) (47 :: s)
| st_hex h u t s : hex_escape h u -> ~ surrogate u ->
    string_text full t s -> string_text full (h ++ t) (utf8_spec u ++ s)
| st_pair h l u v t s : full = true -> hex_escape h u -> hex_escape l v ->
    0xd800 <= u <= 0xdbff -> 0xdc00 <= v <= 0xdfff ->
    string_text full t s ->
    string_text full (h ++ l ++ t) (utf8_spec (0x10000 + (u - 0xd800) * 0x400 + (v - 0xdc00)) ++ s).

(** ** Values *)
Inductive jv :=
| JNull
| JBool (b : bool)
| JNum (t : bytes)                (* as it is written *)
| JStr (s : bytes)
| JArr (l : list jv)
| JObj (l : list (bytes * jv)).   (* in order *)

Definition ws (w : bytes) : Prop := Forall (fun c => In c [32; 9; 10; 13]) w.
(** white space after a value *)
Definition after (full : bool) (v : jv) (w : bytes) : Prop :=
  ws w /\ (full = true \/ match v, w with JNum _, c :: _ => In c [32; 10] | _, _ => True end).

Inductive value_text (full : bool) : bytes -> jv -> Prop :=
| vt_null : value_text full (B "null") JNull
| vt_true : value_text full (B "true") (JBool true)
| vt_false : value_text full (B "false") (JBool false)
| vt_num t : json_number t -> full = true \/ ~ zero_exp t -> value_text full t (JNum t)
| vt_str t s : string_text full t s -> value_text full (34 :: t ++ [34]) (JStr s)
| vt_arr0 w : ws w -> value_text full (91 :: w ++ [93]) (JArr [])
| vt_arr t l : elements_text full t l -> value_text full (91 :: t ++ [93]) (JArr l)
| vt_obj0 w : ws w -> value_text full (123 :: w ++ [125]) (JObj [])
| vt_obj t l : members_text full t l -> value_text full (123 :: t ++ [125]) (JObj l)
with elements_text (full : bool) : bytes -> list jv -> Prop :=
| et_one w t w' v : ws w -> value_text full t v -> after full v w' -> elements_text full (w ++ t ++ w') [v]
| et_more w t w' v r l : ws w -> value_text full t v -> after full v w' ->
    elements_text full r l -> elements_text full (w ++ t ++ w' ++ 44 :: r) (v :: l)
with members_text (full : bool) : bytes -> list (bytes * jv) -> Prop :=
| mt_one w q k w1 w2 t w' v : ws w -> string_text full q k -> ws w1 -> ws w2 -> value_text full t v -> after full v w' ->
    members_text full (w ++ 34 :: q ++ 34 :: w1 ++ 58 :: w2 ++ t ++ w') [(k, v)]
| mt_more w q k w1 w2 t w' v r l : ws w -> string_text full q k -> ws w1 -> ws w2 -> value_text full t v -> after full v w' ->
    members_text full r l ->
    members_text full (w ++ 34 :: q ++ 34 :: w1 ++ 58 :: w2 ++ t ++ w' ++ 44 :: r) ((k, v) :: l).
(** JSON-text = ws value ws *)
Definition json_text (full : bool) (src : bytes) (v : jv) : Prop :=
  exists w t w', src = w ++ t ++ w' /\ ws w /\ value_text full t v /\ after full v w'.
