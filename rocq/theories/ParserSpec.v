(** What the properties C15-C20 and C43 talk about: places in a source,
    the texts of tokens, and balanced brackets.  Independent of the parser. *)
From Coq Require Import NArith List Bool.
From Verif Require Import Bytes Parser.
Import ListNotations.
Local Open Scope N_scope.

(** A UTF-8 continuation byte 10xxxxxx does not start a character. *)
Definition starts_char (c : N) : bool := negb (N.land c 0xc0 =? 0x80).

(** The line of the place after the bytes b: lines are counted by newlines. *)
Definition line_after (b : bytes) : N :=
  1 + N.of_nat (List.length (filter (fun c => c =? cNL) b)).
(** The last line of b. *)
Fixpoint last_line (b : bytes) : bytes :=
  match b with
  | [] => []
  | c :: r => if existsb (fun d => d =? cNL) b
              then last_line r
              else b
  end.
(** The column of the place after b: characters since the start of the line. *)
Definition col_after (b : bytes) : N :=
  1 + N.of_nat (List.length (filter starts_char (last_line b))).

Definition texts (T : list token) : bytes := concat (map t_text T).

(** Every token is reported where its text starts. *)
Definition placed (T : list token) : Prop :=
  forall before t after, T = before ++ t :: after ->
    t_line t = line_after (texts before) /\ t_col t = col_after (texts before).

Definition opens (k k' : kind) : Prop :=
  (k = Kbrace_left /\ k' = Kbrace_right)
  \/ (k = Kapar_left /\ k' = Kapar_right)
  \/ (k = Kcpar_left /\ k' = Kcpar_right).
Definition is_bracket (k : kind) : bool :=
  match k with
  | Kbrace_left | Kbrace_right | Kapar_left | Kapar_right | Kcpar_left | Kcpar_right => true
  | _ => false
  end.

(** Properly nested and closed brackets. *)
Inductive balanced : list token -> Prop :=
| bal_nil : balanced []
| bal_plain t T : is_bracket (t_kind t) = false -> balanced T -> balanced (t :: T)
| bal_nest l A r C : opens (t_kind l) (t_kind r) -> balanced A -> balanced C -> balanced (l :: A ++ r :: C).

(** Properly nested, and all still open brackets could be closed. *)
Definition closable (T : list token) : Prop := exists C, balanced (T ++ C).

(** The text of each bracket token is that bracket. *)
Definition bracket_text (t : token) : Prop :=
  match t_kind t with
  | Kbrace_left => t_text t = [cLB] | Kbrace_right => t_text t = [cRB]
  | Kapar_left | Kcpar_left => t_text t = [cLP]
  | Kapar_right | Kcpar_right => t_text t = [cRP]
  | Kequals => t_text t = [cEQ]
  | _ => True
  end.

(** A remembered place is a place of the source b. *)
Definition mark_in (b : bytes) (m : mark) : Prop :=
  exists a z, b = a ++ z /\ m_off m = List.length a
              /\ m_line m = line_after a /\ m_col m = col_after a.

(** White space between tokens: spaces, carriage returns, newlines, no-break
    spaces and the quads U+2000-U+2003. *)
Inductive ws_text : bytes -> Prop :=
| ws_nil : ws_text []
| ws_1 c t : is_xmq_token_whitespace c = true -> ws_text t -> ws_text (c :: t)
| ws_2 t : ws_text t -> ws_text (0xc2 :: 0xa0 :: t)
| ws_3 e t : e = 0x80 \/ e = 0x81 \/ e = 0x82 \/ e = 0x83 -> ws_text t -> ws_text (0xe2 :: 0x80 :: e :: t).

(** Bytes that end an attribute list, or are reported as an error there. *)
Definition ends_attributes (c : N) : Prop := In c [cQ; cDQ; cLP; cRP; cLB; cRB; cSLASH; cEQ; cAMP].
(** A byte in an attribute list that is no name, no white space and does not
    end it; or a tab, which is white space but not allowed between tokens. *)
Definition no_attribute (c : N) : Prop :=
  c = cTAB \/ (is_xmq_text_name c = false /\ is_xml_whitespace c = false /\ ~ ends_attributes c).

(** A result that is not "still running". *)
Definition finished (r : pout) : Prop := forall s, r <> PNoFuel s.
Definition running (r : pout) : Prop := exists s, r = PNoFuel s.

(** The same result, the same tokens, and the same reported place. *)
Definition same_result (r r' : pout) : Prop :=
  match r, r' with
  | POk s, POk s' => tokens s = tokens s'
  | PErr e s, PErr e' s' => e = e' /\ tokens s = tokens s' /\ error_mark e s = error_mark e' s'
  | PNoFuel s, PNoFuel s' => tokens s = tokens s'
  | PUB, PUB => True
  | PAbrt, PAbrt => True
  | _, _ => False
  end.

(** The source ends with an equals sign and white space. *)
Definition ends_with_equals (src : bytes) : Prop := exists a w, src = a ++ cEQ :: w /\ ws_text w.
(** The source starts with an opening bracket or an equals sign. *)
Definition starts_with_value (src : bytes) : Prop :=
  exists c r, src = c :: r /\ In c [cLB; cLP; cEQ].
