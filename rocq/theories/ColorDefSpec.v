(** Specification of colours, independent of the code: the notation of a colour
    and what terminals, css and tex call it. *)
From Coq Require Import NArith ZArith List Bool String.
From Verif Require Import Bytes GettersSpec.
Import ListNotations.
Local Open Scope N_scope.
Local Open Scope list_scope.

(** Red, green and blue are bytes. *)
Definition rgb (r g b : N) : Prop := r < 256 /\ g < 256 /\ b < 256.
(** Two hexadecimal digits *)
Definition two_hex (s : bytes) (v : N) : Prop := List.length s = 2%nat /\ numeral 16 s v.
(** #rrggbb *)
Definition web_color (s : bytes) (r g b : N) : Prop :=
  exists sr sg sb, s = [35] ++ sr ++ sg ++ sb /\ two_hex sr r /\ two_hex sg g /\ two_hex sb b.
(** The marks for bold and underline, as documented *)
Inductive marks : bytes -> bool -> bool -> Prop :=
| mk_none : marks [] false false
| mk_bold : marks (B "_B") true false
| mk_under : marks (B "_U") false true
| mk_both : marks (B "_B_U") true true.
Definition color_notation (s : bytes) (r g b : N) (bo un : bool) : Prop :=
  exists w m, s = w ++ m /\ web_color w r g b /\ marks m bo un.

(** A terminal: the parameters of the sequence between ESC [ and m are separated
    by semicolons: 0 resets, 1 is bold, 4 is underline, 38 2 r g b is the colour. *)
Definition param (s : bytes) (n : N) : Prop := numeral 10 s n /\ no_needless_zero s.
Inductive params : bytes -> list N -> Prop :=
| pa_one s n : param s n -> params s [n]
| pa_more s n r ns : param s n -> params r ns -> params (s ++ [59] ++ r) (n :: ns).
Definition sgr (s : bytes) (ns : list N) : Prop := exists p, s = [27; 91] ++ p ++ [109] /\ params p ns.
Definition terminal_color (s : bytes) (r g b : N) (bo un : bool) : Prop :=
  sgr s ([0] ++ (if bo then [1] else []) ++ (if un then [4] else []) ++ [38; 2; r; g; b]).

(** A rule of css for the elements of a name *)
Definition css_color (s name : bytes) (r g b : N) (bo un : bool) : Prop :=
  exists w, web_color w r g b /\
    s = name ++ B "{color:" ++ w ++ B ";" ++ (if bo then B "font-weight:600;" else [])
        ++ (if un then B "text-decoration:underline;" else []) ++ B "}".
(** A definition of a colour in tex *)
Definition tex_color (s name : bytes) (r g b : N) : Prop :=
  exists sr sg sb, param sr r /\ param sg g /\ param sb b /\
    s = [92] ++ B "definecolor{" ++ name ++ B "}{RGB}{" ++ sr ++ B "," ++ sg ++ B "," ++ sb ++ B "}".

(** The tag around the content: its id and class are those that were asked for. *)
Definition pre_of (s : bytes) (theme : bytes) (id clazz : option bytes) : Prop :=
  s = B "<pre " ++ (match id with Some i => B "id=" ++ [34] ++ i ++ [34; 32] | None => [] end)
      ++ B "class=" ++ [34] ++ B "xmq " ++ theme ++ (match clazz with Some c => [32] ++ c | None => [] end) ++ [34; 62].
