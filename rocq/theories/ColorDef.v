(** Model of the colour definitions (parts/colors.c 79-246, default_themes.c
    35-110) and of what xmq.c (226-262 and 329-400) makes of them for a terminal,
    html and tex.  The variant for Windows is not modelled. *)
From Coq Require Import NArith ZArith List Bool Arith String.
From Verif Require Import Bytes Outcome Printer.
Import ListNotations.
Local Open Scope N_scope.
Local Open Scope list_scope.
Local Open Scope out_scope.

(** colors.h:115-119 XMQColorDef *)
Record color_def := Color { red : Z; green : Z; blue : Z; bold : bool; underline : bool }.
(** colors.c:86-90: what is left if the text is refused *)
Definition no_color : color_def := Color (-1) (-1) (-1) false false.

(** colors.c:131-149 hex_to_number, one digit.  Characters from 128 are negative
    and so no digits. *)
Definition color_digit (c : N) : option Z :=
  if (48 <=? c) && (c <=? 57) then Some (Z.of_N c - 48)%Z
  else if (97 <=? c) && (c <=? 102) then Some (10 + Z.of_N c - 97)%Z
  else if (65 <=? c) && (c <=? 70) then Some (10 + Z.of_N c - 65)%Z
  else None.
(** colors.c:131-149 hex_to_number *)
Definition hex_to_number (c cc : N) : option Z :=
  match color_digit c, color_digit cc with
  | Some hi, Some lo => Some (hi * 16 + lo)%Z
  | _, _ => None
  end.

(** colors.c:110-115 and 116-121: a mark after an underscore.  The text is what is
    left before its zero; [None]: the pointer is behind the zero, where nothing may
    be read. *)
Definition color_mark (s : option bytes) (b u : bool) : out (option bytes * bool * bool) :=
  match s with
  | None => UB
  | Some (c :: r) =>
    if c =? 95 then
      match r with
      | [] => Ok (None, b, u)
      | m :: r' => Ok (Some r', b || (m =? 66), u || (m =? 85))
      end
    else Ok (s, b, u)
  | Some [] => Ok (s, b, u)
  end.

(** colors.c:79-129 string_to_color_def, for a text without zeros *)
Definition string_to_color_def (s : bytes) : out (bool * color_def) :=
  match s with
  | h :: r1 :: r2 :: g1 :: g2 :: b1 :: b2 :: rest =>
    if negb (h =? 35) then Ok (false, no_color)
    else
      match hex_to_number r1 r2, hex_to_number g1 g2, hex_to_number b1 b2 with
      | Some r, Some g, Some b =>
        '(s1, bo, un) <- color_mark (Some rest) false false ;
        '(s2, bo, un) <- color_mark s1 bo un ;
        match s2 with
        | None => UB
        | Some [] => Ok (true, Color r g b bo un)
        | Some (_ :: _) => Ok (false, no_color)
        end
      | _, _, _ => Ok (false, no_color)
      end
  | _ => Ok (false, no_color)
  end.

(** The format %d of printf *)
Definition print_int (z : Z) : bytes :=
  if (z <? 0)%Z then 45 :: decimal (Z.to_N (- z)) else decimal (Z.to_N z).
(** The format %02x of printf, for an int *)
Definition hex_char (d : N) : N := if d <? 10 then 48 + d else 97 + (d - 10).
Fixpoint hex_loop (fuel : nat) (n : N) (acc : bytes) : bytes :=
  match fuel with
  | O => acc
  | S fuel => let acc := hex_char (n mod 16) :: acc in if n <? 16 then acc else hex_loop fuel (n / 16) acc
  end.
Definition print_02x (z : Z) : bytes :=
  let s := hex_loop 8 (Z.to_N (z mod 2 ^ 32)) [] in
  if (List.length s <? 2)%nat then 48 :: s else s.

(** The text and its zero are written to a buffer of a given size. *)
Definition into_buffer (size : N) (s : bytes) : out bytes :=
  if N.of_nat (List.length s) + 1 <=? size then Ok s else UB.

(** colors.c:151-195 generate_ansi_color: [None] if it refuses the buffer and
    leaves it alone. *)
Definition ansi_text (d : color_def) : bytes :=
  [27] ++ B "[0;" ++ (if bold d then B "1;" else []) ++ (if underline d then B "4;" else []) ++ B "38;2;"
  ++ print_int (red d) ++ B ";" ++ print_int (green d) ++ B ";" ++ print_int (blue d) ++ B "m".
Definition generate_ansi_color (size : N) (d : color_def) : out (option bytes) :=
  if size <? 32 then Ok None else t <- into_buffer size (ansi_text d) ; Ok (Some t).

(** colors.c:197-226 generate_html_color: what it returns and writes.  The call of
    snprintf may cut the text, but then the writes after it are outside of the
    buffer, or its terminating zero is. *)
Definition html_text (d : color_def) (name : bytes) : bytes :=
  name ++ B "{color:#" ++ print_02x (red d) ++ print_02x (green d) ++ print_02x (blue d) ++ B ";"
  ++ (if bold d then B "font-weight:600;" else []) ++ (if underline d then B "text-decoration:underline;" else []) ++ B "}".
Definition generate_html_color (size : N) (d : color_def) (name : bytes) : out (bool * option bytes) :=
  if size <? 64 then Ok (false, None) else t <- into_buffer size (html_text d name) ; Ok (false, Some t).

(** colors.c:228-236 generate_tex_color: snprintf cuts what does not fit. *)
Definition tex_text (d : color_def) (name : bytes) : bytes :=
  [92] ++ B "definecolor{" ++ name ++ B "}{RGB}{" ++ print_int (red d) ++ B "," ++ print_int (green d) ++ B ","
  ++ print_int (blue d) ++ B "}".
Definition generate_tex_color (size : N) (d : color_def) (name : bytes) : option bytes :=
  if size <? 128 then None else Some (firstn (N.to_nat (size - 1)) (tex_text d name)).

(** xmq.c:226-254 add_color: the text is written to [tmp] of 128 bytes, and
    appended with a zero to the [used] bytes of the commands of 4096 bytes
    (xmq.c:262).  The result is what the theme points to, and the bytes used. *)
Definition add_color (d : color_def) (used : N) : out (bytes * N) :=
  t <- generate_ansi_color 128 d ;
  match t with
  | None => UB
  | Some t => let used' := used + N.of_nat (List.length t) + 1 in if used' <=? 4096 then Ok (t, used') else UB
  end.
(** xmq.c:256-316 setup_terminal_coloring: the commands of the colours in turn *)
Fixpoint add_colors (ds : list color_def) (used : N) : out (list bytes) :=
  match ds with
  | [] => Ok []
  | d :: r => '(t, used) <- add_color d used ; ts <- add_colors r used ; Ok (t :: ts)
  end.

(** default_themes.c:35-49, 67-81 default_darkbg_colors, default_lightbg_colors *)
Definition default_darkbg_colors : list bytes :=
  [B "#2aa1b3"; B "#26a269_B"; B "#c061cb"; B "#a9a9a9"; B "#ff8c00"; B "#88b4f7"; B "#26a269_B"; B "#88b4f7";
   B "#6196ec"; B "#c061cb"; B "#2aa1b3"; B "#880000_U"; B "#c061cb"].
Definition default_lightbg_colors : list bytes :=
  [B "#2aa1b3"; B "#26a269_B"; B "#c061cb"; B "#696969"; B "#a86c00"; B "#0060fd"; B "#26a269_B"; B "#0060fd";
   B "#12488c"; B "#c061cb"; B "#1a91a3"; B "#880000_U"; B "#c061cb"].
(** colors.c:238-252 color_names *)
Definition color_names : list bytes :=
  [B "xmqC"; B "xmqQ"; B "xmqE"; B "xmqNS"; B "xmqEN"; B "xmqEK"; B "xmqEKV"; B "xmqAK"; B "xmqAKV"; B "xmqCP";
   B "xmqNSD"; B "xmqUW"; B "xmqXSL"].
(** default_themes.c:94-110 installDefaultThemeColors, one of its loops: what
    string_to_color_def returns is not looked at. *)
Fixpoint install_colors (l : list bytes) : out (list color_def) :=
  match l with
  | [] => Ok []
  | s :: r => '(_, d) <- string_to_color_def s ; ds <- install_colors r ; Ok (d :: ds)
  end.

(** xmq.c:356-361 and 364-369: the rules of the colours in the style *)
Fixpoint style_rules (ds : list color_def) (names : list bytes) : out bytes :=
  match ds, names with
  | d :: ds, n :: names =>
    '(_, t) <- generate_html_color 128 d n ;
    match t with None => UB | Some t => r <- style_rules ds names ; Ok (t ++ r) end
  | _, _ => Ok []
  end.

(** xmq.c:392-412: the tag before the content in html, cut by snprintf to 1022
    bytes *)
Definition pre_text (dark : bool) (id clazz : option bytes) : bytes :=
  B "<pre " ++ (match id with Some i => B "id=" ++ [34] ++ i ++ [34; 32] | None => [] end)
  ++ B "class=" ++ [34] ++ B "xmq " ++ (if dark then B "xmq_dark" else B "xmq_light")
  ++ (match clazz with Some c => [32] ++ c | None => [] end) ++ [34; 62].
Definition pre_tag (dark : bool) (id clazz : option bytes) : bytes := firstn 1022 (pre_text dark id clazz).

(** xmq.c:491-498, in setup_tex_coloring: the definitions of the colours, each on a
    line, of the light theme whatever the theme is.  The texts are appended to a
    buffer of 4096 bytes. *)
Fixpoint tex_lines (ds : list color_def) (names : list bytes) : bytes :=
  match ds, names with
  | d :: ds, n :: names =>
    (match generate_tex_color 128 d n with Some t => t | None => [] end) ++ [10] ++ tex_lines ds names
  | _, _ => []
  end.
Definition tex_style (dark_mode : bool) (darkbg lightbg : list color_def) : out bytes :=
  into_buffer 4096 (tex_lines lightbg color_names).
