(** Model of the highlighting of a source: xmqTokenizeBuffer (xmq.c:911-984)
    with the callbacks of xmqSetupParseCallbacksColorizeTokens (xmq.c:1658), in
    which each token of the source is written with the strings of its color. *)
From Coq Require Import NArith List Bool String.
From Verif Require Import Bytes Parser Render.
Import ListNotations.
Local Open Scope N_scope.

(** xmq.h XMQRenderFormat *)
Inductive target := ToPlain | ToTerminal | ToHtml | ToTex.

(** xmq.c:820-834 write_safe_html *)
Definition safe_html (t : bytes) : bytes :=
  flat_map (fun c => if c =? cAMP then B "&amp;"
                     else if c =? cLT then B "&lt;"
                     else if c =? cGT then B "&gt;"
                     else if c =? cDQ then B "&quot;"
                     else [c]) t.
(** xmq.c:836-848 write_safe_tex *)
Definition safe_tex (t : bytes) : bytes :=
  flat_map (fun c => if c =? cAMP then B "\&"
                     else if c =? cBSL then B "\\"
                     else if c =? cUND then B "\_"
                     else [c]) t.

Section theme.
Variable to : target.
Variable T : theme.

Definition string_of (s : option bytes) : bytes := match s with Some b => b | None => [] end.

(** xmq.c:631-650 tokenize_##TYPE *)
Definition highlight_token (t : token) : bytes :=
  let '(pre, post) := strings T (CTok (t_kind t)) in
  string_of pre ++
  match to with
  | ToTerminal => t_text t
  | ToHtml => safe_html (t_text t)
  | ToTex => safe_tex (t_text t)
  | ToPlain => []
  end ++ string_of post.

(** content.pre and content.post of the theme: NULL for a terminal (the string
    NOCOLOR after a document is document.post) *)
Definition content_pre : bytes := match to with ToHtml | ToTex => head T | _ => [] end.
Definition content_post : bytes := match to with ToHtml | ToTex => tail T | _ => [] end.

(** xmq.c:911-984 xmqTokenizeBuffer: what is written, and the outcome.  After an
    error, content.post is not written.  The detection of the content type is
    in Detect.v. *)
Definition highlight (fuel : nat) (src aft : bytes) : bytes * pout :=
  let r := tokenize fuel src aft in
  (match r with
   | POk s => content_pre ++ flat_map highlight_token (tokens s) ++ content_post
   | PErr _ s => content_pre ++ flat_map highlight_token (tokens s)
   | _ => []
   end, r).
End theme.
