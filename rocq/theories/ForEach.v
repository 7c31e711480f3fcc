(** Model of the command for-each --shell of xmq-cli.c (3243-3405): the command
    and the environment that are handed to the shell for one element.

    C strings are lists of bytes without the zero at their end.  Simplified: the
    name of an element is its whole name (libxml2 keeps the prefix apart). *)
From Coq Require Import NArith ZArith List Bool String.
From Verif Require Import Bytes Outcome Quote Dom.
Import ListNotations.
Local Open Scope N_scope.
Local Open Scope list_scope.
Local Open Scope out_scope.

(** xmq-cli.c:3243-3251 shell_safe *)
Definition shell_safe (c : N) : bool :=
  ((97 <=? c) && (c <=? 122)) || ((65 <=? c) && (c <=? 90)) || ((48 <=? c) && (c <=? 57)) || (c =? cUND).
(** xmq-cli.c:3253-3264 make_shell_safe_name; the same is written into the
    command. *)
Definition make_shell_safe_name (name : bytes) : bytes := map (fun c => if shell_safe c then c else cUND) name.

(** xmq-cli.c:3275 the loop up to the right brace; [None]: there is none. *)
Fixpoint until_brace (l : bytes) : option (bytes * bytes) :=
  match l with
  | [] => None
  | c :: r => if c =? cRB then Some ([], r)
              else match until_brace r with None => None | Some (n, q) => Some (c :: n, q) end
  end.
(** xmq-cli.c:3266-3286 grab_name: the name, and what follows the brace. *)
Definition grab_name (l : bytes) : option (bytes * bytes) :=
  match l with
  | 36 :: 123 :: r => until_brace r
  | _ => None
  end.

(** xmq-cli.c:3288-3314 append_text_node and append_text_children *)
Fixpoint append_text_node (x : node) : bytes :=
  match x with
  | Part (PText t) => t
  | Part (PRef _) => B "TODO"
  | Elem _ _ kids => flat_map append_text_node kids
  | _ => []
  end.
(** xmq-cli.c:3336-3344: the texts of a child *)
Definition text_children (kids : list node) : bytes := flat_map (fun k => match k with Part (PText t) => t | _ => [] end) kids.
(** xmq-cli.c:3316-3350 grab_content; only elements have children that are
    texts. *)
Definition grab_content (name0 : bytes) (kids : list node) (x : node) (name : bytes) : bytes :=
  if beq name (B "..") then name0
  else if beq name (B ".") then append_text_node x
  else flat_map (fun k => match k with
                          | Elem n _ ks => if beq n name then text_children ks else []
                          | _ => []
                          end) kids.
(** The node is NULL, if something outside of all elements was selected
    (2286-2290). *)
Definition content_of (x : option node) (name : bytes) : out bytes :=
  match x with
  | Some (Elem n _ kids as e) => Ok (grab_content n kids e name)
  | _ => UB
  end.

(** xmq-cli.c:3376-3401 invoke_shell, the loop over the command, which is
    changed in front of the loop. *)
Fixpoint shell_loop (fuel : nat) (x : option node) (l : bytes) : out (bytes * list bytes) :=
  match fuel with
  | O => NoFuel
  | S fuel =>
    match l with
    | [] => Ok ([], [])
    | c :: r =>
      if c =? 36 then
        match grab_name l with
        | None => '(s, e) <- shell_loop fuel x r ; Ok (c :: s, e)
        | Some (name, q) =>
          let safe := make_shell_safe_name name in
          v <- content_of x name ;
          '(s, e) <- shell_loop fuel x ([cLB] ++ safe ++ [cRB] ++ q) ;
          Ok (c :: s, (safe ++ [cEQ] ++ v) :: e)
        end
      else '(s, e) <- shell_loop fuel x r ; Ok (c :: s, e)
    end
  end.
(** xmq-cli.c:3356-3405 invoke_shell: the command and the environment. *)
Definition invoke_shell (environ : list bytes) (x : option node) (cmd : bytes) : out (bytes * list bytes) :=
  '(s, e) <- shell_loop (S (List.length cmd)) x cmd ; Ok (s, environ ++ e).
