(** Models of the container modules: stack.c, vector.c, membuffer.c,
    hashmap.c and quicksort_strings.c. *)
From Coq Require Import NArith ZArith List Bool PeanoNat.
From Verif Require Import Bytes.
Import ListNotations.

(** Outcome of an operation that may fail an assert or touch memory it must
    not touch. *)
Inductive res (A : Type) : Type :=
| Done (a : A)     (* normal return *)
| Abort            (* a failing assert *)
| Bad.             (* access outside allocated memory *)
Arguments Done {A} a.
Arguments Abort {A}.
Arguments Bad {A}.

Definition bind {A B} (r : res A) (f : A -> res B) : res B :=
  match r with Done a => f a | Abort => Abort | Bad => Bad end.

(* ------------------------------------------------------------------ *)
(** * stack.c *)

(** stack.h:28-33 StackElement, with the heap of malloced elements explicit.
    Pointers are nat addresses; [None] is NULL; a freed address maps to
    [None] in the heap, so using it is [Bad]. *)
Record cell := mkcell { c_data : N; c_below : option nat }.
Record stack := mkstack {
  s_heap : nat -> option cell;
  s_next : nat;                 (* next fresh address for malloc *)
  s_top : option nat;
  s_bottom : option nat;
  s_size : nat }.

Definition upd {A} (h : nat -> option A) (p : nat) (v : option A) : nat -> option A :=
  fun q => if Nat.eqb q p then v else h q.

(** stack.c:34-39 stack_create *)
Definition stack_create : stack := mkstack (fun _ => None) 0 None None 0.

(** stack.c:56-72 stack_push *)
Definition stack_push (s : stack) (data : N) : stack :=
  let p := s_next s in
  match s_top s with
  | None =>
    mkstack (upd (s_heap s) p (Some (mkcell data None))) (S p) (Some p) (Some p) (S (s_size s))
  | Some t =>
    mkstack (upd (s_heap s) p (Some (mkcell data (Some t)))) (S p) (Some p) (s_bottom s) (S (s_size s))
  end.

(** stack.c:74-85 stack_pop.  The bottom pointer is not reset when the last
    element is popped. *)
Definition stack_pop (s : stack) : res (N * stack) :=
  match s_top s with
  | None => Abort
  | Some t =>
    match s_heap s t with
    | None => Bad
    | Some c =>
      Done (c_data c,
            mkstack (upd (s_heap s) t None) (s_next s) (c_below c) (s_bottom s) (pred (s_size s)))
    end
  end.

(** stack.c:87-99 find_element_above.  The loop follows the below pointers;
    the fuel is the number of elements plus one (a chain longer than that
    would be a cycle, reported as Bad). *)
Fixpoint find_element_above (fuel : nat) (h : nat -> option cell) (e : option nat) (b : nat)
  : res (option nat) :=
  match e with
  | None => Done None
  | Some p =>
    match fuel with
    | O => Bad
    | S f =>
      match h p with
      | None => Bad
      | Some c =>
        match c_below c with
        | Some q => if Nat.eqb q b then Done (Some p) else find_element_above f h (Some q) b
        | None => Done None
        end
      end
    end
  end.

(** stack.c:101-120 stack_rock *)
Definition stack_rock (s : stack) : res (N * stack) :=
  match s_bottom s with
  | None => Abort
  | Some b =>
    match s_size s with
    | O => Abort
    | S O => stack_pop s
    | S (S _) =>
      match s_heap s b with
      | None => Bad
      | Some cb =>
        bind (find_element_above (S (s_size s)) (s_heap s) (s_top s) b) (fun above =>
        match above with
        | None => Abort
        | Some a =>
          match s_heap s a with
          | None => Bad
          | Some ca =>
            let h := upd (upd (s_heap s) a (Some (mkcell (c_data ca) None))) b None in
            Done (c_data cb, mkstack h (s_next s) (s_top s) (Some a) (pred (s_size s)))
          end
        end)
      end
    end
  end.

(* ------------------------------------------------------------------ *)
(** * vector.c *)

(** vector.h:29-34 Vector.  [v_elems] is the allocated array
    (length = elements_size); [None] is the NULL pointer or uninitialised
    storage after realloc. *)
Record vector := mkvector { v_elems : list (option N); v_size : nat }.

Fixpoint set_nth {A} (n : nat) (x : A) (l : list A) : option (list A) :=
  match n, l with
  | O, _ :: r => Some (x :: r)
  | S m, y :: r => match set_nth m x r with Some r' => Some (y :: r') | None => None end
  | _, [] => None
  end.

(** vector.c:33-40 vector_create *)
Definition vector_create : vector := mkvector (repeat None 16) 0.

(** vector.c:67-86 vector_push_back *)
Definition vector_push_back (v : vector) (d : N) : res vector :=
  let size := S (v_size v) in
  let cap := List.length (v_elems v) in
  let elems :=
    if Nat.ltb cap size then
      let cap' := if Nat.leb 1024 cap then cap + 1024 else cap * 2 in
      v_elems v ++ repeat None (cap' - cap)
    else v_elems v in
  match set_nth (size - 1) (Some d) elems with
  | Some e => Done (mkvector e size)
  | None => Bad
  end.

(** vector.c:88-96 vector_pop_back *)
Definition vector_pop_back (v : vector) : res (option N * vector) :=
  match v_size v with
  | O => Abort
  | S n =>
    match nth_error (v_elems v) n, set_nth n None (v_elems v) with
    | Some x, Some e => Done (x, mkvector e n)
    | _, _ => Bad
    end
  end.

(** vector.c:98-103 vector_element_at *)
Definition vector_element_at (v : vector) (i : nat) : res (option N) :=
  if Nat.ltb i (v_size v) then
    match nth_error (v_elems v) i with Some x => Done x | None => Bad end
  else Abort.

(* ------------------------------------------------------------------ *)
(** * membuffer.c *)

(** membuffer.h:33-38 MemBuffer.  [mb_buf] is the allocated storage
    (length = max_); storage fresh from realloc has arbitrary contents,
    written [None]. *)
Record membuffer := mkmb { mb_buf : list (option N); mb_used : nat }.

(** membuffer.c:35-41 new_membuffer *)
Definition new_membuffer : membuffer := mkmb [] 0.

(** membuffer.c:66-82 pick_buffer_new_size *)
Definition pick_buffer_new_size (max used add : nat) : res nat :=
  if Nat.ltb max used then Abort
  else
    let max1 := if Nat.ltb max (used + add) then max + 1024 else max in
    let max2 := if Nat.ltb max1 (used + add) then max1 + add else max1 in
    if Nat.leb (used + add) max2 then Done max2 else Abort.

(** realloc to a larger size keeps the old bytes. *)
Definition grow (buf : list (option N)) (max : nat) : list (option N) :=
  buf ++ repeat None (max - List.length buf).

(** memcpy of [src] to offset [at]; [None] when it does not fit. *)
Fixpoint write_at (n : nat) (src : bytes) (buf : list (option N)) : option (list (option N)) :=
  match n, buf with
  | S m, y :: r => match write_at m src r with Some r' => Some (y :: r') | None => None end
  | S _, [] => None
  | O, _ =>
    (fix go (src : bytes) (buf : list (option N)) : option (list (option N)) :=
       match src, buf with
       | [], _ => Some buf
       | c :: s, _ :: r => match go s r with Some r' => Some (Some c :: r') | None => None end
       | _ :: _, [] => None
       end) src buf
  end.

(** membuffer.c:84-97 membuffer_append_region (also 124-134
    membuffer_append_char, 136-147 membuffer_append_int, 149-152
    membuffer_append_null and 176-187 membuffer_append_pointer, which do the
    same with a source of 1, 4, 1 and 8 bytes). *)
Definition membuffer_append_region (mb : membuffer) (src : bytes) : res membuffer :=
  bind (pick_buffer_new_size (List.length (mb_buf mb)) (mb_used mb) (List.length src)) (fun max =>
  let buf := if Nat.ltb (List.length (mb_buf mb)) max then grow (mb_buf mb) max else mb_buf mb in
  match write_at (mb_used mb) src buf with
  | Some b => Done (mkmb b (mb_used mb + List.length src))
  | None => Bad
  end).
Definition membuffer_append_char (mb : membuffer) (c : N) : res membuffer :=
  membuffer_append_region mb [c].
Definition membuffer_append_null (mb : membuffer) : res membuffer :=
  membuffer_append_char mb 0%N.

(** membuffer.c:99-122 membuffer_append: byte by byte, growing when full.
    The string is the bytes before its NUL. *)
Fixpoint membuffer_append_loop (s : bytes) (buf : list (option N)) (to : nat)
  : res (list (option N) * nat) :=
  match s with
  | [] => Done (buf, to)
  | c :: r =>
    bind (if Nat.leb (List.length buf) to
          then bind (pick_buffer_new_size (List.length buf) to 1) (fun max => Done (grow buf max))
          else Done buf) (fun buf1 =>
    match write_at to [c] buf1 with
    | Some b => membuffer_append_loop r b (S to)
    | None => Bad
    end)
  end.
Definition membuffer_append (mb : membuffer) (s : bytes) : res membuffer :=
  bind (membuffer_append_loop s (mb_buf mb) (mb_used mb)) (fun p => Done (mkmb (fst p) (snd p))).

(** membuffer.c:154-162 membuffer_drop_last_null *)
Definition membuffer_drop_last_null (mb : membuffer) : res membuffer :=
  match mb_used mb with
  | O => Done mb
  | S n =>
    match nth_error (mb_buf mb) n with
    | Some (Some 0%N) => Done (mkmb (mb_buf mb) n)
    | Some (Some _) => Done mb
    | _ => Bad
    end
  end.

(** membuffer.c:189-198 membuffer_used, membuffer_back *)
Definition membuffer_used (mb : membuffer) : nat := mb_used mb.
Definition membuffer_back (mb : membuffer) : res N :=
  match mb_used mb with
  | O => Done 0%N
  | S n => match nth_error (mb_buf mb) n with Some (Some c) => Done c | _ => Bad end
  end.

(** membuffer.c:44-50 free_membuffer_but_return_trimmed_content: the first
    used_ bytes. *)
Definition membuffer_content (mb : membuffer) : list (option N) := firstn (mb_used mb) (mb_buf mb).

(** membuffer.c:59-64 membuffer_reuse *)
Definition membuffer_reuse (start : bytes) : membuffer := mkmb (map Some start) (List.length start).

(* ------------------------------------------------------------------ *)
(** * hashmap.c *)

Local Open Scope N_scope.

(** Conversion of a C char (signed) to size_t: sign extension to 64 bits. *)
Definition char_to_size_t (c : N) : N := if c <? 128 then c else c + (2^64 - 256).

(** hashmap.c:58-73 hash_code, arithmetic modulo 2^64. *)
Fixpoint hash_loop (s : bytes) (hash : N) : N :=
  match s with
  | [] => hash
  | c :: r =>
    hash_loop r ((char_to_size_t c + hash * 2^6 + hash * 2^16 + (2^64 - hash)) mod 2^64)
  end.
Definition hash_code (s : bytes) : N := hash_loop s 0.
Close Scope N_scope.

(** hashmap.c:32-45: each slot of nodes_ is a linked chain of (key,val). *)
Record hashmap := mkhm { hm_slots : list (list (bytes * N)); hm_size : nat }.

(** hashmap.c:83-93 hashmap_create *)
Definition hashmap_create (max_size : nat) : hashmap := mkhm (repeat [] max_size) 0.

(** hash_code(key) % max_size_ ; a zero max_size_ is a division by zero. *)
Definition hm_index (m : hashmap) (key : bytes) : res nat :=
  match List.length (hm_slots m) with
  | O => Bad
  | n => Done (N.to_nat (N.modulo (hash_code key) (N.of_nat n)))
  end.

(** hashmap.c:137-154: search the chain, replace the value or append. The
    boolean says whether a node was added. *)
Fixpoint chain_put (ch : list (bytes * N)) (key : bytes) (val : N) : list (bytes * N) * bool :=
  match ch with
  | [] => ([(key, val)], true)
  | (k, v) :: r =>
    if beq k key then ((k, val) :: r, false)
    else let (r', added) := chain_put r key val in ((k, v) :: r', added)
  end.

(** hashmap.c:119-155 hashmap_put (val 0 is the NULL pointer) *)
Definition hashmap_put (m : hashmap) (key : bytes) (val : N) : res hashmap :=
  if N.eqb val 0 then Abort
  else
    bind (hm_index m key) (fun i =>
    match nth_error (hm_slots m) i with
    | None => Bad
    | Some ch =>
      let (ch', added) := chain_put ch key val in
      match set_nth i ch' (hm_slots m) with
      | None => Bad
      | Some sl => Done (mkhm sl (if added then S (hm_size m) else hm_size m))
      end
    end).

Fixpoint chain_get (ch : list (bytes * N)) (key : bytes) : N :=
  match ch with
  | [] => 0%N
  | (k, v) :: r => if beq k key then v else chain_get r key
  end.

(** hashmap.c:157-172 hashmap_get; 0 is NULL *)
Definition hashmap_get (m : hashmap) (key : bytes) : res N :=
  bind (hm_index m key) (fun i =>
  match nth_error (hm_slots m) i with
  | None => Bad
  | Some ch => Done (chain_get ch key)
  end).

(** hashmap.c:174-177 hashmap_size *)
Definition hashmap_size (m : hashmap) : nat := hm_size m.

(** hashmap.c:46-51, 198-206: iterator state: the offset (the C int starts
    at -1, here the number of slots already entered) and the rest of the
    current chain, the current node first. *)
Record hm_iter := mkit { it_entered : nat; it_node : list (bytes * N) }.
Definition hashmap_iterate : hm_iter := mkit 0 [].

(** hashmap.c:222-226: advance offset_ to the next non-empty slot. *)
Fixpoint next_slot (slots : list (list (bytes * N))) (off : nat)
  : option (nat * list (bytes * N)) :=
  match slots with
  | [] => None
  | [] :: r => next_slot r (S off)
  | (n :: ch) :: r => Some (S off, n :: ch)
  end.

(** hashmap.c:208-233 hashmap_next_key_value *)
Definition hashmap_next_key_value (m : hashmap) (i : hm_iter)
  : option (bytes * N * hm_iter) :=
  match tl (it_node i) with
  | (k, v) :: r => Some (k, v, mkit (it_entered i) ((k, v) :: r))
  | [] =>
    match next_slot (skipn (it_entered i) (hm_slots m)) (it_entered i) with
    | None => None
    | Some (off, (k, v) :: r) => Some (k, v, mkit off ((k, v) :: r))
    | Some (off, []) => None
    end
  end.

(** The caller's loop: while (hashmap_next_key_value(...)) visit(key, val). *)
Fixpoint iterate_all (fuel : nat) (m : hashmap) (i : hm_iter) : option (list (bytes * N)) :=
  match fuel with
  | O => None
  | S f =>
    match hashmap_next_key_value m i with
    | None => Some []
    | Some (k, v, i') =>
      match iterate_all f m i' with
      | Some l => Some ((k, v) :: l)
      | None => None
      end
    end
  end.

(* ------------------------------------------------------------------ *)
(** * quicksort_strings.c *)

(** strcmp(a,b) < 0 on NUL-free strings, comparing unsigned bytes. *)
Fixpoint strlt (a b : bytes) : bool :=
  match a, b with
  | _, [] => false
  | [], _ :: _ => true
  | x :: a', y :: b' =>
    if N.ltb x y then true else if N.ltb y x then false else strlt a' b'
  end.

(** quicksort_strings.c:34-39 swap of two array entries *)
Definition swap (arr : list bytes) (i j : nat) : option (list bytes) :=
  match nth_error arr i, nth_error arr j with
  | Some a, Some b =>
    match set_nth i b arr with
    | Some arr1 => set_nth j a arr1
    | None => None
    end
  | _, _ => None
  end.

(** quicksort_strings.c:46-52: the partition loop from index i, [todo]
    iterations left; returns the array and piv. *)
Fixpoint partition_loop (todo i piv length : nat) (arr : list bytes) : option (list bytes * nat) :=
  match todo with
  | O => Some (arr, piv)
  | S t =>
    match nth_error arr i, nth_error arr (length - 1) with
    | Some a, Some p =>
      if strlt a p then
        match swap arr i piv with
        | Some arr' => partition_loop t (S i) (S piv) length arr'
        | None => None
        end
      else partition_loop t (S i) piv length arr
    | _, _ => None
    end
  end.

(** quicksort_strings.c:41-58 quicksort_strings on the array [arr] (all of
    it); the recursive calls work on the sub-arrays before and after the
    pivot.  [None] is an out of bounds access (or too little fuel). *)
Fixpoint quicksort_strings (fuel : nat) (arr : list bytes) : option (list bytes) :=
  match fuel with
  | O => None
  | S f =>
    let length := List.length arr in
    if Nat.leb length 1 then Some arr
    else
      match partition_loop length 0 0 length arr with
      | None => None
      | Some (arr1, piv) =>
        match swap arr1 piv (length - 1) with
        | None => None
        | Some arr2 =>
          match quicksort_strings f (firstn piv arr2),
                nth_error arr2 piv,
                quicksort_strings f (skipn (S piv) arr2) with
          | Some l, Some p, Some r => Some (l ++ p :: r)
          | _, _, _ => None
          end
        end
      end
  end.
