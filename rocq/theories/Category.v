(** Model of the unicode category lookup of text.c. *)
From Coq Require Import ZArith List Bool.
From Verif Require Import UnicodeTables.
Import ListNotations.

(** text.c:857-893 category_has_code, the loop.  [start] and [stop] are the
    indexes of the first and last item.  [None]: read outside of the table
    (or not enough fuel). *)
Fixpoint category_loop (fuel : nat) (cat : list Z) (start stop : nat) (code : Z) : option bool :=
  match fuel with
  | O => None
  | S f =>
    match nth_error cat start, nth_error cat stop with
    | Some a, Some b =>
      if Nat.eqb start stop then Some (Z.eqb a code)
      else if Nat.eqb (start + 1) stop then Some (Z.eqb a code || Z.eqb b code)
      else
        let i := start + Nat.div2 (stop - start) in
        match nth_error cat i with
        | Some x =>
          if Z.eqb x code then Some true
          else if Z.ltb x code then category_loop f cat (i + 1) stop code
          else category_loop f cat start (i - 1) code
        | None => None
        end
    | _, _ => None
    end
  end.

(** text.c:857-893 category_has_code *)
Definition category_has_code (code : Z) (cat : list Z) : option bool :=
  match cat with
  | [] => Some false
  | [a] => Some (Z.eqb a code)
  | _ => category_loop (List.length cat) cat 0 (List.length cat - 1) code
  end.
