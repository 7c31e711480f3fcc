(** Specification of the integers that the getters understand, independent of
    the code. *)
From Coq Require Import NArith ZArith List Bool String.
From Verif Require Import Bytes Dom.
Import ListNotations.
Local Open Scope N_scope.
Local Open Scope list_scope.

(** The character c is the digit d of the base: 0 to 9, then the letters in
    either case. *)
Definition digit (base c d : N) : Prop :=
  d < base /\ (d < 10 /\ c = 48 + d \/ 10 <= d < 36 /\ (c = 97 + (d - 10) \/ c = 65 + (d - 10))).
(** Digits and the number they stand for *)
Inductive numeral (base : N) : bytes -> N -> Prop :=
| nu_one c d : digit base c d -> numeral base [c] d
| nu_more s v c d : numeral base s v -> digit base c d -> numeral base (s ++ [c]) (v * base + d).

(** An integer: decimal with or without a sign, and without needless zeros;
    octal after a zero; hexadecimal after 0x. *)
Definition no_needless_zero (s : bytes) : Prop := s = [48] \/ forall r, s <> 48 :: r.
Inductive integer : bytes -> Z -> Prop :=
| in_dec s v : numeral 10 s v -> no_needless_zero s -> integer s (Z.of_N v)
| in_plus s v : numeral 10 s v -> no_needless_zero s -> integer (43 :: s) (Z.of_N v)
| in_minus s v : numeral 10 s v -> no_needless_zero s -> integer (45 :: s) (- Z.of_N v)
| in_oct s v : numeral 8 s v -> integer (48 :: s) (Z.of_N v)
| in_hex s v : numeral 16 s v -> integer (48 :: 120 :: s) (Z.of_N v).

Definition int32 (v : Z) : Prop := (- 2 ^ 31 <= v < 2 ^ 31)%Z.
Definition int64 (v : Z) : Prop := (- 2 ^ 63 <= v < 2 ^ 63)%Z.

(** What follows the integer is not a digit or letter. *)
Definition no_alnum (r : bytes) : Prop :=
  forall c r', r = c :: r' -> ~ (48 <= c <= 57 \/ 65 <= c <= 90 \/ 97 <= c <= 122).

