(** Where the draws of [Int::random] come from. *)
From Coq Require Import ZArith List.
From Verif Require Import Outcome IntModel.
Import ListNotations.
Open Scope Z_scope.

(** int.hpp:822-823: [gen] is seeded with one number [rd()] of type [unsigned int]; all draws are functions of it. What the
    distributions make of the generator is not modelled: [gen seed] are the draws of [digits_limit], [digit] and [most_digit]. *)
Definition int_random_seeded (gen : Z -> Z * (nat -> Z) * Z) (seed : Z) (digits : Z) : outcome Int :=
  let '(limit, digit, most) := gen seed in int_random limit digit most digits.
