(** How often a loop of the code goes round. A loop with fuel [n] may test its condition [n]
    times; it runs out when it would need one more. *)
From Coq Require Import ZArith List.
From Verif Require Import Outcome IntModel IntSpec.
Open Scope Z_scope.

(** The loop needs [n] tests of its condition and ends with [good]. *)
Definition takes {A} (n : Z) (f : nat -> outcome A) (good : outcome A -> Prop) : Prop :=
  (forall fuel, Z.of_nat fuel < n -> f fuel = OutOfFuel) /\
  (forall fuel, n <= Z.of_nat fuel -> good (f fuel)).

(** At most [n] tests. *)
Definition takes_at_most {A} (n : Z) (f : nat -> outcome A) (good : outcome A -> Prop) : Prop :=
  forall fuel, n <= Z.of_nat fuel -> good (f fuel).

(** The number of decimal digits of [z]; one digit for 0. *)
Definition decimal_digits (z d : Z) : Prop := 1 <= d /\ Z.abs z < 10 ^ d /\ (1 < d -> 10 ^ (d - 1) <= Z.abs z).

(** [d] is the least divisor of [z] above 1. *)
Definition least_factor (z d : Z) : Prop := 2 <= d /\ (d | z) /\ forall e, 2 <= e < d -> ~ (e | z).
