(** Vocabulary for the hash of Int. *)
From Coq Require Import ZArith List.
Open Scope Z_scope.

(** libstdc++: the hash of an integer is the integer, as a 64-bit word. *)
Definition word (z : Z) : Z := z mod 2 ^ 64.

(** The digit [d] occurs an odd number of times. *)
Definition odd_count (d : Z) (c : list Z) : bool := Nat.odd (count_occ Z.eq_dec c d).
