(** Properties C180-C181: how well the hashes separate values. Theorems only; each is an instance of a lemma proved
    elsewhere and is followed by its assumptions and by a concrete case. *)
From Coq Require Import ZArith List Bool Lia Permutation.
From Verif Require Import Outcome IntModel IntSpec IntBase IntMore FracModel FracSpec ComplexModel StrModel IntHashSpec IntHash HashMore ExTools.
Import ListNotations.
Open Scope Z_scope.

(** 12 and 21 have the same hash whatever the hash of an int is, and so have 1 and 122. *)
Theorem C180_separates_refuted : exists a b c d, repr a 12 /\ repr b 21 /\ repr c 1 /\ repr d 122 /\
  forall hs hi, int_hash hs hi a = int_hash hs hi b /\ int_hash hs hi c = int_hash hs hi d.
Proof. exact hash_refuted. Qed.
Print Assumptions C180_separates_refuted.

(** Two Ints collide for every hash of int and signed char exactly if they have the same sign and every digit occurs in both an odd number of times or in both an even number of times. *)
Theorem C180_exactly : forall x y, (forall hs hi, int_hash hs hi x = int_hash hs hi y) <->
  (sign x = sign y /\ forall d, odd_count d (chunks x) = odd_count d (chunks y)).
Proof. exact collide_exact. Qed.
Print Assumptions C180_exactly.

(** In particular the order of the digits does not matter, and two equal digits cancel. *)
Theorem C180_order : forall hs hi, (forall x y, sign x = sign y -> Permutation (chunks x) (chunks y) -> int_hash hs hi x = int_hash hs hi y) /\
  (forall s d c, int_hash hs hi (MkInt s (d :: d :: c)) = int_hash hs hi (MkInt s c)).
Proof. exact hash_order. Qed.
Print Assumptions C180_order.

(** There are at most 2049 hash values. *)
Theorem C180_few : forall hs hi, exists L, Z.of_nat (length L) = 2049 /\ forall x, canonical x -> In (int_hash hs hi x) L.
Proof. exact hash_few. Qed.
Print Assumptions C180_few.

(** With the hash of libstdc++ all Ints that are not negative have a hash below 32. *)
Theorem C180_libstdcxx : forall x, canonical x -> int_hash word word x = Z.lxor (word (sign x)) (2 * fold_right Z.lxor 0 (chunks x)) /\
  (0 <= sign x -> 0 <= int_hash word word x < 32).
Proof. exact hash_word. Qed.
Print Assumptions C180_libstdcxx.

Example C180_case : canonical (MkInt 1 [3; 2; 1]) /\ int_hash word word (MkInt 1 [3; 2; 1]) = 1 /\ int_hash word word (MkInt 1 [9; 8]) = 3 /\
  int_hash word word (MkInt (-1) [7]) = 18446744073709551601 /\ odd_count 2 [1; 2; 2; 1; 2] = true.
Proof. repeat match goal with |- _ /\ _ => split end; try (vm_compute; reflexivity). exact (proj1 (repr_check (MkInt 1 [3; 2; 1]) 123 eq_refl eq_refl)). Qed.

(** Fractions collide for all hashes of int and word operations only if they are the same. *)
Theorem C181_fraction_exactly : forall f g, (forall hi lxor shl1, frac_hash hi lxor shl1 f = frac_hash hi lxor shl1 g) <-> f = g.
Proof. exact frac_hash_exactly. Qed.
Print Assumptions C181_fraction_exactly.

Theorem C181_complex_exactly : forall a b, (forall h lxor shl1, cx_hash h lxor shl1 a = cx_hash h lxor shl1 b) <-> a = b.
Proof. exact cx_hash_exactly. Qed.
Print Assumptions C181_complex_exactly.

Theorem C181_str_exactly : forall s t, (forall h, str_hash h s = str_hash h t) <-> s = t.
Proof. exact str_hash_exactly. Qed.
Print Assumptions C181_str_exactly.

(** With the hash of libstdc++, exactly when two fractions collide. *)
Theorem C181_fraction_libstdcxx : forall f g, valid f -> valid g ->
  (frac_hash word Z.lxor (fun w => word (2 * w)) f = frac_hash word Z.lxor (fun w => word (2 * w)) g <->
   Z.lxor (num f) (num g) = 2 * Z.lxor (den f) (den g)).
Proof. exact frac_hash_word. Qed.
Print Assumptions C181_fraction_libstdcxx.

(** Never when they share the numerator or the denominator; in particular whole numbers do not collide. *)
Theorem C181_fraction_separates : forall f g, valid f -> valid g -> f <> g -> num f = num g \/ den f = den g ->
  frac_hash word Z.lxor (fun w => word (2 * w)) f <> frac_hash word Z.lxor (fun w => word (2 * w)) g.
Proof. exact frac_hash_separates. Qed.
Print Assumptions C181_fraction_separates.

(** 1/3 and 3/2 have the same hash. *)
Theorem C181_fraction_refuted : valid (Frac 1 3) /\ valid (Frac 3 2) /\
  frac_hash word Z.lxor (fun w => word (2 * w)) (Frac 1 3) = frac_hash word Z.lxor (fun w => word (2 * w)) (Frac 3 2).
Proof. exact frac_hash_collision. Qed.
Print Assumptions C181_fraction_refuted.

Example C181_case : valid (Frac (-7) 1) /\ valid (Frac 5 1) /\ Z.lxor (-7) 5 <> 0 /\
  frac_hash word Z.lxor (fun w => word (2 * w)) (Frac (-7) 1) = 18446744073709551611.
Proof. repeat match goal with |- _ /\ _ => split end; vm_compute; repeat split; congruence. Qed.
