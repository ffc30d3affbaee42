(** How many allocations the operations of [Int] make: C226. *)
From Coq Require Import ZArith Ascii String List Bool Lia.
From Verif Require Import Outcome IntModel IntSpec IntProgModel IntProgSpec ExTools IntMemModel IntMemSpec IntMemCost.
Import ListNotations.
Open Scope Z_scope.

(** A copy, -x and abs make one allocation, or none for zero; a literal makes one. *)
Theorem C226_copies : forall (ok : nat -> bool), ample ok -> forall x z, repr (forget x) z ->
  makes_new (m_copy ok x) (some z) z /\ makes_new (m_neg ok x) (some z) (- z) /\ makes_new (m_abs ok x) (some z) (Z.abs z).
Proof. exact (fun ok A x z H => conj (copy_makes ok A x z H) (conj (neg_makes ok A x z H) (abs_makes ok A x z H))). Qed.
Print Assumptions C226_copies.

(** An Int made from a text allocates once. *)
Theorem C226_literal : forall (grow : nat -> nat -> nat) (ok : nat -> bool), ample ok -> forall cs z, literal cs = Some z -> makes_new (m_of_chars grow ok cs) 1 z.
Proof. exact of_chars_makes. Qed.
Print Assumptions C226_literal.

(** x = y allocates only if the digits do not fit. *)
Theorem C226_assign : forall (ok : nat -> bool), ample ok -> forall x y b, repr (forget y) b ->
  makes x (m_assign_copy ok y) (beyond (room (mvec x)) (length (items (mvec y)))) b.
Proof. exact assign_makes. Qed.
Print Assumptions C226_assign.

(** x += y: at most two, and none of them for digits that have room, unless the signs differ. *)
Theorem C226_add : forall (grow : nat -> nat -> nat) (ok : nat -> bool), ample ok -> forall x y a b, repr (forget x) a -> fits x -> repr (forget y) b ->
  makes x (m_add_assign grow ok Benign y) (add_allocs x y a b) (a + b).
Proof. exact add_makes. Qed.
Print Assumptions C226_add.

(** x -= y: one for the copy of y, and the room of the sum if the signs differ. *)
Theorem C226_sub : forall (grow : nat -> nat -> nat) (ok : nat -> bool), ample ok -> forall x y a b, repr (forget x) a -> fits x -> repr (forget y) b ->
  makes x (m_sub_assign grow ok Benign y) (sub_allocs x y a b) (a - b).
Proof. exact sub_makes. Qed.
Print Assumptions C226_sub.

(** x *= y: two, and a third if the product has more digits than x has room for. *)
Theorem C226_mul : forall (ok : nat -> bool), ample ok -> forall x y a b, repr (forget x) a -> fits x -> repr (forget y) b ->
  makes x (m_mul_assign ok Benign y) (mul_allocs x y a b) (a * b).
Proof. exact mul_makes. Qed.
Print Assumptions C226_mul.

(** x /= y: three and the sum of the digits of the quotient. *)
Theorem C226_div : forall (grow : nat -> nat -> nat) (ok : nat -> bool), ample ok -> forall x y a b s, repr (forget x) a -> fits x -> repr (forget y) b -> b <> 0 ->
  (length (items (mvec y)) <= length (items (mvec x)))%nat -> digit_sum (Z.abs a / Z.abs b) s ->
  makes x (m_div_assign grow ok Benign y) (3 + s) (Z.quot a b).
Proof. exact div_makes. Qed.
Print Assumptions C226_div.

(** x %= y: two and the sum of the digits of the quotient. *)
Theorem C226_mod : forall (grow : nat -> nat -> nat) (ok : nat -> bool), ample ok -> forall x y a b s, repr (forget x) a -> fits x -> repr (forget y) b -> b <> 0 ->
  (length (items (mvec y)) <= length (items (mvec x)))%nat -> digit_sum (Z.abs a / Z.abs b) s ->
  makes x (m_mod_assign grow ok Benign y) (2 + s) (Z.abs a mod Z.abs b).
Proof. exact mod_makes. Qed.
Print Assumptions C226_mod.

(** Neither allocates if the divisor has more digits. *)
Theorem C226_short : forall (grow : nat -> nat -> nat) (ok : nat -> bool), ample ok -> forall x y a b, repr (forget x) a -> fits x -> repr (forget y) b -> b <> 0 ->
  (length (items (mvec x)) < length (items (mvec y)))%nat ->
  makes x (m_div_assign grow ok Benign y) 0 0 /\ makes x (m_mod_assign grow ok Benign y) 0 a.
Proof. exact (fun grow ok (_ : ample ok) => short_div_makes grow ok). Qed.
Print Assumptions C226_short.

(** ++x and --x: one if there is no room for a further digit; none towards zero. *)
Theorem C226_steps : forall (grow : nat -> nat -> nat) (ok : nat -> bool), ample ok -> forall x a, repr (forget x) a -> fits x ->
  makes x (m_inc grow ok) (if a <? 0 then 0%nat else beyond (room (mvec x)) (length (items (mvec x)) + 1)) (a + 1) /\
  makes x (m_dec grow ok) (if 0 <? a then 0%nat else beyond (room (mvec x)) (length (items (mvec x)) + 1)) (a - 1).
Proof. exact (fun grow ok A x a H F => conj (inc_makes grow ok A x a H F) (dec_makes grow ok A x a H F)). Qed.
Print Assumptions C226_steps.

(** x + y and x - y of non-zero numbers: two or three, and one for a non-zero result; x * y: four or five. *)
Theorem C226_binary : forall (grow : nat -> nat -> nat) (ok : nat -> bool), ample ok -> forall x y a b, repr (forget x) a -> repr (forget y) b -> a <> 0 -> b <> 0 ->
  makes_new (m_add grow ok Benign x y) ((if Z.sgn a =? Z.sgn b then 2 else 3) + some (a + b)) (a + b) /\
  makes_new (m_sub grow ok Benign x y) ((if Z.sgn a =? Z.sgn b then 2 else 3) + some (a - b)) (a - b) /\
  makes_new (m_mul ok Benign x y) (if Z.abs (a * b) <? 10 ^ Z.of_nat (length (items (mvec x))) then 4 else 5) (a * b).
Proof. exact binary_makes. Qed.
Print Assumptions C226_binary.

(** x / y and x % y: four and three, the sum of the digits of the quotient, and one for a non-zero result. *)
Theorem C226_quotient : forall (grow : nat -> nat -> nat) (ok : nat -> bool), ample ok -> forall x y a b s, repr (forget x) a -> repr (forget y) b -> b <> 0 ->
  (length (items (mvec y)) <= length (items (mvec x)))%nat -> digit_sum (Z.abs a / Z.abs b) s ->
  makes_new (m_div grow ok Benign x y) (4 + s + some (Z.quot a b)) (Z.quot a b) /\
  makes_new (m_mod grow ok Benign x y) (3 + s + some (Z.abs a mod Z.abs b)) (Z.abs a mod Z.abs b).
Proof. exact quotient_makes. Qed.
Print Assumptions C226_quotient.

(** With a growth policy that doubles, as that of libstdc++, an Int of d + 1 digits made from an int reallocates for the digits 1, 2, 3, 5 and 9; none for 0. *)
Theorem C226_int : forall (grow : nat -> nat -> nat) (ok : nat -> bool), ample ok -> doubling grow -> forall n d,
  INT_MIN < n <= INT_MAX -> 10 ^ Z.of_nat d <= Z.abs n < 10 ^ (Z.of_nat d + 1) ->
  makes_new (m_of_int grow ok n) (S (Nat.log2_up (S d))) n /\ makes_new (m_of_int grow ok 0) 0 0.
Proof. exact (fun grow ok A D n d B C => conj (of_int_makes grow ok A D n d B C) (of_zero_makes grow ok)). Qed.
Print Assumptions C226_int.

(** 9975 / 5 = 1995: 4 + 24 + 1 allocations. *)
Example C226_case : ample (fun _ => true) /\ repr (MkInt 1 [5; 7; 9; 9]) 9975 /\ repr (MkInt 1 [5]) 5 /\ digit_sum (Z.abs 9975 / Z.abs 5) 24 /\
  literal (chars "-12") = Some (-12) /\
  m_div (fun _ n => n) (fun _ => true) Benign (with_room (MkInt 1 [5; 7; 9; 9]) 4) (with_room (MkInt 1 [5]) 1) 0%nat =
    (MRet (with_room (MkInt 1 [5; 9; 9; 1]) 4), 29%nat) /\
  snd (m_assign_copy (fun _ => true) (with_room (MkInt 1 [5]) 1) (mzero, 0%nat)) = (with_room (MkInt 1 [5]) 1, 1%nat) /\
  doubling (fun s _ => 2 * s)%nat /\ 10 ^ Z.of_nat 4 <= Z.abs 12345 < 10 ^ (Z.of_nat 4 + 1) /\
  snd (m_of_int (fun s _ => 2 * s)%nat (fun _ => true) 12345 0%nat) = 4%nat.
Proof.
  split; [intros j; reflexivity|]. split; [apply repr_check; reflexivity|]. split; [apply repr_check; reflexivity|].
  split; [exists [5; 9; 9; 1]; split; [repeat constructor; unfold digit; lia|split; reflexivity]|]. repeat split.
  all: vm_compute; congruence.
Qed.
