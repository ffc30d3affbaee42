(** Properties C183-C186: Ints and texts too long for an int to count. Theorems only; each is an instance of a lemma
    proved elsewhere and is followed by its assumptions and by a concrete case. *)
From Coq Require Import String Ascii ZArith List Bool Lia.
From Verif Require Import Outcome IntModel IntSpec IntProgSpec IntWideModel IntBase IntWide ExTools.
Import ListNotations.
Open Scope Z_scope.

(** With the loop counters as ints, arithmetic on Ints of up to INT_MAX digits is exact; a product needs INT_MAX + 1 digits in both operands together. *)
Theorem C183_arith : forall x y a b m n, repr x a -> repr y b ->
  digit_count a m -> digit_count b n -> m <= INT_MAX -> n <= INT_MAX ->
  returns (int_add_w Benign x y) (a + b) /\ returns (int_sub_w Benign x y) (a - b) /\
  returns (int_inc_w x) (a + 1) /\ returns (int_dec_w x) (a - 1) /\
  (b <> 0 -> returns (int_div_w Benign x y) (Z.quot a b) /\
     exists z, returns (int_mod_w Benign x y) z /\ rem_value a b z) /\
  (b = 0 -> int_div_w Benign x y = Throw DivideByZero /\ int_mod_w Benign x y = Throw DivideByZero) /\
  (m + n <= INT_MAX + 1 -> forall p, returns (int_mul_w p x y) (a * b)).
Proof. exact wide_arith. Qed.
Print Assumptions C183_arith.

(** digits() is the number of digits, as long as an int can hold it; to_integer() does not depend on the type of its counter. *)
Theorem C183_queries : forall x a m, repr x a -> digit_count a m ->
  int_digits_w x = (if m <=? INT_MAX then Ok m else UB BadConversion) /\
  (m <= INT_MAX + 1 -> forall t, int_to_integer_w t x = int_to_integer t x).
Proof. exact wide_queries. Qed.
Print Assumptions C183_queries.

Example C183_case : repr (MkInt 1 [9; 9; 9]) 999 /\ repr (MkInt (-1) [4; 3]) (-34) /\ digit_count 999 3 /\ digit_count (-34) 2 /\
  int_div_w Benign (MkInt 1 [9; 9; 9]) (MkInt (-1) [4; 3]) = Ok (MkInt (-1) [9; 2]) /\
  int_mul_w Strict (MkInt 1 [9; 9; 9]) (MkInt (-1) [4; 3]) = Ok (MkInt (-1) [6; 6; 9; 3; 3]) /\
  int_inc_w (MkInt 1 [9; 9; 9]) = Ok (MkInt 1 [0; 0; 0; 1]).
Proof.
  repeat match goal with |- _ /\ _ => split end; try (apply repr_check; reflexivity); try (right; cbn; lia); vm_compute; reflexivity.
Qed.

(** Two different Ints of 2^31 + 2 digits, neither below the other, yet not equal. *)
Theorem C184_compare_refuted : exists x y a b, repr x a /\ repr y b /\ a < b /\
  int_cmp_w x y = Ok 0 /\ int_eqb x y = false.
Proof. exact compare_wide_refuted. Qed.
Print Assumptions C184_compare_refuted.

(** The comparison is right for different signs, different numbers of digits and up to 2^31 digits; from there to 2^32 digits every two Ints of the same sign and length are equivalent. *)
Theorem C184_compare_exact : forall x y a b m n, repr x a -> repr y b -> digit_count a m -> digit_count b n ->
  (m <> n \/ m <= INT_MAX + 1 \/ Z.sgn a <> Z.sgn b -> int_cmp_w x y = Ok (Z.sgn (a - b))) /\
  (m = n -> INT_MAX + 1 < m <= 2 * (INT_MAX + 1) -> Z.sgn a = Z.sgn b -> int_cmp_w x y = Ok 0).
Proof. exact compare_wide. Qed.
Print Assumptions C184_compare_exact.

Example C184_case : repr (MkInt 1 [0; 2]) 20 /\ repr (MkInt 1 [1; 2]) 21 /\ digit_count 20 2 /\ digit_count 21 2 /\
  int_cmp_w (MkInt 1 [0; 2]) (MkInt 1 [1; 2]) = Ok (-1).
Proof.
  repeat match goal with |- _ /\ _ => split end; try (apply repr_check; reflexivity); try (right; cbn; lia); vm_compute; reflexivity.
Qed.

(** A sum that is right in one order and undefined in the other. *)
Theorem C185_commutative_refuted : exists x y a, repr x a /\ repr y 1 /\ (forall p, returns (int_add_w p x y) (a + 1)) /\
  forall p, exists u, int_add_w p y x = UB u.
Proof. exact add_wide_asym. Qed.
Print Assumptions C185_commutative_refuted.

(** A product is undefined exactly when the operands have more than 2^31 digits together. *)
Theorem C185_mul_exact : forall p x y a b m n, repr x a -> repr y b -> a <> 0 -> b <> 0 ->
  digit_count a m -> digit_count b n ->
  ((exists u, int_mul_w p x y = UB u) <-> INT_MAX + 1 < m + n).
Proof. exact mul_wide_exact. Qed.
Print Assumptions C185_mul_exact.

(** Division and remainder are undefined exactly when an operand has more than INT_MAX digits. *)
Theorem C185_div_exact : forall x y a b m n, repr x a -> repr y b -> b <> 0 ->
  digit_count a m -> digit_count b n ->
  ((exists u, int_div_w Benign x y = UB u) <-> INT_MAX < m \/ INT_MAX < n) /\
  ((exists u, int_mod_w Benign x y = UB u) <-> INT_MAX < m \/ INT_MAX < n).
Proof. exact div_wide_exact. Qed.
Print Assumptions C185_div_exact.

(** When absolute values are added the right operand decides; when they are subtracted, the shorter. *)
Theorem C185_add_sub : forall p x y a b m n, repr x a -> repr y b -> digit_count a m -> digit_count b n ->
  a <> 0 -> b <> 0 ->
  (Z.sgn a = Z.sgn b -> INT_MAX < n -> exists u, int_add_w p x y = UB u) /\
  (Z.sgn a <> Z.sgn b -> INT_MAX < n -> exists u, int_sub_w p x y = UB u) /\
  (Z.sgn a = Z.sgn b -> INT_MAX < m -> INT_MAX < n -> exists u, int_sub_w p x y = UB u) /\
  (Z.sgn a <> Z.sgn b -> INT_MAX < m -> INT_MAX < n -> exists u, int_add_w p x y = UB u).
Proof. exact add_sub_wide_ub. Qed.
Print Assumptions C185_add_sub.

(** An odd Int whose conversion to every unsigned type is 0. *)
Theorem C185_to_integer : exists x a, repr x a /\ Z.odd a = true /\
  forall w, int_to_integer_w (CType w false) x = Ok (0 mod 2 ^ w).
Proof. exact to_integer_wide_refuted. Qed.
Print Assumptions C185_to_integer.

Example C185_case : exists x a m, repr x a /\ digit_count a m /\ a <> 0 /\ INT_MAX < m.
Proof.
  destruct many as [k K]. exists (far 0 k), (value (far 0 k)), (Z.of_nat k + 2).
  split; [apply far_repr; unfold digit; lia|]. split; [apply far_count; unfold digit; lia|].
  split; [|unfold INT_MAX; lia]. pose proof (far_sgn 0 k ltac:(unfold digit; lia)). lia.
Qed.

(** A text of 2^32 + 1 characters, all but the first not digits, is accepted as 7. *)
Theorem C186_text_refuted : exists cs, literal cs = None /\ returns (int_of_chars_w cs) 7.
Proof. exact text_wide_refuted. Qed.
Print Assumptions C186_text_refuted.

(** Only the length modulo 2^32 counts: up to INT_MAX that many characters are read, above it the behaviour is undefined. *)
Theorem C186_text_exact : forall cs,
  let len := Z.of_nat (length cs) in
  (len <= INT_MAX -> int_of_chars_w cs = int_of_chars cs) /\
  (INT_MAX < len mod 4294967296 -> int_of_chars_w cs = UB InvalidRange) /\
  (len mod 4294967296 <= INT_MAX ->
     match literal (firstn (Z.to_nat (len mod 4294967296)) cs) with
     | Some z => returns (int_of_chars_w cs) z
     | None => int_of_chars_w cs = Throw WrongIntegerLiteral
     end).
Proof. exact text_wide. Qed.
Print Assumptions C186_text_exact.

Example C186_case : int_of_chars_w (chars "-120") = Ok (MkInt (-1) [0; 2; 1]) /\
  int_of_chars_w (chars "12x") = Throw WrongIntegerLiteral /\ int_of_chars_w [] = Throw WrongIntegerLiteral.
Proof. vm_compute. repeat split. Qed.
