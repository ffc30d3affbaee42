(** Properties C282 and C283: Complex against Python's complex. Theorems only; Python's operations are described in PyComplexSpec.v. *)
From Coq Require Import ZArith Reals Bool Lia Lra.
From Flocq Require Import Core BinarySingleNaN.
From Verif Require Import Outcome FloatModel ComplexModel ComplexSpec ComplexFloat ComplexFacts ComplexCases PyComplexSpec PyComplex.
Open Scope Z_scope.

(** 1j / (1+3j) is 0.3+0.1j here; in Python it is 0.3+0.09999999999999999j. *)
Theorem C282_rounding_refuted : let a := Cx (double_of_Z 0) (double_of_Z 1) in let b := Cx (double_of_Z 1) (double_of_Z 3) in
  exists q r, cx_div a b = Ok q /\ py_quot a b = Ok r /\ deqb (im q) (im r) = false /\ deqb (im q) (ddiv (double_of_Z 1) (double_of_Z 10)) = true.
Proof. exact rounding_differs. Qed.
Print Assumptions C282_rounding_refuted.

(** Division by 2^-60 throws; Python divides. *)
Theorem C282_tiny_refuted : forall a, cx_div a (cx_of tiny) = Throw DivideByZero /\ exists r, py_quot a (cx_of tiny) = Ok r.
Proof. exact tiny_differs. Qed.
Print Assumptions C282_tiny_refuted.

(** 1 / 2^600 is 0 here and positive in Python. *)
Theorem C282_huge_refuted : let b := cx_of (double_of_Z (2 ^ 600)) in
  exists q r, cx_div (cx_of d1) b = Ok q /\ py_quot (cx_of d1) b = Ok r /\ deqb (re q) d0 = true /\ dltb d0 (re r) = true.
Proof. exact huge_differs. Qed.
Print Assumptions C282_huge_refuted.

(** Sums, differences, products, negatives and conjugates are those of Python, with infinities, NaN and signed zeros. *)
Theorem C282_simple : forall a b, cx_add a b = py_sum a b /\ cx_sub a b = py_diff a b /\ cx_mul a b = py_prod a b /\ cx_neg a = py_neg a /\
  cx_conjugate a = py_conjugate a.
Proof. exact simple_python. Qed.
Print Assumptions C282_simple.

(** Python raises ZeroDivisionError exactly for the divisors whose parts are both zero, *)
Theorem C282_zero : forall a b, py_quot a b = Throw DivideByZero <-> has (re b) 0 /\ has (im b) 0.
Proof. exact python_zero. Qed.
Print Assumptions C282_zero.

(** and there an exception is thrown here too. *)
Theorem C282_zero_throws : forall a b, py_quot a b = Throw DivideByZero -> cx_div a b = Throw DivideByZero.
Proof. exact zero_python. Qed.
Print Assumptions C282_zero_throws.

(** A Gaussian integer divided by an integer gives the same value in both: each part is rounded once. *)
Theorem C282_integer_divisor : forall a b m n p, gauss a m n -> gauss b p 0 -> p <> 0 -> small (m * p) -> small (n * p) -> small (p * p) ->
  exists q r, cx_div a b = Ok q /\ py_quot a b = Ok r /\ has (re q) (rnd (IZR m / IZR p)) /\ has (re r) (rnd (IZR m / IZR p)) /\
    has (im q) (rnd (IZR n / IZR p)) /\ has (im r) (rnd (IZR n / IZR p)).
Proof. exact real_divisor. Qed.
Print Assumptions C282_integer_divisor.

(** The same for an integer times j as the divisor. *)
Theorem C282_imaginary_divisor : forall a b m n p, gauss a m n -> gauss b 0 p -> p <> 0 -> small (m * p) -> small (n * p) -> small (p * p) ->
  exists q r, cx_div a b = Ok q /\ py_quot a b = Ok r /\ has (re q) (rnd (IZR n / IZR p)) /\ has (re r) (rnd (IZR n / IZR p)) /\
    has (im q) (rnd (IZR (- m) / IZR p)) /\ has (im r) (rnd (IZR (- m) / IZR p)).
Proof. exact imaginary_divisor. Qed.
Print Assumptions C282_imaginary_divisor.

(** With a NaN in the divisor both results are NaN. *)
Theorem C282_nan_divisor : forall a b, re b = B754_nan \/ im b = B754_nan -> cx_div a b = Ok (Cx B754_nan B754_nan) /\ py_quot a b = Ok (Cx B754_nan B754_nan).
Proof. exact nan_divisor. Qed.
Print Assumptions C282_nan_divisor.

Example C282_case : gauss (Cx (double_of_Z 7) (double_of_Z (-2))) 7 (-2) /\ gauss (Cx (double_of_Z 3) (double_of_Z 0)) 3 0 /\
  gauss (Cx (double_of_Z 0) (double_of_Z 3)) 0 3 /\
  small (7 * 3) /\ small (-2 * 3) /\ small (3 * 3).
Proof. repeat split; try (apply of_small; vm_compute; discriminate); vm_compute; discriminate. Qed.

(** 0 == 2^-53 holds here and not in Python; inf == inf holds in Python and not here. *)
Theorem C283_refuted : cx_eqb (cx_of d0) (cx_of half_eps) = true /\ py_equal (cx_of d0) (cx_of half_eps) = false /\
  cx_eqb (cx_of cinf) (cx_of cinf) = false /\ py_equal (cx_of cinf) (cx_of cinf) = true.
Proof. exact equal_differs. Qed.
Print Assumptions C283_refuted.

(** Finite numbers that are equal in Python are equal here. *)
Theorem C283_finite : forall a b, cfinite a -> cfinite b -> py_equal a b = true -> cx_eqb a b = true.
Proof. exact python_equal. Qed.
Print Assumptions C283_finite.

(** When every part is zero or at least 1 in magnitude the two agree. *)
Theorem C283_coarse : forall a b, coarse (re a) -> coarse (im a) -> coarse (re b) -> coarse (im b) -> cx_eqb a b = py_equal a b.
Proof. exact coarse_equal. Qed.
Print Assumptions C283_coarse.

Example C283_case : cfinite (cx_of half_eps) /\ py_equal (cx_of half_eps) (cx_of half_eps) = true /\ coarse (double_of_Z 5) /\
  py_equal (Cx (double_of_Z 5) d0) (Cx (double_of_Z 5) (dopp d0)) = true.
Proof.
  split; [split; reflexivity|]. split; [vm_compute; reflexivity|]. split; [|vm_compute; reflexivity].
  apply (int_coarse _ 5). apply of_small. vm_compute. discriminate.
Qed.
