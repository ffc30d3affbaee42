(** Arithmetic of Python's complex numbers (CPython 3.11, Objects/complexobject.c), on pairs of doubles. *)
From Coq Require Import ZArith Bool.
From Flocq Require Import Core BinarySingleNaN.
From Verif Require Import Outcome FloatModel ComplexModel.
Open Scope Z_scope.

(** [_Py_c_sum], [_Py_c_diff], [_Py_c_neg], [_Py_c_prod] and the method [conjugate]. *)
Definition py_sum (a b : Complex) : Complex := Cx (dadd (re a) (re b)) (dadd (im a) (im b)).
Definition py_diff (a b : Complex) : Complex := Cx (dsub (re a) (re b)) (dsub (im a) (im b)).
Definition py_neg (a : Complex) : Complex := Cx (dopp (re a)) (dopp (im a)).
Definition py_conjugate (a : Complex) : Complex := Cx (re a) (dopp (im a)).
Definition py_prod (a b : Complex) : Complex :=
  Cx (dsub (dmul (re a) (re b)) (dmul (im a) (im b))) (dadd (dmul (re a) (im b)) (dmul (im a) (re b))).

(** [_Py_c_quot]: Smith's method, which divides by the larger part of the divisor first. The exception stands for
    ZeroDivisionError. *)
Definition py_quot (a b : Complex) : outcome Complex :=
  if dleb (dabs (im b)) (dabs (re b)) then
    if deqb (dabs (re b)) (double_of_Z 0) then Throw DivideByZero
    else
      let ratio := ddiv (im b) (re b) in
      let denom := dadd (re b) (dmul (im b) ratio) in
      Ok (Cx (ddiv (dadd (re a) (dmul (im a) ratio)) denom) (ddiv (dsub (im a) (dmul (re a) ratio)) denom))
  else if dleb (dabs (re b)) (dabs (im b)) then
    let ratio := ddiv (re b) (im b) in
    let denom := dadd (dmul (re b) ratio) (im b) in
    Ok (Cx (ddiv (dadd (dmul (re a) ratio) (im a)) denom) (ddiv (dsub (dmul (im a) ratio) (re a)) denom))
  else Ok (Cx B754_nan B754_nan).

(** [complex_richcompare]: both parts are equal. *)
Definition py_equal (a b : Complex) : bool := deqb (re a) (re b) && deqb (im a) (im b).
