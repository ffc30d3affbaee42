(** When a double is not a number: the words used for [to_decimal]. *)
From Coq Require Import ZArith List Bool Reals.
From Flocq Require Import Core BinarySingleNaN.
From Verif Require Import FloatModel StrModel StrSpec.
Open Scope Z_scope.

(** A number with its sign bit clear: +0, a positive double or +inf. *)
Definition unsigned (x : double) : Prop := is_nan x = false /\ Bsign x = false.
Definition plus_zero : double := B754_zero false.
Definition plus_inf : double := B754_infinity false.

(** [std::pow(10, x)] for finite x is never NaN and never negative, and it is not 0 unless x is negative. *)
Definition pow_sane (pow : double -> double -> double) : Prop :=
  forall x, is_finite x = true -> unsigned (pow (double_of_Z 10) x) /\ ((0 <= B2R x)%R -> pow (double_of_Z 10) x <> plus_zero).
