(** Element types of the library put into containers. *)
From Coq Require Import ZArith QArith List Bool.
From Flocq Require Import BinarySingleNaN.
From Verif Require Import Outcome FloatModel FracModel FracSpec.
Import ListNotations.
Open Scope Z_scope.

(** Fractions in lowest terms with both parts at most 32767. *)
Definition small_fracb (x : Fraction) : bool :=
  (0 <? den x) && (den x <=? 32767) && (Z.abs (num x) <=? 32767) && (Z.gcd (num x) (den x) =? 1).
Definition small_frac : Type := { x : Fraction | small_fracb x = true }.
Definition the_frac (x : small_frac) : Fraction := proj1_sig x.
(** The order of the rationals. *)
Definition qltb (a b : Q) : bool := negb (Qle_bool b a).

(** Doubles other than NaN and negative zero. *)
Definition plainb (x : double) : bool :=
  match x with B754_nan => false | B754_zero s => negb s | _ => true end.
Definition plain : Type := { x : double | plainb x = true }.
Definition the_double (x : plain) : double := proj1_sig x.
