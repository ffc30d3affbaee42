(** Exactly which literals [to_decimal] turns into NaN. *)
From Coq Require Import String Ascii ZArith List Bool Lia Reals Lra.
From Flocq Require Import Core BinarySingleNaN.
From Verif Require Import Outcome IntModel IntSpec ListModel FloatModel StrModel StrSpec StrNanSpec StrFloat StrError StrSum StrNan ExTools.
Import ListNotations.
Open Scope Z_scope.

(** The three ways to NaN: the digits and the power for the point both overflow, 0 times an infinite power, an infinite quotient times 0. *)
Theorem C85_exact : forall pow s neg I F eneg E, pow_sane pow -> len s <= INT_MAX -> dec_literal s neg I F eneg E -> positional 10 E <= INT_MAX ->
  let A := accumulated (I ++ F) in
  let P := pow (double_of_Z 10) (double_of_Z (Z.of_nat (length F))) in
  let Q := pow (double_of_Z 10) (signed eneg (double_of_Z (positional 10 E))) in
  (str_to_decimal pow s = Ok B754_nan <->
   (A = plus_inf /\ P = plus_inf) \/ (ddiv A P = plus_zero /\ Q = plus_inf) \/ (ddiv A P = plus_inf /\ Q = plus_zero)).
Proof. exact nan_cases. Qed.
Print Assumptions C85_exact.

(** With at most 300 digits, only a zero with an exponent that overflows gives NaN. *)
Theorem C85_short_mantissa : forall pow s neg I F eneg E, pow_sane pow -> len s <= INT_MAX -> dec_literal s neg I F eneg E -> positional 10 E <= INT_MAX ->
  forall K, (1 <= K <= 2)%R -> pow_within K pow -> len (I ++ F) <= 300 ->
  (str_to_decimal pow s = Ok B754_nan <->
   positional 10 (I ++ F) = 0 /\ pow (double_of_Z 10) (signed eneg (double_of_Z (positional 10 E))) = plus_inf).
Proof. exact nan_usual. Qed.
Print Assumptions C85_short_mantissa.

(** With at most 300 digits and an exponent of at most 300 there is no NaN. *)
Theorem C85_short : forall pow s neg I F eneg E, pow_sane pow -> len s <= INT_MAX -> dec_literal s neg I F eneg E -> positional 10 E <= INT_MAX ->
  forall K, (1 <= K <= 2)%R -> pow_within K pow -> len (I ++ F) <= 300 -> positional 10 E <= 300 ->
  str_to_decimal pow s <> Ok B754_nan.
Proof. exact nan_never. Qed.
Print Assumptions C85_short.

Example C85_exact_example : pow_sane sample_pow /\ pow_within (1 + 4 * unit_roundoff) sample_pow /\
  dec_literal zero_e400 false [0] [] false [4; 0; 0] /\ len zero_e400 <= INT_MAX /\ positional 10 [4; 0; 0] <= INT_MAX /\
  B2SF (sample_pow (double_of_Z 10) (signed false (double_of_Z (positional 10 [4; 0; 0])))) = SpecFloat.S754_infinity false /\
  positional 10 ([0] ++ []) = 0 /\ match str_to_decimal sample_pow zero_e400 with Ok x => is_nan x = true | _ => False end /\
  match str_to_decimal sample_pow (chars "-0.50e3") with Ok y => B2SF y = SpecFloat.S754_finite true 8796093022208000 (-44) | _ => False end.
Proof.
  split; [apply sample_pow_sane|]. split; [apply sample_pow_within|]. split; [apply zero_e400_literal|].
  split; [vm_compute; discriminate|]. split; [vm_compute; discriminate|]. split; [vm_compute; reflexivity|]. split; [reflexivity|].
  split; vm_compute; reflexivity.
Qed.
