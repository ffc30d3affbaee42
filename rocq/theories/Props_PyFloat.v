(** Properties C280 and C281: Str::to_decimal against Python's float(). Theorems only; Python's texts are described in PyFloatSpec.v. *)
From Coq Require Import String Ascii ZArith List Bool Lia.
From Flocq Require Import BinarySingleNaN.
From Verif Require Import Outcome IntModel ListModel FloatModel StrModel StrSpec PySpec PyTextSpec PyFloatSpec PyFloat ExTools.
Import ListNotations.
Open Scope Z_scope.

(** What is accepted Python accepts: the words for infinities and NaN, and numbers, which are computed from the parts that Python reads. *)
Theorem C280_python : forall pow s x, len s < INT_MAX -> str_to_decimal pow s = Ok x ->
  (exists neg, x = B754_infinity neg /\ py_inf s neg) \/ (x = B754_nan /\ py_nan s) \/
  (exists neg I F eneg E, py_number s neg I F eneg E /\ x = computed pow neg I F eneg E).
Proof. exact decimal_accepted. Qed.
Print Assumptions C280_python.

Example C280_case : forall pow, (exists x, str_to_decimal pow (chars " +1.50e-3 ") = Ok x) /\ str_to_decimal pow (chars "-Inf") = Ok (B754_infinity true) /\
  str_to_decimal pow (chars "+nan") = Ok B754_nan.
Proof. intros pow. split; [eexists; reflexivity|]. split; reflexivity. Qed.

(** float("1_0") is 10.0. *)
Theorem C281_underscore_refuted : (exists neg I F eneg E, py_number ["1"; "_"; "0"]%char neg I F eneg E) /\ forall pow, str_to_decimal pow ["1"; "_"; "0"]%char = Throw BadDecimalLiteral.
Proof. exact underscore_refuted. Qed.
Print Assumptions C281_underscore_refuted.

(** float("iNf") and float(" inf") are infinities. *)
Theorem C281_word_refuted : py_inf ["i"; "N"; "f"]%char false /\ py_inf [" "; "i"; "n"; "f"]%char false /\
  forall pow, str_to_decimal pow ["i"; "N"; "f"]%char = Throw BadDecimalLiteral /\ str_to_decimal pow [" "; "i"; "n"; "f"]%char = Throw BadDecimalLiteral.
Proof. exact inf_refuted. Qed.
Print Assumptions C281_word_refuted.

(** float("\v1") is 1.0. *)
Theorem C281_blank_refuted : (exists neg I F eneg E, py_number [ascii_of_nat 11; "1"%char] neg I F eneg E) /\
  forall pow, str_to_decimal pow [ascii_of_nat 11; "1"%char] = Throw BadDecimalLiteral.
Proof. exact tab_refuted. Qed.
Print Assumptions C281_blank_refuted.

(** float("0e2147483648") is 0.0. *)
Theorem C281_exponent_refuted : (exists neg I F eneg E, py_number ["0"; "e"; "2"; "1"; "4"; "7"; "4"; "8"; "3"; "6"; "4"; "8"]%char neg I F eneg E) /\
  forall pow, str_to_decimal pow ["0"; "e"; "2"; "1"; "4"; "7"; "4"; "8"; "3"; "6"; "4"; "8"]%char = UB SignedOverflow.
Proof. exact exponent_refuted. Qed.
Print Assumptions C281_exponent_refuted.

(** Of the numbers that Python takes those are accepted whose text has no other characters than these and whose exponent is an int. *)
Theorem C281_numbers_exact : forall pow s neg I F eneg E, len s < INT_MAX -> py_number s neg I F eneg E ->
  ((exists x, str_to_decimal pow s = Ok x) <->
   Forall (fun c => blank c \/ c = "+"%char \/ c = "-"%char \/ c = "."%char \/ c = "e"%char \/ c = "E"%char \/ exists d, digit_val 10 c d) s /\
   positional 10 E <= INT_MAX).
Proof. exact numbers_exact. Qed.
Print Assumptions C281_numbers_exact.

(** Of the words those in one of three spellings, without whitespace. *)
Theorem C281_words_exact : forall pow s, len s < INT_MAX -> (exists neg, py_inf s neg) \/ py_nan s ->
  ((exists x, str_to_decimal pow s = Ok x) <->
   exists sg, (sg = [] \/ sg = ["+"%char] \/ sg = ["-"%char]) /\ (spelled inf_words sg s \/ spelled nan_words sg s)).
Proof. exact words_exact. Qed.
Print Assumptions C281_words_exact.

Example C281_exact_case : py_number (chars "12.5e-3") false [1; 2] [5] true [3] /\ py_nan (chars " NaN") /\
  (forall pow, str_to_decimal pow (chars " NaN") = Throw BadDecimalLiteral).
Proof.
  assert (D: forall c d, 0 <= d < 10 -> byte c = 48 + d -> digit_val 10 c d) by (intros c d A B; split; [lia|left; split; [lia|exact B]]).
  split; [|split; [|reflexivity]].
  - exists [], [], (chars "12.5"), (chars "e-3"), []. split; [reflexivity|]. split; [constructor|]. split; [constructor|]. split; [left; reflexivity|]. split.
    + right. right. left. exists (chars "12"), (chars "5"). split; [reflexivity|].
      split; [apply digits_more; [|apply digits_one]|apply digits_one]; apply D; try lia; reflexivity.
    + right. exists "e"%char, ["-"%char], ["3"%char]. split; [reflexivity|]. split; [left; reflexivity|]. split; [reflexivity|]. apply digits_one. apply D; [lia|reflexivity].
  - exists false. exists [" "%char], [], (chars "NaN"), []. split; [reflexivity|]. split; [repeat constructor|]. split; [constructor|]. split; [left; reflexivity|reflexivity].
Qed.
