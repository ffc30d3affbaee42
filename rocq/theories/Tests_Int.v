(** The cases of tests/test_int.cpp, evaluated in the model. A check that the model computes what
    the authors expect of the code; no property rests on this file. Lines are those of test_int.cpp. *)
From Coq Require Import String Ascii ZArith List Bool.
From Verif Require Import Outcome IntModel StreamModel ExTools TestTools.
Import ListNotations.
Open Scope Z_scope.

(** Int from a C string, for literals *)
Definition lit (s : string) : Int := match int_of_chars (chars s) with Ok x => x | _ => MkInt 7 [] end.
(** [REQUIRE(e == "...")] *)
Definition eqs (o : outcome Int) (s : string) : bool := match o with Ok x => int_eqb x (lit s) | _ => false end.
Definition zero : Int := lit "0".
Definition positive : Int := lit "18446744073709551617".
Definition negative : Int := lit "-18446744073709551617".

Definition add := int_add Benign. Definition sub := int_sub Benign. Definition mul := int_mul Benign.
Definition div := int_div Benign. Definition rem := int_mod Benign.

(** 9-38 *)
Example basics : all
  [ match int_of_int 123456789 with Ok x => isz (int_digits x) 9 && negb (is_zero x) | _ => false end;
    isz (int_digits (lit "123456789000")) 12; negb (is_zero (lit "123456789000"));
    throws (int_of_chars (chars "hello")) "Error: Wrong integer literal.";
    isz (int_digits (fst (int_move (lit "123456789000")))) 12;
    isz (int_digits (snd (int_move (lit "123456789000")))) 0; is_zero (snd (int_move (lit "123456789000"))) ] = true.
Proof. vm_compute. reflexivity. Qed.

(** 44-71 *)
Example compare : all
  [ int_eqb zero zero; int_eqb positive positive; int_eqb negative negative; negb (int_eqb zero positive); negb (int_eqb zero negative);
    yes (int_lt negative zero); yes (int_lt negative positive); yes (int_le negative zero); yes (int_le negative positive); yes (int_le negative negative);
    yes (int_gt positive zero); yes (int_gt positive negative); yes (int_ge positive zero); yes (int_ge positive negative); yes (int_ge positive positive) ] = true.
Proof. vm_compute. reflexivity. Qed.

(** 84-114 *)
Example examination : all
  [ isz (int_digits zero) 0; isz (int_digits positive) 20; isz (int_digits negative) 20;
    is_zero zero; negb (is_zero positive); negb (is_zero negative);
    negb (is_positive zero); is_positive positive; negb (is_positive negative);
    negb (is_negative zero); negb (is_negative positive); is_negative negative;
    yes (is_even zero); no (is_even positive); no (is_even negative); no (is_odd zero); yes (is_odd positive); yes (is_odd negative) ] = true.
Proof. vm_compute. reflexivity. Qed.

(** 116-134, without the three primes near INT_MAX (about 46000 divisions each) *)
Example is_prime : all
  (map (fun s => no (int_is_prime Benign 99 (lit s))) ["-1"; "0"; "1"; "4"; "6"; "8"; "9"; "10"]%string ++
   map (fun s => yes (int_is_prime Benign 99 (lit s))) ["2"; "3"; "5"; "7"]%string) = true.
Proof. vm_compute. reflexivity. Qed.

(** 136-148 *)
Example inc_dec : all
  [ eqs (int_inc (lit "-1")) "0"; eqs (int_inc (lit "0")) "1"; eqs (int_inc (lit "1")) "2"; eqs (int_inc (lit "99999999999999")) "100000000000000";
    eqs (int_dec (lit "-1")) "-2"; eqs (int_dec (lit "0")) "-1"; eqs (int_dec (lit "1")) "0"; eqs (int_dec (lit "100000000000000")) "99999999999999" ] = true.
Proof. vm_compute. reflexivity. Qed.

(** 151-199 *)
Example plus_minus_times : all
  [ eqs (add positive positive) "36893488147419103234"; eqs (add positive zero) "18446744073709551617"; eqs (add positive negative) "0";
    eqs (add negative positive) "0"; eqs (add negative zero) "-18446744073709551617"; eqs (add negative negative) "-36893488147419103234";
    eqs (add zero positive) "18446744073709551617"; eqs (add zero zero) "0"; eqs (add zero negative) "-18446744073709551617";
    eqs (add (lit "99999") (lit "1")) "100000";
    eqs (sub positive positive) "0"; eqs (sub positive zero) "18446744073709551617"; eqs (sub positive negative) "36893488147419103234";
    eqs (sub negative positive) "-36893488147419103234"; eqs (sub negative zero) "-18446744073709551617"; eqs (sub negative negative) "0";
    eqs (sub zero positive) "-18446744073709551617"; eqs (sub zero zero) "0"; eqs (sub zero negative) "18446744073709551617";
    eqs (sub (lit "100000") (lit "1")) "99999";
    eqs (mul positive positive) "340282366920938463500268095579187314689"; eqs (mul positive zero) "0";
    eqs (mul positive negative) "-340282366920938463500268095579187314689"; eqs (mul negative positive) "-340282366920938463500268095579187314689";
    eqs (mul negative zero) "0"; eqs (mul negative negative) "340282366920938463500268095579187314689";
    eqs (mul zero positive) "0"; eqs (mul zero zero) "0"; eqs (mul zero negative) "0"; eqs (mul (lit "100000") (lit "1")) "100000" ] = true.
Proof. vm_compute. reflexivity. Qed.

(** 201-233 *)
Example divide_mod : all
  [ eqs (div positive positive) "1"; throws (div positive zero) "Error: Divide by zero."; eqs (div positive negative) "-1";
    eqs (div negative positive) "-1"; throws (div negative zero) "Error: Divide by zero."; eqs (div negative negative) "1";
    eqs (div zero positive) "0"; throws (div zero zero) "Error: Divide by zero."; eqs (div zero negative) "0"; eqs (div (lit "100000") (lit "1")) "100000";
    eqs (rem positive positive) "0"; throws (rem positive zero) "Error: Divide by zero."; eqs (rem positive negative) "0";
    eqs (rem negative positive) "0"; throws (rem negative zero) "Error: Divide by zero."; eqs (rem negative negative) "0";
    eqs (rem zero positive) "0"; throws (rem zero zero) "Error: Divide by zero."; eqs (rem zero negative) "0"; eqs (rem (lit "100000") (lit "1")) "0" ] = true.
Proof. vm_compute. reflexivity. Qed.

(** 235-257 *)
Definition fact (s : string) : outcome Int := int_factorial Benign 999 (lit s).
Example factorial : all
  [ throws (fact "-1") "Error: Negative integer have no factorial."; eqs (fact "0") "1"; eqs (fact "1") "1"; eqs (fact "2") "2"; eqs (fact "3") "6";
    eqs (fact "100") "93326215443944152681699238856266700490715968264381621468592963895217599993229915608941463976156518286253697920827223758251185210916864000000000000000000000000";
    eqs (x <- fact "5" ;; int_factorial Benign 999 x) "6689502913449127057588118054090372586752746333138029810295671352301633557244962989366874165271984981308157637893214090552534408589408121859898481114389650005964960521256960000000000000000000000000000" ] = true.
Proof. vm_compute. reflexivity. Qed.

(** 259-269, without the primes near INT_MAX *)
Fixpoint primes_from (n : nat) (x : Int) : list (outcome Int) :=
  match n with
  | O => []
  | S n' => match int_next_prime Benign 999 x with Ok y => Ok y :: primes_from n' y | o => [o] end
  end.
Example next_prime : all (map (fun p => eqs (fst p) (snd p)) (combine (primes_from 20 zero)
    ["2"; "3"; "5"; "7"; "11"; "13"; "17"; "19"; "23"; "29"; "31"; "37"; "41"; "43"; "47"; "53"; "59"; "61"; "67"; "71"]%string)) = true /\
  length (primes_from 20 zero) = 20%nat /\ eqs (int_next_prime Benign 999 (lit "104728")) "104729" = true.
Proof. vm_compute. repeat split. Qed.

(** 276-288 *)
Example to_integer : all
  [ isz (int_to_integer (CType 8 true) zero) 0; isz (int_to_integer (CType 64 true) zero) 0;
    isz (int_to_integer (CType 32 true) (lit "1024")) 1024; isz (int_to_integer (CType 32 true) (lit "-1024")) (-1024) ] = true.
Proof. vm_compute. reflexivity. Qed.

(** 290-305 *)
Definition root (s : string) : outcome Int := int_sqrt Benign 999 (lit s).
Example sqrt : all
  [ throws (root "-1") "Error: Cannot compute square root of a negative integer.";
    eqs (root "0") "0"; eqs (root "1") "1"; eqs (root "2") "1"; eqs (root "3") "1"; eqs (root "4") "2"; eqs (root "5") "2"; eqs (root "9") "3";
    eqs (root "10") "3"; eqs (root "16") "4"; eqs (root "100") "10"; eqs (root "9801") "99" ] = true.
Proof. vm_compute. reflexivity. Qed.

(** 307-333 *)
Definition power (b e : string) : outcome Int := int_pow Benign 999 (lit b) (lit e) zero.
Example pow : all
  [ eqs (power "-1" "-1") "-1"; eqs (power "-1" "0") "1"; eqs (power "-1" "1") "-1"; throws (power "0" "-1") "Error: Math domain error.";
    eqs (power "0" "0") "1"; eqs (power "0" "1") "0"; eqs (power "1" "-1") "1"; eqs (power "1" "0") "1"; eqs (power "1" "1") "1";
    eqs (power "2" "3") "8"; eqs (power "2" "100") "1267650600228229401496703205376";
    eqs (x <- power "9" "9" ;; int_pow Benign 999 x (lit "9") zero) "196627050475552913618075908526912116283103450944214766927315415537966391196809";
    eqs (int_pow Benign 999 (lit "1024") (lit "1024") (lit "100")) "76"; eqs (int_pow Benign 999 (lit "9999") (lit "1001") (lit "100")) "99" ] = true.
Proof. vm_compute. reflexivity. Qed.

(** 335-362 *)
Definition lg (a b : string) : outcome Int := int_log Benign 999 (lit a) (lit b).
Example log : all
  [ throws (int_log Benign 999 negative (lit "2")) "Error: Math domain error."; throws (int_log Benign 999 zero (lit "2")) "Error: Math domain error.";
    throws (int_log Benign 999 positive (lit "1")) "Error: Math domain error.";
    eqs (lg "1" "2") "0"; eqs (lg "1" "3") "0"; eqs (lg "1" "4") "0"; eqs (lg "2" "2") "1"; eqs (lg "4" "2") "2"; eqs (lg "8" "2") "3";
    eqs (lg "10" "10") "1"; eqs (lg "100" "10") "2"; eqs (lg "1000" "10") "3"; eqs (lg "123" "10") "2"; eqs (lg "12345" "10") "4"; eqs (lg "123456789" "10") "8";
    eqs (int_log Benign 999 positive (lit "2")) "64";
    eqs (x <- mul positive (lit "2") ;; y <- sub x (lit "3") ;; int_log Benign 999 y (lit "2")) "64";
    eqs (x <- mul positive (lit "2") ;; y <- sub x (lit "2") ;; int_log Benign 999 y (lit "2")) "65";
    eqs (x <- mul positive (lit "2") ;; int_log Benign 999 x (lit "2")) "65";
    eqs (lg "123456789000" "233") "4" ] = true.
Proof. vm_compute. reflexivity. Qed.

(** 364-388 *)
Definition gcd (a b : string) : outcome Int := int_gcd Benign 999 (lit a) (lit b).
Definition lcm (a b : string) : outcome Int := int_lcm Benign 999 (lit a) (lit b).
Example gcd_lcm : all
  [ eqs (gcd "0" "0") "0"; eqs (gcd "0" "1") "1"; eqs (gcd "1" "0") "1"; eqs (gcd "1" "1") "1"; eqs (gcd "6" "8") "2"; eqs (gcd "24" "48") "24";
    eqs (gcd "37" "48") "1"; eqs (gcd "12345" "54321") "3";
    eqs (lcm "0" "0") "0"; eqs (lcm "0" "1") "0"; eqs (lcm "1" "0") "0"; eqs (lcm "1" "1") "1"; eqs (lcm "6" "8") "24"; eqs (lcm "24" "48") "48";
    eqs (lcm "37" "48") "1776"; eqs (lcm "12345" "54321") "223530915" ] = true.
Proof. vm_compute. reflexivity. Qed.

(** 390-404 *)
Example random : all
  [ throws (int_random 4300 (fun _ => 0) 9 (-2)) "Error: `digits` must be a non-negative integer or default = -1.";
    eqs (int_random 4300 (fun _ => 7) 9 0) "0" ] = true.
Proof. vm_compute. reflexivity. Qed.

(** 406-436 *)
Example print_input : all
  [ text (int_print zero) "0";
    text (int_print positive) "18446744073709551617";
    text (int_print negative) "-18446744073709551617";
    match int_extract_all 4 (IStream (chars "+123" ++ newline ++ chars "-456" ++ tab ++ chars "789 0") false false) with
    | Ok ([a; b; c; d], _) => int_eqb a (lit "123") && int_eqb b (lit "-456") && int_eqb c (lit "789") && int_eqb d (lit "0")
    | _ => false
    end ] = true.
Proof. vm_compute. reflexivity. Qed.
