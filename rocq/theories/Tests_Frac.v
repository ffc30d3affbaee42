(** The cases of tests/test_fraction.cpp, evaluated in the model. Lines are those of that file. *)
From Coq Require Import String Ascii ZArith List Bool.
From Verif Require Import Outcome IntModel StreamModel FloatModel FracModel ExTools TestTools.
Import ListNotations.
Open Scope Z_scope.

Definition mk (n d : Z) : Fraction := match frac_make n d with Ok f => f | _ => Frac 7 0 end.
(** [REQUIRE(e == Fraction(n, d))] *)
Definition is (o : outcome Fraction) (n d : Z) : bool := match o with Ok f => frac_eqb f (mk n d) | _ => false end.
Definition is' (o : outcome unit * Fraction) (n d : Z) : bool := match o with (Ok _, f) => frac_eqb f (mk n d) | _ => false end.

Definition zero := mk 0 1.
Definition positive := mk 1 2.
Definition negative := mk (-1) 2.
Definition div0 : string := "Error: Divide by zero.".

(** 9-15 *)
Example basics : throws (frac_make 1 0) div0 = true.
Proof. vm_compute. reflexivity. Qed.

(** 30-50 *)
Example compare : all
  [ frac_eqb zero zero; frac_eqb (mk 9 6) (mk 3 2); negb (frac_eqb zero positive); negb (frac_eqb positive negative);
    yes (frac_gt zero negative); yes (frac_gt (mk 1 2) (mk 1 3)); yes (frac_lt zero positive); yes (frac_lt (mk 1 4) (mk 1 3));
    yes (frac_ge zero zero); yes (frac_ge zero negative); yes (frac_le zero zero); yes (frac_le zero positive) ] = true.
Proof. vm_compute. reflexivity. Qed.

(** 51-60 *)
Example assignment : all [ frac_eqb (fst (frac_move negative)) (mk (-1) 2); frac_eqb (snd (frac_move negative)) (mk 0 1) ] = true.
Proof. vm_compute. reflexivity. Qed.

(** 62-76 *)
Example examination : all
  [ deqb (frac_double (mk 0 2)) (double_of_Z 0); deqb (frac_double (mk 1 2)) (ddiv (double_of_Z 1) (double_of_Z 2));
    deqb (frac_double (mk 2 3)) (ddiv (double_of_Z 2) (double_of_Z 3)); deqb (frac_double (mk 1 (-2))) (ddiv (double_of_Z (-1)) (double_of_Z 2));
    num zero =? 0; num positive =? 1; num negative =? -1; den zero =? 1; den positive =? 2; den negative =? 2 ] = true.
Proof. vm_compute. reflexivity. Qed.

(** 78-106 *)
Example inc_dec_unary : all
  [ is' (frac_inc (mk (-1) 1)) 0 1; is' (frac_inc (mk 0 1)) 1 1; is' (frac_inc (mk 1 1)) 2 1; is' (frac_inc (mk 99999 1)) 100000 1;
    is' (frac_dec (mk (-1) 1)) (-2) 1; is' (frac_dec (mk 0 1)) (-1) 1; is' (frac_dec (mk 1 1)) 0 1; is' (frac_dec (mk 100000 1)) 99999 1;
    is (Ok (frac_pos zero)) 0 1; is (Ok (frac_pos positive)) 1 2; is (Ok (frac_pos negative)) (-1) 2;
    is (frac_neg zero) 0 1; is (frac_neg positive) (-1) 2; is (frac_neg negative) 1 2;
    is (frac_abs zero) 0 1; is (frac_abs positive) 1 2; is (frac_abs negative) 1 2 ] = true.
Proof. vm_compute. reflexivity. Qed.

(** 108-151 *)
Example plus_minus_times : all
  [ is (frac_add positive positive) 1 1; is (frac_add positive zero) 1 2; is (frac_add positive negative) 0 1;
    is (frac_add negative positive) 0 1; is (frac_add negative zero) (-1) 2; is (frac_add negative negative) (-1) 1;
    is (frac_add zero positive) 1 2; is (frac_add zero zero) 0 1; is (frac_add zero negative) (-1) 2;
    is (frac_sub positive positive) 0 1; is (frac_sub positive zero) 1 2; is (frac_sub positive negative) 1 1;
    is (frac_sub negative positive) (-1) 1; is (frac_sub negative zero) (-1) 2; is (frac_sub negative negative) 0 1;
    is (frac_sub zero positive) (-1) 2; is (frac_sub zero zero) 0 1; is (frac_sub zero negative) 1 2;
    is (frac_mul positive positive) 1 4; is (frac_mul positive zero) 0 1; is (frac_mul positive negative) (-1) 4;
    is (frac_mul negative positive) (-1) 4; is (frac_mul negative zero) 0 1; is (frac_mul negative negative) 1 4;
    is (frac_mul zero positive) 0 1; is (frac_mul zero zero) 0 1; is (frac_mul zero negative) 0 1 ] = true.
Proof. vm_compute. reflexivity. Qed.

(** 153-181 *)
Example divide_mod : all
  [ is (frac_div positive positive) 1 1; throws (frac_div positive zero) div0; is (frac_div positive negative) (-1) 1;
    is (frac_div negative positive) (-1) 1; throws (frac_div negative zero) div0; is (frac_div negative negative) 1 1;
    is (frac_div zero positive) 0 1; throws (frac_div zero zero) div0; is (frac_div zero negative) 0 1;
    is (frac_mod positive positive) 0 1; throws (frac_mod positive zero) div0; is (frac_mod positive negative) 0 1;
    is (frac_mod negative positive) 0 1; throws (frac_mod negative zero) div0; is (frac_mod negative negative) 0 1;
    is (frac_mod zero positive) 0 1; throws (frac_mod zero zero) div0; is (frac_mod zero negative) 0 1 ] = true.
Proof. vm_compute. reflexivity. Qed.

(** 183-206 *)
Definition g (a b c d : Z) := frac_gcd 99 (mk a b) (mk c d).
Definition l (a b c d : Z) := frac_lcm 99 (mk a b) (mk c d).
Example gcd_lcm : all
  [ is (g 0 1 0 1) 0 1; is (g 0 1 1 1) 1 1; is (g 1 1 0 1) 1 1; is (g 1 1 1 1) 1 1;
    is (g 1 2 3 4) 1 4; is (g 3 4 1 6) 1 12; is (g 233 2333 7 77) 1 25663; is (g (-1) 2 (-3) 4) 1 4;
    is (l 0 1 0 1) 0 1; is (l 0 1 1 1) 0 1; is (l 1 1 0 1) 0 1; is (l 1 1 1 1) 1 1;
    is (l 1 2 3 4) 3 2; is (l 3 4 1 6) 3 2; is (l 233 2333 7 77) 233 1; is (l (-1) 2 (-3) 4) 3 2 ] = true.
Proof. vm_compute. reflexivity. Qed.

(** 208-242 *)
Definition bad (t : string) : outcome unit := fst (frac_extract 99 (IStream (chars t) false false) zero).
Example print_input : all
  [ text (frac_print zero) "0"; text (frac_print positive) "1/2"; text (frac_print negative) "-1/2";
    match frac_extract_all 99 4 (IStream (chars "  +1/-2  " ++ newline ++ chars "  233 " ++ tab ++ chars " 1234/4321  0") false false) with
    | Ok ([a; b; c; d], _) => is (Ok a) (-1) 2 && is (Ok b) 233 1 && is (Ok c) 1234 4321 && is (Ok d) 0 1
    | _ => false
    end;
    throws (bad "z1/2") "Error: Wrong fraction literal."; throws (bad "1z/2") "Error: Wrong fraction literal.";
    throws (bad "1/z2") "Error: Wrong fraction literal."; throws (bad "1/2z") "Error: Wrong fraction literal.";
    throws (bad "1|2") "Error: Wrong fraction literal."; throws (bad "0/0") div0 ] = true.
Proof. vm_compute. reflexivity. Qed.
