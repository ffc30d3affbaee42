(** The cases of tests/test_complex.cpp, evaluated in the model, except those that need the
    numerical values of <cmath> functions. Lines are those of that file. *)
From Coq Require Import String Ascii ZArith List Bool.
From Verif Require Import Outcome IntModel StreamModel FloatModel FracModel ComplexModel ExTools TestTools.
Import ListNotations.
Open Scope Z_scope.

Definition mk (x y : Z) : Complex := Cx (double_of_Z x) (double_of_Z y).
Definition is (o : outcome Complex) (x y : Z) : bool := match o with Ok z => cx_eqb z (mk x y) | _ => false end.
(** Tenths. *)
Definition is10 (o : outcome Complex) (x y : Z) : bool :=
  match o with Ok z => cx_eqb z (Cx (ddiv (double_of_Z x) (double_of_Z 10)) (ddiv (double_of_Z y) (double_of_Z 10))) | _ => false end.

Definition zero := mk 0 0.
Definition positive := mk 1 2.
Definition negative := mk (-1) 2.
Definition div0 : string := "Error: Divide by zero.".

(** 29-47 *)
Example compare_assignment : all
  [ cx_eqb zero zero; cx_eqb positive positive; negb (cx_eqb zero positive); negb (cx_eqb positive negative);
    is (Ok (fst (cx_move negative))) (-1) 2; is (Ok (snd (cx_move negative))) 0 0 ] = true.
Proof. vm_compute. reflexivity. Qed.

(** 68-111 *)
Example unary_plus_minus : all
  [ is (Ok (cx_pos zero)) 0 0; is (Ok (cx_pos positive)) 1 2; is (Ok (cx_pos negative)) (-1) 2;
    is (Ok (cx_neg zero)) 0 0; is (Ok (cx_neg positive)) (-1) (-2); is (Ok (cx_neg negative)) 1 (-2);
    is (Ok (cx_conjugate zero)) 0 0; is (Ok (cx_conjugate positive)) 1 (-2); is (Ok (cx_conjugate negative)) (-1) (-2);
    is (Ok (cx_add positive positive)) 2 4; is (Ok (cx_add positive zero)) 1 2; is (Ok (cx_add positive negative)) 0 4;
    is (Ok (cx_add negative positive)) 0 4; is (Ok (cx_add negative zero)) (-1) 2; is (Ok (cx_add negative negative)) (-2) 4;
    is (Ok (cx_add zero positive)) 1 2; is (Ok (cx_add zero zero)) 0 0; is (Ok (cx_add zero negative)) (-1) 2;
    is (Ok (cx_sub positive positive)) 0 0; is (Ok (cx_sub positive zero)) 1 2; is (Ok (cx_sub positive negative)) 2 0;
    is (Ok (cx_sub negative positive)) (-2) 0; is (Ok (cx_sub negative zero)) (-1) 2; is (Ok (cx_sub negative negative)) 0 0;
    is (Ok (cx_sub zero positive)) (-1) (-2); is (Ok (cx_sub zero zero)) 0 0; is (Ok (cx_sub zero negative)) 1 (-2) ] = true.
Proof. vm_compute. reflexivity. Qed.

(** 113-141 *)
Example times_divide : all
  [ is (Ok (cx_mul positive positive)) (-3) 4; is (Ok (cx_mul positive zero)) 0 0; is (Ok (cx_mul positive negative)) (-5) 0;
    is (Ok (cx_mul negative positive)) (-5) 0; is (Ok (cx_mul negative zero)) 0 0; is (Ok (cx_mul negative negative)) (-3) (-4);
    is (Ok (cx_mul zero positive)) 0 0; is (Ok (cx_mul zero zero)) 0 0; is (Ok (cx_mul zero negative)) 0 0;
    is (cx_div positive positive) 1 0; throws (cx_div positive zero) div0; is10 (cx_div positive negative) 6 (-8);
    is10 (cx_div negative positive) 6 8; throws (cx_div negative zero) div0; is (cx_div negative negative) 1 0;
    is (cx_div zero positive) 0 0; throws (cx_div zero zero) div0; is (cx_div zero negative) 0 0 ] = true.
Proof. vm_compute. reflexivity. Qed.

(** 143-156, the cases that do not reach <cmath> *)
Definition m0 : libm := Libm (fun x _ => x) (fun x _ => x) (fun x _ => x) (fun x => x) (fun x => x) (fun x => x) (fun x => x).
Example pow : all
  [ is (cx_pow m0 positive zero) 1 0; is (cx_pow m0 negative zero) 1 0; is (cx_pow m0 zero zero) 1 0;
    throws (cx_pow m0 zero positive) "Error: Math domain error."; throws (cx_pow m0 zero negative) "Error: Math domain error." ] = true.
Proof. vm_compute. reflexivity. Qed.

(** 158-173 *)
Definition show (x : double) : list ascii :=
  if deqb x (double_of_Z 0) then chars "0" else if deqb x (double_of_Z 1) then chars "1" else if deqb x (double_of_Z 2) then chars "2" else chars "-1".
Example print : all [ text (cx_print show zero) "(0+0j)"; text (cx_print show positive) "(1+2j)"; text (cx_print show negative) "(-1+2j)" ] = true.
Proof. vm_compute. reflexivity. Qed.

(** 175-192. Decimal texts without exponent, value by digits. *)
Definition strtod (t : list ascii) : double * bool :=
  let (s, b) := match t with c :: b => if code c =? 45 then (-1, b) else if code c =? 43 then (1, b) else (1, t) | [] => (1, t) end in
  let int := take_while is_digit_char b in
  let frac := match drop_while is_digit_char b with "."%char :: f => take_while is_digit_char f | _ => [] end in
  if (length (int ++ frac) =? 0)%nat then (double_of_Z 0, true)
  else (ddiv (double_of_Z (s * dec_digits (int ++ frac))) (double_of_Z (10 ^ Z.of_nat (length frac))), false).
Definition read (t : string) : outcome unit := fst (cx_extract strtod 99 (IStream (chars t) false false) zero).
Definition lit_err : string := "Error: Wrong complex literal.".
Example input : all
  [ match cx_extract_all strtod 99 4 (IStream (chars "  +1-2j  " ++ newline ++ chars "  233.33 " ++ tab ++ chars " -1234-4321j  3j") false false) with
    | Ok ([a; b; c; d], _) => is (Ok a) 1 (-2) && cx_eqb b (cx_of (ddiv (double_of_Z 23333) (double_of_Z 100))) && is (Ok c) (-1234) (-4321) && is (Ok d) 0 3
    | _ => false
    end;
    throws (read "z1+2j") lit_err; throws (read "1+2zj") lit_err; throws (read "123jj") lit_err ] = true.
Proof. vm_compute. reflexivity. Qed.
(** Lines 187 and 188 expect an exception; the code reads an uninitialised variable. *)
Example input_undefined : read "1z+2j" = UB Indeterminate /\ read "1+z2j" = UB Indeterminate.
Proof. vm_compute. split; reflexivity. Qed.
