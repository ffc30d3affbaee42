(** Properties C01-C34: arbitrary-precision integers. Theorems only; each is an
    instance of a lemma proved elsewhere and is followed by its assumptions and by
    a concrete case. *)
From Coq Require Import String Ascii ZArith Znumtheory List Bool Lia.
From Verif Require Import Outcome IntModel IntSpec IntProgModel IntProgSpec StreamModel Show
  IntBase IntAddSub IntMulDiv IntIO IntFuncs IntPolicy ShowFacts IntProg IntCanon IntStream IntMore ExTools.
Import ListNotations.
Open Scope Z_scope.

(** ** C01 *)
Theorem C01_canonical_histories : forall p prog s s' ev,
  (forall v, canonical (s v)) ->
  converges (fun fuel => run p fuel prog s) (Ok (s', ev)) ->
  forall v w, canonical (s' v) /\ usual_notation (int_print (s' v)) /\
    (int_eqb (s' v) (s' w) = true <-> value (s' v) = value (s' w)).
Proof. exact canonical_histories. Qed.
Print Assumptions C01_canonical_histories.

Example C01_case : exists s' ev,
  run Benign 20 [SChars 1%nat (chars "-00120"); SInt 2%nat 119; SAssign AAdd 1%nat 2%nat;
                 SInc 1%nat; SPrint 1%nat; SCompare CEq 1%nat 0%nat]
    (fun _ => MkInt 0 []) = Ok (s', ev) /\ s' 1%nat = MkInt 0 [] /\
    ev = [EText (chars "0"); EBool true].
Proof. do 2 eexists. vm_compute. repeat split. Qed.

(** ** C02 *)
Theorem C02_string_constructor : forall cs,
  match literal cs with
  | Some z => returns (int_of_chars cs) z
  | None => int_of_chars cs = Throw WrongIntegerLiteral
  end.
Proof. exact string_constructor. Qed.
Print Assumptions C02_string_constructor.

Example C02_case : literal (chars "-0042") = Some (-42) /\ literal (chars "+") = None /\
  literal (chars "4 2") = None /\ literal (chars "") = None /\
  int_of_chars (chars "-0042") = Ok (MkInt (-1) [2; 4]).
Proof. vm_compute. repeat split. Qed.

(** ** C03: the text is Coq's own decimal notation, and reading it back gives the same object. *)
Theorem C03_print_roundtrip : forall x z, repr x z ->
  int_print x = show_int z /\ usual_notation (int_print x) /\
  literal (int_print x) = Some z /\ int_of_chars (int_print x) = Ok x.
Proof. exact print_roundtrip. Qed.
Print Assumptions C03_print_roundtrip.

Example C03_case : repr (MkInt (-1) [0; 0; 3]) (-300) /\
  int_print (MkInt (-1) [0; 0; 3]) = chars "-300".
Proof. split; [apply repr_check|]; reflexivity. Qed.

(** ** C04 *)
Theorem C04_add_exact : forall x y a b, repr x a -> repr y b ->
  returns (int_add Benign x y) (a + b) /\ returns (int_add_assign Benign x y) (a + b) /\
  (~ (Z.sgn a * Z.sgn b = -1 /\ exists d, digit_count a d /\ digit_count b d) ->
     returns (int_add_assign Strict x y) (a + b)).
Proof. exact add_exact. Qed.
Print Assumptions C04_add_exact.

Example C04_case : repr (MkInt 1 [9; 9; 9]) 999 /\ repr (MkInt 1 [1]) 1 /\
  int_add_assign Strict (MkInt 1 [9; 9; 9]) (MkInt 1 [1]) = Ok (MkInt 1 [0; 0; 0; 1]).
Proof. split; [apply repr_check|split; [apply repr_check|]]; reflexivity. Qed.

(** ** C05 *)
Theorem C05_sub_exact : forall x y a b, repr x a -> repr y b ->
  returns (int_sub Benign x y) (a - b) /\ returns (int_sub_assign Benign x y) (a - b) /\
  returns (int_sub_assign Benign x x) 0 /\
  (~ (Z.sgn a * Z.sgn b = 1 /\ exists d, digit_count a d /\ digit_count b d) ->
     returns (int_sub_assign Strict x y) (a - b)).
Proof. exact sub_exact. Qed.
Print Assumptions C05_sub_exact.

Example C05_case : repr (MkInt 1 [0; 0; 1]) 100 /\ repr (MkInt 1 [1]) 1 /\
  int_sub_assign Strict (MkInt 1 [0; 0; 1]) (MkInt 1 [1]) = Ok (MkInt 1 [9; 9]).
Proof. split; [apply repr_check|split; [apply repr_check|]]; reflexivity. Qed.

(** ** C06 is false of the code: 5 - 3 touches a digit past the end. *)
Theorem C06_sub_in_bounds_refuted : exists x y, repr x 5 /\ repr y 3 /\
  int_sub_assign Strict x y = UB OutOfBounds.
Proof. exact sub_in_bounds_refuted. Qed.
Print Assumptions C06_sub_in_bounds_refuted.

(** Exactly when it happens. *)
Theorem C06_sub_in_bounds_exact : forall x y a b, repr x a -> repr y b ->
  ((exists u, int_sub_assign Strict x y = UB u) <->
   Z.sgn a * Z.sgn b = 1 /\ exists d, digit_count a d /\ digit_count b d) /\
  ((exists u, int_add_assign Strict x y = UB u) <->
   Z.sgn a * Z.sgn b = -1 /\ exists d, digit_count a d /\ digit_count b d).
Proof. exact sub_in_bounds_exact. Qed.
Print Assumptions C06_sub_in_bounds_exact.

(** Whatever the program, that access is the only difference: a standard
    execution is undefined or agrees with the benign one. *)
Theorem C06_strict_refines_benign : forall fuel prog s,
  run Strict fuel prog s = run Benign fuel prog s \/ exists u, run Strict fuel prog s = UB u.
Proof. exact strict_refines_benign. Qed.
Print Assumptions C06_strict_refines_benign.

(** ** C07: for both policies, so no access is out of range; cells are checked against int. *)
Theorem C07_mul_exact : forall p x y a b, repr x a -> repr y b ->
  returns (int_mul p x y) (a * b) /\ returns (int_mul_assign p x y) (a * b) /\
  returns (int_mul_assign p x x) (a * a).
Proof. exact mul_exact. Qed.
Print Assumptions C07_mul_exact.

Example C07_case : repr (MkInt (-1) [9; 9; 9]) (-999) /\
  int_mul_assign Strict (MkInt (-1) [9; 9; 9]) (MkInt (-1) [9; 9; 9]) = Ok (MkInt 1 [1; 0; 0; 8; 9; 9]).
Proof. split; [apply repr_check|]; reflexivity. Qed.

(** ** C08: in the model each quotient digit is allowed nine subtractions; an [Ok]
    result means no more were needed. *)
Theorem C08_div_trunc : forall x y a b, repr x a -> repr y b ->
  (b <> 0 -> returns (int_div Benign x y) (Z.quot a b) /\
     exists r, int_div_assign Benign x y = (Ok tt, r) /\ repr r (Z.quot a b)) /\
  (b = 0 -> forall p, int_div p x y = Throw DivideByZero /\
     int_div_assign p x y = (Throw DivideByZero, x)).
Proof. exact div_trunc. Qed.
Print Assumptions C08_div_trunc.

Example C08_case : repr (MkInt (-1) [7; 2]) (-27) /\ repr (MkInt 1 [4]) 4 /\
  int_div Benign (MkInt (-1) [7; 2]) (MkInt 1 [4]) = Ok (MkInt (-1) [6]) /\ Z.quot (-27) 4 = -6.
Proof. split; [apply repr_check|split; [apply repr_check|split]]; reflexivity. Qed.

(** ** C09 is false of the code: (-7) / 2 = -3, (-7) % 2 = 1, and -3 * 2 + 1 <> -7. *)
Theorem C09_division_identity_refuted : exists x y q r, repr x (-7) /\ repr y 2 /\
  int_div Benign x y = Ok q /\ int_mod Benign x y = Ok r /\
  value q * 2 + value r <> -7.
Proof. exact division_identity_refuted. Qed.
Print Assumptions C09_division_identity_refuted.

(** The identity holds for non-negative dividends, with the remainder below |b|. *)
Theorem C09_division_identity_nonneg : forall x y a b, repr x a -> repr y b -> 0 <= a -> b <> 0 ->
  exists q r, returns (int_div Benign x y) q /\ returns (int_mod Benign x y) r /\
    q * b + r = a /\ 0 <= r < Z.abs b.
Proof. exact division_identity_nonneg. Qed.
Print Assumptions C09_division_identity_nonneg.

(** Exactly when the identity fails: a negative dividend with at least as many digits as
    the divisor, not a multiple of it. *)
Theorem C09_division_identity_exact : forall x y a b, repr x a -> repr y b -> b <> 0 ->
  exists q r, returns (int_div Benign x y) q /\ returns (int_mod Benign x y) r /\
    Z.abs r < Z.abs b /\
    (q * b + r <> a <->
     a < 0 /\ ~ (b | a) /\ ~ (exists k, 0 <= k /\ Z.abs a < 10 ^ k <= Z.abs b)).
Proof. exact division_identity_exact. Qed.
Print Assumptions C09_division_identity_exact.

(** ** C10 *)
Theorem C10_mod_value : forall x y a b, repr x a -> repr y b ->
  (b <> 0 -> exists z, returns (int_mod Benign x y) z /\ rem_value a b z /\
     (exists r, int_mod_assign Benign x y = (Ok tt, r) /\ repr r z) /\
     (0 <= a -> z = a mod Z.abs b /\ 0 <= z < Z.abs b)) /\
  (b = 0 -> forall p, int_mod p x y = Throw DivideByZero /\
     int_mod_assign p x y = (Throw DivideByZero, x)).
Proof. exact mod_value. Qed.
Print Assumptions C10_mod_value.

Example C10_case : repr (MkInt (-1) [7]) (-7) /\ repr (MkInt 1 [3; 1]) 13 /\
  int_mod Benign (MkInt (-1) [7]) (MkInt 1 [3; 1]) = Ok (MkInt (-1) [7]) /\
  int_mod Benign (MkInt (-1) [7]) (MkInt 1 [2]) = Ok (MkInt 1 [1]).
Proof. split; [apply repr_check|split; [apply repr_check|split]]; reflexivity. Qed.

(** ** C11 *)
Theorem C11_compare : forall x y a b, repr x a -> repr y b ->
  int_cmp x y = Ok (Z.sgn (a - b)) /\
  int_eqb x y = (a =? b) /\ int_lt x y = Ok (a <? b) /\ int_le x y = Ok (a <=? b) /\
  int_gt x y = Ok (b <? a) /\ int_ge x y = Ok (b <=? a).
Proof. exact compare_exact. Qed.
Print Assumptions C11_compare.

Example C11_case : repr (MkInt (-1) [2; 1]) (-12) /\ repr (MkInt (-1) [9]) (-9) /\
  int_lt (MkInt (-1) [2; 1]) (MkInt (-1) [9]) = Ok true.
Proof. split; [apply repr_check|split; [apply repr_check|]]; reflexivity. Qed.

(** ** C12 *)
Theorem C12_inc_dec : forall x a, repr x a ->
  returns (int_inc x) (a + 1) /\ returns (int_dec x) (a - 1).
Proof. exact inc_dec. Qed.
Print Assumptions C12_inc_dec.

Example C12_case : repr (MkInt 1 [9; 9]) 99 /\ int_inc (MkInt 1 [9; 9]) = Ok (MkInt 1 [0; 0; 1]) /\
  int_dec (MkInt 1 [0; 0; 1]) = Ok (MkInt 1 [9; 9]) /\ int_inc (MkInt (-1) [1]) = Ok (MkInt 0 []).
Proof. split; [apply repr_check|repeat split]; reflexivity. Qed.

(** ** C13 *)
Theorem C13_factorial : forall p x z, repr x z ->
  (0 <= z -> computes (fun fuel => int_factorial p fuel x) (Zfact z)) /\
  (z < 0 -> forall fuel, int_factorial p fuel x = Throw NegativeFactorial).
Proof. exact factorial_exact. Qed.
Print Assumptions C13_factorial.

Example C13_case : repr (MkInt 1 [5]) 5 /\ Zfact 5 = 120 /\
  int_factorial Strict 7 (MkInt 1 [5]) = Ok (MkInt 1 [0; 2; 1]).
Proof. split; [apply repr_check|split]; reflexivity. Qed.

(** ** C14 *)
Theorem C14_is_prime : forall x z, repr x z ->
  exists b, converges (fun fuel => int_is_prime Benign fuel x) (Ok b) /\ (b = true <-> prime z).
Proof. exact is_prime_exact. Qed.
Print Assumptions C14_is_prime.

Example C14_case : repr (MkInt 1 [7; 9]) 97 /\ int_is_prime Benign 20 (MkInt 1 [7; 9]) = Ok true /\
  int_is_prime Benign 20 (MkInt 1 [1; 9]) = Ok false.
Proof. split; [apply repr_check|split]; reflexivity. Qed.

(** ** C15 *)
Theorem C15_next_prime : forall x a, repr x a ->
  exists q, computes (fun fuel => int_next_prime Benign fuel x) q /\
    prime q /\ a < q /\ (forall r, a < r < q -> ~ prime r).
Proof. exact next_prime_exact. Qed.
Print Assumptions C15_next_prime.

Example C15_case : repr (MkInt 1 [9; 8]) 89 /\ int_next_prime Benign 20 (MkInt 1 [9; 8]) = Ok (MkInt 1 [7; 9]).
Proof. split; [apply repr_check|]; reflexivity. Qed.

(** ** C16 *)
Theorem C16_sqrt_floor : forall x z, repr x z ->
  (z < 0 -> forall p fuel, int_sqrt p fuel x = Throw NegativeSqrt) /\
  (0 <= z -> ~ (exists k, 3 <= k /\ z = k * k - 1) ->
     exists r, computes (fun fuel => int_sqrt Benign fuel x) r /\ 0 <= r /\ r * r <= z < (r + 1) * (r + 1)) /\
  (forall o, converges (fun fuel => int_sqrt Benign fuel x) (Ok o) -> 0 <= z /\
     canonical o /\ 0 <= value o /\ value o * value o <= z < (value o + 1) * (value o + 1)).
Proof. exact sqrt_floor. Qed.
Print Assumptions C16_sqrt_floor.

Example C16_case : repr (MkInt 1 [0; 0; 1]) 100 /\ ~ (exists k, 3 <= k /\ 100 = k * k - 1) /\
  int_sqrt Benign 20 (MkInt 1 [0; 0; 1]) = Ok (MkInt 1 [0; 1]).
Proof.
  split; [apply repr_check; reflexivity|split; [|reflexivity]].
  intros (k & K & E). assert (k <= 10) by nia. nia.
Qed.

(** ** C17 is false of the code: sqrt(8) never returns. *)
Theorem C17_sqrt_terminates_refuted : exists x, repr x 8 /\ diverges (fun fuel => int_sqrt Benign fuel x).
Proof. exact sqrt_terminates_refuted. Qed.
Print Assumptions C17_sqrt_terminates_refuted.

(** Exactly the arguments for which it never returns. *)
Theorem C17_sqrt_terminates_exact : forall x z, repr x z -> 0 <= z ->
  (diverges (fun fuel => int_sqrt Benign fuel x) <-> exists k, 3 <= k /\ z = k * k - 1).
Proof. exact sqrt_terminates_exact. Qed.
Print Assumptions C17_sqrt_terminates_exact.

(** ** C18 *)
Theorem C18_pow : forall b e B E, repr b B -> repr e E ->
  (0 <= E -> computes (fun fuel => int_pow Benign fuel b e (MkInt 0 [])) (B ^ E)) /\
  (E < 0 -> Z.abs B = 1 -> computes (fun fuel => int_pow Benign fuel b e (MkInt 0 [])) (B ^ (- E))) /\
  (E < 0 -> 2 <= Z.abs B -> computes (fun fuel => int_pow Benign fuel b e (MkInt 0 [])) 0) /\
  (E < 0 -> B = 0 -> forall p fuel m, int_pow p fuel b e m = Throw MathDomain).
Proof. exact pow_exact. Qed.
Print Assumptions C18_pow.

Example C18_case : repr (MkInt (-1) [2]) (-2) /\ repr (MkInt 1 [5]) 5 /\
  int_pow Benign 9 (MkInt (-1) [2]) (MkInt 1 [5]) (MkInt 0 []) = Ok (MkInt (-1) [2; 3]).
Proof. split; [apply repr_check|split; [apply repr_check|]]; reflexivity. Qed.

(** ** C19 *)
Theorem C19_pow_mod : forall b e m B E M, repr b B -> repr e E -> repr m M ->
  0 <= B -> B <> 1 -> 0 < E -> M <> 0 ->
  computes (fun fuel => int_pow Benign fuel b e m) (B ^ E mod Z.abs M).
Proof. exact int_pow_mod_spec. Qed.
Print Assumptions C19_pow_mod.

Example C19_case : repr (MkInt 1 [3]) 3 /\ repr (MkInt 1 [0; 1]) 10 /\ repr (MkInt (-1) [7]) (-7) /\
  int_pow Benign 9 (MkInt 1 [3]) (MkInt 1 [0; 1]) (MkInt (-1) [7]) = Ok (MkInt 1 [4]) /\ 3 ^ 10 mod 7 = 4.
Proof. split; [apply repr_check|split; [apply repr_check|split; [apply repr_check|split]]]; reflexivity. Qed.

(** ** C20 is false of the code: pow(1, 1, 1) is 1, not 0; pow(2, 0, 1) is 1, not 0;
    pow(-5, 3, 12) is -5 while pow(-5, 3) % 12 is 5. *)
Theorem C20_pow_documented_refuted :
  (forall fuel, int_pow Benign fuel (MkInt 1 [1]) (MkInt 1 [1]) (MkInt 1 [1]) = Ok (MkInt 1 [1])) /\
  computes (fun fuel => int_pow Benign fuel (MkInt 1 [2]) (MkInt 0 []) (MkInt 1 [1])) 1 /\
  (1 ^ 1) mod 1 = 0 /\ (2 ^ 0) mod 1 = 0 /\
  exists r q s, int_pow Benign 10 (MkInt (-1) [5]) (MkInt 1 [3]) (MkInt 1 [2; 1]) = Ok r /\
    int_pow Benign 10 (MkInt (-1) [5]) (MkInt 1 [3]) (MkInt 0 []) = Ok q /\
    int_mod Benign q (MkInt 1 [2; 1]) = Ok s /\ value r <> value s.
Proof. exact pow_documented_refuted. Qed.
Print Assumptions C20_pow_documented_refuted.

(** ** C21 *)
Theorem C21_log : forall n b N B, repr n N -> repr b B ->
  (0 < N -> 2 <= B -> (exists d, digit_count N d /\ d <= INT_MAX) ->
     exists k, computes (fun fuel => int_log Benign fuel n b) k /\ 0 <= k /\ B ^ k <= N < B ^ (k + 1)) /\
  (N <= 0 \/ B < 2 -> forall p fuel, int_log p fuel n b = Throw MathDomain).
Proof. exact log_exact. Qed.
Print Assumptions C21_log.

Example C21_case : repr (MkInt 1 [7; 2; 1]) 127 /\ int_log Benign 12 (MkInt 1 [7; 2; 1]) (MkInt 1 [2]) = Ok (MkInt 1 [6]) /\
  int_log Benign 12 (MkInt 1 [7; 2; 1]) (MkInt 1 [0; 1]) = Ok (MkInt 1 [2]) /\ digit_count 127 3.
Proof.
  split; [apply repr_check; reflexivity|split; [reflexivity|split; [reflexivity|]]].
  right. repeat split; vm_compute; try discriminate; reflexivity.
Qed.

(** ** C22 *)
Theorem C22_gcd : forall a b A B, repr a A -> repr b B ->
  exists g, computes (fun fuel => int_gcd Benign fuel a b) g /\ 0 <= g /\ Zis_gcd A B g /\ g = Z.gcd A B.
Proof. exact gcd_exact. Qed.
Print Assumptions C22_gcd.

Example C22_case : repr (MkInt (-1) [2; 1]) (-12) /\ repr (MkInt 1 [8; 1]) 18 /\
  int_gcd Benign 20 (MkInt (-1) [2; 1]) (MkInt 1 [8; 1]) = Ok (MkInt 1 [6]) /\
  int_gcd Benign 20 (MkInt 0 []) (MkInt 0 []) = Ok (MkInt 0 []).
Proof. split; [apply repr_check|split; [apply repr_check|split]]; reflexivity. Qed.

(** ** C23 *)
Theorem C23_lcm : forall a b A B, repr a A -> repr b B ->
  exists l, computes (fun fuel => int_lcm Benign fuel a b) l /\ 0 <= l /\ (A | l) /\ (B | l) /\
    (forall m, (A | m) -> (B | m) -> (l | m)) /\ (A = 0 \/ B = 0 -> l = 0).
Proof. exact lcm_exact. Qed.
Print Assumptions C23_lcm.

Example C23_case : int_lcm Benign 20 (MkInt (-1) [4]) (MkInt 1 [6]) = Ok (MkInt 1 [2; 1]).
Proof. reflexivity. Qed.

(** ** C24: [CType w true] is the signed type of [w] bits. *)
Theorem C24_to_integer : forall w x z, 32 <= w -> repr x z ->
  (Z.abs z <= 2 ^ (w - 1) - 1 -> int_to_integer (CType w true) x = Ok z) /\
  int_to_integer (CType w false) x = Ok (z mod 2 ^ w).
Proof. exact to_integer_exact. Qed.
Print Assumptions C24_to_integer.

(** The remaining signed values are undefined, and narrow types reduce modulo their width. *)
Theorem C24_to_integer_outside : forall w x z, repr x z ->
  (32 <= w -> 2 ^ (w - 1) - 1 < Z.abs z -> int_to_integer (CType w true) x = UB SignedOverflow) /\
  (1 <= w <= 16 -> forall sg, exists r, int_to_integer (CType w sg) x = Ok r /\
      (exists k, r = z + k * 2 ^ w) /\
      (if sg then - 2 ^ (w - 1) else 0) <= r <= (if sg then 2 ^ (w - 1) - 1 else 2 ^ w - 1)).
Proof. exact to_integer_outside. Qed.
Print Assumptions C24_to_integer_outside.

Example C24_case : repr (MkInt (-1) [7; 4; 6; 3; 8; 4; 7; 4; 1; 2]) (-2147483647) /\
  int_to_integer (CType 32 true) (MkInt (-1) [7; 4; 6; 3; 8; 4; 7; 4; 1; 2]) = Ok (-2147483647) /\
  int_to_integer (CType 32 false) (MkInt (-1) [1]) = Ok 4294967295.
Proof. split; [apply repr_check|split]; reflexivity. Qed.

(** ** C25 is false of the code at the minimum of every signed type of int width or more. *)
Theorem C25_to_integer_min_refuted : forall w x, 32 <= w -> repr x (- 2 ^ (w - 1)) ->
  int_to_integer (CType w true) x = UB SignedOverflow.
Proof. exact to_integer_min_refuted. Qed.
Print Assumptions C25_to_integer_min_refuted.

Example C25_case : repr (MkInt (-1) [8; 4; 6; 3; 8; 4; 7; 4; 1; 2]) (- 2 ^ (32 - 1)) /\
  int_to_integer (CType 32 true) (MkInt (-1) [8; 4; 6; 3; 8; 4; 7; 4; 1; 2]) = UB SignedOverflow.
Proof. split; [apply repr_check|]; reflexivity. Qed.

(** ** C26 is false of the code at INT_MIN, and only there. *)
Theorem C26_from_int_refuted : int_of_int INT_MIN = UB SignedOverflow.
Proof. exact int_of_int_min. Qed.
Print Assumptions C26_from_int_refuted.

Theorem C26_from_int_otherwise : forall n, INT_MIN < n <= INT_MAX -> returns (int_of_int n) n.
Proof. exact int_of_int_spec. Qed.
Print Assumptions C26_from_int_otherwise.

Example C26_case : INT_MIN < -2147483647 <= INT_MAX /\ int_of_int (-105) = Ok (MkInt (-1) [5; 0; 1]).
Proof. split; [unfold INT_MIN, INT_MAX; lia|reflexivity]. Qed.

(** ** C27 is false of the code, with or without the out-of-bounds access: 5 += itself is 20. *)
Theorem C27_self_add_refuted : repr (MkInt 1 [5]) 5 /\
  int_add_assign_self Strict (MkInt 1 [5]) = UB OutOfBounds /\
  exists r, int_add_assign_self Benign (MkInt 1 [5]) = Ok r /\ repr r 20.
Proof. exact self_add_refuted. Qed.
Print Assumptions C27_self_add_refuted.

(** Exactly: always out of bounds for nonzero x; ignoring that, doubled exactly when every
    decimal digit is at most 4, and too large in magnitude otherwise. *)
Theorem C27_self_add_exact : forall x z, repr x z ->
  (z = 0 -> forall p, int_add_assign_self p x = Ok x) /\
  (z <> 0 -> int_add_assign_self Strict x = UB OutOfBounds /\
     exists r w, int_add_assign_self Benign x = Ok r /\ repr r w /\
       (w = 2 * z <-> forall k, 0 <= k -> (Z.abs z / 10 ^ k) mod 10 <= 4) /\
       (w <> 2 * z -> 2 * Z.abs z < Z.abs w)).
Proof. exact self_add_exact. Qed.
Print Assumptions C27_self_add_exact.

(** ** C28 *)
Theorem C28_hash : forall hs hi x y,
  (int_eqb x y = true -> int_hash hs hi x = int_hash hs hi y) /\
  (canonical x -> canonical y -> value x = value y -> int_hash hs hi x = int_hash hs hi y).
Proof. exact hash_agrees. Qed.
Print Assumptions C28_hash.

Example C28_case : exists x y, int_of_chars (chars "-007") = Ok x /\ int_of_int (-7) = Ok y /\ int_eqb x y = true.
Proof. do 2 eexists. vm_compute. repeat split. Qed.

(** ** C29 *)
Theorem C29_queries : forall x z, repr x z ->
  (is_zero x = true <-> z = 0) /\ (is_positive x = true <-> 0 < z) /\ (is_negative x = true <-> z < 0) /\
  is_even x = Ok (Z.even z) /\ is_odd x = Ok (Z.odd z) /\
  exists d, int_digits x = Ok d /\ digit_count z d.
Proof. exact queries_exact. Qed.
Print Assumptions C29_queries.

Example C29_case : repr (MkInt (-1) [1; 0; 2]) (-201) /\ is_odd (MkInt (-1) [1; 0; 2]) = Ok true /\
  int_digits (MkInt (-1) [1; 0; 2]) = Ok 3.
Proof. split; [apply repr_check|split]; reflexivity. Qed.

(** ** C30 *)
Theorem C30_neg_abs : forall x a, repr x a ->
  repr (int_neg x) (- a) /\ repr (int_abs x) (Z.abs a) /\ repr (int_pos x) a.
Proof. exact neg_abs_exact. Qed.
Print Assumptions C30_neg_abs.

Example C30_case : repr (MkInt 0 []) 0 /\ int_neg (MkInt 0 []) = MkInt 0 [] /\ int_abs (MkInt (-1) [3]) = MkInt 1 [3].
Proof. split; [apply repr_check|split]; reflexivity. Qed.

(** ** C31: a move is indistinguishable, in every continuation, from a copy followed by
    setting the source to zero. *)
Theorem C31_move : forall p fuel v w prog s, v <> w ->
  match run p fuel (SMove v w :: prog) s, run p fuel (SCopy v w :: SInt w 0 :: prog) s with
  | Ok (s1, ev1), Ok (s2, ev2) => (forall u, s1 u = s2 u) /\ ev1 = ev2
  | o1, o2 => o1 = o2
  end.
Proof. exact move_exact. Qed.
Print Assumptions C31_move.

Example C31_case : exists s ev, run Strict 3 [SInt 1%nat 12; SMove 0%nat 1%nat; SPrint 1%nat; SPrint 0%nat] (fun _ => MkInt 0 []) = Ok (s, ev)
  /\ ev = [EText (chars "0"); EText (chars "12")].
Proof. do 2 eexists. vm_compute. split; reflexivity. Qed.

(** ** C32: [limit], [dg] and [most] are arbitrary draws from the stated distributions. *)
Theorem C32_random : forall limit dg most d,
  0 <= limit <= 4300 -> (forall k, 0 <= dg k <= 9) -> 1 <= most <= 9 ->
  (0 <= d -> exists x, int_random limit dg most d = Ok x /\ canonical x /\ 0 <= value x /\ digit_count (value x) d) /\
  (d = -1 -> exists x n, int_random limit dg most d = Ok x /\ canonical x /\ 0 <= value x /\
      digit_count (value x) n /\ n <= 4300) /\
  (d < -1 -> int_random limit dg most d = Throw BadRandomDigits).
Proof. exact random_exact. Qed.
Print Assumptions C32_random.

Example C32_case : int_random 7 (fun k => if Nat.eqb k 2 then 0 else 4) 9 3 = Ok (MkInt 1 [4; 4; 9]).
Proof. reflexivity. Qed.

(** ** C33 *)
Theorem C33_extraction : forall ws tok rest x,
  Forall (fun c => isspace c = true) ws -> tok <> [] -> Forall (fun c => isspace c = false) tok ->
  (rest = [] \/ exists c r, rest = c :: r /\ isspace c = true) ->
  exists s', buf s' = rest /\ failbit s' = false /\ (eofbit s' = true <-> rest = []) /\
    match literal (c_str tok) with
    | Some z => exists y, repr y z /\ int_extract (IStream (ws ++ tok ++ rest) false false) x = (Ok tt, (s', y))
    | None => int_extract (IStream (ws ++ tok ++ rest) false false) x = (Throw WrongIntegerLiteral, (s', x))
    end.
Proof. exact extraction_exact. Qed.
Print Assumptions C33_extraction.

(** White space: the blank, and the characters 9 to 13. *)
Theorem C33_spaces : forall c, isspace c = true <-> In (code c) [9; 10; 11; 12; 13; 32].
Proof. exact spaces_exact. Qed.
Print Assumptions C33_spaces.

(** No token left: throws and keeps the target. *)
Theorem C33_extraction_exhausted : forall s x,
  (eofbit s = true \/ failbit s = true \/ Forall (fun c => isspace c = true) (buf s)) ->
  exists s', failbit s' = true /\ int_extract s x = (Throw WrongIntegerLiteral, (s', x)).
Proof. exact extraction_exhausted. Qed.
Print Assumptions C33_extraction_exhausted.

(** Reading back printed integers: [seps] are the white space runs before each number,
    all but the first nonempty. *)
Theorem C33_read_back : forall ws0 x0 items,
  Forall (fun c => isspace c = true) ws0 -> canonical x0 ->
  Forall (fun it => fst it <> [] /\ Forall (fun c => isspace c = true) (fst it) /\ canonical (snd it)) items ->
  exists s', int_extract_all (S (length items))
     (IStream (ws0 ++ int_print x0 ++ flat_map (fun it => fst it ++ int_print (snd it)) items) false false)
   = Ok (x0 :: map snd items, s').
Proof. exact read_back. Qed.
Print Assumptions C33_read_back.

Example C33_case : int_extract (IStream (chars "  -12 7") false false) (MkInt 0 []) =
   (Ok tt, (IStream (chars " 7") false false, MkInt (-1) [2; 1])) /\
  int_extract (IStream (chars "1x 7") false false) (MkInt 1 [4]) =
   (Throw WrongIntegerLiteral, (IStream (chars " 7") false false, MkInt 1 [4])).
Proof. split; reflexivity. Qed.

(** ** C34 *)
Theorem C34_programs_refine : forall prog e e' ev s,
  zrun prog e e' ev -> represents s e ->
  exists s', converges (fun fuel => run Benign fuel prog s) (Ok (s', ev)) /\ represents s' e'.
Proof. exact run_refines. Qed.
Print Assumptions C34_programs_refine.

(** The integer program is never stuck except at the statements listed in [allowed]. *)
Theorem C34_programs_total : forall c e, allowed c e -> exists e' ev, zstep c e e' ev.
Proof. exact zstep_total. Qed.
Print Assumptions C34_programs_total.

(** In a standard execution that is not undefined, the same results appear. *)
Theorem C34_programs_standard : forall prog e e' ev s,
  zrun prog e e' ev -> represents s e ->
  exists s' n, represents s' e' /\ forall fuel, (n <= fuel)%nat ->
    run Strict fuel prog s = Ok (s', ev) \/ exists u, run Strict fuel prog s = UB u.
Proof. exact programs_standard. Qed.
Print Assumptions C34_programs_standard.

Example C34_case : exists e' ev, zrun [SInt 1%nat 7; SInt 2%nat (-2); SBin BDiv 3%nat 1%nat 2%nat; SBin BDiv 4%nat 1%nat 5%nat; SPrint 3%nat]
  (fun _ => 0) e' ev /\ e' 3%nat = -3 /\ ev = [EThrow DivideByZero; EText (chars "-3")].
Proof.
  do 2 eexists. split.
  - eapply zr_cons; [apply z_int; vm_compute; split; congruence|].
    eapply zr_cons; [apply z_int; vm_compute; split; congruence|].
    eapply zr_cons; [apply z_bin; apply zb_div; discriminate|].
    eapply zr_cons; [apply z_bin_throw; apply zb_div0|].
    eapply zr_cons; [apply z_print|]. apply zr_nil.
  - split; reflexivity.
Qed.
