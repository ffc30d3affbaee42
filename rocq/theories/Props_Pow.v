(** Int::pow with a modulus: C20, C276. *)
From Coq Require Import ZArith List Bool Lia.
From Verif Require Import Outcome IntModel IntSpec IntBase ExTools IntPowSpec IntPow.
Import ListNotations.
Open Scope Z_scope.

(** The value for every base other than 1 and -1, every positive exponent and every modulus. *)
Theorem C20_value : forall b e m B E M, repr b B -> repr e E -> repr m M -> Z.abs B <> 1 -> 0 < E -> M <> 0 ->
  (B < 0 /\ Z.odd E = true /\ fewer (kept (Z.abs M) (Z.abs B) E) M ->
     computes (fun fuel => int_pow Benign fuel b e m) (- (Z.abs B ^ E mod Z.abs M))) /\
  (~ (B < 0 /\ Z.odd E = true /\ fewer (kept (Z.abs M) (Z.abs B) E) M) ->
     computes (fun fuel => int_pow Benign fuel b e m) (Z.abs B ^ E mod Z.abs M)).
Proof. exact pow_mod_value. Qed.
Print Assumptions C20_value.

(** Exactly where pow(b, e, m) is not pow(b, e) % m. *)
Theorem C20_exact : forall b e m B E M, repr b B -> repr e E -> repr m M -> 0 <= E -> M <> 0 ->
  exists v w q, computes (fun fuel => int_pow Benign fuel b e m) v /\
    converges (fun fuel => int_pow Benign fuel b e (MkInt 0 [])) (Ok q) /\ returns (int_mod Benign q m) w /\
    (v <> w <->
       Z.abs M = 1 /\ (E = 0 \/ Z.abs B = 1) \/
       B = -1 /\ Z.odd E = true /\ 1 < Z.abs M < 10 \/
       B < -1 /\ Z.odd E = true /\ fewer (kept (Z.abs M) (Z.abs B) E) M /\ ~ fewer (B ^ E) M /\ ~ (M | B ^ E)).
Proof. exact pow_mod_exact. Qed.
Print Assumptions C20_exact.

(** pow(-5, 3, 12): the sign is kept, as 5 * (25 mod 12) has one digit; pow(-5, 5, 13) is 5^5 mod 13. *)
Example C20_value_example : repr (MkInt (-1) [5]) (-5) /\ repr (MkInt 1 [3]) 3 /\ repr (MkInt 1 [2; 1]) 12 /\
  kept 12 5 3 = 5 /\ fewer 5 12 /\ int_pow Benign 10 (MkInt (-1) [5]) (MkInt 1 [3]) (MkInt 1 [2; 1]) = Ok (MkInt (-1) [5]) /\ 5 ^ 3 mod 12 = 5 /\
  kept 13 5 3 = 60 /\ int_pow Benign 10 (MkInt (-1) [5]) (MkInt 1 [3]) (MkInt 1 [3; 1]) = Ok (MkInt 1 [8]) /\ 5 ^ 3 mod 13 = 8.
Proof.
  split; [apply repr_check; reflexivity|]. split; [apply repr_check; reflexivity|]. split; [apply repr_check; reflexivity|].
  split; [reflexivity|]. split; [exists 1; cbn; lia|]. vm_compute. auto 7.
Qed.

(** pow(3, 2, -5) is -1 in Python, pow(-2, 3, 7) is 6. *)
Theorem C276_refuted : (exists b e m r, repr b 3 /\ repr e 2 /\ repr m (-5) /\ int_pow Benign 10 b e m = Ok r /\ value r = 4 /\ 3 ^ 2 mod (-5) = -1) /\
  (exists b e m r, repr b (-2) /\ repr e 3 /\ repr m 7 /\ int_pow Benign 10 b e m = Ok r /\ value r = 1 /\ (-2) ^ 3 mod 7 = 6).
Proof. exact pow_python_refuted. Qed.
Print Assumptions C276_refuted.

(** Exactly where pow(b, e, m) is the remainder of b ** e with the sign of m. *)
Theorem C276_exact : forall b e m B E M, repr b B -> repr e E -> repr m M -> 0 <= E -> M <> 0 ->
  exists v, computes (fun fuel => int_pow Benign fuel b e m) v /\
    (E = 0 \/ Z.abs B = 1 -> (v = B ^ E mod M <-> 0 < B ^ E /\ 1 < M \/ B ^ E < 0 /\ M < -1)) /\
    (0 < E -> Z.abs B <> 1 ->
      let signed := fewer (kept (Z.abs M) (Z.abs B) E) M in
      (v = B ^ E mod M <->
        (M | B ^ E) \/ 0 <= B ^ E /\ 0 < M \/ B ^ E < 0 /\ M < 0 /\ signed \/
        B ^ E < 0 /\ 0 < M /\ ~ signed /\ 2 * (B ^ E mod M) = M)).
Proof. exact pow_python_exact. Qed.
Print Assumptions C276_exact.

(** Negative exponents: Python inverts the base modulo m or raises ValueError; the library returns 0, except for 1, -1 and 0. *)
Theorem C276_negative_exponent : forall b e m B E, repr b B -> repr e E -> E < 0 ->
  (2 <= Z.abs B -> forall p fuel, returns (int_pow p fuel b e m) 0) /\
  (Z.abs B = 1 -> forall p fuel, returns (int_pow p fuel b e m) (if (B =? -1) && Z.odd E then -1 else 1)) /\
  (B = 0 -> forall p fuel, int_pow p fuel b e m = Throw MathDomain).
Proof. exact pow_negative_exponent. Qed.
Print Assumptions C276_negative_exponent.

Example C276_example : repr (MkInt 1 [7]) 7 /\ int_pow Benign 10 (MkInt 1 [7]) (MkInt 1 [5]) (MkInt 1 [1; 1]) = Ok (MkInt 1 [0; 1]) /\ 7 ^ 5 mod 11 = 10 /\
  repr (MkInt (-1) [3]) (-3) /\ int_pow Benign 10 (MkInt 1 [7]) (MkInt (-1) [3]) (MkInt 1 [1; 1]) = Ok (MkInt 0 []).
Proof.
  split; [apply repr_check; reflexivity|]. split; [vm_compute; reflexivity|]. split; [reflexivity|].
  split; [apply repr_check; reflexivity|]. vm_compute. reflexivity.
Qed.
