(** Properties C154-C157: how often the loops of Int go round. Theorems only; each is an instance of a
    lemma proved elsewhere and is followed by its assumptions and by a concrete case. *)
From Coq Require Import ZArith List Bool Lia Znumtheory.
From Verif Require Import Outcome IntModel IntSpec RoundSpec IntRounds ExTools.
Import ListNotations.
Open Scope Z_scope.

(** One test of the loop condition more than rounds. *)
Theorem C154_factorial : forall p x z, repr x z -> 0 <= z ->
  takes (z + 1) (fun f => int_factorial p f x) (fun o => returns o (Zfact z)).
Proof. exact factorial_rounds. Qed.
Print Assumptions C154_factorial.

(** As many rounds as the exponent has bits. *)
Theorem C154_pow : forall b e B E, repr b B -> repr e E -> Z.abs B <> 1 -> 0 < E ->
  takes (Z.log2 E + 2) (fun f => int_pow Benign f b e (MkInt 0 [])) (fun o => returns o (B ^ E)).
Proof. exact pow_rounds. Qed.
Print Assumptions C154_pow.

Theorem C154_pow_mod : forall b e m B E M, repr b B -> repr e E -> repr m M -> M <> 0 -> 0 <= B -> B <> 1 -> 0 < E ->
  takes (Z.log2 E + 2) (fun f => int_pow Benign f b e m) (fun o => returns o (B ^ E mod Z.abs M)).
Proof. exact pow_mod_rounds. Qed.
Print Assumptions C154_pow_mod.

(** As many rounds as the result says; none for base 10, which is read off the size. *)
Theorem C154_log : forall n b N B k, repr n N -> repr b B -> 2 <= B -> B <> 10 -> 0 <= k -> B ^ k <= N < B ^ (k + 1) ->
  takes (k + 1) (fun f => int_log Benign f n b) (fun o => returns o k).
Proof. exact log_rounds. Qed.
Print Assumptions C154_log.

Example C154_case : repr (MkInt 1 [3]) 3 /\ repr (MkInt 1 [0; 0; 1]) 100 /\ Z.log2 100 + 2 = 8 /\
  int_pow Benign 7 (MkInt 1 [3]) (MkInt 1 [0; 0; 1]) (MkInt 0 []) = OutOfFuel /\
  int_pow Benign 8 (MkInt 1 [3]) (MkInt 1 [0; 0; 1]) (MkInt 1 [7]) = Ok (MkInt 1 [4]) /\
  int_log Benign 4 (MkInt 1 [0; 0; 1]) (MkInt 1 [3]) = OutOfFuel /\
  int_log Benign 5 (MkInt 1 [0; 0; 1]) (MkInt 1 [3]) = Ok (MkInt 1 [4]) /\
  int_factorial Strict 3 (MkInt 1 [3]) = OutOfFuel /\ int_factorial Strict 4 (MkInt 1 [3]) = Ok (MkInt 1 [6]).
Proof. repeat match goal with |- _ /\ _ => split end; try (apply repr_check; reflexivity); vm_compute; reflexivity. Qed.

(** Divisors 2, 3, ... up to the square root are tried. *)
Theorem C155_prime : forall x z, repr x z -> prime z ->
  takes (Z.sqrt z) (fun f => int_is_prime Benign f x) (fun o => o = Ok true).
Proof. exact is_prime_rounds_yes. Qed.
Print Assumptions C155_prime.

(** The search ends at the least factor, which is at most the square root. *)
Theorem C155_composite : forall x z d, repr x z -> 2 <= z -> ~ prime z -> least_factor z d ->
  takes (d - 1) (fun f => int_is_prime Benign f x) (fun o => o = Ok false) /\ d - 1 < Z.sqrt z.
Proof. exact is_prime_rounds_no. Qed.
Print Assumptions C155_composite.

Theorem C155_small : forall f x z, repr x z -> z <= 1 -> int_is_prime Benign f x = Ok false.
Proof. exact is_prime_small. Qed.
Print Assumptions C155_small.

Example C155_case : repr (MkInt 1 [7; 9]) 97 /\ Z.sqrt 97 = 9 /\ int_is_prime Benign 8 (MkInt 1 [7; 9]) = OutOfFuel /\
  int_is_prime Benign 9 (MkInt 1 [7; 9]) = Ok true /\
  repr (MkInt 1 [1; 9]) 91 /\ int_is_prime Benign 5 (MkInt 1 [1; 9]) = OutOfFuel /\ int_is_prime Benign 6 (MkInt 1 [1; 9]) = Ok false.
Proof. repeat match goal with |- _ /\ _ => split end; try (apply repr_check; reflexivity); vm_compute; reflexivity. Qed.

Example C155_least : least_factor 91 7.
Proof.
  split; [lia|]. split; [exists 13; reflexivity|]. intros e He D. apply Z.mod_divide in D; [|lia].
  assert (e = 2 \/ e = 3 \/ e = 4 \/ e = 5 \/ e = 6) as [->|[->|[->|[->| ->]]]] by lia; discriminate.
Qed.

Theorem C156_bound : forall a b A B d, repr a A -> repr b B -> decimal_digits B d ->
  takes_at_most (5 * d + 1) (fun f => int_gcd Benign f a b) (fun o => returns o (Z.gcd A B)).
Proof. exact gcd_rounds. Qed.
Print Assumptions C156_bound.

(** The bound is reached: five rounds for a divisor of one digit. *)
Example C156_case : repr (MkInt 1 [3; 1]) 13 /\ repr (MkInt (-1) [8]) (-8) /\ decimal_digits (-8) 1 /\
  int_gcd Benign 5 (MkInt 1 [3; 1]) (MkInt (-1) [8]) = OutOfFuel /\
  int_gcd Benign 6 (MkInt 1 [3; 1]) (MkInt (-1) [8]) = Ok (MkInt 1 [1]).
Proof.
  unfold decimal_digits. repeat match goal with |- _ /\ _ => split end; try (apply repr_check; reflexivity);
    try lia; vm_compute; reflexivity.
Qed.

Theorem C157_bound : forall x z d, repr x z -> 0 <= z -> z < 4 \/ ~ pred_square z -> decimal_digits z d ->
  takes_at_most (Z.log2 d + 8) (fun f => int_sqrt Benign f x) (fun o => returns o (Z.sqrt z)).
Proof. exact sqrt_rounds. Qed.
Print Assumptions C157_bound.

Example C157_case : let x := MkInt 1 [5; 4; 3; 2; 1; 9; 8; 7; 6; 5; 4; 3; 2; 1] in
  decimal_digits 12345678912345 14 /\ repr x 12345678912345 /\ Z.log2 14 + 8 = 11 /\
  int_sqrt Benign 6 x = OutOfFuel /\ int_sqrt Benign 11 x = Ok (MkInt 1 [1; 4; 6; 3; 1; 5; 3]).
Proof.
  cbv zeta. unfold decimal_digits. repeat match goal with |- _ /\ _ => split end; try (apply repr_check; reflexivity);
    try lia; vm_compute; reflexivity.
Qed.
