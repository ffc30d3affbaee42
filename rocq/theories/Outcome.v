(** Outcomes of C++ calls, machine integers, fuelled loops.

    This file models no function of the library by itself except the four
    [check_*] helpers of sources/utility.hpp; it fixes the vocabulary in
    which all models are written. *)
From Coq Require Import ZArith List String Bool Lia.
Import ListNotations.
Open Scope Z_scope.

(** One constructor per [std::runtime_error] message thrown by the library. *)
Inductive exn : Set :=
| IndexOutOfRange          (* utility.hpp:35 *)
| ContainerEmpty           (* utility.hpp:44 *)
| ContainerFull            (* utility.hpp:53 *)
| DivideByZero             (* utility.hpp:63 *)
| WrongIntegerLiteral      (* int.hpp:178 *)
| NegativeFactorial        (* int.hpp:632 *)
| NegativeSqrt             (* int.hpp:699 *)
| MathDomain               (* int.hpp:743, 773; complex.hpp:197 *)
| BadRandomDigits          (* int.hpp:819 *)
| SliceStepZero            (* list.hpp:344; str.hpp:603 *)
| NegativeTimes            (* list.hpp:387; str.hpp:640 *)
| KeyNotFound              (* dict.hpp:100 *)
| BadDecimalLiteral        (* str.hpp:384 *)
| BadBase                  (* str.hpp:406 *)
| BadIntegerLiteral        (* str.hpp:448 *)
| EmptySeparator           (* str.hpp:666 *)
| WrongFractionLiteral     (* fraction.hpp:272, 288, 293 *)
| WrongComplexLiteral      (* complex.hpp:233, 251, 259 *)
| StdOutOfRange            (* std::out_of_range from std::string::substr; str.hpp:569, 572, 677, 681 *)
| StdLengthError.          (* std::length_error from the constructor of a container; list.hpp:392; str.hpp:501, 510, 643 *)

(** The text carried by each exception. *)
Definition message (e : exn) : string :=
  match e with
  | IndexOutOfRange => "Error: Index out of range."
  | ContainerEmpty => "Error: The container is empty."
  | ContainerFull => "Error: The container has reached the maximum size."
  | DivideByZero => "Error: Divide by zero."
  | WrongIntegerLiteral => "Error: Wrong integer literal."
  | NegativeFactorial => "Error: Negative integer have no factorial."
  | NegativeSqrt => "Error: Cannot compute square root of a negative integer."
  | MathDomain => "Error: Math domain error."
  | BadRandomDigits => "Error: `digits` must be a non-negative integer or default = -1."
  | SliceStepZero => "Error: Slice step can not be zero."
  | NegativeTimes => "Error: Times to repeat can not be less than zero."
  | KeyNotFound => "Error: Key is not found in the dictionary."
  | BadDecimalLiteral => "Error: Invalid literal for to_decimal()."
  | BadBase => "Error: Invalid base for to_integer()."
  | BadIntegerLiteral => "Error: Invalid literal for to_integer()."
  | EmptySeparator => "Error: Empty separator."
  | WrongFractionLiteral => "Error: Wrong fraction literal."
  | WrongComplexLiteral => "Error: Wrong complex literal."
  | StdOutOfRange => "std::out_of_range"
  | StdLengthError => "std::length_error"
  end%string.

(** Why a C++ execution is undefined. *)
Inductive ub : Set :=
| OutOfBounds        (* element access outside [0, size) *)
| SignedOverflow     (* signed arithmetic outside the type's range *)
| InvalidRange       (* an iterator pair / pointer+length that is not a valid range *)
| SelfRange          (* inserting a range of a container into itself *)
| Overlap            (* source and target of a standard algorithm overlap against its precondition *)
| BadDeref           (* dereferencing end() of a container *)
| BadConversion      (* floating value not representable in the target type *)
| ConstWrite         (* modifying an object declared const *)
| Indeterminate.     (* reading an object that was never given a value *)

Inductive outcome (A : Type) : Type :=
| Ok (a : A)
| Throw (e : exn)
| UB (u : ub)
| OutOfFuel.
Arguments Ok {A} a.
Arguments Throw {A} e.
Arguments UB {A} u.
Arguments OutOfFuel {A}.

Definition bind {A B} (m : outcome A) (k : A -> outcome B) : outcome B :=
  match m with
  | Ok a => k a
  | Throw e => Throw e
  | UB u => UB u
  | OutOfFuel => OutOfFuel
  end.

Declare Scope outcome_scope.
Delimit Scope outcome_scope with outcome.
Notation "x <- e ;; k" := (bind e (fun x => k))
  (at level 61, e at next level, right associativity) : outcome_scope.
Notation "e ;;; k" := (bind e (fun _ => k))
  (at level 61, right associativity) : outcome_scope.
Open Scope outcome_scope.

(** A fuelled computation returns [r] for all large enough fuel. *)
Definition converges {A} (f : nat -> outcome A) (r : outcome A) : Prop :=
  r <> OutOfFuel /\ exists n, forall fuel, (n <= fuel)%nat -> f fuel = r.

(** A fuelled computation never returns. *)
Definition diverges {A} (f : nat -> outcome A) : Prop :=
  forall fuel, f fuel = OutOfFuel.

(** ** Machine integers *)

Definition INT_MAX : Z := 2147483647.
Definition INT_MIN : Z := -2147483648.

Definition in_int (z : Z) : bool := (INT_MIN <=? z) && (z <=? INT_MAX).

(** Result of a signed [int] operation whose mathematical value is [z]. *)
Definition chk32 (z : Z) : outcome Z :=
  if in_int z then Ok z else UB SignedOverflow.

(** Conversion of an out-of-range integer to [int] (C++20: modulo 2^32). *)
Definition wrap32 (z : Z) : Z :=
  (z + 2147483648) mod 4294967296 - 2147483648.

(** ** utility.hpp *)

(** utility.hpp:31-37 *)
Definition check_bounds (pos first last : Z) : outcome unit :=
  if (pos <? first) || (last <=? pos) then Throw IndexOutOfRange else Ok tt.

(** utility.hpp:40-46 *)
Definition check_empty (size : Z) : outcome unit :=
  if size =? 0 then Throw ContainerEmpty else Ok tt.

(** utility.hpp:49-55 *)
Definition check_full (size capacity : Z) : outcome unit :=
  if capacity <=? size then Throw ContainerFull else Ok tt.

(** utility.hpp:58-65, at an integer type *)
Definition check_zero (number : Z) : outcome unit :=
  if number =? 0 then Throw DivideByZero else Ok tt.

(** ** Mutating calls: outcome together with the object left behind. *)

Definition M (S A : Type) : Type := S -> outcome A * S.

Definition mret {S A} (a : A) : M S A := fun s => (Ok a, s).
Definition mbind {S A B} (m : M S A) (k : A -> M S B) : M S B :=
  fun s => match m s with
           | (Ok a, s') => k a s'
           | (Throw e, s') => (Throw e, s')
           | (UB u, s') => (UB u, s')
           | (OutOfFuel, s') => (OutOfFuel, s')
           end.
(** Run a call that does not touch the object. *)
Definition mlift {S A} (m : outcome A) : M S A := fun s => (m, s).
Definition mget {S} : M S S := fun s => (Ok s, s).
Definition mput {S} (s : S) : M S unit := fun _ => (Ok tt, s).

Declare Scope mut_scope.
Delimit Scope mut_scope with mut.
Notation "x <~ e ;; k" := (mbind e (fun x => k))
  (at level 61, e at next level, right associativity) : mut_scope.
Notation "e ;~ k" := (mbind e (fun _ => k))
  (at level 61, right associativity) : mut_scope.
Open Scope mut_scope.

(** ** Elementary facts *)

Lemma bind_ok : forall A B (a : A) (k : A -> outcome B), bind (Ok a) k = k a.
Proof. reflexivity. Qed.

Lemma chk32_ok : forall z, INT_MIN <= z <= INT_MAX -> chk32 z = Ok z.
Proof.
  intros z Hz. unfold chk32, in_int.
  destruct (Z.leb_spec INT_MIN z); destruct (Z.leb_spec z INT_MAX); simpl; auto; lia.
Qed.

Lemma chk32_inv : forall z r, chk32 z = Ok r -> r = z /\ INT_MIN <= z <= INT_MAX.
Proof.
  intros z r. unfold chk32, in_int.
  destruct (Z.leb_spec INT_MIN z); destruct (Z.leb_spec z INT_MAX); simpl; intros H1; inversion H1; subst; split; auto; lia.
Qed.

Lemma chk32_ub : forall z, z < INT_MIN \/ INT_MAX < z -> chk32 z = UB SignedOverflow.
Proof.
  intros z Hz. unfold chk32, in_int.
  destruct (Z.leb_spec INT_MIN z); destruct (Z.leb_spec z INT_MAX); simpl; auto; lia.
Qed.

Lemma chk32_cases : forall z,
  (INT_MIN <= z <= INT_MAX /\ chk32 z = Ok z) \/ chk32 z = UB SignedOverflow.
Proof.
  intros z. unfold chk32, in_int.
  destruct (Z.leb_spec INT_MIN z); destruct (Z.leb_spec z INT_MAX); simpl; auto; left; split; auto; lia.
Qed.

Lemma wrap32_id : forall z, INT_MIN <= z <= INT_MAX -> wrap32 z = z.
Proof.
  intros z Hz. unfold wrap32, INT_MIN, INT_MAX in *. rewrite Z.mod_small; lia.
Qed.

Lemma wrap32_range : forall z, INT_MIN <= wrap32 z <= INT_MAX.
Proof.
  intros z. unfold wrap32, INT_MIN, INT_MAX.
  pose proof (Z.mod_pos_bound (z + 2147483648) 4294967296). lia.
Qed.

Lemma check_bounds_ok : forall p a b, a <= p < b -> check_bounds p a b = Ok tt.
Proof.
  intros p a b H. unfold check_bounds.
  destruct (Z.ltb_spec p a); destruct (Z.leb_spec b p); simpl; auto; lia.
Qed.

Lemma check_bounds_throw : forall p a b, ~ (a <= p < b) ->
  check_bounds p a b = Throw IndexOutOfRange.
Proof.
  intros p a b H. unfold check_bounds.
  destruct (Z.ltb_spec p a); destruct (Z.leb_spec b p); simpl; auto; lia.
Qed.

Lemma converges_ok_intro : forall A (f : nat -> outcome A) a n,
  (forall fuel, (n <= fuel)%nat -> f fuel = Ok a) -> converges f (Ok a).
Proof. intros A f a n H. split; [discriminate|]. exists n; exact H. Qed.

Lemma converges_unique : forall A (f : nat -> outcome A) r1 r2,
  converges f r1 -> converges f r2 -> r1 = r2.
Proof.
  intros A f r1 r2 [_ [n1 H1]] [_ [n2 H2]].
  rewrite <- (H1 (Nat.max n1 n2)) by lia. rewrite <- (H2 (Nat.max n1 n2)) by lia. reflexivity.
Qed.

Lemma converges_not_diverges : forall A (f : nat -> outcome A) r,
  converges f r -> ~ diverges f.
Proof.
  intros A f r [Hr [n Hn]] Hd. apply Hr. rewrite <- (Hn n) by lia. apply Hd.
Qed.
