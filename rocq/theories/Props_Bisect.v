(** Property C287: searching a sorted List by halving. Theorems only. *)
From Coq Require Import ZArith List Bool Lia Sorted.
From Verif Require Import Outcome IntModel ListModel ListSpec SetSpec BisectModel Bisect.
Import ListNotations.
Open Scope Z_scope.

(** Whenever the elements that are less than x come first, their number is found in at most 31 rounds. *)
Theorem C287_place : forall (T : Type) (lt : T -> T -> bool) x a b f, Forall (fun y => lt y x = true) a -> Forall (fun y => lt y x = false) b ->
  len (a ++ b) <= INT_MAX -> (31 <= f)%nat -> lower_bound lt f (a ++ b) x = Ok (len a).
Proof. exact lower_bound_place. Qed.
Print Assumptions C287_place.

(** In a sorted List this is the place of x, if x is there. *)
Theorem C287_sorted : forall (T : Type) (lt : T -> T -> bool), strict_total lt -> forall x l f,
  StronglySorted (fun y z => lt z y = false) l -> len l <= INT_MAX -> (31 <= f)%nat ->
  exists a b, l = a ++ b /\ lower_bound lt f l x = Ok (len a) /\ Forall (fun y => lt y x = true) a /\ Forall (fun y => lt y x = false) b /\
    (In x l <-> exists b', b = x :: b').
Proof. exact lower_bound_sorted. Qed.
Print Assumptions C287_sorted.

(** With (lo + hi) / 2 the same holds up to 2^30 elements. *)
Theorem C287_sum : forall (T : Type) (lt : T -> T -> bool) x a b f, Forall (fun y => lt y x = true) a -> Forall (fun y => lt y x = false) b ->
  len (a ++ b) <= 2 ^ 30 -> (31 <= f)%nat -> lower_bound_sum lt f (a ++ b) x = Ok (len a).
Proof. exact lower_bound_sum_place. Qed.
Print Assumptions C287_sum.

(** With more elements that are all less than x, lo + hi overflows. *)
Theorem C287_sum_overflow : forall (T : Type) (lt : T -> T -> bool) x l f, Forall (fun y => lt y x = true) l -> 2 ^ 30 < len l <= INT_MAX -> (31 <= f)%nat ->
  lower_bound_sum lt f l x = UB SignedOverflow.
Proof. exact lower_bound_sum_over. Qed.
Print Assumptions C287_sum_overflow.

Example C287_case : StronglySorted (fun y z => (z <? y) = false) [2; 3; 3; 5; 8] /\ lower_bound Z.ltb 31 [2; 3; 3; 5; 8] 3 = Ok 1 /\
  lower_bound Z.ltb 31 [2; 3; 3; 5; 8] 4 = Ok 3 /\ lower_bound Z.ltb 31 [2; 3; 3; 5; 8] 9 = Ok 5 /\ lower_bound_sum Z.ltb 31 [2; 3; 3; 5; 8] 3 = Ok 1.
Proof. split; [repeat constructor|]. repeat split. Qed.
Example C287_case_overflow : exists l, Forall (fun y => (y <? 1) = true) l /\ 2 ^ 30 < len l <= INT_MAX.
Proof.
  exists (repeat 0 (Z.to_nat INT_MAX)). split.
  - apply Forall_forall. intros y I. apply repeat_spec in I. subst y. reflexivity.
  - unfold len. rewrite repeat_length, Z2Nat.id; unfold INT_MAX; lia.
Qed.
