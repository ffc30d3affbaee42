(** Specification vocabulary for List: plain sequences. *)
From Coq Require Import ZArith List Bool Ascii Permutation.
From Verif Require Import Outcome.
Import ListNotations.
Open Scope Z_scope.

(** The position an index denotes in a sequence of [n] elements: counted from the front, or
    from the back when negative. *)
Definition position (n i : Z) : option nat :=
  if (0 <=? i) && (i <? n) then Some (Z.to_nat i)
  else if (- n <=? i) && (i <? 0) then Some (Z.to_nat (n + i))
  else None.

(** [l] is [a], then the elements from position [k] on. *)
Definition cut {T} (l a b : list T) (k : Z) : Prop := l = a ++ b /\ Z.of_nat (length a) = k.

(** [r] is [l] rotated left by [n]. *)
Definition rotated {T} (l r : list T) (n : Z) : Prop :=
  length r = length l /\
  forall j, 0 <= j < Z.of_nat (length l) ->
    nth_error r (Z.to_nat j) = nth_error l (Z.to_nat ((j + n) mod Z.of_nat (length l))).

(** First occurrences, in order. *)
Fixpoint firsts {T} (eqb : T -> T -> bool) (l : list T) : list T :=
  match l with
  | [] => []
  | x :: l' => x :: filter (fun y => negb (eqb x y)) (firsts eqb l')
  end.

(** [lt] is a strict weak order: the precondition of std::stable_sort. *)
Definition strict_weak {T} (lt : T -> T -> bool) : Prop :=
  (forall x, lt x x = false) /\
  (forall x y z, lt x y = true -> lt y z = true -> lt x z = true) /\
  (forall x y z, lt x y = true -> lt x z = true \/ lt z y = true).

(** Neither goes before the other. *)
Definition same_rank {T} (lt : T -> T -> bool) (x y : T) : bool := negb (lt x y) && negb (lt y x).

(** [r] is [l] in non-decreasing order, equivalent elements in their old relative order. *)
Definition stably_sorted {T} (lt : T -> T -> bool) (l r : list T) : Prop :=
  Permutation l r /\
  (forall a x b y c, r = a ++ x :: b ++ y :: c -> lt y x = false) /\
  (forall x, filter (same_rank lt x) r = filter (same_rank lt x) l).

(** Index [i] still lies before the end point [stop] when walking with [step]. *)
Definition before (step stop i : Z) : Prop := if 0 <? step then i < stop else stop < i.
Definition beforeb (step stop i : Z) : bool := if 0 <? step then i <? stop else stop <? i.

(** [r] lists the elements at [start], [start + step], ... before [stop]. *)
Definition sliced {T} (l r : list T) (start stop step : Z) : Prop :=
  forall k, nth_error r k =
    if beforeb step stop (start + Z.of_nat k * step)
    then nth_error l (Z.to_nat (start + Z.of_nat k * step)) else None.

(** No index computed on the way overflows. *)
Definition slice_fits (start stop step : Z) : Prop :=
  forall k : nat, before step stop (start + Z.of_nat k * step) ->
    INT_MIN <= start + (Z.of_nat k + 1) * step <= INT_MAX.

(** An index counted from the end when negative. *)
Definition from_back (n i : Z) : Z := if i <? 0 then i + n else i.

(** [r] is the first position in [start, stop) whose element compares equal to [x], or -1. *)
Definition first_at {T} (eqb : T -> T -> bool) (l : list T) (x : T) (start stop r : Z) : Prop :=
  (r = -1 \/ start <= r < stop /\ exists y, nth_error l (Z.to_nat r) = Some y /\ eqb y x = true) /\
  forall k y, start <= k < (if r =? -1 then stop else r) -> nth_error l (Z.to_nat k) = Some y -> eqb y x = false.

(** Text of a sequence: elements separated by ", ". *)
Fixpoint commas (texts : list (list ascii)) : list ascii :=
  match texts with
  | [] => []
  | [t] => t
  | t :: ts => t ++ ","%char :: " "%char :: commas ts
  end.

(** Lexicographic order of sequences for an element order [lt]. *)
Inductive lex_lt {T} (lt : T -> T -> Prop) : list T -> list T -> Prop :=
| lex_nil : forall y w, lex_lt lt [] (y :: w)
| lex_head : forall x y v w, lt x y -> lex_lt lt (x :: v) (y :: w)
| lex_tail : forall x v w, lex_lt lt v w -> lex_lt lt (x :: v) (x :: w).

(** [eqb] decides equality. *)
Definition decides {T} (eqb : T -> T -> bool) : Prop := forall x y, eqb x y = true <-> x = y.

(** [cmp] is the three-way comparison of a strict total order [lt]. *)
Definition total_order {T} (cmp : T -> T -> comparison) (lt : T -> T -> Prop) : Prop :=
  (forall x y, CompareSpec (x = y) (lt x y) (lt y x) (cmp x y)) /\
  (forall x, ~ lt x x) /\ (forall x y z, lt x y -> lt y z -> lt x z).
