(** A client program: searching a sorted List by halving. It is not part of the repository; it calls the models of the members
    it uses. *)
From Coq Require Import ZArith List Bool.
From Verif Require Import Outcome ListModel.
Open Scope Z_scope.

(** [while (lo < hi) { int mid = lo + (hi - lo) / 2; if (list[mid] < x) lo = mid + 1; else hi = mid; }]: the [lo] at the end;
    list.hpp:90-95. [fuel] bounds the number of rounds. *)
Fixpoint bisect {T} (lt : T -> T -> bool) (fuel : nat) (l : list T) (x : T) (lo hi : Z) : outcome Z :=
  if lo <? hi
  then match fuel with
  | O => OutOfFuel
  | S f =>
      d <- chk32 (hi - lo) ;; mid <- chk32 (lo + Z.quot d 2) ;; e <- list_at l mid ;;
      if lt e x then lo' <- chk32 (mid + 1) ;; bisect lt f l x lo' hi else bisect lt f l x lo mid
  end
  else Ok lo.
(** The same with [int mid = (lo + hi) / 2]. *)
Fixpoint bisect_sum {T} (lt : T -> T -> bool) (fuel : nat) (l : list T) (x : T) (lo hi : Z) : outcome Z :=
  if lo <? hi
  then match fuel with
  | O => OutOfFuel
  | S f =>
      d <- chk32 (lo + hi) ;; e <- list_at l (Z.quot d 2) ;;
      if lt e x then lo' <- chk32 (Z.quot d 2 + 1) ;; bisect_sum lt f l x lo' hi else bisect_sum lt f l x lo (Z.quot d 2)
  end
  else Ok lo.
(** [int lo = 0, hi = list.size();] and the loop; list.hpp:109-112 *)
Definition lower_bound {T} (lt : T -> T -> bool) (fuel : nat) (l : list T) (x : T) : outcome Z := bisect lt fuel l x 0 (size l).
Definition lower_bound_sum {T} (lt : T -> T -> bool) (fuel : nat) (l : list T) (x : T) : outcome Z := bisect_sum lt fuel l x 0 (size l).
