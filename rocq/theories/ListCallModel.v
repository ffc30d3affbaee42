(** The members of List that call code of the client, sources/list.hpp: a function given as argument or the [==] of the
    element type. Definitions only.

    The client's code has a state of its own, of any type [S], and may throw, an exception of any type [X]. It returns
    normally or throws; other behaviour is not considered. Elements are moved as they are copied. *)
From Coq Require Import ZArith List Bool.
From Verif Require Import Outcome ListModel.
Import ListNotations.
Open Scope Z_scope.

Inductive cres (X A : Type) := CRet (a : A) | CThrow (x : X) | CUB (u : ub).
Arguments CRet {X A}. Arguments CThrow {X A}. Arguments CUB {X A}.

Section Calls.
Context {T S X : Type}.

(** A call of the client's code; a function that gets an element by reference may change it, also when it throws. *)
Definition call (A : Type) : Type := S -> (A + X) * S.
Definition ref_call : Type := T -> S -> (T + T * X) * S.

(** Code of the library that works on the vector [vector_] and calls the client. *)
Definition CM (A : Type) : Type := list T * S -> cres X A * (list T * S).
Definition cret {A} (a : A) : CM A := fun vs => (CRet a, vs).
Definition cbind {A B} (m : CM A) (f : A -> CM B) : CM B := fun vs =>
  match m vs with
  | (CRet a, vs') => f a vs'
  | (CThrow x, vs') => (CThrow x, vs')
  | (CUB u, vs') => (CUB u, vs')
  end.
Definition ask {A} (c : call A) : CM A := fun vs =>
  match c (snd vs) with
  | (inl a, s) => (CRet a, (fst vs, s))
  | (inr x, s) => (CThrow x, (fst vs, s))
  end.
(** [vector_.size()], [vector_[i]], [vector_[i] = y], [vector_.erase(begin + i, begin + j)] *)
Definition vsize : CM nat := fun vs => (CRet (length (fst vs)), vs).
Definition vread (i : nat) : CM T := fun vs =>
  match nth_error (fst vs) i with Some y => (CRet y, vs) | None => (CUB OutOfBounds, vs) end.
Definition vwrite (i : nat) (y : T) : CM unit := fun vs =>
  match nth_error (fst vs) i with
  | Some _ => (CRet tt, (firstn i (fst vs) ++ y :: skipn (i + 1) (fst vs), snd vs))
  | None => (CUB OutOfBounds, vs)
  end.
Definition vcut (i j : nat) : CM unit := fun vs =>
  if Nat.leb i j && Nat.leb j (length (fst vs)) then (CRet tt, (firstn i (fst vs) ++ skipn j (fst vs), snd vs)) else (CUB InvalidRange, vs).
(** Calling [action] with a reference to [vector_[i]]. *)
Definition ask_at (action : ref_call) (i : nat) : CM unit := fun vs =>
  match nth_error (fst vs) i with
  | Some y =>
      match action y (snd vs) with
      | (inl z, s) => vwrite i z (fst vs, s)
      | (inr (z, x), s) =>
          match vwrite i z (fst vs, s) with
          | (CRet _, vs') => (CThrow x, vs')
          | other => other
          end
      end
  | None => (CUB OutOfBounds, vs)
  end.

Local Notation "x <- m ;; f" := (cbind m (fun x => f)) (at level 61, m at next level, right associativity).

(** [std::find(begin + first, begin + first + n, x)], the position found. *)
Fixpoint find_calls (eq : T -> T -> call bool) (x : T) (n first : nat) : CM nat :=
  match n with
  | O => cret first
  | Datatypes.S n' => y <- vread first ;; b <- ask (eq y x) ;; if b then cret first else find_calls eq x n' (first + 1)
  end.
(** [std::count] *)
Fixpoint count_calls (eq : T -> T -> call bool) (x : T) (n first : nat) (total : Z) : CM Z :=
  match n with
  | O => cret total
  | Datatypes.S n' =>
      y <- vread first ;; b <- ask (eq y x) ;; count_calls eq x n' (first + 1) (if b then total + 1 else total)
  end.
(** [std::remove] *)
Fixpoint remove_calls (eq : T -> T -> call bool) (x : T) (n first result : nat) : CM nat :=
  match n with
  | O => cret result
  | Datatypes.S n' =>
      y <- vread first ;; b <- ask (eq y x) ;;
      if b then remove_calls eq x n' (first + 1) result
      else _ <- vwrite result y ;; remove_calls eq x n' (first + 1) (result + 1)
  end.
(** [std::copy_if] onto its own range *)
Fixpoint copy_if_calls (p : T -> call bool) (n first result : nat) : CM nat :=
  match n with
  | O => cret result
  | Datatypes.S n' =>
      y <- vread first ;; b <- ask (p y) ;;
      if b then _ <- vwrite result y ;; copy_if_calls p n' (first + 1) (result + 1)
      else copy_if_calls p n' (first + 1) result
  end.
(** [std::for_each] *)
Fixpoint for_each_calls (action : ref_call) (n first : nat) : CM unit :=
  match n with
  | O => cret tt
  | Datatypes.S n' => _ <- ask_at action first ;; for_each_calls action n' (first + 1)
  end.
(** [std::find(buffer.begin(), buffer.end(), e) == buffer.end()] for a local vector *)
Fixpoint absent_calls (eq : T -> T -> call bool) (e : T) (buffer : list T) : CM bool :=
  match buffer with
  | [] => cret true
  | y :: buffer' => b <- ask (eq y e) ;; if b then cret false else absent_calls eq e buffer'
  end.
Fixpoint uniq_calls (eq : T -> T -> call bool) (n first : nat) (buffer : list T) : CM (list T) :=
  match n with
  | O => cret buffer
  | Datatypes.S n' =>
      e <- vread first ;; new <- absent_calls eq e buffer ;;
      uniq_calls eq n' (first + 1) (if new then buffer ++ [e] else buffer)
  end.
(** [==] of two vectors of equal length *)
Fixpoint equal_calls (eq : T -> T -> call bool) (w : list T) (first : nat) : CM bool :=
  match w with
  | [] => cret true
  | z :: w' => y <- vread first ;; b <- ask (eq y z) ;; if b then equal_calls eq w' (first + 1) else cret false
  end.

(** list.hpp:127-132; [int] arithmetic as in [list_index] *)
Definition list_index_calls (eq : T -> T -> call bool) (x : T) (start stop : Z) : CM Z := fun vs =>
  let v := fst vs in
  let stop := if size v <? stop then size v else stop in
  if (start <? 0) || (stop <? start) || (len v <? stop) then (CUB InvalidRange, vs)
  else (it <- find_calls eq x (Z.to_nat (stop - start)) (Z.to_nat start) ;;
        cret (if Z.of_nat it =? stop then -1 else wrap32 (Z.of_nat it))) vs.
(** list.hpp:135-138 *)
Definition list_contains_calls (eq : T -> T -> call bool) (x : T) (start stop : Z) : CM bool :=
  i <- list_index_calls eq x start stop ;; cret (negb (i =? -1)).
(** list.hpp:141-144 *)
Definition list_count_calls (eq : T -> T -> call bool) (x : T) : CM Z :=
  n <- vsize ;; c <- count_calls eq x n 0 0 ;; cret (wrap32 c).
(** list.hpp:196-204 *)
Definition list_subtract_calls (eq : T -> T -> call bool) (x : T) : CM unit :=
  n <- vsize ;; it <- find_calls eq x n 0 ;; if Nat.eqb it n then cret tt else vcut it (it + 1).
(** list.hpp:213-218 *)
Definition list_divide_calls (eq : T -> T -> call bool) (x : T) : CM unit :=
  n <- vsize ;; it <- remove_calls eq x n 0 0 ;; vcut it n.
(** list.hpp:266-279 *)
Definition list_uniquify_calls (eq : T -> T -> call bool) : CM unit :=
  n <- vsize ;; buffer <- uniq_calls eq n 0 [] ;; fun vs => (CRet tt, (buffer, snd vs)).
(** list.hpp:304-309 *)
Definition list_map_calls (action : ref_call) : CM unit :=
  n <- vsize ;; for_each_calls action n 0.
(** list.hpp:313-319; the overlapping ranges of [std::copy_if] are the subject of [list_filter] *)
Definition list_filter_calls (p : T -> call bool) : CM unit :=
  n <- vsize ;; it <- copy_if_calls p n 0 0 ;; vcut it n.
(** list.hpp:54: [==] of std::vector; sizes first *)
Definition list_equal_calls (eq : T -> T -> call bool) (w : list T) : CM bool :=
  n <- vsize ;; if Nat.eqb n (length w) then equal_calls eq w 0 else cret false.
End Calls.
Arguments call S X A : clear implicits. Arguments ref_call T S X : clear implicits. Arguments CM T S X A : clear implicits.
