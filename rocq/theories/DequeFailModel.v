(** sources/deque.hpp when allocations and copies of elements may throw (see FailModel): which events each member causes, and
    what a member that fails leaves behind. The values are those of DequeModel. *)
From Coq Require Import ZArith List Bool Ascii.
From Verif Require Import Outcome ListModel DequeModel FailModel FailRunModel.
Import ListNotations.
Open Scope Z_scope.

Section DequeFail.
Context {T : Type}.
(** [nodes k] is the number of allocations ([std::deque] keeps blocks of elements and a table of blocks) that are made by a call which
    needs room when event [k] is next. *)
Variables (ok : nat -> bool) (nodes : nat -> nat).
Variables (eqb : T -> T -> bool) (show : T -> list ascii).

Notation qm := (xm (list T)).

Definition fd_room {St} : xm St unit := fun s k => xevents ok (nodes k) s k.

(** deque.hpp:33-43: the constructors of [std::deque] from a range allocate, then copy. *)
Definition fd_new {St} (l : list T) : xm St (list T) := fd_room ;~ xevents ok (length l) ;~ xret l.

(** The implicit copy assignment from another Deque: copy-assigns element by element while both have elements, then removes what is
    too much, or makes room for the rest and copies it there. *)
Fixpoint fd_assign_loop (n : nat) (done todo : list T) : qm unit :=
  match n, todo with
  | S n', x :: todo' =>
      xevent ok ;~ l <~ xget ;; xput (done ++ x :: skipn (S (length done)) l) ;~ fd_assign_loop n' (done ++ [x]) todo'
  | _, _ => xret tt
  end.
Definition fd_assign (w : list T) : qm unit :=
  l <~ xget ;; fd_assign_loop (Nat.min (length l) (length w)) [] w ;~
  (if Nat.ltb (length l) (length w) then fd_room ;~ xevents ok (length w - length l) else xret tt) ;~ xput w.

(** [deque.back() = x], [deque.front() = x], [deque[i] = x]; deque.hpp:91-124, then one copy assignment *)
Definition fd_set_back (x : T) : qm unit := l <~ xget ;; xlift (deq_back l) ;~ xevent ok ;~ xcalm (deq_set_back x).
Definition fd_set_front (x : T) : qm unit := l <~ xget ;; xlift (deq_front l) ;~ xevent ok ;~ xcalm (deq_set_front x).
Definition fd_set (i : Z) (x : T) : qm unit := l <~ xget ;; xlift (deq_at l i) ;~ xevent ok ;~ xcalm (deq_set i x).

(** deque.hpp:153-166: room is made if needed, then the element is copied into it. *)
Definition fd_push_back (x : T) : qm unit :=
  l <~ xget ;; xlift (check_full (size l) INT_MAX) ;~ fd_room ;~ xevent ok ;~ xput (l ++ [x]).
Definition fd_push_front (x : T) : qm unit :=
  l <~ xget ;; xlift (check_full (size l) INT_MAX) ;~ fd_room ;~ xevent ok ;~ xput (x :: l).
(** deque.hpp:190-202: at either end [std::deque::insert] makes room for all, copies all, and only then changes the end. The range is
    not part of the deque and its iterators are at least forward iterators. *)
Definition fd_extend_back (w : list T) : qm unit :=
  match w with [] => xret tt | _ => l <~ xget ;; fd_room ;~ xevents ok (length w) ;~ xput (l ++ w) end.
Definition fd_extend_front (w : list T) : qm unit :=
  match w with [] => xret tt | _ => l <~ xget ;; fd_room ;~ xevents ok (length w) ;~ xput (w ++ l) end.

(** ** Programs: the statements of DequeModel. The others move, swap, destroy or read elements. *)
Notation call := (on_object DThrow).
Notation new := (new_object DThrow).
Notation look := (looking DThrow).
Definition fdstep (c : dstmt T) (s : nat -> list T) (k : nat) : progress (list T) (devent T) :=
  match c with
  | DInit v xs => new s v k (fd_new xs)
  | DCopy v w => if Nat.eqb v w then Ok (s, k, []) else call s v k (fd_assign (s w)) dsilent
  | DMove v w => if Nat.eqb v w then UB SelfRange else Ok (place (place s v (s w)) w [], k, [])
  | DBack v => look s k (xlift (deq_back (s v))) (fun x => [DElem x])
  | DFront v => look s k (xlift (deq_front (s v))) (fun x => [DElem x])
  | DGet v i => look s k (xlift (deq_at (s v) i)) (fun x => [DElem x])
  | DSetBack v x => call s v k (fd_set_back x) dsilent
  | DSetFront v x => call s v k (fd_set_front x) dsilent
  | DSet v i x => call s v k (fd_set i x) dsilent
  | DPushBack v x => call s v k (fd_push_back x) dsilent
  | DPushFront v x => call s v k (fd_push_front x) dsilent
  | DPopBack v => call s v k (xcalm deq_pop_back) (fun x => [DElem x])
  | DPopFront v => call s v k (xcalm deq_pop_front) (fun x => [DElem x])
  | DExtendBack v w =>
      if size (s w) <=? INT_MAX - size (s v) then
        (if Nat.eqb v w then UB SelfRange else call s v k (fd_extend_back (s w)) dsilent)
      else Ok (s, k, [])
  | DExtendFront v w =>
      if size (s w) <=? INT_MAX - size (s v) then
        (if Nat.eqb v w then UB SelfRange else call s v k (fd_extend_front (s w)) dsilent)
      else Ok (s, k, [])
  | DShr v n => call s v k (xcalm (deq_shr n)) dsilent
  | DShl v n => call s v k (xcalm (deq_shl n)) dsilent
  | DReverse v => call s v k (xcalm deq_reverse) dsilent
  | DClear v => call s v k (xcalm deq_clear) dsilent
  | DSize v => look s k (xlift (Ok (size (s v)))) (fun n => [DNum n])
  | DIsEmpty v => look s k (xlift (Ok (deq_is_empty (s v)))) (fun b => [DBool b])
  | DEqual v w => look s k (xlift (Ok (deq_eqb eqb (s v) (s w)))) (fun b => [DBool b])
  | DPrint v => look s k (xlift (Ok (deq_print show (s v)))) (fun t => [DText t])
  end.

Definition fdrun : list (dstmt T) -> (nat -> list T) -> nat -> progress (list T) (devent T) := steps fdstep.
End DequeFail.
