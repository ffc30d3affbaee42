(** Containers whose allocations and element copies may throw.

    Every allocation and every copy of an element is an event; the events of a run are numbered from 0 and [ok k]
    tells whether event [k] succeeds. A failing event throws ([std::bad_alloc], or whatever the copy constructor or
    the copy assignment of the element throws): the exception is named by the number of the event. Moving an element,
    comparing, destroying and releasing memory never throw. This file models no function of the library by itself;
    it fixes the vocabulary and models the parts of [std::vector] that List uses. *)
From Coq Require Import ZArith List Bool.
From Verif Require Import Outcome.
Import ListNotations.

(** Why a call stops: event [n] failed, or an exception of the library, or undefined behaviour, or out of fuel. *)
Inductive xfault := XFail (n : nat) | XThrow (e : exn) | XUB (u : ub) | XFuel.
Inductive xres (A : Type) := XRet (a : A) | XErr (f : xfault).
Arguments XRet {A}. Arguments XErr {A}.

(** A call on an object of type [St]: its outcome, the object afterwards, the number of the next event. *)
Definition xm (St A : Type) := St -> nat -> xres A * St * nat.
Definition xret {St A} (a : A) : xm St A := fun s k => (XRet a, s, k).
Definition xbind {St A B} (m : xm St A) (f : A -> xm St B) : xm St B := fun s k =>
  match m s k with
  | (XRet a, s', k') => f a s' k'
  | (XErr e, s', k') => (XErr e, s', k')
  end.
Definition xget {St} : xm St St := fun s k => (XRet s, s, k).
Definition xput {St} (s : St) : xm St unit := fun _ k => (XRet tt, s, k).
Notation "x <~ m ;; f" := (xbind m (fun x => f)) (at level 61, m at next level, right associativity).
Notation "m ;~ f" := (xbind m (fun _ => f)) (at level 61, right associativity).

(** A computation without events. *)
Definition xlift {St A} (o : outcome A) : xm St A := fun s k =>
  match o with
  | Ok a => (XRet a, s, k)
  | Throw e => (XErr (XThrow e), s, k)
  | UB u => (XErr (XUB u), s, k)
  | OutOfFuel => (XErr XFuel, s, k)
  end.

(** A call on a local object that starts as [x]: the object of the caller is not touched. *)
Definition xlocal {St St' A} (x : St') (m : xm St' A) : xm St (A * St') := fun s k =>
  match m x k with
  | (XRet a, x', k') => (XRet (a, x'), s, k')
  | (XErr e, _, k') => (XErr e, s, k')
  end.

Section Events.
Variable ok : nat -> bool.

(** One event; [n] events one after the other. *)
Definition xevent {St} : xm St unit := fun s k => if ok k then (XRet tt, s, S k) else (XErr (XFail k), s, S k).
Fixpoint xevents {St} (n : nat) : xm St unit :=
  match n with
  | O => xret tt
  | S n' => xevent ;~ xevents n'
  end.
End Events.

(** ** std::vector with its capacity *)
Record rvec (T : Type) := Rvec { relems : list T; rroom : nat }.
Arguments Rvec {T}. Arguments relems {T}. Arguments rroom {T}.

Section Vector.
Context {T : Type}.
Variables (ok : nat -> bool) (grow : nat -> nat -> nat).
(** [nothrow]: the move constructor of the element is declared [noexcept], so that [std::move_if_noexcept] moves;
    [moved x] is what moving leaves of [x]. [grow n m] is the capacity after growing from [n] elements by [m]. *)
Variables (nothrow : bool) (moved : T -> T).

Notation vm := (xm (rvec T)).

(** Bring [n] elements into new storage: moved, or copied when moving might throw. *)
Definition relocate {St} (n : nat) : xm St unit := if nothrow then xret tt else xevents ok n.

(** [std::vector<T> w(first, last)], [std::vector<T> w(v)]: one allocation of the exact size, one copy for each element. *)
Definition vnew {St} (l : list T) : xm St (rvec T) :=
  match l with
  | [] => xret (Rvec [] 0)
  | _ => xevent ok ;~ xevents ok (length l) ;~ xret (Rvec l (length l))
  end.

(** [v.insert(v.begin() + k, x)] for 0 <= k <= size, [v.push_back(x)] being the case k = size. With room: the copy is made,
    then elements are moved up. Without: the storage is allocated, the copy made in it, the elements brought over. *)
Definition vinsert1 (k : nat) (x : T) : vm unit :=
  v <~ xget ;;
  let l := firstn k (relems v) ++ x :: skipn k (relems v) in
  if Nat.ltb (length (relems v)) (rroom v) then xevent ok ;~ xput (Rvec l (rroom v))
  else xevent ok ;~ xevent ok ;~ relocate (length (relems v)) ;~ xput (Rvec l (grow (length (relems v)) 1)).
Definition vpush (x : T) : vm unit := v <~ xget ;; vinsert1 (length (relems v)) x.

(** [v.insert(v.end(), first, last)] for a range [l] outside [v]. Without room the elements are moved into the new storage
    BEFORE the range is copied; when a copy throws the new storage is given up, and the old one has been moved from. *)
Definition vappend (l : list T) : vm unit :=
  match l with
  | [] => xret tt
  | _ =>
      v <~ xget ;;
      if Nat.leb (length (relems v) + length l) (rroom v) then
        xevents ok (length l) ;~ xput (Rvec (relems v ++ l) (rroom v))
      else
        xevent ok ;~ relocate (length (relems v)) ;~
        (if nothrow then xput (Rvec (map moved (relems v)) (rroom v)) else xret tt) ;~
        xevents ok (length l) ;~ xput (Rvec (relems v ++ l) (grow (length (relems v)) (length l)))
  end.

(** [v = w] where [w] is another vector with elements [l]: new storage if the capacity is too small; otherwise the elements
    are copy-assigned one by one, the missing ones constructed, the others destroyed. *)
Fixpoint vassign_loop (n : nat) (done todo : list T) : vm unit :=
  match n, todo with
  | S n', x :: todo' =>
      xevent ok ;~ v <~ xget ;;
      xput (Rvec (done ++ x :: skipn (S (length done)) (relems v)) (rroom v)) ;~
      vassign_loop n' (done ++ [x]) todo'
  | _, _ => xret tt
  end.
Definition vassign (l : list T) : vm unit :=
  v <~ xget ;;
  if Nat.ltb (rroom v) (length l) then xevent ok ;~ xevents ok (length l) ;~ xput (Rvec l (length l))
  else
    let n := length (relems v) in
    vassign_loop (Nat.min n (length l)) [] l ;~ xevents ok (length l - n) ;~ xput (Rvec l (rroom v)).

(** A call that moves, swaps or destroys elements and copies none: [f] gives the elements afterwards. *)
Definition vcalm {A} (f : M (list T) A) : vm A := fun v k =>
  match f (relems v) with
  | (Ok a, l) => (XRet a, Rvec l (rroom v), k)
  | (Throw e, l) => (XErr (XThrow e), Rvec l (rroom v), k)
  | (UB u, l) => (XErr (XUB u), Rvec l (rroom v), k)
  | (OutOfFuel, l) => (XErr XFuel, Rvec l (rroom v), k)
  end.
End Vector.
