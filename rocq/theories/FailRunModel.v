(** Programs on variables that hold objects whose members may fail (see FailModel): the parts that are common to Deque, Set,
    Dict and Str. Each statement is in its own [try]/[catch]; this file models no function of the library by itself. *)
From Coq Require Import ZArith List Bool.
From Verif Require Import Outcome FailModel.
Import ListNotations.

(** What the client sees: what it sees when nothing fails, or that event number [n] of the run failed. *)
Inductive seen (Ev : Type) := Saw (e : Ev) | Failed (n : nat).
Arguments Saw {Ev}. Arguments Failed {Ev}.

Section Run.
Context {St Ev Stmt : Type}.
Definition objects := nat -> St.
Definition place (s : objects) (v : nat) (x : St) : objects := fun w => if Nat.eqb w v then x else s w.
Definition progress := outcome (objects * nat * list (seen Ev)).

Variable throws : exn -> Ev.

(** The end of a statement that was stopped. *)
Definition stopped (s : objects) (k : nat) (f : xfault) : progress :=
  match f with
  | XFail n => Ok (s, k, [Failed n])
  | XThrow e => Ok (s, k, [Saw (throws e)])
  | XUB u => UB u
  | XFuel => OutOfFuel
  end.
(** A member call on variable [v]; a new object moved into [u]; a call that changes no variable. *)
Definition on_object {A} (s : objects) (v k : nat) (m : xm St A) (out : A -> list Ev) : progress :=
  match m (s v) k with
  | (XRet a, x, k') => Ok (place s v x, k', map Saw (out a))
  | (XErr f, x, k') => stopped (place s v x) k' f
  end.
Definition new_object (s : objects) (u k : nat) (m : xm unit St) : progress :=
  match m tt k with
  | (XRet x, _, k') => Ok (place s u x, k', [])
  | (XErr f, _, k') => stopped s k' f
  end.
Definition looking {A} (s : objects) (k : nat) (m : xm unit A) (out : A -> list Ev) : progress :=
  match m tt k with
  | (XRet a, _, k') => Ok (s, k', map Saw (out a))
  | (XErr f, _, k') => stopped s k' f
  end.

Variable step : Stmt -> objects -> nat -> progress.
Fixpoint steps (prog : list Stmt) (s : objects) (k : nat) : progress :=
  match prog with
  | [] => Ok (s, k, [])
  | c :: rest =>
      r <- step c s k ;; let '(s1, k1, ev1) := r in
      r' <- steps rest s1 k1 ;; let '(s2, k2, ev2) := r' in Ok (s2, k2, ev1 ++ ev2)
  end.
End Run.
Arguments objects : clear implicits. Arguments progress : clear implicits.

(** A call without events. *)
Definition xcalm {St A} (f : M St A) : xm St A := fun s k =>
  match f s with
  | (Ok a, s') => (XRet a, s', k)
  | (Throw e, s') => (XErr (XThrow e), s', k)
  | (UB u, s') => (XErr (XUB u), s', k)
  | (OutOfFuel, s') => (XErr XFuel, s', k)
  end.
