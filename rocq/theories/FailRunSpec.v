(** Programs with failing statements, for the client. *)
From Coq Require Import ZArith List Bool.
From Verif Require Import Outcome FailModel FailRunModel IntMemSpec.
Import ListNotations.

(** Every variable holds the same. *)
Definition alike {St} (s s' : nat -> St) : Prop := forall v, s' v = s v.

(** How a statement may end that goes through [base] when nothing fails. Event [k] is the first one that is new. Either no event
    failed, and the statement did what [base] says; or event [n] was the first to fail, the client saw that, and [left] tells
    what was left. *)
Definition ends {St Ev} (ok : nat -> bool) (base : outcome ((nat -> St) * list Ev)) (left : (nat -> St) -> Prop) (k : nat)
  (r : outcome ((nat -> St) * nat * list (seen Ev))) : Prop :=
  match r with
  | Ok (s', k', ev) =>
      ((k <= k')%nat /\ plenty ok k k' /\ exists s0 ev0, base = Ok (s0, ev0) /\ alike s0 s' /\ ev = map Saw ev0) \/
      (exists n, ev = [Failed n] /\ (k <= n)%nat /\ k' = S n /\ ok n = false /\ plenty ok k n /\ left s')
  | Throw _ => False
  | UB u => base = UB u
  | OutOfFuel => base = OutOfFuel
  end.

(** Programs on abstract states: every statement does what [spec] says, or fails and leaves what [left] says. *)
Inductive survives {E Ev Stmt} (spec : Stmt -> E -> E -> list Ev -> Prop) (left : Stmt -> E -> E -> Prop)
  : list Stmt -> E -> E -> list (seen Ev) -> Prop :=
| sv_nil : forall e, survives spec left [] e e []
| sv_done : forall c rest e e1 e2 ev1 ev2, spec c e e1 ev1 -> survives spec left rest e1 e2 ev2 ->
    survives spec left (c :: rest) e e2 (map Saw ev1 ++ ev2)
| sv_failed : forall c rest e e1 e2 n ev2, left c e e1 -> survives spec left rest e1 e2 ev2 ->
    survives spec left (c :: rest) e e2 (Failed n :: ev2).

(** [spec], for states that are only compared variable by variable. *)
Definition pointwise {St Ev Stmt} (spec : Stmt -> (nat -> St) -> (nat -> St) -> list Ev -> Prop) (c : Stmt) (e e' : nat -> St) (ev : list Ev) : Prop :=
  exists e0, spec c e e0 ev /\ alike e0 e'.

(** No exception was seen. *)
Definition calm {Ev} (throws : exn -> Ev) (ev : list (seen Ev)) : Prop :=
  forall x, In x ev -> match x with Failed _ => False | Saw y => forall e, y <> throws e end.
