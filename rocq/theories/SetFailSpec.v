(** Sets whose element copies and allocations may throw: what a call that fails leaves behind, for the client. *)
From Coq Require Import ZArith List Bool Ascii.
From Verif Require Import Outcome SetModel SetSpec FailModel FailRunModel FailRunSpec.
Import ListNotations.
Open Scope Z_scope.

Section Spec.
Context {T : Type} (lt : T -> T -> bool).

(** The statements after which nothing but "everything as it was" can be left. *)
Definition tsteady (c : tstmt T) : Prop :=
  match c with
  | TCopy v w => v = w
  | TPop _ | TExtend _ _ | TExtendSet _ _ => False
  | _ => True
  end.

(** What a statement that was stopped by a failing event leaves of the mathematical sets: everything as it was; after [v = w] an
    empty [v]; after [v.pop()] a [v] without the element that should have been returned; after [v.extend(...)] a [v] extended by the
    elements of the range before one, [x], that was new. *)
Inductive zleft : tstmt T -> zstore T -> zstore T -> Prop :=
| zl_same : forall c e, tsteady c -> zleft c e e
| zl_copy : forall v w e, v <> w -> ~ nothing (e w) -> zleft (TCopy v w) e (zset e v empty)
| zl_pop : forall v e x, least lt (e v) x -> zleft (TPop v) e (zset e v (minus (e v) x))
| zl_extend : forall v pre x post e n, card (e v) n -> n + Z.of_nat (length (pre ++ x :: post)) <= INT_MAX -> ~ e v x -> ~ In x pre ->
    zleft (TExtend v (pre ++ x :: post)) e (zset e v (either (e v) (fun y => In y pre)))
| zl_extend_set : forall v w x e, v <> w -> fit (e v) (e w) -> e w x -> ~ e v x ->
    zleft (TExtendSet v w) e (zset e v (either (e v) (fun y => e w y /\ lt y x = true))).

(** The statements that cause no event at all. *)
Definition teventless (c : tstmt T) : Prop :=
  match c with
  | TCopy v w => v = w
  | TMove _ _ | TRemove _ _ | TClear _ | TContains _ _ | TSize _ | TIsEmpty _ | TEqual _ _ | TLess _ _ | TLessEq _ _ | TGreater _ _
  | TGreaterEq _ _ | TIterate _ | TPrint _ => True
  | _ => False
  end.

(** The events of a statement that ends normally, from the sizes before and after it: one allocation and [cost] more for each element
    that comes in, but for [v = w] no allocations for as many nodes as [v] had. *)
Definition tevent_count (cost : nat) (c : tstmt T) (s s' : tstore T) : nat :=
  let size v := length (s v) in
  let size' v := length (s' v) in
  (match c with
  | TInit v _ => S cost * size' v
  | TCopy v w => if Nat.eqb v w then 0 else cost * size w + (size w - size v)
  | TAdd v _ | TExtend v _ | TExtendSet v _ => S cost * (size' v - size v)
  | TAnd u _ _ | TSub u _ _ => S cost * size' u
  | TOr u v w | TXor u v w => if (INT_MAX <? Z.of_nat (size v) + Z.of_nat (size w))%Z then 0 else S cost * size' u
  | TAndA v _ | TSubA v _ => S cost * size' v
  | TOrA v w | TXorA v w => if (INT_MAX <? Z.of_nat (size v) + Z.of_nat (size w))%Z then 0 else S cost * size' v
  | TPop _ | TMin _ | TMax _ => cost
  | _ => 0
  end)%nat.
End Spec.
