(** Deques whose element copies and allocations may throw: what a call that fails leaves behind, for the client. *)
From Coq Require Import ZArith List Bool Ascii.
From Verif Require Import Outcome DequeModel FailModel FailRunModel FailRunSpec.
Import ListNotations.
Open Scope Z_scope.

Section Spec.
Context {T : Type}.

(** The statements after which nothing but "everything as it was" can be left. *)
Definition dsteady (c : dstmt T) : Prop := match c with DCopy v w => v = w | _ => True end.

(** What a statement that was stopped by a failing event leaves: everything as it was; after [v = w], the first [j] elements of
    [w] followed by those of [v] from there on. *)
Inductive dleft : dstmt T -> dstore T -> dstore T -> Prop :=
| dl_same : forall c s s', dsteady c -> alike s s' -> dleft c s s'
| dl_copy : forall v w j s s', v <> w -> (j < length (s w))%nat -> (j <= length (s v))%nat ->
    alike (dset s v (firstn j (s w) ++ skipn j (s v))) s' -> dleft (DCopy v w) s s'.

(** The statements that cause no event at all. *)
Definition deventless (c : dstmt T) : Prop :=
  match c with
  | DCopy v w => v = w
  | DInit _ _ | DSetBack _ _ | DSetFront _ _ | DSet _ _ _ | DPushBack _ _ | DPushFront _ _ | DExtendBack _ _ | DExtendFront _ _ => False
  | _ => True
  end.

(** The events of a statement that ends normally: [nodes] as in DequeFailModel, [k] the first event. *)
Definition devent_count (nodes : nat -> nat) (c : dstmt T) (s : dstore T) (k : nat) : nat :=
  let size v := length (s v) in
  (match c with
  | DInit _ xs => nodes k + length xs
  | DCopy v w => if Nat.eqb v w then 0 else if Nat.leb (size w) (size v) then size w else nodes (k + size v) + size w
  | DSetBack _ _ | DSetFront _ _ | DSet _ _ _ => 1
  | DPushBack _ _ | DPushFront _ _ => nodes k + 1
  | DExtendBack v w | DExtendFront v w =>
      if (INT_MAX <? Z.of_nat (size v) + Z.of_nat (size w))%Z then 0 else match s w with [] => 0 | _ => nodes k + size w end
  | _ => 0
  end)%nat.
End Spec.
