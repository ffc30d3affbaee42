(** Dicts whose copies of keys and values and whose allocations may throw: what a call that fails leaves behind, for the client. *)
From Coq Require Import ZArith List Bool Ascii.
From Verif Require Import Outcome SetSpec DictModel DictSpec FailModel FailRunModel FailRunSpec.
Import ListNotations.
Open Scope Z_scope.

Section Spec.
Context {K V : Type} (ltk : K -> K -> bool).
Notation fmap := (@fmap K V).
Notation fstore := (@fstore K V).

(** The statements after which nothing but "everything as it was" can be left. *)
Definition msteady (c : mstmt K V) : Prop :=
  match c with
  | MCopy v w => v = w
  | MPop _ | MExtend _ _ | MExtendDict _ _ => False
  | _ => True
  end.

(** The entries of [m] with keys below [k]. *)
Definition below_key (m : fmap) (k : K) : fmap := fun j => if ltk j k then m j else None.

(** What a statement that was stopped by a failing event leaves of the finite maps: everything as it was; after [v = w] an empty [v];
    after [v.pop()] a [v] without the entry that should have been returned; after [v.extend(...)] a [v] extended by the entries of
    the range before one whose key was new. *)
Inductive fleft : mstmt K V -> fstore -> fstore -> Prop :=
| fl_same : forall c e, msteady c -> fleft c e e
| fl_copy : forall v w e, v <> w -> ~ nothing (has (e w)) -> fleft (MCopy v w) e (fset e v no_entry)
| fl_pop : forall v e k m, least ltk (has (e v)) k -> drops (e v) k m -> fleft (MPop v) e (fset e v m)
| fl_extend : forall v pre k x post e n m, card (has (e v)) n -> n + Z.of_nat (length (pre ++ (k, x) :: post)) <= INT_MAX ->
    e v k = None -> (forall y, ~ In (k, y) pre) -> extended (e v) pre m -> fleft (MExtend v (pre ++ (k, x) :: post)) e (fset e v m)
| fl_extend_dict : forall v w k e, v <> w -> mfit (e v) (e w) -> has (e w) k -> e v k = None ->
    fleft (MExtendDict v w) e (fset e v (joined (e v) (below_key (e w) k))).

(** The statements that cause no event at all. *)
Definition meventless (c : mstmt K V) : Prop :=
  match c with
  | MCopy v w => v = w
  | MMove _ _ | MGet _ _ | MGetOr _ _ _ | MContains _ _ | MRemove _ _ | MClear _ | MSize _ | MIsEmpty _ | MEqual _ _ | MIterate _
  | MPrint _ => True
  | _ => False
  end.

(** The events of a statement that ends normally, from the sizes before and after it and the number [n] of things it showed. *)
Definition mevent_count (c : mstmt K V) (s s' : mstore K V) (n : nat) : nat :=
  let size v := length (s v) in
  let size' v := length (s' v) in
  (match c with
  | MInit v _ => 3 * size' v
  | MCopy v w => if Nat.eqb v w then 0 else 2 * size w + (size w - size v)
  | MSet _ _ _ => 1
  | MAdd v _ _ => 2 + 2 * (size' v - size v)
  | MPop _ => 2
  | MExtend v _ | MExtendDict v _ => 3 * (size' v - size v)
  | MMin _ | MMax _ => 1
  | MKeys _ | MValues _ => 2 * n
  | MItems _ => 3 * n
  | _ => 0
  end)%nat.
End Spec.
