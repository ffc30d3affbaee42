(** Set programs on mathematical sets (predicates). *)
From Coq Require Import ZArith List Bool Ascii Sorted.
From Verif Require Import Outcome ListSpec SetModel.
Import ListNotations.
Open Scope Z_scope.

(** [lt] is a strict total order. *)
Definition strict_total {T} (lt : T -> T -> bool) : Prop :=
  (forall x, lt x x = false) /\
  (forall x y z, lt x y = true -> lt y z = true -> lt x z = true) /\
  (forall x y, lt x y = true \/ x = y \/ lt y x = true).
(** Strictly increasing. *)
Definition increasing {T} (lt : T -> T -> bool) (l : list T) : Prop := StronglySorted (fun x y => lt x y = true) l.
(** [l] is the increasing enumeration of [P]. *)
Definition enumerates {T} (lt : T -> T -> bool) (l : list T) (P : T -> Prop) : Prop :=
  increasing lt l /\ forall x, In x l <-> P x.
(** [P] has [n] elements. *)
Definition card {T} (P : T -> Prop) (n : Z) : Prop :=
  exists l, NoDup l /\ (forall x, In x l <-> P x) /\ Z.of_nat (length l) = n.
Definition least {T} (lt : T -> T -> bool) (P : T -> Prop) (x : T) : Prop := P x /\ forall y, P y -> y = x \/ lt x y = true.
Definition greatest {T} (lt : T -> T -> bool) (P : T -> Prop) (x : T) : Prop := P x /\ forall y, P y -> y = x \/ lt y x = true.
Definition nothing {T} (P : T -> Prop) : Prop := forall x, ~ P x.
Definition included {T} (P Q : T -> Prop) : Prop := forall x, P x -> Q x.
Definition same {T} (P Q : T -> Prop) : Prop := forall x, P x <-> Q x.

(** An assignment of mathematical sets to variables. *)
Definition zstore T := nat -> T -> Prop.
Definition zset {T} (e : zstore T) (v : nat) (P : T -> Prop) : zstore T := fun w => if Nat.eqb w v then P else e w.

Section Spec.
Context {T : Type} (lt : T -> T -> bool) (show : T -> list ascii).

Definition empty : T -> Prop := fun _ => False.
Definition plus (P : T -> Prop) (x : T) : T -> Prop := fun y => y = x \/ P y.
Definition minus (P : T -> Prop) (x : T) : T -> Prop := fun y => y <> x /\ P y.
Definition both (P Q : T -> Prop) : T -> Prop := fun y => P y /\ Q y.
Definition either (P Q : T -> Prop) : T -> Prop := fun y => P y \/ Q y.
Definition only (P Q : T -> Prop) : T -> Prop := fun y => P y /\ ~ Q y.
Definition one (P Q : T -> Prop) : T -> Prop := fun y => (P y /\ ~ Q y) \/ (Q y /\ ~ P y).
(** Together the two sets have at most INT_MAX elements (counting common ones twice). *)
Definition fit (P Q : T -> Prop) : Prop := exists m n, card P m /\ card Q n /\ m + n <= INT_MAX.
Definition tells (b : bool) (A : Prop) : Prop := b = true <-> A.

Inductive zstep : tstmt T -> zstore T -> zstore T -> list (tevent T) -> Prop :=
| z_init : forall v xs e, zstep (TInit v xs) e (zset e v (fun y => In y xs)) []
| z_copy : forall v w e, zstep (TCopy v w) e (zset e v (e w)) []
| z_move : forall v w e, v <> w -> zstep (TMove v w) e (zset (zset e v (e w)) w empty) []
| z_add : forall v x e n b, card (e v) n -> n < INT_MAX -> tells b (~ e v x) -> zstep (TAdd v x) e (zset e v (plus (e v) x)) [TBool b]
| z_add_full : forall v x e, card (e v) INT_MAX -> zstep (TAdd v x) e e [TThrow ContainerFull]
| z_remove : forall v x e b, tells b (e v x) -> zstep (TRemove v x) e (zset e v (minus (e v) x)) [TBool b]
| z_pop : forall v e x, least lt (e v) x -> zstep (TPop v) e (zset e v (minus (e v) x)) [TElem x]
| z_pop_empty : forall v e, nothing (e v) -> zstep (TPop v) e e [TThrow ContainerEmpty]
| z_extend : forall v xs e n, card (e v) n -> n + Z.of_nat (length xs) <= INT_MAX ->
    zstep (TExtend v xs) e (zset e v (either (e v) (fun y => In y xs))) []
| z_extend_no : forall v xs e n, card (e v) n -> INT_MAX < n + Z.of_nat (length xs) -> zstep (TExtend v xs) e e []
| z_extend_set : forall v w e, v <> w -> fit (e v) (e w) -> zstep (TExtendSet v w) e (zset e v (either (e v) (e w))) []
| z_extend_set_no : forall v w e, ~ fit (e v) (e w) -> zstep (TExtendSet v w) e e []
| z_clear : forall v e, zstep (TClear v) e (zset e v empty) []
| z_and : forall u v w e, zstep (TAnd u v w) e (zset e u (both (e v) (e w))) []
| z_or : forall u v w e, fit (e v) (e w) -> zstep (TOr u v w) e (zset e u (either (e v) (e w))) []
| z_or_no : forall u v w e, ~ fit (e v) (e w) -> zstep (TOr u v w) e e []
| z_sub : forall u v w e, zstep (TSub u v w) e (zset e u (only (e v) (e w))) []
| z_xor : forall u v w e, fit (e v) (e w) -> zstep (TXor u v w) e (zset e u (one (e v) (e w))) []
| z_xor_no : forall u v w e, ~ fit (e v) (e w) -> zstep (TXor u v w) e e []
| z_and_a : forall v w e, zstep (TAndA v w) e (zset e v (both (e v) (e w))) []
| z_or_a : forall v w e, fit (e v) (e w) -> zstep (TOrA v w) e (zset e v (either (e v) (e w))) []
| z_or_a_no : forall v w e, ~ fit (e v) (e w) -> zstep (TOrA v w) e e []
| z_sub_a : forall v w e, zstep (TSubA v w) e (zset e v (only (e v) (e w))) []
| z_xor_a : forall v w e, fit (e v) (e w) -> zstep (TXorA v w) e (zset e v (one (e v) (e w))) []
| z_xor_a_no : forall v w e, ~ fit (e v) (e w) -> zstep (TXorA v w) e e []
| z_contains : forall v x e b, tells b (e v x) -> zstep (TContains v x) e e [TBool b]
| z_min : forall v e x, least lt (e v) x -> zstep (TMin v) e e [TElem x]
| z_min_empty : forall v e, nothing (e v) -> zstep (TMin v) e e [TThrow ContainerEmpty]
| z_max : forall v e x, greatest lt (e v) x -> zstep (TMax v) e e [TElem x]
| z_max_empty : forall v e, nothing (e v) -> zstep (TMax v) e e [TThrow ContainerEmpty]
| z_size : forall v e n, card (e v) n -> zstep (TSize v) e e [TNum n]
| z_is_empty : forall v e b, tells b (nothing (e v)) -> zstep (TIsEmpty v) e e [TBool b]
| z_equal : forall v w e b, tells b (same (e v) (e w)) -> zstep (TEqual v w) e e [TBool b]
| z_less : forall v w e b, tells b (included (e v) (e w) /\ ~ included (e w) (e v)) -> zstep (TLess v w) e e [TBool b]
| z_less_eq : forall v w e b, tells b (included (e v) (e w)) -> zstep (TLessEq v w) e e [TBool b]
| z_greater : forall v w e b, tells b (included (e w) (e v) /\ ~ included (e v) (e w)) -> zstep (TGreater v w) e e [TBool b]
| z_greater_eq : forall v w e b, tells b (included (e w) (e v)) -> zstep (TGreaterEq v w) e e [TBool b]
| z_iterate : forall v e l, enumerates lt l (e v) -> zstep (TIterate v) e e (map TElem l)
| z_print : forall v e l, enumerates lt l (e v) -> zstep (TPrint v) e e [TText ("{"%char :: commas (map show l) ++ ["}"%char])].

Inductive zrun : list (tstmt T) -> zstore T -> zstore T -> list (tevent T) -> Prop :=
| z_nil : forall e, zrun [] e e []
| z_cons : forall c rest e e1 e2 ev1 ev2, zstep c e e1 ev1 -> zrun rest e1 e2 ev2 -> zrun (c :: rest) e e2 (ev1 ++ ev2).

(** The concrete sets stand for the mathematical ones. *)
Definition stands (s : tstore T) (e : zstore T) : Prop :=
  forall v, enumerates lt (s v) (e v) /\ Z.of_nat (length (s v)) <= INT_MAX.
End Spec.

Definition tint_stmt {T} (c : tstmt T) : Prop :=
  match c with TInit _ xs => Z.of_nat (length xs) <= INT_MAX | _ => True end.
