(** Vocabulary for calls that may run out of memory. *)
From Coq Require Import ZArith List Bool Ascii.
From Verif Require Import Outcome IntModel IntSpec IntProgModel IntProgSpec IntMemModel.
Import ListNotations.
Open Scope Z_scope.

(** One of the allocations number [k] to [k' - 1] fails. *)
Definition short (ok : nat -> bool) (k k' : nat) : Prop := exists j, (k <= j < k')%nat /\ ok j = false.
(** None of them fails. *)
Definition plenty (ok : nat -> bool) (k k' : nat) : Prop := forall j, (k <= j < k')%nat -> ok j = true.

(** A failure other than [std::bad_alloc] is that of [o]. *)
Definition mirrors {A} (f : fault) (o : outcome A) : Prop :=
  match f with
  | FBadAlloc => False
  | FThrow e => o = Throw e
  | FUB u => o = UB u
  | FFuel => o = OutOfFuel
  end.

(** The call [m] does exactly what [o] says, unless one of its allocations fails; then it throws
    [std::bad_alloc]. *)
Definition gives {A B} (ok : nat -> bool) (P : A -> B -> Prop) (m : am A) (o : outcome B) : Prop :=
  forall k, match m k with
  | (MRet a, k') => (k <= k')%nat /\ plenty ok k k' /\ exists b, o = Ok b /\ P a b
  | (MFail FBadAlloc, k') => short ok k k'
  | (MFail f, k') => (k <= k')%nat /\ plenty ok k k' /\ mirrors f o
  end.

(** An object with its capacity stands for an object without. *)
Definition is_int (x : MInt) (r : Int) : Prop := forget x = r /\ fits x.

(** The member function [m] called on [x] leaves the object of [o]; if it throws [std::bad_alloc],
    an object satisfying [H]; if it throws something else, [x]. *)
Definition does (ok : nat -> bool) (x : MInt) (m : om unit) (o : outcome Int) (H : MInt -> Prop) : Prop :=
  forall k, match m (x, k) with
  | (MRet _, (x', k')) => (k <= k')%nat /\ plenty ok k k' /\ exists r, o = Ok r /\ is_int x' r
  | (MFail FBadAlloc, (x', k')) => short ok k k' /\ fits x' /\ H x'
  | (MFail f, (x', k')) => (k <= k')%nat /\ plenty ok k k' /\ mirrors f o /\
      match f with FThrow _ => x' = x | _ => True end
  end.

(** Outcome of a compound assignment that returns the object it leaves behind *)
Definition result_of (r : outcome unit * Int) : outcome Int :=
  match r with
  | (Ok _, x) => Ok x
  | (Throw e, _) => Throw e
  | (UB u, _) => UB u
  | (OutOfFuel, _) => OutOfFuel
  end.

(** The compound assignments of IntModel.v *)
Definition compound (p : policy) (o : aop) (same : bool) (x y : Int) : outcome Int :=
  match o with
  | AAdd => if same then int_add_assign_self p x else int_add_assign p x y
  | ASub => int_sub_assign p x y
  | AMul => int_mul_assign p x y
  | ADiv => result_of (int_div_assign p x y)
  | AMod => result_of (int_mod_assign p x y)
  end.

(** ** Integers left behind by a statement that ran out of memory *)

(** The object has the sign [s] and no digits; it is not an integer. *)
Definition wreck (x : MInt) (s : Z) : Prop := msign x = s /\ items (mvec x) = [] /\ (s = 1 \/ s = -1).

(** The remainder of a division stopped midway *)
Definition midway (a b a' : Z) : Prop := exists k, 0 <= k /\ a' = Z.abs a - k * Z.abs b /\ 0 <= a'.

(** [after o a b a']: what [x o= y] with values [a] and [b] may leave in [x]. *)
Definition after (o : aop) (a b a' : Z) : Prop :=
  match o with
  | AAdd => a <> 0 /\ a' = a
  | ASub => a' = a
  | AMul => a' = a \/ (a * b <> 0 /\ a' = Z.sgn (a * b) * Z.abs a)
  | ADiv => a' = a \/ midway a b a'
  | AMod => midway a b a'
  end.

(** Statements that allocate in temporary objects only *)
Definition indirect (c : stmt) : bool :=
  match c with
  | SInt _ _ | SChars _ _ | SUn _ _ _ | SBin _ _ _ _ | SPowMod _ _ _ _ | SQuery QPrime _ => true
  | _ => false
  end.

(** A statement of an integer program on a machine with little memory: as usual, or
    [std::bad_alloc] with one of these effects. *)
Inductive zmstep : stmt -> zstore -> zstore -> list mevent -> Prop :=
| zm_usual : forall c e e' ev, zstep c e e' ev -> zmstep c e e' (map ME ev)
| zm_indirect : forall c e, indirect c = true -> zmstep c e e [MEBadAlloc]
| zm_copy : forall v w e, e v <> 0 -> e w <> 0 ->
    zmstep (SCopy v w) e (zset e v (Z.sgn (e w) * Z.abs (e v))) [MEBadAlloc]
| zm_assign : forall o v w e a, after o (e v) (e w) a -> zmstep (SAssign o v w) e (zset e v a) [MEBadAlloc]
| zm_inc : forall v e, e v <> 0 -> zmstep (SInc v) e e [MEBadAlloc]
| zm_dec : forall v e, e v <> 0 -> zmstep (SDec v) e e [MEBadAlloc].

(** The statement may leave [v] with the sign [s] and no digits. *)
Inductive zwreck : stmt -> zstore -> var -> Z -> Prop :=
| zw_copy : forall v w e, e v = 0 -> e w <> 0 -> zwreck (SCopy v w) e v (Z.sgn (e w))
| zw_add : forall v w e, e v = 0 -> e w <> 0 -> zwreck (SAssign AAdd v w) e v (Z.sgn (e w))
| zw_inc : forall v e, e v = 0 -> zwreck (SInc v) e v 1
| zw_dec : forall v e, e v = 0 -> zwreck (SDec v) e v (-1).

Inductive zmrun : list stmt -> zstore -> zstore -> list mevent -> Prop :=
| zmr_nil : forall e, zmrun [] e e []
| zmr_cons : forall c prog e e1 e2 ev1 ev2, zmstep c e e1 ev1 -> zmrun prog e1 e2 ev2 ->
    zmrun (c :: prog) e e2 (ev1 ++ ev2).

(** [skips prog' prog]: [prog'] is [prog] without some of its statements. *)
Inductive skips : list stmt -> list stmt -> Prop :=
| sk_nil : skips [] []
| sk_keep : forall c p p', skips p' p -> skips (c :: p') (c :: p)
| sk_drop : forall c p p', skips p' p -> skips p' (c :: p).
(** What the client sees besides [std::bad_alloc] *)
Definition usual (ev : list mevent) : list event := flat_map (fun x => match x with ME y => [y] | MEBadAlloc => [] end) ev.

(** Every statement reached has defined behaviour, whatever fails before it. *)
Fixpoint zsafe (prog : list stmt) (e : zstore) : Prop :=
  match prog with
  | [] => True
  | c :: prog' => allowed c e /\ forall e' ev, zmstep c e e' ev -> zsafe prog' e'
  end.

(** Every variable is canonical and denotes the given integer. *)
Definition stands (s : mstore) (e : zstore) : Prop := forall v, repr (forget (s v)) (e v) /\ fits (s v).

(** ** Numbers of allocations *)

(** Every allocation succeeds. *)
Definition ample (ok : nat -> bool) : Prop := forall j, ok j = true.
(** The member function [m] called on [x] makes [n] allocations and leaves [z]. *)
Definition makes (x : MInt) (m : om unit) (n : nat) (z : Z) : Prop :=
  forall k, exists x', m (x, k) = (MRet tt, (x', (k + n)%nat)) /\ repr (forget x') z /\ fits x'.
(** The call [m] makes [n] allocations and returns [z]. *)
Definition makes_new (m : am MInt) (n : nat) (z : Z) : Prop :=
  forall k, exists r, m k = (MRet r, (k + n)%nat) /\ repr (forget r) z /\ fits r.
(** A vector that is full doubles its capacity, as in libstdc++ and libc++. *)
Definition doubling (grow : nat -> nat -> nat) : Prop := forall s n, grow s n = (2 * s)%nat.
(** [s] is the sum of the decimal digits of [q]. *)
Definition digit_sum (q : Z) (s : nat) : Prop :=
  exists ds, Forall digit ds /\ val ds = q /\ Z.of_nat s = fold_right Z.add 0 ds.
(** 1 if a vector of [size] elements does not fit in the capacity [cap] *)
Definition beyond (cap size : nat) : nat := if Nat.leb size cap then 0%nat else 1%nat.
(** 1 for a number with digits *)
Definition some (z : Z) : nat := if z =? 0 then 0%nat else 1%nat.
(** Allocations of [x += y], [x -= y] and [x *= y] for the values [a] and [b] *)
Definition add_allocs (x y : MInt) (a b : Z) : nat :=
  if a =? 0 then beyond (room (mvec x)) (length (items (mvec y)))
  else if b =? 0 then 0%nat
  else if Z.sgn a =? Z.sgn b then beyond (room (mvec x)) (Nat.max (length (items (mvec x))) (length (items (mvec y))) + 1)
  else 2%nat.
Definition sub_allocs (x y : MInt) (a b : Z) : nat :=
  if a =? 0 then some b
  else if b =? 0 then 0%nat
  else if Z.sgn a =? Z.sgn b then 1%nat
  else (1 + beyond (room (mvec x)) (Nat.max (length (items (mvec x))) (length (items (mvec y))) + 1))%nat.
Definition mul_allocs (x y : MInt) (a b : Z) : nat :=
  if a * b =? 0 then 0%nat
  else if Z.abs (a * b) <? 10 ^ Z.of_nat (room (mvec x)) then 2%nat else 3%nat.
