(** Lists whose element copies and allocations may throw: what a call that fails leaves behind, for the client. *)
From Coq Require Import ZArith List Bool Ascii.
From Verif Require Import Outcome ListProgModel FailModel ListFailModel ListSpec ListProgSpec IntMemSpec.
Import ListNotations.
Open Scope Z_scope.

Section Spec.
Context {T : Type}.

(** The elements of every variable. *)
Definition contents (s : @flstore T) : lstore T := fun v => relems (s v).
Definition same (e e' : lstore T) : Prop := forall v, e' v = e v.

(** What a statement that was stopped by a failing event may leave: everything as it was; or, after [v = w], the first [j]
    elements of [w] followed by those of [v] from there on; or, after [v.filter(p)], the first [j] elements to be
    kept followed by the elements of [v] from place [j] on; or, after [v += w] and [v.extend(w)] for elements with a move constructor
    that is [noexcept], what moving leaves of each element of [v]. *)
Inductive leftover (nothrow : bool) (moved : T -> T) : lstmt T -> lstore T -> lstore T -> Prop :=
| lo_same : forall c e e', same e e' -> leftover nothrow moved c e e'
| lo_copy : forall v w j e e', (j < length (e w))%nat -> (j <= length (e v))%nat ->
    same (lset e v (firstn j (e w) ++ skipn j (e v))) e' -> leftover nothrow moved (LCopy v w) e e'
| lo_filter : forall v p j e e', (j < length (filter p (e v)))%nat ->
    same (lset e v (firstn j (filter p (e v)) ++ skipn j (e v))) e' -> leftover nothrow moved (LFilter v p) e e'
| lo_append : forall v w e e', nothrow = true -> e w <> [] -> same (lset e v (map moved (e v))) e' -> leftover nothrow moved (LAppendList v w) e e'
| lo_extend : forall v w e e', nothrow = true -> e w <> [] -> same (lset e v (map moved (e v))) e' -> leftover nothrow moved (LExtend v w) e e'.

(** The statements after which nothing but "everything as it was" can be left. *)
Definition steady (nothrow : bool) (c : lstmt T) : Prop :=
  match c with
  | LCopy v w => v = w
  | LFilter _ _ => False
  | LAppendList _ _ | LExtend _ _ => nothrow = false
  | _ => True
  end.

(** The statements that cause no event at all. *)
Definition eventless (c : lstmt T) : Prop :=
  match c with
  | LCopy v w => v = w
  | LMove _ _ | LGet _ _ | LRemove _ _ | LSub _ _ | LDiv _ _ | LShr _ _ | LShl _ _ | LReverse _ | LSort _ | LErase _ _ _ | LMap _ _ | LClear _
  | LIndex _ _ _ _ | LContains _ _ _ _ | LCount _ _ | LSize _ | LIsEmpty _ | LEqual _ _ | LPrint _ => True
  | _ => False
  end.

(** Programs on abstract sequences: every statement does what ListProgSpec says, or fails and leaves one of the above. *)
Inductive hrun (eqb lt : T -> T -> bool) (show : T -> list ascii) (nothrow : bool) (moved : T -> T)
  : list (lstmt T) -> lstore T -> lstore T -> list (@flevent T) -> Prop :=
| h_nil : forall e, hrun eqb lt show nothrow moved [] e e []
| h_done : forall c rest e e1 e1' e2 ev1 ev2, sstep eqb lt show c e e1 ev1 -> same e1 e1' -> hrun eqb lt show nothrow moved rest e1' e2 ev2 ->
    hrun eqb lt show nothrow moved (c :: rest) e e2 (map FSaw ev1 ++ ev2)
| h_failed : forall c rest e e1 e2 n ev2, leftover nothrow moved c e e1 -> hrun eqb lt show nothrow moved rest e1 e2 ev2 ->
    hrun eqb lt show nothrow moved (c :: rest) e e2 (FFailed n :: ev2).

(** ** Numbers of events *)

(** No exception was seen. *)
Definition normal (ev : list (@flevent T)) : Prop :=
  forall x, In x ev -> match x with FFailed _ | FSaw (LThrow _) => False | _ => True end.

Section Cost.
Variables (eqb : T -> T -> bool) (grow : nat -> nat -> nat) (nothrow : bool).

(** Copies made to bring [n] elements into new storage *)
Definition bringing (n : nat) : nat := if nothrow then 0 else n.
(** A new vector of [n] elements: one allocation, [n] copies *)
Definition creating (n : nat) : nat := match n with O => 0 | _ => S n end.
(** One element more, with [n] elements and capacity [r] *)
Definition inserting (n r : nat) : nat := if (Z.of_nat n <? Z.of_nat r) then 1 else 2 + bringing n.
(** [m] elements more, together *)
Definition appending (n r m : nat) : nat :=
  match m with O => 0 | _ => if (Z.of_nat (n + m) <=? Z.of_nat r) then m else S (bringing n + m) end.
(** [m] elements more, one after the other *)
Fixpoint pushing (m n r : nat) : nat :=
  match m with
  | O => 0
  | S m' => inserting n r + pushing m' (S n) (if (Z.of_nat n <? Z.of_nat r) then r else grow n 1)
  end.

(** The events of a statement that ends normally, from the sizes and capacities before it and the sizes after it *)
Definition event_count (c : lstmt T) (s s' : @flstore T) : nat :=
  let size v := length (relems (s v)) in
  let size' v := length (relems (s' v)) in
  let room v := rroom (s v) in
  (match c with
  | LInit _ xs => creating (length xs)
  | LCopy v w => if Nat.eqb v w then 0 else if (Z.of_nat (size w) <=? Z.of_nat (room v))%Z then size w else S (size w)
  | LSet _ _ _ => 1
  | LInsert v _ _ | LInsertElem v _ _ | LAppend v _ => inserting (size v) (room v)
  | LAppendList v w => appending (size v) (room v) (size w)
  | LExtend v w => if (INT_MAX <? Z.of_nat (size v) + Z.of_nat (size w))%Z then 0 else appending (size v) (room v) (size w)
  | LTimes v n => 2 * creating (Z.to_nat n * size v) + Z.to_nat n * size v
  | LMult _ v n => 2 * creating (Z.to_nat n * size v) + Z.to_nat n * size v
  | LFilter v p => length (filter p (relems (s v)))
  | LUniquify v => pushing (size' v) 0 0
  | LSlice u _ _ _ _ => pushing (size' u) 0 0 + creating (size' u)
  | LPlusElem _ v _ => creating (size v) + inserting (size v) (size v) + creating (S (size v))
  | LPlus _ v w => creating (size v) + appending (size v) (size v) (size w) + creating (size v + size w)
  | LMinus u v _ | LOver u v _ => creating (size v) + creating (size' u)
  | _ => 0
  end)%nat.
End Cost.
End Spec.
