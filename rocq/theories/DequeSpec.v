(** Deque programs on abstract sequences. A statement whose behaviour the code leaves
    undefined has no entry. *)
From Coq Require Import ZArith List Bool Ascii.
From Verif Require Import Outcome ListSpec DequeModel.
Import ListNotations.
Open Scope Z_scope.

Section Spec.
Context {T : Type} (show : T -> list ascii).
Notation num l := (Z.of_nat (length l)).

Inductive qstep : dstmt T -> dstore T -> dstore T -> list (devent T) -> Prop :=
| q_init : forall v xs s, qstep (DInit v xs) s (dset s v xs) []
| q_copy : forall v w s, qstep (DCopy v w) s (dset s v (s w)) []
| q_move : forall v w s, v <> w -> qstep (DMove v w) s (dset (dset s v (s w)) w []) []
| q_back : forall v s a x, s v = a ++ [x] -> qstep (DBack v) s s [DElem x]
| q_back_empty : forall v s, s v = [] -> qstep (DBack v) s s [DThrow ContainerEmpty]
| q_front : forall v s x a, s v = x :: a -> qstep (DFront v) s s [DElem x]
| q_front_empty : forall v s, s v = [] -> qstep (DFront v) s s [DThrow ContainerEmpty]
| q_get : forall v i s k x, position (num (s v)) i = Some k -> nth_error (s v) k = Some x -> qstep (DGet v i) s s [DElem x]
| q_get_bad : forall v i s, position (num (s v)) i = None -> qstep (DGet v i) s s [DThrow IndexOutOfRange]
| q_set_back : forall v x s a y, s v = a ++ [y] -> qstep (DSetBack v x) s (dset s v (a ++ [x])) []
| q_set_back_empty : forall v x s, s v = [] -> qstep (DSetBack v x) s (dset s v []) [DThrow ContainerEmpty]
| q_set_front : forall v x s a y, s v = y :: a -> qstep (DSetFront v x) s (dset s v (x :: a)) []
| q_set_front_empty : forall v x s, s v = [] -> qstep (DSetFront v x) s (dset s v []) [DThrow ContainerEmpty]
| q_set : forall v i x s k a y b, position (num (s v)) i = Some k -> cut (s v) a (y :: b) (Z.of_nat k) -> qstep (DSet v i x) s (dset s v (a ++ x :: b)) []
| q_set_bad : forall v i x s, position (num (s v)) i = None -> qstep (DSet v i x) s (dset s v (s v)) [DThrow IndexOutOfRange]
| q_push_back : forall v x s, num (s v) < INT_MAX -> qstep (DPushBack v x) s (dset s v (s v ++ [x])) []
| q_push_back_full : forall v x s, num (s v) = INT_MAX -> qstep (DPushBack v x) s (dset s v (s v)) [DThrow ContainerFull]
| q_push_front : forall v x s, num (s v) < INT_MAX -> qstep (DPushFront v x) s (dset s v (x :: s v)) []
| q_push_front_full : forall v x s, num (s v) = INT_MAX -> qstep (DPushFront v x) s (dset s v (s v)) [DThrow ContainerFull]
| q_pop_back : forall v s a x, s v = a ++ [x] -> qstep (DPopBack v) s (dset s v a) [DElem x]
| q_pop_back_empty : forall v s, s v = [] -> qstep (DPopBack v) s (dset s v []) [DThrow ContainerEmpty]
| q_pop_front : forall v s x a, s v = x :: a -> qstep (DPopFront v) s (dset s v a) [DElem x]
| q_pop_front_empty : forall v s, s v = [] -> qstep (DPopFront v) s (dset s v []) [DThrow ContainerEmpty]
| q_extend_back : forall v w s, v <> w -> num (s v) + num (s w) <= INT_MAX -> qstep (DExtendBack v w) s (dset s v (s v ++ s w)) []
| q_extend_back_no : forall v w s, INT_MAX < num (s v) + num (s w) -> qstep (DExtendBack v w) s s []
| q_extend_front : forall v w s, v <> w -> num (s v) + num (s w) <= INT_MAX -> qstep (DExtendFront v w) s (dset s v (s w ++ s v)) []
| q_extend_front_no : forall v w s, INT_MAX < num (s v) + num (s w) -> qstep (DExtendFront v w) s s []
| q_shr : forall v n s r, INT_MIN < n \/ num (s v) <= 1 -> rotated (s v) r (- n) -> qstep (DShr v n) s (dset s v r) []
| q_shl : forall v n s r, rotated (s v) r n -> qstep (DShl v n) s (dset s v r) []
| q_reverse : forall v s, qstep (DReverse v) s (dset s v (rev (s v))) []
| q_clear : forall v s, qstep (DClear v) s (dset s v []) []
| q_size : forall v s, qstep (DSize v) s s [DNum (num (s v))]
| q_is_empty : forall v s b, (b = true <-> s v = []) -> qstep (DIsEmpty v) s s [DBool b]
| q_equal : forall v w s b, (b = true <-> s v = s w) -> qstep (DEqual v w) s s [DBool b]
| q_print : forall v s, qstep (DPrint v) s s [DText ("<"%char :: commas (map show (s v)) ++ [">"%char])].

Inductive qrun : list (dstmt T) -> dstore T -> dstore T -> list (devent T) -> Prop :=
| q_nil : forall s, qrun [] s s []
| q_cons : forall c rest s s1 s2 ev1 ev2, qstep c s s1 ev1 -> qrun rest s1 s2 ev2 -> qrun (c :: rest) s s2 (ev1 ++ ev2).
End Spec.

Definition dsized {T} (s : dstore T) : Prop := forall v, Z.of_nat (length (s v)) <= INT_MAX.
Definition dint_stmt {T} (c : dstmt T) : Prop :=
  let fits z := INT_MIN <= z <= INT_MAX in
  match c with
  | DInit _ xs => Z.of_nat (length xs) <= INT_MAX
  | DGet _ i | DSet _ i _ | DShr _ i | DShl _ i => fits i
  | _ => True
  end.

(** Pushes of elements and pops, for use as a queue or as a stack. *)
Inductive qop (T : Type) := Push (x : T) | Pop.
Arguments Push {T}. Arguments Pop {T}.
Fixpoint pushed {T} (ops : list (qop T)) : list T :=
  match ops with [] => [] | Push x :: r => x :: pushed r | Pop :: r => pushed r end.
(** The elements a stack gives back, and what it holds at the end (top first). *)
Fixpoint stack {T} (ops : list (qop T)) (st : list T) : list T * list T :=
  match ops with
  | [] => ([], st)
  | Push x :: r => stack r (x :: st)
  | Pop :: r => match st with
                | [] => stack r []
                | x :: st' => let (out, fin) := stack r st' in (x :: out, fin)
                end
  end.
(** The same operations as client code on a deque: [push] and [pop] are the members called. *)
Definition as_prog {T} (push : T -> dstmt T) (pop : dstmt T) (ops : list (qop T)) : list (dstmt T) :=
  map (fun o => match o with Push x => push x | Pop => pop end) ops.
(** The elements among the events. *)
Fixpoint elems {T} (ev : list (devent T)) : list T :=
  match ev with [] => [] | DElem x :: r => x :: elems r | _ :: r => elems r end.
