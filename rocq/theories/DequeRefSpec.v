(** Programs with references into Deques, on sequences: a pointer names a position. *)
From Coq Require Import ZArith List Bool Ascii.
From Verif Require Import Outcome ListSpec DequeModel DequeSpec DequeRefModel ListRefSpec.
Import ListNotations.
Open Scope Z_scope.

(** What happens to the pointers: nothing; those into [v] are gone; those into [v] point [n] positions further back;
    the one to the first element of [v] is gone and the others point one position further to the front; those to position [k] of [v]
    are gone; those into [v] are gone and those into [w] point into [v] now. *)
Inductive dfate := DStay | DDrop (v : nat) | DUp (v n : nat) | DDown (v : nat) | DLose (v k : nat) | DGiven (v w : nat).

Section Spec.
Context {T : Type} (show : T -> list ascii).
Notation num l := (Z.of_nat (length l)).
Notation ptrs := (nat -> lptr).

Definition dmeets (f : dfate) (P P' : ptrs) : Prop := forall r,
  match P r with
  | LTo u i =>
      match f with
      | DStay => P' r = LTo u i
      | DDrop v => (u = v /\ P' r = LGone) \/ (u <> v /\ P' r = LTo u i)
      | DUp v n => (u = v /\ P' r = LTo v (i + n)) \/ (u <> v /\ P' r = LTo u i)
      | DDown v => (u = v /\ i = O /\ P' r = LGone) \/ (u = v /\ (0 < i)%nat /\ P' r = LTo v (i - 1)) \/ (u <> v /\ P' r = LTo u i)
      | DLose v k => (u = v /\ i = k /\ P' r = LGone) \/ ((u <> v \/ i <> k) /\ P' r = LTo u i)
      | DGiven v w => (u = v /\ P' r = LGone) \/ (u = w /\ u <> v /\ P' r = LTo v i) \/ (u <> v /\ u <> w /\ P' r = LTo u i)
      end
  | p => P' r = p
  end.

(** What a statement does to the pointers, given the sequences before it. *)
Inductive deffect : dstmt T -> dstore T -> list (devent T) -> dfate -> Prop :=
| f_throw : forall c s e, deffect c s [DThrow e] DStay
| f_read : forall c s ev,
    match c with DBack _ | DFront _ | DGet _ _ | DSize _ | DIsEmpty _ | DEqual _ _ | DPrint _ => True | _ => False end -> deffect c s ev DStay
| f_values : forall c s,
    match c with DSetBack _ _ | DSetFront _ _ | DSet _ _ _ | DShr _ _ | DShl _ _ | DReverse _ => True | _ => False end -> deffect c s [] DStay
| f_init : forall v xs s, deffect (DInit v xs) s [] (DDrop v)
| f_copy : forall v w s, v <> w -> deffect (DCopy v w) s [] (DDrop v)
| f_copy_self : forall v s, deffect (DCopy v v) s [] DStay
| f_move : forall v w s, deffect (DMove v w) s [] (DGiven v w)
| f_push_back : forall v x s, deffect (DPushBack v x) s [] DStay
| f_push_front : forall v x s, deffect (DPushFront v x) s [] (DUp v 1)
| f_pop_back : forall v x s a, s v = a ++ [x] -> deffect (DPopBack v) s [DElem x] (DLose v (length a))
| f_pop_front : forall v x s, deffect (DPopFront v) s [DElem x] (DDown v)
| f_extend_back : forall v w s, deffect (DExtendBack v w) s [] DStay
| f_extend_front : forall v w s, num (s v) + num (s w) <= INT_MAX -> deffect (DExtendFront v w) s [] (DUp v (length (s w)))
| f_extend_front_no : forall v w s, INT_MAX < num (s v) + num (s w) -> deffect (DExtendFront v w) s [] DStay
| f_clear : forall v s, deffect (DClear v) s [] (DDrop v).

(** The pointer points to an element with this value. *)
Definition dholds (s : dstore T) (P : ptrs) (r : nat) (x : T) : Prop := exists v i, P r = LTo v i /\ nth_error (s v) i = Some x.

Inductive wstep : qstmt T -> dstore T -> ptrs -> dstore T -> ptrs -> list (devent T) -> Prop :=
| w_stmt : forall c s P s' P' ev f, qstep show c s s' ev -> deffect c s ev f -> dmeets f P P' -> wstep (QDo c) s P s' P' ev
| w_addr : forall r v i k s P P', position (num (s v)) i = Some k -> lpoints P r (LTo v k) P' -> wstep (QAddr r v i) s P s P' []
| w_addr_bad : forall r v i s P, position (num (s v)) i = None -> wstep (QAddr r v i) s P s P [DThrow IndexOutOfRange]
| w_front : forall r v s P P', s v <> [] -> lpoints P r (LTo v 0) P' -> wstep (QFront r v) s P s P' []
| w_front_empty : forall r v s P, s v = [] -> wstep (QFront r v) s P s P [DThrow ContainerEmpty]
| w_back : forall r v a x s P P', s v = a ++ [x] -> lpoints P r (LTo v (length a)) P' -> wstep (QBack r v) s P s P' []
| w_back_empty : forall r v s P, s v = [] -> wstep (QBack r v) s P s P [DThrow ContainerEmpty]
| w_same : forall r q s P P', lpoints P r (P q) P' -> wstep (QSame r q) s P s P' []
| w_read : forall r x s P, dholds s P r x -> wstep (QRead r) s P s P [DElem x]
| w_write : forall r v i a y b x s P, P r = LTo v i -> cut (s v) a (y :: b) (Z.of_nat i) -> wstep (QWrite r x) s P (dset s v (a ++ x :: b)) P []
| w_push_back : forall v r x s P s' P' ev, dholds s P r x -> wstep (QDo (DPushBack v x)) s P s' P' ev -> wstep (QPushBack v r) s P s' P' ev
| w_push_front : forall v r x s P s' P' ev, dholds s P r x -> wstep (QDo (DPushFront v x)) s P s' P' ev -> wstep (QPushFront v r) s P s' P' ev.

Inductive wrun : list (qstmt T) -> dstore T -> ptrs -> dstore T -> ptrs -> list (devent T) -> Prop :=
| w_nil : forall s P, wrun [] s P s P []
| w_cons : forall c rest s P s1 P1 s2 P2 ev1 ev2,
    wstep c s P s1 P1 ev1 -> wrun rest s1 P1 s2 P2 ev2 -> wrun (c :: rest) s P s2 P2 (ev1 ++ ev2).

(** The addresses stand for the positions of the sequences. *)
Record qstands (h : qstate T) (s : dstore T) (P : ptrs) : Prop := {
  qs_view : forall v, dview h v = s v;
  qs_sized : dsized s;
  qs_live : forall v a, In a (qa h v) -> ql h a = true;
  qs_one : forall v w i j a, nth_error (qa h v) i = Some a -> nth_error (qa h w) j = Some a -> v = w /\ i = j;
  qs_old : forall a, ql h a = true -> (a < qn h)%nat;
  qs_ptr : forall r, match P r with
    | LNull => qr h r = None
    | LTo v i => exists a, qr h r = Some a /\ nth_error (qa h v) i = Some a
    | LGone => exists a, qr h r = Some a /\ ql h a = false /\ (a < qn h)%nat
    end
}.

Definition qint_stmt (c : qstmt T) : Prop :=
  match c with
  | QDo c => dint_stmt c
  | QAddr _ _ i => INT_MIN <= i <= INT_MAX
  | _ => True
  end.
(** The pointer is dereferenced. *)
Definition dderefs (c : qstmt T) (r : nat) : Prop :=
  match c with QRead q | QWrite q _ | QPushBack _ q | QPushFront _ q => q = r | _ => False end.

(** Clients: a queue, [Some x] for [v.push_back(x)] and [None] for [v.pop_front()]; pushes at the front ([true]) or the back. *)
Definition queue_stmt (v : nat) (o : option T) : qstmt T := QDo (match o with Some x => DPushBack v x | None => DPopFront v end).
Definition pops (ops : list (option T)) : nat := length (filter (fun o => match o with None => true | _ => false end) ops).
Definition push_stmt (v : nat) (o : bool * T) : qstmt T := QDo (if fst o then DPushFront v (snd o) else DPushBack v (snd o)).
End Spec.
