(** Programs with iterators over Lists, on sequences: an iterator names a position, from 0 to the length. *)
From Coq Require Import ZArith List Bool Ascii.
From Verif Require Import Outcome ListProgModel ListSpec ListProgSpec ListRefModel ListRefSpec ListIterModel.
Import ListNotations.
Open Scope Z_scope.

(** An iterator was never set, is at a position, or is of no more use. *)
Inductive lcur := CNone | CAt (v p : nat) | CDead.

Section Spec.
Context {T : Type} (eqb lt : T -> T -> bool) (show : T -> list ascii) (grow : Z -> Z -> Z).
Notation num l := (Z.of_nat (length l)).
Notation curs := (nat -> lcur).
Notation caps := (nat -> Z).

(** The iterators go where the pointers go; the end of a list that is moved stays behind and is of no more use. *)
Definition moved (f : fate) (s : lstore T) (I I' : curs) : Prop := forall i,
  match I i with
  | CAt u p =>
      match f with
      | Stay => I' i = CAt u p
      | Cut v k => (u = v /\ (k <= p)%nat /\ I' i = CDead) \/ ((u <> v \/ (p < k)%nat) /\ I' i = CAt u p)
      | Given v w =>
          (u = v /\ I' i = CDead) \/
          (u = w /\ u <> v /\ (p < length (s w))%nat /\ I' i = CAt v p) \/
          (u = w /\ u <> v /\ (length (s w) <= p)%nat /\ I' i = CDead) \/
          (u <> v /\ u <> w /\ I' i = CAt u p)
      end
  | x => I' i = x
  end.

Definition lput (I : curs) (i : nat) (x : lcur) (I' : curs) : Prop := I' i = x /\ forall j, j <> i -> I' j = I j.
(** The position of the first [x], or the end. *)
Definition found_at (l : list T) (x : T) (p : nat) : Prop :=
  (exists a b, l = a ++ x :: b /\ ~ In x a /\ p = length a) \/ (~ In x l /\ p = length l).

Inductive jstep : jstmt T -> lstore T -> caps -> curs -> lstore T -> caps -> curs -> list (levent T) -> Prop :=
| j_stmt : forall c s K I s' K' I' ev f, sstep eqb lt show c s s' ev -> effect grow c s s' ev K f K' -> moved f s I I' ->
    jstep (JDo c) s K I s' K' I' ev
| j_begin : forall i v s K I I', lput I i (CAt v 0) I' -> jstep (JBegin i v) s K I s K I' []
| j_end : forall i v s K I I', lput I i (CAt v (length (s v))) I' -> jstep (JEnd i v) s K I s K I' []
| j_find : forall i v x p s K I I', found_at (s v) x p -> lput I i (CAt v p) I' -> jstep (JFind i v x) s K I s K I' []
| j_copy : forall i j v p s K I I', I j = CAt v p -> lput I i (CAt v p) I' -> jstep (JCopy i j) s K I s K I' []
| j_add : forall i k v p q s K I I', I i = CAt v p -> Z.of_nat q = Z.of_nat p + k -> (q <= length (s v))%nat -> lput I i (CAt v q) I' ->
    jstep (JAdd i k) s K I s K I' []
| j_read : forall i v p x s K I, I i = CAt v p -> nth_error (s v) p = Some x -> jstep (JRead i) s K I s K I [LElem x]
| j_back : forall i v p x s K I, I i = CAt v (S p) -> nth_error (s v) p = Some x -> jstep (JBack i) s K I s K I [LElem x]
| j_diff : forall i j v p q s K I, I i = CAt v p -> I j = CAt v q -> jstep (JDiff i j) s K I s K I [LNum (Z.of_nat p - Z.of_nat q)]
| j_range : forall v i j u a m b s K I s' K' I' ev, I i = CAt u (length a) -> I j = CAt u (length (a ++ m)) -> s u = a ++ m ++ b ->
    jstep (JDo (LInit v m)) s K I s' K' I' ev -> jstep (JRange v i j) s K I s' K' I' ev
| j_rev_range : forall v i j u a m b s K I s' K' I' ev, I j = CAt u (length a) -> I i = CAt u (length (a ++ m)) -> s u = a ++ m ++ b ->
    jstep (JDo (LInit v (rev m))) s K I s' K' I' ev -> jstep (JRevRange v i j) s K I s' K' I' ev
| j_append : forall v i u p x s K I s' K' I' ev, I i = CAt u p -> nth_error (s u) p = Some x ->
    jstep (JDo (LAppend v x)) s K I s' K' I' ev -> jstep (JAppend v i) s K I s' K' I' ev
| j_remove : forall v i p s K I s' K' I' ev, I i = CAt v p ->
    jstep (JDo (LRemove v (Z.of_nat p))) s K I s' K' I' ev -> jstep (JRemove v i) s K I s' K' I' ev.

Inductive jrun : list (jstmt T) -> lstore T -> caps -> curs -> lstore T -> caps -> curs -> list (levent T) -> Prop :=
| j_nil : forall s K I, jrun [] s K I s K I []
| j_cons : forall c rest s K I s1 K1 I1 s2 K2 I2 ev1 ev2,
    jstep c s K I s1 K1 I1 ev1 -> jrun rest s1 K1 I1 s2 K2 I2 ev2 -> jrun (c :: rest) s K I s2 K2 I2 (ev1 ++ ev2).

(** The state stands for the sequences, the capacities and the positions. *)
Definition jstands (t : jstate T) (s : lstore T) (K : caps) (I : curs) : Prop :=
  (exists P, vstands (jh t) s K P /\ forall i, match I i with
    | CNone => P i = LNull /\ je t i = None
    | CAt v p => ((p < length (s v))%nat /\ P i = LTo v p /\ je t i = None) \/
                 (p = length (s v) /\ P i = LNull /\ je t i = Some (v, jg t v))
    | CDead => (P i = LGone /\ je t i = None) \/ (P i = LNull /\ exists v n, je t i = Some (v, n) /\ (n < jg t v)%nat)
    end) /\
  forall v a, In a (va (jh t) v) -> jo t a = v.

Definition jint_stmt (c : jstmt T) : Prop := match c with JDo c => int_stmt c | _ => True end.

(** Why a statement with iterators has no answer. *)
Definition jrisk (c : jstmt T) (s : lstore T) (I : curs) : Prop :=
  let lost i := forall v p, I i <> CAt v p in
  let apart i j := exists v w p q, I i = CAt v p /\ I j = CAt w q /\ v <> w in
  match c with
  | JDo c => lundef c s
  | JBegin _ _ | JEnd _ _ | JFind _ _ _ => False
  | JCopy _ j => lost j
  | JAdd i k => lost i \/ exists v p, I i = CAt v p /\ ~ (0 <= Z.of_nat p + k <= num (s v))
  | JRead i | JAppend _ i => lost i \/ exists v, I i = CAt v (length (s v))
  | JBack i => lost i \/ exists v, I i = CAt v 0
  | JDiff i j => lost i \/ lost j \/ apart i j
  | JRange _ i j => lost i \/ lost j \/ apart i j \/ exists v p q, I i = CAt v p /\ I j = CAt v q /\ (q < p)%nat
  | JRevRange _ i j => lost i \/ lost j \/ apart i j \/ exists v p q, I i = CAt v p /\ I j = CAt v q /\ (p < q)%nat
  | JRemove v i => lost i \/ exists w p, I i = CAt w p /\ w <> v
  end.

(** The statements that give [v] a new buffer or change its number of elements, or may do so. *)
Definition resizing (c : lstmt T) (v : nat) : Prop :=
  match c with
  | LInit u _ | LInsert u _ _ | LInsertElem u _ _ | LRemove u _ | LAppend u _ | LAppendList u _ | LTimes u _ | LDiv u _ | LUniquify u | LErase u _ _
  | LFilter u _ | LClear u => u = v
  | _ => False
  end.
End Spec.
