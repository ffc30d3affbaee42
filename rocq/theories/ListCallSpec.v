(** What calls are made, and what is left of the list. *)
From Coq Require Import ZArith List Bool.
From Verif Require Import Outcome ListCallModel.
Import ListNotations.
Open Scope Z_scope.

Section Spec.
Context {T S X : Type}.

(** The calls are made one after the other until one of them throws: the answers, the exception, the state of the client. *)
Inductive asks {Y A : Type} : list (S -> (A + Y) * S) -> S -> list A -> option Y -> S -> Prop :=
| a_nil : forall s, asks [] s [] None s
| a_cons : forall c cs s a s1 l o s2, c s = (inl a, s1) -> asks cs s1 l o s2 -> asks (c :: cs) s (a :: l) o s2
| a_throw : forall c cs s x s1, c s = (inr x, s1) -> asks (c :: cs) s [] (Some x) s1.

(** The calls are made until one answers [stop]. *)
Inductive found := At (k : nat) | Nowhere | Threw (x : X).
Inductive scan (stop : bool) : list (call S X bool) -> S -> found -> S -> Prop :=
| sc_at : forall cs k s s', (k < length cs)%nat -> asks (firstn (k + 1) cs) s (repeat (negb stop) k ++ [stop]) None s' -> scan stop cs s (At k) s'
| sc_nowhere : forall cs s s', asks cs s (repeat (negb stop) (length cs)) None s' -> scan stop cs s Nowhere s'
| sc_threw : forall cs k x s s', (k < length cs)%nat -> asks (firstn (k + 1) cs) s (repeat (negb stop) k) (Some x) s' -> scan stop cs s (Threw x) s'.

(** The elements whose answer is [b]. *)
Definition picked (b : bool) (bs : list bool) (l : list T) : list T :=
  map snd (filter (fun p => Bool.eqb (fst p) b) (combine bs l)).
(** What an interrupted pass in place leaves: the elements picked so far, and behind them what was there. *)
Definition half_done (b : bool) (bs : list bool) (l : list T) : list T := picked b bs l ++ skipn (length (picked b bs l)) l.

(** First occurrences, as the answers have it; [inr] when a comparison throws. *)
Inductive uniq (eq : T -> T -> call S X bool) : list T -> list T -> S -> list T + X -> S -> Prop :=
| u_end : forall b s, uniq eq [] b s (inl b) s
| u_new : forall e l b s s1 r s2, scan true (map (fun y => eq y e) b) s Nowhere s1 -> uniq eq l (b ++ [e]) s1 r s2 -> uniq eq (e :: l) b s r s2
| u_seen : forall e l b k s s1 r s2, scan true (map (fun y => eq y e) b) s (At k) s1 -> uniq eq l b s1 r s2 -> uniq eq (e :: l) b s r s2
| u_threw : forall e l b x s s1, scan true (map (fun y => eq y e) b) s (Threw x) s1 -> uniq eq (e :: l) b s (inr x) s1.

(** A comparison that cannot fail. *)
Definition pure (eqb : T -> T -> bool) : T -> T -> call S X bool := fun a b s => (inl (eqb a b), s).
End Spec.
Arguments found X : clear implicits. Arguments At {X}. Arguments Nowhere {X}. Arguments Threw {X}.

(** The same result as a member of ListModel.v. *)
Definition agrees {X A : Type} (r : cres X A) (o : outcome A) : Prop :=
  match r, o with CRet a, Ok b => a = b | CUB u, UB w => u = w | _, _ => False end.

(** A comparison that keeps a record of the pairs it was asked about. *)
Definition logged {T X : Type} (eqb : T -> T -> bool) : T -> T -> call (list (T * T)) X bool := fun a b s => (inl (eqb a b), s ++ [(a, b)]).
