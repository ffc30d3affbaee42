(** Programs with iterators over Deques, on sequences: an iterator names a position, from 0 to the length. *)
From Coq Require Import ZArith List Bool Ascii.
From Verif Require Import Outcome ListSpec DequeModel DequeSpec UndefSpec ListRefSpec DequeRefModel DequeRefSpec ListIterSpec DequeIterModel.
Import ListNotations.
Open Scope Z_scope.

(** What happens to the iterators: nothing; those into [v] end; the first or the last element of [v] is popped; those at elements of
    [w] are iterators into [v] now, and those into [v] end. *)
Inductive yfate := YStay | YAll (v : nat) | YFirst (v : nat) | YLast (v : nat) | YGiven (v w : nat).

Section Spec.
Context {T : Type} (show : T -> list ascii).
Notation num l := (Z.of_nat (length l)).
Notation ptrs := (nat -> lptr).
Notation curs := (nat -> lcur).

Definition ymoved (f : yfate) (s : dstore T) (I I' : curs) : Prop := forall i,
  match I i with
  | CAt u p =>
      match f with
      | YStay => I' i = CAt u p
      | YAll v => (u = v /\ I' i = CDead) \/ (u <> v /\ I' i = CAt u p)
      | YFirst v =>
          (u = v /\ (p = O \/ length (s v) = 1%nat) /\ I' i = CDead) \/
          (u = v /\ (0 < p)%nat /\ length (s v) <> 1%nat /\ I' i = CAt v (p - 1)) \/
          (u <> v /\ I' i = CAt u p)
      | YLast v => (u = v /\ (length (s v) <= p + 1)%nat /\ I' i = CDead) \/ ((u <> v \/ (p + 1 < length (s v))%nat) /\ I' i = CAt u p)
      | YGiven v w =>
          (u = v /\ I' i = CDead) \/
          (u = w /\ u <> v /\ (p < length (s w))%nat /\ I' i = CAt v p) \/
          (u = w /\ u <> v /\ (length (s w) <= p)%nat /\ I' i = CDead) \/
          (u <> v /\ u <> w /\ I' i = CAt u p)
      end
  | x => I' i = x
  end.

(** What a statement does to the iterators, given the sequences before it. *)
Inductive yeffect : qstmt T -> dstore T -> list (devent T) -> yfate -> Prop :=
| e_throw : forall c s e, yeffect c s [DThrow e] YStay
| e_keep : forall c s ev,
    match c with
    | QDo (DBack _) | QDo (DFront _) | QDo (DGet _ _) | QDo (DSize _) | QDo (DIsEmpty _) | QDo (DEqual _ _) | QDo (DPrint _)
    | QDo (DSetBack _ _) | QDo (DSetFront _ _) | QDo (DSet _ _ _) | QDo (DShr _ _) | QDo (DShl _ _) | QDo (DReverse _)
    | QAddr _ _ _ | QFront _ _ | QBack _ _ | QSame _ _ | QRead _ | QWrite _ _ => True
    | _ => False
    end -> yeffect c s ev YStay
| e_all : forall c v s,
    match c with
    | QDo (DInit u _) | QDo (DClear u) | QDo (DPushBack u _) | QDo (DPushFront u _) | QPushBack u _ | QPushFront u _ => u = v
    | QDo (DCopy u w) => u = v /\ u <> w
    | QDo (DExtendBack u w) | QDo (DExtendFront u w) => u = v /\ num (s u) + num (s w) <= INT_MAX
    | _ => False
    end -> yeffect c s [] (YAll v)
| e_skip : forall c s,
    match c with
    | QDo (DCopy u w) => u = w
    | QDo (DExtendBack u w) | QDo (DExtendFront u w) => INT_MAX < num (s u) + num (s w)
    | _ => False
    end -> yeffect c s [] YStay
| e_pop_front : forall v x s, yeffect (QDo (DPopFront v)) s [DElem x] (YFirst v)
| e_pop_back : forall v x s, yeffect (QDo (DPopBack v)) s [DElem x] (YLast v)
| e_move : forall v w s, yeffect (QDo (DMove v w)) s [] (YGiven v w).

(** The iterators [i] and [j] enclose the elements [m] of [u]. *)
Definition encloses (s : dstore T) (I : curs) (i j u : nat) (m : list T) : Prop :=
  exists a b, I i = CAt u (length a) /\ I j = CAt u (length (a ++ m)) /\ s u = a ++ m ++ b.

Inductive ystep : ystmt T -> dstore T -> ptrs -> curs -> dstore T -> ptrs -> curs -> list (devent T) -> Prop :=
| y_stmt : forall c s P I s' P' I' ev f, wstep show c s P s' P' ev -> yeffect c s ev f -> ymoved f s I I' -> ystep (YDo c) s P I s' P' I' ev
| y_begin : forall i v s P I I', lput I i (CAt v 0) I' -> ystep (YBegin i v) s P I s P I' []
| y_end : forall i v s P I I', lput I i (CAt v (length (s v))) I' -> ystep (YEnd i v) s P I s P I' []
| y_copy : forall i j v p s P I I', I j = CAt v p -> lput I i (CAt v p) I' -> ystep (YCopy i j) s P I s P I' []
| y_add : forall i k v p q s P I I', I i = CAt v p -> Z.of_nat q = Z.of_nat p + k -> (q <= length (s v))%nat -> lput I i (CAt v q) I' ->
    ystep (YAdd i k) s P I s P I' []
| y_read : forall i v p x s P I, I i = CAt v p -> nth_error (s v) p = Some x -> ystep (YRead i) s P I s P I [DElem x]
| y_back : forall i v p x s P I, I i = CAt v (S p) -> nth_error (s v) p = Some x -> ystep (YBack i) s P I s P I [DElem x]
| y_diff : forall i j v p q s P I, I i = CAt v p -> I j = CAt v q -> ystep (YDiff i j) s P I s P I [DNum (Z.of_nat p - Z.of_nat q)]
| y_ref : forall r i v p s P I P', I i = CAt v p -> (p < length (s v))%nat -> lpoints P r (LTo v p) P' -> ystep (YAddr r i) s P I s P' I []
| y_new : forall v i j u m s P I s' P' I' ev, encloses s I i j u m -> ystep (YDo (QDo (DInit v m))) s P I s' P' I' ev -> ystep (YRange v i j) s P I s' P' I' ev
| y_new_rev : forall v i j u m s P I s' P' I' ev, encloses s I j i u m -> ystep (YDo (QDo (DInit v (rev m)))) s P I s' P' I' ev ->
    ystep (YRevRange v i j) s P I s' P' I' ev
| y_push_back : forall v i u p x s P I s' P' I' ev, I i = CAt u p -> nth_error (s u) p = Some x ->
    ystep (YDo (QDo (DPushBack v x))) s P I s' P' I' ev -> ystep (YPushBack v i) s P I s' P' I' ev
| y_push_front : forall v i u p x s P I s' P' I' ev, I i = CAt u p -> nth_error (s u) p = Some x ->
    ystep (YDo (QDo (DPushFront v x))) s P I s' P' I' ev -> ystep (YPushFront v i) s P I s' P' I' ev
| y_extend_back : forall v i j u m s P I P' I', encloses s I i j u m -> u <> v -> num (s v) + num m <= INT_MAX ->
    dmeets DStay P P' -> ymoved (YAll v) s I I' -> ystep (YExtendBack v i j) s P I (dset s v (s v ++ m)) P' I' []
| y_extend_front : forall v i j u m s P I P' I', encloses s I i j u m -> u <> v -> num (s v) + num m <= INT_MAX ->
    dmeets (DUp v (length m)) P P' -> ymoved (YAll v) s I I' -> ystep (YExtendFront v i j) s P I (dset s v (m ++ s v)) P' I' []
| y_extend_no : forall c v i j u m s P I, c = YExtendBack v i j \/ c = YExtendFront v i j -> encloses s I i j u m -> INT_MAX < num (s v) + num m ->
    ystep c s P I s P I [].

Inductive yrun : list (ystmt T) -> dstore T -> ptrs -> curs -> dstore T -> ptrs -> curs -> list (devent T) -> Prop :=
| y_nil : forall s P I, yrun [] s P I s P I []
| y_cons : forall c rest s P I s1 P1 I1 s2 P2 I2 ev1 ev2,
    ystep c s P I s1 P1 I1 ev1 -> yrun rest s1 P1 I1 s2 P2 I2 ev2 -> yrun (c :: rest) s P I s2 P2 I2 (ev1 ++ ev2).

(** The state stands for the sequences, the pointers and the positions. *)
Definition ystands (t : ystate T) (s : dstore T) (P : ptrs) (I : curs) : Prop :=
  qstands (yh t) s P /\
  (forall v a, In a (qa (yh t) v) -> yo t a = v) /\
  forall i, match I i with
    | CNone => yi t i = INone
    | CAt v p => (exists a, yi t i = IElem a (yt t a) /\ nth_error (qa (yh t) v) p = Some a) \/ (p = length (s v) /\ yi t i = IEnd v (yg t v))
    | CDead => (exists a n, yi t i = IElem a n /\ (a < qn (yh t))%nat /\ (ql (yh t) a = false \/ (n < yt t a)%nat)) \/
               (exists v n, yi t i = IEnd v n /\ (n < yg t v)%nat)
    end.

Definition yint_stmt (c : ystmt T) : Prop := match c with YDo c => qint_stmt c | _ => True end.

(** Why a statement with iterators has no answer. *)
Definition yrisk (c : ystmt T) (s : dstore T) (P : ptrs) (I : curs) : Prop :=
  let lost i := forall v p, I i <> CAt v p in
  let apart i j := exists v w p q, I i = CAt v p /\ I j = CAt w q /\ v <> w in
  let no_range i j := lost i \/ lost j \/ apart i j \/ exists v p q, I i = CAt v p /\ I j = CAt v q /\ (q < p)%nat in
  match c with
  | YDo c => (exists c', c = QDo c' /\ dundef c' s) \/ (exists r, dderefs c r /\ forall v i, P r <> LTo v i)
  | YBegin _ _ | YEnd _ _ => False
  | YCopy _ j => lost j
  | YAdd i k => lost i \/ exists v p, I i = CAt v p /\ ~ (0 <= Z.of_nat p + k <= num (s v))
  | YRead i | YAddr _ i | YPushBack _ i | YPushFront _ i => lost i \/ exists v, I i = CAt v (length (s v))
  | YBack i => lost i \/ exists v, I i = CAt v 0
  | YDiff i j => lost i \/ lost j \/ apart i j
  | YRange _ i j => no_range i j
  | YRevRange _ i j => no_range j i
  | YExtendBack v i j | YExtendFront v i j =>
      no_range i j \/ exists p q, I i = CAt v p /\ I j = CAt v q /\ (p <= q)%nat /\ num (s v) + Z.of_nat (q - p) <= INT_MAX
  end.

(** The statements that insert into [v], unless they throw. *)
Definition pushing (c : qstmt T) (s : dstore T) (v : nat) : Prop :=
  match c with
  | QDo (DPushBack u _) | QDo (DPushFront u _) | QPushBack u _ | QPushFront u _ => u = v
  | QDo (DExtendBack u w) | QDo (DExtendFront u w) => u = v /\ num (s u) + num (s w) <= INT_MAX
  | _ => False
  end.
End Spec.
