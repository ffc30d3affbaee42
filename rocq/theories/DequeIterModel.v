(** Iterators over Deques, sources/deque.hpp:62-84, 38-43 and 190-202. Definitions only.

    The elements and the references to them are those of DequeRefModel.v. Iterators follow other rules than references, see
    the clauses on [std::deque] modifiers:
    - an insertion at either end makes every iterator into the deque unusable, the end too, and keeps the references. An
      insertion of an empty range counts as an insertion here;
    - [pop_front] keeps the iterators at the other elements, and the end unless the popped element was the only one;
    - [pop_back] keeps the iterators at the other elements, but not the end;
    - assigning and clearing end all of them; moving hands the elements over, and both ends become unusable.
    An iterator at an element is its address with the number of insertions that the element has seen; an iterator at an end
    is the deque with the number of changes of its end. A reverse iterator is the iterator [base()]. *)
From Coq Require Import ZArith List Bool Ascii.
From Verif Require Import Outcome ListModel DequeModel ListRefModel DequeRefModel.
Import ListNotations.
Open Scope Z_scope.

Inductive diter := INone | IElem (a n : nat) | IEnd (v n : nat).

Record ystate (T : Type) := YState {
  yh : qstate T;            (* Deque and pointer variables *)
  yo : nat -> nat;          (* the Deque that an element belongs to *)
  yt : nat -> nat;          (* how many insertions an element has seen *)
  yg : nat -> nat;          (* how often the end of a Deque has changed *)
  yi : nat -> diter         (* the iterator variables *)
}.
Arguments YState {T}. Arguments yh {T}. Arguments yo {T}. Arguments yt {T}. Arguments yg {T}. Arguments yi {T}.

Inductive ystmt (T : Type) :=
| YDo (c : qstmt T)                   (* a statement of DequeRefModel.v *)
| YBegin (i v : nat)                  (* i = v.begin(); *)
| YEnd (i v : nat)                    (* i = v.end(); *)
| YCopy (i j : nat)                   (* i = j; *)
| YAdd (i : nat) (k : Z)              (* i += k; *)
| YRead (i : nat)                     (* emit( *i); *)
| YBack (i : nat)                     (* emit( *std::make_reverse_iterator(i)); *)
| YDiff (i j : nat)                   (* emit(i - j); *)
| YAddr (r i : nat)                   (* r = &*i; *)
| YRange (v i j : nat)                (* v = Deque(i, j); *)
| YRevRange (v i j : nat)             (* v = Deque(std::make_reverse_iterator(i), std::make_reverse_iterator(j)); *)
| YPushBack (v i : nat)               (* v.push_back( *i); *)
| YPushFront (v i : nat)              (* v.push_front( *i); *)
| YExtendBack (v i j : nat)           (* if (j - i <= INT_MAX - v.size()) v.extend_back(i, j); *)
| YExtendFront (v i j : nat).         (* if (j - i <= INT_MAX - v.size()) v.extend_front(i, j); *)
Arguments YDo {T}. Arguments YBegin {T}. Arguments YEnd {T}. Arguments YCopy {T}. Arguments YAdd {T}. Arguments YRead {T}. Arguments YBack {T}.
Arguments YDiff {T}. Arguments YAddr {T}. Arguments YRange {T}. Arguments YRevRange {T}. Arguments YPushBack {T}. Arguments YPushFront {T}.
Arguments YExtendBack {T}. Arguments YExtendFront {T}.

(** What happens to iterators: nothing; all those into [v] end; an element is popped in front or at the back of [v]; [w] is moved to [v]. *)
Inductive yop := ZNone | ZAll (v : nat) | ZFirst (v : nat) | ZLast (v : nat) | ZMove (v w : nat).

Section Iters.
Context {T : Type} (eqb : T -> T -> bool) (show : T -> list ascii).
Notation state := (ystate T).
Notation result := (outcome (state * list (devent T))).

(** The deque member that a statement ends up calling, when it does not throw; [s] before it. *)
Definition yop_do (c : dstmt T) (s : dstore T) : yop :=
  match c with
  | DInit v _ => ZAll v                                                 (* deque.hpp:33-36, implicit operator= *)
  | DCopy v w => if Nat.eqb v w then ZNone else ZAll v                  (* implicit operator= *)
  | DMove v w => ZMove v w                                              (* implicit operator= *)
  | DPushBack v _ | DPushFront v _ => ZAll v                            (* deque.hpp:157, 165 *)
  | DPopBack v => ZLast v                                               (* deque.hpp:175 *)
  | DPopFront v => ZFirst v                                             (* deque.hpp:186 *)
  | DExtendBack v w | DExtendFront v w =>                               (* deque.hpp:194, 201 *)
      if size (s w) <=? INT_MAX - size (s v) then ZAll v else ZNone
  | DClear v => ZAll v                                                  (* deque.hpp:251 *)
  | DSetBack _ _ | DSetFront _ _ | DSet _ _ _ | DShr _ _ | DShl _ _ | DReverse _ => ZNone (* deque.hpp:91-96, 105-110, 119-124, 235, 243 *)
  | DBack _ | DFront _ | DGet _ _ | DSize _ | DIsEmpty _ | DEqual _ _ | DPrint _ => ZNone
  end.
Definition yop_of (c : qstmt T) (s : dstore T) : yop :=
  match c with
  | QDo c => yop_do c s
  | QPushBack v _ | QPushFront v _ => ZAll v                            (* deque.hpp:157, 165 *)
  | QAddr _ _ _ | QFront _ _ | QBack _ _ | QSame _ _ | QRead _ | QWrite _ _ => ZNone
  end.

(** New elements belong to the deque they are inserted into; a move hands the elements over. *)
Definition yowners (o : yop) (h : qstate T) (own : nat -> nat) : nat -> nat := fun a =>
  match o with
  | ZAll v => if Nat.leb (qn h) a then v else own a
  | ZMove v w => if among (qa h w) a then v else own a
  | _ => own a
  end.
(** The insertions seen by the elements. *)
Definition ystamps (o : yop) (h : qstate T) (st : nat -> nat) : nat -> nat :=
  match o with ZAll v => fun a => if among (qa h v) a then S (st a) else st a | _ => st end.
(** The ends that change. *)
Definition yends (o : yop) (h : qstate T) (g : nat -> nat) : nat -> nat :=
  match o with
  | ZNone => g
  | ZAll v | ZLast v => vset g v (S (g v))
  | ZFirst v => if Nat.leb (length (qa h v)) 1 then vset g v (S (g v)) else g
  | ZMove v w => fun u => if Nat.eqb u v || Nat.eqb u w then S (g u) else g u
  end.
(** The new state of elements and pointers [h], with what happens to the iterators. *)
Definition y_next (o : yop) (h : qstate T) (s : state) : state :=
  YState h (yowners o (yh s) (yo s)) (ystamps o (yh s) (yt s)) (yends o (yh s) (yg s)) (yi s).

(** The statements without iterators. *)
Definition y_do (c : qstmt T) (s : state) : result :=
  match q_step eqb show c (yh s) with
  | Ok (h, ev) => Ok (y_next (if dthrew ev then ZNone else yop_of c (dview (yh s))) h s, ev)
  | Throw e => Throw e
  | UB u => UB u
  | OutOfFuel => OutOfFuel
  end.

(** Where an iterator is: the Deque and the position. *)
Definition y_at (s : state) (i : nat) : outcome (nat * nat) :=
  match yi s i with
  | INone => UB BadDeref
  | IEnd v n => if Nat.eqb n (yg s v) then Ok (v, length (qa (yh s) v)) else UB BadDeref
  | IElem a n =>
      if ql (yh s) a && Nat.eqb n (yt s a)
      then match find_address a (qa (yh s) (yo s a)) with Some p => Ok (yo s a, p) | None => UB BadDeref end
      else UB BadDeref
  end.
(** The iterator to position [p] of [v]. *)
Definition y_iter (s : state) (v p : nat) : diter :=
  match nth_error (qa (yh s) v) p with Some a => IElem a (yt s a) | None => IEnd v (yg s v) end.
Definition y_put (i v p : nat) (s : state) : state := YState (yh s) (yo s) (yt s) (yg s) (vset (yi s) i (y_iter s v p)).
(** The element at a position, and its address. *)
Definition y_addr (s : state) (v p : nat) : outcome nat :=
  match nth_error (qa (yh s) v) p with Some a => Ok a | None => UB BadDeref end.
Definition y_elem (s : state) (v p : nat) : outcome T := a <- y_addr s v p ;; Ok (qm (yh s) a).

(** The range of two iterators: the Deque and the elements. *)
Definition y_range (s : state) (i j : nat) : outcome (nat * list T) :=
  t <- y_at s i ;;
  u <- y_at s j ;;
  if Nat.eqb (fst t) (fst u) && Nat.leb (snd t) (snd u)
  then Ok (fst t, firstn (snd u - snd t) (skipn (snd t) (dview (yh s) (fst t))))
  else UB BadDeref.
(** [extend_back] deque.hpp:190-195, [extend_front] 197-202: the range must not be one of the deque itself. *)
Definition y_extend (front : bool) (v i j : nat) (s : state) : result :=
  t <- y_range s i j ;;
  let (u, xs) := t in
  if len xs <=? INT_MAX - size (dview (yh s) v)
  then if Nat.eqb u v then UB SelfRange
       else match (if front then deq_extend_front xs else deq_extend_back xs) (dview (yh s) v) with
            | (Ok _, l) => Ok (y_next (ZAll v) (keep v 0 (length (qa (yh s) v)) (if front then length xs else 0) l (yh s)) s, [])
            | (Throw e, _) => Throw e
            | (UB u, _) => UB u
            | (OutOfFuel, _) => OutOfFuel
            end
  else Ok (s, []).

(** [begin] deque.hpp:63-66, [end] 69-72, [rbegin] 75-78, [rend] 81-84, the constructor from a range 39-43, [push_back] 152-158,
    [push_front] 160-166; the rest is std::deque::const_iterator. Using an iterator that was never set or is no longer valid,
    leaving the range, dereferencing the end, and relating iterators of different deques are undefined. *)
Definition y_step (c : ystmt T) (s : state) : result :=
  match c with
  | YDo c => y_do c s
  | YBegin i v => Ok (y_put i v 0 s, [])
  | YEnd i v => Ok (y_put i v (length (qa (yh s) v)) s, [])
  | YCopy i j => t <- y_at s j ;; Ok (y_put i (fst t) (snd t) s, [])
  | YAdd i k =>
      t <- y_at s i ;;
      let q := Z.of_nat (snd t) + k in
      if (0 <=? q) && (q <=? len (qa (yh s) (fst t))) then Ok (y_put i (fst t) (Z.to_nat q) s, []) else UB OutOfBounds
  | YRead i => t <- y_at s i ;; x <- y_elem s (fst t) (snd t) ;; Ok (s, [DElem x])
  | YBack i =>
      t <- y_at s i ;;
      match snd t with
      | O => UB OutOfBounds
      | S p => x <- y_elem s (fst t) p ;; Ok (s, [DElem x])
      end
  | YDiff i j =>
      t <- y_at s i ;;
      u <- y_at s j ;;
      if Nat.eqb (fst t) (fst u) then Ok (s, [DNum (Z.of_nat (snd t) - Z.of_nat (snd u))]) else UB BadDeref
  | YAddr r i =>
      t <- y_at s i ;;
      a <- y_addr s (fst t) (snd t) ;;
      Ok (YState (q_bind r (Some a) (yh s)) (yo s) (yt s) (yg s) (yi s), [])
  | YRange v i j => t <- y_range s i j ;; y_do (QDo (DInit v (snd t))) s
  | YRevRange v i j => t <- y_range s j i ;; y_do (QDo (DInit v (rev (snd t)))) s
  | YPushBack v i => t <- y_at s i ;; x <- y_elem s (fst t) (snd t) ;; y_do (QDo (DPushBack v x)) s
  | YPushFront v i => t <- y_at s i ;; x <- y_elem s (fst t) (snd t) ;; y_do (QDo (DPushFront v x)) s
  | YExtendBack v i j => y_extend false v i j s
  | YExtendFront v i j => y_extend true v i j s
  end.

(** A program: the first undefined statement ends it. *)
Fixpoint y_run (prog : list (ystmt T)) (s : state) : result :=
  match prog with
  | [] => Ok (s, [])
  | c :: rest => se <- y_step c s ;; se' <- y_run rest (fst se) ;; Ok (fst se', snd se ++ snd se')
  end.

(** for (; i != e; i += k) { body }; [k] is 1, or -1 when [i] and [e] are the bases of reverse iterators. *)
Fixpoint y_loop (k : Z) (fuel : nat) (i e : nat) (body : list (ystmt T)) (s : state) : result :=
  match fuel with
  | O => OutOfFuel
  | S f =>
      t <- y_at s i ;;
      u <- y_at s e ;;
      if Nat.eqb (fst t) (fst u)
      then if Nat.eqb (snd t) (snd u) then Ok (s, [])
           else se <- y_run (body ++ [YAdd i k]) s ;; se' <- y_loop k f i e body (fst se) ;; Ok (fst se', snd se ++ snd se')
      else UB BadDeref
  end.
(** for (const auto& x : v) { body }, where [x] is [*i] and [e] is the end taken before the loop. *)
Definition deque_for (fuel : nat) (i e v : nat) (body : list (ystmt T)) (s : state) : result :=
  se <- y_run [YBegin i v; YEnd e v] s ;; y_loop 1 fuel i e body (fst se).
(** for (r = v.rbegin(); r != end; ++r) { body }, where [i] is [r.base()] and [e] the base of [end], the rend() taken before the loop. *)
Definition deque_back (fuel : nat) (i e v : nat) (body : list (ystmt T)) (s : state) : result :=
  se <- y_run [YEnd i v; YBegin e v] s ;; y_loop (-1) fuel i e body (fst se).
End Iters.
