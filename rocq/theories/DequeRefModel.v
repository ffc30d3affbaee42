(** References to the elements of a Deque, sources/deque.hpp. Definitions only.

    The elements live in a [std::deque]. An object has an address, which is never used again. What the members of
    [std::deque] do to the objects:
    - [push_back], [push_front] and [insert] at either end keep all of them;
    - [pop_back] and [pop_front] end one;
    - [std::rotate] and [std::reverse] keep all objects and change their values;
    - assignment of a deque and [clear] end the objects of the left side; moving hands over the objects.
    Clients keep the addresses they get from [operator[]], [front] and [back] in pointer variables. *)
From Coq Require Import ZArith List Bool Ascii.
From Verif Require Import Outcome ListModel DequeModel ListRefModel.
Import ListNotations.
Open Scope Z_scope.

Record qstate (T : Type) := QState {
  qa : nat -> list nat;     (* the addresses of the elements of each Deque variable *)
  qm : nat -> T;            (* what is stored at an address *)
  ql : nat -> bool;         (* whether an object lives there *)
  qn : nat;                 (* the next address to be used *)
  qr : nat -> option nat    (* the pointer variables *)
}.
Arguments QState {T}. Arguments qa {T}. Arguments qm {T}. Arguments ql {T}. Arguments qn {T}. Arguments qr {T}.

Inductive qstmt (T : Type) :=
| QDo (c : dstmt T)                       (* a statement of DequeModel.v *)
| QAddr (r v : nat) (i : Z)               (* r = &v[i]; *)
| QFront (r v : nat)                      (* r = &v.front(); *)
| QBack (r v : nat)                       (* r = &v.back(); *)
| QSame (r q : nat)                       (* r = q; *)
| QRead (r : nat)                         (* emit( *r); *)
| QWrite (r : nat) (x : T)                (* *r = x; *)
| QPushBack (v r : nat)                   (* v.push_back( *r); *)
| QPushFront (v r : nat).                 (* v.push_front( *r); *)
Arguments QDo {T}. Arguments QAddr {T}. Arguments QFront {T}. Arguments QBack {T}. Arguments QSame {T}. Arguments QRead {T}.
Arguments QWrite {T}. Arguments QPushBack {T}. Arguments QPushFront {T}.

(** What a statement does to the deque of a variable. *)
Inductive dop :=
| KNone                             (* nothing *)
| KKeep (v lo n front : nat)        (* [n] objects from position [lo] on stay; [front] new ones are made in front of them *)
| KMove (v w : nat).                (* the deque of [w] is moved to it *)

Section Refs.
Context {T : Type} (eqb : T -> T -> bool) (show : T -> list ascii).
Notation state := (qstate T).
Notation result := (outcome (state * list (devent T))).

(** The contents of the variables, read through the addresses. *)
Definition dview (h : state) : dstore T := fun v => map (qm h) (qa h v).

(** Variable [v] now holds [xs]. *)
Definition keep (v lo n front : nat) (xs : list T) (h : state) : state :=
  let back := (length xs - front - n)%nat in
  let l := seq (qn h) front ++ firstn n (skipn lo (qa h v)) ++ seq (qn h + front) back in
  QState (vset (qa h) v l) (store_all l xs (qm h))
    (fun a => among (seq (qn h) (front + back)) a || ql h a && negb (among (firstn lo (qa h v) ++ skipn (lo + n) (qa h v)) a))
    (qn h + (front + back)) (qr h).

Definition dapply (o : dop) (s : dstore T) (h : state) : state :=
  match o with
  | KNone => h
  | KKeep v lo n front => keep v lo n front (s v) h
  | KMove v w =>
      QState (vset (vset (qa h) v (qa h w)) w []) (qm h) (fun a => ql h a && negb (among (qa h v) a)) (qn h) (qr h)
  end.

(** The deque member that a statement ends up calling, when it does not throw; [s] before it. *)
Definition dop_of (c : dstmt T) (s : dstore T) : dop :=
  match c with
  | DInit v _ => KKeep v 0 0 0                                          (* deque.hpp:33-36, implicit operator= *)
  | DCopy v w => if Nat.eqb v w then KNone else KKeep v 0 0 0           (* implicit operator= *)
  | DMove v w => KMove v w                                              (* implicit operator= *)
  | DSetBack v _ | DSetFront v _ | DSet v _ _ => KKeep v 0 (length (s v)) 0  (* deque.hpp:91-96, 105-110, 119-124 *)
  | DPushBack v _ => KKeep v 0 (length (s v)) 0                         (* deque.hpp:157 *)
  | DPushFront v _ => KKeep v 0 (length (s v)) 1                        (* deque.hpp:165 *)
  | DPopBack v => KKeep v 0 (length (s v) - 1) 0                        (* deque.hpp:175 *)
  | DPopFront v => KKeep v 1 (length (s v) - 1) 0                       (* deque.hpp:186 *)
  | DExtendBack v w =>                                                  (* deque.hpp:194 *)
      if size (s w) <=? INT_MAX - size (s v) then KKeep v 0 (length (s v)) 0 else KNone
  | DExtendFront v w =>                                                 (* deque.hpp:201 *)
      if size (s w) <=? INT_MAX - size (s v) then KKeep v 0 (length (s v)) (length (s w)) else KNone
  | DShr v _ | DShl v _ => KKeep v 0 (length (s v)) 0                   (* deque.hpp:235 *)
  | DReverse v => KKeep v 0 (length (s v)) 0                            (* deque.hpp:243 *)
  | DClear v => KKeep v 0 0 0                                           (* deque.hpp:251 *)
  | DBack _ | DFront _ | DGet _ _ | DSize _ | DIsEmpty _ | DEqual _ _ | DPrint _ => KNone
  end.

Definition dthrew (ev : list (devent T)) : bool := match ev with [DThrow _] => true | _ => false end.

(** A statement of DequeModel.v. *)
Definition q_do (c : dstmt T) (h : state) : result :=
  match dstep eqb show c (dview h) with
  | Ok (s', ev) => Ok (if dthrew ev then h else dapply (dop_of c (dview h)) s' h, ev)
  | Throw e => Throw e
  | UB u => UB u
  | OutOfFuel => OutOfFuel
  end.

(** [*r] *)
Definition q_at (h : state) (r : nat) : outcome nat :=
  match qr h r with
  | Some a => if ql h a then Ok a else UB BadDeref
  | None => UB BadDeref
  end.
Definition q_store (a : nat) (x : T) (h : state) : state := QState (qa h) (vset (qm h) a x) (ql h) (qn h) (qr h).
Definition q_bind (r : nat) (a : option nat) (h : state) : state := QState (qa h) (qm h) (ql h) (qn h) (vset (qr h) r a).

(** Taking the address of what a member returns. *)
Definition q_take (r : nat) (o : outcome nat) (h : state) : result :=
  match o with
  | Ok a => Ok (q_bind r (Some a) h, [])
  | Throw e => Ok (h, [DThrow e])
  | UB u => UB u
  | OutOfFuel => OutOfFuel
  end.

(** [v[i]] deque.hpp:119-124, [front] 105-110, [back] 91-96; [push_back] and [push_front] accept an element of the deque itself. *)
Definition q_step (c : qstmt T) (h : state) : result :=
  match c with
  | QDo c => q_do c h
  | QAddr r v i => q_take r (deq_at (qa h v) i) h
  | QFront r v => q_take r (deq_front (qa h v)) h
  | QBack r v => q_take r (deq_back (qa h v)) h
  | QSame r q => Ok (q_bind r (qr h q) h, [])
  | QRead r => a <- q_at h r ;; Ok (h, [DElem (qm h a)])
  | QWrite r x => a <- q_at h r ;; Ok (q_store a x h, [])
  | QPushBack v r => a <- q_at h r ;; q_do (DPushBack v (qm h a)) h
  | QPushFront v r => a <- q_at h r ;; q_do (DPushFront v (qm h a)) h
  end.

(** A program: the first undefined statement ends it. *)
Fixpoint q_run (prog : list (qstmt T)) (h : state) : result :=
  match prog with
  | [] => Ok (h, [])
  | c :: rest => he <- q_step c h ;; he' <- q_run rest (fst he) ;; Ok (fst he', snd he ++ snd he')
  end.
End Refs.
