(** Model of sources/deque.hpp. A deque is the sequence of elements of its [std::deque];
    [size], [vat], [vput], [std_rotate] and [print_range] are those of ListModel. *)
From Coq Require Import ZArith List Bool Ascii.
From Verif Require Import Outcome ListModel.
Import ListNotations.
Open Scope Z_scope.

(** deque.hpp:91-96 *)
Definition deq_back {T} (q : list T) : outcome T :=
  check_empty (size q) ;;; match rev q with x :: _ => Ok x | [] => UB BadDeref end.
(** deque.hpp:105-110 *)
Definition deq_front {T} (q : list T) : outcome T :=
  check_empty (size q) ;;; match q with x :: _ => Ok x | [] => UB BadDeref end.
(** Assignment through [back()] *)
Definition deq_set_back {T} (x : T) : M (list T) unit := update (fun q =>
  check_empty (size q) ;;; match q with _ :: _ => Ok (removelast q ++ [x]) | [] => UB BadDeref end).
(** Assignment through [front()] *)
Definition deq_set_front {T} (x : T) : M (list T) unit := update (fun q =>
  check_empty (size q) ;;; match q with _ :: q' => Ok (x :: q') | [] => UB BadDeref end).
(** deque.hpp:119-124 *)
Definition deq_at {T} (q : list T) (i : Z) : outcome T :=
  lo <- chk32 (- size q) ;; check_bounds i lo (size q) ;;;
  (if 0 <=? i then vat q i else k <- chk32 (i + size q) ;; vat q k).
(** Assignment through [q[i]] *)
Definition deq_set {T} (i : Z) (x : T) : M (list T) unit := update (fun q =>
  lo <- chk32 (- size q) ;; check_bounds i lo (size q) ;;;
  (if 0 <=? i then vput q i x else k <- chk32 (i + size q) ;; vput q k x)).
(** deque.hpp:143-146 *)
Definition deq_is_empty {T} (q : list T) : bool := match q with [] => true | _ => false end.
(** deque.hpp:153-158 *)
Definition deq_push_back {T} (x : T) : M (list T) unit := update (fun q =>
  check_full (size q) INT_MAX ;;; Ok (q ++ [x])).
(** deque.hpp:161-166 *)
Definition deq_push_front {T} (x : T) : M (list T) unit := update (fun q =>
  check_full (size q) INT_MAX ;;; Ok (x :: q)).
(** deque.hpp:170-177 *)
Definition deq_pop_back {T} : M (list T) T := fun q =>
  match check_empty (size q) with
  | Ok _ => match rev q with x :: _ => (Ok x, removelast q) | [] => (UB BadDeref, q) end
  | Throw e => (Throw e, q)
  | UB u => (UB u, q)
  | OutOfFuel => (OutOfFuel, q)
  end.
(** deque.hpp:181-188 *)
Definition deq_pop_front {T} : M (list T) T := fun q =>
  match check_empty (size q) with
  | Ok _ => match q with x :: q' => (Ok x, q') | [] => (UB BadDeref, q) end
  | Throw e => (Throw e, q)
  | UB u => (UB u, q)
  | OutOfFuel => (OutOfFuel, q)
  end.
(** deque.hpp:192-195. The range [w] is not part of the deque. *)
Definition deq_extend_back {T} (w : list T) : M (list T) unit := update (fun q => Ok (q ++ w)).
(** deque.hpp:199-202 *)
Definition deq_extend_front {T} (w : list T) : M (list T) unit := update (fun q => Ok (w ++ q)).
(** deque.hpp:221-238 *)
Definition deq_shl {T} (n : Z) : M (list T) unit := update (fun q =>
  if (size q <=? 1) || (n =? 0) then Ok q
  else
    let n := Z.rem n (size q) in
    n <- (if n <? 0 then chk32 (n + size q) else Ok n) ;; std_rotate q n).
(** deque.hpp:205-218 *)
Definition deq_shr {T} (n : Z) : M (list T) unit := fun q =>
  if (size q <=? 1) || (n =? 0) then (Ok tt, q)
  else match (if n <? 0 then chk32 (- n) else chk32 (size q - n)) with
       | Ok m => deq_shl m q
       | Throw e => (Throw e, q)
       | UB u => (UB u, q)
       | OutOfFuel => (OutOfFuel, q)
       end.
(** deque.hpp:241-246 *)
Definition deq_reverse {T} : M (list T) unit := update (fun q => Ok (rev q)).
(** deque.hpp:249-252 *)
Definition deq_clear {T} : M (list T) unit := update (fun _ => Ok []).
(** deque.hpp:56: defaulted [<=>] and [==] of std::deque *)
Definition deq_cmp {T} (cmp : T -> T -> comparison) (p q : list T) : comparison := list_cmp cmp p q.
Definition deq_eqb {T} (eqb : T -> T -> bool) (p q : list T) : bool := list_eqb eqb p q.
(** deque.hpp:259-262 *)
Definition deq_print {T} (show : T -> list ascii) (q : list T) : list ascii := print_range show q "<"%char ">"%char.

(** ** Client programs, each statement in its own [try]/[catch] *)
Inductive dstmt (T : Type) :=
| DInit (v : nat) (xs : list T)      (* v = {x, ...}; *)
| DCopy (v w : nat)                  (* v = w; *)
| DMove (v w : nat)                  (* v = std::move(w); *)
| DBack (v : nat)                    (* emit(v.back()); *)
| DFront (v : nat)                   (* emit(v.front()); *)
| DGet (v : nat) (i : Z)             (* emit(v[i]); *)
| DSetBack (v : nat) (x : T)         (* v.back() = x; *)
| DSetFront (v : nat) (x : T)        (* v.front() = x; *)
| DSet (v : nat) (i : Z) (x : T)     (* v[i] = x; *)
| DPushBack (v : nat) (x : T)        (* v.push_back(x); *)
| DPushFront (v : nat) (x : T)       (* v.push_front(x); *)
| DPopBack (v : nat)                 (* emit(v.pop_back()); *)
| DPopFront (v : nat)                (* emit(v.pop_front()); *)
| DExtendBack (v w : nat)            (* if (w.size() <= INT_MAX - v.size()) v.extend_back(w.begin(), w.end()); *)
| DExtendFront (v w : nat)           (* if (w.size() <= INT_MAX - v.size()) v.extend_front(w.begin(), w.end()); *)
| DShr (v : nat) (n : Z)             (* v >>= n; *)
| DShl (v : nat) (n : Z)             (* v <<= n; *)
| DReverse (v : nat)                 (* v.reverse(); *)
| DClear (v : nat)                   (* v.clear(); *)
| DSize (v : nat)                    (* emit(v.size()); *)
| DIsEmpty (v : nat)                 (* emit(v.is_empty()); *)
| DEqual (v w : nat)                 (* emit(v == w); *)
| DPrint (v : nat).                  (* std::cout << v; *)
Arguments DInit {T}. Arguments DCopy {T}. Arguments DMove {T}. Arguments DBack {T}. Arguments DFront {T}. Arguments DGet {T}.
Arguments DSetBack {T}. Arguments DSetFront {T}. Arguments DSet {T}. Arguments DPushBack {T}. Arguments DPushFront {T}.
Arguments DPopBack {T}. Arguments DPopFront {T}. Arguments DExtendBack {T}. Arguments DExtendFront {T}. Arguments DShr {T}.
Arguments DShl {T}. Arguments DReverse {T}. Arguments DClear {T}. Arguments DSize {T}. Arguments DIsEmpty {T}. Arguments DEqual {T}.
Arguments DPrint {T}.

(** What a client observes. *)
Inductive devent (T : Type) :=
| DThrow (e : exn) | DElem (x : T) | DBool (b : bool) | DNum (z : Z) | DText (s : list ascii).
Arguments DThrow {T}. Arguments DElem {T}. Arguments DBool {T}. Arguments DNum {T}. Arguments DText {T}.

Definition dstore T := nat -> list T.
Definition dset {T} (s : dstore T) (v : nat) (x : list T) : dstore T := fun w => if Nat.eqb w v then x else s w.

Section Run.
Context {T : Type} (eqb : T -> T -> bool) (show : T -> list ascii).

Definition dcall {A} (s : dstore T) (v : nat) (m : M (list T) A) (out : A -> list (devent T)) : outcome (dstore T * list (devent T)) :=
  match m (s v) with
  | (Ok a, v') => Ok (dset s v v', out a)
  | (Throw e, v') => Ok (dset s v v', [DThrow e])
  | (UB u, _) => UB u
  | (OutOfFuel, _) => OutOfFuel
  end.
Definition dsilent (_ : unit) : list (devent T) := [].
Definition demit {A} (s : dstore T) (o : outcome A) (ev : A -> devent T) : outcome (dstore T * list (devent T)) :=
  match o with
  | Ok r => Ok (s, [ev r])
  | Throw e => Ok (s, [DThrow e])
  | UB u => UB u
  | OutOfFuel => OutOfFuel
  end.

Definition dstep (c : dstmt T) (s : dstore T) : outcome (dstore T * list (devent T)) :=
  match c with
  | DInit v xs => Ok (dset s v xs, [])
  | DCopy v w => Ok (dset s v (s w), [])
  | DMove v w => if Nat.eqb v w then UB SelfRange else Ok (dset (dset s v (s w)) w [], [])
  | DBack v => demit s (deq_back (s v)) DElem
  | DFront v => demit s (deq_front (s v)) DElem
  | DGet v i => demit s (deq_at (s v) i) DElem
  | DSetBack v x => dcall s v (deq_set_back x) dsilent
  | DSetFront v x => dcall s v (deq_set_front x) dsilent
  | DSet v i x => dcall s v (deq_set i x) dsilent
  | DPushBack v x => dcall s v (deq_push_back x) dsilent
  | DPushFront v x => dcall s v (deq_push_front x) dsilent
  | DPopBack v => dcall s v deq_pop_back (fun x => [DElem x])
  | DPopFront v => dcall s v deq_pop_front (fun x => [DElem x])
  | DExtendBack v w =>
      if size (s w) <=? INT_MAX - size (s v) then
        (if Nat.eqb v w then UB SelfRange else dcall s v (deq_extend_back (s w)) dsilent)
      else Ok (s, [])
  | DExtendFront v w =>
      if size (s w) <=? INT_MAX - size (s v) then
        (if Nat.eqb v w then UB SelfRange else dcall s v (deq_extend_front (s w)) dsilent)
      else Ok (s, [])
  | DShr v n => dcall s v (deq_shr n) dsilent
  | DShl v n => dcall s v (deq_shl n) dsilent
  | DReverse v => dcall s v deq_reverse dsilent
  | DClear v => dcall s v deq_clear dsilent
  | DSize v => demit s (Ok (size (s v))) DNum
  | DIsEmpty v => demit s (Ok (deq_is_empty (s v))) DBool
  | DEqual v w => demit s (Ok (deq_eqb eqb (s v) (s w))) DBool
  | DPrint v => demit s (Ok (deq_print show (s v))) DText
  end.

Fixpoint drun (prog : list (dstmt T)) (s : dstore T) : outcome (dstore T * list (devent T)) :=
  match prog with
  | [] => Ok (s, [])
  | c :: rest => se <- dstep c s ;; se' <- drun rest (fst se) ;; Ok (fst se', snd se ++ snd se')
  end.
End Run.
